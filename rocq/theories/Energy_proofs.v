(** Lemmas about the energy. *)
From Coq Require Import Reals Lra Lia.
From Verif Require Export Energy_spec Graph_proofs Zero_proofs Target_proofs.
Local Open Scope N_scope.

(** *** Sums *)

Fixpoint rsum {A} (f : A -> R) (l : list A) : R :=
  match l with [] => 0%R | x :: l => (f x + rsum f l)%R end.

Lemma rsum_app {A} (f : A -> R) l l' : rsum f (l ++ l') = (rsum f l + rsum f l')%R.
Proof. induction l as [|x l IH]; cbn [app rsum]; [ring|rewrite IH; ring]. Qed.
Lemma rsum_perm {A} (f : A -> R) l l' : Permutation l l' -> rsum f l = rsum f l'.
Proof. induction 1; cbn [rsum]; lra. Qed.
Lemma rsum_ext {A} (f f' : A -> R) l : (forall x, In x l -> f x = f' x) -> rsum f l = rsum f' l.
Proof.
  induction l as [|x l IH]; intros H; cbn [rsum]; [reflexivity|].
  rewrite (H x (or_introl eq_refl)), IH; [reflexivity|]. intros y Hy. apply H. right. exact Hy.
Qed.
Lemma rsum_plus {A} (f f' : A -> R) l : rsum (fun x => f x + f' x)%R l = (rsum f l + rsum f' l)%R.
Proof. induction l as [|x l IH]; cbn [rsum]; [ring|rewrite IH; ring]. Qed.
Lemma rsum_le {A} (f f' : A -> R) l : (forall x, In x l -> (f x <= f' x)%R) -> (rsum f l <= rsum f' l)%R.
Proof.
  induction l as [|x l IH]; intros H; cbn [rsum]; [lra|].
  pose proof (H x (or_introl eq_refl)). specialize (IH (fun y Hy => H y (or_intror Hy))). lra.
Qed.
Lemma rsum_zero {A} (f : A -> R) l : (forall x, In x l -> f x = 0%R) -> rsum f l = 0%R.
Proof.
  induction l as [|x l IH]; intros H; cbn [rsum]; [reflexivity|].
  rewrite (H x (or_introl eq_refl)), IH; [ring|]. intros y Hy. apply H. right. exact Hy.
Qed.
Lemma rsum_filter {A} (f : A -> R) (b : A -> bool) l :
  rsum f l = (rsum f (filter b l) + rsum f (filter (fun x => negb (b x)) l))%R.
Proof. induction l as [|x l IH]; cbn [filter rsum]; [ring|]. destruct (b x); cbn [negb rsum]; rewrite IH; ring. Qed.

(** A sum over the image of an injective function. *)
Lemma rsum_inject {A B} (f : A -> R) (h : B -> A) es : forall ps, NoDup ps -> NoDup es ->
  (forall e, In e es -> In (h e) ps) -> (forall e e', In e es -> In e' es -> h e = h e' -> e = e') ->
  (forall p, In p ps -> (forall e, In e es -> h e <> p) -> f p = 0%R) ->
  rsum f ps = rsum (fun e => f (h e)) es.
Proof.
  induction es as [|e es IH]; intros ps Np Ne Hin Inj Z.
  - cbn [rsum]. apply rsum_zero. intros x Hx. apply Z; [exact Hx|]. intros e [].
  - destruct (in_split _ _ (Hin e (or_introl eq_refl))) as [l1 [l2 ->]].
    rewrite (rsum_perm f _ (h e :: l1 ++ l2)) by (apply Permutation_sym, Permutation_middle). cbn [rsum]. f_equal.
    inversion Ne as [|e0 es0 Ni Ne']; subst.
    apply NoDup_remove in Np. destruct Np as [Np Nh]. apply IH; try assumption.
    + intros e' He'. assert (X : In (h e') (l1 ++ h e :: l2)) by (apply Hin; right; exact He').
      apply in_app_or in X. apply in_or_app. destruct X as [X|[X|X]]; auto.
      exfalso. apply Ni. rewrite (Inj e e' (or_introl eq_refl) (or_intror He') X). exact He'.
    + intros a b Ha Hb. apply Inj; right; assumption.
    + intros p Hp Hn. apply Z.
      * apply in_app_or in Hp. apply in_or_app. destruct Hp as [Hp|Hp]; [left|right; right]; exact Hp.
      * intros e' [<-|He']; [|apply Hn; exact He']. intros <-. apply Nh. exact Hp.
Qed.

Lemma sums_rsum {A} (f : A -> outcome R) (v : A -> R) l : (forall x, In x l -> f x = Ok (v x)) ->
  forall s, sums f l s <-> s = rsum v l.
Proof.
  induction l as [|x l IH]; intros H s.
  - split; intros X; [inversion X; reflexivity|subst; constructor].
  - assert (IH' := IH (fun y Hy => H y (or_intror Hy))). pose proof (H x (or_introl eq_refl)) as Hx. split; intros X.
    + inversion X as [|y l' w s' Ew Es]; subst. rewrite Hx in Ew. injection Ew as <-. apply IH' in Es. subst. reflexivity.
    + subst s. cbn [rsum]. constructor; [exact Hx|]. apply IH'. reflexivity.
Qed.

(** *** Enumerations *)

Definition value (o : outcome R) : R := match o with Ok v => v | Stop _ => 0%R end.

Lemma pixels_exist {T : target} (g : dgraph T) : exists ps, all_of_image g ps.
Proof. exists (all_pixels (width (right g)) (height (right g))). split; [apply NoDup_all_pixels|apply In_all_pixels]. Qed.

Lemma NoDup_filter {A} (b : A -> bool) l : NoDup l -> NoDup (filter b l).
Proof.
  induction 1 as [|x l Hx Hl IH]; cbn [filter]; [constructor|].
  destruct (b x); [|exact IH]. constructor; [|exact IH]. intros X. apply filter_In in X. apply Hx, X.
Qed.

Definition right_of (p : pixel) : pixel := {| px := px p + 1; py := py p |}.
Definition below (p : pixel) : pixel := {| px := px p; py := py p + 1 |}.

Lemma right_pair p q : horizontal_pair p q <-> q = right_of p.
Proof. destruct p as [x y], q as [x1 y1]. unfold horizontal_pair, right_of. cbn [px py]. split; [intros [-> ->]; reflexivity|intros X; injection X as -> ->; auto]. Qed.
Lemma below_pair p q : vertical_pair p q <-> q = below p.
Proof. destruct p as [x y], q as [x1 y1]. unfold vertical_pair, below. cbn [px py]. split; [intros [-> ->]; reflexivity|intros X; injection X as -> ->; auto]. Qed.

Lemma pairs_exist {T : target} (g : dgraph T) : exists es, all_pairs g es.
Proof.
  set (W := width (right g)). set (H := height (right g)).
  exists (map (fun p => (p, right_of p)) (filter (fun p => px p + 1 <? W) (all_pixels W H))
       ++ map (fun p => (p, below p)) (filter (fun p => py p + 1 <? H) (all_pixels W H))).
  split.
  - apply NoDup_app_intro.
    + apply NoDup_map_inj; [intros a b _ _ X; injection X as X _; exact X|]. apply NoDup_filter, NoDup_all_pixels.
    + apply NoDup_map_inj; [intros a b _ _ X; injection X as X _; exact X|]. apply NoDup_filter, NoDup_all_pixels.
    + intros [p q] X Y. apply in_map_iff in X. apply in_map_iff in Y. destruct X as [a [Ea _]], Y as [b [Eb _]].
      injection Ea as <- <-. injection Eb as -> Eb. destruct a as [ax ay]. unfold right_of, below in Eb. cbn [px py] in Eb. lia.
  - intros p q. rewrite in_app_iff, !in_map_iff. unfold in_image. fold W H. rewrite right_pair, below_pair. split.
    + intros [[a [Ea Ia]]|[a [Ea Ia]]]; injection Ea as -> <-; apply filter_In in Ia; destruct Ia as [Ia Lt];
      apply In_all_pixels in Ia; apply N.ltb_lt in Lt; cbn [right_of below px py]; split; [lia|split; [lia|auto]|lia|split; [lia|auto]].
    + intros [[P1 P2] [[Q1 Q2] [->| ->]]]; [left|right]; exists p; (split; [reflexivity|]); apply filter_In;
      (split; [apply In_all_pixels; split; assumption|]); apply N.ltb_lt; cbn [right_of below px py] in *; assumption.
Qed.

(** *** The energy without potentials *)

Section Energy.
Context (g : dgraph exact).
Hypothesis Hw : wf_graph g.
Notation potential n k := (value (get (reparam g) (potential_at g n k))).

(** The penalties of the images and the disparities. *)
Definition bare_node (n : node) : R :=
  match get (data (right g)) (py (npix n) * width (right g) + px (npix n)),
        get (data (left g)) (py (npix n) * width (right g) + (px (npix n) + disp n)) with
  | Ok vr, Ok vl => @fmul exact (cleanness g) (@fsqr exact (@fsub exact (of_u vr) (of_u vl)))
  | _, _ => 0%R
  end.
Definition bare_edge (d d' : N) : R :=
  @fmul exact (smoothness g) (@fsqr exact (@fsub exact (of_u d) (of_u d'))).

Lemma node_value n : match_exists g n -> node_penalty g n =
  Ok (bare_node n + (potential n 0 + potential n 1 + potential n 2 + potential n 3))%R.
Proof.
  intros Hn. destruct (node_penalty_formula g n Hw Hn) as (vr & vl & r0 & r1 & r2 & r3 & E1 & E2 & R0 & R1 & R2 & R3 & E).
  rewrite E. unfold bare_node. rewrite E1, E2, R0, R1, R2, R3. cbn [value]. f_equal. cbn [fadd exact]. match goal with |- @eq _ ?a ?b => change (@eq R a b) end. ring.
Qed.
Lemma edge_value n m k : in_image g (npix n) -> disp n < levels g -> in_image g (npix m) -> disp m < levels g ->
  slot_of k (npix n) (npix m) -> edge_penalty g {| enode := n; enbr := m |} =
  Ok (bare_edge (disp n) (disp m) - (potential n k + potential m (facing k)))%R.
Proof.
  intros Hn Hnd Hm Hmd S. destruct (edge_penalty_formula g n m k Hw Hn Hnd Hm Hmd S) as (r1 & r2 & E1 & E2 & E).
  rewrite E. unfold bare_edge. rewrite E1, E2. cbn [value]. f_equal. cbn [fsub exact]. match goal with |- @eq _ ?a ?b => change (@eq R a b) end. ring.
Qed.

Variable k : labeling.
Hypothesis Hk : all_matched g k.
Hypothesis Ho : no_outer_potentials g.
Variables (ps : list pixel) (es : list (pixel * pixel)).
Hypotheses (Hps : all_of_image g ps) (Hes : all_pairs g es).

Notation pot p j := (potential (label_node k p) j).
Definition hor (e : pixel * pixel) : bool := px (snd e) =? px (fst e) + 1.
Notation hs := (filter hor es).
Notation vs := (filter (fun e => negb (hor e)) es).

Lemma in_hs p q : In (p, q) hs <-> in_image g p /\ in_image g q /\ horizontal_pair p q.
Proof.
  rewrite filter_In, (proj2 Hes). unfold hor. cbn [fst snd]. rewrite N.eqb_eq. split.
  - intros [[A [B [C|C]]] D]; [auto|]. destruct C as [_ C]. lia.
  - intros [A [B C]]. split; [auto|]. apply C.
Qed.
Lemma in_vs p q : In (p, q) vs <-> in_image g p /\ in_image g q /\ vertical_pair p q.
Proof.
  rewrite filter_In, (proj2 Hes). unfold hor. cbn [fst snd]. rewrite negb_true_iff, N.eqb_neq. split.
  - intros [[A [B [C|C]]] D]; [|auto]. destruct C as [C _]. lia.
  - intros [A [B C]]. split; [auto|]. destruct C as [_ C]. lia.
Qed.

Lemma outer_zero p j : in_image g p -> j < 4 -> (forall q, in_image g q -> ~ slot_of j p q) -> pot p j = 0%R.
Proof.
  intros Hp Hj Hq. destruct (Hk p Hp) as [_ [Hd _]].
  destruct (get (reparam g) (potential_at g (label_node k p) j)) as [v|] eqn:E; [|reflexivity].
  cbn [value]. apply (Ho (label_node k p) j v); assumption.
Qed.

Lemma slot_sum (j : N) (h : pixel * pixel -> pixel) (l : list (pixel * pixel)) : j < 4 -> NoDup l ->
  (forall e, In e l -> in_image g (h e)) -> (forall e e', In e l -> In e' l -> h e = h e' -> e = e') ->
  (forall p q, in_image g p -> in_image g q -> slot_of j p q -> exists e, In e l /\ h e = p) ->
  rsum (fun p => pot p j) ps = rsum (fun e => pot (h e) j) l.
Proof.
  intros Hj Nl Hin Inj Ex. apply (rsum_inject (fun p => pot p j) h); [apply Hps|exact Nl| |exact Inj|].
  - intros e He. apply Hps. apply Hin. exact He.
  - intros p Hp Hn. apply Hps in Hp. apply outer_zero; [exact Hp|exact Hj|]. intros q Hq S.
    destruct (Ex p q Hp Hq S) as [e [He E]]. exact (Hn e He E).
Qed.

Lemma slot_cases j p q : slot_of j p q ->
  match j with 0 => horizontal_pair p q | 1 => horizontal_pair q p | 2 => vertical_pair p q | _ => vertical_pair q p end.
Proof. intros [[-> H]|[[-> H]|[[-> H]|[-> H]]]]; exact H. Qed.

Lemma slots : rsum (fun p => pot p 0 + pot p 1 + pot p 2 + pot p 3)%R ps =
  (rsum (fun e => pot (fst e) 0 + pot (snd e) 1) hs + rsum (fun e => pot (fst e) 2 + pot (snd e) 3) vs)%R.
Proof.
  rewrite !rsum_plus.
  pose proof (NoDup_filter hor es (proj1 Hes)) as Nh. pose proof (NoDup_filter (fun e => negb (hor e)) es (proj1 Hes)) as Nv.
  assert (H4 : forall a b c d a' b' c' d' : R, a = a' -> b = b' -> c = c' -> d = d' -> (a + b + c + d = a' + b' + (c' + d'))%R) by (intros; lra).
  apply H4.
  - apply (slot_sum 0 fst); [lia|exact Nh| | |].
    + intros [p q] He. apply in_hs in He. apply He.
    + intros [p q] [p' q'] He He' X. cbn [fst] in X. subst p'. apply in_hs in He, He'.
      destruct He as [_ [_ He]], He' as [_ [_ He']]. apply right_pair in He, He'. congruence.
    + intros p q Hp Hq S. apply slot_cases in S. exists (p, q). split; [apply in_hs; auto|reflexivity].
  - apply (slot_sum 1 snd); [lia|exact Nh| | |].
    + intros [p q] He. apply in_hs in He. apply He.
    + intros [p q] [p' q'] He He' X. cbn [snd] in X. subst q'. apply in_hs in He, He'.
      destruct He as [_ [_ He]], He' as [_ [_ He']]. destruct p as [px1 py1], p' as [px2 py2], He as [A B], He' as [C D].
      cbn [px py] in *. f_equal. f_equal; lia.
    + intros p q Hp Hq S. apply slot_cases in S. exists (q, p). split; [apply in_hs; auto|reflexivity].
  - apply (slot_sum 2 fst); [lia|exact Nv| | |].
    + intros [p q] He. apply in_vs in He. apply He.
    + intros [p q] [p' q'] He He' X. cbn [fst] in X. subst p'. apply in_vs in He, He'.
      destruct He as [_ [_ He]], He' as [_ [_ He']]. apply below_pair in He, He'. congruence.
    + intros p q Hp Hq S. apply slot_cases in S. exists (p, q). split; [apply in_vs; auto|reflexivity].
  - apply (slot_sum 3 snd); [lia|exact Nv| | |].
    + intros [p q] He. apply in_vs in He. apply He.
    + intros [p q] [p' q'] He He' X. cbn [snd] in X. subst q'. apply in_vs in He, He'.
      destruct He as [_ [_ He]], He' as [_ [_ He']]. destruct p as [px1 py1], p' as [px2 py2], He as [A B], He' as [C D].
      cbn [px py] in *. f_equal. f_equal; lia.
    + intros p q Hp Hq S. apply slot_cases in S. exists (q, p). split; [apply in_vs; auto|reflexivity].
Qed.

Definition bare_energy : R :=
  (rsum (fun p => bare_node (label_node k p)) ps + rsum (fun e => bare_edge (k (fst e)) (k (snd e))) es)%R.

Lemma edges_value a : sums (fun pq => edge_penalty g (label_edge k (fst pq) (snd pq))) es a <->
  a = (rsum (fun e => bare_edge (k (fst e)) (k (snd e))) es
       - (rsum (fun e => pot (fst e) 0 + pot (snd e) 1) hs + rsum (fun e => pot (fst e) 2 + pot (snd e) 3) vs))%R.
Proof.
  set (v := fun e => if hor e then (bare_edge (k (fst e)) (k (snd e)) - (pot (fst e) 0 + pot (snd e) 1))%R
                     else (bare_edge (k (fst e)) (k (snd e)) - (pot (fst e) 2 + pot (snd e) 3))%R).
  rewrite (sums_rsum _ v).
  - rewrite (rsum_filter v hor), (rsum_filter (fun e => bare_edge (k (fst e)) (k (snd e))) hor).
    assert (M : forall f f' : pixel * pixel -> R, forall l, rsum (fun x => f x - f' x)%R l = (rsum f l - rsum f' l)%R).
    { intros f f' l. induction l as [|x l IH]; cbn [rsum]; [ring|rewrite IH; ring]. }
    rewrite (rsum_ext v (fun e => bare_edge (k (fst e)) (k (snd e)) - (pot (fst e) 0 + pot (snd e) 1))%R hs).
    2: { intros e He. apply filter_In in He. destruct He as [_ He]. unfold v. rewrite He. reflexivity. }
    rewrite (rsum_ext v (fun e => bare_edge (k (fst e)) (k (snd e)) - (pot (fst e) 2 + pot (snd e) 3))%R vs).
    2: { intros e He. apply filter_In in He. destruct He as [_ He]. apply negb_true_iff in He. unfold v. rewrite He. reflexivity. }
    rewrite !M. split; intros ->; ring.
  - intros [p q] He. cbn [fst snd]. unfold v, label_edge. cbn [fst snd].
    assert (Hpq := He). apply (proj2 Hes) in Hpq. destruct Hpq as [Hp [Hq _]].
    destruct (Hk p Hp) as [_ [Dp _]]. destruct (Hk q Hq) as [_ [Dq _]].
    destruct (hor (p, q)) eqn:Eh.
    + assert (X : In (p, q) hs) by (apply filter_In; auto). apply in_hs in X. destruct X as [_ [_ X]].
      rewrite (edge_value (label_node k p) (label_node k q) 0 Hp Dp Hq Dq); [reflexivity|]. left. auto.
    + assert (X : In (p, q) vs) by (apply filter_In; rewrite Eh; auto). apply in_vs in X. destruct X as [_ [_ X]].
      rewrite (edge_value (label_node k p) (label_node k q) 2 Hp Dp Hq Dq); [reflexivity|]. right. right. left. auto.
Qed.
Lemma nodes_value a : sums (fun p => node_penalty g (label_node k p)) ps a <->
  a = (rsum (fun p => bare_node (label_node k p)) ps + rsum (fun p => pot p 0 + pot p 1 + pot p 2 + pot p 3) ps)%R.
Proof.
  rewrite <- rsum_plus. apply sums_rsum. intros p Hp. apply Hps in Hp. rewrite node_value by (apply Hk; exact Hp). reflexivity.
Qed.
Lemma energy_sum a b : sums (fun p => node_penalty g (label_node k p)) ps a ->
  sums (fun pq => edge_penalty g (label_edge k (fst pq) (snd pq))) es b -> (a + b)%R = bare_energy.
Proof. intros Ha Hb. apply nodes_value in Ha. apply edges_value in Hb. rewrite Ha, Hb, slots. unfold bare_energy. ring. Qed.
Lemma energy_terms : exists a b, sums (fun p => node_penalty g (label_node k p)) ps a /\
  sums (fun pq => edge_penalty g (label_edge k (fst pq) (snd pq))) es b.
Proof. eexists _, _. split; [apply nodes_value; reflexivity|apply edges_value; reflexivity]. Qed.
End Energy.

Lemma same_enumeration {A} (l l' : list A) : NoDup l -> NoDup l' -> (forall x, In x l <-> In x l') -> Permutation l l'.
Proof. apply NoDup_Permutation. Qed.

Lemma bare_same g g' k ps es : reparametrized g g' -> bare_energy g k ps es = bare_energy g' k ps es.
Proof.
  intros [E1 [E2 [E3 [E4 E5]]]]. unfold bare_energy, bare_node, bare_edge. rewrite E1, E2, E4, E5. reflexivity.
Qed.

Lemma bare_perm g k ps ps' es es' : Permutation ps ps' -> Permutation es es' -> bare_energy g k ps es = bare_energy g k ps' es'.
Proof. intros P1 P2. unfold bare_energy. rewrite (rsum_perm _ _ _ P1), (rsum_perm _ _ _ P2). reflexivity. Qed.

Lemma energy_exists g k : wf_graph g -> all_matched g k -> exists e, energy g k e.
Proof.
  intros Hw Hk. destruct (pixels_exist g) as [ps Hps]. destruct (pairs_exist g) as [es Hes].
  destruct (energy_terms g Hw k Hk ps es Hps Hes) as [a [b [Ha Hb]]]. exists (a + b)%R, ps, es, a, b. auto.
Qed.

Lemma energy_invariant g g' k e e' : wf_graph g -> wf_graph g' -> reparametrized g g' -> all_matched g k ->
  no_outer_potentials g -> no_outer_potentials g' -> energy g k e -> energy g' k e' -> e = e'.
Proof.
  intros Hw Hw' R Hk Ho Ho' [ps [es [a [b [Hps [Hes [Ha [Hb ->]]]]]]]] [ps' [es' [a' [b' [Hps' [Hes' [Ha' [Hb' ->]]]]]]]].
  assert (Hi : forall p, in_image g' p <-> in_image g p) by (intros p; unfold in_image; destruct R as [_ [E _]]; rewrite E; reflexivity).
  assert (Hk' : all_matched g' k).
  { intros p Hp. apply Hi in Hp. specialize (Hk p Hp). unfold match_exists in *. rewrite Hi. destruct R as [_ [E [E' _]]]. rewrite E, E'. exact Hk. }
  rewrite (energy_sum g Hw k Hk Ho ps es Hps Hes a b Ha Hb), (energy_sum g' Hw' k Hk' Ho' ps' es' Hps' Hes' a' b' Ha' Hb').
  rewrite (bare_same g g' k ps es R). apply bare_perm.
  - apply NoDup_Permutation; [apply Hps|apply Hps'|]. intros p. rewrite (proj2 Hps), (proj2 Hps'). symmetry. apply Hi.
  - apply NoDup_Permutation; [apply Hes|apply Hes'|]. intros [p q]. rewrite (proj2 Hes), (proj2 Hes'), !Hi. reflexivity.
Qed.

(** *** The lower bound *)

Lemma exact_number (x : F exact) : is_number x.
Proof. unfold is_number. cbn. destruct (Raux.Rle_bool_spec x x); [reflexivity|lra]. Qed.
Lemma exact_le (x y : F exact) : fle x y = true -> (x <= y)%R.
Proof. cbn. destruct (Raux.Rle_bool_spec x y); [auto|discriminate]. Qed.

Lemma sums_le {A} (f f' : A -> outcome R) l a b : (forall x u v, In x l -> f x = Ok u -> f' x = Ok v -> (u <= v)%R) ->
  sums f l a -> sums f' l b -> (a <= b)%R.
Proof.
  intros H Sa. revert b H. induction Sa as [|x l u a Eu Sa IH]; intros b H Sb; inversion Sb as [|x' l' v b' Ev Sb']; subst; [lra|].
  pose proof (H x u v (or_introl eq_refl) Eu Ev). specialize (IH b' (fun y u0 v0 Hy => H y u0 v0 (or_intror Hy)) Sb'). lra.
Qed.
Lemma sums_perm {A} (f : A -> outcome R) l l' a : Permutation l l' -> sums f l a -> sums f l' a.
Proof.
  intros P. revert a. induction P as [|x l l' P IH|x y l|l1 l2 l3 P1 IH1 P2 IH2]; intros a S.
  - exact S.
  - inversion S as [|x' l0 v s Ev S']; subst. constructor; [exact Ev|apply IH; exact S'].
  - inversion S as [|x' l0 v s Ev S']; subst. inversion S' as [|x'' l0 v' s' Ev' S'']; subst.
    replace (v + (v' + s'))%R with (v' + (v + s'))%R by ring. constructor; [exact Ev'|]. constructor; assumption.
  - apply IH2, IH1, S.
Qed.
Lemma sums_total {A} (f : A -> outcome R) l : (forall x, In x l -> exists v, f x = Ok v) -> exists a, sums f l a.
Proof.
  induction l as [|x l IH]; intros H; [exists 0%R; constructor|].
  destruct (H x (or_introl eq_refl)) as [v Ev]. destruct (IH (fun y Hy => H y (or_intror Hy))) as [a Ha].
  exists (v + a)%R. constructor; assumption.
Qed.

Section Bound.
Context (g : dgraph exact) (lp : lowest exact).
Hypotheses (Hw : wf_graph g) (Hl : make_lowest g = Ok lp).

Lemma pair_lowest p q : in_image g p -> in_image g q -> horizontal_pair p q \/ vertical_pair p q ->
  exists m, lowest_neighborhood_penalty_fast lp p q = Ok m /\
    forall e v, match_pair g e -> npix (enode e) = p -> npix (enbr e) = q -> edge_penalty g e = Ok v -> (m <= v)%R.
Proof.
  intros Hp Hq A.
  destruct (lowest_nbr_edges exact_laws g lp p q Hw Hl Hp Hq) as [m [Em [Min _]]].
  - destruct A; [left|right; right; left]; assumption.
  - intros [X1 X2]. destruct A as [[Y1 _]|[_ Y2]]; lia.
  - intros e v _ _ _ _. apply exact_number.
  - exists m. split; [exact Em|]. intros e v M E1 E2 V. apply exact_le. apply (Min e v); assumption.
Qed.
Lemma lowest_sum_exists : exists b, lowest_sum g lp b.
Proof.
  destruct (pixels_exist g) as [ps Hps]. destruct (pairs_exist g) as [es Hes].
  destruct (sums_total (fun p => lowest_pixel_penalty lp p) ps) as [a Ha].
  { intros p Hp. apply Hps in Hp. destruct (lowest_pixel_is_min exact_laws g lp p Hw Hl Hp) as [m [Em _]]. exists m. exact Em. }
  destruct (sums_total (fun pq => lowest_neighborhood_penalty_fast lp (fst pq) (snd pq)) es) as [b Hb].
  { intros [p q] He. apply Hes in He. destruct He as [Hp [Hq A]]. destruct (pair_lowest p q Hp Hq A) as [m [Em _]]. exists m. exact Em. }
  exists (a + b)%R, ps, es, a, b. auto.
Qed.
Lemma lower_bound k e b : labeling_ok g k -> energy g k e -> lowest_sum g lp b -> (b <= e)%R.
Proof.
  intros [Hk Ho] [ps [es [a1 [b1 [Hps [Hes [Ha [Hb ->]]]]]]]] [ps' [es' [a2 [b2 [Hps' [Hes' [Ha' [Hb' ->]]]]]]]].
  assert (P1 : Permutation ps' ps).
  { apply NoDup_Permutation; [apply Hps'|apply Hps|]. intros p. rewrite (proj2 Hps), (proj2 Hps'). reflexivity. }
  assert (P2 : Permutation es' es).
  { apply NoDup_Permutation; [apply Hes'|apply Hes|]. intros [p q]. rewrite (proj2 Hes), (proj2 Hes'). reflexivity. }
  apply (sums_perm _ _ _ _ P1) in Ha'. apply (sums_perm _ _ _ _ P2) in Hb'. apply Rplus_le_compat.
  - refine (sums_le _ _ ps a2 a1 _ Ha' Ha). intros p u v Hp Eu Ev. apply Hps in Hp.
    destruct (lowest_pixel_is_min exact_laws g lp p Hw Hl Hp) as [m [Em [_ Min]]]. rewrite Eu in Em. injection Em as <-.
    apply exact_le. apply (Min (fun _ _ _ _ _ => exact_number _) (label_node k p) v); [reflexivity|apply Hk; exact Hp|exact Ev].
  - refine (sums_le _ _ es b2 b1 _ Hb' Hb). intros [p q] u v He Eu Ev. cbn [fst snd] in Eu, Ev. apply Hes in He. destruct He as [Hp [Hq A]].
    destruct (pair_lowest p q Hp Hq A) as [m [Em Min]]. rewrite Eu in Em. injection Em as <-.
    apply (Min (label_edge k p q) v); [|reflexivity|reflexivity|exact Ev].
    assert (Adj : adjacent p q) by (destruct A; [left|right; right; left]; assumption).
    refine (conj (Hk p Hp) (conj (Hk q Hq) (conj Adj (Ho p q Hp Hq Adj)))).
Qed.
End Bound.

(** The bound for any potentials holds for the problem as given. *)
Lemma dual_bound g g' lp' k e b : wf_graph g -> wf_graph g' -> reparametrized g g' ->
  no_outer_potentials g -> no_outer_potentials g' -> make_lowest g' = Ok lp' ->
  labeling_ok g k -> energy g k e -> lowest_sum g' lp' b -> (b <= e)%R.
Proof.
  intros Hw Hw' R Ho Ho' Hl Hk He Hb.
  assert (Hi : forall p, in_image g' p <-> in_image g p) by (intros p; unfold in_image; destruct R as [_ [E _]]; rewrite E; reflexivity).
  assert (Hk' : labeling_ok g' k).
  { destruct Hk as [K1 K2]. split.
    - intros p Hp. apply Hi in Hp. specialize (K1 p Hp). unfold match_exists in *. rewrite Hi. destruct R as [_ [E [E' _]]]. rewrite E, E'. exact K1.
    - intros p q Hp Hq. apply K2; apply Hi; assumption. }
  destruct (energy_exists g' k Hw' (proj1 Hk')) as [e' He'].
  rewrite (energy_invariant g g' k e e' Hw Hw' R (proj1 Hk) Ho Ho' He He').
  apply (lower_bound g' lp' Hw' Hl k e' b Hk' He' Hb).
Qed.

Lemma zero_no_outer g : zero_reparam g -> no_outer_potentials g.
Proof. intros Hz n k v _ _ _ _ E. apply get_In in E. apply Hz in E. exact E. Qed.
