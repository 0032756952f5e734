(** The energy of labelings within a threshold: lemmas. *)
From Coq Require Import Reals Lra Lia Permutation.
From Verif Require Import Exact_proofs Energy_proofs Total_spec.
Local Open Scope Z_scope.

(** *** Sums *)

Lemma zsum_perm {A} (f : A -> Z) l l' : Permutation l l' -> zsum f l = zsum f l'.
Proof. induction 1; cbn [zsum]; lia. Qed.
Lemma zsum_near {A} (f f' : A -> Z) (b : Z) l : (forall x, In x l -> f x <= f' x + b) ->
  zsum f l <= zsum f' l + b * Z.of_nat (length l).
Proof.
  induction l as [|x l IH]; intros H; cbn [zsum length]; [lia|].
  pose proof (H x (or_introl eq_refl)). specialize (IH (fun y Hy => H y (or_intror Hy))). lia.
Qed.

(** *** How many terms there are *)

Lemma flat_map_const {A B} (f : A -> list B) n l : (forall x, In x l -> length (f x) = n) -> length (flat_map f l) = (length l * n)%nat.
Proof.
  induction l as [|x l IH]; intros H; cbn [flat_map length]; [reflexivity|].
  rewrite app_length, (H x (or_introl eq_refl)), IH by (intros y Hy; apply H; right; exact Hy). lia.
Qed.
Lemma range_length n : length (range 0 n) = N.to_nat n.
Proof. pose proof (len_range 0 n) as X. unfold len in X. lia. Qed.
Lemma all_pixels_length w h : Z.of_nat (length (all_pixels w h)) = Z.of_N w * Z.of_N h.
Proof.
  unfold all_pixels. rewrite (flat_map_const _ (N.to_nat h)).
  - rewrite range_length. lia.
  - intros x _. rewrite map_length, range_length. lia.
Qed.

Lemma pixels_length r ps : pixels_in r ps -> Z.of_nat (length ps) = Z.of_N (width r) * Z.of_N (height r).
Proof.
  intros [Nd H]. rewrite <- all_pixels_length. f_equal. apply Permutation_length. apply NoDup_Permutation; [exact Nd|apply NoDup_all_pixels|].
  intros p. rewrite H, In_all_pixels. reflexivity.
Qed.
Definition some_pairs (r : image) : list (pixel * pixel) :=
  map (fun p => (p, right_of p)) (all_pixels (width r - 1) (height r)) ++
  map (fun p => (p, below p)) (all_pixels (width r) (height r - 1)).
Lemma some_pairs_in r : pairs_in r (some_pairs r).
Proof.
  unfold some_pairs. split.
  - apply NoDup_app_intro.
    + apply NoDup_map_inj; [intros a b _ _ X; injection X as X _; exact X|apply NoDup_all_pixels].
    + apply NoDup_map_inj; [intros a b _ _ X; injection X as X _; exact X|apply NoDup_all_pixels].
    + intros [p q] X Y. apply in_map_iff in X. apply in_map_iff in Y. destruct X as [a [Ea _]], Y as [b [Eb _]].
      injection Ea as <- <-. injection Eb as -> Eb. destruct a as [ax ay]. unfold right_of, below in Eb. cbn [px py] in Eb. lia.
  - intros p q. rewrite in_app_iff, !in_map_iff, right_pair, below_pair. unfold inside. split.
    + intros [[a [Ea Ia]]|[a [Ea Ia]]]; injection Ea as -> <-; apply In_all_pixels in Ia; cbn [right_of below px py];
      (split; [lia|split; [lia|auto]]).
    + intros [[P1 P2] [[Q1 Q2] [->| ->]]]; [left|right]; exists p; (split; [reflexivity|]); apply In_all_pixels;
      cbn [right_of below px py] in *; lia.
Qed.
Lemma pairs_length r es : (0 < width r)%N -> (0 < height r)%N -> pairs_in r es ->
  Z.of_nat (length es) = (Z.of_N (width r) - 1) * Z.of_N (height r) + Z.of_N (width r) * (Z.of_N (height r) - 1).
Proof.
  intros Hw Hh [Nd H].
  assert (P : Permutation es (some_pairs r)).
  { apply NoDup_Permutation; [exact Nd|apply some_pairs_in|]. intros [p q]. rewrite H. symmetry. apply some_pairs_in. }
  rewrite (Permutation_length P). unfold some_pairs. rewrite app_length, !map_length, Nat2Z.inj_add, !all_pixels_length. nia.
Qed.

(** *** Integers *)

Lemma total_exists l r c s k : exists e, total_cost l r c s k e.
Proof.
  eexists _, (all_pixels (width r) (height r)), (some_pairs r). split; [split; [apply NoDup_all_pixels|apply In_all_pixels]|].
  split; [apply some_pairs_in|reflexivity].
Qed.
Lemma total_unique l r c s k e e' : total_cost l r c s k e -> total_cost l r c s k e' -> e = e'.
Proof.
  intros [ps [es [[N1 P1] [[N2 P2] ->]]]] [ps' [es' [[N1' P1'] [[N2' P2'] ->]]]]. f_equal; apply zsum_perm, NoDup_Permutation; try assumption.
  - intros p. rewrite P1, P1'. reflexivity.
  - intros [p q]. rewrite P2, P2'. reflexivity.
Qed.

Lemma least {A} (f : A -> Z) (l : list A) x0 : In x0 l -> exists x, In x l /\ forall y, In y l -> f x <= f y.
Proof.
  revert x0. induction l as [|x l IH]; intros x0 H; [destruct H|].
  destruct l as [|y l]; [exists x; split; [left; reflexivity|intros z [<-|[]]; lia]|].
  destruct (IH y (or_introl eq_refl)) as [m [Im Lm]]. destruct (Z_le_gt_dec (f x) (f m)) as [L|L].
  - exists x. split; [left; reflexivity|]. intros z [<-|Hz]; [lia|]. specialize (Lm z Hz). lia.
  - exists m. split; [right; exact Im|]. intros z [<-|Hz]; [lia|]. exact (Lm z Hz).
Qed.
Lemma lowest_exists l r lev c n : is_match r lev n -> exists m, lowest_cost l r lev c (npix n) m.
Proof.
  intros M.
  set (cand := filter (fun d => (px (npix n) + d <? width r)%N) (range 0 lev)).
  assert (H : forall d, In d cand <-> is_match r lev {| npix := npix n; disp := d |}).
  { intros d. unfold cand. rewrite filter_In, In_range, N.ltb_lt. unfold is_match. cbn [npix disp]. destruct M as [I _]. intuition lia. }
  destruct (least (fun d => node_cost l r c {| npix := npix n; disp := d |}) cand (disp n)) as [d [Id Ld]].
  { apply H. destruct n as [p d]. exact M. }
  exists (node_cost l r c {| npix := npix n; disp := d |}). split.
  - exists {| npix := npix n; disp := d |}. split; [reflexivity|]. split; [apply H; exact Id|reflexivity].
  - intros [p d'] E M'. cbn [npix] in E. subst p. apply (Ld d'). apply H. exact M'.
Qed.

Lemma total_near l r lev c s b k k' e e' : 0 <= s -> ordered_labeling r lev k -> within_bound l r lev c s b k ->
  ordered_labeling r lev k' -> (0 < width r)%N -> (0 < height r)%N ->
  total_cost l r c s k e -> total_cost l r c s k' e' -> e <= e' + b * terms r.
Proof.
  intros Hs Ok1 [Wn We] Ok2 Hw Hh [ps [es [Ps [Es ->]]]] [ps' [es' [Ps' [Es' ->]]]].
  assert (P1 : Permutation ps' ps).
  { apply NoDup_Permutation; [apply Ps'|apply Ps|]. intros p. rewrite (proj2 Ps), (proj2 Ps'). reflexivity. }
  assert (P2 : Permutation es' es).
  { apply NoDup_Permutation; [apply Es'|apply Es|]. intros [p q]. rewrite (proj2 Es), (proj2 Es'). reflexivity. }
  rewrite (zsum_perm _ _ _ P1), (zsum_perm _ _ _ P2).
  pose proof (zsum_near (fun p => node_cost l r c (label_node k p)) (fun p => node_cost l r c (label_node k' p)) b ps) as X.
  pose proof (zsum_near (fun pq => edge_cost s (k (fst pq)) (k (snd pq))) (fun pq => edge_cost s (k' (fst pq)) (k' (snd pq))) b es) as Y.
  rewrite (pixels_length r ps Ps) in X. rewrite (pairs_length r es Hw Hh Es) in Y. unfold terms. cbv zeta.
  assert (X' := X ltac:(intros p Hp; apply (proj2 Ps) in Hp;
    destruct (lowest_exists l r lev c _ (proj1 Ok1 p Hp)) as [m Lm]; pose proof (Wn p m Hp Lm) as A;
    pose proof (proj2 Lm (label_node k' p) eq_refl (proj1 Ok2 p Hp)) as B; lia)).
  assert (Y' := Y ltac:(intros [p q] He; apply (proj2 Es) in He; destruct He as [Hp [Hq A]]; cbn [fst snd];
    assert (Ad : adjacent p q) by (destruct A; [left|right; right; left]; assumption);
    pose proof (We p q Hp Hq Ad) as B; unfold edge_cost in B |- *;
    pose proof (Z.pow_even_nonneg (Z.of_N (k' p) - Z.of_N (k' q)) 2 ltac:(exists 1; reflexivity)); nia)).
  lia.
Qed.

Lemma map_near l r lev c s b k k' img e e' : 0 <= s -> optimal_map l r lev c s img ->
  ordered_labeling r lev k -> within_bound l r lev c s b k -> ordered_labeling r lev k' ->
  total_cost l r c s (map_labeling img) e -> total_cost l r c s k' e' -> e <= e' + b * terms r.
Proof.
  intros Hs [Ew [Eh [_ [_ [V [Ok1 Best]]]]]] Hk Wk Hk'. 
  apply (total_near l r lev c s b (map_labeling img) k'); try assumption; [apply (Best k b Hk Wk)| |].
  - rewrite <- Ew. apply V.
  - rewrite <- Eh. apply V.
Qed.

(** *** Real numbers *)

Local Open Scope R_scope.
Lemma sums_near {A} (f f' : A -> outcome R) (t : R) l a b : (forall x u v, In x l -> f x = Ok u -> f' x = Ok v -> u <= v + t) ->
  sums f l a -> sums f' l b -> a <= b + t * INR (length l).
Proof.
  intros H Sa. revert b H. induction Sa as [|x l u a Eu Sa IH]; intros b H Sb; inversion Sb as [|x' l' v b' Ev Sb']; subst.
  - cbn [length INR]. lra.
  - pose proof (H x u v (or_introl eq_refl) Eu Ev). specialize (IH b' (fun y u0 v0 Hy => H y u0 v0 (or_intror Hy)) Sb').
    cbn [length]. rewrite S_INR. lra.
Qed.

Lemma energy_near g lp t k e b : wf_graph g -> make_lowest g = Ok lp -> nodes_within g lp t k -> edges_within g lp t k ->
  energy g k e -> lowest_sum g lp b -> e <= b + t * IZR (terms (right g)).
Proof.
  intros Hw Hl Wn We [ps [es [a1 [b1 [Hps [Hes [Ha [Hb ->]]]]]]]] [ps' [es' [a2 [b2 [Hps' [Hes' [Ha' [Hb' ->]]]]]]]].
  assert (P1 : Permutation ps' ps).
  { apply NoDup_Permutation; [apply Hps'|apply Hps|]. intros p. rewrite (proj2 Hps), (proj2 Hps'). reflexivity. }
  assert (P2 : Permutation es' es).
  { apply NoDup_Permutation; [apply Hes'|apply Hes|]. intros [p q]. rewrite (proj2 Hes), (proj2 Hes'). reflexivity. }
  apply (sums_perm _ _ _ _ P1) in Ha'. apply (sums_perm _ _ _ _ P2) in Hb'.
  pose proof (wf_rows g Hw) as B1. pose proof (wf_levels g Hw) as B2. pose proof (wf_levels_width g Hw) as B3.
  assert (W0 : (0 < width (right g))%N) by lia. assert (Hh0 : (0 < height (right g))%N) by lia.
  assert (X' : a1 <= a2 + t * IZR (Z.of_N (width (right g)) * Z.of_N (height (right g)))).
  { rewrite <- (pixels_length (right g) ps Hps), <- INR_IZR_INZ. refine (sums_near _ _ t ps a1 a2 _ Ha Ha'). intros p u v Hp Eu Ev. apply Hps in Hp. destruct (Wn p Hp) as [u' [v' [Eu' [Ev' L]]]].
    cbn [label_node npix] in Ev'. rewrite Eu in Eu'. rewrite Ev in Ev'. injection Eu' as <-. injection Ev' as <-.
    apply exact_le in L. change (u - v <= t) in L. lra. }
  assert (Y' : b1 <= b2 + t * IZR ((Z.of_N (width (right g)) - 1) * Z.of_N (height (right g)) + Z.of_N (width (right g)) * (Z.of_N (height (right g)) - 1))).
  { rewrite <- (pairs_length (right g) es W0 Hh0 Hes), <- INR_IZR_INZ. refine (sums_near _ _ t es b1 b2 _ Hb Hb'). intros [p q] u v Hp Eu Ev. apply Hes in Hp. destruct Hp as [Hp [Hq A]]. cbn [fst snd] in Eu, Ev.
    assert (Ad : adjacent p q) by (destruct A; [left|right; right; left]; assumption).
    destruct (We p q Hp Hq Ad) as [u' [v' [Eu' [Ev' L]]]]. rewrite Eu in Eu'. injection Eu' as <-.
    change (lowest_neighborhood_penalty lp (label_edge k p q)) with (lowest_neighborhood_penalty_fast lp p q) in Ev'.
    rewrite Ev in Ev'. injection Ev' as <-. apply exact_le in L. change (u - v <= t) in L. lra. }
  unfold terms. cbv zeta. rewrite <- Z.add_assoc, plus_IZR. lra.
Qed.

(** With any potentials: within [t], no labeling costs less by more than [t] for every term. *)
Lemma dual_near g g' lp' t k k' e e' : wf_graph g -> wf_graph g' -> reparametrized g g' ->
  no_outer_potentials g -> no_outer_potentials g' -> make_lowest g' = Ok lp' ->
  labeling_ok g k -> nodes_within g' lp' t k -> edges_within g' lp' t k -> labeling_ok g k' ->
  energy g k e -> energy g k' e' -> e <= e' + t * IZR (terms (right g)).
Proof.
  intros Hw Hw' R Ho Ho' Hl Hk Wn We Hk' He He'.
  destruct (lowest_sum_exists g' lp' Hw' Hl) as [b Hb].
  pose proof (dual_bound g g' lp' k' e' b Hw Hw' R Ho Ho' Hl Hk' He' Hb) as L1.
  assert (Hm : all_matched g' k).
  { destruct R as [R1 [R2 [R3 _]]]. intros p Hp. unfold match_exists, in_image in *. rewrite R2, R3 in *. exact (proj1 Hk p Hp). }
  destruct (energy_exists g' k Hw' Hm) as [e1 He1].
  rewrite (energy_invariant g g' k e e1 Hw Hw' R (proj1 Hk) Ho Ho' He He1).
  pose proof (energy_near g' lp' t k e1 b Hw' Hl Wn We He1 Hb) as L2.
  destruct R as [_ [-> _]] in L2. lra.
Qed.

(** Every labeling is within some threshold. *)
Lemma bounded_over {A} (l : list A) (f : A -> R -> Prop) : (forall x t t', f x t -> t <= t' -> f x t') ->
  (forall x, In x l -> exists t, f x t) -> exists t, 0 <= t /\ forall x, In x l -> f x t.
Proof.
  intros Up. induction l as [|x l IH]; intros H; [exists 0; split; [lra|intros y []]|].
  destruct (H x (or_introl eq_refl)) as [t Ht]. destruct (IH (fun y Hy => H y (or_intror Hy))) as [t' [P Ht']].
  exists (Rmax t t'). pose proof (Rmax_l t t'). pose proof (Rmax_r t t'). split; [lra|].
  intros y [<-|Hy]; [apply (Up _ t); assumption|apply (Up _ t'); [apply Ht'; exact Hy|assumption]].
Qed.
Lemma exact_le_iff (x y : R) : @fle exact x y = true <-> x <= y.
Proof. split; [apply exact_le|]. intros L. cbn. apply Raux.Rle_bool_true. exact L. Qed.
Lemma some_threshold (g : dgraph exact) lp k : wf_graph g -> make_lowest g = Ok lp -> labeling_ok g k ->
  exists t : R, 0 <= t /\ nodes_within g lp t k /\ edges_within g lp t k.
Proof.
  intros Hw Hl Hk.
  destruct (bounded_over (all_pixels (width (right g)) (height (right g))) (fun p t => node_within g lp t (label_node k p))) as [t1 [P1 B1]].
  - intros p t t' [u [v [Eu [Ev L]]]] Le. exists u, v. split; [exact Eu|]. split; [exact Ev|].
    apply exact_le_iff in L. apply exact_le_iff. lra.
  - intros p Hp. apply In_all_pixels in Hp. pose proof (proj1 Hk p Hp) as M.
    destruct (lowest_pixel_is_min exact_laws g lp p Hw Hl Hp) as [m [Em _]].
    eexists. eexists _, m. split; [apply (node_value g Hw _ M)|]. split; [exact Em|]. apply exact_le_iff.
    apply Rle_refl.
  - destruct (bounded_over (list_prod (all_pixels (width (right g)) (height (right g))) (all_pixels (width (right g)) (height (right g))))
      (fun pq t => adjacent (fst pq) (snd pq) -> edge_within g lp t (label_edge k (fst pq) (snd pq)))) as [t2 [P2 B2]].
    + intros pq t t' H Le Ad. destruct (H Ad) as [u [v [Eu [Ev L]]]]. exists u, v. split; [exact Eu|]. split; [exact Ev|].
      apply exact_le_iff in L. apply exact_le_iff. lra.
    + intros [p q] H. apply in_prod_iff in H. destruct H as [Hp Hq]. apply In_all_pixels in Hp. apply In_all_pixels in Hq. cbn [fst snd].
      assert (D : adjacent p q \/ ~ adjacent p q) by (unfold adjacent, horizontal_pair, vertical_pair; lia).
      destruct D as [Ad|Ad]; [|exists 0; intros X; contradiction].
      destruct (adjacent_slot p q Ad) as [j Sl].
      destruct (lowest_nbr_in g lp (label_edge k p q) Hw (make_lowest_wf g lp Hw Hl) Hp Hq Ad) as [m Em].
      pose proof (proj1 Hk p Hp) as M. pose proof (proj1 Hk q Hq) as M'.
      pose proof (edge_value g Hw (label_node k p) (label_node k q) j Hp (proj1 (proj2 M)) Hq (proj1 (proj2 M')) Sl) as Ee.
      eexists. intros _. eexists _, m. split; [exact Ee|]. split; [exact Em|]. apply exact_le_iff. apply Rle_refl.
    + exists (Rmax t1 t2). pose proof (Rmax_l t1 t2). pose proof (Rmax_r t1 t2). split; [lra|]. split.
      * intros p Hp. destruct (B1 p (proj2 (In_all_pixels _ _ p) Hp)) as [u [v [Eu [Ev L]]]]. exists u, v.
        split; [exact Eu|]. split; [exact Ev|]. apply exact_le_iff in L. apply exact_le_iff. lra.
      * intros p q Hp Hq Ad.
        destruct (B2 (p, q) (proj2 (in_prod_iff _ _ _ _) (conj (proj2 (In_all_pixels _ _ p) Hp) (proj2 (In_all_pixels _ _ q) Hq))) Ad)
          as [u [v [Eu [Ev L]]]]. exists u, v.
        split; [exact Eu|]. split; [exact Ev|]. apply exact_le_iff in L. apply exact_le_iff. lra.
Qed.

(** *** Runs *)

Lemma written_near srt w p e path txt : sorts srt -> usable_files w -> main srt w p = Ok e -> written_file e = Some (path, txt) ->
  exists o lpath rpath l r lev c s img, p = Parsed o /\ all_paths o lpath rpath path /\
    file_holds w lpath l /\ file_holds w rpath r /\ option_number (width l) (o_levels o) lev /\
    option_number 1 (o_cleanness o) c /\ option_number 1 (o_smoothness o) s /\
    write_image [] (Some img) = Ok txt /\
    (small_penalties (2 ^ 53) l r lev (Z.of_N c) (Z.of_N s) ->
     forall k b k' e e', ordered_labeling r lev k -> within_bound l r lev (Z.of_N c) (Z.of_N s) b k -> ordered_labeling r lev k' ->
       total_cost l r (Z.of_N c) (Z.of_N s) (map_labeling img) e -> total_cost l r (Z.of_N c) (Z.of_N s) k' e' ->
       (e <= e' + b * terms r)%Z).
Proof.
  intros Hs U E W. destruct (main_exact srt w p e path txt Hs U E W) as [o [lpath [rpath [l [r [lev [c [s [img [A1 [A2 [A3 [A4 [A5 [A6 [A7 [A8 A9]]]]]]]]]]]]]]]]].
  exists o, lpath, rpath, l, r, lev, c, s, img. refine (conj A1 (conj A2 (conj A3 (conj A4 (conj A5 (conj A6 (conj A7 (conj A8 _)))))))).
  intros Sm k b k' e1 e2 Hk Wk Hk'. apply (map_near l r lev _ _ b k k' img e1 e2); [lia|apply A9; exact Sm|assumption..].
Qed.
