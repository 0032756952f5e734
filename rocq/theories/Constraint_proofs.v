(** Lemmas about the constraint graph and its solver: the programs are shown
    equal to pure functions on the availability array. *)
From Verif Require Export Lowest_proofs.
Local Open Scope N_scope.

(** *** Bits *)

Definition bit (m : list bool) (i : N) : bool :=
  match get m i with Ok b => b | Stop _ => false end.

Lemma bit_get m i : i < len m -> get m i = Ok (bit m i).
Proof. intros H. unfold bit. destruct (get_in_bounds m i H) as [b ->]. reflexivity. Qed.

Lemma bit_get_Ok m i b : get m i = Ok b -> bit m i = b.
Proof. unfold bit. intros ->. reflexivity. Qed.

Lemma bit_oob m i : len m <= i -> bit m i = false.
Proof. intros H. unfold bit. rewrite get_oob by exact H. reflexivity. Qed.

Lemma bit_upd m i j b : i < len m ->
  bit (upd m (N.to_nat i) b) j = if j =? i then b else bit m j.
Proof.
  intros H. pose proof (set_in_bounds m i b H) as E. apply set_Ok in E.
  destruct E as [_ [_ G]]. unfold bit. rewrite G. destruct (j =? i); reflexivity.
Qed.

Lemma len_upd {A} (m : list A) i v : len (upd m i v) = len m.
Proof. unfold len. rewrite upd_length. reflexivity. Qed.

Lemma bit_fill n b i : i < n -> bit (fill n b) i = b.
Proof. intros H. unfold bit. rewrite get_fill by exact H. reflexivity. Qed.

Lemma bit_fill_false n i : bit (fill n false) i = false.
Proof.
  destruct (N.lt_ge_cases i n) as [H|H]; [apply bit_fill; exact H|].
  apply bit_oob. rewrite len_fill. exact H.
Qed.

Lemma mem_ext (m m' : list bool) : len m = len m' -> (forall i, i < len m -> bit m i = bit m' i) -> m = m'.
Proof.
  intros L E. apply list_ext_get; [exact L|]. intros i Hi.
  rewrite !bit_get by lia. f_equal. apply E; exact Hi.
Qed.

Definition sub (m m' : list bool) : Prop := forall i, bit m i = true -> bit m' i = true.

Lemma sub_refl m : sub m m. Proof. intros i H; exact H. Qed.
Lemma sub_trans a b c : sub a b -> sub b c -> sub a c.
Proof. intros H1 H2 i H. auto. Qed.

Lemma any_bit m : existsb (fun b => b) m = true <-> exists i, i < len m /\ bit m i = true.
Proof.
  rewrite existsb_exists. split.
  - intros [b [Hb ->]]. apply In_get in Hb. destruct Hb as [i [Hi E]].
    exists i. split; [exact Hi|]. apply bit_get_Ok; exact E.
  - intros [i [Hi E]]. exists true. split; [|reflexivity].
    apply (get_In m i). rewrite bit_get by exact Hi. congruence.
Qed.

Lemma no_bit m : existsb (fun b => b) m = false -> m = fill (len m) false.
Proof.
  intros H. apply mem_ext; [rewrite len_fill; reflexivity|]. intros i Hi.
  rewrite bit_fill by exact Hi. destruct (bit m i) eqn:E; [|reflexivity].
  assert (existsb (fun b => b) m = true) by (apply any_bit; exists i; auto). congruence.
Qed.

Lemma existsb_range_bits m : existsb (bit m) (range 0 (len m)) = existsb (fun b => b) m.
Proof.
  apply eq_iff_eq_true. rewrite any_bit, existsb_exists. split; intros [i [H E]]; exists i.
  - apply In_range in H. split; [lia|exact E].
  - split; [apply In_range; lia|exact E].
Qed.

Lemma run_cloop_flat_map {A B C} (l : list A) (h : A -> list B) (f : A -> B -> C)
  (body : C -> cmd unit) m :
  run (cloop (flat_map (fun a => map (f a) (h a)) l) (fun c _ => body c) tt) m
  = run (cloop l (fun a _ => cloop (h a) (fun b _ => body (f a b)) tt) tt) m.
Proof.
  assert (M : forall (a : A) (bs : list B) m,
    run (cloop (map (f a) bs) (fun c _ => body c) tt) m = run (cloop bs (fun b _ => body (f a b)) tt) m).
  { intros a bs. induction bs as [|b bs IH]; intros m1; cbn [map cloop]; [reflexivity|].
    rewrite !cbind_assoc_run. destruct (run (body (f a b)) m1) as [[[] m2]|]; cbn [bind fst snd]; auto. }
  revert m. induction l as [|a l IH]; intros m; cbn [flat_map cloop]; [reflexivity|].
  rewrite cloop_app, cbind_assoc_run, M.
  destruct (run (cloop (h a) (fun b _ => body (f a b)) tt) m) as [[[] m2]|]; cbn [bind fst snd]; auto.
Qed.

Lemma run_cloop_ext {A S} (l : list A) (f h : A -> S -> cmd S) s m :
  (forall a s m, In a l -> run (f a s) m = run (h a s) m) -> run (cloop l f s) m = run (cloop l h s) m.
Proof.
  revert s m. induction l as [|a l IH]; intros s m E; cbn [cloop]; [reflexivity|].
  rewrite !cbind_assoc_run, E by (left; reflexivity).
  destruct (run (h a s) m) as [[s' m']|]; cbn [bind fst snd]; [|reflexivity].
  apply IH. intros; apply E; right; assumption.
Qed.

Section Graph.
Context {T : target}.
Implicit Type cg : cgraph T.

Notation G cg := (cg_graph cg).
Notation Wd cg := (width (right (cg_graph cg))).
Notation Ht cg := (height (right (cg_graph cg))).
Notation Lv cg := (levels (cg_graph cg)).

(** The parts of a constraint graph that do not change. *)
Record static cg : Prop := {
  st_graph : wf_graph (G cg);
  st_lowest : wf_lowest (G cg) (cg_lowest cg)
}.
Definition mem_ok cg (m : list bool) : Prop := len m = Wd cg * Ht cg * Lv cg.
(** Nodes with a place in the availability array. *)
Definition inb cg (n : node) : Prop := in_image (G cg) (npix n) /\ disp n < Lv cg.
Definition avb cg (m : list bool) (n : node) : bool := bit m (node_index (G cg) n).

Lemma wf_static cg : wf_cgraph cg -> static cg.
Proof. intros [A B _]. constructor; assumption. Qed.
Lemma static_wf cg m : static cg -> mem_ok cg m -> wf_cgraph (with_avail cg m).
Proof. intros [A B] H. constructor; assumption. Qed.
Lemma with_avail_same cg : with_avail cg (cg_avail cg) = cg.
Proof. destruct cg; reflexivity. Qed.

Lemma match_inb cg n : match_exists (G cg) n -> inb cg n.
Proof. intros [A [B _]]; split; assumption. Qed.

Lemma idx_lt cg m n : static cg -> mem_ok cg m -> inb cg n -> node_index (G cg) n < len m.
Proof.
  intros [Hw _] Hm [Hp Hd]. rewrite Hm.
  apply (node_index_small (G cg) n Hw Hp Hd).
Qed.

Lemma idx_inj cg n n' : static cg -> inb cg n -> inb cg n' ->
  node_index (G cg) n = node_index (G cg) n' -> n = n'.
Proof. intros [Hw _] [Hp Hd] [Hp' Hd']. apply node_index_inj; assumption. Qed.

Lemma idx_surj cg m i : static cg -> mem_ok cg m -> i < len m ->
  exists n, inb cg n /\ node_index (G cg) n = i.
Proof.
  intros [Hw _] Hm Hi. rewrite Hm in Hi.
  destruct (node_index_surj (G cg) i Hw Hi) as [n [A [B C]]]. exists n. split; [split|]; assumption.
Qed.

Lemma run_node cg m n : static cg -> mem_ok cg m -> inb cg n ->
  run (is_node_available cg n) m = Ok (avb cg m n, m).
Proof.
  intros Hs Hm Hn. unfold is_node_available. cbn [run].
  rewrite bit_get by (apply idx_lt; assumption). reflexivity.
Qed.

Lemma available_iff cg n : wf_cgraph cg -> inb cg n -> available cg n <-> avb cg (cg_avail cg) n = true.
Proof.
  intros Hc Hn. unfold available, exec.
  rewrite (run_node cg _ n (wf_static cg Hc) (wfc_avail cg Hc) Hn). cbn [bind fst snd].
  rewrite with_avail_same. split; [intros E; injection E; auto|intros ->; reflexivity].
Qed.

Lemma available_with cg m n : static cg -> mem_ok cg m -> inb cg n ->
  available (with_avail cg m) n <-> avb cg m n = true.
Proof. intros Hs Hm Hn. apply (available_iff (with_avail cg m) n); [apply static_wf; assumption|exact Hn]. Qed.

(** *** Edges *)

Definition ewb cg (e : edge) : bool :=
  match edge_penalty (G cg) e, lowest_neighborhood_penalty (cg_lowest cg) e with
  | Ok v, Ok w => fle (fsub v w) (cg_threshold cg)
  | _, _ => false
  end.

Lemma ewb_iff cg e : ewb cg e = true <-> edge_within (G cg) (cg_lowest cg) (cg_threshold cg) e.
Proof.
  unfold ewb, edge_within. split.
  - destruct (edge_penalty (G cg) e) as [v|]; [|discriminate].
    destruct (lowest_neighborhood_penalty (cg_lowest cg) e) as [w|]; [|discriminate].
    intros E. exists v, w. auto.
  - intros [v [w [-> [-> E]]]]. exact E.
Qed.

Definition eab cg m (e : edge) : bool :=
  ewb cg e && avb cg m (enode e) && avb cg m (enbr e) && edge_exists (G cg) e.

Lemma edge_values cg e : static cg -> inb cg (enode e) -> inb cg (enbr e) ->
  adjacent (npix (enode e)) (npix (enbr e)) ->
  exists v w, edge_penalty (G cg) e = Ok v /\ lowest_neighborhood_penalty (cg_lowest cg) e = Ok w.
Proof.
  intros [Hw Hl] [Hp Hd] [Hq Hd'] A.
  destruct e as [n n']; cbn [enode enbr] in *.
  destruct (edge_penalty_Ok (G cg) n n' Hw Hp Hd Hq Hd' A) as [v Ev].
  destruct (lowest_nbr_in (G cg) (cg_lowest cg) {| enode := n; enbr := n' |} Hw Hl Hp Hq A) as [w Ew].
  exists v, w. auto.
Qed.

Lemma run_edge cg m e : static cg -> mem_ok cg m -> inb cg (enode e) -> inb cg (enbr e) ->
  adjacent (npix (enode e)) (npix (enbr e)) ->
  run (is_edge_available cg e) m = Ok (eab cg m e, m).
Proof.
  intros Hs Hm Hn Hn' A. destruct (edge_values cg e Hs Hn Hn' A) as [v [w [Ev Ew]]].
  unfold is_edge_available, eab, ewb. rewrite Ev, Ew. cbn [lift cbind].
  destruct (fle (fsub v w) (cg_threshold cg)); cbn [andb]; [|reflexivity].
  rewrite cbind_assoc_run, run_node by assumption. cbn [bind fst snd].
  destruct (avb cg m (enode e)); cbn [andb]; [|reflexivity].
  rewrite cbind_assoc_run, run_node by assumption. cbn [bind fst snd].
  destruct (avb cg m (enbr e)); reflexivity.
Qed.

(** The part of edge availability that does not depend on the availability. *)
Definition compat cg (n n' : node) : Prop :=
  match_pair (G cg) {| enode := n; enbr := n' |} /\ ewb cg {| enode := n; enbr := n' |} = true.

Lemma edge_exists_inb cg e : wf_graph (G cg) -> inb cg (enode e) -> inb cg (enbr e) ->
  edge_exists (G cg) e = true <-> match_pair (G cg) e.
Proof.
  intros Hw [[Hx _] Hd] [[Hx' _] Hd']. pose proof (wf_sizes _ Hw) as S.
  pose proof (sz_w2 _ S). pose proof (sz_lw _ S). apply edge_exists_iff; [exact Hw|lia|lia].
Qed.

Lemma eab_iff cg m n n' : static cg -> inb cg n -> inb cg n' ->
  eab cg m {| enode := n; enbr := n' |} = true <->
  avb cg m n = true /\ avb cg m n' = true /\ compat cg n n'.
Proof.
  intros Hs Hn Hn'. unfold eab, compat. rewrite !andb_true_iff. cbn [enode enbr].
  rewrite (edge_exists_inb cg {| enode := n; enbr := n' |}) by (try assumption; apply Hs). tauto.
Qed.

Lemma edge_available_iff cg e : wf_cgraph cg -> inb cg (enode e) -> inb cg (enbr e) ->
  adjacent (npix (enode e)) (npix (enbr e)) ->
  edge_available cg e <-> eab cg (cg_avail cg) e = true.
Proof.
  intros Hc Hn Hn' A. unfold edge_available, exec.
  rewrite (run_edge cg _ e (wf_static cg Hc) (wfc_avail cg Hc) Hn Hn' A). cbn [bind fst snd].
  rewrite with_avail_same. split; [intros E; injection E; auto|intros ->; reflexivity].
Qed.

(** *** Removal test *)

Definition etb cg m (n : node) (q : pixel) : bool :=
  existsb (fun d' => eab cg m {| enode := n; enbr := {| npix := q; disp := d' |} |})
    (disparities (G cg) (px q) (@first_disparity T n q)).

Lemma first_eq cg n q : static cg -> inb cg n -> in_image (G cg) q ->
  @first_disparity T n q = if (px (npix n) + 1 =? px q) && (1 <? disp n) then disp n - 1 else 0.
Proof.
  intros [Hw _] [Hp Hd] Hq. destruct (in_image_small _ _ Hw Hp) as [Hx _].
  pose proof (wf_sizes _ Hw) as S. pose proof (sz_w2 _ S). pose proof (sz_lw _ S).
  unfold first_disparity. rewrite uadd_small by exact Hx.
  destruct (px (npix n) + 1 =? px q); cbn [andb]; [|reflexivity].
  destruct (N.ltb_spec 1 (disp n)); [|reflexivity]. apply usub_small; lia.
Qed.

Lemma run_has_edge cg m n q : static cg -> mem_ok cg m -> inb cg n -> in_image (G cg) q ->
  adjacent (npix n) q ->
  run (has_edge_to cg n q) m = Ok (etb cg m n q, m).
Proof.
  intros Hs Hm Hn Hq A. unfold has_edge_to, etb. apply run_cexists.
  intros d' Hd'. apply In_disparities in Hd'; [|apply Hs|exact Hq].
  apply run_edge; try assumption. apply match_inb; apply Hd'.
Qed.

Lemma etb_iff cg m n q : static cg -> inb cg n -> in_image (G cg) q -> adjacent (npix n) q ->
  etb cg m n q = true <->
  exists n', npix n' = q /\ avb cg m n = true /\ avb cg m n' = true /\ compat cg n n'.
Proof.
  intros Hs Hn Hq A. unfold etb. rewrite existsb_exists. split.
  - intros [d' [Hd' E]]. apply In_disparities in Hd'; [|apply Hs|exact Hq].
    apply eab_iff in E; [|assumption|assumption|apply match_inb; apply Hd'].
    exists {| npix := q; disp := d' |}. split; [reflexivity|exact E].
  - intros [[q' d'] [E1 [E2 [E3 E4]]]]. cbn [npix] in E1. subst q'.
    pose proof E4 as [[M1 [M2 [_ [O1 O2]]]] _]. cbn [enode enbr npix disp] in *.
    exists d'. split.
    + apply In_disparities; [apply Hs|exact Hq|]. split; [|exact M2].
      rewrite (first_eq cg n q Hs Hn Hq).
      destruct (N.eqb_spec (px (npix n) + 1) (px q)) as [Ex|Ex]; cbn [andb]; [|lia].
      destruct (N.ltb_spec 1 (disp n)); [|lia].
      assert (horizontal_pair (npix n) q).
      { unfold adjacent, horizontal_pair, vertical_pair in *. lia. }
      specialize (O1 H0). lia.
    + apply eab_iff; try assumption; [apply match_inb; exact M2|]. auto.
Qed.

Definition rmvb cg m (n : node) : bool :=
  avb cg m n &&
  existsb (fun k => if negb (neighborhood_exists_fast (G cg) (npix n) k) then false
                    else negb (etb cg m n (neighbor_by_index T (npix n) k)))
    (range 0 NEIGHBORS_COUNT).

Lemma run_should_remove cg m n : static cg -> mem_ok cg m -> inb cg n ->
  run (should_remove_node cg n) m = Ok (rmvb cg m n, m).
Proof.
  intros Hs Hm Hn. unfold should_remove_node, rmvb.
  rewrite cbind_assoc_run, run_node by assumption. cbn [bind fst snd].
  destruct (avb cg m n); cbn [negb andb]; [|reflexivity].
  apply run_cexists. intros k _.
  destruct (neighborhood_exists_fast (G cg) (npix n) k) eqn:Ex; cbn [negb]; [|reflexivity].
  apply (neighborhood_exists_fast_iff _ _ _ (st_graph cg Hs)) in Ex. destruct Ex as [q [Hp [Hq S]]].
  rewrite (neighbor_by_index_slot _ _ q k (st_graph cg Hs) Hp Hq S).
  rewrite cbind_assoc_run, run_has_edge; try assumption; [reflexivity|].
  eapply slot_adjacent; exact S.
Qed.

Lemma rmvb_iff cg m n : static cg -> inb cg n ->
  rmvb cg m n = true <->
  avb cg m n = true /\
  exists q, in_image (G cg) q /\ adjacent (npix n) q /\
    forall n', npix n' = q -> ~ (avb cg m n' = true /\ compat cg n n').
Proof.
  intros Hs Hn. unfold rmvb. rewrite andb_true_iff, existsb_exists.
  split; intros [Ha Hx]; (split; [exact Ha|]).
  - destruct Hx as [k [_ E]].
    destruct (neighborhood_exists_fast (G cg) (npix n) k) eqn:Ex; cbn [negb] in E; [|discriminate].
    apply (neighborhood_exists_fast_iff _ _ _ (st_graph cg Hs)) in Ex. destruct Ex as [q [Hp [Hq S]]].
    rewrite (neighbor_by_index_slot _ _ q k (st_graph cg Hs) Hp Hq S) in E.
    pose proof (slot_adjacent _ _ _ S) as A.
    exists q. split; [exact Hq|]. split; [exact A|]. intros n' En [H1 H2].
    assert (etb cg m n q = true) by (apply etb_iff; try assumption; exists n'; auto).
    rewrite H in E. discriminate.
  - destruct Hx as [q [Hq [A Hno]]]. pose proof (adjacent_slot _ _ A) as [k S].
    exists k. pose proof (slot_of_lt _ _ _ S). split; [apply In_range; unfold NEIGHBORS_COUNT; lia|].
    assert (Ex : neighborhood_exists_fast (G cg) (npix n) k = true).
    { apply (neighborhood_exists_fast_iff _ _ _ (st_graph cg Hs)). exists q.
      split; [apply Hn|split; assumption]. }
    rewrite Ex. cbn [negb].
    rewrite (neighbor_by_index_slot _ _ q k (st_graph cg Hs) (proj1 Hn) Hq S).
    destruct (etb cg m n q) eqn:E; [|reflexivity].
    apply etb_iff in E; try assumption. destruct E as [n' [E1 [_ [E2 E3]]]].
    exfalso. apply (Hno n' E1). auto.
Qed.

(** *** Pixels *)

Definition clear cg m (n : node) : list bool := upd m (N.to_nat (node_index (G cg) n)) false.

Lemma clear_ok cg m n : mem_ok cg m -> mem_ok cg (clear cg m n).
Proof. unfold mem_ok, clear. rewrite len_upd. auto. Qed.

Lemma avb_clear cg m n n' : static cg -> mem_ok cg m -> inb cg n -> inb cg n' ->
  avb cg (clear cg m n) n' = true <-> avb cg m n' = true /\ n' <> n.
Proof.
  intros Hs Hm Hn Hn'. unfold avb, clear. rewrite bit_upd by (apply idx_lt; assumption).
  destruct (N.eqb_spec (node_index (G cg) n') (node_index (G cg) n)) as [E|E].
  - apply idx_inj in E; try assumption. subst. split; [discriminate|tauto].
  - split; [|tauto]. intros H. split; [exact H|]. intros ->. contradiction.
Qed.

Lemma sub_clear cg m n : static cg -> mem_ok cg m -> inb cg n -> sub (clear cg m n) m.
Proof.
  intros Hs Hm Hn i. unfold clear. rewrite bit_upd by (apply idx_lt; assumption).
  destruct (i =? _); [discriminate|auto].
Qed.

Definition proc1 cg m (n : node) : list bool := if rmvb cg m n then clear cg m n else m.
Fixpoint proc cg (p : pixel) (ds : list N) m : list bool :=
  match ds with [] => m | d :: r => proc cg p r (proc1 cg m {| npix := p; disp := d |}) end.
Definition disps cg (p : pixel) : list N := disparities (G cg) (px p) 0.
Definition process cg (p : pixel) m : list bool := proc cg p (disps cg p) m.

Lemma run_clear cg m n : static cg -> mem_ok cg m -> inb cg n ->
  run (make_node_unavailable cg n) m = Ok (tt, clear cg m n).
Proof.
  intros Hs Hm Hn. unfold make_node_unavailable. cbn [run].
  rewrite set_in_bounds by (apply idx_lt; assumption). reflexivity.
Qed.

Lemma proc1_ok cg m n : mem_ok cg m -> mem_ok cg (proc1 cg m n).
Proof. intros H. unfold proc1. destruct (rmvb cg m n); [apply clear_ok|]; exact H. Qed.

Lemma disps_In cg p d : static cg -> in_image (G cg) p ->
  In d (disps cg p) <-> match_exists (G cg) {| npix := p; disp := d |}.
Proof.
  intros Hs Hp. unfold disps. rewrite In_disparities; [|apply Hs|exact Hp].
  split; [tauto|]. intros H; split; [lia|exact H].
Qed.

(** A pixel and some disparities with a place in the array. *)
Definition dispsok cg (p : pixel) (ds : list N) : Prop :=
  forall d, In d ds -> inb cg {| npix := p; disp := d |}.

Lemma dispsok_disps cg p : static cg -> in_image (G cg) p -> dispsok cg p (disps cg p).
Proof. intros Hs Hp d Hd. apply disps_In in Hd; try assumption. apply match_inb; exact Hd. Qed.

Lemma proc_ok cg p ds m : mem_ok cg m -> mem_ok cg (proc cg p ds m).
Proof. revert m; induction ds as [|d ds IH]; intros m H; cbn [proc]; auto using proc1_ok. Qed.

Lemma run_process_gen cg p ds m ch : static cg -> dispsok cg p ds -> mem_ok cg m ->
  exists ch', run (cloop ds
    (fun d changed =>
       let n := {| npix := p; disp := d |} in
       rm <== should_remove_node cg n ;;
       if rm then _ <== make_node_unavailable cg n ;; Ret true else Ret changed) ch) m
  = Ok (ch', proc cg p ds m).
Proof.
  intros Hs. revert m ch. induction ds as [|d ds IH]; intros m ch Hd Hm; cbn [cloop proc].
  - exists ch. reflexivity.
  - cbv zeta. rewrite cbind_assoc_run, cbind_assoc_run.
    assert (Hn : inb cg {| npix := p; disp := d |}) by (apply Hd; left; reflexivity).
    rewrite run_should_remove by assumption. cbn [bind fst snd]. unfold proc1.
    destruct (rmvb cg m {| npix := p; disp := d |}).
    + rewrite cbind_assoc_run, run_clear by assumption. cbn [bind fst snd run].
      apply IH; [intros x Hx; apply Hd; right; exact Hx|apply clear_ok; exact Hm].
    + cbn [run bind fst snd]. apply IH; [intros x Hx; apply Hd; right; exact Hx|exact Hm].
Qed.

Lemma run_process cg p m : static cg -> mem_ok cg m -> in_image (G cg) p ->
  exists ch, run (csp_process_pixel cg p) m = Ok (ch, process cg p m).
Proof.
  intros Hs Hm Hp. unfold csp_process_pixel, process, disps.
  rewrite disparities_right_eq by (try apply Hp; apply Hs).
  apply run_process_gen; [exact Hs|apply dispsok_disps; assumption|exact Hm].
Qed.

Definition hasb cg m (p : pixel) : bool := existsb (fun d => avb cg m {| npix := p; disp := d |}) (disps cg p).

Lemma run_pixel_available cg p m : static cg -> mem_ok cg m -> in_image (G cg) p ->
  run (pixel_available cg p) m = Ok (hasb cg m p, m).
Proof.
  intros Hs Hm Hp. unfold pixel_available, hasb.
  rewrite disparities_right_eq by (try apply Hp; apply Hs). fold (disps cg p).
  pose proof (dispsok_disps cg p Hs Hp) as Hd.
  enough (E : forall ds acc, dispsok cg p ds ->
    run (cloop ds (fun d pa => a <== is_node_available cg {| npix := p; disp := d |} ;;
       Ret (if a then true else pa)) acc) m
    = Ok (acc || existsb (fun d => avb cg m {| npix := p; disp := d |}) ds, m)).
  { rewrite E by exact Hd. reflexivity. }
  clear Hd. induction ds as [|d ds IH]; intros acc Hd; cbn [cloop existsb].
  - rewrite orb_false_r. reflexivity.
  - rewrite cbind_assoc_run, cbind_assoc_run, run_node; try assumption; [|apply Hd; left; reflexivity].
    cbn [bind fst snd run]. rewrite IH by (intros x Hx; apply Hd; right; exact Hx).
    destruct (avb cg m {| npix := p; disp := d |}), acc; reflexivity.
Qed.

(** *** Sweeps *)

Fixpoint sweep cg (ps : list pixel) m : bool * list bool :=
  match ps with
  | [] => (true, m)
  | p :: r => let m' := process cg p m in
              if hasb cg m' p then sweep cg r m' else (false, m')
  end.

Definition pixels_ok cg (ps : list pixel) : Prop := forall p, In p ps -> in_image (G cg) p.

Lemma process_ok cg p m : mem_ok cg m -> mem_ok cg (process cg p m).
Proof. apply proc_ok. Qed.

Lemma sweep_ok cg ps m : mem_ok cg m -> mem_ok cg (snd (sweep cg ps m)).
Proof.
  revert m; induction ps as [|p ps IH]; intros m H; cbn [sweep snd]; [exact H|].
  destruct (hasb cg (process cg p m) p); [apply IH|cbn [snd]]; apply process_ok; exact H.
Qed.

Lemma sweep_app cg ps ps' m :
  sweep cg (ps ++ ps') m =
  if fst (sweep cg ps m) then sweep cg ps' (snd (sweep cg ps m)) else (false, snd (sweep cg ps m)).
Proof.
  revert m; induction ps as [|p ps IH]; intros m; cbn [app sweep fst snd]; [reflexivity|].
  destruct (hasb cg (process cg p m) p); [apply IH|reflexivity].
Qed.

Definition row (y : N) (xs : list N) : list pixel := map (fun x => {| px := x; py := y |}) xs.

Lemma run_sweep_row cg y xs pa m : static cg -> mem_ok cg m -> pixels_ok cg (row y xs) ->
  pa = true \/ xs <> [] ->
  run (sweep_row cg y xs pa) m = Ok (sweep cg (row y xs) m).
Proof.
  intros Hs. revert pa m. induction xs as [|x xs IH]; intros pa m Hm Hp Hpa; cbn [sweep_row row map sweep].
  - destruct Hpa as [->|H]; [reflexivity|contradiction].
  - cbv zeta.
    assert (Hi : in_image (G cg) {| px := x; py := y |}) by (apply Hp; left; reflexivity).
    rewrite cbind_assoc_run. destruct (run_process cg _ m Hs Hm Hi) as [ch ->]. cbn [bind fst snd].
    rewrite cbind_assoc_run, run_pixel_available by (try assumption; apply process_ok; exact Hm).
    cbn [bind fst snd].
    destruct (hasb cg (process cg {| px := x; py := y |} m) {| px := x; py := y |}); [|reflexivity].
    apply IH; [apply process_ok; exact Hm| |left; reflexivity].
    intros p Hq. apply Hp. right. exact Hq.
Qed.

(** Rows of one job. *)
Fixpoint job_rows (fuel : nat) (jobs y h : N) : list N :=
  match fuel with
  | O => []
  | S f => if y <? h then y :: job_rows f jobs (y + jobs) h else []
  end.

Lemma In_job_rows fuel jobs y h r : In r (job_rows fuel jobs y h) -> y <= r < h.
Proof.
  revert y; induction fuel as [|f IH]; intros y; cbn [job_rows]; [intros []|].
  destruct (N.ltb_spec y h); [|intros []]. intros [<-|Hr]; [lia|]. apply IH in Hr. lia.
Qed.

Definition grid (w : N) (ys : list N) : list pixel := flat_map (fun y => row y (range 0 w)) ys.

Lemma In_grid w ys p : In p (grid w ys) <-> px p < w /\ In (py p) ys.
Proof.
  unfold grid, row. rewrite in_flat_map. split.
  - intros [y [Hy Hp]]. apply in_map_iff in Hp. destruct Hp as [x [<- Hx]]. apply In_range in Hx.
    cbn [px py]. split; [lia|exact Hy].
  - intros [Hx Hy]. exists (py p). split; [exact Hy|]. apply in_map_iff. exists (px p).
    split; [destruct p; reflexivity|apply In_range; lia].
Qed.

Lemma run_sweep_rows cg fuel jobs y pa m : static cg -> mem_ok cg m ->
  1 <= jobs -> Ht cg + jobs < wmod T -> Ht cg - y < N.of_nat fuel -> pa = true \/ y < Ht cg ->
  run (sweep_rows cg fuel jobs y pa) m = Ok (sweep cg (grid (Wd cg) (job_rows fuel jobs y (Ht cg))) m).
Proof.
  intros Hs Hm Hj Hjw. revert y pa m Hm. induction fuel as [|f IH]; intros y pa m Hm Hf Hpa; [lia|].
  cbn [sweep_rows job_rows]. destruct (N.ltb_spec y (Ht cg)) as [Hy|Hy].
  - unfold grid; cbn [flat_map]; fold (grid (Wd cg) (job_rows f jobs (y + jobs) (Ht cg))).
    rewrite cbind_assoc_run, run_sweep_row; [|assumption|assumption| |].
    + cbn [bind]. rewrite sweep_app.
      destruct (sweep cg (row y (range 0 (Wd cg))) m) as [ok m'] eqn:E. cbn [fst snd].
      destruct ok; [|reflexivity].
      rewrite uadd_small by lia. apply IH; [|lia|left; reflexivity].
      change m' with (snd (true, m')). rewrite <- E. apply sweep_ok; exact Hm.
    + intros p Hp. unfold row in Hp. apply in_map_iff in Hp. destruct Hp as [x [<- Hx]].
      apply In_range in Hx. split; cbn [px py]; lia.
    + right. pose proof (wf_sizes _ (st_graph cg Hs)) as S. pose proof (sz_w _ S).
      rewrite range_cons by lia. discriminate.
  - destruct Hpa as [->|H]; [reflexivity|lia].
Qed.

(** *** The whole array *)

Lemma nodes_count_eq cg m : static cg -> mem_ok cg m -> nodes_count (G cg) = len m.
Proof.
  intros [Hw _] Hm. pose proof (wf_sizes _ Hw) as S. unfold nodes_count.
  rewrite (umul_small T (Wd cg)) by apply (sz_wh _ S).
  rewrite umul_small by apply (sz_whl _ S). symmetry; exact Hm.
Qed.

Lemma run_check_nodes cg m : static cg -> mem_ok cg m ->
  run (check_nodes_left cg) m = Ok (existsb (fun b => b) m, m).
Proof.
  intros Hs Hm. unfold check_nodes_left. rewrite (nodes_count_eq cg m Hs Hm).
  rewrite <- existsb_range_bits. apply run_cexists. intros i Hi. apply In_range in Hi.
  cbn [run]. rewrite bit_get by lia. reflexivity.
Qed.

Lemma run_make_all cg m : static cg -> mem_ok cg m ->
  run (make_all_nodes_unavailable cg) m = Ok (tt, fill (len m) false).
Proof.
  intros Hs Hm. unfold make_all_nodes_unavailable. rewrite (nodes_count_eq cg m Hs Hm).
  destruct (cloop_inv (fun (done : list N) (_ : unit) m' =>
      len m' = len m /\ forall i, bit m' i = true -> bit m i = true /\ ~ In i done)
    (range 0 (len m)) (fun i _ => Write i false (Ret tt)) tt m) as [[] [m' [E [L B]]]].
  - split; [reflexivity|]. intros i H. split; [exact H|intros []].
  - intros pre i post [] m1 Er [L B].
    assert (Hi : In i (range 0 (len m))) by (rewrite Er; apply in_elt). apply In_range in Hi.
    cbn [run]. rewrite set_in_bounds by lia. cbn [bind run].
    eexists tt, _. split; [reflexivity|]. split; [rewrite len_upd; exact L|].
    intros j. rewrite bit_upd by lia. destruct (N.eqb_spec j i) as [->|Hne]; [discriminate|].
    intros H. destruct (B j H) as [B1 B2]. split; [exact B1|]. rewrite in_app_iff.
    intros [X|[X|[]]]; [contradiction|congruence].
  - rewrite E. do 2 f_equal. apply mem_ext; [rewrite len_fill; exact L|].
    intros i Hi. rewrite bit_fill by lia. destruct (bit m' i) eqn:Eb; [|reflexivity].
    destruct (B i Eb) as [_ N]. exfalso. apply N. apply In_range. lia.
Qed.

Lemma none_no_bit n : existsb (fun b => b) (fill n false) = false.
Proof.
  destruct (existsb (fun b => b) (fill n false)) eqn:E; [|reflexivity].
  apply any_bit in E. destruct E as [i [_ E]]. rewrite bit_fill_false in E. discriminate.
Qed.

(** One call of [csp_solution_iteration]. *)
Definition job_pixels cg (jobs job : N) : list pixel :=
  grid (Wd cg) (job_rows (S (N.to_nat (Ht cg))) jobs job (Ht cg)).

Definition iter cg (jobs job : N) m : bool * list bool :=
  if Ht cg <=? job then (false, m) else
  let r := sweep cg (job_pixels cg jobs job) m in
  if fst r then (false, snd r) else (existsb (fun b => b) (snd r), fill (len m) false).

Lemma run_iteration cg jobs job m : static cg -> mem_ok cg m -> 1 <= jobs -> Ht cg + jobs < wmod T ->
  run (csp_solution_iteration cg jobs job) m = Ok (iter cg jobs job m).
Proof.
  intros Hs Hm Hj Hjw. unfold csp_solution_iteration, iter.
  destruct (N.leb_spec (Ht cg) job) as [Hh|Hh]; [reflexivity|].
  rewrite cbind_assoc_run, run_sweep_rows; try assumption; [|lia|right; exact Hh].
  cbn [bind]. fold (job_pixels cg jobs job).
  pose proof (sweep_ok cg (job_pixels cg jobs job) m Hm) as Hm'.
  destruct (sweep cg (job_pixels cg jobs job) m) as [ok m']. cbn [fst snd] in *.
  destruct ok; cbn [negb]; [reflexivity|].
  assert (EL : len m' = len m) by (unfold mem_ok in *; congruence).
  rewrite cbind_assoc_run, run_check_nodes by assumption. cbn [bind fst snd].
  destruct (existsb (fun b => b) m') eqn:E; cbn [negb].
  - rewrite cbind_assoc_run, run_make_all by assumption. cbn [bind run].
    cbn [fst snd run]. rewrite EL. reflexivity.
  - cbn [run]. rewrite (no_bit m' E), EL at 1. reflexivity.
Qed.

Lemma iter_ok cg jobs job m : mem_ok cg m -> mem_ok cg (snd (iter cg jobs job m)).
Proof.
  intros Hm. unfold iter. destruct (Ht cg <=? job); [exact Hm|].
  destruct (fst (sweep cg (job_pixels cg jobs job) m)); cbn [snd].
  - apply sweep_ok; exact Hm.
  - unfold mem_ok. rewrite len_fill. exact Hm.
Qed.

(** *** Single thread *)

Lemma job_rows_one f y h : h - y < N.of_nat f -> job_rows f 1 y h = range y h.
Proof.
  revert y; induction f as [|f IH]; intros y Hf; [lia|]. cbn [job_rows].
  destruct (N.ltb_spec y h); [|rewrite range_nil by lia; reflexivity].
  rewrite (range_cons y h) by lia. f_equal. apply IH. lia.
Qed.

Definition raster cg : list pixel := grid (Wd cg) (range 0 (Ht cg)).

Lemma job_pixels_one cg : job_pixels cg 1 0 = raster cg.
Proof. unfold job_pixels, raster. rewrite job_rows_one by lia. reflexivity. Qed.

Lemma In_raster cg p : In p (raster cg) <-> in_image (G cg) p.
Proof. unfold raster. rewrite In_grid, In_range. unfold in_image. lia. Qed.

(** The result of the solver. *)
Definition solved cg m : bool * list bool :=
  let r := sweep cg (raster cg) m in
  if fst r then (true, snd r) else (false, fill (len m) false).

Lemma solved_ok cg m : mem_ok cg m -> mem_ok cg (snd (solved cg m)).
Proof.
  intros Hm. unfold solved. destruct (fst (sweep cg (raster cg) m)); cbn [snd].
  - apply sweep_ok; exact Hm.
  - unfold mem_ok. rewrite len_fill. exact Hm.
Qed.

(** Facts about one pixel. *)
Lemma sub_proc1 cg m n : static cg -> mem_ok cg m -> inb cg n -> sub (proc1 cg m n) m.
Proof.
  intros Hs Hm Hn. unfold proc1. destruct (rmvb cg m n); [apply sub_clear; assumption|apply sub_refl].
Qed.

Lemma sub_proc cg p ds m : static cg -> mem_ok cg m -> dispsok cg p ds -> sub (proc cg p ds m) m.
Proof.
  intros Hs. revert m; induction ds as [|d ds IH]; intros m Hm Hd; cbn [proc]; [apply sub_refl|].
  eapply sub_trans; [apply IH|apply sub_proc1; try assumption].
  - apply proc1_ok; exact Hm.
  - intros x Hx; apply Hd; right; exact Hx.
  - apply Hd; left; reflexivity.
Qed.

Lemma sub_process cg p m : static cg -> mem_ok cg m -> in_image (G cg) p -> sub (process cg p m) m.
Proof. intros Hs Hm Hp. apply sub_proc; [assumption|assumption|apply dispsok_disps; assumption]. Qed.

Lemma sub_sweep cg ps m : static cg -> mem_ok cg m -> pixels_ok cg ps -> sub (snd (sweep cg ps m)) m.
Proof.
  intros Hs. revert m; induction ps as [|p ps IH]; intros m Hm Hp; cbn [sweep snd]; [apply sub_refl|].
  assert (Hi : in_image (G cg) p) by (apply Hp; left; reflexivity).
  pose proof (sub_process cg p m Hs Hm Hi) as S1.
  destruct (hasb cg (process cg p m) p); [|exact S1].
  eapply sub_trans; [apply IH|exact S1]; [apply process_ok; exact Hm|].
  intros q Hq; apply Hp; right; exact Hq.
Qed.

(** Only nodes of the processed pixel change. *)
Lemma proc_other cg p ds m n : static cg -> mem_ok cg m -> dispsok cg p ds -> inb cg n -> npix n <> p ->
  avb cg (proc cg p ds m) n = avb cg m n.
Proof.
  intros Hs. revert m; induction ds as [|d ds IH]; intros m Hm Hd Hn Hne; cbn [proc]; [reflexivity|].
  assert (H1 : inb cg {| npix := p; disp := d |}) by (apply Hd; left; reflexivity).
  rewrite IH; [|apply proc1_ok; exact Hm|intros x Hx; apply Hd; right; exact Hx|exact Hn|exact Hne].
  unfold proc1. destruct (rmvb cg m {| npix := p; disp := d |}); [|reflexivity].
  unfold avb, clear. rewrite bit_upd by (apply idx_lt; assumption).
  destruct (N.eqb_spec (node_index (G cg) n) (node_index (G cg) {| npix := p; disp := d |})) as [E|E]; [|reflexivity].
  apply idx_inj in E; try assumption. subst n. contradiction.
Qed.

Lemma process_other cg p m n : static cg -> mem_ok cg m -> in_image (G cg) p -> inb cg n -> npix n <> p ->
  avb cg (process cg p m) n = avb cg m n.
Proof. intros Hs Hm Hp. apply proc_other; [assumption|assumption|apply dispsok_disps; assumption]. Qed.

Lemma hasb_iff cg m p : static cg -> in_image (G cg) p ->
  hasb cg m p = true <-> exists n, match_exists (G cg) n /\ npix n = p /\ avb cg m n = true.
Proof.
  intros Hs Hp. unfold hasb. rewrite existsb_exists. split.
  - intros [d [Hd E]]. apply disps_In in Hd; try assumption. exists {| npix := p; disp := d |}. auto.
  - intros [[p' d] [Hm [E Ea]]]. cbn [npix] in E. subst p'. exists d. split; [apply disps_In; assumption|exact Ea].
Qed.

Lemma hasb_sweep_other cg ps m p : static cg -> mem_ok cg m -> pixels_ok cg ps -> in_image (G cg) p ->
  ~ In p ps -> hasb cg m p = true -> hasb cg (snd (sweep cg ps m)) p = true.
Proof.
  intros Hs. revert m; induction ps as [|q ps IH]; intros m Hm Hps Hp Hn Hh; cbn [sweep snd]; [exact Hh|].
  assert (Hq : in_image (G cg) q) by (apply Hps; left; reflexivity).
  assert (Hh' : hasb cg (process cg q m) p = true).
  { apply hasb_iff in Hh; try assumption. destruct Hh as [n [M [E A]]].
    apply hasb_iff; try assumption. exists n. split; [exact M|]. split; [exact E|].
    rewrite process_other; try assumption; [apply match_inb; exact M|].
    intros X. apply Hn. left. congruence. }
  destruct (hasb cg (process cg q m) q); [|exact Hh'].
  apply IH; try assumption.
  - apply process_ok; exact Hm.
  - intros x Hx; apply Hps; right; exact Hx.
  - intros X; apply Hn; right; exact X.
Qed.

Lemma sweep_true cg ps m : static cg -> mem_ok cg m -> pixels_ok cg ps -> NoDup ps ->
  fst (sweep cg ps m) = true -> forall p, In p ps -> hasb cg (snd (sweep cg ps m)) p = true.
Proof.
  intros Hs. revert m; induction ps as [|q ps IH]; intros m Hm Hps Hnd Hf p Hp; [destruct Hp|].
  cbn [sweep] in *. inversion Hnd as [|q' ps' Hq Hnd']; subst.
  destruct (hasb cg (process cg q m) q) eqn:Hh; [|discriminate].
  assert (Hps' : pixels_ok cg ps) by (intros x Hx; apply Hps; right; exact Hx).
  destruct Hp as [<-|Hp].
  - apply hasb_sweep_other; try assumption; [apply process_ok; exact Hm|apply Hps; left; reflexivity].
  - apply IH; try assumption. apply process_ok; exact Hm.
Qed.

Lemma NoDup_grid w ys : NoDup ys -> NoDup (grid w ys).
Proof.
  intros H. unfold grid, row. apply NoDup_flat_map; [exact H| |].
  - intros y _. apply NoDup_map_inj; [|apply NoDup_range]. intros x x' _ _ E. injection E; auto.
  - intros y y' p _ _ I I'. apply in_map_iff in I, I'. destruct I as [x [<- _]], I' as [x' [E _]].
    injection E; auto.
Qed.

Lemma NoDup_raster cg : NoDup (raster cg).
Proof. apply NoDup_grid, NoDup_range. Qed.

Lemma raster_ok cg : pixels_ok cg (raster cg).
Proof. intros p Hp. apply In_raster; exact Hp. Qed.

Lemma origin_in cg : static cg -> in_image (G cg) {| px := 0; py := 0 |}.
Proof.
  intros Hs. pose proof (wf_sizes _ (st_graph cg Hs)) as S. pose proof (sz_w _ S). pose proof (sz_h _ S).
  split; cbn [px py]; lia.
Qed.

(** An empty array stays empty and the sweep fails at the first pixel. *)
Lemma hasb_none cg n p : hasb cg (fill n false) p = false.
Proof.
  unfold hasb. destruct (existsb _ (disps cg p)) eqn:E; [|reflexivity].
  apply existsb_exists in E. destruct E as [d [_ E]]. unfold avb in E. rewrite bit_fill_false in E. discriminate.
Qed.

Lemma rmvb_none cg n x : rmvb cg (fill n false) x = false.
Proof. unfold rmvb, avb. rewrite bit_fill_false. reflexivity. Qed.

Lemma process_none cg n p : process cg p (fill n false) = fill n false.
Proof.
  unfold process. induction (disps cg p) as [|d ds IH]; cbn [proc]; [reflexivity|].
  unfold proc1. rewrite rmvb_none. exact IH.
Qed.

Lemma iter_none cg jobs job n : static cg ->
  iter cg jobs job (fill n false) = (false, fill n false).
Proof.
  intros Hs. unfold iter. destruct (N.leb_spec (Ht cg) job) as [H|H]; [reflexivity|].
  unfold job_pixels, grid. cbn [job_rows]. destruct (N.ltb_spec job (Ht cg)); [|lia].
  cbn [flat_map].
  pose proof (wf_sizes _ (st_graph cg Hs)) as S. pose proof (sz_w _ S).
  rewrite (range_cons 0 (Wd cg)) by lia. unfold row. cbn [map app sweep].
  rewrite process_none, hasb_none. cbn [fst snd]. rewrite none_no_bit, len_fill. reflexivity.
Qed.

Lemma sweep_true_bit cg m : static cg -> mem_ok cg m -> fst (sweep cg (raster cg) m) = true ->
  existsb (fun b => b) (snd (sweep cg (raster cg) m)) = true.
Proof.
  intros Hs Hm Hf.
  pose proof (sweep_true cg (raster cg) m Hs Hm (raster_ok cg) (NoDup_raster cg) Hf) as H.
  pose proof (origin_in cg Hs) as O.
  specialize (H {| px := 0; py := 0 |} (proj2 (In_raster cg _) O)).
  apply hasb_iff in H; try assumption. destruct H as [n [M [_ A]]].
  apply any_bit. exists (node_index (G cg) n). split; [|exact A].
  apply idx_lt; [assumption|apply sweep_ok; exact Hm|apply match_inb; exact M].
Qed.

Lemma one_job cg : static cg -> Ht cg + 1 < wmod T.
Proof.
  intros Hs. pose proof (wf_sizes _ (st_graph cg Hs)) as S. pose proof (sz_h _ S). pose proof (sz_h2 _ S). lia.
Qed.

Lemma run_solve_csp cg m fuel : static cg -> mem_ok cg m -> (2 <= fuel)%nat ->
  run (solve_csp_fuel fuel 1 1 cg) m = Ok (solved cg m).
Proof.
  intros Hs Hm Hf. destruct fuel as [|[|fuel]]; [lia|lia|].
  pose proof (one_job cg Hs) as H1.
  unfold solve_csp_fuel. rewrite cbind_assoc_run.
  assert (R : forall m, mem_ok cg m -> run (csp_round cg 1 1) m = Ok (iter cg 1 0 m)).
  { intros m1 Hm1. unfold csp_round. rewrite (range_cons 0 1), (range_nil (0 + 1) 1) by lia.
    cbn [cloop]. rewrite cbind_assoc_run, cbind_assoc_run, run_iteration; try assumption; [|lia].
    cbn [bind run]. destruct (iter cg 1 0 m1); reflexivity. }
  assert (E : run (csp_rounds cg (S (S fuel)) 1 1) m = Ok (tt, snd (solved cg m))).
  { cbn [csp_rounds]. rewrite cbind_assoc_run, R by exact Hm. cbn [bind].
    unfold iter, solved. rewrite job_pixels_one.
    destruct (N.leb_spec (Ht cg) 0) as [X|X]; [destruct (origin_in cg Hs); cbn [py] in *; lia|].
    destruct (sweep cg (raster cg) m) as [ok m']. cbn [fst snd]. destruct ok; cbn [fst snd run]; [reflexivity|].
    destruct (existsb (fun b => b) m'); [|reflexivity].
    rewrite cbind_assoc_run, R by (unfold mem_ok; rewrite len_fill; exact Hm).
    rewrite iter_none by exact Hs. reflexivity. }
  rewrite E. cbn [bind fst snd]. rewrite run_check_nodes by (try assumption; apply solved_ok; exact Hm).
  unfold solved. pose proof (sweep_true_bit cg m Hs Hm) as Hb.
  destruct (fst (sweep cg (raster cg) m)); cbn [snd].
  - rewrite Hb by reflexivity. reflexivity.
  - rewrite none_no_bit. reflexivity.
Qed.
End Graph.
