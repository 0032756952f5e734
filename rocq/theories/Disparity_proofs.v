(** Lemmas about the constructor and the penalties of the disparity graph. *)
From Verif Require Export Image_proofs.
Local Open Scope N_scope.

Section Graph.
Context {T : target}.
Implicit Type g : dgraph T.

Notation Wd g := (width (right g)).
Notation Ht g := (height (right g)).
Notation Lv g := (levels g).

(** *** Constructor *)

Lemma make_graph_accepts (l r : image) (lev : N) (c s : F T) :
  2 ^ 32 <= wmod T -> consistent_image l -> consistent_image r ->
  width l * height l < 2 ^ 32 -> width r * height r < 2 ^ 32 ->
  width l * height l * 4 * lev < wmod T ->
  width l * height l * 4 * lev <= vector_max_size ->
  (forall g, make_graph l r lev c s = Ok g <->
     (forall k, ~ violated l r lev c s k) /\
     g = {| left := l; right := r; levels := lev; cleanness := c; smoothness := s;
            reparam := fill (width l * height l * 4 * lev) fzero |}) /\
  (forall k, make_graph l r lev c s = Stop (Throw (InvalidArgument k)) <->
     first_violated l r lev c s k).
Proof.
  intros Hw Cl Cr Sl Sr Hp Ha.
  destruct (image_valid_decides T l Hw Cl Sl) as [bl [El Vl]].
  destruct (image_valid_decides T r Hw Cr Sr) as [br [Er Vr]].
  unfold make_graph. rewrite El, Er. cbn [bind].
  assert (St : forall k, violated l r lev c s k -> (forall j, j < k -> ~ violated l r lev c s j) ->
    (forall g, Stop (Throw (InvalidArgument k)) = Ok g <-> (forall k, ~ violated l r lev c s k) /\
      g = {| left := l; right := r; levels := lev; cleanness := c; smoothness := s;
            reparam := fill (width l * height l * 4 * lev) fzero |}) /\
    (forall k', @Stop (dgraph T) (Throw (InvalidArgument k)) = Stop (Throw (InvalidArgument k')) <->
      first_violated l r lev c s k')).
  { intros k V F. split.
    - intros g. split; [discriminate|]. intros [A _]. exfalso. exact (A k V).
    - intros k'. split.
      + intros E. injection E as <-. split; assumption.
      + intros [V' F']. destruct (N.lt_trichotomy k k') as [H|[->|H]]; [|reflexivity|].
        * exfalso. exact (F' k H V).
        * exfalso. exact (F k' H V'). }
  assert (C : forall k, k < 10 -> k = 0 \/ k = 1 \/ k = 2 \/ k = 3 \/ k = 4 \/ k = 5 \/ k = 6 \/ k = 7 \/ k = 8 \/ k = 9) by lia.
  assert (B0 : bl = false <-> violated l r lev c s 0).
  { cbn [violated]. rewrite <- Vl. destruct bl; intuition congruence. }
  assert (B1 : br = false <-> violated l r lev c s 1).
  { cbn [violated]. rewrite <- Vr. destruct br; intuition congruence. }
  destruct bl; cbn [negb].
  2:{ apply St; [apply B0; reflexivity|]. intros j Hj. lia. }
  assert (N0 : ~ violated l r lev c s 0) by (intros V; apply B0 in V; discriminate).
  destruct br; cbn [negb].
  2:{ apply St; [apply B1; reflexivity|]. intros j Hj. replace j with 0 by lia. exact N0. }
  assert (N1 : ~ violated l r lev c s 1) by (intros V; apply B1 in V; discriminate).
  clear B0 B1 Vl Vr El Er.
  destruct (N.leb_spec lev 1) as [H2|H2].
  { apply St; [cbn [violated]; lia|]. intros j Hj. assert (J : j = 0 \/ j = 1) by lia.
    destruct J as [->| ->]; assumption. }
  assert (N2 : ~ violated l r lev c s 2) by (cbn [violated]; lia).
  destruct (N.ltb_spec (width l) lev) as [H3|H3].
  { apply St; [cbn [violated]; lia|]. intros j Hj. assert (J : j = 0 \/ j = 1 \/ j = 2) by lia.
    destruct J as [->|[->| ->]]; assumption. }
  assert (N3 : ~ violated l r lev c s 3) by (cbn [violated]; lia).
  destruct (N.eqb_spec (width l) (width r)) as [H4|H4]; cbn [negb].
  2:{ apply St; [cbn [violated]; exact H4|]. intros j Hj. assert (J : j = 0 \/ j = 1 \/ j = 2 \/ j = 3) by lia.
    destruct J as [->|[->|[->| ->]]]; assumption. }
  assert (N4 : ~ violated l r lev c s 4) by (cbn [violated]; tauto).
  destruct (N.eqb_spec (height l) (height r)) as [H5|H5]; cbn [negb].
  2:{ apply St; [cbn [violated]; exact H5|]. intros j Hj. assert (J : j = 0 \/ j = 1 \/ j = 2 \/ j = 3 \/ j = 4) by lia.
    destruct J as [->|[->|[->|[->| ->]]]]; assumption. }
  assert (N5 : ~ violated l r lev c s 5) by (cbn [violated]; tauto).
  destruct (N.eqb_spec (max_value l) (max_value r)) as [H6|H6]; cbn [negb].
  2:{ apply St; [cbn [violated]; exact H6|]. intros j Hj. assert (J : j = 0 \/ j = 1 \/ j = 2 \/ j = 3 \/ j = 4 \/ j = 5) by lia.
    destruct J as [->|[->|[->|[->|[->| ->]]]]]; assumption. }
  assert (N6 : ~ violated l r lev c s 6) by (cbn [violated]; tauto).
  destruct (flt c fzero) eqn:H7.
  { apply St; [cbn [violated]; exact H7|]. intros j Hj.
    assert (J : j = 0 \/ j = 1 \/ j = 2 \/ j = 3 \/ j = 4 \/ j = 5 \/ j = 6) by lia.
    destruct J as [->|[->|[->|[->|[->|[->| ->]]]]]]; assumption. }
  assert (N7 : ~ violated l r lev c s 7) by (cbn [violated]; congruence).
  destruct (flt s fzero) eqn:H8.
  { apply St; [cbn [violated]; exact H8|]. intros j Hj.
    assert (J : j = 0 \/ j = 1 \/ j = 2 \/ j = 3 \/ j = 4 \/ j = 5 \/ j = 6 \/ j = 7) by lia.
    destruct J as [->|[->|[->|[->|[->|[->|[->| ->]]]]]]]; assumption. }
  assert (N8 : ~ violated l r lev c s 8) by (cbn [violated]; congruence).
  destruct (flt c feps && flt s feps) eqn:H9.
  { apply andb_true_iff in H9. apply St; [cbn [violated]; exact H9|]. intros j Hj.
    assert (J : j = 0 \/ j = 1 \/ j = 2 \/ j = 3 \/ j = 4 \/ j = 5 \/ j = 6 \/ j = 7 \/ j = 8) by lia.
    destruct J as [->|[->|[->|[->|[->|[->|[->|[->| ->]]]]]]]]; assumption. }
  assert (N9 : ~ violated l r lev c s 9).
  { cbn [violated]. rewrite <- andb_true_iff. congruence. }
  assert (Nall : forall k, ~ violated l r lev c s k).
  { intros k. destruct (N.lt_ge_cases k 10) as [K|K].
    - destruct (C k K) as [->|[->|[->|[->|[->|[->|[->|[->|[->| ->]]]]]]]]]; assumption.
    - unfold violated. destruct k as [|k]; [lia|].
      do 4 (destruct k as [k|k|]; try tauto; try lia). }
  assert (M1 : umul T (width l) (height l) = width l * height l) by (apply umul_small; lia).
  assert (S1 : width l * height l * 4 * 1 <= width l * height l * 4 * lev) by (apply N.mul_le_mono_l; lia).
  assert (M2 : umul T (width l * height l) NEIGHBORS_COUNT = width l * height l * 4)
    by (apply umul_small; unfold NEIGHBORS_COUNT; lia).
  rewrite M1, M2, umul_small by exact Hp.
  unfold alloc. destruct (N.ltb_spec vector_max_size (width l * height l * 4 * lev)); [lia|]. cbn [bind].
  split.
  - intros g. split.
    + intros E. injection E as <-. split; [exact Nall|reflexivity].
    + intros [_ ->]. reflexivity.
  - intros k. split; [discriminate|]. intros [V _]. exfalso. exact (Nall k V).
Qed.

(** What a constructed graph satisfies, without a bound on the pixels. *)
Lemma image_valid_nonzero img : image_valid T img = Ok true -> 0 < width img /\ 0 < height img.
Proof.
  unfold image_valid, image_valid_fuel.
  destruct (N.eqb_spec (max_value img) 0); [discriminate|].
  destruct (N.eqb_spec (width img) 0); [discriminate|].
  destruct (N.eqb_spec (height img) 0); [discriminate|]. lia.
Qed.

Lemma make_graph_Ok (l r : image) (lev : N) (c s : F T) g :
  make_graph l r lev c s = Ok g ->
  image_valid T l = Ok true /\ image_valid T r = Ok true /\ 1 < lev /\ lev <= width l /\
  width l = width r /\ height l = height r /\ max_value l = max_value r /\
  flt c fzero = false /\ flt s fzero = false /\ flt c feps && flt s feps = false /\
  let n := umul T (umul T (umul T (width l) (height l)) NEIGHBORS_COUNT) lev in
  n <= vector_max_size /\
  g = {| left := l; right := r; levels := lev; cleanness := c; smoothness := s;
         reparam := fill n fzero |}.
Proof.
  unfold make_graph. intros H.
  apply bind_Ok in H. destruct H as [bl [El H]]. destruct bl; cbn [negb] in H; [|discriminate].
  apply bind_Ok in H. destruct H as [br [Er H]]. destruct br; cbn [negb] in H; [|discriminate].
  destruct (N.leb_spec lev 1); [discriminate|].
  destruct (N.ltb_spec (width l) lev); [discriminate|].
  destruct (N.eqb_spec (width l) (width r)); cbn [negb] in H; [|discriminate].
  destruct (N.eqb_spec (height l) (height r)); cbn [negb] in H; [|discriminate].
  destruct (N.eqb_spec (max_value l) (max_value r)); cbn [negb] in H; [|discriminate].
  destruct (flt c fzero) eqn:Fc; [discriminate|].
  destruct (flt s fzero) eqn:Fs; [discriminate|].
  destruct (flt c feps && flt s feps) eqn:Fe; [discriminate|].
  apply bind_Ok in H. destruct H as [rp [Ea H]]. unfold alloc in Ea.
  match type of Ea with context [vector_max_size <? ?m] => destruct (N.ltb_spec vector_max_size m) as [Hm|Hm] end; [discriminate|].
  injection Ea as <-. injection H as <-. cbv zeta.
  repeat (split; [first [assumption|lia|reflexivity]|]). reflexivity.
Qed.

Lemma make_graph_wf (l r : image) (lev : N) (c s : F T) g :
  make_graph l r lev c s = Ok g -> consistent_image l -> consistent_image r ->
  width l * height l * 4 * lev < wmod T -> wf_graph g /\ zero_reparam g.
Proof.
  intros H Cl Cr Hp. apply make_graph_Ok in H. cbv zeta in H.
  destruct H as [El [Er [Hl [Hlw [Ew [Eh [_ [_ [_ [_ [Ha ->]]]]]]]]]]].
  destruct (image_valid_nonzero l El) as [Hx Hy].
  assert (A1 : width l * height l * 4 * 1 <= width l * height l * 4 * lev) by (apply N.mul_le_mono_l; lia).
  assert (M1 : umul T (width l) (height l) = width l * height l) by (apply umul_small; lia).
  assert (M2 : umul T (width l * height l) NEIGHBORS_COUNT = width l * height l * 4)
    by (apply umul_small; unfold NEIGHBORS_COUNT; lia).
  rewrite M1, M2, umul_small in * by exact Hp.
  split.
  - constructor; cbn [left right levels reparam]; try assumption; rewrite <- ?Ew, <- ?Eh; try assumption.
    apply len_fill.
  - intros v Hv. cbn [reparam] in Hv. unfold fill in Hv. apply repeat_spec in Hv. exact Hv.
Qed.

(** *** Penalties *)

Lemma reparam_value g n k : wf_graph g -> in_image g (npix n) -> disp n < Lv g -> k < 4 ->
  exists v, reparametrization_value_fast g n k = Ok v /\ In v (reparam g).
Proof.
  intros Hw Hp Hd Hk. unfold reparametrization_value_fast.
  destruct (reparam_index_small g n k Hw Hp Hd Hk) as [_ B]. rewrite <- (wf_reparam g Hw) in B.
  destruct (get_in_bounds _ _ B) as [v E]. exists v. split; [exact E|]. eapply get_In; eauto.
Qed.

(** The left pixel a node refers to. *)
Definition left_pixel (n : node) : pixel := {| px := px (npix n) + disp n; py := py (npix n) |}.

Lemma node_penalty_eq g n : wf_graph g -> match_exists g n ->
  exists vr vl r0 r1 r2 r3,
    nth_error (data (right g)) (N.to_nat (py (npix n) * Wd g + px (npix n))) = Some vr /\
    nth_error (data (left g)) (N.to_nat (py (npix n) * Wd g + (px (npix n) + disp n))) = Some vl /\
    reparametrization_value_fast g n 0 = Ok r0 /\
    reparametrization_value_fast g n 1 = Ok r1 /\
    reparametrization_value_fast g n 2 = Ok r2 /\
    reparametrization_value_fast g n 3 = Ok r3 /\
    node_penalty g n = Ok (fadd (fadd (fadd (fadd
      (fmul (cleanness g) (fsqr (fsub (of_u vr) (of_u vl)))) r0) r1) r2) r3).
Proof.
  intros Hw [Hp [Hd Hm]]. pose proof (wf_sizes g Hw) as S.
  pose proof (sz_wh g S) as Hs. pose proof (sz_w2 g S). pose proof (sz_w g S).
  destruct (in_image_inside g _ Hw Hp) as [Ir _].
  assert (Il : inside (left g) (left_pixel n)).
  { unfold inside, left_pixel; cbn [px py]. rewrite (wf_width g Hw), (wf_height g Hw).
    destruct Hp; auto. }
  destruct (pixel_addressing T (right g)) as [_ [_ [_ [_ Vr]]]]; [exact Hs|].
  destruct (Vr (wf_right g Hw) _ Ir) as [vr [E1 N1]].
  destruct (pixel_addressing T (left g)) as [_ [_ [_ [_ Vl]]]].
  { rewrite (wf_width g Hw), (wf_height g Hw). exact Hs. }
  destruct (Vl (wf_left g Hw) _ Il) as [vl [E2 N2]].
  destruct (reparam_value g n 0 Hw Hp Hd) as [r0 [E3 _]]; [lia|].
  destruct (reparam_value g n 1 Hw Hp Hd) as [r1 [E4 _]]; [lia|].
  destruct (reparam_value g n 2 Hw Hp Hd) as [r2 [E5 _]]; [lia|].
  destruct (reparam_value g n 3 Hw Hp Hd) as [r3 [E6 _]]; [lia|].
  exists vr, vl, r0, r1, r2, r3.
  rewrite (wf_width g Hw) in N2. unfold left_pixel in N2, E2; cbn [px py] in N2.
  repeat (split; [assumption|]).
  unfold node_penalty. rewrite uadd_small by lia. rewrite E1. cbn [bind]. rewrite E2. cbn [bind].
  rewrite E3. cbn [bind]. rewrite E4. cbn [bind]. rewrite E5. cbn [bind]. rewrite E6. reflexivity.
Qed.

Lemma node_penalty_Ok g n : wf_graph g -> match_exists g n -> exists v, node_penalty g n = Ok v.
Proof.
  intros Hw Hm. destruct (node_penalty_eq g n Hw Hm) as (vr & vl & r0 & r1 & r2 & r3 & H).
  eexists. apply H.
Qed.

Lemma edge_penalty_eq g n m k : wf_graph g ->
  in_image g (npix n) -> disp n < Lv g -> in_image g (npix m) -> disp m < Lv g ->
  slot_of k (npix n) (npix m) ->
  exists r1 r2,
    reparametrization_value_fast g n k = Ok r1 /\
    reparametrization_value_fast g m (opposite k) = Ok r2 /\
    edge_penalty g {| enode := n; enbr := m |} =
    Ok (fsub (fsub (fmul (smoothness g) (fsqr (fsub (of_u (disp n)) (of_u (disp m))))) r1) r2).
Proof.
  intros Hw Hp Hd Hq Hd' S.
  pose proof (slot_of_opposite _ _ _ S) as S'.
  destruct (reparam_value g n k Hw Hp Hd (slot_of_lt _ _ _ S)) as [r1 [E1 _]].
  destruct (reparam_value g m (opposite k) Hw Hq Hd' (slot_of_lt _ _ _ S')) as [r2 [E2 _]].
  exists r1, r2. split; [exact E1|split; [exact E2|]].
  unfold edge_penalty, reparametrization_value_slow, reparametrization_value,
    reparametrization_index_slow, reparametrization_index; cbn [enode enbr].
  rewrite (neighbor_index_slot g _ _ _ Hw Hp Hq S).
  rewrite (neighbor_index_slot g _ _ _ Hw Hq Hp S').
  unfold reparametrization_value_fast in E1, E2. rewrite E1. cbn [bind]. rewrite E2. reflexivity.
Qed.

Lemma edge_penalty_Ok g n m : wf_graph g ->
  in_image g (npix n) -> disp n < Lv g -> in_image g (npix m) -> disp m < Lv g ->
  adjacent (npix n) (npix m) ->
  exists v, edge_penalty g {| enode := n; enbr := m |} = Ok v.
Proof.
  intros Hw Hp Hd Hq Hd' A. apply adjacent_slot in A. destruct A as [k S].
  destruct (edge_penalty_eq g n m k Hw Hp Hd Hq Hd' S) as (r1 & r2 & _ & _ & E). eauto.
Qed.

(** With a zero reparametrization. *)
Lemma zero_reparam_value g n k v : zero_reparam g ->
  reparametrization_value_fast g n k = Ok v -> v = fzero.
Proof. intros Hz E. apply Hz. eapply get_In; exact E. Qed.

Lemma edge_penalty_zero g n m : laws T -> wf_graph g -> zero_reparam g ->
  in_image g (npix n) -> disp n < Lv g -> in_image g (npix m) -> disp m < Lv g ->
  adjacent (npix n) (npix m) ->
  edge_penalty g {| enode := n; enbr := m |} =
  Ok (fmul (smoothness g) (fsqr (fsub (of_u (disp n)) (of_u (disp m))))).
Proof.
  intros HL Hw Hz Hp Hd Hq Hd' A. apply adjacent_slot in A. destruct A as [k S].
  destruct (edge_penalty_eq g n m k Hw Hp Hd Hq Hd' S) as (r1 & r2 & E1 & E2 & E).
  rewrite (zero_reparam_value _ _ _ _ Hz E1), (zero_reparam_value _ _ _ _ Hz E2) in E.
  rewrite !(sub_zero T HL) in E. exact E.
Qed.
End Graph.
