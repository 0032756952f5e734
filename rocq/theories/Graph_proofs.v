(** Statements about addressing, penalties, array sizes and stored minima that
    combine lemmas of several files. *)
From Verif Require Export Zero_proofs Target_proofs Image_proofs Image_witness Checks.
Local Open Scope N_scope.

Section Graph.
Context {T : target}.
Implicit Type g : dgraph T.

Notation Wd g := (width (right g)).
Notation Ht g := (height (right g)).
Notation Lv g := (levels g).

Lemma node_addressing g lp t cg : wf_graph g -> make_lowest g = Ok lp -> make_constraint g lp t = Ok cg ->
  (forall n, in_image g (npix n) -> disp n < levels g -> node_index g n < len (cg_avail cg)) /\
  (forall n n', in_image g (npix n) -> disp n < levels g -> in_image g (npix n') -> disp n' < levels g ->
     node_index g n = node_index g n' -> n = n') /\
  (forall i, i < len (cg_avail cg) ->
     exists n, in_image g (npix n) /\ disp n < levels g /\ node_index g n = i).
Proof.
  intros Hw Hl E. destruct (make_constraint_Ok g lp t cg Hw Hl E) as [C [Eg _]].
  pose proof (wfc_avail _ C) as L. rewrite Eg in L. rewrite L. refine (conj _ (conj _ _)).
  - intros n Hp Hd. apply node_index_small; assumption.
  - intros n n'. intros. apply node_index_inj with (g := g); assumption.
  - intros i Hi. apply node_index_surj; assumption.
Qed.

Lemma neighborhood_addressing g lp : wf_graph g -> make_lowest g = Ok lp ->
  (forall p k, in_image g p -> k < 4 -> neighborhood_index_fast g p k < len (lp_neighborhoods lp)) /\
  (forall p k p' k', in_image g p -> k < 4 -> in_image g p' -> k' < 4 ->
     neighborhood_index_fast g p k = neighborhood_index_fast g p' k' -> p = p' /\ k = k') /\
  (forall i, i < len (lp_neighborhoods lp) ->
     exists p k, in_image g p /\ k < 4 /\ neighborhood_index_fast g p k = i) /\
  (forall n m k, in_image g (npix n) -> in_image g (npix m) -> slot_of k (npix n) (npix m) ->
     neighborhood_index g (npix n) (npix m) = neighborhood_index_fast g (npix n) k /\
     neighborhood_index_slow g {| enode := n; enbr := m |} = neighborhood_index_fast g (npix n) k).
Proof.
  intros Hw Hl. destruct (make_lowest_spec g Hw) as [lp' [E [_ [_ [L _]]]]].
  assert (lp' = lp) by congruence. subst lp'. rewrite L. refine (conj _ (conj _ (conj _ _))).
  - intros p k Hp Hk. apply neighborhood_index_small; assumption.
  - intros p k p' k'. intros. apply neighborhood_index_inj with (g := g); assumption.
  - intros i Hi. apply neighborhood_index_surj; assumption.
  - intros n m k Hn Hm S. unfold neighborhood_index, neighborhood_index_slow. cbn [enode enbr].
    rewrite (neighbor_index_slot g _ _ k Hw Hn Hm S). split; reflexivity.
Qed.

Lemma potential_spec g n k r : wf_graph g -> in_image g (npix n) -> disp n < Lv g -> k < 4 ->
  reparametrization_value_fast g n k = Ok r -> get (reparam g) (potential_at g n k) = Ok r.
Proof.
  intros Hw Hp Hd Hk. unfold reparametrization_value_fast.
  destruct (reparam_index_small g n k Hw Hp Hd Hk) as [E _]. rewrite E. unfold potential_at.
  intros X. rewrite <- X. f_equal.
Qed.

Lemma node_penalty_formula g n : wf_graph g -> match_exists g n ->
  exists vr vl r0 r1 r2 r3,
    get (data (right g)) (py (npix n) * Wd g + px (npix n)) = Ok vr /\
    get (data (left g)) (py (npix n) * Wd g + (px (npix n) + disp n)) = Ok vl /\
    get (reparam g) (potential_at g n 0) = Ok r0 /\ get (reparam g) (potential_at g n 1) = Ok r1 /\
    get (reparam g) (potential_at g n 2) = Ok r2 /\ get (reparam g) (potential_at g n 3) = Ok r3 /\
    node_penalty g n = Ok (fadd (fadd (fadd (fadd
      (fmul (cleanness g) (fsqr (fsub (of_u vr) (of_u vl)))) r0) r1) r2) r3).
Proof.
  intros Hw Hm. destruct (node_penalty_eq g n Hw Hm) as (vr & vl & r0 & r1 & r2 & r3 & E1 & E2 & A & B & C & D & E).
  exists vr, vl, r0, r1, r2, r3. destruct Hm as [Hp [Hd _]].
  split; [apply get_spec; exact E1|]. split; [apply get_spec; exact E2|].
  split; [apply potential_spec; try assumption; lia|]. split; [apply potential_spec; try assumption; lia|].
  split; [apply potential_spec; try assumption; lia|]. split; [apply potential_spec; try assumption; lia|].
  exact E.
Qed.

Lemma edge_penalty_formula g n m k : wf_graph g ->
  in_image g (npix n) -> disp n < Lv g -> in_image g (npix m) -> disp m < Lv g ->
  slot_of k (npix n) (npix m) ->
  exists r1 r2,
    get (reparam g) (potential_at g n k) = Ok r1 /\
    get (reparam g) (potential_at g m (facing k)) = Ok r2 /\
    edge_penalty g {| enode := n; enbr := m |} =
    Ok (fsub (fsub (fmul (smoothness g) (fsqr (fsub (of_u (disp n)) (of_u (disp m))))) r1) r2).
Proof.
  intros Hw Hp Hd Hq Hd' S. destruct (edge_penalty_eq g n m k Hw Hp Hd Hq Hd' S) as (r1 & r2 & E1 & E2 & E).
  pose proof (slot_of_lt _ _ _ S) as Hk. pose proof (slot_of_opposite _ _ _ S) as S'.
  pose proof (slot_of_lt _ _ _ S') as Hk'.
  exists r1, r2. split; [apply potential_spec; assumption|]. split; [|exact E].
  assert (Ef : facing k = opposite k).
  { assert (k = 0 \/ k = 1 \/ k = 2 \/ k = 3) as [->|[->|[->| ->]]] by lia; reflexivity. }
  rewrite Ef. apply potential_spec; assumption.
Qed.

(** The minimum stored for a pixel. *)
Lemma lowest_pixel_is_min (HL : laws T) g lp p : wf_graph g -> make_lowest g = Ok lp -> in_image g p ->
  exists m, lowest_pixel_penalty lp p = Ok m /\
    (exists n, npix n = p /\ match_exists g n /\ node_penalty g n = Ok m) /\
    ((forall n v, npix n = p -> match_exists g n -> node_penalty g n = Ok v -> is_number v) ->
     forall n v, npix n = p -> match_exists g n -> node_penalty g n = Ok v -> fle m v = true).
Proof.
  intros Hw Hl Hp. destruct (lowest_pixel_Ok g p Hw Hp) as [m [Em [d [M Ed]]]].
  exists m. split; [rewrite (lowest_pixel_value g lp p Hw Hl Hp); exact Em|].
  split; [exists {| npix := p; disp := d |}; auto|].
  intros Hn [q a] v Eq Mq Ev. cbn [npix] in Eq. subst q.
  eapply (lowest_pixel_min HL g p m Hw Hp); try eassumption.
  intros d' v' M' E'. eapply Hn; [|exact M'|exact E']. reflexivity.
Qed.

Lemma lowest_snapshot g lp rp : wf_graph g -> make_lowest g = Ok lp ->
  (forall p, in_image g p ->
     exists m, lowest_pixel_penalty (pointing_to (with_potentials g rp) lp) p = Ok m /\
       exists n, npix n = p /\ match_exists g n /\ node_penalty g n = Ok m) /\
  (forall p, lowest_pixel_penalty (pointing_to (with_potentials g rp) lp) p = lowest_pixel_penalty lp p) /\
  (forall e, lowest_neighborhood_penalty (pointing_to (with_potentials g rp) lp) e = lowest_neighborhood_penalty lp e) /\
  (forall p q, lowest_neighborhood_penalty_fast (pointing_to (with_potentials g rp) lp) p q
     = lowest_neighborhood_penalty_fast lp p q).
Proof.
  intros Hw Hl. destruct (make_lowest_spec g Hw) as [lp' [E [Eg _]]].
  assert (lp' = lp) by congruence. subst lp'.
  assert (P : forall p, lowest_pixel_penalty (pointing_to (with_potentials g rp) lp) p = lowest_pixel_penalty lp p).
  { intros p. unfold lowest_pixel_penalty. rewrite Eg. reflexivity. }
  refine (conj _ (conj P (conj _ _))).
  - intros p Hp. rewrite P. destruct (lowest_pixel_Ok g p Hw Hp) as [m [Em [d [M Ed]]]].
    exists m. split; [rewrite (lowest_pixel_value g lp p Hw Hl Hp); exact Em|].
    exists {| npix := p; disp := d |}. auto.
  - intros e. unfold lowest_neighborhood_penalty, neighborhood_index_slow, neighborhood_index_fast. rewrite Eg. reflexivity.
  - intros p q. unfold lowest_neighborhood_penalty_fast, neighborhood_index, neighborhood_index_fast. rewrite Eg. reflexivity.
Qed.

(** The sizes of all arrays. *)
Lemma array_sizes l r lev (c s : F T) g : consistent_image l -> consistent_image r ->
  width l * height l * 4 * lev < wmod T -> make_graph l r lev c s = Ok g ->
  len (reparam g) = width l * height l * 4 * lev /\
  exists lp, make_lowest g = Ok lp /\
    len (lp_pixels lp) = width l * height l /\ len (lp_neighborhoods lp) = 4 * (width l * height l) /\
    forall t, exists cg, make_constraint g lp t = Ok cg /\ len (cg_avail cg) = width l * height l * lev.
Proof.
  intros Cl Cr Hw E. destruct (make_graph_wf l r lev c s g E Cl Cr Hw) as [W _].
  destruct (make_graph_Ok l r lev c s g E) as [_ [_ [_ [_ [_ [_ [_ [_ [_ [_ [_ Eg]]]]]]]]]]].
  assert (X : width (right g) = width l /\ height (right g) = height l /\ levels g = lev).
  { rewrite <- (wf_width g W), <- (wf_height g W). rewrite Eg. auto. }
  destruct X as [Xw [Xh Xl]].
  split; [rewrite (wf_reparam g W), Xw, Xh, Xl; reflexivity|].
  destruct (make_lowest_spec g W) as [lp [El [_ [L1 [L2 _]]]]]. exists lp. split; [exact El|].
  rewrite Xw, Xh in L1, L2. split; [exact L1|]. split; [exact L2|].
  intros t. destruct (make_constraint_spec g lp t W El) as [cg [Ec [C [Gc _]]]]. exists cg. split; [exact Ec|].
  rewrite (wfc_avail _ C), Gc, Xw, Xh, Xl. reflexivity.
Qed.
End Graph.

(** Without a bound the size of an array wraps. *)
Definition wide_image : image :=
  {| width := 2 ^ 31; height := 1; max_value := 1; data := fill (2 ^ 31) 0 |}.

Lemma wide_consistent : consistent_image wide_image.
Proof. unfold consistent_image, wide_image; cbn [data width height]. rewrite len_fill. reflexivity. Qed.
Lemma wide_valid : valid_image wide_image.
Proof.
  unfold valid_image, wide_image; cbn [data width height max_value].
  split; [reflexivity|]. split; [reflexivity|]. split; [reflexivity|].
  intros v Hv. apply In_fill in Hv. subst v. lia.
Qed.

Lemma sizes_wrap : exists (l r : image) (lev : N) (c s : F cpu) g,
  consistent_image l /\ consistent_image r /\ valid_image l /\ valid_image r /\
  width l * height l < 2 ^ 32 /\
  make_graph l r lev c s = Ok g /\ reparam g = [].
Proof.
  exists wide_image, wide_image, (2 ^ 31), (of_u 1), (of_u 1).
  destruct (image_valid_decides cpu wide_image) as [b [E V]];
    [cbn; lia|exact wide_consistent|reflexivity|].
  assert (b = true) by (apply V, wide_valid). subst b.
  eexists. refine (conj wide_consistent (conj wide_consistent (conj wide_valid (conj wide_valid (conj eq_refl _))))).
  unfold make_graph. rewrite E. cbn [bind negb].
  assert (E3 : @flt cpu (of_u 1) fzero = false) by (vm_compute; reflexivity).
  assert (E4 : @flt cpu (of_u 1) feps = false) by (vm_compute; reflexivity).
  rewrite E3, E4. split; reflexivity.
Qed.
