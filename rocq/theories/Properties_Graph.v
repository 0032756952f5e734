(** Properties C03, C04, C21, C22, C25, C26, C56 and C62: problems, penalties and
    stored minima. *)
From Verif Require Import Graph_proofs Witnesses.
Local Open Scope N_scope.

(** C03: the nodes correspond one-to-one to the positions of the availability
    array. *)
Theorem C03_node_addressing (T : target) (g : dgraph T) lp t cg :
  wf_graph g -> make_lowest g = Ok lp -> make_constraint g lp t = Ok cg ->
  (forall n, in_image g (npix n) -> disp n < levels g -> node_index g n < len (cg_avail cg)) /\
  (forall n n', in_image g (npix n) -> disp n < levels g -> in_image g (npix n') -> disp n' < levels g ->
     node_index g n = node_index g n' -> n = n') /\
  (forall i, i < len (cg_avail cg) ->
     exists n, in_image g (npix n) /\ disp n < levels g /\ node_index g n = i).
Proof. exact (node_addressing g lp t cg). Qed.
Print Assumptions C03_node_addressing.

Example C03_hypotheses :
  wf_graph sg /\ make_lowest sg = Ok (low sg) /\ make_constraint sg (low sg) t25 = Ok scg.
Proof. exact (conj sample_wf_cpu (conj sg_low scg_made)). Qed.

(** C04: the pairs of a pixel and a slot correspond one-to-one to the positions of
    the array of neighborhoods; the three variants agree. *)
Theorem C04_neighborhood_addressing (T : target) (g : dgraph T) lp :
  wf_graph g -> make_lowest g = Ok lp ->
  (forall p k, in_image g p -> k < 4 -> neighborhood_index_fast g p k < len (lp_neighborhoods lp)) /\
  (forall p k p' k', in_image g p -> k < 4 -> in_image g p' -> k' < 4 ->
     neighborhood_index_fast g p k = neighborhood_index_fast g p' k' -> p = p' /\ k = k') /\
  (forall i, i < len (lp_neighborhoods lp) ->
     exists p k, in_image g p /\ k < 4 /\ neighborhood_index_fast g p k = i) /\
  (forall n m k, in_image g (npix n) -> in_image g (npix m) -> slot_of k (npix n) (npix m) ->
     neighborhood_index g (npix n) (npix m) = neighborhood_index_fast g (npix n) k /\
     neighborhood_index_slow g {| enode := n; enbr := m |} = neighborhood_index_fast g (npix n) k).
Proof. exact (neighborhood_addressing g lp). Qed.
Print Assumptions C04_neighborhood_addressing.

Example C04_hypotheses : wf_graph sg /\ make_lowest sg = Ok (low sg).
Proof. exact (conj sample_wf_cpu sg_low). Qed.

(** C21: the constructor accepts exactly the problems without a violated condition
    and otherwise reports the first violated one; for all weights, including NaN
    and infinities. *)
Theorem C21_construction (T : target) (l r : image) (lev : N) (c s : F T) :
  2 ^ 32 <= wmod T -> consistent_image l -> consistent_image r ->
  width l * height l < 2 ^ 32 -> width r * height r < 2 ^ 32 ->
  width l * height l * 4 * lev < wmod T ->
  width l * height l * 4 * lev <= vector_max_size ->
  (forall g, make_graph l r lev c s = Ok g <->
     (forall k, ~ violated l r lev c s k) /\
     g = {| left := l; right := r; levels := lev; cleanness := c; smoothness := s;
            reparam := fill (width l * height l * 4 * lev) fzero |}) /\
  (forall k, make_graph l r lev c s = Stop (Throw (InvalidArgument k)) <->
     first_violated l r lev c s k).
Proof. exact (make_graph_accepts l r lev c s). Qed.
Print Assumptions C21_construction.

Example C21_hypotheses :
  consistent_image sample_left /\ consistent_image sample_right /\
  width sample_left * height sample_left < 2 ^ 32 /\
  width sample_left * height sample_left * 4 * 3 <= vector_max_size /\
  make_graph sample_left sample_right 3 (of_u 1) (of_u 1) = Ok sg.
Proof. refine (conj eq_refl (conj eq_refl (conj eq_refl (conj _ sample_made)))). vm_compute. discriminate. Qed.

(** C22, first part: the formulas, for every build and every reparametrization.
    [potential_at] is the position of the potential of a node and a slot. *)
Theorem C22_node_penalty_formula (T : target) (g : dgraph T) (n : node) :
  wf_graph g -> match_exists g n ->
  exists vr vl r0 r1 r2 r3,
    get (data (right g)) (py (npix n) * width (right g) + px (npix n)) = Ok vr /\
    get (data (left g)) (py (npix n) * width (right g) + (px (npix n) + disp n)) = Ok vl /\
    get (reparam g) (potential_at g n 0) = Ok r0 /\ get (reparam g) (potential_at g n 1) = Ok r1 /\
    get (reparam g) (potential_at g n 2) = Ok r2 /\ get (reparam g) (potential_at g n 3) = Ok r3 /\
    node_penalty g n = Ok (fadd (fadd (fadd (fadd
      (fmul (cleanness g) (fsqr (fsub (of_u vr) (of_u vl)))) r0) r1) r2) r3).
Proof. exact (node_penalty_formula g n). Qed.
Print Assumptions C22_node_penalty_formula.

Theorem C22_edge_penalty_formula (T : target) (g : dgraph T) (n m : node) (k : N) :
  wf_graph g ->
  in_image g (npix n) -> disp n < levels g -> in_image g (npix m) -> disp m < levels g ->
  slot_of k (npix n) (npix m) ->
  exists r1 r2,
    get (reparam g) (potential_at g n k) = Ok r1 /\
    get (reparam g) (potential_at g m (facing k)) = Ok r2 /\
    edge_penalty g {| enode := n; enbr := m |} =
    Ok (fsub (fsub (fmul (smoothness g) (fsqr (fsub (of_u (disp n)) (of_u (disp m))))) r1) r2).
Proof. exact (edge_penalty_formula g n m k). Qed.
Print Assumptions C22_edge_penalty_formula.

Example C22_hypotheses : wf_graph g46 /\ match_exists g46 (nd 0 0 1) /\
  slot_of 0 (npix (nd 0 0 1)) (npix (nd 1 0 0)).
Proof.
  refine (conj g46_wf (conj _ _)).
  - unfold match_exists, in_image, nd; cbn; lia.
  - left; repeat split; reflexivity.
Qed.

(** C25: the value stored for a pixel is the penalty of one of its nodes and, if
    none of them is NaN, their minimum. *)
Theorem C25_lowest_pixel (T : target) (HL : laws T) (g : dgraph T) lp p :
  wf_graph g -> make_lowest g = Ok lp -> in_image g p ->
  exists m, lowest_pixel_penalty lp p = Ok m /\
    (exists n, npix n = p /\ match_exists g n /\ node_penalty g n = Ok m) /\
    ((forall n v, npix n = p -> match_exists g n -> node_penalty g n = Ok v -> is_number v) ->
     forall n v, npix n = p -> match_exists g n -> node_penalty g n = Ok v -> fle m v = true).
Proof. exact (lowest_pixel_is_min HL g lp p). Qed.
Print Assumptions C25_lowest_pixel.

Example C25_hypotheses : laws cpu /\ wf_graph g46 /\ make_lowest g46 = Ok (low g46) /\ in_image g46 px0.
Proof. refine (conj cpu_laws (conj g46_wf (conj g46_low _))). split; reflexivity. Qed.

(** C26: the value stored for the right, upper or lower neighbor is the minimum of
    the penalties of the edges to it. *)
Theorem C26_lowest_neighborhood (T : target) (HL : laws T) (g : dgraph T) lp p q :
  wf_graph g -> make_lowest g = Ok lp ->
  in_image g p -> in_image g q -> adjacent p q -> ~ horizontal_pair q p ->
  (forall e v, match_exists g (enode e) -> match_exists g (enbr e) ->
     adjacent (npix (enode e)) (npix (enbr e)) -> edge_penalty g e = Ok v -> is_number v) ->
  exists m, lowest_neighborhood_penalty_fast lp p q = Ok m /\
    (forall e v, match_pair g e -> npix (enode e) = p -> npix (enbr e) = q ->
       edge_penalty g e = Ok v -> fle m v = true) /\
    (exists e, match_pair g e /\ npix (enode e) = p /\ npix (enbr e) = q /\ edge_penalty g e = Ok m).
Proof. exact (lowest_nbr_edges HL g lp p q). Qed.
Print Assumptions C26_lowest_neighborhood.

(** For a zero reparametrization this holds for all four neighbors. *)
Theorem C26_lowest_neighborhood_zero (T : target) (HL : laws T) (g : dgraph T) lp p q :
  wf_graph g -> make_lowest g = Ok lp ->
  zero_reparam g -> finite_penalties g -> nonneg_weights g ->
  in_image g p -> in_image g q -> adjacent p q ->
  exists m, lowest_neighborhood_penalty_fast lp p q = Ok m /\
    (forall e v, match_pair g e -> npix (enode e) = p -> npix (enbr e) = q ->
       edge_penalty g e = Ok v -> fle m v = true) /\
    (exists e v, match_pair g e /\ npix (enode e) = p /\ npix (enbr e) = q /\ edge_penalty g e = Ok v /\
       feq m v = true).
Proof. exact (lowest_nbr_edges_zero HL g lp p q). Qed.
Print Assumptions C26_lowest_neighborhood_zero.

Example C26_hypotheses :
  wf_graph sg /\ make_lowest sg = Ok (low sg) /\ zero_reparam sg /\ finite_penalties sg /\ nonneg_weights sg /\
  in_image sg {| px := 1; py := 1 |} /\ in_image sg {| px := 0; py := 1 |} /\
  adjacent {| px := 1; py := 1 |} {| px := 0; py := 1 |}.
Proof.
  refine (conj sample_wf_cpu (conj sg_low (conj sg_zero (conj sg_finite (conj sg_nonneg (conj _ (conj _ _))))))).
  - split; reflexivity.
  - split; reflexivity.
  - right; left; split; reflexivity.
Qed.

(** C26 is violated for the left neighbor: with some reparametrization the value
    stored is below the penalties of all edges to it. *)
Theorem C26_left_neighborhood_refuted :
  exists (g : dgraph cpu) lp p q m,
  wf_graph g /\ finite_penalties g /\ make_lowest g = Ok lp /\ in_image g p /\ in_image g q /\ adjacent p q /\
  lowest_neighborhood_penalty_fast lp p q = Ok m /\
  forall e v, match_pair g e -> npix (enode e) = p -> npix (enbr e) = q -> edge_penalty g e = Ok v -> flt m v = true.
Proof. exact left_minimum_wrong. Qed.
Print Assumptions C26_left_neighborhood_refuted.

(** C56: when the potentials of the graph are changed, the lowest penalties
    reported stay those at construction. *)
Theorem C56_snapshot (T : target) (g : dgraph T) lp (rp : list (F T)) :
  wf_graph g -> make_lowest g = Ok lp ->
  (forall p, in_image g p ->
     exists m, lowest_pixel_penalty (pointing_to (with_potentials g rp) lp) p = Ok m /\
       exists n, npix n = p /\ match_exists g n /\ node_penalty g n = Ok m) /\
  (forall p, lowest_pixel_penalty (pointing_to (with_potentials g rp) lp) p = lowest_pixel_penalty lp p) /\
  (forall e, lowest_neighborhood_penalty (pointing_to (with_potentials g rp) lp) e = lowest_neighborhood_penalty lp e) /\
  (forall p q, lowest_neighborhood_penalty_fast (pointing_to (with_potentials g rp) lp) p q
     = lowest_neighborhood_penalty_fast lp p q).
Proof. exact (lowest_snapshot g lp rp). Qed.
Print Assumptions C56_snapshot.

(** Meanwhile penalties do change. *)
Example C56_hypotheses : wf_graph sg /\ make_lowest sg = Ok (low sg) /\
  match node_penalty sg (nd 0 0 0), node_penalty (with_potentials sg (fill 72 (num 1))) (nd 0 0 0) with
  | Ok a, Ok b => flt a b | _, _ => false end = true.
Proof. refine (conj sample_wf_cpu (conj sg_low _)). vm_compute. reflexivity. Qed.

(** C62: below the bound all arrays have the right sizes. *)
Theorem C62_array_sizes (T : target) l r lev (c s : F T) g :
  consistent_image l -> consistent_image r ->
  width l * height l * 4 * lev < wmod T -> make_graph l r lev c s = Ok g ->
  len (reparam g) = width l * height l * 4 * lev /\
  exists lp, make_lowest g = Ok lp /\
    len (lp_pixels lp) = width l * height l /\ len (lp_neighborhoods lp) = 4 * (width l * height l) /\
    forall t, exists cg, make_constraint g lp t = Ok cg /\ len (cg_avail cg) = width l * height l * lev.
Proof. exact (array_sizes l r lev c s g). Qed.
Print Assumptions C62_array_sizes.

Example C62_hypotheses :
  consistent_image sample_left /\ consistent_image sample_right /\
  width sample_left * height sample_left * 4 * 3 < wmod cpu /\
  make_graph sample_left sample_right 3 (of_u 1) (of_u 1) = Ok sg.
Proof. exact (conj eq_refl (conj eq_refl (conj eq_refl sample_made))). Qed.

(** C62 is violated above the bound: an accepted problem without potentials. *)
Theorem C62_array_sizes_refuted :
  exists (l r : image) (lev : N) (c s : F cpu) g,
  consistent_image l /\ consistent_image r /\ valid_image l /\ valid_image r /\
  width l * height l < 2 ^ 32 /\
  make_graph l r lev c s = Ok g /\ reparam g = [].
Proof. exact sizes_wrap. Qed.
Print Assumptions C62_array_sizes_refuted.
