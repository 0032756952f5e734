(** C111, C112: the threshold and every other threshold, parts of images. *)
From Verif Require Import Crop_witness Witnesses.
Local Open Scope N_scope.

(** C111: whatever threshold one tries, candidate or not, the solver succeeds on
    a new constraint graph exactly if it is not below the threshold computed. *)
Theorem C111_decides (T : target) (HL : laws T) srt (g : dgraph T) lp l t b :
  sorts srt -> wf_graph g -> make_lowest g = Ok lp -> finite_penalties g -> zero_reparam g -> nonneg_weights g ->
  fetch_available_penalties srt lp = Ok l -> calculate_minimal_consistent_threshold lp g l = Ok t ->
  exists cg cg', make_constraint g lp b = Ok cg /\ exec solve_csp cg = Ok (fle t b, cg').
Proof. exact (threshold_decides HL srt g lp l t b). Qed.
Print Assumptions C111_decides.

(** Met with both answers. *)
Example C111_hypotheses : ready whole /\
  (exists cg cg', make_constraint whole (low whole) (num 20) = Ok cg /\ exec solve_csp cg = Ok (false, cg')) /\
  (exists k b, labeling_ok whole k /\ nodes_within whole (low whole) b k /\ edges_within whole (low whole) b k).
Proof. exact (conj whole_ready (conj whole_fails whole_labeled)). Qed.

(** C112: without some of the rows at the top and at the bottom and some of the
    columns at the left, no larger threshold is needed, and what was good enough
    still is. *)
Theorem C112_part (T : target) (HL : laws T) srt c a (g g' : dgraph T) lp lp' l t l' t' :
  part_of c a g g' -> wf_graph g -> make_lowest g = Ok lp -> finite_penalties g -> zero_reparam g -> nonneg_weights g ->
  wf_graph g' -> make_lowest g' = Ok lp' -> zero_reparam g' -> sorts srt ->
  fetch_available_penalties srt lp = Ok l -> calculate_minimal_consistent_threshold lp g l = Ok t ->
  fetch_available_penalties srt lp' = Ok l' -> calculate_minimal_consistent_threshold lp' g' l' = Ok t' ->
  fle t' t = true /\
  (forall b, solver_says g lp b true -> solver_says g' lp' b true) /\
  (forall k b, labeling_ok g k -> nodes_within g lp b k -> edges_within g lp b k ->
     labeling_ok g' (part_labeling c a k) /\ nodes_within g' lp' b (part_labeling c a k) /\
     edges_within g' lp' b (part_labeling c a k)).
Proof. exact (part_all HL srt c a g g' lp lp' l t l' t'). Qed.
Print Assumptions C112_part.

(** Met with a row and a column less and a threshold that becomes smaller. *)
Example C112_hypotheses :
  ready whole /\ ready (better 3) /\ part_of 1 1 whole (better 3) /\
  (exists k b, labeling_ok whole k /\ nodes_within whole (low whole) b k /\ edges_within whole (low whole) b k) /\
  forall srt, sorts srt -> exists l t l' t',
    fetch_available_penalties srt (low whole) = Ok l /\ calculate_minimal_consistent_threshold (low whole) whole l = Ok t /\
    fetch_available_penalties srt (low (better 3)) = Ok l' /\ calculate_minimal_consistent_threshold (low (better 3)) (better 3) l' = Ok t' /\
    flt t' t = true.
Proof. exact (conj whole_ready (conj better3_ready (conj whole_part (conj whole_labeled part_helps)))). Qed.

(** C112: without the last column a larger threshold can be needed. *)
Theorem C112_columns_refuted : exists (g g' : dgraph cpu) lp lp',
  make_graph (left g) (right g) (levels g) (cleanness g) (smoothness g) = Ok g /\
  make_graph (left g') (right g') (levels g') (cleanness g') (smoothness g') = Ok g' /\
  narrowed 1 (left g) (left g') /\ narrowed 1 (right g) (right g') /\
  levels g' = levels g /\ cleanness g' = cleanness g /\ smoothness g' = smoothness g /\ nonneg_weights g /\
  make_lowest g = Ok lp /\ make_lowest g' = Ok lp' /\
  forall srt, sorts srt -> exists l t l' t',
    fetch_available_penalties srt lp = Ok l /\ calculate_minimal_consistent_threshold lp g l = Ok t /\
    fetch_available_penalties srt lp' = Ok l' /\ calculate_minimal_consistent_threshold lp' g' l' = Ok t' /\
    flt t t' = true.
Proof. exact columns_hurt. Qed.
Print Assumptions C112_columns_refuted.
