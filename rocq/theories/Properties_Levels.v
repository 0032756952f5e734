(** C110: allowing more disparity levels. *)
From Verif Require Import Levels_witness Witnesses.
Local Open Scope N_scope.

(** C110: the same two images with more levels can need a larger threshold: a new
    match that fits well lowers the best penalty of its pixel, even if no
    labeling can use it. *)
Theorem C110_more_levels_refuted : exists (g g' : dgraph cpu) lp lp',
  make_graph (left g) (right g) (levels g) (cleanness g) (smoothness g) = Ok g /\
  make_graph (left g') (right g') (levels g') (cleanness g') (smoothness g') = Ok g' /\
  more_levels g g' /\ make_lowest g = Ok lp /\ make_lowest g' = Ok lp' /\ nonneg_weights g /\ height (right g) = 1 /\
  forall srt, sorts srt -> exists l t l' t',
    fetch_available_penalties srt lp = Ok l /\ calculate_minimal_consistent_threshold lp g l = Ok t /\
    fetch_available_penalties srt lp' = Ok l' /\ calculate_minimal_consistent_threshold lp' g' l' = Ok t' /\
    flt t t' = true.
Proof. exact levels_hurt. Qed.
Print Assumptions C110_more_levels_refuted.

(** C110: every match allowed before is allowed with more levels, costs the same,
    and exceeds the best match of its pixel by no less. *)
Theorem C110_excess (T : target) (HL : laws T) (g g' : dgraph T) lp lp' n :
  more_levels g g' -> wf_graph g -> make_lowest g = Ok lp -> finite_penalties g -> zero_reparam g ->
  wf_graph g' -> make_lowest g' = Ok lp' -> finite_penalties g' -> zero_reparam g' ->
  match_exists g n ->
  match_exists g' n /\ node_penalty g' n = node_penalty g n /\
  (forall c c', node_excess g lp n c -> node_excess g' lp' n c' -> fle c c' = true).
Proof. exact (more_excesses HL g g' lp lp' n). Qed.
Print Assumptions C110_excess.

(** Met by a match whose excess grows. *)
Example C110_excess_hypotheses :
  ready (worse 2) /\ ready (worse 3) /\ more_levels (worse 2) (worse 3) /\ match_exists (worse 2) (nd 0 0 0) /\
  exists c c', node_excess (worse 2) (low (worse 2)) (nd 0 0 0) c /\ node_excess (worse 3) (low (worse 3)) (nd 0 0 0) c' /\
    flt c c' = true.
Proof. exact (conj worse2_ready (conj worse3_ready (conj worse_more worse_grows))). Qed.

(** C110: if no match the new levels add is better than every old match of its
    pixel, the labelings found good enough before still are, and the threshold
    is at most what any of them needs. *)
Theorem C110_labelings (T : target) (HL : laws T) srt (g g' : dgraph T) lp lp' l' t' k b :
  more_levels g g' -> wf_graph g -> make_lowest g = Ok lp -> finite_penalties g -> zero_reparam g -> nonneg_weights g ->
  wf_graph g' -> make_lowest g' = Ok lp' -> finite_penalties g' -> zero_reparam g' -> nonneg_weights g' ->
  none_closer g g' -> sorts srt ->
  fetch_available_penalties srt lp' = Ok l' -> calculate_minimal_consistent_threshold lp' g' l' = Ok t' ->
  labeling_ok g k -> nodes_within g lp b k -> edges_within g lp b k ->
  (labeling_ok g' k /\ nodes_within g' lp' b k /\ edges_within g' lp' b k) /\ fle t' b = true.
Proof. exact (more_labelings HL srt g g' lp lp' l' t' k b). Qed.
Print Assumptions C110_labelings.

Example C110_labelings_hypotheses :
  ready (better 3) /\ ready (better 4) /\ more_levels (better 3) (better 4) /\ none_closer (better 3) (better 4) /\
  labeling_ok (better 3) steep /\ nodes_within (better 3) (low (better 3)) (num 4) steep /\
  edges_within (better 3) (low (better 3)) (num 4) steep.
Proof. exact (conj better3_ready (conj better4_ready (conj better_more (conj better_closer steep_ok)))). Qed.

(** C110: and the threshold itself does not grow. *)
Theorem C110_threshold (T : target) (HL : laws T) srt (g g' : dgraph T) lp lp' l t l' t' :
  more_levels g g' -> wf_graph g -> make_lowest g = Ok lp -> finite_penalties g -> zero_reparam g -> nonneg_weights g ->
  wf_graph g' -> make_lowest g' = Ok lp' -> finite_penalties g' -> zero_reparam g' -> nonneg_weights g' ->
  none_closer g g' -> sorts srt ->
  fetch_available_penalties srt lp = Ok l -> calculate_minimal_consistent_threshold lp g l = Ok t ->
  fetch_available_penalties srt lp' = Ok l' -> calculate_minimal_consistent_threshold lp' g' l' = Ok t' ->
  fle t' t = true.
Proof.
  exact (fun A B C D E F G H I J K => more_threshold HL g g' lp lp' A B C D E F G H I J K srt l t l' t').
Qed.
Print Assumptions C110_threshold.

(** Met with a threshold that becomes smaller. *)
Example C110_threshold_hypotheses :
  ready (better 3) /\ ready (better 4) /\ more_levels (better 3) (better 4) /\ none_closer (better 3) (better 4) /\
  forall srt, sorts srt -> exists l t l' t',
    fetch_available_penalties srt (low (better 3)) = Ok l /\ calculate_minimal_consistent_threshold (low (better 3)) (better 3) l = Ok t /\
    fetch_available_penalties srt (low (better 4)) = Ok l' /\ calculate_minimal_consistent_threshold (low (better 4)) (better 4) l' = Ok t' /\
    flt t' t = true.
Proof. exact (conj better3_ready (conj better4_ready (conj better_more (conj better_closer levels_help)))). Qed.
