(** C119, C120: problems without smoothness. *)
From Verif Require Import Lattice_witness Device_witness Witnesses Levels_witness Rows_witness.
Local Open Scope N_scope.

(** C119: without smoothness rows do not restrict each other... *)
Theorem C119_separate (T : target) (HL : laws T) (HZ : zero_factor T) (cg : cgraph T) :
  plain_problem cg -> no_smoothness (cg_graph cg) -> fle fzero (cg_threshold cg) = true -> separate_rows cg.
Proof. exact (no_smoothness_separate HL cg HZ). Qed.
Print Assumptions C119_separate.

Theorem C119_builds : zero_factor cpu /\ zero_factor opencl /\ zero_factor cuda /\ zero_factor exact.
Proof. exact (conj cpu_zero_factor (conj opencl_zero_factor (conj cuda_zero_factor exact_zero_factor))). Qed.
Print Assumptions C119_builds.

(** ...and then one successful call of the solver shows that there is a labeling... *)
Theorem C119_solvable (T : target) (HL : laws T) (cg cg' : cgraph T) :
  plain_problem cg -> separate_rows cg -> exec solve_csp cg = Ok (true, cg') ->
  exists k, solution cg' k /\ solution cg k.
Proof. exact (rows_solution HL cg cg'). Qed.
Print Assumptions C119_solvable.

(** Met by two rows for which one call is not enough to remove what can be removed. *)
Example C119_hypotheses : plain_problem cg119 /\ separate_rows cg119 /\ height (right (cg_graph cg119)) = 2 /\
  exec solve_csp cg119 = Ok (true, after solve_csp cg119) /\
  cg_avail (after solve_csp (after solve_csp cg119)) <> cg_avail (after solve_csp cg119).
Proof. exact cg119_facts. Qed.

(** ...and the threshold computed is the smallest one within which there is a labeling
    (C43 is violated with a smoothness only)... *)
Theorem C119_threshold (T : target) (HL : laws T) (HZ : zero_factor T) srt (g : dgraph T) lp l t :
  sorts srt -> wf_graph g -> make_lowest g = Ok lp -> finite_penalties g ->
  zero_reparam g -> nonneg_weights g -> fetch_available_penalties srt lp = Ok l ->
  calculate_minimal_consistent_threshold lp g l = Ok t -> no_smoothness g ->
  (exists k, labeling_ok g k /\ nodes_within g lp t k /\ edges_within g lp t k) /\
  (forall k b, labeling_ok g k -> nodes_within g lp b k -> edges_within g lp b k -> fle t b = true).
Proof. exact (rows_threshold HL srt g lp l t HZ). Qed.
Print Assumptions C119_threshold.

Example C119_threshold_hypotheses : ready g119 /\ no_smoothness g119 /\
  ok (calculate_minimal_consistent_threshold (low g119) g119 (the [] (fetch_available_penalties isort (low g119)))) = true.
Proof. exact (conj g119_ready (conj g119_still g119_threshold)). Qed.

(** ...in the application, too, in terms of the images alone. *)
Theorem C119_application srt lev a b :
  sorts srt -> small_problem (2 ^ 53) lev a -> p_smoothness a = 0 -> threshold_of srt lev a b ->
  (exists k, ordered_labeling (p_right a) lev k /\
     within_bound (p_left a) (p_right a) lev (Z.of_N (p_cleanness a)) 0 b k) /\
  forall k b', ordered_labeling (p_right a) lev k ->
    within_bound (p_left a) (p_right a) lev (Z.of_N (p_cleanness a)) 0 b' k -> (b <= b')%Z.
Proof. exact (application_threshold srt lev a b). Qed.
Print Assumptions C119_application.

Example C119_application_hypotheses : sorts (@isort cpu) /\ small_problem (2 ^ 53) 3 still /\ p_smoothness still = 0 /\
  threshold_of isort 3 still 1.
Proof. exact (conj (isort_sorts cpu_laws) (conj (proj2 (proj1 still_ok)) (conj eq_refl still_threshold))). Qed.

(** Where nothing is to be removed at first, the labeling succeeds on the CPU... *)
Theorem C119_labeling (T : target) (HL : laws T) (cg : cgraph T) :
  plain_problem cg -> separate_rows cg -> settled cg -> everywhere_available cg ->
  exists cg', exec find_labeling cg = Ok (true, cg').
Proof. exact (rows_labeling HL cg). Qed.
Print Assumptions C119_labeling.

Example C119_labeling_hypotheses : plain_problem cg119' /\ separate_rows cg119' /\ height (right (cg_graph cg119')) = 2 /\
  settled cg119' /\ everywhere_available cg119' /\
  available cg119' {| npix := {| px := 1; py := 1 |}; disp := 0 |} /\
  available cg119' {| npix := {| px := 1; py := 1 |}; disp := 2 |}.
Proof. exact cg119'_facts. Qed.

(** ...and on an orderly device. *)
Theorem C119_device (T : target) (HL : laws T) (cg : cgraph T) a v m' :
  plain_problem cg -> separate_rows cg -> settled cg -> everywhere_available cg ->
  orderly a v -> csp_solution cg a true (b_kind v) (b_partition v) m' ->
  exists k, solution (with_avail cg m') k.
Proof. exact (rows_device_labeling HL cg a v m'). Qed.
Print Assumptions C119_device.

Example C119_device_hypotheses : plain_problem dev119 /\ separate_rows dev119 /\ height (right (cg_graph dev119)) = 2 /\
  settled dev119 /\ everywhere_available dev119 /\ orderly CUDA good_device /\
  exists m', csp_solution dev119 CUDA true (b_kind good_device) (b_partition good_device) m'.
Proof. exact dev119_facts. Qed.

(** With two levels the application always finds the map of the closest matches... *)
Theorem C119_two_levels srt a :
  sorts srt -> accepted 2 a -> small_problem (2 ^ 53) 2 a -> 0 < p_cleanness a -> p_smoothness a = 0 ->
  exists img, solution_of srt 2 a = Ok img /\
    width img = width (p_right a) /\ height img = height (p_right a) /\ max_value img = 2 /\ consistent_image img /\
    closest (p_left a) (p_right a) 2 (map_labeling img).
Proof. exact (two_levels srt a). Qed.
Print Assumptions C119_two_levels.

Example C119_two_levels_hypotheses : sorts (@isort cpu) /\ accepted 2 still /\ small_problem (2 ^ 53) 2 still /\
  0 < p_cleanness still /\ p_smoothness still = 0.
Proof. exact (conj (isort_sorts cpu_laws) (conj (proj1 (proj2 still_ok)) (conj (proj2 (proj2 still_ok)) (conj eq_refl eq_refl)))). Qed.

(** ...but with three it may find none. *)
Theorem C119_map_refuted : exists lev a, accepted lev a /\ small_problem (2 ^ 53) lev a /\ p_smoothness a = 0 /\
  forall srt, sorts srt -> solution_of srt lev a = Stop (Throw CannotLabel).
Proof. exact still_refuted. Qed.
Print Assumptions C119_map_refuted.

(** C120: without smoothness the threshold for images one below the other is the larger
    one of the thresholds for the parts. *)
Theorem C120_stacked (T : target) (HL : laws T) (HZ : zero_factor T) srt (g g1 g2 : dgraph T) lp lp1 lp2 l l1 l2 t t1 t2 :
  stacked g g1 g2 -> no_smoothness g -> sorts srt ->
  wf_graph g -> make_lowest g = Ok lp -> finite_penalties g -> zero_reparam g -> nonneg_weights g ->
  wf_graph g1 -> make_lowest g1 = Ok lp1 -> zero_reparam g1 ->
  wf_graph g2 -> make_lowest g2 = Ok lp2 -> zero_reparam g2 ->
  fetch_available_penalties srt lp = Ok l -> calculate_minimal_consistent_threshold lp g l = Ok t ->
  fetch_available_penalties srt lp1 = Ok l1 -> calculate_minimal_consistent_threshold lp1 g1 l1 = Ok t1 ->
  fetch_available_penalties srt lp2 = Ok l2 -> calculate_minimal_consistent_threshold lp2 g2 l2 = Ok t2 ->
  fle t1 t = true /\ fle t2 t = true /\ (feq t t1 = true \/ feq t t2 = true).
Proof. exact (stacked_threshold HL HZ srt g g1 g2 lp lp1 lp2 l l1 l2 t t1 t2). Qed.
Print Assumptions C120_stacked.

(** Labelings of the parts within a bound make one of the whole. *)
Theorem C120_labelings (T : target) (HL : laws T) (HZ : zero_factor T) (g g1 g2 : dgraph T) lp lp1 lp2 b k1 k2 :
  stacked g g1 g2 -> no_smoothness g ->
  wf_graph g -> make_lowest g = Ok lp -> finite_penalties g -> zero_reparam g -> nonneg_weights g ->
  wf_graph g1 -> make_lowest g1 = Ok lp1 -> zero_reparam g1 ->
  wf_graph g2 -> make_lowest g2 = Ok lp2 -> zero_reparam g2 -> fle fzero b = true ->
  labeling_ok g1 k1 -> nodes_within g1 lp1 b k1 -> labeling_ok g2 k2 -> nodes_within g2 lp2 b k2 ->
  exists k, labeling_ok g k /\ nodes_within g lp b k /\ edges_within g lp b k /\
    (forall p, in_image g1 p -> k p = k1 p) /\
    (forall p, in_image g2 p -> k {| px := px p; py := py p + height (right g1) |} = k2 p).
Proof. exact (stacked_labels HL HZ g g1 g2 lp lp1 lp2 b k1 k2). Qed.
Print Assumptions C120_labelings.

(** Met with different thresholds. *)
Example C120_hypotheses : stacked g119 upper119 lower119 /\ no_smoothness g119 /\
  ready g119 /\ ready upper119 /\ ready lower119 /\
  feq (least upper119) (num 1) = true /\ feq (least lower119) (num 0) = true /\ feq (least g119) (num 1) = true.
Proof.
  exact (conj stacked119 (conj g119_still (conj g119_ready (conj upper119_ready (conj lower119_ready thresholds119))))).
Qed.
