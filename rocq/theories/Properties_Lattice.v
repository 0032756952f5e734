(** Properties C81 - C87: the lattice of labelings, arc consistency, and images of one row. *)
From Verif Require Import Lattice_proofs Again_proofs Row_proofs Row_device_proofs Witnesses Gpu_schedule Device_witness Same_witness Lattice_witness.
Local Open Scope N_scope.

(** C81: what the application makes is a plain problem... *)
Theorem C81_made_plain (T : target) (HL : laws T) (g : dgraph T) lp t cg :
  wf_graph g -> make_lowest g = Ok lp -> make_constraint g lp t = Ok cg ->
  zero_reparam g -> finite_penalties g -> nonneg_weights g -> plain_problem cg.
Proof. exact (plain_made HL g lp t cg). Qed.
Print Assumptions C81_made_plain.

(** ...and of two labelings of a plain problem the pixelwise smaller and the pixelwise
    larger one are labelings, too. *)
Theorem C81_labelings_form_a_lattice (T : target) (HL : laws T) (HO : order_laws T) (cg : cgraph T) k k' :
  plain_problem cg -> solution cg k -> solution cg k' ->
  solution cg (lower_labeling k k') /\ solution cg (upper_labeling k k').
Proof. exact (lower_solution HL HO cg k k'). Qed.
Print Assumptions C81_labelings_form_a_lattice.

Theorem C81_builds : order_laws cpu /\ order_laws opencl /\ order_laws cuda /\ order_laws exact.
Proof. exact (conj cpu_order (conj opencl_order (conj cuda_order exact_order))). Qed.
Print Assumptions C81_builds.

Example C81_hypotheses : plain_problem scg /\ solution scg k1 /\ solution scg k2 /\
  k1 px0 < k2 px0 /\ k2 {| px := 0; py := 1 |} < k1 {| px := 0; py := 1 |}.
Proof. exact (conj scg_plain (conj k1_solution (conj k2_solution k1_k2_apart))). Qed.

(** C82: if nothing is to be removed, taking the smallest available disparity of every
    pixel, or the largest one of every pixel, gives a labeling... *)
Theorem C82_extreme_labelings (T : target) (HL : laws T) (HO : order_laws T) (cg : cgraph T) k :
  plain_problem cg -> settled cg -> smallest_available cg k \/ largest_available cg k -> solution cg k.
Proof. exact (settled_extreme HL HO cg k). Qed.
Print Assumptions C82_extreme_labelings.

(** ...so there is one if every pixel has an available match. *)
Theorem C82_consistent_solvable (T : target) (HL : laws T) (HO : order_laws T) (cg : cgraph T) :
  plain_problem cg -> settled cg -> everywhere_available cg -> exists k, solution cg k.
Proof. exact (settled_solution HL HO cg). Qed.
Print Assumptions C82_consistent_solvable.

Example C82_hypotheses : plain_problem cg85 /\ settled cg85 /\ everywhere_available cg85 /\
  available cg85 {| npix := {| px := 0; py := 0 |}; disp := 0 |} /\
  available cg85 {| npix := {| px := 0; py := 0 |}; disp := 2 |}.
Proof. exact (conj (proj1 cg85_plain) (conj (proj1 cg85_settled) (conj (proj2 cg85_settled) cg85_choice))). Qed.

(** C83: calling the solver repeatedly decides whether there is a labeling, and keeps
    all of them... *)
Theorem C83_repeated_calls_decide (T : target) (HL : laws T) (HO : order_laws T) (cg : cgraph T) n :
  plain_problem cg ->
  width (right (cg_graph cg)) * height (right (cg_graph cg)) * levels (cg_graph cg) <= N.of_nat n ->
  exists b cg', solve_again n cg = Ok (b, cg') /\ same_problem cg cg' /\ settled cg' /\
    (b = true <-> exists k, solution cg k) /\
    (forall k, solution cg' k <-> solution cg k).
Proof. exact (again_decides HL HO cg n). Qed.
Print Assumptions C83_repeated_calls_decide.

(** ...and one call that succeeds and changes nothing is enough to know that there is one. *)
Theorem C83_unchanged_call (T : target) (HL : laws T) (HO : order_laws T) (cg : cgraph T) :
  plain_problem cg -> exec solve_csp cg = Ok (true, cg) -> settled cg /\ exists k, solution cg k.
Proof. exact (unchanged_solution HL HO cg). Qed.
Print Assumptions C83_unchanged_call.

(** The first two calls change this problem, the third does not. *)
Example C83_hypotheses : plain_problem cg84 /\
  cg_avail (after solve_csp cg84) <> cg_avail cg84 /\
  cg_avail (after solve_csp (after solve_csp cg84)) <> cg_avail (after solve_csp cg84) /\
  exec solve_csp cg85 = Ok (true, cg85).
Proof.
  refine (conj cg84_plain (conj (proj1 cg84_changes) (conj (proj2 cg84_changes) cg85_unchanged))).
Qed.

(** C84: after one successful call every available match has an available, compatible
    one for the pixel to its left and for the pixel above it... *)
Theorem C84_backward_support (T : target) (cg cg' : cgraph T) n q :
  wf_cgraph cg -> exec solve_csp cg = Ok (true, cg') ->
  match_exists (cg_graph cg) n -> available cg' n -> in_image (cg_graph cg) q -> adjacent (npix n) q ->
  px q < px (npix n) \/ py q < py (npix n) ->
  exists n', npix n' = q /\ available cg' n' /\ match_pair (cg_graph cg) {| enode := n; enbr := n' |} /\
    edge_within (cg_graph cg) (cg_lowest cg) (cg_threshold cg) {| enode := n; enbr := n' |}.
Proof. exact (solve_backward cg cg' n q). Qed.
Print Assumptions C84_backward_support.

(** ...so for images of one row success means that there is a labeling... *)
Theorem C84_one_row_solvable (T : target) (HL : laws T) (cg cg' : cgraph T) :
  plain_problem cg -> height (right (cg_graph cg)) = 1 -> exec solve_csp cg = Ok (true, cg') ->
  exists k, solution cg' k /\ solution cg k.
Proof. exact (row_solution HL cg cg'). Qed.
Print Assumptions C84_one_row_solvable.

(** ...and the threshold computed is the smallest one within which there is a labeling
    (C43 is violated for images of several rows only). *)
Theorem C84_one_row_threshold (T : target) (HL : laws T) srt (g : dgraph T) lp l t :
  sorts srt -> wf_graph g -> make_lowest g = Ok lp -> finite_penalties g ->
  zero_reparam g -> nonneg_weights g -> fetch_available_penalties srt lp = Ok l ->
  calculate_minimal_consistent_threshold lp g l = Ok t -> height (right g) = 1 ->
  (exists k, labeling_ok g k /\ nodes_within g lp t k /\ edges_within g lp t k) /\
  (forall k b, labeling_ok g k -> nodes_within g lp b k -> edges_within g lp b k -> fle t b = true).
Proof. exact (row_threshold_least HL srt g lp l t). Qed.
Print Assumptions C84_one_row_threshold.

Example C84_hypotheses : plain_problem cg84 /\ height (right (cg_graph cg84)) = 1 /\
  exec solve_csp cg84 = Ok (true, after solve_csp cg84) /\
  wf_graph g84 /\ make_lowest g84 = Ok (low g84) /\ finite_penalties g84 /\ zero_reparam g84 /\ nonneg_weights g84 /\
  ok (calculate_minimal_consistent_threshold (low g84) g84 (the [] (fetch_available_penalties isort (low g84)))) = true.
Proof.
  exact (conj cg84_plain (conj cg84_row (conj cg84_solves (conj g84_wf (conj g84_low (conj g84_finite (conj g84_zero (conj g84_nonneg g84_threshold)))))))).
Qed.

(** C85: on images of one row the labeling on the CPU succeeds where nothing is to be
    removed at first... *)
Theorem C85_one_row_labeling (T : target) (HL : laws T) (cg : cgraph T) :
  plain_problem cg -> height (right (cg_graph cg)) = 1 -> settled cg -> everywhere_available cg ->
  exists cg', exec find_labeling cg = Ok (true, cg').
Proof. exact (row_labeling HL cg). Qed.
Print Assumptions C85_one_row_labeling.

Example C85_hypotheses : plain_problem cg85 /\ height (right (cg_graph cg85)) = 1 /\ settled cg85 /\ everywhere_available cg85.
Proof. exact (conj (proj1 cg85_plain) (conj (proj2 cg85_plain) cg85_settled)). Qed.

(** ...but may fail on images of two rows although there is a labeling. *)
Theorem C85_labeling_refuted : exists (g : dgraph cpu) lp t cg cg',
  make_graph (left g) (right g) (levels g) (cleanness g) (smoothness g) = Ok g /\
  make_lowest g = Ok lp /\ make_constraint g lp t = Ok cg /\
  plain_problem cg /\ settled cg /\ everywhere_available cg /\ (exists k, solution cg k) /\
  exec find_labeling cg = Ok (false, cg').
Proof. exact two_rows_fail. Qed.
Print Assumptions C85_labeling_refuted.

(** C86: on an orderly device one propagation decides whether there is a labeling, and
    keeps all of them. *)
Theorem C86_device_decides (T : target) (HL : laws T) (HO : order_laws T) (cg : cgraph T) a v f m' f' :
  plain_problem cg -> orderly a v ->
  propagate cg a true (b_kind v) (b_partition v) (cg_avail cg) f m' f' ->
  (everywhere_available (with_avail cg m') <-> exists k, solution cg k) /\
  (forall k, solution (with_avail cg m') k <-> solution cg k).
Proof. exact (device_decides HL HO cg a v f m' f'). Qed.
Print Assumptions C86_device_decides.

Example C86_hypotheses : plain_problem cud58 /\ orderly CUDA good_device /\
  exists m' f', propagate cud58 CUDA true (b_kind good_device) (b_partition good_device) (cg_avail cud58) no_flags m' f' /\
    m' <> cg_avail cud58.
Proof. exact (conj cud58_plain (conj (good_orderly CUDA) cud58_propagates)). Qed.

(** C87: on images of one row the labeling on an orderly device succeeds where nothing
    is to be removed at first... *)
Theorem C87_one_row_device (T : target) (HL : laws T) (cg : cgraph T) a v m' :
  plain_problem cg -> height (right (cg_graph cg)) = 1 -> settled cg -> everywhere_available cg ->
  orderly a v -> csp_solution cg a true (b_kind v) (b_partition v) m' ->
  exists k, solution (with_avail cg m') k.
Proof. exact (row_device_labeling HL cg a v m'). Qed.
Print Assumptions C87_one_row_device.

Example C87_hypotheses : plain_problem row85 /\ height (right (cg_graph row85)) = 1 /\ settled row85 /\
  everywhere_available row85 /\ orderly CUDA good_device /\
  exists m', csp_solution row85 CUDA true (b_kind good_device) (b_partition good_device) m'.
Proof.
  exact (conj (proj1 row85_plain) (conj (proj2 row85_plain) (conj (proj1 row85_settled) (conj (proj2 row85_settled) (conj (good_orderly CUDA) row85_labels))))).
Qed.

(** ...but may leave nothing available on images of two rows although there is a labeling. *)
Theorem C87_device_refuted : exists (cg : cgraph cuda) m',
  plain_problem cg /\ settled cg /\ everywhere_available cg /\ (exists k, solution cg k) /\ orderly CUDA good_device /\
  csp_solution cg CUDA true (b_kind good_device) (b_partition good_device) m' /\
  forall n, match_exists (cg_graph cg) n -> ~ available (with_avail cg m') n.
Proof. exact two_rows_fail_cuda. Qed.
Print Assumptions C87_device_refuted.
