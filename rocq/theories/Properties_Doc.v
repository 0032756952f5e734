(** Property C127: the iteration that the documentation describes. *)
From Verif Require Import Doc_proofs Row_proofs Lattice_proofs Again_proofs Row_device_proofs Gpu_schedule Device_witness Same_witness Lattice_witness Witnesses Doc_witness.
Local Open Scope N_scope.

(** C127: after the first iteration the markers of edges are given by those of nodes, as
    the documentation says... *)
Theorem C127_edges_follow_nodes (T : target) (cg : cgraph T) k e :
  snd (documented cg (S k)) e <->
  edge_ok cg e /\ fst (documented cg k) (enode e) /\ fst (documented cg k) (enbr e).
Proof. exact (documented_edges cg k e). Qed.
Print Assumptions C127_edges_follow_nodes.

(** ...without them every iteration removes at least as much, and at most as much as two
    with them... *)
Theorem C127_steps (T : target) (cg : cgraph T) k n :
  (frugal cg k n -> fst (documented cg k) n) /\ (fst (documented cg (2 * k)) n -> frugal cg k n).
Proof. exact (steps cg k n). Qed.
Print Assumptions C127_steps.

(** ...both come to an end... *)
Theorem C127_frugal_ends (T : target) (cg : cgraph T) :
  wf_cgraph cg ->
  exists k, N.of_nat k <= width (right (cg_graph cg)) * height (right (cg_graph cg)) * levels (cg_graph cg) /\ frugal_ends cg k.
Proof. exact (frugal_end cg). Qed.
Print Assumptions C127_frugal_ends.
Theorem C127_documented_ends (T : target) (cg : cgraph T) :
  wf_cgraph cg ->
  exists k, N.of_nat k <= 2 * (width (right (cg_graph cg)) * height (right (cg_graph cg)) * levels (cg_graph cg)) + 1 /\
    documented_ends cg k.
Proof. exact (documented_end cg). Qed.
Print Assumptions C127_documented_ends.
Theorem C127_ends_together (T : target) (cg : cgraph T) k :
  (frugal_ends cg k -> documented_ends cg (S (2 * k))) /\ (documented_ends cg k -> frugal_ends cg k).
Proof. exact (ends_both cg k). Qed.
Print Assumptions C127_ends_together.

(** ...and both leave the nodes of arc-consistent sets. *)
Theorem C127_frugal_result (T : target) (cg : cgraph T) k n :
  frugal_ends cg k -> (frugal cg k n <-> lasting cg n).
Proof. exact (frugal_limit cg k n). Qed.
Print Assumptions C127_frugal_result.
Theorem C127_documented_result (T : target) (cg : cgraph T) k n :
  documented_ends cg k -> (fst (documented cg k) n <-> lasting cg n).
Proof. exact (documented_limit cg k n). Qed.
Print Assumptions C127_documented_result.
Theorem C127_same_result (T : target) (cg : cgraph T) k j n :
  frugal_ends cg k -> documented_ends cg j -> (frugal cg k n <-> fst (documented cg j) n).
Proof. exact (same_result cg k j n). Qed.
Print Assumptions C127_same_result.

(** "One of these cases is ours": something is left if and only if there is a labeling. *)
Theorem C127_documented_decides (T : target) (HL : laws T) (HO : order_laws T) (cg : cgraph T) k :
  plain_problem cg -> documented_ends cg k ->
  ((exists n, fst (documented cg k) n) <-> exists l, solution cg l).
Proof. exact (documented_decides HL HO cg k). Qed.
Print Assumptions C127_documented_decides.

(** It is not enough that nodes stay: edges have to stay, too. *)
Theorem C127_nodes_alone_refuted : exists (l r : image) lev (c s : F cpu) g lp t cg n k,
  make_graph l r lev c s = Ok g /\ make_lowest g = Ok lp /\ make_constraint g lp t = Ok cg /\ wf_cgraph cg /\
  (forall n, fst (documented cg k) n <-> fst (documented cg (S k)) n) /\
  fst (documented cg k) n /\ ~ lasting cg n.
Proof. exact nodes_alone. Qed.
Print Assumptions C127_nodes_alone_refuted.

(** Repeated calls of the solver leave what the documented iteration leaves... *)
Theorem C127_repeated_calls (T : target) (cg : cgraph T) j :
  wf_cgraph cg ->
  width (right (cg_graph cg)) * height (right (cg_graph cg)) * levels (cg_graph cg) <= N.of_nat j ->
  exists b cg', solve_again j cg = Ok (b, cg') /\ same_problem cg cg' /\
    (forall n, match_exists (cg_graph cg) n -> (available cg' n <-> lasting cg n)) /\
    (b = true <-> exists n, lasting cg n).
Proof. exact (again_lasting cg j). Qed.
Print Assumptions C127_repeated_calls.

(** ...one call leaves at least that, and at most what one iteration leaves... *)
Theorem C127_one_call (T : target) (cg : cgraph T) b cg' n :
  wf_cgraph cg -> exec solve_csp cg = Ok (b, cg') -> match_exists (cg_graph cg) n ->
  (lasting cg n -> b = true /\ available cg' n) /\ (available cg' n -> frugal cg 1 n).
Proof. exact (one_call cg b cg' n). Qed.
Print Assumptions C127_one_call.

(** ...but may leave more than the documented iteration. *)
Theorem C127_one_call_refuted : exists (l r : image) lev (c s : F cpu) g lp t cg cg' n,
  make_graph l r lev c s = Ok g /\ make_lowest g = Ok lp /\ make_constraint g lp t = Ok cg /\ wf_cgraph cg /\
  exec solve_csp cg = Ok (true, cg') /\ match_exists g n /\ available cg' n /\ ~ lasting cg n.
Proof. exact one_call_more. Qed.
Print Assumptions C127_one_call_refuted.

(** A propagation on an orderly device leaves exactly what the documented iteration
    leaves, whatever the schedule. *)
Theorem C127_device (T : target) (cg : cgraph T) a v f m' f' :
  wf_cgraph cg -> orderly a v ->
  propagate cg a true (b_kind v) (b_partition v) (cg_avail cg) f m' f' ->
  forall n, match_exists (cg_graph cg) n -> (available (with_avail cg m') n <-> lasting cg n).
Proof. exact (device_lasting cg a v f m' f'). Qed.
Print Assumptions C127_device.

(** A match that the first iteration keeps and the second removes, one that stays, and
    iterations that are finished. *)
Example C127_hypotheses : wf_cgraph cg36 /\ frugal_ends cg36 2 /\ documented_ends cg36 5 /\
  frugal cg36 1 (nd 0 0 1) /\ ~ frugal cg36 2 (nd 0 0 1) /\ frugal cg36 2 (nd 0 0 0) /\
  exec solve_csp cg36 = Ok (true, cg36').
Proof.
  exact (conj cg36_wf (conj cg36_frugal_ends (conj cg36_documented_ends (conj cg36_first (conj cg36_second (conj cg36_stays cg36_solves)))))).
Qed.
Example C127_plain : plain_problem cg84. Proof. exact cg84_plain. Qed.
Example C127_device_hypotheses : wf_cgraph row84 /\ orderly CUDA good_device /\
  exists m' f', propagate row84 CUDA true (b_kind good_device) (b_partition good_device) (cg_avail row84) no_flags m' f' /\
    m' <> cg_avail row84 /\ In true m'.
Proof. exact (conj row84_wf (conj (good_orderly CUDA) row84_propagates)). Qed.
