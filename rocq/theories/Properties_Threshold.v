(** Properties C41 - C44 and C50: candidate thresholds and the minimal threshold. *)
From Verif Require Import Graph_proofs Witnesses.
Local Open Scope N_scope.

(** C41 *)
Theorem C41_candidates (T : target) (HL : laws T) srt (g : dgraph T) lp :
  sorts srt -> wf_graph g -> make_lowest g = Ok lp -> finite_penalties g ->
  exists l, fetch_available_penalties srt lp = Ok l /\ increasing l /\ numbers l /\
    (forall c, In c l -> candidate g lp c) /\
    (forall c, candidate g lp c -> exists y, In y l /\ feq y c = true) /\
    (zero_reparam g -> nonneg_weights g ->
     forall e c, match_pair g e -> edge_excess g lp e c -> exists y, In y l /\ feq y c = true).
Proof. exact (candidates_complete HL srt g lp). Qed.
Print Assumptions C41_candidates.

Example C41_hypotheses :
  laws cpu /\ sorts (isort (T:=cpu)) /\ wf_graph sg /\ make_lowest sg = Ok (low sg) /\ finite_penalties sg /\
  zero_reparam sg /\ nonneg_weights sg.
Proof.
  exact (conj cpu_laws (conj (isort_sorts cpu_laws) (conj sample_wf_cpu (conj sg_low
    (conj sg_finite (conj sg_zero sg_nonneg)))))).
Qed.

(** C42 *)
Theorem C42_minimal_threshold (T : target) (HL : laws T) srt (g : dgraph T) lp l :
  sorts srt -> wf_graph g -> make_lowest g = Ok lp -> finite_penalties g ->
  fetch_available_penalties srt lp = Ok l ->
  (zero_reparam g /\ nonneg_weights g) \/ 2 * len l < wmod T ->
  exists t n, calculate_minimal_consistent_threshold lp g l = Ok t /\ minimal_threshold_calls lp g l = Ok n /\
    In t l /\ solver_says g lp t true /\
    (forall t', In t' l -> flt t' t = true -> solver_says g lp t' false) /\
    n <= N.log2_up (len l).
Proof. exact (minimal_threshold HL srt g lp l). Qed.
Print Assumptions C42_minimal_threshold.

Example C42_hypotheses :
  laws cpu /\ sorts (isort (T:=cpu)) /\ wf_graph sg /\ make_lowest sg = Ok (low sg) /\ finite_penalties sg /\
  fetch_available_penalties isort (low sg) = Ok (the [] (fetch_available_penalties isort (low sg))) /\
  zero_reparam sg /\ nonneg_weights sg.
Proof.
  refine (conj cpu_laws (conj (isort_sorts cpu_laws) (conj sample_wf_cpu (conj sg_low
    (conj sg_finite (conj _ (conj sg_zero sg_nonneg))))))).
  apply ok_the. vm_compute. reflexivity.
Qed.

(** C43 is violated: for an accepted problem and any sorting function there is no
    labeling within the threshold computed. *)
Theorem C43_threshold_admits_labeling_refuted :
  exists (l r : image) lev (c s : F cpu) g lp,
  make_graph l r lev c s = Ok g /\ wf_graph g /\ zero_reparam g /\ finite_penalties g /\ nonneg_weights g /\
  make_lowest g = Ok lp /\
  forall srt, sorts srt -> exists cands t,
    fetch_available_penalties srt lp = Ok cands /\
    calculate_minimal_consistent_threshold lp g cands = Ok t /\
    forall k, labeling_ok g k -> nodes_within g lp t k -> edges_within g lp t k -> False.
Proof. exact threshold_without_labeling. Qed.
Print Assumptions C43_threshold_admits_labeling_refuted.

(** C44: the threshold is not above any bound within which a labeling exists. *)
Theorem C44_threshold_lower_bound (T : target) (HL : laws T) srt (g : dgraph T) lp l t k b :
  sorts srt -> wf_graph g -> make_lowest g = Ok lp -> finite_penalties g ->
  zero_reparam g -> nonneg_weights g -> fetch_available_penalties srt lp = Ok l ->
  calculate_minimal_consistent_threshold lp g l = Ok t ->
  labeling_ok g k -> nodes_within g lp b k -> edges_within g lp b k -> fle t b = true.
Proof. exact (threshold_below HL srt g lp l t k b). Qed.
Print Assumptions C44_threshold_lower_bound.

Example C44_hypotheses :
  wf_graph sg /\ finite_penalties sg /\ zero_reparam sg /\ nonneg_weights sg /\
  labeling_ok sg k2 /\ nodes_within sg (low sg) t25 k2 /\ edges_within sg (low sg) t25 k2.
Proof. exact (conj sample_wf_cpu (conj sg_finite (conj sg_zero (conj sg_nonneg k2_ok)))). Qed.

(** C50: at the threshold computed the solver succeeds on a new constraint graph. *)
Theorem C50_solvable_at_threshold (T : target) (HL : laws T) srt (g : dgraph T) lp l t cg :
  sorts srt -> wf_graph g -> make_lowest g = Ok lp -> finite_penalties g ->
  zero_reparam g -> nonneg_weights g ->
  fetch_available_penalties srt lp = Ok l -> calculate_minimal_consistent_threshold lp g l = Ok t ->
  make_constraint g lp t = Ok cg ->
  exists cg', exec solve_csp cg = Ok (true, cg').
Proof. exact (solvable_at_threshold HL srt g lp l t cg). Qed.
Print Assumptions C50_solvable_at_threshold.

Example C50_hypotheses :
  ok (calculate_minimal_consistent_threshold (low sg) sg (the [] (fetch_available_penalties isort (low sg)))) = true.
Proof. vm_compute. reflexivity. Qed.
