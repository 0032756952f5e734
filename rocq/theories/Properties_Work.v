(** Property C109: the amount of work. *)
From Verif Require Import Work_spec Work_proofs Witnesses.
Local Open Scope N_scope.

(** A call of [solve_csp], however many sweeps it is allowed to make. *)
Theorem C109_solve (T : target) (cg : cgraph T) fuel :
  wf_cgraph cg -> (2 <= fuel)%nat ->
  accesses (solve_csp_fuel fuel 1 1 cg) (cg_avail cg) <=
    width (right (cg_graph cg)) * height (right (cg_graph cg)) * levels (cg_graph cg) * (16 * levels (cg_graph cg) + 11).
Proof. exact (work_solve cg fuel). Qed.
Print Assumptions C109_solve.

(** The labeling. *)
Theorem C109_labeling (T : target) (cg : cgraph T) :
  wf_cgraph cg ->
  accesses (find_labeling cg) (cg_avail cg) <=
    width (right (cg_graph cg)) * height (right (cg_graph cg)) *
      (3 * levels (cg_graph cg) +
       width (right (cg_graph cg)) * height (right (cg_graph cg)) * levels (cg_graph cg) * (16 * levels (cg_graph cg) + 11)).
Proof. exact (work_label cg). Qed.
Print Assumptions C109_labeling.

(** It cannot be less than quadratic in the number of pixels: a labeling that is
    found has cost two accesses for every pair of pixels. *)
Theorem C109_quadratic (T : target) (HL : laws T) (cg cg' : cgraph T) :
  wf_cgraph cg -> exec find_labeling cg = Ok (true, cg') ->
  2 * (width (right (cg_graph cg)) * height (right (cg_graph cg))) *
    (width (right (cg_graph cg)) * height (right (cg_graph cg)))
  <= accesses (find_labeling cg) (cg_avail cg).
Proof. exact (work_least HL cg cg'). Qed.
Print Assumptions C109_quadratic.

(** The disparity map. *)
Theorem C109_map (T : target) (cg : cgraph T) :
  wf_cgraph cg ->
  accesses (build_disparity_map cg) (cg_avail cg) <=
    width (right (cg_graph cg)) * height (right (cg_graph cg)) * levels (cg_graph cg).
Proof. exact (work_map cg). Qed.
Print Assumptions C109_map.

Example C109_hypotheses : laws cpu /\ wf_cgraph scg /\ answers find_labeling scg true = true.
Proof. refine (conj cpu_laws (conj scg_wf _)). vm_compute. reflexivity. Qed.

(** The search for the threshold: the number of calls, and each of them. *)
Theorem C109_threshold (T : target) (HL : laws T) srt (g : dgraph T) lp l :
  sorts srt -> wf_graph g -> make_lowest g = Ok lp ->
  finite_penalties g -> zero_reparam g -> nonneg_weights g -> fetch_available_penalties srt lp = Ok l ->
  (exists n, minimal_threshold_calls lp g l = Ok n /\
     n <= N.log2_up (2 * (width (right g) * height (right g) * levels g))) /\
  forall t cg, make_constraint g lp t = Ok cg ->
    accesses (solve_csp cg) (cg_avail cg) <= width (right g) * height (right g) * levels g * (16 * levels g + 11).
Proof. exact (work_threshold HL srt g lp l). Qed.
Print Assumptions C109_threshold.

Example C109_threshold_hypotheses :
  laws cpu /\ sorts (isort (T:=cpu)) /\ wf_graph sg /\ make_lowest sg = Ok (low sg) /\ finite_penalties sg /\
  zero_reparam sg /\ nonneg_weights sg /\
  fetch_available_penalties isort (low sg) = Ok (the [] (fetch_available_penalties isort (low sg))).
Proof.
  refine (conj cpu_laws (conj (isort_sorts cpu_laws) (conj sample_wf_cpu (conj sg_low
    (conj sg_finite (conj sg_zero (conj sg_nonneg _))))))).
  apply ok_the. vm_compute. reflexivity.
Qed.
