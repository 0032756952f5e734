(** Properties C27 - C38: availability and the single-threaded solver. *)
From Verif Require Import Graph_proofs Witnesses.
Local Open Scope N_scope.

(** C27: a node of a new constraint graph is available exactly if it exists and is
    within the threshold. *)
Theorem C27_initial_availability (T : target) (g : dgraph T) lp t :
  wf_graph g -> make_lowest g = Ok lp ->
  exists cg, make_constraint g lp t = Ok cg /\
    cg_graph cg = g /\ cg_lowest cg = lp /\ cg_threshold cg = t /\
    (forall n, in_image g (npix n) -> disp n < levels g ->
       (available cg n <-> match_exists g n /\ node_within g lp t n)) /\
    (laws T -> finite_penalties g -> fle fzero t = true -> forall p, in_image g p ->
       exists n, npix n = p /\ match_exists g n /\ available cg n).
Proof. exact (initial_availability g lp t). Qed.
Print Assumptions C27_initial_availability.

Example C27_hypotheses :
  laws cpu /\ wf_graph sg /\ make_lowest sg = Ok (low sg) /\ finite_penalties sg /\ fle fzero t25 = true.
Proof. refine (conj cpu_laws (conj sample_wf_cpu (conj sg_low (conj sg_finite _)))). vm_compute. reflexivity. Qed.

(** C28 *)
Theorem C28_set_availability (T : target) (cg : cgraph T) n :
  wf_cgraph cg -> in_image (cg_graph cg) (npix n) -> disp n < levels (cg_graph cg) ->
  (exists cg', exec (fun cg => make_node_available cg n) cg = Ok (tt, cg') /\ same_problem cg cg' /\
     forall n', in_image (cg_graph cg) (npix n') -> disp n' < levels (cg_graph cg) ->
       (available cg' n' <-> n' = n \/ available cg n')) /\
  (exists cg', exec (fun cg => make_node_unavailable cg n) cg = Ok (tt, cg') /\ same_problem cg cg' /\
     forall n', in_image (cg_graph cg) (npix n') -> disp n' < levels (cg_graph cg) ->
       (available cg' n' <-> n' <> n /\ available cg n')) /\
  (exists cg', exec make_all_nodes_unavailable cg = Ok (tt, cg') /\ same_problem cg cg' /\
     forall n', in_image (cg_graph cg) (npix n') -> disp n' < levels (cg_graph cg) -> ~ available cg' n').
Proof. exact (set_availability cg n). Qed.
Print Assumptions C28_set_availability.

Example C28_hypotheses :
  wf_cgraph scg /\ in_image (cg_graph scg) (npix (nd 1 1 1)) /\ disp (nd 1 1 1) < levels (cg_graph scg).
Proof. refine (conj scg_wf _). rewrite scg_graph. repeat split; reflexivity. Qed.

(** C29: what edge availability means, and that it is symmetric for a zero
    reparametrization. *)
Theorem C29_edge_availability (T : target) (cg : cgraph T) e :
  wf_cgraph cg ->
  in_image (cg_graph cg) (npix (enode e)) -> disp (enode e) < levels (cg_graph cg) ->
  in_image (cg_graph cg) (npix (enbr e)) -> disp (enbr e) < levels (cg_graph cg) ->
  (edge_available cg e <->
   match_pair (cg_graph cg) e /\ available cg (enode e) /\ available cg (enbr e) /\
   edge_within (cg_graph cg) (cg_lowest cg) (cg_threshold cg) e) /\
  (adjacent (npix (enode e)) (npix (enbr e)) ->
   exists b, exec (fun cg => is_edge_available cg e) cg = Ok (b, cg)).
Proof. exact (edge_availability cg e). Qed.
Print Assumptions C29_edge_availability.

Theorem C29_symmetric (T : target) (HL : laws T) (cg : cgraph T) e :
  wf_cgraph cg -> make_lowest (cg_graph cg) = Ok (cg_lowest cg) ->
  zero_reparam (cg_graph cg) -> finite_penalties (cg_graph cg) -> nonneg_weights (cg_graph cg) ->
  in_image (cg_graph cg) (npix (enode e)) -> disp (enode e) < levels (cg_graph cg) ->
  in_image (cg_graph cg) (npix (enbr e)) -> disp (enbr e) < levels (cg_graph cg) ->
  edge_available cg e <-> edge_available cg (reverse e).
Proof. exact (edge_available_symmetric HL cg e). Qed.
Print Assumptions C29_symmetric.

Example C29_hypotheses :
  laws cpu /\ wf_cgraph scg /\ make_lowest (cg_graph scg) = Ok (cg_lowest scg) /\ zero_reparam (cg_graph scg) /\ finite_penalties (cg_graph scg) /\
  nonneg_weights (cg_graph scg) /\ in_image (cg_graph scg) (npix (nd 0 0 2)) /\ disp (nd 0 0 2) < levels (cg_graph scg).
Proof.
  rewrite scg_graph. refine (conj cpu_laws (conj scg_wf (conj sg_low (conj sg_zero (conj sg_finite (conj sg_nonneg _)))))).
  repeat split; reflexivity.
Qed.

(** C30 is violated: with a reparametrization an edge of a new constraint graph can
    be available although its reverse is not. *)
Theorem C30_edge_symmetry_refuted :
  exists (g : dgraph cpu) lp t cg e,
  wf_graph g /\ finite_penalties g /\ make_lowest g = Ok lp /\ fle fzero t = true /\ make_constraint g lp t = Ok cg /\
  match_pair g e /\ edge_available cg e /\ ~ edge_available cg (reverse e).
Proof. exact edge_not_symmetric. Qed.
Print Assumptions C30_edge_symmetry_refuted.

(** C31 *)
Theorem C31_removal_test (T : target) (cg : cgraph T) n :
  wf_cgraph cg -> in_image (cg_graph cg) (npix n) -> disp n < levels (cg_graph cg) ->
  exists b, exec (fun cg => should_remove_node cg n) cg = Ok (b, cg) /\
    (b = true <->
     available cg n /\
     exists q, in_image (cg_graph cg) q /\ adjacent (npix n) q /\
       forall n', npix n' = q -> disp n' < levels (cg_graph cg) -> ~ edge_available cg {| enode := n; enbr := n' |}).
Proof. exact (removal_test cg n). Qed.
Print Assumptions C31_removal_test.

Example C31_hypotheses :
  wf_cgraph scg /\ in_image (cg_graph scg) (npix (nd 0 0 0)) /\ disp (nd 0 0 0) < levels (cg_graph scg).
Proof. refine (conj scg_wf _). rewrite scg_graph. repeat split; reflexivity. Qed.

(** C32: solving keeps every consistent labeling. *)
Theorem C32_solving_keeps_labelings (T : target) (cg : cgraph T) k :
  wf_cgraph cg -> solution cg k ->
  exists cg', exec solve_csp cg = Ok (true, cg') /\ same_problem cg cg' /\ solution cg' k.
Proof. exact (solve_keeps_solution cg k). Qed.
Print Assumptions C32_solving_keeps_labelings.

Example C32_hypotheses : wf_cgraph scg /\ solution scg k2.
Proof. exact (conj scg_wf k2_solution). Qed.

(** C33: solving only removes nodes. *)
Theorem C33_solving_only_removes (T : target) (cg : cgraph T) p jobs job :
  wf_cgraph cg -> in_image (cg_graph cg) p ->
  1 <= jobs -> height (right (cg_graph cg)) + jobs < wmod T ->
  (exists b cg', exec (fun cg => csp_process_pixel cg p) cg = Ok (b, cg') /\ same_problem cg cg' /\
     forall n, in_image (cg_graph cg) (npix n) -> disp n < levels (cg_graph cg) -> available cg' n -> available cg n) /\
  (exists b cg', exec (fun cg => csp_solution_iteration cg jobs job) cg = Ok (b, cg') /\ same_problem cg cg' /\
     forall n, in_image (cg_graph cg) (npix n) -> disp n < levels (cg_graph cg) -> available cg' n -> available cg n) /\
  (exists b cg', exec solve_csp cg = Ok (b, cg') /\ same_problem cg cg' /\
     forall n, in_image (cg_graph cg) (npix n) -> disp n < levels (cg_graph cg) -> available cg' n -> available cg n).
Proof. exact (solve_only_removes cg p jobs job). Qed.
Print Assumptions C33_solving_only_removes.

Example C33_hypotheses :
  wf_cgraph scg /\ in_image (cg_graph scg) px0 /\ height (right (cg_graph scg)) + 4 < wmod cpu.
Proof. refine (conj scg_wf _). rewrite scg_graph. repeat split; reflexivity. Qed.

(** C34 *)
Theorem C34_all_or_nothing (T : target) (cg : cgraph T) b cg' :
  wf_cgraph cg -> exec solve_csp cg = Ok (b, cg') ->
  (b = true -> forall p, in_image (cg_graph cg) p ->
     exists n, npix n = p /\ match_exists (cg_graph cg) n /\ available cg' n) /\
  (b = false -> forall n, in_image (cg_graph cg) (npix n) -> disp n < levels (cg_graph cg) -> ~ available cg' n).
Proof. exact (solve_all_or_nothing cg b cg'). Qed.
Print Assumptions C34_all_or_nothing.

Example C34_hypotheses : wf_cgraph scg /\ exec solve_csp scg = Ok (true, after solve_csp scg).
Proof. exact (conj scg_wf scg_solves). Qed.

(** C35, one thread: two sweeps are enough. *)
Theorem C35_solve_csp_terminates (T : target) (cg : cgraph T) :
  wf_cgraph cg ->
  exists r, forall fuel, (2 <= fuel)%nat -> exec (solve_csp_fuel fuel 1 1) cg = Ok r.
Proof. exact (solve_terminates cg). Qed.
Print Assumptions C35_solve_csp_terminates.

Example C35_hypotheses : wf_cgraph scg.
Proof. exact scg_wf. Qed.

(** C36 is violated: for an accepted problem the solver succeeds and leaves a node
    which should be removed and is removed by a second call. *)
Theorem C36_arc_consistency_refuted :
  exists (l r : image) lev (c s : F cpu) g lp t cg cg' cg'' n,
  make_graph l r lev c s = Ok g /\ wf_graph g /\ zero_reparam g /\ finite_penalties g /\ make_lowest g = Ok lp /\
  fle fzero t = true /\ make_constraint g lp t = Ok cg /\
  exec solve_csp cg = Ok (true, cg') /\ match_exists g n /\ available cg' n /\
  exec (fun cg => should_remove_node cg n) cg' = Ok (true, cg') /\
  exec solve_csp cg' = Ok (true, cg'') /\ ~ available cg'' n.
Proof. exact not_arc_consistent. Qed.
Print Assumptions C36_arc_consistency_refuted.

(** C37 is violated: for an accepted problem the solver succeeds at a threshold
    within which there is no labeling. *)
Theorem C37_true_means_labeling_refuted :
  exists (l r : image) lev (c s : F cpu) g lp t cg cg',
  make_graph l r lev c s = Ok g /\ wf_graph g /\ zero_reparam g /\ finite_penalties g /\ make_lowest g = Ok lp /\
  make_constraint g lp t = Ok cg /\ exec solve_csp cg = Ok (true, cg') /\
  forall k, labeling_ok g k -> nodes_within g lp t k -> edges_within g lp t k -> False.
Proof. exact true_without_labeling. Qed.
Print Assumptions C37_true_means_labeling_refuted.

(** C38: a larger threshold or more available nodes keep the solver successful. *)
Theorem C38_monotone (T : target) (HL : laws T) (cg1 cg2 cg1' : cgraph T) :
  wf_cgraph cg1 -> wf_cgraph cg2 ->
  cg_graph cg2 = cg_graph cg1 -> cg_lowest cg2 = cg_lowest cg1 -> fle (cg_threshold cg1) (cg_threshold cg2) = true ->
  (forall n, in_image (cg_graph cg1) (npix n) -> disp n < levels (cg_graph cg1) -> available cg1 n -> available cg2 n) ->
  exec solve_csp cg1 = Ok (true, cg1') ->
  exists cg2', exec solve_csp cg2 = Ok (true, cg2') /\
    forall n, in_image (cg_graph cg1) (npix n) -> disp n < levels (cg_graph cg1) -> available cg1' n -> available cg2' n.
Proof. exact (solve_monotone HL cg1 cg2 cg1'). Qed.
Print Assumptions C38_monotone.

Theorem C38_monotone_fresh (T : target) (HL : laws T) (g : dgraph T) lp t1 t2 cg1 cg1' :
  wf_graph g -> make_lowest g = Ok lp -> fle t1 t2 = true ->
  make_constraint g lp t1 = Ok cg1 -> exec solve_csp cg1 = Ok (true, cg1') ->
  exists cg2 cg2', make_constraint g lp t2 = Ok cg2 /\ exec solve_csp cg2 = Ok (true, cg2') /\
    forall n, in_image g (npix n) -> disp n < levels g -> available cg1' n -> available cg2' n.
Proof. exact (solve_monotone_fresh HL g lp t1 t2 cg1 cg1'). Qed.
Print Assumptions C38_monotone_fresh.

Example C38_hypotheses :
  laws cpu /\ wf_graph sg /\ make_lowest sg = Ok (low sg) /\ fle t25 (num 30) = true /\
  make_constraint sg (low sg) t25 = Ok scg /\ exec solve_csp scg = Ok (true, after solve_csp scg).
Proof.
  refine (conj cpu_laws (conj sample_wf_cpu (conj sg_low (conj _ (conj scg_made scg_solves))))). vm_compute. reflexivity.
Qed.
