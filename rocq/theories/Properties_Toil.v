(** Property C125: the work of the threads of the OpenMP build and of the work-items of
    a device. *)
From Verif Require Import Toil_proofs Toil_witness Runs_witness Witnesses Toil_spec Concur.
Local Open Scope N_scope.

(** One round, whatever the schedule, the memory and the size of its words: the steps
    of all threads together.  The number of threads counts only for those that give up
    the whole problem. *)
Theorem C125_round (T : target) (cg : cgraph T) sc wb bound jobs m n s :
  1 <= jobs -> bound <= jobs -> height (right (cg_graph cg)) + jobs < wmod T ->
  psteps sc wb n (round_start cg bound jobs m) s ->
  N.of_nat n <=
    width (right (cg_graph cg)) * height (right (cg_graph cg)) * levels (cg_graph cg) * (8 * levels (cg_graph cg) + 4) +
    3 * (width (right (cg_graph cg)) * height (right (cg_graph cg)) * levels (cg_graph cg)) *
      N.min bound (height (right (cg_graph cg))).
Proof. exact (round_work cg sc wb bound jobs m n s). Qed.
Print Assumptions C125_round.

(** The steps of each thread: the rows are divided among the threads. *)
Theorem C125_thread (T : target) (cg : cgraph T) sc wb bound jobs m tr s i :
  1 <= jobs -> height (right (cg_graph cg)) + jobs < wmod T ->
  turns sc wb tr (round_start cg bound jobs m) s ->
  turns_of i tr <=
    (height (right (cg_graph cg)) + (jobs - 1)) / jobs *
      (width (right (cg_graph cg)) * levels (cg_graph cg) * (8 * levels (cg_graph cg) + 4)) +
    3 * (width (right (cg_graph cg)) * height (right (cg_graph cg)) * levels (cg_graph cg)).
Proof. exact (thread_work cg sc wb bound jobs m tr s i). Qed.
Print Assumptions C125_thread.

(** These are the executions of the model. *)
Theorem C125_turns A sc wb n (s s' : pool A) :
  psteps sc wb n s s' <-> exists tr, turns sc wb tr s s' /\ length tr = n.
Proof. exact (psteps_turns sc wb n s s'). Qed.
Print Assumptions C125_turns.

Example C125_thread_hypotheses :
  1 <= 2 /\ 2 <= 2 /\ height (right (cg_graph scg)) + 2 < wmod cpu /\
  exists tr s, turns true 64 tr (round_start scg 2 2 (cg_avail scg)) s /\ In 0%nat tr /\ In 1%nat tr.
Proof. refine (conj _ (conj _ (conj _ scg_turns))); vm_compute; (reflexivity || discriminate). Qed.

(** A call of [solve_csp] on sequentially consistent memory with separate elements. *)
Theorem C125_solve (T : target) (cg : cgraph T) bound jobs n m' :
  wf_cgraph cg -> 1 <= jobs -> bound <= jobs -> height (right (cg_graph cg)) + jobs < wmod T ->
  toil cg true 1 bound jobs n (cg_avail cg) m' ->
  N.of_nat n <=
    width (right (cg_graph cg)) * height (right (cg_graph cg)) * levels (cg_graph cg) * (16 * levels (cg_graph cg) + 8) +
    6 * (width (right (cg_graph cg)) * height (right (cg_graph cg)) * levels (cg_graph cg)) *
      N.min bound (height (right (cg_graph cg))).
Proof. exact (toil_work cg bound jobs n m'). Qed.
Print Assumptions C125_solve.

Theorem C125_counted (T : target) (cg : cgraph T) sc wb bound jobs m m' :
  (exists k, rounds cg sc wb bound jobs k m m') <-> exists n, toil cg sc wb bound jobs n m m'.
Proof. exact (toil_rounds cg sc wb bound jobs m m'). Qed.
Print Assumptions C125_counted.

Example C125_solve_hypotheses :
  wf_cgraph scg /\ 1 <= 2 /\ 2 <= 2 /\ height (right (cg_graph scg)) + 2 < wmod cpu /\
  exists n, toil scg true 1 2 2 n (cg_avail scg) scg_one.
Proof. refine (conj scg_wf (conj _ (conj _ (conj _ scg_toil)))); vm_compute; (reflexivity || discriminate). Qed.

(** With the elements packed into words of 64, as in [std::vector<bool>], there is no
    bound: a call of [solve_csp] that ends may have made any number of steps before. *)
Theorem C125_packed_refuted :
  exists (l r : image) lev (c s : F cpu) g cg,
  make_graph l r lev c s = Ok g /\ wf_cgraph cg /\ cg_graph cg = g /\ make_lowest g = Ok (cg_lowest cg) /\
  forall k, exists n m, (k <= n)%nat /\ toil cg true 64 2 2 n (cg_avail cg) m.
Proof. exact toil_unbounded. Qed.
Print Assumptions C125_packed_refuted.

(** A launch on a sequentially consistent device, however its barriers work. *)
Theorem C125_launch (T : target) (cg : cgraph T) a kind group f n s :
  wf_cgraph cg ->
  kernel_path cg a true kind group n (launch_start cg a (cg_avail cg) f) s ->
  N.of_nat n <=
    width (right (cg_graph cg)) * height (right (cg_graph cg)) * (N.of_nat (available_count (cg_avail cg)) + 1) *
      (levels (cg_graph cg) * (8 * levels (cg_graph cg) + 3) + 10).
Proof. exact (launch_work cg a kind group f n s). Qed.
Print Assumptions C125_launch.

Example C125_launch_hypotheses :
  wf_cgraph (with_avail cl72_problem first_choice) /\
  exists group n s, kernel_path (with_avail cl72_problem first_choice) OpenCL true Strict group n
    (launch_start (with_avail cl72_problem first_choice) OpenCL first_choice no_flags) s /\ finished s.
Proof. exact (conj chosen_wf chosen_path). Qed.
