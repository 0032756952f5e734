(** The multi-threaded solver.  The interleaving semantics is in Concur.v: [sc] says
    whether loads see the latest store, [wb] is the number of elements in a memory
    word, [bound] the number of jobs that are started and [jobs] the number of jobs
    each of them assumes. *)
From Verif Require Import Schedule Witnesses.
Local Open Scope N_scope.

(** C39: in every state reached during [solve_csp] every job has finished or can go
    on without a fault, nothing was made available, and consistent labelings are
    kept. *)
Theorem C39_every_schedule_safe (T : target) (cg : cgraph T) sc wb bound jobs s :
  wf_cgraph cg -> 1 <= jobs -> height (right (cg_graph cg)) + jobs < wmod T ->
  reached cg sc wb bound jobs (cg_avail cg) s ->
  let cg' := with_avail cg (current (history s)) in
  wf_cgraph cg' /\ same_problem cg cg' /\
  (forall t, In t (threads s) -> ~ faulty (current (history s)) t /\
     ((exists r, t = Run (Ret r)) \/ exists t' h', tstep sc wb t (history s) t' h')) /\
  (forall n, in_image (cg_graph cg) (npix n) -> disp n < levels (cg_graph cg) ->
     available cg' n -> available cg n) /\
  (forall k, solution cg k -> solution cg' k).
Proof. exact (jobs_safe cg sc wb bound jobs s). Qed.
Print Assumptions C39_every_schedule_safe.

Example C39_hypotheses : wf_cgraph scg /\ 1 <= 2 /\ height (right (cg_graph scg)) + 2 < wmod cpu /\
  reached scg false 64 3 2 (cg_avail scg) (round_start scg 3 2 (cg_avail scg)).
Proof.
  refine (conj scg_wf _). refine (conj _ (conj _ _)); [vm_compute; discriminate|vm_compute; reflexivity|].
  eapply reached_round. constructor.
Qed.

(** C32 for several jobs: whatever the interleaving, a consistent labeling survives
    and the result is [true]. *)
Theorem C32_jobs_keep_labelings (T : target) (cg : cgraph T) sc wb bound jobs k b cg' :
  wf_cgraph cg -> 1 <= jobs -> height (right (cg_graph cg)) + jobs < wmod T ->
  solution cg k -> solves cg sc wb bound jobs b cg' -> b = true /\ solution cg' k.
Proof. exact (jobs_keep_solution cg sc wb bound jobs k b cg'). Qed.
Print Assumptions C32_jobs_keep_labelings.

(** C33 for several jobs. *)
Theorem C33_jobs_only_remove (T : target) (cg : cgraph T) sc wb bound jobs b cg' :
  wf_cgraph cg -> 1 <= jobs -> height (right (cg_graph cg)) + jobs < wmod T ->
  solves cg sc wb bound jobs b cg' ->
  wf_cgraph cg' /\ same_problem cg cg' /\
  forall n, in_image (cg_graph cg) (npix n) -> disp n < levels (cg_graph cg) -> available cg' n -> available cg n.
Proof. exact (jobs_only_remove cg sc wb bound jobs b cg'). Qed.
Print Assumptions C33_jobs_only_remove.

Example C32_jobs_hypotheses : wf_cgraph scg /\ 1 <= 2 /\ height (right (cg_graph scg)) + 2 < wmod cpu /\
  solution scg k2 /\ exists cg', solves scg true 64 2 2 true cg'.
Proof. exact (conj scg_wf (conj two_jobs (conj two_jobs_scg (conj k2_solution scg_two_jobs)))). Qed.

(** C35 for several jobs on sequentially consistent memory with separate elements.
    A round always ends (for every memory and word size), and there are at most two
    rounds. *)
Theorem C35_jobs_terminate (T : target) (cg : cgraph T) bound jobs :
  wf_cgraph cg -> 1 <= jobs -> height (right (cg_graph cg)) + jobs < wmod T ->
  (forall sc wb m, exists steps, forall n s,
     psteps sc wb n (round_start cg bound jobs m) s -> (n <= steps)%nat) /\
  (forall m1 m2, round cg true 1 bound jobs (cg_avail cg) true m1 -> ~ round cg true 1 bound jobs m1 true m2) /\
  (forall n m, rounds cg true 1 bound jobs n (cg_avail cg) m -> (n <= 2)%nat).
Proof. exact (jobs_terminate cg bound jobs). Qed.
Print Assumptions C35_jobs_terminate.

Example C35_jobs_hypotheses : wf_cgraph scg /\ 1 <= 2 /\ height (right (cg_graph scg)) + 2 < wmod cpu.
Proof. exact (conj scg_wf (conj two_jobs two_jobs_scg)). Qed.

(** C40 is violated: for an accepted problem and two jobs one schedule gives [true]
    and another [false]. *)
Theorem C40_schedule_independent_refuted :
  exists (l r : image) lev (c s : F cpu) g lp t cg cg1 cg2,
  make_graph l r lev c s = Ok g /\ wf_graph g /\ zero_reparam g /\ finite_penalties g /\ make_lowest g = Ok lp /\
  make_constraint g lp t = Ok cg /\
  solves cg true 64 2 2 true cg1 /\ solves cg true 64 2 2 false cg2.
Proof. exact schedule_matters. Qed.
Print Assumptions C40_schedule_independent_refuted.

(** C63 is violated: with elements packed into words two jobs can restore what the
    other removed; the round reports a change and leaves everything as it was, so
    the same round can be repeated for ever. *)
Theorem C63_packed_rounds_progress_refuted :
  exists (l r : image) lev (c s : F cpu) g cg,
  make_graph l r lev c s = Ok g /\ wf_cgraph cg /\ cg_graph cg = g /\ make_lowest g = Ok (cg_lowest cg) /\
  round cg true 64 2 2 (cg_avail cg) true (cg_avail cg).
Proof. exact same_again. Qed.
Print Assumptions C63_packed_rounds_progress_refuted.
