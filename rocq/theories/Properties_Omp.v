(** Properties C75-C80: the application built with OpenMP.  A team says how many jobs
    a round starts ([bound]), how many each job assumes ([jobs]), whether loads see
    the latest stores and how many elements share a memory word.  The theorems are
    about the runs that come to an end; C63 shows that some do not. *)
From Coq Require Import String.
From Verif Require Import Omp_run_proofs Omp_witness.
Local Open Scope N_scope.

(** C75: whatever the threads do, no run that comes to an end has met a fault... *)
Theorem C75_no_fault v srt w p e :
  sorts srt -> usable_files w -> team_ok v -> main_omp v srt w p e -> exists e', e = Ok e'.
Proof. exact (omp_total v srt w p e). Qed.
Print Assumptions C75_no_fault.

(** ...every team has runs that come to an end... *)
Theorem C75_some_run v srt w p bound jobs :
  usable_files w -> team_ok v -> t_size v bound jobs -> exists e, main_omp v srt w p e.
Proof. exact (some_run v srt w p bound jobs). Qed.
Print Assumptions C75_some_run.

(** ...and each has reported what the sequential program reports, that no labeling
    was found, or has a valid image for the output file. *)
Theorem C75_reports v srt w o lpath rpath out e :
  sorts srt -> usable_files w -> team_ok v -> all_paths o lpath rpath out -> technology_ok o ->
  main_omp v srt w (Parsed o) e ->
  (exists y, e = Ok (ends 0 (Some (report y)) None) /\
     (main srt w (Parsed o) = Ok (ends 0 (Some (report y)) None) \/
      y = CannotSolve \/ y = CannotLabel \/ (y = NoLabel /\ ~ orderly_team v))) \/
  exists img txt, valid_image img /\ write_image [] (Some img) = Ok txt /\
    e = Ok (ends 0 None (if writable w out then Some (out, txt) else None)).
Proof. exact (omp_reports v srt w o lpath rpath out e). Qed.
Print Assumptions C75_reports.

(** Command lines that do not ask for a map are treated as in the sequential program. *)
Theorem C75_otherwise v srt w p e :
  (forall o l r out, p = Parsed o -> all_paths o l r out -> ~ technology_ok o) ->
  (main_omp v srt w p e <-> e = main srt w p).
Proof. exact (main_omp_other v srt w p e). Qed.
Print Assumptions C75_otherwise.

Example C75_hypotheses : sorts (@isort cpu) /\ usable_files wg /\ team_ok two_team /\ t_size two_team 2 2 /\
  all_paths (og out_path) (lit "l.pgm") (lit "r.pgm") out_path /\ technology_ok (og out_path) /\
  main_omp two_team (@isort cpu) wg (Parsed (og out_path)) (Ok (ends 0 None (Some (out_path, textg)))).
Proof.
  exact (conj (isort_sorts cpu_laws) (conj wg_usable (conj (orderly_ok _ two_orderly) (conj (conj eq_refl eq_refl)
    (conj (og_paths _) (conj (run_technology _ _ _ _) two_run)))))).
Qed.
Example C75_otherwise_hypotheses : forall o l r out, Rejected = Parsed o -> all_paths o l r out -> ~ technology_ok o.
Proof. discriminate. Qed.

(** C76: the maps written consist of existing matches whose penalties are within a
    bound no labeling can beat, whatever the threads do. *)
Theorem C76_matched v srt w o lpath rpath out e f :
  sorts srt -> usable_files w -> team_ok v -> all_paths o lpath rpath out -> technology_ok o ->
  main_omp v srt w (Parsed o) (Ok e) -> written_file e = Some f ->
  exists l r lev c s g lp t img txt, file_holds w lpath l /\ file_holds w rpath r /\
    option_number (width l) (o_levels o) lev /\ option_number 1 (o_cleanness o) c /\ option_number 1 (o_smoothness o) s /\
    make_graph l r lev (of_u (t := cpu) c) (of_u s) = Ok g /\ make_lowest g = Ok lp /\ lower_bound g lp t /\
    matched_map g lp t img /\ (orderly_team v -> greedy_map g lp img) /\
    write_image [] (Some img) = Ok txt /\ f = (out, txt).
Proof. exact (omp_written v srt w o lpath rpath out e f). Qed.
Print Assumptions C76_matched.

(** C77: an orderly team writes only maps that respect all constraints and are
    optimal. *)
Theorem C77_optimal v srt w o lpath rpath out e f :
  sorts srt -> usable_files w -> orderly_team v -> all_paths o lpath rpath out -> technology_ok o ->
  main_omp v srt w (Parsed o) (Ok e) -> written_file e = Some f ->
  exists l r lev c s g lp img txt, file_holds w lpath l /\ file_holds w rpath r /\
    option_number (width l) (o_levels o) lev /\ option_number 1 (o_cleanness o) c /\ option_number 1 (o_smoothness o) s /\
    make_graph l r lev (of_u (t := cpu) c) (of_u s) = Ok g /\ make_lowest g = Ok lp /\ best_map g lp img /\
    write_image [] (Some img) = Ok txt /\ f = (out, txt).
Proof. exact (omp_optimal v srt w o lpath rpath out e f). Qed.
Print Assumptions C77_optimal.

Example C77_hypotheses : sorts (@isort cpu) /\ usable_files wg /\ orderly_team two_team /\
  all_paths (og out_path) (lit "l.pgm") (lit "r.pgm") out_path /\ technology_ok (og out_path) /\
  main_omp two_team (@isort cpu) wg (Parsed (og out_path)) (Ok (ends 0 None (Some (out_path, textg)))).
Proof.
  exact (conj (isort_sorts cpu_laws) (conj wg_usable (conj two_orderly (conj (og_paths _) (conj (run_technology _ _ _ _) two_run))))).
Qed.

(** The claim is violated by the teams of a compiler that evaluates the bound of the
    parallel loop outside of it, where there is one thread: one job is started, and
    skips every other row.  The map it leaves is written though it breaks the ordering
    constraint; the sequential program does not write it. *)
Theorem C77_loop_bound_refuted : exists v srt w o lpath rpath out l r lev c s g img txt,
  team_ok v /\ t_sc v = true /\ (forall bound jobs, t_size v bound jobs <-> bound = 1 /\ jobs = 2) /\
  sorts srt /\ usable_files w /\ all_paths o lpath rpath out /\ technology_ok o /\
  file_holds w lpath l /\ file_holds w rpath r /\
  option_number (width l) (o_levels o) lev /\ option_number 1 (o_cleanness o) c /\ option_number 1 (o_smoothness o) s /\
  make_graph l r lev (of_u (t := cpu) c) (of_u s) = Ok g /\ write_image [] (Some img) = Ok txt /\
  main_omp v srt w (Parsed o) (Ok (ends 0 None (Some (out, txt)))) /\ ~ labeling_ok g (map_labeling img) /\
  main srt w (Parsed o) <> Ok (ends 0 None (Some (out, txt))).
Proof. exact disordered_map. Qed.
Print Assumptions C77_loop_bound_refuted.

(** C78: if there can be a single thread, the run of the sequential program is among
    the runs of the OpenMP build; if there is never more than one thread, it is the
    only one. *)
Theorem C78_one_thread v srt w p :
  usable_files w -> t_size v 1 1 ->
  main_omp v srt w p (main srt w p) /\ (one_thread v -> forall e, main_omp v srt w p e -> e = main srt w p).
Proof. exact (main_agrees v srt w p). Qed.
Print Assumptions C78_one_thread.

Example C78_hypotheses : usable_files wg /\
  one_thread {| t_sc := true; t_word := 64; t_size := fun bound jobs => bound = 1 /\ jobs = 1 |}.
Proof. exact (conj wg_usable (conj eq_refl (conj (conj eq_refl eq_refl) (fun _ _ H => H)))). Qed.

(** C79: runs of orderly teams that write a file write the same one, whatever the
    numbers of threads and the schedules... *)
Theorem C79_same_file v v' srt srt' w p e e' f f' :
  sorts srt -> sorts srt' -> usable_files w -> orderly_team v -> orderly_team v' ->
  main_omp v srt w p (Ok e) -> main_omp v' srt' w p (Ok e') ->
  written_file e = Some f -> written_file e' = Some f' -> e = e'.
Proof. exact (omp_same v v' srt srt' w p e e' f f'). Qed.
Print Assumptions C79_same_file.

(** ...and the same as the sequential program, if it writes one. *)
Theorem C79_as_sequential v srt srt' w p e e' f f' :
  sorts srt -> sorts srt' -> usable_files w -> orderly_team v ->
  main_omp v srt w p (Ok e) -> main srt' w p = Ok e' -> written_file e = Some f -> written_file e' = Some f' -> e = e'.
Proof. exact (omp_as_main v srt srt' w p e e' f f'). Qed.
Print Assumptions C79_as_sequential.

Example C79_hypotheses : sorts (@isort cpu) /\ usable_files wg /\ orderly_team two_team /\
  main_omp two_team (@isort cpu) wg (Parsed (og out_path)) (Ok (ends 0 None (Some (out_path, textg)))) /\
  main (@isort cpu) wg (Parsed (og out_path)) = Ok (ends 0 None (Some (out_path, textg))).
Proof.
  exact (conj (isort_sorts cpu_laws) (conj wg_usable (conj two_orderly (conj two_run (rung _ (isort_sorts cpu_laws)))))).
Qed.

(** Whether a file is written does depend on the schedule: the same team may write a
    map or find none, may write a map where the sequential program finds none, and may
    find the problem unsolvable for the threshold it has just found. *)
Theorem C79_found_or_not_refuted :
  (exists v srt w o path txt, orderly_team v /\ sorts srt /\ usable_files w /\
     main_omp v srt w (Parsed o) (Ok (ends 0 None (Some (path, txt)))) /\
     main_omp v srt w (Parsed o) (Ok (ends 0 (Some (LogicError CannotLabel)) None))) /\
  (exists v srt w o path txt, orderly_team v /\ sorts srt /\ usable_files w /\
     main_omp v srt w (Parsed o) (Ok (ends 0 None (Some (path, txt)))) /\
     main srt w (Parsed o) = Ok (ends 0 (Some (LogicError CannotLabel)) None)) /\
  (exists v srt w o, orderly_team v /\ sorts srt /\ usable_files w /\
     main_omp v srt w (Parsed o) (Ok (ends 0 (Some (LogicError CannotSolve)) None))).
Proof. exact schedule_decides. Qed.
Print Assumptions C79_found_or_not_refuted.

(** C80: the sequential program writes the first of the optimal maps, in the order in
    which pixels get their labels; there is only one such map. *)
Theorem C80_first_map srt w o lpath rpath out e f :
  sorts srt -> usable_files w -> all_paths o lpath rpath out -> technology_ok o ->
  main srt w (Parsed o) = Ok e -> written_file e = Some f ->
  exists l r lev c s g lp img txt, file_holds w lpath l /\ file_holds w rpath r /\
    option_number (width l) (o_levels o) lev /\ option_number 1 (o_cleanness o) c /\ option_number 1 (o_smoothness o) s /\
    make_graph l r lev (of_u (t := cpu) c) (of_u s) = Ok g /\ make_lowest g = Ok lp /\ greedy_map g lp img /\
    (forall img', greedy_map g lp img' -> img' = img) /\
    write_image [] (Some img) = Ok txt /\ f = (out, txt).
Proof. exact (main_greedy srt w o lpath rpath out e f). Qed.
Print Assumptions C80_first_map.

Example C80_hypotheses : sorts (@isort cpu) /\ usable_files wg /\
  all_paths (og out_path) (lit "l.pgm") (lit "r.pgm") out_path /\ technology_ok (og out_path) /\
  main (@isort cpu) wg (Parsed (og out_path)) = Ok (ends 0 None (Some (out_path, textg))).
Proof.
  exact (conj (isort_sorts cpu_laws) (conj wg_usable (conj (og_paths _) (conj (run_technology _ _ _ _) (rung _ (isort_sorts cpu_laws)))))).
Qed.
