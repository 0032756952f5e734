(** C122: scarce memory in the builds with OpenMP, OpenCL and CUDA. *)
From Coq Require Import String.
From Verif Require Import Fail_witness Device_witness Omp_witness Memory_builds_witness Main_witness.
Local Open Scope N_scope.

(** C122: whichever allocations fail, a run of the build with OpenMP does what some
    run with enough memory does, or it ends with the status 1 and writes nothing or
    empties the output, or it complains about a file with a word of more than 15
    characters; if the options cannot be parsed, it may be aborted. *)
Theorem C122_omp v srt w p e : sorts srt -> usable_files w -> team_ok v -> main_scarce_omp v srt w p e ->
  (exists x, main_omp v srt w p (Ok x) /\ e = Ends (Ok x)) \/
  ends_with e 1 (Some UnexpectedException) None \/
  (ends_with e 1 None None /\ exists o l r out, p = Parsed o /\ all_paths o l r out /\ technology_ok o) \/
  (e = Aborts /\ (p = Repeated \/ p = Rejected)) \/
  (exists out txt, main_omp v srt w p (Ok (ends 0 None (Some (out, txt)))) /\ ends_with e 1 (Some UnexpectedException) (Some (out, []))) \/
  (long_words w p /\ blames_file e).
Proof. exact (omp_short v srt w p e). Qed.
Print Assumptions C122_omp.

(** A file that is not empty holds a map that is written with enough memory. *)
Theorem C122_omp_map v srt w p x path txt : sorts srt -> usable_files w -> team_ok v -> main_scarce_omp v srt w p (Ends (Ok x)) ->
  written_file x = Some (path, txt) -> txt <> [] -> main_omp v srt w p (Ok x).
Proof. exact (omp_file v srt w p x path txt). Qed.
Print Assumptions C122_omp_map.

(** Without long words in the files the status tells that something is wrong. *)
Theorem C122_omp_status v srt w p e : sorts srt -> usable_files w -> team_ok v -> ~ long_words w p -> main_scarce_omp v srt w p e ->
  (exists x, main_omp v srt w p (Ok x) /\ e = Ends (Ok x)) \/ ends_one e \/ e = Aborts.
Proof. exact (omp_status v srt w p e). Qed.
Print Assumptions C122_omp_status.

(** Runs with enough memory are among the runs considered. *)
Theorem C122_omp_enough v srt w p x : main_omp v srt w p x -> main_scarce_omp v srt w p (Ends x).
Proof. exact (omp_enough v srt w p x). Qed.
Print Assumptions C122_omp_enough.

Example C122_omp_hypotheses : sorts (@isort cpu) /\ usable_files wg /\ team_ok two_team /\ ~ long_words wg (Parsed (og out_path)) /\
  main_omp two_team isort wg (Parsed (og out_path)) (Ok (ends 0 None (Some (out_path, textg)))) /\
  main_scarce_omp two_team isort wg (Parsed (og out_path)) (Ends (Ok (ends 0 None (Some (out_path, textg))))) /\
  exists e, main_scarce_omp two_team isort wg (Parsed (og out_path)) e /\ ends_with e 1 None None.
Proof. exact omp_scarce_example. Qed.

(** C122: the same with OpenCL and CUDA, whose libraries may fail as well (C101). *)
Theorem C122_devices k b v srt w p e : sorts srt -> usable_files w -> device_fits b w p -> main_scarce_with k b v srt w p e ->
  main_failing k b v srt w p e \/
  ends_with e 1 (Some UnexpectedException) None \/
  (e = Aborts /\ (p = Repeated \/ p = Rejected)) \/
  (exists out txt, main_with b v srt w p (Ok (ends 0 None (Some (out, txt)))) /\ ends_with e 1 (Some UnexpectedException) (Some (out, []))) \/
  (long_words w p /\ blames_file e).
Proof. exact (with_short k b v srt w p e). Qed.
Print Assumptions C122_devices.

Theorem C122_devices_map k b v srt w p x path txt : sorts srt -> usable_files w -> device_fits b w p ->
  main_scarce_with k b v srt w p (Ends (Ok x)) -> written_file x = Some (path, txt) -> txt <> [] -> main_with b v srt w p (Ok x).
Proof. exact (with_file k b v srt w p x path txt). Qed.
Print Assumptions C122_devices_map.

Theorem C122_devices_status k b v srt w p e : sorts srt -> usable_files w -> device_fits b w p -> ~ long_words w p ->
  main_scarce_with k b v srt w p e -> main_failing k b v srt w p e \/ ends_one e \/ e = Aborts.
Proof. exact (with_status k b v srt w p e). Qed.
Print Assumptions C122_devices_status.

Theorem C122_devices_enough k b v srt w p e : main_failing k b v srt w p e -> main_scarce_with k b v srt w p e.
Proof. exact (with_enough k b v srt w p e). Qed.
Print Assumptions C122_devices_enough.

Example C122_devices_hypotheses a : sorts (@isort cpu) /\ usable_files wg /\ device_fits both wg (Parsed (od a)) /\ ~ long_words wg (Parsed (od a)) /\
  main_with both good_device isort wg (Parsed (od a)) (Ok (ends 0 None (Some (out_path, textg)))) /\
  main_scarce_with usual both good_device isort wg (Parsed (od a)) (Ends (Ok (ends 0 None (Some (out_path, textg))))).
Proof. exact (with_scarce_example a). Qed.

(** Built without OpenCL and CUDA the program is that of C116 and C117. *)
Theorem C122_plain k v srt w p e :
  main_scarce_with k {| use_opencl := false; use_cuda := false |} v srt w p e <-> main_scarce srt w p e.
Proof. exact (plain_scarce k v srt w p e). Qed.
Print Assumptions C122_plain.

(** C122 is violated as C116 and C117 are: an old output may be emptied, *)
Theorem C122_old_output_refuted :
  (forall v srt w p out txt, main_omp v srt w p (Ok (ends 0 None (Some (out, txt)))) ->
     exists e, main_scarce_omp v srt w p e /\ ends_with e 1 (Some UnexpectedException) (Some (out, []))) /\
  (forall k b v srt w p out txt, main_failing k b v srt w p (Ends (Ok (ends 0 None (Some (out, txt))))) ->
     exists e, main_scarce_with k b v srt w p e /\ ends_with e 1 (Some UnexpectedException) (Some (out, []))).
Proof. exact (conj omp_emptied with_emptied). Qed.
Print Assumptions C122_old_output_refuted.

(** and a file that can be read may be blamed. *)
Theorem C122_blame_refuted : exists w p, usable_files w /\
  (forall srt, sorts srt -> exists path txt, main srt w p = Ok (ends 0 None (Some (path, txt)))) /\
  (forall v srt, exists e, main_scarce_omp v srt w p e /\ blames_file e) /\
  (forall k b v srt, exists e, main_scarce_with k b v srt w p e /\ blames_file e).
Proof. exact blamed_builds. Qed.
Print Assumptions C122_blame_refuted.
