(** C124: memory, input files and output files fail in the same run. *)
From Coq Require Import String.
From Verif Require Import Fail_witness Device_witness Omp_witness Broken_witness Troubles_witness Main_witness.
Local Open Scope N_scope.

(** C124: whichever allocations fail, whichever input files break and however much the
    output files take, a run of the build with OpenMP does what some run without
    trouble does, except that the file may end early; or it ends with the status 1 and
    writes nothing or empties the output; or it complains about an image whose file
    breaks or has a word of more than 15 characters; or, if the options cannot be
    parsed, it is aborted.  In the runs without trouble the broken files do not exist. *)
Theorem C124_omp v srt w room p e : sorts srt -> usable_fragile w -> team_ok v -> main_troubled_omp v srt w room p e ->
  (exists x, main_omp v srt (sound_part w) p (Ok x) /\ e = Ends (cut_file room (Ok x))) \/
  ends_with e 1 (Some UnexpectedException) None \/
  (ends_with e 1 None None /\ exists o l r out, p = Parsed o /\ all_paths o l r out /\ technology_ok o) \/
  (e = Aborts /\ (p = Repeated \/ p = Rejected)) \/
  (exists out txt, main_omp v srt (sound_part w) p (Ok (ends 0 None (Some (out, txt)))) /\
     ends_with e 1 (Some UnexpectedException) (Some (out, []))) \/
  ((long_words (sound_part w) p \/ broken_input w p) /\ blames_file e).
Proof. exact (omp_troubled v srt w room p e). Qed.
Print Assumptions C124_omp.

(** A file that is not empty holds the first characters of the map of two images that
    do not break.  The reader takes it for the map if at most the line feed at the end
    is missing, and rejects it otherwise. *)
Theorem C124_omp_map v srt w room p x path t : sorts srt -> usable_fragile w -> team_ok v ->
  main_troubled_omp v srt w room p (Ends (Ok x)) -> written_file x = Some (path, t) -> t <> [] ->
  status x = 0 /\ printed x = None /\
  exists o l r img txt, p = Parsed o /\ all_paths o l r path /\ ~ broken_at w l /\ ~ broken_at w r /\
    map_omp v srt (sound_part w) o l r (Ok img) /\ write_image [] (Some img) = Ok txt /\
    t = firstn (N.to_nat (room path)) txt /\
    (max_value img <= 65536 -> len txt <= room path + 1 -> reads_image t img) /\
    (room path + 1 < len txt -> rejects t).
Proof. exact (omp_troubled_map v srt w room p x path t). Qed.
Print Assumptions C124_omp_map.

(** With a broken image nothing is written, and no output is emptied. *)
Theorem C124_omp_broken v srt w room p e : sorts srt -> usable_fragile w -> team_ok v -> broken_input w p ->
  main_troubled_omp v srt w room p e -> exists x, e = Ends (Ok x) /\ written_file x = None.
Proof. exact (omp_troubled_broken v srt w room p e). Qed.
Print Assumptions C124_omp_broken.

(** The runs of C122 and C118, whose files may end early as in C105, are among the
    runs considered. *)
Theorem C124_omp_scarce v srt w room p e : ~ broken_input w p -> main_scarce_omp v srt (sound_part w) p e ->
  main_troubled_omp v srt w room p (cut_fate room e).
Proof. exact (omp_troubled_scarce v srt w room p e). Qed.
Print Assumptions C124_omp_scarce.

Theorem C124_omp_fragile v srt w room p e : main_fragile_omp v srt w p e ->
  main_troubled_omp v srt w room p (Ends (cut_file room e)).
Proof. exact (omp_troubled_fragile v srt w room p e). Qed.
Print Assumptions C124_omp_fragile.

Example C124_omp_hypotheses : sorts (@isort cpu) /\ usable_fragile wb /\ team_ok two_team /\
  (forall n, main_troubled_omp two_team isort wb (space_for n) (Parsed (og out_path)) (Ends (Ok (ends 0 None (Some (out_path, all_but n)))))) /\
  all_but 2 <> [] /\
  broken_input wb (Parsed (ob (lit "l.pgm") copy_path)) /\
  forall room, main_troubled_omp two_team isort wb room (Parsed (ob (lit "l.pgm") copy_path)) (Ends (Ok (ends 0 (Some (InvalidArgumentError NotPgm)) None))).
Proof. exact omp_troubled_example. Qed.

(** C124: the same with OpenCL and CUDA, whose libraries may fail as well (C101), and
    without them. *)
Theorem C124_devices k b v srt w room p e : sorts srt -> usable_fragile w -> device_fits b (sound_part w) p ->
  main_troubled_with k b v srt w room p e ->
  (exists e0, main_failing k b v srt (sound_part w) p e0 /\ e = cut_fate room e0) \/
  ends_with e 1 (Some UnexpectedException) None \/
  (e = Aborts /\ (p = Repeated \/ p = Rejected)) \/
  (exists out txt, main_with b v srt (sound_part w) p (Ok (ends 0 None (Some (out, txt)))) /\
     ends_with e 1 (Some UnexpectedException) (Some (out, []))) \/
  ((long_words (sound_part w) p \/ broken_input w p) /\ blames_file e).
Proof. exact (with_troubled k b v srt w room p e). Qed.
Print Assumptions C124_devices.

Theorem C124_devices_map k b v srt w room p x path t : sorts srt -> usable_fragile w -> device_fits b (sound_part w) p ->
  main_troubled_with k b v srt w room p (Ends (Ok x)) -> written_file x = Some (path, t) -> t <> [] ->
  status x = 0 /\ printed x = None /\
  exists o l r pa img txt, p = Parsed o /\ all_paths o l r path /\ chosen b (o_parallel o) = Ok pa /\ ~ broken_at w l /\ ~ broken_at w r /\
    map_with pa v srt (sound_part w) o l r (Ok img) /\ write_image [] (Some img) = Ok txt /\
    t = firstn (N.to_nat (room path)) txt /\
    (max_value img <= 65536 -> len txt <= room path + 1 -> reads_image t img) /\
    (room path + 1 < len txt -> rejects t).
Proof. exact (with_troubled_map k b v srt w room p x path t). Qed.
Print Assumptions C124_devices_map.

Theorem C124_devices_broken k b v srt w room p x : sorts srt -> usable_fragile w -> device_fits b (sound_part w) p -> broken_input w p ->
  main_troubled_with k b v srt w room p (Ends x) -> exists y, x = Ok y /\ written_file y = None.
Proof. exact (with_troubled_broken k b v srt w room p x). Qed.
Print Assumptions C124_devices_broken.

Theorem C124_devices_scarce k b v srt w room p e : ~ broken_input w p -> main_scarce_with k b v srt (sound_part w) p e ->
  main_troubled_with k b v srt w room p (cut_fate room e).
Proof. exact (with_troubled_scarce k b v srt w room p e). Qed.
Print Assumptions C124_devices_scarce.

Example C124_devices_hypotheses a : sorts (@isort cpu) /\ usable_fragile wb /\ device_fits both (sound_part wb) (Parsed (od a)) /\
  (forall n, main_troubled_with usual both good_device isort wb (space_for n) (Parsed (od a)) (Ends (Ok (ends 0 None (Some (out_path, all_but n)))))) /\
  all_but 2 <> [].
Proof. exact (with_troubled_example a). Qed.

(** Not every trouble is told: the status 0 and no message come with a file that ends
    early (C105). *)
Theorem C124_told_refuted : exists w room p out txt t, usable_fragile w /\ len t < len txt /\
  main_omp two_team isort (sound_part w) p (Ok (ends 0 None (Some (out, txt)))) /\
  main_troubled_omp two_team isort w room p (Ends (Ok (ends 0 None (Some (out, t))))).
Proof. exact untold. Qed.
Print Assumptions C124_told_refuted.
