(** C118: files that cannot be read to their ends. *)
From Coq Require Import String.
From Verif Require Import Broken_witness Main_witness.
Local Open Scope N_scope.

(** C118: if the left image breaks, or the left one can be read and the right one
    breaks, the application complains about the file and writes nothing, even if an image was complete
    when the error came. *)
Theorem C118_reported srt w o out l r : usable_fragile w -> all_paths o l r out -> technology_ok o ->
  broken_at w l \/ ((exists img, read_file (sound_part w) l = Ok img) /\ broken_at w r) ->
  exists m, main_fragile srt w (Parsed o) = Ok (ends 0 (Some m) None) /\
    (m = InvalidArgumentError NotPgm \/ m = LogicError StoulRange \/ m = LogicError LengthError).
Proof. exact (fragile_reported srt w o out l r). Qed.
Print Assumptions C118_reported.

(** All other runs are the ones without the broken files. *)
Theorem C118_runs srt w p : usable_fragile w ->
  main_fragile srt w p = main srt (sound_part w) p \/
  exists m, main_fragile srt w p = Ok (ends 0 (Some m) None) /\
    (m = InvalidArgumentError NotPgm \/ m = LogicError StoulRange \/ m = LogicError LengthError) /\
    exists o path, p = Parsed o /\ (o_left o = Some path \/ o_right o = Some path) /\ broken_at w path.
Proof. exact (fragile_ends srt w p). Qed.
Print Assumptions C118_runs.

(** In particular a map is made of two files read to their ends. *)
Theorem C118_map srt w o e f : usable_fragile w -> main_fragile srt w (Parsed o) = Ok e -> written_file e = Some f ->
  main srt (sound_part w) (Parsed o) = Ok e /\
  exists l r tl tr, o_left o = Some l /\ o_right o = Some r /\
    fragile_files w l = Some (Whole tl) /\ fragile_files w r = Some (Whole tr).
Proof. exact (map_fragile srt w o e f). Qed.
Print Assumptions C118_map.

(** C118: the same in the builds for OpenCL and CUDA, whatever the device does... *)
Theorem C118_devices_reported b v srt w o out l r pa : usable_fragile w -> all_paths o l r out -> chosen b (o_parallel o) = Ok pa ->
  broken_at w l \/ ((exists img, read_file (sound_part w) l = Ok img) /\ broken_at w r) ->
  exists m, (forall e, main_fragile_with b v srt w (Parsed o) e <-> e = Ok (ends 0 (Some m) None)) /\
    (m = InvalidArgumentError NotPgm \/ m = LogicError StoulRange \/ m = LogicError LengthError).
Proof. exact (with_reported b v srt w o out l r pa). Qed.
Print Assumptions C118_devices_reported.

Theorem C118_devices_runs b v srt w p : usable_fragile w ->
  (forall e, main_fragile_with b v srt w p e <-> main_with b v srt (sound_part w) p e) \/
  exists m, (forall e, main_fragile_with b v srt w p e <-> e = Ok (ends 0 (Some m) None)) /\
    (m = InvalidArgumentError NotPgm \/ m = LogicError StoulRange \/ m = LogicError LengthError) /\
    exists o path, p = Parsed o /\ (o_left o = Some path \/ o_right o = Some path) /\ broken_at w path.
Proof. exact (with_ends b v srt w p). Qed.
Print Assumptions C118_devices_runs.

(** ...and in the one for OpenMP, whatever the threads do. *)
Theorem C118_threads_reported v srt w o out l r : usable_fragile w -> all_paths o l r out -> technology_ok o ->
  broken_at w l \/ ((exists img, read_file (sound_part w) l = Ok img) /\ broken_at w r) ->
  exists m, (forall e, main_fragile_omp v srt w (Parsed o) e <-> e = Ok (ends 0 (Some m) None)) /\
    (m = InvalidArgumentError NotPgm \/ m = LogicError StoulRange \/ m = LogicError LengthError).
Proof. exact (omp_reported v srt w o out l r). Qed.
Print Assumptions C118_threads_reported.

Theorem C118_threads_runs v srt w p : usable_fragile w ->
  (forall e, main_fragile_omp v srt w p e <-> main_omp v srt (sound_part w) p e) \/
  exists m, (forall e, main_fragile_omp v srt w p e <-> e = Ok (ends 0 (Some m) None)) /\
    (m = InvalidArgumentError NotPgm \/ m = LogicError StoulRange \/ m = LogicError LengthError) /\
    exists o path, p = Parsed o /\ (o_left o = Some path \/ o_right o = Some path) /\ broken_at w path.
Proof. exact (omp_ends v srt w p). Qed.
Print Assumptions C118_threads_runs.

(** The first model is an instance of the second one. *)
Theorem C118_one_thread v srt w p e :
  main_fragile_with {| use_opencl := false; use_cuda := false |} v srt w p e <-> e = main_fragile srt w p.
Proof. exact (plain_fragile v srt w p e). Qed.
Print Assumptions C118_one_thread.

Example C118_hypotheses : usable_fragile wb /\
  (forall srt, sorts srt -> main_fragile srt wb (Parsed (og out_path)) = Ok (ends 0 None (Some (out_path, textg)))) /\
  (forall l r, technology_ok (ob l r) /\ all_paths (ob l r) l r out_path) /\
  broken_at wb copy_path /\ broken_at wb directory_path /\
  (exists img, read_file (sound_part wb) (lit "l.pgm") = Ok img) /\
  main_fragile isort wb (Parsed (ob (lit "l.pgm") copy_path)) = Ok (ends 0 (Some (InvalidArgumentError NotPgm)) None) /\
  main_fragile isort wb (Parsed (ob directory_path (lit "r.pgm"))) = Ok (ends 0 (Some (InvalidArgumentError NotPgm)) None).
Proof. exact broken_example. Qed.
