(** Claims C101 and C102: failing libraries. *)
From Coq Require Import String.
From Verif Require Import Fail_spec Fail_proofs Fail_witness.
Local Open Scope N_scope.

(** C101: when calls of the OpenCL or CUDA library fail, a run is one of the runs
    without failures, to which the other claims apply, or ends as [failed] says: in
    particular nothing is written. *)
Theorem C101_contained k b v srt w p e : sorts srt -> usable_files w -> main_failing k b v srt w p e ->
  (exists x, e = Ends x /\ main_with b v srt w p x) \/
  exists o a, p = Parsed o /\ chosen b (o_parallel o) = Ok (On a) /\ failed k a e.
Proof. exact (contained k b v srt w p e). Qed.
Print Assumptions C101_contained.

(** If the kernel fits the device, the runs without failures are among them, *)
Theorem C101_unfailing k b v srt w p x : sorts srt -> usable_files w ->
  (forall o lpath l, p = Parsed o -> chosen b (o_parallel o) = Ok (On CUDA) -> o_left o = Some lpath ->
     file_holds w lpath l -> room_for k l) ->
  main_with b v srt w p x -> main_failing k b v srt w p (Ends x).
Proof. exact (unfailing k b v srt w p x). Qed.
Print Assumptions C101_unfailing.

(** and each of the failures may happen. *)
Theorem C101_happens k b v srt w o lpath rpath out a x e : sorts srt -> usable_files w -> all_paths o lpath rpath out ->
  chosen b (o_parallel o) = Ok (On a) -> main_with b v srt w (Parsed o) (Ok x) -> written_file x <> None ->
  (forall l, file_holds w lpath l -> room_for k l) -> failed k a e -> main_failing k b v srt w (Parsed o) e.
Proof. exact (happens k b v srt w o lpath rpath out a x e). Qed.
Print Assumptions C101_happens.

Example C101_hypotheses a : sorts (@isort cpu) /\ usable_files wg /\ all_paths (od a) (lit "l.pgm") (lit "r.pgm") out_path /\
  chosen both (o_parallel (od a)) = Ok (On a) /\
  main_with both good_device (@isort cpu) wg (Parsed (od a)) (Ok (ends 0 None (Some (out_path, textg)))) /\
  (forall l, file_holds wg (lit "l.pgm") l -> room_for usual l) /\
  main_failing usual both good_device (@isort cpu) wg (Parsed (od a)) (Ends (Ok (ends 0 None (Some (out_path, textg))))) /\
  main_failing usual both good_device (@isort cpu) wg (Parsed (od CUDA)) Aborts.
Proof.
  exact (conj (isort_sorts cpu_laws) (conj wg_usable (conj (og_paths out_path) (conj (chosen_small a) (conj (device_run a)
    (conj usual_room (conj (good_small a) failed_small))))))).
Qed.

(** C102 is violated: for every device there are images for which the CPU finds a map
    and CUDA never does, and yet the process returns the status 0. *)
Theorem C102_status_refuted k b : use_cuda b = true -> max_threads k + 1 < 2 ^ 30 -> exists w o o' out txt,
  usable_files w /\ o_parallel o = None /\ o' = on_device (lit "cuda") o /\ chosen b (o_parallel o') = Ok (On CUDA) /\
  (forall srt, sorts srt -> main srt w (Parsed o) = Ok (ends 0 None (Some (out, txt)))) /\
  (forall v srt e, sorts srt -> main_failing k b v srt w (Parsed o') e ->
     leaves_file e = None /\ (ndebug k = true -> returns_zero e)) /\
  (forall v srt, sorts srt -> main_failing k b v srt w (Parsed o') Exits).
Proof. exact (too_tall k b). Qed.
Print Assumptions C102_status_refuted.

Example C102_devices : use_cuda both = true /\ max_threads usual + 1 < 2 ^ 30.
Proof. exact (conj eq_refl eq_refl). Qed.

(** In general nothing is written for images with more rows or columns than the
    device takes. *)
Theorem C102_no_room k b v srt w o lpath rpath out l e :
  sorts srt -> usable_files w -> all_paths o lpath rpath out -> chosen b (o_parallel o) = Ok (On CUDA) ->
  file_holds w lpath l -> ~ room_for k l -> main_failing k b v srt w (Parsed o) e -> leaves_file e = None.
Proof. exact (no_room_file k b v srt w o lpath rpath out l e). Qed.
Print Assumptions C102_no_room.

Example C102_hypotheses : usable_files wg /\ all_paths (od CUDA) (lit "l.pgm") (lit "r.pgm") out_path /\
  chosen both (o_parallel (od CUDA)) = Ok (On CUDA) /\ file_holds wg (lit "l.pgm") gl /\
  ~ room_for {| ndebug := true; max_threads := 1; max_blocks := 65535 |} gl.
Proof. exact (conj wg_usable (conj (og_paths out_path) (conj (chosen_small CUDA) (conj wg_left narrow_room)))). Qed.
