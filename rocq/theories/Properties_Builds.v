(** Incomplete files of the build with OpenMP (C105) and runs of different builds one
    after another (C123). *)
From Coq Require Import String.
From Verif Require Import Device_witness Omp_witness Series_witness Builds_witness.
Local Open Scope N_scope.

(** C105 with OpenMP: the application does not notice that the output file takes only
    some of the characters. *)
Theorem C105_omp_unnoticed v srt w room p e :
  main_disk_omp v srt w room p e <-> exists e', main_omp v srt w p e' /\ e = cut_file room e'.
Proof. exact (omp_cut v srt w room p e). Qed.
Print Assumptions C105_omp_unnoticed.

Theorem C105_omp_room v srt w room p e :
  (forall path t x, e = Ok x -> written_file x = Some (path, t) -> len t <= room path) ->
  main_omp v srt w p e -> main_disk_omp v srt w room p e.
Proof. exact (omp_room v srt w room p e). Qed.
Print Assumptions C105_omp_room.

(** Incomplete maps are recognised when they are read, whatever the threads do. *)
Theorem C105_omp_maps v srt w room o lpath rpath out e path t :
  sorts srt -> usable_files w -> team_ok v -> all_paths o lpath rpath out ->
  main_disk_omp v srt w room (Parsed o) (Ok e) -> written_file e = Some (path, t) ->
  path = out /\ exists img txt, map_omp v srt w o lpath rpath (Ok img) /\ write_image [] (Some img) = Ok txt /\
    t = firstn (N.to_nat (room out)) txt /\
    (max_value img <= 65536 -> len txt <= room out + 1 -> reads_image t img) /\
    (room out + 1 < len txt -> rejects t).
Proof. exact (omp_recognised v srt w room o lpath rpath out e path t). Qed.
Print Assumptions C105_omp_maps.

Example C105_omp_hypotheses room : usable_files wg /\ team_ok two_team /\ all_paths (og out_path) (lit "l.pgm") (lit "r.pgm") out_path /\
  main_disk_omp two_team (@isort cpu) wg room (Parsed (og out_path))
    (Ok (ends 0 None (Some (out_path, firstn (N.to_nat (room out_path)) textg)))).
Proof. exact (conj wg_usable (conj (proj1 (proj2 suit_all)) (conj (og_paths out_path) (crew_disk room)))). Qed.

(** C123: files stay usable and suitable for every build, only files named as output
    change, and they hold valid images written by one of the runs... *)
Theorem C123_series srt w runs es w' : sorts srt -> usable_files w -> (forall x args, In (x, args) runs -> suits w x) ->
  series srt w runs es w' ->
  usable_files w' /\ (forall y, suits w y -> suits w' y) /\ length es = length runs /\
  (forall q, writable w' q = writable w q) /\
  (forall q, (forall x args, In (x, args) runs -> ~ writes_to args q) -> files w' q = files w q) /\
  (forall q, files w' q = files w q \/
     exists e t img, In e es /\ written_file e = Some (q, t) /\ files w' q = Some t /\ write_image [] (Some img) = Ok t /\ valid_image img).
Proof. exact (fun Hs U S H => series_keeps srt w runs es w' Hs H U S). Qed.
Print Assumptions C123_series.

(** ...so that no series ends with a fault. *)
Theorem C123_no_fault srt w runs es w' x args e : sorts srt -> usable_files w -> (forall y a, In (y, a) runs -> suits w y) -> suits w x ->
  series srt w runs es w' -> runs_as x srt w' args e ->
  exists e', e = Ok e' /\ series srt w (runs ++ [(x, args)]) (es ++ [e']) (world_after w' e').
Proof. exact (series_goes_on srt w runs es w' x args e). Qed.
Print Assumptions C123_no_fault.

(** The map of one run can be an image of a run of any other build. *)
Theorem C123_map_as_image x srt w args e path t : sorts srt -> usable_files w -> suits w x -> runs_as x srt w args (Ok e) ->
  written_file e = Some (path, t) ->
  exists img, write_image [] (Some img) = Ok t /\ valid_image img /\ (max_value img <= 65536 -> file_holds (world_after w e) path img) /\
    (forall i, file_holds (world_after w e) path i -> exists lpath l, file_holds w lpath l /\ width i = width l /\ height i = height l).
Proof. exact (fun Hs U S R W => proj2 (wrote_usable x srt w args e path t Hs U S R W)). Qed.
Print Assumptions C123_map_as_image.

(** A run does not change what can happen in later runs of any build, unless it writes
    to one of their images. *)
Theorem C123_independent x y srt w args args' e e' : sorts srt -> usable_files w -> suits w x -> runs_as x srt w args (Ok e) ->
  (forall q, writes_to args q -> ~ reads_from args' q) -> runs_as y srt (world_after w e) args' e' <-> runs_as y srt w args' e'.
Proof. exact (builds_again x y srt w args args' e e'). Qed.
Print Assumptions C123_independent.

(** The order of two runs does not matter if neither writes to a file that the other
    one reads or writes. *)
Theorem C123_order srt w x y a b ea eb w1 : sorts srt -> usable_files w -> suits w x -> suits w y ->
  (forall q, writes_to a q -> ~ reads_from b q /\ ~ writes_to b q) -> (forall q, writes_to b q -> ~ reads_from a q) ->
  series srt w [(x, a); (y, b)] [ea; eb] w1 -> exists w2, series srt w [(y, b); (x, a)] [eb; ea] w2 /\ same_files w1 w2.
Proof. exact (builds_order srt w x y a b ea eb w1). Qed.
Print Assumptions C123_order.

Example C123_hypotheses : usable_files wg /\ suits wg dev /\ suits wg crew /\ suits wg basic /\
  exists w', series (@isort cpu) wg [(dev, args_device); (crew, args_plain); (basic, args_map)]
    [ends 0 None (Some (out_path, textg)); ends 0 None (Some (out_path, textg)); ends 0 None (Some (lit "l.pgm", zero_text))] w'.
Proof. exact (conj wg_usable (conj (proj1 suit_all) (conj (proj1 (proj2 suit_all)) (conj (proj2 (proj2 suit_all)) three_builds)))). Qed.
Example C123_apart : (forall q, writes_to args_plain q -> ~ reads_from args_other q /\ ~ writes_to args_other q) /\
  (forall q, writes_to args_other q -> ~ reads_from args_plain q) /\
  exists w', series (@isort cpu) wg [(crew, args_plain); (basic, args_other)]
    [ends 0 None (Some (out_path, textg)); ends 0 None (Some (lit "zero.pgm", zero_text))] w'.
Proof. exact (conj (proj1 crew_apart) (conj (proj2 crew_apart) two_builds)). Qed.
