(** Property C129 for the OpenMP build. *)
From Coq Require Import String.
From Verif Require Import Main_witness Omp_witness Factor_omp_proofs Factor_witness Factor_run_witness Factor_omp_witness Witnesses.
Local Open Scope N_scope.

(** C129: runs of orderly teams that write a map write the closest matches, if they keep the
    order and no labeling is within a smaller bound, whatever the schedule. The files and
    weights of the example meet these conditions too (C129_run). *)
Theorem C129_openmp v srt w o lpath rpath out e f :
  sorts srt -> usable_files w -> orderly_team v -> all_paths o lpath rpath out -> technology_ok o ->
  main_omp v srt w (Parsed o) (Ok e) -> written_file e = Some f ->
  exists l r lev c s img txt, file_holds w lpath l /\ file_holds w rpath r /\
    option_number (width l) (o_levels o) lev /\ option_number 1 (o_cleanness o) c /\ option_number 1 (o_smoothness o) s /\
    write_image [] (Some img) = Ok txt /\ f = (out, txt) /\
    (small_penalties (2 ^ 53) l r lev (Z.of_N c) (Z.of_N s) -> 0 < c ->
     forall k, ordered_labeling r lev k -> closest l r lev k ->
       unbeaten lev {| p_left := l; p_right := r; p_cleanness := c; p_smoothness := s |} k ->
       forall p, inside r p -> map_labeling img p = k p).
Proof. exact (closest_omp v srt w o lpath rpath out e f). Qed.
Print Assumptions C129_openmp.

Example C129_openmp_hypotheses : sorts (@isort cpu) /\ usable_files w3 /\ orderly_team two_team /\
  all_paths o3 (lit "l.pgm") (lit "r.pgm") out_path /\ technology_ok o3 /\
  main_omp two_team (@isort cpu) w3 (Parsed o3) (Ok (ends 0 None (Some (out_path, text3)))) /\
  file_holds w3 (lit "l.pgm") (p_left (waves 3)) /\ file_holds w3 (lit "r.pgm") (p_right (waves 3)).
Proof. exact omp_example3. Qed.
