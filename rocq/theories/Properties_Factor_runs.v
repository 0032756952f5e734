(** Property C129 for runs and devices. *)
From Coq Require Import String.
From Verif Require Import Same_proofs Main_witness Device_witness Factor_run_proofs Factor_witness Factor_run_witness Witnesses.
Local Open Scope N_scope.

(** C129: a run that writes a map writes the closest matches if they keep the order and no
    labeling is within a smaller bound... *)
Theorem C129_written srt w p e path txt :
  sorts srt -> usable_files w -> main srt w p = Ok e -> written_file e = Some (path, txt) ->
  exists o lpath rpath l r lev c s img, p = Parsed o /\ all_paths o lpath rpath path /\
    file_holds w lpath l /\ file_holds w rpath r /\ option_number (width l) (o_levels o) lev /\
    option_number 1 (o_cleanness o) c /\ option_number 1 (o_smoothness o) s /\
    write_image [] (Some img) = Ok txt /\
    (small_penalties (2 ^ 53) l r lev (Z.of_N c) (Z.of_N s) -> 0 < c ->
     forall k, ordered_labeling r lev k -> closest l r lev k ->
       unbeaten lev {| p_left := l; p_right := r; p_cleanness := c; p_smoothness := s |} k ->
       forall p, inside r p -> map_labeling img p = k p).
Proof. exact (closest_written srt w p e path txt). Qed.
Print Assumptions C129_written.

Example C129_run : sorts (@isort cpu) /\ usable_files w3 /\ main isort w3 (Parsed o3) = Ok (ends 0 None (Some (out_path, text3))) /\
  file_holds w3 (lit "l.pgm") (p_left (waves 3)) /\ file_holds w3 (lit "r.pgm") (p_right (waves 3)) /\
  option_number (width (p_left (waves 3))) (o_levels o3) 2 /\ option_number 1 (o_cleanness o3) 1 /\ option_number 1 (o_smoothness o3) 9 /\
  small_penalties (2 ^ 53) (p_left (waves 3)) (p_right (waves 3)) 2 1 9 /\
  ordered_labeling (p_right (waves 3)) 2 zigzag /\ closest (p_left (waves 3)) (p_right (waves 3)) 2 zigzag /\ unbeaten 2 (waves 3) zigzag.
Proof. exact run_example. Qed.

(** ...and every run on an orderly device finds them on a row. *)
Theorem C129_device d v srt lev a k o :
  sorts srt -> accepted lev a -> small_problem (2 ^ 24) lev a -> 0 < p_cleanness a ->
  addressable d (p_right a) lev -> orderly d v ->
  ordered_labeling (p_right a) lev k -> closest (p_left a) (p_right a) lev k -> unbeaten lev a k ->
  height (p_right a) = 1 -> device_solution_of d v srt lev a o ->
  exists img, o = Ok img /\
    width img = width (p_right a) /\ height img = height (p_right a) /\ max_value img = lev /\ consistent_image img /\
    forall p, inside (p_right a) p -> map_labeling img p = k p.
Proof. exact (closest_device d v srt lev a k o). Qed.
Print Assumptions C129_device.

Example C129_device_hypotheses a : sorts (@isort cpu) /\ accepted 2 (waves 3) /\ small_problem (2 ^ 24) 2 (waves 3) /\ 0 < p_cleanness (waves 3) /\
  addressable a (p_right (waves 3)) 2 /\ orderly a good_device /\
  ordered_labeling (p_right (waves 3)) 2 zigzag /\ closest (p_left (waves 3)) (p_right (waves 3)) 2 zigzag /\
  unbeaten 2 (waves 3) zigzag /\ height (p_right (waves 3)) = 1 /\ device_solution_of a good_device isort 2 (waves 3) (Ok map3).
Proof. exact (device_example3 a). Qed.
