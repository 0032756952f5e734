(** C113: problems in which the smoothness outweighs the intensities. *)
From Coq Require Import String.
From Verif Require Import Stiff_witness.
Local Open Scope N_scope.

(** C113: if one step of the disparity costs more than no disparity at all, the
    map found has no disparity; no map may be found. *)
Theorem C113_flat srt lev a b : sorts srt -> accepted lev a -> small_problem (2 ^ 53) lev a -> stiff lev a b ->
  solution_of srt lev a = Stop (Throw CannotLabel) \/
  solution_of srt lev a = Ok (zero_map (width (p_right a)) (height (p_right a)) lev).
Proof. exact (stiff_flat srt lev a b). Qed.
Print Assumptions C113_flat.

(** The same for the devices. *)
Theorem C113_flat_device d v srt lev a b o : sorts srt -> accepted lev a -> small_problem (2 ^ 24) lev a ->
  addressable d (p_right a) lev -> stiff lev a b -> device_solution_of d v srt lev a o ->
  o = Stop (Throw NoLabel) \/ o = Ok (zero_map (width (p_right a)) (height (p_right a)) lev).
Proof. exact (stiff_device d v srt lev a b o). Qed.
Print Assumptions C113_flat_device.

(** Met by a scene with a pixel that resembles another one more, on the CPU and on
    the devices. *)
Example C113_flat_hypotheses : sorts (@isort cpu) /\
  (accepted 2 walk /\ small_problem (2 ^ 53) 2 walk /\ stiff 2 walk 4) /\
  (accepted 2 even /\ small_problem (2 ^ 53) 2 even /\ stiff 2 even 4 /\ solution_of isort 2 even = Ok (zero_map 3 1 2) /\
   (node_cost (p_left even) (p_right even) 1 {| npix := {| px := 1; py := 0 |}; disp := 1 |} <
    node_cost (p_left even) (p_right even) 1 {| npix := {| px := 1; py := 0 |}; disp := 0 |})%Z).
Proof. exact stiff_example. Qed.
Example C113_device_hypotheses d : sorts (@isort cpu) /\ accepted 2 even /\ small_problem (2 ^ 24) 2 even /\
  addressable d (p_right even) 2 /\ stiff 2 even 4 /\ device_solution_of d good_device isort 2 even (Ok (zero_map 3 1 2)).
Proof. exact (even_device_example d). Qed.

(** C113: steps between neighbors and disparities of every map found are limited
    by the intensities and the weights, disparities by the distance to the right
    border as well. *)
Theorem C113_steps srt lev a m img : sorts srt -> accepted lev a -> small_problem (2 ^ 53) lev a ->
  at_most m (p_left a) -> at_most m (p_right a) -> solution_of srt lev a = Ok img ->
  (forall p q, inside (p_right a) p -> inside (p_right a) q -> adjacent p q ->
     (Z.of_N (p_smoothness a) * (Z.of_N (map_labeling img p) - Z.of_N (map_labeling img q)) ^ 2 <= Z.of_N (p_cleanness a) * m ^ 2)%Z) /\
  forall p, inside (p_right a) p ->
    (Z.of_N (p_smoothness a) * Z.of_N (map_labeling img p) ^ 2 <=
     Z.of_N (p_cleanness a) * m ^ 2 * (Z.of_N (width (p_right a)) - 1 - Z.of_N (px p)) ^ 2)%Z.
Proof. exact (bright_steps srt lev a m img). Qed.
Print Assumptions C113_steps.

Example C113_steps_hypotheses : sorts (@isort cpu) /\ accepted 3 pg /\ small_problem (2 ^ 53) 3 pg /\
  at_most 9 (p_left pg) /\ at_most 9 (p_right pg) /\
  exists img, solution_of isort 3 pg = Ok img /\ data img = [0; 1; 1; 0; 1; 1; 0; 0].
Proof. exact steps_example. Qed.

(** C113: for a scene moved by some columns nothing is found then, although the
    flat map is an optimal one. *)
Theorem C113_moved_refuted srt lev a b j : sorts srt -> accepted lev a -> small_problem (2 ^ 53) lev a -> stiff lev a b ->
  0 < p_cleanness a -> 0 < j < lev -> j + 1 < width (p_right a) -> moved j (p_left a) (p_right a) ->
  brightness (p_right a) {| px := 0; py := 0 |} <> brightness (p_left a) {| px := 0; py := 0 |} ->
  optimal_map (p_left a) (p_right a) lev (Z.of_N (p_cleanness a)) (Z.of_N (p_smoothness a))
    (zero_map (width (p_right a)) (height (p_right a)) lev) /\
  solution_of srt lev a = Stop (Throw CannotLabel).
Proof. exact (stiff_missed srt lev a b j). Qed.
Print Assumptions C113_moved_refuted.

(** The user sees a message, the status is 0 and no file is written. *)
Theorem C113_message srt lev a b j w o lpath rpath out : sorts srt -> small_problem (2 ^ 53) lev a -> stiff lev a b ->
  good_problem (p_left a) (p_right a) lev (p_cleanness a) (p_smoothness a) ->
  width (p_left a) * height (p_left a) < 2 ^ 32 -> width (p_left a) * height (p_left a) * 4 * lev <= vector_max_size ->
  0 < p_cleanness a -> 0 < j < lev -> j + 1 < width (p_right a) -> moved j (p_left a) (p_right a) ->
  brightness (p_right a) {| px := 0; py := 0 |} <> brightness (p_left a) {| px := 0; py := 0 |} ->
  all_paths o lpath rpath out -> technology_ok o -> file_holds w lpath (p_left a) -> file_holds w rpath (p_right a) ->
  option_number (width (p_left a)) (o_levels o) lev -> option_number 1 (o_cleanness o) (p_cleanness a) ->
  option_number 1 (o_smoothness o) (p_smoothness a) ->
  main srt w (Parsed o) = Ok (ends 0 (Some (LogicError CannotLabel)) None).
Proof. exact (stiff_message srt lev a b j w o lpath rpath out). Qed.
Print Assumptions C113_message.

(** Met by two rows moved by a column, in files. *)
Example C113_moved_hypotheses : small_problem (2 ^ 53) 2 walk /\ stiff 2 walk 4 /\
  good_problem (p_left walk) (p_right walk) 2 (p_cleanness walk) (p_smoothness walk) /\
  width (p_left walk) * height (p_left walk) < 2 ^ 32 /\ width (p_left walk) * height (p_left walk) * 4 * 2 <= vector_max_size /\
  0 < p_cleanness walk /\ 0 < 1 < 2 /\ 1 + 1 < width (p_right walk) /\ moved 1 (p_left walk) (p_right walk) /\
  brightness (p_right walk) {| px := 0; py := 0 |} <> brightness (p_left walk) {| px := 0; py := 0 |} /\
  all_paths ow (lit "l.pgm") (lit "r.pgm") out_path /\ technology_ok ow /\
  file_holds ww (lit "l.pgm") (p_left walk) /\ file_holds ww (lit "r.pgm") (p_right walk) /\
  option_number (width (p_left walk)) (o_levels ow) 2 /\ option_number 1 (o_cleanness ow) (p_cleanness walk) /\
  option_number 1 (o_smoothness ow) (p_smoothness walk).
Proof. exact moved_example. Qed.
