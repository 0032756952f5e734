(** Property C129: maps of the closest matches, and how far their energies can be from the lowest one. *)
From Verif Require Import Greedy_proofs Factor_proofs Factor_witness.
Local Open Scope N_scope.

(** C129: if the closest matches keep the order and no labeling is within a smaller bound, the
    map is made of them, whatever the smoothness: on a row always... *)
Theorem C129_closest_row srt lev a k :
  sorts srt -> accepted lev a -> small_problem (2 ^ 53) lev a -> 0 < p_cleanness a ->
  ordered_labeling (p_right a) lev k -> closest (p_left a) (p_right a) lev k -> unbeaten lev a k ->
  height (p_right a) = 1 ->
  exists img, solution_of srt lev a = Ok img /\
    width img = width (p_right a) /\ height img = height (p_right a) /\ max_value img = lev /\ consistent_image img /\
    forall p, inside (p_right a) p -> map_labeling img p = k p.
Proof. exact (closest_row srt lev a k). Qed.
Print Assumptions C129_closest_row.

(** ...and on other images whenever a map is written. *)
Theorem C129_closest_map srt lev a k img :
  sorts srt -> accepted lev a -> small_problem (2 ^ 53) lev a -> 0 < p_cleanness a ->
  ordered_labeling (p_right a) lev k -> closest (p_left a) (p_right a) lev k -> unbeaten lev a k ->
  solution_of srt lev a = Ok img -> forall p, inside (p_right a) p -> map_labeling img p = k p.
Proof. exact (closest_map srt lev a k img). Qed.
Print Assumptions C129_closest_map.

Example C129_hypotheses : exists img, sorts (@isort cpu) /\ accepted 2 (waves 3) /\ small_problem (2 ^ 53) 2 (waves 3) /\ 0 < p_cleanness (waves 3) /\
  ordered_labeling (p_right (waves 3)) 2 zigzag /\ closest (p_left (waves 3)) (p_right (waves 3)) 2 zigzag /\
  unbeaten 2 (waves 3) zigzag /\ height (p_right (waves 3)) = 1 /\ p_smoothness (waves 3) = 9 /\ solution_of isort 2 (waves 3) = Ok img.
Proof. exact waves3. Qed.

(** Hence the energy of a map is not bounded by a multiple of the lowest energy: for every
    factor up to 2^23 there is a problem with exact penalties where it is larger. *)
Theorem C129_factor_refuted (f : Z) : (1 <= f <= 2 ^ 23)%Z -> exists srt lev a img k e e',
  sorts srt /\ accepted lev a /\ small_problem (2 ^ 53) lev a /\ solution_of srt lev a = Ok img /\
  ordered_labeling (p_right a) lev k /\ has_energy a (map_labeling img) e /\ has_energy a k e' /\ (0 < e')%Z /\ (f * e' < e)%Z.
Proof. exact (no_factor f). Qed.
Print Assumptions C129_factor_refuted.
