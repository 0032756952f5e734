(** Problems that differ by a factor in all penalties, C89-C92. *)
From Coq Require Import String Lia.
From Verif Require Import Scale_witness.
Local Open Scope N_scope.

(** C89: if the penalties of matches and of edges of two problems of the same size are
    proportional, then the application has the same outcome for both, a map or a
    failure, as long as all penalties are at most 2^53. *)
Theorem C89_proportional srt lev j k a a' :
  sorts srt -> accepted lev a -> accepted lev a' ->
  small_problem (2 ^ 53) lev a -> small_problem (2 ^ 53) lev a' -> proportional lev j k a a' ->
  solution_of srt lev a' = solution_of srt lev a.
Proof. exact (scaled_solution srt lev j k a a'). Qed.
Print Assumptions C89_proportional.

Example C89_hypotheses : sorts (@isort cpu) /\ accepted 3 pg /\ accepted 3 (changed stretched 21 1 4 pg) /\
  small_problem (2 ^ 53) 3 pg /\ small_problem (2 ^ 53) 3 (changed stretched 21 1 4 pg) /\
  proportional 3 4 1 pg (changed stretched 21 1 4 pg) /\
  exists img, solution_of isort 3 pg = Ok img /\ data img = [0; 1; 1; 0; 1; 1; 0; 0].
Proof.
  refine (conj (isort_sorts cpu_laws) (conj pg_accepted (conj stretched_accepted (conj (pg_small _ _) (conj (stretched_small _ _) (conj stretched_proportional pg_solved))))));
    lia.
Qed.

(** C89 is violated above the bound: the outcome depends on the rounding of the
    weights. *)
Theorem C89_rounding_refuted : exists srt lev j k a a' img, sorts srt /\ accepted lev a /\ accepted lev a' /\
  consistent_image (p_left a) /\ consistent_image (p_right a) /\ proportional lev j k a a' /\
  solution_of srt lev a = Ok img /\ solution_of srt lev a' = Stop (Throw CannotLabel).
Proof. exact big_differs. Qed.
Print Assumptions C89_rounding_refuted.

(** C90: the same holds for any two runs on orderly devices if all penalties are at most
    2^24. *)
Theorem C90_proportional_devices srt lev j k a a' d d' v v' o o' :
  sorts srt -> accepted lev a -> accepted lev a' ->
  small_problem (2 ^ 24) lev a -> small_problem (2 ^ 24) lev a' -> proportional lev j k a a' ->
  addressable d (p_right a) lev -> addressable d' (p_right a') lev -> orderly d v -> orderly d' v' ->
  device_solution_of d v srt lev a o -> device_solution_of d' v' srt lev a' o' -> o' = o.
Proof. exact (scaled_device srt lev j k a a' d d' v v' o o'). Qed.
Print Assumptions C90_proportional_devices.

Example C90_hypotheses d d' : sorts (@isort cpu) /\ accepted 3 pg /\ accepted 3 (changed stretched 21 1 4 pg) /\
  small_problem (2 ^ 24) 3 pg /\ small_problem (2 ^ 24) 3 (changed stretched 21 1 4 pg) /\
  proportional 3 4 1 pg (changed stretched 21 1 4 pg) /\
  addressable d (p_right pg) 3 /\ addressable d' (p_right (changed stretched 21 1 4 pg)) 3 /\
  orderly d good_device /\ orderly d' good_device /\
  device_solution_of d good_device isort 3 pg (Ok mapg) /\
  device_solution_of d' good_device isort 3 (changed stretched 21 1 4 pg) (Ok mapg).
Proof.
  refine (conj (isort_sorts cpu_laws) (conj pg_accepted (conj stretched_accepted (conj (pg_small _ _) (conj (stretched_small _ _) (conj stretched_proportional
    (conj (pg_addressable d) (conj (pg_addressable d') (conj (good_orderly d) (conj (good_orderly d') (conj (pg_device d) (stretched_device d'))))))))))));
    lia.
Qed.

(** C91: changing the intensities of both images by a linear map leaves the outcome the
    same if the weights are adjusted to it... *)
Theorem C91_linear_change srt lev j k a f maxv c s alpha beta :
  let a' := {| p_left := recolor f maxv (p_left a); p_right := recolor f maxv (p_right a);
               p_cleanness := c; p_smoothness := s |} in
  sorts srt -> good_problem (p_left a) (p_right a) lev (p_cleanness a) (p_smoothness a) ->
  width (p_left a) * height (p_left a) < 2 ^ 32 -> width (p_left a) * height (p_left a) * 4 * lev <= vector_max_size ->
  small_problem (2 ^ 53) lev a -> small_problem (2 ^ 53) lev a' ->
  (0 < j)%Z -> (0 < k)%Z -> alpha <> 0%Z ->
  (forall v, In v (data (p_left a)) \/ In v (data (p_right a)) ->
     f v <= maxv /\ (Z.of_N (f v) = alpha * Z.of_N v + beta)%Z) -> 0 < maxv ->
  (k * (Z.of_N c * alpha ^ 2) = j * Z.of_N (p_cleanness a))%Z -> (k * Z.of_N s = j * Z.of_N (p_smoothness a))%Z ->
  solution_of srt lev a' = solution_of srt lev a.
Proof. exact (recolored_solution srt lev j k a f maxv c s alpha beta). Qed.
Print Assumptions C91_linear_change.

(** ...so brighter images have the same map... *)
Theorem C91_brighter srt lev a maxv d :
  let a' := {| p_left := recolor (fun v => v + d) maxv (p_left a); p_right := recolor (fun v => v + d) maxv (p_right a);
               p_cleanness := p_cleanness a; p_smoothness := p_smoothness a |} in
  sorts srt -> good_problem (p_left a) (p_right a) lev (p_cleanness a) (p_smoothness a) ->
  width (p_left a) * height (p_left a) < 2 ^ 32 -> width (p_left a) * height (p_left a) * 4 * lev <= vector_max_size ->
  small_problem (2 ^ 53) lev a -> small_problem (2 ^ 53) lev a' -> 0 < maxv ->
  (forall v, In v (data (p_left a)) \/ In v (data (p_right a)) -> v + d <= maxv) ->
  solution_of srt lev a' = solution_of srt lev a.
Proof. exact (brighter_solution srt lev a maxv d). Qed.
Print Assumptions C91_brighter.

(** ...and so do negatives... *)
Theorem C91_negative srt lev a :
  let f := fun v => max_value (p_left a) - v in
  let a' := {| p_left := recolor f (max_value (p_left a)) (p_left a); p_right := recolor f (max_value (p_right a)) (p_right a);
               p_cleanness := p_cleanness a; p_smoothness := p_smoothness a |} in
  sorts srt -> good_problem (p_left a) (p_right a) lev (p_cleanness a) (p_smoothness a) ->
  width (p_left a) * height (p_left a) < 2 ^ 32 -> width (p_left a) * height (p_left a) * 4 * lev <= vector_max_size ->
  small_problem (2 ^ 53) lev a -> small_problem (2 ^ 53) lev a' ->
  solution_of srt lev a' = solution_of srt lev a.
Proof. exact (negative_solution srt lev a). Qed.
Print Assumptions C91_negative.

(** ...and the weights matter up to a common factor only. *)
Theorem C91_weights srt lev a q :
  let a' := {| p_left := p_left a; p_right := p_right a;
               p_cleanness := q * p_cleanness a; p_smoothness := q * p_smoothness a |} in
  sorts srt -> good_problem (p_left a) (p_right a) lev (p_cleanness a) (p_smoothness a) ->
  width (p_left a) * height (p_left a) < 2 ^ 32 -> width (p_left a) * height (p_left a) * 4 * lev <= vector_max_size ->
  small_problem (2 ^ 53) lev a -> small_problem (2 ^ 53) lev a' -> 0 < q ->
  solution_of srt lev a' = solution_of srt lev a.
Proof. exact (weights_solution srt lev a q). Qed.
Print Assumptions C91_weights.

Example C91_hypotheses : sorts (@isort cpu) /\ good_problem (p_left pg) (p_right pg) 3 (p_cleanness pg) (p_smoothness pg) /\
  width (p_left pg) * height (p_left pg) < 2 ^ 32 /\ width (p_left pg) * height (p_left pg) * 4 * 3 <= vector_max_size /\
  small_problem (2 ^ 53) 3 pg /\
  (forall v, In v (data (p_left pg)) \/ In v (data (p_right pg)) ->
     stretched v <= 21 /\ (Z.of_N (stretched v) = 2 * Z.of_N v + 1)%Z /\ v + 3 <= 12) /\
  small_problem (2 ^ 53) 3 (changed stretched 21 1 4 pg) /\ small_problem (2 ^ 53) 3 (changed brighter 12 1 1 pg) /\
  small_problem (2 ^ 53) 3 (changed inverted 10 1 1 pg) /\
  small_problem (2 ^ 53) 3 {| p_left := gl; p_right := gr; p_cleanness := 5 * 1; p_smoothness := 5 * 1 |} /\
  exists img, solution_of isort 3 pg = Ok img /\ data img = [0; 1; 1; 0; 1; 1; 0; 0].
Proof. exact changes_example. Qed.

(** C92: the application prints and writes the same for files with proportional
    problems. *)
Theorem C92_proportional_files srt lev j k a a' w w' o o' lpath rpath lpath' rpath' out :
  sorts srt -> proportional lev j k a a' -> small_problem (2 ^ 53) lev a -> small_problem (2 ^ 53) lev a' ->
  good_problem (p_left a) (p_right a) lev (p_cleanness a) (p_smoothness a) ->
  good_problem (p_left a') (p_right a') lev (p_cleanness a') (p_smoothness a') ->
  width (p_left a) * height (p_left a) < 2 ^ 32 -> width (p_left a) * height (p_left a) * 4 * lev <= vector_max_size ->
  all_paths o lpath rpath out -> all_paths o' lpath' rpath' out -> technology_ok o -> technology_ok o' ->
  file_holds w lpath (p_left a) -> file_holds w rpath (p_right a) ->
  file_holds w' lpath' (p_left a') -> file_holds w' rpath' (p_right a') ->
  option_number (width (p_left a)) (o_levels o) lev -> option_number (width (p_left a')) (o_levels o') lev ->
  option_number 1 (o_cleanness o) (p_cleanness a) -> option_number 1 (o_cleanness o') (p_cleanness a') ->
  option_number 1 (o_smoothness o) (p_smoothness a) -> option_number 1 (o_smoothness o') (p_smoothness a') ->
  writable w out = writable w' out -> main srt w (Parsed o) = main srt w' (Parsed o').
Proof. exact (scaled_file srt lev j k a a' w w' o o' lpath rpath lpath' rpath' out). Qed.
Print Assumptions C92_proportional_files.

Example C92_hypotheses : sorts (@isort cpu) /\ proportional 3 5 1 pg pb /\ small_problem (2 ^ 53) 3 pg /\ small_problem (2 ^ 53) 3 pb /\
  good_problem (p_left pg) (p_right pg) 3 (p_cleanness pg) (p_smoothness pg) /\
  good_problem (p_left pb) (p_right pb) 3 (p_cleanness pb) (p_smoothness pb) /\
  width (p_left pg) * height (p_left pg) < 2 ^ 32 /\ width (p_left pg) * height (p_left pg) * 4 * 3 <= vector_max_size /\
  all_paths (og out_path) (lit "l.pgm") (lit "r.pgm") out_path /\ all_paths ob (lit "a.pgm") (lit "b.pgm") out_path /\
  technology_ok (og out_path) /\ technology_ok ob /\
  file_holds wg (lit "l.pgm") (p_left pg) /\ file_holds wg (lit "r.pgm") (p_right pg) /\
  file_holds wb (lit "a.pgm") (p_left pb) /\ file_holds wb (lit "b.pgm") (p_right pb) /\
  option_number (width (p_left pg)) (o_levels (og out_path)) 3 /\ option_number (width (p_left pb)) (o_levels ob) 3 /\
  option_number 1 (o_cleanness (og out_path)) (p_cleanness pg) /\ option_number 1 (o_cleanness ob) (p_cleanness pb) /\
  option_number 1 (o_smoothness (og out_path)) (p_smoothness pg) /\ option_number 1 (o_smoothness ob) (p_smoothness pb) /\
  writable wg out_path = writable wb out_path /\
  main (@isort cpu) wg (Parsed (og out_path)) = Ok (ends 0 None (Some (out_path, textg))).
Proof. exact files_example. Qed.
