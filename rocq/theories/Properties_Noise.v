(** C114, C115: problems whose penalties differ a little. *)
From Verif Require Import Noise_witness.
Local Open Scope N_scope.

(** C114: if no penalty exceeds the lowest possible one by more than before plus
    [d], the threshold grows by at most [d]. *)
Theorem C114_costs srt lev d a a' : sorts srt -> accepted lev a -> accepted lev a' ->
  small_problem (2 ^ 53) lev a -> small_problem (2 ^ 53) lev a' -> (0 <= d)%Z -> costs_more lev d a a' ->
  exists b b', threshold_of srt lev a b /\ threshold_of srt lev a' b' /\ (b' <= b + d)%Z.
Proof. exact (more_thresholds srt lev d a a'). Qed.
Print Assumptions C114_costs.

(** C114: smaller weights do not raise the threshold. *)
Theorem C114_weights srt lev a a' : sorts srt -> accepted lev a -> accepted lev a' ->
  small_problem (2 ^ 53) lev a -> small_problem (2 ^ 53) lev a' -> lighter a a' ->
  exists b b', threshold_of srt lev a b /\ threshold_of srt lev a' b' /\ (b' <= b)%Z.
Proof. exact (lighter_thresholds srt lev a a'). Qed.
Print Assumptions C114_weights.

(** C114: a map found for one problem is nearly as good for the other one as any
    labeling. *)
Theorem C114_maps srt lev d d' a a' img k b : sorts srt -> accepted lev a -> accepted lev a' ->
  small_problem (2 ^ 53) lev a -> small_problem (2 ^ 53) lev a' -> costs_more lev d a a' -> costs_more lev d' a' a ->
  solution_of srt lev a' = Ok img -> ordered_labeling (p_right a) lev k ->
  within_bound (p_left a) (p_right a) lev (Z.of_N (p_cleanness a)) (Z.of_N (p_smoothness a)) b k ->
  ordered_labeling (p_right a) lev (map_labeling img) /\
  within_bound (p_left a) (p_right a) lev (Z.of_N (p_cleanness a)) (Z.of_N (p_smoothness a)) (b + (d + d')) (map_labeling img).
Proof. exact (more_map srt lev d d' a a' img k b). Qed.
Print Assumptions C114_maps.

(** Met with thresholds 3 and 1; [C115_hypotheses] meets the other ones. *)
Example C114_hypotheses : sorts (@isort cpu) /\ accepted 3 (dots 2 3) /\ accepted 3 (dots 1 1) /\
  small_problem (2 ^ 53) 3 (dots 2 3) /\ small_problem (2 ^ 53) 3 (dots 1 1) /\ lighter (dots 2 3) (dots 1 1) /\
  threshold_of isort 3 (dots 2 3) 3 /\ threshold_of isort 3 (dots 1 1) 1.
Proof. exact lighter_example. Qed.

(** C115: noise of [e] in images with intensities up to [m] changes the threshold
    by at most eight times the cleanness times [e] times [m]. *)
Theorem C115_thresholds srt lev e m a a' : sorts srt -> accepted lev a -> accepted lev a' ->
  small_problem (2 ^ 53) lev a -> small_problem (2 ^ 53) lev a' -> noisy e a a' ->
  at_most m (p_left a) -> at_most m (p_right a) -> at_most m (p_left a') -> at_most m (p_right a') ->
  exists b b', threshold_of srt lev a b /\ threshold_of srt lev a' b' /\ (Z.abs (b' - b) <= 8 * Z.of_N (p_cleanness a) * e * m)%Z.
Proof. exact (noisy_thresholds srt lev e m a a'). Qed.
Print Assumptions C115_thresholds.

(** C115: a map found for the noisy images is nearly as good for the images
    without noise as any labeling. *)
Theorem C115_maps srt lev e m a a' img k b : sorts srt -> accepted lev a -> accepted lev a' ->
  small_problem (2 ^ 53) lev a -> small_problem (2 ^ 53) lev a' -> noisy e a a' ->
  at_most m (p_left a) -> at_most m (p_right a) -> at_most m (p_left a') -> at_most m (p_right a') ->
  solution_of srt lev a' = Ok img -> ordered_labeling (p_right a) lev k ->
  within_bound (p_left a) (p_right a) lev (Z.of_N (p_cleanness a)) (Z.of_N (p_smoothness a)) b k ->
  ordered_labeling (p_right a) lev (map_labeling img) /\
  within_bound (p_left a) (p_right a) lev (Z.of_N (p_cleanness a)) (Z.of_N (p_smoothness a))
    (b + 16 * Z.of_N (p_cleanness a) * e * m) (map_labeling img).
Proof. exact (noisy_map srt lev e m a a' img k b). Qed.
Print Assumptions C115_maps.

(** Met with thresholds 8 and 9, and a map. *)
Example C115_hypotheses : sorts (@isort cpu) /\ accepted 3 (dots 1 9) /\ accepted 3 (dots' 1 9) /\
  small_problem (2 ^ 53) 3 (dots 1 9) /\ small_problem (2 ^ 53) 3 (dots' 1 9) /\ noisy 1 (dots 1 9) (dots' 1 9) /\
  at_most 5 (p_left (dots 1 9)) /\ at_most 5 (p_right (dots 1 9)) /\
  at_most 5 (p_left (dots' 1 9)) /\ at_most 5 (p_right (dots' 1 9)) /\
  threshold_of isort 3 (dots 1 9) 8 /\ threshold_of isort 3 (dots' 1 9) 9 /\
  (exists img, solution_of isort 3 (dots' 1 9) = Ok img /\ data img = [2; 1; 0; 2; 1; 0]) /\
  exists k b, ordered_labeling (p_right (dots 1 9)) 3 k /\
    within_bound (p_left (dots 1 9)) (p_right (dots 1 9)) 3 1 9 b k.
Proof. exact noisy_example. Qed.

(** C115: one intensity that differs by 1 can leave the user without a map. *)
Theorem C115_noise_refuted : exists lev a a', accepted lev a /\ accepted lev a' /\
  small_problem (2 ^ 53) lev a /\ small_problem (2 ^ 53) lev a' /\ noisy 1 a a' /\
  forall srt, sorts srt -> (exists img, solution_of srt lev a = Ok img) /\ solution_of srt lev a' = Stop (Throw CannotLabel).
Proof. exact noise_hurts. Qed.
Print Assumptions C115_noise_refuted.
