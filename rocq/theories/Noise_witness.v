(** Problems whose penalties differ a little: examples. *)
From Coq Require Import String Lia.
From Verif Require Export Noise_proofs Stiff_witness.
Local Open Scope N_scope.

Definition threshold_value (lev : N) (a : stereo) : option (F cpu) :=
  match make_graph (T := cpu) (p_left a) (p_right a) lev (of_u (p_cleanness a)) (of_u (p_smoothness a)) with
  | Stop _ => None
  | Ok g => match make_lowest g with
            | Stop _ => None
            | Ok lp => match fetch_available_penalties isort lp with
                       | Stop _ => None
                       | Ok l => match calculate_minimal_consistent_threshold lp g l with Ok t => Some t | Stop _ => None end
                       end
            end
  end.
Definition threshold_is (lev : N) (a : stereo) (b : N) : bool :=
  match threshold_value lev a with Some t => feq t (of_u b) | None => false end.

Definition dots (c s : N) : stereo := small_pics 3 2 [1; 4; 2; 0; 3; 1] [1; 2; 4; 1; 0; 4] c s.
Definition dots' (c s : N) : stereo := small_pics 3 2 [1; 5; 2; 0; 3; 2] [2; 2; 4; 1; 1; 4] c s.
Lemma threshold_shown lev a b : accepted lev a -> small_problem (2 ^ 53) lev a -> b <= 2 ^ 53 -> threshold_is lev a b = true ->
  threshold_of isort lev a (Z.of_N b).
Proof.
  intros Ac Sm Hb H. destruct (threshold_exists isort lev a (isort_sorts cpu_laws) Ac Sm) as [b0 [g [lp [l [t [Eg [El [Ef [Et It]]]]]]]]].
  exists g, lp, l, t. refine (conj Eg (conj El (conj Ef (conj Et _)))).
  unfold threshold_is, threshold_value in H. rewrite Eg, El, Ef, Et in H.
  assert (Ib : is_int (@of_u cpu b) (Z.of_N b)) by (apply (int_of_u 53 1024 hp53 he53 (2 ^ 64) Z.of_N (fun n _ => eq_refl)); lia).
  destruct (small_compare 53 1024 hp53 he53 (2 ^ 64) Z.of_N t (of_u b) b0 (Z.of_N b) It Ib) as [_ [_ Q]].
  rewrite <- (proj1 Q H). exact It.
Qed.

Lemma dots_ok c s : 0 < c -> c <= 10 -> s <= 10 -> accepted 3 (dots c s) /\ small_problem (2 ^ 53) 3 (dots c s).
Proof. intros. apply small_pics_ok; first [reflexivity|discriminate|lia|repeat constructor; discriminate]. Qed.
Lemma dots'_ok c s : 0 < c -> c <= 10 -> s <= 10 -> accepted 3 (dots' c s) /\ small_problem (2 ^ 53) 3 (dots' c s).
Proof. intros. apply small_pics_ok; first [reflexivity|discriminate|lia|repeat constructor; discriminate]. Qed.

Lemma lighter_example : sorts (@isort cpu) /\ accepted 3 (dots 2 3) /\ accepted 3 (dots 1 1) /\
  small_problem (2 ^ 53) 3 (dots 2 3) /\ small_problem (2 ^ 53) 3 (dots 1 1) /\ lighter (dots 2 3) (dots 1 1) /\
  threshold_of isort 3 (dots 2 3) 3 /\ threshold_of isort 3 (dots 1 1) 1.
Proof.
  destruct (dots_ok 2 3) as [A S]; try reflexivity; try discriminate. destruct (dots_ok 1 1) as [A' S']; try reflexivity; try discriminate.
  refine (conj (isort_sorts cpu_laws) (conj A (conj A' (conj S (conj S' (conj _ (conj _ _))))))).
  - repeat split; discriminate.
  - apply (threshold_shown 3 (dots 2 3) 3 A S); [discriminate|vm_compute; reflexivity].
  - apply (threshold_shown 3 (dots 1 1) 1 A' S'); [discriminate|vm_compute; reflexivity].
Qed.

Lemma dots_noisy : noisy 1 (dots 1 9) (dots' 1 9).
Proof.
  refine (conj _ (conj _ (conj eq_refl eq_refl))); (refine (conj eq_refl (conj eq_refl _))); intros p [Hx Hy]; revert p Hx Hy; apply few;
    repeat constructor; vm_compute; discriminate.
Qed.
Lemma dots_limits : at_most 5 (p_left (dots 1 9)) /\ at_most 5 (p_right (dots 1 9)) /\
  at_most 5 (p_left (dots' 1 9)) /\ at_most 5 (p_right (dots' 1 9)).
Proof. repeat split; intros p [Hx Hy]; revert p Hx Hy; apply few; repeat constructor; vm_compute; discriminate. Qed.
Lemma noisy_example : sorts (@isort cpu) /\ accepted 3 (dots 1 9) /\ accepted 3 (dots' 1 9) /\
  small_problem (2 ^ 53) 3 (dots 1 9) /\ small_problem (2 ^ 53) 3 (dots' 1 9) /\ noisy 1 (dots 1 9) (dots' 1 9) /\
  at_most 5 (p_left (dots 1 9)) /\ at_most 5 (p_right (dots 1 9)) /\
  at_most 5 (p_left (dots' 1 9)) /\ at_most 5 (p_right (dots' 1 9)) /\
  threshold_of isort 3 (dots 1 9) 8 /\ threshold_of isort 3 (dots' 1 9) 9 /\
  (exists img, solution_of isort 3 (dots' 1 9) = Ok img /\ data img = [2; 1; 0; 2; 1; 0]) /\
  exists k b, ordered_labeling (p_right (dots 1 9)) 3 k /\
    within_bound (p_left (dots 1 9)) (p_right (dots 1 9)) 3 1 9 b k.
Proof.
  destruct (dots_ok 1 9) as [A S]; try reflexivity; try discriminate. destruct (dots'_ok 1 9) as [A' S']; try reflexivity; try discriminate.
  refine (conj (isort_sorts cpu_laws) (conj A (conj A' (conj S (conj S' (conj dots_noisy (conj (proj1 dots_limits) (conj (proj1 (proj2 dots_limits))
    (conj (proj1 (proj2 (proj2 dots_limits))) (conj (proj2 (proj2 (proj2 dots_limits))) (conj _ (conj _ (conj _ _))))))))))))).
  - apply (threshold_shown 3 (dots 1 9) 8 A S); [discriminate|vm_compute; reflexivity].
  - apply (threshold_shown 3 (dots' 1 9) 9 A' S'); [discriminate|vm_compute; reflexivity].
  - eexists. split; [vm_compute; reflexivity|reflexivity].
  - exists (fun _ => 0), 25%Z. split; [apply zero_ordered; reflexivity|].
    apply (zero_below 3 (dots 1 9) 25); [discriminate|]. intros p [Hx Hy]; revert p Hx Hy; apply few; repeat constructor; vm_compute; discriminate.
Qed.

(** One pixel that differs by 1. *)
Definition same_row : stereo := small_pics 4 1 [1; 2; 2; 2] [1; 2; 2; 2] 1 2.
Definition other_row : stereo := small_pics 4 1 [1; 2; 2; 2] [2; 2; 2; 2] 1 2.
Lemma same_row_ok : accepted 2 same_row /\ small_problem (2 ^ 53) 2 same_row.
Proof. apply small_pics_ok; first [reflexivity|discriminate|lia|repeat constructor; discriminate]. Qed.
Lemma other_row_ok : accepted 2 other_row /\ small_problem (2 ^ 53) 2 other_row.
Proof. apply small_pics_ok; first [reflexivity|discriminate|lia|repeat constructor; discriminate]. Qed.
Lemma rows_noisy : noisy 1 same_row other_row.
Proof.
  refine (conj _ (conj _ (conj eq_refl eq_refl))); (refine (conj eq_refl (conj eq_refl _))); intros p [Hx Hy]; revert p Hx Hy; apply few;
    repeat constructor; vm_compute; discriminate.
Qed.
Lemma other_row_fails srt : sorts srt -> solution_of srt 2 other_row = Stop (Throw CannotLabel).
Proof.
  intros Srt. apply (stiff_moved srt 2 other_row 1 1 Srt (proj1 other_row_ok) (proj2 other_row_ok)); try (split; reflexivity); try reflexivity.
  - split; [|reflexivity]. apply (zero_below 2 other_row 1); [discriminate|].
    intros p [Hx Hy]; revert p Hx Hy; apply few; repeat constructor; vm_compute; discriminate.
  - intros p [Hx Hy]. revert p Hx Hy.
    apply (few 4 1 (fun p => px p + 1 < width (p_right other_row) ->
      brightness (p_right other_row) p = brightness (p_left other_row) {| px := px p + 1; py := py p |})).
    repeat constructor; intros H; first [exfalso; vm_compute in H; discriminate H|vm_compute; reflexivity].
  - vm_compute. discriminate.
Qed.
Lemma noise_hurts : exists lev a a', accepted lev a /\ accepted lev a' /\
  small_problem (2 ^ 53) lev a /\ small_problem (2 ^ 53) lev a' /\ noisy 1 a a' /\
  forall srt, sorts srt -> (exists img, solution_of srt lev a = Ok img) /\ solution_of srt lev a' = Stop (Throw CannotLabel).
Proof.
  exists 2, same_row, other_row.
  refine (conj (proj1 same_row_ok) (conj (proj1 other_row_ok) (conj (proj2 same_row_ok) (conj (proj2 other_row_ok) (conj rows_noisy _))))).
  intros srt Srt. split; [|apply other_row_fails; exact Srt]. eexists.
  apply (zero_solution srt 2 same_row Srt (proj1 same_row_ok) (proj2 same_row_ok)). right.
  intros p d [Hx Hy] _ _. assert (E : mismatch (p_left same_row) (p_right same_row) p 0 = 0%Z).
  { revert p Hx Hy. apply few. repeat constructor; vm_compute; reflexivity. }
  rewrite E. unfold mismatch. apply Z.abs_nonneg.
Qed.
