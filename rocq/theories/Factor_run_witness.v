(** Runs and devices on the problem with [m = 3]. *)
From Coq Require Import Lia String ZArith.
From Verif Require Import Main_witness Device_witness Same_witness Factor_run_proofs Factor_witness Witnesses.
Local Open Scope N_scope.

Definition left3 : text := lit "P2 7 1 3 0 3 0 1 0 1 0".
Definition right3 : text := lit "P2 7 1 3 0 0 0 0 0 0 0".
Definition w3 : world := world_of [(lit "l.pgm", left3); (lit "r.pgm", right3)].
Definition o3 : options := run_options (Some out_path) (Some (lit "2")) (Some (lit "1")) (Some (lit "9")).
Definition text3 : text :=
  lit "P2" ++ [newline] ++ lit "7 1" ++ [newline] ++ lit "2" ++ [newline] ++ lit "0 1 0 1 0 1 0" ++ [newline].

Lemma tokens3l : exists ts, laid_out ts left3 /\ image_tokens (p_left (waves 3)) [] ts.
Proof. tokens [lit "0"; lit "3"; lit "0"; lit "1"; lit "0"; lit "1"; lit "0"]. Qed.
Lemma tokens3r : exists ts, laid_out ts right3 /\ image_tokens (p_right (waves 3)) [] ts.
Proof. tokens [lit "0"; lit "0"; lit "0"; lit "0"; lit "0"; lit "0"; lit "0"]. Qed.
Lemma w3_usable : usable_files w3.
Proof.
  intros path t E. apply world_files in E. destruct E as [E|[E|[]]]; injection E as <- <-.
  - destruct tokens3l as [ts [L I]]. eapply usable_image; [exact L|exact I|vm_compute; reflexivity..].
  - destruct tokens3r as [ts [L I]]. eapply usable_image; [exact L|exact I|vm_compute; reflexivity..].
Qed.
Lemma w3_left : file_holds w3 (lit "l.pgm") (p_left (waves 3)).
Proof. destruct tokens3l as [ts [L I]]. exists left3, ts. auto. Qed.
Lemma w3_right : file_holds w3 (lit "r.pgm") (p_right (waves 3)).
Proof. destruct tokens3r as [ts [L I]]. exists right3, ts. auto. Qed.
Lemma run3 : main isort w3 (Parsed o3) = Ok (ends 0 None (Some (out_path, text3))).
Proof. vm_compute. reflexivity. Qed.

Definition prep3 : outcome (cgraph cpu) := prepared (@isort cpu) (p_left (waves 3)) (p_right (waves 3)) 2 (of_u 1) (of_u 9).
Definition cg3 : cgraph cpu := match prep3 with Ok cg => cg | Stop _ => cg58 end.
Lemma prep3_ok : prep3 = Ok cg3.
Proof. unfold cg3. assert (X : ok prep3 = true) by (vm_compute; reflexivity). destruct prep3 as [cg|]; [reflexivity|discriminate]. Qed.
Definition map3 : image := {| width := 7; height := 1; max_value := 2; data := [0; 1; 0; 1; 0; 1; 0] |}.
Definition mem3 : list bool := [true; false; false; true; true; false; false; true; true; false; false; true; true; false].
Lemma device3 a : device_solution_of a good_device isort 2 (waves 3) (Ok map3).
Proof.
  apply (solves_by a _ _ _ _ _ _ cg3 mem3 map3 8 10 4);
    [exact prep3_ok|destruct a; vm_compute; reflexivity|vm_compute; reflexivity].
Qed.

Lemma run_example : sorts (@isort cpu) /\ usable_files w3 /\ main isort w3 (Parsed o3) = Ok (ends 0 None (Some (out_path, text3))) /\
  file_holds w3 (lit "l.pgm") (p_left (waves 3)) /\ file_holds w3 (lit "r.pgm") (p_right (waves 3)) /\
  option_number (width (p_left (waves 3))) (o_levels o3) 2 /\ option_number 1 (o_cleanness o3) 1 /\ option_number 1 (o_smoothness o3) 9 /\
  small_penalties (2 ^ 53) (p_left (waves 3)) (p_right (waves 3)) 2 1 9 /\
  ordered_labeling (p_right (waves 3)) 2 zigzag /\ closest (p_left (waves 3)) (p_right (waves 3)) 2 zigzag /\ unbeaten 2 (waves 3) zigzag.
Proof.
  assert (H : 1 <= 3 <= 2 ^ 25) by lia.
  refine (conj (isort_sorts cpu_laws) (conj w3_usable (conj run3 (conj w3_left (conj w3_right (conj _ (conj _ (conj _ (conj _
    (conj (zigzag_ordered 3 H) (conj (zigzag_closest 3 H) (zigzag_unbeaten 3 H)))))))))))); [apply number_value; reflexivity..|].
  apply (waves_small 3 H).
Qed.
Lemma device_example3 a : sorts (@isort cpu) /\ accepted 2 (waves 3) /\ small_problem (2 ^ 24) 2 (waves 3) /\ 0 < p_cleanness (waves 3) /\
  addressable a (p_right (waves 3)) 2 /\ orderly a good_device /\
  ordered_labeling (p_right (waves 3)) 2 zigzag /\ closest (p_left (waves 3)) (p_right (waves 3)) 2 zigzag /\
  unbeaten 2 (waves 3) zigzag /\ height (p_right (waves 3)) = 1 /\ device_solution_of a good_device isort 2 (waves 3) (Ok map3).
Proof.
  assert (H : 1 <= 3 <= 2 ^ 25) by lia.
  refine (conj (isort_sorts cpu_laws) (conj (waves_accepted 3 H) (conj _ (conj eq_refl (conj _ (conj (good_orderly a) (conj (zigzag_ordered 3 H)
    (conj (zigzag_closest 3 H) (conj (zigzag_unbeaten 3 H) (conj eq_refl (device3 a))))))))))); [|destruct a; reflexivity].
  destruct (waves_small 3 H) as [A [B [C _]]]. refine (conj A (conj B (conj C _))). exists 3%Z. split.
  - intros v [X|X]; revert v X; apply Forall_forall; repeat constructor; discriminate.
  - cbn [waves p_cleanness p_smoothness]. lia.
Qed.
