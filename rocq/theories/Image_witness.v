(** Concrete images for the properties of [image_valid]. *)
From Verif Require Import Image_proofs.
Local Open Scope N_scope.

Definition small_image : image :=
  {| width := 3; height := 2; max_value := 10; data := [4; 5; 10; 0; 7; 0] |}.
Definition bad_image : image :=
  {| width := 3; height := 2; max_value := 10; data := [4; 5; 10; 0; 11; 0] |}.
Definition short_image : image :=
  {| width := 2; height := 2; max_value := 10; data := [4; 5; 10] |}.
(** 65536 x 65536 zeros *)
Definition huge_image : image :=
  {| width := 65536; height := 65536; max_value := 1; data := fill (2 ^ 32) 0 |}.

Lemma small_image_ok :
  consistent_image small_image /\ width small_image * height small_image < 2 ^ 32
  /\ valid_image small_image.
Proof.
  split; [reflexivity|split; [reflexivity|]].
  unfold valid_image; repeat split; try reflexivity.
  intros v Hv. cbn in Hv |- *. lia.
Qed.

Lemma bad_image_ok :
  consistent_image bad_image /\ width bad_image * height bad_image < 2 ^ 32
  /\ ~ valid_image bad_image.
Proof.
  split; [reflexivity|split; [reflexivity|]].
  intros [_ [_ [_ V]]]. specialize (V 11). cbn in V. lia.
Qed.

Lemma small_image_fuel : image_valid_fuel cpu 10 small_image <> Stop Diverge.
Proof. vm_compute. discriminate. Qed.

Lemma In_fill {A} n (v w : A) : In w (fill n v) -> w = v.
Proof. unfold fill. intros H. apply repeat_spec in H. exact H. Qed.

Lemma huge_image_consistent : consistent_image huge_image.
Proof. unfold consistent_image, huge_image; cbn [data width height]. rewrite len_fill. reflexivity. Qed.

Lemma image_valid_not_total (T : target) :
  2 ^ 32 < wmod T ->
  (exists img, consistent_image img /\ valid_image img /\
     forall fuel, image_valid_fuel T fuel img = Stop Diverge) /\
  (exists img, width img = 2 /\ height img = 2 /\ image_valid T img = Stop Undef).
Proof.
  intros Hw. split.
  - exists huge_image. split; [exact huge_image_consistent|]. split.
    + unfold valid_image, huge_image; cbn [width height max_value data]. repeat split; try lia.
      intros v Hv. apply In_fill in Hv. lia.
    + intros fuel. apply image_valid_forever; unfold huge_image; cbn [width height max_value]; try lia.
      intros k Hk. exists 0. unfold huge_image; cbn [data max_value]. rewrite get_fill by exact Hk. split; [reflexivity|lia].
  - exists short_image. split; [reflexivity|split; [reflexivity|]].
    unfold image_valid, image_valid_fuel, short_image; cbn [width height max_value data].
    cbn [N.eqb orb]. rewrite umul_small by lia.
    change (S (N.to_nat (2 * 2))) with (3 + 2)%nat. fold short_image.
    assert (Eb : bound_of T short_image = 4) by (unfold bound_of; apply umul_small; cbn [width height short_image]; lia).
    rewrite (loop_steps T short_image 3); rewrite ?Eb; try lia; try reflexivity.
    + rewrite loop_bad; [reflexivity|rewrite Eb; lia|]. intros [v [E _]]. discriminate E.
    + intros k Hk. assert (K : k = 0 \/ k = 1 \/ k = 2) by lia.
      destruct K as [->|[->| ->]]; (eexists; split; [reflexivity|cbn; lia]).
Qed.
