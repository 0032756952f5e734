(** Concrete problems used to show that the hypotheses of the theorems can be
    met.  The first is the test [basic_check] of tests/labeling_finder.cpp. *)
From Verif Require Import Base_proofs Spec.
Local Open Scope N_scope.

Definition sample_left : image :=
  {| width := 3; height := 2; max_value := 10; data := [4; 5; 10; 0; 0; 0] |}.
Definition sample_right : image :=
  {| width := 3; height := 2; max_value := 10; data := [10; 7; 0; 0; 0; 0] |}.

Definition sample_graph (T : target) : dgraph T :=
  {| left := sample_left; right := sample_right; levels := 3;
     cleanness := of_u 1; smoothness := of_u 1; reparam := fill 72 fzero |}.

Lemma sample_wf (T : target) : 72 < wmod T -> wf_graph (sample_graph T).
Proof.
  intros Hw. constructor; try reflexivity; try (cbn; lia); vm_compute; discriminate.
Qed.

Lemma sample_wf_cpu : wf_graph (sample_graph cpu).
Proof. apply sample_wf. reflexivity. Qed.

(** The constructor produces it. *)
Lemma sample_made : make_graph sample_left sample_right 3 (of_u 1) (of_u 1) = Ok (sample_graph cpu).
Proof.
  unfold make_graph.
  assert (E1 : image_valid cpu sample_left = Ok true) by (vm_compute; reflexivity).
  assert (E2 : image_valid cpu sample_right = Ok true) by (vm_compute; reflexivity).
  assert (E3 : @flt cpu (of_u 1) fzero = false) by (vm_compute; reflexivity).
  assert (E4 : @flt cpu (of_u 1) feps = false) by (vm_compute; reflexivity).
  rewrite E1, E2, E3, E4. reflexivity.
Qed.
