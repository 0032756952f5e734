(** A problem that only the labeling on devices solves. *)
From Coq Require Import String Lia.
From Verif Require Import Exact_witness.
From Verif Require Export Same_proofs Device_witness.
Local Open Scope N_scope.

Definition g73 : dgraph cpu := problem 6 1 4 [2; 2; 1; 1; 2; 0] [0; 2; 2; 0; 2; 1] 4 4.
Lemma g73_made : make_graph (left g73) (right g73) 4 (of_u 4) (of_u 4) = Ok g73.
Proof. made. Qed.
Definition prep73 : outcome (cgraph cpu) := prepared (@isort cpu) (left g73) (right g73) 4 (of_u 4) (of_u 4).
Definition cg73 : cgraph cpu := match prep73 with Ok cg => cg | Stop _ => cg58 end.
Lemma prep73_ok : prep73 = Ok cg73.
Proof. unfold cg73. assert (X : ok prep73 = true) by (vm_compute; reflexivity). destruct prep73 as [cg|]; [reflexivity|discriminate]. Qed.
Definition map73 : image := {| width := 6; height := 1; max_value := 4; data := [2; 1; 0; 0; 0; 0] |}.
Definition mem73 : mem :=
  [false; false; true; false; false; true; false; false; true; false; false; false;
   true; false; false; false; true; false; false; false; true; false; false; false].
Lemma solves73 a : solves_with (On a) good_device (@isort cpu) (left g73) (right g73) 4 (of_u 4) (of_u 4) (Ok map73).
Proof.
  apply (solves_by a _ _ _ _ _ _ cg73 mem73 map73 6 6 4); [exact prep73_ok| |vm_compute; reflexivity].
  destruct a; vm_compute; reflexivity.
Qed.
Lemma fails73 : solve_problem (@isort cpu) (left g73) (right g73) 4 (of_u 4) (of_u 4) = Stop (Throw CannotLabel).
Proof. vm_compute. reflexivity. Qed.

Lemma good_orderly a : orderly a good_device.
Proof. refine (conj eq_refl (conj (fun g H => H) _)). destruct a; [discriminate|reflexivity]. Qed.

Lemma only_devices a : exists srt l r lev c s img,
  sorts srt /\ consistent_image l /\ consistent_image r /\ width l * height l * 4 * lev < 2 ^ 64 /\ addressable a r lev /\
  small_penalties (2 ^ 24) l r lev (Z.of_N c) (Z.of_N s) /\ orderly a good_device /\
  solve_problem srt l r lev (of_u (t := cpu) c) (of_u s) = Stop (Throw CannotLabel) /\
  solves_with (On a) good_device srt l r lev (of_u c) (of_u s) (Ok img).
Proof.
  exists (@isort cpu), (left g73), (right g73), 4, 4, 4, map73.
  refine (conj (isort_sorts cpu_laws) (conj eq_refl (conj eq_refl (conj eq_refl (conj _ (conj _ (conj (good_orderly a) (conj fails73 (solves73 a))))))))).
  - destruct a; reflexivity.
  - exists 3%Z. split; [|lia]. intros v [H|H]; cbn in H; decompose [or] H; subst; try lia; contradiction.
Qed.

Lemma wg_read path img : file_holds wg path img -> read_file wg path = Ok img.
Proof.
  intros H. destruct (held_usable _ _ _ wg_usable H) as [S _]. apply (held_read _ _ _ H).
  assert (2 ^ 32 <= vector_max_size) by (vm_compute; discriminate). lia.
Qed.
Lemma wg_small a lpath rpath l r lev c s : all_paths (og out_path) lpath rpath out_path -> file_holds wg lpath l -> file_holds wg rpath r ->
  option_number (width l) (o_levels (og out_path)) lev -> option_number 1 (o_cleanness (og out_path)) c ->
  option_number 1 (o_smoothness (og out_path)) s ->
  addressable a r lev /\ small_penalties (2 ^ 24) l r lev (Z.of_N c) (Z.of_N s).
Proof.
  intros [E1 [E2 _]] Hl Hr Nl Nc Ns. injection E1 as <-. injection E2 as <-. apply wg_read in Hl, Hr.
  apply number_value in Nl, Nc, Ns.
  assert (Xl : read_file wg (lit "l.pgm") = Ok gl) by (vm_compute; reflexivity).
  assert (Xr : read_file wg (lit "r.pgm") = Ok gr) by (vm_compute; reflexivity).
  assert (l = gl) by (enough (Ok l = Ok gl) as X by (injection X as ->; reflexivity); rewrite <- Xl; symmetry; exact Hl).
  assert (r = gr) by (enough (Ok r = Ok gr) as X by (injection X as ->; reflexivity); rewrite <- Xr; symmetry; exact Hr).
  subst l r. clear Hl Hr Xl Xr.
  assert (Yl : number_or (width gl) (o_levels (og out_path)) = Ok 3) by (vm_compute; reflexivity).
  assert (Yc : number_or 1 (o_cleanness (og out_path)) = Ok 1) by (vm_compute; reflexivity).
  assert (Ys : number_or 1 (o_smoothness (og out_path)) = Ok 1) by (vm_compute; reflexivity).
  rewrite Yl in Nl. rewrite Yc in Nc. rewrite Ys in Ns. injection Nl as <-. injection Nc as <-. injection Ns as <-.
  split; [destruct a; reflexivity|].
  exists 10%Z. split; [|lia]. intros v [H|H]; cbn in H; decompose [or] H; subst; try lia; contradiction.
Qed.
