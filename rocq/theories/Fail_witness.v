(** Runs with failing libraries: witnesses. *)
From Coq Require Import String.
From Verif Require Export Fail_proofs Main_witness Device_witness Omp_run_proofs.
Local Open Scope N_scope.

(** *** Tall images *)

Definition tall_options (p : option text) : options :=
  {| o_help := false; o_parallel := p; o_left := Some (lit "l.pgm"); o_right := Some (lit "l.pgm");
     o_output := Some out_path; o_levels := None; o_smoothness := None; o_cleanness := None |}.

Lemma tall_given w o lpath rpath srt img : disparity_map_of srt w o lpath rpath = Ok img -> exists cg, given w o lpath rpath srt = Ok cg.
Proof.
  intros H. pose proof (proj2 (map_with_cpu good_device srt w o lpath rpath (Ok img)) (eq_sym H)) as M.
  apply given_map in M. destruct (given w o lpath rpath srt) as [cg|x]; [eauto|discriminate].
Qed.

Lemma tall n : 0 < n < 2 ^ 30 -> exists w l txt, usable_files w /\ file_holds w (lit "l.pgm") l /\ height l = n /\ width l = 2 /\
  (forall srt, sorts srt -> main srt w (Parsed (tall_options None)) = Ok (ends 0 None (Some (out_path, txt)))) /\
  (forall srt p, sorts srt -> exists cg, given w (tall_options p) (lit "l.pgm") (lit "l.pgm") srt = Ok cg).
Proof.
  intros Hn. set (l := zero_map 2 n 1).
  assert (V : valid_image l).
  { refine (conj _ (conj _ (conj _ _))); cbn [l zero_map width height max_value data]; [lia..|].
    intros v Hv. apply repeat_spec in Hv. lia. }
  assert (C : consistent_image l) by (unfold consistent_image; cbn [l zero_map data width height]; apply len_fill).
  assert (S : width l * height l < 2 ^ 32) by (cbn [l zero_map width height]; lia).
  pose proof (written l V C S []) as Et. set (txt := [] ++ header_text l ++ concat (map (row_text l) (range 0 (height l)))) in Et. clearbody txt.
  set (w := deep_world txt out_path).
  assert (Hl : file_holds w (lit "l.pgm") l).
  { eapply held_written; try eassumption; [cbn [l zero_map max_value]; lia|]. reflexivity. }
  assert (Hp : all_paths (tall_options None) (lit "l.pgm") (lit "l.pgm") out_path) by (split; [reflexivity|split; reflexivity]).
  assert (Ht : technology_ok (tall_options None)) by (intros t X; discriminate).
  assert (G : good_problem l l 2 1 1).
  { refine (conj V (conj V (conj eq_refl (conj eq_refl (conj eq_refl (conj _ (conj _ (or_introl _)))))))); cbn [l zero_map width]; lia. }
  assert (S2 : 4 * (width l * width l * height l) < 2 ^ 64).
  { cbn [l zero_map width height]. lia. }
  assert (S3 : width l * height l * 4 * 2 <= vector_max_size).
  { cbn [l zero_map width height]. unfold vector_max_size. lia. }
  assert (U : usable_files w).
  { intros path t E. cbn [w deep_world files] in E. destruct (same_text path (lit "l.pgm")); [|discriminate]. injection E as <-.
    destruct Hl as [t [ts [F [L I]]]]. injection F as <-. eapply usable_image; [exact L|exact I|exact S|exact S2]. }
  pose proof (fun srt Hs => given_equal w (tall_options None) (lit "l.pgm") (lit "l.pgm") out_path l 2 1 1 Hp Ht Hl Hl eq_refl eq_refl eq_refl S srt Hs S2 S3 G) as E.
  destruct (E isort (isort_sorts cpu_laws)) as [Vz [tz [Ez _]]].
  exists w, l, tz. split; [exact U|]. split; [exact Hl|]. split; [reflexivity|]. split; [reflexivity|]. split.
  - intros srt Hs. destruct (E srt Hs) as [_ [tz' [Ez' R]]]. assert (tz' = tz) by congruence. subst tz'. exact R.
  - intros srt p Hs. destruct (E srt Hs) as [_ [tz' [Ez' R]]].
    assert (X : exists img, disparity_map_of srt w (tall_options None) (lit "l.pgm") (lit "l.pgm") = Ok img).
    { unfold main in R. cbn [tall_options o_output o_left o_right o_parallel check_parallel] in R.
      destruct (disparity_map_of srt w _ _ _) as [img|[x| |]]; [eauto| |discriminate..]. cbn [bind] in R.
      assert (Y : writable w out_path = true) by reflexivity. rewrite Y in R. discriminate. }
    destruct X as [img X]. exact (tall_given w (tall_options None) _ _ srt img X).
Qed.

Lemma too_tall k b : use_cuda b = true -> max_threads k + 1 < 2 ^ 30 -> exists w o o' out txt,
  usable_files w /\ o_parallel o = None /\ o' = on_device (lit "cuda") o /\ chosen b (o_parallel o') = Ok (On CUDA) /\
  (forall srt, sorts srt -> main srt w (Parsed o) = Ok (ends 0 None (Some (out, txt)))) /\
  (forall v srt e, sorts srt -> main_failing k b v srt w (Parsed o') e ->
     leaves_file e = None /\ (ndebug k = true -> returns_zero e)) /\
  (forall v srt, sorts srt -> main_failing k b v srt w (Parsed o') Exits).
Proof.
  intros B H. destruct (tall (max_threads k + 1)) as [w [l [txt [U [Hl [Hh [Hw [Cpu Giv]]]]]]]]; [lia|].
  exists w, (tall_options None), (tall_options (Some (lit "cuda"))), out_path, txt.
  assert (Hc : chosen b (Some (lit "cuda")) = Ok (On CUDA)).
  { unfold chosen. cbv zeta. rewrite B. rewrite andb_false_intro2 by (vm_compute; reflexivity). reflexivity. }
  assert (R : ~ room_for k l) by (unfold room_for; rewrite Hh; lia).
  assert (Hp : all_paths (tall_options (Some (lit "cuda"))) (lit "l.pgm") (lit "l.pgm") out_path) by (split; [reflexivity|split; reflexivity]).
  split; [exact U|]. split; [reflexivity|]. split; [reflexivity|]. split; [exact Hc|]. split; [exact Cpu|]. split.
  - intros v srt e Hs M. split; [exact (no_room_file _ _ _ _ _ _ _ _ _ _ _ Hs U Hp Hc Hl R M)|].
    intros N. destruct (no_room _ _ _ _ _ _ _ _ _ _ _ Hs U Hp Hc Hl R M) as [->|[[N' _]|[x [X _]]]]; [exact I|congruence|].
    destruct (Giv srt (Some (lit "cuda")) Hs) as [cg Y]. congruence.
  - intros v srt Hs. destruct (Giv srt (Some (lit "cuda")) Hs) as [cg Y].
    exact (exits_run k b v srt w _ _ _ _ cg Hs U Hp Hc Y).
Qed.

(** *** Runs of the small problem *)

Definition usual : conditions := {| ndebug := false; max_threads := 1024; max_blocks := 65535 |}.

Lemma usual_room l : file_holds wg (lit "l.pgm") l -> room_for usual l.
Proof.
  intros H. rewrite (held_unique wg (lit "l.pgm") l gl wg_usable H wg_left). split; vm_compute; discriminate.
Qed.
Lemma chosen_small a : chosen both (o_parallel (od a)) = Ok (On a).
Proof. destruct a; vm_compute; reflexivity. Qed.
Lemma some_written : written_file (ends 0 None (Some (out_path, textg))) <> None.
Proof. discriminate. Qed.
Lemma good_small a : main_failing usual both good_device (@isort cpu) wg (Parsed (od a)) (Ends (Ok (ends 0 None (Some (out_path, textg))))).
Proof.
  apply unfailing; [exact (isort_sorts cpu_laws)|exact wg_usable| |exact (device_run a)].
  intros o lpath l E _ El Hl. injection E as <-. change (o_left (od a)) with (Some (lit "l.pgm")) in El. injection El as <-.
  exact (usual_room l Hl).
Qed.
Lemma failed_small : main_failing usual both good_device (@isort cpu) wg (Parsed (od CUDA)) Aborts.
Proof.
  apply (happens usual both good_device _ wg (od CUDA) (lit "l.pgm") (lit "r.pgm") out_path CUDA _ _ (isort_sorts cpu_laws) wg_usable
    (og_paths out_path) (chosen_small CUDA) (device_run CUDA) some_written usual_room).
  right; left. auto.
Qed.
Lemma narrow_room : ~ room_for {| ndebug := true; max_threads := 1; max_blocks := 65535 |} gl.
Proof. intros [_ H]. revert H. vm_compute. intros H. apply H. reflexivity. Qed.
