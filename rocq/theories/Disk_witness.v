(** Examples of incomplete files. *)
From Coq Require Import Lia String.
From Verif Require Export Disk_proofs Main_witness.
Local Open Scope N_scope.

Definition short_image : image := {| width := 2; height := 1; max_value := 255; data := [7; 255] |}.
Definition short_kept : text := lit "P2" ++ [newline] ++ lit "2 1" ++ [newline] ++ lit "255" ++ [newline] ++ lit "7 2".
Definition short_lost : text := lit "55" ++ [newline].

Lemma short_valid : valid_image short_image.
Proof.
  split; [reflexivity|]. split; [reflexivity|]. split; [reflexivity|]. intros v [<-|[<-|[]]]; intros X; discriminate X.
Qed.
Lemma short_written : write_image [] (Some short_image) = Ok (short_kept ++ short_lost).
Proof. rewrite (written short_image short_valid); reflexivity. Qed.
Lemma short_hypotheses : valid_image short_image /\ consistent_image short_image /\ width short_image * height short_image < 2 ^ 32 /\
  max_value short_image < 2 ^ 64 /\ write_image [] (Some short_image) = Ok (short_kept ++ short_lost) /\
  data short_image = [7] ++ [255] /\ max_value short_image <= 65536 /\ 10 ^ (len short_lost - 1) <= 255 /\ len short_lost = 3.
Proof.
  split; [exact short_valid|]. split; [reflexivity|]. split; [reflexivity|]. split; [reflexivity|].
  split; [exact short_written|]. split; [reflexivity|]. split; [discriminate|]. split; [discriminate|reflexivity].
Qed.

(** A cut text is taken for another image. *)
Lemma cut_misread : exists img img' kept lost, valid_image img /\ consistent_image img /\ lost <> [] /\
  write_image [] (Some img) = Ok (kept ++ lost) /\ img' <> img /\ reads_image kept img'.
Proof.
  exists short_image, (replaced_data short_image [7; 2]), short_kept, short_lost.
  split; [exact short_valid|]. split; [reflexivity|]. split; [discriminate|]. split; [exact short_written|]. split; [discriminate|].
  destruct (cut_image short_image _ short_kept short_lost [7] 255 short_valid eq_refl eq_refl eq_refl short_written eq_refl eq_refl) as [R _].
  apply R; [discriminate|]. right. discriminate.
Qed.

(** A map of which nothing but the first characters arrives. *)
Definition plain : build := {| use_opencl := false; use_cuda := false |}.
Lemma disk_run room v srt : sorts srt ->
  main_disk plain v srt wg room (Parsed (og out_path)) (Ok (ends 0 None (Some (out_path, firstn (N.to_nat (room out_path)) textg)))).
Proof.
  intros Hs. apply main_cut. exists (Ok (ends 0 None (Some (out_path, textg)))).
  split; [apply main_with_plain; symmetry; apply rung; exact Hs|reflexivity].
Qed.
Lemma disk_only v srt room e : sorts srt -> main_disk plain v srt wg room (Parsed (og out_path)) e ->
  e = Ok (ends 0 None (Some (out_path, firstn (N.to_nat (room out_path)) textg))).
Proof.
  intros Hs M. apply main_cut in M. destruct M as [e' [M ->]]. apply main_with_plain in M. rewrite (rung srt Hs) in M. subst e'. reflexivity.
Qed.
Lemma disk_lost : exists w o room path t txt, usable_files w /\ len t < len txt /\
  forall v srt, sorts srt ->
    (forall e, main_with plain v srt w (Parsed o) e <-> e = Ok (ends 0 None (Some (path, txt)))) /\
    (forall e, main_disk plain v srt w room (Parsed o) e <-> e = Ok (ends 0 None (Some (path, t)))).
Proof.
  exists wg, (og out_path), (fun _ => 5), out_path, (firstn 5 textg), textg.
  split; [exact wg_usable|]. split; [reflexivity|]. intros v srt Hs. split; intros e.
  - rewrite main_with_plain, (rung srt Hs). reflexivity.
  - split; [intros M; exact (disk_only v srt _ e Hs M)|]. intros ->. apply (disk_run (fun _ => 5)). exact Hs.
Qed.
Lemma disk_chosen : chosen plain (o_parallel (og out_path)) = Ok OnCpu.
Proof. reflexivity. Qed.
Lemma disk_address : forall a l lev, OnCpu = On a -> file_holds wg (lit "l.pgm") l -> option_number (width l) (o_levels (og out_path)) lev ->
  lev <= width l -> addressable a l lev.
Proof. discriminate. Qed.
