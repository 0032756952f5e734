(** Runs of different builds one after another. *)
From Coq Require Import Lia String.
From Verif Require Import Device_witness Omp_witness Series_witness.
From Verif Require Export Builds_proofs.
Local Open Scope N_scope.

Definition args_device : list text :=
  [lit "-l"; lit "l.pgm"; lit "-r"; lit "r.pgm"; lit "-o"; out_path; lit "-d3"; lit "-pCUDA"; lit "-c1"; lit "-s1"].
Definition dev : variant := Devices both good_device.
Definition crew : variant := Team two_team.
Definition basic : variant := Devices {| use_opencl := false; use_cuda := false |} good_device.

Lemma run_device : runs_as dev (@isort cpu) wg args_device (Ok (ends 0 None (Some (out_path, textg)))).
Proof.
  exists (Parsed (od CUDA)). split; [vm_compute; reflexivity|]. exact (device_run CUDA).
Qed.
Lemma run_crew : runs_as crew (@isort cpu) wg_map args_plain (Ok (ends 0 None (Some (out_path, textg)))).
Proof.
  exists (Parsed (og out_path)). split; [vm_compute; reflexivity|].
  eapply (order_run backwards turns); [exact may_backwards|exact may_turns|apply run_paths|apply run_technology|]. vm_compute. reflexivity.
Qed.

Lemma suits_wg x : match x with Team v => team_ok v | Devices _ _ => True end -> suits wg x.
Proof.
  destruct x as [b v|v]; intros Hx; [|exact Hx]. intros _ path l H.
  destruct (held_usable _ _ _ wg_usable H) as [S _]. pose proof (held_read _ _ _ H) as R.
  assert (V : width l * height l <= vector_max_size) by (assert (2 ^ 32 <= vector_max_size) by (vm_compute; discriminate); lia).
  specialize (R V). destruct H as [t [ts [F _]]].
  assert (P : path = lit "l.pgm" \/ path = lit "r.pgm").
  { unfold wg, world_of in F. cbn [files find fst] in F.
    destruct (same_text (lit "l.pgm") path) eqn:E1; [left; symmetry; apply same_text_eq; exact E1|].
    destruct (same_text (lit "r.pgm") path) eqn:E2; [right; symmetry; apply same_text_eq; exact E2|]. discriminate. }
  assert (X : read_file wg (lit "l.pgm") = Ok gl) by (vm_compute; reflexivity).
  assert (Y : read_file wg (lit "r.pgm") = Ok gr) by (vm_compute; reflexivity).
  destruct P as [-> | ->]; [rewrite X in R|rewrite Y in R]; injection R as <-; reflexivity.
Qed.

Lemma three_builds : exists w', series (@isort cpu) wg [(dev, args_device); (crew, args_plain); (basic, args_map)]
  [ends 0 None (Some (out_path, textg)); ends 0 None (Some (out_path, textg)); ends 0 None (Some (lit "l.pgm", zero_text))] w'.
Proof.
  eexists. econstructor; [exact run_device|]. fold wg_map. econstructor; [exact run_crew|].
  econstructor; [|constructor].
  eexists. split; [vm_compute; reflexivity|]. apply main_with_plain. vm_compute. reflexivity.
Qed.
Lemma suit_all : suits wg dev /\ suits wg crew /\ suits wg basic.
Proof. split; [|split]; apply suits_wg; [exact I| |exact I].
  intros bound jobs H. apply (proj2 two_orderly) in H. exact (proj1 H).
Qed.

Lemma crew_disk room : main_disk_omp two_team (@isort cpu) wg room (Parsed (og out_path))
  (Ok (ends 0 None (Some (out_path, firstn (N.to_nat (room out_path)) textg)))).
Proof. apply omp_cut. exists (Ok (ends 0 None (Some (out_path, textg)))). split; [exact two_run|reflexivity]. Qed.
Lemma crew_apart : (forall q, writes_to args_plain q -> ~ reads_from args_other q /\ ~ writes_to args_other q) /\
  (forall q, writes_to args_other q -> ~ reads_from args_plain q).
Proof. destruct apart as [A [B _]]. exact (conj A B). Qed.
Lemma run_crew0 : runs_as crew (@isort cpu) wg args_plain (Ok (ends 0 None (Some (out_path, textg)))).
Proof. exists (Parsed (og out_path)). split; [vm_compute; reflexivity|exact two_run]. Qed.
Lemma two_builds : exists w', series (@isort cpu) wg [(crew, args_plain); (basic, args_other)]
  [ends 0 None (Some (out_path, textg)); ends 0 None (Some (lit "zero.pgm", zero_text))] w'.
Proof.
  eexists. econstructor; [exact run_crew0|]. econstructor; [|constructor].
  eexists. split; [vm_compute; reflexivity|]. apply main_with_plain. vm_compute. reflexivity.
Qed.
