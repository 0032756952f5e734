(** A device whose results depend on the schedule. *)
From Coq Require Import String Lia.
From Verif Require Export Agree_proofs Same_witness.
Local Open Scope N_scope.

(** One group; work-items that have left are not waited for. *)
Definition hasty_device : behaviour := {| b_sc := true; b_kind := SkipDone; b_partition := one_group |}.

(** One round by everybody; then one work-item resets the flag and goes on alone. *)
Definition hasty (n k i0 : nat) : list event :=
  map (fun i => Move i 3) (all_items n) ++
  [Together false (all_items n)] ++ map (fun i => Move i 2000) (all_items n) ++ [Together true (all_items n)] ++
  Move i0 2 :: map (fun i => Move i 1) (all_items n) ++
  flat_map (fun _ => [Together false [i0]; Move i0 2000; Together true [i0]; Move i0 2]) (seq 0 k).

Definition hasty_run (i0 : nat) : option (mem * flags) :=
  label_by (cuda_problem cg73) CUDA SkipDone same_group (hasty 6 4 i0) 4 (device_order (cuda_problem cg73)) (cg_avail cg73) no_flags.
Definition mem_of (x : option (mem * flags)) : mem := match x with Some (m, _) => m | None => [] end.
Lemma hasty_solves i0 : match hasty_run i0 with Some _ => true | None => false end = true ->
  solves_with (On CUDA) hasty_device (@isort cpu) (left g73) (right g73) 4 (of_u 4) (of_u 4)
    (mapped (Ok (true, with_avail cg73 (mem_of (hasty_run i0))))).
Proof.
  intros H. unfold solves_with. fold prep73. rewrite prep73_ok. eexists. split; [|reflexivity].
  exists (with_avail cg73 (mem_of (hasty_run i0))). split; [|reflexivity]. exists (mem_of (hasty_run i0)). split; [|reflexivity].
  unfold hasty_run in *.
  destruct (label_by (cuda_problem cg73) CUDA SkipDone same_group (hasty 6 4 i0) 4 (device_order (cuda_problem cg73)) (cg_avail cg73) no_flags)
    as [[m f]|] eqn:L; [|discriminate].
  exists no_flags, f. split; [reflexivity|]. eapply label_by_ok; [exact same_group_one|exact L].
Qed.

Lemma hasty_found : solves_with (On CUDA) hasty_device (@isort cpu) (left g73) (right g73) 4 (of_u 4) (of_u 4) (Ok map73).
Proof.
  assert (E : mapped (Ok (true, with_avail cg73 (mem_of (hasty_run 1)))) = Ok map73) by (vm_compute; reflexivity).
  rewrite <- E. apply hasty_solves. vm_compute. reflexivity.
Qed.
Lemma hasty_lost : solves_with (On CUDA) hasty_device (@isort cpu) (left g73) (right g73) 4 (of_u 4) (of_u 4) (Stop (Throw NoLabel)).
Proof.
  assert (E : mapped (Ok (true, with_avail cg73 (mem_of (hasty_run 0)))) = Stop (Throw NoLabel)) by (vm_compute; reflexivity).
  rewrite <- E. apply hasty_solves. vm_compute. reflexivity.
Qed.

Lemma hasty_disagree : exists v srt l r lev c s img,
  b_sc v = true /\ b_kind v = SkipDone /\ (forall group, b_partition v group -> one_group group) /\
  sorts srt /\ consistent_image l /\ consistent_image r /\ width l * height l * 4 * lev < 2 ^ 64 /\ addressable CUDA r lev /\
  small_penalties (2 ^ 24) l r lev (Z.of_N c) (Z.of_N s) /\
  solves_with (On CUDA) v srt l r lev (of_u c) (of_u s) (Ok img) /\
  solves_with (On CUDA) v srt l r lev (of_u c) (of_u s) (Stop (Throw NoLabel)).
Proof.
  exists hasty_device, (@isort cpu), (left g73), (right g73), 4, 4, 4, map73.
  refine (conj eq_refl (conj eq_refl (conj (fun g H => H) (conj (isort_sorts cpu_laws) (conj eq_refl (conj eq_refl (conj eq_refl (conj eq_refl (conj _ (conj hasty_found hasty_lost)))))))))).
  exists 3%Z. split; [|lia]. intros v [H|H]; cbn in H; decompose [or] H; subst; try lia; contradiction.
Qed.

(** The options and files of C73. *)
Lemma od_small a a' lpath rpath path l r lev c s : all_paths (od a) lpath rpath path -> file_holds wg lpath l -> file_holds wg rpath r ->
  option_number (width l) (o_levels (od a)) lev -> option_number 1 (o_cleanness (od a)) c ->
  option_number 1 (o_smoothness (od a)) s ->
  addressable a r lev /\ addressable a' r lev /\ small_penalties (2 ^ 24) l r lev (Z.of_N c) (Z.of_N s).
Proof.
  intros P Hl Hr Nl Nc Ns.
  assert (P' : all_paths (og out_path) lpath rpath out_path).
  { destruct P as [E1 [E2 _]]. split; [exact E1|]. split; [exact E2|reflexivity]. }
  destruct (wg_small a lpath rpath l r lev c s P' Hl Hr Nl Nc Ns) as [A S].
  destruct (wg_small a' lpath rpath l r lev c s P' Hl Hr Nl Nc Ns) as [A' _]. auto.
Qed.
