(** Cases for the claims about the work of threads and work-items. *)
From Verif Require Import Toil_proofs Runs_witness Schedule.
From Verif Require Import Toil_spec.
Local Open Scope N_scope.

Definition scg_one : mem := match round_by scg 1 2 2 (first_then 0 1) (cg_avail scg) with Some (_, m) => m | None => [] end.
Lemma scg_toil : exists n, toil scg true 1 2 2 n (cg_avail scg) scg_one.
Proof.
  apply toil_rounds. exists 1%nat. apply rounds_last. eapply round_by_round. apply gives_some. vm_compute. reflexivity.
Qed.

(** Both threads take their turns. *)
Definition begins (m : mem) (ts : list (thread bool)) (i : nat) : bool :=
  match nth_error ts i with Some (Run (Read j _)) => j <? len m | _ => false end.
Lemma begins_step m ts i : begins m ts i = true ->
  exists t t', nth_error ts i = Some t /\ tstep true 64 t [m] t' [m].
Proof.
  unfold begins. destruct (nth_error ts i) as [[[r|e|j k|j b k]|j b w k]|]; try discriminate. intros L.
  apply N.ltb_lt in L. eexists _, _. split; [reflexivity|]. eapply step_read; [reflexivity|]. apply bit_get. exact L.
Qed.
Lemma two_turns m ts : begins m ts 0 = true -> begins m ts 1 = true ->
  exists tr s, turns true 64 tr {| threads := ts; history := [m] |} s /\ In 0%nat tr /\ In 1%nat tr.
Proof.
  intros B0 B1. destruct (begins_step m ts 0 B0) as [t0 [t0' [E0 S0]]]. destruct (begins_step m ts 1 B1) as [t1 [t1' [E1 S1]]].
  exists [0%nat; 1%nat]. eexists. split; [|split; [left; reflexivity|right; left; reflexivity]].
  econstructor; [exact E0|exact S0|].
  econstructor; [rewrite nth_upd_other by discriminate; exact E1|exact S1|]. constructor.
Qed.
Lemma scg_turns : exists tr s, turns true 64 tr (round_start scg 2 2 (cg_avail scg)) s /\ In 0%nat tr /\ In 1%nat tr.
Proof. apply two_turns; vm_compute; reflexivity. Qed.

Lemma steps_path {T : target} (cg : cgraph T) a sc kind group s s' :
  kernel_steps cg a sc kind group s s' -> exists n, kernel_path cg a sc kind group n s s'.
Proof.
  intros P. induction P as [s|s s1 s2 St P [n IH]]; [exists 0%nat; constructor|]. exists (S n). econstructor; eassumption.
Qed.

Lemma first_launch {T : target} (cg : cgraph T) sc kind partition m f m' f' :
  relaunched cg sc kind partition 1 m f m' f' ->
  exists group n s, kernel_path cg OpenCL sc kind group n (launch_start cg OpenCL m f) s /\ finished s.
Proof.
  intros R. inversion R as [|n x y m1 f1 z u [group [Hg [s [P [Fi _]]]]] A R']; subst.
  destruct (steps_path _ _ _ _ _ _ _ P) as [n P']. exists group, n, s. split; assumption.
Qed.

(** A launch that ends. *)
Lemma chosen_path : exists group n s,
  kernel_path (with_avail cl72_problem first_choice) OpenCL true Strict group n
    (launch_start (with_avail cl72_problem first_choice) OpenCL first_choice no_flags) s /\ finished s.
Proof.
  destruct chosen_relaunched as [m' [f' R]]. exact (first_launch _ _ _ _ _ _ _ _ R).
Qed.
