(** Launches of concrete runs. *)
From Verif Require Export Runs_proofs Device_witness.
Local Open Scope N_scope.

Section Count.
Context {T : target} (cg : cgraph T) (kind : barrier_kind) (group : nat -> nat) (es : list event).

Fixpoint relaunched_by (fuel : nat) (m : mem) (f : flags) : option (nat * mem * flags * mem * flags) :=
  match fuel with
  | O => None
  | S fuel =>
      let s := launch_by cg OpenCL kind group es m f in
      if all_done s then
        if any_flag (kflags s) then
          match relaunched_by fuel (current (khistory s)) (kflags s) with
          | Some (n, m1, f1, m2, f2) => Some (S n, m1, f1, m2, f2)
          | None => None
          end
        else Some (0%nat, m, f, current (khistory s), kflags s)
      else None
  end.
Fixpoint launches_by (fuel : nat) (ps : list pixel) (m : mem) (f : flags) : option (nat * mem * flags) :=
  match ps with
  | [] => Some (0%nat, m, f)
  | p :: ps =>
      match run (choose_best_node cg p) m with
      | Ok (_, m1) =>
          match relaunched_by fuel m1 f with
          | Some (n, _, _, m2, f2) =>
              match launches_by fuel ps m2 f2 with Some (k, m', f') => Some ((n + S k)%nat, m', f') | None => None end
          | None => None
          end
      | Stop _ => None
      end
  end.

Lemma relaunched_by_ok partition fuel : (partition group : Prop) -> forall m f n m1 f1 m2 f2,
  relaunched_by fuel m f = Some (n, m1, f1, m2, f2) ->
  relaunched cg true kind partition n m f m1 f1 /\ some_launch cg OpenCL true kind partition m1 f1 m2 f2 /\ any_flag f2 = false.
Proof.
  intros P. induction fuel as [|fuel IH]; intros m f n m1 f1 m2 f2; cbn [relaunched_by]; [discriminate|]. cbv zeta.
  destruct (all_done (launch_by cg OpenCL kind group es m f)) eqn:D; [|discriminate].
  apply launch_by_launch in D. destruct (any_flag (kflags (launch_by cg OpenCL kind group es m f))) eqn:A.
  - destruct (relaunched_by fuel _ _) as [[[[[k m3] f3] m4] f4]|] eqn:R; [|discriminate]. intros E. injection E as <- <- <- <- <-.
    destruct (IH _ _ _ _ _ _ _ R) as [H1 H2]. split; [|exact H2]. econstructor; [|exact A|exact H1]. exists group. split; [exact P|exact D].
  - intros E. injection E as <- <- <- <- <-. split; [constructor|]. split; [|exact A]. exists group. split; [exact P|exact D].
Qed.
Lemma launches_by_ok partition fuel : (partition group : Prop) -> forall ps m f n m' f', launches_by fuel ps m f = Some (n, m', f') ->
  labeling_launches cg true kind partition n ps m f m' f'.
Proof.
  intros P. induction ps as [|p ps IH]; intros m f n m' f'; cbn [launches_by]; [intros E; injection E as <- <- <-; constructor|].
  destruct (run (choose_best_node cg p) m) as [[b m1]|] eqn:C; [|discriminate].
  destruct (relaunched_by fuel m1 f) as [[[[[k m2] f2] m3] f3]|] eqn:Q; [|discriminate].
  destruct (launches_by fuel ps m3 f3) as [[[k' m4] f4]|] eqn:R; [|discriminate]. intros E. injection E as <- <- <-.
  destruct (relaunched_by_ok partition fuel P _ _ _ _ _ _ _ Q) as [H1 [H2 H3]].
  econstructor; [exact C|exact H1|exact H2|exact H3|exact (IH _ _ _ _ _ R)].
Qed.
End Count.

(** A problem of four pixels that needs five launches. *)
Definition cl72_problem : cgraph opencl := opencl_problem cg72.
Lemma cl72_wf : wf_cgraph cl72_problem.
Proof.
  constructor; [constructor|constructor; [reflexivity|..]|]; vm_compute; try reflexivity; discriminate.
Qed.
Definition first_choice : mem :=
  match run (choose_best_node cl72_problem {| px := 1; py := 0 |})
    [true; false; false; true; true; true; true; true; false; true; false; false] with
  | Ok (_, m) => m
  | Stop _ => []
  end.
Definition counted (o : option (nat * mem * flags)) (n : nat) (m : mem) : Prop :=
  match o with Some (n', m', _) => n' = n /\ m' = m | None => False end.
Lemma cl72_counted : counted (launches_by cl72_problem Strict same_group (rounds 4 6) 4 (device_order cl72_problem) (cg_avail cl72_problem) no_flags) 5 mem72.
Proof. vm_compute. split; reflexivity. Qed.
Lemma cl72_launches : exists f', labeling_launches cl72_problem true Strict one_group 5 (device_order cl72_problem) (cg_avail cl72_problem) no_flags mem72 f'.
Proof.
  pose proof cl72_counted as C. unfold counted in C.
  destruct (launches_by _ _ _ _ _ _ _ _) as [[[n m] f]|] eqn:E in C; [|destruct C]. destruct C as [-> ->].
  exists f. exact (launches_by_ok _ _ _ _ one_group _ same_group_one _ _ _ _ _ _ E).
Qed.
Definition again_by (o : option (nat * mem * flags * mem * flags)) (n : nat) : Prop :=
  match o with Some (n', _, _, _, _) => n' = n | None => False end.
Lemma chosen_wf : wf_cgraph (with_avail cl72_problem first_choice).
Proof. apply static_wf; [apply wf_static; exact cl72_wf|]. vm_compute. reflexivity. Qed.
Lemma chosen_again : again_by (relaunched_by (with_avail cl72_problem first_choice) Strict same_group (rounds 4 6) 4 first_choice no_flags) 1.
Proof. vm_compute. reflexivity. Qed.
Lemma chosen_relaunched : exists m' f', relaunched (with_avail cl72_problem first_choice) true Strict one_group 1 first_choice no_flags m' f'.
Proof.
  pose proof chosen_again as C. unfold again_by in C.
  destruct (relaunched_by _ _ _ _ _ _ _) as [[[[[n m] f] m2] f2]|] eqn:E in C; [|destruct C]. subst n.
  exists m, f. exact (proj1 (relaunched_by_ok (with_avail cl72_problem first_choice) _ _ _ one_group _ same_group_one _ _ _ _ _ _ _ E)).
Qed.
Lemma chosen_device a : chosen both (o_parallel (od a)) = Ok (On a).
Proof. destruct a; vm_compute; reflexivity. Qed.
