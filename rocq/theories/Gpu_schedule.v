(** Executions of the kernels by a given schedule, and concrete ones. *)
From Verif Require Export Gpu_end_proofs Schedule.
Local Open Scope N_scope.

(** *** Following a schedule *)

Inductive event : Type :=
| Move (i : nat) (times : nat)           (* a work-item makes some steps *)
| Together (second : bool) (who : list nat).  (* work-items pass a barrier *)

Definition inext (a : api) (ph : phase) (h : list mem) (f : flags) : option (phase * list mem * flags) :=
  match ph with
  | Enter => Some (Enter2, h, {| step_flag := false; any_flag := any_flag f |})
  | Enter2 => Some (Reset, h, {| step_flag := step_flag f; any_flag := false |})
  | Reset => Some (First, h, {| step_flag := false; any_flag := any_flag f |})
  | First => None
  | Work (Run (Ret r)) => Some (if r then MarkStep else Second, h, f)
  | Work t => match tnext 1 t h with Some (t', h') => Some (Work t', h', f) | None => None end
  | MarkStep => Some (match a with OpenCL => MarkAny | CUDA => Second end, h, {| step_flag := true; any_flag := any_flag f |})
  | MarkAny => Some (Second, h, {| step_flag := step_flag f; any_flag := true |})
  | Second => None
  | Test => Some (if step_flag f then Reset else Done, h, f)
  | Done => None
  end.

Lemma inext_step a ph h f ph' h' f' : inext a ph h f = Some (ph', h', f') -> item_step a true ph h f ph' h' f'.
Proof.
  destruct ph as [| | | |t| | | | |]; cbn [inext]; intros X; try discriminate; try (injection X as <- <- <-; constructor; reflexivity).
  assert (Y : match tnext 1 t h with Some (t', h') => Some (Work t', h', f) | None => None end = Some (ph', h', f') ->
    item_step a true (Work t) h f ph' h' f').
  { destruct (tnext 1 t h) as [[t' h0]|] eqn:E; [|discriminate]. intros Z; injection Z as <- <- <-.
    apply item_work. apply tnext_step. exact E. }
  destruct t as [[r|s|i k|i b k]|i b w k]; try exact (Y X). injection X as <- <- <-. apply item_result.
Qed.

Definition at_barrier (second : bool) (ph : phase) : bool :=
  match ph with First => negb second | Second => second | _ => false end.
Definition is_done (ph : phase) : bool := match ph with Done => true | _ => false end.
Definition inb_list (l : list nat) (i : nat) : bool := existsb (Nat.eqb i) l.

Definition may_passb (kind : barrier_kind) (group : nat -> nat) (second : bool) (ws : list nat) (l : list (pixel * phase)) : bool :=
  match ws with i :: _ => match nth_error l i with Some _ => true | None => false end | [] => false end &&
  forallb (fun i => match nth_error l i with Some (_, ph) => at_barrier second ph | None => true end) ws &&
  forallb (fun i => forallb (fun j =>
     if Nat.eqb (group j) (group i) then
       match kind with
       | Strict => inb_list ws j
       | SkipDone => inb_list ws j || match nth_error l j with Some (_, ph) => is_done ph | None => true end
       | Absent => true
       end
     else true) (seq 0 (length l))) ws.

Lemma may_passb_ok kind group second ws l : may_passb kind group second ws l = true ->
  may_pass kind group (if second then Second else First) (inb_list ws) l.
Proof.
  unfold may_passb. rewrite !andb_true_iff. intros [[H0 H1] H2].
  assert (W : forall i, inb_list ws i = true -> In i ws).
  { intros i H. apply existsb_exists in H. destruct H as [j [Hj E]]. apply Nat.eqb_eq in E. subst j. exact Hj. }
  rewrite forallb_forall in H1, H2. split; [|split].
  - destruct ws as [|i ws]; [discriminate|]. destruct (nth_error l i) as [x|] eqn:E; [|discriminate].
    exists i, x. split; [exact E|]. cbn [inb_list existsb]. rewrite Nat.eqb_refl. reflexivity.
  - intros i p ph E Wi. specialize (H1 i (W i Wi)). rewrite E in H1. destruct second, ph; try discriminate; reflexivity.
  - intros i j p ph p' ph' Ei Wi Ej Eg. specialize (H2 i (W i Wi)). rewrite forallb_forall in H2.
    specialize (H2 j). rewrite Eg, Nat.eqb_refl, Ej in H2.
    assert (Hj : In j (seq 0 (length l))).
    { apply in_seq. assert (j < length l)%nat by (apply nth_error_Some; congruence). lia. }
    specialize (H2 Hj). destruct kind; [exact H2| |exact I]. apply orb_true_iff in H2.
    destruct H2 as [H2|H2]; [left; exact H2|right]. destruct ph'; try discriminate. reflexivity.
Qed.

Section Graph.
Context {T : target} (cg : cgraph T) (a : api) (kind : barrier_kind) (group : nat -> nat).

Fixpoint move (i n : nat) (s : kernel_state) : kernel_state :=
  match n with
  | O => s
  | S n =>
      match nth_error (items s) i with
      | Some (p, ph) =>
          match inext a ph (khistory s) (kflags s) with
          | Some (ph', h', f') => move i n {| items := upd (items s) i (p, ph'); khistory := h'; kflags := f' |}
          | None => s
          end
      | None => s
      end
  end.
Definition play_event (e : event) (s : kernel_state) : kernel_state :=
  match e with
  | Move i n => move i n s
  | Together second ws =>
      if may_passb kind group second ws (items s)
      then {| items := pass cg (inb_list ws) 0 (items s); khistory := khistory s; kflags := kflags s |}
      else s
  end.
Fixpoint play (es : list event) (s : kernel_state) : kernel_state :=
  match es with [] => s | e :: r => play r (play_event e s) end.

Lemma move_steps i n : forall s, kernel_steps cg a true kind group s (move i n s).
Proof.
  induction n as [|n IH]; intros s; cbn [move]; [constructor|].
  destruct (nth_error (items s) i) as [[p ph]|] eqn:E; [|constructor].
  destruct (inext a ph (khistory s) (kflags s)) as [[[ph' h'] f']|] eqn:X; [|constructor].
  econstructor; [|apply IH]. destruct s as [l h f]. cbn [items khistory kflags] in *.
  econstructor; [exact E|]. apply inext_step. exact X.
Qed.

Lemma play_steps es : forall s, kernel_steps cg a true kind group s (play es s).
Proof.
  induction es as [|e es IH]; intros s; cbn [play]; [constructor|].
  eapply kernel_steps_trans; [|apply IH]. destruct e as [i n|second ws]; cbn [play_event]; [apply move_steps|].
  destruct (may_passb kind group second ws (items s)) eqn:E; [|constructor].
  apply kernel_steps_one. destruct s as [l h f]. cbn [items khistory kflags] in *.
  apply (kernel_barrier cg a true kind group (if second then Second else First)).
  - destruct second; auto.
  - apply may_passb_ok. exact E.
Qed.

Definition all_done (s : kernel_state) : bool := forallb (fun x => is_done (snd x)) (items s).

Definition launch_by (es : list event) (m : mem) (f : flags) : kernel_state := play es (launch_start cg a m f).

Lemma launch_by_launch es m f : all_done (launch_by es m f) = true ->
  launch cg a true kind group m f (current (khistory (launch_by es m f))) (kflags (launch_by es m f)).
Proof.
  intros D. exists (launch_by es m f). split; [apply play_steps|]. split; [|split; reflexivity].
  intros p ph H. unfold all_done in D. rewrite forallb_forall in D. specialize (D _ H). cbn [snd] in D.
  destruct ph; try discriminate. reflexivity.
Qed.

(** A node to remove. *)
Definition removable (m : mem) (n : node) : bool :=
  match run (should_remove_node cg n) m with Ok (b, _) => b | Stop _ => false end.

Lemma removable_unsettled m n : match_exists (cg_graph cg) n -> removable m n = true -> ~ settled (with_avail cg m).
Proof.
  intros M R S. specialize (S n M). unfold exec in S. cbn [with_avail cg_avail] in S.
  change (should_remove_node (with_avail cg m) n) with (should_remove_node cg n) in S.
  unfold removable in R. destruct (run (should_remove_node cg n) m) as [[b m']|]; [|discriminate]. subst b.
  cbn [bind fst snd] in S. congruence.
Qed.
End Graph.

(** *** Three pixels in a row, disparities must be equal *)

Definition g58 : dgraph cpu := problem 3 1 3 [0; 0; 0] [0; 0; 0] 1 1.
Lemma g58_made : make_graph (left g58) (right g58) (levels g58) (cleanness g58) (smoothness g58) = Ok g58.
Proof. made. Qed.
Lemma g58_wf : wf_graph g58. Proof. apply wfb_ok. vm_compute. reflexivity. Qed.
Lemma g58_low : make_lowest g58 = Ok (low g58). Proof. apply low_ok. vm_compute. reflexivity. Qed.
Definition cg58 : cgraph cpu := con g58 (num 0).
Lemma cg58_made : make_constraint g58 (low g58) (num 0) = Ok cg58. Proof. apply con_ok. vm_compute. reflexivity. Qed.
Lemma cg58_wf : wf_cgraph cg58. Proof. apply (make_constraint_Ok g58 (low g58) (num 0) cg58 g58_wf g58_low cg58_made). Qed.

Definition cgb {T : target} (cg : cgraph T) : bool :=
  wfb (cg_graph cg) &&
  (len (lp_pixels (cg_lowest cg)) =? width (right (cg_graph cg)) * height (right (cg_graph cg))) &&
  (len (lp_neighborhoods (cg_lowest cg)) =? 4 * (width (right (cg_graph cg)) * height (right (cg_graph cg)))) &&
  (len (cg_avail cg) =? width (right (cg_graph cg)) * height (right (cg_graph cg)) * levels (cg_graph cg)).
Lemma cgb_ok {T : target} (cg : cgraph T) : lp_graph (cg_lowest cg) = cg_graph cg -> cgb cg = true -> wf_cgraph cg.
Proof.
  intros E. unfold cgb. rewrite !andb_true_iff, !N.eqb_eq. intros [[[A B] C] D].
  constructor; [apply wfb_ok; exact A| |exact D]. constructor; assumption.
Qed.

Definition ocl58 : cgraph opencl := opencl_problem cg58.
Definition cud58 : cgraph cuda := cuda_problem cg58.
Lemma ocl58_wf : wf_cgraph ocl58. Proof. apply cgb_ok; [reflexivity|]. vm_compute. reflexivity. Qed.
Lemma cud58_wf : wf_cgraph cud58. Proof. apply cgb_ok; [reflexivity|]. vm_compute. reflexivity. Qed.

Definition no_flags : flags := {| step_flag := false; any_flag := false |}.
Definition same_group (_ : nat) : nat := 0%nat.
Lemma same_group_one : one_group same_group. Proof. intros i j. reflexivity. Qed.
Definition two_groups (i : nat) : nat := match i with 2%nat => 1%nat | _ => 0%nat end.
Definition everyone : list nat := [0; 1; 2]%nat.

(** A launch that ends, with changes: everybody tests before somebody resets. *)
Definition one_pass : list event :=
  [Together false everyone; Move 0 500; Move 1 500; Move 2 500; Together true everyone].
Definition next_pass : list event := [Move 0 1; Move 1 1; Move 2 1; Move 0 1; Move 1 1; Move 2 1].
Definition ordinary : list event :=
  [Move 0 3; Move 1 3; Move 2 3] ++ one_pass ++ next_pass ++ one_pass ++ next_pass ++ one_pass ++ next_pass ++ one_pass ++ next_pass.

Lemma ocl58_launch : exists m' f', launch ocl58 OpenCL true Strict same_group (cg_avail ocl58) no_flags m' f' /\ m' <> cg_avail ocl58.
Proof.
  eexists _, _. split; [apply (launch_by_launch ocl58 OpenCL Strict same_group ordinary); vm_compute; reflexivity|].
  vm_compute. discriminate.
Qed.
Lemma cud58_launch : exists m' f', launch cud58 CUDA true Strict same_group (cg_avail cud58) no_flags m' f' /\ m' <> cg_avail cud58.
Proof.
  eexists _, _. split; [apply (launch_by_launch cud58 CUDA Strict same_group ordinary); vm_compute; reflexivity|].
  vm_compute. discriminate.
Qed.

(** Some work-items leave early and are not waited for. *)
Definition early : list event :=
  [Move 0 3; Move 1 3; Move 2 3; Together false everyone; Move 0 500; Move 1 500; Move 2 500; Together true everyone;
   Move 1 2; Move 0 1; Move 2 1; Together false [1%nat]; Move 1 500; Together true [1%nat]; Move 1 1].
Lemma cud58_early : exists m' f', launch cud58 CUDA true SkipDone same_group (cg_avail cud58) no_flags m' f' /\
  ~ settled (with_avail cud58 m').
Proof.
  eexists _, _. split; [apply (launch_by_launch cud58 CUDA SkipDone same_group early); vm_compute; reflexivity|].
  apply (removable_unsettled _ _ (nd 0 0 1)); [|vm_compute; reflexivity].
  split; [|split]; vm_compute; try reflexivity. split; reflexivity.
Qed.

(** The second group enters after the first one has set the flags. *)
Definition late : list event :=
  [Move 0 3; Move 1 3; Together false [0; 1]%nat; Move 0 500; Move 1 500; Move 2 3; Together true [0; 1]%nat;
   Move 0 1; Move 1 1; Together false [2%nat]; Move 2 500; Together true [2%nat]; Move 2 1].
Lemma ocl58_late : exists m' f', launch ocl58 OpenCL true Strict two_groups (cg_avail ocl58) no_flags m' f' /\
  any_flag f' = false /\ m' <> cg_avail ocl58 /\ ~ settled (with_avail ocl58 m').
Proof.
  eexists _, _. split; [apply (launch_by_launch ocl58 OpenCL Strict two_groups late); vm_compute; reflexivity|].
  split; [vm_compute; reflexivity|]. split; [vm_compute; discriminate|].
  apply (removable_unsettled _ _ (nd 0 0 1)); [|vm_compute; reflexivity].
  split; [|split]; vm_compute; try reflexivity. split; reflexivity.
Qed.
