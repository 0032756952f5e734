(** Vocabulary for the properties of the GPU builds. *)
From Verif Require Export MainGpu Spec.
Local Open Scope N_scope.

(** All work-items are in the same group. *)
Definition one_group (group : nat -> nat) : Prop := forall i j, group i = group j.

Section Graph.
Context {T : target}.
Implicit Type cg : cgraph T.

(** The set consists of available matches; each has a match in the set for every
    neighboring pixel such that the ordering constraint holds and the penalty of the
    edge is within the threshold. *)
Definition arc_consistent cg (K : node -> Prop) : Prop :=
  forall n, K n -> match_exists (cg_graph cg) n /\ available cg n /\
    forall q, in_image (cg_graph cg) q -> adjacent (npix n) q ->
      exists n', npix n' = q /\ K n' /\ match_pair (cg_graph cg) {| enode := n; enbr := n' |} /\
        edge_within (cg_graph cg) (cg_lowest cg) (cg_threshold cg) {| enode := n; enbr := n' |}.

(** No match is to be removed. *)
Definition settled cg : Prop :=
  forall n, match_exists (cg_graph cg) n -> exec (fun cg => should_remove_node cg n) cg = Ok (false, cg).

(** Some work-item has left the kernel while another one of its group waits. *)
Definition diverged (group : nat -> nat) (s : kernel_state) : Prop :=
  exists i j p q ph, nth_error (items s) i = Some (p, Done) /\ nth_error (items s) j = Some (q, ph) /\
    group i = group j /\ (ph = First \/ ph = Second).
End Graph.

(** With one group that waits for all of its work-items, some execution of the launch
    gets to a point from which it cannot finish. *)
Definition may_hang {T : target} (cg : cgraph T) (a : api) : Prop :=
  forall group f, one_group group -> exists s,
    kernel_steps cg a true Strict group (launch_start cg a (cg_avail cg) f) s /\ diverged group s /\
    forall sc s', kernel_steps cg a sc Strict group s s' -> ~ finished s'.

(** The arrays of the device can be addressed. *)
Definition addressable (a : api) (r : image) (lev : N) : Prop :=
  width r * height r * 4 * lev < match a with OpenCL => 2 ^ 64 | CUDA => 2 ^ 32 end.

(** Executions with a number of steps. *)
Inductive kernel_path {T : target} (cg : cgraph T) a sc kind group : nat -> kernel_state -> kernel_state -> Prop :=
| path_none s : kernel_path cg a sc kind group 0 s s
| path_more n s s' s'' : kernel_step cg a sc kind group s s' -> kernel_path cg a sc kind group n s' s'' ->
    kernel_path cg a sc kind group (S n) s s''.

(** A device that runs the kernels the way they were written for: it is sequentially
    consistent, all work items share their barriers, and a barrier lets no item pass
    before all others arrive.  For OpenCL, which repeats launches, items that have
    returned need not arrive. *)
Definition orderly (a : api) (v : behaviour) : Prop :=
  b_sc v = true /\ (forall group, b_partition v group -> one_group group) /\
  match a with OpenCL => b_kind v <> Absent | CUDA => b_kind v = Strict end.

(** Options that differ in the technology, and in asking for help, only. *)
Definition same_request (o o' : options) : Prop :=
  o_output o' = o_output o /\ o_left o' = o_left o /\ o_right o' = o_right o /\
  o_levels o' = o_levels o /\ o_cleanness o' = o_cleanness o /\ o_smoothness o' = o_smoothness o.
