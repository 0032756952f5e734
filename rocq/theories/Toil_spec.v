(** How much the threads of the OpenMP build work.  A step of a thread is an access to
    the availability array: a read is one, a change of an element is two (Concur.v). *)
From Verif Require Export Concur.
Local Open Scope N_scope.

(** An execution together with the numbers of the threads that make the steps. *)
Inductive turns {A} (sc : bool) (wb : N) : list nat -> pool A -> pool A -> Prop :=
| turns_none s : turns sc wb [] s s
| turns_more i tr ts t t' h h' s :
    nth_error ts i = Some t -> tstep sc wb t h t' h' ->
    turns sc wb tr {| threads := upd ts i t'; history := h' |} s ->
    turns sc wb (i :: tr) {| threads := ts; history := h |} s.

(** The steps of one thread. *)
Definition turns_of (i : nat) (tr : list nat) : N := len (filter (Nat.eqb i) tr).

(** All rounds of a call of [solve_csp], with the number of steps of all threads. *)
Inductive toil {T : target} (cg : cgraph T) sc wb bound jobs : nat -> mem -> mem -> Prop :=
| toil_last n m s m' :
    psteps sc wb n (round_start cg bound jobs m) s -> round_end s false m' ->
    toil cg sc wb bound jobs n m m'
| toil_more n k m s m1 m' :
    psteps sc wb n (round_start cg bound jobs m) s -> round_end s true m1 ->
    toil cg sc wb bound jobs k m1 m' -> toil cg sc wb bound jobs (n + k) m m'.
