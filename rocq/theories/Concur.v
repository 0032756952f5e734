(** Several threads working on one availability array.

    Not a function of the code: this file fixes how the jobs of the
    [#pragma omp parallel for] of lib/constraint_graph.cpp 364-371 (and the work
    items of the GPU kernels, Gpu.v) may interleave.

    - [std::vector<bool>] packs the elements into words; changing an element loads
      its word and stores the word with one bit changed later.  Two threads may
      thus lose each other's updates of different elements.  [wb] is the number of
      elements in a word: 64 for [std::vector<bool>] of libstdc++, 1 for the [int]
      arrays of the GPU builds.
    - With [sc = true] a load returns the current contents of the array
      (sequential consistency, words are accessed atomically).  With [sc = false]
      a load may return any contents the array had since the threads were started.
      In C++ such races are formally undefined behaviour; the model assumes that
      loads and stores of words are the machine's. *)
From Verif Require Export Constraint.
Local Open Scope N_scope.

Notation mem := (list bool).
Definition elem (m : mem) (i : N) : bool := nth (N.to_nat i) m false.

(** A thread that runs a program, or has loaded the word [w] and is about to store
    it with element [i] changed to [b]. *)
Inductive thread (A : Type) : Type :=
| Run (c : cmd A)
| Store (i : N) (b : bool) (w : mem) (c : cmd A).
Arguments Run {A} c.
Arguments Store {A} i b w c.

(** The contents after storing the word of element [i]; the other elements of the
    word become those loaded before. *)
Definition store_word (wb i : N) (b : bool) (w m : mem) : mem :=
  map (fun j => if j / wb =? i / wb then if j =? i then b else elem w j else elem m j)
    (range 0 (len m)).

(** Contents of the array since the start, the current ones first. *)
Definition current (h : list mem) : mem := hd [] h.
Definition loads (sc : bool) (h : list mem) (w : mem) : Prop :=
  if sc then w = current h else In w h.

Inductive tstep {A} (sc : bool) (wb : N) : thread A -> list mem -> thread A -> list mem -> Prop :=
| step_read i k h w b :
    loads sc h w -> get w i = Ok b -> tstep sc wb (Run (Read i k)) h (Run (k b)) h
| step_load i b k h w :
    loads sc h w -> i < len (current h) ->
    tstep sc wb (Run (Write i b k)) h (Store i b w k) h
| step_store i b w k h :
    tstep sc wb (Store i b w k) h (Run k) (store_word wb i b w (current h) :: h).

(** A thread that cannot go on: an exception, an endless loop or an access outside
    the array. *)
Definition faulty {A} (m : mem) (t : thread A) : Prop :=
  match t with
  | Run (Fail _) => True
  | Run (Read i _) | Run (Write i _ _) => len m <= i
  | _ => False
  end.

(** Any thread may make the next step. *)
Record pool (A : Type) : Type := { threads : list (thread A); history : list mem }.
Arguments threads {A}. Arguments history {A}.

Inductive pstep {A} (sc : bool) (wb : N) : pool A -> pool A -> Prop :=
| pool_step n ts t t' h h' :
    nth_error ts n = Some t -> tstep sc wb t h t' h' ->
    pstep sc wb {| threads := ts; history := h |} {| threads := upd ts n t'; history := h' |}.

Inductive psteps {A} (sc : bool) (wb : N) : nat -> pool A -> pool A -> Prop :=
| psteps_none s : psteps sc wb 0 s s
| psteps_more n s s' s'' : pstep sc wb s s' -> psteps sc wb n s' s'' -> psteps sc wb (S n) s s''.

Section Graph.
Context {T : target}.
Implicit Type cg : cgraph T.

(** The start of one round of [solve_csp], lib/constraint_graph.cpp 364-371: the
    [bound] iterations of the loop are distributed over threads in an arbitrary
    way, here each is a thread of its own.  [jobs] is the value of THREADS_NUMBER
    in the body of the loop; whether the bound is evaluated inside or outside the
    inner parallel region is left to the compiler, so it may be different. *)
Definition round_start cg (bound jobs : N) (m : mem) : pool bool :=
  {| threads := map (fun i => Run (csp_solution_iteration cg jobs i)) (range 0 bound);
     history := [m] |}.

(** The end of a round: the results of the jobs are combined by [||]. *)
Definition round_end (s : pool bool) (changed : bool) (m : mem) : Prop :=
  exists rs, threads s = map (fun r => Run (Ret r)) rs /\ changed = existsb (fun r => r) rs /\
    m = current (history s).

Definition round cg sc wb bound jobs (m : mem) (changed : bool) (m' : mem) : Prop :=
  exists n s, psteps sc wb n (round_start cg bound jobs m) s /\ round_end s changed m'.

(** [n] rounds of the loop [while (changed)], all but the last with changes. *)
Inductive rounds cg sc wb bound jobs : nat -> mem -> mem -> Prop :=
| rounds_last m m' : round cg sc wb bound jobs m false m' -> rounds cg sc wb bound jobs 1 m m'
| rounds_more n m m1 m' : round cg sc wb bound jobs m true m1 ->
    rounds cg sc wb bound jobs n m1 m' -> rounds cg sc wb bound jobs (S n) m m'.

(** [solve_csp] with OpenMP, lib/constraint_graph.cpp 356-374. *)
Definition solves cg sc wb bound jobs (b : bool) (cg' : cgraph T) : Prop :=
  exists n m, rounds cg sc wb bound jobs n (cg_avail cg) m /\ cg' = with_avail cg m /\
    run (check_nodes_left cg) m = Ok (b, m).

(** A state reached during [solve_csp]. *)
Inductive reached cg sc wb bound jobs : mem -> pool bool -> Prop :=
| reached_round m n s : psteps sc wb n (round_start cg bound jobs m) s -> reached cg sc wb bound jobs m s
| reached_next m m' s : round cg sc wb bound jobs m true m' -> reached cg sc wb bound jobs m' s ->
    reached cg sc wb bound jobs m s.
End Graph.
