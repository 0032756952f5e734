(** Programs over the availability array [nodes_availability].

    The functions of lib/constraint_graph.cpp and [choose_best_node] of
    lib/labeling_finder.cpp are shared by the host, OpenMP and GPU builds.  They
    are written once as programs in which every access to the availability array
    is an explicit step; [run] executes a program alone (single thread), Concur.v
    and Gpu.v interleave several of them. *)
From Verif Require Export Base.
Local Open Scope N_scope.

Inductive cmd (A : Type) : Type :=
| Ret (a : A)
| Fail (s : stop)
| Read (i : N) (k : bool -> cmd A)
| Write (i : N) (b : bool) (k : cmd A).
Arguments Ret {A} a.
Arguments Fail {A} s.
Arguments Read {A} i k.
Arguments Write {A} i b k.

Fixpoint cbind {A B} (c : cmd A) (f : A -> cmd B) : cmd B :=
  match c with
  | Ret a => f a
  | Fail s => Fail s
  | Read i k => Read i (fun b => cbind (k b) f)
  | Write i b k => Write i b (cbind k f)
  end.
Notation "x <== c ;; k" := (cbind c (fun x => k))
  (at level 61, c at next level, right associativity).

(** Computations that do not touch the availability array. *)
Definition lift {A} (o : outcome A) : cmd A :=
  match o with Ok a => Ret a | Stop s => Fail s end.

(** A loop whose body updates a state. *)
Fixpoint cloop {A S} (l : list A) (body : A -> S -> cmd S) (s : S) : cmd S :=
  match l with
  | [] => Ret s
  | a :: r => s' <== body a s ;; cloop r body s'
  end.

(** A search loop that stops at the first element satisfying the test. *)
Fixpoint cexists {A} (l : list A) (test : A -> cmd bool) : cmd bool :=
  match l with
  | [] => Ret false
  | a :: r => b <== test a ;; if b then Ret true else cexists r test
  end.

(** Execution by a single thread; an access outside the array is undefined. *)
Fixpoint run {A} (c : cmd A) (mem : list bool) : outcome (A * list bool) :=
  match c with
  | Ret a => Ok (a, mem)
  | Fail s => Stop s
  | Read i k => b <- get mem i ;; run (k b) mem
  | Write i b k => mem' <- set mem i b ;; run k mem'
  end.
