(** Common vocabulary of the model: outcomes, checked arrays, counting loops.

    Nothing in this file models a function of the code; it fixes how C++
    control flow is represented. *)
From Coq Require Export List NArith ZArith Bool.
Export ListNotations.
Global Open Scope N_scope.

(** ** Outcomes *)

(** Exceptions thrown by the code (kinds, not texts).
    - [InvalidArgument k]: [std::invalid_argument] number [k] of
      lib/disparity_graph.cpp 77-168 (the numbers are fixed in Disparity.v);
    - [StoulInvalid], [StoulRange]: thrown by [std::stoul];
    - [LengthError]: [std::vector::resize] beyond [max_size];
    - [TwoLabels], [NoLabel]: lib/labeling_finder.cpp 412-418 and 428-434;
    - [CannotSolve], [CannotLabel]: lib/main.cpp 190-194 and 228-232;
    - [CannotOpen], [NotPgm], [NotRead]: lib/main.cpp 286-306;
    - [BadParallel]: lib/main.cpp 126-128. *)
Inductive exn : Type :=
| InvalidArgument (k : N)
| StoulInvalid
| StoulRange
| LengthError
| TwoLabels
| NoLabel
| CannotSolve
| CannotLabel
| CannotOpen
| NotPgm
| NotRead
| BadParallel.

(** A computation that does not return a value was stopped by an exception, by
    undefined behaviour or runs forever. *)
Inductive stop : Type :=
| Throw (e : exn)
| Undef
| Diverge.

Inductive outcome (A : Type) : Type :=
| Ok (a : A)
| Stop (s : stop).
Arguments Ok {A} a.
Arguments Stop {A} s.

Definition bind {A B} (m : outcome A) (f : A -> outcome B) : outcome B :=
  match m with Ok a => f a | Stop s => Stop s end.
Notation "x <- m ;; k" := (bind m (fun x => k))
  (at level 61, m at next level, right associativity).

(** ** Arrays: [a[i]] outside the array is undefined behaviour *)

Definition len {A} (l : list A) : N := N.of_nat (length l).

Definition get {A} (l : list A) (i : N) : outcome A :=
  if i <? len l
  then match nth_error l (N.to_nat i) with Some v => Ok v | None => Stop Undef end
  else Stop Undef.

Fixpoint upd {A} (l : list A) (i : nat) (v : A) : list A :=
  match l, i with
  | [], _ => []
  | _ :: r, O => v :: r
  | x :: r, S j => x :: upd r j v
  end.

Definition set {A} (l : list A) (i : N) (v : A) : outcome (list A) :=
  if i <? len l then Ok (upd l (N.to_nat i) v) else Stop Undef.

(** [n] copies of [v]: a vector of size [n] filled with [v] *)
Definition fill {A} (n : N) (v : A) : list A := repeat v (N.to_nat n).

(** ** Loops *)

Fixpoint seqN (n : nat) (from : N) : list N :=
  match n with O => [] | S m => from :: seqN m (N.succ from) end.

(** The values of [i] in [for (i = lo; i < hi; ++i)]. *)
Definition range (lo hi : N) : list N := seqN (N.to_nat (hi - lo)) lo.

Fixpoint take_while {A} (f : A -> bool) (l : list A) : list A :=
  match l with
  | [] => []
  | x :: r => if f x then x :: take_while f r else []
  end.

(** The values of [i] in [for (i = lo; c(i) && i < hi; ++i)]. *)
Definition range_while (c : N -> bool) (lo hi : N) : list N :=
  take_while c (range lo hi).

(** A loop whose body updates a state. *)
Fixpoint loop {A S} (l : list A) (body : A -> S -> outcome S) (s : S) : outcome S :=
  match l with
  | [] => Ok s
  | a :: r => s' <- body a s ;; loop r body s'
  end.
