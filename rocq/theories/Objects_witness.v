(** A program with several objects. *)
From Coq Require Import String List.
Import ListNotations.
From Verif Require Import Objects_spec.
Local Open Scope N_scope.

Definition picture (v : N) : image := {| width := 1; height := 1; max_value := 9; data := [v] |}.

(** 0: a pointer; 1: an object made of it; 2: a copy of the object, which then reads. *)
Definition three : list statement :=
  [MakeShared (picture 1); Construct 0; Copy 1; Input 2 (lit "P2 1 1 9 5")].
(** 3: a pointer got from the object 1. *)
Definition four : list statement := three ++ [GetImage 1; Alter 3 (picture 7)].
Definition all_gone : list statement := [Destroy 0; Destroy 1; Destroy 2; Destroy 3].

Definition memory_after (p : list statement) : memory :=
  match executes nothing p with Ok (m, _) => m | Stop _ => nothing end.

Lemma after_arises p : match executes nothing p with Ok _ => true | Stop _ => false end = true -> arises (memory_after p).
Proof.
  unfold memory_after, arises. destruct (executes nothing p) as [[m es]|] eqn:E; [|discriminate]. intros _. exists p, es. exact E.
Qed.
Lemma three_arises : arises (memory_after three).
Proof. apply after_arises. vm_compute. reflexivity. Qed.
Lemma four_arises : arises (memory_after four).
Proof. apply after_arises. vm_compute. reflexivity. Qed.
