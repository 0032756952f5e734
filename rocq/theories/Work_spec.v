(** How much a program works: the number of times the availability array is read or
    written when one thread executes it.  Between two accesses the programs of the
    solver compute at most two penalties. *)
From Verif Require Export Spec.
Local Open Scope N_scope.

Fixpoint accesses {A} (c : cmd A) (m : list bool) : N :=
  match c with
  | Ret _ | Fail _ => 0
  | Read i k => 1 + match get m i with Ok b => accesses (k b) m | Stop _ => 0 end
  | Write i b k => 1 + match set m i b with Ok m' => accesses k m' | Stop _ => 0 end
  end.
