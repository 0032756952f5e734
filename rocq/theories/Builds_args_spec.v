(** What the claims about command lines of different builds say. *)
From Verif Require Export Builds_spec Console_omp_spec.
Local Open Scope N_scope.

(** The technologies of a build. *)
Definition build_of (x : variant) : build :=
  match x with Devices b _ => b | Team _ => no_devices end.
Definition built_in (x : variant) (t : text) : Prop := exists pa, asks_for (build_of x) (Some t) pa.
