(** What the claims about failing libraries say. *)
From Coq Require Import String.
From Verif Require Export Main_spec MainFail.
Local Open Scope N_scope.

(** How a run ends whose technology failed. *)
Definition failed (k : conditions) (a : api) (e : fate) : Prop :=
  match a with
  | OpenCL => e = Ends (Ok (ends 1 (Some UnexpectedException) None))
  | CUDA =>
      e = Exits \/ (ndebug k = false /\ e = Aborts) \/
      (ndebug k = true /\ e = Ends (Ok (ends 0 (Some (LogicError NoLabel)) None)))
  end.

(** The process returns the status 0. *)
Definition returns_zero (e : fate) : Prop :=
  match e with Ends (Ok x) => status x = 0 | Exits => True | _ => False end.

(** The file the process leaves. *)
Definition leaves_file (e : fate) : option (text * text) :=
  match e with Ends (Ok x) => written_file x | _ => None end.

(** The device takes a kernel with one thread for every pixel of the image. *)
Definition room_for (k : conditions) (i : image) : Prop :=
  width i <= max_blocks k /\ height i <= max_threads k.
