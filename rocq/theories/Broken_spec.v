(** Vocabulary for files that cannot be read to their ends. *)
From Verif Require Export Broken Main_spec.
Local Open Scope N_scope.

(** The files as they are for somebody who can read them, and for whom the broken
    ones do not exist. *)
Definition sound_part (w : fragile_world) : world := {|
  files := fun path => match fragile_files w path with Some (Whole t) => Some t | _ => None end;
  writable := fragile_writable w
|}.
Definition usable_fragile (w : fragile_world) : Prop :=
  forall path c, fragile_files w path = Some c -> usable (readable c).

(** The file breaks. *)
Definition broken_at (w : fragile_world) (path : text) : Prop := exists t, fragile_files w path = Some (Breaks t).
