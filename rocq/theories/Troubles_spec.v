(** Vocabulary for runs in which everything may fail. *)
From Verif Require Export Troubles Memory_builds_spec Broken_spec Disk_spec.
Local Open Scope N_scope.

(** One of the images is to be read from a file that breaks. *)
Definition broken_input (w : fragile_world) (p : parsed) : Prop :=
  exists o path, p = Parsed o /\ (o_left o = Some path \/ o_right o = Some path) /\ broken_at w path.

(** Only the first characters of the file are there. *)
Definition cut_fate (room : text -> N) (e : fate) : fate :=
  match e with Ends x => Ends (cut_file room x) | e => e end.
