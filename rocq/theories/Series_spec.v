(** Runs of the application one after another. *)
From Verif Require Export Args_spec.
Local Open Scope N_scope.

(** The files after a run.  Paths name the same file only if they are equal. *)
Definition world_after (w : world) (e : effects) : world :=
  match written_file e with
  | None => w
  | Some (path, t) =>
      {| files := fun q => if list_eq_dec ascii_dec q path then Some t else files w q;
         writable := writable w |}
  end.

(** Runs one after another: their effects and the files at the end. *)
Fixpoint run_series (srt : list (F cpu) -> list (F cpu)) (w : world) (runs : list (list text))
  : outcome (list effects * world) :=
  match runs with
  | [] => Ok ([], w)
  | args :: rest =>
      e <- run_application srt w args ;;
      x <- run_series srt (world_after w e) rest ;;
      Ok (e :: fst x, snd x)
  end.

(** The paths a command line names. *)
Definition reads_from (args : list text) (q : text) : Prop :=
  exists s, gives args s /\ (In (ForLeft, q) s \/ In (ForRight, q) s).
Definition writes_to (args : list text) (q : text) : Prop :=
  exists s, gives args s /\ In (ForOutput, q) s.

Definition same_files (w w' : world) : Prop :=
  (forall q, files w q = files w' q) /\ forall q, writable w q = writable w' q.
