(** Property C126: objects of the class [PGM_IO] and the images they share. *)
From Coq Require Import String List.
Import ListNotations.
From Verif Require Import Objects_proofs Objects_witness Objects_spec.
Local Open Scope N_scope.

(** Every program does what it would do if images were never destroyed ... *)
Theorem C126_as_if p m es :
  executes nothing p = Ok (m, es) ->
  exists w, meaning no_ideal p w es /\ vars m = stands w /\
    forall x, seen m x = match nth_error (stands w) x with Some (Some (Some a)) => nth_error (images w) a | _ => None end.
Proof. exact (as_if p m es). Qed.
Print Assumptions C126_as_if.

(** ... and everything it would do. *)
Theorem C126_as_ideal p w es : meaning no_ideal p w es -> exists m, executes nothing p = Ok (m, es).
Proof. exact (as_ideal p w es). Qed.
Print Assumptions C126_as_ideal.

Example C126_as_if_hypotheses :
  exists m es, executes nothing (four ++ [Output 0; Output 1; Output 2]) = Ok (m, es) /\
    nth_error es 6 = Some (Written (lit "P2" ++ [newline] ++ lit "1 1" ++ [newline] ++ lit "9" ++ [newline] ++ lit "7" ++ [newline])) /\
    nth_error es 8 = Some (Written (lit "P2" ++ [newline] ++ lit "1 1" ++ [newline] ++ lit "9" ++ [newline] ++ lit "5" ++ [newline])).
Proof. eexists _, _. split; [vm_compute; reflexivity|]. split; reflexivity. Qed.

(** Images exist exactly as long as variables own them, and the owners are counted. *)
Theorem C126_owners m : arises m -> accounted m.
Proof. exact (always_accounted m). Qed.
Print Assumptions C126_owners.

Theorem C126_no_leak m a :
  arises m -> (forall x b, nth_error (vars m) x <> Some (Some (Some b))) ->
  nth_error (cells_of m) a = None \/ nth_error (cells_of m) a = Some None.
Proof. exact (no_leak m a). Qed.
Print Assumptions C126_no_leak.

Example C126_owners_hypotheses :
  arises (memory_after four) /\ holders (memory_after four) 0 = 3 /\ holders (memory_after four) 1 = 1.
Proof. split; [exact four_arises|]. split; vm_compute; reflexivity. Qed.
Example C126_no_leak_hypotheses :
  let m := memory_after (four ++ all_gone) in
  arises m /\ (forall x b, nth_error (vars m) x <> Some (Some (Some b))) /\ length (cells_of m) = 2%nat.
Proof.
  split; [apply after_arises; vm_compute; reflexivity|]. split; [|vm_compute; reflexivity]. vm_compute.
  intros [|[|[|[|[|x]]]]] b; discriminate.
Qed.

(** No statement touches an image that is gone, as long as programs use variables only
    during their lifetime and do not change images through null. *)
Theorem C126_no_dangling m s :
  arises m -> Forall (live m) (uses s) ->
  match s with Alter x _ => seen m x <> None | _ => True end ->
  match execute m s with
  | Ok _ => True
  | Stop o => match s with
              | Input _ t => read_image (opened t) None = Stop o
              | Output x => exists img, seen m x = Some img /\ write_image [] (Some img) = Stop o
              | _ => False
              end
  end.
Proof. exact (no_dangling m s). Qed.
Print Assumptions C126_no_dangling.

Example C126_no_dangling_hypotheses :
  arises (memory_after three) /\ Forall (live (memory_after three)) (uses (Assign 0 2)) /\
  seen (memory_after three) 0 <> None.
Proof.
  split; [exact three_arises|]. split; [|vm_compute; discriminate].
  repeat constructor; eexists; vm_compute; reflexivity.
Qed.

(** Reading gives the object an image of its own; the images of all other variables stay
    the same.  If nothing is read, or an exception is thrown, all stay the same. *)
Theorem C126_reading m x t m' e :
  arises m -> execute m (Input x t) = Ok (m', e) ->
  match read_image (opened t) None with
  | Ok (s, Some img) =>
      e = Read_to s /\ seen m' x = Some img /\
      forall y, y <> x -> ~ together m' x y /\ seen m' y = seen m y /\ (live m' y <-> live m y)
  | Ok (s, None) => e = Read_to s /\ vars m' = vars m /\ forall y, seen m' y = seen m y
  | Stop (Throw ex) => e = Threw ex /\ vars m' = vars m /\ forall y, seen m' y = seen m y
  | Stop _ => False
  end.
Proof. exact (reading m x t m' e). Qed.
Print Assumptions C126_reading.

(** This is the reading of values as in Pgm.v. *)
Theorem C126_reading_value m x t m' e :
  arises m -> execute m (Input x t) = Ok (m', e) ->
  match e with
  | Read_to s => read_image (opened t) (seen m x) = Ok (s, seen m' x)
  | Threw ex => read_image (opened t) (seen m x) = Stop (Throw ex) /\ seen m' x = seen m x
  | _ => False
  end.
Proof. exact (reading_value m x t m' e). Qed.
Print Assumptions C126_reading_value.

Example C126_reading_hypotheses :
  arises (memory_after four) /\ together (memory_after four) 1 0 /\
  exists m' s, execute (memory_after four) (Input 1 (lit "P2 1 1 9 3")) = Ok (m', Read_to s) /\
    seen m' 0 = Some (picture 7) /\ seen m' 1 = Some (picture 3).
Proof.
  split; [exact four_arises|]. split; [eexists; split; vm_compute; reflexivity|].
  eexists _, _. split; [vm_compute; reflexivity|]. split; vm_compute; reflexivity.
Qed.
Example C126_failed_hypotheses :
  (exists m' s, execute (memory_after four) (Input 1 (lit "P3 1 1 9 3")) = Ok (m', Read_to s)) /\
  exists m', execute (memory_after four) (Input 1 (lit "P2 99999999999999999999 1 9 3")) = Ok (m', Threw StoulRange).
Proof. split; eexists; [eexists|]; vm_compute; reflexivity. Qed.

(** Writing changes nothing. *)
Theorem C126_writing m x m' e :
  arises m -> execute m (Output x) = Ok (m', e) ->
  m' = m /\
  match seen m x with
  | Some img => exists t, write_image [] (Some img) = Ok t /\ e = Written t
  | None => e = Written []
  end.
Proof. exact (writing m x m' e). Qed.
Print Assumptions C126_writing.

(** A change is seen by all who share the image and nobody else. *)
Theorem C126_altering m x img m' e :
  arises m -> execute m (Alter x img) = Ok (m', e) ->
  e = Silent /\ vars m' = vars m /\
  forall y, (together m x y -> seen m' y = Some img) /\ (~ together m x y -> seen m' y = seen m y).
Proof. exact (altering m x img m' e). Qed.
Print Assumptions C126_altering.

Example C126_altering_hypotheses :
  arises (memory_after four) /\
  (exists m' e, execute (memory_after four) (Output 1) = Ok (m', e)) /\
  (exists m' e, execute (memory_after four) (Alter 1 (picture 2)) = Ok (m', e)) /\
  together (memory_after four) 1 3 /\ ~ together (memory_after four) 1 2.
Proof.
  split; [exact four_arises|]. split; [eexists _, _; vm_compute; reflexivity|].
  split; [eexists _, _; vm_compute; reflexivity|].
  split; [eexists; split; vm_compute; reflexivity|]. vm_compute. intros [a [E E']]. congruence.
Qed.

(** Assignments and [set_image], also of a variable to itself. *)
Theorem C126_assigning m x y s m' e :
  arises m -> s = Assign x y \/ s = SetImage x y -> execute m s = Ok (m', e) ->
  e = Silent /\ nth_error (vars m') x = nth_error (vars m) y /\
  (forall z, z <> x -> nth_error (vars m') z = nth_error (vars m) z) /\
  seen m' x = seen m y /\ forall z, z <> x -> seen m' z = seen m z.
Proof. exact (assigning m x y s m' e). Qed.
Print Assumptions C126_assigning.

(** Moves leave the source empty, except those of a variable to itself. *)
Theorem C126_moving m x y m' e :
  arises m -> execute m (MoveAssign x y) = Ok (m', e) ->
  e = Silent /\ nth_error (vars m') x = nth_error (vars m) y /\ (x <> y -> nth_error (vars m') y = Some (Some None)) /\
  (forall z, z <> x -> z <> y -> nth_error (vars m') z = nth_error (vars m) z) /\
  seen m' x = seen m y /\ forall z, z <> x -> z <> y -> seen m' z = seen m z.
Proof. exact (moving m x y m' e). Qed.
Print Assumptions C126_moving.

(** New variables. *)
Theorem C126_making m s m' e :
  arises m -> execute m s = Ok (m', e) ->
  match s with
  | Declare => seen m' (length (vars m)) = None
  | MakeShared img => seen m' (length (vars m)) = Some img /\ forall y, y <> length (vars m) -> ~ together m' (length (vars m)) y
  | Copy y | Construct y | GetImage y =>
      nth_error (vars m') (length (vars m)) = nth_error (vars m) y /\ seen m' (length (vars m)) = seen m y
  | Move y => nth_error (vars m') (length (vars m)) = nth_error (vars m) y /\ seen m' (length (vars m)) = seen m y /\
      nth_error (vars m') y = Some (Some None)
  | _ => True
  end /\
  match s with
  | Declare | MakeShared _ | Copy _ | Construct _ | GetImage _ | Move _ =>
      e = Silent /\ length (vars m') = S (length (vars m)) /\
      forall z, (z < length (vars m))%nat -> s <> Move z -> nth_error (vars m') z = nth_error (vars m) z /\ seen m' z = seen m z
  | _ => True
  end.
Proof. exact (making m s m' e). Qed.
Print Assumptions C126_making.

(** The end of a variable does not touch the others. *)
Theorem C126_destroying m x m' e :
  arises m -> execute m (Destroy x) = Ok (m', e) ->
  nth_error (vars m') x = Some None /\
  forall z, z <> x -> nth_error (vars m') z = nth_error (vars m) z /\ seen m' z = seen m z.
Proof. exact (destroying m x m' e). Qed.
Print Assumptions C126_destroying.

Example C126_assigning_hypotheses :
  arises (memory_after four) /\
  (exists m' e, execute (memory_after four) (Assign 1 2) = Ok (m', e)) /\
  (exists m' e, execute (memory_after four) (SetImage 1 1) = Ok (m', e)) /\
  (exists m' e, execute (memory_after four) (MoveAssign 2 1) = Ok (m', e)) /\
  (exists m' e, execute (memory_after four) (MoveAssign 2 2) = Ok (m', e)) /\
  (exists m' e, execute (memory_after four) (Move 2) = Ok (m', e)) /\
  (exists m' e, execute (memory_after four) (Destroy 2) = Ok (m', e)).
Proof. split; [exact four_arises|]. repeat split; eexists _, _; vm_compute; reflexivity. Qed.
