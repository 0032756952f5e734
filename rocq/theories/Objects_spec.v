(** What programs that use [PGM_IO] objects and pointers to images may rely on: images
    are never destroyed, owners need not be counted; copies share the image, reading
    makes a new one. *)
From Verif Require Export Objects.
Local Open Scope N_scope.

(** All images ever made, and which of them every variable stands for ([Some None]:
    none; [None]: the variable is gone). *)
Record ideal : Type := { images : list image; stands : list (option (option nat)) }.

Definition stands_for (w : ideal) (x : nat) (p : option nat) : Prop := nth_error (stands w) x = Some (Some p).

(** The same images and variables except that [x] stands for [p], or is gone. *)
Definition variable_set (w w' : ideal) (x : nat) (v : option (option nat)) : Prop :=
  images w' = images w /\ length (stands w') = length (stands w) /\
  nth_error (stands w') x = Some v /\ forall y, y <> x -> nth_error (stands w') y = nth_error (stands w) y.
(** A new variable. *)
Definition variable_made (w w' : ideal) (v : option nat) : Prop :=
  images w' = images w /\ stands w' = stands w ++ [Some v].
(** A new image. *)
Definition image_made (w w' : ideal) (img : image) : Prop :=
  images w' = images w ++ [img] /\ stands w' = stands w.
(** Another content of the image number [a]. *)
Definition image_set (w w' : ideal) (a : nat) (img : image) : Prop :=
  stands w' = stands w /\ length (images w') = length (images w) /\
  nth_error (images w') a = Some img /\ forall b, b <> a -> nth_error (images w') b = nth_error (images w) b.

(** A read that fails leaves behind an image for which no variable stands. *)
Inductive means : ideal -> statement -> ideal -> event -> Prop :=
| means_declare w w' : variable_made w w' None -> means w Declare w' Silent
| means_make w w1 w' img :
    image_made w w1 img -> variable_made w1 w' (Some (length (images w))) -> means w (MakeShared img) w' Silent
| means_copy w w' y p s :
    s = Copy y \/ s = Construct y \/ s = GetImage y ->
    stands_for w y p -> variable_made w w' p -> means w s w' Silent
| means_move w w1 w' y p :
    stands_for w y p -> variable_set w w1 y (Some None) -> variable_made w1 w' p -> means w (Move y) w' Silent
| means_assign w w' x y p q s :
    s = Assign x y \/ s = SetImage x y ->
    stands_for w x q -> stands_for w y p -> variable_set w w' x (Some p) -> means w s w' Silent
| means_move_assign w w1 w' x y p q :
    stands_for w x q -> stands_for w y p -> variable_set w w1 y (Some None) -> variable_set w1 w' x (Some p) ->
    means w (MoveAssign x y) w' Silent
| means_alter w w' x a img :
    stands_for w x (Some a) -> image_set w w' a img -> means w (Alter x img) w' Silent
| means_destroy w w' x p : stands_for w x p -> variable_set w w' x None -> means w (Destroy x) w' Silent
| means_read w w1 w' x q t s img :
    stands_for w x q -> read_image (opened t) None = Ok (s, Some img) ->
    image_made w w1 img -> variable_set w1 w' x (Some (Some (length (images w)))) ->
    means w (Input x t) w' (Read_to s)
| means_fail w w' x q t s img :
    stands_for w x q -> read_image (opened t) None = Ok (s, None) -> image_made w w' img ->
    means w (Input x t) w' (Read_to s)
| means_throw w w' x q t e img :
    stands_for w x q -> read_image (opened t) None = Stop (Throw e) -> image_made w w' img ->
    means w (Input x t) w' (Threw e)
| means_empty w x : stands_for w x None -> means w (Output x) w (Written [])
| means_write w x a img t :
    stands_for w x (Some a) -> nth_error (images w) a = Some img -> write_image [] (Some img) = Ok t ->
    means w (Output x) w (Written t).

Inductive meaning : ideal -> list statement -> ideal -> list event -> Prop :=
| meaning_none w : meaning w [] w []
| meaning_more w s w1 e p w' es : means w s w1 e -> meaning w1 p w' es -> meaning w (s :: p) w' (e :: es).

Definition no_ideal : ideal := {| images := []; stands := [] |}.

(** The image that a variable gives access to. *)
Definition seen (m : memory) (x : nat) : option image :=
  match nth_error (vars m) x with
  | Some (Some (Some a)) => match nth_error (cells_of m) a with Some (Some c) => Some (content c) | _ => None end
  | _ => None
  end.
(** Two variables own the same image. *)
Definition together (m : memory) (x y : nat) : Prop :=
  exists a, nth_error (vars m) x = Some (Some (Some a)) /\ nth_error (vars m) y = Some (Some (Some a)).
(** The number of variables that own the image number [a]. *)
Definition holders (m : memory) (a : nat) : N :=
  len (filter (fun v => match v with Some (Some b) => Nat.eqb b a | _ => false end) (vars m)).
(** Images exist as long as they are owned. *)
Definition accounted (m : memory) : Prop :=
  forall a, match nth_error (cells_of m) a with
            | Some (Some c) => owners c = holders m a /\ 1 <= holders m a
            | _ => holders m a = 0
            end.

(** A variable during its lifetime. *)
Definition live (m : memory) (x : nat) : Prop := exists p, nth_error (vars m) x = Some (Some p).
(** The variables that a statement uses. *)
Definition uses (s : statement) : list nat :=
  match s with
  | Declare | MakeShared _ => []
  | Copy y | Move y | Construct y | GetImage y => [y]
  | Assign x y | MoveAssign x y | SetImage x y => [x; y]
  | Alter x _ | Input x _ | Output x | Destroy x => [x]
  end.
(** Memories that programs come to. *)
Definition arises (m : memory) : Prop := exists p es, executes nothing p = Ok (m, es).
