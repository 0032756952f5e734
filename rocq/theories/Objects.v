(** Objects of the class [PGM_IO] (include/pgm_io.hpp 64-178, lib/pgm_io.cpp 51-63) and
    the images they own through [std::shared_ptr].

    Pgm.v has the values that [operator>>] and [operator<<] read and write; this file has
    the memory: who owns which image, and when images are destroyed.  [PGM_IO] has one
    member, the [std::shared_ptr] [image], so that an object is modelled as this pointer.
    The pointers are those of libstdc++ with one thread. *)
From Verif Require Export Pgm.
Local Open Scope N_scope.

(** An image made by [std::make_shared] with the number of its owners. *)
Record cell : Type := { owners : N; content : image }.
(** All images made so far; [None] if the image was destroyed. *)
Notation cells := (list (option cell)).
(** [std::shared_ptr<Image>]: null or the number of a cell. *)
Notation shared := (option nat).

(** *** [std::shared_ptr] *)

(** Touching an image that was destroyed is undefined. *)
Definition at_cell (h : cells) (a : nat) : outcome cell :=
  match nth_error h a with Some (Some c) => Ok c | _ => Stop Undef end.
Definition set_cell (h : cells) (a : nat) (c : option cell) : cells := upd h a c.

(** One owner more. *)
Definition retain (h : cells) (p : shared) : outcome cells :=
  match p with
  | None => Ok h
  | Some a => c <- at_cell h a ;; Ok (set_cell h a (Some {| owners := owners c + 1; content := content c |}))
  end.
(** One owner less; the last one destroys the image. *)
Definition release (h : cells) (p : shared) : outcome cells :=
  match p with
  | None => Ok h
  | Some a =>
      c <- at_cell h a ;;
      Ok (set_cell h a (if owners c =? 1 then None else Some {| owners := owners c - 1; content := content c |}))
  end.

(** *** Variables of a program that uses the class *)

(** Objects and pointers, numbered together; [None] after the end of their lifetime. *)
Record memory : Type := { cells_of : cells; vars : list (option shared) }.

Definition value (m : memory) (x : nat) : outcome shared :=
  match nth_error (vars m) x with Some (Some p) => Ok p | _ => Stop Undef end.
Definition declare (m : memory) (h : cells) (p : shared) : memory :=
  {| cells_of := h; vars := vars m ++ [Some p] |}.
Definition store (m : memory) (h : cells) (x : nat) (v : option shared) : memory :=
  {| cells_of := h; vars := upd (vars m) x v |}.

(** [PGM_IO io;], include/pgm_io.hpp 128, or a null pointer. *)
Definition default_constructor (m : memory) : outcome memory := Ok (declare m (cells_of m) None).

(** [make_shared<Image>(img)]. *)
Definition make_shared (m : memory) (img : image) : outcome memory :=
  Ok (declare m (cells_of m ++ [Some {| owners := 1; content := img |}]) (Some (length (cells_of m)))).

(** [PGM_IO(const PGM_IO&) = default], include/pgm_io.hpp 132; the member is copied. *)
Definition copy_constructor (m : memory) (y : nat) : outcome memory :=
  p <- value m y ;; h <- retain (cells_of m) p ;; Ok (declare m h p).

(** [PGM_IO(PGM_IO&&) = default], include/pgm_io.hpp 136; the member is moved, which
    leaves null. *)
Definition move_constructor (m : memory) (y : nat) : outcome memory :=
  p <- value m y ;; Ok (declare (store m (cells_of m) y (Some None)) (cells_of m) p).

(** [PGM_IO(shared_ptr<Image> image) : image{move(image)}], lib/pgm_io.cpp 51-53: the
    parameter is a copy, which is moved and then destroyed. *)
Definition constructor (m : memory) (y : nat) : outcome memory :=
  p <- value m y ;;
  h <- retain (cells_of m) p ;;
  h <- release h None ;;
  Ok (declare m h p).

(** [operator=(const PGM_IO&) = default], include/pgm_io.hpp 140; [std::shared_ptr]
    takes its share of the new image before it gives up the old one. *)
Definition copy_assignment (m : memory) (x y : nat) : outcome memory :=
  q <- value m x ;;
  p <- value m y ;;
  h <- retain (cells_of m) p ;;
  h <- release h q ;;
  Ok (store m h x (Some p)).

(** [operator=(PGM_IO&&) = default], include/pgm_io.hpp 144: [std::shared_ptr] moves to
    a temporary, exchanges it with the target and destroys the temporary. *)
Definition move_assignment (m : memory) (x y : nat) : outcome memory :=
  _ <- value m x ;;
  p <- value m y ;;
  let m := store m (cells_of m) y (Some None) in
  q <- value m x ;;
  let m := store m (cells_of m) x (Some p) in
  h <- release (cells_of m) q ;;
  Ok {| cells_of := h; vars := vars m |}.

(** [set_image], lib/pgm_io.cpp 55-58. *)
Definition set_image (m : memory) (x y : nat) : outcome memory := copy_assignment m x y.

(** [get_image], lib/pgm_io.cpp 60-63: returns a copy of the pointer. *)
Definition get_image (m : memory) (y : nat) : outcome memory := copy_constructor m y.

(** [~PGM_IO() = default], include/pgm_io.hpp 156, or the end of a pointer. *)
Definition destructor (m : memory) (x : nat) : outcome memory :=
  p <- value m x ;; h <- release (cells_of m) p ;; Ok (store m h x None).

(** [*p = img], as programs may do with the pointers they get. *)
Definition alter (m : memory) (x : nat) (img : image) : outcome memory :=
  p <- value m x ;;
  match p with
  | None => Stop Undef
  | Some a =>
      c <- at_cell (cells_of m) a ;;
      Ok {| cells_of := set_cell (cells_of m) a (Some {| owners := owners c; content := img |}); vars := vars m |}
  end.

(** What is seen from outside: characters written, the state of a stream after reading,
    exceptions. *)
Inductive event : Type :=
| Silent
| Written (t : text)
| Read_to (s : istream)
| Threw (e : exn).

(** [operator>>], lib/pgm_io.cpp 146-199.  The image is made by [make_shared] (155-156)
    and owned by a local variable, which is destroyed when the function returns or
    throws; [set_image] (196) is called at the end only.  Simplified: the image is made
    also if the function returns before that (149-153). *)
Definition input (m : memory) (x : nat) (t : text) : outcome (memory * event) :=
  _ <- value m x ;;
  m1 <- make_shared m {| width := 0; height := 0; max_value := 0; data := [] |} ;;
  let local := length (vars m) in
  let leave (m : memory) :=
    m <- destructor m local ;; Ok {| cells_of := cells_of m; vars := firstn local (vars m) |} in
  match read_image (opened t) None with
  | Stop (Throw e) => m2 <- leave m1 ;; Ok (m2, Threw e)
  | Stop s => Stop s
  | Ok (s, None) => m2 <- leave m1 ;; Ok (m2, Read_to s)
  | Ok (s, Some img) =>
      m2 <- alter m1 local img ;;
      m3 <- set_image m2 x local ;;
      m4 <- leave m3 ;;
      Ok (m4, Read_to s)
  end.

(** [operator<<], lib/pgm_io.cpp 111-144: temporaries of [get_image] for the tests
    (113) and the local copy (117). *)
Definition output (m : memory) (x : nat) : outcome (memory * event) :=
  p <- value m x ;;
  match p with
  | None => Ok (m, Written [])
  | Some a =>
      h <- retain (cells_of m) p ;;
      h <- retain h p ;;
      c <- at_cell h a ;;
      v <- image_valid cpu (content c) ;;
      h <- release h p ;;
      h <- release h p ;;
      if negb v then Ok ({| cells_of := h; vars := vars m |}, Written []) else
      h <- retain h p ;;
      c <- at_cell h a ;;
      t <- write_image [] (Some (content c)) ;;
      h <- release h p ;;
      Ok ({| cells_of := h; vars := vars m |}, Written t)
  end.

(** *** Programs that use the class *)

Inductive statement : Type :=
| Declare                          (* PGM_IO x; *)
| MakeShared (img : image)         (* shared_ptr<Image> x = make_shared<Image>(img); *)
| Copy (y : nat)                   (* PGM_IO x(y); *)
| Move (y : nat)                   (* PGM_IO x(std::move(y)); *)
| Construct (y : nat)              (* PGM_IO x(y); with a pointer y *)
| Assign (x y : nat)               (* x = y; *)
| MoveAssign (x y : nat)           (* x = std::move(y); *)
| SetImage (x y : nat)             (* x.set_image(y); *)
| GetImage (y : nat)               (* shared_ptr<Image> x = y.get_image(); *)
| Alter (x : nat) (img : image)    (* *x = img; *)
| Input (x : nat) (t : text)       (* istringstream(t) >> x; *)
| Output (x : nat)                 (* ostringstream << x; *)
| Destroy (x : nat).               (* the end of the lifetime of x *)

Definition silent (m : outcome memory) : outcome (memory * event) := m <- m ;; Ok (m, Silent).

Definition execute (m : memory) (s : statement) : outcome (memory * event) :=
  match s with
  | Declare => silent (default_constructor m)
  | MakeShared img => silent (make_shared m img)
  | Copy y => silent (copy_constructor m y)
  | Move y => silent (move_constructor m y)
  | Construct y => silent (constructor m y)
  | Assign x y => silent (copy_assignment m x y)
  | MoveAssign x y => silent (move_assignment m x y)
  | SetImage x y => silent (set_image m x y)
  | GetImage y => silent (get_image m y)
  | Alter x img => silent (alter m x img)
  | Input x t => input m x t
  | Output x => output m x
  | Destroy x => silent (destructor m x)
  end.

Fixpoint executes (m : memory) (p : list statement) : outcome (memory * list event) :=
  match p with
  | [] => Ok (m, [])
  | s :: p =>
      r <- execute m s ;;
      r' <- executes (fst r) p ;;
      Ok (fst r', snd r :: snd r')
  end.

Definition nothing : memory := {| cells_of := []; vars := [] |}.
