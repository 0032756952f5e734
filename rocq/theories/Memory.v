(** The application (lib/main.cpp), built without OpenCL and CUDA and run by one
    thread, when memory is scarce: [operator new] may throw [std::bad_alloc] whenever
    it is called.  MainProg.v is about runs with enough memory. *)
From Coq Require Import String.
From Verif Require Export MainFail.
Local Open Scope N_scope.

(** What a statement does: what it does with enough memory or something like it, or
    [std::bad_alloc] leaves it. *)
Inductive result (A : Type) : Type := Gets (x : outcome A) | NoMemory.
Arguments Gets {A} x.
Arguments NoMemory {A}.

(** Statements that allocate nothing, and those that may. *)
Definition sure {A} (x : outcome A) (r : result A) : Prop := r = Gets x.
Definition may {A} (x : outcome A) (r : result A) : Prop := r = Gets x \/ r = NoMemory.
Definition chain {A B} (x : result A -> Prop) (f : A -> result B -> Prop) (r : result B) : Prop :=
  (exists a, x (Gets (Ok a)) /\ f a r) \/ (exists e, x (Gets (Stop e)) /\ r = Gets (Stop e)) \/
  (x NoMemory /\ r = NoMemory).
Notation "x <+ e ;; k" := (chain e (fun x => k)) (at level 60, e at next level, right associativity).

(** *** Reading, lib/pgm_io.cpp *)

(** The characters that [std::string] of libstdc++ holds without allocating. *)
Definition sso : N := 15.

(** [in >> str]: [std::bad_alloc] does not leave the operator; it keeps the characters
    appended so far and sets [badbit], which [fail()] reports as well.  What is left
    in the stream does not matter any more. *)
Definition extract_scarce (str : text) (s : istream) (r : result (text * istream)) : Prop :=
  r = Gets (Ok (extract str s)) \/
  exists k x, good s = true /\ sso < len (word (skip_space (rest s))) /\
    r = Gets (Ok (firstn k (word (skip_space (rest s))), {| rest := x; eofbit := false; failbit := true |})).

(** The loop of [read_pgm_instruction] and what follows it, lib/pgm_io.cpp 73-86. *)
Fixpoint skip_comments_scarce (fuel : nat) (current_input : text) (s : istream)
  : result (text * istream) -> Prop :=
  match fuel with
  | O => sure (Stop Diverge)
  | S f =>
      if good s && starts_comment current_input then
        let s := ignore_line s in
        if failbit s then sure (Ok ([], s)) else
        x <+ extract_scarce current_input s ;;
        skip_comments_scarce f (fst x) (snd x)
      else if starts_comment current_input then sure (Ok ([], s))
      else sure (Ok (current_input, s))
  end.

(** [PGM_IO::read_pgm_instruction], lib/pgm_io.cpp 65-87. *)
Definition read_pgm_instruction_scarce (s : istream) : result (text * istream) -> Prop :=
  if failbit s then sure (Ok ([], s)) else
  x <+ extract_scarce [] s ;;
  skip_comments_scarce (S (length (rest s))) (fst x) (snd x).

(** [try { v = stoul(read_pgm_instruction(in)); } catch (invalid_argument&) …]; the
    exceptions that [stoul] throws are allocated. *)
Definition read_number_scarce (s : istream) : result (option N * istream) -> Prop :=
  r <+ read_pgm_instruction_scarce s ;;
  may (match stoul (fst r) with
       | Ok v => Ok (Some v, snd r)
       | Stop (Throw StoulInvalid) => Ok (None, set_fail (snd r))
       | Stop e => Stop e
       end).

(** The loops of [operator>>], lib/pgm_io.cpp 177-192. *)
Fixpoint read_pixels_scarce (img : image) (ps : list pixel) (s : istream)
  : result (option image * istream) -> Prop :=
  match ps with
  | [] => sure (Ok (Some img, s))
  | p :: r =>
      v <+ read_number_scarce s ;;
      match fst v with
      | None => sure (Ok (None, snd v))
      | Some x =>
          d <+ sure (set (data img) (pixel_index cpu img p) x) ;;
          read_pixels_scarce (with_data img d) r (snd v)
      end
  end.

(** [operator>>], lib/pgm_io.cpp 146-199. *)
Definition read_image_scarce (s : istream) (io : pgm_io) : result (istream * pgm_io) -> Prop :=
  r <+ read_pgm_instruction_scarce s ;;
  if negb (if list_eq_dec ascii_dec (fst r) FORMAT_CODE then true else false)
  then sure (Ok (set_fail (snd r), io)) else
  _ <+ may (Ok tt) ;; (* make_shared *)
  w <+ read_number_scarce (snd r) ;;
  match fst w with
  | None => sure (Ok (snd w, io))
  | Some wd =>
  h <+ read_number_scarce (snd w) ;;
  match fst h with
  | None => sure (Ok (snd h, io))
  | Some ht =>
  m <+ read_number_scarce (snd h) ;;
  match fst m with
  | None => sure (Ok (snd m, io))
  | Some mx =>
  if MAX_VALUE_LIMIT <? mx then sure (Ok (set_fail (snd m), io)) else
  dat <+ may (alloc (umul cpu wd ht) 0) ;;
  let img := {| width := wd; height := ht; max_value := mx; data := dat |} in
  d <+ read_pixels_scarce img (row_order img) (snd m) ;;
  match fst d with
  | None => sure (Ok (snd d, io))
  | Some img => s' <+ sure (check_file_end (snd d)) ;; sure (Ok (s', Some img))
  end
  end end end.

(** [read_image], lib/main.cpp 281-309: the buffer of the stream, the texts of the
    exceptions and the copy of the image are allocated. *)
Definition read_file_scarce (w : world) (path : text) : result image -> Prop :=
  match files w path with
  | None => may (Stop (Throw CannotOpen))
  | Some t =>
      _ <+ may (Ok tt) ;;
      r <+ read_image_scarce (opened t) None ;;
      may (if failbit (fst r) then Stop (Throw NotPgm) else
           match snd r with
           | None => Stop (Throw NotRead)
           | Some img => Ok img
           end)
  end.

(** *** The problem *)

(** The [try] block, lib/main.cpp 131-239.  The solution is one step, as nothing of it
    can be seen from outside before it ends. *)
Definition disparity_map_scarce (srt : list (F cpu) -> list (F cpu)) (w : world)
  (o : options) (left_path right_path : text) : result image -> Prop :=
  l <+ read_file_scarce w left_path ;;
  r <+ read_file_scarce w right_path ;;
  lev <+ may (number_or (width l) (o_levels o)) ;;
  c <+ may (number_or 1 (o_cleanness o)) ;;
  s <+ may (number_or 1 (o_smoothness o)) ;;
  may (solve_problem srt l r lev (of_u c) (of_u s)).

(** *** The program *)

(** What the process ends with if [std::bad_alloc] reaches the end of [main],
    lib/main.cpp 272-275.  The file is the one opened before, if any. *)
Definition no_memory (f : option (text * text)) : fate :=
  Ends (Ok (ends 1 (Some UnexpectedException) f)).

(** The opening of the output file and what is written, lib/main.cpp 240-242.  The
    constructor of [std::ofstream] opens the file, which empties it, and allocates a
    buffer afterwards.  Writing allocates nothing. *)
Definition output_scarce (w : world) (out : text) (img : image) (e : fate) : Prop :=
  if writable w out
  then e = no_memory (Some (out, [])) \/ e = Ends (finishes w out (Ok img))
  else e = Ends (finishes w out (Ok img)).

(** [main], lib/main.cpp 33-279.  [what()] of the exceptions of Boost.Program_options
    composes the message, and must not throw: [std::terminate] is called. *)
Definition main_scarce (srt : list (F cpu) -> list (F cpu)) (w : world) (p : parsed) (e : fate) : Prop :=
  e = no_memory None \/ (* the parser *)
  match p with
  | Repeated => e = Ends (Ok (ends 1 (Some UsageError) None)) \/ e = Aborts
  | Rejected => e = Ends (Ok (ends 1 (Some UnexpectedException) None)) \/ e = Aborts
  | Parsed o =>
      match o_output o, o_left o, o_right o with
      | Some out, Some l, Some r =>
          match check_parallel (o_parallel o) with
          | Stop (Throw _) => e = Ends (Ok (ends 1 (Some UnexpectedException) None))
          | Stop x => e = Ends (Stop x)
          | Ok _ =>
              exists x, disparity_map_scarce srt w o l r x /\
                match x with
                | NoMemory => e = no_memory None
                | Gets (Ok img) => output_scarce w out img e
                | Gets (Stop x) => e = Ends (finishes w out (Stop x))
                end
          end
      | _, _, _ =>
          if (count (o_left o) =? 0) || (count (o_right o) =? 0)
          then e = Ends (Ok (ends 0 (Some NoImages) None))
          else if count (o_output o) =? 0 then e = Ends (Ok (ends 0 (Some NoOutput) None))
          else e = Ends (Ok (ends 1 (Some Help) None))
      end
  end.
