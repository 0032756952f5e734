(** The application (lib/main.cpp) with files that cannot be read to their ends.  In
    MainProg.v, MainGpu.v and MainOmp.v every file that can be opened can be read. *)
From Coq Require Import String.
From Verif Require Export MainGpu MainOmp.
Local Open Scope N_scope.

(** What reading a file gives: its characters, then the end of the file or an error
    of the operating system.  Directories can be opened and give an error at once.
    The file buffer of libstdc++ throws then, and the stream sets [badbit]. *)
Inductive contents : Type := Whole (t : text) | Breaks (t : text).
Definition readable (c : contents) : text := match c with Whole t | Breaks t => t end.

(** The state of a stream that has got all characters and needs more: [eofbit], and
    [failbit] if nothing was extracted; or [badbit], which [fail()] reports as well. *)
Definition at_end (brk failed : bool) : istream :=
  if brk then {| rest := []; eofbit := false; failbit := true |}
  else {| rest := []; eofbit := true; failbit := failed |}.

Section Broken.
Context (brk : bool).

(** [in >> str], see [extract] in Pgm.v: to see the end of a word, the character after
    it is needed. *)
Definition extract_from (str : text) (s : istream) : text * istream :=
  if negb (good s) then (str, set_fail s) else
  match skip_space (rest s) with
  | [] => (str, at_end brk true)
  | l => (word l, if is_empty (after_word l) then at_end brk false
                  else {| rest := after_word l; eofbit := false; failbit := false |})
  end.

(** [in.ignore(max, '\n')] *)
Definition ignore_line_from (s : istream) : istream :=
  if negb (good s) then set_fail s else
  match after_line (rest s) with
  | Some r => {| rest := r; eofbit := false; failbit := false |}
  | None => at_end brk false
  end.

(** [in.get(c)]; [c] keeps its value at the end of the file and after errors. *)
Definition get_char_from (c : option ascii) (s : istream) : option ascii * istream :=
  if negb (good s) then (c, set_fail s) else
  match rest s with
  | [] => (c, at_end brk true)
  | x :: r => (Some x, {| rest := r; eofbit := false; failbit := false |})
  end.

(** The loop of [read_pgm_instruction] and what follows it, lib/pgm_io.cpp 73-86. *)
Fixpoint skip_comments_from (fuel : nat) (current_input : text) (s : istream) : outcome (text * istream) :=
  match fuel with
  | O => Stop Diverge
  | S f =>
      if good s && starts_comment current_input then
        let s := ignore_line_from s in
        if failbit s then Ok ([], s) else
        let '(current_input, s) := extract_from current_input s in
        skip_comments_from f current_input s
      else if starts_comment current_input then Ok ([], s)
      else Ok (current_input, s)
  end.

(** [PGM_IO::read_pgm_instruction], lib/pgm_io.cpp 65-87. *)
Definition read_pgm_instruction_from (s : istream) : outcome (text * istream) :=
  if failbit s then Ok ([], s) else
  let '(current_input, s') := extract_from [] s in
  skip_comments_from (S (length (rest s))) current_input s'.

(** The loop of [check_file_end], lib/pgm_io.cpp 92-103. *)
Fixpoint check_loop_from (fuel : nat) (c : option ascii) (s : istream) : outcome istream :=
  match fuel with
  | O => Stop Diverge
  | S f =>
      if good s && negb (eofbit s) then
        let '(c, s) := get_char_from c s in
        match c with
        | None => Stop Undef
        | Some x =>
            if Ascii.eqb x hash then check_loop_from f c (ignore_line_from s) else
            b <- isspace x ;;
            check_loop_from f c (if b then s else set_fail s)
        end
      else Ok s
  end.

(** [PGM_IO::check_file_end], lib/pgm_io.cpp 89-109. *)
Definition check_file_end_from (s : istream) : outcome istream :=
  s' <- check_loop_from (S (S (length (rest s)))) None s ;;
  Ok (if eofbit s' then {| rest := rest s'; eofbit := true; failbit := false |} else s').

(** [try { v = stoul(read_pgm_instruction(in)); } catch (invalid_argument&) …] *)
Definition read_number_from (s : istream) : outcome (option N * istream) :=
  r <- read_pgm_instruction_from s ;;
  match stoul (fst r) with
  | Ok v => Ok (Some v, snd r)
  | Stop (Throw StoulInvalid) => Ok (None, set_fail (snd r))
  | Stop e => Stop e
  end.

(** The loops of [operator>>], lib/pgm_io.cpp 177-192. *)
Fixpoint read_pixels_from (img : image) (ps : list pixel) (s : istream) : outcome (option image * istream) :=
  match ps with
  | [] => Ok (Some img, s)
  | p :: r =>
      v <- read_number_from s ;;
      match fst v with
      | None => Ok (None, snd v)
      | Some x => d <- set (data img) (pixel_index cpu img p) x ;;
                  read_pixels_from (with_data img d) r (snd v)
      end
  end.

(** [operator>>], lib/pgm_io.cpp 146-199. *)
Definition read_image_from (s : istream) (io : pgm_io) : outcome (istream * pgm_io) :=
  r <- read_pgm_instruction_from s ;;
  if negb (if list_eq_dec ascii_dec (fst r) FORMAT_CODE then true else false)
  then Ok (set_fail (snd r), io) else
  w <- read_number_from (snd r) ;;
  match fst w with
  | None => Ok (snd w, io)
  | Some wd =>
  h <- read_number_from (snd w) ;;
  match fst h with
  | None => Ok (snd h, io)
  | Some ht =>
  m <- read_number_from (snd h) ;;
  match fst m with
  | None => Ok (snd m, io)
  | Some mx =>
  if MAX_VALUE_LIMIT <? mx then Ok (set_fail (snd m), io) else
  dat <- alloc (umul cpu wd ht) 0 ;;
  let img := {| width := wd; height := ht; max_value := mx; data := dat |} in
  d <- read_pixels_from img (row_order img) (snd m) ;;
  match fst d with
  | None => Ok (snd d, io)
  | Some img => s' <- check_file_end_from (snd d) ;; Ok (s', Some img)
  end
  end end end.
End Broken.

(** *** The application *)

(** As [world] in MainProg.v. *)
Record fragile_world : Type := {
  fragile_files : text -> option contents;
  fragile_writable : text -> bool
}.

(** [read_image], lib/main.cpp 281-309. *)
Definition read_fragile (w : fragile_world) (path : text) : outcome image :=
  match fragile_files w path with
  | None => Stop (Throw CannotOpen)
  | Some c =>
      r <- read_image_from (match c with Whole _ => false | Breaks _ => true end) (opened (readable c)) None ;;
      if failbit (fst r) then Stop (Throw NotPgm) else
      match snd r with
      | None => Stop (Throw NotRead)
      | Some img => Ok img
      end
  end.

(** *** Without OpenCL and CUDA, run by one thread *)

(** The [try] block, lib/main.cpp 131-243, up to the opening of the output file. *)
Definition disparity_map_fragile (srt : list (F cpu) -> list (F cpu)) (w : fragile_world)
  (o : options) (left_path right_path : text) : outcome image :=
  l <- read_fragile w left_path ;;
  r <- read_fragile w right_path ;;
  lev <- number_or (width l) (o_levels o) ;;
  c <- number_or 1 (o_cleanness o) ;;
  s <- number_or 1 (o_smoothness o) ;;
  solve_problem srt l r lev (of_u c) (of_u s).

(** [main], lib/main.cpp 33-279. *)
Definition main_fragile (srt : list (F cpu) -> list (F cpu)) (w : fragile_world) (p : parsed) : outcome effects :=
  match p with
  | Repeated => Ok (ends 1 (Some UsageError) None)
  | Rejected => Ok (ends 1 (Some UnexpectedException) None)
  | Parsed o =>
      match o_output o, o_left o, o_right o with
      | Some out, Some l, Some r =>
          match check_parallel (o_parallel o) with
          | Stop (Throw _) => Ok (ends 1 (Some UnexpectedException) None)
          | Stop e => Stop e
          | Ok _ =>
              match
                img <- disparity_map_fragile srt w o l r ;;
                if fragile_writable w out
                then t <- write_image [] (Some img) ;; Ok (Some (out, t))
                else Ok None
              with
              | Stop (Throw e) =>
                  Ok (ends 0 (Some (if is_invalid_argument e then InvalidArgumentError e
                                    else LogicError e)) None)
              | Stop e => Stop e
              | Ok f => Ok (ends 0 None f)
              end
          end
      | _, _, _ =>
          if (count (o_left o) =? 0) || (count (o_right o) =? 0)
          then Ok (ends 0 (Some NoImages) None)
          else if count (o_output o) =? 0 then Ok (ends 0 (Some NoOutput) None)
          else Ok (ends 1 (Some Help) None)
      end
  end.

(** *** The other builds *)

(** The images and the numbers of the options, lib/main.cpp 132-162. *)
Definition problem_fragile (w : fragile_world) (o : options) (left_path right_path : text)
  : outcome (image * image * N * N * N) :=
  l <- read_fragile w left_path ;;
  r <- read_fragile w right_path ;;
  lev <- number_or (width l) (o_levels o) ;;
  c <- number_or 1 (o_cleanness o) ;;
  s <- number_or 1 (o_smoothness o) ;;
  Ok (l, r, lev, c, s).

(** The output file and the handlers, lib/main.cpp 240-254. *)
Definition finishes_fragile (w : fragile_world) (out : text) (x : outcome image) : outcome effects :=
  match
    img <- x ;;
    if fragile_writable w out
    then t <- write_image [] (Some img) ;; Ok (Some (out, t))
    else Ok None
  with
  | Stop (Throw e) =>
      Ok (ends 0 (Some (if is_invalid_argument e then InvalidArgumentError e
                        else LogicError e)) None)
  | Stop e => Stop e
  | Ok f => Ok (ends 0 None f)
  end.

(** [main], lib/main.cpp 33-279, with the choice of the technology (85-130) and the
    solution of the problem (163-239) left open. *)
Definition main_fragile_by {A} (choose : option text -> outcome A)
  (solves : A -> image -> image -> N -> F cpu -> F cpu -> outcome image -> Prop)
  (w : fragile_world) (p : parsed) (e : outcome effects) : Prop :=
  match p with
  | Repeated => e = Ok (ends 1 (Some UsageError) None)
  | Rejected => e = Ok (ends 1 (Some UnexpectedException) None)
  | Parsed o =>
      match o_output o, o_left o, o_right o with
      | Some out, Some l, Some r =>
          match choose (o_parallel o) with
          | Stop (Throw _) => e = Ok (ends 1 (Some UnexpectedException) None)
          | Stop x => e = Stop x
          | Ok pa =>
              exists x, match problem_fragile w o l r with
                        | Stop z => x = Stop z
                        | Ok (l, r, lev, c, s) => solves pa l r lev (of_u c) (of_u s) x
                        end /\ e = finishes_fragile w out x
          end
      | _, _, _ =>
          if (count (o_left o) =? 0) || (count (o_right o) =? 0)
          then e = Ok (ends 0 (Some NoImages) None)
          else if count (o_output o) =? 0 then e = Ok (ends 0 (Some NoOutput) None)
          else e = Ok (ends 1 (Some Help) None)
      end
  end.
(** Built with OpenCL, CUDA or both, and with OpenMP. *)
Definition main_fragile_with (b : build) (v : behaviour) (srt : list (F cpu) -> list (F cpu)) :=
  main_fragile_by (chosen b) (fun pa => solves_with pa v srt).
Definition main_fragile_omp (v : team) (srt : list (F cpu) -> list (F cpu)) :=
  main_fragile_by check_parallel (fun _ => solve_problem_omp v srt).
