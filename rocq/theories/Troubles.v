(** The application (lib/main.cpp) when everything may fail at once: memory is scarce
    (Memory.v, Memory_builds.v), input files may break while they are read (Broken.v),
    and output files may take only some of the characters (Disk.v). *)
From Coq Require Import String.
From Verif Require Export Memory_builds Broken Disk.
Local Open Scope N_scope.

(** *** Reading, lib/pgm_io.cpp *)
Section Reading.
Context (brk : bool).

(** [in >> str], see [extract_scarce] of Memory.v and [extract_from] of Broken.v. *)
Definition extract_troubled (str : text) (s : istream) (r : result (text * istream)) : Prop :=
  r = Gets (Ok (extract_from brk str s)) \/
  exists k x, good s = true /\ sso < len (word (skip_space (rest s))) /\
    r = Gets (Ok (firstn k (word (skip_space (rest s))), {| rest := x; eofbit := false; failbit := true |})).

(** The loop of [read_pgm_instruction] and what follows it, lib/pgm_io.cpp 73-86. *)
Fixpoint skip_comments_troubled (fuel : nat) (current_input : text) (s : istream)
  : result (text * istream) -> Prop :=
  match fuel with
  | O => sure (Stop Diverge)
  | S f =>
      if good s && starts_comment current_input then
        let s := ignore_line_from brk s in
        if failbit s then sure (Ok ([], s)) else
        x <+ extract_troubled current_input s ;;
        skip_comments_troubled f (fst x) (snd x)
      else if starts_comment current_input then sure (Ok ([], s))
      else sure (Ok (current_input, s))
  end.

(** [PGM_IO::read_pgm_instruction], lib/pgm_io.cpp 65-87. *)
Definition read_pgm_instruction_troubled (s : istream) : result (text * istream) -> Prop :=
  if failbit s then sure (Ok ([], s)) else
  x <+ extract_troubled [] s ;;
  skip_comments_troubled (S (length (rest s))) (fst x) (snd x).

(** [try { v = stoul(read_pgm_instruction(in)); } catch (invalid_argument&) …] *)
Definition read_number_troubled (s : istream) : result (option N * istream) -> Prop :=
  r <+ read_pgm_instruction_troubled s ;;
  may (match stoul (fst r) with
       | Ok v => Ok (Some v, snd r)
       | Stop (Throw StoulInvalid) => Ok (None, set_fail (snd r))
       | Stop e => Stop e
       end).

(** The loops of [operator>>], lib/pgm_io.cpp 177-192. *)
Fixpoint read_pixels_troubled (img : image) (ps : list pixel) (s : istream)
  : result (option image * istream) -> Prop :=
  match ps with
  | [] => sure (Ok (Some img, s))
  | p :: r =>
      v <+ read_number_troubled s ;;
      match fst v with
      | None => sure (Ok (None, snd v))
      | Some x =>
          d <+ sure (set (data img) (pixel_index cpu img p) x) ;;
          read_pixels_troubled (with_data img d) r (snd v)
      end
  end.

(** [operator>>], lib/pgm_io.cpp 146-199. *)
Definition read_image_troubled (s : istream) (io : pgm_io) : result (istream * pgm_io) -> Prop :=
  r <+ read_pgm_instruction_troubled s ;;
  if negb (if list_eq_dec ascii_dec (fst r) FORMAT_CODE then true else false)
  then sure (Ok (set_fail (snd r), io)) else
  _ <+ may (Ok tt) ;; (* make_shared *)
  w <+ read_number_troubled (snd r) ;;
  match fst w with
  | None => sure (Ok (snd w, io))
  | Some wd =>
  h <+ read_number_troubled (snd w) ;;
  match fst h with
  | None => sure (Ok (snd h, io))
  | Some ht =>
  m <+ read_number_troubled (snd h) ;;
  match fst m with
  | None => sure (Ok (snd m, io))
  | Some mx =>
  if MAX_VALUE_LIMIT <? mx then sure (Ok (set_fail (snd m), io)) else
  dat <+ may (alloc (umul cpu wd ht) 0) ;;
  let img := {| width := wd; height := ht; max_value := mx; data := dat |} in
  d <+ read_pixels_troubled img (row_order img) (snd m) ;;
  match fst d with
  | None => sure (Ok (snd d, io))
  | Some img => s' <+ sure (check_file_end_from brk (snd d)) ;; sure (Ok (s', Some img))
  end
  end end end.
End Reading.

(** *** The application *)

(** [read_image], lib/main.cpp 281-309. *)
Definition read_troubled (w : fragile_world) (path : text) : result image -> Prop :=
  match fragile_files w path with
  | None => may (Stop (Throw CannotOpen))
  | Some c =>
      _ <+ may (Ok tt) ;;
      r <+ read_image_troubled (match c with Whole _ => false | Breaks _ => true end) (opened (readable c)) None ;;
      may (if failbit (fst r) then Stop (Throw NotPgm) else
           match snd r with
           | None => Stop (Throw NotRead)
           | Some img => Ok img
           end)
  end.

(** The images and the numbers of the options, lib/main.cpp 132-162. *)
Definition problem_troubled (w : fragile_world) (o : options) (left_path right_path : text)
  : result (image * image * N * N * N) -> Prop :=
  l <+ read_troubled w left_path ;;
  r <+ read_troubled w right_path ;;
  lev <+ may (number_or (width l) (o_levels o)) ;;
  c <+ may (number_or 1 (o_cleanness o)) ;;
  s <+ may (number_or 1 (o_smoothness o)) ;;
  sure (Ok (l, r, lev, c, s)).

(** The output file and the handlers, lib/main.cpp 240-254. *)
Definition finishes_troubled (w : fragile_world) (room : text -> N) (out : text) (x : outcome image) : fate :=
  Ends
    match
      img <- x ;;
      if fragile_writable w out
      then o <- write_to (room out) fresh (Some img) ;; Ok (Some (out, sent o))
      else Ok None
    with
    | Stop (Throw e) =>
        Ok (ends 0 (Some (if is_invalid_argument e then InvalidArgumentError e
                          else LogicError e)) None)
    | Stop e => Stop e
    | Ok f => Ok (ends 0 None f)
    end.
Definition output_troubled (w : fragile_world) (room : text -> N) (out : text) (img : image) (e : fate) : Prop :=
  if fragile_writable w out
  then e = no_memory (Some (out, [])) \/ e = finishes_troubled w room out (Ok img)
  else e = finishes_troubled w room out (Ok img).

(** [main], lib/main.cpp 33-279, with the choice of the technology (85-130) and the
    solution of the problem (163-239) left open; compare [main_scarce_by]. *)
Definition main_troubled_by {A} (choose : option text -> outcome A)
  (solves : A -> image -> image -> N -> F cpu -> F cpu -> conclusion -> Prop)
  (w : fragile_world) (room : text -> N) (p : parsed) (e : fate) : Prop :=
  e = no_memory None \/ (* the parser *)
  match p with
  | Repeated => e = Ends (Ok (ends 1 (Some UsageError) None)) \/ e = Aborts
  | Rejected => e = Ends (Ok (ends 1 (Some UnexpectedException) None)) \/ e = Aborts
  | Parsed o =>
      match o_output o, o_left o, o_right o with
      | Some out, Some l, Some r =>
          match choose (o_parallel o) with
          | Stop (Throw _) => e = Ends (Ok (ends 1 (Some UnexpectedException) None))
          | Stop x => e = Ends (Stop x)
          | Ok pa =>
              exists x, problem_troubled w o l r x /\
                match x with
                | NoMemory => e = no_memory None
                | Gets (Stop x) => e = finishes_troubled w room out (Stop x)
                | Gets (Ok (l, r, lev, c, s)) =>
                    e = no_memory None \/
                    exists y, solves pa l r lev (of_u c) (of_u s) y /\
                      match y with
                      | Quits e' => e = e'
                      | Maps (Stop x) => e = finishes_troubled w room out (Stop x)
                      | Maps (Ok img) => output_troubled w room out img e
                      end
                end
          end
      | _, _, _ =>
          if (count (o_left o) =? 0) || (count (o_right o) =? 0)
          then e = Ends (Ok (ends 0 (Some NoImages) None))
          else if count (o_output o) =? 0 then e = Ends (Ok (ends 0 (Some NoOutput) None))
          else e = Ends (Ok (ends 1 (Some Help) None))
      end
  end.

(** Built with OpenCL, CUDA, both or none, and with OpenMP. *)
Definition main_troubled_with (k : conditions) (b : build) (v : behaviour) (srt : list (F cpu) -> list (F cpu)) :=
  main_troubled_by (chosen b) (solves_failing k v srt).
Definition main_troubled_omp (v : team) (srt : list (F cpu) -> list (F cpu)) :=
  main_troubled_by check_parallel (solves_team v srt).
