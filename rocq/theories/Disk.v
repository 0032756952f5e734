(** Output files that take only some of the characters: [operator<<] of lib/pgm_io.cpp
    and [main] of lib/main.cpp with output streams that may fail. *)
From Coq Require Import String.
From Verif Require Export MainGpu.
Local Open Scope N_scope.

(** An output stream: the characters that have arrived in the file and [badbit].  A
    [std::ofstream] may notice late that the file takes no more; what has been
    inserted in between is lost in any case. *)
Record ostream : Type := { sent : text; badbit : bool }.
Definition fresh : ostream := {| sent := []; badbit := false |}.

(** [out << t] for a file that takes [room] characters; nothing is inserted into a
    stream that is not good. *)
Definition put_text (room : N) (t : text) (o : ostream) : ostream :=
  if badbit o then o else
  if len (sent o) + len t <=? room then {| sent := sent o ++ t; badbit := false |}
  else {| sent := sent o ++ firstn (N.to_nat (room - len (sent o))) t; badbit := true |}.

(** [operator<<], lib/pgm_io.cpp 111-144; no state of the stream is tested. *)
Definition write_to (room : N) (o : ostream) (io : option image) : outcome ostream :=
  match io with
  | None => Ok o
  | Some img =>
      v <- image_valid cpu img ;;
      if negb v then Ok o else
      let o := put_text room [newline] (put_text room FORMAT_CODE o) in
      let o := put_text room [newline] (put_text room (digits (height img))
                 (put_text room [blank] (put_text room (digits (width img)) o))) in
      let o := put_text room [newline] (put_text room (digits (max_value img)) o) in
      loop (range 0 (height img))
        (fun y o =>
           o <- loop (range 0 (width img))
             (fun x o =>
                v <- get (data img) (pixel_index cpu img {| px := x; py := y |}) ;;
                let o := put_text room (digits v) o in
                Ok (if (x =? 0) || negb ((x + 1) mod MAX_NUMBERS_PER_ROW =? 0)
                    then if x + 1 <? width img then put_text room [blank] o else o
                    else if x + 1 <? width img then put_text room [newline] o else o)) o ;;
           Ok (put_text room [newline] o)) o
  end.

(** The output file and the handlers, lib/main.cpp 240-254.  The destructor of
    [image_file] closes the file without a test. *)
Definition finishes_disk (w : world) (room : text -> N) (out : text) (x : outcome image) : outcome effects :=
  match
    img <- x ;;
    if writable w out
    then o <- write_to (room out) fresh (Some img) ;; Ok (Some (out, sent o))
    else Ok None
  with
  | Stop (Throw e) =>
      Ok (ends 0 (Some (if is_invalid_argument e then InvalidArgumentError e
                        else LogicError e)) None)
  | Stop e => Stop e
  | Ok f => Ok (ends 0 None f)
  end.

(** [main], lib/main.cpp 33-279. *)
Definition main_disk (b : build) (v : behaviour) (srt : list (F cpu) -> list (F cpu))
  (w : world) (room : text -> N) (p : parsed) (e : outcome effects) : Prop :=
  match p with
  | Repeated => e = Ok (ends 1 (Some UsageError) None)
  | Rejected => e = Ok (ends 1 (Some UnexpectedException) None)
  | Parsed o =>
      match o_output o, o_left o, o_right o with
      | Some out, Some l, Some r =>
          match chosen b (o_parallel o) with
          | Stop (Throw _) => e = Ok (ends 1 (Some UnexpectedException) None)
          | Stop x => e = Stop x
          | Ok pa => exists x, map_with pa v srt w o l r x /\ e = finishes_disk w room out x
          end
      | _, _, _ =>
          if (count (o_left o) =? 0) || (count (o_right o) =? 0)
          then e = Ok (ends 0 (Some NoImages) None)
          else if count (o_output o) =? 0 then e = Ok (ends 0 (Some NoOutput) None)
          else e = Ok (ends 1 (Some Help) None)
      end
  end.
