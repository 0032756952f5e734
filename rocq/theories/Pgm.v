(** Plain PGM files (lib/pgm_io.cpp).

    Streams are modelled by the characters still to be read and the state bits
    [eofbit] and [failbit]; [badbit] (errors of the operating system) is
    modelled in Broken.v.  The behaviour of the library functions is that of libstdc++ with
    the "C" locale. *)
From Coq Require Export Ascii.
From Coq Require Import String.
From Verif Require Export Disparity.
Local Open Scope N_scope.

Notation text := (list ascii).
Definition lit (s : string) : text := list_ascii_of_string s.
Definition code (c : ascii) : N := N_of_ascii c.

Notation newline := (ascii_of_N 10) (only parsing).
Notation blank := (ascii_of_N 32) (only parsing).
Notation hash := (ascii_of_N 35) (only parsing).

(** White space of the "C" locale: \t \n \v \f \r and the space. *)
Definition is_space (c : ascii) : bool :=
  (code c =? 32) || ((9 <=? code c) && (code c <=? 13)).
Definition is_digit (c : ascii) : bool := (48 <=? code c) && (code c <=? 57).

(** *** Input streams *)

Record istream : Type := { rest : text; eofbit : bool; failbit : bool }.
Definition good (s : istream) : bool := negb (eofbit s) && negb (failbit s).
(** [in.setstate(failbit)] *)
Definition set_fail (s : istream) : istream :=
  {| rest := rest s; eofbit := eofbit s; failbit := true |}.
(** A stream just opened. *)
Definition opened (t : text) : istream := {| rest := t; eofbit := false; failbit := false |}.

Fixpoint skip_space (l : text) : text :=
  match l with [] => [] | c :: r => if is_space c then skip_space r else l end.
Fixpoint word (l : text) : text :=
  match l with [] => [] | c :: r => if is_space c then [] else c :: word r end.
Fixpoint after_word (l : text) : text :=
  match l with [] => [] | c :: r => if is_space c then l else after_word r end.
Definition is_empty (l : text) : bool := match l with [] => true | _ => false end.

(** [in >> str]: the new contents of [str] and of the stream.  If the stream is not
    good or has only white space left, [str] is not modified. *)
Definition extract (str : text) (s : istream) : text * istream :=
  if negb (good s) then (str, set_fail s) else
  match skip_space (rest s) with
  | [] => (str, {| rest := []; eofbit := true; failbit := true |})
  | l => (word l, {| rest := after_word l; eofbit := is_empty (after_word l); failbit := false |})
  end.

(** [in.ignore(max, '\n')] *)
Fixpoint after_line (l : text) : option text :=
  match l with [] => None | c :: r => if Ascii.eqb c newline then Some r else after_line r end.
Definition ignore_line (s : istream) : istream :=
  if negb (good s) then set_fail s else
  match after_line (rest s) with
  | Some r => {| rest := r; eofbit := false; failbit := false |}
  | None => {| rest := []; eofbit := true; failbit := false |}
  end.

(** [in.get(c)]; [c] keeps its value at the end of the file. *)
Definition get_char (c : option ascii) (s : istream) : option ascii * istream :=
  if negb (good s) then (c, set_fail s) else
  match rest s with
  | [] => (c, {| rest := []; eofbit := true; failbit := true |})
  | x :: r => (Some x, {| rest := r; eofbit := false; failbit := false |})
  end.

(** [isspace(c)] for a signed [char]: the argument has to be representable as an
    [unsigned char] or equal to EOF (-1). *)
Definition isspace (c : ascii) : outcome bool :=
  if (128 <=? code c) && (code c <=? 254) then Stop Undef else Ok (is_space c).

(** *** Numbers *)

Fixpoint decimal (acc : N) (l : text) : N :=
  match l with [] => acc | c :: r => decimal (acc * 10 + (code c - 48)) r end.

(** [std::stoul]: optional white space, optional sign, digits; the rest is
    ignored.  A negated value wraps.  Values of 2^64 and more are out of range. *)
Definition stoul (l : text) : outcome N :=
  let l := skip_space l in
  let neg := match l with c :: _ => code c =? 45 | [] => false end in
  let l := match l with c :: r => if (code c =? 45) || (code c =? 43) then r else l | [] => [] end in
  let ds := take_while is_digit l in
  if is_empty ds then Stop (Throw StoulInvalid) else
  let v := decimal 0 ds in
  if 2 ^ 64 <=? v then Stop (Throw StoulRange) else
  Ok (if neg then (2 ^ 64 - v) mod 2 ^ 64 else v).

(** *** Reading *)

(** MAX_VALUE_LIMIT, include/pgm_io.hpp 90. *)
Definition MAX_VALUE_LIMIT : N := 65536.
(** FORMAT_CODE, include/pgm_io.hpp 124. *)
Notation FORMAT_CODE := (lit "P2") (only parsing).

(** [current_input[0] == '#']; the first character of an empty string is NUL. *)
Definition starts_comment (l : text) : bool :=
  match l with c :: _ => Ascii.eqb c hash | [] => false end.

(** The loop of [read_pgm_instruction] and what follows it, lib/pgm_io.cpp 73-86. *)
Fixpoint skip_comments (fuel : nat) (current_input : text) (s : istream) : outcome (text * istream) :=
  match fuel with
  | O => Stop Diverge
  | S f =>
      if good s && starts_comment current_input then
        let s := ignore_line s in
        if failbit s then Ok ([], s) else
        let '(current_input, s) := extract current_input s in
        skip_comments f current_input s
      else if starts_comment current_input then Ok ([], s)
      else Ok (current_input, s)
  end.

(** [PGM_IO::read_pgm_instruction], lib/pgm_io.cpp 65-87.  Every iteration of the
    loop consumes a character (theorem C19 includes that the fuel suffices). *)
Definition read_pgm_instruction (s : istream) : outcome (text * istream) :=
  if failbit s then Ok ([], s) else
  let '(current_input, s') := extract [] s in
  skip_comments (S (length (rest s))) current_input s'.

(** The loop of [check_file_end], lib/pgm_io.cpp 92-103.  [c] is [None] as long as
    [current_input] is not initialised. *)
Fixpoint check_loop (fuel : nat) (c : option ascii) (s : istream) : outcome istream :=
  match fuel with
  | O => Stop Diverge
  | S f =>
      if good s && negb (eofbit s) then
        let '(c, s) := get_char c s in
        match c with
        | None => Stop Undef
        | Some x =>
            if Ascii.eqb x hash then check_loop f c (ignore_line s) else
            b <- isspace x ;;
            check_loop f c (if b then s else set_fail s)
        end
      else Ok s
  end.

(** [PGM_IO::check_file_end], lib/pgm_io.cpp 89-109; the result is never used. *)
Definition check_file_end (s : istream) : outcome istream :=
  s' <- check_loop (S (S (length (rest s)))) None s ;;
  Ok (if eofbit s' then {| rest := rest s'; eofbit := true; failbit := false |} else s').

(** The pixels in the order of the loops, lib/pgm_io.cpp 177-179. *)
Definition row_order (img : image) : list pixel :=
  flat_map (fun y => map (fun x => {| px := x; py := y |}) (range 0 (width img)))
           (range 0 (height img)).

(** [try { v = stoul(read_pgm_instruction(in)); } catch (invalid_argument&) …]:
    [None] stands for the caught exception. *)
Definition read_number (s : istream) : outcome (option N * istream) :=
  r <- read_pgm_instruction s ;;
  match stoul (fst r) with
  | Ok v => Ok (Some v, snd r)
  | Stop (Throw StoulInvalid) => Ok (None, set_fail (snd r))
  | Stop e => Stop e
  end.

Definition with_data (img : image) (d : list N) : image :=
  {| width := width img; height := height img; max_value := max_value img; data := d |}.

(** The loops of [operator>>], lib/pgm_io.cpp 177-192; [None] if the function
    returned early. *)
Fixpoint read_pixels (img : image) (ps : list pixel) (s : istream) : outcome (option image * istream) :=
  match ps with
  | [] => Ok (Some img, s)
  | p :: r =>
      v <- read_number s ;;
      match fst v with
      | None => Ok (None, snd v)
      | Some x => d <- set (data img) (pixel_index cpu img p) x ;;
                  read_pixels (with_data img d) r (snd v)
      end
  end.

(** PGM_IO objects: the image held, if any (include/pgm_io.hpp 60-62). *)
Notation pgm_io := (option image).

(** [operator>>], lib/pgm_io.cpp 146-199. *)
Definition read_image (s : istream) (io : pgm_io) : outcome (istream * pgm_io) :=
  r <- read_pgm_instruction s ;;
  if negb (if list_eq_dec ascii_dec (fst r) FORMAT_CODE then true else false)
  then Ok (set_fail (snd r), io) else
  w <- read_number (snd r) ;;
  match fst w with
  | None => Ok (snd w, io)
  | Some wd =>
  h <- read_number (snd w) ;;
  match fst h with
  | None => Ok (snd h, io)
  | Some ht =>
  m <- read_number (snd h) ;;
  match fst m with
  | None => Ok (snd m, io)
  | Some mx =>
  if MAX_VALUE_LIMIT <? mx then Ok (set_fail (snd m), io) else
  dat <- alloc (umul cpu wd ht) 0 ;;
  let img := {| width := wd; height := ht; max_value := mx; data := dat |} in
  d <- read_pixels img (row_order img) (snd m) ;;
  match fst d with
  | None => Ok (snd d, io)
  | Some img => s' <- check_file_end (snd d) ;; Ok (s', Some img)
  end
  end end end.

(** *** Writing *)

Notation digit n := (ascii_of_N (48 + n)) (only parsing).
Fixpoint digits_fuel (fuel : nat) (n : N) (acc : text) : text :=
  match fuel with
  | O => acc
  | S f => let acc := digit (n mod 10) :: acc in
           if n <? 10 then acc else digits_fuel f (n / 10) acc
  end.
(** [out << n] for an unsigned number. *)
Definition digits (n : N) : text := digits_fuel (S (N.to_nat (N.log2 n))) n [].

(** MAX_NUMBERS_PER_ROW, include/pgm_io.hpp 90-119: 70 / (1 + 5). *)
Definition MAX_NUMBERS_PER_ROW : N := 70 / (1 + 5).

(** What is written after the number at column [x], lib/pgm_io.cpp 126-139.  [x] is
    below the width of an image, so [x + 1] does not wrap. *)
Definition separator (img : image) (x : N) : text :=
  if (x =? 0) || negb ((x + 1) mod MAX_NUMBERS_PER_ROW =? 0)
  then if x + 1 <? width img then [blank] else []
  else if x + 1 <? width img then [newline] else [].

(** [operator<<], lib/pgm_io.cpp 111-144.  [out] are the characters written before.
    Errors of the output stream are modelled in Disk.v. *)
Definition write_image (out : text) (io : pgm_io) : outcome text :=
  match io with
  | None => Ok out
  | Some img =>
      v <- image_valid cpu img ;;
      if negb v then Ok out else
      loop (range 0 (height img))
        (fun y out =>
           out <- loop (range 0 (width img))
             (fun x out =>
                v <- get (data img) (pixel_index cpu img {| px := x; py := y |}) ;;
                Ok (out ++ digits v ++ separator img x)) out ;;
           Ok (out ++ [newline]))
        (out ++ FORMAT_CODE ++ [newline]
             ++ digits (width img) ++ [blank] ++ digits (height img) ++ [newline]
             ++ digits (max_value img) ++ [newline])
  end.
