(** Specification of plain PGM texts: tokens, comments, numbers. *)
From Coq Require Import String.
From Verif Require Export Spec Pgm.
Local Open Scope N_scope.

(** The characters that matter: # starts a comment, a line feed ends it; the digits;
    the first word of a file. *)
Notation comment_sign := (ascii_of_N 35).
Notation line_feed := (ascii_of_N 10).
Notation digit_sign d := (ascii_of_N (48 + d)).
Notation magic := (lit "P2").

(** White space. *)
Definition space (c : ascii) : Prop := In (code c) [32; 9; 10; 11; 12; 13].

(** A token is a non-empty run of other characters that does not start a comment. *)
Definition token (t : text) : Prop :=
  t <> [] /\ (forall c, In c t -> ~ space c) /\ hd_error t <> Some comment_sign.

(** White space and complete comments. *)
Inductive gap : text -> Prop :=
| gap_nil : gap []
| gap_space c g : space c -> gap g -> gap (c :: g)
| gap_comment body g : ~ In line_feed body -> gap g -> gap (comment_sign :: body ++ line_feed :: g).

(** The end of a file: the last comment need not be closed. *)
Inductive ending : text -> Prop :=
| ending_gap g : gap g -> ending g
| ending_comment g body : gap g -> ~ In line_feed body -> ending (g ++ comment_sign :: body).

(** The text consists of these tokens.  A comment starts where a token could start:
    [5#x] is one token. *)
Inductive laid_out : list text -> text -> Prop :=
| laid_end e : ending e -> laid_out [] e
| laid_last g t : gap g -> token t -> laid_out [t] (g ++ t)
| laid_token g t c ts r : gap g -> token t -> space c -> laid_out ts r ->
    laid_out (t :: ts) (g ++ t ++ c :: r).

(** Numerals and their values. *)
Inductive numeral : text -> N -> Prop :=
| numeral_one d : d < 10 -> numeral [digit_sign d] d
| numeral_more l v d : numeral l v -> d < 10 -> numeral (l ++ [digit_sign d]) (10 * v + d).

(** The longest numeral at the start of a text. *)
Definition leading_numeral (t : text) (n : N) : Prop :=
  exists l junk, t = l ++ junk /\ numeral l n /\ forall d r, d < 10 -> junk <> digit_sign d :: r.

(** A token whose leading numeral, after an optional sign, has the value [n]. *)
Definition signed_numeral (t : text) (negative : bool) (n : N) : Prop :=
  exists sign rest, t = sign ++ rest /\ leading_numeral rest n /\
    (negative = true /\ sign = [ascii_of_N 45] \/
     negative = false /\ (sign = [] \/ sign = [ascii_of_N 43])).

(** The number read from a token: negative numbers wrap around. *)
Definition reads_as (t : text) (v : N) : Prop :=
  exists neg n, signed_numeral t neg n /\ n < 2 ^ 64 /\
    v = if neg then (2 ^ 64 - n) mod 2 ^ 64 else n.
Definition out_of_range (t : text) : Prop :=
  exists neg n, signed_numeral t neg n /\ 2 ^ 64 <= n.
Definition not_number (t : text) : Prop := forall neg n, ~ signed_numeral t neg n.

(** The next token is missing or not a number. *)
Definition no_number (ts : list text) : Prop :=
  ts = [] \/ exists t r, ts = t :: r /\ not_number t.

(** The magic, width, height and maximal value, followed by [ts]. *)
Definition header (w h m : N) (ts : list text) (all : list text) : Prop :=
  exists tw th tm, all = magic :: tw :: th :: tm :: ts /\
    reads_as tw w /\ reads_as th h /\ reads_as tm m.

(** Texts that are not images.  [bad_pixel]: fewer intensities than pixels.  (The
    last two conditions hold whenever the product of the sizes is not above
    2^60 - 1.) *)
Inductive defect : list text -> Prop :=
| bad_magic ts : hd_error ts <> Some magic -> defect ts
| bad_width ts : no_number ts -> defect (magic :: ts)
| bad_height tw w ts : reads_as tw w -> no_number ts -> defect (magic :: tw :: ts)
| bad_max tw w th h ts : reads_as tw w -> reads_as th h -> no_number ts ->
    defect (magic :: tw :: th :: ts)
| high_max w h m ts all : header w h m ts all -> 65536 < m -> defect all
| bad_pixel w h m good vs ts all : header w h m (good ++ ts) all -> m <= 65536 ->
    Forall2 reads_as good vs -> len good < w * h -> no_number ts ->
    (w * h) mod 2 ^ 64 <= vector_max_size -> len good <= (w * h) mod 2 ^ 64 ->
    defect all.

(** An image and the tokens it is read from, followed by [extra]. *)
Definition image_tokens (img : image) (extra all : list text) : Prop :=
  exists ts, header (width img) (height img) (max_value img) (ts ++ extra) all /\
    max_value img <= 65536 /\ Forall2 reads_as ts (data img) /\ consistent_image img.

(** The first character of the next token is not an ASCII character (nor 255).  Such
    a [char] must not be passed to [isspace]. *)
Definition high_byte (ts : list text) : Prop :=
  exists c t r, ts = (c :: t) :: r /\ 128 <= code c <= 254.

(** The lines of a text. *)
Fixpoint lines (t : text) : list text :=
  match t with
  | [] => [[]]
  | c :: r => match lines r with
              | [] => []
              | l :: ls => if Ascii.eqb c line_feed then [] :: l :: ls else (c :: l) :: ls
              end
  end.
