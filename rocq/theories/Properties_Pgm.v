(** Properties C11 to C20: plain PGM files. *)
From Coq Require Import String.
From Verif Require Import Pgm_proofs.
Local Open Scope N_scope.

(** C11: what is written for a valid image is read back as the same image, whatever
    the reading object held before. *)
Theorem C11_round_trip (img : image) (out : text) :
  valid_image img -> consistent_image img -> width img * height img < 2 ^ 32 -> max_value img <= 65536 ->
  exists txt, write_image out (Some img) = Ok (out ++ txt) /\
    forall io, exists s, read_image (opened txt) io = Ok (s, Some img) /\ failbit s = false.
Proof. exact (fun Hv Hc Hw => round_trip img Hv Hc Hw out). Qed.
Print Assumptions C11_round_trip.

Example C11_hypotheses : valid_image two_rows /\ consistent_image two_rows /\ width two_rows * height two_rows < 2 ^ 32.
Proof. exact two_rows_valid. Qed.
Example C11_text : write_image [] (Some two_rows) =
  Ok (lit "P2" ++ [line_feed] ++ lit "2 2" ++ [line_feed] ++ lit "9" ++ [line_feed] ++ lit "1 2" ++ [line_feed] ++ lit "3 4" ++ [line_feed]).
Proof. reflexivity. Qed.

(** C12: no written line is longer than 70 characters; the text consists, after the
    magic, of the numbers of the image, separated by white space. *)
Theorem C12_line_length (img : image) (out : text) :
  valid_image img -> consistent_image img -> width img * height img < 2 ^ 32 -> max_value img <= 65536 ->
  exists txt, write_image out (Some img) = Ok (out ++ txt) /\
    (forall l, In l (lines txt) -> len l <= 70) /\
    exists ts, laid_out ts txt /\
      Forall2 numeral (skipn 1 ts) ([width img; height img; max_value img] ++ data img).
Proof. exact (fun Hv Hc Hw => short_lines img Hv Hc Hw out). Qed.
Print Assumptions C12_line_length.

Example C12_hypotheses : valid_image two_rows /\ consistent_image two_rows /\ width two_rows * height two_rows < 2 ^ 32.
Proof. exact two_rows_valid. Qed.

(** C13: without a valid image nothing is written; a valid image is written as a
    header and one group of lines per row with the intensities of the row. *)
Theorem C13_nothing_written (out : text) (io : option image) :
  (forall img, io = Some img -> consistent_image img /\ width img * height img < 2 ^ 32 /\ ~ valid_image img) ->
  write_image out io = Ok out.
Proof. exact (nothing_written out io). Qed.
Print Assumptions C13_nothing_written.

Theorem C13_complete_file (img : image) (out : text) :
  valid_image img -> consistent_image img -> width img * height img < 2 ^ 32 ->
  exists tw th tm rows, numeral tw (width img) /\ numeral th (height img) /\ numeral tm (max_value img) /\
    write_image out (Some img) =
      Ok (out ++ lit "P2" ++ [line_feed] ++ tw ++ [ascii_of_N 32] ++ th ++ [line_feed] ++ tm ++ [line_feed] ++ concat rows) /\
    len rows = height img /\
    forall y, y < height img -> exists row ts vals before after,
      get rows y = Ok (row ++ [line_feed]) /\ laid_out ts (row ++ [line_feed]) /\ Forall2 numeral ts vals /\
      data img = before ++ vals ++ after /\ len before = y * width img /\ len vals = width img.
Proof. exact (fun Hv Hc Hw => complete_file img Hv Hc Hw out). Qed.
Print Assumptions C13_complete_file.

Example C13_invalid : consistent_image one_white /\ width one_white * height one_white < 2 ^ 32 /\ ~ valid_image one_white.
Proof. exact (conj eq_refl (conj eq_refl one_white_invalid)). Qed.

(** C14: if reading ends without failure, the object holds an image with as many
    intensities as pixels, the text consists of exactly the tokens of this image
    and the maximal value is at most 65536. *)
Theorem C14_read_success (t : text) (io io' : option image) (s : istream) :
  read_image (opened t) io = Ok (s, io') -> failbit s = false ->
  exists img ts, io' = Some img /\ laid_out ts t /\ image_tokens img [] ts.
Proof. exact (read_success t io s io'). Qed.
Print Assumptions C14_read_success.

(** The tokens of a text are unique: the specification admits one reading. *)
Theorem C14_tokens_unique (ts ts' : list text) (t : text) : laid_out ts t -> laid_out ts' t -> ts = ts'.
Proof. exact (laid_unique ts ts' t). Qed.
Print Assumptions C14_tokens_unique.

(** C15: white space and comments do not influence the result. *)
Theorem C15_layout (ts : list text) (t : text) (img : image) (io : option image) :
  laid_out ts t -> image_tokens img [] ts -> width img * height img <= vector_max_size ->
  exists s, read_image (opened t) io = Ok (s, Some img) /\ failbit s = false.
Proof. exact (read_layout ts t img io). Qed.
Print Assumptions C15_layout.

Example C15_hypotheses : exists ts, laid_out ts two_rows_text /\ image_tokens two_rows [] ts.
Proof. exact two_rows_tokens. Qed.

(** C16: a text with a defect is rejected and the image held before is kept. *)
Theorem C16_defects (ts : list text) (t : text) (io : option image) :
  laid_out ts t -> defect ts ->
  exists s, read_image (opened t) io = Ok (s, io) /\ failbit s = true.
Proof. exact (read_defective ts t io). Qed.
Print Assumptions C16_defects.

Example C16_hypotheses : exists ts, laid_out ts truncated /\ defect ts.
Proof. exact truncated_defect. Qed.

(** C17 is violated: a token after the last intensity makes reading fail, yet the
    new image replaces the one held before. *)
Theorem C17_failure_keeps_refuted :
  exists t img, forall io, exists s, read_image (opened t) io = Ok (s, Some img) /\ failbit s = true.
Proof. exact (ex_intro _ _ (ex_intro _ _ garbage_stored)). Qed.
Print Assumptions C17_failure_keeps_refuted.

(** This is the only way to lose the image. *)
Theorem C17_failed_read (t : text) (io io' : option image) (s : istream) :
  read_image (opened t) io = Ok (s, io') -> failbit s = true ->
  io' = io \/
  exists img extra ts, io' = Some img /\ laid_out ts t /\ image_tokens img extra ts /\ extra <> [].
Proof. exact (read_failed t io s io'). Qed.
Print Assumptions C17_failed_read.

(** C18 is violated by numbers and sizes that are too large. *)
Theorem C18_never_throws_refuted :
  (exists t, forall io, read_image (opened t) io = Stop (Throw StoulRange)) /\
  (exists t, forall io, read_image (opened t) io = Stop (Throw LengthError)).
Proof. exact (conj (ex_intro _ _ large_throws) (ex_intro _ _ long_throws)). Qed.
Print Assumptions C18_never_throws_refuted.

(** These are the only exceptions. *)
Theorem C18_exceptions (t : text) (io : option image) (e : exn) :
  read_image (opened t) io = Stop (Throw e) ->
  exists ts, laid_out ts t /\
    (e = StoulRange /\ (exists tok, In tok ts /\ out_of_range tok) \/
     e = LengthError /\ exists w h m r, header w h m r ts /\ vector_max_size < (w * h) mod 2 ^ 64).
Proof. exact (read_throws t io e). Qed.
Print Assumptions C18_exceptions.

(** C19: reading ends; undefined behaviour needs sizes whose product wraps, or a
    first trailing character that must not be passed to [isspace]. *)
Theorem C19_read_safe (t : text) (io : option image) :
  read_image (opened t) io <> Stop Diverge /\
  (read_image (opened t) io = Stop Undef -> exists ts, laid_out ts t /\
     ((exists w h m r, header w h m r ts /\ 2 ^ 64 <= w * h) \/
      (exists img extra, image_tokens img extra ts /\ high_byte extra))).
Proof. exact (read_safe t io). Qed.
Print Assumptions C19_read_safe.

(** Both happen. *)
Theorem C19_read_memory_refuted (io : option image) :
  read_image (opened (lit "P2 4294967296 4294967296 1 0")) io = Stop Undef /\
  read_image (opened (lit "P2 1 1 1 0 " ++ [ascii_of_N 200])) io = Stop Undef.
Proof. exact (conj (wrapping_undefined io) (high_undefined io)). Qed.
Print Assumptions C19_read_memory_refuted.

(** C20 is violated: the reader accepts intensities above the maximum. *)
Theorem C20_read_valid_refuted :
  exists t img, ~ valid_image img /\
    forall io, exists s, read_image (opened t) io = Ok (s, Some img) /\ failbit s = false.
Proof. exact (ex_intro _ _ (ex_intro _ _ (conj one_white_invalid above_max))). Qed.
Print Assumptions C20_read_valid_refuted.
