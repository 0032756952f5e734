(** C116, C117: runs with scarce memory. *)
From Coq Require Import String.
From Verif Require Import Memory_witness Main_witness.
Local Open Scope N_scope.

(** C116: whichever allocations fail, the run does what it does with enough memory,
    or it ends with the status 1 and writes nothing or empties the output, or it
    complains about a file with a word of more than 15 characters; if the options
    cannot be parsed, it may be aborted. *)
Theorem C116_effects srt w p e : sorts srt -> usable_files w -> main_scarce srt w p e ->
  (exists x, main srt w p = Ok x /\ e = Ends (Ok x)) \/
  ends_with e 1 (Some UnexpectedException) None \/
  (e = Aborts /\ (p = Repeated \/ p = Rejected)) \/
  (exists out txt, main srt w p = Ok (ends 0 None (Some (out, txt))) /\ ends_with e 1 (Some UnexpectedException) (Some (out, []))) \/
  (long_words w p /\ exists m, ends_with e 0 (Some m) None /\
     (m = InvalidArgumentError NotPgm \/ m = LogicError StoulRange \/ m = LogicError LengthError)).
Proof. exact (main_short_of_memory srt w p e). Qed.
Print Assumptions C116_effects.

(** C116: therefore a file written is empty or holds the map written with enough
    memory. *)
Theorem C116_map srt w p x path txt : sorts srt -> usable_files w -> main_scarce srt w p (Ends (Ok x)) ->
  written_file x = Some (path, txt) -> txt <> [] -> main srt w p = Ok x.
Proof. exact (scarce_map srt w p x path txt). Qed.
Print Assumptions C116_map.

(** Runs with enough memory are among the runs considered. *)
Theorem C116_enough srt w p : main_scarce srt w p (Ends (main srt w p)).
Proof. exact (main_enough srt w p). Qed.
Print Assumptions C116_enough.

Example C116_hypotheses : sorts (@isort cpu) /\ usable_files wg /\
  main isort wg (Parsed (og out_path)) = Ok (ends 0 None (Some (out_path, textg))) /\
  main_scarce isort wg (Parsed (og out_path)) (Ends (Ok (ends 0 None (Some (out_path, textg))))) /\
  (exists e, main_scarce isort wg (Parsed (og out_path)) e /\ ends_with e 1 (Some UnexpectedException) None).
Proof. exact scarce_example. Qed.

(** C116: an old output is not safe: every run that would write a map may empty it. *)
Theorem C116_old_output_refuted srt w p out txt : main srt w p = Ok (ends 0 None (Some (out, txt))) ->
  exists e, main_scarce srt w p e /\ ends_with e 1 (Some UnexpectedException) (Some (out, [])).
Proof. exact (scarce_emptied srt w p out txt). Qed.
Print Assumptions C116_old_output_refuted.

(** C117: without long words in the files the status tells that something is wrong. *)
Theorem C117_status srt w p e : sorts srt -> usable_files w -> ~ long_words w p -> main_scarce srt w p e ->
  (exists x, main srt w p = Ok x /\ e = Ends (Ok x)) \/
  (exists f, ends_with e 1 (Some UnexpectedException) f) \/ e = Aborts.
Proof. exact (scarce_status srt w p e). Qed.
Print Assumptions C117_status.

Example C117_hypotheses : sorts (@isort cpu) /\ usable_files wg /\ ~ long_words wg (Parsed (og out_path)).
Proof. exact short_example. Qed.

(** C117: with such a word, in a comment for example, the status may be 0, the
    message that the file is not a correct image. *)
Theorem C117_blame_refuted : exists w p, usable_files w /\ forall srt, sorts srt ->
  (exists path txt, main srt w p = Ok (ends 0 None (Some (path, txt)))) /\
  exists e, main_scarce srt w p e /\ ends_with e 0 (Some (InvalidArgumentError NotPgm)) None.
Proof. exact scarce_blamed. Qed.
Print Assumptions C117_blame_refuted.
