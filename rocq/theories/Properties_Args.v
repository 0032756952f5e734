(** Properties C93 to C97: the command line and the source of the OpenCL program. *)
From Coq Require Import String Permutation.
From Verif Require Import Args_witness.
Local Open Scope N_scope.

(** C93: which settings a command line gives: the application gets them if each
    option is given once, and otherwise the command line is rejected. *)
Theorem C93_settings (args : list text) :
  (forall o, parse_command_line args = Some (Parsed o) <-> exists s, gives args s /\ once s /\ set_by o s) /\
  (parse_command_line args = Some Repeated <-> exists s, gives args s /\ ~ once s) /\
  (parse_command_line args = Some Rejected <-> ~ exists s, gives args s) /\
  parse_command_line args <> None.
Proof. exact (command_line args). Qed.
Print Assumptions C93_settings.

(** A command line does not have two meanings. *)
Theorem C93_unambiguous (args : list text) s s' : gives args s -> gives args s' -> s = s'.
Proof. exact (gives_same args s s'). Qed.
Print Assumptions C93_unambiguous.

Example C93_given : gives args1 settings1 /\ once settings1 /\ set_by (og out_path) settings1.
Proof. exact (conj gives1 (conj once1 set_by1)). Qed.
Example C93_repeated : exists s, gives [lit "-hhl"; lit "a"] s /\ ~ once s.
Proof. exact repeated_example. Qed.
Example C93_rejected : ~ exists s, gives [lit "--left-imag=a"; lit "--lefty"; lit "b"] s.
Proof. exact rejected_example. Qed.

(** C94: neither the order of the options nor their spelling matters, in every build. *)
Theorem C94_any_order (args args' : list text) s s' : gives args s -> gives args' s' -> Permutation s s' ->
  parse_command_line args = parse_command_line args' /\
  forall srt w, run_application srt w args = run_application srt w args'.
Proof. exact (fun G G' P => conj (any_order args args' s s' G G' P) (fun srt w => run_any_order srt w args args' s s' G G' P)). Qed.
Print Assumptions C94_any_order.

Example C94_hypotheses : gives args1 settings1 /\ gives args2 settings2 /\ Permutation settings1 settings2 /\ args1 <> args2.
Proof. exact (conj gives1 (conj gives2 (conj permuted args_differ))). Qed.

(** C95: words that are neither options nor values are not reported ... *)
Theorem C95_stray_word_refuted : exists args word, skipped word /\ forall srt, sorts srt ->
  run_application srt wg (args ++ [word]) = run_application srt wg args /\
  run_application srt wg args = Ok (ends 0 None (Some (out_path, textg))).
Proof. exact stray_word. Qed.
Print Assumptions C95_stray_word_refuted.

(** ... and after an option whose value is missing the next option can be taken for
    the value: here a map is written to a file named like an option, while the same
    words in another order are rejected. *)
Theorem C95_option_as_value_refuted : exists args args' k n v, Permutation args args' /\
  calls k n /\ In (lit "--" ++ n ++ lit "=" ++ v) args /\ forall srt, sorts srt ->
  run_application srt wg args = Ok (ends 0 None (Some (lit "--" ++ n ++ lit "=" ++ v, textg))) /\
  run_application srt wg args' = Ok (ends 1 (Some UnexpectedException) None).
Proof. exact option_as_value. Qed.
Print Assumptions C95_option_as_value_refuted.

(** C96: runs started with a command line: they end, the status is 1 exactly for
    command lines without a meaning and for unknown technologies, and only best maps of
    the images named are written to the path named. *)
Theorem C96_total srt w args : sorts srt -> usable_files w -> exists e, run_application srt w args = Ok e.
Proof. exact (run_total srt w args). Qed.
Print Assumptions C96_total.

Theorem C96_status srt w args e : sorts srt -> usable_files w -> run_application srt w args = Ok e ->
  (status e = 0 \/ status e = 1) /\
  (status e = 1 <-> (~ exists s, gives args s) \/ exists s, gives args s /\
     (~ once s \/ exists l r out t, In (ForLeft, l) s /\ In (ForRight, r) s /\ In (ForOutput, out) s /\
        In (ForParallel, t) s /\ ~ known_technology t)).
Proof. exact (run_status srt w args e). Qed.
Print Assumptions C96_status.

Theorem C96_written srt w args e path txt : sorts srt -> usable_files w -> run_application srt w args = Ok e ->
  written_file e = Some (path, txt) ->
  status e = 0 /\ printed e = None /\ exists s o l r img, gives args s /\ once s /\ set_by o s /\
    In (ForLeft, l) s /\ In (ForRight, r) s /\ In (ForOutput, path) s /\
    (forall t, In (ForParallel, t) s -> known_technology t) /\
    map_of w o l r img /\ write_image [] (Some img) = Ok txt.
Proof. exact (run_written srt w args e path txt). Qed.
Print Assumptions C96_written.

(** Without images nothing is done: no help is printed, even if asked for, and paths
    without options are skipped. *)
Theorem C96_no_images srt w args s : gives args s -> once s ->
  (forall v, ~ In (ForLeft, v) s) \/ (forall v, ~ In (ForRight, v) s) ->
  run_application srt w args = Ok (ends 0 (Some NoImages) None).
Proof. exact (run_no_images srt w args s). Qed.
Print Assumptions C96_no_images.

Example C96_hypotheses : sorts (@isort cpu) /\ usable_files wg /\
  forall srt, sorts srt -> run_application srt wg args1 = Ok (ends 0 None (Some (out_path, textg))).
Proof. exact (conj (isort_sorts cpu_laws) (conj wg_usable run1)). Qed.
Example C96_help srt w args : In args [[]; [lit "-h"]; [lit "--help"]; [lit "l.pgm"; lit "r.pgm"; lit "map.pgm"]] ->
  run_application srt w args = Ok (ends 0 (Some NoImages) None).
Proof. exact (help_run srt w args). Qed.

(** C97: the source of the OpenCL program consists of the lines of all files in their
    order, if all files can be opened and end with a newline. *)
Theorem C97_source w ts ls : Forall2 (fun f t => files w f = Some t) program_files ts ->
  (forall t, In t ts -> complete t) -> Forall2 text_lines ts ls -> text_lines (program_source w) (concat ls).
Proof. exact (source_lines w ts ls). Qed.
Print Assumptions C97_source.

(** Otherwise lines are joined, and files that cannot be opened are left out without
    a message. *)
Theorem C97_missing_refuted : (exists w, (forall f, In f program_files -> files w f = None) /\ program_source w = []) /\
  exists w ts, Forall2 (fun f t => files w f = Some t) program_files ts /\
    (forall t, In t ts -> text_lines t [lit "#endif"]) /\
    forall ls, text_lines (program_source w) ls -> ~ In (lit "#endif") ls.
Proof. exact (conj sources_left_out sources_joined). Qed.
Print Assumptions C97_missing_refuted.

Example C97_hypotheses :
  Forall2 (fun f t => files (sources (line1 ++ [newline])) f = Some t) program_files (repeat (line1 ++ [newline]) 8) /\
  complete (line1 ++ [newline]) /\ text_lines (line1 ++ [newline]) [line1].
Proof. exact sources_complete. Qed.
