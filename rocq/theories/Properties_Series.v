(** Runs one after another (C106). *)
From Coq Require Import String.
From Verif Require Import Series_witness.
Local Open Scope N_scope.

(** C106: from usable files every series of runs ends, and the files are usable
    afterwards; only files named as output change, and they hold valid images. *)
Theorem C106_series srt runs : sorts srt -> forall w, usable_files w ->
  exists es w', run_series srt w runs = Ok (es, w') /\ usable_files w' /\ length es = length runs /\
    (forall q, writable w' q = writable w q) /\
    (forall q, (forall args, In args runs -> ~ writes_to args q) -> files w' q = files w q) /\
    (forall q, files w' q = files w q \/
       exists e t img, In e es /\ written_file e = Some (q, t) /\ files w' q = Some t /\ write_image [] (Some img) = Ok t /\ valid_image img).
Proof. exact (series_ends srt runs). Qed.
Print Assumptions C106_series.

(** The map of one run can be an image of the next one. *)
Theorem C106_map_as_image srt w args e path t : sorts srt -> usable_files w -> run_application srt w args = Ok e ->
  written_file e = Some (path, t) ->
  exists img, write_image [] (Some img) = Ok t /\ valid_image img /\ (max_value img <= 65536 -> file_holds (world_after w e) path img).
Proof. exact (run_reread srt w args e path t). Qed.
Print Assumptions C106_map_as_image.

(** A run that does not write to one of its images can be repeated. *)
Theorem C106_again srt w args e : sorts srt -> usable_files w -> run_application srt w args = Ok e ->
  (forall q, writes_to args q -> ~ reads_from args q) -> run_application srt (world_after w e) args = Ok e.
Proof. exact (run_again srt w args e). Qed.
Print Assumptions C106_again.

(** Other runs replace their image and cannot be repeated. *)
Theorem C106_images_kept_refuted : exists w args q, usable_files w /\ writes_to args q /\ reads_from args q /\
  forall srt, sorts srt -> exists e e', run_application srt w args = Ok e /\ run_application srt (world_after w e) args = Ok e' /\
    printed e = None /\ printed e' <> None /\ files (world_after w e) q <> files w q.
Proof. exact over_differs. Qed.
Print Assumptions C106_images_kept_refuted.

(** The order of two runs does not matter if neither writes to a file that the other
    one reads or writes. *)
Theorem C106_order srt w a b ea eb : sorts srt -> usable_files w ->
  run_application srt w a = Ok ea -> run_application srt w b = Ok eb ->
  (forall q, writes_to a q -> ~ reads_from b q /\ ~ writes_to b q) -> (forall q, writes_to b q -> ~ reads_from a q) ->
  exists w1 w2, run_series srt w [a; b] = Ok ([ea; eb], w1) /\ run_series srt w [b; a] = Ok ([eb; ea], w2) /\ same_files w1 w2.
Proof. exact (series_order srt w a b ea eb). Qed.
Print Assumptions C106_order.

Example C106_hypotheses : usable_files wg /\ forall srt, sorts srt ->
  run_application srt wg args_plain = Ok (ends 0 None (Some (out_path, textg))) /\
  run_application srt wg args_other = Ok (ends 0 None (Some (lit "zero.pgm", zero_text))).
Proof. exact (conj wg_usable (fun srt Hs => conj (run_plain srt Hs) (run_other srt Hs))). Qed.
Example C106_apart : (forall q, writes_to args_plain q -> ~ reads_from args_other q /\ ~ writes_to args_other q) /\
  (forall q, writes_to args_other q -> ~ reads_from args_plain q) /\ (forall q, writes_to args_plain q -> ~ reads_from args_plain q).
Proof. exact apart. Qed.
Example C106_three_runs srt : sorts srt -> exists w', run_series srt wg [args_plain; args_map; args_plain] =
    Ok ([ends 0 None (Some (out_path, textg)); ends 0 None (Some (lit "l.pgm", zero_text));
         ends 0 (Some (InvalidArgumentError (InvalidArgument 6))) None], w').
Proof. exact (run_map srt). Qed.
