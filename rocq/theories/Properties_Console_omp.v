(** What the application built with OpenMP prints (C107, C108). *)
From Coq Require Import String.
From Verif Require Import Console_omp_witness.
Local Open Scope N_scope.

(** C107: without a technology, or with the name of OpenMP, the processor is used and
    announced... *)
Theorem C107_omp_technology lib v srt w o lpath rpath out :
  all_paths o lpath rpath out -> asks_for no_devices (o_parallel o) OnCpu ->
  (forall e, main_omp v srt w (Parsed o) e <-> exists x, map_omp v srt w o lpath rpath x /\ e = finishes w out x) /\
  (forall u, main_told_omp lib v srt w (Parsed o) (Ok u) -> cout u = technology_line (o_parallel o) OnCpu).
Proof. exact (omp_technology lib v srt w o lpath rpath out). Qed.
Print Assumptions C107_omp_technology.

(** ...and any other name is reported. *)
Theorem C107_omp_unknown lib v srt w o lpath rpath out :
  all_paths o lpath rpath out -> ~ asks_for no_devices (o_parallel o) OnCpu -> exists t, o_parallel o = Some t /\
  forall s, main_told_omp lib v srt w (Parsed o) s <->
    s = Ok {| exit_status := 1; cout := []; saved := None;
              cerr := lit "Unexpected exception: `parallel` cannot be " ++ t ++ lit "." ++ [newline] |}.
Proof. exact (omp_unknown lib v srt w o lpath rpath out). Qed.
Print Assumptions C107_omp_unknown.

Example C107_omp_hypotheses : all_paths (og out_path) (lit "l.pgm") (lit "r.pgm") out_path /\
  asks_for no_devices (o_parallel (og out_path)) OnCpu /\
  (exists u, main_told_omp lib0 two_team (@isort cpu) wg (Parsed (og out_path)) (Ok u) /\ exit_status u = 0 /\
     saved u = Some (out_path, textg) /\ cerr u = []) /\
  forall t, In t [lit "cuda"; lit "opencl"; lit "threads"] -> ~ asks_for no_devices (Some t) OnCpu.
Proof. exact (conj (og_paths out_path) (conj omp_asks_plain (conj omp_quiet omp_refuses))). Qed.

(** C108: the console shows the kinds of messages of the other theorems, whatever the
    threads do, and nothing if there is no message... *)
Theorem C108_omp_reported lib v srt w p :
  (forall e, main_omp v srt w p e -> exists s, main_told_omp lib v srt w p s /\ reported e s) /\
  (forall s, main_told_omp lib v srt w p s -> exists e, main_omp v srt w p e /\ reported e s).
Proof. exact (omp_reported lib v srt w p). Qed.
Print Assumptions C108_omp_reported.

(** ...in one line. *)
Theorem C108_omp_lines lib v srt w p s : plain_library lib ->
  (forall o, p = Parsed o -> plain_option (o_left o) /\ plain_option (o_right o) /\ plain_option (o_parallel o)) ->
  main_told_omp lib v srt w p (Ok s) ->
  (cerr s = [] \/ one_line (cerr s)) /\ (cout s = [] \/ one_line (cout s)).
Proof. exact (fun H => omp_lines lib H v srt w p s). Qed.
Print Assumptions C108_omp_lines.

(** Unless the images and options give a problem that the library accepts, the text is
    that of the build without OpenMP, and no thread can change it. *)
Theorem C108_omp_early lib v d srt w p s : ~ accepted_problem w p ->
  main_told_omp lib v srt w p s <-> main_told lib no_devices d srt w p s.
Proof. exact (told_early lib v d srt w p s). Qed.
Print Assumptions C108_omp_early.

(** The first file that cannot be opened or is no image is named, ... *)
Theorem C108_omp_files lib v srt w o lpath rpath out :
  all_paths o lpath rpath out -> asks_for no_devices (o_parallel o) OnCpu ->
  (forall path, first_input w lpath rpath path (fun path => files w path = None) ->
   forall s, main_told_omp lib v srt w (Parsed o) s <->
     s = Ok {| exit_status := 0; cout := technology_line (o_parallel o) OnCpu; saved := None;
               cerr := lit "Invalid argument: " ++ (lit "Unable to open file `" ++ path ++ lit "`.") ++ [newline] |}) /\
  (forall path, first_input w lpath rpath path (broken_file w) ->
   forall s, main_told_omp lib v srt w (Parsed o) s <->
     s = Ok {| exit_status := 0; cout := technology_line (o_parallel o) OnCpu; saved := None;
               cerr := lit "Invalid argument: " ++ (lit "File `" ++ path ++ lit "` is not a correct plain PGM image.") ++ [newline] |}).
Proof. exact (omp_files lib v srt w o lpath rpath out). Qed.
Print Assumptions C108_omp_files.

(** ...or the requirement the problem violates with exactly the numbers that violate
    it.  The message determines the requirement and these numbers. *)
Theorem C108_omp_requirement lib v srt w o k l r lev s :
  unsuitable no_devices w o k l r lev -> main_told_omp lib v srt w (Parsed o) s ->
  exists u, s = Ok u /\ exit_status u = 0 /\ cout u = technology_line (o_parallel o) OnCpu /\ saved u = None /\
    begins (lit "Invalid argument: ") (cerr u) /\
    mentions (subject k) (cerr u) /\ (k < 7 -> shows (figures k l r lev) (cerr u)).
Proof. exact (omp_requirement lib v srt w o k l r lev s). Qed.
Print Assumptions C108_omp_requirement.

Theorem C108_omp_identified lib v srt w o k l r lev s v' srt' w' o' k' l' r' lev' s' :
  unsuitable no_devices w o k l r lev -> main_told_omp lib v srt w (Parsed o) (Ok s) ->
  unsuitable no_devices w' o' k' l' r' lev' -> main_told_omp lib v' srt' w' (Parsed o') (Ok s') ->
  cerr s = cerr s' -> k = k' /\ figures k l r lev = figures k' l' r' lev'.
Proof. exact (omp_identified lib v srt w o k l r lev s v' srt' w' o' k' l' r' lev' s'). Qed.
Print Assumptions C108_omp_identified.

Example C108_omp_hypotheses v srt : plain_library lib0 /\ unsuitable no_devices wg o_five 3 gl gr 5 /\
  ~ accepted_problem wg (Parsed o_five) /\
  main_told_omp lib0 v srt wg (Parsed o_five)
    (Ok {| exit_status := 0; cout := lit "OpenMP parallelism" ++ [newline]; cerr := text_five; saved := None |}).
Proof. exact (conj lib0_plain (conj (five_unsuitable no_devices) (conj five_refused (omp_five v srt)))). Qed.

(** Two messages may be printed that the build without OpenMP never prints, ... *)
Theorem C108_omp_appear v srt w p e m : sorts srt -> usable_files w -> team_ok v ->
  main_omp v srt w p (Ok e) -> printed e = Some m -> may_appear m.
Proof. exact (omp_appear v srt w p e m). Qed.
Print Assumptions C108_omp_appear.

(** ...and one of them is, even by threads that take turns. *)
Theorem C108_omp_appear_refuted : exists v srt w p e m, sorts srt /\ usable_files w /\ orderly_team v /\
  main_omp v srt w p (Ok e) /\ printed e = Some m /\ ~ can_appear m.
Proof. exact omp_unsolved. Qed.
Print Assumptions C108_omp_appear_refuted.
