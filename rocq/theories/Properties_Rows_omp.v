(** C121: the OpenMP build on rows that do not restrict each other. *)
From Coq Require Import String.
From Verif Require Import Lattice_witness Device_witness Levels_witness Rows_omp_witness.
From Verif Require Import Witnesses.
Local Open Scope N_scope.

(** C121: if the rows restrict each other neither by penalties nor by shared words of
    memory, then all schedules of the solver lead to the contents the sequential solver
    computes... *)
Theorem C121_solver (T : target) (HL : laws T) v (cg : cgraph T) o :
  exact_team v -> plain_problem cg -> separate_rows cg -> rows_apart (t_word v) (cg_graph cg) ->
  height (right (cg_graph cg)) + 2 ^ 31 <= wmod T -> csp_omp v cg o -> o = exec solve_csp cg.
Proof. exact (csp_rows HL v cg o). Qed.
Print Assumptions C121_solver.

(** Met by a run whose second thread works first, on two rows, with nodes removed. *)
Example C121_solver_hypotheses : plain_problem cg119 /\ separate_rows cg119 /\ exact_team pair_team /\
  rows_apart (t_word pair_team) (cg_graph cg119) /\
  height (right (cg_graph cg119)) = 2 /\ height (right (cg_graph cg119)) + 2 ^ 31 <= wmod cpu /\
  (exists o, csp_omp pair_team cg119 o) /\
  cg_avail (after solve_csp cg119) <> cg_avail cg119.
Proof. exact cg119_apart. Qed.

(** ...also while pixels are labeled one by one. *)
Theorem C121_labeling (T : target) (HL : laws T) v (cg : cgraph T) l o :
  exact_team v -> plain_problem cg -> separate_rows cg -> rows_apart (t_word v) (cg_graph cg) ->
  height (right (cg_graph cg)) + 2 ^ 31 <= wmod T -> (forall p, In p l -> in_image (cg_graph cg) p) ->
  label_omp v l cg o -> o = exec (fun cg => label_pixels cg l) cg.
Proof. exact (fun Hv P S A Hh Hp => label_only HL v Hv l cg P S A Hh Hp o). Qed.
Print Assumptions C121_labeling.

(** Rows share no words if the number of levels is a multiple of the size of a word. *)
Theorem C121_apart (T : target) wb (g : dgraph T) : wf_graph g -> wb <> 0 -> levels g mod wb = 0 -> rows_apart wb g.
Proof. exact (multiple_apart wb g). Qed.
Print Assumptions C121_apart.

(** The application: with one row, or without smoothness and with whole words, the
    OpenMP build does exactly what the sequential build does. *)
Theorem C121_application v srt w p e bound jobs :
  sorts srt -> usable_files w -> exact_team v -> t_size v bound jobs ->
  (forall o, p = Parsed o -> rows_alone (t_word v) w o) ->
  main_omp v srt w p e <-> e = main srt w p.
Proof. exact (rows_main_iff v srt w p e bound jobs). Qed.
Print Assumptions C121_application.

Example C121_application_hypotheses : exact_team pair_team /\ t_size pair_team 2 2 /\ sorts (@isort cpu) /\ usable_files w121 /\
  (forall o, Parsed o121 = Parsed o -> rows_alone (t_word pair_team) w121 o) /\
  main (@isort cpu) w121 (Parsed o121) = Ok (ends 0 None (Some (out_path, written121))).
Proof. exact pair_run. Qed.

(** Met with the words of [std::vector<bool>], too. *)
Example C121_wide_words : exact_team two_team /\ t_size two_team 2 2 /\ sorts (@isort cpu) /\ usable_files w121' /\
  (forall o, Parsed o121' = Parsed o -> rows_alone (t_word two_team) w121' o) /\
  t_word two_team = 64 /\ file_holds w121' (lit "l.pgm") left121' /\ file_holds w121' (lit "r.pgm") right121' /\
  accepted 64 {| p_left := left121'; p_right := right121'; p_cleanness := 1; p_smoothness := 0 |}.
Proof. exact wide_words. Qed.

(** Without smoothness, but with rows that share words, the threads lose each other's
    changes: on the same files a map the sequential build finds may not be found... *)
Theorem C121_shared_words_refuted : exists v srt w o rpath r path txt,
  exact_team v /\ t_word v = 64 /\ sorts srt /\ usable_files w /\ o_right o = Some rpath /\ file_holds w rpath r /\
  option_number 1 (o_smoothness o) 0 /\ height r = 2 /\
  main srt w (Parsed o) = Ok (ends 0 None (Some (path, txt))) /\
  main_omp v srt w (Parsed o) (Ok (ends 0 (Some (LogicError CannotLabel)) None)).
Proof. exact shared_words. Qed.
Print Assumptions C121_shared_words_refuted.

(** ...and with a smoothness it is so even if no words are shared. *)
Theorem C121_smoothness_refuted : exists v srt w o path txt,
  exact_team v /\ t_word v = 1 /\ sorts srt /\ usable_files w /\ option_number 1 (o_smoothness o) 1 /\
  main srt w (Parsed o) = Ok (ends 0 None (Some (path, txt))) /\
  main_omp v srt w (Parsed o) (Ok (ends 0 (Some (LogicError CannotLabel)) None)).
Proof. exact smoothness_matters. Qed.
Print Assumptions C121_smoothness_refuted.
