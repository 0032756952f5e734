(** Properties C49, C51 to C55 and C64 to C68: the application. *)
From Coq Require Import String.
From Verif Require Import Main_witness.
Local Open Scope N_scope.

(** C49: a disparity map that is computed belongs to the problem, respects the
    ordering constraint and is a minimax optimum: it stays within every bound within
    which some labeling stays. *)
Theorem C49_minimax (T : target) (HL : laws T) srt (l r : image) lev (c s : F T) g :
  sorts srt -> make_graph l r lev c s = Ok g -> consistent_image l -> consistent_image r ->
  width l * height l * 4 * lev < wmod T -> finite_penalties g ->
  exists lp, make_lowest g = Ok lp /\
    (solve_problem srt l r lev c s = Stop (Throw CannotLabel) \/
     exists img, solve_problem srt l r lev c s = Ok img /\ best_map g lp img).
Proof. exact (solve_accepted HL srt l r lev c s g). Qed.
Print Assumptions C49_minimax.

(** The same for the files: only such maps are written. *)
Theorem C49_written srt w p e path txt : sorts srt -> usable_files w -> main srt w p = Ok e -> written_file e = Some (path, txt) ->
  status e = 0 /\ printed e = None /\ writable w path = true /\
  exists o l r img, p = Parsed o /\ all_paths o l r path /\ technology_ok o /\ map_of w o l r img /\ write_image [] (Some img) = Ok txt.
Proof. exact (main_written srt w p e path txt). Qed.
Print Assumptions C49_written.

Example C49_hypotheses : laws cpu /\ sorts (@isort cpu) /\ make_graph (left g51) (right g51) (levels g51) (cleanness g51) (smoothness g51) = Ok g51 /\
  consistent_image (left g51) /\ consistent_image (right g51) /\ finite_penalties g51.
Proof. exact (conj cpu_laws (conj (isort_sorts cpu_laws) (conj g51_made (conj eq_refl (conj eq_refl g51_finite))))). Qed.
Example C49_run : usable_files wg /\ forall srt, sorts srt -> main srt wg (Parsed (og out_path)) = Ok (ends 0 None (Some (out_path, textg))).
Proof. exact (conj wg_usable rung). Qed.

(** C51: a disparity map is not written for every good problem. *)
Theorem C51_map_for_every_problem_refuted : exists w o lpath rpath out l r lev c s,
  all_paths o lpath rpath out /\ technology_ok o /\ writable w out = true /\ usable_files w /\
  file_holds w lpath l /\ file_holds w rpath r /\
  option_number (width l) (o_levels o) lev /\ option_number 1 (o_cleanness o) c /\ option_number 1 (o_smoothness o) s /\
  good_problem l r lev c s /\
  forall srt, sorts srt -> main srt w (Parsed o) = Ok (ends 0 (Some (LogicError CannotLabel)) None).
Proof. exact map_missing. Qed.
Print Assumptions C51_map_for_every_problem_refuted.

(** C52: every run on usable files terminates without undefined behaviour. *)
Theorem C52_no_undefined_behaviour srt w p : sorts srt -> usable_files w -> exists e, main srt w p = Ok e.
Proof. exact (main_total srt w p). Qed.
Print Assumptions C52_no_undefined_behaviour.

Example C52_hypotheses : sorts (@isort cpu) /\ usable_files wg /\ usable_files w51.
Proof. exact (conj (isort_sorts cpu_laws) (conj wg_usable w51_usable)). Qed.

(** Files exist on which the behaviour is undefined. *)
Theorem C52_all_files_refuted : exists w o, forall srt, main srt w (Parsed o) = Stop Undef.
Proof. exact run_undefined. Qed.
Print Assumptions C52_all_files_refuted.

(** C53: the exit status is 1 exactly if the options cannot be parsed or the
    technology is unknown; a run that prints nothing has found a map and has written
    it unless the output cannot be opened. *)
Theorem C53_status srt w p e : sorts srt -> usable_files w -> main srt w p = Ok e ->
  (status e = 0 \/ status e = 1) /\
  (status e = 1 <-> p = Repeated \/ p = Rejected \/
     exists o l r out, p = Parsed o /\ all_paths o l r out /\ ~ technology_ok o).
Proof. exact (main_status srt w p e). Qed.
Print Assumptions C53_status.

Theorem C53_silent srt w p e : sorts srt -> usable_files w -> main srt w p = Ok e -> printed e = None ->
  exists o l r out img txt, p = Parsed o /\ all_paths o l r out /\ technology_ok o /\ map_of w o l r img /\
    write_image [] (Some img) = Ok txt /\ status e = 0 /\
    written_file e = if writable w out then Some (out, txt) else None.
Proof. exact (main_silent srt w p e). Qed.
Print Assumptions C53_silent.

(** Files that cannot be opened or hold no image. *)
Theorem C53_unread (w : world) (o : options) (lpath rpath out : text) : all_paths o lpath rpath out -> technology_ok o ->
  forall srt,
  (files w lpath = None \/ (exists l, file_holds w lpath l /\ width l * height l < 2 ^ 32) /\ files w rpath = None ->
   main srt w (Parsed o) = Ok (ends 0 (Some (InvalidArgumentError CannotOpen)) None)) /\
  (broken_file w lpath \/ (exists l, file_holds w lpath l /\ width l * height l < 2 ^ 32) /\ broken_file w rpath ->
   main srt w (Parsed o) = Ok (ends 0 (Some (InvalidArgumentError NotPgm)) None)).
Proof. exact (main_unread w o lpath rpath out). Qed.
Print Assumptions C53_unread.

(** A map that cannot be written is lost without a message. *)
Theorem C53_lost_map_refuted : exists w o lpath rpath out img, all_paths o lpath rpath out /\ technology_ok o /\ usable_files w /\
  map_of w o lpath rpath img /\ writable w out = false /\
  forall srt, sorts srt -> main srt w (Parsed o) = Ok (ends 0 None None).
Proof. exact result_not_reported. Qed.
Print Assumptions C53_lost_map_refuted.

Example C53_missing : all_paths o51 (lit "l.pgm") (lit "r.pgm") out_path /\ technology_ok o51 /\ files (world_of []) (lit "l.pgm") = None.
Proof. exact (conj o51_paths (conj (run_technology _ _ _ _) eq_refl)). Qed.

(** C54: only the number at the start of an option counts. *)
Theorem C54_leading_number srt w o o' : o_left o = o_left o' -> o_right o = o_right o' -> o_output o = o_output o' ->
  o_parallel o = o_parallel o' -> same_number (o_levels o) (o_levels o') ->
  same_number (o_cleanness o) (o_cleanness o') -> same_number (o_smoothness o) (o_smoothness o') ->
  main srt w (Parsed o) = main srt w (Parsed o').
Proof. exact (main_numbers srt w o o'). Qed.
Print Assumptions C54_leading_number.

(** Every option is a number, no number, or too large a number; the latter two are
    reported. *)
Theorem C54_kinds d o : (exists v, option_number d o v) \/ option_invalid o \/ option_too_large o.
Proof. exact (option_kinds d o). Qed.
Print Assumptions C54_kinds.

Theorem C54_rejected (w : world) (o : options) (lpath rpath out : text) (l r : image) :
  all_paths o lpath rpath out -> technology_ok o -> file_holds w lpath l -> file_holds w rpath r ->
  width l * height l < 2 ^ 32 -> width r * height r < 2 ^ 32 -> forall srt,
  (first_unusable o l option_invalid -> main srt w (Parsed o) = Ok (ends 0 (Some (InvalidArgumentError StoulInvalid)) None)) /\
  (first_unusable o l option_too_large -> main srt w (Parsed o) = Ok (ends 0 (Some (LogicError StoulRange)) None)).
Proof. exact (main_numbers_rejected w o lpath rpath out l r). Qed.
Print Assumptions C54_rejected.

(** A weight is not used as given: "0.5" means 0 and "-1" means 2^64 - 1. *)
Theorem C54_as_given_refuted : exists half zero minus_one : text,
  half = lit "0.5" /\ zero = lit "0" /\ minus_one = lit "-1" /\
  same_number (Some half) (Some zero) /\ forall d, option_number d (Some minus_one) 18446744073709551615.
Proof. exact weights_not_as_given. Qed.
Print Assumptions C54_as_given_refuted.

Example C54_files : file_holds wg (lit "l.pgm") gl /\ file_holds wg (lit "r.pgm") gr.
Proof. exact (conj wg_left wg_right). Qed.
Example C54_invalid : option_invalid (Some (lit "x1")) /\ option_too_large (Some (lit " 18446744073709551616")).
Proof. exact options_invalid. Qed.

(** C55: the help is never printed, not even for --help or without options. *)
Theorem C55_help_refuted : 
  (forall srt w p e, main srt w p = Ok e -> printed e <> Some Help) /\
  forall help srt w, main srt w (Parsed (no_options help)) = Ok (ends 0 (Some NoImages) None).
Proof. exact (conj main_no_help (fun help srt w => eq_refl)). Qed.
Print Assumptions C55_help_refuted.

(** C64: the result does not depend on how [std::sort] orders equal penalties (for
    example 0 and -0). *)
Theorem C64_sorting_irrelevant srt srt' w p : sorts srt -> sorts srt' -> usable_files w -> main srt w p = main srt' w p.
Proof. exact (main_same srt srt' w p). Qed.
Print Assumptions C64_sorting_irrelevant.

Example C64_hypotheses : sorts (@isort cpu) /\ usable_files wg.
Proof. exact (conj (isort_sorts cpu_laws) wg_usable). Qed.

(** C65: a run on two image files either writes a best map or reports that no
    labeling was found if the problem is good, and otherwise reports the first
    requirement violated. *)
Theorem C65_good_problem (w : world) (o : options) (lpath rpath out : text) (l r : image) (lev c s : N) :
  all_paths o lpath rpath out -> technology_ok o -> file_holds w lpath l -> file_holds w rpath r ->
  option_number (width l) (o_levels o) lev -> option_number 1 (o_cleanness o) c -> option_number 1 (o_smoothness o) s ->
  width l * height l < 2 ^ 32 -> width r * height r < 2 ^ 32 -> forall srt, sorts srt ->
  4 * (width l * width l * height l) < 2 ^ 64 -> width l * height l * 4 * lev <= vector_max_size ->
  good_problem l r lev c s ->
  exists g lp, make_graph l r lev (@of_u cpu c) (of_u s) = Ok g /\ make_lowest g = Ok lp /\
    (main srt w (Parsed o) = Ok (ends 0 (Some (LogicError CannotLabel)) None) \/
     exists img txt, best_map g lp img /\ write_image [] (Some img) = Ok txt /\
       main srt w (Parsed o) = Ok (ends 0 None (if writable w out then Some (out, txt) else None))).
Proof. exact (given_good w o lpath rpath out l r lev c s). Qed.
Print Assumptions C65_good_problem.

Theorem C65_bad_problem (w : world) (o : options) (lpath rpath out : text) (l r : image) (lev c s : N) :
  all_paths o lpath rpath out -> technology_ok o -> file_holds w lpath l -> file_holds w rpath r ->
  option_number (width l) (o_levels o) lev -> option_number 1 (o_cleanness o) c -> option_number 1 (o_smoothness o) s ->
  width l * height l < 2 ^ 32 -> width r * height r < 2 ^ 32 -> forall srt,
  width l * height l * 4 * lev <= vector_max_size -> ~ good_problem l r lev c s ->
  exists k, first_violated l r lev (@of_u cpu c) (of_u s) k /\
    main srt w (Parsed o) = Ok (ends 0 (Some (InvalidArgumentError (InvalidArgument k))) None).
Proof. exact (given_bad w o lpath rpath out l r lev c s). Qed.
Print Assumptions C65_bad_problem.

Example C65_hypotheses : all_paths (og out_path) (lit "l.pgm") (lit "r.pgm") out_path /\ technology_ok (og out_path) /\
  file_holds wg (lit "l.pgm") gl /\ file_holds wg (lit "r.pgm") gr /\ good_problem gl gr 3 1 1 /\
  option_number 4 (o_levels (og out_path)) 3 /\ ~ good_problem gl gr 1 1 1.
Proof. exact good_example. Qed.

(** C66: a problem whose cheapest matches respect the ordering constraint and need
    no smoothing is solved, and the map consists of these matches. *)
Theorem C66_cheapest (T : target) (HL : laws T) srt (l r : image) lev (c s : F T) g lp k :
  sorts srt -> make_graph l r lev c s = Ok g -> make_lowest g = Ok lp -> consistent_image l -> consistent_image r ->
  width l * height l * 4 * lev < wmod T -> finite_penalties g ->
  cheapest g k -> labeling_ok g k -> edges_within g lp fzero k ->
  exists img, solve_problem srt l r lev c s = Ok img /\ best_map g lp img /\
    forall p, in_image g p -> map_labeling img p = k p.
Proof. exact (solve_cheapest HL srt l r lev c s g lp k). Qed.
Print Assumptions C66_cheapest.

(** C67: for equal images the map is zero everywhere. *)
Theorem C67_equal_images (w : world) (o : options) (lpath rpath out : text) (l : image) (lev c s : N) :
  all_paths o lpath rpath out -> technology_ok o -> file_holds w lpath l -> file_holds w rpath l ->
  option_number (width l) (o_levels o) lev -> option_number 1 (o_cleanness o) c -> option_number 1 (o_smoothness o) s ->
  width l * height l < 2 ^ 32 -> forall srt, sorts srt ->
  4 * (width l * width l * height l) < 2 ^ 64 -> width l * height l * 4 * lev <= vector_max_size ->
  good_problem l l lev c s ->
  valid_image (zero_map (width l) (height l) lev) /\
  exists txt, write_image [] (Some (zero_map (width l) (height l) lev)) = Ok txt /\
    main srt w (Parsed o) = Ok (ends 0 None (if writable w out then Some (out, txt) else None)).
Proof. exact (given_equal w o lpath rpath out l lev c s). Qed.
Print Assumptions C67_equal_images.

(** The zero map of equal images is such a case. *)
Theorem C66_equal_images (T : target) (HL : laws T) (l : image) lev (c s : F T) g lp :
  make_graph l l lev c s = Ok g -> make_lowest g = Ok lp ->
  consistent_image l -> width l * height l * 4 * lev < wmod T -> finite_penalties g ->
  cheapest g (fun _ => 0) /\ labeling_ok g (fun _ => 0) /\ edges_within g lp fzero (fun _ => 0).
Proof. exact (zero_cheapest HL l lev c s g lp). Qed.
Print Assumptions C66_equal_images.

Example C67_hypotheses : good_problem gl gl 3 1 1 /\ file_holds wg (lit "l.pgm") gl /\ width gl * height gl < 2 ^ 32 /\
  4 * (width gl * width gl * height gl) < 2 ^ 64 /\ width gl * height gl * 4 * 3 <= vector_max_size.
Proof. exact equal_example. Qed.

(** C68: a map written with at most 65536 levels can be read back ... *)
Theorem C68_readable srt w p e path txt : sorts srt -> usable_files w -> main srt w p = Ok e -> written_file e = Some (path, txt) ->
  exists o l r img, p = Parsed o /\ all_paths o l r path /\ map_of w o l r img /\
    forall w' path', files w' path' = Some txt ->
      (max_value img <= 65536 -> file_holds w' path' img /\ read_file w' path' = Ok img) /\
      (65536 < max_value img -> read_file w' path' = Stop (Throw NotPgm)).
Proof. exact (main_readable srt w p e path txt). Qed.
Print Assumptions C68_readable.

(** ... but with more levels, which are accepted, it cannot. *)
Theorem C68_deep_map_refuted : exists w o lpath rpath out l txt n, all_paths o lpath rpath out /\
  file_holds w lpath l /\ file_holds w rpath l /\ good_problem l l n 1 1 /\
  (forall srt, sorts srt -> main srt w (Parsed o) = Ok (ends 0 None (Some (out, txt)))) /\
  forall w', files w' out = Some txt -> read_file w' out = Stop (Throw NotPgm).
Proof. exact deep_map_ex. Qed.
Print Assumptions C68_deep_map_refuted.
