(** What the application prints (C107, C108). *)
From Coq Require Import String.
From Verif Require Import Console_witness.
Local Open Scope N_scope.

(** C107: the technology that is named is used and announced; it is the processor if
    none is named... *)
Theorem C107_technology lib b v srt w o lpath rpath out pa :
  all_paths o lpath rpath out -> asks_for b (o_parallel o) pa ->
  (forall e, main_with b v srt w (Parsed o) e <-> exists x, map_with pa v srt w o lpath rpath x /\ e = finishes w out x) /\
  (forall u, main_told lib b v srt w (Parsed o) (Ok u) -> cout u = technology_line (o_parallel o) pa).
Proof. exact (fun Hp => technology_runs lib b v srt w o lpath rpath out Hp pa). Qed.
Print Assumptions C107_technology.

(** ...and a technology that is not built in is reported. *)
Theorem C107_unknown lib b v srt w o lpath rpath out :
  all_paths o lpath rpath out -> (forall pa, ~ asks_for b (o_parallel o) pa) -> exists t, o_parallel o = Some t /\
  forall s, main_told lib b v srt w (Parsed o) s <->
    s = Ok {| exit_status := 1; cout := []; saved := None;
              cerr := lit "Unexpected exception: `parallel` cannot be " ++ t ++ lit "." ++ [newline] |}.
Proof. exact (technology_unknown lib b v srt w o lpath rpath out). Qed.
Print Assumptions C107_unknown.

Example C107_hypotheses a : all_paths (od a) (lit "l.pgm") (lit "r.pgm") out_path /\ asks_for both (o_parallel (od a)) (On a) /\
  (exists u, main_told lib0 both good_device (@isort cpu) wg (Parsed (od a)) (Ok u) /\ saved u = Some (out_path, textg) /\ cerr u = []) /\
  forall pa, ~ asks_for {| use_opencl := false; use_cuda := true |} (Some (lit "opencl")) pa.
Proof. exact (conj (og_paths out_path) (conj (asks_device a) (conj (told_device a) asks_nothing))). Qed.

(** C108: the console shows the kinds of messages of the other theorems, and nothing
    if there is no message... *)
Theorem C108_reported lib b v srt w p :
  (forall e, main_with b v srt w p e -> exists s, main_told lib b v srt w p s /\ reported e s) /\
  (forall s, main_told lib b v srt w p s -> exists e, main_with b v srt w p e /\ reported e s).
Proof. exact (told_reported lib b v srt w p). Qed.
Print Assumptions C108_reported.

(** ...in one line, ... *)
Theorem C108_lines lib b v srt w p s : plain_library lib ->
  (forall o, p = Parsed o -> plain_option (o_left o) /\ plain_option (o_right o) /\ plain_option (o_parallel o)) ->
  main_told lib b v srt w p (Ok s) ->
  (cerr s = [] \/ one_line (cerr s)) /\ (cout s = [] \/ one_line (cout s)).
Proof. exact (fun H => told_lines lib H b v srt w p s). Qed.
Print Assumptions C108_lines.

(** ...with the name of the first file that cannot be opened or is no image, ... *)
Theorem C108_files lib b v srt w o lpath rpath out pa :
  all_paths o lpath rpath out -> asks_for b (o_parallel o) pa ->
  (forall path, first_input w lpath rpath path (fun path => files w path = None) ->
   forall s, main_told lib b v srt w (Parsed o) s <->
     s = Ok {| exit_status := 0; cout := technology_line (o_parallel o) pa; saved := None;
               cerr := lit "Invalid argument: " ++ (lit "Unable to open file `" ++ path ++ lit "`.") ++ [newline] |}) /\
  (forall path, first_input w lpath rpath path (broken_file w) ->
   forall s, main_told lib b v srt w (Parsed o) s <->
     s = Ok {| exit_status := 0; cout := technology_line (o_parallel o) pa; saved := None;
               cerr := lit "Invalid argument: " ++ (lit "File `" ++ path ++ lit "` is not a correct plain PGM image.") ++ [newline] |}).
Proof. exact (fun Hp => told_files lib b v srt w o lpath rpath out Hp pa). Qed.
Print Assumptions C108_files.

(** ...or the requirement the problem violates with exactly the numbers that violate
    it, in this order.  The message determines the requirement and these numbers. *)
Theorem C108_requirement lib b v srt w o k l r lev s :
  unsuitable b w o k l r lev -> main_told lib b v srt w (Parsed o) s ->
  exists pa u, asks_for b (o_parallel o) pa /\ s = Ok u /\ exit_status u = 0 /\
    cout u = technology_line (o_parallel o) pa /\ saved u = None /\
    begins (lit "Invalid argument: ") (cerr u) /\
    mentions (subject k) (cerr u) /\ (k < 7 -> shows (figures k l r lev) (cerr u)).
Proof. exact (requirement_told lib b v srt w o k l r lev s). Qed.
Print Assumptions C108_requirement.

Theorem C108_identified lib b v srt w o k l r lev s b' v' srt' w' o' k' l' r' lev' s' :
  unsuitable b w o k l r lev -> main_told lib b v srt w (Parsed o) (Ok s) ->
  unsuitable b' w' o' k' l' r' lev' -> main_told lib b' v' srt' w' (Parsed o') (Ok s') ->
  cerr s = cerr s' -> k = k' /\ figures k l r lev = figures k' l' r' lev'.
Proof. exact (requirement_identified lib b v srt w o k l r lev s b' v' srt' w' o' k' l' r' lev' s'). Qed.
Print Assumptions C108_identified.

(** The pixel named by the message about missing labels is the first one without. *)
Theorem C108_pixel lib (cg : cgraph cpu) e t : wf_cgraph cg ->
  explained (label_what lib cg) (exec build_disparity_map cg) = Ok (inl (e, t)) ->
  exists p tx ty, numeral tx (px p) /\ numeral ty (py p) /\
    t = lit "Cannot find label for the pixel <" ++ tx ++ lit ", " ++ ty ++ lit ">." /\
    in_image (cg_graph cg) p /\
    (forall d, match_exists (cg_graph cg) {| npix := p; disp := d |} -> ~ available cg {| npix := p; disp := d |}) /\
    forall q, in_image (cg_graph cg) q -> earlier q p ->
      exists d, match_exists (cg_graph cg) {| npix := q; disp := d |} /\ available cg {| npix := q; disp := d |}.
Proof. exact (pixel_named lib cg e t). Qed.
Print Assumptions C108_pixel.

(** Builds without GPUs print only some of the messages. *)
Theorem C108_appear srt w p e m : sorts srt -> usable_files w -> main srt w p = Ok e -> printed e = Some m -> can_appear m.
Proof. exact (messages_appear srt w p e m). Qed.
Print Assumptions C108_appear.

Example C108_hypotheses b v srt : plain_library lib0 /\ unsuitable b wg o_five 3 gl gr 5 /\
  main_told lib0 b v srt wg (Parsed o_five)
    (Ok {| exit_status := 0; cout := lit "OpenMP parallelism" ++ [newline]; cerr := text_five; saved := None |}).
Proof. exact (conj lib0_plain (conj (five_unsuitable b) (told_five b v srt))). Qed.
Example C108_missing : first_input (world_of []) (lit "l.pgm") (lit "r.pgm") (lit "l.pgm") (fun path => files (world_of []) path = None).
Proof. exact (or_introl (conj eq_refl eq_refl)). Qed.
Example C108_no_label : wf_cgraph no_label /\ explained (label_what lib0 no_label) (exec build_disparity_map no_label) =
  Ok (inl (NoLabel, lit "Cannot find label for the pixel <0, 0>.")).
Proof. exact (conj no_label_wf no_label_told). Qed.

(** The message about an option that is no number does not tell which one it is... *)
Theorem C108_option_named_refuted : exists w o o' l lpath rpath out, all_paths o lpath rpath out /\ all_paths o' lpath rpath out /\
  o_parallel o = o_parallel o' /\ file_holds w lpath l /\
  option_invalid (o_levels o) /\ ~ option_invalid (o_smoothness o) /\ option_invalid (o_smoothness o') /\ ~ option_invalid (o_levels o') /\
  forall lib b v srt s, main_told lib b v srt w (Parsed o) s <-> main_told lib b v srt w (Parsed o') s.
Proof. exact option_unnamed. Qed.
Print Assumptions C108_option_named_refuted.

(** ...and the one about a file with a number that does not fit does not name the file. *)
Theorem C108_file_named_refuted : exists w o lpath rpath out ts t, all_paths o lpath rpath out /\ files w lpath = Some t /\ laid_out ts t /\
  (exists tok, In tok ts /\ out_of_range tok) /\
  forall lib b v srt s, main_told lib b v srt w (Parsed o) s -> exists u, s = Ok u /\ exit_status u = 0 /\
    cerr u = lit "Logic error: stoul" ++ [newline] /\ ~ mentions lpath (cerr u).
Proof. exact file_unnamed. Qed.
Print Assumptions C108_file_named_refuted.
