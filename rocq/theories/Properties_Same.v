(** Properties C73 and C88: results on devices and on the CPU. *)
From Coq Require Import String.
From Verif Require Import Same_proofs Same_witness Agree_proofs Agree_witness Lattice_witness.
Local Open Scope N_scope.

(** C73: where the labeling on the CPU finds a map, every run on an orderly device
    finds the same one if all penalties are at most 2^24... *)
Theorem C73_same_map a v srt l r lev c s o img :
  sorts srt -> consistent_image l -> consistent_image r ->
  width l * height l * 4 * lev < 2 ^ 64 -> addressable a r lev ->
  small_penalties (2 ^ 24) l r lev (Z.of_N c) (Z.of_N s) -> orderly a v ->
  solve_problem srt l r lev (of_u (t := cpu) c) (of_u s) = Ok img ->
  solves_with (On a) v srt l r lev (of_u c) (of_u s) o -> o = Ok img.
Proof. exact (gpu_same a v srt l r lev c s o img). Qed.
Print Assumptions C73_same_map.

(** ...and the application writes the same file whichever technology is asked for. *)
Theorem C73_same_file b v srt w o o' path txt a e e' :
  sorts srt -> usable_files w -> main srt w (Parsed o) = Ok e -> written_file e = Some (path, txt) ->
  same_request o o' -> chosen b (o_parallel o') = Ok (On a) -> orderly a v ->
  (forall lpath rpath l r lev c s, all_paths o lpath rpath path -> file_holds w lpath l -> file_holds w rpath r ->
     option_number (width l) (o_levels o) lev -> option_number 1 (o_cleanness o) c -> option_number 1 (o_smoothness o) s ->
     addressable a r lev /\ small_penalties (2 ^ 24) l r lev (Z.of_N c) (Z.of_N s)) ->
  main_with b v srt w (Parsed o') e' -> e' = Ok e.
Proof. exact (gpu_same_file b v srt w o o' path txt a e e'). Qed.
Print Assumptions C73_same_file.

Example C73_hypotheses a : sorts (@isort cpu) /\ usable_files wg /\
  main (@isort cpu) wg (Parsed (og out_path)) = Ok (ends 0 None (Some (out_path, textg))) /\
  same_request (og out_path) (od a) /\ chosen both (o_parallel (od a)) = Ok (On a) /\ orderly a good_device /\
  (forall lpath rpath l r lev c s, all_paths (og out_path) lpath rpath out_path -> file_holds wg lpath l -> file_holds wg rpath r ->
     option_number (width l) (o_levels (og out_path)) lev -> option_number 1 (o_cleanness (og out_path)) c ->
     option_number 1 (o_smoothness (og out_path)) s ->
     addressable a r lev /\ small_penalties (2 ^ 24) l r lev (Z.of_N c) (Z.of_N s)) /\
  main_with both good_device (@isort cpu) wg (Parsed (od a)) (Ok (ends 0 None (Some (out_path, textg)))).
Proof.
  refine (conj (isort_sorts cpu_laws) (conj wg_usable (conj (rung _ (isort_sorts cpu_laws)) (conj _ (conj _ (conj (good_orderly a) (conj (wg_small a) (device_run a)))))))).
  - repeat split.
  - destruct a; vm_compute; reflexivity.
Qed.

(** The converse is violated: devices find maps where the labeling on the CPU fails,
    because the CPU sweeps only once after each choice (C36) and then chooses among
    disparities that devices have removed. *)
Theorem C73_conversely_refuted a : exists srt l r lev c s img,
  sorts srt /\ consistent_image l /\ consistent_image r /\ width l * height l * 4 * lev < 2 ^ 64 /\ addressable a r lev /\
  small_penalties (2 ^ 24) l r lev (Z.of_N c) (Z.of_N s) /\ orderly a good_device /\
  solve_problem srt l r lev (of_u (t := cpu) c) (of_u s) = Stop (Throw CannotLabel) /\
  solves_with (On a) good_device srt l r lev (of_u c) (of_u s) (Ok img).
Proof. exact (only_devices a). Qed.
Print Assumptions C73_conversely_refuted.

(** C88: two runs on orderly devices for the same problem leave the same matches
    available... *)
Theorem C88_runs_agree (T : target) (HL : laws T) (cg : cgraph T) a v m a' v' m' :
  plain_problem cg -> orderly a v -> orderly a' v' ->
  csp_solution cg a true (b_kind v) (b_partition v) m -> csp_solution cg a' true (b_kind v') (b_partition v') m' ->
  forall n, match_exists (cg_graph cg) n -> (available (with_avail cg m) n <-> available (with_avail cg m') n).
Proof. exact (runs_agree HL cg a v m a' v' m'). Qed.
Print Assumptions C88_runs_agree.

(** ...and two runs on orderly devices, OpenCL or CUDA, have the same outcome if all
    penalties are at most 2^24, whether a map is found or not... *)
Theorem C88_devices_agree a a' v v' srt l r lev c s o o' :
  sorts srt -> consistent_image l -> consistent_image r ->
  width l * height l * 4 * lev < 2 ^ 64 -> addressable a r lev -> addressable a' r lev ->
  small_penalties (2 ^ 24) l r lev (Z.of_N c) (Z.of_N s) -> orderly a v -> orderly a' v' ->
  solves_with (On a) v srt l r lev (of_u (t := cpu) c) (of_u s) o ->
  solves_with (On a') v' srt l r lev (of_u (t := cpu) c) (of_u s) o' -> o = o'.
Proof. exact (gpu_agree a a' v v' srt l r lev c s o o'). Qed.
Print Assumptions C88_devices_agree.

(** ...and the application prints and writes the same. *)
Theorem C88_same_file b b' v v' srt w o o' a a' e e' :
  sorts srt -> usable_files w -> same_request o o' ->
  chosen b (o_parallel o) = Ok (On a) -> chosen b' (o_parallel o') = Ok (On a') -> orderly a v -> orderly a' v' ->
  (forall lpath rpath path l r lev c s, all_paths o lpath rpath path -> file_holds w lpath l -> file_holds w rpath r ->
     option_number (width l) (o_levels o) lev -> option_number 1 (o_cleanness o) c -> option_number 1 (o_smoothness o) s ->
     addressable a r lev /\ addressable a' r lev /\ small_penalties (2 ^ 24) l r lev (Z.of_N c) (Z.of_N s)) ->
  main_with b v srt w (Parsed o) e -> main_with b' v' srt w (Parsed o') e' -> e = e'.
Proof. exact (gpu_agree_file b b' v v' srt w o o' a a' e e'). Qed.
Print Assumptions C88_same_file.

Example C88_hypotheses a a' : sorts (@isort cpu) /\ usable_files wg /\ same_request (od a) (od a') /\
  chosen both (o_parallel (od a)) = Ok (On a) /\ orderly a good_device /\
  (forall lpath rpath path l r lev c s, all_paths (od a) lpath rpath path -> file_holds wg lpath l -> file_holds wg rpath r ->
     option_number (width l) (o_levels (od a)) lev -> option_number 1 (o_cleanness (od a)) c ->
     option_number 1 (o_smoothness (od a)) s ->
     addressable a r lev /\ addressable a' r lev /\ small_penalties (2 ^ 24) l r lev (Z.of_N c) (Z.of_N s)) /\
  main_with both good_device (@isort cpu) wg (Parsed (od a)) (Ok (ends 0 None (Some (out_path, textg)))) /\
  plain_problem row85 /\ exists m', csp_solution row85 CUDA true (b_kind good_device) (b_partition good_device) m'.
Proof.
  refine (conj (isort_sorts cpu_laws) (conj wg_usable (conj _ (conj _ (conj (good_orderly a) (conj (od_small a a') (conj (device_run a) (conj (proj1 row85_plain) row85_labels)))))))).
  - repeat split.
  - destruct a; vm_compute; reflexivity.
Qed.

(** Violated on devices whose barriers do not wait for work-items that have left: two
    runs for the same problem, of which one finds a map and the other does not. *)
Theorem C88_skipping_barriers_refuted : exists v srt l r lev c s img,
  b_sc v = true /\ b_kind v = SkipDone /\ (forall group, b_partition v group -> one_group group) /\
  sorts srt /\ consistent_image l /\ consistent_image r /\ width l * height l * 4 * lev < 2 ^ 64 /\ addressable CUDA r lev /\
  small_penalties (2 ^ 24) l r lev (Z.of_N c) (Z.of_N s) /\
  solves_with (On CUDA) v srt l r lev (of_u c) (of_u s) (Ok img) /\
  solves_with (On CUDA) v srt l r lev (of_u c) (of_u s) (Stop (Throw NoLabel)).
Proof. exact hasty_disagree. Qed.
Print Assumptions C88_skipping_barriers_refuted.
