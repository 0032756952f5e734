(** Claim C103: launches of the host loop and runs that end. *)
From Coq Require Import String.
From Verif Require Import Runs_spec Runs_proofs Runs_witness.
Local Open Scope N_scope.

(** C103: whatever the memory, the barriers and the groups of an OpenCL device do, a
    launch that makes the host start another one has removed a match for good, so
    that the number of further launches for one pixel is bounded by the number of
    available matches. *)
Theorem C103_relaunches {T : target} (cg : cgraph T) sc kind partition n f m' f' : wf_cgraph cg ->
  relaunched cg sc kind partition n (cg_avail cg) f m' f' -> (n + available_count m' <= available_count (cg_avail cg))%nat.
Proof. exact (relaunches cg sc kind partition n f m' f'). Qed.
Print Assumptions C103_relaunches.

Example C103_relaunches_case : wf_cgraph (with_avail cl72_problem first_choice) /\
  exists m' f', relaunched (with_avail cl72_problem first_choice) true Strict one_group 1 first_choice no_flags m' f'.
Proof. exact (conj chosen_wf chosen_relaunched). Qed.

(** All launches of a labeling together, also of one that is not complete, are at most
    one for each pixel and one for each available match, *)
Theorem C103_launches {T : target} (cg : cgraph T) sc kind partition n f m' f' : laws T -> wf_cgraph cg ->
  labeling_launches cg sc kind partition n (device_order cg) (cg_avail cg) f m' f' ->
  N.of_nat (n + available_count m') <= width (right (cg_graph cg)) * height (right (cg_graph cg)) + N.of_nat (available_count (cg_avail cg)).
Proof. exact (device_launches cg sc kind partition n f m' f'). Qed.
Print Assumptions C103_launches.

(** and hence at most one more than the number of levels for each pixel, *)
Theorem C103_launches_levels {T : target} (cg : cgraph T) sc kind partition n f m' f' : laws T -> wf_cgraph cg ->
  labeling_launches cg sc kind partition n (device_order cg) (cg_avail cg) f m' f' ->
  N.of_nat n <= width (right (cg_graph cg)) * height (right (cg_graph cg)) * (levels (cg_graph cg) + 1).
Proof. exact (device_launches_levels cg sc kind partition n f m' f'). Qed.
Print Assumptions C103_launches_levels.

(** and every labeling of the model is one of these. *)
Theorem C103_counted {T : target} (cg : cgraph T) sc kind partition m' : csp_solution cg OpenCL sc kind partition m' ->
  exists n f', labeling_launches cg sc kind partition n (device_order cg) (cg_avail cg) {| step_flag := false; any_flag := false |} m' f'.
Proof. exact (device_counted cg sc kind partition m'). Qed.
Print Assumptions C103_counted.

Example C103_launches_case : laws opencl /\ wf_cgraph cl72_problem /\
  exists f', labeling_launches cl72_problem true Strict one_group 5 (device_order cl72_problem) (cg_avail cl72_problem) no_flags mem72 f'.
Proof. exact (conj opencl_laws (conj cl72_wf cl72_launches)). Qed.

(** On every device, also one that waits for all work-items of a group at each barrier,
    the labeling of every problem can end: claims about what is found are never about
    no execution at all. *)
Theorem C103_ends {T : target} (cg : cgraph T) a sc kind partition : laws T -> wf_cgraph cg -> (exists group, partition group) ->
  exists m', csp_solution cg a sc kind partition m'.
Proof. exact (device_ends cg a sc kind partition). Qed.
Print Assumptions C103_ends.

Theorem C103_runs b v srt w o lpath rpath out a :
  sorts srt -> usable_files w -> all_paths o lpath rpath out -> chosen b (o_parallel o) = Ok (On a) ->
  (forall l lev, file_holds w lpath l -> option_number (width l) (o_levels o) lev -> lev <= width l -> addressable a l lev) ->
  (exists group, b_partition v group) -> exists e, main_with b v srt w (Parsed o) e.
Proof. exact (runs_exist b v srt w o lpath rpath out a). Qed.
Print Assumptions C103_runs.

Example C103_runs_case a : sorts (@isort cpu) /\ usable_files wg /\ all_paths (od a) (lit "l.pgm") (lit "r.pgm") out_path /\
  chosen both (o_parallel (od a)) = Ok (On a) /\
  (forall l lev, file_holds wg (lit "l.pgm") l -> option_number (width l) (o_levels (od a)) lev -> lev <= width l -> addressable a l lev) /\
  exists group, b_partition good_device group.
Proof.
  exact (conj (isort_sorts cpu_laws) (conj wg_usable (conj (og_paths out_path) (conj (chosen_device a) (conj (wg_addressable a)
    (ex_intro _ same_group same_group_one)))))).
Qed.
