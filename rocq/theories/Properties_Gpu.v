(** Properties C57 - C59 and C69 - C72: the GPU builds.  The semantics of the kernels
    is in Gpu.v: [sc] says whether loads see the latest store, [kind] what barriers do
    if some work-items have left the kernel, [group] maps work-items to work-groups. *)
From Coq Require Import String.
From Verif Require Import Gpu_facts Device_witness.
Local Open Scope N_scope.

(** C57: in every state a launch can get to, on any device, all accesses are in
    bounds, nothing was made available and consistent labelings are kept... *)
Theorem C57_every_execution_safe (T : target) (cg : cgraph T) a sc kind group f s :
  wf_cgraph cg -> kernel_steps cg a sc kind group (launch_start cg a (cg_avail cg) f) s ->
  let cg' := with_avail cg (current (khistory s)) in
  wf_cgraph cg' /\ same_problem cg cg' /\
  (forall p t, In (p, Work t) (items s) -> in_image (cg_graph cg) p /\ ~ faulty (current (khistory s)) t /\
     ((exists r, t = Run (Ret r)) \/ exists t' h', tstep sc 1 t (khistory s) t' h')) /\
  (forall n, in_image (cg_graph cg) (npix n) -> disp n < levels (cg_graph cg) -> available cg' n -> available cg n) /\
  (forall k, solution cg k -> solution cg' k).
Proof. exact (fun Hc => device_safe cg Hc a sc kind group f s). Qed.
Print Assumptions C57_every_execution_safe.

(** ...also after all the launches of a propagation, which keep even every
    arc-consistent set of matches. *)
Theorem C57_propagation (T : target) (cg : cgraph T) a sc kind partition f m' f' :
  wf_cgraph cg -> propagate cg a sc kind partition (cg_avail cg) f m' f' ->
  let cg' := with_avail cg m' in
  wf_cgraph cg' /\ same_problem cg cg' /\
  (forall n, in_image (cg_graph cg) (npix n) -> disp n < levels (cg_graph cg) -> available cg' n -> available cg n) /\
  (forall K n, arc_consistent cg K -> K n -> available cg' n) /\
  (forall k, solution cg k -> solution cg' k).
Proof. exact (fun Hc => device_propagation cg Hc a sc kind partition f m' f'). Qed.
Print Assumptions C57_propagation.

Example C57_hypotheses : wf_cgraph ocl58 /\ wf_cgraph cud58 /\
  (exists m' f', launch ocl58 OpenCL true Strict same_group (cg_avail ocl58) no_flags m' f' /\ m' <> cg_avail ocl58) /\
  (exists m' f', launch cud58 CUDA true Strict same_group (cg_avail cud58) no_flags m' f' /\ m' <> cg_avail cud58).
Proof. exact (conj ocl58_wf (conj cud58_wf (conj ocl58_launch cud58_launch))). Qed.

(** C58: a launch of one group that waits for all of its work-items removes exactly
    the matches that are in no arc-consistent set. *)
Theorem C58_arc_consistent (T : target) (cg : cgraph T) a group f m' f' :
  wf_cgraph cg -> one_group group -> launch cg a true Strict group (cg_avail cg) f m' f' ->
  settled (with_avail cg m') /\
  (forall n, match_exists (cg_graph cg) n ->
     (available (with_avail cg m') n <-> exists K, arc_consistent cg K /\ K n)) /\
  (a = OpenCL -> any_flag f' = false -> m' = cg_avail cg).
Proof. exact (fun Hc => device_settles cg Hc a group f m' f'). Qed.
Print Assumptions C58_arc_consistent.

Example C58_hypotheses : wf_cgraph cud58 /\ one_group same_group /\
  exists m' f', launch cud58 CUDA true Strict same_group (cg_avail cud58) no_flags m' f' /\ m' <> cg_avail cud58.
Proof. exact (conj cud58_wf (conj same_group_one cud58_launch)). Qed.

(** It does not hold on devices whose barriers skip finished work-items. *)
Theorem C58_skipping_barriers_refuted : exists (cg : cgraph cuda) group f m' f',
  wf_cgraph cg /\ one_group group /\ launch cg CUDA true SkipDone group (cg_avail cg) f m' f' /\ ~ settled (with_avail cg m').
Proof.
  exact (match cud58_early with ex_intro _ m' (ex_intro _ f' (conj L N)) =>
    ex_intro _ cud58 (ex_intro _ same_group (ex_intro _ no_flags (ex_intro _ m' (ex_intro _ f'
      (conj cud58_wf (conj same_group_one (conj L N))))))) end).
Qed.
Print Assumptions C58_skipping_barriers_refuted.

(** C59 is violated: for two equal images, the first launch of either kernel may hang,
    some work-items waiting at a barrier for others that have left. *)
Theorem C59_barriers_meet_refuted :
  exists srt img lev (g : dgraph cpu) cg (co : cgraph opencl) (cc : cgraph cuda), sorts srt /\
  make_graph img img lev (of_u 1) (of_u 1) = Ok g /\ prepared srt img img lev (of_u 1) (of_u 1) = Ok cg /\
  exec (fun cg => choose_best_node cg px0) (opencl_problem cg) = Ok (true, co) /\ may_hang co OpenCL /\
  exec (fun cg => choose_best_node cg px0) (cuda_problem cg) = Ok (true, cc) /\ may_hang cc CUDA.
Proof. exact equal_images_hang. Qed.
Print Assumptions C59_barriers_meet_refuted.

(** A launch may hang if and only if there is something to remove. *)
Theorem C59_when (T : target) (cg : cgraph T) a group f :
  wf_cgraph cg -> one_group group ->
  (settled cg -> forall s, kernel_steps cg a true Strict group (launch_start cg a (cg_avail cg) f) s ->
     ~ diverged group s /\ current (khistory s) = cg_avail cg) /\
  (forall n, match_exists (cg_graph cg) n -> exec (fun cg => should_remove_node cg n) cg = Ok (true, cg) ->
     exists s, kernel_steps cg a true Strict group (launch_start cg a (cg_avail cg) f) s /\ diverged group s /\
       forall sc s', kernel_steps cg a sc Strict group s s' -> ~ finished s').
Proof. exact (hang_iff cg a group f). Qed.
Print Assumptions C59_when.

Example C59_hypotheses : wf_cgraph ocl58 /\ one_group same_group /\ ~ settled ocl58.
Proof.
  refine (conj ocl58_wf (conj same_group_one _)). rewrite <- (with_avail_same ocl58).
  apply (removable_unsettled _ _ (nd 0 0 2)); [|vm_compute; reflexivity].
  split; [|split]; vm_compute; try reflexivity. split; reflexivity.
Qed.

(** C69: whatever the device, [csp_solution_cl] and [csp_solution_cuda], if they end,
    leave at most one match per pixel, and if they leave one for every pixel, these
    are a consistent labeling. *)
Theorem C69_device_labeling (T : target) (HL : laws T) (cg : cgraph T) a sc kind partition m' :
  wf_cgraph cg -> csp_solution cg a sc kind partition m' ->
  let cg' := with_avail cg m' in
  wf_cgraph cg' /\ same_problem cg cg' /\
  (forall n, in_image (cg_graph cg) (npix n) -> disp n < levels (cg_graph cg) -> available cg' n -> available cg n) /\
  (forall n n', match_exists (cg_graph cg) n -> match_exists (cg_graph cg) n' -> npix n = npix n' ->
     available cg' n -> available cg' n' -> n = n') /\
  ((forall p, in_image (cg_graph cg) p -> exists d, match_exists (cg_graph cg) {| npix := p; disp := d |} /\
      available cg' {| npix := p; disp := d |}) ->
   exists k, solution cg' k /\ forall n, match_exists (cg_graph cg) n -> (available cg' n <-> disp n = k (npix n))).
Proof. exact (fun Hc => device_label cg Hc HL a sc kind partition m'). Qed.
Print Assumptions C69_device_labeling.

(** The application then finds no label for some pixel, or writes a map of matches in
    order whose penalties are within a threshold that no labeling stays below. *)
Theorem C69_device_map a v srt l r lev (c s : F cpu) g o :
  sorts srt -> make_graph l r lev c s = Ok g -> consistent_image l -> consistent_image r ->
  width l * height l * 4 * lev < 2 ^ 64 -> addressable a r lev -> finite_penalties g ->
  solves_with (On a) v srt l r lev c s o ->
  exists lp t, make_lowest g = Ok lp /\
  (o = Stop (Throw NoLabel) \/
   exists img, o = Ok img /\ width img = width r /\ height img = height r /\ max_value img = lev /\
     consistent_image img /\ valid_image img /\ labeling_ok g (map_labeling img) /\ nodes_within g lp t (map_labeling img)) /\
  forall k b, labeling_ok g k -> nodes_within g lp b k -> edges_within g lp b k -> fle t b = true.
Proof. exact (gpu_map a v srt l r lev c s g o). Qed.
Print Assumptions C69_device_map.

Example C69_hypotheses a : sorts (@isort cpu) /\ (exists g : dgraph cpu, make_graph gl gr 3 (of_u 1) (of_u 1) = Ok g) /\
  addressable a gr 3 /\ solves_with (On a) good_device (@isort cpu) gl gr 3 (of_u 1) (of_u 1) (Ok mapg).
Proof.
  refine (conj (isort_sorts cpu_laws) (conj _ (conj _ (solvesg a)))); [|destruct a; reflexivity].
  exists (problem 4 2 3 (data gl) (data gr) 1 1). made.
Qed.

(** C70 is violated: with several groups the last launch may end with both flags
    reset although it changed something and more is to be removed. *)
Theorem C70_several_groups_refuted : exists (cg : cgraph opencl) f m' f',
  wf_cgraph cg /\ propagate cg OpenCL true Strict (fun group => group = two_groups) (cg_avail cg) f m' f' /\
  m' <> cg_avail cg /\ ~ settled (with_avail cg m').
Proof.
  exact (match ocl58_late with ex_intro _ m' (ex_intro _ f' (conj L (conj A (conj D N)))) =>
    ex_intro _ ocl58 (ex_intro _ no_flags (ex_intro _ m' (ex_intro _ f'
      (conj ocl58_wf (conj (propagate_once _ _ _ _ _ _ _ _ _ (ex_intro _ two_groups (conj eq_refl L)) (fun _ => A)) (conj D N)))))) end).
Qed.
Print Assumptions C70_several_groups_refuted.

(** It holds with one group, even if its barriers skip finished work-items. *)
Theorem C70_one_group (T : target) (cg : cgraph T) kind (partition : (nat -> nat) -> Prop) f m' f' :
  wf_cgraph cg -> kind <> Absent -> (forall g, partition g -> one_group g) ->
  propagate cg OpenCL true kind partition (cg_avail cg) f m' f' ->
  settled (with_avail cg m') /\
  forall n, match_exists (cg_graph cg) n -> (available (with_avail cg m') n <-> exists K, arc_consistent cg K /\ K n).
Proof. exact (fun Hc => host_settles cg Hc kind partition f m' f'). Qed.
Print Assumptions C70_one_group.

(** C71: launches have bounded length on sequentially consistent devices... *)
Theorem C71_bounded (T : target) (cg : cgraph T) a kind group f :
  wf_cgraph cg -> exists bound, forall n s,
  kernel_path cg a true kind group n (launch_start cg a (cg_avail cg) f) s -> (n <= bound)%nat.
Proof. exact (fun Hc => device_bounded cg Hc a kind group f). Qed.
Print Assumptions C71_bounded.

(** ...and when nothing more can happen, all work-items have finished, or some wait
    for others that have left. *)
Theorem C71_stuck (T : target) (cg : cgraph T) a sc kind group f s :
  wf_cgraph cg -> kernel_steps cg a sc kind group (launch_start cg a (cg_avail cg) f) s ->
  (forall s', ~ kernel_step cg a sc kind group s s') -> finished s \/ (kind = Strict /\ diverged group s).
Proof. exact (fun Hc => device_stuck cg Hc a sc kind group f s). Qed.
Print Assumptions C71_stuck.

(** C72: while all penalties are at most 2^24 and the arrays can be addressed, maps
    found on a device, whatever it is, are optimal in exact integer arithmetic... *)
Theorem C72_optimal a v srt l r lev c s (g : dgraph cpu) o :
  sorts srt -> make_graph l r lev (of_u c) (of_u s) = Ok g -> consistent_image l -> consistent_image r ->
  width l * height l * 4 * lev < 2 ^ 64 -> addressable a r lev ->
  small_penalties (2 ^ 24) l r lev (Z.of_N c) (Z.of_N s) ->
  solves_with (On a) v srt l r lev (of_u c) (of_u s) o ->
  o = Stop (Throw NoLabel) \/ exists img, o = Ok img /\ optimal_map l r lev (Z.of_N c) (Z.of_N s) img.
Proof. exact (gpu_optimal a v srt l r lev c s g o). Qed.
Print Assumptions C72_optimal.

(** ...and so are the maps written by the application. *)
Theorem C72_written b v srt w p e path txt a :
  sorts srt -> usable_files w -> main_with b v srt w p (Ok e) -> written_file e = Some (path, txt) ->
  (forall o, p = Parsed o -> chosen b (o_parallel o) = Ok (On a)) ->
  status e = 0 /\ printed e = None /\ writable w path = true /\
  exists o lpath rpath l r lev c s img, p = Parsed o /\ all_paths o lpath rpath path /\
    file_holds w lpath l /\ file_holds w rpath r /\ option_number (width l) (o_levels o) lev /\
    option_number 1 (o_cleanness o) c /\ option_number 1 (o_smoothness o) s /\
    write_image [] (Some img) = Ok txt /\
    (addressable a r lev -> small_penalties (2 ^ 24) l r lev (Z.of_N c) (Z.of_N s) ->
     optimal_map l r lev (Z.of_N c) (Z.of_N s) img).
Proof. exact (gpu_written b v srt w p e path txt a). Qed.
Print Assumptions C72_written.

Example C72_hypotheses a : sorts (@isort cpu) /\ usable_files wg /\
  main_with both good_device (@isort cpu) wg (Parsed (od a)) (Ok (ends 0 None (Some (out_path, textg)))) /\
  (forall o, Parsed (od a) = Parsed o -> chosen both (o_parallel o) = Ok (On a)) /\
  addressable a gr 3 /\ small_penalties (2 ^ 24) gl gr 3 1 1.
Proof.
  refine (conj (isort_sorts cpu_laws) (conj wg_usable (conj (device_run a) (conj _ (conj _ _))))).
  - intros o E. injection E as <-. destruct a; vm_compute; reflexivity.
  - destruct a; reflexivity.
  - exists 10%Z. split; [|lia]. intros v [H|H]; cbn in H; decompose [or] H; subst; try lia; contradiction.
Qed.

(** It is violated for larger penalties, on devices that do what the kernels expect
    and although they are small enough for the build without GPUs. *)
Theorem C72_larger_penalties_refuted a : exists srt l r lev c s (g : dgraph cpu) img,
  sorts srt /\ make_graph l r lev (of_u c) (of_u s) = Ok g /\ consistent_image l /\ consistent_image r /\ addressable a r lev /\
  small_penalties (2 ^ 53) l r lev (Z.of_N c) (Z.of_N s) /\
  solves_with (On a) good_device srt l r lev (of_u c) (of_u s) (Ok img) /\ ~ optimal_map l r lev (Z.of_N c) (Z.of_N s) img.
Proof. exact (rounded_map a). Qed.
Print Assumptions C72_larger_penalties_refuted.

(** C74: a run on a device that comes to an end ends with status 0, and has printed a
    message or written a valid image (or failed to open the output file, see C53). *)
Theorem C74_accounted b v srt w o lpath rpath out a e :
  sorts srt -> usable_files w -> all_paths o lpath rpath out -> chosen b (o_parallel o) = Ok (On a) ->
  (forall l lev, file_holds w lpath l -> option_number (width l) (o_levels o) lev -> lev <= width l -> addressable a l lev) ->
  main_with b v srt w (Parsed o) e ->
  (exists x, e = Ok (ends 0 (Some (report x)) None)) \/
  exists img txt, write_image [] (Some img) = Ok txt /\ valid_image img /\
    e = Ok (ends 0 None (if writable w out then Some (out, txt) else None)).
Proof. exact (gpu_accounted b v srt w o lpath rpath out a e). Qed.
Print Assumptions C74_accounted.

Example C74_hypotheses a : usable_files wg /\ all_paths (od a) (lit "l.pgm") (lit "r.pgm") out_path /\
  chosen both (o_parallel (od a)) = Ok (On a) /\
  (forall l lev, file_holds wg (lit "l.pgm") l -> option_number (width l) (o_levels (od a)) lev -> lev <= width l -> addressable a l lev) /\
  main_with both good_device (@isort cpu) wg (Parsed (od a)) (Ok (ends 0 None (Some (out_path, textg)))).
Proof.
  refine (conj wg_usable (conj (og_paths out_path) (conj _ (conj _ (device_run a))))).
  - destruct a; vm_compute; reflexivity.
  - exact (wg_addressable a).
Qed.

(** A build without GPUs behaves as the model of Main (C49 - C56) says. *)
Theorem C74_without_devices v srt w p e :
  main_with {| use_opencl := false; use_cuda := false |} v srt w p e <-> e = main srt w p.
Proof. exact (main_with_plain v srt w p e). Qed.
Print Assumptions C74_without_devices.
