(** Runs of the application built for GPUs. *)
From Coq Require Import String.
From Verif Require Export Device_proofs.
Local Open Scope N_scope.

(** A build without GPUs is the application of MainProg.v. *)
Lemma solves_with_cpu v srt l r lev c s o : solves_with OnCpu v srt l r lev c s o <-> o = solve_problem srt l r lev c s.
Proof.
  unfold solves_with, solve_problem, prepared.
  destruct (make_graph l r lev c s) as [g|e]; cbn [bind]; [|reflexivity].
  destruct (make_lowest g) as [lp|e]; cbn [bind]; [|reflexivity].
  destruct (fetch_available_penalties srt lp) as [cands|e]; cbn [bind]; [|reflexivity].
  destruct (calculate_minimal_consistent_threshold lp g cands) as [t|e]; cbn [bind]; [|reflexivity].
  destruct (make_constraint g lp t) as [cg|e]; cbn [bind]; [|reflexivity].
  destruct (exec solve_csp cg) as [[b cg1]|e]; cbn [bind fst snd]; [|reflexivity].
  destruct b; cbn [negb]; [|reflexivity]. unfold labels, mapped.
  split; [intros [x [-> ->]]|intros ->]; [|eexists; split; [reflexivity|]];
    destruct (exec find_labeling cg1) as [[b cg2]|e]; reflexivity.
Qed.
Lemma map_with_cpu v srt w o l r x : map_with OnCpu v srt w o l r x <-> x = disparity_map_of srt w o l r.
Proof.
  unfold map_with, disparity_map_of.
  destruct (read_file w l) as [li|e]; cbn [bind]; [|reflexivity].
  destruct (read_file w r) as [ri|e]; cbn [bind]; [|reflexivity].
  destruct (number_or (width li) (o_levels o)) as [lev|e]; cbn [bind]; [|reflexivity].
  destruct (number_or 1 (o_cleanness o)) as [c|e]; cbn [bind]; [|reflexivity].
  destruct (number_or 1 (o_smoothness o)) as [s|e]; cbn [bind]; [|reflexivity].
  apply solves_with_cpu.
Qed.
Lemma main_on_cpu b v srt w o l r out : all_paths o l r out -> chosen b (o_parallel o) = Ok OnCpu ->
  check_parallel (o_parallel o) = Ok tt -> forall e, main_with b v srt w (Parsed o) e <-> e = main srt w (Parsed o).
Proof.
  intros [E1 [E2 E3]] Ec Ek e. unfold main_with, main. rewrite E1, E2, E3, Ec, Ek. split.
  - intros [x [M ->]]. apply map_with_cpu in M. subst x. reflexivity.
  - intros ->. eexists. split; [apply map_with_cpu; reflexivity|reflexivity].
Qed.
Lemma chosen_cpu b t : chosen b t = Ok OnCpu -> check_parallel t = Ok tt.
Proof.
  unfold chosen, check_parallel. destruct t as [t|]; [|reflexivity]. cbv zeta.
  destruct (use_opencl b && _); [discriminate|]. destruct (use_cuda b && _); [discriminate|].
  destruct (_ || _); [reflexivity|discriminate].
Qed.

Lemma main_with_plain v srt w p e : main_with {| use_opencl := false; use_cuda := false |} v srt w p e <-> e = main srt w p.
Proof.
  destruct p as [o| |]; [|reflexivity..]. unfold main_with, main.
  destruct (o_output o) as [out|] eqn:E1, (o_left o) as [l|] eqn:E2, (o_right o) as [r|] eqn:E3;
    try (destruct (_ || _); [reflexivity|]; destruct (_ =? _); reflexivity).
  assert (X : chosen {| use_opencl := false; use_cuda := false |} (o_parallel o) =
    match check_parallel (o_parallel o) with Ok _ => Ok OnCpu | Stop x => Stop x end).
  { unfold chosen, check_parallel. destruct (o_parallel o) as [t|]; [|reflexivity]. cbn [use_opencl use_cuda andb].
    destruct (_ || _); reflexivity. }
  rewrite X. destruct (check_parallel (o_parallel o)) as [u|x]; [|destruct x; reflexivity].
  split.
  - intros [x [M ->]]. apply map_with_cpu in M. subst x. reflexivity.
  - intros ->. eexists. split; [apply map_with_cpu; reflexivity|reflexivity].
Qed.

(** *** Runs on a device *)

Lemma map_with_Ok pa v srt w o lpath rpath img : map_with pa v srt w o lpath rpath (Ok img) ->
  exists l r lev c s, file_holds w lpath l /\ file_holds w rpath r /\
    option_number (width l) (o_levels o) lev /\ option_number 1 (o_cleanness o) c /\ option_number 1 (o_smoothness o) s /\
    solves_with pa v srt l r lev (of_u c) (of_u s) (Ok img).
Proof.
  unfold map_with.
  destruct (read_file w lpath) as [l|e] eqn:El; cbn [bind]; [|discriminate].
  destruct (read_file w rpath) as [r|e] eqn:Er; cbn [bind]; [|discriminate].
  destruct (number_or (width l) (o_levels o)) as [lev|e] eqn:Elev; cbn [bind]; [|discriminate].
  destruct (number_or 1 (o_cleanness o)) as [c|e] eqn:Ec; cbn [bind]; [|discriminate].
  destruct (number_or 1 (o_smoothness o)) as [s|e] eqn:Es; cbn [bind]; [|discriminate].
  intros S. exists l, r, lev, c, s.
  apply read_held in El. apply read_held in Er. apply number_value in Elev. apply number_value in Ec. apply number_value in Es.
  auto 8.
Qed.

Lemma solves_made pa v srt l r lev (c s : F cpu) img : solves_with pa v srt l r lev c s (Ok img) -> exists g, make_graph l r lev c s = Ok g.
Proof.
  unfold solves_with, prepared. destruct (make_graph l r lev c s) as [g|e]; cbn [bind]; [eauto|discriminate].
Qed.

Lemma gpu_written b v srt w p e path txt a :
  sorts srt -> usable_files w -> main_with b v srt w p (Ok e) -> written_file e = Some (path, txt) ->
  (forall o, p = Parsed o -> chosen b (o_parallel o) = Ok (On a)) ->
  status e = 0 /\ printed e = None /\ writable w path = true /\
  exists o lpath rpath l r lev c s img, p = Parsed o /\ all_paths o lpath rpath path /\
    file_holds w lpath l /\ file_holds w rpath r /\ option_number (width l) (o_levels o) lev /\
    option_number 1 (o_cleanness o) c /\ option_number 1 (o_smoothness o) s /\
    write_image [] (Some img) = Ok txt /\
    (addressable a r lev -> small_penalties (2 ^ 24) l r lev (Z.of_N c) (Z.of_N s) ->
     optimal_map l r lev (Z.of_N c) (Z.of_N s) img).
Proof.
  intros Hs U M W Ha. destruct p as [o| |]; [|cbn in M; injection M as ->; discriminate..].
  specialize (Ha o eq_refl). unfold main_with in M.
  destruct (o_output o) as [out|] eqn:E1, (o_left o) as [lpath|] eqn:E2, (o_right o) as [rpath|] eqn:E3;
    try (destruct (_ || _); [injection M as ->; discriminate|]; destruct (_ =? _); injection M as ->; discriminate).
  rewrite Ha in M. destruct M as [x [MW E]]. unfold finishes in E.
  destruct x as [img|[y| |]]; cbn [bind] in E; [|try discriminate; injection E as ->; discriminate..].
  destruct (writable w out) eqn:Wo; [|injection E as ->; discriminate].
  destruct (write_image [] (Some img)) as [t|[y| |]] eqn:Et; cbn [bind] in E; try discriminate; injection E as ->;
    cbn [ends written_file] in W; [|discriminate].
  injection W as <- <-. split; [reflexivity|]. split; [reflexivity|]. split; [exact Wo|].
  destruct (map_with_Ok _ _ _ _ _ _ _ _ MW) as [l [r [lev [c [s [Hl [Hr [Nl [Nc [Ns S]]]]]]]]]].
  exists o, lpath, rpath, l, r, lev, c, s, img.
  refine (conj eq_refl (conj (conj E2 (conj E3 E1)) (conj Hl (conj Hr (conj Nl (conj Nc (conj Ns (conj Et _)))))))).
  intros Ad Sm. destruct (solves_made _ _ _ _ _ _ _ _ _ S) as [g Eg].
  pose proof (held_usable _ _ _ U Hl) as [_ Sz]. pose proof (problem_fits _ _ _ _ _ _ Eg Sz) as Fit.
  destruct (gpu_optimal a v srt l r lev c s g (Ok img) Hs Eg (held_consistent _ _ _ Hl) (held_consistent _ _ _ Hr) Fit Ad Sm S)
    as [X|[img' [X O]]]; [discriminate|]. injection X as <-. exact O.
Qed.

(** Every run that comes to an end is accounted for. *)
Lemma gpu_accounted b v srt w o lpath rpath out a e :
  sorts srt -> usable_files w -> all_paths o lpath rpath out -> chosen b (o_parallel o) = Ok (On a) ->
  (forall l lev, file_holds w lpath l -> option_number (width l) (o_levels o) lev -> lev <= width l -> addressable a l lev) ->
  main_with b v srt w (Parsed o) e ->
  (exists x, e = Ok (ends 0 (Some (report x)) None)) \/
  exists img txt, write_image [] (Some img) = Ok txt /\ valid_image img /\
    e = Ok (ends 0 None (if writable w out then Some (out, txt) else None)).
Proof.
  intros Hs U [E1 [E2 E3]] Ec Ad M. unfold main_with in M. rewrite E1, E2, E3, Ec in M. destruct M as [x [MW ->]].
  assert (Fail : forall y, x = Stop (Throw y) -> exists z, finishes w out x = Ok (ends 0 (Some (report z)) None)).
  { intros y ->. exists y. reflexivity. }
  unfold map_with in MW.
  destruct (read_total w lpath U) as [[l El]|[y Ey]]; [|rewrite Ey in MW; left; exact (Fail _ MW)]. rewrite El in MW. cbn [bind] in MW.
  destruct (read_total w rpath U) as [[r Er]|[y Ey]]; [|rewrite Ey in MW; left; exact (Fail _ MW)]. rewrite Er in MW. cbn [bind] in MW.
  destruct (number_total (width l) (o_levels o)) as [[lev Elev]|[y Ey]]; [|rewrite Ey in MW; left; exact (Fail _ MW)]. rewrite Elev in MW. cbn [bind] in MW.
  destruct (number_total 1 (o_cleanness o)) as [[c Ecl]|[y Ey]]; [|rewrite Ey in MW; left; exact (Fail _ MW)]. rewrite Ecl in MW. cbn [bind] in MW.
  destruct (number_total 1 (o_smoothness o)) as [[s Es]|[y Ey]]; [|rewrite Ey in MW; left; exact (Fail _ MW)]. rewrite Es in MW. cbn [bind] in MW.
  apply read_held in El. apply read_held in Er. apply number_value in Elev. apply number_value in Ecl. apply number_value in Es.
  destruct (held_usable w lpath l U El) as [S1 S2]. destruct (held_usable w rpath r U Er) as [S3 _].
  pose proof (held_consistent _ _ _ El) as Cl. pose proof (held_consistent _ _ _ Er) as Cr.
  destruct (made_total l r lev (@of_u cpu c) (of_u s)) as [[g Eg]|[[k Ek]|Ek]]; try assumption; [discriminate| | |].
  - assert (Hf : finite_penalties g).
    { eapply made_finite; try eassumption; try (eapply number_small; [|eassumption]; reflexivity).
      intros u [Hv|Hv]; [apply (proj2 (held_small _ _ _ El) u Hv)|apply (proj2 (held_small _ _ _ Er) u Hv)]. }
    destruct (make_graph_Ok l r lev _ _ g Eg) as [_ [_ [_ [Lw [Ww [Wh _]]]]]].
    assert (A : addressable a r lev).
    { pose proof (Ad l lev El Elev Lw) as X. unfold addressable in *. rewrite <- Ww, <- Wh. exact X. }
    destruct (gpu_map a v srt l r lev _ _ g x Hs Eg Cl Cr (problem_fits _ _ _ _ _ _ Eg S2) A Hf MW) as [lp [t [_ [[Bad|G] _]]]].
    + left. exact (Fail _ Bad).
    + right. destruct G as [img [-> [Wi [Hi [Mi [Ci [Vi _]]]]]]].
      assert (Sz : width img * height img < 2 ^ 32) by (rewrite Wi, Hi; exact S3).
      pose proof (written img Vi Ci Sz []) as Et. exists img. eexists. split; [exact Et|]. split; [exact Vi|].
      unfold finishes. cbn [bind]. destruct (writable w out); [|reflexivity]. rewrite Et. reflexivity.
  - left. unfold solves_with, prepared in MW. rewrite Ek in MW. exact (Fail _ MW).
  - left. unfold solves_with, prepared in MW. rewrite Ek in MW. exact (Fail _ MW).
Qed.
