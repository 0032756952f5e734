(** Scarce memory in the other builds: consequences and examples. *)
From Coq Require Import Lia String.
From Verif Require Import Fail_witness Device_witness Omp_witness.
From Verif Require Export Memory_builds_proofs.
From Verif Require Import Memory_proofs Fail_proofs App_proofs Memory_witness Omp_main_proofs Main_witness.
Local Open Scope N_scope.

(** A file that is not empty holds a map of a run with enough memory. *)
Lemma omp_file v srt w p x path txt : sorts srt -> usable_files w -> team_ok v -> main_scarce_omp v srt w p (Ends (Ok x)) ->
  written_file x = Some (path, txt) -> txt <> [] -> main_omp v srt w p (Ok x).
Proof.
  intros Srt U Tv H Ew Ht.
  destruct (omp_short v srt w p _ Srt U Tv H) as [[y [M X]]|[X|[[X _]|[[X _]|[[out [t [_ X]]]|[_ [m [X _]]]]]]]].
  - injection X as ->. exact M.
  - injection X as ->. discriminate Ew.
  - injection X as ->. discriminate Ew.
  - discriminate X.
  - injection X as ->. exfalso. apply Ht. cbn [ends written_file] in Ew. congruence.
  - injection X as ->. discriminate Ew.
Qed.
Lemma with_file k b v srt w p x path txt : sorts srt -> usable_files w -> device_fits b w p ->
  main_scarce_with k b v srt w p (Ends (Ok x)) -> written_file x = Some (path, txt) -> txt <> [] -> main_with b v srt w p (Ok x).
Proof.
  intros Srt U Ad H Ew Ht.
  destruct (with_short k b v srt w p _ Srt U Ad H) as [M|[X|[[X _]|[[out [t [_ X]]]|[_ [m [X _]]]]]]].
  - destruct (contained k b v srt w p _ Srt U M) as [[y [E M']]|[o [a [_ [_ F]]]]].
    + injection E as <-. exact M'.
    + exfalso. destruct a; cbn [failed] in F; [injection F as ->; discriminate Ew|].
      destruct F as [F|[[_ F]|[_ F]]]; try discriminate F. injection F as ->. discriminate Ew.
  - injection X as ->. discriminate Ew.
  - discriminate X.
  - injection X as ->. exfalso. apply Ht. cbn [ends written_file] in Ew. congruence.
  - injection X as ->. discriminate Ew.
Qed.

(** Without long words the status tells. *)
Lemma omp_status v srt w p e : sorts srt -> usable_files w -> team_ok v -> ~ long_words w p -> main_scarce_omp v srt w p e ->
  (exists x, main_omp v srt w p (Ok x) /\ e = Ends (Ok x)) \/ ends_one e \/ e = Aborts.
Proof.
  intros Srt U Tv L H. unfold ends_one.
  destruct (omp_short v srt w p e Srt U Tv H) as [X|[X|[[X _]|[[X _]|[[out [t [_ X]]]|[X _]]]]]]; eauto 6. contradiction.
Qed.
Lemma with_status k b v srt w p e : sorts srt -> usable_files w -> device_fits b w p -> ~ long_words w p -> main_scarce_with k b v srt w p e ->
  main_failing k b v srt w p e \/ ends_one e \/ e = Aborts.
Proof.
  intros Srt U Ad L H. unfold ends_one.
  destruct (with_short k b v srt w p e Srt U Ad H) as [X|[X|[[X _]|[[out [t [_ X]]]|[X _]]]]]; eauto 6. contradiction.
Qed.

(** The output may be emptied. *)
Section Emptied.
Context {A : Type} (choose : option text -> outcome A)
  (solves : A -> image -> image -> N -> F cpu -> F cpu -> conclusion -> Prop).
Lemma by_emptied w p out txt :
  (forall o pa l r lev c s y, p = Parsed o -> solves pa l r lev c s y -> y <> Quits (Ends (Ok (ends 0 None (Some (out, txt)))))) ->
  main_full choose solves w p (Ends (Ok (ends 0 None (Some (out, txt))))) ->
  exists e, main_scarce_by choose solves w p e /\ ends_with e 1 (Some UnexpectedException) (Some (out, [])).
Proof.
  intros N H. eexists. split; [|reflexivity]. right. destruct p as [o| |]; try discriminate H. cbn [main_full] in H.
  destruct (o_output o) as [out'|], (o_left o) as [l|], (o_right o) as [r|];
    try (revert H; repeat match goal with |- context[if ?b then _ else _] => destruct b end; discriminate).
  destruct (choose (o_parallel o)) as [pa|[z| |]]; try discriminate H.
  eexists. split; [apply problem_enough|].
  destruct (Broken_proofs.problem_of w o l r) as [[[[[il ir] lev] c] s]|[z| |]]; try discriminate H.
  right. destruct H as [y [Hy E]]. exists y. split; [exact Hy|]. destruct y as [[img|[z| |]]|e'].
  - unfold finishes in E. cbn [bind] in E. unfold output_scarce. destruct (writable w out'); [|discriminate E]. left. unfold no_memory.
    destruct (write_image [] (Some img)) as [t|[z| |]]; cbn [bind] in E; try discriminate E. do 5 f_equal.
    assert (X : Some (out, txt) = Some (out', t)).
    { apply (f_equal (fun z => match z with Ends (Ok a) => written_file a | _ => None end)) in E. exact E. }
    congruence.
  - discriminate E.
  - discriminate E.
  - discriminate E.
  - exfalso. subst e'. exact (N o pa il ir lev _ _ _ eq_refl Hy eq_refl).
Qed.
End Emptied.
Lemma omp_emptied v srt w p out txt : main_omp v srt w p (Ok (ends 0 None (Some (out, txt)))) ->
  exists e, main_scarce_omp v srt w p e /\ ends_with e 1 (Some UnexpectedException) (Some (out, [])).
Proof.
  intros H. eapply by_emptied; [|apply omp_full; exact H]. intros o pa l r lev c s y _ [-> |[x [_ ->]]]; discriminate.
Qed.
Lemma with_emptied k b v srt w p out txt : main_failing k b v srt w p (Ends (Ok (ends 0 None (Some (out, txt))))) ->
  exists e, main_scarce_with k b v srt w p e /\ ends_with e 1 (Some UnexpectedException) (Some (out, [])).
Proof.
  intros H. eapply by_emptied; [|apply full_with; exact H]. intros o pa l r lev c s y _ S. unfold solves_failing in S.
  destruct (prepared srt l r lev c s) as [cg|z]; [|subst y; discriminate]. destruct pa as [|[]].
  - destruct S as [x [_ ->]]. discriminate.
  - destruct S as [-> |[x [_ ->]]]; discriminate.
  - destruct S as [z [_ ->]]. destruct z; discriminate.
Qed.

(** *** Examples *)

Lemma omp_scarce_example : sorts (@isort cpu) /\ usable_files wg /\ team_ok two_team /\ ~ long_words wg (Parsed (og out_path)) /\
  main_omp two_team isort wg (Parsed (og out_path)) (Ok (ends 0 None (Some (out_path, textg)))) /\
  main_scarce_omp two_team isort wg (Parsed (og out_path)) (Ends (Ok (ends 0 None (Some (out_path, textg))))) /\
  exists e, main_scarce_omp two_team isort wg (Parsed (og out_path)) e /\ ends_with e 1 None None.
Proof.
  destruct short_example as [Srt [U L]]. split; [exact Srt|]. split; [exact U|]. split; [exact (orderly_ok _ two_orderly)|].
  split; [exact L|]. split; [exact two_run|]. split; [apply omp_enough, two_run|].
  eexists. split; [|reflexivity]. right. cbn [og o_output o_left o_right]. 
  replace (check_parallel _) with (Ok tt) by reflexivity.
  eexists. split; [apply problem_enough|].
  destruct (Broken_proofs.problem_of wg (og out_path) (lit "l.pgm") (lit "r.pgm")) as [[[[[il ir] lev] c] s]|z] eqn:E.
  - right. exists (Quits no_team). split; [left; reflexivity|reflexivity].
  - exfalso. revert E. vm_compute. discriminate.
Qed.
Lemma with_scarce_example a : sorts (@isort cpu) /\ usable_files wg /\ device_fits both wg (Parsed (od a)) /\ ~ long_words wg (Parsed (od a)) /\
  main_with both good_device isort wg (Parsed (od a)) (Ok (ends 0 None (Some (out_path, textg)))) /\
  main_scarce_with usual both good_device isort wg (Parsed (od a)) (Ends (Ok (ends 0 None (Some (out_path, textg))))).
Proof.
  destruct short_example as [Srt [U L]]. split; [exact Srt|]. split; [exact U|]. split.
  { intros o a' lpath l lev E Ec El Hl Hn Hle. assert (o = od a) as -> by congruence.
    assert (a' = a) as -> by (rewrite (chosen_small a) in Ec; congruence).
    assert (lpath = lit "l.pgm") as -> by (apply (f_equal (fun z => match z with Some t => t | None => [] end)) in El; symmetry; exact El).
    exact (wg_addressable a l lev Hl Hn Hle). }
  split.
  { intros [o [path [t [Ep [Hp [Ft Lw]]]]]]. apply L. exists (og out_path), path, t. split; [reflexivity|]. split; [|auto].
    assert (o = od a) as -> by congruence. exact Hp. }
  split; [exact (device_run a)|]. apply with_enough. apply unfailing; [exact Srt|exact U| |exact (device_run a)].
  intros o lpath l E Ec El Hl. assert (o = od a) as -> by congruence.
  assert (lpath = lit "l.pgm") as -> by (apply (f_equal (fun z => match z with Some t => t | None => [] end)) in El; symmetry; exact El).
  exact (usual_room l Hl).
Qed.

(** A long comment in a file that can be read. *)
Lemma made_problem o : problem_scarce w_made o (lit "l.pgm") (lit "r.pgm") (Gets (Stop (Throw NotPgm))).
Proof.
  right. left. exists (Throw NotPgm). split; [|reflexivity]. unfold read_file_scarce.
  replace (files w_made (lit "l.pgm")) with (Some text_made) by reflexivity. apply may_first.
  destruct made_misread as [s [F H]]. left. exists (s, None). split; [exact H|]. cbn [fst snd]. rewrite F. left. reflexivity.
Qed.
Lemma blamed_builds : exists w p, usable_files w /\
  (forall srt, sorts srt -> exists path txt, main srt w p = Ok (ends 0 None (Some (path, txt)))) /\
  (forall v srt, exists e, main_scarce_omp v srt w p e /\ blames_file e) /\
  (forall k b v srt, exists e, main_scarce_with k b v srt w p e /\ blames_file e).
Proof.
  exists w_made, (Parsed (og out_path)). split; [exact made_usable|].
  split; [intros srt Srt; exists out_path, textg; exact (made_run srt Srt)|]. split.
  - intros v srt. exists (Ends (Ok (ends 0 (Some (InvalidArgumentError NotPgm)) None))). split.
    + right. cbn [og o_output o_left o_right]. try destruct b as [[] []]; exists (Gets (Stop (Throw NotPgm))); (split; [apply made_problem|reflexivity]).
    + exists (InvalidArgumentError NotPgm). split; [reflexivity|auto].
  - intros k b v srt. exists (Ends (Ok (ends 0 (Some (InvalidArgumentError NotPgm)) None))). split.
    + right. cbn [og o_output o_left o_right]. try destruct b as [[] []]; exists (Gets (Stop (Throw NotPgm))); (split; [apply made_problem|reflexivity]).
    + exists (InvalidArgumentError NotPgm). split; [reflexivity|auto].
Qed.
