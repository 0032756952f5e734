(** Scarce memory in the other builds: lemmas. *)
From Coq Require Import Lia String.
From Verif Require Import Device_main_proofs Fail_proofs Omp_run_proofs.
From Verif Require Export Memory_builds_spec.
From Verif Require Import Memory_proofs Memory_witness Broken_proofs App_proofs.
Local Open Scope N_scope.

(** *** The problem *)

Lemma problem_short w o l r x : usable_files w -> problem_scarce w o l r x ->
  x = Gets (problem_of w o l r) \/ x = NoMemory \/
  exists path t e, (path = l \/ path = r) /\ files w path = Some t /\ long_word t /\ reading_error e /\ x = Gets (Stop (Throw e)).
Proof.
  intros U. unfold problem_scarce, problem_of.
  intros [[il [E H]]|[[e [E ->]]|[E ->]]]; [| |right; left; reflexivity];
    (destruct (file_scarce w l _ U E) as [X|[X|[t [e' [Ft [Lw [Re X]]]]]]]; try discriminate X).
  2:{ injection X as X. rewrite <- X. left. reflexivity. }
  2:{ right. right. injection X as ->. exists l, t, e'. auto 6. }
  injection X as X. rewrite <- X. cbn [bind]. clear E X.
  destruct H as [[ir [E H]]|[[e [E ->]]|[E ->]]]; [| |right; left; reflexivity];
    (destruct (file_scarce w r _ U E) as [X|[X|[t [e' [Ft [Lw [Re X]]]]]]]; try discriminate X).
  2:{ injection X as X. rewrite <- X. left. reflexivity. }
  2:{ right. right. injection X as ->. exists r, t, e'. auto 6. }
  injection X as X. rewrite <- X. cbn [bind]. clear E X.
  destruct (chain_may _ _ _ H) as [[lev [-> H1]]|[[e [-> ->]]| ->]]; [|left; reflexivity|right; left; reflexivity]. cbn [bind]. clear H.
  destruct (chain_may _ _ _ H1) as [[c [-> H2]]|[[e [-> ->]]| ->]]; [|left; reflexivity|right; left; reflexivity]. cbn [bind]. clear H1.
  destruct (chain_may _ _ _ H2) as [[s [-> H3]]|[[e [-> ->]]| ->]]; [|left; reflexivity|right; left; reflexivity]. cbn [bind]. clear H2.
  left. exact H3.
Qed.
Lemma problem_enough w o l r : problem_scarce w o l r (Gets (problem_of w o l r)).
Proof.
  unfold problem_scarce, problem_of. apply chain_ok; [apply file_enough|]. intros il _.
  apply chain_ok; [apply file_enough|]. intros ir _. do 3 (apply chain_ok; [apply may_gets|]; intros ? _). apply sure_gets.
Qed.

(** *** Writing throws nothing *)

Lemma loop_throws {A S} (l : list A) (f : A -> S -> outcome S) e : forall s,
  (forall a s, f a s <> Stop (Throw e)) -> loop l f s <> Stop (Throw e).
Proof.
  induction l as [|a l IH]; intros s H; [discriminate|]. cbn [loop].
  destruct (f a s) as [s'|x] eqn:E; cbn [bind]; [apply IH, H|]. intros X. injection X as ->. exact (H a s E).
Qed.
Lemma get_throws {A} (l : list A) i e : get l i <> Stop (Throw e).
Proof. unfold get. destruct (i <? len l); [destruct (nth_error l (N.to_nat i))|]; discriminate. Qed.
Lemma valid_throws img e : image_valid cpu img <> Stop (Throw e).
Proof.
  unfold image_valid, image_valid_fuel. destruct (_ || _ || _); [discriminate|]. generalize (S (N.to_nat (umul cpu (width img) (height img)))), 0.
  intros n. induction n as [|n IH]; intros i; cbn [image_valid_loop]; [discriminate|].
  destruct (i <? _); [|discriminate]. destruct (get (data img) i) as [x|z] eqn:G; cbn [bind].
  - destruct (max_value img <? x); [discriminate|apply IH].
  - intros X. injection X as ->. exact (get_throws _ _ _ G).
Qed.
Lemma write_throws out io e : write_image out io <> Stop (Throw e).
Proof.
  unfold write_image. destruct io as [img|]; [|discriminate].
  destruct (image_valid cpu img) as [b|x] eqn:E; cbn [bind].
  2:{ intros X. injection X as ->. exact (valid_throws img e E). }
  destruct (negb b); [discriminate|]. apply loop_throws. intros y s.
  destruct (loop (range 0 (width img)) _ s) as [t|x] eqn:El; cbn [bind]; [discriminate|]. intros X. injection X as ->. revert El.
  apply loop_throws. intros x s'. destruct (get (data img) _) as [u|z] eqn:G; cbn [bind]; [discriminate|].
  intros X. injection X as ->. exact (get_throws _ _ _ G).
Qed.
Lemma finishes_written w out img : writable w out = true ->
  (exists txt, finishes w out (Ok img) = Ok (ends 0 None (Some (out, txt)))) \/
  forall y, finishes w out (Ok img) <> Ok y.
Proof.
  intros W. unfold finishes. cbn [bind]. rewrite W. destruct (write_image [] (Some img)) as [t|[e| |]] eqn:E; cbn [bind].
  - left. exists t. reflexivity.
  - exfalso. exact (write_throws _ _ _ E).
  - right. discriminate.
  - right. discriminate.
Qed.

(** *** Any build *)

Section Builds.
Context {A : Type} (choose : option text -> outcome A)
  (solves : A -> image -> image -> N -> F cpu -> F cpu -> conclusion -> Prop).

Definition main_full (w : world) (p : parsed) (e : fate) : Prop :=
  match p with
  | Repeated => e = Ends (Ok (ends 1 (Some UsageError) None))
  | Rejected => e = Ends (Ok (ends 1 (Some UnexpectedException) None))
  | Parsed o =>
      match o_output o, o_left o, o_right o with
      | Some out, Some l, Some r =>
          match choose (o_parallel o) with
          | Stop (Throw _) => e = Ends (Ok (ends 1 (Some UnexpectedException) None))
          | Stop x => e = Ends (Stop x)
          | Ok pa =>
              match problem_of w o l r with
              | Stop x => e = Ends (finishes w out (Stop x))
              | Ok (l, r, lev, c, s) =>
                  exists y, solves pa l r lev (of_u c) (of_u s) y /\
                    e = match y with Quits e' => e' | Maps x => Ends (finishes w out x) end
              end
          end
      | _, _, _ =>
          if (count (o_left o) =? 0) || (count (o_right o) =? 0)
          then e = Ends (Ok (ends 0 (Some NoImages) None))
          else if count (o_output o) =? 0 then e = Ends (Ok (ends 0 (Some NoOutput) None))
          else e = Ends (Ok (ends 1 (Some Help) None))
      end
  end.

Lemma full_enough w p e : main_full w p e -> main_scarce_by choose solves w p e.
Proof.
  intros H. right. destruct p as [o| |]; [|left; exact H..]. cbn [main_full] in H.
  destruct (o_output o) as [out|], (o_left o) as [l|], (o_right o) as [r|]; try exact H.
  destruct (choose (o_parallel o)) as [pa|[x| |]]; try exact H.
  eexists. split; [apply problem_enough|]. destruct (problem_of w o l r) as [[[[[il ir] lev] c] s]|x]; [|exact H].
  right. destruct H as [y [Hy ->]]. exists y. split; [exact Hy|]. destruct y as [[img|x]|e']; try reflexivity.
  unfold output_scarce. destruct (writable w out); [right|]; reflexivity.
Qed.

Lemma by_short w p e : usable_files w -> main_scarce_by choose solves w p e ->
  main_full w p e \/ ends_with e 1 (Some UnexpectedException) None \/
  (e = Aborts /\ (p = Repeated \/ p = Rejected)) \/
  (exists o out img, p = Parsed o /\ o_output o = Some out /\ writable w out = true /\
     main_full w p (Ends (finishes w out (Ok img))) /\ ends_with e 1 (Some UnexpectedException) (Some (out, []))) \/
  (long_words w p /\ blames_file e).
Proof.
  intros U [-> |H]; [right; left; reflexivity|].
  destruct p as [o| |]; [|destruct H as [-> | ->]; [left; reflexivity|auto 6]..]. cbn [main_full].
  destruct (o_output o) as [out|] eqn:Eo; [destruct (o_left o) as [l|] eqn:El; [destruct (o_right o) as [r|] eqn:Er|]|]; try (left; exact H).
  destruct (choose (o_parallel o)) as [pa|[x| |]]; try (left; exact H).
  destruct H as [x [Hp Hx]]. destruct (problem_short w o l r x U Hp) as [-> |[-> |[path [t [e' [Hl [Ft [Lw [Re ->]]]]]]]]].
  - destruct (problem_of w o l r) as [[[[[il ir] lev] c] s]|z] eqn:Ep; [|left; exact Hx].
    destruct Hx as [-> |[y [Hy He]]]; [right; left; reflexivity|].
    destruct y as [[img|z]|e']; [|left; eauto|left; eauto]. unfold output_scarce in He. destruct (writable w out) eqn:W.
    + destruct He as [-> | ->]; [|left; eauto]. right. right. right. left. exists o, out, img. repeat split; auto. eauto.
    + left. eauto.
  - right. left. exact Hx.
  - right. right. right. right. split.
    + exists o, path, t. split; [reflexivity|]. split; [destruct Hl as [-> | ->]; auto|]. auto.
    + exists (report e'). split; [exact Hx|]. destruct Re as [-> |[-> | ->]]; auto.
Qed.
End Builds.

(** *** OpenMP *)

Lemma full_omp v srt w p e : main_full check_parallel (solves_team v srt) w p e ->
  (exists x, e = Ends x /\ main_omp v srt w p x) \/
  (ends_with e 1 None None /\ exists o l r out, p = Parsed o /\ all_paths o l r out /\ technology_ok o).
Proof.
  intros H. assert (Q : forall x, e = Ends x -> main_by check_parallel (fun _ => solve_problem_omp v srt) w p x ->
    exists x, e = Ends x /\ main_omp v srt w p x) by (intros x -> M; exists x; split; [reflexivity|apply by_omp; exact M]).
  destruct p as [o| |]; [|left; eapply Q; [exact H|reflexivity]..]. cbn [main_full] in H. cbn [main_by] in Q.
  destruct (o_output o) as [out|] eqn:Eo, (o_left o) as [l|] eqn:El, (o_right o) as [r|] eqn:Er;
    try (left; destruct (_ || _); [eapply Q; [exact H|reflexivity]|]; destruct (_ =? _); (eapply Q; [exact H|reflexivity])).
  destruct (check_parallel (o_parallel o)) as [[]|[x| |]] eqn:Ec; try (left; eapply Q; [exact H|reflexivity]).
  destruct (problem_of w o l r) as [[[[[il ir] lev] c] s]|z] eqn:Ep.
  2:{ left. eapply Q; [exact H|]. eexists. split; reflexivity. }
  destruct H as [y [[-> |[x [Hx ->]]] ->]].
  - right. split; [reflexivity|]. exists o, l, r, out. split; [reflexivity|]. split; [repeat split; assumption|].
    destruct (parallel_cases o) as [[K _]|[_ K]]; [exact K|congruence].
  - left. eapply Q; [reflexivity|]. eexists. split; [exact Hx|reflexivity].
Qed.
Lemma omp_full v srt w p x : main_omp v srt w p x -> main_full check_parallel (solves_team v srt) w p (Ends x).
Proof.
  intros H. apply by_omp in H. destruct p as [o| |]; [|cbn in *; congruence..]. cbn [main_full]. cbn [main_by] in H.
  destruct (o_output o) as [out|], (o_left o) as [l|], (o_right o) as [r|];
    try (destruct (_ || _); [congruence|]; destruct (_ =? _); congruence).
  destruct (check_parallel (o_parallel o)) as [[]|[y| |]]; try congruence.
  destruct H as [y [Hy ->]]. destruct (problem_of w o l r) as [[[[[il ir] lev] c] s]|z]; [|congruence].
  exists (Maps y). split; [right; eauto|reflexivity].
Qed.

Lemma omp_short v srt w p e : sorts srt -> usable_files w -> team_ok v -> main_scarce_omp v srt w p e ->
  (exists x, main_omp v srt w p (Ok x) /\ e = Ends (Ok x)) \/
  ends_with e 1 (Some UnexpectedException) None \/
  (ends_with e 1 None None /\ exists o l r out, p = Parsed o /\ all_paths o l r out /\ technology_ok o) \/
  (e = Aborts /\ (p = Repeated \/ p = Rejected)) \/
  (exists out txt, main_omp v srt w p (Ok (ends 0 None (Some (out, txt)))) /\ ends_with e 1 (Some UnexpectedException) (Some (out, []))) \/
  (long_words w p /\ blames_file e).
Proof.
  intros Srt U Tv H. destruct (by_short _ _ w p e U H) as [F|[X|[X|[[o [out [img [-> [Eo [W [F X]]]]]]]|X]]]]; auto 8.
  - destruct (full_omp v srt w p e F) as [[x [-> M]]|X]; [|auto].
    destruct (omp_total v srt w p x Srt U Tv M) as [x' ->]. left. eauto.
  - right. right. right. right. left. destruct (full_omp v srt w _ _ F) as [[x [E M]]|[E _]].
    + assert (finishes w out (Ok img) = x) as <- by congruence. destruct (omp_total v srt w _ _ Srt U Tv M) as [x' Ex].
      destruct (finishes_written w out img W) as [[txt Et]|N]; [|exfalso; exact (N _ Ex)]. exists out, txt. split; [|exact X]. rewrite <- Et. exact M.
    + exfalso. assert (E' : finishes w out (Ok img) = Ok (ends 1 None None)) by (unfold ends_with in E; congruence).
      destruct (finishes_written w out img W) as [[txt Et]|N]; [rewrite Et in E'; discriminate E'|exact (N _ E')].
Qed.
Lemma omp_enough v srt w p x : main_omp v srt w p x -> main_scarce_omp v srt w p (Ends x).
Proof. intros H. apply full_enough, omp_full, H. Qed.

(** *** Devices *)

Lemma given_problem w o l r srt : given w o l r srt =
  match problem_of w o l r with Stop x => Stop x | Ok (l, r, lev, c, s) => prepared srt l r lev (of_u c) (of_u s) end.
Proof.
  unfold given, problem_of.
  destruct (read_file w l) as [il|e]; cbn [bind]; [|reflexivity]. destruct (read_file w r) as [ir|e]; cbn [bind]; [|reflexivity].
  destruct (number_or (width il) (o_levels o)) as [lev|e]; cbn [bind]; [|reflexivity].
  destruct (number_or 1 (o_cleanness o)) as [c|e]; cbn [bind]; [|reflexivity].
  destruct (number_or 1 (o_smoothness o)) as [s|e]; cbn [bind]; reflexivity.
Qed.
Lemma full_with k b v srt w p e : main_full (chosen b) (solves_failing k v srt) w p e <-> main_failing k b v srt w p e.
Proof.
  destruct p as [o| |]; [|reflexivity..]. cbn [main_full]. unfold main_failing.
  destruct (o_output o) as [out|], (o_left o) as [l|], (o_right o) as [r|]; try reflexivity.
  destruct (chosen b (o_parallel o)) as [pa|[x| |]]; try reflexivity.
  unfold block_with. fold (given w o l r srt). rewrite given_problem.
  destruct (problem_of w o l r) as [[[[[il ir] lev] c] s]|z]; [|reflexivity].
  unfold solves_failing. destruct (prepared srt il ir lev (of_u c) (of_u s)) as [cg|z].
  2:{ split; [intros [y [-> ->]]; reflexivity|intros ->; eexists; split; reflexivity]. }
  destruct pa as [|[]]; unfold concludes.
  - split; [intros [y [[x [Hx ->]] ->]]; eauto|intros [x [Hx ->]]; eexists; split; [eauto|reflexivity]].
  - split.
    + intros [y [[-> |[x [Hx ->]]] ->]]; [left; reflexivity|right; eauto].
    + intros [-> |[x [Hx ->]]]; eexists; (split; [|]); [left; reflexivity|reflexivity|right; eauto|reflexivity].
  - split.
    + intros [y [[z [Hz ->]] ->]]. exists z. split; [exact Hz|]. destruct z; reflexivity.
    + intros [z [Hz ->]]. eexists. split; [eauto|]. destruct z; reflexivity.
Qed.

Lemma with_total b v srt w p x : sorts srt -> usable_files w -> device_fits b w p -> main_with b v srt w p x -> exists y, x = Ok y.
Proof.
  intros Srt U Ad H. destruct p as [o| |]; [|eexists; exact H..].
  pose proof H as H0. unfold main_with in H0.
  destruct (o_output o) as [out|] eqn:Eo, (o_left o) as [l|] eqn:El, (o_right o) as [r|] eqn:Er;
    try (destruct (_ || _); [eexists; exact H0|]; destruct (_ =? _); eexists; exact H0).
  destruct (chosen b (o_parallel o)) as [[|a]|[z| |]] eqn:Ec.
  - apply (main_on_cpu b v srt w o l r out (conj El (conj Er Eo)) Ec (chosen_cpu b _ Ec)) in H. rewrite H. exact (main_total srt w _ Srt U).
  - destruct (gpu_accounted b v srt w o l r out a x Srt U (conj El (conj Er Eo)) Ec
      (fun il lev => Ad o a l il lev eq_refl Ec El) H) as [[y ->]|[img [txt [_ [_ ->]]]]]; eauto.
  - eauto.
  - destruct (chosen_total b (o_parallel o)) as [[? X]|[? X]]; congruence.
  - destruct (chosen_total b (o_parallel o)) as [[? X]|[? X]]; congruence.
Qed.

Lemma with_short k b v srt w p e : sorts srt -> usable_files w -> device_fits b w p -> main_scarce_with k b v srt w p e ->
  main_failing k b v srt w p e \/
  ends_with e 1 (Some UnexpectedException) None \/
  (e = Aborts /\ (p = Repeated \/ p = Rejected)) \/
  (exists out txt, main_with b v srt w p (Ok (ends 0 None (Some (out, txt)))) /\ ends_with e 1 (Some UnexpectedException) (Some (out, []))) \/
  (long_words w p /\ blames_file e).
Proof.
  intros Srt U Ad H. destruct (by_short _ _ w p e U H) as [F|[X|[X|[[o [out [img [-> [Eo [W [F X]]]]]]]|X]]]]; auto 8.
  - left. apply full_with. exact F.
  - right. right. right. left. apply full_with in F. pose proof F as F'.
    destruct (contained k b v srt w _ _ Srt U F) as [[x [E M]]|[o' [a [Ep [Ec Hf]]]]].
    + assert (finishes w out (Ok img) = x) as <- by congruence. destruct (with_total b v srt w _ _ Srt U Ad M) as [x' Ex].
      destruct (finishes_written w out img W) as [[txt Et]|N]; [|exfalso; exact (N _ Ex)]. exists out, txt. split; [|exact X]. rewrite <- Et. exact M.
    + exfalso. destruct (finishes_written w out img W) as [[txt Et]|N].
      * rewrite Et in Hf. destruct a; cbn [failed] in Hf; [discriminate Hf|].
        destruct Hf as [Y|[[_ Y]|[_ Y]]]; discriminate Y.
      * destruct a; cbn [failed] in Hf; [eapply N; injection Hf as Y; exact Y|].
        destruct Hf as [Y|[[_ Y]|[_ Y]]]; try discriminate Y. eapply N. injection Y as Y. exact Y.
Qed.
Lemma with_enough k b v srt w p e : main_failing k b v srt w p e -> main_scarce_with k b v srt w p e.
Proof. intros H. apply full_enough, full_with, H. Qed.

(** Without OpenCL and CUDA it is the program of Memory.v. *)
Lemma map_problem srt w o l r x : disparity_map_scarce srt w o l r x <->
  exists y, problem_scarce w o l r y /\
    match y with
    | NoMemory => x = NoMemory
    | Gets (Stop z) => x = Gets (Stop z)
    | Gets (Ok (l, r, lev, c, s)) => may (solve_problem srt l r lev (of_u c) (of_u s)) x
    end.
Proof.
  unfold disparity_map_scarce, problem_scarce. split.
  - intros [[il [E H]]|[[e [E ->]]|[E ->]]]; [|exists (Gets (Stop e)); split; [right; left; eauto|reflexivity]|exists NoMemory; split; [right; right; auto|reflexivity]].
    destruct H as [[ir [E1 H]]|[[e [E1 ->]]|[E1 ->]]];
      [|exists (Gets (Stop e)); split; [left; exists il; split; [exact E|]; right; left; eauto|reflexivity]
       |exists NoMemory; split; [left; exists il; split; [exact E|]; right; right; auto|reflexivity]].
    destruct H as [[lev [E2 H]]|[[e [E2 ->]]|[E2 ->]]];
      [|exists (Gets (Stop e)); split; [left; exists il; split; [exact E|]; left; exists ir; split; [exact E1|]; right; left; eauto|reflexivity]
       |exists NoMemory; split; [left; exists il; split; [exact E|]; left; exists ir; split; [exact E1|]; right; right; auto|reflexivity]].
    destruct H as [[c [E3 H]]|[[e [E3 ->]]|[E3 ->]]];
      [|exists (Gets (Stop e)); split; [left; exists il; split; [exact E|]; left; exists ir; split; [exact E1|]; left; exists lev; split; [exact E2|]; right; left; eauto|reflexivity]
       |exists NoMemory; split; [left; exists il; split; [exact E|]; left; exists ir; split; [exact E1|]; left; exists lev; split; [exact E2|]; right; right; auto|reflexivity]].
    destruct H as [[s [E4 H]]|[[e [E4 ->]]|[E4 ->]]];
      [|exists (Gets (Stop e)); split; [left; exists il; split; [exact E|]; left; exists ir; split; [exact E1|]; left; exists lev; split; [exact E2|]; left; exists c; split; [exact E3|]; right; left; eauto|reflexivity]
       |exists NoMemory; split; [left; exists il; split; [exact E|]; left; exists ir; split; [exact E1|]; left; exists lev; split; [exact E2|]; left; exists c; split; [exact E3|]; right; right; auto|reflexivity]].
    exists (Gets (Ok (il, ir, lev, c, s))). split; [|exact H].
    left. exists il. split; [exact E|]. left. exists ir. split; [exact E1|]. left. exists lev. split; [exact E2|].
    left. exists c. split; [exact E3|]. left. exists s. split; [exact E4|]. reflexivity.
  - intros [y [H Hy]].
    assert (G : forall z, y = Gets (Stop z) -> x = Gets (Stop z)) by (intros z ->; exact Hy).
    assert (G' : y = NoMemory -> x = NoMemory) by (intros ->; exact Hy).
    destruct H as [[il [E H]]|[[e [E ->]]|[E ->]]]; [left; exists il; split; [exact E|]|right; left; eauto|right; right; auto].
    destruct H as [[ir [E1 H]]|[[e [E1 ->]]|[E1 ->]]]; [left; exists ir; split; [exact E1|]|right; left; eauto|right; right; auto].
    destruct H as [[lev [E2 H]]|[[e [E2 ->]]|[E2 ->]]]; [left; exists lev; split; [exact E2|]|right; left; eauto|right; right; auto].
    destruct H as [[c [E3 H]]|[[e [E3 ->]]|[E3 ->]]]; [left; exists c; split; [exact E3|]|right; left; eauto|right; right; auto].
    destruct H as [[s [E4 H]]|[[e [E4 ->]]|[E4 ->]]]; [left; exists s; split; [exact E4|]|right; left; eauto|right; right; auto].
    rewrite H in Hy. exact Hy.
Qed.
Lemma plain_scarce k v srt w p e :
  main_scarce_with k {| use_opencl := false; use_cuda := false |} v srt w p e <-> main_scarce srt w p e.
Proof.
  unfold main_scarce_with, main_scarce_by, main_scarce. apply or_iff_compat_l.
  destruct p as [o| |]; [|reflexivity..].
  destruct (o_output o) as [out|], (o_left o) as [l|], (o_right o) as [r|]; try reflexivity.
  assert (X : chosen {| use_opencl := false; use_cuda := false |} (o_parallel o) =
    match check_parallel (o_parallel o) with Ok _ => Ok OnCpu | Stop x => Stop x end).
  { unfold chosen, check_parallel. destruct (o_parallel o) as [t|]; [|reflexivity]. cbn [use_opencl use_cuda andb].
    destruct (_ || _); reflexivity. }
  rewrite X. destruct (check_parallel (o_parallel o)) as [[]|[x| |]]; try reflexivity.
  assert (S : forall l r lev c s y, solves_failing k v srt OnCpu l r lev c s y <-> y = Maps (solve_problem srt l r lev c s)).
  { intros il ir lev c s y. pose proof (solves_with_cpu v srt il ir lev c s) as Q. unfold solves_with in Q. unfold solves_failing.
    destruct (prepared srt il ir lev c s) as [cg|z].
    - split.
      + intros [x [Hx ->]]. f_equal. apply Q. eauto.
      + intros ->. destruct (proj2 (Q _) eq_refl) as [x [Hx Ex]]. exists x. split; [exact Hx|]. rewrite Ex. reflexivity.
    - split; intros ->; f_equal; [apply Q; reflexivity|]. symmetry. apply Q. reflexivity. }
  split.
  - intros [x [Hx He]]. destruct x as [[[[[[il ir] lev] c] s]|z]|].
    + destruct He as [-> |[y [Hy He]]].
      * exists NoMemory. split; [|reflexivity]. apply map_problem. exists (Gets (Ok (il, ir, lev, c, s))). split; [exact Hx|]. right. reflexivity.
      * apply S in Hy. subst y. exists (Gets (solve_problem srt il ir lev (of_u c) (of_u s))). split.
        -- apply map_problem. exists (Gets (Ok (il, ir, lev, c, s))). split; [exact Hx|]. left. reflexivity.
        -- exact He.
    + exists (Gets (Stop z)). split; [apply map_problem; exists (Gets (Stop z)); auto|exact He].
    + exists NoMemory. split; [apply map_problem; exists NoMemory; auto|exact He].
  - intros [x [Hx He]]. apply map_problem in Hx. destruct Hx as [y [Hy Hx]]. exists y. split; [exact Hy|].
    destruct y as [[[[[[il ir] lev] c] s]|z]|].
    + destruct Hx as [-> | ->]; [|left; exact He]. right. eexists. split; [apply S; reflexivity|exact He].
    + subst x. exact He.
    + subst x. exact He.
Qed.
