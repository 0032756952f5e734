(** Every team comes to an end; maps of different runs. *)
From Coq Require Import String Lia.
From Verif Require Export Omp_one_proofs.
Local Open Scope N_scope.

(** *** A run of every team *)

Section Graph.
Context {T : target}.
Implicit Type cg : cgraph T.
Notation G cg := (cg_graph cg).
Notation Ht cg := (height (right (cg_graph cg))).

Lemma some_round cg bound jobs m : static cg -> mem_ok cg m -> 1 <= jobs -> Ht cg + jobs < wmod T ->
  exists ch m', run (csp_round cg bound jobs) m = Ok (ch, m') /\ mem_ok cg m'.
Proof.
  intros Hs Hm Hj Hjw. unfold csp_round. generalize (range 0 bound), false. intros l. revert m Hm.
  induction l as [|i l IH]; intros m Hm ch0; cbn [cloop].
  - exists ch0, m. auto.
  - rewrite cbind_assoc_run, cbind_assoc_run, run_iteration by assumption.
    pose proof (iter_ok cg jobs i m Hm) as Hm1. destruct (iter cg jobs i m) as [r m1]. cbn [bind fst snd run] in *.
    apply (IH m1 Hm1).
Qed.

Lemma some_csp v cg bound jobs : wf_cgraph cg -> sized_team v cg -> t_size v bound jobs -> exists r, csp_omp v cg (Ok r).
Proof.
  intros Hc Hj B. pose proof (wf_static cg Hc) as Hs. pose proof (wfc_avail cg Hc) as Hm. destruct (Hj _ _ B) as [J1 J2].
  assert (R : exists m, mem_ok cg m /\ omp_rounds v cg (cg_avail cg) m).
  { destruct (some_round cg bound jobs _ Hs Hm J1 J2) as [ch [m1 [E1 Hm1]]]. destruct ch.
    - destruct (some_round cg bound jobs _ Hs Hm1 J1 J2) as [ch [m2 [E2 Hm2]]]. destruct ch.
      + exfalso. destruct (jobs_terminate cg bound jobs Hc J1 J2) as [_ [Two _]].
        apply (Two m1 m2); apply round_in_order; assumption.
      + exists m2. split; [exact Hm2|]. eapply omp_more; [exact B|apply round_in_order; exact E1|].
        eapply omp_last; [exact B|apply round_in_order; exact E2].
    - exists m1. split; [exact Hm1|]. eapply omp_last; [exact B|apply round_in_order; exact E1]. }
  destruct R as [m [Hm' R]]. exists (existsb (fun b => b) m, with_avail cg m). left. exists m. split; [exact R|].
  unfold exec. cbn [with_avail cg_avail]. rewrite (run_check_nodes (with_avail cg m) m (wf_static _ (static_wf cg m Hs Hm')) Hm'). reflexivity.
Qed.

(** Something is computed if the first part computes something and, whatever that is,
    the second part does. *)
Lemma then_some {A B} (x : outcome A -> Prop) (f : A -> outcome B -> Prop) : (exists o, x o) ->
  (forall a, x (Ok a) -> exists o, f a o) -> exists o, and_then x f o.
Proof.
  intros [[a|e] X] H.
  - destruct (H a X) as [o F]. exists o. left. exists a. auto.
  - exists (Stop e). right. exists e. auto.
Qed.
Lemma does_some {A} (x : outcome A) : exists o, does x o.
Proof. exists x. reflexivity. Qed.

Lemma some_search v (g : dgraph T) lp l fuel bound jobs : wf_graph g -> make_lowest g = Ok lp -> sized_for v g -> t_size v bound jobs ->
  forall start stop, exists o, search_omp v g lp l fuel start stop o.
Proof.
  intros Hw El Hj B. induction fuel as [|f IH]; intros start stop; cbn [search_omp]; [apply does_some|].
  destruct (start <? stop); [|apply does_some]. apply then_some; [apply does_some|]. intros t _.
  apply then_some; [apply does_some|]. intros cg Ec. unfold does in Ec. symmetry in Ec.
  destruct (make_constraint_Ok g lp t cg Hw El Ec) as [Hc [Gc _]].
  apply then_some.
  - destruct (some_csp v cg bound jobs Hc) as [r C]; [unfold sized_team; rewrite Gc; exact Hj|exact B|exists (Ok r); exact C].
  - intros r _. destruct (fst r); apply IH.
Qed.

Lemma some_label v (HL : laws T) bound jobs l : t_size v bound jobs ->
  forall cg, wf_cgraph cg -> sized_team v cg -> pixels_ok cg l -> exists o, label_omp v l cg o.
Proof.
  intros B. induction l as [|p l IH]; intros cg Hc Hj Hp; cbn [label_omp]; [apply does_some|].
  pose proof (wf_static cg Hc) as Hs. pose proof (wfc_avail cg Hc) as Hm.
  destruct (run_choose cg (cg_avail cg) p HL Hs Hm (Hp p (or_introl eq_refl))) as [b [m1 [E1 [Hm1 _]]]].
  assert (E : exec (fun cg => choose_best_node cg p) cg = Ok (b, with_avail cg m1)) by (unfold exec; rewrite E1; reflexivity).
  rewrite E. apply then_some; [apply does_some|]. intros x X. unfold does in X. injection X as ->. cbn [fst snd].
  destruct (negb b); [apply does_some|].
  assert (Hc1 : wf_cgraph (with_avail cg m1)) by (apply static_wf; assumption).
  apply then_some.
  - destruct (some_csp v (with_avail cg m1) bound jobs Hc1 Hj B) as [r C]. exists (Ok r). exact C.
  - intros y Y. destruct (csp_omp_any v _ _ Hc1 Hj Y) as [b2 [m2 [E2 [Hm2 _]]]]. injection E2 as ->. cbn [fst snd].
    destruct (negb b2); [apply does_some|]. change (with_avail (with_avail cg m1) m2) with (with_avail cg m2).
    apply IH; [apply static_wf; assumption|exact Hj|]. intros q Hq. apply Hp. right. exact Hq.
Qed.

Lemma some_solve v (HL : laws T) srt l r lev (c s : F T) bound jobs :
  consistent_image l -> consistent_image r ->
  (forall g, make_graph l r lev c s = Ok g -> width l * height l * 4 * lev < wmod T /\ sized_for v g) ->
  t_size v bound jobs -> exists o, solve_problem_omp v srt l r lev c s o.
Proof.
  intros Cl Cr Hsz B. unfold solve_problem_omp.
  apply then_some; [apply does_some|]. intros g Eg. unfold does in Eg. symmetry in Eg. destruct (Hsz g Eg) as [Fit Hj].
  destruct (make_graph_wf l r lev c s g Eg Cl Cr Fit) as [Hw _].
  apply then_some; [apply does_some|]. intros lp El. unfold does in El. symmetry in El.
  apply then_some; [apply does_some|]. intros cands _.
  apply then_some; [eapply some_search; eassumption|]. intros t _.
  apply then_some; [apply does_some|]. intros cg Ec. unfold does in Ec. symmetry in Ec.
  destruct (make_constraint_Ok g lp t cg Hw El Ec) as [Hc [Gc _]].
  assert (Hj' : sized_team v cg) by (unfold sized_team; rewrite Gc; exact Hj).
  apply then_some; [destruct (some_csp v cg bound jobs Hc Hj' B) as [x C]; exists (Ok x); exact C|]. intros x X.
  destruct (csp_omp_any v cg _ Hc Hj' X) as [b [m [E [Hm _]]]]. injection E as ->. cbn [fst snd].
  destruct (negb b); [apply does_some|].
  pose proof (wf_static cg Hc) as Hs.
  apply then_some.
  - unfold find_labeling_omp. eapply some_label; [exact HL|exact B|apply static_wf; assumption|exact Hj'|].
    change (cg_graph (with_avail cg m)) with (cg_graph cg). rewrite (column_order_eq (cg_graph cg) (st_graph cg Hs)).
    intros p Hp. apply In_all_pixels in Hp. exact Hp.
  - intros y _. destruct (negb (fst y)); [apply does_some|]. apply then_some; [apply does_some|]. intros z _. apply does_some.
Qed.
End Graph.

Lemma some_map v srt w o lpath rpath bound jobs : usable_files w -> team_ok v -> t_size v bound jobs ->
  exists x, map_omp v srt w o lpath rpath x.
Proof.
  intros U Hv B. unfold map_omp.
  apply then_some; [apply does_some|]. intros l El. apply then_some; [apply does_some|]. intros r Er.
  apply then_some; [apply does_some|]. intros lev _. apply then_some; [apply does_some|]. intros c _.
  apply then_some; [apply does_some|]. intros s _. unfold does in El, Er. symmetry in El, Er.
  apply read_held in El. apply read_held in Er. destruct (held_usable w lpath l U El) as [S1 S2]. destruct (held_usable w rpath r U Er) as [S3 _].
  pose proof (held_consistent _ _ _ El) as Cl. pose proof (held_consistent _ _ _ Er) as Cr.
  eapply some_solve; [exact cpu_laws|exact Cl|exact Cr| |exact B].
  intros g Eg. pose proof (problem_fits _ _ _ _ _ _ Eg S2) as Fit. split; [exact Fit|].
  intros bound' jobs' B'. destruct (Hv bound' jobs' B') as [J1 J2].
  destruct (make_graph_Ok l r lev _ _ g Eg) as [_ [_ [_ [_ [_ [_ [_ [_ [_ [_ [_ E]]]]]]]]]]].
  destruct (make_graph_wf l r lev _ _ g Eg Cl Cr Fit) as [Hw _]. pose proof (wf_levels g Hw). pose proof (wf_levels_width g Hw).
  assert (Eh : height (right g) = height r /\ width (right g) = width r) by (rewrite E; split; reflexivity). destruct Eh as [Eh Ewd].
  rewrite Ewd in *. rewrite Eh. split; [exact J1|]. change (wmod cpu) with (2 ^ 64).
  assert (height r <= width r * height r) by nia. lia.
Qed.

Lemma some_run v srt w p bound jobs : usable_files w -> team_ok v -> t_size v bound jobs -> exists e, main_omp v srt w p e.
Proof.
  intros U Hv B. destruct p as [o| |]; [|eexists; reflexivity..]. unfold main_omp.
  destruct (o_output o) as [out|], (o_left o) as [l|], (o_right o) as [r|];
    try (destruct (_ || _); [|destruct (_ =? _)]; eexists; reflexivity).
  destruct (check_parallel (o_parallel o)) as [u|[y| |]]; try (eexists; reflexivity).
  destruct (some_map v srt w o l r bound jobs U Hv B) as [x M]. eexists. exists x. split; [exact M|reflexivity].
Qed.

(** *** Maps of different runs *)

Lemma held_unique w path i1 i2 : usable_files w -> file_holds w path i1 -> file_holds w path i2 -> i1 = i2.
Proof.
  intros U H1 H2. assert (Big : 2 ^ 32 <= vector_max_size) by (vm_compute; discriminate).
  pose proof (held_usable w path i1 U H1) as [S1 _]. pose proof (held_usable w path i2 U H2) as [S2 _].
  pose proof (held_read w path i1 H1 ltac:(lia)) as E1. pose proof (held_read w path i2 H2 ltac:(lia)) as E2. congruence.
Qed.
Lemma number_unique d o v v' : option_number d o v -> option_number d o v' -> v = v'.
Proof. intros H1 H2. apply number_value in H1. apply number_value in H2. congruence. Qed.

Lemma omp_map_unique v v' w o lpath rpath i1 i2 : usable_files w -> orderly_team v -> orderly_team v' ->
  omp_map v w o lpath rpath (Ok i1) -> omp_map v' w o lpath rpath (Ok i2) -> i1 = i2.
Proof.
  intros U O1 O2 [l [r [lev [c [s [g [lp [t [Hl [Hr [Hlev [Hc [Hs [Eg [El [_ X]]]]]]]]]]]]]]]]
    [l' [r' [lev' [c' [s' [g' [lp' [t' [Hl' [Hr' [Hlev' [Hc' [Hs' [Eg' [El' [_ X']]]]]]]]]]]]]]]].
  destruct X as [X|[X|[[X _]|[img [X [_ B]]]]]]; try discriminate. injection X as <-.
  destruct X' as [X|[X|[[X _]|[img [X [_ B']]]]]]; try discriminate. injection X as <-.
  assert (l' = l) by (eapply held_unique; eassumption). subst l'.
  assert (r' = r) by (eapply held_unique; eassumption). subst r'.
  assert (lev' = lev) by (eapply number_unique; eassumption). subst lev'.
  assert (c' = c) by (eapply number_unique; eassumption). subst c'.
  assert (s' = s) by (eapply number_unique; eassumption). subst s'.
  assert (g' = g) by congruence. subst g'. assert (lp' = lp) by congruence. subst lp'.
  destruct (held_usable w lpath l U Hl) as [_ S2].
  destruct (make_graph_wf l r lev _ _ g Eg (held_consistent _ _ _ Hl) (held_consistent _ _ _ Hr) (problem_fits _ _ _ _ _ _ Eg S2)) as [Hw _].
  exact (greedy_unique g lp i1 i2 Hw (B O1) (B' O2)).
Qed.

Lemma orderly_ok v : orderly_team v -> team_ok v.
Proof. intros [_ H] bound jobs B. destruct (H bound jobs B) as [J _]. exact J. Qed.

(** Two runs that write something write the same. *)
Lemma omp_same v v' srt srt' w p e e' f f' : sorts srt -> sorts srt' -> usable_files w -> orderly_team v -> orderly_team v' ->
  main_omp v srt w p (Ok e) -> main_omp v' srt' w p (Ok e') ->
  written_file e = Some f -> written_file e' = Some f' -> e = e'.
Proof.
  intros Hs Hs' U O1 O2 M M' F F'.
  assert (D : exists o l r out, p = Parsed o /\ all_paths o l r out /\ technology_ok o).
  { destruct p as [o| |]; [|unfold main_omp in M; injection M as ->; discriminate F..]. unfold main_omp in M.
    destruct (o_output o) as [out|] eqn:E1, (o_left o) as [l|] eqn:E2, (o_right o) as [r|] eqn:E3;
      try (destruct (_ || _); [injection M as ->; discriminate F|]; destruct (_ =? _); injection M as ->; discriminate F).
    exists o, l, r, out. split; [reflexivity|]. split; [split; [|split]; assumption|].
    destruct (parallel_cases o) as [[Y _]|[_ Y]]; [exact Y|]. rewrite Y in M. injection M as ->. discriminate F. }
  destruct D as [o [l [r [out [-> [A Ht]]]]]].
  destruct (omp_ends v srt w o l r out _ Hs U (orderly_ok v O1) A Ht M) as [[y [E _]]|[i1 [t1 [D1 [W1 E1]]]]];
    [injection E as ->; discriminate F|].
  destruct (omp_ends v' srt' w o l r out _ Hs' U (orderly_ok v' O2) A Ht M') as [[y [E _]]|[i2 [t2 [D2 [W2 E2]]]]];
    [injection E as ->; discriminate F'|].
  assert (i2 = i1) by (eapply (omp_map_unique v' v); eassumption). subst i2.
  assert (t2 = t1) by congruence. subst t2. congruence.
Qed.

(** In particular they write what the sequential program writes, if it does. *)
Lemma omp_as_main v srt srt' w p e e' f f' : sorts srt -> sorts srt' -> usable_files w -> orderly_team v ->
  main_omp v srt w p (Ok e) -> main srt' w p = Ok e' -> written_file e = Some f -> written_file e' = Some f' -> e = e'.
Proof.
  intros Hs Hs' U O1 M M' F F'.
  set (one := {| t_sc := true; t_word := 1; t_size := fun bound jobs => bound = 1 /\ jobs = 1 |}).
  apply (omp_same v one srt srt' w p e e' f f' Hs Hs' U O1); try assumption.
  - split; [reflexivity|]. intros bound jobs [-> ->]. lia.
  - rewrite <- M'. apply (main_agrees one srt' w p U). split; reflexivity.
Qed.

(** The sequential program writes the first of the optimal maps. *)
Lemma main_greedy srt w o lpath rpath out e f : sorts srt -> usable_files w -> all_paths o lpath rpath out -> technology_ok o ->
  main srt w (Parsed o) = Ok e -> written_file e = Some f ->
  exists l r lev c s g lp img txt, file_holds w lpath l /\ file_holds w rpath r /\
    option_number (width l) (o_levels o) lev /\ option_number 1 (o_cleanness o) c /\ option_number 1 (o_smoothness o) s /\
    make_graph l r lev (@of_u cpu c) (of_u s) = Ok g /\ make_lowest g = Ok lp /\ greedy_map g lp img /\
    (forall img', greedy_map g lp img' -> img' = img) /\
    write_image [] (Some img) = Ok txt /\ f = (out, txt).
Proof.
  intros Hs U A Ht M F.
  set (one := {| t_sc := true; t_word := 1; t_size := fun bound jobs => bound = 1 /\ jobs = 1 |}).
  assert (O1 : orderly_team one) by (split; [reflexivity|]; intros bound jobs [-> ->]; lia).
  pose proof (proj1 (main_agrees one srt w (Parsed o) U (conj eq_refl eq_refl))) as R. rewrite M in R.
  destruct (omp_ends one srt w o lpath rpath out _ Hs U (orderly_ok one O1) A Ht R) as [[y [E _]]|[img [txt [D [W E]]]]];
    [injection E as ->; discriminate F|].
  destruct D as [l [r [lev [c [s [g [lp [t [Hl [Hr [Hlev [Hc [Hsm [Eg [El [_ X]]]]]]]]]]]]]]]].
  destruct X as [X|[X|[[X _]|[img' [X [_ B]]]]]]; try discriminate. injection X as <-.
  exists l, r, lev, c, s, g, lp, img, txt. do 7 (split; [assumption|]). split; [exact (B O1)|].
  split.
  { destruct (held_usable w lpath l U Hl) as [_ S2].
    destruct (make_graph_wf l r lev _ _ g Eg (held_consistent _ _ _ Hl) (held_consistent _ _ _ Hr) (problem_fits _ _ _ _ _ _ Eg S2)) as [Hw _].
    intros img' B'. exact (greedy_unique g lp img' img Hw B' (B O1)). }
  split; [exact W|].
  injection E as ->. cbn [written_file ends] in F. destruct (writable w out); congruence.
Qed.

(** What a run writes. *)
Lemma omp_written v srt w o lpath rpath out e f : sorts srt -> usable_files w -> team_ok v -> all_paths o lpath rpath out -> technology_ok o ->
  main_omp v srt w (Parsed o) (Ok e) -> written_file e = Some f ->
  exists l r lev c s g lp t img txt, file_holds w lpath l /\ file_holds w rpath r /\
    option_number (width l) (o_levels o) lev /\ option_number 1 (o_cleanness o) c /\ option_number 1 (o_smoothness o) s /\
    make_graph l r lev (@of_u cpu c) (of_u s) = Ok g /\ make_lowest g = Ok lp /\ lower_bound g lp t /\ matched_map g lp t img /\
    (orderly_team v -> greedy_map g lp img) /\ write_image [] (Some img) = Ok txt /\ f = (out, txt).
Proof.
  intros Hs U Hv A Ht R F.
  destruct (omp_ends v srt w o lpath rpath out _ Hs U Hv A Ht R) as [[y [E _]]|[img [txt [D [W E]]]]];
    [injection E as ->; discriminate F|].
  destruct D as [l [r [lev [c [s [g [lp [t [Hl [Hr [Hlev [Hc [Hsm [Eg [El [Low X]]]]]]]]]]]]]]]].
  destruct X as [X|[X|[[X _]|[img' [X [Mt B]]]]]]; try discriminate. injection X as <-.
  exists l, r, lev, c, s, g, lp, t, img, txt. do 9 (split; [assumption|]). split; [exact B|]. split; [exact W|].
  injection E as ->. cbn [written_file ends] in F. destruct (writable w out); congruence.
Qed.

(** How a run ends. *)
Lemma omp_reports v srt w o lpath rpath out e : sorts srt -> usable_files w -> team_ok v -> all_paths o lpath rpath out -> technology_ok o ->
  main_omp v srt w (Parsed o) e ->
  (exists y, e = Ok (ends 0 (Some (report y)) None) /\
     (main srt w (Parsed o) = Ok (ends 0 (Some (report y)) None) \/ y = CannotSolve \/ y = CannotLabel \/ (y = NoLabel /\ ~ orderly_team v))) \/
  exists img txt, valid_image img /\ write_image [] (Some img) = Ok txt /\
    e = Ok (ends 0 None (if writable w out then Some (out, txt) else None)).
Proof.
  intros Hs U Hv A Ht R.
  destruct (omp_ends v srt w o lpath rpath out _ Hs U Hv A Ht R) as [X|[img [txt [D [W E]]]]]; [left; exact X|right].
  exists img, txt. destruct (matched_written w o lpath rpath v img U D) as [_ [_ V]]. auto.
Qed.

Lemma omp_optimal v srt w o lpath rpath out e f : sorts srt -> usable_files w -> orderly_team v -> all_paths o lpath rpath out -> technology_ok o ->
  main_omp v srt w (Parsed o) (Ok e) -> written_file e = Some f ->
  exists l r lev c s g lp img txt, file_holds w lpath l /\ file_holds w rpath r /\
    option_number (width l) (o_levels o) lev /\ option_number 1 (o_cleanness o) c /\ option_number 1 (o_smoothness o) s /\
    make_graph l r lev (@of_u cpu c) (of_u s) = Ok g /\ make_lowest g = Ok lp /\ best_map g lp img /\
    write_image [] (Some img) = Ok txt /\ f = (out, txt).
Proof.
  intros Hs U Ho A Ht R F.
  destruct (omp_written v srt w o lpath rpath out e f Hs U (orderly_ok v Ho) A Ht R F)
    as [l [r [lev [c [s [g [lp [t [img [txt [Hl [Hr [Hlev [Hc [Hsm [Eg [El [_ [_ [B [W Ef]]]]]]]]]]]]]]]]]]]]].
  exists l, r, lev, c, s, g, lp, img, txt. do 7 (split; [assumption|]). split; [apply (B Ho)|]. auto.
Qed.
