(** The application on files and options: lemmas. *)
From Coq Require Import Lia String.
From Flocq Require Import Core BinarySingleNaN.
From Verif Require Export Sort_proofs Main_spec.
Local Open Scope N_scope.

(** *** Numbers of options *)

Lemma skip_split t : exists sp, t = sp ++ skip_space t /\ (forall c, In c sp -> space c) /\
  (forall c, hd_error (skip_space t) = Some c -> ~ space c).
Proof.
  induction t as [|c t IH]; cbn [skip_space].
  - exists []. split; [reflexivity|]. split; [intros c []|discriminate].
  - destruct (is_space c) eqn:E.
    + destruct IH as [sp [H1 [H2 H3]]]. exists (c :: sp). cbn [app]. split; [congruence|]. split; [|exact H3].
      intros x [<-|Hx]; [apply space_iff; exact E|apply H2; exact Hx].
    + exists []. split; [reflexivity|]. split; [intros x []|]. intros x X. injection X as <-. apply space_false. exact E.
Qed.
Lemma skip_idem t : skip_space (skip_space t) = skip_space t.
Proof. induction t as [|c t IH]; cbn [skip_space]; [reflexivity|]. destruct (is_space c) eqn:E; [exact IH|]. cbn [skip_space]. rewrite E. reflexivity. Qed.
Lemma skip_first tok : (forall c, hd_error tok = Some c -> ~ space c) -> skip_space tok = tok.
Proof.
  destruct tok as [|c t]; [reflexivity|]. intros H. cbn [skip_space].
  rewrite (proj2 (space_false c)) by (apply H; reflexivity). reflexivity.
Qed.
Lemma skip_app sp tok : (forall c, In c sp -> space c) -> skip_space (sp ++ tok) = skip_space tok.
Proof.
  intros H. induction sp as [|c sp IH]; [reflexivity|]. cbn [app skip_space].
  rewrite (proj2 (space_iff c)) by (apply H; left; reflexivity). apply IH. intros x Hx. apply H. right; exact Hx.
Qed.
Lemma stoul_skip t : stoul t = stoul (skip_space t).
Proof. unfold stoul. rewrite skip_idem. reflexivity. Qed.

Lemma number_value d o v : number_or d o = Ok v <-> option_number d o v.
Proof.
  destruct o as [t|]; cbn [number_or option_number].
  - rewrite stoul_skip. split.
    + intros E. apply (stoul_reads _ _ (skip_idem t)) in E. destruct (skip_split t) as [sp [H1 [H2 H3]]].
      exists sp, (skip_space t). auto.
    + intros [sp [tok [-> [H1 [H2 H3]]]]]. rewrite (skip_app sp tok H1), (skip_first tok H2).
      apply reads_stoul; [apply skip_first; exact H2|exact H3].
  - split; [intros E; injection E; auto|intros ->; reflexivity].
Qed.
Lemma number_total d o : (exists v, number_or d o = Ok v) \/ exists e, number_or d o = Stop (Throw e).
Proof.
  destruct o as [t|]; cbn [number_or]; [|eauto]. rewrite stoul_skip.
  destruct (stoul_cases (skip_space t) (skip_idem t)) as [[v H]|[H|H]].
  - left. exists v. apply reads_stoul; [apply skip_idem|exact H].
  - right. eexists. apply range_stoul; [apply skip_idem|exact H].
  - right. eexists. apply invalid_stoul; [apply skip_idem|exact H].
Qed.
Lemma reads_small t v : reads_as t v -> v < 2 ^ 64.
Proof. intros [neg [n [_ [H ->]]]]. destruct neg; [apply N.mod_lt; lia|exact H]. Qed.
Lemma number_small d o v : d < 2 ^ 64 -> option_number d o v -> v < 2 ^ 64.
Proof. destruct o as [t|]; cbn [option_number]; [intros _ [sp [tok [_ [_ [_ H]]]]]; eapply reads_small; exact H|congruence]. Qed.

(** *** Files *)

Lemma held_small w path img : file_holds w path img -> width img < 2 ^ 64 /\ forall v, In v (data img) -> v < 2 ^ 64.
Proof.
  intros [t [ts [_ [_ [ts' [[tw [th [tm [_ [Hw _]]]]] [_ [F _]]]]]]]]. split; [eapply reads_small; exact Hw|].
  induction F as [|x v ts' vs H F IH]; [intros v []|]. intros v' [<-|Hv]; [eapply reads_small; exact H|apply IH; exact Hv].
Qed.
Lemma held_consistent w path img : file_holds w path img -> consistent_image img.
Proof. intros [t [ts [_ [_ [ts' [_ [_ [_ H]]]]]]]]. exact H. Qed.
Lemma held_usable w path img : usable_files w -> file_holds w path img ->
  width img * height img < 2 ^ 32 /\ 4 * (width img * width img * height img) < 2 ^ 64.
Proof.
  intros U [t [ts [Ft [L [ts' [Hh _]]]]]]. destruct (U path t Ft ts L) as [H _]. apply (H _ _ _ _ Hh).
Qed.
Lemma held_read w path img : file_holds w path img -> width img * height img <= vector_max_size -> read_file w path = Ok img.
Proof.
  intros [t [ts [Ft [L Hi]]]] Hs. unfold read_file. rewrite Ft.
  destruct (read_layout ts t img None L Hi Hs) as [s [-> F]]. cbn [bind fst snd]. rewrite F. reflexivity.
Qed.
Lemma read_held w path img : read_file w path = Ok img -> file_holds w path img.
Proof.
  unfold read_file. destruct (files w path) as [t|] eqn:Ft; [|discriminate]. intros H. apply bind_Ok in H.
  destruct H as [[s io] [E H]]. cbn [fst snd] in H. destruct (failbit s) eqn:F; [discriminate|].
  destruct (read_success t None s io E F) as [img' [ts [-> [L I]]]]. injection H as <-. exists t, ts. auto.
Qed.
Lemma read_total w path : usable_files w ->
  (exists img, read_file w path = Ok img) \/ exists e, read_file w path = Stop (Throw e).
Proof.
  intros U. unfold read_file. destruct (files w path) as [t|] eqn:Ft; [|eauto].
  destruct (read_safe t None) as [ND NU].
  destruct (read_image (opened t) None) as [[s io]|[e| |]] eqn:E; cbn [bind fst snd].
  - destruct (failbit s); [eauto|]. destruct io; eauto.
  - eauto.
  - exfalso. destruct (NU eq_refl) as [ts [L [[a [b [m [r [Hh Hb]]]]]|[img [extra [I X]]]]]]; destruct (U path t Ft ts L) as [U1 U2].
    + destruct (U1 a b m r Hh). lia.
    + exact (U2 img extra I X).
  - congruence.
Qed.

(** *** The problem *)

Lemma problem_fits l r lev (c s : F cpu) g : make_graph l r lev c s = Ok g ->
  4 * (width l * width l * height l) < 2 ^ 64 -> width l * height l * 4 * lev < 2 ^ 64.
Proof.
  intros E H. destruct (make_graph_Ok l r lev c s g E) as [_ [_ [_ [Lw _]]]].
  assert (width l * height l * 4 * lev <= width l * height l * 4 * width l) by (apply N.mul_le_mono_l; exact Lw). lia.
Qed.
Lemma made_finite l r lev c s g : make_graph l r lev (@of_u cpu c) (of_u s) = Ok g ->
  consistent_image l -> consistent_image r -> 4 * (width l * width l * height l) < 2 ^ 64 ->
  c < 2 ^ 64 -> s < 2 ^ 64 -> (forall v, In v (data l) \/ In v (data r) -> v < 2 ^ 64) -> finite_penalties g.
Proof.
  intros E Cl Cr Hsz Hc Hs Hd. pose proof (problem_fits l r lev _ _ g E Hsz) as Hf.
  destruct (make_graph_wf l r lev _ _ g E Cl Cr Hf) as [Hw Hz].
  destruct (make_graph_Ok l r lev _ _ g E) as [_ [_ [_ [_ [_ [_ [_ [_ [_ [_ [_ Eg]]]]]]]]]]]. subst g.
  apply finite_problem; [exact Hw|exact Hz|exact Hd|apply cpu_of_u; exact Hc|apply cpu_of_u; exact Hs].
Qed.

Lemma map_cases srt w o lpath rpath : sorts srt -> usable_files w ->
  (exists img, disparity_map_of srt w o lpath rpath = Ok img /\ map_of w o lpath rpath img) \/
  exists e, disparity_map_of srt w o lpath rpath = Stop (Throw e).
Proof.
  intros Hs U. unfold disparity_map_of.
  destruct (read_total w lpath U) as [[l El]|[e ->]]; [|right; exists e; reflexivity]. rewrite El. cbn [bind].
  destruct (read_total w rpath U) as [[r Er]|[e ->]]; [|right; exists e; reflexivity]. rewrite Er. cbn [bind].
  destruct (number_total (width l) (o_levels o)) as [[lev Elev]|[e ->]]; [|right; exists e; reflexivity]. rewrite Elev. cbn [bind].
  destruct (number_total 1 (o_cleanness o)) as [[c Ec]|[e ->]]; [|right; exists e; reflexivity]. rewrite Ec. cbn [bind].
  destruct (number_total 1 (o_smoothness o)) as [[s Es]|[e ->]]; [|right; exists e; reflexivity]. rewrite Es. cbn [bind].
  apply read_held in El. apply read_held in Er. apply number_value in Elev. apply number_value in Ec. apply number_value in Es.
  destruct (held_usable w lpath l U El) as [S1 S2]. destruct (held_usable w rpath r U Er) as [S3 _].
  pose proof (held_consistent _ _ _ El) as Cl. pose proof (held_consistent _ _ _ Er) as Cr.
  destruct (made_total l r lev (@of_u cpu c) (of_u s)) as [[g Eg]|[[k Ek]|Ek]]; try assumption; [discriminate| | |].
  - assert (Hf : finite_penalties g).
    { eapply made_finite; try eassumption; try (eapply number_small; [|eassumption]; reflexivity).
      intros v [Hv|Hv]; [apply (proj2 (held_small _ _ _ El) v Hv)|apply (proj2 (held_small _ _ _ Er) v Hv)]. }
    destruct (solve_accepted cpu_laws srt l r lev _ _ g Hs Eg Cl Cr (problem_fits _ _ _ _ _ _ Eg S2) Hf) as [lp [Elp [X|[img [X B]]]]].
    + right. exists CannotLabel. exact X.
    + left. exists img. split; [exact X|]. exists l, r, lev, c, s, g, lp. repeat (split; [assumption|]). exact B.
  - right. unfold solve_problem. rewrite Ek. eexists; reflexivity.
  - right. unfold solve_problem. rewrite Ek. eexists; reflexivity.
Qed.

Lemma map_same srt srt' w o lpath rpath : sorts srt -> sorts srt' -> usable_files w ->
  disparity_map_of srt w o lpath rpath = disparity_map_of srt' w o lpath rpath.
Proof.
  intros Hs Hs' U. unfold disparity_map_of.
  destruct (read_total w lpath U) as [[l El]|[e ->]]; [|reflexivity]. rewrite El. cbn [bind].
  destruct (read_total w rpath U) as [[r Er]|[e ->]]; [|reflexivity]. rewrite Er. cbn [bind].
  destruct (number_total (width l) (o_levels o)) as [[lev Elev]|[e ->]]; [|reflexivity]. rewrite Elev. cbn [bind].
  destruct (number_total 1 (o_cleanness o)) as [[c Ec]|[e ->]]; [|reflexivity]. rewrite Ec. cbn [bind].
  destruct (number_total 1 (o_smoothness o)) as [[s Es]|[e ->]]; [|reflexivity]. rewrite Es. cbn [bind].
  apply read_held in El. apply read_held in Er. apply number_value in Elev. apply number_value in Ec. apply number_value in Es.
  destruct (held_usable w lpath l U El) as [S1 S2]. destruct (held_usable w rpath r U Er) as [S3 _].
  pose proof (held_consistent _ _ _ El) as Cl. pose proof (held_consistent _ _ _ Er) as Cr.
  destruct (made_total l r lev (@of_u cpu c) (of_u s)) as [[g Eg]|[[k Ek]|Ek]]; try assumption; [discriminate| | |].
  - apply (solve_same cpu_laws srt srt' l r lev _ _ g); try assumption; [apply (problem_fits _ _ _ _ _ _ Eg S2)|].
    eapply made_finite; try eassumption; try (eapply number_small; [|eassumption]; reflexivity).
    intros v [Hv|Hv]; [apply (proj2 (held_small _ _ _ El) v Hv)|apply (proj2 (held_small _ _ _ Er) v Hv)].
  - unfold solve_problem. rewrite Ek. reflexivity.
  - unfold solve_problem. rewrite Ek. reflexivity.
Qed.

(** *** Writing the map *)

Lemma map_size w o lpath rpath img : usable_files w -> map_of w o lpath rpath img -> width img * height img < 2 ^ 32.
Proof.
  intros U [l [r [lev [c [s [g [lp [Hl [_ [_ [_ [_ [Eg [_ [W [H _]]]]]]]]]]]]]]]].
  destruct (make_graph_Ok l r lev _ _ g Eg) as [_ [_ [_ [_ [_ [_ [_ [_ [_ [_ [_ E]]]]]]]]]]]. subst g. cbn [left] in W, H.
  rewrite W, H. apply (held_usable w lpath l U Hl).
Qed.
Lemma map_writable w o lpath rpath img : usable_files w -> map_of w o lpath rpath img ->
  exists txt, write_image [] (Some img) = Ok txt.
Proof.
  intros U M. pose proof (map_size w o lpath rpath img U M) as Sz.
  destruct M as [l [r [lev [c [s [g [lp [_ [_ [_ [_ [_ [_ [_ [_ [_ [_ [C [V _]]]]]]]]]]]]]]]]]]].
  eexists. exact (written img V C Sz []).
Qed.

(** *** Technologies *)

Definition not_upper (d : ascii) : Prop := ~ (65 <= code d <= 90).
Lemma lower_iff c d : not_upper d -> lower c = d <-> same_letter c d.
Proof.
  unfold not_upper, lower, same_letter, code. intros Hd.
  destruct (N.leb_spec 65 (N_of_ascii c)) as [A|A], (N.leb_spec (N_of_ascii c) 90) as [B|B]; cbn [andb].
  - split.
    + intros <-. right. rewrite N_ascii_embedding by lia. lia.
    + intros [->|[E _]]; [lia|]. rewrite E. apply ascii_N_embedding.
  - split; [auto|]. intros [->|[_ E]]; [reflexivity|lia].
  - split; [auto|]. intros [->|[_ E]]; [reflexivity|lia].
  - split; [auto|]. intros [->|[_ E]]; [reflexivity|lia].
Qed.
Lemma lower_text name t : Forall not_upper name -> same_text (map lower t) name = true <-> Forall2 same_letter t name.
Proof.
  intros H. unfold same_text. destruct (list_eq_dec ascii_dec (map lower t) name) as [E|E].
  - split; [|reflexivity]. intros _. revert name E H. induction t as [|c t IH]; intros name E H; cbn [map] in E; subst name; [constructor|].
    inversion H; subst. constructor; [apply lower_iff; [assumption|reflexivity]|apply IH; [reflexivity|assumption]].
  - split; [discriminate|]. intros F. destruct E. induction F as [|c d t ds Hc F IH]; [reflexivity|].
    inversion H; subst. cbn [map]. f_equal; [apply lower_iff; assumption|apply IH; assumption].
Qed.
Lemma names_lower : Forall not_upper (lit "cpu") /\ Forall not_upper (lit "openmp") /\ Forall not_upper (lit "omp").
Proof. repeat split; repeat constructor; unfold not_upper, code; cbn; lia. Qed.
Lemma parallel_cases o : (technology_ok o /\ check_parallel (o_parallel o) = Ok tt) \/
  (~ technology_ok o /\ check_parallel (o_parallel o) = Stop (Throw BadParallel)).
Proof.
  unfold technology_ok, check_parallel. destruct (o_parallel o) as [t|]; [|left; split; [intros t X; discriminate|reflexivity]].
  destruct names_lower as [N1 [N2 N3]]. cbv zeta.
  destruct (same_text (map lower t) (lit "cpu")) eqn:E1; cbn [orb].
  { left. split; [|reflexivity]. intros t' X. injection X as <-. exists (lit "cpu"). split; [left; reflexivity|]. apply lower_text; assumption. }
  destruct (same_text (map lower t) (lit "openmp")) eqn:E2; cbn [orb].
  { left. split; [|reflexivity]. intros t' X. injection X as <-. exists (lit "openmp"). split; [right; left; reflexivity|]. apply lower_text; assumption. }
  destruct (same_text (map lower t) (lit "omp")) eqn:E3.
  { left. split; [|reflexivity]. intros t' X. injection X as <-. exists (lit "omp"). split; [right; right; left; reflexivity|]. apply lower_text; assumption. }
  right. split; [|reflexivity]. intros H. destruct (H t eq_refl) as [name [[<-|[<-|[<-|[]]]] F]]; apply lower_text in F; try assumption; congruence.
Qed.

(** *** The program *)

Definition report (e : exn) : message := if is_invalid_argument e then InvalidArgumentError e else LogicError e.

Lemma main_failed srt w o l r out e : all_paths o l r out -> technology_ok o ->
  disparity_map_of srt w o l r = Stop (Throw e) -> main srt w (Parsed o) = Ok (ends 0 (Some (report e)) None).
Proof.
  intros [E1 [E2 E3]] Ht E. unfold main. rewrite E1, E2, E3.
  destruct (parallel_cases o) as [[_ ->]|[X _]]; [|contradiction]. rewrite E. reflexivity.
Qed.
Lemma main_found srt w o l r out img txt : all_paths o l r out -> technology_ok o ->
  disparity_map_of srt w o l r = Ok img -> write_image [] (Some img) = Ok txt ->
  main srt w (Parsed o) = Ok (ends 0 None (if writable w out then Some (out, txt) else None)).
Proof.
  intros [E1 [E2 E3]] Ht E Et. unfold main. rewrite E1, E2, E3.
  destruct (parallel_cases o) as [[_ ->]|[X _]]; [|contradiction]. rewrite E. cbn [bind].
  destruct (writable w out); [rewrite Et|]; reflexivity.
Qed.
Lemma main_run srt w o l r out : sorts srt -> usable_files w -> all_paths o l r out -> technology_ok o ->
  (exists img txt, map_of w o l r img /\ write_image [] (Some img) = Ok txt /\
     main srt w (Parsed o) = Ok (ends 0 None (if writable w out then Some (out, txt) else None))) \/
  exists e, main srt w (Parsed o) = Ok (ends 0 (Some (report e)) None).
Proof.
  intros Hs U Hp Ht. destruct (map_cases srt w o l r Hs U) as [[img [E M]]|[e E]].
  - left. destruct (map_writable w o l r img U M) as [txt Et]. exists img, txt. split; [exact M|]. split; [exact Et|].
    eapply main_found; eassumption.
  - right. exists e. eapply main_failed; eassumption.
Qed.
Lemma main_unknown srt w o l r out : all_paths o l r out -> ~ technology_ok o ->
  main srt w (Parsed o) = Ok (ends 1 (Some UnexpectedException) None).
Proof.
  intros [E1 [E2 E3]] Ht. unfold main. rewrite E1, E2, E3.
  destruct (parallel_cases o) as [[X _]|[_ ->]]; [contradiction|]. reflexivity.
Qed.
Lemma main_no_image srt w o : o_left o = None \/ o_right o = None -> main srt w (Parsed o) = Ok (ends 0 (Some NoImages) None).
Proof.
  intros H. unfold main. destruct (o_output o), (o_left o), (o_right o); try reflexivity; destruct H; discriminate.
Qed.
Lemma main_no_output srt w o l r : o_left o = Some l -> o_right o = Some r -> o_output o = None ->
  main srt w (Parsed o) = Ok (ends 0 (Some NoOutput) None).
Proof. intros E1 E2 E3. unfold main. rewrite E1, E2, E3. reflexivity. Qed.

Lemma options_cases o : (o_left o = None \/ o_right o = None) \/
  (exists l r, o_left o = Some l /\ o_right o = Some r /\ o_output o = None) \/
  (exists l r out, all_paths o l r out).
Proof.
  destruct (o_left o) as [l|] eqn:El; [|auto]. destruct (o_right o) as [r|] eqn:Er; [|auto]. right.
  destruct (o_output o) as [out|] eqn:Eo; [right|left; eauto]. exists l, r, out. split; [exact El|split; [exact Er|exact Eo]].
Qed.
Lemma technology_dec o : technology_ok o \/ ~ technology_ok o.
Proof. destruct (parallel_cases o) as [[H _]|[H _]]; auto. Qed.

Lemma main_total srt w p : sorts srt -> usable_files w -> exists e, main srt w p = Ok e.
Proof.
  intros Hs U. destruct p as [o| |]; [|eexists; reflexivity..].
  destruct (options_cases o) as [H|[[l [r [E1 [E2 E3]]]]|[l [r [out H]]]]].
  - eexists. apply main_no_image. exact H.
  - eexists. eapply main_no_output; eassumption.
  - destruct (technology_dec o) as [Ht|Ht].
    + destruct (main_run srt w o l r out Hs U H Ht) as [[img [txt [_ [_ E]]]]|[e E]]; eauto.
    + eexists. eapply main_unknown; eassumption.
Qed.

Lemma main_status srt w p e : sorts srt -> usable_files w -> main srt w p = Ok e ->
  (status e = 0 \/ status e = 1) /\
  (status e = 1 <-> p = Repeated \/ p = Rejected \/
     exists o l r out, p = Parsed o /\ all_paths o l r out /\ ~ technology_ok o).
Proof.
  intros Hs U E. destruct p as [o| |]; [|injection E as <-; cbn; intuition discriminate..].
  assert (Z : status e = 0 -> (forall l r out, all_paths o l r out -> technology_ok o) ->
    (status e = 0 \/ status e = 1) /\ (status e = 1 <-> Parsed o = Repeated \/ Parsed o = Rejected \/
     exists o' l r out, Parsed o = Parsed o' /\ all_paths o' l r out /\ ~ technology_ok o')).
  { intros S H. split; [auto|]. split; [congruence|]. intros [X|[X|[o' [l [r [out [X [P Q]]]]]]]]; try discriminate.
    injection X as <-. destruct Q. eapply H; exact P. }
  destruct (options_cases o) as [H|[[l [r [E1 [E2 E3]]]]|[l [r [out H]]]]].
  - rewrite main_no_image in E by exact H. injection E as <-. apply Z; [reflexivity|].
    intros l r out [P1 [P2 _]]. destruct H; congruence.
  - rewrite (main_no_output _ _ _ l r) in E by assumption. injection E as <-. apply Z; [reflexivity|].
    intros l' r' out [_ [_ P]]. congruence.
  - destruct (technology_dec o) as [Ht|Ht].
    + apply Z; [|auto]. destruct (main_run srt w o l r out Hs U H Ht) as [[img [txt [_ [_ E']]]]|[x E']]; rewrite E' in E; injection E as <-; reflexivity.
    + rewrite (main_unknown _ _ _ l r out) in E by assumption. injection E as <-. cbn [ends status]. split; [auto|].
      split; [|reflexivity]. intros _. right; right. exists o, l, r, out. auto.
Qed.

Lemma main_written srt w p e path txt : sorts srt -> usable_files w -> main srt w p = Ok e -> written_file e = Some (path, txt) ->
  status e = 0 /\ printed e = None /\ writable w path = true /\
  exists o l r img, p = Parsed o /\ all_paths o l r path /\ technology_ok o /\ map_of w o l r img /\ write_image [] (Some img) = Ok txt.
Proof.
  intros Hs U E W. destruct p as [o| |]; [|injection E as <-; discriminate..].
  destruct (options_cases o) as [H|[[l [r [E1 [E2 E3]]]]|[l [r [out H]]]]].
  - rewrite main_no_image in E by exact H. injection E as <-. discriminate.
  - rewrite (main_no_output _ _ _ l r) in E by assumption. injection E as <-. discriminate.
  - destruct (technology_dec o) as [Ht|Ht].
    + destruct (main_run srt w o l r out Hs U H Ht) as [[img [txt' [M [Et E']]]]|[x E']]; rewrite E' in E; injection E as <-; [|discriminate].
      cbn [ends written_file status printed] in *. destruct (writable w out) eqn:Wo; [|discriminate]. injection W as <- <-.
      split; [reflexivity|]. split; [reflexivity|]. split; [exact Wo|]. exists o, l, r, img. auto.
    + rewrite (main_unknown _ _ _ l r out) in E by assumption. injection E as <-. discriminate.
Qed.

Lemma main_silent srt w p e : sorts srt -> usable_files w -> main srt w p = Ok e -> printed e = None ->
  exists o l r out img txt, p = Parsed o /\ all_paths o l r out /\ technology_ok o /\ map_of w o l r img /\
    write_image [] (Some img) = Ok txt /\ status e = 0 /\
    written_file e = if writable w out then Some (out, txt) else None.
Proof.
  intros Hs U E W. destruct p as [o| |]; [|injection E as <-; discriminate..].
  destruct (options_cases o) as [H|[[l [r [E1 [E2 E3]]]]|[l [r [out H]]]]].
  - rewrite main_no_image in E by exact H. injection E as <-. discriminate.
  - rewrite (main_no_output _ _ _ l r) in E by assumption. injection E as <-. discriminate.
  - destruct (technology_dec o) as [Ht|Ht].
    + destruct (main_run srt w o l r out Hs U H Ht) as [[img [txt' [M [Et E']]]]|[x E']]; rewrite E' in E; injection E as <-; [|discriminate].
      exists o, l, r, out, img, txt'. cbn [ends written_file status]. auto 8.
    + rewrite (main_unknown _ _ _ l r out) in E by assumption. injection E as <-. discriminate.
Qed.

Lemma main_same srt srt' w p : sorts srt -> sorts srt' -> usable_files w -> main srt w p = main srt' w p.
Proof.
  intros Hs Hs' U. destruct p as [o| |]; [|reflexivity..]. unfold main.
  destruct (o_output o), (o_left o), (o_right o); try reflexivity. rewrite (map_same srt srt') by assumption. reflexivity.
Qed.

Lemma main_no_help srt w p e : main srt w p = Ok e -> printed e <> Some Help.
Proof.
  destruct p as [o| |]; [|intros E; injection E as <-; discriminate..].
  destruct (options_cases o) as [H|[[l [r [E1 [E2 E3]]]]|[l [r [out H]]]]].
  - rewrite main_no_image by exact H. intros E. injection E as <-. discriminate.
  - rewrite (main_no_output _ _ _ l r) by assumption. intros E. injection E as <-. discriminate.
  - destruct (technology_dec o) as [Ht|Ht].
    + destruct H as [E1 [E2 E3]]. unfold main. rewrite E1, E2, E3. destruct (parallel_cases o) as [[_ ->]|[X _]]; [|contradiction].
      destruct (bind _ _) as [f|[x| |]]; try discriminate; intros E; injection E as <-; cbn [ends printed]; [discriminate|].
      destruct (is_invalid_argument x); discriminate.
    + rewrite (main_unknown _ _ _ l r out) by assumption. intros E. injection E as <-. discriminate.
Qed.

(** *** Failures *)

Lemma read_missing w path : files w path = None -> read_file w path = Stop (Throw CannotOpen).
Proof. intros E. unfold read_file. rewrite E. reflexivity. Qed.
Lemma read_broken w path t ts : files w path = Some t -> laid_out ts t -> defect ts -> read_file w path = Stop (Throw NotPgm).
Proof.
  intros E L D. unfold read_file. rewrite E. destruct (read_defective ts t None L D) as [s [-> F]]. cbn [bind fst snd]. rewrite F. reflexivity.
Qed.


(** *** Good and bad problems *)

Lemma valid_dec (img : image) : consistent_image img -> width img * height img < 2 ^ 32 -> valid_image img \/ ~ valid_image img.
Proof.
  intros C S. destruct (image_valid_decides cpu img) as [b [E H]]; [discriminate|exact C|exact S|].
  destruct b; [left; apply H; reflexivity|right; intros V; apply H in V; discriminate].
Qed.
Lemma good_iff l r lev c s : consistent_image l -> consistent_image r -> width l * height l < 2 ^ 32 -> width r * height r < 2 ^ 32 ->
  c < 2 ^ 64 -> s < 2 ^ 64 ->
  good_problem l r lev c s <-> forall k, ~ violated l r lev (@of_u cpu c) (of_u s) k.
Proof.
  intros Cl Cr Sl Sr Hc Hs. split.
  - intros [V1 [V2 [W [H [M [L1 [L2 P]]]]]]] k. unfold violated.
    destruct k as [|k]; [tauto|].
    repeat (destruct k as [k|k|]; cbv iota; try tauto; try lia; try (rewrite of_u_nonneg by assumption; discriminate)).
    rewrite !of_u_eps by assumption. lia.
  - intros H. unfold good_problem.
    pose proof (H 0) as H0. pose proof (H 1) as H1. pose proof (H 2) as H2. pose proof (H 3) as H3. pose proof (H 4) as H4.
    pose proof (H 5) as H5. pose proof (H 6) as H6. pose proof (H 9) as H9. unfold violated in *. rewrite !of_u_eps in H9 by assumption.
    assert (V1 : valid_image l) by (destruct (valid_dec l Cl Sl); tauto).
    assert (V2 : valid_image r) by (destruct (valid_dec r Cr Sr); tauto).
    refine (conj V1 (conj V2 (conj _ (conj _ (conj _ (conj _ (conj _ _))))))); lia.
Qed.

Section Given.
Variables (w : world) (o : options) (lpath rpath out : text) (l r : image) (lev c s : N).
Hypotheses (Hp : all_paths o lpath rpath out) (Ht : technology_ok o)
  (Hl : file_holds w lpath l) (Hr : file_holds w rpath r)
  (Nl : option_number (width l) (o_levels o) lev) (Nc : option_number 1 (o_cleanness o) c) (Ns : option_number 1 (o_smoothness o) s)
  (Sl : width l * height l < 2 ^ 32) (Sr : width r * height r < 2 ^ 32).

Lemma given_problem srt : disparity_map_of srt w o lpath rpath = solve_problem srt l r lev (@of_u cpu c) (of_u s).
Proof.
  unfold disparity_map_of. rewrite (held_read w lpath l Hl) by (unfold vector_max_size; lia). cbn [bind].
  rewrite (held_read w rpath r Hr) by (unfold vector_max_size; lia). cbn [bind].
  rewrite (proj2 (number_value _ _ _) Nl). cbn [bind]. rewrite (proj2 (number_value _ _ _) Nc). cbn [bind].
  rewrite (proj2 (number_value _ _ _) Ns). reflexivity.
Qed.
Lemma given_weights : c < 2 ^ 64 /\ s < 2 ^ 64.
Proof. split; (eapply number_small; [|eassumption]; reflexivity). Qed.

Lemma given_good srt : sorts srt -> 4 * (width l * width l * height l) < 2 ^ 64 -> width l * height l * 4 * lev <= vector_max_size ->
  good_problem l r lev c s ->
  exists g lp, make_graph l r lev (@of_u cpu c) (of_u s) = Ok g /\ make_lowest g = Ok lp /\
    (main srt w (Parsed o) = Ok (ends 0 (Some (LogicError CannotLabel)) None) \/
     exists img txt, best_map g lp img /\ write_image [] (Some img) = Ok txt /\
       main srt w (Parsed o) = Ok (ends 0 None (if writable w out then Some (out, txt) else None))).
Proof.
  intros Hs Sz Sv G. destruct given_weights as [Wc Ws].
  pose proof (held_consistent _ _ _ Hl) as Cl. pose proof (held_consistent _ _ _ Hr) as Cr.
  assert (F64 : width l * height l * 4 * lev < wmod cpu) by (change (wmod cpu) with (2 ^ 64); unfold vector_max_size in Sv; lia).
  destruct (make_graph_accepts l r lev (@of_u cpu c) (of_u s)) as [Acc _]; try assumption; [discriminate|].
  pose proof (proj2 (Acc _) (conj (proj1 (good_iff l r lev c s Cl Cr Sl Sr Wc Ws) G) eq_refl)) as Eg. clear Acc.
  match type of Eg with _ = Ok ?x => set (g := x) in * end.
  assert (Hf : finite_penalties g).
  { eapply made_finite; try eassumption.
    intros v [Hv|Hv]; [apply (proj2 (held_small _ _ _ Hl) v Hv)|apply (proj2 (held_small _ _ _ Hr) v Hv)]. }
  destruct (solve_accepted cpu_laws srt l r lev _ _ g Hs Eg Cl Cr F64 Hf) as [lp [Elp X]].
  exists g, lp. split; [exact Eg|]. split; [exact Elp|]. rewrite <- given_problem in X. destruct X as [X|[img [X B]]].
  - left. exact (main_failed srt w o lpath rpath out CannotLabel Hp Ht X).
  - right. pose proof B as [Wi [Hi [_ [Ci [Vi _]]]]]. unfold g in Wi, Hi. cbn [left] in Wi, Hi.
    assert (Si : width img * height img < 2 ^ 32) by (rewrite Wi, Hi; exact Sl).
    pose proof (written img Vi Ci Si []) as Et. eexists img, _. split; [exact B|]. split; [exact Et|].
    exact (main_found srt w o lpath rpath out img _ Hp Ht X Et).
Qed.

Lemma given_bad srt : width l * height l * 4 * lev <= vector_max_size -> ~ good_problem l r lev c s ->
  exists k, first_violated l r lev (@of_u cpu c) (of_u s) k /\
    main srt w (Parsed o) = Ok (ends 0 (Some (InvalidArgumentError (InvalidArgument k))) None).
Proof.
  intros Sv G. destruct given_weights as [Wc Ws].
  pose proof (held_consistent _ _ _ Hl) as Cl. pose proof (held_consistent _ _ _ Hr) as Cr.
  assert (F64 : width l * height l * 4 * lev < wmod cpu) by (change (wmod cpu) with (2 ^ 64); unfold vector_max_size in Sv; lia).
  destruct (make_graph_accepts l r lev (@of_u cpu c) (of_u s)) as [Acc Rej]; try assumption; [discriminate|].
  destruct (made_total l r lev (@of_u cpu c) (of_u s)) as [[g Eg]|[[k Ek]|Ek]]; try assumption; [discriminate| | |].
  - destruct G. apply (good_iff l r lev c s Cl Cr Sl Sr Wc Ws). apply (Acc g). exact Eg.
  - exists k. split; [apply Rej; exact Ek|]. apply (main_failed srt w o lpath rpath out (InvalidArgument k) Hp Ht).
    rewrite given_problem. unfold solve_problem. rewrite Ek. reflexivity.
  - exfalso. revert Ek. unfold make_graph.
    destruct (image_valid cpu l) as [[]|] eqn:El; cbn [bind negb]; try (intros X; discriminate X);
      [|destruct (image_valid_decides cpu l) as [b [E _]]; [discriminate|assumption|assumption|]; congruence].
    destruct (image_valid cpu r) as [[]|] eqn:Er; cbn [bind negb]; try (intros X; discriminate X);
      [|destruct (image_valid_decides cpu r) as [b [E _]]; [discriminate|assumption|assumption|]; congruence].
    destruct (N.leb_spec lev 1) as [X|Hlev]; [discriminate|].
    repeat match goal with |- context [if ?b then Stop _ else _] => destruct b; [discriminate|] end.
    assert (A1 : 1 * (width l * height l * 4) <= lev * (width l * height l * 4)) by (apply N.mul_le_mono_r; lia).
    rewrite (umul_small cpu (width l) (height l)) by lia. unfold NEIGHBORS_COUNT.
    rewrite (umul_small cpu (width l * height l) 4) by lia. rewrite umul_small by exact F64.
    unfold alloc. destruct (N.ltb_spec vector_max_size (width l * height l * 4 * lev)); [lia|]. discriminate.
Qed.
End Given.

(** *** Numbers in options *)

Lemma same_number_or d a b : same_number a b -> number_or d a = number_or d b.
Proof.
  intros [->|[v H]]; [reflexivity|]. destruct (H d) as [A B].
  apply number_value in A, B. congruence.
Qed.
Lemma main_numbers srt w o o' : o_left o = o_left o' -> o_right o = o_right o' -> o_output o = o_output o' ->
  o_parallel o = o_parallel o' -> same_number (o_levels o) (o_levels o') ->
  same_number (o_cleanness o) (o_cleanness o') -> same_number (o_smoothness o) (o_smoothness o') ->
  main srt w (Parsed o) = main srt w (Parsed o').
Proof.
  intros E1 E2 E3 E4 N1 N2 N3. unfold main. rewrite E1, E2, E3, E4.
  destruct (o_output o'), (o_left o'), (o_right o'); try reflexivity.
  assert (E : forall a b, disparity_map_of srt w o a b = disparity_map_of srt w o' a b).
  { intros a b. unfold disparity_map_of. destruct (read_file w a) as [imgl|]; [|reflexivity]. cbn [bind].
    destruct (read_file w b) as [imgr|]; [|reflexivity]. cbn [bind].
    rewrite (same_number_or _ _ _ N1), (same_number_or _ _ _ N2), (same_number_or _ _ _ N3). reflexivity. }
  rewrite E. reflexivity.
Qed.

Lemma option_invalid_stops d o : option_invalid o -> number_or d o = Stop (Throw StoulInvalid).
Proof.
  intros [t [sp [tok [-> [-> [H1 [H2 H3]]]]]]]. cbn [number_or]. rewrite stoul_skip, (skip_app sp tok H1), (skip_first tok H2).
  apply invalid_stoul; [apply skip_first; exact H2|exact H3].
Qed.
Lemma option_too_large_stops d o : option_too_large o -> number_or d o = Stop (Throw StoulRange).
Proof.
  intros [t [sp [tok [-> [-> [H1 [H2 H3]]]]]]]. cbn [number_or]. rewrite stoul_skip, (skip_app sp tok H1), (skip_first tok H2).
  apply range_stoul; [apply skip_first; exact H2|exact H3].
Qed.
(** Every option is of one of three kinds. *)
Lemma option_kinds d o : (exists v, option_number d o v) \/ option_invalid o \/ option_too_large o.
Proof.
  destruct o as [t|]; [|left; exists d; reflexivity].
  destruct (skip_split t) as [sp [H1 [H2 H3]]].
  destruct (stoul_cases (skip_space t) (skip_idem t)) as [[v H]|[H|H]].
  - left. exists v. exists sp, (skip_space t). auto.
  - right. right. exists t, sp, (skip_space t). auto.
  - right. left. exists t, sp, (skip_space t). auto.
Qed.

Section Numbers.
Variables (w : world) (o : options) (lpath rpath out : text) (l r : image).
Hypotheses (Hp : all_paths o lpath rpath out) (Ht : technology_ok o)
  (Hl : file_holds w lpath l) (Hr : file_holds w rpath r)
  (Sl : width l * height l < 2 ^ 32) (Sr : width r * height r < 2 ^ 32).

Lemma main_bad_number srt x : 
  number_or (width l) (o_levels o) = Stop (Throw x) \/
  (exists lev, option_number (width l) (o_levels o) lev) /\
    (number_or 1 (o_cleanness o) = Stop (Throw x) \/
     (exists c, option_number 1 (o_cleanness o) c) /\ number_or 1 (o_smoothness o) = Stop (Throw x)) ->
  main srt w (Parsed o) = Ok (ends 0 (Some (report x)) None).
Proof.
  intros H. apply (main_failed srt w o lpath rpath out x Hp Ht). unfold disparity_map_of.
  rewrite (held_read w lpath l Hl) by (unfold vector_max_size; lia). cbn [bind].
  rewrite (held_read w rpath r Hr) by (unfold vector_max_size; lia). cbn [bind].
  destruct H as [->|[[lev Nl] H]]; [reflexivity|]. rewrite (proj2 (number_value _ _ _) Nl). cbn [bind].
  destruct H as [->|[[c Nc] ->]]; [reflexivity|]. rewrite (proj2 (number_value _ _ _) Nc). reflexivity.
Qed.

Lemma main_numbers_rejected srt :
  (first_unusable o l option_invalid -> main srt w (Parsed o) = Ok (ends 0 (Some (InvalidArgumentError StoulInvalid)) None)) /\
  (first_unusable o l option_too_large -> main srt w (Parsed o) = Ok (ends 0 (Some (LogicError StoulRange)) None)).
Proof.
  split; intros H.
  - change (InvalidArgumentError StoulInvalid) with (report StoulInvalid). apply main_bad_number.
    destruct H as [H|[H1 [H|[H2 H]]]]; [left|right; split; [exact H1|left]|right; split; [exact H1|right; split; [exact H2|]]];
      apply option_invalid_stops; exact H.
  - change (LogicError StoulRange) with (report StoulRange). apply main_bad_number.
    destruct H as [H|[H1 [H|[H2 H]]]]; [left|right; split; [exact H1|left]|right; split; [exact H1|right; split; [exact H2|]]];
      apply option_too_large_stops; exact H.
Qed.
End Numbers.

(** *** Files that cannot be used *)

Section Unread.
Variables (w : world) (o : options) (lpath rpath out : text).
Hypotheses (Hp : all_paths o lpath rpath out) (Ht : technology_ok o).

Lemma main_unread_left srt x : read_file w lpath = Stop (Throw x) -> main srt w (Parsed o) = Ok (ends 0 (Some (report x)) None).
Proof. intros E. apply (main_failed srt w o lpath rpath out x Hp Ht). unfold disparity_map_of. rewrite E. reflexivity. Qed.
Lemma main_unread_right srt l x : file_holds w lpath l -> width l * height l < 2 ^ 32 ->
  read_file w rpath = Stop (Throw x) -> main srt w (Parsed o) = Ok (ends 0 (Some (report x)) None).
Proof.
  intros Hl Sl E. apply (main_failed srt w o lpath rpath out x Hp Ht). unfold disparity_map_of.
  rewrite (held_read w lpath l Hl) by (unfold vector_max_size; lia). cbn [bind]. rewrite E. reflexivity.
Qed.

Lemma main_unread srt :
  (files w lpath = None \/ (exists l, file_holds w lpath l /\ width l * height l < 2 ^ 32) /\ files w rpath = None ->
   main srt w (Parsed o) = Ok (ends 0 (Some (InvalidArgumentError CannotOpen)) None)) /\
  (broken_file w lpath \/ (exists l, file_holds w lpath l /\ width l * height l < 2 ^ 32) /\ broken_file w rpath ->
   main srt w (Parsed o) = Ok (ends 0 (Some (InvalidArgumentError NotPgm)) None)).
Proof.
  split.
  - change (InvalidArgumentError CannotOpen) with (report CannotOpen). intros [E|[[l [Hl Sl]] E]].
    + apply main_unread_left. apply read_missing. exact E.
    + eapply main_unread_right; [exact Hl|exact Sl|apply read_missing; exact E].
  - change (InvalidArgumentError NotPgm) with (report NotPgm). intros [[t [ts [E [L D]]]]|[[l [Hl Sl]] [t [ts [E [L D]]]]]].
    + apply main_unread_left. eapply read_broken; eassumption.
    + eapply main_unread_right; [exact Hl|exact Sl|eapply read_broken; eassumption].
Qed.
End Unread.
