(** Runs with scarce memory: consequences and examples. *)
From Coq Require Import Lia String.
From Verif Require Export Memory_proofs.
From Verif Require Import App_proofs Main_witness.
Local Open Scope N_scope.

(** A file that is not empty holds the map. *)
Lemma scarce_map srt w p x path txt : sorts srt -> usable_files w -> main_scarce srt w p (Ends (Ok x)) ->
  written_file x = Some (path, txt) -> txt <> [] -> main srt w p = Ok x.
Proof.
  intros Srt U H Ew Ht. destruct (main_short_of_memory srt w p _ Srt U H) as [[y [E X]]|[X|[[X _]|[[out [t [_ X]]]|[_ [m [X _]]]]]]].
  - injection X as ->. exact E.
  - injection X as ->. discriminate Ew.
  - discriminate X.
  - injection X as ->. exfalso. apply Ht. cbn [ends written_file] in Ew. congruence.
  - injection X as ->. discriminate Ew.
Qed.

(** Without long words the status tells. *)
Lemma scarce_status srt w p e : sorts srt -> usable_files w -> ~ long_words w p -> main_scarce srt w p e ->
  (exists x, main srt w p = Ok x /\ e = Ends (Ok x)) \/
  (exists f, ends_with e 1 (Some UnexpectedException) f) \/ e = Aborts.
Proof.
  intros Srt U L H. destruct (main_short_of_memory srt w p e Srt U H) as [X|[X|[[X _]|[[out [t [_ X]]]|[Y _]]]]]; eauto. contradiction.
Qed.

(** The output may be emptied. *)
Lemma scarce_emptied srt w p out txt : main srt w p = Ok (ends 0 None (Some (out, txt))) ->
  exists e, main_scarce srt w p e /\ ends_with e 1 (Some UnexpectedException) (Some (out, [])).
Proof.
  intros H. eexists. split; [|reflexivity]. right. unfold main in H. destruct p as [o| |]; try discriminate H.
  destruct (o_output o) as [out'|], (o_left o) as [l|], (o_right o) as [r|];
    try (revert H; repeat match goal with |- context[if ?b then _ else _] => destruct b end; discriminate).
  destruct (check_parallel (o_parallel o)) as [[]|[e'| |]]; try discriminate H.
  exists (Gets (disparity_map_of srt w o l r)). split; [apply map_enough|].
  destruct (disparity_map_of srt w o l r) as [img|[e| |]]; cbn [bind] in H; try discriminate H.
  unfold output_scarce. destruct (writable w out'); [|discriminate H]. left. unfold no_memory.
  destruct (write_image [] (Some img)) as [t|[e| |]]; cbn [bind] in H; try discriminate H. do 5 f_equal.
  assert (Some (out', t) = Some (out, txt)) as X by (apply (f_equal (fun z => match z with Ok a => written_file a | Stop _ => None end)) in H; exact H).
  congruence.
Qed.

(** *** A comment *)

Definition text_made : text := lit "P2 #made-by-hand-with-care" ++ [newline] ++ lit "4 2 10 0 0 9 5 0 9 5 5".
Definition w_made : world := world_of [(lit "l.pgm", text_made); (lit "r.pgm", textgr)].

Lemma tokens_made : exists ts, laid_out ts text_made /\ image_tokens gl [] ts.
Proof. tokens [lit "0"; lit "0"; lit "9"; lit "5"; lit "0"; lit "9"; lit "5"; lit "5"]. Qed.
Lemma made_usable : usable_files w_made.
Proof.
  intros path t E. apply world_files in E. destruct E as [E|[E|[]]]; injection E as <- <-.
  - destruct tokens_made as [ts [L I]]. eapply usable_image; [exact L|exact I|vm_compute; reflexivity..].
  - destruct tokensgr as [ts [L I]]. eapply usable_image; [exact L|exact I|vm_compute; reflexivity..].
Qed.
Lemma made_run srt : sorts srt -> main srt w_made (Parsed (og out_path)) = Ok (ends 0 None (Some (out_path, textg))).
Proof.
  intros Hs. rewrite (main_same srt isort w_made _ Hs (isort_sorts cpu_laws) made_usable). vm_compute. reflexivity.
Qed.
Lemma chain_at {A B} (R : result A -> Prop) (S : A -> result B -> Prop) x a r : R (Gets x) -> x = Ok a -> S a r -> chain R S r.
Proof. intros H -> HS. left. eauto. Qed.
Lemma made_misread : exists s, failbit s = true /\ read_image_scarce (opened text_made) None (Gets (Ok (s, None))).
Proof.
  exists {| rest := []; eofbit := false; failbit := true |}. split; [reflexivity|].
  unfold read_image_scarce. eapply chain_at; [apply instruction_enough|vm_compute; reflexivity|]. cbn [fst snd].
  apply may_first. left. exists (None, {| rest := []; eofbit := false; failbit := true |}). split; [|reflexivity].
  left. exists ([], {| rest := []; eofbit := false; failbit := true |}). split; [|left; reflexivity].
  left. exists ([], {| rest := []; eofbit := false; failbit := true |}). split; [|reflexivity].
  right. exists O, []. split; [reflexivity|]. split; [vm_compute; reflexivity|]. reflexivity.
Qed.
Lemma made_blamed srt : exists e, main_scarce srt w_made (Parsed (og out_path)) e /\
  ends_with e 0 (Some (InvalidArgumentError NotPgm)) None.
Proof.
  eexists. split; [|reflexivity]. right. exists (Gets (Stop (Throw NotPgm))). split; [|reflexivity].
  right. left. exists (Throw NotPgm). split; [|reflexivity]. unfold read_file_scarce.
  replace (files w_made (lit "l.pgm")) with (Some text_made) by reflexivity. apply may_first.
  destruct made_misread as [s [F H]]. left. exists (s, None). split; [exact H|]. cbn [fst snd]. rewrite F. left. reflexivity.
Qed.
Lemma scarce_blamed : exists w p, usable_files w /\ forall srt, sorts srt ->
  (exists path txt, main srt w p = Ok (ends 0 None (Some (path, txt)))) /\
  exists e, main_scarce srt w p e /\ ends_with e 0 (Some (InvalidArgumentError NotPgm)) None.
Proof.
  exists w_made, (Parsed (og out_path)). split; [exact made_usable|]. intros srt Srt.
  split; [exists out_path, textg; exact (made_run srt Srt)|exact (made_blamed srt)].
Qed.

(** *** Examples *)

Lemma scarce_example : sorts (@isort cpu) /\ usable_files wg /\
  main isort wg (Parsed (og out_path)) = Ok (ends 0 None (Some (out_path, textg))) /\
  main_scarce isort wg (Parsed (og out_path)) (Ends (Ok (ends 0 None (Some (out_path, textg))))) /\
  (exists e, main_scarce isort wg (Parsed (og out_path)) e /\ ends_with e 1 (Some UnexpectedException) None).
Proof.
  pose proof (isort_sorts cpu_laws) as Srt. pose proof (rung _ Srt) as R. split; [exact Srt|]. split; [exact wg_usable|].
  split; [exact R|]. split.
  - rewrite <- R. apply main_enough.
  - eexists. split; [left; reflexivity|reflexivity].
Qed.

(** Words of a text, to decide whether one is long. *)
Fixpoint runs_to (n : N) (t : text) : bool :=
  match t with [] => true | c :: r => if is_space c then runs_to 0 r else (n + 1 <=? 15) && runs_to (n + 1) r end.
Lemma runs_short t : forall n, runs_to n t = true ->
  (forall v b, t = v ++ b -> (forall c, In c v -> ~ space c) -> n <= 15 -> n + len v <= 15) /\
  forall a v b, t = a ++ v ++ b -> (forall c, In c v -> ~ space c) -> len v <= 15.
Proof.
  induction t as [|x t IH]; intros n H.
  - split.
    + intros v b E _ Hn. destruct v; [|discriminate E]. rewrite len_nil. lia.
    + intros a v b E _. destruct a; [|discriminate E]. destruct v; [|discriminate E]. rewrite len_nil. lia.
  - assert (P1 : forall v b, x :: t = v ++ b -> (forall c, In c v -> ~ space c) -> n <= 15 -> n + len v <= 15).
    { intros [|y v] b E Hv Hn; [rewrite len_nil; lia|]. injection E as <- E. cbn [runs_to] in H.
      destruct (is_space x) eqn:Sx; [exfalso; apply (Hv x (or_introl eq_refl)), space_iff, Sx|].
      apply andb_prop in H. destruct H as [H1 H2]. apply N.leb_le in H1. destruct (IH _ H2) as [P _].
      rewrite len_cons. specialize (P v b E (fun c Hc => Hv c (or_intror Hc)) H1). lia. }
    assert (Hz : exists m, runs_to m t = true).
    { cbn [runs_to] in H. destruct (is_space x); [eauto|]. apply andb_prop in H. destruct H as [_ H]. eauto. }
    split; [exact P1|]. intros [|y a] v b E Hv.
    + cbn [app] in E. destruct (N.le_gt_cases n 15) as [Hn|Hn]; [specialize (P1 v b E Hv Hn); lia|].
      destruct v as [|y v]; [rewrite len_nil; lia|]. injection E as <- E. cbn [runs_to] in H.
      destruct (is_space x) eqn:Sx; [exfalso; apply (Hv x (or_introl eq_refl)), space_iff, Sx|].
      apply andb_prop in H. destruct H as [H1 _]. apply N.leb_le in H1. lia.
    + injection E as _ E. destruct Hz as [m Hm]. destruct (IH m Hm) as [_ P]. eapply P; eassumption.
Qed.
Lemma short_example : sorts (@isort cpu) /\ usable_files wg /\ ~ long_words wg (Parsed (og out_path)).
Proof.
  split; [exact (isort_sorts cpu_laws)|]. split; [exact wg_usable|].
  intros [o [path [t [_ [_ [Ft [a [v [b [E [L Hv]]]]]]]]]]]. apply world_files in Ft.
  assert (R : runs_to 0 t = true) by (destruct Ft as [X|[X|[]]]; injection X as _ <-; vm_compute; reflexivity).
  pose proof (proj2 (runs_short t 0 R) a v b E Hv). lia.
Qed.
