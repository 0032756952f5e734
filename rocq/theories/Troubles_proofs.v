(** Runs in which everything may fail: lemmas. *)
From Coq Require Import Lia String.
From Verif Require Import Device_main_proofs Fail_proofs Omp_run_proofs.
From Verif Require Export Troubles_spec.
From Verif Require Import Memory_proofs Broken_proofs Disk_proofs Memory_builds_proofs Builds_proofs App_proofs.
Local Open Scope N_scope.

(** *** Whole files *)

Lemma chain_iff {A B} (x x' : result A -> Prop) (f f' : A -> result B -> Prop) :
  (forall r, x r <-> x' r) -> (forall a r, f a r <-> f' a r) -> forall r, chain x f r <-> chain x' f' r.
Proof.
  intros X H r. unfold chain. rewrite (X NoMemory). split; intros [[a [E Y]]|[[e [E Y]]|Y]].
  - left. exists a. split; [apply X; exact E|apply H; exact Y].
  - right. left. exists e. split; [apply X; exact E|exact Y].
  - right. right. exact Y.
  - left. exists a. split; [apply X; exact E|apply H; exact Y].
  - right. left. exists e. split; [apply X; exact E|exact Y].
  - right. right. exact Y.
Qed.
Lemma extract_plain c s r : extract_troubled false c s r <-> extract_scarce c s r.
Proof. unfold extract_troubled, extract_scarce. rewrite extract_whole. reflexivity. Qed.
Lemma comments_plain fuel : forall c s r, skip_comments_troubled false fuel c s r <-> skip_comments_scarce fuel c s r.
Proof.
  induction fuel as [|fuel IH]; intros c s r; cbn [skip_comments_troubled skip_comments_scarce]; [reflexivity|].
  rewrite ignore_whole. destruct (good s && starts_comment c); [|reflexivity]. cbv zeta.
  destruct (failbit (ignore_line s)); [reflexivity|]. apply chain_iff; [apply extract_plain|intros a; apply IH].
Qed.
Lemma instruction_plain s r : read_pgm_instruction_troubled false s r <-> read_pgm_instruction_scarce s r.
Proof.
  unfold read_pgm_instruction_troubled, read_pgm_instruction_scarce. destruct (failbit s); [reflexivity|].
  apply chain_iff; [apply extract_plain|intros a; apply comments_plain].
Qed.
Lemma number_plain s r : read_number_troubled false s r <-> read_number_scarce s r.
Proof. apply chain_iff; [apply instruction_plain|reflexivity]. Qed.
Lemma pixels_plain ps : forall img s r, read_pixels_troubled false img ps s r <-> read_pixels_scarce img ps s r.
Proof.
  induction ps as [|p ps IH]; intros img s r; cbn [read_pixels_troubled read_pixels_scarce]; [reflexivity|].
  apply chain_iff; [apply number_plain|]. intros [[v|] s1] r1; cbn [fst snd]; [|reflexivity].
  apply chain_iff; [reflexivity|]. intros d. apply IH.
Qed.
Lemma image_plain s io r : read_image_troubled false s io r <-> read_image_scarce s io r.
Proof.
  apply chain_iff; [apply instruction_plain|]. intros [u s1] r1; cbn [fst snd].
  destruct (list_eq_dec ascii_dec u FORMAT_CODE); cbn [negb]; [|reflexivity].
  apply chain_iff; [reflexivity|]. intros _. clear r1.
  apply chain_iff; [apply number_plain|]. intros [[wd|] s2] r2; cbn [fst snd]; [|reflexivity].
  revert r2. apply chain_iff; [apply number_plain|]. intros [[ht|] s3] r3; cbn [fst snd]; [|reflexivity].
  revert r3. apply chain_iff; [apply number_plain|]. intros [[mx|] s4] r4; cbn [fst snd]; [|reflexivity].
  destruct (MAX_VALUE_LIMIT <? mx); [reflexivity|]. revert r4. apply chain_iff; [reflexivity|]. intros d. cbv zeta.
  apply chain_iff; [apply pixels_plain|]. intros [[im|] s5] r5; cbn [fst snd]; [|reflexivity].
  rewrite check_whole. reflexivity.
Qed.
Lemma troubled_sound w path r : ~ broken_at w path -> read_troubled w path r <-> read_file_scarce (sound_part w) path r.
Proof.
  intros N. unfold read_troubled, read_file_scarce, sound_part. cbn [files].
  destruct (fragile_files w path) as [[t|t]|] eqn:E; [|exfalso; apply N; exists t; exact E|reflexivity].
  cbn [readable]. apply chain_iff; [reflexivity|]. intros _. apply chain_iff; [apply image_plain|reflexivity].
Qed.

(** *** Broken files *)

(** The results agree, apart from the streams. *)
Definition like {A} (r' r0 : result (A * istream)) : Prop :=
  (exists v s' s0, r' = Gets (Ok (v, s')) /\ r0 = Gets (Ok (v, s0)) /\ follows s' s0) \/
  (exists e, r' = Gets (Stop e) /\ r0 = Gets (Stop e)) \/ (r' = NoMemory /\ r0 = NoMemory).

Lemma extract_like c s r' : eofbit s = false -> extract_troubled true c s r' ->
  exists v s' s0, r' = Gets (Ok (v, s')) /\ extract_scarce c s (Gets (Ok (v, s0))) /\ follows s' s0 /\
    (good s0 = true -> (length (rest s0) < length (rest s))%nat).
Proof.
  intros E [-> |[k [x [G [L ->]]]]].
  - destruct (extract_broken c s E) as [E1 E2]. pose proof (extract_shorter c s) as Sh. unfold extract_scarce.
    destruct (extract_from true c s) as [u' s'], (extract c s) as [u0 s0]. cbn [fst snd] in E1, E2, Sh. subst u'.
    exists u0, s', s0. split; [reflexivity|]. split; [left; reflexivity|]. split; [exact E2|exact Sh].
  - eexists _, _, _. split; [reflexivity|]. split; [right; exists k, x; split; [exact G|]; split; [exact L|reflexivity]|].
    split; [left; split; reflexivity|]. intros X. discriminate X.
Qed.
Lemma spent_troubled brk fuel c s r : good s = false -> (0 < fuel)%nat ->
  skip_comments_troubled brk fuel c s r <-> r = Gets (Ok (if starts_comment c then [] else c, s)).
Proof.
  intros G L. destruct fuel as [|fuel]; [lia|]. cbn [skip_comments_troubled]. rewrite G. cbn [andb]. destruct (starts_comment c); reflexivity.
Qed.
Lemma spent_scarce fuel c s r : good s = false -> (0 < fuel)%nat ->
  skip_comments_scarce fuel c s r <-> r = Gets (Ok (if starts_comment c then [] else c, s)).
Proof.
  intros G L. destruct fuel as [|fuel]; [lia|]. cbn [skip_comments_scarce]. rewrite G. cbn [andb]. destruct (starts_comment c); reflexivity.
Qed.
Lemma comments_like fuel : forall c s r', eofbit s = false -> (0 < fuel)%nat ->
  (good s && starts_comment c = true -> S (length (rest s)) < fuel)%nat ->
  skip_comments_troubled true fuel c s r' -> exists r0, skip_comments_scarce fuel c s r0 /\ like r' r0.
Proof.
  induction fuel as [|fuel IH]; intros c s r' E F0 Lf; [lia|]. cbn [skip_comments_troubled skip_comments_scarce].
  destruct (good s && starts_comment c) eqn:G.
  2:{ destruct (starts_comment c); intros ->; (eexists; split; [reflexivity|]); left; eexists _, s, s;
      (split; [reflexivity|]); (split; [reflexivity|]); left; auto. }
  specialize (Lf eq_refl). apply andb_prop in G. destruct G as [G Sc]. cbv zeta.
  destruct (ignore_broken s E) as [[Ei Ee]|[B Ee]].
  - rewrite Ei. destruct (failbit (ignore_line s)) eqn:Fi.
    { intros ->. eexists. split; [reflexivity|]. left. exists [], (ignore_line s), (ignore_line s). split; [reflexivity|]. split; [reflexivity|]. left. auto. }
    pose proof (suffix_length _ _ (suffix_ignore s)) as Si.
    intros [[[u s2] [X H]]|[[e [X ->]]|[X ->]]];
      destruct (extract_like c (ignore_line s) _ Ee X) as [v [s' [s0 [Y [Z [Fo Sh]]]]]]; try discriminate Y.
    assert (u = v /\ s2 = s') as [-> ->] by (split; injection Y; auto). cbn [fst snd] in H.
    destruct Fo as [[-> E3]|[B E3]].
    + destruct (IH v s0 r' E3) as [r0 [H0 Li]]; [lia| |exact H|].
      * intros G2. apply andb_prop in G2. specialize (Sh (proj1 G2)). lia.
      * exists r0. split; [|exact Li]. left. exists (v, s0). split; [exact Z|exact H0].
    + apply spent_troubled in H; [|exact (bad_good s' B)|lia]. eexists. split.
      * left. exists (v, s0). split; [exact Z|]. apply spent_scarce; [exact (end_spent s0 E3)|cbn [fst snd]; lia|reflexivity].
      * left. eexists _, s', s0. split; [exact H|]. split; [reflexivity|]. right. auto.
  - rewrite (proj1 B). intros ->.
    assert (Fi : failbit (ignore_line s) = false).
    { unfold ignore_line in *. rewrite G in *. cbn [negb] in *. destruct (after_line (rest s)); reflexivity. }
    rewrite Fi. eexists. split.
    + left. exists (extract c (ignore_line s)). split; [left; reflexivity|]. unfold extract. rewrite (end_spent _ Ee). cbn [negb fst snd].
      apply spent_scarce; [apply end_spent; exact Ee|lia|]. rewrite Sc. reflexivity.
    + left. eexists _, _, _. split; [reflexivity|]. split; [reflexivity|]. right. split; [exact B|exact Ee].
Qed.
Lemma instruction_like s r' : eofbit s = false -> read_pgm_instruction_troubled true s r' ->
  exists r0, read_pgm_instruction_scarce s r0 /\ like r' r0.
Proof.
  intros E. unfold read_pgm_instruction_troubled, read_pgm_instruction_scarce. destruct (failbit s).
  { intros ->. eexists. split; [reflexivity|]. left. exists [], s, s. split; [reflexivity|]. split; [reflexivity|]. left. auto. }
  intros [[[u s2] [X H]]|[[e [X ->]]|[X ->]]];
    destruct (extract_like [] s _ E X) as [v [s' [s0 [Y [Z [Fo Sh]]]]]]; try discriminate Y.
  assert (u = v /\ s2 = s') as [-> ->] by (split; injection Y; auto). cbn [fst snd] in H.
  destruct Fo as [[-> E3]|[B E3]].
  - destruct (comments_like (S (length (rest s))) v s0 r' E3) as [r0 [H0 Li]]; [lia| |exact H|].
    + intros G2. apply andb_prop in G2. specialize (Sh (proj1 G2)). lia.
    + exists r0. split; [|exact Li]. left. exists (v, s0). split; [exact Z|exact H0].
  - apply spent_troubled in H; [|exact (bad_good s' B)|lia]. eexists. split.
    + left. exists (v, s0). split; [exact Z|]. apply spent_scarce; [exact (end_spent s0 E3)|cbn [fst snd]; lia|reflexivity].
    + left. eexists _, s', s0. split; [exact H|]. split; [reflexivity|]. right. auto.
Qed.
Lemma number_like s r' : eofbit s = false -> read_number_troubled true s r' ->
  exists r0, read_number_scarce s r0 /\ like r' r0 /\ forall s', r' = Gets (Ok (None, s')) -> failbit s' = true.
Proof.
  intros E [[[u s1] [X H]]|[[e [X ->]]|[X ->]]]; destruct (instruction_like s _ E X) as [r0 [Z Li]].
  - destruct Li as [[v [s' [s0 [Y [-> Fo]]]]]|[[e [Y _]]|[Y _]]]; try discriminate Y.
    assert (u = v /\ s1 = s') as [-> ->] by (split; injection Y; auto). cbn [fst snd] in H.
    destruct H as [-> | ->].
    + eexists. split; [left; exists (v, s0); split; [exact Z|left; reflexivity]|]. cbn [fst snd].
      destruct (stoul v) as [x|[[]| |]]; (split; [|intros z Q; try discriminate Q]);
        try (right; left; eexists; split; reflexivity);
        try (left; eexists _, _, _; (split; [reflexivity|]); (split; [reflexivity|]); [exact Fo || (apply follows_fail; exact Fo)]).
      assert (set_fail s' = z) as <- by (injection Q; auto). reflexivity.
    + exists NoMemory. split; [left; exists (v, s0); split; [exact Z|right; reflexivity]|]. split; [right; right; auto|]. intros z Q. discriminate Q.
  - destruct Li as [[v [s' [s0 [Y [-> Fo]]]]]|[[e' [Y ->]]|[Y _]]]; try discriminate Y. injection Y as ->.
    eexists. split; [right; left; eexists; split; [exact Z|reflexivity]|]. split; [right; left; eauto|]. intros z Q. discriminate Q.
  - destruct Li as [[v [s' [s0 [Y [-> Fo]]]]]|[[e' [Y ->]]|[_ ->]]]; try discriminate Y.
    exists NoMemory. split; [right; right; auto|]. split; [right; right; auto|]. intros z Q. discriminate Q.
Qed.
Lemma number_over brk s r : bad s -> read_number_troubled brk s r -> r = Gets (Ok (None, s)) \/ r = NoMemory.
Proof.
  intros B. unfold read_number_troubled, read_pgm_instruction_troubled. rewrite (proj1 B). intros H.
  destruct (chain_sure _ _ _ H) as [[[u s1] [X Y]]|[e [X _]]]; [|discriminate X].
  assert ([] = u /\ s = s1) as [<- <-] by (split; injection X; auto). cbn [fst snd] in Y.
  change (stoul []) with (@Stop N (Throw StoulInvalid)) in Y. cbv beta iota in Y. rewrite (bad_fail s B) in Y. exact Y.
Qed.
Lemma pixels_over brk ps img s r : bad s -> read_pixels_troubled brk img ps s r -> r = NoMemory \/ exists v, r = Gets (Ok (v, s)).
Proof.
  intros B. destruct ps as [|p ps]; cbn [read_pixels_troubled]; [intros ->; eauto|].
  intros [[[v s1] [E H]]|[[e [E ->]]|[E ->]]]; destruct (number_over _ _ _ B E) as [X|X]; try discriminate X; [|left; reflexivity].
  assert (v = None /\ s1 = s) as [-> ->] by (split; injection X; auto). cbn [fst snd] in H. right. exists None. exact H.
Qed.
Lemma pixels_like ps : forall img s r', eofbit s = false -> read_pixels_troubled true img ps s r' ->
  (exists v s', r' = Gets (Ok (v, s')) /\ ((read_pixels_scarce img ps s r' /\ eofbit s' = false) \/ bad s') /\ (v = None -> failbit s' = true)) \/
  r' = NoMemory \/ exists e, r' = Gets (Stop e) /\ read_pixels_scarce img ps s (Gets (Stop e)).
Proof.
  induction ps as [|p ps IH]; intros img s r' E; cbn [read_pixels_troubled read_pixels_scarce].
  { intros H. left. exists (Some img), s. split; [exact H|]. split; [left; split; [exact H|exact E]|discriminate]. }
  intros [[[v s1] [X H]]|[[e [X ->]]|[X ->]]]; destruct (number_like s _ E X) as [r0 [Z [Li Nf]]].
  - destruct Li as [[v' [s' [s0 [Y [-> Fo]]]]]|[[e [Y _]]|[Y _]]]; try discriminate Y.
    assert (v = v' /\ s1 = s') as [-> ->] by (split; injection Y; auto). cbn [fst snd] in H. destruct v' as [v|].
    + destruct (chain_sure _ _ _ H) as [[d [Ed H']]|[e [Ee ->]]].
      * destruct Fo as [[-> E0]|[B _]].
        -- destruct (IH (with_data img d) s0 r' E0 H') as [[u [s2 [Q [[[K E2]|B] N]]]]|[-> |[e [-> K]]]].
           ++ left. exists u, s2. split; [exact Q|]. split; [|exact N]. left. split; [|exact E2]. left. exists (Some v, s0). split; [exact Z|].
              cbn [fst snd]. left. exists d. split; [unfold sure; rewrite Ed; reflexivity|exact K].
           ++ left. exists u, s2. split; [exact Q|]. split; [right; exact B|exact N].
           ++ right. left. reflexivity.
           ++ right. right. exists e. split; [reflexivity|]. left. exists (Some v, s0). split; [exact Z|].
              cbn [fst snd]. left. exists d. split; [unfold sure; rewrite Ed; reflexivity|exact K].
        -- destruct (pixels_over _ _ _ _ _ B H') as [-> |[u ->]]; [right; left; reflexivity|]. left. exists u, s'.
           split; [reflexivity|]. split; [right; exact B|]. intros _. apply B.
      * right. right. exists e. split; [reflexivity|]. left. exists (Some v, s0). split; [exact Z|]. cbn [fst snd].
        right. left. exists e. split; [unfold sure; rewrite Ee; reflexivity|reflexivity].
    + left. exists None, s'. split; [exact H|]. split; [|intros _; exact (Nf s' eq_refl)].
      destruct Fo as [[-> E0]|[B _]]; [left|right; exact B]. split; [|exact E0]. rewrite H. left. exists (None, s0). split; [exact Z|reflexivity].
  - destruct Li as [[v [s' [s0 [Y [-> Fo]]]]]|[[e' [Y ->]]|[Y _]]]; try discriminate Y. injection Y as ->.
    right. right. exists e'. split; [reflexivity|]. right. left. eauto.
  - right. left. reflexivity.
Qed.

(** The image is rejected, or memory is lacking, or the whole text stops as well. *)
Definition refused (r' : result (istream * pgm_io)) (x : result (istream * pgm_io) -> Prop) : Prop :=
  (exists s' io', r' = Gets (Ok (s', io')) /\ failbit s' = true) \/ r' = NoMemory \/
  exists e, r' = Gets (Stop e) /\ x (Gets (Stop e)).

Lemma number_step (f f0 : option N * istream -> result (istream * pgm_io) -> Prop) s r' : eofbit s = false ->
  (forall v s' s0, follows s' s0 -> (v = None -> failbit s' = true) -> f (v, s') r' -> refused r' (f0 (v, s0))) ->
  chain (read_number_troubled true s) f r' -> refused r' (chain (read_number_scarce s) f0).
Proof.
  intros E K [[[v s1] [X H]]|[[e [X ->]]|[X ->]]]; destruct (number_like s _ E X) as [r0 [Z [Li Nf]]].
  - destruct Li as [[v' [s' [s0 [Y [-> Fo]]]]]|[[e [Y _]]|[Y _]]]; try discriminate Y.
    assert (v = v' /\ s1 = s') as [-> ->] by (split; injection Y; auto).
    destruct (K v' s' s0 Fo) as [Q|[Q|[e [Q R]]]]; [intros ->; exact (Nf s' eq_refl)|exact H|left; exact Q|right; left; exact Q|].
    right. right. exists e. split; [exact Q|]. left. exists (v', s0). auto.
  - destruct Li as [[v [s' [s0 [Y [-> Fo]]]]]|[[e' [Y ->]]|[Y _]]]; try discriminate Y. injection Y as ->.
    right. right. exists e'. split; [reflexivity|]. right. left. eauto.
  - right. left. reflexivity.
Qed.
(** The number after a bad stream. *)
Lemma number_lost (f : option N * istream -> result (istream * pgm_io) -> Prop) s r' x : bad s ->
  (f (None, s) r' -> exists io, r' = Gets (Ok (s, io))) -> chain (read_number_troubled true s) f r' -> refused r' x.
Proof.
  intros B K [[[v s1] [E H]]|[[e [E ->]]|[E ->]]]; destruct (number_over _ _ _ B E) as [X|X]; try discriminate X; [|right; left; reflexivity].
  assert (v = None /\ s1 = s) as [-> ->] by (split; injection X; auto). destruct (K H) as [io ->]. left. exists s, io. split; [reflexivity|apply B].
Qed.
Lemma may_step {A} (y : outcome A) (f f0 : A -> result (istream * pgm_io) -> Prop) r' :
  (forall a, y = Ok a -> f a r' -> refused r' (f0 a)) -> chain (may y) f r' -> refused r' (chain (may y) f0).
Proof.
  intros K H. destruct (chain_may _ _ _ H) as [[a [E Q]]|[[e [-> ->]]| ->]].
  - destruct (K a E Q) as [R|[R|[e [R S]]]]; [left; exact R|right; left; exact R|]. right. right. exists e. split; [exact R|].
    left. exists a. split; [left; rewrite E; reflexivity|exact S].
  - right. right. exists e. split; [reflexivity|]. right. left. exists e. split; [left; reflexivity|reflexivity].
  - right. left. reflexivity.
Qed.

Lemma image_refused s io r' : eofbit s = false -> read_image_troubled true s io r' -> refused r' (read_image_scarce s io).
Proof.
  intros E [[[u s1] [X H]]|[[e [X ->]]|[X ->]]]; destruct (instruction_like s _ E X) as [r0 [Z Li]].
  2:{ destruct Li as [[v [s' [s0 [Y [-> Fo]]]]]|[[e' [Y ->]]|[Y _]]]; try discriminate Y. injection Y as ->.
    right. right. exists e'. split; [reflexivity|]. right. left. eauto. }
  2:{ right. left. reflexivity. }
  destruct Li as [[v [s' [z1 [Y [-> F1]]]]]|[[e [Y _]]|[Y _]]]; try discriminate Y.
  assert (u = v /\ s1 = s') as [-> ->] by (split; injection Y; auto). clear Y. cbn [fst snd] in H.
  enough (R : refused r' (fun q => (if negb (if list_eq_dec ascii_dec v FORMAT_CODE then true else false)
    then sure (Ok (set_fail z1, io)) else
    _ <+ may (Ok tt) ;;
    w <+ read_number_scarce z1 ;;
    match fst w with
    | None => sure (Ok (snd w, io))
    | Some wd =>
    h <+ read_number_scarce (snd w) ;;
    match fst h with
    | None => sure (Ok (snd h, io))
    | Some ht =>
    m <+ read_number_scarce (snd h) ;;
    match fst m with
    | None => sure (Ok (snd m, io))
    | Some mx =>
    if MAX_VALUE_LIMIT <? mx then sure (Ok (set_fail (snd m), io)) else
    dat <+ may (alloc (umul cpu wd ht) 0) ;;
    let img := {| width := wd; height := ht; max_value := mx; data := dat |} in
    d <+ read_pixels_scarce img (row_order img) (snd m) ;;
    match fst d with
    | None => sure (Ok (snd d, io))
    | Some img => s' <+ sure (check_file_end (snd d)) ;; sure (Ok (s', Some img))
    end end end end) q)).
  { destruct R as [R|[R|[e [R S]]]]; [left; exact R|right; left; exact R|]. right. right. exists e. split; [exact R|].
    left. exists (v, z1). split; [exact Z|exact S]. }
  clear X Z. destruct (list_eq_dec ascii_dec v FORMAT_CODE) as [Fc|Fc]; cbn [negb] in H |- *.
  2:{ left. eexists _, _. split; [exact H|reflexivity]. }
  revert H. apply may_step. intros _ _.
  destruct F1 as [[-> F1]|[B1 _]].
  2:{ apply number_lost; [exact B1|]. intros Q. exists io. exact Q. }
  apply number_step; [exact F1|]. intros w s2 z2 F2 N2 H. cbn [fst snd] in H |- *.
  destruct w as [wd|]; [|left; eexists _, _; split; [exact H|exact (N2 eq_refl)]].
  revert H. destruct F2 as [[-> F2]|[B2 _]].
  2:{ apply number_lost; [exact B2|]. intros Q. exists io. exact Q. }
  apply number_step; [exact F2|]. intros h s3 z3 F3 N3 H. cbn [fst snd] in H |- *.
  destruct h as [ht|]; [|left; eexists _, _; split; [exact H|exact (N3 eq_refl)]].
  revert H. destruct F3 as [[-> F3]|[B3 _]].
  2:{ apply number_lost; [exact B3|]. intros Q. exists io. exact Q. }
  apply number_step; [exact F3|]. intros m s4 z4 F4 N4 H. cbn [fst snd] in H |- *.
  destruct m as [mx|]; [|left; eexists _, _; split; [exact H|exact (N4 eq_refl)]].
  destruct (MAX_VALUE_LIMIT <? mx); [left; eexists _, _; split; [exact H|reflexivity]|].
  revert H. apply may_step. intros dat _ H. cbv zeta in H |- *.
  set (img := {| width := wd; height := ht; max_value := mx; data := dat |}) in *.
  destruct F4 as [[-> F4]|[B4 _]].
  2:{ destruct H as [[[d s5] [X H]]|[[e [X ->]]|[X ->]]]; destruct (pixels_over _ _ _ _ _ B4 X) as [Y|[q Y]]; try discriminate Y; [|right; left; reflexivity].
    assert (s5 = s4) as -> by (injection Y; auto). cbn [fst snd] in H. destruct d as [im|]; [|left; eexists _, _; split; [exact H|apply B4]].
    destruct (bad_end s4 B4) as [s' [Ec Fs]]. rewrite Ec in H. destruct (chain_sure _ _ _ H) as [[a [Ea ->]]|[e [Ee _]]]; [|discriminate Ee].
    assert (s' = a) as <- by (injection Ea; auto). left. eauto. }
  destruct H as [[[d s5] [X H]]|[[e [X ->]]|[X ->]]]; [| |right; left; reflexivity];
    destruct (pixels_like _ _ _ _ F4 X) as [[q [s' [Y [C N]]]]|[Y|[e' [Y K]]]]; try discriminate Y.
  - assert (d = q /\ s5 = s') as [-> ->] by (split; injection Y; auto). cbn [fst snd] in H.
    destruct q as [im|]; [|left; eexists _, _; split; [exact H|exact (N eq_refl)]].
    destruct C as [[K E5]|B5].
    + destruct (check_broken s' E5) as [[s6 [Ec Fs]]|[e [Ec Es]]]; rewrite Ec in H.
      * destruct (chain_sure _ _ _ H) as [[a [Ea ->]]|[e [Ee _]]]; [|discriminate Ee].
        assert (s6 = a) as <- by (injection Ea; auto). left. eauto.
      * destruct (chain_sure _ _ _ H) as [[a [Ea _]]|[e2 [Ee ->]]]; [discriminate Ea|]. injection Ee as <-.
        right. right. exists e. split; [reflexivity|]. left. exists (Some im, s'). split; [exact K|]. cbn [fst snd].
        right. left. exists e. split; [unfold sure; rewrite Es; reflexivity|reflexivity].
    + destruct (bad_end s' B5) as [s6 [Ec Fs]]. rewrite Ec in H. destruct (chain_sure _ _ _ H) as [[a [Ea ->]]|[e [Ee _]]]; [|discriminate Ee].
      assert (s6 = a) as <- by (injection Ea; auto). left. eauto.
  - injection Y as ->. right. right. exists e'. split; [reflexivity|]. right. left. exists e'. auto.
Qed.

(** *** The application *)

Lemma file_refused w path r : usable_fragile w -> broken_at w path -> read_troubled w path r ->
  r = NoMemory \/ exists e, reading_error e /\ r = Gets (Stop (Throw e)).
Proof.
  intros U [t E]. unfold read_troubled. rewrite E. cbn [readable]. pose proof (U path _ E) as Ut. cbn [readable] in Ut.
  intros H. destruct (chain_may _ _ _ H) as [[_ [_ H1]]|[[e [Ee _]]| ->]]; [|discriminate Ee|left; reflexivity]. clear H.
  destruct H1 as [[[s io] [X H]]|[[e [X ->]]|[X ->]]]; [| |left; reflexivity];
    destruct (image_refused (opened t) None _ eq_refl X) as [[s' [io' [Y Fs]]]|[Y|[e' [Y K]]]]; try discriminate Y.
  - assert (s = s') as -> by (injection Y; auto). cbn [fst snd] in H. rewrite Fs in H. destruct H as [-> | ->]; [|left; reflexivity].
    right. exists NotPgm. split; [left; reflexivity|reflexivity].
  - injection Y as ->. right. destruct (image_scarce t _ Ut K) as [Q|[Q|[_ M]]]; [|discriminate Q|].
    + injection Q as Q. symmetry in Q. destruct (read_safe t None) as [ND NU]. destruct e' as [e| |].
      * destruct (read_throws t None e Q) as [ts [_ [[-> _]|[-> _]]]]; eexists; (split; [|reflexivity]); unfold reading_error; auto.
      * exfalso. destruct (NU Q) as [ts [L [[a [b [m [r [Hh Hb]]]]]|[img [extra [I Z]]]]]]; destruct (Ut ts L) as [U1 U2].
        -- destruct (U1 a b m r Hh). lia.
        -- exact (U2 img extra I Z).
      * contradiction.
    + destruct M as [[s' [io' [Y _]]]|[Y|Y]]; [discriminate Y|..]; injection Y as ->; eexists; (split; [|reflexivity]); unfold reading_error; auto.
Qed.

Lemma problem_cases w o l r x : usable_fragile w -> problem_troubled w o l r x ->
  problem_scarce (sound_part w) o l r x \/ x = NoMemory \/
  exists path e, (path = l \/ path = r) /\ broken_at w path /\ reading_error e /\ x = Gets (Stop (Throw e)).
Proof.
  intros U H. destruct (broken_dec w l) as [Bl|Nl].
  { right. destruct H as [[il [E H]]|[[e [E ->]]|[E ->]]]; [| |left; reflexivity];
      destruct (file_refused w l _ U Bl E) as [X|[e' [Re X]]]; try discriminate X. injection X as ->. right. exists l, e'. auto. }
  destruct H as [[il [E H]]|[[e [E ->]]|[E ->]]]; apply (troubled_sound w l _ Nl) in E.
  2:{ left. right. left. exists e. auto. }
  2:{ right. left. reflexivity. }
  destruct (broken_dec w r) as [Br|Nr].
  { right. destruct H as [[ir [E1 H]]|[[e [E1 ->]]|[E1 ->]]]; [| |left; reflexivity];
      destruct (file_refused w r _ U Br E1) as [X|[e' [Re X]]]; try discriminate X. injection X as ->. right. exists r, e'. auto. }
  left. left. exists il. split; [exact E|]. revert H. apply chain_iff; [intros q; symmetry; apply troubled_sound; exact Nr|reflexivity].
Qed.
Lemma problem_sound w o l r x : ~ broken_at w l -> ~ broken_at w r ->
  problem_troubled w o l r x <-> problem_scarce (sound_part w) o l r x.
Proof.
  intros Nl Nr. unfold problem_troubled, problem_scarce. apply chain_iff; [intros q; apply troubled_sound; exact Nl|]. intros il.
  apply chain_iff; [intros q; apply troubled_sound; exact Nr|reflexivity].
Qed.

Lemma finishes_same w room out x : finishes_troubled w room out x = cut_fate room (Ends (finishes (sound_part w) out x)).
Proof. cbn [cut_fate]. rewrite <- finishes_cut. reflexivity. Qed.
Lemma output_same w room out img e : output_troubled w room out img e <->
  exists e0, output_scarce (sound_part w) out img e0 /\ e = cut_fate room e0.
Proof.
  unfold output_troubled, output_scarce. rewrite finishes_same. change (writable (sound_part w) out) with (fragile_writable w out).
  assert (Em : cut_fate room (no_memory (Some (out, []))) = no_memory (Some (out, []))) by (cbn; rewrite firstn_nil; reflexivity).
  destruct (fragile_writable w out).
  - split.
    + intros [-> | ->]; eexists; (split; [|]); [left; reflexivity|symmetry; exact Em|right; reflexivity|reflexivity].
    + intros [e0 [[-> | ->] ->]]; [left; exact Em|right; reflexivity].
  - split; [intros ->; eexists; split; reflexivity|intros [e0 [-> ->]]; reflexivity].
Qed.

Section Builds.
Context {A : Type} (choose : option text -> outcome A)
  (solves : A -> image -> image -> N -> F cpu -> F cpu -> conclusion -> Prop)
  (room : text -> N)
  (Quit : forall pa l r lev c s e, solves pa l r lev c s (Quits e) -> cut_fate room e = e).

Lemma by_cases w p e : usable_fragile w -> main_troubled_by choose solves w room p e ->
  (exists e0, main_scarce_by choose solves (sound_part w) p e0 /\ e = cut_fate room e0) \/ (broken_input w p /\ blames_file e).
Proof.
  intros U [-> |H]; [left; exists (no_memory None); split; [left; reflexivity|reflexivity]|].
  assert (Same : main_scarce_by choose solves (sound_part w) p e -> cut_fate room e = e ->
    exists e0, main_scarce_by choose solves (sound_part w) p e0 /\ e = cut_fate room e0) by (intros X Y; exists e; auto).
  destruct p as [o| |].
  2:{ left. apply Same; [right; exact H|]. destruct H as [-> | ->]; reflexivity. }
  2:{ left. apply Same; [right; exact H|]. destruct H as [-> | ->]; reflexivity. }
  unfold main_scarce_by in Same |- *.
  destruct (o_output o) as [out|] eqn:Eo; [destruct (o_left o) as [l|] eqn:El; [destruct (o_right o) as [r|] eqn:Er|]|].
  2:{ left. apply Same; [right; exact H|]. destruct (_ || _); [subst; reflexivity|]. destruct (_ =? _); subst; reflexivity. }
  2:{ left. apply Same; [right; exact H|]. destruct (_ || _); [subst; reflexivity|]. destruct (_ =? _); subst; reflexivity. }
  2:{ left. apply Same; [right; exact H|]. destruct (_ || _); [subst; reflexivity|]. destruct (_ =? _); subst; reflexivity. }
  destruct (choose (o_parallel o)) as [pa|[x| |]]; try (left; apply Same; [right; exact H|subst; reflexivity]). clear Same.
  destruct H as [x [Hp Hx]]. destruct (problem_cases w o l r x U Hp) as [Hs|[-> |[path [e' [Hl [B [Re ->]]]]]]].
  - left. destruct x as [[[[[[il ir] lev] c] s]|z]|].
    + destruct Hx as [-> |[y [Hy He]]]; [exists (no_memory None); split; [left; reflexivity|reflexivity]|].
      destruct y as [[img|z]|e'].
      * apply output_same in He. destruct He as [e0 [H0 ->]]. exists e0. split; [|reflexivity]. right. eexists. split; [exact Hs|].
        right. exists (Maps (Ok img)). auto.
      * rewrite finishes_same in He. eexists. split; [|exact He]. right. eexists. split; [exact Hs|]. right. exists (Maps (Stop z)). auto.
      * subst e. exists e'. split; [|symmetry; exact (Quit _ _ _ _ _ _ _ Hy)]. right. eexists. split; [exact Hs|]. right. exists (Quits e'). auto.
    + rewrite finishes_same in Hx. eexists. split; [|exact Hx]. right. eexists. split; [exact Hs|reflexivity].
    + exists (no_memory None). split; [left; reflexivity|exact Hx].
  - left. exists (no_memory None). split; [left; reflexivity|exact Hx].
  - right. split.
    + exists o, path. split; [reflexivity|]. split; [destruct Hl as [-> | ->]; auto|exact B].
    + exists (report e'). split; [exact Hx|]. destruct Re as [-> |[-> | ->]]; auto.
Qed.
Lemma by_possible w p e : ~ broken_input w p -> main_scarce_by choose solves (sound_part w) p e ->
  main_troubled_by choose solves w room p (cut_fate room e).
Proof.
  intros N [-> |H]; [left; reflexivity|]. right. destruct p as [o| |]; [|destruct H as [-> | ->]; [left|right]; reflexivity..].
  destruct (o_output o) as [out|] eqn:Eo; [destruct (o_left o) as [l|] eqn:El; [destruct (o_right o) as [r|] eqn:Er|]|];
    try (destruct (_ || _); [subst; reflexivity|]; destruct (_ =? _); subst; reflexivity).
  destruct (choose (o_parallel o)) as [pa|[x| |]]; try (subst; reflexivity).
  destruct H as [x [Hp Hx]]. exists x. split.
  { apply problem_sound; [intros B; apply N; exists o, l|intros B; apply N; exists o, r|exact Hp]; auto. }
  destruct x as [[[[[[il ir] lev] c] s]|z]|].
  - destruct Hx as [-> |[y [Hy He]]]; [left; reflexivity|]. right. exists y. split; [exact Hy|]. destruct y as [[img|z]|e'].
    + apply output_same. eauto.
    + rewrite finishes_same. subst e. reflexivity.
    + subst e'. exact (Quit _ _ _ _ _ _ _ Hy).
  - rewrite finishes_same. subst e. reflexivity.
  - subst e. reflexivity.
Qed.
End Builds.

Lemma team_quits v srt room pa l r lev c s e : solves_team v srt pa l r lev c s (Quits e) -> cut_fate room e = e.
Proof. intros [X|[x [_ X]]]; [|discriminate X]. injection X as ->. reflexivity. Qed.
Lemma device_quits k v srt room pa l r lev c s e : solves_failing k v srt pa l r lev c s (Quits e) -> cut_fate room e = e.
Proof.
  unfold solves_failing. destruct (prepared srt l r lev c s) as [cg|z]; [|discriminate]. destruct pa as [|[]].
  - intros [x [_ X]]. discriminate X.
  - intros [X|[x [_ X]]]; [|discriminate X]. injection X as ->. reflexivity.
  - intros [[cg'| |] [_ X]]; [discriminate X|..]; injection X as ->; reflexivity.
Qed.
