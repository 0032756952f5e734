(** Files that cannot be read to their ends: lemmas. *)
From Coq Require Import Lia.
From Verif Require Import Device_main_proofs.
From Verif Require Export Broken_spec.
From Verif Require Import App_proofs Memory_proofs Pgm.
Local Open Scope N_scope.

(** *** Whole files *)

Lemma extract_whole c s : extract_from false c s = extract c s.
Proof.
  unfold extract_from, extract. destruct (negb (good s)); [reflexivity|]. destruct (skip_space (rest s)) as [|x l]; [reflexivity|].
  destruct (after_word (x :: l)) as [|y r] eqn:E; reflexivity.
Qed.
Lemma ignore_whole s : ignore_line_from false s = ignore_line s. Proof. reflexivity. Qed.
Lemma get_whole c s : get_char_from false c s = get_char c s. Proof. reflexivity. Qed.
Lemma comments_whole fuel : forall c s, skip_comments_from false fuel c s = skip_comments fuel c s.
Proof.
  induction fuel as [|fuel IH]; intros c s; cbn [skip_comments_from skip_comments]; [reflexivity|].
  rewrite ignore_whole, extract_whole. destruct (good s && starts_comment c); [|reflexivity].
  cbv zeta. destruct (failbit (ignore_line s)); [reflexivity|]. destruct (extract c (ignore_line s)). apply IH.
Qed.
Lemma instruction_whole s : read_pgm_instruction_from false s = read_pgm_instruction s.
Proof.
  unfold read_pgm_instruction_from, read_pgm_instruction. rewrite extract_whole. destruct (failbit s); [reflexivity|].
  destruct (extract [] s). apply comments_whole.
Qed.
Lemma check_loop_whole fuel : forall c s, check_loop_from false fuel c s = check_loop fuel c s.
Proof.
  induction fuel as [|fuel IH]; intros c s; cbn [check_loop_from check_loop]; [reflexivity|]. rewrite get_whole.
  destruct (good s && negb (eofbit s)); [|reflexivity]. destruct (get_char c s) as [[x|] s']; [|reflexivity].
  rewrite ignore_whole. destruct (Ascii.eqb x hash); [apply IH|]. destruct (isspace x); [apply IH|reflexivity].
Qed.
Lemma check_whole s : check_file_end_from false s = check_file_end s.
Proof. unfold check_file_end_from, check_file_end. rewrite check_loop_whole. reflexivity. Qed.
Lemma number_whole s : read_number_from false s = read_number s.
Proof. unfold read_number_from, read_number. rewrite instruction_whole. reflexivity. Qed.
Lemma pixels_whole ps : forall img s, read_pixels_from false img ps s = read_pixels img ps s.
Proof.
  induction ps as [|p ps IH]; intros img s; cbn [read_pixels_from read_pixels]; [reflexivity|]. rewrite number_whole.
  destruct (read_number s) as [[[v|] s']|e]; cbn [bind fst snd]; [|reflexivity..].
  destruct (set (data img) (pixel_index cpu img p) v); cbn [bind]; [apply IH|reflexivity].
Qed.
Lemma image_whole s io : read_image_from false s io = read_image s io.
Proof.
  unfold read_image_from, read_image. rewrite instruction_whole. destruct (read_pgm_instruction s) as [[u s1]|e]; cbn [bind fst snd]; [|reflexivity].
  destruct (list_eq_dec ascii_dec u FORMAT_CODE) as [Fc|Fc]; cbn [negb]; [|reflexivity].
  rewrite number_whole. destruct (read_number s1) as [[[wd|] s2]|e2]; cbn [bind fst snd]; [|reflexivity..].
  rewrite number_whole. destruct (read_number s2) as [[[ht|] s3]|e3]; cbn [bind fst snd]; [|reflexivity..].
  rewrite number_whole. destruct (read_number s3) as [[[mx|] s4]|e4]; cbn [bind fst snd]; [|reflexivity..].
  destruct (MAX_VALUE_LIMIT <? mx); [reflexivity|]. destruct (alloc (umul cpu wd ht) 0) as [d|e5]; cbn [bind]; [|reflexivity].
  cbv zeta. rewrite pixels_whole. destruct (read_pixels _ _ s4) as [[[img|] s5]|e6]; cbn [bind fst snd]; [|reflexivity..].
  rewrite check_whole. reflexivity.
Qed.
Lemma file_whole w path t : fragile_files w path = Some (Whole t) -> read_fragile w path = read_file (sound_part w) path.
Proof.
  intros E. unfold read_fragile, read_file, sound_part. cbn [files]. rewrite E. cbn [readable]. rewrite image_whole. reflexivity.
Qed.
Lemma file_missing w path : fragile_files w path = None -> read_fragile w path = read_file (sound_part w) path.
Proof. intros E. unfold read_fragile, read_file, sound_part. cbn [files]. rewrite E. reflexivity. Qed.

(** *** Broken files *)

Lemma end_bad b : bad (at_end true b). Proof. split; reflexivity. Qed.
Lemma good_not_end s : good s = true -> eofbit s = false.
Proof. unfold good. destruct (eofbit s); [discriminate|reflexivity]. Qed.

(** The stream of the broken file against the one of the whole file. *)
Definition follows (s' s0 : istream) : Prop := (s' = s0 /\ eofbit s0 = false) \/ (bad s' /\ eofbit s0 = true).
Lemma follows_end s' s0 : follows s' s0 -> eofbit s' = false.
Proof. intros [[-> E]|[[_ E] _]]; exact E. Qed.
Lemma follows_fail s' s0 : follows s' s0 -> follows (set_fail s') (set_fail s0).
Proof. intros [[-> E]|[B E]]; [left; split; [reflexivity|exact E]|right; rewrite (bad_fail _ B); split; [exact B|exact E]]. Qed.
Lemma follows_same s : eofbit s = false -> follows s s. Proof. intros E. left. auto. Qed.
Lemma end_spent s : eofbit s = true -> good s = false. Proof. unfold good. intros ->. reflexivity. Qed.

Lemma extract_broken c s : eofbit s = false ->
  fst (extract_from true c s) = fst (extract c s) /\ follows (snd (extract_from true c s)) (snd (extract c s)).
Proof.
  intros E. unfold extract_from, extract. destruct (good s) eqn:G; cbn [negb].
  - destruct (skip_space (rest s)) as [|x l]; cbn [fst snd]; [split; [reflexivity|right; split; [apply end_bad|reflexivity]]|].
    split; [reflexivity|]. destruct (after_word (x :: l)); cbn [is_empty]; [right; split; [apply end_bad|reflexivity]|left; split; reflexivity].
  - split; [reflexivity|]. left. split; [reflexivity|exact E].
Qed.
Lemma ignore_broken s : eofbit s = false -> follows (ignore_line_from true s) (ignore_line s).
Proof.
  intros E. unfold ignore_line_from, ignore_line. destruct (good s); cbn [negb]; [|left; split; [reflexivity|exact E]].
  destruct (after_line (rest s)); [left; split; reflexivity|right; split; [apply end_bad|reflexivity]].
Qed.
Lemma get_broken c s : eofbit s = false ->
  fst (get_char_from true c s) = fst (get_char c s) /\ follows (snd (get_char_from true c s)) (snd (get_char c s)).
Proof.
  intros E. unfold get_char_from, get_char. destruct (good s); cbn [negb]; [|split; [reflexivity|left; split; [reflexivity|exact E]]].
  destruct (rest s); cbn [fst snd]; [split; [reflexivity|right; split; [apply end_bad|reflexivity]]|split; [reflexivity|left; split; reflexivity]].
Qed.

(** The results agree, apart from the streams; or both stop. *)
Definition agrees {A} (x' x0 : outcome (A * istream)) : Prop :=
  (exists v s' s0, x' = Ok (v, s') /\ x0 = Ok (v, s0) /\ follows s' s0) \/ (exists e, x' = Stop e /\ x0 = Stop e).

Lemma comments_spent fuel c s : good s = false -> (0 < fuel)%nat ->
  (forall brk, skip_comments_from brk fuel c s = Ok (if starts_comment c then [] else c, s)) /\
  skip_comments fuel c s = Ok (if starts_comment c then [] else c, s).
Proof.
  intros G L. destruct fuel as [|fuel]; [lia|].
  split; [intros brk|]; cbn [skip_comments_from skip_comments]; rewrite G; cbn [andb]; destruct (starts_comment c); reflexivity.
Qed.
Lemma comments_broken fuel : forall c s, eofbit s = false -> (0 < fuel)%nat ->
  (good s && starts_comment c = true -> S (length (rest s)) < fuel)%nat ->
  agrees (skip_comments_from true fuel c s) (skip_comments fuel c s).
Proof.
  induction fuel as [|fuel IH]; intros c s E F0 Lf; [lia|]. cbn [skip_comments_from skip_comments].
  destruct (good s && starts_comment c) eqn:G.
  2:{ left. destruct (starts_comment c); eexists _, s, s; (split; [reflexivity|]); (split; [reflexivity|]); left; auto. }
  specialize (Lf eq_refl). apply andb_prop in G. destruct G as [G Sc]. cbv zeta.
  destruct (ignore_broken s E) as [[Ei Ee]|[B Ee]].
  - rewrite Ei. destruct (failbit (ignore_line s)) eqn:Fi.
    { left. exists [], (ignore_line s), (ignore_line s). split; [reflexivity|]. split; [reflexivity|]. left. auto. }
    destruct (extract_broken c (ignore_line s) Ee) as [E1 E2].
    pose proof (extract_shorter c (ignore_line s)) as Sh. pose proof (suffix_length _ _ (suffix_ignore s)) as Si.
    destruct (extract_from true c (ignore_line s)) as [u' s'], (extract c (ignore_line s)) as [u0 s0]. cbn [fst snd] in E1, E2, Sh. subst u'.
    destruct E2 as [[-> E3]|[B E3]].
    + apply IH; [exact E3|lia|]. intros G2. apply andb_prop in G2. specialize (Sh (proj1 G2)). lia.
    + left. destruct (comments_spent fuel u0 s' (bad_good s' B)) as [-> _]; [lia|].
      destruct (comments_spent fuel u0 s0 (end_spent s0 E3)) as [_ ->]; [lia|].
      eexists _, s', s0. split; [reflexivity|]. split; [reflexivity|]. right. auto.
  - rewrite (proj1 B). left.
    assert (Fi : failbit (ignore_line s) = false).
    { unfold ignore_line in *. rewrite G in *. cbn [negb] in *. destruct (after_line (rest s)); reflexivity. }
    rewrite Fi. unfold extract. rewrite (end_spent _ Ee). cbn [negb].
    destruct (comments_spent fuel c (set_fail (ignore_line s))) as [_ ->]; [apply end_spent; exact Ee|lia|]. rewrite Sc.
    eexists _, _, _. split; [reflexivity|]. split; [reflexivity|]. right. split; [exact B|exact Ee].
Qed.
Lemma instruction_broken s : eofbit s = false -> agrees (read_pgm_instruction_from true s) (read_pgm_instruction s).
Proof.
  intros E. unfold read_pgm_instruction_from, read_pgm_instruction. destruct (failbit s).
  { left. exists [], s, s. split; [reflexivity|]. split; [reflexivity|]. left. auto. }
  destruct (extract_broken [] s E) as [E1 E2]. pose proof (extract_shorter [] s) as Sh.
  destruct (extract_from true [] s) as [u' s'], (extract [] s) as [u0 s0]. cbn [fst snd] in E1, E2, Sh. subst u'.
  destruct E2 as [[-> E3]|[B E3]].
  - apply comments_broken; [exact E3|lia|]. intros G2. apply andb_prop in G2. specialize (Sh (proj1 G2)). lia.
  - left. destruct (comments_spent (S (length (rest s))) u0 s' (bad_good s' B)) as [-> _]; [lia|].
    destruct (comments_spent (S (length (rest s))) u0 s0 (end_spent s0 E3)) as [_ ->]; [lia|].
    eexists _, s', s0. split; [reflexivity|]. split; [reflexivity|]. right. auto.
Qed.
Lemma number_broken s : eofbit s = false -> agrees (read_number_from true s) (read_number s).
Proof.
  intros E. unfold read_number_from, read_number.
  destruct (instruction_broken s E) as [[u [s' [s0 [-> [-> Fo]]]]]|[e [-> ->]]]; cbn [bind fst snd]; [|right; eauto].
  destruct (stoul u) as [v|[[]| |]]; try (right; eexists; split; reflexivity); left; eexists _, _, _; (split; [reflexivity|]); (split; [reflexivity|]);
    [exact Fo|apply follows_fail; exact Fo].
Qed.
Lemma number_spent s : bad s -> read_number_from true s = Ok (None, s).
Proof.
  intros B. unfold read_number_from, read_pgm_instruction_from. rewrite (proj1 B). cbn [bind fst snd].
  change (stoul []) with (@Stop N (Throw StoulInvalid)). cbv beta iota. rewrite (bad_fail s B). reflexivity.
Qed.

(** The stream of the broken file is the other one or bad; or both stop. *)
Definition resembles {A} (x' x0 : outcome (A * istream)) : Prop :=
  (exists v s', x' = Ok (v, s') /\ ((x0 = x' /\ eofbit s' = false) \/ bad s')) \/ (exists e, x' = Stop e /\ x0 = Stop e).

Lemma pixels_spent ps img s : bad s -> exists v, read_pixels_from true img ps s = Ok (v, s).
Proof. intros B. destruct ps as [|p ps]; cbn [read_pixels_from]; [eauto|]. rewrite (number_spent s B). cbn [bind fst snd]. eauto. Qed.
Lemma pixels_broken ps : forall img s, eofbit s = false ->
  resembles (read_pixels_from true img ps s) (read_pixels img ps s).
Proof.
  induction ps as [|p ps IH]; intros img s E; cbn [read_pixels_from read_pixels]; [left; exists (Some img), s; split; [reflexivity|left; split; [reflexivity|exact E]]|].
  destruct (number_broken s E) as [[v [s' [s0 [-> [-> Fo]]]]]|[e [-> ->]]]; cbn [bind fst snd]; [|right; eauto].
  destruct v as [v|].
  - destruct (set (data img) (pixel_index cpu img p) v) as [d|e]; cbn [bind]; [|right; eauto].
    destruct Fo as [[-> E0]|[B _]]; [apply IH; exact E0|]. destruct (pixels_spent ps (with_data img d) s' B) as [u ->]. left. eauto 6.
  - left. exists None, s'. split; [reflexivity|]. destruct Fo as [[-> E0]|[B _]]; auto.
Qed.
Lemma check_spent fuel c s : bad s -> check_loop_from true (S fuel) c s = Ok s.
Proof. intros B. cbn [check_loop_from]. rewrite (bad_good s B). reflexivity. Qed.
Lemma check_loop_broken fuel : forall c s, eofbit s = false ->
  (exists s', check_loop_from true fuel c s = Ok s' /\ bad s') \/
  (exists e, check_loop_from true fuel c s = Stop e /\ check_loop fuel c s = Stop e).
Proof.
  induction fuel as [|fuel IH]; intros c s E; cbn [check_loop_from check_loop]; [right; eauto|].
  rewrite E. cbn [negb]. rewrite andb_true_r. destruct (good s) eqn:G.
  2:{ left. exists s. split; [reflexivity|]. split; [|exact E]. unfold good in G. rewrite E in G. destruct (failbit s); [reflexivity|discriminate G]. }
  destruct (get_broken c s E) as [E1 E2].
  destruct (get_char_from true c s) as [u' s'], (get_char c s) as [u0 s0]. cbn [fst snd] in E1, E2. subst u'.
  destruct u0 as [x|]; [|right; eauto].
  destruct E2 as [[-> E3]|[B E3]].
  - destruct (Ascii.eqb x hash).
    + destruct (ignore_broken s0 E3) as [[-> E4]|[B E4]]; [apply IH; exact E4|].
      destruct fuel as [|fuel]; [right; exists Diverge; split; reflexivity|]. left. rewrite check_spent by exact B. eauto.
    + destruct (isspace x) as [b|e]; cbn [bind]; [|right; eauto]. apply IH. destruct b; exact E3.
  - destruct (Ascii.eqb x hash).
    + assert (B' : bad (ignore_line_from true s')).
      { unfold ignore_line_from. rewrite (bad_good s' B). cbn [negb]. rewrite (bad_fail s' B). exact B. }
      destruct fuel as [|fuel]; [right; exists Diverge; split; reflexivity|]. left. rewrite check_spent by exact B'. eauto.
    + destruct (isspace x) as [b|e]; cbn [bind]; [|right; eauto].
      assert (B' : bad (if b then s' else set_fail s')) by (destruct b; [|rewrite (bad_fail s' B)]; exact B).
      destruct fuel as [|fuel]; [right; exists Diverge; split; reflexivity|]. left. rewrite check_spent by exact B'. eauto.
Qed.
Lemma check_broken s : eofbit s = false ->
  (exists s', check_file_end_from true s = Ok s' /\ failbit s' = true) \/
  (exists e, check_file_end_from true s = Stop e /\ check_file_end s = Stop e).
Proof.
  intros E. unfold check_file_end_from, check_file_end.
  destruct (check_loop_broken (S (S (length (rest s)))) None s E) as [[s' [-> [F E']]]|[e [-> ->]]]; cbn [bind]; [|right; eauto].
  left. rewrite E'. eauto.
Qed.
Lemma bad_end s : bad s -> exists s', check_file_end_from true s = Ok s' /\ failbit s' = true.
Proof.
  intros B. unfold check_file_end_from. rewrite check_spent by exact B. cbn [bind]. rewrite (proj2 B). exists s. split; [reflexivity|apply B].
Qed.

Lemma image_broken s io : eofbit s = false ->
  (exists s' io', read_image_from true s io = Ok (s', io') /\ failbit s' = true) \/
  (exists e, read_image_from true s io = Stop e /\ read_image s io = Stop e).
Proof.
  intros E. unfold read_image_from, read_image.
  destruct (instruction_broken s E) as [[u [s1 [z1 [-> [-> F1]]]]]|[e [-> ->]]]; cbn [bind fst snd]; [|right; eexists; split; reflexivity].
  destruct (list_eq_dec ascii_dec u FORMAT_CODE) as [Fc|Fc]; cbn [negb]; [|left; eexists _, _; split; reflexivity].
  assert (Empty : forall s v z, follows s z -> read_number_from true s = Ok (None, v) -> failbit v = true).
  { intros s0 v z Fo. unfold read_number_from. destruct (read_pgm_instruction_from true s0) as [[a b]|]; cbn [bind fst snd]; [|discriminate].
    destruct (stoul a) as [x|[[]| |]]; intros X; try discriminate X. assert (set_fail b = v) as <- by (injection X; auto). reflexivity. }
  destruct F1 as [[-> F1]|[B _]].
  2:{ rewrite (number_spent s1 B). cbn [bind fst snd]. left. eexists _, _. split; [reflexivity|apply B]. }
  destruct (number_broken z1 F1) as [[v [s2 [z2 [X2 [-> F2]]]]]|[e [-> ->]]]; [rewrite X2|]; cbn [bind fst snd]; [|right; eexists; split; reflexivity].
  destruct v as [wd|]; [|left; eexists _, _; split; [reflexivity|exact (Empty z1 s2 z1 (follows_same z1 F1) X2)]].
  destruct F2 as [[-> F2]|[B _]].
  2:{ rewrite (number_spent s2 B). cbn [bind fst snd]. left. eexists _, _. split; [reflexivity|apply B]. }
  destruct (number_broken z2 F2) as [[v [s3 [z3 [X3 [-> F3]]]]]|[e [-> ->]]]; [rewrite X3|]; cbn [bind fst snd]; [|right; eexists; split; reflexivity].
  destruct v as [ht|]; [|left; eexists _, _; split; [reflexivity|exact (Empty z2 s3 z2 (follows_same z2 F2) X3)]].
  destruct F3 as [[-> F3]|[B _]].
  2:{ rewrite (number_spent s3 B). cbn [bind fst snd]. left. eexists _, _. split; [reflexivity|apply B]. }
  destruct (number_broken z3 F3) as [[v [s4 [z4 [X4 [-> F4]]]]]|[e [-> ->]]]; [rewrite X4|]; cbn [bind fst snd]; [|right; eexists; split; reflexivity].
  destruct v as [mx|]; [|left; eexists _, _; split; [reflexivity|exact (Empty z3 s4 z3 (follows_same z3 F3) X4)]].
  destruct (MAX_VALUE_LIMIT <? mx); [left; eexists _, _; split; reflexivity|].
  destruct (alloc (umul cpu wd ht) 0) as [d|e] eqn:Ea; cbn [bind]; [|right; eexists; split; reflexivity]. cbv zeta.
  set (img := {| width := wd; height := ht; max_value := mx; data := d |}).
  destruct F4 as [[-> F4]|[B _]].
  2:{ destruct (pixels_spent (row_order img) img s4 B) as [v ->]. cbn [bind fst snd].
    destruct v as [im|]; [|left; eexists _, _; split; [reflexivity|apply B]].
    destruct (bad_end s4 B) as [s' [-> F]]. cbn [bind]. left. eauto. }
  destruct (pixels_broken (row_order img) img z4 F4) as [[v [s5 [X5 Y5]]]|[e [-> ->]]]; [|right; eexists; split; reflexivity].
  rewrite X5. cbn [bind fst snd]. destruct v as [im|].
  - destruct Y5 as [[Y5 E5]|B].
    + rewrite Y5, X5. cbn [bind fst snd]. destruct (check_broken s5 E5) as [[s' [-> F]]|[e [-> ->]]]; cbn [bind]; [left; eauto|right; eexists; split; reflexivity].
    + destruct (bad_end s5 B) as [s' [-> F]]. cbn [bind]. left. eauto.
  - left. eexists _, _. split; [reflexivity|]. destruct Y5 as [[_ E5]|B]; [|apply B].
    assert (L : forall ps im s0 s', read_pixels_from true im ps s0 = Ok (None, s') -> failbit s' = true).
    { clear -Empty. intros ps. induction ps as [|p ps IH]; intros im s0 s'; cbn [read_pixels_from]; [discriminate|].
      destruct (read_number_from true s0) as [[[v|] s1]|e] eqn:En; cbn [bind fst snd]; [| |discriminate].
      - destruct (set (data im) (pixel_index cpu im p) v); cbn [bind]; [apply IH|discriminate].
      - intros X. assert (s1 = s') as <- by (injection X; auto).
        unfold read_number_from in En. destruct (read_pgm_instruction_from true s0) as [[a b]|]; cbn [bind fst snd] in En; [|discriminate En].
        destruct (stoul a) as [x|[[]| |]]; try discriminate En. assert (set_fail b = s1) as <- by (injection En; auto). reflexivity. }
    apply (L _ _ _ _ X5).
Qed.

(** *** The application *)

Lemma file_broken w path : usable_fragile w -> broken_at w path ->
  exists e, reading_error e /\ read_fragile w path = Stop (Throw e).
Proof.
  intros U [t E]. unfold read_fragile. rewrite E. cbn [readable].
  destruct (image_broken (opened t) None eq_refl) as [[s [io [-> F]]]|[e [-> X]]]; cbn [bind fst snd].
  - rewrite F. exists NotPgm. split; [left; reflexivity|reflexivity].
  - pose proof (U path _ E) as Ut. cbn [readable] in Ut. destruct (read_safe t None) as [ND NU]. destruct e as [e| |].
    + destruct (read_throws t None e X) as [ts [_ [[-> _]|[-> _]]]]; eexists; (split; [|reflexivity]); unfold reading_error; auto.
    + exfalso. destruct (NU X) as [ts [L [[a [b [m [r [Hh Hb]]]]]|[img [extra [I Y]]]]]]; destruct (Ut ts L) as [U1 U2].
      * destruct (U1 a b m r Hh). lia.
      * exact (U2 img extra I Y).
    + contradiction.
Qed.

Lemma fragile_cases w path :
  (exists t, fragile_files w path = Some (Whole t) /\ files (sound_part w) path = Some t) \/
  (fragile_files w path = None /\ files (sound_part w) path = None) \/ broken_at w path.
Proof.
  unfold broken_at, sound_part. cbn [files]. destruct (fragile_files w path) as [[t|t]|]; eauto.
Qed.
Lemma file_sound w path : ~ broken_at w path -> read_fragile w path = read_file (sound_part w) path.
Proof.
  intros N. destruct (fragile_cases w path) as [[t [E _]]|[[E _]|B]]; [exact (file_whole w path t E)|exact (file_missing w path E)|contradiction].
Qed.
Lemma sound_usable w : usable_fragile w -> usable_files (sound_part w).
Proof.
  intros U path t E. unfold sound_part in E. cbn [files] in E. destruct (fragile_files w path) as [[u|u]|] eqn:Ef; try discriminate E.
  injection E as ->. exact (U path _ Ef).
Qed.

(** No file that is read breaks. *)
Lemma map_sound srt w o l r : ~ broken_at w l -> (~ broken_at w r \/ exists e, read_file (sound_part w) l = Stop e) ->
  disparity_map_fragile srt w o l r = disparity_map_of srt (sound_part w) o l r.
Proof.
  intros Nl Nr. unfold disparity_map_fragile, disparity_map_of. rewrite (file_sound w l Nl).
  destruct (read_file (sound_part w) l) as [il|e]; cbn [bind]; [|reflexivity].
  destruct Nr as [Nr|[e E]]; [|discriminate E]. rewrite (file_sound w r Nr). reflexivity.
Qed.
Lemma fragile_sound srt w p :
  (forall o l r, p = Parsed o -> o_left o = Some l -> o_right o = Some r ->
     ~ broken_at w l /\ (~ broken_at w r \/ exists e, read_file (sound_part w) l = Stop e)) ->
  main_fragile srt w p = main srt (sound_part w) p.
Proof.
  intros H. destruct p as [o| |]; [|reflexivity..]. cbn [main_fragile main]. specialize (H o).
  destruct (o_output o) as [out|], (o_left o) as [l|], (o_right o) as [r|]; try reflexivity.
  destruct (H l r eq_refl eq_refl eq_refl) as [Nl Nr]. rewrite (map_sound srt w o l r Nl Nr). reflexivity.
Qed.
Lemma fragile_broken srt w o out l r : usable_fragile w ->
  o_output o = Some out -> o_left o = Some l -> o_right o = Some r -> check_parallel (o_parallel o) = Ok tt ->
  broken_at w l \/ ((exists img, read_file (sound_part w) l = Ok img) /\ broken_at w r) ->
  exists m, main_fragile srt w (Parsed o) = Ok (ends 0 (Some m) None) /\
    (m = InvalidArgumentError NotPgm \/ m = LogicError StoulRange \/ m = LogicError LengthError).
Proof.
  intros U Eo El Er Ep H.
  assert (exists e, reading_error e /\ disparity_map_fragile srt w o l r = Stop (Throw e)) as [e [Re Ee]].
  { unfold disparity_map_fragile. destruct H as [B|[[il El'] B]].
    - destruct (file_broken w l U B) as [e [Re ->]]. exists e. auto.
    - assert (Nl : ~ broken_at w l).
      { intros [t E]. unfold read_file, sound_part in El'. cbn [files] in El'. rewrite E in El'. discriminate El'. }
      rewrite (file_sound w l Nl), El'. cbn [bind]. destruct (file_broken w r U B) as [e [Re ->]]. exists e. auto. }
  exists (report e). cbn [main_fragile]. rewrite Eo, El, Er, Ep, Ee. cbn [bind]. split; [reflexivity|].
  destruct Re as [-> |[-> | ->]]; auto.
Qed.

(** All runs. *)
Lemma broken_dec w path : broken_at w path \/ ~ broken_at w path.
Proof.
  destruct (fragile_cases w path) as [[t [E _]]|[[E _]|B]]; [right|right|left; exact B]; intros [u X]; congruence.
Qed.
Lemma fragile_ends srt w p : usable_fragile w ->
  main_fragile srt w p = main srt (sound_part w) p \/
  exists m, main_fragile srt w p = Ok (ends 0 (Some m) None) /\
    (m = InvalidArgumentError NotPgm \/ m = LogicError StoulRange \/ m = LogicError LengthError) /\
    exists o path, p = Parsed o /\ (o_left o = Some path \/ o_right o = Some path) /\ broken_at w path.
Proof.
  intros U. destruct p as [o| |]; [|left; reflexivity..].
  destruct (options_cases o) as [H|[[l [r [E1 [E2 E3]]]]|[l [r [out [El [Er Eo]]]]]]].
  - left. apply fragile_sound. intros o' l r E. injection E as <-. destruct H; congruence.
  - left. cbn [main_fragile main]. rewrite E1, E2, E3. reflexivity.
  - destruct (parallel_cases o) as [[_ Ep]|[_ Ep]].
    2:{ left. cbn [main_fragile main]. rewrite Eo, El, Er, Ep. reflexivity. }
    destruct (broken_dec w l) as [B|N].
    + right. destruct (fragile_broken srt w o out l r U Eo El Er Ep (or_introl B)) as [m [E M]]. exists m. split; [exact E|]. split; [exact M|].
      exists o, l. auto.
    + destruct (broken_dec w r) as [B|Nr].
      * destruct (read_total (sound_part w) l (sound_usable w U)) as [X|[e X]].
        -- right. destruct (fragile_broken srt w o out l r U Eo El Er Ep (or_intror (conj X B))) as [m [E M]]. exists m.
           split; [exact E|]. split; [exact M|]. exists o, r. auto.
        -- left. apply fragile_sound. intros o' l' r' E E1 E2. injection E as <-. assert (l' = l) as -> by congruence. eauto.
      * left. apply fragile_sound. intros o' l' r' E E1 E2. injection E as <-. assert (l' = l) as -> by congruence.
        assert (r' = r) as -> by congruence. auto.
Qed.

(** A map is made of whole files. *)
Lemma map_fragile srt w o e f : usable_fragile w -> main_fragile srt w (Parsed o) = Ok e -> written_file e = Some f ->
  main srt (sound_part w) (Parsed o) = Ok e /\
  exists l r tl tr, o_left o = Some l /\ o_right o = Some r /\
    fragile_files w l = Some (Whole tl) /\ fragile_files w r = Some (Whole tr).
Proof.
  intros U E Ew. destruct (fragile_ends srt w (Parsed o) U) as [X|[m [X _]]].
  2:{ rewrite E in X. injection X as ->. discriminate Ew. }
  split; [congruence|]. pose proof E as M. rewrite X in M. clear X.
  destruct (options_cases o) as [H|[[l [r [E1 [E2 E3]]]]|[l [r [out [El [Er Eo]]]]]]].
  - exfalso. cbn [main] in M. destruct H as [H|H]; rewrite H in M; destruct (o_output o), (o_left o), (o_right o); cbn [count N.eqb orb] in M;
      try discriminate H; injection M as <-; discriminate Ew.
  - exfalso. cbn [main] in M. rewrite E1, E2, E3 in M. cbn [count N.eqb orb] in M. injection M as <-. discriminate Ew.
  - exists l, r. cbn [main] in M. rewrite Eo, El, Er in M. destruct (parallel_cases o) as [[_ Ep]|[_ Ep]]; rewrite Ep in M.
    2:{ injection M as <-. discriminate Ew. }
    unfold disparity_map_of, read_file in M.
    destruct (fragile_cases w l) as [[tl [Fl Fl']]|[[_ Fl']|[tl Fl']]].
    2:{ rewrite Fl' in M. cbn [bind] in M. injection M as <-. discriminate Ew. }
    2:{ unfold sound_part in M. cbn [files] in M. rewrite Fl' in M. cbn [bind] in M. injection M as <-. discriminate Ew. }
    destruct (fragile_cases w r) as [[tr [Fr Fr']]|[[_ Fr']|[tr Fr']]].
    + exists tl, tr. auto.
    + exfalso. rewrite Fl', Fr' in M. destruct (read_total (sound_part w) l (sound_usable w U)) as [[il X]|[e' X]];
        unfold read_file in X; rewrite Fl' in X; rewrite X in M; cbn [bind] in M; injection M as <-; discriminate Ew.
    + exfalso. assert (Fr : files (sound_part w) r = None) by (unfold sound_part; cbn [files]; rewrite Fr'; reflexivity).
      rewrite Fl', Fr in M. destruct (read_total (sound_part w) l (sound_usable w U)) as [[il X]|[e' X]];
        unfold read_file in X; rewrite Fl' in X; rewrite X in M; cbn [bind] in M; injection M as <-; discriminate Ew.
Qed.

(** *** The other builds *)

Definition problem_of (w : world) (o : options) (l r : text) : outcome (image * image * N * N * N) :=
  l <- read_file w l ;;
  r <- read_file w r ;;
  lev <- number_or (width l) (o_levels o) ;;
  c <- number_or 1 (o_cleanness o) ;;
  s <- number_or 1 (o_smoothness o) ;;
  Ok (l, r, lev, c, s).
Definition main_by {A} (choose : option text -> outcome A)
  (solves : A -> image -> image -> N -> F cpu -> F cpu -> outcome image -> Prop) (w : world) (p : parsed) (e : outcome effects) : Prop :=
  match p with
  | Repeated => e = Ok (ends 1 (Some UsageError) None)
  | Rejected => e = Ok (ends 1 (Some UnexpectedException) None)
  | Parsed o =>
      match o_output o, o_left o, o_right o with
      | Some out, Some l, Some r =>
          match choose (o_parallel o) with
          | Stop (Throw _) => e = Ok (ends 1 (Some UnexpectedException) None)
          | Stop x => e = Stop x
          | Ok pa =>
              exists x, match problem_of w o l r with
                        | Stop z => x = Stop z
                        | Ok (l, r, lev, c, s) => solves pa l r lev (of_u c) (of_u s) x
                        end /\ e = finishes w out x
          end
      | _, _, _ =>
          if (count (o_left o) =? 0) || (count (o_right o) =? 0)
          then e = Ok (ends 0 (Some NoImages) None)
          else if count (o_output o) =? 0 then e = Ok (ends 0 (Some NoOutput) None)
          else e = Ok (ends 1 (Some Help) None)
      end
  end.
Lemma by_with b v srt w p e : main_by (chosen b) (fun pa => solves_with pa v srt) w p e <-> main_with b v srt w p e.
Proof. reflexivity. Qed.
Lemma does_then {A B} (x : outcome A) (f : A -> outcome B -> Prop) o :
  and_then (does x) f o <-> match x with Ok a => f a o | Stop e => o = Stop e end.
Proof.
  unfold and_then, does. destruct x as [a|e]; split.
  - intros [[a' [E H]]|[e [E _]]]; [injection E as ->; exact H|discriminate E].
  - intros H. left. eauto.
  - intros [[a' [E _]]|[e' [E ->]]]; [discriminate E|injection E as ->; reflexivity].
  - intros ->. right. eauto.
Qed.
Lemma by_omp v srt w p e : main_by check_parallel (fun _ => solve_problem_omp v srt) w p e <-> main_omp v srt w p e.
Proof.
  destruct p as [o| |]; [|reflexivity..]. cbn [main_by main_omp].
  destruct (o_output o) as [out|], (o_left o) as [l|], (o_right o) as [r|]; try reflexivity.
  destruct (check_parallel (o_parallel o)) as [[]|[x| |]]; try reflexivity.
  assert (H : forall x, map_omp v srt w o l r x <->
    match problem_of w o l r with Stop z => x = Stop z | Ok (l, r, lev, c, s) => solve_problem_omp v srt l r lev (of_u c) (of_u s) x end).
  { intros x. unfold map_omp, problem_of. rewrite does_then. destruct (read_file w l) as [il|z]; cbn [bind]; [|reflexivity].
    rewrite does_then. destruct (read_file w r) as [ir|z]; cbn [bind]; [|reflexivity].
    rewrite does_then. destruct (number_or (width il) (o_levels o)) as [lev|z]; cbn [bind]; [|reflexivity].
    rewrite does_then. destruct (number_or 1 (o_cleanness o)) as [c|z]; cbn [bind]; [|reflexivity].
    rewrite does_then. destruct (number_or 1 (o_smoothness o)) as [s|z]; cbn [bind]; reflexivity. }
  split; intros [x [Hx He]]; exists x; split; try exact He; apply H; exact Hx.
Qed.

Section By.
Context {A : Type} (choose : option text -> outcome A)
  (solves : A -> image -> image -> N -> F cpu -> F cpu -> outcome image -> Prop).

Lemma by_sound w p e :
  (forall o l r, p = Parsed o -> o_left o = Some l -> o_right o = Some r ->
     ~ broken_at w l /\ (~ broken_at w r \/ exists z, read_file (sound_part w) l = Stop z)) ->
  main_fragile_by choose solves w p e <-> main_by choose solves (sound_part w) p e.
Proof.
  intros H. destruct p as [o| |]; [|reflexivity..]. cbn [main_fragile_by main_by]. specialize (H o).
  destruct (o_output o) as [out|], (o_left o) as [l|], (o_right o) as [r|]; try reflexivity.
  destruct (H l r eq_refl eq_refl eq_refl) as [Nl Nr].
  assert (E : problem_fragile w o l r = problem_of (sound_part w) o l r).
  { unfold problem_fragile, problem_of. rewrite (file_sound w l Nl).
    destruct (read_file (sound_part w) l) as [il|z]; cbn [bind]; [|reflexivity].
    destruct Nr as [Nr|[z X]]; [|discriminate X]. rewrite (file_sound w r Nr). reflexivity. }
  rewrite E. reflexivity.
Qed.
Lemma by_broken w o out l r pa : usable_fragile w ->
  o_output o = Some out -> o_left o = Some l -> o_right o = Some r -> choose (o_parallel o) = Ok pa ->
  broken_at w l \/ ((exists img, read_file (sound_part w) l = Ok img) /\ broken_at w r) ->
  exists m, (forall e, main_fragile_by choose solves w (Parsed o) e <-> e = Ok (ends 0 (Some m) None)) /\
    (m = InvalidArgumentError NotPgm \/ m = LogicError StoulRange \/ m = LogicError LengthError).
Proof.
  intros U Eo El Er Ep H.
  assert (exists z, reading_error z /\ problem_fragile w o l r = Stop (Throw z)) as [z [Re Ee]].
  { unfold problem_fragile. destruct H as [B|[[il El'] B]].
    - destruct (file_broken w l U B) as [z [Re ->]]. exists z. auto.
    - assert (Nl : ~ broken_at w l).
      { intros [t E]. unfold read_file, sound_part in El'. cbn [files] in El'. rewrite E in El'. discriminate El'. }
      rewrite (file_sound w l Nl), El'. cbn [bind]. destruct (file_broken w r U B) as [z [Re ->]]. exists z. auto. }
  exists (report z). split.
  - intros e. cbn [main_fragile_by]. rewrite Eo, El, Er, Ep, Ee. split; [intros [x [-> ->]]; reflexivity|intros ->; eexists; split; reflexivity].
  - destruct Re as [-> |[-> | ->]]; auto.
Qed.
Lemma by_ends w p : usable_fragile w -> (forall t, (exists pa, choose t = Ok pa) \/ exists z, choose t = Stop (Throw z)) ->
  (forall e, main_fragile_by choose solves w p e <-> main_by choose solves (sound_part w) p e) \/
  exists m, (forall e, main_fragile_by choose solves w p e <-> e = Ok (ends 0 (Some m) None)) /\
    (m = InvalidArgumentError NotPgm \/ m = LogicError StoulRange \/ m = LogicError LengthError) /\
    exists o path, p = Parsed o /\ (o_left o = Some path \/ o_right o = Some path) /\ broken_at w path.
Proof.
  intros U Ch. destruct p as [o| |]; [|left; reflexivity..].
  destruct (options_cases o) as [H|[[l [r [E1 [E2 E3]]]]|[l [r [out [El [Er Eo]]]]]]].
  - left. intros e. apply by_sound. intros o' l r E. injection E as <-. destruct H; congruence.
  - left. intros e. cbn [main_fragile_by main_by]. rewrite E1, E2, E3. reflexivity.
  - destruct (Ch (o_parallel o)) as [[pa Ep]|[z Ep]].
    2:{ left. intros e. cbn [main_fragile_by main_by]. rewrite Eo, El, Er, Ep. reflexivity. }
    pose proof (by_broken w o out l r pa U Eo El Er Ep) as X.
    destruct (broken_dec w l) as [B|N].
    + right. destruct (X (or_introl B)) as [m [E M]]. exists m. split; [exact E|]. split; [exact M|]. exists o, l. auto.
    + destruct (broken_dec w r) as [B|Nr].
      * destruct (read_total (sound_part w) l (sound_usable w U)) as [Y|[z Y]].
        -- right. destruct (X (or_intror (conj Y B))) as [m [E M]]. exists m. split; [exact E|]. split; [exact M|]. exists o, r. auto.
        -- left. intros e. apply by_sound. intros o' l' r' E E1 E2. injection E as <-. assert (l' = l) as -> by congruence. eauto.
      * left. intros e. apply by_sound. intros o' l' r' E E1 E2. injection E as <-. assert (l' = l) as -> by congruence.
        assert (r' = r) as -> by congruence. auto.
Qed.
End By.

Lemma chosen_total b t : (exists pa, chosen b t = Ok pa) \/ exists z, chosen b t = Stop (Throw z).
Proof.
  unfold chosen. destruct t as [t|]; [|eauto]. cbv zeta.
  repeat match goal with |- context[if ?c then _ else _] => destruct c end; eauto.
Qed.
Lemma parallel_total t : (exists u, check_parallel t = Ok u) \/ exists z, check_parallel t = Stop (Throw z).
Proof.
  unfold check_parallel. destruct t as [t|]; [|eauto]. cbv zeta.
  match goal with |- context[if ?c then _ else _] => destruct c end; eauto.
Qed.
Lemma with_ends b v srt w p : usable_fragile w ->
  (forall e, main_fragile_with b v srt w p e <-> main_with b v srt (sound_part w) p e) \/
  exists m, (forall e, main_fragile_with b v srt w p e <-> e = Ok (ends 0 (Some m) None)) /\
    (m = InvalidArgumentError NotPgm \/ m = LogicError StoulRange \/ m = LogicError LengthError) /\
    exists o path, p = Parsed o /\ (o_left o = Some path \/ o_right o = Some path) /\ broken_at w path.
Proof. intros U. exact (by_ends (chosen b) (fun pa => solves_with pa v srt) w p U (chosen_total b)). Qed.
Lemma omp_ends v srt w p : usable_fragile w ->
  (forall e, main_fragile_omp v srt w p e <-> main_omp v srt (sound_part w) p e) \/
  exists m, (forall e, main_fragile_omp v srt w p e <-> e = Ok (ends 0 (Some m) None)) /\
    (m = InvalidArgumentError NotPgm \/ m = LogicError StoulRange \/ m = LogicError LengthError) /\
    exists o path, p = Parsed o /\ (o_left o = Some path \/ o_right o = Some path) /\ broken_at w path.
Proof.
  intros U. destruct (by_ends check_parallel (fun _ => solve_problem_omp v srt) w p U parallel_total) as [H|H]; [left|right; exact H].
  intros e. unfold main_fragile_omp. rewrite H. apply by_omp.
Qed.
Lemma with_reported b v srt w o out l r pa : usable_fragile w -> all_paths o l r out -> chosen b (o_parallel o) = Ok pa ->
  broken_at w l \/ ((exists img, read_file (sound_part w) l = Ok img) /\ broken_at w r) ->
  exists m, (forall e, main_fragile_with b v srt w (Parsed o) e <-> e = Ok (ends 0 (Some m) None)) /\
    (m = InvalidArgumentError NotPgm \/ m = LogicError StoulRange \/ m = LogicError LengthError).
Proof.
  intros U [El [Er Eo]] Ep H. exact (by_broken (chosen b) (fun pa => solves_with pa v srt) w o out l r pa U Eo El Er Ep H).
Qed.
Lemma omp_reported v srt w o out l r : usable_fragile w -> all_paths o l r out -> technology_ok o ->
  broken_at w l \/ ((exists img, read_file (sound_part w) l = Ok img) /\ broken_at w r) ->
  exists m, (forall e, main_fragile_omp v srt w (Parsed o) e <-> e = Ok (ends 0 (Some m) None)) /\
    (m = InvalidArgumentError NotPgm \/ m = LogicError StoulRange \/ m = LogicError LengthError).
Proof.
  intros U [El [Er Eo]] Ht H. destruct (parallel_cases o) as [[_ Ep]|[N _]]; [|contradiction].
  exact (by_broken check_parallel (fun _ => solve_problem_omp v srt) w o out l r tt U Eo El Er Ep H).
Qed.

(** The first build is one of them. *)
Lemma plain_fragile v srt w p e : main_fragile_with {| use_opencl := false; use_cuda := false |} v srt w p e <-> e = main_fragile srt w p.
Proof.
  destruct p as [o| |]; [|reflexivity..]. unfold main_fragile_with. cbn [main_fragile_by main_fragile].
  destruct (o_output o) as [out|], (o_left o) as [l|], (o_right o) as [r|];
    try (repeat match goal with |- context[if ?c then _ else _] => destruct c end; reflexivity).
  assert (Ec : chosen {| use_opencl := false; use_cuda := false |} (o_parallel o) =
    match check_parallel (o_parallel o) with Ok _ => Ok OnCpu | Stop z => Stop z end).
  { unfold chosen, check_parallel. destruct (o_parallel o) as [t|]; [|reflexivity]. cbn [use_opencl use_cuda andb]. cbv zeta.
    match goal with |- context[if ?c then _ else _] => destruct c end; reflexivity. }
  rewrite Ec. destruct (check_parallel (o_parallel o)) as [[]|[z| |]]; try reflexivity.
  assert (Em : forall x, match problem_fragile w o l r with Stop z => x = Stop z
    | Ok (l, r, lev, c, s) => solves_with OnCpu v srt l r lev (of_u c) (of_u s) x end <-> x = disparity_map_fragile srt w o l r).
  { intros x. unfold problem_fragile, disparity_map_fragile.
    destruct (read_fragile w l) as [il|]; cbn [bind]; [|reflexivity]. destruct (read_fragile w r) as [ir|]; cbn [bind]; [|reflexivity].
    destruct (number_or (width il) (o_levels o)) as [lev|]; cbn [bind]; [|reflexivity].
    destruct (number_or 1 (o_cleanness o)) as [c|]; cbn [bind]; [|reflexivity].
    destruct (number_or 1 (o_smoothness o)) as [s|]; cbn [bind]; [|reflexivity]. apply solves_with_cpu. }
  split; [intros [x [Hx ->]]; apply Em in Hx; rewrite Hx; reflexivity|intros ->; eexists; split; [apply Em; reflexivity|reflexivity]].
Qed.
