(** Runs with scarce memory: lemmas. *)
From Coq Require Import Lia.
From Verif Require Export Memory_spec.
From Verif Require Import App_proofs.
Local Open Scope N_scope.

(** *** Chains *)

Lemma chain_sure {A B} (x : outcome A) (f : A -> result B -> Prop) r : chain (sure x) f r ->
  (exists a, x = Ok a /\ f a r) \/ (exists e, x = Stop e /\ r = Gets (Stop e)).
Proof.
  intros [[a [E H]]|[[e [E ->]]|[E _]]]; unfold sure in E; [|right; exists e|discriminate E].
  - left. exists a. split; [injection E; auto|exact H].
  - split; [injection E; auto|reflexivity].
Qed.
Lemma chain_may {A B} (x : outcome A) (f : A -> result B -> Prop) r : chain (may x) f r ->
  (exists a, x = Ok a /\ f a r) \/ (exists e, x = Stop e /\ r = Gets (Stop e)) \/ r = NoMemory.
Proof.
  intros [[a [[E|E] H]]|[[e [[E|E] ->]]|[_ ->]]]; try discriminate E.
  - left. exists a. split; [injection E; auto|exact H].
  - right. left. exists e. split; [injection E; auto|reflexivity].
  - right. right. reflexivity.
Qed.

(** *** Streams *)

(** After a failed allocation. *)
Definition bad (s : istream) : Prop := failbit s = true /\ eofbit s = false.

Lemma bad_good s : bad s -> good s = false.
Proof. intros [F E]. unfold good. rewrite F, E. reflexivity. Qed.
Lemma bad_fail s : bad s -> set_fail s = s.
Proof. intros [F _]. destruct s. unfold set_fail. cbn in *. rewrite F. reflexivity. Qed.

Definition suffix (a b : text) : Prop := exists c, b = c ++ a.
Lemma suffix_refl a : suffix a a. Proof. exists []. reflexivity. Qed.
Lemma suffix_cons x a b : suffix a b -> suffix a (x :: b). Proof. intros [c ->]. exists (x :: c). reflexivity. Qed.
Lemma suffix_trans a b c : suffix a b -> suffix b c -> suffix a c.
Proof. intros [x ->] [y ->]. exists (y ++ x). apply app_assoc. Qed.
Lemma suffix_nil b : suffix [] b. Proof. exists b. symmetry. apply app_nil_r. Qed.
Lemma suffix_skip l : suffix (skip_space l) l.
Proof. induction l as [|c l IH]; cbn [skip_space]; [apply suffix_refl|]. destruct (is_space c); [apply suffix_cons, IH|apply suffix_refl]. Qed.
Lemma suffix_word l : suffix (after_word l) l.
Proof. induction l as [|c l IH]; cbn [after_word]; [apply suffix_refl|]. destruct (is_space c); [apply suffix_refl|apply suffix_cons, IH]. Qed.
Lemma suffix_line l r : after_line l = Some r -> suffix r l.
Proof.
  induction l as [|c l IH]; cbn [after_line]; [discriminate|]. destruct (Ascii.eqb c newline).
  - intros H. injection H as ->. apply suffix_cons, suffix_refl.
  - intros H. apply suffix_cons, IH, H.
Qed.
Lemma long_suffix a b : suffix a b -> long_word a -> long_word b.
Proof. intros [c ->] [x [v [y [-> H]]]]. exists (c ++ x), v, y. rewrite app_assoc. split; [reflexivity|exact H]. Qed.

Lemma suffix_extract str s : suffix (rest (snd (extract str s))) (rest s).
Proof.
  unfold extract. destruct (good s); cbn [negb]; [|apply suffix_refl].
  pose proof (suffix_skip (rest s)) as S1. destruct (skip_space (rest s)) as [|c l]; cbn [snd rest]; [apply suffix_nil|].
  eapply suffix_trans; [apply suffix_word|exact S1].
Qed.
Lemma suffix_ignore s : suffix (rest (ignore_line s)) (rest s).
Proof.
  unfold ignore_line. destruct (good s); cbn [negb]; [|apply suffix_refl].
  destruct (after_line (rest s)) as [r|] eqn:E; cbn [rest]; [apply suffix_line, E|apply suffix_nil].
Qed.
Lemma word_plain l c : In c (word l) -> ~ space c.
Proof.
  induction l as [|x l IH]; cbn [word]; [intros []|]. destruct (is_space x) eqn:E; [intros []|].
  intros [<-|H]; [|apply IH, H]. intros S. apply space_iff in S. congruence.
Qed.
Lemma word_long l : 15 < len (word (skip_space l)) -> long_word l.
Proof.
  intros H. destruct (suffix_skip l) as [a E]. exists a, (word (skip_space l)), (after_word (skip_space l)).
  split; [|split; [exact H|apply word_plain]]. rewrite <- word_split. exact E.
Qed.

Lemma suffix_comments fuel : forall c s u s', skip_comments fuel c s = Ok (u, s') -> suffix (rest s') (rest s).
Proof.
  induction fuel as [|fuel IH]; intros c s u s'; cbn [skip_comments]; [discriminate|].
  destruct (good s && starts_comment c) eqn:G.
  - pose proof (suffix_ignore s) as S1. destruct (failbit (ignore_line s)).
    + intros H. assert (ignore_line s = s') as <- by (injection H; auto). exact S1.
    + pose proof (suffix_extract c (ignore_line s)) as S2. destruct (extract c (ignore_line s)) as [c2 s2]. cbn [snd] in S2.
      intros H. apply IH in H. eapply suffix_trans; [exact H|]. eapply suffix_trans; eassumption.
  - destruct (starts_comment c); intros H; assert (s = s') as <- by (injection H; auto); apply suffix_refl.
Qed.
Lemma suffix_instruction s u s' : read_pgm_instruction s = Ok (u, s') -> suffix (rest s') (rest s).
Proof.
  unfold read_pgm_instruction. destruct (failbit s).
  - intros H. assert (s = s') as <- by (injection H; auto). apply suffix_refl.
  - pose proof (suffix_extract [] s) as S1. destruct (extract [] s) as [c s1]. cbn [snd] in S1. intros H. apply suffix_comments in H.
    eapply suffix_trans; eassumption.
Qed.
Lemma suffix_number s v s' : read_number s = Ok (v, s') -> suffix (rest s') (rest s).
Proof.
  unfold read_number. destruct (read_pgm_instruction s) as [[u s1]|e] eqn:E; [|discriminate]. cbn [bind fst snd].
  apply suffix_instruction in E. destruct (stoul u) as [x|[[]| |]]; try discriminate; intros H.
  - assert (s1 = s') as <- by (injection H; auto). exact E.
  - assert (set_fail s1 = s') as <- by (injection H; auto). exact E.
Qed.

(** *** Numbers *)

Lemma comments_bad fuel c s r : bad s -> skip_comments_scarce (S fuel) c s r -> exists u, r = Gets (Ok (u, s)).
Proof.
  intros B. cbn [skip_comments_scarce]. rewrite (bad_good s B). cbn [andb].
  destruct (starts_comment c); intros H; eexists; exact H.
Qed.
Lemma extract_cases c s r : extract_scarce c s r ->
  r = Gets (Ok (extract c s)) \/ long_word (rest s) /\ exists u s', r = Gets (Ok (u, s')) /\ bad s'.
Proof.
  intros [-> |[k [x [_ [L ->]]]]]; [left; reflexivity|right]. split; [apply word_long; exact L|].
  eexists. eexists. split; [reflexivity|split; reflexivity].
Qed.

Lemma suffix_length a b : suffix a b -> (length a <= length b)%nat.
Proof. intros [c ->]. rewrite app_length. lia. Qed.
Lemma extract_shorter c s : good (snd (extract c s)) = true -> (length (rest (snd (extract c s))) < length (rest s))%nat.
Proof.
  unfold extract. destruct (good s) eqn:G; cbn [negb].
  - pose proof (suffix_length _ _ (suffix_skip (rest s))) as S1.
    assert (S0 : forall x l, skip_space (rest s) = x :: l -> is_space x = false).
    { generalize (rest s). intros t. induction t as [|y t IH]; cbn [skip_space]; [discriminate|]. destruct (is_space y) eqn:Ey; [exact IH|].
      intros x l H. injection H as <- _. exact Ey. }
    destruct (skip_space (rest s)) as [|x l] eqn:E; cbn [snd rest]; [unfold good; cbn; discriminate|].
    intros _. cbn [after_word]. rewrite (S0 x l eq_refl). pose proof (suffix_length _ _ (suffix_word l)). cbn [length] in S1. lia.
  - cbn [snd]. unfold good. cbn [set_fail failbit negb]. rewrite andb_false_r. discriminate.
Qed.

(** What may follow. *)
Lemma comments_scarce fuel : forall c s r, (0 < fuel)%nat ->
  (good s && starts_comment c = true -> S (length (rest s)) < fuel)%nat -> skip_comments_scarce fuel c s r ->
  r = Gets (skip_comments fuel c s) \/ long_word (rest s) /\ exists u s', r = Gets (Ok (u, s')) /\ bad s'.
Proof.
  induction fuel as [|fuel IH]; intros c s r F0 Lf; [lia|]. cbn [skip_comments_scarce skip_comments].
  destruct (good s && starts_comment c) eqn:G.
  - specialize (Lf eq_refl). pose proof (suffix_ignore s) as S1. destruct (failbit (ignore_line s)); [intros H; left; exact H|].
    intros [[[u s2] [E H]]|[[e [E ->]]|[E ->]]].
    2:{ destruct (extract_cases _ _ _ E) as [X|[_ [u [s' [X _]]]]]; discriminate X. }
    2:{ destruct (extract_cases _ _ _ E) as [X|[_ [u [s' [X _]]]]]; discriminate X. }
    cbn [fst snd] in H. destruct (extract_cases _ _ _ E) as [X|[Lw [u' [s' [X B]]]]].
    + assert (extract c (ignore_line s) = (u, s2)) as Ex by (injection X; auto). rewrite Ex.
      pose proof (suffix_extract c (ignore_line s)) as S2. pose proof (extract_shorter c (ignore_line s)) as Sh.
      rewrite Ex in S2, Sh. cbn [snd] in S2, Sh.
      destruct (IH u s2 r) as [-> |[Lw Q]]; [lia| |exact H|left; reflexivity|right; split; [|exact Q]].
      * intros G2. apply andb_prop in G2. destruct G2 as [G2 _]. specialize (Sh G2). apply suffix_length in S1. lia.
      * eapply long_suffix; [|exact Lw]. eapply suffix_trans; eassumption.
    + right. split; [eapply long_suffix; eassumption|].
      assert (u = u' /\ s2 = s') as [-> ->] by (split; injection X; auto).
      destruct fuel as [|fuel]; [lia|]. destruct (comments_bad _ _ _ _ B H) as [u ->]; eauto.
  - destruct (starts_comment c); intros H; left; exact H.
Qed.
Lemma instruction_scarce s r : read_pgm_instruction_scarce s r ->
  r = Gets (read_pgm_instruction s) \/ long_word (rest s) /\ exists u s', r = Gets (Ok (u, s')) /\ bad s'.
Proof.
  unfold read_pgm_instruction_scarce, read_pgm_instruction. destruct (failbit s); [intros H; left; exact H|].
  intros [[[u s2] [E H]]|[[e [E ->]]|[E ->]]].
  2:{ destruct (extract_cases _ _ _ E) as [X|[_ [u [s' [X _]]]]]; discriminate X. }
  2:{ destruct (extract_cases _ _ _ E) as [X|[_ [u [s' [X _]]]]]; discriminate X. }
  cbn [fst snd] in H. destruct (extract_cases _ _ _ E) as [X|[Lw [u' [s' [X B]]]]].
  - assert (extract [] s = (u, s2)) as Ex by (injection X; auto). rewrite Ex.
    pose proof (suffix_extract [] s) as S2. pose proof (extract_shorter [] s) as Sh. rewrite Ex in S2, Sh. cbn [snd] in S2, Sh.
    destruct (comments_scarce (S (length (rest s))) u s2 r) as [-> |[Lw Q]]; [lia| |exact H|left; reflexivity|right; split; [|exact Q]].
    + intros G2. apply andb_prop in G2. specialize (Sh (proj1 G2)). lia.
    + eapply long_suffix; eassumption.
  - right. split; [exact Lw|]. assert (u = u' /\ s2 = s') as [-> ->] by (split; injection X; auto).
    destruct (comments_bad _ _ _ _ B H) as [u ->]; eauto.
Qed.
Lemma instruction_bad s r : bad s -> read_pgm_instruction_scarce s r -> r = Gets (Ok ([], s)).
Proof. intros [F _]. unfold read_pgm_instruction_scarce. rewrite F. auto. Qed.

(** What reading may end with apart from what it ends with usually. *)
Definition strange {A} (r : result (A * istream)) : Prop :=
  (exists v s, r = Gets (Ok (v, s)) /\ bad s) \/ r = Gets (Stop (Throw StoulRange)).

Lemma stoul_stops t e : stoul t = Stop e -> e = Throw StoulInvalid \/ e = Throw StoulRange.
Proof.
  unfold stoul. destruct (is_empty _); [intros H; injection H; auto|]. destruct (_ <=? _); [intros H; injection H; auto|discriminate].
Qed.
Lemma number_scarce s r : read_number_scarce s r ->
  r = Gets (read_number s) \/ r = NoMemory \/ long_word (rest s) /\ strange r.
Proof.
  unfold read_number_scarce, read_number. intros [[[u s1] [E H]]|[[e [E ->]]|[E ->]]]; [|left|right; left; reflexivity].
  2:{ destruct (instruction_scarce _ _ E) as [X|[_ [u [s' [X _]]]]]; [|discriminate X]. injection X as <-. reflexivity. }
  cbn [fst snd] in H. destruct H as [-> | ->]; [|right; left; reflexivity].
  destruct (instruction_scarce _ _ E) as [X|[Lw [u' [s' [X B]]]]].
  - left. injection X as <-. reflexivity.
  - right. right. split; [exact Lw|]. assert (u = u' /\ s1 = s') as [-> ->] by (split; injection X; auto).
    unfold strange. destruct (stoul u') as [v|e] eqn:Es.
    + left. exists (Some v), s'. split; [reflexivity|exact B].
    + destruct (stoul_stops u' e Es) as [-> | ->].
      * left. exists None, s'. rewrite (bad_fail s' B). split; [reflexivity|exact B].
      * right. reflexivity.
Qed.

Lemma number_bad s r : bad s -> read_number_scarce s r -> r = Gets (Ok (None, s)) \/ r = NoMemory.
Proof.
  intros B. unfold read_number_scarce. intros [[[u s1] [E H]]|[[e [E ->]]|[E ->]]]; apply (instruction_bad _ _ B) in E; try discriminate E.
  assert (u = [] /\ s1 = s) as [-> ->] by (split; injection E; auto). cbn [fst snd] in H.
  change (stoul []) with (@Stop N (Throw StoulInvalid)) in H. cbv beta iota in H. rewrite (bad_fail s B) in H. exact H.
Qed.

(** *** Pixels *)

Lemma pixels_bad ps img s r : bad s -> read_pixels_scarce img ps s r ->
  r = NoMemory \/ exists v, r = Gets (Ok (v, s)).
Proof.
  intros B. destruct ps as [|p ps]; cbn [read_pixels_scarce]; [intros ->; eauto|].
  intros [[[v s1] [E H]]|[[e [E ->]]|[E ->]]]; destruct (number_bad _ _ B E) as [X|X]; try discriminate X; [|left; reflexivity].
  assert (v = None /\ s1 = s) as [-> ->] by (split; injection X; auto). cbn [fst snd] in H. right. exists None. exact H.
Qed.
Lemma set_length (d d' : list N) i v : set d i v = Ok d' -> len d' = len d.
Proof.
  unfold set. destruct (i <? len d); [|discriminate]. intros H. injection H as <-. unfold len. f_equal.
  generalize (N.to_nat i). clear. induction d as [|x d IH]; intros [|n]; cbn [upd length]; try reflexivity. rewrite IH. reflexivity.
Qed.
Lemma set_fits (d : list N) i v : i < len d -> exists d', set d i v = Ok d'.
Proof. intros H. unfold set. destruct (N.ltb_spec i (len d)); [eauto|lia]. Qed.

Lemma pixels_scarce ps : forall img s r,
  (forall p, In p ps -> pixel_index cpu img p < len (data img)) -> read_pixels_scarce img ps s r ->
  r = Gets (read_pixels img ps s) \/ r = NoMemory \/ long_word (rest s) /\ strange r.
Proof.
  induction ps as [|p ps IH]; intros img s r Hf; cbn [read_pixels_scarce read_pixels]; [intros ->; left; reflexivity|].
  intros [[[v s1] [E H]]|[[e [E ->]]|[E ->]]]; [| |right; left; reflexivity].
  - cbn [fst snd] in H. destruct (number_scarce _ _ E) as [X|[X|[Lw [[v' [s' [X B]]]|X]]]]; try discriminate X.
    + injection X as X. rewrite <- X. cbn [bind fst snd]. symmetry in X. apply suffix_number in X.
      destruct v as [v|]; [|left; exact H].
      destruct (chain_sure _ _ _ H) as [[d [Ed H']]|[e [Ee ->]]]; [rewrite Ed|rewrite Ee; left; reflexivity]. cbn [bind].
      destruct (IH (with_data img d) s1 r) as [-> |[-> |[Lw St]]]; [|exact H'|left; reflexivity|right; left; reflexivity|].
      * intros q Hq. cbn [with_data data]. rewrite (set_length _ _ _ _ Ed). apply (Hf q). right. exact Hq.
      * right. right. split; [eapply long_suffix; eassumption|exact St].
    + assert (v = v' /\ s1 = s') as [-> ->] by (split; injection X; auto). right.
      destruct v' as [v|].
      * destruct (chain_sure _ _ _ H) as [[d [Ed H']]|[e [Ee ->]]].
        -- destruct (pixels_bad _ _ _ _ B H') as [-> |[u ->]]; [left; reflexivity|right]. split; [exact Lw|]. left. eauto.
        -- exfalso. destruct (set_fits (data img) (pixel_index cpu img p) v (Hf p (or_introl eq_refl))) as [d' Ed]. congruence.
      * right. split; [exact Lw|]. left. exists None, s'. split; [exact H|exact B].
  - destruct (number_scarce _ _ E) as [X|[X|[Lw [[v' [s' [X B]]]|X]]]]; try discriminate X.
    + injection X as X. rewrite <- X. left. reflexivity.
    + right. right. split; [exact Lw|]. right. injection X as ->. reflexivity.
Qed.

(** *** Images *)

Lemma check_bad s : bad s -> check_file_end s = Ok s.
Proof. intros B. unfold check_file_end. cbn [check_loop]. rewrite (bad_good s B). cbn [andb bind]. rewrite (proj2 B). reflexivity. Qed.

(** What reading an image may end with apart from what it ends with usually. *)
Definition misread (r : result (istream * pgm_io)) : Prop :=
  (exists s io, r = Gets (Ok (s, io)) /\ failbit s = true) \/
  r = Gets (Stop (Throw StoulRange)) \/ r = Gets (Stop (Throw LengthError)).

Lemma row_fits (img : image) : width img * height img < 2 ^ 64 -> len (data img) = width img * height img ->
  forall p, In p (row_order img) -> pixel_index cpu img p < len (data img).
Proof.
  intros Hs Hl p Hp. apply (in_map (pixel_index cpu img)) in Hp. rewrite row_index in Hp. apply in_map_iff in Hp.
  destruct Hp as [i [<- Hi]]. apply In_range in Hi. rewrite N.mod_small by lia. lia.
Qed.
Lemma number_read s ts v s' : at_tokens s ts -> read_number s = Ok (Some v, s') ->
  exists t r, ts = t :: r /\ reads_as t v /\ at_tokens s' r.
Proof.
  intros A E. destruct (next_token s ts A) as [No|[[t [r [v' [-> Hv]]]]|[t [r [-> Ho]]]]].
  - destruct (read_number_none s ts A No) as [s2 [E2 _]]. congruence.
  - destruct (read_number_some s t r v' A Hv) as [s2 [E2 [A2 _]]].
    rewrite E2 in E. assert (v' = v /\ s2 = s') as [-> ->] by (split; injection E; auto). eauto.
  - rewrite (read_number_range s t r A Ho) in E. discriminate E.
Qed.
Lemma instruction_read s ts u s' : at_tokens s ts -> read_pgm_instruction s = Ok (u, s') -> u <> [] ->
  exists r, ts = u :: r /\ at_tokens s' r.
Proof.
  intros A E Hu. pose proof (read_at s ts A) as R. destruct ts as [|t r].
  - destruct R as [s2 R]. rewrite R in E. exfalso. apply Hu. injection E; auto.
  - destruct R as [s2 [R [A2 _]]]. rewrite R in E. assert (t = u /\ s2 = s') as [-> ->] by (split; injection E; auto). eauto.
Qed.

(** A number is read or the reading is strange. *)
Lemma number_then s t (f : option N * istream -> result (istream * pgm_io) -> Prop) r : suffix (rest s) t ->
  chain (read_number_scarce s) f r ->
  (exists v s', read_number s = Ok (v, s') /\ suffix (rest s') t /\ f (v, s') r) \/
  (exists e, read_number s = Stop e /\ r = Gets (Stop e)) \/ r = NoMemory \/
  long_word t /\ (misread r \/ exists v s', bad s' /\ f (v, s') r).
Proof.
  intros Sx [[[v s1] [E H]]|[[e [E ->]]|[E ->]]]; [| |right; right; left; reflexivity].
  - destruct (number_scarce _ _ E) as [X|[X|[Lw [[v' [s' [X B]]]|X]]]]; try discriminate X.
    + injection X as X. left. exists v, s1. split; [auto|]. split; [|exact H]. symmetry in X. apply suffix_number in X. eapply suffix_trans; eassumption.
    + right. right. right. split; [eapply long_suffix; eassumption|]. right. exists v, s1. split; [|exact H].
      assert (s1 = s') as -> by (injection X; auto). exact B.
  - destruct (number_scarce _ _ E) as [X|[X|[Lw [[v' [s' [X B]]]|X]]]]; try discriminate X.
    + injection X as X. right. left. exists e. auto.
    + right. right. right. split; [eapply long_suffix; eassumption|]. left. right. left. injection X as ->. reflexivity.
Qed.
Lemma number_bad_then s (f : option N * istream -> result (istream * pgm_io) -> Prop) r : bad s ->
  chain (read_number_scarce s) f r -> r = NoMemory \/ f (None, s) r.
Proof.
  intros B [[[v s1] [E H]]|[[e [E ->]]|[E ->]]]; destruct (number_bad _ _ B E) as [X|X]; try discriminate X; [|left; reflexivity].
  right. assert (v = None /\ s1 = s) as [-> ->] by (split; injection X; auto). exact H.
Qed.

Lemma image_scarce t r : usable t -> read_image_scarce (opened t) None r ->
  r = Gets (read_image (opened t) None) \/ r = NoMemory \/ long_word t /\ misread r.
Proof.
  intros U. destruct (laid_total t) as [ts L]. destruct (U ts L) as [Uh _]. pose proof (opened_at t ts L) as A.
  assert (Gone : forall s io, bad s -> misread (Gets (Ok (s, io)))) by (intros s io [F _]; left; eauto).
  unfold read_image_scarce, read_image. intros [[[u s1] [E H]]|[[e [E ->]]|[E ->]]]; [| |right; left; reflexivity].
  2:{ destruct (instruction_scarce _ _ E) as [X|[_ [u [s' [X _]]]]]; [|discriminate X]. injection X as <-. left. reflexivity. }
  cbn [fst snd] in H.
  assert (Strange : forall s, bad s -> forall (f : option N * istream -> result (istream * pgm_io) -> Prop) r, (f (None, s) r -> r = Gets (Ok (s, None))) ->
    chain (read_number_scarce s) f r -> r = NoMemory \/ misread r).
  { intros s B f r0 Hf Hc. destruct (number_bad_then s f r0 B Hc) as [-> |Hn]; [left; reflexivity|right].
    rewrite (Hf Hn). apply Gone, B. }
  destruct (instruction_scarce _ _ E) as [X|[Lw [u' [s' [X B]]]]].
  2:{ assert (u = u' /\ s1 = s') as [-> ->] by (split; injection X; auto).
    right. destruct (list_eq_dec ascii_dec u' FORMAT_CODE); cbn [negb] in H.
    - destruct (chain_may _ _ _ H) as [[_ [_ H']]|[[e' [Ee _]]| ->]]; [|discriminate Ee|left; reflexivity].
      destruct (Strange s' B _ r (fun Hn => Hn) H') as [-> |M]; auto.
    - right. split; [exact Lw|]. unfold sure in H. rewrite H, (bad_fail s' B). apply Gone, B. }
  injection X as X. rewrite <- X. cbn [bind fst snd].
  destruct (list_eq_dec ascii_dec u FORMAT_CODE) as [Eu|_]; cbn [negb] in H |- *; [|left; exact H].
  symmetry in X. destruct (instruction_read _ _ _ _ A X) as [ts1 [Ets A1]]; [rewrite Eu; discriminate|].
  apply suffix_instruction in X. cbn [opened rest] in X.
  destruct (chain_may _ _ _ H) as [[_ [_ H1]]|[[e' [Ee _]]| ->]]; [|discriminate Ee|right; left; reflexivity]. clear H.
  destruct (number_then s1 t _ r X H1) as [[v [s2 [E2 [X2 H2]]]]|[[e2 [E2 ->]]|[-> |[Lw [M|[v [s2 [B H2]]]]]]]];
    [|rewrite E2; left; reflexivity|right; left; reflexivity|right; right; split; [exact Lw|exact M]|].
  2:{ right. cbn [fst snd] in H2. destruct v as [v|]; [|right; split; [exact Lw|]; rewrite H2; apply Gone, B].
    destruct (Strange s2 B _ r (fun Hn => Hn) H2) as [-> |M]; auto. }
  rewrite E2. cbn [bind fst snd] in H2 |- *. destruct v as [wd|]; [|left; exact H2].
  destruct (number_read _ _ _ _ A1 E2) as [tw [ts2 [Ets1 [Rw A2]]]]. clear H1.
  destruct (number_then s2 t _ r X2 H2) as [[v [s3 [E3 [X3 H3]]]]|[[e2 [E3 ->]]|[-> |[Lw [M|[v [s3 [B H3]]]]]]]];
    [|rewrite E3; left; reflexivity|right; left; reflexivity|right; right; split; [exact Lw|exact M]|].
  2:{ right. cbn [fst snd] in H3. destruct v as [v|]; [|right; split; [exact Lw|]; rewrite H3; apply Gone, B].
    destruct (Strange s3 B _ r (fun Hn => Hn) H3) as [-> |M]; auto. }
  rewrite E3. cbn [bind fst snd] in H3 |- *. destruct v as [ht|]; [|left; exact H3].
  destruct (number_read _ _ _ _ A2 E3) as [th [ts3 [Ets2 [Rh A3]]]]. clear H2.
  destruct (number_then s3 t _ r X3 H3) as [[v [s4 [E4 [X4 H4]]]]|[[e2 [E4 ->]]|[-> |[Lw [M|[v [s4 [B H4]]]]]]]];
    [|rewrite E4; left; reflexivity|right; left; reflexivity|right; right; split; [exact Lw|exact M]|].
  2:{ right. cbn [fst snd] in H4. destruct v as [v|]; [|right; split; [exact Lw|]; rewrite H4; apply Gone, B].
    destruct (MAX_VALUE_LIMIT <? v); [right; split; [exact Lw|]; rewrite H4, (bad_fail s4 B); apply Gone, B|].
    destruct (chain_may _ _ _ H4) as [[d [_ H5]]|[[e' [Ee ->]]| ->]]; [| |left; reflexivity].
    - destruct H5 as [[[v5 s5] [E5 H5]]|[[e [E5 ->]]|[E5 ->]]]; [| |left; reflexivity];
        destruct (pixels_bad _ _ _ _ B E5) as [Y|[v' Y]]; try discriminate Y.
      assert (s5 = s4) as -> by (injection Y; auto). cbn [fst snd] in H5. right. split; [exact Lw|].
      destruct v5 as [im|]; [|rewrite H5; apply Gone, B]. rewrite (check_bad s4 B) in H5.
      destruct (chain_sure _ _ _ H5) as [[s6 [E6 ->]]|[e' [E6 _]]]; [|discriminate E6].
      assert (s4 = s6) as <- by (injection E6; auto). apply Gone, B.
    - right. split; [exact Lw|]. unfold alloc in Ee. destruct (_ <? _); [|discriminate Ee]. injection Ee as <-. right. right. reflexivity. }
  rewrite E4. cbn [bind fst snd] in H4 |- *. destruct v as [mx|]; [|left; exact H4].
  destruct (number_read _ _ _ _ A3 E4) as [tm [ts4 [Ets3 [Rm A4]]]]. clear H3.
  destruct (MAX_VALUE_LIMIT <? mx); [left; exact H4|].
  assert (Hw : wd * ht < 2 ^ 32 /\ 4 * (wd * wd * ht) < 2 ^ 64).
  { apply (Uh wd ht mx ts4). exists tw, th, tm. subst. auto. }
  destruct Hw as [Hw _].
  destruct (chain_may _ _ _ H4) as [[d [Ed H5]]|[[e' [Ee ->]]| ->]]; [rewrite Ed|rewrite Ee; left; reflexivity|right; left; reflexivity].
  cbn [bind]. cbv zeta in H5.
  assert (Ld : len d = wd * ht).
  { unfold alloc in Ed. destruct (_ <? _); [discriminate Ed|]. injection Ed as <-. rewrite len_fill. unfold umul. cbn [wmod cpu ieee].
    apply N.mod_small. lia. }
  set (img := {| width := wd; height := ht; max_value := mx; data := d |}) in *.
  assert (Hf : forall p, In p (row_order img) -> pixel_index cpu img p < len (data img)) by (apply row_fits; [cbn; lia|exact Ld]).
  destruct H5 as [[[v5 s5] [E5 H5]]|[[e [E5 ->]]|[E5 ->]]]; [| |right; left; reflexivity].
  - cbn [fst snd] in H5. destruct (pixels_scarce _ _ _ _ Hf E5) as [Y|[Y|[Lw [[v' [s' [Y B]]]|Y]]]]; try discriminate Y.
    + injection Y as Y. rewrite <- Y. cbn [bind fst snd]. destruct v5 as [im|]; [|left; exact H5].
      destruct (chain_sure _ _ _ H5) as [[s6 [E6 ->]]|[e' [E6 ->]]]; rewrite E6; left; reflexivity.
    + assert (s5 = s') as -> by (injection Y; auto). right. right. split; [eapply long_suffix; eassumption|].
      destruct v5 as [im|]; [|rewrite H5; apply Gone, B]. rewrite (check_bad s' B) in H5.
      destruct (chain_sure _ _ _ H5) as [[s6 [E6 ->]]|[e' [E6 _]]]; [|discriminate E6].
      assert (s' = s6) as <- by (injection E6; auto). apply Gone, B.
  - destruct (pixels_scarce _ _ _ _ Hf E5) as [Y|[Y|[Lw [[v' [s' [Y B]]]|Y]]]]; try discriminate Y.
    + injection Y as Y. rewrite <- Y. left. reflexivity.
    + right. right. split; [eapply long_suffix; eassumption|]. injection Y as ->. right. left. reflexivity.
Qed.

(** *** Files *)

Definition reading_error (e : exn) : Prop := e = NotPgm \/ e = StoulRange \/ e = LengthError.

Lemma file_scarce w path r : usable_files w -> read_file_scarce w path r ->
  r = Gets (read_file w path) \/ r = NoMemory \/
  exists t e, files w path = Some t /\ long_word t /\ reading_error e /\ r = Gets (Stop (Throw e)).
Proof.
  intros U. unfold read_file_scarce, read_file. destruct (files w path) as [t|] eqn:Ft; [|intros [-> | ->]; auto].
  intros H. destruct (chain_may _ _ _ H) as [[_ [_ H1]]|[[e [Ee _]]| ->]]; [|discriminate Ee|right; left; reflexivity]. clear H.
  destruct H1 as [[[s io] [E H]]|[[e [E ->]]|[E ->]]]; [| |right; left; reflexivity];
    destruct (image_scarce t _ (U path t Ft) E) as [X|[X|[Lw M]]]; try discriminate X.
  - injection X as X. rewrite <- X. cbn [bind fst snd] in *. destruct H as [-> | ->]; auto.
  - cbn [fst snd] in H. destruct M as [[s' [io' [Y F]]]|[Y|Y]]; try discriminate Y.
    assert (s = s') as -> by (injection Y; auto). rewrite F in H. destruct H as [-> | ->]; [|auto].
    right. right. exists t, NotPgm. unfold reading_error. auto.
  - injection X as X. rewrite <- X. left. reflexivity.
  - right. right. destruct M as [[s' [io' [Y F]]]|[Y|Y]]; try discriminate Y; injection Y as ->; exists t; eexists;
      (split; [reflexivity|]); (split; [exact Lw|]); (split; [|reflexivity]); unfold reading_error; auto.
Qed.

(** *** The map *)

Lemma map_scarce srt w o l r x : usable_files w -> disparity_map_scarce srt w o l r x ->
  x = Gets (disparity_map_of srt w o l r) \/ x = NoMemory \/
  exists path t e, (path = l \/ path = r) /\ files w path = Some t /\ long_word t /\ reading_error e /\ x = Gets (Stop (Throw e)).
Proof.
  intros U. unfold disparity_map_scarce, disparity_map_of.
  intros [[il [E H]]|[[e [E ->]]|[E ->]]]; [| |right; left; reflexivity];
    (destruct (file_scarce w l _ U E) as [X|[X|[t [e' [Ft [Lw [Re X]]]]]]]; try discriminate X).
  2:{ injection X as X. rewrite <- X. left. reflexivity. }
  2:{ right. right. injection X as ->. exists l, t, e'. auto 6. }
  injection X as X. rewrite <- X. cbn [bind]. clear E X.
  destruct H as [[ir [E H]]|[[e [E ->]]|[E ->]]]; [| |right; left; reflexivity];
    (destruct (file_scarce w r _ U E) as [X|[X|[t [e' [Ft [Lw [Re X]]]]]]]; try discriminate X).
  2:{ injection X as X. rewrite <- X. left. reflexivity. }
  2:{ right. right. injection X as ->. exists r, t, e'. auto 6. }
  injection X as X. rewrite <- X. cbn [bind]. clear E X.
  destruct (chain_may _ _ _ H) as [[lev [-> H1]]|[[e [-> ->]]| ->]]; [|left; reflexivity|right; left; reflexivity]. cbn [bind]. clear H.
  destruct (chain_may _ _ _ H1) as [[c [-> H2]]|[[e [-> ->]]| ->]]; [|left; reflexivity|right; left; reflexivity]. cbn [bind]. clear H1.
  destruct (chain_may _ _ _ H2) as [[s [-> H3]]|[[e [-> ->]]| ->]]; [|left; reflexivity|right; left; reflexivity]. cbn [bind]. clear H2.
  destruct H3 as [-> | ->]; auto.
Qed.

(** *** The program *)

Definition told (e : exn) : message := if is_invalid_argument e then InvalidArgumentError e else LogicError e.

Lemma main_short_of_memory srt w p e : sorts srt -> usable_files w -> main_scarce srt w p e ->
  (exists x, main srt w p = Ok x /\ e = Ends (Ok x)) \/
  ends_with e 1 (Some UnexpectedException) None \/
  (e = Aborts /\ (p = Repeated \/ p = Rejected)) \/
  (exists out txt, main srt w p = Ok (ends 0 None (Some (out, txt))) /\ ends_with e 1 (Some UnexpectedException) (Some (out, []))) \/
  (long_words w p /\ exists m, ends_with e 0 (Some m) None /\
     (m = InvalidArgumentError NotPgm \/ m = LogicError StoulRange \/ m = LogicError LengthError)).
Proof.
  intros Srt U [-> |H]; [right; left; reflexivity|]. destruct (main_total srt w p Srt U) as [x Ex].
  assert (Usual : e = Ends (main srt w p) -> exists x, main srt w p = Ok x /\ e = Ends (Ok x))
    by (intros ->; exists x; rewrite Ex; auto).
  destruct p as [o| |].
  2:{ destruct H as [-> | ->]; [left; apply Usual; reflexivity|auto 6]. }
  2:{ destruct H as [-> | ->]; [left; apply Usual; reflexivity|auto 6]. }
  unfold main in Usual.
  destruct (o_output o) as [out|] eqn:Eo; [destruct (o_left o) as [l|] eqn:El; [destruct (o_right o) as [r|] eqn:Er|]|].
  2-4: (left; unfold main; rewrite Eo; try rewrite El; try rewrite Er; apply Usual; revert H;
        repeat match goal with |- context[if ?b then _ else _] => destruct b end; intros ->; reflexivity).
  assert (Am : main srt w (Parsed o) = Ok x) by exact Ex.
  unfold main in Ex. rewrite Eo, El, Er in Ex.
  destruct (check_parallel (o_parallel o)) as [[]|[e'| |]] eqn:Ep.
  2-4: (left; exists x; split; [exact Am|]; rewrite <- Ex; exact H).
  destruct H as [y [Hm Hy]]. destruct (map_scarce _ _ _ _ _ _ U Hm) as [-> |[-> |[path [t [e' [Hp [Ft [Lw [Re ->]]]]]]]]].
  - destruct (map_cases srt w o l r Srt U) as [[img [Ei M]]|[e' Ee]].
    + rewrite Ei in Hy, Ex. destruct (map_writable w o l r img U M) as [txt Et].
      unfold output_scarce, finishes in Hy. cbn [bind] in Ex, Hy. destruct (writable w out).
      * destruct Hy as [-> | ->]; [|left; exists x; split; [exact Am|rewrite <- Ex; reflexivity]].
        right. right. right. left. rewrite Et in Ex. cbn [bind] in Ex. exists out, txt. split; [congruence|reflexivity].
      * left. exists x. split; [exact Am|]. rewrite <- Ex. exact Hy.
    + rewrite Ee in Hy, Ex. left. exists x. split; [exact Am|]. rewrite <- Ex. exact Hy.
  - right. left. exact Hy.
  - right. right. right. right. split.
    + exists o, path, t. split; [reflexivity|]. split; [destruct Hp as [-> | ->]; auto|]. auto.
    + exists (report e'). split; [exact Hy|]. destruct Re as [-> |[-> | ->]]; auto.
Qed.

(** Runs with enough memory are among them. *)
Lemma chain_ok {A B} (x : outcome A) (f : A -> outcome B) (R : result A -> Prop) (S : A -> result B -> Prop) :
  R (Gets x) -> (forall a, x = Ok a -> S a (Gets (f a))) -> chain R S (Gets (bind x f)).
Proof. intros Hx Hf. destruct x as [a|e]; [left; exists a; split; [exact Hx|apply Hf; reflexivity]|right; left; exists e; auto]. Qed.
Lemma may_gets {A} (x : outcome A) : may x (Gets x). Proof. left. reflexivity. Qed.
Lemma sure_gets {A} (x : outcome A) : sure x (Gets x). Proof. reflexivity. Qed.
Lemma may_first {A} (R : result A -> Prop) x : R x -> chain (may (Ok tt)) (fun _ => R) x.
Proof. intros H. left. exists tt. split; [apply may_gets|exact H]. Qed.

Lemma comments_enough fuel : forall c s, skip_comments_scarce fuel c s (Gets (skip_comments fuel c s)).
Proof.
  induction fuel as [|fuel IH]; intros c s; cbn [skip_comments_scarce skip_comments]; [reflexivity|].
  destruct (good s && starts_comment c).
  - destruct (failbit (ignore_line s)); [reflexivity|].
    left. exists (extract c (ignore_line s)). split; [left; reflexivity|].
    destruct (extract c (ignore_line s)) as [u s2]. apply IH.
  - destruct (starts_comment c); reflexivity.
Qed.
Lemma instruction_enough s : read_pgm_instruction_scarce s (Gets (read_pgm_instruction s)).
Proof.
  unfold read_pgm_instruction_scarce, read_pgm_instruction. destruct (failbit s); [reflexivity|].
  left. exists (extract [] s). split; [left; reflexivity|]. destruct (extract [] s) as [u s2]. apply comments_enough.
Qed.
Lemma number_enough s : read_number_scarce s (Gets (read_number s)).
Proof.
  unfold read_number_scarce, read_number. apply chain_ok; [apply instruction_enough|]. intros a _. apply may_gets.
Qed.
Lemma pixels_enough ps : forall img s, read_pixels_scarce img ps s (Gets (read_pixels img ps s)).
Proof.
  induction ps as [|p ps IH]; intros img s; cbn [read_pixels_scarce read_pixels]; [reflexivity|].
  apply chain_ok; [apply number_enough|]. intros [v s'] _. cbn [fst snd]. destruct v as [v|]; [|reflexivity].
  apply chain_ok; [apply sure_gets|]. intros d _. apply IH.
Qed.
Lemma image_enough s io : read_image_scarce s io (Gets (read_image s io)).
Proof.
  unfold read_image_scarce, read_image. apply chain_ok; [apply instruction_enough|]. intros [u s1] _. cbn [fst snd].
  destruct (list_eq_dec ascii_dec u FORMAT_CODE); cbn [negb]; [|reflexivity]. apply may_first.
  apply chain_ok; [apply number_enough|]. intros [[wd|] s2] _; cbn [fst snd]; [|reflexivity].
  apply chain_ok; [apply number_enough|]. intros [[ht|] s3] _; cbn [fst snd]; [|reflexivity].
  apply chain_ok; [apply number_enough|]. intros [[mx|] s4] _; cbn [fst snd]; [|reflexivity].
  destruct (MAX_VALUE_LIMIT <? mx); [reflexivity|]. apply chain_ok; [apply may_gets|]. intros d _. cbv zeta.
  apply chain_ok; [apply pixels_enough|]. intros [[img|] s5] _; cbn [fst snd]; [|reflexivity].
  apply chain_ok; [apply sure_gets|]. intros s6 _. reflexivity.
Qed.
Lemma file_enough w path : read_file_scarce w path (Gets (read_file w path)).
Proof.
  unfold read_file_scarce, read_file. destruct (files w path) as [t|]; [|apply may_gets]. apply may_first.
  apply chain_ok; [apply image_enough|]. intros r _. apply may_gets.
Qed.
Lemma map_enough srt w o l r : disparity_map_scarce srt w o l r (Gets (disparity_map_of srt w o l r)).
Proof.
  unfold disparity_map_scarce, disparity_map_of. apply chain_ok; [apply file_enough|]. intros il _.
  apply chain_ok; [apply file_enough|]. intros ir _. do 3 (apply chain_ok; [apply may_gets|]; intros ? _). apply may_gets.
Qed.
Lemma main_enough srt w p : main_scarce srt w p (Ends (main srt w p)).
Proof.
  right. unfold main. destruct p as [o| |]; [|left; reflexivity..].
  destruct (o_output o), (o_left o), (o_right o);
    try (repeat match goal with |- context[if ?b then _ else _] => destruct b end; reflexivity).
  destruct (check_parallel (o_parallel o)) as [[]|[e'| |]]; try reflexivity.
  eexists. split; [apply map_enough|].
  destruct (disparity_map_of srt w o _ _) as [img|s]; [|reflexivity].
  unfold output_scarce, finishes. cbn [bind]. destruct (writable w _); [right|]; reflexivity.
Qed.
