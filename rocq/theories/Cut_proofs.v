(** Texts of images that are cut off. *)
From Coq Require Import Lia String.
From Verif Require Export Disk_spec Pgm_proofs.
Local Open Scope N_scope.

(** *** Tokens of the first part of a text *)

Inductive cut_tokens : list text -> list text -> Prop :=
| cut_none ts : cut_tokens ts []
| cut_inside t u ts : t <> [] -> cut_tokens ((t ++ u) :: ts) [t]
| cut_after t ts ts' : cut_tokens ts ts' -> cut_tokens (t :: ts) (t :: ts').

Lemma gap_spaces g : gap g -> ~ In hash g -> forall c, In c g -> space c.
Proof.
  intros H. induction H as [|c g Hc H IH|body g Hb H IH]; intros N x Hx.
  - destruct Hx.
  - destruct Hx as [<-|Hx]; [exact Hc|]. apply IH; [|exact Hx]. intros X. apply N. right. exact X.
  - exfalso. apply N. left. reflexivity.
Qed.
Lemma spaces_gap g : (forall c, In c g -> space c) -> gap g.
Proof.
  induction g as [|c g IH]; intros H; [constructor|]. constructor; [apply H; left; reflexivity|].
  apply IH. intros x Hx. apply H. right. exact Hx.
Qed.
Lemma gap_prefix g a b : gap g -> ~ In hash g -> g = a ++ b -> gap a.
Proof. intros H N ->. apply spaces_gap. intros c Hc. apply (gap_spaces _ H N). apply in_or_app. left. exact Hc. Qed.

Lemma token_prefix t u : token (t ++ u) -> t <> [] -> token t.
Proof.
  intros [_ [H1 H2]] Hne. split; [exact Hne|]. split; [intros c Hc; apply H1; apply in_or_app; left; exact Hc|].
  destruct t; [contradiction|]. exact H2.
Qed.

(** Two ways to divide a text. *)
Lemma app_cases {A} (a b c d : list A) : a ++ b = c ++ d ->
  (exists e, c = a ++ e /\ b = e ++ d) \/ (exists e, a = c ++ e /\ d = e ++ b /\ e <> []).
Proof.
  revert c. induction a as [|x a IH]; intros c E.
  - left. exists c. auto.
  - destruct c as [|y c]; cbn [app] in E.
    + right. exists (x :: a). split; [reflexivity|]. split; [symmetry; exact E|discriminate].
    + injection E as <- E. destruct (IH c E) as [[e [-> ->]]|[e [-> [-> Hne]]]]; [left|right]; exists e; auto.
Qed.

Lemma laid_cut ts t : laid_out ts t -> ~ In hash t -> forall a b, t = a ++ b -> exists ts', laid_out ts' a /\ cut_tokens ts ts'.
Proof.
  intros L. induction L as [e He|g t Hg Ht|g t c ts r Hg Ht Hc L IH]; intros N a b E.
  - exists []. split; [|constructor]. apply laid_end, ending_gap. destruct He as [g Hg|g body Hg Hb].
    + exact (gap_prefix g a b Hg N E).
    + exfalso. apply N. apply in_or_app. right. left. reflexivity.
  - assert (Ng : ~ In hash g) by (intros X; apply N; apply in_or_app; left; exact X).
    destruct (app_cases _ _ _ _ E) as [[e [-> ->]]|[e [-> [Ee _]]]].
    + destruct e as [|x e].
      * exists []. split; [|constructor]. rewrite app_nil_r. apply laid_end, ending_gap. exact Hg.
      * exists [x :: e]. split; [|apply cut_inside; discriminate]. apply laid_last; [exact Hg|]. apply (token_prefix _ b); [exact Ht|discriminate].
    + exists []. split; [|constructor]. apply laid_end, ending_gap. exact (gap_prefix _ a e Hg Ng eq_refl).
  - assert (Ng : ~ In hash g) by (intros X; apply N; apply in_or_app; left; exact X).
    assert (Nr : ~ In hash r) by (intros X; apply N; apply in_or_app; right; apply in_or_app; right; right; exact X).
    destruct (app_cases _ _ _ _ E) as [[e [-> Ee]]|[e [-> [Ee _]]]].
    + destruct (app_cases _ _ _ _ Ee) as [[e' [-> Ee']]|[e' [-> [Ee' Hne]]]].
      * destruct e' as [|x e']; cbn [app] in Ee'.
        -- rewrite app_nil_r. exists [t]. split; [apply laid_last; assumption|].
           rewrite <- (app_nil_r t) at 1. apply cut_inside. apply Ht.
        -- injection Ee' as <- Er. destruct (IH Nr e' b Er) as [ts' [L' C]].
           exists (t :: ts'). split; [apply laid_token; assumption|]. constructor. exact C.
      * destruct e as [|x e].
        -- exists []. split; [|constructor]. rewrite app_nil_r. apply laid_end, ending_gap. exact Hg.
        -- exists [x :: e]. split; [|apply cut_inside; discriminate]. apply laid_last; [exact Hg|]. apply (token_prefix _ e'); [exact Ht|discriminate].
    + exists []. split; [|constructor]. apply laid_end, ending_gap. exact (gap_prefix _ a e Hg Ng eq_refl).
Qed.

(** *** Numbers *)

Lemma decimal_app a : forall acc b, decimal acc (a ++ b) = decimal (decimal acc a) b.
Proof. induction a as [|c a IH]; intros acc b; cbn [app decimal]; [reflexivity|]. apply IH. Qed.
Lemma decimal_div b : (forall c, In c b -> is_digit c = true) -> forall acc, decimal acc b / 10 ^ len b = acc.
Proof.
  induction b as [|c b IH] using rev_ind; intros H acc.
  - cbn [decimal]. change (10 ^ len (@nil ascii)) with 1. apply N.div_1_r.
  - destruct (is_digit_inv c) as [d [Hd ->]]; [apply H; apply in_or_app; right; left; reflexivity|].
    rewrite decimal_snoc by exact Hd. unfold len. rewrite app_length. cbn [length].
    replace (N.of_nat (length b + 1)) with (1 + len b) by (unfold len; lia). rewrite N.pow_add_r, N.pow_1_r.
    rewrite <- N.div_div by (try apply N.pow_nonzero; lia).
    replace ((decimal acc b * 10 + d) / 10) with (decimal acc b).
    + apply IH. intros x Hx. apply H. apply in_or_app. left. exact Hx.
    + symmetry. rewrite N.add_comm, N.div_add by lia. rewrite N.div_small by exact Hd. reflexivity.
Qed.
Lemma numeral_cut t u v : numeral (t ++ u) v -> t <> [] -> numeral t (v / 10 ^ len u).
Proof.
  intros H Hne. destruct (numeral_decimal _ _ H) as [_ [D <-]]. rewrite decimal_app, decimal_div by (intros c Hc; apply D; apply in_or_app; right; exact Hc).
  apply decimal_numeral; [exact Hne|]. intros c Hc. apply D. apply in_or_app. left. exact Hc.
Qed.
Lemma numeral_reads l v : numeral l v -> v < 2 ^ 64 -> reads_as l v.
Proof.
  intros H Hv. exists false, v. split; [|split; [exact Hv|reflexivity]]. exists [], l. split; [reflexivity|].
  split; [exists l, []; rewrite app_nil_r; split; [reflexivity|split; [exact H|discriminate]]|]. right. auto.
Qed.
Lemma cut_small v k : v / 10 ^ k <= v.
Proof. apply N.div_le_upper_bound; [apply N.pow_nonzero; lia|]. assert (0 < 10 ^ k) by (apply N.neq_0_lt_0, N.pow_nonzero; lia). nia. Qed.

(** The numbers of the first tokens; the last one may have lost digits. *)
Inductive cut_numbers : N -> list N -> list N -> Prop :=
| numbers_none vs : cut_numbers 0 vs []
| numbers_inside k v vs : cut_numbers k (v :: vs) [v / 10 ^ k]
| numbers_after k v vs vs' : cut_numbers k vs vs' -> cut_numbers k (v :: vs) (v :: vs').

(** The number of characters of some tokens. *)
Fixpoint total (ts : list text) : N := match ts with [] => 0 | t :: r => len t + total r end.
Lemma total_app a b : total (a ++ b) = total a + total b.
Proof. induction a as [|t a IH]; cbn [app total]; lia. Qed.

Lemma cut_read vs : forall ts', (forall v, In v vs -> v < 2 ^ 64) -> cut_tokens (map digits vs) ts' ->
  exists vs' k, Forall2 reads_as ts' vs' /\ cut_numbers k vs vs' /\
    (length vs' = length vs -> vs <> [] -> total (map digits vs) = total ts' + k /\ k < len (digits (last vs 0))).
Proof.
  induction vs as [|v vs IH]; intros ts' H C; cbn [map] in C.
  - inversion C; subst. exists [], 0. split; [constructor|]. split; [constructor|]. intros _ X. contradiction.
  - inversion C as [l El Et|t u l Hne El Et|t l ts1 C1 El Et].
    + exists [], 0. split; [constructor|]. split; [constructor|]. discriminate.
    + assert (Ed : digits v = t ++ u) by congruence.
      exists [v / 10 ^ len u], (len u). split; [|split].
      * constructor; [|constructor]. apply numeral_reads; [apply numeral_cut; [|exact Hne]|].
        -- rewrite <- Ed. apply digits_numeral.
        -- pose proof (cut_small v (len u)). specialize (H v (or_introl eq_refl)). lia.
      * constructor.
      * intros L _. destruct vs; [|discriminate L]. cbn [map total last]. rewrite Ed. unfold len. rewrite app_length.
        destruct t; [contradiction|]. cbn [length]. lia.
    + destruct (IH ts1 (fun x Hx => H x (or_intror Hx)) C1) as [vs' [k [F [C' T']]]].
      exists (v :: vs'), k. split; [constructor; [|exact F]; apply digits_reads, H; left; reflexivity|].
      split; [constructor; exact C'|]. intros L _. injection L as L. cbn [map total].
      destruct vs as [|v1 vs].
      * destruct vs'; [|discriminate]. inversion F; subst. inversion C'; subst. cbn [map total last].
        pose proof (proj1 (digits_token v)). destruct (digits v); [contradiction|]. unfold len. cbn [length]. lia.
      * destruct (T' L ltac:(discriminate)) as [T1 T2]. split; [lia|exact T2].
Qed.
Lemma cut_length k vs vs' : cut_numbers k vs vs' -> (length vs' <= length vs)%nat.
Proof. intros C. induction C as [vs|k v vs|k v vs vs' C IH]; cbn [length]; lia. Qed.
Lemma cut_full k vs vs' : cut_numbers k vs vs' -> length vs' = length vs -> vs <> [] ->
  exists before x, vs = before ++ [x] /\ vs' = before ++ [x / 10 ^ k].
Proof.
  intros C. induction C as [vs|k v vs|k v vs vs' C IH]; cbn [length]; intros L Hne.
  - destruct vs; [contradiction|discriminate].
  - destruct vs; [|discriminate]. exists [], v. auto.
  - destruct vs as [|w vs].
    + destruct vs'; [|discriminate]. inversion C; subst. exists [], v. rewrite N.pow_0_r, N.div_1_r. auto.
    + destruct (IH ltac:(cbn [length] in *; lia) ltac:(discriminate)) as [b [x [E1 E2]]]. exists (v :: b), x.
      rewrite E1, E2. auto.
Qed.
Lemma cut_short ts ts' : cut_tokens ts ts' -> (length ts' < length ts)%nat -> total ts' + len (last ts []) <= total ts.
Proof.
  assert (Last : forall t l, total (t :: l) >= len (last (t :: l) [])).
  { intros t l. revert t. induction l as [|t1 l IH]; intros t; [cbn [total last]; lia|].
    change (last (t :: t1 :: l) []) with (last (t1 :: l) []). specialize (IH t1). cbn [total] in *. lia. }
  intros C. induction C as [ts|t u ts Hne|t ts ts' C IH]; cbn [length]; intros L.
  - destruct ts as [|t1 ts]; [cbn [length] in L; lia|]. specialize (Last t1 ts). change (total []) with 0. lia.
  - destruct ts as [|t1 ts]; [cbn [length] in L; lia|]. specialize (Last t1 ts).
    change (last ((t ++ u) :: t1 :: ts) []) with (last (t1 :: ts) []). cbn [total] in *. unfold len in *. rewrite app_length. lia.
  - destruct ts as [|t1 ts]; [cbn [length] in L; lia|]. change (last (t :: t1 :: ts) []) with (last (t1 :: ts) []).
    specialize (IH ltac:(lia)). cbn [total] in *. lia.
Qed.
Lemma cut_fewer ts ts' : cut_tokens ts ts' -> (length ts' <= length ts)%nat.
Proof. intros C. induction C as [ts|t u ts Hne|t ts ts' C IH]; cbn [length]; lia. Qed.

(** *** Characters that are not white space *)

Definition solid (t : text) : N := len (filter (fun c => negb (is_space c)) t).
Lemma solid_app a b : solid (a ++ b) = solid a + solid b.
Proof. unfold solid, len. rewrite filter_app, app_length. lia. Qed.
Lemma solid_spaces g : (forall c, In c g -> space c) -> solid g = 0.
Proof.
  induction g as [|c g IH]; intros H; [reflexivity|]. unfold solid. cbn [filter].
  rewrite (proj2 (space_iff c) (H c (or_introl eq_refl))). apply IH. intros x Hx. apply H. right. exact Hx.
Qed.
Lemma solid_token t : (forall c, In c t -> ~ space c) -> solid t = len t.
Proof.
  intros H. unfold solid. f_equal. induction t as [|c t IH]; [reflexivity|]. cbn [filter].
  destruct (is_space c) eqn:E; [exfalso; apply (H c (or_introl eq_refl)); apply space_iff; exact E|].
  cbn [negb]. f_equal. apply IH. intros x Hx. apply H. right. exact Hx.
Qed.
Lemma laid_solid ts t : laid_out ts t -> ~ In hash t -> solid t = total ts.
Proof.
  intros L. induction L as [e He|g t Hg Ht|g t c ts r Hg Ht Hc L IH]; intros N.
  - destruct He as [g Hg|g body Hg Hb]; [|exfalso; apply N; apply in_or_app; right; left; reflexivity].
    apply solid_spaces. exact (gap_spaces g Hg N).
  - rewrite solid_app, (solid_spaces g), (solid_token t); [cbn [total]; lia|apply Ht|].
    apply gap_spaces; [exact Hg|]. intros X; apply N; apply in_or_app; left; exact X.
  - rewrite !solid_app, (solid_spaces g), (solid_token t); [|apply Ht|].
    + change (c :: r) with ([c] ++ r). rewrite solid_app, (solid_spaces [c]) by (intros x [<-|[]]; exact Hc).
      rewrite IH; [cbn [total]; lia|]. intros X; apply N; apply in_or_app; right; apply in_or_app; right; right; exact X.
    + apply gap_spaces; [exact Hg|]. intros X; apply N; apply in_or_app; left; exact X.
Qed.

(** *** The text of an image *)

Lemma no_hash_app (a b : text) : ~ In hash a -> ~ In hash b -> ~ In hash (a ++ b).
Proof. intros H1 H2 X. apply in_app_or in X. destruct X; auto. Qed.
Lemma digits_no_hash n : ~ In hash (digits n).
Proof.
  intros X. destruct (numeral_decimal _ _ (digits_numeral n)) as [_ [D _]]. specialize (D _ X). discriminate.
Qed.
Lemma text_no_hash img : ~ In hash (header_text img ++ concat (map (row_text img) (range 0 (height img)))).
Proof.
  assert (S : forall x, ~ In hash (separator img x)).
  { intros x. unfold separator. destruct (_ || _), (x + 1 <? width img); cbn [In]; intuition discriminate. }
  apply no_hash_app.
  - unfold header_text. repeat apply no_hash_app; try apply digits_no_hash; intros H; repeat (destruct H as [H|H]; [discriminate|]); destruct H.
  - intros H. apply in_concat in H. destruct H as [row [Hr H]]. apply in_map_iff in Hr. destruct Hr as [y [<- _]].
    revert H. unfold row_text. apply no_hash_app; [|intros [H|[]]; discriminate].
    intros H. apply in_concat in H. destruct H as [cell [Hx H]]. apply in_map_iff in Hx. destruct Hx as [x [<- _]].
    revert H. apply no_hash_app; [apply digits_no_hash|apply S].
Qed.

Definition image_words (img : image) : list text :=
  FORMAT_CODE :: digits (width img) :: digits (height img) :: digits (max_value img) :: map digits (data img).

Lemma cut_words img txt kept lost : valid_image img -> consistent_image img -> width img * height img < 2 ^ 32 -> max_value img < 2 ^ 64 ->
  write_image [] (Some img) = Ok txt -> txt = kept ++ lost ->
  exists ts', laid_out ts' kept /\ cut_tokens (image_words img) ts' /\ laid_out (image_words img) txt /\ ~ In hash txt /\
  ((length ts' < length (image_words img))%nat /\ rejects kept \/ 65536 < max_value img /\ rejects kept \/
   max_value img <= 65536 /\
   exists before x k, data img = before ++ [x] /\ reads_image kept (replaced_data img (before ++ [x / 10 ^ k])) /\
     total (image_words img) = total ts' + k /\ k < len (digits x)).
Proof.
  intros Hv Hc Hw Hmx Et Ek. rewrite (written img Hv Hc Hw) in Et. injection Et as Et. cbn [app] in Et.
  pose proof (sides img Hv Hw) as [S1 S2].
  assert (L : laid_out (image_words img) txt)
    by (rewrite <- Et; apply laid_text; [exact Hc|lia]).
  assert (Nh : ~ In hash txt) by (rewrite <- Et; apply text_no_hash).
  destruct (laid_cut _ _ L Nh kept lost Ek) as [ts' [L' C]].
  exists ts'. split; [exact L'|]. split; [exact C|]. split; [exact L|]. split; [exact Nh|].
  pose proof Hv as [V1 [V2 [V3 V4]]].
  assert (D : forall v, In v (width img :: height img :: max_value img :: data img) -> v < 2 ^ 64).
  { intros v [<-|[<-|[<-|H]]]; [lia|lia|exact Hmx|]. specialize (V4 v H). lia. }
  assert (Rj : defect ts' -> rejects kept) by (intros X io; exact (read_defective ts' kept io L' X)).
  assert (Pos : 0 < width img * height img) by nia.
  assert (Lw : length (image_words img) = (4 + length (data img))%nat) by (unfold image_words; cbn [length]; rewrite map_length; reflexivity).
  assert (Ld : (0 < length (data img))%nat) by (unfold consistent_image, len in Hc; lia).
  rewrite Lw. clear Lw.
  inversion C as [|t u ts Hne E|t ts ts1 C1 E]; subst ts'; cbn [length].
  - left. split; [cbn [length]; lia|]. apply Rj, bad_magic. discriminate.
  - left. split; [cbn [length]; lia|]. apply Rj. destruct (list_eq_dec ascii_dec t magic) as [->|X]; [apply bad_width; left; reflexivity|].
    apply bad_magic. cbn [hd_error]. congruence.
  - change (digits (width img) :: digits (height img) :: digits (max_value img) :: map digits (data img))
      with (map digits (width img :: height img :: max_value img :: data img)) in C1.
    destruct (cut_read _ ts1 D C1) as [vs' [k [F [Cv Tk]]]]. clear C C1 L Nh.
    inversion Cv as [vs|k0 v vs|k0 v0 vs vs1 Cv1]; subst vs'; clear Cv.
    { inversion F; subst. left. split; [cbn [length]; lia|]. apply Rj, bad_width. left. reflexivity. }
    { inversion F as [|tw w0 ts2 vs2 Rw F2]; subst. inversion F2; subst. left. split; [cbn [length]; lia|]. apply Rj, (bad_height tw _ _ Rw). left. reflexivity. }
    inversion F as [|tw w0 ts2 vs2 Rw F2]; subst. clear F.
    inversion Cv1 as [vs|k0 v vs|k0 v0 vs vs2 Cv2]; subst vs1; clear Cv1.
    { inversion F2; subst. left. split; [cbn [length]; lia|]. apply Rj, (bad_height tw _ _ Rw). left. reflexivity. }
    { inversion F2 as [|th h0 ts3 vs3 Rh F3]; subst. inversion F3; subst. left. split; [cbn [length]; lia|]. apply Rj, (bad_max tw _ th _ _ Rw Rh). left. reflexivity. }
    inversion F2 as [|th h0 ts3 vs3 Rh F3]; subst. clear F2.
    assert (Fit : (width img * height img) mod 2 ^ 64 = width img * height img) by (apply N.mod_small; lia).
    assert (Vm : width img * height img <= vector_max_size) by (unfold vector_max_size; lia).
    inversion Cv2 as [vs|k0 v vs|k0 v0 vs vs3 Cv3]; subst vs2; clear Cv2.
    { inversion F3; subst. left. split; [cbn [length]; lia|]. apply Rj, (bad_max tw _ th _ _ Rw Rh). left. reflexivity. }
    { inversion F3 as [|tm m0 ts4 vs4 Rm F4]; subst. inversion F4; subst. left. split; [cbn [length]; lia|].
      destruct (N.le_gt_cases (max_value img / 10 ^ k) 65536) as [B|B].
      - apply Rj. apply (bad_pixel (width img) (height img) (max_value img / 10 ^ k) [] [] []); try assumption; try apply Forall2_nil; try (rewrite Fit; assumption).
        + exists tw, th, tm. auto.
        + left. reflexivity.
        + apply N.le_0_l.
      - apply Rj. apply (high_max (width img) (height img) (max_value img / 10 ^ k) []); [|lia]. exists tw, th, tm. auto. }
    inversion F3 as [|tm m0 ts4 vs4 Rm F4]; subst. clear F3.
    destruct (N.le_gt_cases (max_value img) 65536) as [B|B].
    2: { right. left. split; [exact B|]. apply Rj. apply (high_max (width img) (height img) (max_value img) ts4); [|lia]. exists tw, th, tm. auto. }
    pose proof (cut_length _ _ _ Cv3) as Lc. pose proof (Forall2_len _ _ _ F4) as Lf. unfold consistent_image, len in Hc, Lf.
    destruct (Nat.eq_dec (length vs3) (length (data img))) as [Eq|Nq].
    + right. right. split; [exact B|].
      destruct (cut_full _ _ _ Cv3 Eq) as [before [x [Ed Ev]]]; [intros X; rewrite X in Ld; cbn [length] in Ld; lia|].
      exists before, x, k. split; [exact Ed|]. rewrite <- Ev. unfold replaced_data. split.
      2: { destruct Tk as [T1 T2]; [cbn [length]; lia|discriminate|]. unfold image_words. cbn [total map] in *.
           split; [match goal with |- _ + ?r = _ + ?s + k => change (2 + r = 2 + s + k) end; lia|].
           rewrite Ed in T2.
           replace (last (width img :: height img :: max_value img :: before ++ [x]) 0) with x in T2; [exact T2|].
           change (width img :: height img :: max_value img :: before ++ [x]) with ((width img :: height img :: max_value img :: before) ++ [x]).
           symmetry. apply last_last. }
      intros io. apply (read_layout (magic :: tw :: th :: tm :: ts4) kept); [exact L'| |exact Vm].
      exists ts4. cbn [width height max_value data]. rewrite app_nil_r. split; [exists tw, th, tm; auto|]. split; [exact B|]. split; [exact F4|].
      unfold consistent_image, len. cbn [width height data]. rewrite Eq. exact Hc.
    + left. split; [cbn [length]; lia|]. apply Rj. apply (bad_pixel (width img) (height img) (max_value img) ts4 vs3 []); try assumption.
      * rewrite app_nil_r. exists tw, th, tm. auto.
      * unfold len. lia.
      * left. reflexivity.
      * rewrite Fit. exact Vm.
      * rewrite Fit. unfold len. lia.
Qed.

(** *** The last number *)

Lemma digits_many n : forall k, k < len (digits n) <-> k = 0 \/ 10 ^ k <= n.
Proof.
  intros k. split.
  - intros H. destruct (N.eq_dec k 0) as [->|Hk]; [left; reflexivity|right].
    destruct (N.le_gt_cases (10 ^ k) n) as [|B]; [assumption|]. pose proof (digits_length n k B). lia.
  - intros H. destruct (N.lt_ge_cases k (len (digits n))) as [|B]; [assumption|exfalso].
    pose proof (proj1 (digits_token n)) as Hne. destruct (numeral_decimal _ _ (digits_numeral n)) as [_ [D En]].
    assert (Lt : n / 10 ^ len (digits n) = 0) by (rewrite <- En at 1; apply decimal_div; exact D).
    apply N.div_small_iff in Lt; [|apply N.pow_nonzero; lia].
    pose proof (N.pow_le_mono_r 10 (len (digits n)) k ltac:(lia) B).
    destruct H as [->|H]; [|lia]. destruct (digits n); [contradiction|]. unfold len in B. cbn [length] in B. lia.
Qed.

Lemma range_last n : 0 < n -> range 0 n = range 0 (n - 1) ++ [n - 1].
Proof.
  intros H. rewrite (range_split 0 (n - 1) n) by lia. f_equal. rewrite range_cons by lia. rewrite range_nil by lia. reflexivity.
Qed.
Lemma text_last img before x : valid_image img -> consistent_image img -> data img = before ++ [x] ->
  exists a, header_text img ++ concat (map (row_text img) (range 0 (height img))) = a ++ digits x ++ [newline].
Proof.
  intros [V1 [V2 _]] Hc Ed.
  assert (Ex : intensity img (width img - 1) (height img - 1) = x).
  { unfold intensity. rewrite Ed. unfold consistent_image, len in Hc. rewrite Ed, app_length in Hc. cbn [length] in Hc.
    replace (N.to_nat (width img * (height img - 1) + (width img - 1))) with (length before) by nia. apply nth_middle. }
  rewrite (range_last (height img)) by exact V2. rewrite map_app, concat_app. cbn [map concat]. rewrite app_nil_r.
  unfold row_text at 2. rewrite (range_last (width img)) by exact V1. rewrite map_app, concat_app. cbn [map concat]. rewrite app_nil_r, Ex.
  replace (separator img (width img - 1)) with (@nil ascii).
  - rewrite app_nil_r. eexists. rewrite !app_assoc. reflexivity.
  - unfold separator. replace (width img - 1 + 1) with (width img) by lia. rewrite N.ltb_irrefl. destruct (_ || _); reflexivity.
Qed.

Lemma solid_end a d kept lost : (forall c, In c d -> ~ space c) -> a ++ d ++ [newline] = kept ++ lost ->
  (len lost <= len d + 1 -> solid lost = len lost - 1) /\ (len d < len lost -> len d <= solid lost).
Proof.
  intros Hd E. destruct lost as [|c0 l0] eqn:E0; [split; intros H; [reflexivity|unfold len in H; cbn [length] in H; lia]|].
  assert (Hne : lost <> []) by (rewrite E0; discriminate). rewrite <- E0 in *. clear c0 l0 E0.
  rewrite app_assoc in E. destruct (exists_last Hne) as [l [c ->]]. rewrite app_assoc in E.
  apply app_inj_tail in E. destruct E as [E <-].
  assert (S1 : solid (l ++ [newline]) = solid l).
  { rewrite solid_app, (solid_spaces [newline]); [lia|]. intros x [<-|[]]. exact space_newline. }
  rewrite S1. unfold len. rewrite app_length. cbn [length]. destruct (app_cases _ _ _ _ E) as [[e [_ ->]]|[e [_ [-> He]]]].
  - rewrite solid_token by (intros x Hx; apply Hd; apply in_or_app; right; exact Hx). rewrite app_length. unfold len. split; intros H; lia.
  - rewrite solid_app, (solid_token d Hd). rewrite app_length. unfold len. split; intros H; [|lia].
    destruct e; [contradiction|cbn [length] in H; lia].
Qed.

Lemma cut_image img txt kept lost before x :
  valid_image img -> consistent_image img -> width img * height img < 2 ^ 32 -> max_value img < 2 ^ 64 ->
  write_image [] (Some img) = Ok txt -> txt = kept ++ lost -> data img = before ++ [x] ->
  (max_value img <= 65536 -> len lost <= 1 \/ 10 ^ (len lost - 1) <= x ->
   reads_image kept (replaced_data img (before ++ [x / 10 ^ (len lost - 1)]))) /\
  (65536 < max_value img \/ 1 < len lost /\ x < 10 ^ (len lost - 1) -> rejects kept).
Proof.
  intros Hv Hc Hw Hm Et Ek Ed.
  destruct (cut_words img txt kept lost Hv Hc Hw Hm Et Ek) as [ts' [L' [C [L [Nh Cases]]]]].
  pose proof Et as Et'. rewrite (written img Hv Hc Hw) in Et'. injection Et' as Et'. cbn [app] in Et'.
  destruct (text_last img before x Hv Hc Ed) as [a Ea].
  assert (Nd : forall c, In c (digits x) -> ~ space c) by apply (digits_token x).
  destruct (solid_end a (digits x) kept lost Nd) as [F1 F2]; [transitivity txt; [rewrite <- Ea; exact Et'|exact Ek]|].
  assert (Nk : ~ In hash kept) by (intros X; apply Nh; rewrite Ek; apply in_or_app; left; exact X).
  pose proof (laid_solid _ _ L Nh) as T1. pose proof (laid_solid _ _ L' Nk) as T2. rewrite Ek, solid_app in T1.
  assert (Lw : last (image_words img) [] = digits x).
  { unfold image_words. rewrite Ed, map_app. cbn [map].
    change (FORMAT_CODE :: digits (width img) :: digits (height img) :: digits (max_value img) :: map digits before ++ [digits x])
      with ((FORMAT_CODE :: digits (width img) :: digits (height img) :: digits (max_value img) :: map digits before) ++ [digits x]).
    apply last_last. }
  pose proof (digits_many x (len lost - 1)) as Dm.
  split.
  - intros B H. assert (H' : len lost - 1 < len (digits x)) by (apply Dm; lia). clear Dm.
    destruct Cases as [[Sh _]|[[X _]|[_ [bf [z [k [Ez [R [T3 T4]]]]]]]]]; [|lia|].
    + pose proof (cut_short _ _ C Sh) as X. rewrite Lw in X. specialize (F1 ltac:(lia)). lia.
    + rewrite Ed in Ez. apply app_inj_tail in Ez. destruct Ez as [<- <-].
      specialize (F1 ltac:(lia)). replace (len lost - 1) with k by lia. exact R.
  - intros H. destruct Cases as [[_ R]|[[_ R]|[B [bf [z [k [Ez [_ [T3 T4]]]]]]]]]; [exact R|exact R|exfalso].
    rewrite Ed in Ez. apply app_inj_tail in Ez. destruct Ez as [<- <-].
    destruct H as [H|[H1 H2]]; [lia|].
    assert (len (digits x) < len lost).
    { destruct (N.lt_ge_cases (len lost - 1) (len (digits x))) as [X|X]; [|lia]. apply Dm in X. lia. }
    specialize (F2 ltac:(assumption)). lia.
Qed.
