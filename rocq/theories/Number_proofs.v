(** Decimal numbers: lemmas. *)
From Coq Require Import Lia.
From Verif Require Export Lex_proofs.
Local Open Scope N_scope.

Lemma code_ascii n : n < 256 -> code (ascii_of_N n) = n.
Proof. apply N_ascii_embedding. Qed.
Lemma code_digit d : d < 10 -> code (digit d) = 48 + d.
Proof. intros H. apply code_ascii. lia. Qed.
Lemma digit_is d : d < 10 -> is_digit (digit d) = true.
Proof. intros H. unfold is_digit. rewrite code_digit by exact H. apply andb_true_intro. rewrite !N.leb_le. lia. Qed.
Lemma is_digit_inv c : is_digit c = true -> exists d, d < 10 /\ c = digit d.
Proof.
  unfold is_digit. intros H. apply andb_prop in H as [H1 H2]. apply N.leb_le in H1, H2.
  exists (code c - 48). split; [lia|]. unfold digit. replace (48 + (code c - 48)) with (code c) by lia.
  symmetry. apply ascii_N_embedding.
Qed.
Lemma digit_not_space d : d < 10 -> ~ space (digit d).
Proof. intros H. unfold space. rewrite code_digit by exact H. cbn [In]. lia. Qed.
Lemma digit_not_hash d : d < 10 -> digit d <> hash.
Proof. intros H E. apply (f_equal code) in E. rewrite code_digit in E by exact H. cbn in E. lia. Qed.

Lemma decimal_snoc l d acc : d < 10 -> decimal acc (l ++ [digit d]) = decimal acc l * 10 + d.
Proof.
  intros H. revert acc. induction l as [|c l IH]; intros acc; cbn [app decimal]; [|apply IH].
  rewrite code_digit by exact H. lia.
Qed.

Lemma numeral_decimal l v : numeral l v -> l <> [] /\ (forall c, In c l -> is_digit c = true) /\ decimal 0 l = v.
Proof.
  induction 1 as [d Hd|l v d Hl IH Hd].
  - split; [discriminate|]. split; [intros c [<-|[]]; apply digit_is; exact Hd|].
    change [digit d] with ([] ++ [digit d]). rewrite decimal_snoc by exact Hd. cbn [decimal]. lia.
  - destruct IH as [_ [A E]]. split; [destruct l; discriminate|]. split.
    + intros c Hc. apply in_app_or in Hc as [Hc|[<-|[]]]; [apply A; exact Hc|apply digit_is; exact Hd].
    + rewrite decimal_snoc by exact Hd. lia.
Qed.
Lemma decimal_numeral l : l <> [] -> (forall c, In c l -> is_digit c = true) -> numeral l (decimal 0 l).
Proof.
  induction l as [|c l IH] using rev_ind; [congruence|]. intros _ A.
  destruct (is_digit_inv c) as [d [Hd ->]]; [apply A, in_or_app; right; left; reflexivity|].
  rewrite decimal_snoc by exact Hd. destruct l as [|x l].
  - cbn [app decimal]. replace (0 * 10 + d) with d by lia. constructor; exact Hd.
  - rewrite N.mul_comm. apply numeral_more; [|exact Hd]. apply IH; [discriminate|].
    intros y Hy. apply A, in_or_app. left; exact Hy.
Qed.

Lemma take_while_app {A} (f : A -> bool) l r : (forall c, In c l -> f c = true) ->
  match r with [] => True | c :: _ => f c = false end -> take_while f (l ++ r) = l.
Proof.
  intros Hl Hr. induction l as [|c l IH]; cbn [app take_while].
  - destruct r as [|c r]; [reflexivity|]. cbn [take_while]. rewrite Hr. reflexivity.
  - rewrite (Hl c (or_introl eq_refl)), IH; [reflexivity|]. intros x Hx. apply Hl. right; exact Hx.
Qed.
Lemma take_while_prefix {A} (f : A -> bool) l : exists r, l = take_while f l ++ r /\ match r with [] => True | c :: _ => f c = false end.
Proof.
  induction l as [|c l IH]; cbn [take_while]; [exists []; split; [reflexivity|exact I]|].
  destruct (f c) eqn:E; [|exists (c :: l); split; [reflexivity|exact E]].
  destruct IH as [r [El Hr]]. exists r. split; [cbn [app]; congruence|exact Hr].
Qed.
Lemma take_while_all {A} (f : A -> bool) l c : In c (take_while f l) -> f c = true.
Proof.
  induction l as [|x l IH]; cbn [take_while]; [intros []|]. destruct (f x) eqn:E; [|intros []].
  intros [<-|H]; [exact E|apply IH; exact H].
Qed.

Lemma leading_iff t n : leading_numeral t n <-> take_while is_digit t <> [] /\ n = decimal 0 (take_while is_digit t).
Proof.
  split.
  - intros [l [junk [-> [Hl Hj]]]]. destruct (numeral_decimal l n Hl) as [Hn [A E]].
    rewrite take_while_app; [split; [exact Hn|congruence]|exact A|].
    destruct junk as [|c r]; [exact I|]. destruct (is_digit c) eqn:Ec; [|reflexivity].
    destruct (is_digit_inv c Ec) as [d [Hd ->]]. exfalso. exact (Hj d r Hd eq_refl).
  - intros [Hn ->]. destruct (take_while_prefix is_digit t) as [junk [Et Hj]].
    exists (take_while is_digit t), junk. split; [exact Et|]. split.
    + apply decimal_numeral; [exact Hn|]. intros c Hc. eapply take_while_all; exact Hc.
    + intros d r Hd ->. rewrite digit_is in Hj by exact Hd. discriminate.
Qed.

Definition stoul_value (neg : bool) (n : N) : outcome N :=
  if 2 ^ 64 <=? n then Stop (Throw StoulRange) else Ok (if neg then (2 ^ 64 - n) mod 2 ^ 64 else n).

Lemma signed_stoul t neg n : skip_space t = t -> signed_numeral t neg n -> stoul t = stoul_value neg n.
Proof.
  intros Hs [sign [r [Et [Hl Hsign]]]]. pose proof (proj1 (leading_iff r n) Hl) as [Hn E].
  unfold stoul. rewrite Hs.
  assert (X : (match t with c :: _ => code c =? 45 | [] => false end) = neg /\
              (match t with c :: r => if (code c =? 45) || (code c =? 43) then r else t | [] => [] end) = r).
  { destruct Hsign as [[-> ->]|[-> [-> | ->]]]; rewrite Et; [split; reflexivity| |split; reflexivity].
    destruct r as [|c r]; [cbn in Hn; congruence|]. cbn [app take_while] in *.
    destruct (is_digit c) eqn:Ec; [|congruence]. destruct (is_digit_inv c Ec) as [d [Hd ->]].
    rewrite code_digit by exact Hd.
    destruct (N.eqb_spec (48 + d) 45); [lia|]. destruct (N.eqb_spec (48 + d) 43); [lia|]. split; reflexivity. }
  destruct X as [-> ->]. unfold stoul_value. rewrite <- E.
  destruct (take_while is_digit r); [congruence|]. reflexivity.
Qed.

Lemma stoul_total t : skip_space t = t ->
  (exists neg n, signed_numeral t neg n) \/ (stoul t = Stop (Throw StoulInvalid) /\ not_number t).
Proof.
  intros Hs. destruct (stoul t) as [v|e] eqn:E.
  all: revert E; unfold stoul; rewrite Hs;
    set (neg := match t with c :: _ => code c =? 45 | [] => false end);
    set (r := match t with c :: r => if (code c =? 45) || (code c =? 43) then r else t | [] => [] end);
    destruct (is_empty (take_while is_digit r)) eqn:Ee; intros E.
  - discriminate.
  - left. exists neg, (decimal 0 (take_while is_digit r)).
    assert (L : leading_numeral r (decimal 0 (take_while is_digit r))) by (apply leading_iff; split; [intros X; rewrite X in Ee; discriminate|reflexivity]).
    unfold neg, r in *. destruct t as [|c t']; [discriminate Ee|].
    destruct (N.eqb_spec (code c) 45) as [Ec|Ec].
    { exists [ascii_of_N 45], t'. cbn [orb] in *. split; [|split; [exact L|left; split; reflexivity]].
      rewrite <- Ec. unfold code. rewrite ascii_N_embedding. reflexivity. }
    destruct (N.eqb_spec (code c) 43) as [Ec'|Ec'].
    { exists [ascii_of_N 43], t'. cbn [orb] in *. split; [|split; [exact L|right; split; [reflexivity|right; reflexivity]]].
      rewrite <- Ec'. unfold code. rewrite ascii_N_embedding. reflexivity. }
    exists [], (c :: t'). cbn [orb] in *. split; [reflexivity|]. split; [exact L|]. right. split; [reflexivity|left; reflexivity].
  - right. split; [congruence|]. intros neg' n H. pose proof (signed_stoul t neg' n Hs H) as X.
    unfold stoul in X. rewrite Hs in X. fold neg r in X. rewrite Ee in X. unfold stoul_value in X.
    destruct (2 ^ 64 <=? n); discriminate.
  - left. exists neg, (decimal 0 (take_while is_digit r)).
    assert (L : leading_numeral r (decimal 0 (take_while is_digit r))) by (apply leading_iff; split; [intros X; rewrite X in Ee; discriminate|reflexivity]).
    unfold neg, r in *. destruct t as [|c t']; [discriminate Ee|].
    destruct (N.eqb_spec (code c) 45) as [Ec|Ec].
    { exists [ascii_of_N 45], t'. cbn [orb] in *. split; [|split; [exact L|left; split; reflexivity]].
      rewrite <- Ec. unfold code. rewrite ascii_N_embedding. reflexivity. }
    destruct (N.eqb_spec (code c) 43) as [Ec'|Ec'].
    { exists [ascii_of_N 43], t'. cbn [orb] in *. split; [|split; [exact L|right; split; [reflexivity|right; reflexivity]]].
      rewrite <- Ec'. unfold code. rewrite ascii_N_embedding. reflexivity. }
    exists [], (c :: t'). cbn [orb] in *. split; [reflexivity|]. split; [exact L|]. right. split; [reflexivity|left; reflexivity].
Qed.

Lemma token_skip t : token t -> skip_space t = t.
Proof. intros H. destruct (token_word t [] H (or_introl eq_refl)) as [E _]. rewrite app_nil_r in E. exact E. Qed.

Lemma reads_stoul t v : skip_space t = t -> reads_as t v -> stoul t = Ok v.
Proof.
  intros Hs [neg [n [H [Hn ->]]]]. rewrite (signed_stoul t neg n Hs H). unfold stoul_value.
  destruct (N.leb_spec (2 ^ 64) n); [lia|reflexivity].
Qed.
Lemma range_stoul t : skip_space t = t -> out_of_range t -> stoul t = Stop (Throw StoulRange).
Proof.
  intros Hs [neg [n [H Hn]]]. rewrite (signed_stoul t neg n Hs H). unfold stoul_value.
  destruct (N.leb_spec (2 ^ 64) n); [reflexivity|lia].
Qed.
Lemma invalid_stoul t : skip_space t = t -> not_number t -> stoul t = Stop (Throw StoulInvalid).
Proof.
  intros Hs H. destruct (stoul_total t Hs) as [[neg [n X]]|[X _]]; [exfalso; exact (H neg n X)|exact X].
Qed.
Lemma stoul_cases t : skip_space t = t -> (exists v, reads_as t v) \/ out_of_range t \/ not_number t.
Proof.
  intros Hs. destruct (stoul_total t Hs) as [[neg [n X]]|[_ X]]; [|right; right; exact X].
  destruct (N.lt_ge_cases n (2 ^ 64)) as [L|L]; [left|right; left; exists neg, n; auto].
  eexists. exists neg, n. split; [exact X|]. split; [exact L|reflexivity].
Qed.
Lemma reads_fun t v v' : skip_space t = t -> reads_as t v -> reads_as t v' -> v = v'.
Proof. intros Hs H H'. apply (reads_stoul t v Hs) in H. apply (reads_stoul t v' Hs) in H'. congruence. Qed.

(** *** Printed numbers *)

Lemma digits_fuel_acc f : forall n acc, digits_fuel f n acc = digits_fuel f n [] ++ acc.
Proof.
  induction f as [|f IH]; intros n acc; cbn [digits_fuel]; [reflexivity|].
  destruct (n <? 10); [reflexivity|]. rewrite IH, (IH _ [digit (n mod 10)]), <- app_assoc. reflexivity.
Qed.
Lemma log2_div10 n : 10 <= n -> N.log2 (n / 10) < N.log2 n.
Proof.
  intros H. assert (H8 : N.log2 (n / 10) <= N.log2 (n / 2 ^ 1)).
  { apply N.log2_le_mono. change (2 ^ 1) with 2. apply N.div_le_compat_l. lia. }
  rewrite <- N.shiftr_div_pow2, N.log2_shiftr in H8. pose proof (N.log2_le_mono 2 n ltac:(lia)) as X. change (N.log2 2) with 1 in X. lia.
Qed.
Lemma digits_fuel_numeral f : forall n, (N.to_nat (N.log2 n) < f)%nat -> numeral (digits_fuel f n []) n.
Proof.
  induction f as [|f IH]; intros n L; [lia|]. cbn [digits_fuel].
  assert (Hm : n mod 10 < 10) by (apply N.mod_lt; lia).
  destruct (N.ltb_spec n 10) as [H|H].
  - rewrite N.mod_small by exact H. constructor; exact H.
  - rewrite digits_fuel_acc. rewrite (N.div_mod n 10) at 3 by lia.
    apply numeral_more; [|exact Hm]. apply IH. pose proof (log2_div10 n H). lia.
Qed.
Lemma digits_numeral n : numeral (digits n) n.
Proof. apply digits_fuel_numeral. lia. Qed.

Lemma digits_token n : token (digits n).
Proof.
  destruct (numeral_decimal _ _ (digits_numeral n)) as [Hn [A _]]. split; [exact Hn|]. split.
  - intros c Hc. destruct (is_digit_inv c (A c Hc)) as [d [Hd ->]]. apply digit_not_space; exact Hd.
  - destruct (digits n) as [|c r]; [congruence|]. cbn [hd_error].
    destruct (is_digit_inv c (A c (or_introl eq_refl))) as [d [Hd ->]]. intros X. injection X as X.
    exact (digit_not_hash d Hd X).
Qed.
Lemma digits_reads n : n < 2 ^ 64 -> reads_as (digits n) n.
Proof.
  intros H. exists false, n. split; [|split; [exact H|reflexivity]]. exists [], (digits n). split; [reflexivity|].
  split; [|right; split; [reflexivity|left; reflexivity]]. exists (digits n), []. rewrite app_nil_r.
  split; [reflexivity|]. split; [apply digits_numeral|]. discriminate.
Qed.

Lemma digits_length_fuel f : forall n k, (N.to_nat (N.log2 n) < f)%nat -> n < 10 ^ k -> 0 < k ->
  len (digits_fuel f n []) <= k.
Proof.
  induction f as [|f IH]; intros n k L H Hk; [lia|]. cbn [digits_fuel].
  destruct (N.ltb_spec n 10) as [Hn|Hn]; [rewrite len_cons, len_nil; lia|].
  rewrite digits_fuel_acc, len_app, len_cons, len_nil.
  assert (1 < k). { destruct (N.lt_ge_cases 1 k) as [|Hle]; [assumption|]. replace k with 1 in H by lia. change (10 ^ 1) with 10 in H. lia. }
  specialize (IH (n / 10) (k - 1)). assert (n / 10 < 10 ^ (k - 1)).
  { apply N.div_lt_upper_bound; [lia|]. rewrite <- N.pow_succ_r'. replace (N.succ (k - 1)) with k by lia. exact H. }
  pose proof (log2_div10 n Hn). specialize (IH ltac:(lia) ltac:(assumption) ltac:(lia)). lia.
Qed.
Lemma digits_length n k : n < 10 ^ k -> 0 < k -> len (digits n) <= k.
Proof. intros. apply digits_length_fuel; try assumption. lia. Qed.
Lemma digits_no_newline n : ~ In newline (digits n).
Proof.
  intros H. destruct (digits_token n) as [_ [S _]]. exact (S _ H space_newline).
Qed.
