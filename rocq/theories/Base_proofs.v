(** Lemmas about outcomes, arrays, ranges and loops. *)
From Coq Require Export Lia.
From Coq Require Export ZifyBool ZifyNat ZifyN.
From Verif Require Export Base Cmd.
Local Open Scope N_scope.
Ltac Zify.zify_post_hook ::= Z.div_mod_to_equations.

Arguments N.mul : simpl never.
Arguments N.add : simpl never.
Arguments N.sub : simpl never.
Arguments N.modulo : simpl never.
Arguments N.div : simpl never.
Arguments N.pow : simpl never.
Arguments N.of_nat : simpl never.
Arguments N.to_nat : simpl never.

(** ** Outcomes *)

Lemma bind_Ok {A B} (m : outcome A) (f : A -> outcome B) b :
  bind m f = Ok b <-> exists a, m = Ok a /\ f a = Ok b.
Proof.
  destruct m as [a|s]; cbn [bind]; split.
  - intros H; exists a; auto.
  - intros [a' [E H]]; injection E as <-; exact H.
  - discriminate.
  - intros [a' [E _]]; discriminate.
Qed.

Lemma bind_assoc {A B C} (m : outcome A) (f : A -> outcome B) (h : B -> outcome C) :
  bind (bind m f) h = bind m (fun a => bind (f a) h).
Proof. destruct m; reflexivity. Qed.

(** ** Arrays *)

Lemma len_nil {A} : len (@nil A) = 0. Proof. reflexivity. Qed.
Lemma len_cons {A} (x : A) l : len (x :: l) = len l + 1.
Proof. unfold len; cbn [length]; lia. Qed.
Lemma len_app {A} (l l' : list A) : len (l ++ l') = len l + len l'.
Proof. unfold len; rewrite app_length; lia. Qed.

Lemma get_spec {A} (l : list A) i v :
  get l i = Ok v <-> nth_error l (N.to_nat i) = Some v.
Proof.
  unfold get, len. destruct (N.ltb_spec i (N.of_nat (length l))) as [H|H].
  - destruct (nth_error l (N.to_nat i)) as [w|]; split; congruence.
  - split; [discriminate|]. intros E.
    assert (nth_error l (N.to_nat i) <> None) by congruence.
    apply nth_error_Some in H0. lia.
Qed.

Lemma get_in_bounds {A} (l : list A) i : i < len l -> exists v, get l i = Ok v.
Proof.
  intros H. destruct (nth_error l (N.to_nat i)) as [v|] eqn:E.
  - exists v. apply get_spec; exact E.
  - apply nth_error_None in E. unfold len in H. lia.
Qed.

Lemma get_Ok_lt {A} (l : list A) i v : get l i = Ok v -> i < len l.
Proof. unfold get. destruct (N.ltb_spec i (len l)); [auto|discriminate]. Qed.

Lemma get_oob {A} (l : list A) i : len l <= i -> get l i = Stop Undef.
Proof. intros H; unfold get. destruct (N.ltb_spec i (len l)); [lia|reflexivity]. Qed.

Lemma get_In {A} (l : list A) i v : get l i = Ok v -> In v l.
Proof. rewrite get_spec. apply nth_error_In. Qed.

Lemma In_get {A} (l : list A) v : In v l -> exists i, i < len l /\ get l i = Ok v.
Proof.
  intros H. apply In_nth_error in H. destruct H as [n E].
  assert (H : get l (N.of_nat n) = Ok v) by (apply get_spec; rewrite Nat2N.id; exact E).
  exists (N.of_nat n); split; [eapply get_Ok_lt; exact H | exact H].
Qed.

Lemma upd_length {A} (l : list A) i v : length (upd l i v) = length l.
Proof. revert i; induction l as [|x l IH]; intros [|i]; cbn; auto. Qed.

Lemma nth_error_upd {A} (l : list A) i j v :
  nth_error (upd l i v) j =
  if Nat.eqb j i then (if Nat.ltb j (length l) then Some v else None)
  else nth_error l j.
Proof.
  revert i j; induction l as [|x l IH]; intros [|i] [|j]; cbn [upd nth_error length Nat.eqb]; try reflexivity.
  - destruct (Nat.eqb j i); reflexivity.
  - rewrite IH. destruct (Nat.eqb j i); [|reflexivity].
    replace (Nat.ltb (S j) (S (length l))) with (Nat.ltb j (length l)); [reflexivity|].
    destruct (Nat.ltb_spec j (length l)), (Nat.ltb_spec (S j) (S (length l))); auto; lia.
Qed.

Lemma set_in_bounds {A} (l : list A) i v :
  i < len l -> set l i v = Ok (upd l (N.to_nat i) v).
Proof. intros H; unfold set. destruct (N.ltb_spec i (len l)); [reflexivity|lia]. Qed.

Lemma set_Ok {A} (l l' : list A) i v :
  set l i v = Ok l' -> i < len l /\ len l' = len l /\
  (forall j, get l' j = if j =? i then Ok v else get l j).
Proof.
  unfold set. destruct (N.ltb_spec i (len l)) as [H|H]; [|discriminate].
  intros E; injection E as <-. split; [exact H|].
  assert (L : len (upd l (N.to_nat i) v) = len l) by (unfold len; rewrite upd_length; reflexivity).
  split; [exact L|]. intros j. unfold get. rewrite L.
  destruct (N.ltb_spec j (len l)) as [Hj|Hj].
  - rewrite nth_error_upd.
    destruct (N.eqb_spec j i) as [->|Hn].
    + rewrite Nat.eqb_refl. unfold len in *.
      destruct (Nat.ltb_spec (N.to_nat i) (length l)); [reflexivity|lia].
    + destruct (Nat.eqb_spec (N.to_nat j) (N.to_nat i)); [lia|reflexivity].
  - destruct (N.eqb_spec j i); [lia|reflexivity].
Qed.

Lemma len_fill {A} n (v : A) : len (fill n v) = n.
Proof. unfold len, fill. rewrite repeat_length. lia. Qed.

Lemma nth_error_repeat' {A} (v : A) n i : (i < n)%nat -> nth_error (repeat v n) i = Some v.
Proof.
  revert i; induction n as [|n IH]; intros [|i] H; cbn; try lia; auto. apply IH; lia.
Qed.

Lemma get_fill {A} n (v : A) i : i < n -> get (fill n v) i = Ok v.
Proof. intros H. apply get_spec. apply nth_error_repeat'. lia. Qed.

Lemma list_ext_get {A} (l l' : list A) :
  len l = len l' -> (forall i, i < len l -> get l i = get l' i) -> l = l'.
Proof.
  intros HL HE.
  assert (H : forall n, nth_error l n = nth_error l' n).
  { intros n. destruct (N.ltb_spec (N.of_nat n) (len l)) as [H|H].
    - specialize (HE (N.of_nat n) H).
      destruct (get_in_bounds l (N.of_nat n) H) as [v Ev].
      rewrite Ev in HE. symmetry in HE. apply get_spec in Ev, HE.
      rewrite Nat2N.id in Ev, HE. congruence.
    - assert (nth_error l n = None) by (apply nth_error_None; unfold len in H; lia).
      assert (nth_error l' n = None) by (apply nth_error_None; unfold len in *; lia).
      congruence. }
  clear HL HE. revert l' H. induction l as [|x l IH]; intros [|y l'] H.
  - reflexivity.
  - specialize (H 0%nat); discriminate.
  - specialize (H 0%nat); discriminate.
  - f_equal. + specialize (H 0%nat); cbn in H; congruence.
    + apply IH. intros n; exact (H (S n)).
Qed.

(** ** Ranges *)

Lemma seqN_length n from : length (seqN n from) = n.
Proof. revert from; induction n; cbn; auto. Qed.

Lemma In_seqN n from i : In i (seqN n from) <-> from <= i < from + N.of_nat n.
Proof.
  revert from; induction n as [|n IH]; intros from; cbn [seqN In].
  - lia.
  - rewrite IH. lia.
Qed.

Lemma In_range lo hi i : In i (range lo hi) <-> lo <= i < hi.
Proof. unfold range. rewrite In_seqN. lia. Qed.

Lemma len_range lo hi : len (range lo hi) = hi - lo.
Proof. unfold len, range. rewrite seqN_length. lia. Qed.

Lemma range_nil lo hi : hi <= lo -> range lo hi = [].
Proof. intros H. unfold range. replace (N.to_nat (hi - lo)) with O by lia. reflexivity. Qed.

Lemma range_cons lo hi : lo < hi -> range lo hi = lo :: range (lo + 1) hi.
Proof.
  intros H. unfold range. replace (N.to_nat (hi - lo)) with (S (N.to_nat (hi - (lo + 1)))) by lia.
  cbn [seqN]. rewrite N.add_1_r. reflexivity.
Qed.

Lemma seqN_app n m from : seqN (n + m) from = seqN n from ++ seqN m (from + N.of_nat n).
Proof.
  revert from; induction n as [|n IH]; intros from; cbn [seqN app Nat.add].
  - f_equal; lia.
  - rewrite IH. replace (N.succ from + N.of_nat n) with (from + N.of_nat (S n)) by lia. reflexivity.
Qed.

Lemma range_split lo mid hi : lo <= mid <= hi -> range lo hi = range lo mid ++ range mid hi.
Proof.
  intros H. unfold range.
  replace (N.to_nat (hi - lo)) with (N.to_nat (mid - lo) + N.to_nat (hi - mid))%nat by lia.
  rewrite seqN_app. replace (lo + N.of_nat (N.to_nat (mid - lo))) with mid by lia. reflexivity.
Qed.

Lemma range_snoc lo hi : lo <= hi -> range lo (hi + 1) = range lo hi ++ [hi].
Proof.
  intros H. rewrite (range_split lo hi (hi + 1)) by lia.
  rewrite (range_cons hi (hi + 1)) by lia. rewrite (range_nil (hi + 1)) by lia. reflexivity.
Qed.

Lemma NoDup_seqN n from : NoDup (seqN n from).
Proof.
  revert from; induction n as [|n IH]; intros from; cbn [seqN]; constructor; auto.
  rewrite In_seqN. lia.
Qed.
Lemma NoDup_range lo hi : NoDup (range lo hi).
Proof. apply NoDup_seqN. Qed.

Lemma get_seqN n from i : i < N.of_nat n -> get (seqN n from) i = Ok (from + i).
Proof.
  intros H. apply get_spec. revert from i H.
  induction n as [|n IH]; intros from i H; cbn [seqN]; [lia|].
  destruct (N.eq_dec i 0) as [->|Hi].
  - change (N.to_nat 0) with 0%nat. cbn. f_equal. lia.
  - replace (N.to_nat i) with (S (N.to_nat (i - 1))) by lia. cbn [nth_error].
    rewrite IH by lia. f_equal. lia.
Qed.
Lemma get_range lo hi i : i < hi - lo -> get (range lo hi) i = Ok (lo + i).
Proof. intros H. unfold range. apply get_seqN. lia. Qed.

(** The split of a range at an element is unique. *)
Lemma range_app_inv lo hi pre a post :
  range lo hi = pre ++ a :: post -> pre = range lo a /\ post = range (a + 1) hi /\ lo <= a < hi.
Proof.
  intros E.
  assert (Ha : In a (range lo hi)) by (rewrite E; apply in_elt).
  apply In_range in Ha.
  rewrite (range_split lo a hi) in E by lia. rewrite (range_cons a hi) in E by lia.
  assert (ND : NoDup (pre ++ a :: post)).
  { rewrite <- E. rewrite <- (range_cons a hi) by lia. rewrite <- range_split by lia. apply NoDup_range. }
  assert (H : range lo a = pre).
  { revert E ND. assert (Hn : ~ In a (range lo a)) by (rewrite In_range; lia).
    revert Hn. generalize (range lo a) as l. clear Ha.
    induction pre as [|b pre IH]; intros [|c l] Hn E ND; cbn [app] in *.
    - reflexivity.
    - injection E as -> _. exfalso. apply Hn. left; reflexivity.
    - injection E as <- E. inversion ND as [|? ? Hx _]; subst. exfalso. apply Hx. apply in_elt.
    - injection E as -> E. f_equal. apply IH; auto.
      + intros H; apply Hn; right; exact H.
      + inversion ND; assumption. }
  subst pre. apply app_inv_head in E. injection E as E. auto.
Qed.

Lemma In_take_while {A} (f : A -> bool) l x : In x (take_while f l) -> In x l /\ f x = true.
Proof.
  induction l as [|a l IH]; cbn; [tauto|].
  destruct (f a) eqn:E; cbn; [|tauto]. intros [<-|H]; [auto|]. apply IH in H. tauto.
Qed.

Lemma take_while_all {A} (f : A -> bool) l :
  (forall x, In x l -> f x = true) -> take_while f l = l.
Proof.
  induction l as [|a l IH]; intros H; cbn; [reflexivity|].
  rewrite (H a) by (left; reflexivity). f_equal. apply IH. intros x Hx; apply H; right; exact Hx.
Qed.

Lemma take_while_app_stop {A} (f : A -> bool) l1 l2 :
  (forall x, In x l1 -> f x = true) -> (forall x, In x l2 -> f x = false) ->
  take_while f (l1 ++ l2) = l1.
Proof.
  induction l1 as [|a l1 IH]; intros H1 H2; cbn.
  - destruct l2 as [|b l2]; cbn; [reflexivity|]. rewrite (H2 b) by (left; reflexivity). reflexivity.
  - rewrite (H1 a) by (left; reflexivity). f_equal. apply IH; [|exact H2].
    intros x Hx; apply H1; right; exact Hx.
Qed.

(** A range cut by a condition that holds exactly below [b]. *)
Lemma range_while_below (c : N -> bool) lo hi b :
  (forall i, lo <= i < hi -> c i = (i <? b)) ->
  range_while c lo hi = range lo (N.min hi b).
Proof.
  intros H. unfold range_while.
  destruct (N.le_gt_cases hi lo) as [Hl|Hl].
  - rewrite (range_nil lo hi), (range_nil lo (N.min hi b)) by lia. reflexivity.
  - destruct (N.le_gt_cases b lo) as [Hb|Hb].
    + rewrite (range_nil lo (N.min hi b)) by lia. rewrite (range_cons lo hi) by lia. cbn.
      rewrite H by lia. destruct (N.ltb_spec lo b); [lia|reflexivity].
    + rewrite (range_split lo (N.min hi b) hi) by lia.
      apply take_while_app_stop; intros i Hi; apply In_range in Hi; rewrite H by lia.
      * destruct (N.ltb_spec i b); [reflexivity|lia].
      * destruct (N.ltb_spec i b); [lia|reflexivity].
Qed.

(** ** Loops *)

Lemma loop_app {A S} (l1 l2 : list A) (body : A -> S -> outcome S) s :
  loop (l1 ++ l2) body s = (s' <- loop l1 body s ;; loop l2 body s').
Proof.
  revert s; induction l1 as [|a l1 IH]; intros s; cbn [loop app bind]; [reflexivity|].
  destruct (body a s) as [s'|]; cbn [bind]; auto.
Qed.

Lemma loop_inv {A S} (P : list A -> S -> Prop) (l : list A) body s :
  P [] s ->
  (forall pre a post s, l = pre ++ a :: post -> P pre s ->
     exists s', body a s = Ok s' /\ P (pre ++ [a]) s') ->
  exists s', loop l body s = Ok s' /\ P l s'.
Proof.
  intros H0 Hs.
  assert (G : forall post pre s, l = pre ++ post -> P pre s ->
              exists s', loop post body s = Ok s' /\ P l s').
  { induction post as [|a post IH]; intros pre s1 E HP; cbn [loop].
    - exists s1. rewrite app_nil_r in E. subst; auto.
    - destruct (Hs pre a post s1 E HP) as [s2 [E2 HP2]]. rewrite E2; cbn [bind].
      apply (IH (pre ++ [a]) s2); [|exact HP2]. rewrite <- app_assoc. exact E. }
  apply (G l [] s); auto.
Qed.

(** Reasoning about a loop that returned. *)
Lemma loop_inv_Ok {A S} (P : list A -> S -> Prop) (l : list A) body s s1 :
  P [] s ->
  (forall pre a post s s', l = pre ++ a :: post -> P pre s -> body a s = Ok s' ->
     P (pre ++ [a]) s') ->
  loop l body s = Ok s1 -> P l s1.
Proof.
  intros H0 Hs.
  assert (G : forall post pre s, l = pre ++ post -> P pre s -> loop post body s = Ok s1 -> P l s1).
  { induction post as [|a post IH]; intros pre s2 E HP HL; cbn [loop] in HL.
    - rewrite app_nil_r in E. injection HL as <-. subst; auto.
    - apply bind_Ok in HL. destruct HL as [s3 [E3 HL]].
      apply (IH (pre ++ [a]) s3); [rewrite <- app_assoc; exact E| |exact HL].
      eapply Hs; eauto. }
  intros HL. apply (G l [] s); auto.
Qed.

(** ** Programs over the availability array *)

Lemma cbind_assoc_run {A B} (c : cmd A) (f : A -> cmd B) m :
  run (cbind c f) m = (r <- run c m ;; run (f (fst r)) (snd r)).
Proof.
  revert m; induction c as [a|s|i k IH|i b k IH]; intros m; cbn [cbind run bind fst snd].
  - reflexivity.
  - reflexivity.
  - destruct (get m i); cbn [bind]; [apply IH|reflexivity].
  - destruct (set m i b); cbn [bind]; [apply IH|reflexivity].
Qed.

Lemma run_bind_Ok {A B} (c : cmd A) (f : A -> cmd B) m r :
  run (cbind c f) m = Ok r <->
  exists a m', run c m = Ok (a, m') /\ run (f a) m' = Ok r.
Proof.
  rewrite cbind_assoc_run, bind_Ok. split.
  - intros [[a m'] [H1 H2]]. exists a, m'. auto.
  - intros [a [m' [H1 H2]]]. exists (a, m'). auto.
Qed.

Lemma run_lift {A} (o : outcome A) m :
  run (lift o) m = (a <- o ;; Ok (a, m)).
Proof. destruct o; reflexivity. Qed.

Lemma cloop_app {A S} (l1 l2 : list A) (body : A -> S -> cmd S) s m :
  run (cloop (l1 ++ l2) body s) m =
  (r <- run (cloop l1 body s) m ;; run (cloop l2 body (fst r)) (snd r)).
Proof.
  revert s m; induction l1 as [|a l1 IH]; intros s m; cbn [cloop app].
  - reflexivity.
  - rewrite !cbind_assoc_run. destruct (run (body a s) m) as [[s' m']|]; cbn [bind fst snd]; auto.
Qed.

Lemma cloop_inv {A S} (P : list A -> S -> list bool -> Prop) (l : list A)
  (body : A -> S -> cmd S) s m :
  P [] s m ->
  (forall pre a post s m, l = pre ++ a :: post -> P pre s m ->
     exists s' m', run (body a s) m = Ok (s', m') /\ P (pre ++ [a]) s' m') ->
  exists s' m', run (cloop l body s) m = Ok (s', m') /\ P l s' m'.
Proof.
  intros H0 Hs.
  assert (G : forall post pre s m, l = pre ++ post -> P pre s m ->
              exists s' m', run (cloop post body s) m = Ok (s', m') /\ P l s' m').
  { induction post as [|a post IH]; intros pre s1 m1 E HP; cbn [cloop].
    - exists s1, m1. rewrite app_nil_r in E. subst; auto.
    - destruct (Hs pre a post s1 m1 E HP) as [s2 [m2 [E2 HP2]]].
      rewrite cbind_assoc_run, E2; cbn [bind fst snd].
      apply (IH (pre ++ [a]) s2); [|exact HP2]. rewrite <- app_assoc. exact E. }
  apply (G l [] s m); auto.
Qed.

(** Search loops whose tests do not change the memory. *)
Lemma run_cexists {A} (l : list A) (test : A -> cmd bool) (p : A -> bool) m :
  (forall a, In a l -> run (test a) m = Ok (p a, m)) ->
  run (cexists l test) m = Ok (existsb p l, m).
Proof.
  induction l as [|a l IH]; intros H; cbn [cexists existsb].
  - reflexivity.
  - rewrite cbind_assoc_run, H by (left; reflexivity). cbn [bind fst snd].
    destruct (p a); cbn [orb]; [reflexivity|]. apply IH. intros x Hx; apply H; right; exact Hx.
Qed.

Lemma loop_ext {A S} (l : list A) (f h : A -> S -> outcome S) s :
  (forall a s, In a l -> f a s = h a s) -> loop l f s = loop l h s.
Proof.
  revert s; induction l as [|a l IH]; intros s H; cbn [loop]; [reflexivity|].
  rewrite H by (left; reflexivity). destruct (h a s); cbn [bind]; [|reflexivity].
  apply IH. intros; apply H; right; assumption.
Qed.
