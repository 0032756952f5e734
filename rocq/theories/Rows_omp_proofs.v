(** The OpenMP build on problems whose rows do not restrict each other: lemmas. *)
From Coq Require Import Lia.
From Verif Require Export Rows_omp_spec Omp_run_proofs Rows_proofs.
Local Open Scope N_scope.

(** *** What a thread knows

    A thread knows the elements of its own rows exactly, of the others what it has
    read: an element read as cleared stays cleared. *)

Section Track.
Variables (own : N -> bool) (K : N -> Prop).

Fixpoint tr {A} (R : A -> mem -> Prop) (c : cmd A) (m : mem) : Prop :=
  match c with
  | Ret a => R a m
  | Fail _ => True
  | Read i k => if own i then tr R (k (bit m i)) m
      else forall b, (K i -> b = true) -> tr R (k b) (if b then m else upd m (N.to_nat i) false)
  | Write i b k => b = false /\ own i = true /\ ~ K i /\ i < len m /\ tr R k (upd m (N.to_nat i) false)
  end.

Lemma tr_mono {A} (R R' : A -> mem -> Prop) c : (forall a m, R a m -> R' a m) -> forall m, tr R c m -> tr R' c m.
Proof.
  intros H. induction c as [a|s|i k IH|i b k IH]; intros m; cbn [tr]; auto.
  - destruct (own i); [apply IH|]. intros X b Hb. apply IH, X, Hb.
  - intros [E [O [N [L X]]]]. repeat (split; [assumption|]). apply IH, X.
Qed.
Lemma tr_bind {A B} (R : B -> mem -> Prop) (c : cmd A) (f : A -> cmd B) : forall m,
  tr (fun a m' => tr R (f a) m') c m -> tr R (cbind c f) m.
Proof.
  induction c as [a|s|i k IH|i b k IH]; intros m; cbn [tr cbind]; auto.
  - destruct (own i); [apply IH|]. intros X b Hb. apply IH, X, Hb.
  - intros [E [O [N [L X]]]]. repeat (split; [assumption|]). apply IH, X.
Qed.
Lemma tr_bind' {A B} (Q : A -> mem -> Prop) (R : B -> mem -> Prop) (c : cmd A) (f : A -> cmd B) m :
  tr Q c m -> (forall a m', Q a m' -> tr R (f a) m') -> tr R (cbind c f) m.
Proof. intros H F. apply tr_bind. eapply tr_mono; [|exact H]. exact F. Qed.

(** All results are [true]. *)
Fixpoint ends_true (c : cmd bool) : Prop :=
  match c with
  | Ret a => a = true
  | Fail _ => True
  | Read _ k => forall b, ends_true (k b)
  | Write _ _ k => ends_true k
  end.

(** The same for jobs.  With [D], a job may give up: from then on it writes anything
    and returns [true]. *)
Fixpoint trt (D : Prop) (R : mem -> Prop) (c : cmd bool) (m : mem) : Prop :=
  match c with
  | Ret a => if a then D else R m
  | Fail _ => True
  | Read i k => if own i then trt D R (k (bit m i)) m
      else forall b, (K i -> b = true) -> trt D R (k b) (if b then m else upd m (N.to_nat i) false)
  | Write i b k => (D /\ ends_true k) \/
      (b = false /\ own i = true /\ ~ K i /\ i < len m /\ trt D R k (upd m (N.to_nat i) false))
  end.
Lemma trt_bind {A} (D : Prop) R (Q : A -> mem -> Prop) (c : cmd A) (f : A -> cmd bool) : forall m,
  tr Q c m -> (forall a m', Q a m' -> trt D R (f a) m') -> trt D R (cbind c f) m.
Proof.
  intros m H F. revert m H. induction c as [a|s|i k IH|i b k IH]; intros m; cbn [tr trt cbind]; auto.
  - destruct (own i); [apply IH|]. intros X b Hb. apply IH, X, Hb.
  - intros [E [O [N [L X]]]]. right. repeat (split; [assumption|]). apply IH, X.
Qed.
Lemma trt_gives_up (D : Prop) R c m : D -> ends_true c -> trt D R c m.
Proof.
  intros HD. revert m. induction c as [a|s|i k IH|i b k IH]; intros m H; cbn [trt ends_true] in *; auto.
  - subst a. exact HD.
  - destruct (own i); auto.
Qed.

(** The knowledge is reduced to less nodes of other rows. *)
Definition keeps (m m' : mem) : Prop :=
  len m' = len m /\ sub m' m /\ (forall i, own i = true -> bit m' i = bit m i) /\ (forall i, K i -> bit m i = true -> bit m' i = true).
Lemma keeps_refl m : keeps m m.
Proof. repeat split; auto. apply sub_refl. Qed.
Lemma keeps_trans a b c : keeps a b -> keeps b c -> keeps a c.
Proof.
  intros [L1 [S1 [O1 K1]]] [L2 [S2 [O2 K2]]]. split; [congruence|]. split; [eapply sub_trans; eassumption|].
  split; [intros i Hi; rewrite O2, O1 by exact Hi; reflexivity|auto].
Qed.
Lemma keeps_upd m i : i < len m -> own i = false -> ~ K i -> keeps m (upd m (N.to_nat i) false).
Proof.
  intros L O N. split; [apply len_upd|]. split.
  - intros j. rewrite bit_upd by exact L. destruct (j =? i); [discriminate|auto].
  - split; intros j Hj; rewrite bit_upd by exact L; destruct (N.eqb_spec j i) as [->|]; auto; congruence.
Qed.

(** Reading one element. *)
Lemma tr_read i m : i < len m -> (K i -> bit m i = true) ->
  tr (fun b m' => keeps m m' /\ (K i -> b = true) /\ (own i = true -> b = bit m i) /\ (b = false -> bit m' i = false))
    (Read i (fun b => Ret b)) m.
Proof.
  intros L HK. cbn [tr]. destruct (own i) eqn:O.
  - split; [apply keeps_refl|]. auto.
  - intros b Hb. destruct b.
    + split; [apply keeps_refl|]. split; [auto|]. split; [congruence|discriminate].
    + assert (N : ~ K i) by (intros X; specialize (Hb X); discriminate).
      split; [apply keeps_upd; assumption|]. split; [intros; contradiction|]. split; [congruence|].
      intros _. rewrite bit_upd by exact L. rewrite N.eqb_refl. reflexivity.
Qed.
End Track.

(** *** A pool of threads that know their rows *)

Section Pool.
Variables (size wb : N) (K : N -> Prop) (D : Prop) (own : nat -> N -> bool) (R : nat -> mem -> Prop).
Hypothesis own_words : forall j i i', i < size -> i' < size -> i / wb = i' / wb -> own j i = own j i'.
Hypothesis own_once : forall j j' i, i < size -> own j i = true -> own j' i = true -> j = j'.

Definition view (j : nat) (c pm : mem) : Prop :=
  len pm = size /\ sub c pm /\ forall i, i < size -> own j i = true -> bit c i = bit pm i.

Definition informed (j : nat) (c : mem) (t : thread bool) : Prop :=
  exists pm, view j c pm /\ (forall i, K i -> bit pm i = true) /\
  match t with
  | Run k => trt (own j) K D (R j) k pm
  | Store i b w k => b = false /\ i < size /\ own j i = true /\ ~ K i /\ len w = size /\
      (forall i', i' < size -> i' / wb = i / wb -> bit w i' = bit c i') /\
      trt (own j) K D (R j) k (upd pm (N.to_nat i) false)
  end.

Definition gives_up (t : thread bool) : Prop :=
  match t with Run k => ends_true k | Store _ _ _ k => ends_true k end.

Definition team_inv (s : pool bool) : Prop :=
  (D /\ exists j t, nth_error (threads s) j = Some t /\ gives_up t) \/
  (len (current (history s)) = size /\ (forall i, K i -> i < size /\ bit (current (history s)) i = true) /\
   forall j t, nth_error (threads s) j = Some t -> informed j (current (history s)) t).

(** Storing a word of one's own rows only clears the element. *)
Lemma own_store c i w : len c = size -> i < size ->
  (forall i', i' < size -> i' / wb = i / wb -> bit w i' = bit c i') ->
  forall j, bit (store_word wb i false w c) j = if j =? i then false else bit c j.
Proof.
  intros L Li Hw j. rewrite bit_store, L. destruct (N.ltb_spec j size) as [Lj|Lj].
  - destruct (N.eqb_spec (j / wb) (i / wb)) as [E|E].
    + destruct (N.eqb_spec j i); [reflexivity|]. apply Hw; assumption.
    + destruct (N.eqb_spec j i) as [->|]; [contradiction|reflexivity].
  - destruct (N.eqb_spec j i) as [->|]; [lia|]. rewrite bit_oob by lia. reflexivity.
Qed.

Lemma gives_up_step t h t' h' : tstep true wb t h t' h' -> gives_up t -> gives_up t'.
Proof. intros S H. destruct S; cbn [gives_up ends_true] in *; auto. Qed.

Lemma team_step s s' : team_inv s -> pstep true wb s s' -> team_inv s'.
Proof.
  intros I St. destruct St as [n ts t t' h h' E S]. unfold team_inv in *. cbn [threads history] in *.
  destruct I as [[HD [j [x [Ex Gx]]]]|[Lc [Kc All]]].
  - left. split; [exact HD|]. destruct (Nat.eq_dec n j) as [<-|Ne].
    + exists n, t'. split; [eapply nth_error_upd_same; exact E|]. assert (x = t) by congruence. subst x. eapply gives_up_step; eassumption.
    + exists j, x. split; [rewrite nth_error_upd_other by exact Ne; exact Ex|exact Gx].
  - pose proof (All n t E) as [pm [[Lp [Sp Op]] [Kp Tt]]].
    assert (Calm : h' = h -> informed n (current h) t' -> forall j x, nth_error (upd ts n t') j = Some x -> informed j (current h) x).
    { intros -> I' j x Ex. destruct (Nat.eq_dec n j) as [<-|Ne].
      - rewrite (nth_error_upd_same _ _ _ _ E) in Ex. injection Ex as <-. exact I'.
      - rewrite nth_error_upd_other in Ex by exact Ne. apply All; exact Ex. }
    destruct S as [i k h w b L Gb|i b k h w L Li|i b w k h].
    + right. split; [exact Lc|]. split; [exact Kc|]. apply Calm; [reflexivity|]. unfold loads in L. subst w.
      assert (Li : i < size) by (rewrite <- Lc; apply (get_Ok_lt _ _ _ Gb)).
      apply bit_get_Ok in Gb. cbn [trt] in Tt. destruct (own n i) eqn:O.
      * exists pm. split; [repeat split; assumption|]. split; [exact Kp|]. rewrite <- (Op i Li O), Gb in Tt. exact Tt.
      * assert (Hb : K i -> b = true) by (intros Ki; rewrite <- Gb; apply Kc; exact Ki).
        specialize (Tt b Hb). destruct b; [exists pm; repeat split; assumption|].
        assert (Lpi : i < len pm) by lia.
        exists (upd pm (N.to_nat i) false). split; [|split; [|exact Tt]].
        -- split; [rewrite len_upd; exact Lp|]. split.
           ++ intros j Hj. rewrite bit_upd by exact Lpi. destruct (N.eqb_spec j i) as [->|]; [congruence|apply Sp; exact Hj].
           ++ intros j Lj Oj. rewrite bit_upd by exact Lpi. destruct (N.eqb_spec j i) as [->|]; [congruence|apply Op; assumption].
        -- intros j Kj. rewrite bit_upd by exact Lpi. destruct (N.eqb_spec j i) as [->|]; [specialize (Hb Kj); discriminate|apply Kp; exact Kj].
    + cbn [trt] in Tt. destruct Tt as [[HD Et]|[-> [O [NK [_ Tt]]]]].
      * left. split; [exact HD|]. exists n, (Store i b w k). split; [eapply nth_error_upd_same; exact E|exact Et].
      * right. split; [exact Lc|]. split; [exact Kc|]. apply Calm; [reflexivity|]. unfold loads in L. subst w.
        exists pm. split; [repeat split; assumption|]. split; [exact Kp|]. rewrite Lc in Li. split; [reflexivity|]. repeat (split; [assumption|]).
        split; [intros; reflexivity|exact Tt].
    + destruct Tt as [-> [Li [O [NK [Lw [Hw Tt]]]]]]. right. cbn [current hd].
      pose proof (own_store (current h) i w Lc Li Hw) as B. split; [rewrite len_store; exact Lc|]. split.
      { intros j Kj. split; [apply Kc; exact Kj|]. rewrite B. destruct (N.eqb_spec j i) as [->|]; [contradiction|apply Kc; exact Kj]. }
      intros j x Ex. destruct (Nat.eq_dec n j) as [<-|Ne].
      * rewrite (nth_error_upd_same _ _ _ _ E) in Ex. injection Ex as <-.
        exists (upd pm (N.to_nat i) false). assert (Lpi : i < len pm) by lia. split; [|split; [|exact Tt]].
        -- split; [rewrite len_upd; exact Lp|]. split.
           ++ intros a. rewrite B, bit_upd by exact Lpi. destruct (a =? i); [discriminate|apply Sp].
           ++ intros a La Oa. rewrite B, bit_upd by exact Lpi. destruct (a =? i); [reflexivity|apply Op; assumption].
        -- intros a Ka. rewrite bit_upd by exact Lpi. destruct (N.eqb_spec a i) as [->|]; [contradiction|apply Kp; exact Ka].
      * rewrite nth_error_upd_other in Ex by exact Ne. destruct (All j x Ex) as [pj [[Lj [Sj Oj]] [Kj Tj]]].
        assert (Oi : own j i = false) by (destruct (own j i) eqn:X; [exfalso; apply Ne; eapply own_once; eassumption|reflexivity]).
        exists pj. split; [|split; [exact Kj|]].
        -- split; [exact Lj|]. split.
           ++ intros a. rewrite B. destruct (a =? i); [discriminate|apply Sj].
           ++ intros a La Oa. rewrite B. destruct (N.eqb_spec a i) as [->|]; [congruence|apply Oj; assumption].
        -- destruct x as [k'|i' b' w' k']; [exact Tj|]. destruct Tj as [Eb [Li' [O' [NK' [Lw' [Hw' Tj]]]]]].
           repeat (split; [assumption|]). split; [|exact Tj].
           intros a La Ea. rewrite B. destruct (N.eqb_spec a i) as [->|]; [|apply Hw'; assumption].
           exfalso. rewrite (own_words j i i' Li Li' Ea) in Oi. congruence.
Qed.
Lemma team_steps n s s' : team_inv s -> psteps true wb n s s' -> team_inv s'.
Proof. intros H P. induction P as [s|n s s1 s2 St P IH]; [exact H|]. apply IH. eapply team_step; eassumption. Qed.
End Pool.
