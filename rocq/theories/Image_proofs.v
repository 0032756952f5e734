(** Lemmas about [image_valid]. *)
From Verif Require Export Indexing_proofs.
Local Open Scope N_scope.

Section Img.
Context (T : target).

Definition bound_of (img : image) : N := umul T (width img) (height img).

Definition good (img : image) (i : N) : Prop :=
  exists v, get (data img) i = Ok v /\ v <= max_value img.

Lemma good_dec img i : good img i \/ ~ good img i.
Proof.
  destruct (get (data img) i) as [v|s] eqn:E.
  - destruct (N.le_gt_cases v (max_value img)) as [Hv|Hv].
    + left. exists v; auto.
    + right. intros [v' [E' Hv']]. rewrite E in E'. injection E' as <-. lia.
  - right. intros [v' [E' _]]. congruence.
Qed.

(** Either all of the first [m] elements are good, or there is a first bad one. *)
Lemma first_bad img m :
  (forall i, i < m -> good img i) \/
  (exists b, b < m /\ ~ good img b /\ forall i, i < b -> good img i).
Proof.
  induction m as [|m IH] using N.peano_ind.
  - left. intros i Hi. lia.
  - destruct IH as [IH|[b [Hb [Hn Hg]]]].
    + destruct (good_dec img m) as [G|G].
      * left. intros i Hi. destruct (N.eq_dec i m) as [->|Hne]; [exact G|]. apply IH. lia.
      * right. exists m. split; [lia|split; [exact G|exact IH]].
    + right. exists b. split; [lia|split; assumption].
Qed.

Lemma loop_step img f i :
  i < bound_of img -> i < 2 ^ 32 -> good img i ->
  image_valid_loop T img (S f) i = image_valid_loop T img f ((i + 1) mod 2 ^ 32).
Proof.
  intros Hb Hi [v [E Hv]]. cbn [image_valid_loop]. fold (bound_of img).
  destruct (N.ltb_spec i (bound_of img)); [|lia]. rewrite E. cbn [bind].
  destruct (N.ltb_spec (max_value img) v); [lia|reflexivity].
Qed.

(** Running from [i] over good elements up to [j]. *)
Lemma loop_steps img j n f i :
  j <= bound_of img -> j < 2 ^ 32 -> i + N.of_nat n = j ->
  (forall k, k < j -> good img k) ->
  image_valid_loop T img (n + f) i = image_valid_loop T img f j.
Proof.
  intros Hj Hj2. revert i. induction n as [|n IH]; intros i Hi Hg.
  - replace i with j by lia. reflexivity.
  - cbn [Nat.add]. rewrite loop_step by (try apply Hg; lia).
    rewrite N.mod_small by lia. apply IH; [lia|assumption].
Qed.

Lemma loop_short img f i :
  (N.to_nat (bound_of img - i) >= f)%nat -> bound_of img <= 2 ^ 32 ->
  i + N.of_nat f <= 2 ^ 32 ->
  (forall k, k < i + N.of_nat f -> good img k) -> image_valid_loop T img f i = Stop Diverge.
Proof.
  revert i. induction f as [|f IH]; intros i Hf Hb Hi Hg; [reflexivity|].
  destruct f as [|f].
  - rewrite loop_step by (try apply Hg; lia). reflexivity.
  - rewrite loop_step by (try apply Hg; lia). rewrite N.mod_small by lia.
    apply IH; try lia. intros k Hk; apply Hg; lia.
Qed.

(** A bad element stops the loop. *)
Lemma loop_bad img f i :
  i < bound_of img -> ~ good img i ->
  image_valid_loop T img (S f) i =
  match get (data img) i with Ok _ => Ok false | Stop s => Stop s end.
Proof.
  intros Hb Hn. cbn [image_valid_loop]. fold (bound_of img).
  destruct (N.ltb_spec i (bound_of img)); [|lia].
  destruct (get (data img) i) as [v|s] eqn:E; cbn [bind]; [|reflexivity].
  destruct (N.ltb_spec (max_value img) v); [reflexivity|].
  exfalso. apply Hn. exists v. auto.
Qed.

Lemma loop_end img f i :
  bound_of img <= i -> image_valid_loop T img (S f) i = Ok true.
Proof.
  intros Hb. cbn [image_valid_loop]. fold (bound_of img).
  destruct (N.ltb_spec i (bound_of img)); [lia|reflexivity].
Qed.

(** If every element the counter can reach is good and the bound is out of the
    reach of the counter, the loop never ends. *)
Lemma loop_forever img f i :
  2 ^ 32 <= bound_of img -> (forall k, k < 2 ^ 32 -> good img k) -> i < 2 ^ 32 ->
  image_valid_loop T img f i = Stop Diverge.
Proof.
  intros Hb Hg. revert i. induction f as [|f IH]; intros i Hi; [reflexivity|].
  rewrite loop_step by (try apply Hg; lia). apply IH. apply N.mod_lt. lia.
Qed.

Lemma fuel_enough_loop img fuel :
  image_valid_loop T img fuel 0 <> Stop Diverge ->
  image_valid_loop T img fuel 0 = image_valid_loop T img (S (N.to_nat (bound_of img))) 0.
Proof.
  intros Hd.
  destruct (first_bad img (N.min (bound_of img) (2 ^ 32))) as [Hg|[b [Hb [Hn Hg]]]].
  - destruct (N.lt_ge_cases (bound_of img) (2 ^ 32)) as [Hs|Hs].
    + rewrite N.min_l in Hg by lia.
      replace (S (N.to_nat (bound_of img))) with (N.to_nat (bound_of img) + 1)%nat by lia.
      rewrite (loop_steps img (bound_of img)) by (try assumption; lia).
      rewrite loop_end by lia.
      destruct (Nat.le_gt_cases fuel (N.to_nat (bound_of img))) as [Hf|Hf].
      * exfalso. apply Hd. apply loop_short; try lia. intros k Hk; apply Hg; lia.
      * replace fuel with (N.to_nat (bound_of img) + S (fuel - N.to_nat (bound_of img) - 1))%nat by lia.
        rewrite (loop_steps img (bound_of img)) by (try assumption; lia).
        apply loop_end; lia.
    + rewrite N.min_r in Hg by lia. exfalso. apply Hd. apply loop_forever; try assumption. lia.
  - assert (Hb' : b < bound_of img) by lia.
    replace (S (N.to_nat (bound_of img))) with (N.to_nat b + S (N.to_nat (bound_of img) - N.to_nat b))%nat by lia.
    rewrite (loop_steps img b) by (try assumption; lia).
    destruct (Nat.le_gt_cases fuel (N.to_nat b)) as [Hf|Hf].
    + exfalso. apply Hd.
      destruct fuel as [|fuel]; [reflexivity|].
      assert (E : exists k, (N.to_nat b = S fuel + k)%nat) by (exists (N.to_nat b - S fuel)%nat; lia).
      clear Hd. revert Hf. generalize (S fuel) as f. intros f Hf.
      assert (A : forall f i, i + N.of_nat f <= b -> image_valid_loop T img f i = Stop Diverge).
      { clear f Hf E fuel. induction f as [|f IH]; intros i Hi; [reflexivity|].
        rewrite loop_step by (try apply Hg; lia). rewrite N.mod_small by lia. apply IH. lia. }
      apply A. lia.
    + replace fuel with (N.to_nat b + S (fuel - N.to_nat b - 1))%nat by lia.
      rewrite (loop_steps img b) by (try assumption; lia).
      rewrite !loop_bad by assumption. reflexivity.
Qed.

(** The fuel in [image_valid] is never the reason for [Diverge]. *)
Theorem image_valid_fuel_enough img fuel :
  image_valid_fuel T fuel img <> Stop Diverge ->
  image_valid_fuel T fuel img = image_valid T img.
Proof.
  unfold image_valid, image_valid_fuel.
  destruct ((max_value img =? 0) || (width img =? 0) || (height img =? 0)); [reflexivity|].
  apply fuel_enough_loop.
Qed.

Lemma image_valid_decides img :
  2 ^ 32 <= wmod T -> consistent_image img -> width img * height img < 2 ^ 32 ->
  exists b, image_valid T img = Ok b /\ (b = true <-> valid_image img).
Proof.
  intros Hw Hc Hs. unfold image_valid, image_valid_fuel.
  destruct (N.eqb_spec (max_value img) 0) as [Hm|Hm].
  { exists false. split; [reflexivity|]. unfold valid_image. split; [discriminate|lia]. }
  destruct (N.eqb_spec (width img) 0) as [Hx|Hx].
  { exists false. split; [reflexivity|]. unfold valid_image. split; [discriminate|lia]. }
  destruct (N.eqb_spec (height img) 0) as [Hy|Hy].
  { exists false. split; [reflexivity|]. unfold valid_image. split; [discriminate|lia]. }
  cbn [orb].
  assert (Eb : bound_of img = width img * height img) by (apply umul_small; lia).
  fold (bound_of img). unfold consistent_image in Hc. rewrite <- Eb in *.
  assert (Hv : valid_image img <-> forall i, i < bound_of img -> good img i).
  { unfold valid_image. split.
    - intros [_ [_ [_ V]]] i Hi. rewrite <- Hc in Hi.
      destruct (get_in_bounds _ _ Hi) as [v E]. exists v. split; [exact E|].
      apply V. eapply get_In; eauto.
    - intros G. repeat split; try lia. intros v Iv.
      apply In_get in Iv. destruct Iv as [i [Hi E]]. rewrite Hc in Hi.
      destruct (G i Hi) as [v' [E' Hv']]. rewrite E in E'. injection E' as <-. exact Hv'. }
  destruct (first_bad img (bound_of img)) as [Hg|[b [Hb [Hn Hg]]]].
  - exists true. split; [|split; [intros _; apply Hv, Hg|reflexivity]].
    replace (S (N.to_nat (bound_of img))) with (N.to_nat (bound_of img) + 1)%nat by lia.
    rewrite (loop_steps img (bound_of img)) by (try assumption; lia).
    apply loop_end. lia.
  - exists false. split; [|split; [discriminate|]].
    + replace (S (N.to_nat (bound_of img))) with (N.to_nat b + S (N.to_nat (bound_of img) - N.to_nat b))%nat by lia.
      rewrite (loop_steps img b) by (try assumption; lia). rewrite loop_bad by assumption.
      assert (Hb' := Hb). rewrite <- Hc in Hb'. destruct (get_in_bounds _ _ Hb') as [v E].
      rewrite E. reflexivity.
    + intros V. exfalso. apply Hn. apply Hv; assumption.
Qed.

Lemma image_valid_forever img fuel :
  width img <> 0 -> height img <> 0 -> max_value img <> 0 ->
  width img * height img < wmod T -> 2 ^ 32 <= width img * height img ->
  (forall k, k < 2 ^ 32 -> good img k) ->
  image_valid_fuel T fuel img = Stop Diverge.
Proof.
  intros Hx Hy Hm Hw Hs Hg. unfold image_valid_fuel.
  destruct (N.eqb_spec (max_value img) 0); [contradiction|].
  destruct (N.eqb_spec (width img) 0); [contradiction|].
  destruct (N.eqb_spec (height img) 0); [contradiction|]. cbn [orb].
  apply loop_forever; try assumption; [|lia]. unfold bound_of. rewrite umul_small by lia. exact Hs.
Qed.
End Img.
