(** Bounds of floating-point results: penalties of accepted problems are finite. *)
From Coq Require Import Reals Lra Lia.
From Flocq Require Import Core.Core IEEE754.BinarySingleNaN.
From Verif Require Export Graph_proofs.
Local Open Scope Z_scope.

Section Ieee.
Context (prec emax : Z) (Hp : Prec_gt_0 prec) (He : Prec_lt_emax prec emax).
Notation flt_t := (binary_float prec emax).
Notation rnd := (round radix2 (SpecFloat.fexp prec emax) (round_mode mode_NE)).

Definition bounded (k : Z) (x : flt_t) : Prop := is_finite x = true /\ (Rabs (B2R x) <= bpow radix2 k)%R.

Lemma rnd_bound k r : 0 <= k -> (Rabs r <= bpow radix2 k)%R -> (Rabs (rnd r) <= bpow radix2 k)%R.
Proof.
  intros Hk H. apply abs_round_le_generic; [apply (fexp_correct prec emax Hp)|apply valid_rnd_round_mode| |exact H].
  apply generic_format_bpow. unfold SpecFloat.fexp, SpecFloat.emin. unfold Prec_gt_0, Prec_lt_emax in *. lia.
Qed.
Lemma small_ltb k r : k < emax -> (Rabs r <= bpow radix2 k)%R -> Rlt_bool (Rabs r) (bpow radix2 emax) = true.
Proof. intros Hk H. apply Rlt_bool_true. eapply Rle_lt_trans; [exact H|]. apply bpow_lt. exact Hk. Qed.

Lemma bounded_of_Z k z : 0 <= k < emax -> Z.abs z <= 2 ^ k -> bounded k (ieee_of_Z prec emax Hp He z).
Proof.
  intros Hk Hz. pose proof (binary_normalize_correct prec emax Hp He mode_NE z 0 false) as H. cbv zeta in H.
  assert (E : F2R (Float radix2 z 0) = IZR z) by (unfold F2R; cbn; ring). rewrite E in H.
  assert (B : (Rabs (rnd (IZR z)) <= bpow radix2 k)%R).
  { apply rnd_bound; [lia|]. rewrite <- abs_IZR, <- (IZR_Zpower radix2) by lia. apply IZR_le. exact Hz. }
  rewrite (small_ltb k) in H by (try exact B; lia). destruct H as [H1 [H2 _]].
  split; [exact H2|]. unfold ieee_of_Z. rewrite H1. exact B.
Qed.
Lemma of_Z_mono k a b : 0 <= k < emax -> Z.abs a <= 2 ^ k -> Z.abs b <= 2 ^ k -> a <= b ->
  Bleb (ieee_of_Z prec emax Hp He a) (ieee_of_Z prec emax Hp He b) = true.
Proof.
  intros Hk Ha Hb Hab.
  assert (V : forall z, Z.abs z <= 2 ^ k -> is_finite (ieee_of_Z prec emax Hp He z) = true /\
    B2R (ieee_of_Z prec emax Hp He z) = rnd (IZR z)).
  { intros z Hz. pose proof (binary_normalize_correct prec emax Hp He mode_NE z 0 false) as H. cbv zeta in H.
    assert (E : F2R (Float radix2 z 0) = IZR z) by (unfold F2R; cbn; ring). rewrite E in H.
    assert (B : (Rabs (rnd (IZR z)) <= bpow radix2 k)%R).
    { apply rnd_bound; [lia|]. rewrite <- abs_IZR, <- (IZR_Zpower radix2) by lia. apply IZR_le. exact Hz. }
    rewrite (small_ltb k) in H by (try exact B; lia). destruct H as [H1 [H2 _]]. split; [exact H2|exact H1]. }
  destruct (V a Ha) as [F1 E1]. destruct (V b Hb) as [F2 E2]. rewrite Bleb_correct by assumption.
  rewrite E1, E2. apply Rle_bool_true. apply (rnd_mono prec emax Hp). apply IZR_le. exact Hab.
Qed.
Lemma bounded_sub k a b : 0 <= k -> k + 1 < emax -> bounded k a -> bounded k b -> bounded (k + 1) (Bminus mode_NE a b).
Proof.
  intros Hk Hk' [Fa Ba] [Fb Bb]. pose proof (Bminus_correct prec emax Hp He mode_NE a b Fa Fb) as H.
  assert (B : (Rabs (rnd (B2R a - B2R b)) <= bpow radix2 (k + 1))%R).
  { apply rnd_bound; [lia|]. rewrite bpow_plus. change (bpow radix2 1) with 2%R.
    pose proof (Rabs_triang (B2R a) (- B2R b)) as X. rewrite Rabs_Ropp in X. unfold Rminus. lra. }
  rewrite (small_ltb (k + 1)) in H by (try exact B; lia). destruct H as [H1 [H2 _]].
  split; [exact H2|]. rewrite H1. exact B.
Qed.
Lemma bounded_mul j k a b : 0 <= j -> 0 <= k -> j + k < emax -> bounded j a -> bounded k b -> bounded (j + k) (Bmult mode_NE a b).
Proof.
  intros Hj Hk Hjk [Fa Ba] [Fb Bb]. pose proof (Bmult_correct prec emax Hp He mode_NE a b) as H.
  assert (B : (Rabs (rnd (B2R a * B2R b)) <= bpow radix2 (j + k))%R).
  { apply rnd_bound; [lia|]. rewrite bpow_plus, Rabs_mult.
    apply Rmult_le_compat; try apply Rabs_pos; assumption. }
  rewrite (small_ltb (j + k)) in H by (try exact B; lia). destruct H as [H1 [H2 _]].
  split; [rewrite H2, Fa, Fb; reflexivity|]. rewrite H1. exact B.
Qed.
End Ieee.

Local Open Scope N_scope.

Notation cpu_bounded := (bounded 53 1024).

Lemma cpu_of_u n : n < 2 ^ 64 -> cpu_bounded 64 (@of_u cpu n).
Proof. intros H. apply bounded_of_Z; [lia|]. lia. Qed.

Lemma of_u_mono a b : a <= b -> b < 2 ^ 64 -> @fle cpu (of_u a) (of_u b) = true.
Proof. intros H Hb. apply (of_Z_mono 53 1024 hp53 he53 64); lia. Qed.
Lemma of_u_nonneg n : n < 2 ^ 64 -> @flt cpu (of_u n) fzero = false.
Proof.
  intros H. destruct (flt (of_u n) fzero) eqn:E; [|reflexivity]. apply (flt_spec cpu cpu_laws) in E. destruct E as [_ E].
  pose proof (of_u_mono 0 n ltac:(lia) H) as M. assert (Z : @fle cpu fzero (of_u 0) = true) by (vm_compute; reflexivity).
  rewrite (fle_trans cpu cpu_laws _ _ _ Z M) in E. discriminate.
Qed.
Lemma of_u_eps n : n < 2 ^ 64 -> @flt cpu (of_u n) feps = true <-> n = 0.
Proof.
  intros H. split.
  - intros E. apply (flt_spec cpu cpu_laws) in E. destruct E as [E _]. destruct (N.eq_dec n 0) as [|Hn]; [assumption|].
    pose proof (of_u_mono 1 n ltac:(lia) H) as M. pose proof (fle_trans cpu cpu_laws _ _ _ M E) as X. vm_compute in X. discriminate.
  - intros ->. vm_compute. reflexivity.
Qed.

Lemma finite_problem (g : dgraph cpu) : wf_graph g -> zero_reparam g ->
  (forall v, In v (data (left g)) \/ In v (data (right g)) -> v < 2 ^ 64) ->
  cpu_bounded 64 (cleanness g) -> cpu_bounded 64 (smoothness g) -> finite_penalties g.
Proof.
  intros Hw Hz Hd Hc Hs.
  assert (P : forall a b (k : F cpu), a < 2 ^ 64 -> b < 2 ^ 64 -> cpu_bounded 64 k ->
    @ffin cpu (fmul k (fsqr (fsub (of_u a) (of_u b)))) = true).
  { intros a b k Ha Hb Hk.
    assert (S : cpu_bounded (64 + 1) (@fsub cpu (of_u a) (of_u b))) by (apply bounded_sub; try lia; apply cpu_of_u; assumption).
    assert (Q : cpu_bounded (65 + 65) (fsqr (@fsub cpu (of_u a) (of_u b)))) by (apply bounded_mul; try lia; exact S).
    refine (proj1 (bounded_mul 53 1024 hp53 he53 64 130 k _ _ _ _ Hk Q)); lia. }
  assert (In_get : forall A (l : list A) i v, get l i = Ok v -> In v l).
  { intros A l i v. unfold get. destruct (i <? len l); [|discriminate].
    destruct (nth_error l (N.to_nat i)) eqn:E; [|discriminate]. intros X; injection X as <-. eapply nth_error_In; exact E. }
  assert (Lv : levels g < 2 ^ 64).
  { pose proof (wf_wrap g Hw) as W. change (wmod cpu) with (2 ^ 64) in W.
    pose proof (wf_levels g Hw). pose proof (wf_levels_width g Hw). pose proof (wf_rows g Hw).
    apply N.le_lt_trans with (2 := W). rewrite <- (N.mul_1_l (levels g)) at 1. apply N.mul_le_mono_r. nia. }
  split.
  - intros n Hn. destruct (node_penalty_formula g n Hw Hn) as (vr & vl & r0 & r1 & r2 & r3 & E1 & E2 & A & B & C & D & E).
    eexists. split; [exact E|].
    rewrite (Hz r0), (Hz r1), (Hz r2), (Hz r3) by (eapply In_get; eassumption).
    do 4 (apply (fin_add_zero cpu cpu_laws)). apply P; [| |exact Hc]; apply Hd; [right|left]; eapply In_get; eassumption.
  - intros [n m] [Hn [Hnd _]] [Hm [Hmd _]] Adj. cbn [enode enbr] in *.
    assert (S : exists k, slot_of k (npix n) (npix m)).
    { destruct Adj as [X|[X|[X|X]]]; [exists 0|exists 1|exists 2|exists 3]; unfold slot_of; tauto. }
    destruct S as [k S].
    destruct (edge_penalty_formula g n m k Hw Hn Hnd Hm Hmd S) as (r1 & r2 & E1 & E2 & E).
    eexists. split; [exact E|]. rewrite (Hz r1), (Hz r2) by (eapply In_get; eassumption).
    rewrite !(sub_zero cpu cpu_laws). apply P; [lia|lia|exact Hs].
Qed.
