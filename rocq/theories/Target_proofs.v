(** The laws hold for the builds. *)
From Coq Require Import Reals Lra Lia.
From Flocq Require Import Core.Core IEEE754.BinarySingleNaN.
From Verif Require Export Laws.

Section Ieee.
Context (prec emax : Z) (Hp : Prec_gt_0 prec) (He : Prec_lt_emax prec emax).
Notation flt_t := (binary_float prec emax).
Notation big := (bpow radix2 emax).
Notation rnd := (round radix2 (SpecFloat.fexp prec emax) (round_mode mode_NE)).
Local Existing Instance Hp.
Local Existing Instance He.

Local Instance vexp : Valid_exp (SpecFloat.fexp prec emax).
Proof. apply fexp_correct. exact Hp. Qed.

(** Position on the real line; infinities outside of the finite numbers. *)
Definition key (x : flt_t) : R :=
  match x with
  | B754_infinity s => if s then (- big)%R else big
  | _ => B2R x
  end.

Lemma key_finite x : is_finite x = true -> key x = B2R x.
Proof. destruct x; try reflexivity; discriminate. Qed.

Lemma finite_bound (x : flt_t) : (- big < B2R x < big)%R.
Proof. pose proof (abs_B2R_lt_emax prec emax x) as H. apply Rabs_def2 in H. lra. Qed.

Lemma big_pos : (0 < big)%R. Proof. apply bpow_gt_0. Qed.

Lemma Bleb_key (x y : flt_t) : is_nan x = false -> is_nan y = false ->
  Bleb x y = Rle_bool (key x) (key y).
Proof.
  intros Hx Hy.
  destruct (is_finite x) eqn:Fx; destruct (is_finite y) eqn:Fy.
  - rewrite Bleb_correct by assumption. rewrite !key_finite by assumption. reflexivity.
  - rewrite (key_finite x Fx). pose proof (finite_bound x).
    destruct y as [ |sy| | ]; try discriminate. cbn [key].
    destruct x as [sx|sx| |sx mx ex Bx]; try discriminate; destruct sy; cbn;
    symmetry; try (apply Rle_bool_true; cbn in *; lra); apply Rle_bool_false; cbn in *; lra.
  - rewrite (key_finite y Fy). pose proof (finite_bound y).
    destruct x as [ |sx| | ]; try discriminate. cbn [key].
    destruct y as [sy|sy| |sy my ey By]; try discriminate; destruct sx; cbn;
    symmetry; try (apply Rle_bool_true; cbn in *; lra); apply Rle_bool_false; cbn in *; lra.
  - pose proof big_pos. destruct x as [ |sx| | ], y as [ |sy| | ]; try discriminate.
    destruct sx, sy; cbn; symmetry; try (apply Rle_bool_true; lra); apply Rle_bool_false; lra.
Qed.

Lemma Bleb_nan (x y : flt_t) : Bleb x y = true -> is_nan x = false /\ is_nan y = false.
Proof.
  destruct x as [sx|sx| |sx mx ex Bx], y as [sy|sy| |sy my ey By]; cbn; try discriminate;
  try (split; reflexivity);
  unfold Bleb, SpecFloat.SFleb; cbn; try discriminate; split; reflexivity.
Qed.

Lemma Bleb_iff (x y : flt_t) :
  Bleb x y = true <-> is_nan x = false /\ is_nan y = false /\ (key x <= key y)%R.
Proof.
  split.
  - intros H. destruct (Bleb_nan x y H) as [Hx Hy]. rewrite Bleb_key in H by assumption.
    split; [assumption|split; [assumption|]]. destruct (Rle_bool_spec (key x) (key y)); [assumption|discriminate].
  - intros [Hx [Hy Hk]]. rewrite Bleb_key by assumption. apply Rle_bool_true. exact Hk.
Qed.

Lemma Bltb_Bleb (x y : flt_t) : Bltb x y = true <-> Bleb x y = true /\ Bleb y x = false.
Proof.
  unfold Bltb, Bleb, SpecFloat.SFltb, SpecFloat.SFleb.
  pose proof (Bcompare_swap prec emax x y) as S. unfold Bcompare in S. rewrite S.
  destruct (SpecFloat.SFcompare (B2SF x) (B2SF y)) as [[]|]; cbn; intuition discriminate.
Qed.

Lemma Beqb_Bleb (x y : flt_t) : Beqb x y = true <-> Bleb x y = true /\ Bleb y x = true.
Proof.
  unfold Beqb, Bleb, SpecFloat.SFeqb, SpecFloat.SFleb.
  pose proof (Bcompare_swap prec emax x y) as S. unfold Bcompare in S. rewrite S.
  destruct (SpecFloat.SFcompare (B2SF x) (B2SF y)) as [[]|]; cbn; intuition discriminate.
Qed.

Lemma number_iff (x : flt_t) : Bleb x x = true <-> is_nan x = false.
Proof. rewrite Bleb_iff. split; [tauto|]. intros H. repeat split; try assumption. apply Rle_refl. Qed.

Lemma finite_not_nan (x : flt_t) : is_finite x = true -> is_nan x = false.
Proof. destruct x; try reflexivity; discriminate. Qed.

(** Values beyond the range are clamped to the keys of the infinities. *)
Definition clamp (r : R) : R :=
  if Rlt_bool (Rabs r) big then r else if Rlt_bool r 0 then (- big)%R else big.

Lemma clamp_mono r s : (r <= s)%R -> (clamp r <= clamp s)%R.
Proof.
  intros H. pose proof big_pos. unfold clamp.
  destruct (Rlt_bool_spec (Rabs r) big) as [A|A]; destruct (Rlt_bool_spec (Rabs s) big) as [B|B];
  [lra| | |];
  try (apply Rabs_def2 in A); try (apply Rabs_def2 in B);
  destruct (Rlt_bool_spec s 0); try destruct (Rlt_bool_spec r 0); try lra;
  unfold Rabs in *; repeat destruct Rcase_abs in *; lra.
Qed.

Lemma sub_key (a b : flt_t) : is_finite a = true -> is_finite b = true ->
  is_nan (Bminus mode_NE a b) = false /\
  key (Bminus mode_NE a b) = clamp (rnd (B2R a - B2R b)).
Proof.
  intros Fa Fb. pose proof (Bminus_correct prec emax Hp He mode_NE a b Fa Fb) as H.
  unfold clamp. destruct (Rlt_bool_spec (Rabs (rnd (B2R a - B2R b))) big) as [Hs|Hs].
  - destruct H as [H1 [H2 _]]. split; [apply finite_not_nan; exact H2|].
    rewrite key_finite by exact H2. exact H1.
  - destruct H as [H1 H2]. cbn [binary_overflow overflow_to_inf] in H1.
    assert (E : Bminus mode_NE a b = B754_infinity (Bsign a)).
    { apply B2SF_inj. rewrite H1. reflexivity. }
    rewrite E. split; [reflexivity|]. cbn [key].
    assert (Z0 : rnd 0 = 0%R) by (apply round_0; auto with typeclass_instances).
    assert (Sg : forall x : flt_t, is_finite x = true -> if Bsign x then (B2R x <= 0)%R else (0 <= B2R x)%R).
    { intros x Fx. destruct x as [s|s| |s m e B]; try discriminate; cbn.
      - destruct s; apply Rle_refl.
      - destruct s; [apply F2R_le_0|apply F2R_ge_0]; cbn; lia. }
    pose proof (Sg a Fa) as Sa. pose proof (Sg b Fb) as Sb. rewrite H2 in Sa.
    pose proof big_pos.
    destruct (Bsign b) eqn:Eb; cbn [negb] in Sa; rewrite H2; cbn [negb].
    + assert (0 <= rnd (B2R a - B2R b))%R.
      { rewrite <- Z0. apply round_le; auto with typeclass_instances. lra. }
      rewrite Rlt_bool_false by assumption. reflexivity.
    + assert (rnd (B2R a - B2R b) <= 0)%R.
      { rewrite <- Z0. apply round_le; auto with typeclass_instances. lra. }
      rewrite Rlt_bool_true; [reflexivity|].
      destruct (Req_dec (rnd (B2R a - B2R b)) 0) as [E0|E0]; [|lra].
      rewrite E0, Rabs_R0 in Hs. lra.
Qed.

Lemma rnd_mono x y : (x <= y)%R -> (rnd x <= rnd y)%R.
Proof. apply round_le; auto with typeclass_instances. Qed.

Lemma Bminus_fin (a b : flt_t) : is_finite (Bminus mode_NE a b) = true -> is_finite a = true /\ is_finite b = true.
Proof. destruct a as [[]|[]| |], b as [[]|[]| |]; cbn; try discriminate; auto. Qed.
Lemma Bplus_fin (a b : flt_t) : is_finite (Bplus mode_NE a b) = true -> is_finite a = true /\ is_finite b = true.
Proof. destruct a as [[]|[]| |], b as [[]|[]| |]; cbn; try discriminate; auto. Qed.
Lemma Bmult_fin (a b : flt_t) : is_finite (Bmult mode_NE a b) = true -> is_finite a = true /\ is_finite b = true.
Proof. destruct a as [[]|[]| |], b as [[]|[]| |]; cbn; try discriminate; auto. Qed.

Lemma Bminus_zero (a : flt_t) : Bminus mode_NE a (B754_zero false) = a.
Proof. destruct a as [[]|[]| |]; reflexivity. Qed.

Lemma Bplus_zero (a : flt_t) : is_finite a = true ->
  is_finite (Bplus mode_NE a (B754_zero false)) = true /\ B2R (Bplus mode_NE a (B754_zero false)) = B2R a.
Proof. destruct a as [[]|[]| |]; try discriminate; cbn; auto. Qed.

Lemma Bmult_finite_spec (a b : flt_t) :
  is_finite (Bmult mode_NE a b) = true -> B2R (Bmult mode_NE a b) = rnd (B2R a * B2R b).
Proof.
  intros F. pose proof (Bmult_correct prec emax Hp He mode_NE a b) as H.
  destruct (Rlt_bool_spec (Rabs (rnd (B2R a * B2R b))) big) as [Hs|Hs].
  - apply H.
  - cbn in H. assert (E : Bmult mode_NE a b = B754_infinity (xorb (Bsign a) (Bsign b))) by (apply B2SF_inj; rewrite H; reflexivity).
    rewrite E in F. discriminate.
Qed.

Lemma rnd_0 : rnd 0 = 0%R. Proof. apply round_0; auto with typeclass_instances. Qed.

Lemma rnd_opp x : rnd (- x) = (- rnd x)%R.
Proof. apply (round_NE_opp radix2 (SpecFloat.fexp prec emax) x). Qed.

Lemma Bsqr_opp (x y : flt_t) : is_finite x = true -> is_finite y = true -> B2R y = (- B2R x)%R ->
  Bmult mode_NE x x = Bmult mode_NE y y.
Proof.
  intros Fx Fy E.
  pose proof (Bmult_correct prec emax Hp He mode_NE x x) as Hx.
  pose proof (Bmult_correct prec emax Hp He mode_NE y y) as Hy.
  rewrite E in Hy. replace (- B2R x * - B2R x)%R with (B2R x * B2R x)%R in Hy by ring.
  rewrite Fx in Hx. rewrite Fy in Hy. cbn [andb] in *. rewrite !xorb_nilpotent in *.
  destruct (Rlt_bool (Rabs (rnd (B2R x * B2R x))) big).
  - destruct Hx as [X1 [X2 X3]], Hy as [Y1 [Y2 Y3]].
    apply B2R_Bsign_inj; try assumption; [congruence|].
    rewrite X3, Y3 by (apply finite_not_nan; assumption). reflexivity.
  - apply B2SF_inj. rewrite Hx, Hy. reflexivity.
Qed.

Lemma Bsub_sqr (a b : flt_t) : is_finite a = true -> is_finite b = true ->
  Bmult mode_NE (Bminus mode_NE a b) (Bminus mode_NE a b)
  = Bmult mode_NE (Bminus mode_NE b a) (Bminus mode_NE b a).
Proof.
  intros Fa Fb.
  pose proof (Bminus_correct prec emax Hp He mode_NE a b Fa Fb) as H1.
  pose proof (Bminus_correct prec emax Hp He mode_NE b a Fb Fa) as H2.
  assert (E : rnd (B2R b - B2R a) = (- rnd (B2R a - B2R b))%R).
  { rewrite <- rnd_opp. f_equal. ring. }
  rewrite E, Rabs_Ropp in H2.
  destruct (Rlt_bool (Rabs (rnd (B2R a - B2R b))) big).
  - destruct H1 as [X1 [X2 _]], H2 as [Y1 [Y2 _]]. apply Bsqr_opp; try assumption. congruence.
  - cbn in H1, H2. destruct H1 as [H1 _], H2 as [H2 _].
    assert (E1 : Bminus mode_NE a b = B754_infinity (Bsign a)) by (apply B2SF_inj; rewrite H1; reflexivity).
    assert (E2 : Bminus mode_NE b a = B754_infinity (Bsign b)) by (apply B2SF_inj; rewrite H2; reflexivity).
    rewrite E1, E2. destruct (Bsign a), (Bsign b); reflexivity.
Qed.

(** Integers up to [2^prec] are represented exactly. *)
Lemma int_format (z : Z) : (Z.abs z <= 2 ^ prec)%Z ->
  generic_format radix2 (SpecFloat.fexp prec emax) (IZR z).
Proof.
  intros Hz. unfold Prec_lt_emax, Prec_gt_0 in *.
  assert (Ez : IZR z = F2R (Float radix2 z 0)) by (unfold F2R; cbn; ring).
  destruct (Z.eq_dec (Z.abs z) (2 ^ prec)) as [E|E].
  - assert (B : generic_format radix2 (SpecFloat.fexp prec emax) (bpow radix2 prec)).
    { apply generic_format_bpow. unfold SpecFloat.fexp, SpecFloat.emin. lia. }
    assert (I : bpow radix2 prec = IZR (2 ^ prec)) by (symmetry; apply (IZR_Zpower radix2); lia).
    destruct (Z.abs_eq_or_opp z) as [A|A]; rewrite A in E.
    + rewrite E, <- I. exact B.
    + replace z with (- 2 ^ prec)%Z by lia. rewrite opp_IZR, <- I. apply generic_format_opp, B.
  - rewrite Ez. apply generic_format_F2R. intros Hnz. cbn [Fexp Fnum] in *.
    unfold cexp. rewrite <- Ez.
    assert (M : (mag radix2 (IZR z) <= prec)%Z).
    { apply mag_le_bpow; [apply not_0_IZR; exact Hnz|].
      rewrite <- abs_IZR, <- (IZR_Zpower radix2) by lia. apply IZR_lt. change (radix_val radix2) with 2%Z. lia. }
    unfold SpecFloat.fexp, SpecFloat.emin. lia.
Qed.

Lemma rnd_int (z : Z) : (Z.abs z <= 2 ^ prec)%Z -> rnd (IZR z) = IZR z.
Proof. intros Hz. apply round_generic; auto with typeclass_instances. apply int_format, Hz. Qed.

Lemma int_bound (z : Z) : (Z.abs z <= 2 ^ prec)%Z -> (Rabs (IZR z) < big)%R.
Proof.
  intros Hz. unfold Prec_lt_emax, Prec_gt_0 in *. rewrite <- abs_IZR.
  apply Rle_lt_trans with (bpow radix2 prec); [|apply bpow_lt; lia].
  rewrite <- (IZR_Zpower radix2) by lia. apply IZR_le. exact Hz.
Qed.

Lemma ieee_of_Z_exact (z : Z) : (Z.abs z <= 2 ^ prec)%Z ->
  is_finite (ieee_of_Z prec emax Hp He z) = true /\ B2R (ieee_of_Z prec emax Hp He z) = IZR z.
Proof.
  intros Hz. pose proof (binary_normalize_correct prec emax Hp He mode_NE z 0 false) as H. cbv zeta in H.
  assert (E : F2R (Float radix2 z 0) = IZR z) by (unfold F2R; cbn; ring).
  rewrite E in H. rewrite rnd_int in H by exact Hz. rewrite Rlt_bool_true in H by (apply int_bound, Hz).
  split; apply H.
Qed.

Lemma neg1_value : is_finite (ieee_of_Z prec emax Hp He (-1)) = true /\ B2R (ieee_of_Z prec emax Hp He (-1)) = (-1)%R.
Proof.
  apply (ieee_of_Z_exact (-1)). unfold Prec_gt_0 in Hp. change (Z.abs (-1)) with 1%Z.
  pose proof (Z.pow_pos_nonneg 2 prec). lia.
Qed.

Lemma ieee_laws (w : N) (conv : N -> Z) : laws (ieee prec emax Hp He w conv).
Proof.
  constructor; cbn -[Bleb Bltb Beqb Bminus Bplus Bmult ieee_of_Z]; unfold is_number, fsqr; cbn -[Bleb Bltb Beqb Bminus Bplus Bmult ieee_of_Z].
  - intros a b H. apply Bleb_nan in H. rewrite !number_iff. exact H.
  - intros a b c H K. apply Bleb_iff in H, K. apply Bleb_iff. repeat split; try tauto. destruct H as [_ [_ H]], K as [_ [_ K]]. lra.
  - intros a b. rewrite !number_iff. intros Ha Hb. rewrite !Bleb_iff.
    destruct (Rle_or_lt (key a) (key b)); [left|right]; repeat split; try assumption. lra.
  - apply Bltb_Bleb.
  - apply Beqb_Bleb.
  - intros a Fa. apply number_iff, finite_not_nan, Fa.
  - reflexivity.
  - apply neg1_value.
  - destruct neg1_value as [F1 E1]. rewrite Bltb_correct by (try assumption; reflexivity).
    rewrite E1. apply Rlt_bool_true. cbn. lra.
  - apply Bplus_fin.
  - apply Bminus_fin.
  - apply Bmult_fin.
  - intros a b Fa Fb. apply number_iff. apply sub_key; assumption.
  - intros a b c Fa Fb Fc H. apply Bleb_iff in H. destruct H as [_ [_ H]]. rewrite !key_finite in H by assumption.
    destruct (sub_key a c Fa Fc) as [N1 K1], (sub_key b c Fb Fc) as [N2 K2].
    apply Bleb_iff. repeat split; try assumption. rewrite K1, K2. apply clamp_mono, rnd_mono. lra.
  - intros a b c Fa Fb Fc H. apply Bleb_iff in H. destruct H as [_ [_ H]]. rewrite !key_finite in H by assumption.
    destruct (sub_key a c Fa Fc) as [N1 K1], (sub_key a b Fa Fb) as [N2 K2].
    apply Bleb_iff. repeat split; try assumption. rewrite K1, K2. apply clamp_mono, rnd_mono. lra.
  - intros a Fa. destruct (sub_key a a Fa Fa) as [N1 K1].
    replace (B2R a - B2R a)%R with 0%R in K1 by ring. rewrite rnd_0 in K1.
    assert (C0 : clamp 0 = 0%R).
    { unfold clamp. rewrite Rabs_R0. rewrite Rlt_bool_true by apply big_pos. reflexivity. }
    rewrite C0 in K1. apply Beqb_Bleb. rewrite !Bleb_iff, K1. cbn. repeat split; try assumption; lra.
  - apply Bminus_zero.
  - intros a Fa. destruct (Bplus_zero a Fa) as [F1 E1]. rewrite Beqb_correct by assumption.
    rewrite E1. apply Req_bool_true. reflexivity.
  - intros a Fa. apply Bplus_zero, Fa.
  - apply Bsub_sqr.
  - intros a Fa. rewrite Bleb_correct by (try assumption; reflexivity).
    rewrite Bmult_finite_spec by assumption. apply Rle_bool_true. cbn. rewrite <- rnd_0. apply rnd_mono.
    apply Rle_0_sqr.
  - intros a b F. destruct (Bmult_fin a b F) as [Fa Fb].
    rewrite !Bleb_correct by (try assumption; reflexivity). rewrite Bmult_finite_spec by assumption.
    cbn [B2R]. intros Ha Hb. apply Rle_bool_true. rewrite <- rnd_0. apply rnd_mono.
    destruct (Rle_bool_spec 0 (B2R a)); [|discriminate]. destruct (Rle_bool_spec 0 (B2R b)); [|discriminate].
    apply Rmult_le_pos; assumption.
  - intros a b Fa Hb.
    assert (Zb : exists s, b = B754_zero s).
    { destruct b as [s|[]| |[] m e B]; try discriminate. exists s; reflexivity. }
    destruct Zb as [s ->]. destruct a as [[]|[]| |[] m e B]; try discriminate; destruct s; reflexivity.
Qed.
End Ieee.

Lemma cpu_laws : laws cpu.
Proof. apply ieee_laws. Qed.
Lemma opencl_laws : laws opencl.
Proof. apply ieee_laws. Qed.
Lemma cuda_laws : laws cuda.
Proof. apply ieee_laws. Qed.

Lemma exact_laws : laws exact.
Proof.
  assert (LE : forall a b : R, Rle_bool a b = true <-> (a <= b)%R).
  { intros a b. split; [destruct (Rle_bool_spec a b); [auto|discriminate]|apply Rle_bool_true]. }
  assert (LF : forall a b : R, Rle_bool a b = false <-> (b < a)%R).
  { intros a b. split; [destruct (Rle_bool_spec a b); [discriminate|auto]|apply Rle_bool_false]. }
  constructor; cbn; unfold is_number, fsqr; cbn.
  - intros a b H. rewrite !LE. lra.
  - intros a b c. rewrite !LE. lra.
  - intros a b. rewrite !LE. lra.
  - intros a b. rewrite LE, LF. destruct (Rlt_bool_spec a b); split; intros; try lra; try discriminate; try reflexivity; destruct H0; lra.
  - intros a b. rewrite !LE. destruct (Req_bool_spec a b); split; intros; try lra; try discriminate; try reflexivity; destruct H0; lra.
  - intros. rewrite LE. lra.
  - reflexivity.
  - reflexivity.
  - apply Rlt_bool_true. lra.
  - auto.
  - auto.
  - auto.
  - intros. rewrite LE. lra.
  - intros a b c _ _ _. rewrite !LE. lra.
  - intros a b c _ _ _. rewrite !LE. lra.
  - intros. apply Req_bool_true. ring.
  - intros. apply Rminus_0_r.
  - intros. apply Req_bool_true. ring.
  - auto.
  - intros. ring.
  - intros. rewrite LE. apply Rle_0_sqr.
  - intros a b _. rewrite !LE. intros. apply Rmult_le_pos; assumption.
  - intros a b _ H. destruct (Req_bool_spec b 0); [|discriminate]. subst. apply Req_bool_true. ring.
Qed.
