(** Arc-consistent problems: lemmas. *)
From Coq Require Import Reals Lra Lia.
From Flocq Require Import Core.Core IEEE754.BinarySingleNaN.
From Verif Require Export Label_proofs Target_proofs Lattice_spec.
Local Open Scope N_scope.

Section Ieee.
Context (prec emax : Z) (Hp : Prec_gt_0 prec) (He : Prec_lt_emax prec emax).

Lemma ieee_of_Z_value (z : Z) : is_finite (ieee_of_Z prec emax Hp He z) = true ->
  B2R (ieee_of_Z prec emax Hp He z) = Generic_fmt.round radix2 (SpecFloat.fexp prec emax) (round_mode mode_NE) (IZR z).
Proof.
  intros F. pose proof (binary_normalize_correct prec emax Hp He mode_NE z 0 false) as H. cbv zeta in H.
  assert (E : F2R (Float radix2 z 0) = IZR z) by (unfold F2R; cbn; ring).
  rewrite E in H. unfold ieee_of_Z in *.
  destruct (Rlt_bool _ _) in H; [apply H|].
  cbn in H. exfalso. revert F H. generalize (binary_normalize prec emax Hp He mode_NE z 0 false).
  intros b F H. destruct b; try discriminate.
Qed.

Lemma ieee_order_laws (w : N) (conv : N -> Z) :
  (forall a b, a <= b -> 2 * b < w -> (conv a <= conv b)%Z) -> order_laws (ieee prec emax Hp He w conv).
Proof.
  intros Hc. constructor; cbn -[Bleb Bmult ieee_of_Z N.mul]; unfold fsqr; cbn -[Bleb Bmult ieee_of_Z N.mul].
  - intros a b L W Fa Fb. rewrite Bleb_correct by assumption. rewrite !ieee_of_Z_value by assumption.
    apply Rle_bool_true. apply rnd_mono. exact Hp. apply IZR_le. apply Hc; assumption.
  - intros c a b Hc0 Hab F1 F2. destruct (Bmult_fin prec emax Hp He c a F1) as [Fc Fa].
    destruct (Bmult_fin prec emax Hp He c b F2) as [_ Fb].
    rewrite Bleb_correct in Hc0, Hab by (try assumption; reflexivity).
    rewrite Bleb_correct by assumption. rewrite !Bmult_finite_spec by assumption.
    apply Rle_bool_true. apply rnd_mono; [exact Hp|].
    destruct (Rle_bool_spec (B2R (B754_zero (prec:=prec) (emax:=emax) false)) (B2R c)) as [L|]; [|discriminate]. cbn in L.
    destruct (Rle_bool_spec (B2R a) (B2R b)); [|discriminate]. apply Rmult_le_compat_l; assumption.
  - intros a b Ha Hab F1 F2. destruct (Bmult_fin prec emax Hp He a a F1) as [Fa _].
    destruct (Bmult_fin prec emax Hp He b b F2) as [_ Fb].
    rewrite Bleb_correct in Ha, Hab by (try assumption; reflexivity).
    rewrite Bleb_correct by assumption. rewrite !Bmult_finite_spec by assumption.
    apply Rle_bool_true. apply rnd_mono; [exact Hp|].
    destruct (Rle_bool_spec (B2R (B754_zero (prec:=prec) (emax:=emax) false)) (B2R a)) as [L|]; [|discriminate]. cbn in L.
    destruct (Rle_bool_spec (B2R a) (B2R b)); [|discriminate]. apply Rmult_le_compat; assumption.
Qed.
End Ieee.

Lemma cpu_order : order_laws cpu.
Proof. apply ieee_order_laws. intros. lia. Qed.
Lemma opencl_order : order_laws opencl.
Proof. apply ieee_order_laws. intros. lia. Qed.
Lemma cuda_order : order_laws cuda.
Proof.
  apply ieee_order_laws. intros a b L W. unfold int_of_unsigned.
  destruct (N.ltb_spec a (2 ^ 31)); destruct (N.ltb_spec b (2 ^ 31)); lia.
Qed.
Lemma exact_order : order_laws exact.
Proof.
  assert (LE : forall a b : R, Rle_bool a b = true <-> (a <= b)%R).
  { intros a b. split; [destruct (Rle_bool_spec a b); [auto|discriminate]|apply Rle_bool_true]. }
  constructor; cbn -[N.mul]; unfold fsqr; cbn -[N.mul].
  - intros a b L _ _ _. apply LE, IZR_le. lia.
  - intros c a b H1 H2 _ _. rewrite LE in *. apply Rmult_le_compat_l; assumption.
  - intros a b H1 H2 _ _. rewrite LE in *. apply Rmult_le_compat; assumption.
Qed.

Section Graph.
Context {T : target} (HL : laws T) (HO : order_laws T).
Implicit Type cg : cgraph T.
Notation G cg := (cg_graph cg).
Notation nd p d := {| npix := p; disp := d |}.

(** Closer disparities have a smaller penalty. *)
Lemma epen_between (g : dgraph T) x x' y y' : x' <= x -> x <= y -> y <= y' -> 2 * y' < wmod T ->
  flt (smoothness g) fzero = false ->
  ffin (epen g x y) = true -> ffin (epen g x' y') = true ->
  fle (epen g x y) (epen g x' y') = true.
Proof.
  intros H1 H2 H3 Hw Hs F F'.
  rewrite (epen_sym HL g x y F), (epen_sym HL g x' y' F').
  assert (Fs : ffin (epen g y x) = true) by (rewrite <- (epen_sym HL g x y F); exact F).
  assert (Fs' : ffin (epen g y' x') = true) by (rewrite <- (epen_sym HL g x' y' F'); exact F').
  destruct (epen_fin_parts HL g y x Fs) as [Fm [Fq [Fd [Fy Fx]]]].
  destruct (epen_fin_parts HL g y' x' Fs') as [_ [Fq' [Fd' [Fy' Fx']]]].
  assert (L1 : fle (of_u (t := T) x') (of_u x) = true) by (apply (of_u_mono T HO); try assumption; lia).
  assert (L2 : fle (of_u (t := T) x) (of_u y) = true) by (apply (of_u_mono T HO); try assumption; lia).
  assert (L3 : fle (of_u (t := T) y) (of_u y') = true) by (apply (of_u_mono T HO); try assumption; lia).
  unfold epen. apply (mul_mono T HO); try assumption.
  - apply (not_flt_le HL); [apply (fin_number T HL); exact Fm|apply (fin_number T HL), (fin_zero T HL)|exact Hs].
  - apply (sqr_mono T HO); try assumption.
    + eapply (fle_trans T HL); [|apply (sub_mono_r T HL (of_u y) (of_u x) (of_u y)); assumption].
      apply (feq_ge HL). apply (sub_self T HL). exact Fy.
    + eapply (fle_trans T HL); [apply (sub_mono_l T HL (of_u y) (of_u y')); assumption|].
      apply (sub_mono_r T HL); assumption.
Qed.

Lemma level_small cg d : wf_graph (G cg) -> d < levels (G cg) -> 2 * d < wmod T.
Proof.
  intros Hw Hd. pose proof (wf_wrap _ Hw). pose proof (wf_levels _ Hw). pose proof (wf_levels_width _ Hw).
  pose proof (wf_rows _ Hw).
  assert (1 <= width (right (G cg)) * height (right (G cg))) by nia. nia.
Qed.

Lemma ewb_zero cg n n' : plain_problem cg -> match_exists (G cg) n -> match_exists (G cg) n' ->
  adjacent (npix n) (npix n') ->
  ewb cg {| enode := n; enbr := n' |} = true <-> fle (epen (G cg) (disp n) (disp n')) (cg_threshold cg) = true.
Proof.
  intros [Hc Hl Hz Hf Hs] M M' A. rewrite ewb_iff. pose proof (wfc_graph cg Hc) as Hw.
  destruct (Hl {| enode := n; enbr := n' |} (proj1 M) (proj1 M') A) as [m [Em [Fm Zm]]].
  pose proof (epen_fin HL (G cg) n n' Hw Hz Hf M M' A) as Fv.
  rewrite (edge_within_excess (G cg) (cg_lowest cg) (cg_threshold cg) _ (fsub (epen (G cg) (disp n) (disp n')) m)).
  - apply (feq_le_iff HL). rewrite <- (sub_zero T HL (epen (G cg) (disp n) (disp n'))) at 2.
    apply (sub_feq_r HL); try assumption. apply (fin_zero T HL).
  - exists (epen (G cg) (disp n) (disp n')), m. split; [apply epen_eq; try assumption; try apply M; apply M'|]. auto.
Qed.

Lemma plain_made g lp t cg : wf_graph g -> make_lowest g = Ok lp -> make_constraint g lp t = Ok cg ->
  zero_reparam g -> finite_penalties g -> nonneg_weights g -> plain_problem cg.
Proof.
  intros Hw Hl Hc Hz Hf Hn. destruct (make_constraint_Ok g lp t cg Hw Hl Hc) as [Wc [Eg [El _]]].
  constructor; rewrite ?Eg, ?El; try assumption. intros e Hp Hq A.
  rewrite (lowest_nbr_value g lp e Hw Hl Hp Hq A). apply (lowest_nbr_zero HL); assumption.
Qed.

Lemma compat_sym cg n n' : plain_problem cg -> compat cg n n' -> compat cg n' n.
Proof.
  intros P [[M [M' [A O]]] E]. cbn [enode enbr] in *. split.
  - split; [exact M'|]. split; [exact M|]. cbn [enode enbr]. split; [apply adjacent_sym; exact A|].
    unfold in_order in *. tauto.
  - apply (ewb_zero cg n n' P M M' A) in E. apply (ewb_zero cg n' n P M' M (adjacent_sym _ _ A)).
    rewrite (epen_sym HL (G cg) (disp n') (disp n)); [exact E|].
    apply (epen_fin HL); try apply P; try assumption. apply adjacent_sym; exact A.
Qed.

(** The constraint between two pixels contains, with two pairs, a pair that lies
    between them. *)
Lemma compat_between cg a b a' b' : plain_problem cg ->
  match_exists (G cg) a -> match_exists (G cg) b -> compat cg a' b' ->
  npix a' = npix a -> npix b' = npix b ->
  (disp a <= disp b /\ disp a' <= disp a /\ disp b <= disp b') \/
  (disp b <= disp a /\ disp b' <= disp b /\ disp a <= disp a') ->
  compat cg a b.
Proof.
  intros P Ma Mb [[Ma' [Mb' [A O]]] E] Ea Eb H. cbn [enode enbr] in *.
  pose proof (wfc_graph cg (pp_wf cg P)) as Hw.
  assert (A0 : adjacent (npix a) (npix b)) by (rewrite <- Ea, <- Eb; exact A).
  apply (ewb_zero cg a' b' P Ma' Mb' A) in E.
  pose proof (epen_fin HL (G cg) a b Hw (pp_zero cg P) (pp_finite cg P) Ma Mb A0) as F.
  pose proof (epen_fin HL (G cg) a' b' Hw (pp_zero cg P) (pp_finite cg P) Ma' Mb' A) as F'.
  split.
  - split; [exact Ma|]. split; [exact Mb|]. cbn [enode enbr]. split; [exact A0|].
    unfold in_order, horizontal_pair in *. rewrite <- Ea, <- Eb. split; intros X; [destruct O as [O _]|destruct O as [_ O]];
      specialize (O X); destruct X as [X1 X2]; lia.
  - apply ewb_zero; try assumption. eapply (fle_trans T HL); [|exact E].
    pose proof (level_small cg (disp a') Hw (proj1 (proj2 Ma'))) as W1.
    pose proof (level_small cg (disp b') Hw (proj1 (proj2 Mb'))) as W2.
    destruct H as [[H1 [H2 H3]]|[H1 [H2 H3]]].
    + apply epen_between; try assumption. apply (pp_weights cg P).
    + rewrite (epen_sym HL _ _ _ F), (epen_sym HL _ _ _ F').
      apply epen_between; try assumption; [apply (pp_weights cg P)| |].
      * rewrite <- (epen_sym HL _ _ _ F). exact F.
      * rewrite <- (epen_sym HL _ _ _ F'). exact F'.
Qed.

Lemma compat_low cg a b a1 b1 : plain_problem cg -> compat cg a b1 -> compat cg b a1 ->
  npix a1 = npix a -> npix b1 = npix b -> disp a <= disp a1 -> disp b <= disp b1 -> compat cg a b.
Proof.
  intros P C1 C2 Ea Eb La Lb. pose proof C1 as [[Ma _] _]. pose proof C2 as [[Mb _] _]. cbn [enode] in *.
  destruct (N.le_ge_cases (disp a) (disp b)) as [H|H].
  - apply (compat_between cg a b a b1 P Ma Mb C1 eq_refl Eb). left. lia.
  - apply (compat_between cg a b a1 b P Ma Mb (compat_sym cg _ _ P C2) Ea eq_refl). right. lia.
Qed.

Lemma compat_high cg a b a1 b1 : plain_problem cg -> compat cg a b1 -> compat cg b a1 ->
  npix a1 = npix a -> npix b1 = npix b -> disp a1 <= disp a -> disp b1 <= disp b -> compat cg a b.
Proof.
  intros P C1 C2 Ea Eb La Lb. pose proof C1 as [[Ma _] _]. pose proof C2 as [[Mb _] _]. cbn [enode] in *.
  destruct (N.le_ge_cases (disp a) (disp b)) as [H|H].
  - apply (compat_between cg a b a1 b P Ma Mb (compat_sym cg _ _ P C2) Ea eq_refl). left. lia.
  - apply (compat_between cg a b a b1 P Ma Mb C1 eq_refl Eb). right. lia.
Qed.

(** *** Labelings *)

Lemma solution_compat cg k : wf_cgraph cg ->
  solution cg k <->
  (forall p, in_image (G cg) p -> match_exists (G cg) (label_node k p) /\ avb cg (cg_avail cg) (label_node k p) = true) /\
  (forall p q, in_image (G cg) p -> in_image (G cg) q -> adjacent p q -> compat cg (label_node k p) (label_node k q)).
Proof.
  intros Hc. split.
  - intros [[Hk Ho] [Ha He]]. split.
    + intros p Hp. split; [apply Hk; exact Hp|]. apply available_iff; [exact Hc|apply match_inb, Hk; exact Hp|apply Ha; exact Hp].
    + intros p q Hp Hq A. split; [|apply ewb_iff; apply He; assumption].
      split; [apply Hk; exact Hp|]. split; [apply Hk; exact Hq|]. split; [exact A|apply Ho; assumption].
  - intros [Hk HC]. split; [split|split].
    + intros p Hp. apply Hk; exact Hp.
    + intros p q Hp Hq A. destruct (HC p q Hp Hq A) as [[_ [_ [_ O]]] _]. exact O.
    + intros p Hp. destruct (Hk p Hp) as [M A]. apply available_iff; [exact Hc|apply match_inb; exact M|exact A].
    + intros p q Hp Hq A. destruct (HC p q Hp Hq A) as [_ E]. apply ewb_iff. exact E.
Qed.

Lemma lower_solution cg k k' : plain_problem cg -> solution cg k -> solution cg k' ->
  solution cg (lower_labeling k k') /\ solution cg (upper_labeling k k').
Proof.
  intros P S S'. pose proof (pp_wf cg P) as Hc.
  apply (solution_compat cg k Hc) in S. apply (solution_compat cg k' Hc) in S'.
  destruct S as [K C], S' as [K' C'].
  assert (One : forall j, (forall p, j p = k p \/ j p = k' p) -> forall p, in_image (G cg) p ->
    match_exists (G cg) (label_node j p) /\ avb cg (cg_avail cg) (label_node j p) = true).
  { intros j Hj p Hp. unfold label_node. destruct (Hj p) as [->| ->]; [apply (K p Hp)|apply (K' p Hp)]. }
  split; apply solution_compat; try exact Hc; split.
  - apply One. intros p. unfold lower_labeling. lia.
  - intros p q Hp Hq A. pose proof (adjacent_sym _ _ A) as A'.
    pose proof (C p q Hp Hq A) as C1. pose proof (C' p q Hp Hq A) as C2.
    pose proof (C q p Hq Hp A') as C3. pose proof (C' q p Hq Hp A') as C4.
    unfold label_node, lower_labeling in *.
    destruct (N.le_ge_cases (k p) (k' p)) as [L1|L1]; destruct (N.le_ge_cases (k q) (k' q)) as [L2|L2];
      rewrite ?(N.min_l (k p) (k' p)), ?(N.min_r (k p) (k' p)), ?(N.min_l (k q) (k' q)), ?(N.min_r (k q) (k' q)) by assumption;
      try assumption.
    + apply (compat_low cg _ _ (nd p (k' p)) (nd q (k q)) P); try assumption; reflexivity.
    + apply (compat_low cg _ _ (nd p (k p)) (nd q (k' q)) P); try assumption; reflexivity.
  - apply One. intros p. unfold upper_labeling. lia.
  - intros p q Hp Hq A. pose proof (adjacent_sym _ _ A) as A'.
    pose proof (C p q Hp Hq A) as C1. pose proof (C' p q Hp Hq A) as C2.
    pose proof (C q p Hq Hp A') as C3. pose proof (C' q p Hq Hp A') as C4.
    unfold label_node, upper_labeling in *.
    destruct (N.le_ge_cases (k p) (k' p)) as [L1|L1]; destruct (N.le_ge_cases (k q) (k' q)) as [L2|L2];
      rewrite ?(N.max_l (k p) (k' p)), ?(N.max_r (k p) (k' p)), ?(N.max_l (k q) (k' q)), ?(N.max_r (k q) (k' q)) by assumption;
      try assumption.
    + apply (compat_high cg _ _ (nd p (k p)) (nd q (k' q)) P); try assumption; reflexivity.
    + apply (compat_high cg _ _ (nd p (k' p)) (nd q (k q)) P); try assumption; reflexivity.
Qed.

(** *** Settled problems *)

Lemma settled_rmvb cg : wf_cgraph cg ->
  settled cg <-> forall n, match_exists (G cg) n -> rmvb cg (cg_avail cg) n = false.
Proof.
  intros Hc. assert (X : forall n, match_exists (G cg) n ->
    exec (fun cg => should_remove_node cg n) cg = Ok (rmvb cg (cg_avail cg) n, cg)).
  { intros n M. unfold exec. rewrite run_should_remove; [|apply wf_static; exact Hc|apply (wfc_avail cg Hc)|apply match_inb; exact M].
    cbn [bind fst snd]. rewrite with_avail_same. reflexivity. }
  split; intros H n M.
  - specialize (H n M). rewrite (X n M) in H. injection H; auto.
  - rewrite (X n M), (H n M). reflexivity.
Qed.

Lemma settled_support cg n q : wf_cgraph cg -> settled cg -> match_exists (G cg) n -> available cg n ->
  in_image (G cg) q -> adjacent (npix n) q ->
  exists n', npix n' = q /\ match_exists (G cg) n' /\ available cg n' /\ compat cg n n'.
Proof.
  intros Hc Hs M Av Hq A. rewrite settled_rmvb in Hs by exact Hc.
  apply available_iff in Av; [|exact Hc|apply match_inb; exact M].
  destruct (not_removed cg (cg_avail cg) n q (wf_static cg Hc) (match_inb cg n M) Av (Hs n M) Hq A) as [n' [E [A' C]]].
  exists n'. pose proof C as [[_ [M' _]] _]. cbn [enbr] in M'.
  split; [exact E|]. split; [exact M'|]. split; [|exact C].
  apply available_iff; [exact Hc|apply match_inb; exact M'|exact A'].
Qed.

Lemma settled_extreme cg k : plain_problem cg -> settled cg ->
  smallest_available cg k \/ largest_available cg k -> solution cg k.
Proof.
  intros P Hs Hk. pose proof (pp_wf cg P) as Hc. apply solution_compat; [exact Hc|].
  assert (B : forall p, in_image (G cg) p -> match_exists (G cg) (label_node k p) /\ available cg (label_node k p)).
  { intros p Hp. destruct Hk as [H|H]; destruct (H p Hp) as [X [Y _]]; split; assumption. }
  split.
  - intros p Hp. destruct (B p Hp) as [M A]. split; [exact M|].
    apply available_iff in A; [exact A|exact Hc|apply match_inb; exact M].
  - intros p q Hp Hq A.
    destruct (settled_support cg (label_node k p) q Hc Hs (proj1 (B p Hp)) (proj2 (B p Hp)) Hq A) as [[q1 d1] [E1 [M1 [V1 C1]]]].
    destruct (settled_support cg (label_node k q) p Hc Hs (proj1 (B q Hq)) (proj2 (B q Hq)) Hp (adjacent_sym _ _ A)) as [[p1 d2] [E2 [M2 [V2 C2]]]].
    cbn [npix] in E1, E2. subst q1 p1.
    destruct Hk as [H|H]; destruct (H p Hp) as [_ [_ Lp]]; destruct (H q Hq) as [_ [_ Lq]].
    + apply (compat_low cg _ _ (nd p d2) (nd q d1) P C1 C2); try reflexivity; cbn [disp label_node]; auto.
    + apply (compat_high cg _ _ (nd p d2) (nd q d1) P C1 C2); try reflexivity; cbn [disp label_node]; auto.
Qed.

(** The smallest available disparities exist. *)
Lemma smallest_ex cg : wf_cgraph cg -> everywhere_available cg -> exists k, smallest_available cg k.
Proof.
  intros Hc He. pose proof (wf_static cg Hc) as Hs.
  exists (fun p => match first_label cg (cg_avail cg) p with Some d => d | None => 0 end).
  intros p Hp. pose proof (first_label_spec cg (cg_avail cg) p Hs Hp) as F.
  destruct (He p Hp) as [[p' d0] [E [M A]]]. cbn [npix] in E. subst p'.
  apply available_iff in A; [|exact Hc|apply match_inb; exact M].
  assert (Hh : hasb cg (cg_avail cg) p = true).
  { apply hasb_iff; [exact Hs|exact Hp|]. exists (nd p d0). auto. }
  unfold label_node. destruct (first_label cg (cg_avail cg) p) as [d|]; [|congruence].
  destruct F as [M1 [A1 L1]]. split; [exact M1|]. split; [apply available_iff; [exact Hc|apply match_inb; exact M1|exact A1]|].
  intros d' M' A'. apply L1; [exact M'|]. apply available_iff in A'; [exact A'|exact Hc|apply match_inb; exact M'].
Qed.

Lemma settled_solution cg : plain_problem cg -> settled cg -> everywhere_available cg -> exists k, solution cg k.
Proof.
  intros P Hs He. destruct (smallest_ex cg (pp_wf cg P) He) as [k Hk]. exists k.
  apply settled_extreme; auto.
Qed.
End Graph.
