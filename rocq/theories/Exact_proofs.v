(** Exact arithmetic: lemmas. *)
From Coq Require Import Reals Lra Lia.
From Flocq Require Import Core.Core IEEE754.BinarySingleNaN.
From Verif Require Export Exact_spec Greedy_proofs.
Local Open Scope Z_scope.

Section Ieee.
Context (prec emax : Z) (Hp : Prec_gt_0 prec) (He : Prec_lt_emax prec emax) (w : N) (conv : N -> Z).
Notation B := (ieee prec emax Hp He w conv).
Notation P := (2 ^ prec).
Notation rnd := (round radix2 (SpecFloat.fexp prec emax) (round_mode mode_NE)).
Notation is_int := (@is_int prec emax).

Lemma int_add (x y : F B) a b : is_int x a -> is_int y b -> Z.abs (a + b) <= P -> is_int (fadd x y) (a + b).
Proof.
  intros [Fx Ex] [Fy Ey] H. pose proof (Bplus_correct prec emax Hp He mode_NE x y Fx Fy) as C.
  rewrite Ex, Ey, <- plus_IZR, (rnd_int prec emax Hp He) in C by exact H.
  rewrite Rlt_bool_true in C by (apply (int_bound prec emax Hp He); exact H).
  destruct C as [C1 [C2 _]]. split; assumption.
Qed.
Lemma int_sub (x y : F B) a b : is_int x a -> is_int y b -> Z.abs (a - b) <= P -> is_int (fsub x y) (a - b).
Proof.
  intros [Fx Ex] [Fy Ey] H. pose proof (Bminus_correct prec emax Hp He mode_NE x y Fx Fy) as C.
  rewrite Ex, Ey, <- minus_IZR, (rnd_int prec emax Hp He) in C by exact H.
  rewrite Rlt_bool_true in C by (apply (int_bound prec emax Hp He); exact H).
  destruct C as [C1 [C2 _]]. split; assumption.
Qed.
Lemma int_mul (x y : F B) a b : is_int x a -> is_int y b -> Z.abs (a * b) <= P -> is_int (fmul x y) (a * b).
Proof.
  intros [Fx Ex] [Fy Ey] H. pose proof (Bmult_correct prec emax Hp He mode_NE x y) as C.
  rewrite Ex, Ey, <- mult_IZR, (rnd_int prec emax Hp He) in C by exact H.
  rewrite Rlt_bool_true in C by (apply (int_bound prec emax Hp He); exact H).
  destruct C as [C1 [C2 _]]. split; [|exact C1]. cbn. rewrite C2, Fx, Fy. reflexivity.
Qed.
Lemma int_zero : is_int (@fzero B) 0. Proof. split; reflexivity. Qed.
Lemma int_le (x y : F B) a b : is_int x a -> is_int y b -> fle x y = true <-> a <= b.
Proof.
  intros [Fx Ex] [Fy Ey]. cbn [fle ieee]. rewrite Bleb_correct by assumption. rewrite Ex, Ey.
  destruct (Rle_bool_spec (IZR a) (IZR b)) as [H|H]; split; intros X; try reflexivity; try discriminate.
  - apply le_IZR. exact H.
  - apply IZR_le in X. lra.
Qed.
Lemma small_compare (x y : F B) a b : is_int x a -> is_int y b ->
  (fle x y = true <-> a <= b) /\ (flt x y = true <-> a < b) /\ (feq x y = true <-> a = b).
Proof.
  intros Hx Hy. pose proof (int_le x y a b Hx Hy) as L1. pose proof (int_le y x b a Hy Hx) as L2.
  split; [exact L1|]. split.
  - rewrite (flt_spec B (ieee_laws prec emax Hp He w conv)), L1. destruct (fle y x) eqn:E; split; intros X.
    + destruct X; discriminate.
    + pose proof (proj1 L2 eq_refl). lia.
    + destruct X as [X _]. assert (~ b <= a) by (intros Y; apply L2 in Y; discriminate). lia.
    + split; [lia|reflexivity].
  - rewrite (feq_spec B (ieee_laws prec emax Hp He w conv)), L1, L2. lia.
Qed.

Lemma int_unique (x : F B) a b : is_int x a -> is_int x b -> a = b.
Proof. intros [_ Ea] [_ Eb]. apply eq_IZR. congruence. Qed.
Lemma int_fin (x : F B) a : is_int x a -> ffin x = true.
Proof. intros [H _]. exact H. Qed.

(** Conversions of small unsigned numbers are exact. *)
Hypothesis Hconv : forall n, Z.of_N n <= P -> conv n = Z.of_N n.

Lemma int_of_u n : Z.of_N n <= P -> is_int (@of_u B n) (Z.of_N n).
Proof.
  intros H. cbn [of_u ieee]. rewrite (Hconv n H). apply (ieee_of_Z_exact prec emax Hp He). lia.
Qed.

Lemma sqr_bound a b m : 0 <= a <= m -> 0 <= b <= m -> 0 <= (a - b) ^ 2 <= m ^ 2.
Proof.
  intros H1 H2. rewrite !Z.pow_2_r. rewrite <- (Z.abs_square (a - b)). split; [apply Z.square_nonneg|].
  apply Z.square_le_mono_nonneg; lia.
Qed.
Lemma sqr_le m z : 0 <= m -> m ^ 2 <= z -> m <= z.
Proof. intros H1 H2. rewrite Z.pow_2_r in H2. nia. Qed.

Lemma int_term (k : F B) c (x y : N) m : is_int k c -> 0 <= c -> Z.of_N x <= m -> Z.of_N y <= m ->
  m ^ 2 <= P -> c * m ^ 2 <= P ->
  is_int (fmul k (fsqr (fsub (@of_u B x) (of_u y)))) (c * (Z.of_N x - Z.of_N y) ^ 2) /\
  0 <= c * (Z.of_N x - Z.of_N y) ^ 2 <= c * m ^ 2.
Proof.
  intros Hk Hc Hx Hy H1 H2. assert (Hm : m <= P) by (apply sqr_le; lia).
  pose proof (sqr_bound (Z.of_N x) (Z.of_N y) m ltac:(lia) ltac:(lia)) as S.
  assert (R : 0 <= c * (Z.of_N x - Z.of_N y) ^ 2 <= c * m ^ 2) by nia.
  split; [|exact R].
  apply int_mul; [exact Hk| |lia]. rewrite Z.pow_2_r in *. unfold fsqr. apply int_mul; [| |lia]; apply int_sub; try (apply int_of_u); lia.
Qed.

(** *** A problem with small integer penalties *)

Section Problem.
Context (g : dgraph B) (lp : lowest B) (c s m : Z).
Hypotheses (Hw : wf_graph g) (Hz : zero_reparam g)
  (Hc : is_int (cleanness g) c) (Hs : is_int (smoothness g) s) (Pc : 0 <= c) (Ps : 0 <= s)
  (Hm : forall v, In v (data (left g)) \/ In v (data (right g)) -> Z.of_N v <= m)
  (B1 : m ^ 2 <= P) (B2 : c * m ^ 2 <= P)
  (B3 : Z.of_N (levels g) ^ 2 <= P) (B4 : s * Z.of_N (levels g) ^ 2 <= P).
Notation cost := (node_cost (left g) (right g) c).

Lemma get_intensity img p v : get (data img) (py p * width img + px p)%N = Ok v -> brightness img p = Z.of_N v.
Proof. intros H. apply get_map_labeling in H. unfold brightness. unfold map_labeling in H. rewrite H. reflexivity. Qed.

Lemma potential_zero i r : get (reparam g) i = Ok r -> r = fzero.
Proof. intros X. apply Hz. apply get_In in X. exact X. Qed.

Lemma exact_node n : match_exists g n ->
  exists v, node_penalty g n = Ok v /\ is_int v (cost n) /\ 0 <= cost n <= P.
Proof.
  intros Hn. destruct (node_penalty_formula g n Hw Hn) as (vr & vl & r0 & r1 & r2 & r3 & E1 & E2 & R0 & R1 & R2 & R3 & E).
  apply potential_zero in R0, R1, R2, R3. subst r0 r1 r2 r3. eexists. split; [exact E|].
  assert (V : Z.of_N vr <= m /\ Z.of_N vl <= m) by (split; apply Hm; [right|left]; eapply get_In; eassumption).
  destruct (int_term (cleanness g) c vr vl m Hc Pc (proj1 V) (proj2 V) B1 B2) as [I R].
  assert (Ec : cost n = c * (Z.of_N vr - Z.of_N vl) ^ 2).
  { unfold node_cost. rewrite (get_intensity (right g) (npix n) vr E1). f_equal. f_equal. f_equal.
    apply get_intensity. cbn [px py]. rewrite (wf_width g Hw). exact E2. }
  rewrite Ec. split; [|lia].
  assert (A : forall x : F B, forall z, is_int x z -> Z.abs z <= P -> is_int (fadd x fzero) z).
  { intros x z Hx Hb. rewrite <- (Z.add_0_r z). apply int_add; [exact Hx|exact int_zero|lia]. }
  repeat (apply A; [|lia]). exact I.
Qed.

Lemma exact_edge n n' : match_exists g n -> match_exists g n' -> adjacent (npix n) (npix n') ->
  exists v, edge_penalty g {| enode := n; enbr := n' |} = Ok v /\ is_int v (edge_cost s (disp n) (disp n')) /\
    0 <= edge_cost s (disp n) (disp n') <= P.
Proof.
  intros [Hn [Hnd _]] [Hn' [Hnd' _]] A.
  assert (S : exists k, slot_of k (npix n) (npix n')).
  { destruct A as [X|[X|[X|X]]]; [exists 0%N|exists 1%N|exists 2%N|exists 3%N]; unfold slot_of; tauto. }
  destruct S as [k S].
  destruct (edge_penalty_formula g n n' k Hw Hn Hnd Hn' Hnd' S) as (r1 & r2 & E1 & E2 & E).
  apply potential_zero in E1, E2. subst r1 r2. eexists. split; [exact E|].
  destruct (int_term (smoothness g) s (disp n) (disp n') (Z.of_N (levels g)) Hs Ps ltac:(lia) ltac:(lia) B3 B4) as [I R].
  unfold edge_cost. split; [|lia].
  rewrite !(sub_zero B (ieee_laws prec emax Hp He w conv)). exact I.
Qed.

Lemma exact_finite : finite_penalties g.
Proof.
  split.
  - intros n Hn. destruct (exact_node n Hn) as [v [E [I _]]]. exists v. split; [exact E|eapply int_fin; exact I].
  - intros [n n'] Hn Hn' A. destruct (exact_edge n n' Hn Hn' A) as [v [E [I _]]]. exists v. split; [exact E|eapply int_fin; exact I].
Qed.

Lemma exact_weights : nonneg_weights g.
Proof.
  assert (X : forall (k : F B) z, is_int k z -> 0 <= z -> flt k fzero = false).
  { intros k z Hk Pz. destruct (flt k fzero) eqn:E; [|reflexivity].
    apply (flt_spec B (ieee_laws prec emax Hp He w conv)) in E. destruct E as [_ E].
    rewrite (proj2 (int_le _ _ _ _ int_zero Hk) Pz) in E. discriminate. }
  split; eapply X; eassumption.
Qed.

Lemma match_spec n : match_exists g n <-> is_match (right g) (levels g) n.
Proof. reflexivity. Qed.

Hypothesis Hl : make_lowest g = Ok lp.

Lemma exact_lowest p : in_image g p -> exists v z, lowest_pixel_penalty lp p = Ok v /\ is_int v z /\
  lowest_cost (left g) (right g) (levels g) c p z /\ 0 <= z <= P.
Proof.
  intros Hi. destruct (lowest_pixel_is_min (ieee_laws prec emax Hp He w conv) g lp p Hw Hl Hi) as [v [Ev [[n [En [Mn Vn]]] Min]]].
  destruct (exact_node n Mn) as [v' [Ev' [I R]]]. assert (v' = v) by congruence. subst v'.
  exists v, (cost n). split; [exact Ev|]. split; [exact I|]. split; [|exact R]. split.
  - exists n. split; [exact En|]. split; [exact Mn|reflexivity].
  - intros n1 E1 M1. destruct (exact_node n1 M1) as [v1 [Ev1 [I1 _]]].
    apply (int_le v v1 _ _ I I1). apply (Min) with n1; try assumption.
    intros n2 v2 _ M2 V2. destruct (exact_node n2 M2) as [v2' [Ev2 [I2 _]]]. assert (v2' = v2) by congruence. subst v2'.
    apply (fin_number B (ieee_laws prec emax Hp He w conv)). eapply int_fin; exact I2.
Qed.

Lemma lowest_cost_unique p z z' : lowest_cost (left g) (right g) (levels g) c p z ->
  lowest_cost (left g) (right g) (levels g) c p z' -> z = z'.
Proof.
  intros [[n [En [Mn Vn]]] Mz] [[n' [En' [Mn' Vn']]] Mz'].
  specialize (Mz n' En' Mn'). specialize (Mz' n En Mn). lia.
Qed.

Lemma exact_node_excess n : match_exists g n -> exists v z, lowest_cost (left g) (right g) (levels g) c (npix n) z /\
  node_excess g lp n v /\ is_int v (cost n - z) /\ 0 <= cost n - z <= P.
Proof.
  intros Hn. destruct (exact_node n Hn) as [v [Ev [I R]]].
  destruct (exact_lowest (npix n) (proj1 Hn)) as [v' [z [Ev' [I' [L R']]]]].
  pose proof (proj2 L n eq_refl Hn) as Le.
  exists (fsub v v'), z. split; [exact L|]. split; [exists v, v'; auto|]. split; [apply int_sub; [exact I|exact I'|lia]|lia].
Qed.

Lemma exact_neighborhood p q : in_image g p -> in_image g q -> adjacent p q ->
  exists v, calculate_lowest_neighborhood_penalty g p q = Ok v /\ is_int v 0.
Proof.
  intros Hi Hq A.
  destruct (lowest_nbr_Ok g p q Hw Hi Hq A) as [m0 [E [d [d' [M [M' [_ X]]]]]]].
  exists m0. split; [exact E|]. unfold pair_edge in X. cbn [fst snd] in X.
  destruct (exact_edge _ _ M M' A) as [v [Ev [I R]]]. assert (v = m0) by congruence. subst v.
  pose proof (zero_match g p Hw Hi) as Z1. pose proof (zero_match g q Hw Hq) as Z2.
  destruct (exact_edge _ _ Z1 Z2 A) as [v0 [Ev0 [I0 _]]]. cbn [disp] in I0.
  replace (edge_cost s 0 0) with 0 in I0 by (unfold edge_cost; cbn; lia).
  assert (Le : fle m0 v0 = true).
  { apply (lowest_nbr_min (ieee_laws prec emax Hp He w conv) g p q m0 Hw Hi Hq A) with 0%N 0%N; try assumption.
    - intros d1 d2 v1 M1 M2 V1. destruct (exact_edge _ _ M1 M2 A) as [v1' [V1' [I1 _]]]. unfold pair_edge in V1. cbn [fst snd] in V1.
      assert (v1' = v1) by congruence. subst v1'. apply (fin_number B (ieee_laws prec emax Hp He w conv)). eapply int_fin; exact I1.
    - right. lia. }
  apply (int_le m0 v0 _ _ I I0) in Le. cbn [disp] in *.
  replace 0 with (edge_cost s d d') by lia. exact I.
Qed.

Lemma exact_edge_excess n n' : match_exists g n -> match_exists g n' -> adjacent (npix n) (npix n') ->
  exists v, edge_excess g lp {| enode := n; enbr := n' |} v /\ is_int v (edge_cost s (disp n) (disp n')).
Proof.
  intros Hn Hn' A. destruct (exact_edge n n' Hn Hn' A) as [v [Ev [I R]]].
  destruct (exact_neighborhood (npix n) (npix n') (proj1 Hn) (proj1 Hn') A) as [v0 [Ev0 I0]].
  exists (fsub v v0). split.
  - exists v, v0. split; [exact Ev|]. split; [|reflexivity].
    rewrite (lowest_nbr_value g lp {| enode := n; enbr := n' |} Hw Hl (proj1 Hn) (proj1 Hn') A). exact Ev0.
  - rewrite <- (Z.sub_0_r (edge_cost s (disp n) (disp n'))). apply int_sub; [exact I|exact I0|lia].
Qed.

(** *** Bounds *)

Lemma exact_node_within t b n : is_int t b -> match_exists g n ->
  node_within g lp t n <-> forall z, lowest_cost (left g) (right g) (levels g) c (npix n) z -> cost n - z <= b.
Proof.
  intros It Hn. destruct (exact_node_excess n Hn) as [v [z [L [X [I _]]]]].
  rewrite (node_within_excess g lp t n v X), (int_le _ _ _ _ I It). split.
  - intros Le z' L'. rewrite (lowest_cost_unique _ _ _ L' L). exact Le.
  - intros A. apply A. exact L.
Qed.
Lemma exact_edge_within t b n n' : is_int t b -> match_exists g n -> match_exists g n' -> adjacent (npix n) (npix n') ->
  edge_within g lp t {| enode := n; enbr := n' |} <-> edge_cost s (disp n) (disp n') <= b.
Proof.
  intros It Hn Hn' A. destruct (exact_edge_excess n n' Hn Hn' A) as [v [X I]].
  rewrite (edge_within_excess g lp t _ v X). apply int_le; assumption.
Qed.

Lemma ordered_spec k : labeling_ok g k <-> ordered_labeling (right g) (levels g) k.
Proof. reflexivity. Qed.

Lemma exact_within t b k : is_int t b -> labeling_ok g k ->
  nodes_within g lp t k /\ edges_within g lp t k <-> within_bound (left g) (right g) (levels g) c s b k.
Proof.
  intros It Hk. split.
  - intros [N E]. split.
    + intros p z Hi L. apply (exact_node_within t b (label_node k p) It (proj1 Hk p Hi)); [apply N; exact Hi|exact L].
    + intros p q Hi Hq A. apply (exact_edge_within t b (label_node k p) (label_node k q) It (proj1 Hk p Hi) (proj1 Hk q Hq) A).
      apply E; assumption.
  - intros [N E]. split.
    + intros p Hi. apply (exact_node_within t b (label_node k p) It (proj1 Hk p Hi)). intros z L. apply N; assumption.
    + intros p q Hi Hq A. apply (exact_edge_within t b (label_node k p) (label_node k q) It (proj1 Hk p Hi) (proj1 Hk q Hq) A).
      apply E; assumption.
Qed.

(** Bounds above all penalties make no difference. *)
Lemma within_capped b k : labeling_ok g k ->
  within_bound (left g) (right g) (levels g) c s b k <->
  0 <= b /\ within_bound (left g) (right g) (levels g) c s (Z.min b P) k.
Proof.
  intros Hk. split.
  - intros [N E]. split.
    + assert (Hi : in_image g {| px := 0; py := 0 |}).
      { pose proof (wf_rows g Hw). pose proof (wf_levels g Hw). pose proof (wf_levels_width g Hw). split; cbn [px py]; lia. }
      pose proof (proj1 Hk _ Hi) as M. destruct (exact_node_excess _ M) as [v [z [L [_ [_ R]]]]].
      specialize (N _ z Hi L). lia.
    + split.
      * intros p z Hi L. specialize (N p z Hi L). pose proof (proj1 Hk p Hi) as M.
        destruct (exact_node_excess _ M) as [v [z' [L' [_ [_ R]]]]]. rewrite (lowest_cost_unique _ _ _ L' L) in R. lia.
      * intros p q Hi Hq A. specialize (E p q Hi Hq A).
        destruct (exact_edge _ _ (proj1 Hk p Hi) (proj1 Hk q Hq) A) as [v [_ [_ R]]]. cbn [disp label_node] in R. lia.
  - intros [_ [N E]]. split.
    + intros p z Hi L. specialize (N p z Hi L). lia.
    + intros p q Hi Hq A. specialize (E p q Hi Hq A). lia.
Qed.

Lemma exact_best img : best_map g lp img -> optimal_map (left g) (right g) (levels g) c s img.
Proof.
  intros [Wi [Hi [Mi [Ci [Vi [Li Best]]]]]].
  split; [rewrite <- (wf_width g Hw); exact Wi|]. split; [rewrite <- (wf_height g Hw); exact Hi|].
  refine (conj Mi (conj Ci (conj Vi (conj Li _)))). intros k b Hk Wk.
  apply (within_capped b k Hk) in Wk. destruct Wk as [Pb Wk]. apply (within_capped b _ Li). split; [exact Pb|].
  assert (It : is_int (@of_u B (Z.to_N (Z.min b P))) (Z.min b P)).
  { pose proof (Z.pow_nonneg 2 prec). replace (Z.min b P) with (Z.of_N (Z.to_N (Z.min b P))) at 2 by lia. apply int_of_u. lia. }
  apply (exact_within _ _ k It Hk) in Wk. apply (exact_within _ _ _ It Li). exact (Best k _ Hk (proj1 Wk) (proj2 Wk)).
Qed.
End Problem.

(** *** The problem of the application *)

Lemma small_graph l r lev c s g : make_graph l r lev (@of_u B c) (of_u s) = Ok g -> consistent_image l -> consistent_image r ->
  (width l * height l * 4 * lev < w)%N -> small_penalties P l r lev (Z.of_N c) (Z.of_N s) ->
  left g = l /\ right g = r /\ levels g = lev /\ wf_graph g /\ zero_reparam g /\
  is_int (cleanness g) (Z.of_N c) /\ is_int (smoothness g) (Z.of_N s).
Proof.
  intros Eg Cl Cr Hsz [m [Hm [Bc [Bs [B1 [B2 [B3 B4]]]]]]].
  destruct (make_graph_wf l r lev _ _ g Eg Cl Cr Hsz) as [Hw Hz].
  assert (E : left g = l /\ right g = r /\ levels g = lev /\ cleanness g = of_u c /\ smoothness g = of_u s).
  { destruct (make_graph_Ok l r lev _ _ g Eg) as [_ [_ [_ [_ [_ [_ [_ [_ [_ [_ [_ E]]]]]]]]]]]. rewrite E. auto. }
  destruct E as [El [Er [Ev [Ec Es]]]]. rewrite Ec, Es. refine (conj El (conj Er (conj Ev (conj Hw (conj Hz (conj _ _)))))); apply int_of_u; [lia|].
  pose proof (wf_levels g Hw) as W. rewrite Ev in W. rewrite Z.pow_2_r in B4. nia.
Qed.

Lemma exact_solution srt l r lev c s g : sorts srt -> make_graph l r lev (@of_u B c) (of_u s) = Ok g ->
  consistent_image l -> consistent_image r -> (width l * height l * 4 * lev < w)%N ->
  small_penalties P l r lev (Z.of_N c) (Z.of_N s) ->
  solve_problem srt l r lev (@of_u B c) (of_u s) = Stop (Throw CannotLabel) \/
  exists img, solve_problem srt l r lev (@of_u B c) (of_u s) = Ok img /\ optimal_map l r lev (Z.of_N c) (Z.of_N s) img.
Proof.
  intros Hs Eg Cl Cr Hsz Sm. destruct (small_graph l r lev c s g Eg Cl Cr Hsz Sm) as [El [Er [Ev [Hw [Hz [Ic Is]]]]]].
  destruct Sm as [m [Hm [Bc [Bs [B1 [B2 [B3 B4]]]]]]]. rewrite <- El, <- Er in Hm. rewrite <- Ev in B3, B4.
  assert (Hf : finite_penalties g) by (eapply exact_finite; try eassumption; lia).
  destruct (solve_accepted (ieee_laws prec emax Hp He w conv) srt l r lev _ _ g Hs Eg Cl Cr Hsz Hf) as [lp [Elp [Bad|[img [Ei Best]]]]].
  - left. exact Bad.
  - right. exists img. split; [exact Ei|]. rewrite <- El, <- Er, <- Ev. eapply exact_best; try eassumption; lia.
Qed.

(** *** Small penalties, in the form of the specification *)

Ltac feed X := repeat match type of X with ?A -> _ => let H := fresh in assert (H : A) by (assumption || lia); specialize (X H); clear H end.

Section Small.
Context (g : dgraph B) (lp : lowest B) (c s : Z).
Hypotheses (Hw : wf_graph g) (Hz : zero_reparam g) (Hc : is_int (cleanness g) c) (Hs : is_int (smoothness g) s)
  (Sm : small_penalties P (left g) (right g) (levels g) c s).

Lemma small_formulas :
  (forall n, is_match (right g) (levels g) n ->
     exists v, node_penalty g n = Ok v /\ is_int v (node_cost (left g) (right g) c n)) /\
  (forall n n', is_match (right g) (levels g) n -> is_match (right g) (levels g) n' -> adjacent (npix n) (npix n') ->
     exists v, edge_penalty g {| enode := n; enbr := n' |} = Ok v /\ is_int v (edge_cost s (disp n) (disp n'))).
Proof.
  destruct Sm as [m [Hm [Bc [Bs [B1 [B2 [B3 B4]]]]]]]. split.
  - intros n Hn. pose proof (exact_node g c s m) as X; feed X; destruct (X n Hn) as [v [E [I _]]]. exists v. auto.
  - intros n n' Hn Hn' A. pose proof (exact_edge g s m) as X; feed X; destruct (X n n' Hn Hn' A) as [v [E [I _]]]. exists v. auto.
Qed.

Hypothesis Hl : make_lowest g = Ok lp.

Lemma small_minima :
  (forall p, inside (right g) p -> exists v z, lowest_pixel_penalty lp p = Ok v /\ is_int v z /\
     lowest_cost (left g) (right g) (levels g) c p z) /\
  (forall e, inside (right g) (npix (enode e)) -> inside (right g) (npix (enbr e)) -> adjacent (npix (enode e)) (npix (enbr e)) ->
     exists v, lowest_neighborhood_penalty lp e = Ok v /\ is_int v 0) /\
  (forall n, is_match (right g) (levels g) n -> exists v z, node_excess g lp n v /\
     lowest_cost (left g) (right g) (levels g) c (npix n) z /\ is_int v (node_cost (left g) (right g) c n - z)) /\
  (forall n n', is_match (right g) (levels g) n -> is_match (right g) (levels g) n' -> adjacent (npix n) (npix n') ->
     exists v, edge_excess g lp {| enode := n; enbr := n' |} v /\ is_int v (edge_cost s (disp n) (disp n'))).
Proof.
  destruct Sm as [m [Hm [Bc [Bs [B1 [B2 [B3 B4]]]]]]]. refine (conj _ (conj _ (conj _ _))).
  - intros p Hi. pose proof (exact_lowest g lp c s m) as X; feed X; destruct (X p Hi) as [v [z [E [I [L _]]]]]. exists v, z. auto.
  - intros e Hi Hq A. rewrite (lowest_nbr_value g lp e Hw Hl Hi Hq A).
    pose proof (exact_neighborhood g s m) as X; feed X; apply X; assumption.
  - intros n Hn. pose proof (exact_node_excess g lp c s m) as X0; feed X0; destruct (X0 n Hn) as [v [z [L [X [I _]]]]]. exists v, z. auto.
  - intros n n' Hn Hn' A. pose proof (exact_edge_excess g lp s m) as X; feed X; apply X; assumption.
Qed.

Lemma small_bounds t b k : is_int t b -> ordered_labeling (right g) (levels g) k ->
  nodes_within g lp t k /\ edges_within g lp t k <-> within_bound (left g) (right g) (levels g) c s b k.
Proof.
  destruct Sm as [m [Hm [Bc [Bs [B1 [B2 [B3 B4]]]]]]]. intros It Hk.
  pose proof (exact_within g lp c s m) as X; feed X; exact (X t b k It Hk).
Qed.

Lemma small_threshold srt cands t : sorts srt -> fetch_available_penalties srt lp = Ok cands ->
  calculate_minimal_consistent_threshold lp g cands = Ok t ->
  exists b, is_int t b /\ 0 <= b <= P /\
    forall k b', ordered_labeling (right g) (levels g) k -> within_bound (left g) (right g) (levels g) c s b' k -> b <= b'.
Proof.
  intros Hsrt Ef Et. pose proof small_minima as [_ [_ [NX EX]]]. pose proof small_bounds as SB.
  destruct Sm as [m [Hm [Bc [Bs [B1 [B2 [B3 B4]]]]]]].
  assert (Hf : finite_penalties g) by (eapply exact_finite; try eassumption; lia).
  assert (Hn : nonneg_weights g) by (apply (exact_weights g c s Hc Hs); lia).
  destruct (candidates_complete (ieee_laws prec emax Hp He w conv) srt g lp Hsrt Hw Hl Hf) as [cands' [Ef' [_ [_ [Cand _]]]]].
  assert (cands' = cands) by congruence. subst cands'.
  destruct (minimal_threshold (ieee_laws prec emax Hp He w conv) srt g lp cands Hsrt Hw Hl Hf Ef) as [t' [n [Et' [_ [It _]]]]]; [left; split; assumption|].
  assert (t' = t) by congruence. subst t'.
  assert (X : exists b, is_int t b /\ 0 <= b <= P).
  { destruct (Cand t It) as [[n0 [Mn X]]|[[n0 n1] [[M0 [M1 [A _]]] X]]].
    - pose proof (exact_node_excess g lp c s m) as X0; feed X0; destruct (X0 n0 Mn) as [v [z [L [X' [I R]]]]].
      rewrite (node_excess_fun g lp n0 _ _ X X'). eexists. split; [exact I|exact R].
    - cbn [enode enbr] in M0, M1, A. destruct (EX n0 n1 M0 M1 A) as [v [X' I]].
      rewrite (edge_excess_fun g lp _ _ _ X X'). eexists. split; [exact I|].
      pose proof (exact_edge g s m) as Y; feed Y; destruct (Y n0 n1 M0 M1 A) as [v' [_ [_ R]]]. exact R. }
  destruct X as [b [Ib Rb]]. exists b. split; [exact Ib|]. split; [exact Rb|]. intros k b' Hk Wk.
  pose proof (within_capped g lp c s m) as X; feed X; apply (X b' k Hk) in Wk. destruct Wk as [Pb Wk].
  assert (Ic : is_int (@of_u B (Z.to_N (Z.min b' P))) (Z.min b' P)).
  { replace (Z.min b' P) with (Z.of_N (Z.to_N (Z.min b' P))) at 2 by lia. apply int_of_u. lia. }
  apply (SB _ _ k Ic Hk) in Wk. destruct Wk as [W1 W2].
  pose proof (threshold_below (ieee_laws prec emax Hp He w conv) srt g lp cands t k _ Hsrt Hw Hl Hf Hz Hn Ef Et Hk W1 W2) as Le.
  apply (int_le _ _ _ _ Ib Ic) in Le. lia.
Qed.
End Small.
End Ieee.

(** *** Runs of the application *)

Lemma main_exact srt w p e path txt : sorts srt -> usable_files w -> main srt w p = Ok e -> written_file e = Some (path, txt) ->
  exists o lpath rpath l r lev c s img, p = Parsed o /\ all_paths o lpath rpath path /\
    file_holds w lpath l /\ file_holds w rpath r /\ option_number (width l) (o_levels o) lev /\
    option_number 1 (o_cleanness o) c /\ option_number 1 (o_smoothness o) s /\
    write_image [] (Some img) = Ok txt /\
    (small_penalties (2 ^ 53) l r lev (Z.of_N c) (Z.of_N s) -> optimal_map l r lev (Z.of_N c) (Z.of_N s) img).
Proof.
  intros Hs U E W. destruct (main_written srt w p e path txt Hs U E W) as [_ [_ [_ [o [lpath [rpath [img [Ep [Hp [_ [M Et]]]]]]]]]]].
  destruct M as [l [r [lev [c [s [g [lp [Hl [Hr [Nl [Nc [Ns [Eg [Elp Best]]]]]]]]]]]]]].
  exists o, lpath, rpath, l, r, lev, c, s, img.
  refine (conj Ep (conj Hp (conj Hl (conj Hr (conj Nl (conj Nc (conj Ns (conj Et _)))))))). intros Sm.
  pose proof (held_usable _ _ _ U Hl) as [_ Sz]. pose proof (problem_fits _ _ _ _ _ _ Eg Sz) as Fit.
  destruct (small_graph 53 1024 hp53 he53 (2 ^ 64)%N Z.of_N (fun n _ => eq_refl) l r lev c s g Eg
              (held_consistent _ _ _ Hl) (held_consistent _ _ _ Hr) Fit Sm) as [El [Er [Ev [Hw [Hz [Ic Is]]]]]].
  destruct Sm as [m [Hm [Bc [Bs [B1 [B2 [B3 B4]]]]]]].
  rewrite <- El, <- Er in Hm |- *. rewrite <- Ev in B3, B4 |- *.
  apply (exact_best 53 1024 hp53 he53 (2 ^ 64)%N Z.of_N (fun n _ => eq_refl) g lp _ _ m Hw Hz Ic Is) in Best; try assumption; lia.
Qed.

(** *** Other builds *)

Lemma conv_id prec n : Z.of_N n <= 2 ^ prec -> Z.of_N n = Z.of_N n. Proof. reflexivity. Qed.
Lemma conv_cuda n : Z.of_N n <= 2 ^ 24 -> int_of_unsigned n = Z.of_N n.
Proof. intros H. unfold int_of_unsigned. destruct (N.ltb_spec n (2 ^ 31)) as [L|L]; [reflexivity|]. lia. Qed.

Lemma small_weaker a b l r lev c s : a <= b -> small_penalties a l r lev c s -> small_penalties b l r lev c s.
Proof. intros H [m [Hm [B [B' X]]]]. exists m. split; [exact Hm|]. split; [lia|]. split; [exact B'|]. lia. Qed.

Lemma same_penalties l r lev c s (gc : dgraph cpu) (go : dgraph opencl) (gd : dgraph cuda) :
  consistent_image l -> consistent_image r -> (width l * height l * 4 * lev < 2 ^ 32)%N ->
  make_graph l r lev (of_u c) (of_u s) = Ok gc -> make_graph l r lev (of_u c) (of_u s) = Ok go ->
  make_graph l r lev (of_u c) (of_u s) = Ok gd ->
  small_penalties (2 ^ 24) l r lev (Z.of_N c) (Z.of_N s) ->
  (forall n, is_match r lev n -> exists z x y v, node_penalty gc n = Ok x /\ node_penalty go n = Ok y /\ node_penalty gd n = Ok v /\
     is_int x z /\ is_int y z /\ is_int v z) /\
  (forall n n', is_match r lev n -> is_match r lev n' -> adjacent (npix n) (npix n') ->
     exists z x y v, edge_penalty gc {| enode := n; enbr := n' |} = Ok x /\ edge_penalty go {| enode := n; enbr := n' |} = Ok y /\
       edge_penalty gd {| enode := n; enbr := n' |} = Ok v /\ is_int x z /\ is_int y z /\ is_int v z).
Proof.
  intros Cl Cr Hsz Ec Eo Ed Sm.
  assert (Sm' : small_penalties (2 ^ 53) l r lev (Z.of_N c) (Z.of_N s)) by (apply (small_weaker (2 ^ 24)); [lia|exact Sm]).
  assert (Hsz' : (width l * height l * 4 * lev < 2 ^ 64)%N) by lia.
  destruct (small_graph 53 1024 hp53 he53 _ _ (conv_id 53) l r lev c s gc Ec Cl Cr Hsz' Sm') as [A1 [A2 [A3 [A4 [A5 [A6 A7]]]]]].
  destruct (small_graph 24 128 hp24 he24 _ _ (conv_id 24) l r lev c s go Eo Cl Cr Hsz' Sm) as [D1 [D2 [D3 [D4 [D5 [D6 D7]]]]]].
  destruct (small_graph 24 128 hp24 he24 _ _ conv_cuda l r lev c s gd Ed Cl Cr Hsz Sm) as [G1 [G2 [G3 [G4 [G5 [G6 G7]]]]]].
  destruct (small_formulas 53 1024 hp53 he53 _ _ (conv_id 53) gc _ _ A4 A5 A6 A7) as [AN AE]; [rewrite A1, A2, A3; exact Sm'|].
  destruct (small_formulas 24 128 hp24 he24 _ _ (conv_id 24) go _ _ D4 D5 D6 D7) as [DN DE]; [rewrite D1, D2, D3; exact Sm|].
  destruct (small_formulas 24 128 hp24 he24 _ _ conv_cuda gd _ _ G4 G5 G6 G7) as [GN GE]; [rewrite G1, G2, G3; exact Sm|].
  rewrite A1, A2, A3 in *. rewrite D1, D2, D3 in *. rewrite G1, G2, G3 in *. split.
  - intros n Hn. destruct (AN n Hn) as [x [X1 X2]]. destruct (DN n Hn) as [y [Y1 Y2]]. destruct (GN n Hn) as [v [V1 V2]].
    exists (node_cost l r (Z.of_N c) n), x, y, v. auto 10.
  - intros n n' Hn Hn' A. destruct (AE n n' Hn Hn' A) as [x [X1 X2]]. destruct (DE n n' Hn Hn' A) as [y [Y1 Y2]].
    destruct (GE n n' Hn Hn' A) as [v [V1 V2]]. exists (edge_cost (Z.of_N s) (disp n) (disp n')), x, y, v. auto 10.
Qed.
