(** Proofs about special problems. *)
From Coq Require Import Reals Lia.
From Flocq Require Import Core.Core IEEE754.BinarySingleNaN.
From Verif Require Export Special_spec Scale_proofs.
Local Open Scope Z_scope.

(** *** Closest matches *)

Definition cheapest_costs (l r : image) (lev : N) (c : Z) (k : labeling) : Prop :=
  forall p d, inside r p -> is_match r lev {| npix := p; disp := d |} ->
    node_cost l r c (label_node k p) <= node_cost l r c {| npix := p; disp := d |} /\
    (node_cost l r c {| npix := p; disp := d |} <= node_cost l r c (label_node k p) -> (k p <= d)%N).

Section Ieee.
Context (prec emax : Z) (Hp : Prec_gt_0 prec) (He : Prec_lt_emax prec emax) (w : N) (conv : N -> Z).
Notation B := (ieee prec emax Hp He w conv).
Notation P := (2 ^ prec).
Hypothesis Hconv : forall n, Z.of_N n <= P -> conv n = Z.of_N n.

Lemma cheapest_solution srt l r lev c s g k : sorts srt -> make_graph l r lev (@of_u B c) (of_u s) = Ok g ->
  consistent_image l -> consistent_image r -> (width l * height l * 4 * lev < w)%N ->
  small_penalties P l r lev (Z.of_N c) (Z.of_N s) ->
  ordered_labeling r lev k -> cheapest_costs l r lev (Z.of_N c) k ->
  (forall p q, inside r p -> inside r q -> adjacent p q -> edge_cost (Z.of_N s) (k p) (k q) <= 0) ->
  exists img, solve_problem srt l r lev (@of_u B c) (of_u s) = Ok img /\
    width img = width r /\ height img = height r /\ max_value img = lev /\ consistent_image img /\
    forall p, inside r p -> map_labeling img p = k p.
Proof.
  intros Hs Eg Cl Cr Hsz Sm Hk Hc Hed.
  destruct (small_graph prec emax Hp He w conv Hconv l r lev c s g Eg Cl Cr Hsz Sm) as [El [Er [Ev [Hw [Hz [Ic Is]]]]]].
  destruct (make_lowest_spec g Hw) as [lp [Elp _]].
  pose proof Sm as [m [Hm [Bc [Bs [B1 [B2 [B3 B4]]]]]]]. rewrite <- El, <- Er in Hm. rewrite <- Ev in B3, B4.
  assert (Hf : finite_penalties g) by (eapply (exact_finite prec emax Hp He w conv Hconv); try eassumption; lia).
  assert (Sm' : small_penalties P (left g) (right g) (levels g) (Z.of_N c) (Z.of_N s)) by (rewrite El, Er, Ev; exact Sm).
  destruct (small_formulas prec emax Hp He w conv Hconv g (Z.of_N c) (Z.of_N s) Hw Hz Ic Is Sm') as [Fn _].
  assert (Lk : labeling_ok g k) by (apply ordered_spec; rewrite Er, Ev; exact Hk).
  assert (Ch : cheapest g k).
  { intros p d v v' Hi M Evv Ev'. destruct (Fn _ (proj1 Lk p Hi)) as [u [Eu I]]. destruct (Fn _ M) as [u' [Eu' I']].
    assert (u = v) by congruence. assert (u' = v') by congruence. subst u u'.
    rewrite (int_le _ _ _ _ _ _ _ _ _ _ I I'), (int_le _ _ _ _ _ _ _ _ _ _ I' I).
    rewrite El, Er in *. apply Hc; [rewrite <- Er; exact Hi|]. rewrite <- Er, <- Ev. exact M. }
  assert (Ew : edges_within g lp fzero k).
  { intros p q Hi Hq A.
    assert (X : edge_within g lp fzero {| enode := label_node k p; enbr := label_node k q |} <->
                edge_cost (Z.of_N s) (disp (label_node k p)) (disp (label_node k q)) <= 0).
    { eapply (exact_edge_within prec emax Hp He w conv Hconv g lp (Z.of_N s)); try eassumption; try lia;
      try apply int_zero; try (apply (proj1 Lk); assumption). }
    apply X. apply Hed; try assumption; rewrite <- Er; assumption. }
  destruct (solve_cheapest (ieee_laws prec emax Hp He w conv) srt l r lev _ _ g lp k Hs Eg Elp Cl Cr Hsz Hf Ch Lk Ew) as [img [Ei [Best Map]]].
  destruct Best as [Wi [Hi [Mi [Ci _]]]]. exists img.
  destruct (make_graph_Ok l r lev _ _ g Eg) as [_ [_ [_ [_ [W' [H' _]]]]]].
  refine (conj Ei (conj _ (conj _ (conj _ (conj Ci _))))); [congruence..|].
  intros p Hi'. apply Map. unfold in_image. rewrite Er. exact Hi'.
Qed.
End Ieee.

Lemma closest_costs l r lev c k : 0 < c -> ordered_labeling r lev k -> closest l r lev k -> cheapest_costs l r lev c k.
Proof.
  intros Pc [K _] H p d Hi [_ [Hd Hx]]. cbn [npix disp] in Hd, Hx. destruct (H p d Hi Hd Hx) as [L E].
  unfold node_cost, label_node. cbn [npix disp]. unfold mismatch in L, E.
  set (x := brightness r p - brightness l {| px := px p + k p; py := py p |}) in *.
  set (y := brightness r p - brightness l {| px := px p + d; py := py p |}) in *.
  assert (S : x ^ 2 <= y ^ 2) by (rewrite !Z.pow_2_r; nia).
  split; [nia|]. intros Le. apply E. assert (y ^ 2 <= x ^ 2) by nia. rewrite !Z.pow_2_r in *. nia.
Qed.

Lemma zero_costs l r lev c : 0 <= c -> (c = 0 \/ forall p d, inside r p -> (d < lev)%N -> (px p + d < width r)%N ->
  mismatch l r p 0 <= mismatch l r p d) -> cheapest_costs l r lev c zero_labeling.
Proof.
  intros Pc H p d Hi [_ [Hd Hx]]. cbn [npix disp] in Hd, Hx. unfold node_cost, label_node, zero_labeling. cbn [npix disp].
  split; [|lia]. destruct H as [->|H]; [lia|]. specialize (H p d Hi Hd Hx). unfold mismatch in H.
  set (x := brightness r p - _) in *. set (y := brightness r p - brightness l {| px := px p + d; py := py p |}) in *.
  assert (S : x ^ 2 <= y ^ 2) by (rewrite !Z.pow_2_r; nia). nia.
Qed.

Lemma cpu_cheapest srt lev a k : sorts srt -> accepted lev a -> small_problem (2 ^ 53) lev a ->
  ordered_labeling (p_right a) lev k -> cheapest_costs (p_left a) (p_right a) lev (Z.of_N (p_cleanness a)) k ->
  (forall p q, inside (p_right a) p -> inside (p_right a) q -> adjacent p q ->
     edge_cost (Z.of_N (p_smoothness a)) (k p) (k q) <= 0) ->
  exists img, solution_of srt lev a = Ok img /\
    width img = width (p_right a) /\ height img = height (p_right a) /\ max_value img = lev /\ consistent_image img /\
    forall p, inside (p_right a) p -> map_labeling img p = k p.
Proof.
  intros Srt [g Eg] [Cl [Cr [F64 Sm]]] K C E.
  exact (cheapest_solution 53 1024 hp53 he53 (2 ^ 64) Z.of_N (fun n _ => eq_refl) srt _ _ lev _ _ g k Srt Eg Cl Cr F64 Sm K C E).
Qed.

Lemma closest_solution srt lev a k : sorts srt -> accepted lev a -> small_problem (2 ^ 53) lev a ->
  (0 < p_cleanness a)%N -> p_smoothness a = 0%N ->
  ordered_labeling (p_right a) lev k -> closest (p_left a) (p_right a) lev k ->
  exists img, solution_of srt lev a = Ok img /\
    width img = width (p_right a) /\ height img = height (p_right a) /\ max_value img = lev /\ consistent_image img /\
    forall p, inside (p_right a) p -> map_labeling img p = k p.
Proof.
  intros Srt Ac Sm Pc Ps K C. apply cpu_cheapest; try assumption.
  - apply closest_costs; [lia|exact K|exact C].
  - intros p q _ _ _. rewrite Ps. unfold edge_cost. lia.
Qed.

Lemma zero_solution srt lev a : sorts srt -> accepted lev a -> small_problem (2 ^ 53) lev a ->
  (p_cleanness a = 0%N \/
   forall p d, inside (p_right a) p -> (d < lev)%N -> (px p + d < width (p_right a))%N ->
     mismatch (p_left a) (p_right a) p 0 <= mismatch (p_left a) (p_right a) p d) ->
  solution_of srt lev a = Ok (zero_map (width (p_right a)) (height (p_right a)) lev).
Proof.
  intros Srt Ac Sm H. pose proof Ac as [g Eg].
  assert (Lv : (1 < lev)%N).
  { destruct Sm as [Cl [Cr [F64 _]]]. destruct (make_graph_wf (p_left a) (p_right a) lev _ _ g Eg Cl Cr F64) as [Hw _].
    pose proof (wf_levels g Hw) as W. destruct (make_graph_Ok _ _ _ _ _ g Eg) as [_ [_ [_ [_ [_ [_ [_ [_ [_ [_ [_ E]]]]]]]]]]].
    rewrite E in W. exact W. }
  destruct (cpu_cheapest srt lev a zero_labeling Srt Ac Sm) as [img [Ei [Wi [Hi [Mi [Ci Map]]]]]].
  - split.
    + intros p [Hx Hy]. unfold is_match, label_node, zero_labeling, inside. cbn [npix disp]. lia.
    + intros p q _ _ A. unfold in_order, label_node, zero_labeling, horizontal_pair. cbn [npix disp]. lia.
  - apply zero_costs; [lia|]. destruct H as [->|H]; [left; reflexivity|right; exact H].
  - intros p q _ _ _. unfold edge_cost, zero_labeling. lia.
  - rewrite Ei. f_equal. rewrite (zero_map_unique img Ci); [rewrite Wi, Hi, Mi; reflexivity|].
    intros p Hx Hy. apply Map. split; congruence.
Qed.

(** *** Images upside down *)

Lemma across_inside img p : inside img p -> inside img (across img p).
Proof. intros [Hx Hy]. split; cbn [across px py]; lia. Qed.
Lemma across_twice img p : inside img p -> across img (across img p) = p.
Proof. intros [Hx Hy]. destruct p as [x y]. unfold across. cbn [px py] in *. f_equal. lia. Qed.
Lemma across_adjacent img p q : inside img p -> inside img q -> adjacent p q -> adjacent (across img p) (across img q).
Proof.
  intros [_ Hp] [_ Hq]. unfold adjacent, horizontal_pair, vertical_pair. destruct p as [x y], q as [x' y']. cbn [across px py] in *. lia.
Qed.
Lemma across_size a b p : height b = height a -> across b p = across a p.
Proof. intros E. unfold across. rewrite E. reflexivity. Qed.
Lemma upside_down_sym a b : upside_down a b -> upside_down b a.
Proof.
  intros [W [H E]]. split; [congruence|split; [congruence|]]. intros p [Hx Hy].
  rewrite W in Hx. rewrite H in Hy. assert (I : inside a p) by (split; assumption).
  rewrite (E (across b p)); rewrite (across_size a b) by exact H; [rewrite across_twice by exact I; reflexivity|].
  apply across_inside. exact I.
Qed.

Section Flip.
Variables (l r l' r' : image) (lev : N) (c s : Z).
Hypotheses (Ul : upside_down l l') (Ur : upside_down r r') (W : width l = width r) (H : height l = height r).
Definition flipped (k : labeling) : labeling := fun p => k (across r p).

Lemma flip_inside p : inside r' p <-> inside r p.
Proof. destruct Ur as [E1 [E2 _]]. unfold inside. rewrite E1, E2. reflexivity. Qed.
Lemma flip_match p d : inside r p -> is_match r' lev {| npix := p; disp := d |} <-> is_match r lev {| npix := across r p; disp := d |}.
Proof.
  intros Hi. pose proof (across_inside r p Hi) as Ho. unfold is_match. cbn [npix disp]. rewrite flip_inside.
  destruct Ur as [E1 _]. rewrite E1. cbn [across px]. tauto.
Qed.
Lemma flip_cost p d : inside r p -> (px p + d < width r)%N ->
  node_cost l' r' c {| npix := p; disp := d |} = node_cost l r c {| npix := across r p; disp := d |}.
Proof.
  intros Hi Hx. unfold node_cost. cbn [npix disp]. rewrite (proj2 (proj2 Ur) p Hi).
  rewrite (proj2 (proj2 Ul)) by (destruct Hi; split; cbn [px py]; congruence).
  unfold across. cbn [px py]. rewrite H. reflexivity.
Qed.
Lemma flip_lowest p m : inside r p -> lowest_cost l' r' lev c p m -> lowest_cost l r lev c (across r p) m.
Proof.
  intros Hi [[n [En [M E]]] Lo]. split.
  - exists {| npix := across r p; disp := disp n |}. destruct n as [p' d]. cbn [npix disp] in *. subst p'. split; [reflexivity|]. split.
    + apply flip_match; assumption.
    + rewrite <- flip_cost; [exact E|exact Hi|]. apply flip_match in M; [|exact Hi]. destruct M as [_ [_ M]]. exact M.
  - intros [p' d] En' M'. cbn [npix disp] in En'. subst p'. rewrite <- flip_cost; [|exact Hi|destruct M' as [_ [_ M']]; exact M'].
    apply Lo; [reflexivity|]. apply flip_match; assumption.
Qed.

Lemma flip_ordered k : ordered_labeling r lev k -> ordered_labeling r' lev (flipped k).
Proof.
  intros [K1 K2]. split.
  - intros p Hi. apply flip_inside in Hi. apply flip_match; [exact Hi|]. apply (K1 (across r p)). apply across_inside. exact Hi.
  - intros p q Hi Hq A. apply flip_inside in Hi, Hq.
    pose proof (K2 _ _ (across_inside r p Hi) (across_inside r q Hq) (across_adjacent r p q Hi Hq A)) as O.
    destruct Hi as [_ Hp], Hq as [_ Hq]. revert O. unfold in_order, label_node, flipped, horizontal_pair. cbn [npix disp].
    unfold across. cbn [px py]. lia.
Qed.
Lemma flip_within b k : ordered_labeling r lev k -> within_bound l r lev c s b k -> within_bound l' r' lev c s b (flipped k).
Proof.
  intros [K _] [B1 B2]. split.
  - intros p m Hi Lo. apply flip_inside in Hi. pose proof (across_inside r p Hi) as Ho.
    unfold label_node, flipped. rewrite flip_cost; [|exact Hi|].
    + apply (B1 (across r p)); [exact Ho|]. apply flip_lowest; assumption.
    + destruct (K _ Ho) as [_ [_ M]]. exact M.
  - intros p q Hi Hq A. apply flip_inside in Hi, Hq.
    apply (B2 (across r p) (across r q)); [apply across_inside; assumption..|apply across_adjacent; assumption].
Qed.
End Flip.

Lemma flip_optimal l r l' r' lev c s img img' b : upside_down l l' -> upside_down r r' -> width l = width r -> height l = height r ->
  optimal_map l r lev c s img -> optimal_map l' r' lev c s img' ->
  within_bound l r lev c s b (map_labeling img) -> within_bound l' r' lev c s b (map_labeling img').
Proof.
  intros Ul Ur W H [_ [_ [_ [_ [_ [K _]]]]]] [_ [_ [_ [_ [_ [_ O]]]]]] Wb.
  apply (O (flipped r (map_labeling img)) b); [eapply flip_ordered; eassumption|].
  eapply flip_within; eassumption.
Qed.

Lemma flip_solutions srt srt' lev a a' img img' b : sorts srt -> sorts srt' -> accepted lev a -> accepted lev a' ->
  small_problem (2 ^ 53) lev a -> small_problem (2 ^ 53) lev a' ->
  upside_down (p_left a) (p_left a') -> upside_down (p_right a) (p_right a') ->
  p_cleanness a' = p_cleanness a -> p_smoothness a' = p_smoothness a ->
  solution_of srt lev a = Ok img -> solution_of srt' lev a' = Ok img' ->
  within_bound (p_left a) (p_right a) lev (Z.of_N (p_cleanness a)) (Z.of_N (p_smoothness a)) b (map_labeling img) <->
  within_bound (p_left a') (p_right a') lev (Z.of_N (p_cleanness a)) (Z.of_N (p_smoothness a)) b (map_labeling img').
Proof.
  assert (Opt : forall srt a img, sorts srt -> accepted lev a -> small_problem (2 ^ 53) lev a -> solution_of srt lev a = Ok img ->
    optimal_map (p_left a) (p_right a) lev (Z.of_N (p_cleanness a)) (Z.of_N (p_smoothness a)) img).
  { intros f p i Sf [g Eg] [Cl [Cr [F64 Sm]]] E.
    destruct (exact_solution 53 1024 hp53 he53 (2 ^ 64) Z.of_N (fun n _ => eq_refl) f _ _ lev _ _ g Sf Eg Cl Cr F64 Sm) as [Bad|[i' [Ei O]]].
    - pose proof (eq_trans (eq_sym E) Bad) as X. discriminate X.
    - pose proof (eq_trans (eq_sym E) Ei) as X. injection X as ->. exact O. }
  intros S1 S2 A A' Sm Sm' Ul Ur Ec Es E E'. pose proof (Opt _ _ _ S1 A Sm E) as O. pose proof (Opt _ _ _ S2 A' Sm' E') as O'.
  rewrite Ec, Es in O'. destruct (accepted_sizes lev a A) as [W H]. destruct (accepted_sizes lev a' A') as [W' H'].
  split; intros Wb.
  - exact (flip_optimal _ _ _ _ _ _ _ _ _ b Ul Ur W H O O' Wb).
  - exact (flip_optimal _ _ _ _ _ _ _ _ _ b (upside_down_sym _ _ Ul) (upside_down_sym _ _ Ur) W' H' O' O Wb).
Qed.
