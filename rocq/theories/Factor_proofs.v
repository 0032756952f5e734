(** Maps of the closest matches, and how far their energies are from the lowest one: lemmas. *)
From Coq Require Import Reals Lia.
From Flocq Require Import Core.Core IEEE754.BinarySingleNaN.
From Verif Require Import Greedy_proofs Row_proofs Omp_main_proofs Special_proofs Total_proofs.
From Verif Require Export Factor_spec.
Local Open Scope N_scope.

(** *** Any arithmetic *)

Section Host.
Context {T : target} (HL : laws T).

Lemma cheapest_at_threshold srt l r lev (c s : F T) g lp cands t k :
  sorts srt -> make_graph l r lev c s = Ok g -> make_lowest g = Ok lp -> consistent_image l -> consistent_image r ->
  width l * height l * 4 * lev < wmod T -> finite_penalties g ->
  fetch_available_penalties srt lp = Ok cands -> calculate_minimal_consistent_threshold lp g cands = Ok t ->
  cheapest g k -> labeling_ok g k -> nodes_within g lp t k -> edges_within g lp t k ->
  exists img, solve_problem srt l r lev c s = Ok img /\ best_map g lp img /\
    forall p, in_image g p -> map_labeling img p = k p.
Proof.
  intros Hs Eg El Cl Cr Hsz Hf Ef Et Hg Hk Hkn Hke. destruct (make_graph_wf l r lev c s g Eg Cl Cr Hsz) as [Hw Hz].
  assert (Hn : nonneg_weights g).
  { destruct (make_graph_Ok l r lev c s g Eg) as [_ [_ [_ [_ [_ [_ [_ [Nc [Ns [_ [_ E]]]]]]]]]]]. rewrite E. split; assumption. }
  destruct (solve_accepted HL srt l r lev c s g Hs Eg Cl Cr Hsz Hf) as [lp' [El' Cases]].
  assert (lp' = lp) by congruence. subst lp'.
  destruct (make_constraint_spec g lp t Hw El) as [cg [Ec _]].
  destruct (initial_availability g lp t Hw El) as [cg0 [Ec0 [Gc [Lc [Tc [Av _]]]]]].
  assert (cg0 = cg) by congruence. subst cg0.
  destruct (make_constraint_Ok g lp t cg Hw El Ec) as [C _].
  destruct (solvable_at_threshold HL srt g lp cands t cg Hs Hw El Hf Hz Hn Ef Et Ec) as [cg1 E1].
  pose proof (within_solution g lp t k cg Hw El Ec Hk Hkn Hke) as Sk.
  destruct (solve_keeps_solution cg k C Sk) as [cg1' [E1' [S1 K1]]].
  assert (cg1' = cg1) by congruence. subst cg1'.
  pose proof (same_wf cg cg1 C S1) as C1.
  assert (G1 : cg_graph cg1 = g) by (destruct S1 as [X _]; congruence).
  pose proof (wf_static cg1 C1) as Hs1. pose proof (wfc_avail cg1 C1) as Hm1.
  destruct K1 as [Lk [Ak Wk]].
  destruct (run_label_keeps HL cg1 k (column_order (cg_graph cg1)) (cg_avail cg1) Hs1 Hm1) as [m' [E2 [Hm' Hh]]]; try assumption.
  { rewrite column_order_eq by apply (wfc_graph cg1 C1). intros p Hp. apply In_all_pixels in Hp. exact Hp. }
  { rewrite G1. exact Hg. }
  { rewrite G1. intros n0 v0 M0 V0. eapply (node_nonneg HL); eassumption. }
  { apply label_holds; try assumption. rewrite with_avail_same. exact Ak. }
  assert (Ef2 : exec find_labeling cg1 = Ok (true, with_avail cg1 m')).
  { unfold exec, find_labeling. rewrite E2. reflexivity. }
  destruct (found_labeling HL cg1 C1) as [b [cg2 [E2' [C2 [S2 [R2 F2]]]]]].
  rewrite Ef2 in E2'. injection E2' as <- <-.
  assert (Es : solve_problem srt l r lev c s = r <- exec build_disparity_map (with_avail cg1 m') ;; Ok (fst r)).
  { unfold solve_problem. rewrite Eg. cbn [bind]. rewrite El. cbn [bind]. rewrite Ef. cbn [bind]. rewrite Et. cbn [bind].
    rewrite Ec. cbn [bind]. rewrite E1. cbn [bind fst snd negb]. rewrite Ef2. cbn [bind fst snd negb]. reflexivity. }
  destruct (F2 eq_refl) as [k2 [[Lk2 [Ak2 _]] Uk]].
  assert (G2 : cg_graph (with_avail cg1 m') = g) by exact G1.
  destruct (disparity_map _ C2) as [D _]. destruct D as [img [Ei [Wi [Hi [Mi [Li [Vi Di]]]]]]].
  { intros p Hp. exists (k2 p). destruct Lk2 as [Lk2 _]. split; [apply (Lk2 p Hp)|apply (Ak2 p Hp)]. }
  destruct Cases as [Bad|[img' [Ei' Best]]].
  { rewrite Es, Ei in Bad. discriminate. }
  rewrite Es, Ei in Ei'. cbn [bind fst] in Ei'. injection Ei' as <-.
  exists img. rewrite Es, Ei. split; [reflexivity|]. split; [exact Best|].
  intros p Hp. assert (Hp2 : in_image (cg_graph (with_avail cg1 m')) p) by (rewrite G2; exact Hp).
  destruct (Di p Hp2) as [d [Ed [Md [Ad _]]]]. rewrite G2 in Wi, Ed. rewrite <- Wi in Ed.
  rewrite (get_map_labeling img p d Ed).
  apply (Uk _ Md) in Ad. cbn [disp npix] in Ad.
  assert (Akp : available (with_avail cg1 m') (label_node k p)).
  { apply (proj1 (label_holds cg1 k m' Hs1 Hm' Lk) Hh p). rewrite G1. exact Hp. }
  apply Uk in Akp; [cbn [disp npix label_node] in Akp; congruence|]. rewrite G1. apply (proj1 Hk p Hp).
Qed.

(** A solved problem has a labeling within the threshold. *)
Lemma solved_within srt l r lev (c s : F T) g lp cands t img :
  make_graph l r lev c s = Ok g -> make_lowest g = Ok lp -> wf_graph g ->
  fetch_available_penalties srt lp = Ok cands -> calculate_minimal_consistent_threshold lp g cands = Ok t ->
  solve_problem srt l r lev c s = Ok img ->
  exists k, labeling_ok g k /\ nodes_within g lp t k /\ edges_within g lp t k.
Proof.
  intros Eg El Hw Ef Et E. unfold solve_problem in E. rewrite Eg in E. cbn [bind] in E. rewrite El in E. cbn [bind] in E.
  rewrite Ef in E. cbn [bind] in E. rewrite Et in E. cbn [bind] in E.
  destruct (make_constraint_spec g lp t Hw El) as [cg [Ec _]]. rewrite Ec in E. cbn [bind] in E.
  destruct (make_constraint_Ok g lp t cg Hw El Ec) as [C [Gc [Lc [Tc B]]]].
  assert (Hin : in_image (cg_graph cg) {| px := 0; py := 0 |}).
  { rewrite Gc. pose proof (wf_levels g Hw). pose proof (wf_levels_width g Hw). pose proof (wf_rows g Hw). split; cbn [px py]; lia. }
  assert (Hj : height (right (cg_graph cg)) + 1 < wmod T).
  { rewrite Gc. pose proof (wf_wrap g Hw). pose proof (wf_levels g Hw). pose proof (wf_levels_width g Hw). pose proof (wf_rows g Hw).
    assert (height (right g) + 1 <= width (right g) * height (right g) * 4 * levels g); [|lia].
    assert (1 <= width (right g) * levels g) by nia.
    replace (width (right g) * height (right g) * 4 * levels g) with (width (right g) * levels g * (4 * height (right g))) by lia. nia. }
  destruct (solve_only_removes cg {| px := 0; py := 0 |} 1 0 C Hin) as [_ [_ [b1 [cg1 [E1 [S1 R1]]]]]]; [lia|exact Hj|].
  pose proof (same_wf cg cg1 C S1) as C1.
  rewrite E1 in E. cbn [bind fst snd] in E. destruct b1; cbn [negb] in E; [|discriminate E].
  destruct (found_labeling HL cg1 C1) as [b2 [cg2 [E2 [C2 [S2 [R2 F2]]]]]].
  rewrite E2 in E. cbn [bind fst snd] in E. destruct b2; cbn [negb] in E; [|discriminate E]. clear E.
  destruct (F2 eq_refl) as [k [[K1 [K2 K3]] _]]. exists k.
  assert (G1 : cg_graph cg1 = g) by (destruct S1 as [X _]; congruence).
  assert (G2 : cg_graph cg2 = g) by (destruct S2 as [X _]; congruence).
  assert (L2 : cg_lowest cg2 = lp) by (destruct S1 as [_ [X _]], S2 as [_ [Y _]]; congruence).
  assert (T2 : cg_threshold cg2 = t) by (destruct S1 as [_ [_ [X _]]], S2 as [_ [_ [Y _]]]; congruence).
  rewrite G2 in K1, K2, K3. rewrite L2, T2 in K3. split; [exact K1|]. split; [|exact K3].
  intros p Hp. pose proof (proj1 K1 p Hp) as M. specialize (K2 p Hp).
  apply R2 in K2; [|rewrite G1; apply M|rewrite G1; apply M].
  apply R1 in K2; [|rewrite Gc; apply M|rewrite Gc; apply M].
  assert (I : inb cg (label_node k p)) by (unfold inb; rewrite Gc; split; apply M).
  apply available_iff in K2; [|exact C|exact I]. apply B in K2; [|exact I]. apply K2.
Qed.
End Host.

(** *** Integers *)

Section Ieee.
Context (prec emax : Z) (Hp : Prec_gt_0 prec) (He : Prec_lt_emax prec emax) (w : N) (conv : N -> Z).
Notation B := (ieee prec emax Hp He w conv).
Notation P := (2 ^ prec)%Z.
Hypothesis Hconv : forall n, (Z.of_N n <= P)%Z -> conv n = Z.of_N n.

Lemma cheapest_found srt l r lev c s g k : sorts srt -> make_graph l r lev (@of_u B c) (of_u s) = Ok g ->
  consistent_image l -> consistent_image r -> (width l * height l * 4 * lev < w)%N ->
  small_penalties P l r lev (Z.of_N c) (Z.of_N s) ->
  ordered_labeling r lev k -> cheapest_costs l r lev (Z.of_N c) k ->
  (forall k' b, ordered_labeling r lev k' -> within_bound l r lev (Z.of_N c) (Z.of_N s) b k' ->
     within_bound l r lev (Z.of_N c) (Z.of_N s) b k) ->
  (height r = 1 \/ exists img, solve_problem srt l r lev (@of_u B c) (of_u s) = Ok img) ->
  exists img, solve_problem srt l r lev (@of_u B c) (of_u s) = Ok img /\
    width img = width r /\ height img = height r /\ max_value img = lev /\ consistent_image img /\
    forall p, inside r p -> map_labeling img p = k p.
Proof.
  intros Hs Eg Cl Cr Hsz Sm Hk Hc Un Cases.
  destruct (small_graph prec emax Hp He w conv Hconv l r lev c s g Eg Cl Cr Hsz Sm) as [El [Er [Ev [Hw [Hz [Ic Is]]]]]].
  destruct (make_lowest_spec g Hw) as [lp [Elp _]].
  pose proof Sm as [m [Hm [Bc [Bs [B1 [B2 [B3 B4]]]]]]]. rewrite <- El, <- Er in Hm. rewrite <- Ev in B3, B4.
  assert (Hf : finite_penalties g) by (eapply (exact_finite prec emax Hp He w conv Hconv); try eassumption; lia).
  assert (Sm' : small_penalties P (left g) (right g) (levels g) (Z.of_N c) (Z.of_N s)) by (rewrite El, Er, Ev; exact Sm).
  destruct (small_formulas prec emax Hp He w conv Hconv g (Z.of_N c) (Z.of_N s) Hw Hz Ic Is Sm') as [Fn _].
  assert (Lk : labeling_ok g k) by (apply ordered_spec; rewrite Er, Ev; exact Hk).
  assert (Ch : cheapest g k).
  { intros p d v v' Hi M Evv Ev'. destruct (Fn _ (proj1 Lk p Hi)) as [u [Eu I]]. destruct (Fn _ M) as [u' [Eu' I']].
    assert (u = v) by congruence. assert (u' = v') by congruence. subst u u'.
    rewrite (int_le _ _ _ _ _ _ _ _ _ _ I I'), (int_le _ _ _ _ _ _ _ _ _ _ I' I).
    rewrite El, Er in *. apply Hc; [rewrite <- Er; exact Hi|]. rewrite <- Er, <- Ev. exact M. }
  pose proof (ieee_laws prec emax Hp He w conv) as HL.
  assert (Hn : nonneg_weights g).
  { destruct (make_graph_Ok l r lev _ _ g Eg) as [_ [_ [_ [_ [_ [_ [_ [Nc [Ns [_ [_ E]]]]]]]]]]]. rewrite E. split; assumption. }
  destruct (candidates_complete HL srt g lp Hs Hw Elp Hf) as [cands [Ef _]].
  destruct (minimal_threshold HL srt g lp cands Hs Hw Elp Hf Ef) as [t [n [Et _]]]; [left; split; assumption|].
  destruct (small_threshold prec emax Hp He w conv Hconv g lp _ _ Hw Hz Ic Is Sm' Elp srt cands t Hs Ef Et) as [b [It _]].
  assert (X : exists k', labeling_ok g k' /\ nodes_within g lp t k' /\ edges_within g lp t k').
  { destruct Cases as [H1|[img E]].
    - apply (row_threshold HL srt g lp cands t); try assumption. rewrite Er. exact H1.
    - apply (solved_within HL srt l r lev (of_u c) (of_u s) g lp cands t img); assumption. }
  destruct X as [k' [K1 [K2 K3]]].
  assert (Q : forall j, labeling_ok g j ->
    nodes_within g lp t j /\ edges_within g lp t j <-> within_bound (left g) (right g) (levels g) (Z.of_N c) (Z.of_N s) b j).
  { intros j Hj. eapply (exact_within prec emax Hp He w conv Hconv g lp); try eassumption; lia. }
  assert (Wk : nodes_within g lp t k /\ edges_within g lp t k).
  { apply (Q k Lk). rewrite El, Er, Ev. apply (Un k'); [rewrite <- Er, <- Ev; apply ordered_spec; exact K1|].
    rewrite <- El, <- Er, <- Ev. apply (Q k' K1). split; assumption. }
  destruct (cheapest_at_threshold HL srt l r lev _ _ g lp cands t k Hs Eg Elp Cl Cr Hsz Hf Ef Et Ch Lk (proj1 Wk) (proj2 Wk)) as [img [Ei [Best Map]]].
  destruct Best as [Wi [Hi [Mi [Ci _]]]]. exists img.
  destruct (make_graph_Ok l r lev _ _ g Eg) as [_ [_ [_ [_ [W' [H' _]]]]]].
  refine (conj Ei (conj _ (conj _ (conj _ (conj Ci _))))); [congruence..|].
  intros p Hi'. apply Map. unfold in_image. rewrite Er. exact Hi'.
Qed.
End Ieee.

(** *** The application *)

Lemma closest_found srt lev a k : sorts srt -> accepted lev a -> small_problem (2 ^ 53) lev a -> 0 < p_cleanness a ->
  ordered_labeling (p_right a) lev k -> closest (p_left a) (p_right a) lev k -> unbeaten lev a k ->
  (height (p_right a) = 1 \/ exists img, solution_of srt lev a = Ok img) ->
  exists img, solution_of srt lev a = Ok img /\
    width img = width (p_right a) /\ height img = height (p_right a) /\ max_value img = lev /\ consistent_image img /\
    forall p, inside (p_right a) p -> map_labeling img p = k p.
Proof.
  intros Srt [g Eg] [Cl [Cr [F64 Sm]]] Pc K C U Cases.
  apply (cheapest_found 53 1024 hp53 he53 (2 ^ 64) Z.of_N (fun n _ => eq_refl) srt _ _ lev _ _ g k Srt Eg Cl Cr F64 Sm K); try assumption.
  apply closest_costs; [lia|exact K|exact C].
Qed.
Lemma closest_row srt lev a k : sorts srt -> accepted lev a -> small_problem (2 ^ 53) lev a -> 0 < p_cleanness a ->
  ordered_labeling (p_right a) lev k -> closest (p_left a) (p_right a) lev k -> unbeaten lev a k ->
  height (p_right a) = 1 ->
  exists img, solution_of srt lev a = Ok img /\
    width img = width (p_right a) /\ height img = height (p_right a) /\ max_value img = lev /\ consistent_image img /\
    forall p, inside (p_right a) p -> map_labeling img p = k p.
Proof. intros. apply closest_found; try assumption. left; assumption. Qed.
Lemma closest_map srt lev a k img : sorts srt -> accepted lev a -> small_problem (2 ^ 53) lev a -> 0 < p_cleanness a ->
  ordered_labeling (p_right a) lev k -> closest (p_left a) (p_right a) lev k -> unbeaten lev a k ->
  solution_of srt lev a = Ok img -> forall p, inside (p_right a) p -> map_labeling img p = k p.
Proof.
  intros Srt Ac Sm Pc K C U E.
  destruct (closest_found srt lev a k Srt Ac Sm Pc K C U) as [img' [E' [_ [_ [_ [_ M]]]]]]; [right; exists img; exact E|].
  rewrite E in E'. injection E' as <-. exact M.
Qed.
