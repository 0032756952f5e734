(** Proofs about problems whose penalties differ a little. *)
From Coq Require Import Reals Lia.
From Flocq Require Import Core.Core IEEE754.BinarySingleNaN.
From Verif Require Export Noise_spec Stiff_proofs.
Local Open Scope Z_scope.
Local Notation nd p d := {| npix := p; disp := d |}.

(** *** Thresholds *)

Lemma more_threshold srt lev d a a' b b' : sorts srt -> accepted lev a -> accepted lev a' ->
  small_problem (2 ^ 53) lev a -> small_problem (2 ^ 53) lev a' -> 0 <= d -> costs_more lev d a a' ->
  threshold_of srt lev a b -> threshold_of srt lev a' b' -> b' <= b + d.
Proof.
  intros Srt _ _ [Cl [Cr [F64 Sm]]] [Cl' [Cr' [F64' Sm']]] D0 [Ew [Eh [Mn Me]]]
    [g [lp [l [t [Eg [Elp [Ef [Et It]]]]]]]] [g' [lp' [l' [t' [Eg' [Elp' [Ef' [Et' It']]]]]]]].
  destruct (small_graph 53 1024 hp53 he53 (2 ^ 64) Z.of_N (fun n _ => eq_refl) _ _ lev _ _ g Eg Cl Cr F64 Sm) as [El [Er [Ev [Hw [Hz [Ic Is]]]]]].
  destruct (small_graph 53 1024 hp53 he53 (2 ^ 64) Z.of_N (fun n _ => eq_refl) _ _ lev _ _ g' Eg' Cl' Cr' F64' Sm') as [El' [Er' [Ev' [Hw' [Hz' [Ic' Is']]]]]].
  change (@left cpu g = p_left a) in El. change (@right cpu g = p_right a) in Er. change (@levels cpu g = lev) in Ev.
  change (@left cpu g' = p_left a') in El'. change (@right cpu g' = p_right a') in Er'. change (@levels cpu g' = lev) in Ev'.
  assert (Sg : small_penalties (2 ^ 53) (left g) (right g) (levels g) (Z.of_N (p_cleanness a)) (Z.of_N (p_smoothness a))).
  { rewrite El, Er, Ev. exact Sm. }
  assert (Sg' : small_penalties (2 ^ 53) (left g') (right g') (levels g') (Z.of_N (p_cleanness a')) (Z.of_N (p_smoothness a'))).
  { rewrite El', Er', Ev'. exact Sm'. }
  destruct (small_plain g _ _ Hw Hz Ic Is Sg) as [Hf Nn]. destruct (small_plain g' _ _ Hw' Hz' Ic' Is' Sg') as [Hf' Nn'].
  destruct (small_threshold 53 1024 hp53 he53 (2 ^ 64) Z.of_N (fun n _ => eq_refl) g lp _ _ Hw Hz Ic Is Sg Elp srt l t Srt Ef Et) as [b0 [I0 [R0 _]]].
  destruct (small_threshold 53 1024 hp53 he53 (2 ^ 64) Z.of_N (fun n _ => eq_refl) g' lp' _ _ Hw' Hz' Ic' Is' Sg' Elp' srt l' t' Srt Ef' Et') as [b1 [I1 [R1 _]]].
  assert (b0 = b) by (apply eq_IZR; rewrite <- (proj2 I0); apply It). subst b0.
  assert (b1 = b') by (apply eq_IZR; rewrite <- (proj2 I1); apply It'). subst b1.
  destruct (Z_le_gt_dec (b + d) (2 ^ 53)) as [Le|Gt]; [|lia].
  assert (X : exists t2 : F cpu, is_int t2 (b + d)).
  { exists (of_u (Z.to_N (b + d))). rewrite <- (Z2N.id (b + d)) by lia. rewrite N2Z.id.
    apply (int_of_u 53 1024 hp53 he53 (2 ^ 64) Z.of_N (fun n _ => eq_refl)). rewrite Z2N.id by lia. exact Le. }
  destruct X as [t2 I2].
  destruct (small_minima 53 1024 hp53 he53 (2 ^ 64) Z.of_N (fun n _ => eq_refl) g _ _ _ Hw Hz Ic Is Sg Elp) as [_ [_ [Nx Ex]]].
  destruct (small_minima 53 1024 hp53 he53 (2 ^ 64) Z.of_N (fun n _ => eq_refl) g' _ _ _ Hw' Hz' Ic' Is' Sg' Elp') as [_ [_ [Nx' Ex']]].
  assert (Ma : forall n, match_exists g n <-> is_match (p_right a) lev n).
  { intros n. rewrite <- Er, <- Ev. reflexivity. }
  assert (Ma' : forall n, match_exists g' n <-> is_match (p_right a') lev n).
  { intros n. rewrite <- Er', <- Ev'. reflexivity. }
  assert (Mm : forall n, is_match (p_right a) lev n -> is_match (p_right a') lev n).
  { intros n. unfold is_match, inside. rewrite Ew, Eh. auto. }
  apply (int_le 53 1024 hp53 he53 (2 ^ 64) Z.of_N t' t2 _ _ It' I2).
  apply (threshold_least_solvable cpu_laws srt g' lp' l' t' t2 Srt Hw' Elp' Hf' Hz' Nn' Ef' Et').
  destruct (minimal_threshold cpu_laws srt g lp l Srt Hw Elp Hf Ef (or_introl (conj Hz Nn))) as [t0 [k [E1 [_ [_ [St _]]]]]].
  assert (t0 = t) by congruence. subst t0.
  apply (across_says g g' lp lp' t t2 Hw Elp Hw' Elp'); [| | | | |exact St].
  - rewrite Er, Er'. exact Ew.
  - rewrite Er, Er'. exact Eh.
  - intros n M. apply Ma', Mm, Ma. exact M.
  - intros n M W. destruct (Nx n M) as [v [z [X [L I]]]].
    apply Ma in M. pose proof (Mm n M) as M'. destruct (Nx' n (proj2 (Ma' n) M')) as [v' [z' [X' [L' I']]]].
    apply (node_within_excess g lp t n v X) in W. apply (node_within_excess g' lp' t2 n v' X').
    apply (int_le 53 1024 hp53 he53 (2 ^ 64) Z.of_N _ _ _ _ I It) in W.
    apply (int_le 53 1024 hp53 he53 (2 ^ 64) Z.of_N _ _ _ _ I' I2).
    clear X X' I I' Nx Nx' Ex Ex'.
    assert (L2 : lowest_cost (p_left a) (p_right a) lev (Z.of_N (p_cleanness a)) (npix n) z) by (rewrite <- El, <- Er, <- Ev; exact L).
    assert (L3 : lowest_cost (p_left a') (p_right a') lev (Z.of_N (p_cleanness a')) (npix n) z') by (rewrite <- El', <- Er', <- Ev'; exact L').
    specialize (Mn n z z' M L2 L3).
    assert (W2 : node_cost (p_left a) (p_right a) (Z.of_N (p_cleanness a)) n - z <= b) by (rewrite <- El, <- Er; exact W).
    assert (W3 : node_cost (p_left a') (p_right a') (Z.of_N (p_cleanness a')) n - z' <= b + d) by lia.
    rewrite <- El', <- Er' in W3. exact W3.
  - intros [n n'] [M [M' [A O]]] W. cbn [enode enbr] in *.
    destruct (Ex n n' M M' A) as [v [X I]].
    apply Ma in M. apply Ma in M'. pose proof (Mm n M) as N1. pose proof (Mm n' M') as N2.
    destruct (Ex' n n' (proj2 (Ma' n) N1) (proj2 (Ma' n') N2) A) as [v' [X' I']].
    apply (edge_within_excess g lp t _ v X) in W. apply (edge_within_excess g' lp' t2 _ v' X').
    apply (int_le 53 1024 hp53 he53 (2 ^ 64) Z.of_N _ _ _ _ I It) in W.
    apply (int_le 53 1024 hp53 he53 (2 ^ 64) Z.of_N _ _ _ _ I' I2).
    specialize (Me (disp n) (disp n') (proj1 (proj2 M)) (proj1 (proj2 M'))). lia.
Qed.

Lemma threshold_exists srt lev a : sorts srt -> accepted lev a -> small_problem (2 ^ 53) lev a -> exists b, threshold_of srt lev a b.
Proof.
  intros Srt [g Eg] [Cl [Cr [F64 Sm]]].
  destruct (small_graph 53 1024 hp53 he53 (2 ^ 64) Z.of_N (fun n _ => eq_refl) _ _ lev _ _ g Eg Cl Cr F64 Sm) as [El [Er [Ev [Hw [Hz [Ic Is]]]]]].
  change (@left cpu g = p_left a) in El. change (@right cpu g = p_right a) in Er. change (@levels cpu g = lev) in Ev.
  assert (Sg : small_penalties (2 ^ 53) (left g) (right g) (levels g) (Z.of_N (p_cleanness a)) (Z.of_N (p_smoothness a))).
  { rewrite El, Er, Ev. exact Sm. }
  destruct (small_plain g _ _ Hw Hz Ic Is Sg) as [Hf Nn]. destruct (make_lowest_spec g Hw) as [lp [Elp _]].
  destruct (candidates_complete cpu_laws srt g lp Srt Hw Elp Hf) as [l [Ef _]].
  destruct (minimal_threshold cpu_laws srt g lp l Srt Hw Elp Hf Ef (or_introl (conj Hz Nn))) as [t [k [Et _]]].
  destruct (small_threshold 53 1024 hp53 he53 (2 ^ 64) Z.of_N (fun n _ => eq_refl) g lp _ _ Hw Hz Ic Is Sg Elp srt l t Srt Ef Et) as [b [It _]].
  exists b, g, lp, l, t. auto.
Qed.

Lemma more_thresholds srt lev d a a' : sorts srt -> accepted lev a -> accepted lev a' ->
  small_problem (2 ^ 53) lev a -> small_problem (2 ^ 53) lev a' -> 0 <= d -> costs_more lev d a a' ->
  exists b b', threshold_of srt lev a b /\ threshold_of srt lev a' b' /\ b' <= b + d.
Proof.
  intros Srt A A' S S' D C. destruct (threshold_exists srt lev a Srt A S) as [b Hb]. destruct (threshold_exists srt lev a' Srt A' S') as [b' Hb'].
  exists b, b'. split; [exact Hb|]. split; [exact Hb'|]. exact (more_threshold srt lev d a a' b b' Srt A A' S S' D C Hb Hb').
Qed.

(** *** Maps *)

Lemma lowest_exists lev a p : accepted lev a -> small_problem (2 ^ 53) lev a -> inside (p_right a) p ->
  exists z, lowest_cost (p_left a) (p_right a) lev (Z.of_N (p_cleanness a)) p z.
Proof.
  intros [g Eg] [Cl [Cr [F64 Sm]]] Hi.
  destruct (small_graph 53 1024 hp53 he53 (2 ^ 64) Z.of_N (fun n _ => eq_refl) _ _ lev _ _ g Eg Cl Cr F64 Sm) as [El [Er [Ev [Hw [Hz [Ic Is]]]]]].
  change (@left cpu g = p_left a) in El. change (@right cpu g = p_right a) in Er. change (@levels cpu g = lev) in Ev.
  assert (Sg : small_penalties (2 ^ 53) (left g) (right g) (levels g) (Z.of_N (p_cleanness a)) (Z.of_N (p_smoothness a))).
  { rewrite El, Er, Ev. exact Sm. }
  destruct (make_lowest_spec g Hw) as [lp [Elp _]].
  destruct (small_minima 53 1024 hp53 he53 (2 ^ 64) Z.of_N (fun n _ => eq_refl) g _ _ _ Hw Hz Ic Is Sg Elp) as [Lo _].
  destruct (Lo p) as [v [z [_ [_ L]]]].
  - change (inside (@right cpu g) p). rewrite Er. exact Hi.
  - exists z. rewrite <- El, <- Er, <- Ev. exact L.
Qed.

Lemma more_within lev d a a' b k : accepted lev a -> small_problem (2 ^ 53) lev a -> costs_more lev d a a' ->
  ordered_labeling (p_right a) lev k ->
  within_bound (p_left a) (p_right a) lev (Z.of_N (p_cleanness a)) (Z.of_N (p_smoothness a)) b k ->
  within_bound (p_left a') (p_right a') lev (Z.of_N (p_cleanness a')) (Z.of_N (p_smoothness a')) (b + d) k.
Proof.
  intros Ac Sm [Ew [Eh [Mn Me]]] [K _] [Wn We].
  assert (I : forall p, inside (p_right a') p -> inside (p_right a) p) by (intros p [A B]; split; congruence).
  split.
  - intros p z' Hi L'. apply I in Hi. destruct (lowest_exists lev a p Ac Sm Hi) as [z L].
    specialize (Mn (label_node k p) z z' (K p Hi) L L'). specialize (Wn p z Hi L). lia.
  - intros p q Hp Hq A. apply I in Hp. apply I in Hq. specialize (We p q Hp Hq A).
    specialize (Me (k p) (k q) (proj1 (proj2 (K p Hp))) (proj1 (proj2 (K q Hq)))). lia.
Qed.

Lemma more_map srt lev d d' a a' img k b : sorts srt -> accepted lev a -> accepted lev a' ->
  small_problem (2 ^ 53) lev a -> small_problem (2 ^ 53) lev a' -> costs_more lev d a a' -> costs_more lev d' a' a ->
  solution_of srt lev a' = Ok img -> ordered_labeling (p_right a) lev k ->
  within_bound (p_left a) (p_right a) lev (Z.of_N (p_cleanness a)) (Z.of_N (p_smoothness a)) b k ->
  ordered_labeling (p_right a) lev (map_labeling img) /\
  within_bound (p_left a) (p_right a) lev (Z.of_N (p_cleanness a)) (Z.of_N (p_smoothness a)) (b + (d + d')) (map_labeling img).
Proof.
  intros Srt Ac Ac' Sm Sm' C C' Ei Hk Wk.
  assert (O : optimal_map (p_left a') (p_right a') lev (Z.of_N (p_cleanness a')) (Z.of_N (p_smoothness a')) img).
  { pose proof Ac' as [g Eg]. destruct Sm' as [Cl [Cr [F64 Sm']]].
    destruct (exact_solution 53 1024 hp53 he53 (2 ^ 64) Z.of_N (fun n _ => eq_refl) srt _ _ lev _ _ g Srt Eg Cl Cr F64 Sm') as [H|[img' [H O]]];
      unfold solution_of in Ei; pose proof (eq_trans (eq_sym Ei) H) as E2; [discriminate E2|].
    assert (E3 : img = img') by (injection E2; auto). subst img'. exact O. }
  destruct O as [_ [_ [_ [_ [_ [Ok Best]]]]]].
  assert (Or : forall k0, ordered_labeling (p_right a) lev k0 <-> ordered_labeling (p_right a') lev k0).
  { destruct C as [Ew [Eh _]]. intros k0. unfold ordered_labeling, is_match, inside. rewrite Ew, Eh. reflexivity. }
  split; [apply Or; exact Ok|]. rewrite Z.add_assoc. apply (more_within lev d' a' a); try assumption.
  apply (Best k); [apply Or; exact Hk|]. apply (more_within lev d a a'); assumption.
Qed.

(** *** Weights *)

Lemma lighter_costs lev a a' : lighter a a' -> costs_more lev 0 a a'.
Proof.
  intros [El [Er [C S]]]. unfold costs_more. rewrite El, Er. refine (conj eq_refl (conj eq_refl (conj _ _))).
  - intros n z z' M [_ L] [[n1 [E1 [M1 <-]]] L'].
    pose proof (L n eq_refl M) as L0. specialize (L n1 E1 M1). specialize (L' n eq_refl M). unfold node_cost in *.
    set (u := (brightness (p_right a) (npix n) - _) ^ 2) in *. set (u1 := (brightness (p_right a) (npix n1) - _) ^ 2) in *.
    assert (0 <= u) by (unfold u; rewrite Z.pow_2_r; nia). assert (0 <= u1) by (unfold u1; rewrite Z.pow_2_r; nia).
    destruct (N.eq_dec (p_cleanness a') 0) as [Z0|Z0]; [rewrite Z0 in *; lia|].
    assert (u1 <= u) by nia. nia.
  - intros e e' _ _. unfold edge_cost. set (u := (Z.of_N e - Z.of_N e') ^ 2). assert (0 <= u) by (unfold u; rewrite Z.pow_2_r; nia). nia.
Qed.

Lemma lighter_thresholds srt lev a a' : sorts srt -> accepted lev a -> accepted lev a' ->
  small_problem (2 ^ 53) lev a -> small_problem (2 ^ 53) lev a' -> lighter a a' ->
  exists b b', threshold_of srt lev a b /\ threshold_of srt lev a' b' /\ b' <= b.
Proof.
  intros Srt A A' S S' L. destruct (more_thresholds srt lev 0 a a' Srt A A' S S' (Z.le_refl 0) (lighter_costs lev a a' L)) as [b [b' [H [H' Le]]]].
  exists b, b'. rewrite Z.add_0_r in Le. auto.
Qed.

(** *** Noise *)

Lemma squares_near u u' e m : Z.abs (u' - u) <= 2 * e -> Z.abs u <= m -> Z.abs u' <= m -> u' ^ 2 <= u ^ 2 + 4 * e * m.
Proof.
  intros H1 H2 H3. assert (E : u' ^ 2 = u ^ 2 + (u' - u) * (u' + u)) by (rewrite !Z.pow_2_r; ring).
  assert (X : (u' - u) * (u' + u) <= Z.abs (u' - u) * Z.abs (u' + u)) by (rewrite <- Z.abs_mul; lia).
  assert (Y : Z.abs (u' - u) * Z.abs (u' + u) <= (2 * e) * (2 * m)) by (apply Z.mul_le_mono_nonneg; lia). lia.
Qed.

Lemma noise_sym e img img' : noise e img img' -> noise e img' img.
Proof.
  intros [Ew [Eh H]]. refine (conj (eq_sym Ew) (conj (eq_sym Eh) _)). intros p Hi.
  assert (inside img p) by (destruct Hi; split; congruence). specialize (H p H0). lia.
Qed.
Lemma noisy_sym e a a' : noisy e a a' -> noisy e a' a.
Proof. intros [A [B [C D]]]. refine (conj (noise_sym _ _ _ A) (conj (noise_sym _ _ _ B) (conj (eq_sym C) (eq_sym D)))). Qed.

Lemma noisy_cost lev e m a a' n : width (p_left a) = width (p_right a) -> height (p_left a) = height (p_right a) ->
  noisy e a a' -> at_most m (p_left a) -> at_most m (p_right a) -> at_most m (p_left a') -> at_most m (p_right a') ->
  is_match (p_right a) lev n ->
  node_cost (p_left a') (p_right a') (Z.of_N (p_cleanness a')) n <=
  node_cost (p_left a) (p_right a) (Z.of_N (p_cleanness a)) n + 4 * Z.of_N (p_cleanness a) * e * m.
Proof.
  intros Ew Eh [[Wl [Hl Nl]] [[Wr [Hr Nr]] [Ec Es]]] Ml Mr Ml' Mr' [[Hx Hy] [Hd Hxd]].
  unfold node_cost. rewrite Ec. set (q := {| px := px (npix n) + disp n; py := py (npix n) |}).
  assert (Iq : inside (p_left a) q) by (split; cbn [px py q]; congruence).
  assert (Ip : inside (p_right a) (npix n)) by (split; assumption).
  assert (Iq' : inside (p_left a') q) by (split; [rewrite Wl|rewrite Hl]; apply Iq).
  assert (Ip' : inside (p_right a') (npix n)) by (split; [rewrite Wr|rewrite Hr]; apply Ip).
  specialize (Nl q Iq). specialize (Nr _ Ip). specialize (Ml q Iq). specialize (Mr _ Ip). specialize (Ml' q Iq'). specialize (Mr' _ Ip').
  assert (P1 : 0 <= brightness (p_left a) q) by apply N2Z.is_nonneg. assert (P2 : 0 <= brightness (p_right a) (npix n)) by apply N2Z.is_nonneg.
  assert (P3 : 0 <= brightness (p_left a') q) by apply N2Z.is_nonneg. assert (P4 : 0 <= brightness (p_right a') (npix n)) by apply N2Z.is_nonneg.
  pose proof (squares_near (brightness (p_right a) (npix n) - brightness (p_left a) q) (brightness (p_right a') (npix n) - brightness (p_left a') q) e m
    ltac:(lia) ltac:(lia) ltac:(lia)) as X.
  pose proof (N2Z.is_nonneg (p_cleanness a)) as C0. pose proof (Z.mul_le_mono_nonneg_l _ _ _ C0 X) as Y. lia.
Qed.

Lemma noisy_costs lev e m a a' : 0 <= e -> 0 <= m -> accepted lev a -> accepted lev a' ->
  noisy e a a' -> at_most m (p_left a) -> at_most m (p_right a) -> at_most m (p_left a') -> at_most m (p_right a') ->
  costs_more lev (8 * Z.of_N (p_cleanness a) * e * m) a a'.
Proof.
  intros E0 M0 [g Eg] [g' Eg'] No Ml Mr Ml' Mr'.
  destruct (make_graph_Ok _ _ _ _ _ g Eg) as [_ [_ [_ [_ [Ew [Eh _]]]]]].
  destruct (make_graph_Ok _ _ _ _ _ g' Eg') as [_ [_ [_ [_ [Ew' [Eh' _]]]]]].
  pose proof No as [_ [[Wr [Hr _]] [Ec Es]]]. refine (conj Wr (conj Hr (conj _ _))).
  - intros n z z' M [_ L] [[n1 [E1 [M1 <-]]] L'].
    assert (M1' : is_match (p_right a) lev n1) by (unfold is_match, inside in *; rewrite Wr, Hr in M1; exact M1).
    pose proof (noisy_cost lev e m a a' n Ew Eh No Ml Mr Ml' Mr' M) as X.
    pose proof (noisy_cost lev e m a' a n1 Ew' Eh' (noisy_sym _ _ _ No) Ml' Mr' Ml Mr M1) as Y.
    specialize (L n1 E1 M1'). rewrite Ec in *. lia.
  - intros d d' _ _. rewrite Es. pose proof (N2Z.is_nonneg (p_cleanness a)) as C0.
    assert (0 <= 8 * Z.of_N (p_cleanness a) * e * m) by (apply Z.mul_nonneg_nonneg; [apply Z.mul_nonneg_nonneg; lia|lia]). lia.
Qed.

Lemma accepted_pixel lev a : accepted lev a -> inside (p_right a) {| px := 0; py := 0 |}.
Proof.
  intros [g Eg]. destruct (make_graph_Ok _ _ _ _ _ g Eg) as [_ [Vr _]]. exact (image_valid_nonzero _ Vr).
Qed.
Lemma noisy_signs lev e m a a' : accepted lev a -> noisy e a a' -> at_most m (p_right a) -> 0 <= e /\ 0 <= m.
Proof.
  intros Ac [_ [[_ [_ N]] _]] M. pose proof (accepted_pixel lev a Ac) as I. specialize (N _ I). specialize (M _ I).
  assert (0 <= brightness (p_right a) {| px := 0; py := 0 |}) by apply N2Z.is_nonneg. lia.
Qed.

Lemma noisy_thresholds srt lev e m a a' : sorts srt -> accepted lev a -> accepted lev a' ->
  small_problem (2 ^ 53) lev a -> small_problem (2 ^ 53) lev a' -> noisy e a a' ->
  at_most m (p_left a) -> at_most m (p_right a) -> at_most m (p_left a') -> at_most m (p_right a') ->
  exists b b', threshold_of srt lev a b /\ threshold_of srt lev a' b' /\ Z.abs (b' - b) <= 8 * Z.of_N (p_cleanness a) * e * m.
Proof.
  intros Srt A A' S S' No Ml Mr Ml' Mr'. destruct (noisy_signs lev e m a a' A No Mr) as [E0 M0].
  destruct (threshold_exists srt lev a Srt A S) as [b Hb]. destruct (threshold_exists srt lev a' Srt A' S') as [b' Hb'].
  exists b, b'. split; [exact Hb|]. split; [exact Hb'|].
  assert (D0 : 0 <= 8 * Z.of_N (p_cleanness a) * e * m) by (apply Z.mul_nonneg_nonneg; [apply Z.mul_nonneg_nonneg; lia|lia]).
  pose proof (noisy_costs lev e m a a' E0 M0 A A' No Ml Mr Ml' Mr') as C.
  pose proof (noisy_costs lev e m a' a E0 M0 A' A (noisy_sym _ _ _ No) Ml' Mr' Ml Mr) as C'.
  pose proof No as [_ [_ [Ec _]]]. rewrite Ec in C'.
  pose proof (more_threshold srt lev _ a a' b b' Srt A A' S S' D0 C Hb Hb').
  pose proof (more_threshold srt lev _ a' a b' b Srt A' A S' S D0 C' Hb' Hb). lia.
Qed.

Lemma noisy_map srt lev e m a a' img k b : sorts srt -> accepted lev a -> accepted lev a' ->
  small_problem (2 ^ 53) lev a -> small_problem (2 ^ 53) lev a' -> noisy e a a' ->
  at_most m (p_left a) -> at_most m (p_right a) -> at_most m (p_left a') -> at_most m (p_right a') ->
  solution_of srt lev a' = Ok img -> ordered_labeling (p_right a) lev k ->
  within_bound (p_left a) (p_right a) lev (Z.of_N (p_cleanness a)) (Z.of_N (p_smoothness a)) b k ->
  ordered_labeling (p_right a) lev (map_labeling img) /\
  within_bound (p_left a) (p_right a) lev (Z.of_N (p_cleanness a)) (Z.of_N (p_smoothness a))
    (b + 16 * Z.of_N (p_cleanness a) * e * m) (map_labeling img).
Proof.
  intros Srt A A' S S' No Ml Mr Ml' Mr' Ei Hk Wk. destruct (noisy_signs lev e m a a' A No Mr) as [E0 M0].
  pose proof (noisy_costs lev e m a a' E0 M0 A A' No Ml Mr Ml' Mr') as C.
  pose proof (noisy_costs lev e m a' a E0 M0 A' A (noisy_sym _ _ _ No) Ml' Mr' Ml Mr) as C'.
  pose proof No as [_ [_ [Ec _]]]. rewrite Ec in C'.
  destruct (more_map srt lev _ _ a a' img k b Srt A A' S S' C C' Ei Hk Wk) as [O W]. split; [exact O|].
  replace (16 * Z.of_N (p_cleanness a) * e * m) with (8 * Z.of_N (p_cleanness a) * e * m + 8 * Z.of_N (p_cleanness a) * e * m) by ring.
  exact W.
Qed.
