(** One sweep on two problems over pixels of the same grid. *)
From Verif Require Export Row_proofs.
Local Open Scope N_scope.
Local Notation G cg := (cg_graph cg).
Local Notation nd p d := {| npix := p; disp := d |}.

Section Across.
Context {T : target} (HL : laws T).

(** A node survives if each neighbor has a node it goes with. *)
Lemma proc_keeps (cg : cgraph T) p ds m n : static cg -> mem_ok cg m -> dispsok cg p ds -> inb cg n -> in_image (G cg) p ->
  avb cg m n = true ->
  (npix n = p -> forall q, in_image (G cg) q -> adjacent p q ->
     exists n', npix n' = q /\ inb cg n' /\ avb cg m n' = true /\ compat cg n n') ->
  avb cg (proc cg p ds m) n = true.
Proof.
  intros Hs. revert m. induction ds as [|d ds IH]; intros m Hm Hd Hn Hp Ha Sup; cbn [proc]; [exact Ha|].
  assert (H1 : inb cg (nd p d)) by (apply Hd; left; reflexivity).
  assert (Hd' : dispsok cg p ds) by (intros x Hx; apply Hd; right; exact Hx).
  assert (Keep : forall x, inb cg x -> avb cg m x = true -> x <> nd p d -> avb cg (proc1 cg m (nd p d)) x = true).
  { intros x Hx Hax Hne. unfold proc1. destruct (rmvb cg m (nd p d)); [|exact Hax].
    apply avb_clear; try assumption. auto. }
  apply IH; [apply proc1_ok; exact Hm|exact Hd'|exact Hn|exact Hp| |].
  - destruct (N.eq_dec (node_index (G cg) n) (node_index (G cg) (nd p d))) as [E|E].
    + apply (idx_inj cg) in E; try assumption. subst n. unfold proc1.
      destruct (rmvb cg m (nd p d)) eqn:R; [exfalso|exact Ha].
      apply rmvb_iff in R; try assumption. destruct R as [_ [q [Hq [A No]]]].
      destruct (Sup eq_refl q Hq A) as [n' [E' [_ [B C]]]]. apply (No n' E'). auto.
    + apply Keep; try assumption. intros ->. apply E. reflexivity.
  - intros En q Hq A. destruct (Sup En q Hq A) as [n' [E' [I' [B C]]]]. exists n'. split; [exact E'|]. split; [exact I'|].
    split; [|exact C]. apply Keep; try assumption. intros ->. cbn [npix] in E'. subst q. unfold adjacent, horizontal_pair, vertical_pair in A. lia.
Qed.

Variables (cg1 cg2 : cgraph T) (c a : N).
Definition down (p : pixel) : pixel := {| px := px p + c; py := py p + a |}.
Definition down_node (n : node) : node := nd (down (npix n)) (disp n).
Hypotheses (H1 : static cg1) (H2 : static cg2)
  (Hwd : c + width (right (G cg2)) = width (right (G cg1))) (Hht : a + height (right (G cg2)) <= height (right (G cg1)))
  (Hma : forall n, in_image (G cg2) (npix n) -> match_exists (G cg1) (down_node n) -> match_exists (G cg2) n)
  (Hco : forall n n', in_image (G cg2) (npix n) -> in_image (G cg2) (npix n') ->
     compat cg1 (down_node n) (down_node n') -> compat cg2 n n').

Definition below (m1 m2 : list bool) : Prop :=
  forall n, in_image (G cg2) (npix n) -> match_exists (G cg1) (down_node n) ->
    avb cg1 m1 (down_node n) = true -> avb cg2 m2 n = true.

Lemma across_image p : in_image (G cg2) p -> in_image (G cg1) (down p).
Proof. unfold in_image, down. cbn [px py]. lia. Qed.
Lemma down_adjacent p q : adjacent p q -> adjacent (down p) (down q).
Proof. unfold adjacent, horizontal_pair, vertical_pair, down. cbn [px py]. lia. Qed.

Lemma below_sub m1 m1' m2 : sub m1' m1 -> below m1 m2 -> below m1' m2.
Proof. intros S B n Hp M A. apply B; try assumption. apply S. exact A. Qed.

Lemma below_process m1 m2 p : mem_ok cg1 m1 -> mem_ok cg2 m2 -> in_image (G cg2) p -> below m1 m2 ->
  below (process cg1 (down p) m1) (process cg2 p m2).
Proof.
  intros M1 M2 Hp B n Hn Mn A. pose proof (across_image p Hp) as Hp1.
  assert (A1 : avb cg1 m1 (down_node n) = true) by (exact (sub_process cg1 (down p) m1 H1 M1 Hp1 _ A)).
  apply proc_keeps; try assumption; [apply dispsok_disps; assumption|apply match_inb, Hma; assumption|apply B; assumption|].
  intros En q Hq Adj. subst p.
  destruct (proc_support cg1 (down (npix n)) (disps cg1 (down (npix n))) m1 (down_node n) (down q) H1 M1 (dispsok_disps cg1 _ H1 Hp1) eq_refl)
    as [n1 [E' [B' C']]]; try assumption.
  { apply (disps_In cg1); [exact H1|exact Hp1|exact Mn]. }
  { apply across_image. exact Hq. }
  { apply down_adjacent. exact Adj. }
  assert (En1 : n1 = down_node (nd q (disp n1))) by (destruct n1 as [p1 d1]; unfold down_node; cbn [npix disp] in *; congruence).
  rewrite En1 in B', C'.
  assert (M' : match_exists (G cg1) (down_node (nd q (disp n1)))) by apply C'.
  exists (nd q (disp n1)). split; [reflexivity|]. split; [apply match_inb, Hma; [exact Hq|exact M']|].
  split; [apply B; assumption|apply Hco; assumption].
Qed.

Lemma below_has m1 m2 p : in_image (G cg2) p -> below m1 m2 -> hasb cg1 m1 (down p) = true -> hasb cg2 m2 p = true.
Proof.
  intros Hp B. rewrite (hasb_iff cg1), (hasb_iff cg2); try assumption; [|apply across_image; exact Hp].
  intros [n1 [M [E A]]].
  assert (En1 : n1 = down_node (nd p (disp n1))) by (destruct n1 as [p1 d1]; unfold down_node; cbn [npix disp] in *; congruence).
  rewrite En1 in M, A. exists (nd p (disp n1)). split; [apply Hma; assumption|]. split; [reflexivity|]. apply B; assumption.
Qed.

(** The pixels of the second problem in the order of the first one, others in between. *)
Inductive inter : list pixel -> list pixel -> Prop :=
| inter_nil : inter [] []
| inter_skip p l1 l2 : in_image (G cg1) p -> inter l1 l2 -> inter (p :: l1) l2
| inter_take p l1 l2 : in_image (G cg2) p -> inter l1 l2 -> inter (down p :: l1) (p :: l2).

Lemma inter_app l1 l2 k1 k2 : inter l1 l2 -> inter k1 k2 -> inter (l1 ++ k1) (l2 ++ k2).
Proof. intros H K. induction H; cbn [app]; [exact K|constructor; assumption|constructor; assumption]. Qed.
Lemma inter_none l : pixels_ok cg1 l -> inter l [].
Proof.
  induction l as [|p l IH]; intros H; constructor; [apply H; left; reflexivity|].
  apply IH. intros q Hq. apply H. right. exact Hq.
Qed.
Lemma inter_map l : pixels_ok cg2 l -> inter (map down l) l.
Proof.
  induction l as [|p l IH]; intros H; cbn [map]; constructor; [apply H; left; reflexivity|].
  apply IH. intros q Hq. apply H. right. exact Hq.
Qed.

Lemma below_sweep ps1 ps2 m1 m2 : inter ps1 ps2 -> mem_ok cg1 m1 -> mem_ok cg2 m2 -> below m1 m2 ->
  fst (sweep cg1 ps1 m1) = true ->
  fst (sweep cg2 ps2 m2) = true /\ below (snd (sweep cg1 ps1 m1)) (snd (sweep cg2 ps2 m2)).
Proof.
  intros I. revert m1 m2. induction I as [|p l1 l2 Hp I IH|p l1 l2 Hp I IH]; intros m1 m2 M1 M2 B Hf; cbn [sweep] in *; [auto| |].
  - destruct (hasb cg1 (process cg1 p m1) p) eqn:E; [|discriminate].
    apply IH; try assumption; [apply process_ok; exact M1|].
    eapply below_sub; [|exact B]. apply sub_process; assumption.
  - pose proof (below_process m1 m2 p M1 M2 Hp B) as B'.
    destruct (hasb cg1 (process cg1 (down p) m1) (down p)) eqn:E; [|discriminate].
    rewrite (below_has _ _ p Hp B' E).
    apply IH; try assumption; try (apply process_ok; assumption).
Qed.

Lemma range_shift lo hi k : range (lo + k) (hi + k) = map (fun y => y + k) (range lo hi).
Proof.
  unfold range. replace (hi + k - (lo + k)) with (hi - lo) by lia. generalize (N.to_nat (hi - lo)). intros i. revert lo.
  induction i as [|i IH]; intros lo; cbn [seqN map]; [reflexivity|]. f_equal. rewrite <- IH. f_equal. lia.
Qed.
Lemma inter_grid ys : (forall y, In y ys -> y < height (right (G cg2))) ->
  inter (grid (width (right (G cg1))) (map (fun y => y + a) ys)) (grid (width (right (G cg2))) ys).
Proof.
  induction ys as [|y ys IH]; intros Hy; cbn [map]; [constructor|].
  unfold grid in *. cbn [flat_map]. apply inter_app; [|apply IH; intros z Hz; apply Hy; right; exact Hz].
  assert (Y : y < height (right (G cg2))) by (apply Hy; left; reflexivity).
  rewrite (range_split 0 c (width (right (G cg1)))) by lia. unfold row at 1. rewrite map_app.
  change (row y (range 0 (width (right (G cg2))))) with ([] ++ row y (range 0 (width (right (G cg2))))).
  apply inter_app.
  - apply inter_none. intros p Hp. apply in_map_iff in Hp. destruct Hp as [x [<- Hx]]. apply In_range in Hx.
    split; cbn [px py]; lia.
  - assert (E : range c (width (right (G cg1))) = map (fun x => x + c) (range 0 (width (right (G cg2))))).
    { rewrite <- range_shift. f_equal; lia. }
    rewrite E, map_map. unfold row.
    replace (map (fun x => {| px := x + c; py := y + a |}) (range 0 (width (right (G cg2)))))
      with (map down (map (fun x => {| px := x; py := y |}) (range 0 (width (right (G cg2)))))) by (rewrite map_map; reflexivity).
    apply inter_map. intros p Hp. apply in_map_iff in Hp. destruct Hp as [x [<- Hx]]. apply In_range in Hx.
    split; cbn [px py]; lia.
Qed.
Lemma inter_raster : inter (raster cg1) (raster cg2).
Proof.
  unfold raster. set (h1 := height (right (G cg1))) in *. set (h2 := height (right (G cg2))) in *.
  rewrite (range_split 0 a h1) by lia. rewrite (range_split a (h2 + a) h1) by lia.
  replace (range a (h2 + a)) with (map (fun y => y + a) (range 0 h2)) by (rewrite <- range_shift; f_equal; lia).
  replace (grid (width (right (G cg2))) (range 0 h2)) with ([] ++ grid (width (right (G cg2))) (range 0 h2) ++ [])
    by (rewrite app_nil_r; reflexivity).
  unfold grid at 1. rewrite !flat_map_app. apply inter_app; [|apply inter_app].
  - apply inter_none. intros p Hp. apply In_grid in Hp. rewrite In_range in Hp. split; [apply Hp|]. fold h1. lia.
  - apply inter_grid. intros y Hy. apply In_range in Hy. apply Hy.
  - apply inter_none. intros p Hp. apply In_grid in Hp. rewrite In_range in Hp. split; [apply Hp|]. fold h1. lia.
Qed.

Lemma below_solved m1 m2 : mem_ok cg1 m1 -> mem_ok cg2 m2 -> below m1 m2 -> fst (solved cg1 m1) = true ->
  fst (solved cg2 m2) = true /\ below (snd (solved cg1 m1)) (snd (solved cg2 m2)).
Proof.
  intros M1 M2 B. unfold solved. pose proof (below_sweep _ _ m1 m2 inter_raster M1 M2 B) as H.
  destruct (sweep cg1 (raster cg1) m1) as [ok1 r1], (sweep cg2 (raster cg2) m2) as [ok2 r2].
  cbn [fst snd] in *. destruct ok1; cbn [fst snd]; [|discriminate]. intros _.
  destruct (H eq_refl) as [-> S]. cbn [fst snd]. auto.
Qed.

End Across.

(** The solver succeeds on a problem over a part of the pixels whose new constraint
    graph has at least the nodes and edges of one it succeeds on. *)
Lemma across_part {T : target} (g1 g2 : dgraph T) lp1 lp2 t1 t2 c a :
  wf_graph g1 -> make_lowest g1 = Ok lp1 -> wf_graph g2 -> make_lowest g2 = Ok lp2 ->
  c + width (right g2) = width (right g1) -> a + height (right g2) <= height (right g1) ->
  (forall n, in_image g2 (npix n) -> match_exists g1 (down_node c a n) -> match_exists g2 n) ->
  (forall n, in_image g2 (npix n) -> match_exists g1 (down_node c a n) -> node_within g1 lp1 t1 (down_node c a n) -> node_within g2 lp2 t2 n) ->
  (forall n n', in_image g2 (npix n) -> in_image g2 (npix n') ->
     match_pair g1 {| enode := down_node c a n; enbr := down_node c a n' |} ->
     edge_within g1 lp1 t1 {| enode := down_node c a n; enbr := down_node c a n' |} ->
     edge_within g2 lp2 t2 {| enode := n; enbr := n' |}) ->
  solver_says g1 lp1 t1 true -> solver_says g2 lp2 t2 true.
Proof.
  intros W1 L1 W2 L2 Ew Eh Ma No Ed [cg1 [cg1' [E1 S1]]].
  destruct (make_constraint_Ok g1 lp1 t1 cg1 W1 L1 E1) as [C1 [G1 [P1 [T1 B1]]]].
  destruct (make_constraint_spec g2 lp2 t2 W2 L2) as [cg2 [E2 [C2 [G2 [P2 [T2 B2]]]]]].
  rewrite exec_solve_csp in S1 by exact C1.
  exists cg2. eexists. split; [exact E2|]. rewrite exec_solve_csp by exact C2.
  destruct (below_solved cg1 cg2 c a (wf_static _ C1) (wf_static _ C2)) with (m1 := cg_avail cg1) (m2 := cg_avail cg2) as [F _].
  - rewrite G1, G2. exact Ew.
  - rewrite G1, G2. exact Eh.
  - rewrite G1, G2. exact Ma.
  - rewrite G2. intros n n' Hp Hp' [M X]. apply ewb_iff in X. rewrite G1 in M. rewrite G1, P1, T1 in X. split.
    + rewrite G2. destruct M as [A [B [C D]]]. cbn [enode enbr] in *.
      split; [apply Ma; assumption|]. split; [apply Ma; assumption|]. cbn [enode enbr].
      unfold adjacent, in_order, horizontal_pair, vertical_pair, down_node, down in *. cbn [px py npix disp] in *. split; [lia|].
      destruct D as [D1 D2]. clear - D1 D2. lia.
    + apply ewb_iff. rewrite G2, P2, T2. apply Ed; assumption.
  - apply (wfc_avail _ C1).
  - apply (wfc_avail _ C2).
  - intros n Hp M A. rewrite G1 in M. rewrite G2 in Hp. apply B1 in A; [|apply match_inb; rewrite G1; exact M]. destruct A as [_ A].
    apply B2; [apply match_inb; rewrite G2; apply Ma; assumption|]. split; [apply Ma; assumption|]. apply No; assumption.
  - injection S1. auto.
  - rewrite F. reflexivity.
Qed.

Lemma down_0 n : down_node 0 0 n = n.
Proof. destruct n as [[x y] d]. unfold down_node, down. cbn [px py npix disp]. rewrite !N.add_0_r. reflexivity. Qed.

Lemma across_says {T : target} (g1 g2 : dgraph T) lp1 lp2 t1 t2 :
  wf_graph g1 -> make_lowest g1 = Ok lp1 -> wf_graph g2 -> make_lowest g2 = Ok lp2 ->
  width (right g2) = width (right g1) -> height (right g2) = height (right g1) ->
  (forall n, match_exists g1 n -> match_exists g2 n) ->
  (forall n, match_exists g1 n -> node_within g1 lp1 t1 n -> node_within g2 lp2 t2 n) ->
  (forall e, match_pair g1 e -> edge_within g1 lp1 t1 e -> edge_within g2 lp2 t2 e) ->
  solver_says g1 lp1 t1 true -> solver_says g2 lp2 t2 true.
Proof.
  intros W1 L1 W2 L2 Ew Eh Ma No Ed. apply (across_part g1 g2 lp1 lp2 t1 t2 0 0); try assumption; [rewrite N.add_0_l, Eh; apply N.le_refl| | |].
  - intros n _. rewrite down_0. apply Ma.
  - intros n _. rewrite down_0. apply No.
  - intros n n' _ _. rewrite !down_0. apply Ed.
Qed.

Section Least.
Context {T : target} (HL : laws T).

Lemma says_node (g : dgraph T) lp b : wf_graph g -> make_lowest g = Ok lp -> solver_says g lp b true ->
  exists n, match_exists g n /\ node_within g lp b n.
Proof.
  intros Hw Hl [cg [cg' [E S]]]. destruct (make_constraint_Ok g lp b cg Hw Hl E) as [C [Gc [_ [_ B]]]].
  rewrite exec_solve_csp in S by exact C.
  pose proof (wf_sizes g Hw) as Sz. pose proof (sz_l g Sz). pose proof (sz_lw g Sz). pose proof (sz_h g Sz).
  assert (O : in_image (G cg) {| px := 0; py := 0 |}) by (rewrite Gc; unfold in_image; cbn [px py]; lia).
  destruct (solved_facts cg (cg_avail cg) (wf_static _ C) (wfc_avail _ C)) as [_ [Sub [Has _]]]; [injection S; auto|].
  specialize (Has _ O). apply hasb_iff in Has; [|apply wf_static; exact C|exact O].
  destruct Has as [n [M [_ A]]]. exists n. apply Sub in A. apply B in A; [exact A|apply match_inb; exact M].
Qed.

(** The threshold computed is the least one the solver succeeds at. *)
Lemma threshold_least_solvable srt (g : dgraph T) lp l t b : sorts srt -> wf_graph g -> make_lowest g = Ok lp -> finite_penalties g ->
  zero_reparam g -> nonneg_weights g -> fetch_available_penalties srt lp = Ok l ->
  calculate_minimal_consistent_threshold lp g l = Ok t -> solver_says g lp b true -> fle t b = true.
Proof.
  intros Hs Hw Hl Hf Hz Hn E Et Sb.
  destruct (minimal_threshold HL srt g lp l Hs Hw Hl Hf E (or_introl (conj Hz Hn))) as [t' [k [E1 [_ [It [St [Min _]]]]]]].
  assert (t' = t) by congruence. subst t'.
  destruct (candidates_complete HL srt g lp Hs Hw Hl Hf) as [l' [E' [Inc [Num [_ [Cov CovE]]]]]].
  assert (l' = l) by congruence. subst l'. specialize (CovE Hz Hn).
  destruct (says_node g lp b Hw Hl Sb) as [n0 [M0 W0]].
  assert (Nb : is_number b).
  { destruct W0 as [v [m [_ [_ L]]]]. apply (fle_number T HL) in L. apply L. }
  destruct (fle t b) eqn:Etb; [reflexivity|exfalso].
  assert (Hlt : flt b t = true) by (apply (not_le_flt HL); [exact Nb|apply Num; exact It|exact Etb]).
  apply In_nth_error in It. destruct It as [i Ei].
  assert (Hpre : forall y, In y l -> fle y b = true -> exists j, (j < i)%nat /\ nth_error l j = Some y).
  { intros y Hy Hyb. apply In_nth_error in Hy. destruct Hy as [j Ej]. exists j. split; [|exact Ej].
    destruct (Nat.lt_ge_cases j i) as [L'|L']; [exact L'|exfalso].
    assert (fle t y = true).
    { destruct (Nat.eq_dec i j) as [->|Hne].
      - assert (y = t) by congruence. subst y. apply Num. eapply nth_error_In; exact Ei.
      - apply (flt_le HL). eapply (increasing_nth l i j); try eassumption. lia. }
    assert (fle t b = true) by (eapply (fle_trans T HL); eassumption). congruence. }
  assert (Node : forall n, match_exists g n -> node_within g lp b n -> exists y c, In y l /\ fle y b = true /\ node_excess g lp n c /\ feq y c = true).
  { intros n M W. destruct (node_excess_ex g lp n Hw Hl M) as [c Ec]. destruct (Cov c) as [y [Hy Q]]; [left; exists n; auto|].
    exists y, c. split; [exact Hy|]. split; [|auto]. apply (feq_le_iff HL y c b Q). apply (node_within_excess g lp b n c Ec). exact W. }
  destruct (Node n0 M0 W0) as [y0 [c0 [Hy0 [Hb0 _]]]]. destruct (Hpre y0 Hy0 Hb0) as [j0 [Hj0 _]].
  assert (Hi : (i < length l)%nat) by (apply nth_error_Some; congruence).
  destruct (nth_error l (i - 1)) as [t'|] eqn:Et'; [|apply nth_error_None in Et'; lia].
  assert (Hlt' : flt t' t = true) by (eapply (increasing_nth l (i - 1) i); try eassumption; lia).
  assert (Low : forall y, In y l -> fle y b = true -> fle y t' = true).
  { intros y Hy Hyb. destruct (Hpre y Hy Hyb) as [j [Hj Ej]]. destruct (Nat.eq_dec j (i - 1)) as [->|Hne].
    - assert (y = t') by congruence. subst y. apply Num; exact Hy.
    - apply (flt_le HL). eapply (increasing_nth l j (i - 1)); try eassumption. lia. }
  assert (X : solver_says g lp t' true).
  { apply (across_says g g lp lp b t'); try assumption; try reflexivity; [auto| |].
    - intros n M W. destruct (Node n M W) as [y [c [Hy [Hyb [Ec Q]]]]]. apply (node_within_excess g lp t' n c Ec).
      apply (feq_le_iff HL y c t' Q). apply Low; assumption.
    - intros e M W. destruct W as [v [m [Ev [Em Le]]]].
      assert (Ec : edge_excess g lp e (fsub v m)) by (exists v, m; auto).
      destruct (CovE e _ M Ec) as [y [Hy Q]]. apply (edge_within_excess g lp t' e _ Ec).
      apply (feq_le_iff HL y _ t' Q). apply Low; [exact Hy|]. apply (feq_le_iff HL y _ b Q). exact Le. }
  specialize (Min t' (nth_error_In _ _ Et') Hlt').
  pose proof (says_fun g lp t' _ _ X Min). discriminate.
Qed.

(** It is the same threshold for every way of sorting, and the least for any
    problem the solver finds easier. *)
Lemma threshold_across srt (g1 g2 : dgraph T) lp1 lp2 l1 t1 l2 t2 : sorts srt ->
  wf_graph g1 -> make_lowest g1 = Ok lp1 -> finite_penalties g1 -> zero_reparam g1 -> nonneg_weights g1 ->
  wf_graph g2 -> make_lowest g2 = Ok lp2 -> finite_penalties g2 -> zero_reparam g2 -> nonneg_weights g2 ->
  fetch_available_penalties srt lp1 = Ok l1 -> calculate_minimal_consistent_threshold lp1 g1 l1 = Ok t1 ->
  fetch_available_penalties srt lp2 = Ok l2 -> calculate_minimal_consistent_threshold lp2 g2 l2 = Ok t2 ->
  (solver_says g1 lp1 t1 true -> solver_says g2 lp2 t1 true) -> fle t2 t1 = true.
Proof.
  intros S W1 L1 F1 Z1 N1 W2 L2 F2 Z2 N2 E1 T1 E2 T2 H.
  apply (threshold_least_solvable srt g2 lp2 l2 t2 t1); try assumption. apply H.
  destruct (minimal_threshold HL srt g1 lp1 l1 S W1 L1 F1 E1 (or_introl (conj Z1 N1))) as [t' [k [E' [_ [_ [St _]]]]]].
  congruence.
Qed.
End Least.
