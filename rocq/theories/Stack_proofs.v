(** Images one below the other: lemmas. *)
From Coq Require Import Lia.
From Verif Require Export Rows_proofs Crop_proofs.
From Verif Require Import Greedy_proofs.
Local Open Scope N_scope.
Local Notation nd p d := {| npix := p; disp := d |}.

Section Graph.
Context {T : target} (HL : laws T) (HZ : zero_factor T).

Lemma edges_no_smoothness (g : dgraph T) lp b k : wf_graph g -> make_lowest g = Ok lp -> finite_penalties g ->
  zero_reparam g -> nonneg_weights g -> no_smoothness g -> labeling_ok g k -> fle fzero b = true -> edges_within g lp b k.
Proof.
  intros Hw Hl Hf Hz Hn Hs [K _] Hb p q Hp Hq A.
  apply (edge_within_zero HL g lp b _ _ Hw Hl Hz Hf Hn (K p Hp) (K q Hq) A).
  pose proof (epen_fin HL g _ _ Hw Hz Hf (K p Hp) (K q Hq) A) as Fv.
  destruct (epen_fin_parts HL g _ _ Fv) as [_ [Fs _]].
  eapply (fle_trans T HL); [|exact Hb].
  apply (feq_spec T HL (epen g (disp (label_node k p)) (disp (label_node k q))) fzero). apply HZ; assumption.
Qed.

Lemma part_node_back c a (g g' : dgraph T) lp lp' b n : part_of c a g g' ->
  wf_graph g -> make_lowest g = Ok lp -> finite_penalties g -> zero_reparam g ->
  wf_graph g' -> make_lowest g' = Ok lp' -> zero_reparam g' ->
  match_exists g' n -> node_within g' lp' b n -> node_within g lp b (down_node c a n).
Proof.
  intros Hp Hw Hl Hf Hz Hw' Hl' Hz' M' [v [m' [V [L' Le]]]]. pose proof (proj1 M') as I'.
  pose proof (proj2 (part_match c a g g' Hp n I') M') as M.
  rewrite (part_penalty c a g g' Hp Hw Hz Hw' Hz' n M') in V.
  destruct (lowest_pixel_is_min HL g lp (down c a (npix n)) Hw Hl (part_image_in c a g g' Hp _ I')) as [m [L _]].
  exists v, m. split; [exact V|]. split; [exact L|].
  destruct (part_lowest HL c a g g' lp lp' Hp Hw Hl Hf Hz Hw' Hl' Hz' (npix n) m m' I' L L') as [Fm [Fm' Q]].
  eapply (fle_trans T HL); [|exact Le].
  apply (sub_mono_r T HL); try assumption; [apply (part_fin HL g Hf _ v M V)|]. apply (feq_ge HL). exact Q.
Qed.

Lemma min_nonneg srt (g : dgraph T) lp l t : sorts srt -> wf_graph g -> make_lowest g = Ok lp -> finite_penalties g ->
  zero_reparam g -> nonneg_weights g -> fetch_available_penalties srt lp = Ok l ->
  calculate_minimal_consistent_threshold lp g l = Ok t -> fle fzero t = true.
Proof.
  intros S Hw Hl Hf Hz Hn El Et. destruct (make_constraint_spec g lp t Hw Hl) as [cg [Ec _]].
  destruct (solvable_at_threshold HL srt g lp l t cg S Hw Hl Hf Hz Hn El Et Ec) as [cg' E].
  exact (threshold_nonneg HL g lp t cg cg' Hw Hl Hf Ec E).
Qed.

Lemma nodes_within_mono (g : dgraph T) lp b b' k : fle b b' = true -> nodes_within g lp b k -> nodes_within g lp b' k.
Proof. intros Le W p Hp. destruct (W p Hp) as [v [m [A [B C]]]]. exists v, m. split; [exact A|]. split; [exact B|]. eapply (fle_trans T HL); eassumption. Qed.

(** Labelings of the parts make one of the whole. *)
Lemma stacked_labels (g g1 g2 : dgraph T) lp lp1 lp2 b k1 k2 : stacked g g1 g2 -> no_smoothness g ->
  wf_graph g -> make_lowest g = Ok lp -> finite_penalties g -> zero_reparam g -> nonneg_weights g ->
  wf_graph g1 -> make_lowest g1 = Ok lp1 -> zero_reparam g1 ->
  wf_graph g2 -> make_lowest g2 = Ok lp2 -> zero_reparam g2 -> fle fzero b = true ->
  labeling_ok g1 k1 -> nodes_within g1 lp1 b k1 -> labeling_ok g2 k2 -> nodes_within g2 lp2 b k2 ->
  exists k, labeling_ok g k /\ nodes_within g lp b k /\ edges_within g lp b k /\
    (forall p, in_image g1 p -> k p = k1 p) /\
    (forall p, in_image g2 p -> k {| px := px p; py := py p + height (right g1) |} = k2 p).
Proof.
  intros [P1 [P2 Hh]] Hs Hw Hl Hf Hz Hn Hw1 Hl1 Hz1 Hw2 Hl2 Hz2 Hb [K1 O1] W1 [K2 O2] W2.
  set (h := height (right g1)) in *.
  set (k := fun p => if py p <? h then k1 p else k2 {| px := px p; py := py p - h |}).
  pose proof P1 as [_ [[Wd1 _] _]]. pose proof P2 as [_ [[Wd2 _] _]].
  assert (Cases : forall p, in_image g p ->
    (in_image g1 p /\ py p < h /\ k p = k1 p) \/
    exists q, in_image g2 q /\ p = {| px := px q; py := py q + h |} /\ k p = k2 q).
  { intros [x y] [Hx Hy]. cbn [px py] in *. unfold k. cbn [px py]. destruct (N.ltb_spec y h) as [L|L].
    - left. split; [|auto]. split; cbn [px py]; [lia|exact L].
    - right. exists {| px := x; py := y - h |}. split; [split; cbn [px py]; lia|]. cbn [px py]. split; [f_equal; lia|reflexivity]. }
  assert (D1 : forall p d, down_node 0 0 (nd p d) = nd p d).
  { intros [x y] d. unfold down_node, down. cbn [npix disp px py]. rewrite !N.add_0_r. reflexivity. }
  assert (D2 : forall p d, down_node 0 h (nd p d) = nd {| px := px p; py := py p + h |} d).
  { intros [x y] d. unfold down_node, down. cbn [npix disp px py]. rewrite !N.add_0_r. reflexivity. }
  assert (K : forall p, in_image g p -> match_exists g (label_node k p) /\ node_within g lp b (label_node k p)).
  { intros p Hp. destruct (Cases p Hp) as [[I [_ E]]|[q [I [E' E]]]]; unfold label_node; rewrite E.
    - rewrite <- D1. pose proof (K1 p I) as M. split; [apply (part_match 0 0 g g1 P1 (nd p (k1 p)) I); exact M|].
      apply (part_node_back 0 0 g g1 lp lp1); try assumption. apply W1; exact I.
    - rewrite E', <- D2. pose proof (K2 q I) as M. split; [apply (part_match 0 h g g2 P2 (nd q (k2 q)) I); exact M|].
      apply (part_node_back 0 h g g2 lp lp2); try assumption. apply W2; exact I. }
  assert (Ok : labeling_ok g k).
  { split; [intros p Hp; apply K; exact Hp|]. intros p q Hp Hq A.
    destruct (Cases p Hp) as [[I [Y E]]|[p' [I [Ep E]]]]; destruct (Cases q Hq) as [[I' [Y' E']]|[q' [I' [Eq E']]]].
    - pose proof (O1 p q I I' A) as X. unfold in_order, label_node in *. cbn [npix disp] in *. rewrite E, E'. exact X.
    - unfold in_order, label_node, horizontal_pair in *. cbn [npix disp]. subst q. cbn [px py]. split; intros; exfalso; lia.
    - unfold in_order, label_node, horizontal_pair in *. cbn [npix disp]. subst p. cbn [px py]. split; intros; exfalso; lia.
    - assert (A' : adjacent p' q').
      { subst p q. unfold adjacent, horizontal_pair, vertical_pair in *. cbn [px py] in *. lia. }
      pose proof (O2 p' q' I I' A') as X. unfold in_order, label_node, horizontal_pair in *. cbn [npix disp] in *.
      rewrite E, E'. subst p q. cbn [px py]. lia. }
  exists k. split; [exact Ok|]. split; [intros p Hp; apply K; exact Hp|]. split; [apply edges_no_smoothness; assumption|]. split.
  - intros p [Hx Hy]. unfold k. destruct (N.ltb_spec (py p) h) as [L|L]; [reflexivity|]. unfold h in L. lia.
  - intros [x y] [Hx Hy]. unfold k. cbn [px py]. destruct (N.ltb_spec (y + h) h) as [L|L]; [lia|].
    replace (y + h - h) with y by lia. reflexivity.
Qed.

Lemma stacked_threshold srt (g g1 g2 : dgraph T) lp lp1 lp2 l l1 l2 t t1 t2 : stacked g g1 g2 -> no_smoothness g -> sorts srt ->
  wf_graph g -> make_lowest g = Ok lp -> finite_penalties g -> zero_reparam g -> nonneg_weights g ->
  wf_graph g1 -> make_lowest g1 = Ok lp1 -> zero_reparam g1 ->
  wf_graph g2 -> make_lowest g2 = Ok lp2 -> zero_reparam g2 ->
  fetch_available_penalties srt lp = Ok l -> calculate_minimal_consistent_threshold lp g l = Ok t ->
  fetch_available_penalties srt lp1 = Ok l1 -> calculate_minimal_consistent_threshold lp1 g1 l1 = Ok t1 ->
  fetch_available_penalties srt lp2 = Ok l2 -> calculate_minimal_consistent_threshold lp2 g2 l2 = Ok t2 ->
  fle t1 t = true /\ fle t2 t = true /\ (feq t t1 = true \/ feq t t2 = true).
Proof.
  intros St Hs S Hw Hl Hf Hz Hn Hw1 Hl1 Hz1 Hw2 Hl2 Hz2 El Et El1 Et1 El2 Et2. pose proof St as [P1 [P2 _]].
  pose proof (part_threshold HL 0 0 g g1 lp lp1 P1 Hw Hl Hf Hz Hn Hw1 Hl1 Hz1 srt l t l1 t1 S El Et El1 Et1) as L1.
  pose proof (part_threshold HL 0 _ g g2 lp lp2 P2 Hw Hl Hf Hz Hn Hw2 Hl2 Hz2 srt l t l2 t2 S El Et El2 Et2) as L2.
  split; [exact L1|]. split; [exact L2|].
  assert (Hf1 : finite_penalties g1) by (apply (part_finite HL 0 0 g g1); assumption).
  assert (Hf2 : finite_penalties g2) by (apply (part_finite HL 0 (height (right g1)) g g2); assumption).
  assert (Hn1 : nonneg_weights g1) by (apply (part_nonneg 0 0 g g1); assumption).
  assert (Hn2 : nonneg_weights g2) by (apply (part_nonneg 0 (height (right g1)) g g2); assumption).
  assert (Hs1 : no_smoothness g1).
  { unfold no_smoothness in *. destruct P1 as [_ [_ [_ [_ E]]]]. rewrite E. exact Hs. }
  assert (Hs2 : no_smoothness g2).
  { unfold no_smoothness in *. destruct P2 as [_ [_ [_ [_ E]]]]. rewrite E. exact Hs. }
  pose proof (min_nonneg srt g1 lp1 l1 t1 S Hw1 Hl1 Hf1 Hz1 Hn1 El1 Et1) as N1.
  pose proof (min_nonneg srt g2 lp2 l2 t2 S Hw2 Hl2 Hf2 Hz2 Hn2 El2 Et2) as N2.
  destruct (rows_threshold HL srt g1 lp1 l1 t1 HZ S Hw1 Hl1 Hf1 Hz1 Hn1 El1 Et1 Hs1) as [[k1 [A1 [B1 _]]] _].
  destruct (rows_threshold HL srt g2 lp2 l2 t2 HZ S Hw2 Hl2 Hf2 Hz2 Hn2 El2 Et2 Hs2) as [[k2 [A2 [B2 _]]] _].
  assert (X : forall b, fle t1 b = true -> fle t2 b = true -> fle t b = true).
  { intros b C1 C2.
    destruct (stacked_labels g g1 g2 lp lp1 lp2 b k1 k2) as [k [Kk [Wk [Ek _]]]]; try assumption.
    - exact (fle_trans T HL _ _ _ N1 C1).
    - exact (nodes_within_mono g1 lp1 t1 b k1 C1 B1).
    - exact (nodes_within_mono g2 lp2 t2 b k2 C2 B2).
    - apply (threshold_below HL srt g lp l t k b); assumption. }
  pose proof (proj2 (fle_number T HL _ _ N1)) as U1. pose proof (proj2 (fle_number T HL _ _ N2)) as U2.
  destruct (fle_total T HL t1 t2 U1 U2) as [C|C].
  - right. apply (feq_spec T HL). split; [|exact L2]. apply X; [exact C|]. destruct (fle_total T HL t2 t2 U2 U2); assumption.
  - left. apply (feq_spec T HL). split; [|exact L1]. apply X; [|exact C]. destruct (fle_total T HL t1 t1 U1 U1); assumption.
Qed.
End Graph.
