(** A part of two images. *)
From Verif Require Export Across_proofs Crop_spec.
Local Open Scope N_scope.
Local Notation nd p d := {| npix := p; disp := d |}.

Section Part.
Context {T : target} (HL : laws T).
Variables (c a : N) (g g' : dgraph T) (lp lp' : lowest T).
Hypotheses (Hp : part_of c a g g')
  (Hw : wf_graph g) (Hl : make_lowest g = Ok lp) (Hf : finite_penalties g) (Hz : zero_reparam g) (Hn : nonneg_weights g)
  (Hw' : wf_graph g') (Hl' : make_lowest g' = Ok lp') (Hz' : zero_reparam g').

Lemma part_image_in p : in_image g' p -> in_image g (down c a p).
Proof. destruct Hp as [_ [[W [H _]] _]]. unfold in_image, down. cbn [px py]. lia. Qed.
Lemma part_match n : in_image g' (npix n) -> match_exists g (down_node c a n) <-> match_exists g' n.
Proof.
  intros I. pose proof (part_image_in _ I) as J. destruct Hp as [_ [[W [_ _]] [L _]]].
  unfold match_exists, down_node. cbn [npix disp down px py]. rewrite L. split; intros [A [B C]]; (split; [assumption|split; [assumption|lia]]).
Qed.
Lemma part_penalty n : match_exists g' n -> node_penalty g' n = node_penalty g (down_node c a n).
Proof.
  intros M'. pose proof (proj1 M') as I'. pose proof (proj2 (part_match n I') M') as M.
  destruct (node_penalty_formula g _ Hw M) as (vr & vl & r0 & r1 & r2 & r3 & E1 & E2 & A & B & C & D & E).
  destruct (node_penalty_formula g' n Hw' M') as (vr' & vl' & s0 & s1 & s2 & s3 & E1' & E2' & A' & B' & C' & D' & E').
  destruct Hp as [[Wl [_ Gl]] [[Wr [_ Gr]] [_ [Ec _]]]]. rewrite Ec in E'.
  unfold down_node, down in E1, E2. cbn [npix disp px py] in E1, E2.
  destruct I' as [Ix Iy]. destruct M' as [_ [_ B0]].
  pose proof (wf_width g' Hw') as W'. pose proof (wf_height g' Hw') as H'. pose proof (wf_width g Hw) as W0.
  rewrite (Gr (px (npix n)) (py (npix n))) in E1' by lia. rewrite E1 in E1'. injection E1' as <-.
  rewrite <- W' in E2'. rewrite <- W0 in E2.
  rewrite (Gl (px (npix n) + disp n) (py (npix n))) in E2' by lia.
  replace (px (npix n) + disp n + c) with (px (npix n) + c + disp n) in E2' by lia.
  rewrite E2 in E2'. injection E2' as <-.
  rewrite E, E'.
  rewrite (Hz r0 (get_In _ _ _ A)), (Hz r1 (get_In _ _ _ B)), (Hz r2 (get_In _ _ _ C)), (Hz r3 (get_In _ _ _ D)).
  rewrite (Hz' s0 (get_In _ _ _ A')), (Hz' s1 (get_In _ _ _ B')), (Hz' s2 (get_In _ _ _ C')), (Hz' s3 (get_In _ _ _ D')).
  reflexivity.
Qed.
Lemma part_epen x y : epen g' x y = epen g x y.
Proof. destruct Hp as [_ [_ [_ [_ E]]]]. unfold epen. rewrite E. reflexivity. Qed.
Lemma part_nonneg : nonneg_weights g'.
Proof. destruct Hp as [_ [_ [_ [Ec Es]]]]. unfold nonneg_weights in *. rewrite Ec, Es. exact Hn. Qed.
Lemma part_adjacent p q : adjacent p q -> adjacent (down c a p) (down c a q).
Proof. unfold adjacent, horizontal_pair, vertical_pair, down. cbn [px py]. lia. Qed.

Lemma part_finite : finite_penalties g'.
Proof.
  split.
  - intros n M'. pose proof (proj2 (part_match n (proj1 M')) M') as M. destruct (proj1 Hf _ M) as [v [E F]].
    exists v. split; [rewrite part_penalty by exact M'; exact E|exact F].
  - intros [n n'] M M' A. cbn [enode enbr] in *. exists (epen g' (disp n) (disp n')).
    split; [apply epen_eq; try assumption; try apply M; apply M'|]. rewrite part_epen.
    apply (epen_fin HL g (down_node c a n) (down_node c a n')); try assumption;
      [apply part_match; [apply M|exact M]|apply part_match; [apply M'|exact M']|apply part_adjacent; exact A].
Qed.

Lemma part_fin n v : match_exists g n -> node_penalty g n = Ok v -> ffin v = true /\ is_number v.
Proof.
  intros M E. destruct (proj1 Hf n M) as [v' [E' X]]. rewrite E in E'. injection E' as <-.
  split; [exact X|apply (fin_number T HL); exact X].
Qed.

(** The best match of a pixel costs the same. *)
Lemma part_lowest p m m' : in_image g' p -> lowest_pixel_penalty lp (down c a p) = Ok m -> lowest_pixel_penalty lp' p = Ok m' ->
  ffin m = true /\ ffin m' = true /\ feq m m' = true.
Proof.
  intros I' E E'. pose proof (part_image_in p I') as I.
  destruct (lowest_pixel_is_min HL g lp _ Hw Hl I) as [x [Ex [[n [Np [M V]]] Min]]]. rewrite E in Ex. injection Ex as <-.
  destruct (lowest_pixel_is_min HL g' lp' p Hw' Hl' I') as [x [Ex [[n' [Np' [M' V']]] Min']]]. rewrite E' in Ex. injection Ex as <-.
  specialize (Min (fun b v _ Mb Vb => proj2 (part_fin b v Mb Vb))).
  assert (Min2 : forall n v, npix n = p -> match_exists g' n -> node_penalty g' n = Ok v -> fle m' v = true).
  { apply Min'. intros b v Eb Mb Vb. rewrite part_penalty in Vb by exact Mb.
    refine (proj2 (part_fin _ v _ Vb)). apply part_match; [apply Mb|exact Mb]. }
  subst p. rewrite (part_penalty n') in V' by exact M'.
  assert (Md : match_exists g (down_node c a n')) by (apply part_match; [exact I'|exact M']).
  split; [apply (part_fin n m M V)|]. split; [apply (part_fin _ m' Md V')|].
  apply (feq_spec T HL). split; [apply (Min (down_node c a n') m'); [reflexivity|exact Md|exact V']|].
  assert (En : n = down_node c a (nd (npix n') (disp n))) by (destruct n as [p1 d1]; unfold down_node; cbn [npix disp] in *; congruence).
  rewrite En in M, V.
  assert (Mn : match_exists g' (nd (npix n') (disp n))) by (apply part_match; [exact I'|exact M]).
  apply (Min2 (nd (npix n') (disp n)) m); [reflexivity|exact Mn|]. rewrite part_penalty by exact Mn. exact V.
Qed.

Lemma part_node_within b n : in_image g' (npix n) -> match_exists g (down_node c a n) ->
  node_within g lp b (down_node c a n) -> node_within g' lp' b n.
Proof.
  intros I' M [v [m [V [L Le]]]]. pose proof (proj1 (part_match n I') M) as M'.
  destruct (lowest_pixel_is_min HL g' lp' (npix n) Hw' Hl' I') as [m' [L' _]].
  exists v, m'. split; [rewrite part_penalty by exact M'; exact V|]. split; [exact L'|].
  destruct (part_lowest (npix n) m m' I' L L') as [Fm [Fm' Q]].
  eapply (fle_trans T HL); [|exact Le].
  apply (sub_mono_r T HL); try assumption; [apply (part_fin _ v M V)|apply (feq_le HL); exact Q].
Qed.
Lemma part_edge_within b n n' : match_exists g' n -> match_exists g' n' -> adjacent (npix n) (npix n') ->
  edge_within g lp b {| enode := down_node c a n; enbr := down_node c a n' |} -> edge_within g' lp' b {| enode := n; enbr := n' |}.
Proof.
  intros M M' A W.
  rewrite (edge_within_zero HL g' lp' b _ _ Hw' Hl' Hz' part_finite part_nonneg M M' A), part_epen.
  rewrite (edge_within_zero HL g lp b _ _ Hw Hl Hz Hf Hn) in W; [exact W| | |].
  - apply part_match; [apply M|exact M].
  - apply part_match; [apply M'|exact M'].
  - apply part_adjacent. exact A.
Qed.

Lemma part_labels k b : labeling_ok g k -> nodes_within g lp b k -> edges_within g lp b k ->
  labeling_ok g' (part_labeling c a k) /\ nodes_within g' lp' b (part_labeling c a k) /\ edges_within g' lp' b (part_labeling c a k).
Proof.
  intros [K O] Wn We.
  assert (Node : forall p, down_node c a (label_node (part_labeling c a k) p) = label_node k (down c a p)) by reflexivity.
  assert (K' : forall p, in_image g' p -> match_exists g' (label_node (part_labeling c a k) p)).
  { intros p I. apply part_match; [exact I|]. rewrite Node. apply K. apply part_image_in. exact I. }
  split; [split; [exact K'|]|split].
  - intros p q I J A. pose proof (O _ _ (part_image_in p I) (part_image_in q J) (part_adjacent p q A)) as X.
    unfold in_order, label_node, part_labeling, horizontal_pair in *. cbn [npix disp down px py] in *.
    fold (down c a p) (down c a q) in *. clear - X. lia.
  - intros p I. apply part_node_within; [exact I|rewrite Node; apply K; apply part_image_in; exact I|].
    rewrite Node. apply Wn. apply part_image_in. exact I.
  - intros p q I J A. apply part_edge_within; [apply K'; exact I|apply K'; exact J|exact A|].
    rewrite !Node. apply We; [apply part_image_in; exact I|apply part_image_in; exact J|apply part_adjacent; exact A].
Qed.

Lemma part_says b : solver_says g lp b true -> solver_says g' lp' b true.
Proof.
  destruct Hp as [_ [[W [H _]] _]]. apply (across_part g g' lp lp' b b c a); try assumption.
  - intros n I M. apply part_match; assumption.
  - intros n I M. apply part_node_within; assumption.
  - intros n n' I I' [M [M' [A _]]]. cbn [enode enbr] in *.
    apply part_edge_within; [apply part_match; assumption|apply part_match; assumption|].
    unfold adjacent, horizontal_pair, vertical_pair, down_node, down in *. cbn [px py npix disp] in *. lia.
Qed.

Lemma part_threshold srt l t l' t' : sorts srt ->
  fetch_available_penalties srt lp = Ok l -> calculate_minimal_consistent_threshold lp g l = Ok t ->
  fetch_available_penalties srt lp' = Ok l' -> calculate_minimal_consistent_threshold lp' g' l' = Ok t' ->
  fle t' t = true.
Proof.
  intros S El Et El' Et'.
  apply (threshold_across HL srt g g' lp lp' l t l' t'); try assumption; [exact part_finite|exact part_nonneg|apply part_says].
Qed.

End Part.

Lemma part_all {T : target} (HL : laws T) srt c a (g g' : dgraph T) lp lp' l t l' t' :
  part_of c a g g' -> wf_graph g -> make_lowest g = Ok lp -> finite_penalties g -> zero_reparam g -> nonneg_weights g ->
  wf_graph g' -> make_lowest g' = Ok lp' -> zero_reparam g' -> sorts srt ->
  fetch_available_penalties srt lp = Ok l -> calculate_minimal_consistent_threshold lp g l = Ok t ->
  fetch_available_penalties srt lp' = Ok l' -> calculate_minimal_consistent_threshold lp' g' l' = Ok t' ->
  fle t' t = true /\
  (forall b, solver_says g lp b true -> solver_says g' lp' b true) /\
  (forall k b, labeling_ok g k -> nodes_within g lp b k -> edges_within g lp b k ->
     labeling_ok g' (part_labeling c a k) /\ nodes_within g' lp' b (part_labeling c a k) /\
     edges_within g' lp' b (part_labeling c a k)).
Proof.
  intros Hp Hw Hl Hf Hz Hn Hw' Hl' Hz' S El Et El' Et'. split; [|split].
  - apply (part_threshold HL c a g g' lp lp' Hp Hw Hl Hf Hz Hn Hw' Hl' Hz' srt l t l' t'); assumption.
  - intros b. apply (part_says HL c a g g' lp lp'); assumption.
  - intros k b. apply (part_labels HL c a g g' lp lp'); assumption.
Qed.

(** At a threshold below the one computed the solver fails, at all others it succeeds. *)
Lemma threshold_decides {T : target} (HL : laws T) srt (g : dgraph T) lp l t b : sorts srt -> wf_graph g -> make_lowest g = Ok lp ->
  finite_penalties g -> zero_reparam g -> nonneg_weights g -> fetch_available_penalties srt lp = Ok l ->
  calculate_minimal_consistent_threshold lp g l = Ok t -> solver_says g lp b (fle t b).
Proof.
  intros S W L Fi Z Nn E Et. pose proof (solvable_says g lp b W L) as X.
  replace (fle t b) with (solvable g lp b); [exact X|].
  destruct (solvable g lp b) eqn:Q.
  - symmetry. apply (threshold_least_solvable HL srt g lp l t b); assumption.
  - destruct (fle t b) eqn:Le; [|reflexivity]. exfalso.
    destruct (minimal_threshold HL srt g lp l S W L Fi E (or_introl (conj Z Nn))) as [t' [k [E' [_ [_ [St _]]]]]].
    assert (t' = t) by congruence. subst t'.
    assert (Y : solver_says g lp b true).
    { apply (across_says g g lp lp t b); try assumption; try reflexivity; [auto| |].
      - intros n _ [v [m [A [B C]]]]. exists v, m. split; [exact A|]. split; [exact B|]. eapply (fle_trans T HL); eassumption.
      - intros e _ [v [m [A [B C]]]]. exists v, m. split; [exact A|]. split; [exact B|]. eapply (fle_trans T HL); eassumption. }
    pose proof (says_fun g lp b _ _ X Y). discriminate.
Qed.
