(** The same images with more disparity levels. *)
From Verif Require Export Across_proofs Levels_spec.
Local Open Scope N_scope.

Section Levels.
Context {T : target} (HL : laws T).
Variables (g g' : dgraph T) (lp lp' : lowest T).
Hypotheses (Hm : more_levels g g')
  (Hw : wf_graph g) (Hl : make_lowest g = Ok lp) (Hf : finite_penalties g) (Hz : zero_reparam g) (Hn : nonneg_weights g)
  (Hw' : wf_graph g') (Hl' : make_lowest g' = Ok lp') (Hf' : finite_penalties g') (Hz' : zero_reparam g') (Hn' : nonneg_weights g').

Lemma more_image p : in_image g p <-> in_image g' p.
Proof. destruct Hm as [_ [E _]]. unfold in_image. rewrite E. reflexivity. Qed.
Lemma more_match n : match_exists g n -> match_exists g' n.
Proof.
  destruct Hm as [_ [E [_ [_ L]]]]. intros [I [D B]]. split; [apply more_image; exact I|]. split; [lia|]. rewrite E. exact B.
Qed.
Lemma more_labeling k : labeling_ok g k -> labeling_ok g' k.
Proof.
  intros [M O]. split; [intros p Hp; apply more_match, M, more_image, Hp|].
  intros p q Hp Hq A. apply O; try apply more_image; assumption.
Qed.
Lemma more_penalty n : match_exists g n -> node_penalty g' n = node_penalty g n.
Proof.
  intros M. destruct (node_penalty_formula g n Hw M) as (vr & vl & r0 & r1 & r2 & r3 & E1 & E2 & A & B & C & D & E).
  destruct (node_penalty_formula g' n Hw' (more_match n M)) as (vr' & vl' & s0 & s1 & s2 & s3 & E1' & E2' & A' & B' & C' & D' & E').
  destruct Hm as [El [Er [Ec _]]]. rewrite El, Er in *. rewrite Ec in E'.
  rewrite E, E'. rewrite E1 in E1'. rewrite E2 in E2'. injection E1' as <-. injection E2' as <-.
  rewrite (Hz r0 (get_In _ _ _ A)), (Hz r1 (get_In _ _ _ B)), (Hz r2 (get_In _ _ _ C)), (Hz r3 (get_In _ _ _ D)).
  rewrite (Hz' s0 (get_In _ _ _ A')), (Hz' s1 (get_In _ _ _ B')), (Hz' s2 (get_In _ _ _ C')), (Hz' s3 (get_In _ _ _ D')).
  reflexivity.
Qed.
Lemma more_epen a b : epen g' a b = epen g a b.
Proof. destruct Hm as [_ [_ [_ [E _]]]]. unfold epen. rewrite E. reflexivity. Qed.

Lemma number_of (h : dgraph T) : finite_penalties h -> forall n v, match_exists h n -> node_penalty h n = Ok v ->
  ffin v = true /\ is_number v.
Proof.
  intros [F _] n v M E. destruct (F n M) as [v' [E' X]]. rewrite E in E'. injection E' as <-.
  split; [exact X|apply (fin_number T HL); exact X].
Qed.

(** The lowest penalty of a pixel does not grow. *)
Lemma more_lowest p m m' : in_image g p -> lowest_pixel_penalty lp p = Ok m -> lowest_pixel_penalty lp' p = Ok m' ->
  ffin m = true /\ ffin m' = true /\ fle m' m = true.
Proof.
  intros Hp E E'.
  destruct (lowest_pixel_is_min HL g lp p Hw Hl Hp) as [x [Ex [[n [Np [M Vn]]] _]]]. rewrite E in Ex. injection Ex as <-.
  destruct (lowest_pixel_is_min HL g' lp' p Hw' Hl' (proj1 (more_image p) Hp)) as [x [Ex [[n' [Np' [M' Vn']]] Min']]].
  rewrite E' in Ex. injection Ex as <-.
  split; [apply (number_of g Hf n m M Vn)|]. split; [apply (number_of g' Hf' n' m' M' Vn')|].
  apply (Min' (fun a v _ Ma Va => proj2 (number_of g' Hf' a v Ma Va)) n m Np (more_match n M)).
  rewrite more_penalty by exact M. exact Vn.
Qed.

(** So the excess of an old match does not shrink. *)
Lemma more_excess n c c' : match_exists g n -> node_excess g lp n c -> node_excess g' lp' n c' -> fle c c' = true.
Proof.
  intros M [v [m [V [L ->]]]] [v' [m' [V' [L' ->]]]].
  rewrite more_penalty in V' by exact M. rewrite V in V'. injection V' as <-.
  destruct (more_lowest (npix n) m m' (proj1 M) L L') as [Fm [Fm' Le]].
  apply (sub_mono_r T HL); try assumption. apply (number_of g Hf n v M V).
Qed.

Lemma same_lowest p m m' : none_closer g g' -> in_image g p -> lowest_pixel_penalty lp p = Ok m -> lowest_pixel_penalty lp' p = Ok m' ->
  fle m m' = true.
Proof.
  intros C Hp E E'.
  destruct (lowest_pixel_is_min HL g lp p Hw Hl Hp) as [x [Ex [_ Min]]]. rewrite E in Ex. injection Ex as <-.
  specialize (Min (fun a v _ Ma Va => proj2 (number_of g Hf a v Ma Va))).
  destruct (lowest_pixel_is_min HL g' lp' p Hw' Hl' (proj1 (more_image p) Hp)) as [x [Ex [[n' [Np' [M' Vn']]] _]]].
  rewrite E' in Ex. injection Ex as <-.
  destruct (N.lt_ge_cases (disp n') (levels g)) as [D|D].
  - assert (M : match_exists g n').
    { destruct M' as [I [_ B]]. destruct Hm as [_ [Er _]]. rewrite Er in B. split; [apply more_image; exact I|]. split; assumption. }
    apply (Min n' m' Np' M). rewrite <- more_penalty by exact M. exact Vn'.
  - destruct (C n' m' M' D Vn') as [n [v [Np [M [V Le]]]]].
    eapply (fle_trans T HL); [|exact Le]. apply (Min n v); [congruence|exact M|exact V].
Qed.

Lemma more_within k b : none_closer g g' -> labeling_ok g k -> nodes_within g lp b k -> edges_within g lp b k ->
  labeling_ok g' k /\ nodes_within g' lp' b k /\ edges_within g' lp' b k.
Proof.
  intros C K Wn We. split; [apply more_labeling; exact K|]. split.
  - intros p Hp'. pose proof (proj2 (more_image p) Hp') as Hp. pose proof (proj1 K p Hp) as M.
    destruct (Wn p Hp) as [v [m [V [L Le]]]].
    destruct (lowest_pixel_is_min HL g' lp' p Hw' Hl' Hp') as [m' [L' _]].
    exists v, m'. split; [rewrite more_penalty by exact M; exact V|]. split; [exact L'|].
    change (npix (label_node k p)) with p in L.
    destruct (more_lowest p m m' Hp L L') as [Fm [Fm' _]].
    eapply (fle_trans T HL); [|exact Le].
    apply (sub_mono_r T HL); try assumption; [apply (number_of g Hf _ v M V)|apply (same_lowest p m m' C Hp L L')].
  - intros p q Hp' Hq' A. pose proof (proj2 (more_image p) Hp') as Hp. pose proof (proj2 (more_image q) Hq') as Hq.
    pose proof (proj1 K p Hp) as Mp. pose proof (proj1 K q Hq) as Mq. specialize (We p q Hp Hq A).
    unfold label_edge in *.
    rewrite (edge_within_zero HL g lp b _ _ Hw Hl Hz Hf Hn Mp Mq A) in We.
    rewrite (edge_within_zero HL g' lp' b _ _ Hw' Hl' Hz' Hf' Hn' (more_match _ Mp) (more_match _ Mq) A).
    rewrite more_epen. exact We.
Qed.

Lemma more_bound srt l' t' k b : none_closer g g' -> sorts srt ->
  fetch_available_penalties srt lp' = Ok l' -> calculate_minimal_consistent_threshold lp' g' l' = Ok t' ->
  labeling_ok g k -> nodes_within g lp b k -> edges_within g lp b k -> fle t' b = true.
Proof.
  intros C S El' Et' K Wn We. destruct (more_within k b C K Wn We) as [K' [Wn' We']].
  exact (threshold_below HL srt g' lp' l' t' k b S Hw' Hl' Hf' Hz' Hn' El' Et' K' Wn' We').
Qed.

Lemma more_says b : none_closer g g' -> solver_says g lp b true -> solver_says g' lp' b true.
Proof.
  intros C. destruct Hm as [_ [Er _]]. apply across_says; try assumption; try (rewrite Er; reflexivity); [exact more_match| |].
  - intros n M [v [m [V [L Le]]]].
    destruct (lowest_pixel_is_min HL g' lp' (npix n) Hw' Hl' (proj1 (more_image _) (proj1 M))) as [m' [L' _]].
    exists v, m'. split; [rewrite more_penalty by exact M; exact V|]. split; [exact L'|].
    destruct (more_lowest (npix n) m m' (proj1 M) L L') as [Fm [Fm' _]].
    eapply (fle_trans T HL); [|exact Le].
    apply (sub_mono_r T HL); try assumption; [apply (number_of g Hf n v M V)|apply (same_lowest (npix n) m m' C (proj1 M) L L')].
  - intros [n n'] [M [M' [A _]]] W. cbn [enode enbr] in *.
    rewrite (edge_within_zero HL g lp b _ _ Hw Hl Hz Hf Hn M M' A) in W.
    rewrite (edge_within_zero HL g' lp' b _ _ Hw' Hl' Hz' Hf' Hn' (more_match _ M) (more_match _ M') A).
    rewrite more_epen. exact W.
Qed.

Lemma more_threshold srt l t l' t' : none_closer g g' -> sorts srt ->
  fetch_available_penalties srt lp = Ok l -> calculate_minimal_consistent_threshold lp g l = Ok t ->
  fetch_available_penalties srt lp' = Ok l' -> calculate_minimal_consistent_threshold lp' g' l' = Ok t' ->
  fle t' t = true.
Proof.
  intros C S El Et El' Et'. apply (threshold_across HL srt g g' lp lp' l t l' t'); try assumption. apply more_says. exact C.
Qed.

End Levels.

Lemma more_excesses {T : target} (HL : laws T) (g g' : dgraph T) lp lp' n :
  more_levels g g' -> wf_graph g -> make_lowest g = Ok lp -> finite_penalties g -> zero_reparam g ->
  wf_graph g' -> make_lowest g' = Ok lp' -> finite_penalties g' -> zero_reparam g' ->
  match_exists g n ->
  match_exists g' n /\ node_penalty g' n = node_penalty g n /\
  (forall c c', node_excess g lp n c -> node_excess g' lp' n c' -> fle c c' = true).
Proof.
  intros Hm Hw Hl Hf Hz Hw' Hl' Hf' Hz' M. split; [eapply more_match; eassumption|].
  split; [apply more_penalty; assumption|]. intros c c'. apply (more_excess HL g g' lp lp'); assumption.
Qed.

Lemma more_labelings {T : target} (HL : laws T) srt (g g' : dgraph T) lp lp' l' t' k b :
  more_levels g g' -> wf_graph g -> make_lowest g = Ok lp -> finite_penalties g -> zero_reparam g -> nonneg_weights g ->
  wf_graph g' -> make_lowest g' = Ok lp' -> finite_penalties g' -> zero_reparam g' -> nonneg_weights g' ->
  none_closer g g' -> sorts srt ->
  fetch_available_penalties srt lp' = Ok l' -> calculate_minimal_consistent_threshold lp' g' l' = Ok t' ->
  labeling_ok g k -> nodes_within g lp b k -> edges_within g lp b k ->
  (labeling_ok g' k /\ nodes_within g' lp' b k /\ edges_within g' lp' b k) /\ fle t' b = true.
Proof.
  intros Hm Hw Hl Hf Hz Hn Hw' Hl' Hf' Hz' Hn' C S El' Et' K Wn We. split.
  - apply (more_within HL g g' lp lp'); assumption.
  - apply (more_bound HL g g' lp lp' Hm Hw Hl Hf Hz Hn Hw' Hl' Hf' Hz' Hn' srt l' t' k b); assumption.
Qed.
