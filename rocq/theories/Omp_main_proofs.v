(** Thresholds, maps and runs of the OpenMP build. *)
From Coq Require Import String.
From Verif Require Export Omp_proofs.
Local Open Scope N_scope.

Section Host.
Context {T : target} (HL : laws T) (v : team).
Implicit Type g : dgraph T.

Definition labelable g lp (t : F T) : Prop :=
  exists k, labeling_ok g k /\ nodes_within g lp t k /\ edges_within g lp t k.

Lemma within_solution g lp t k cg : wf_graph g -> make_lowest g = Ok lp -> make_constraint g lp t = Ok cg ->
  labeling_ok g k -> nodes_within g lp t k -> edges_within g lp t k -> solution cg k.
Proof.
  intros Hw Hl E' Hk Hn He. destruct (make_constraint_spec g lp t Hw Hl) as [cg' [E [Hc [Eg [El [Et Ha]]]]]].
  assert (cg' = cg) by congruence. subst cg'.
  split; [rewrite Eg; exact Hk|]. split; [|rewrite Eg, El, Et; exact He].
  rewrite Eg. intros p Hp. destruct Hk as [Hk _]. pose proof (Hk p Hp) as M.
  assert (Hi : inb cg (label_node k p)) by (unfold inb; rewrite Eg; split; apply M).
  apply available_iff; [exact Hc|exact Hi|]. apply Ha; [exact Hi|]. split; [exact M|apply Hn; exact Hp].
Qed.

(** *** The threshold *)

Definition sized_for g : Prop := forall bound jobs, t_size v bound jobs -> 1 <= jobs /\ height (right g) + jobs < wmod T.

Lemma search_omp_spec g lp l fuel start stop o :
  wf_graph g -> make_lowest g = Ok lp -> 2 * len l < wmod T -> sized_for g ->
  start <= stop -> stop < len l -> (N.to_nat (stop - start) < fuel)%nat ->
  (forall j t, increasing l -> (j < N.to_nat start)%nat -> nth_error l j = Some t -> ~ labelable g lp t) ->
  search_omp v g lp l fuel start stop o ->
  exists t i, o = Ok t /\ nth_error l i = Some t /\
    (increasing l -> forall j t', (j < i)%nat -> nth_error l j = Some t' -> ~ labelable g lp t').
Proof.
  intros Hw Hl Hlen Hj. revert start stop.
  induction fuel as [|f IH]; intros start stop Hss Hst Hf Hlo; [lia|].
  cbn [search_omp]. rewrite uadd_small by lia.
  set (cur := (start + stop) / 2).
  assert (Hc1 : 2 * cur <= start + stop) by (apply N.mul_div_le; lia).
  assert (Hc2 : start + stop < 2 * cur + 2).
  { unfold cur. pose proof (N.div_mod (start + stop) 2 ltac:(lia)). pose proof (N.mod_lt (start + stop) 2 ltac:(lia)). lia. }
  destruct (nth_get l cur ltac:(lia)) as [t [Eg En]]. rewrite Eg.
  destruct (N.ltb_spec start stop) as [Hlt|Hge].
  - intros [[t' [Et O]]|[e [Et _]]]; unfold does in Et; [|discriminate]. injection Et as ->.
    destruct (make_constraint_spec g lp t Hw Hl) as [cg [E1 [Hc [Gc _]]]]. rewrite E1 in O.
    destruct O as [[cg' [Ec O]]|[e [Ec _]]]; unfold does in Ec; [|discriminate]. injection Ec as ->.
    assert (Hj' : sized_team v cg) by (unfold sized_team; rewrite Gc; exact Hj).
    destruct O as [[r [C O]]|[e [C _]]]; destruct (csp_omp_any v cg _ Hc Hj' C) as [b [m [E2 [Hm [_ [_ [_ Keep]]]]]]]; [|discriminate].
    injection E2 as ->. cbn [fst] in O. destruct b.
    + apply (IH start cur); try lia; [exact Hlo|exact O].
    + rewrite uadd_small in O by lia. apply (IH (cur + 1) stop); try lia; [|exact O].
      intros j t' Inc Hlt' Ej [k [Lk [Nk Ek]]].
      assert (L : fle t' t = true).
      { destruct (Nat.eq_dec j (N.to_nat cur)) as [->|Hne].
        - assert (t' = t) by congruence. subst t'.
          pose proof (wf_sizes g Hw) as Sz. pose proof (sz_l g Sz). pose proof (sz_lw g Sz). pose proof (sz_h g Sz).
          assert (O' : in_image g {| px := 0; py := 0 |}) by (unfold in_image; cbn [px py]; lia).
          destruct (Nk _ O') as [x [y [_ [_ L]]]]. apply (fle_number T HL) in L. apply L.
        - apply (flt_le HL). eapply (increasing_nth l j (N.to_nat cur)); try eassumption. lia. }
      assert (Sk : solution cg k).
      { apply (within_solution g lp t k cg Hw Hl E1 Lk).
        - intros p Hp. destruct (Nk p Hp) as [x [y [A [B D]]]]. exists x, y. split; [exact A|]. split; [exact B|]. eapply (fle_trans _ HL); eassumption.
        - intros p q Hp Hq Adj. destruct (Ek p q Hp Hq Adj) as [x [y [A [B D]]]]. exists x, y. split; [exact A|]. split; [exact B|]. eapply (fle_trans _ HL); eassumption. }
      destruct (Keep k Sk) as [X _]. discriminate.
  - unfold does. intros ->. assert (Es : stop = start) by lia. assert (Ec : cur = start) by lia.
    exists t, (N.to_nat cur). split; [reflexivity|]. split; [exact En|]. intros Inc j t' Hlt Ej. rewrite Ec in Hlt. eapply Hlo; eassumption.
Qed.

(** A candidate below which no candidate has a labeling is a lower bound. *)
Lemma below_bound srt g lp l t i : sorts srt -> wf_graph g -> make_lowest g = Ok lp -> finite_penalties g ->
  zero_reparam g -> nonneg_weights g -> fetch_available_penalties srt lp = Ok l ->
  nth_error l i = Some t -> (forall j t', (j < i)%nat -> nth_error l j = Some t' -> ~ labelable g lp t') ->
  lower_bound g lp t.
Proof.
  intros Hs Hw Hl Hf Hz Hn E Ei Min k b Hk Wn We.
  destruct (candidates_complete HL srt g lp Hs Hw Hl Hf) as [l' [E' [Inc [Num [Sub [Cov CovE]]]]]].
  assert (l' = l) by congruence. subst l'. specialize (CovE Hz Hn).
  pose proof (wf_sizes g Hw) as Sz. pose proof (sz_l g Sz). pose proof (sz_lw g Sz). pose proof (sz_h g Sz).
  assert (O : in_image g {| px := 0; py := 0 |}) by (unfold in_image; cbn [px py]; lia).
  assert (Nb : is_number b).
  { destruct (Wn _ O) as [x [m [_ [_ L]]]]. apply (fle_number T HL) in L. apply L. }
  destruct (fle t b) eqn:Etb; [reflexivity|exfalso].
  assert (Hpre : forall y, In y l -> fle y b = true -> exists j, (j < i)%nat /\ nth_error l j = Some y).
  { intros y Hy Hyb. apply In_nth_error in Hy. destruct Hy as [j Ej]. exists j. split; [|exact Ej].
    destruct (Nat.lt_ge_cases j i) as [L'|L']; [exact L'|exfalso].
    assert (fle t y = true).
    { destruct (Nat.eq_dec i j) as [->|Hne].
      - assert (y = t) by congruence. subst y. apply Num. eapply nth_error_In; exact Ei.
      - apply (flt_le HL). eapply (increasing_nth l i j); try eassumption. lia. }
    assert (fle t b = true) by (eapply (fle_trans T HL); eassumption). congruence. }
  assert (Hfst : exists y, In y l /\ fle y b = true).
  { destruct Hk as [Hk _]. destruct (node_excess_ex g lp _ Hw Hl (Hk _ O)) as [c Ec].
    destruct (Cov c) as [y [Hy Q]]; [left; eexists; split; [|exact Ec]; apply Hk; exact O|].
    exists y. split; [exact Hy|]. apply (feq_le_iff HL y c b Q).
    apply (node_within_excess g lp b _ c Ec). apply Wn; exact O. }
  destruct Hfst as [y0 [Hy0 Hb0]]. destruct (Hpre y0 Hy0 Hb0) as [j0 [Hj0 _]].
  assert (Hi : (i < length l)%nat) by (apply nth_error_Some; congruence).
  destruct (nth_error l (i - 1)) as [t'|] eqn:Et'; [|apply nth_error_None in Et'; lia].
  apply (Min (i - 1)%nat t'); [lia|exact Et'|]. exists k. split; [exact Hk|].
  apply (within_candidates HL g lp l t' k Hw Hl Hk Cov).
  - intros p q c Hp Hq A Ec. apply CovE with (label_edge k p q); [|exact Ec].
    split; [apply Hk; exact Hp|]. split; [apply Hk; exact Hq|]. split; [exact A|]. apply Hk; assumption.
  - intros y Hy Hex.
    assert (Hyb : fle y b = true).
    { destruct Hex as [[p [c [Hp [Ec Q]]]]|[p [q [c [Hp [Hq [A [Ec Q]]]]]]]];
        apply (feq_le_iff HL y c b Q).
      - apply (node_within_excess g lp b _ c Ec). apply Wn; exact Hp.
      - apply (edge_within_excess g lp b _ c Ec). apply We; assumption. }
    destruct (Hpre y Hy Hyb) as [j [Hj Ej]].
    destruct (Nat.eq_dec j (i - 1)) as [->|Hne].
    + assert (y = t') by congruence. subst y. apply Num; exact Hy.
    + apply (flt_le HL). eapply (increasing_nth l j (i - 1)); try eassumption. lia.
Qed.

Lemma threshold_omp_spec srt g lp l o : sorts srt -> wf_graph g -> make_lowest g = Ok lp -> finite_penalties g ->
  zero_reparam g -> nonneg_weights g -> fetch_available_penalties srt lp = Ok l -> sized_for g ->
  threshold_omp v lp g l o -> exists t, o = Ok t /\ In t l /\ lower_bound g lp t.
Proof.
  intros Hs Hw Hl Hf Hz Hn E Hj O.
  pose proof (candidates_fit HL srt g lp l Hs Hw Hl Hf Hz Hn E) as Hlen.
  destruct (last_solvable HL srt g lp l Hs Hw Hl Hf E) as [Hpos _].
  destruct (candidates_complete HL srt g lp Hs Hw Hl Hf) as [l' [E' [Inc _]]]. assert (l' = l) by congruence. subst l'.
  unfold threshold_omp in O. rewrite usub_small in O by lia.
  destruct (search_omp_spec g lp l (S (length l)) 0 (len l - 1) o Hw Hl Hlen Hj) as [t [i [Eo [Ei Min]]]];
    [lia|lia|unfold len in *; lia|intros j t _ Hlt; change (N.to_nat 0) with 0%nat in Hlt; lia|exact O|].
  exists t. split; [exact Eo|]. split; [eapply nth_error_In; exact Ei|].
  eapply below_bound; try eassumption. apply Min. exact Inc.
Qed.

(** *** The order of the pixels *)

Lemma sorted_app {A} (R : A -> A -> Prop) l1 l2 : StronglySorted R l1 -> StronglySorted R l2 ->
  (forall x y, In x l1 -> In y l2 -> R x y) -> StronglySorted R (l1 ++ l2).
Proof.
  intros S1 S2. induction S1 as [|x l S1 IH F]; intros H; [exact S2|]. cbn [app]. constructor.
  - apply IH. intros a b Ha Hb. apply H; [right; exact Ha|exact Hb].
  - apply Forall_app. split; [exact F|]. apply Forall_forall. intros y Hy. apply H; [left; reflexivity|exact Hy].
Qed.

Lemma sorted_before {A} (R : A -> A -> Prop) l : StronglySorted R l ->
  forall pre p post, l = pre ++ p :: post -> forall q, In q pre -> R q p.
Proof.
  induction 1 as [|x l S IH F]; intros pre p post E q Hq; [destruct pre; discriminate|].
  destruct pre as [|y pre]; [destruct Hq|]. cbn [app] in E. injection E as <- ->. destruct Hq as [<-|Hq].
  - rewrite Forall_forall in F. apply F. apply in_or_app. right. left. reflexivity.
  - eapply IH; [reflexivity|exact Hq].
Qed.

Lemma all_pixels_earlier w h pre p post : all_pixels w h = pre ++ p :: post -> forall q, In q pre -> earlier q p.
Proof.
  apply sorted_before. unfold all_pixels, range. rewrite !N.sub_0_r. generalize (N.to_nat w), 0 at 2. intros n.
  assert (Col : forall k x lo, StronglySorted earlier (map (fun y => {| px := x; py := y |}) (seqN k lo))).
  { induction k as [|k IH]; intros x lo; cbn [seqN map]; constructor; [apply IH|]. apply Forall_forall. intros q Hq.
    apply in_map_iff in Hq. destruct Hq as [y [<- Hy]]. apply In_seqN in Hy. right. cbn [px py]. lia. }
  induction n as [|n IH]; intros x0; cbn [seqN flat_map]; [constructor|]. apply sorted_app; [apply Col|apply IH|].
  intros q q' Hq Hq'. apply in_map_iff in Hq. destruct Hq as [y [<- _]]. apply in_flat_map in Hq'. destruct Hq' as [x' [Hx Hq']].
  apply in_map_iff in Hq'. destruct Hq' as [y' [<- _]]. apply In_seqN in Hx. left. cbn [px]. lia.
Qed.

(** *** Maps *)

Lemma solve_omp_spec srt l r lev (c s : F T) g o :
  sorts srt -> make_graph l r lev c s = Ok g -> consistent_image l -> consistent_image r ->
  width l * height l * 4 * lev < wmod T -> finite_penalties g -> sized_for g ->
  solve_problem_omp v srt l r lev c s o ->
  exists lp t, make_lowest g = Ok lp /\ lower_bound g lp t /\
    (o = Stop (Throw CannotSolve) \/ o = Stop (Throw CannotLabel) \/ (o = Stop (Throw NoLabel) /\ ~ orderly_team v) \/
     exists img, o = Ok img /\ matched_map g lp t img /\ (orderly_team v -> greedy_map g lp img)).
Proof.
  intros Hs Eg Cl Cr Hsz Hf Hj O. destruct (make_graph_wf l r lev c s g Eg Cl Cr Hsz) as [Hw Hz].
  assert (Hn : nonneg_weights g).
  { destruct (make_graph_Ok l r lev c s g Eg) as [_ [_ [_ [_ [_ [_ [_ [Nc [Ns [_ [_ E]]]]]]]]]]]. rewrite E. split; assumption. }
  destruct (make_lowest_spec g Hw) as [lp [El _]].
  destruct (candidates_complete HL srt g lp Hs Hw El Hf) as [cands [Ef _]].
  unfold solve_problem_omp in O. rewrite Eg in O.
  destruct O as [[g' [X O]]|[e [X _]]]; unfold does in X; [|discriminate]. injection X as ->. rewrite El in O.
  destruct O as [[lp' [X O]]|[e [X _]]]; unfold does in X; [|discriminate]. injection X as ->. rewrite Ef in O.
  destruct O as [[l' [X O]]|[e [X _]]]; unfold does in X; [|discriminate]. injection X as ->.
  destruct O as [[t [X O]]|[e [X _]]];
    destruct (threshold_omp_spec srt g lp cands _ Hs Hw El Hf Hz Hn Ef Hj X) as [t' [Et [It Low]]]; [|discriminate].
  injection Et as <-. exists lp, t. split; [exact El|]. split; [exact Low|].
  destruct (make_constraint_spec g lp t Hw El) as [cg [Ec [Hc [Gc [Lc [Tc Ha]]]]]]. rewrite Ec in O.
  destruct O as [[cg' [Y O]]|[e [Y _]]]; unfold does in Y; [|discriminate]. injection Y as ->.
  assert (Hj' : sized_team v cg) by (unfold sized_team; rewrite Gc; exact Hj).
  pose proof (wf_static cg Hc) as Hst.
  destruct O as [[r1 [Y O]]|[e [Y _]]];
    destruct (csp_omp_any v cg _ Hc Hj' Y) as [b [m1 [E1 [Hm1 [Sub1 [_ [_ Keep]]]]]]]; [|discriminate].
  injection E1 as ->. cbn [fst snd] in O. destruct b; cbn [negb] in O; [|left; exact O].
  assert (Hc1 : wf_cgraph (with_avail cg m1)) by (apply static_wf; assumption).
  unfold find_labeling_omp in O. change (cg_graph (with_avail cg m1)) with (cg_graph cg) in O.
  rewrite (column_order_eq (cg_graph cg) (st_graph cg Hst)) in O.
  set (ps := all_pixels (width (right (cg_graph cg))) (height (right (cg_graph cg)))) in O.
  assert (Hps : pixels_ok (with_avail cg m1) ps) by (intros p Hp; apply In_all_pixels in Hp; exact Hp).
  destruct O as [[r2 [Z O]]|[e [Z _]]];
    destruct (label_omp_any v HL ps _ _ Hc1 Hj' Hps Z) as [b [m2 [E2 [Hm2 Sub2]]]]; [|discriminate].
  injection E2 as ->. cbn [fst snd] in O. destruct b; cbn [negb] in O; [|right; left; exact O].
  change (with_avail (with_avail cg m1) m2) with (with_avail cg m2) in *.
  assert (Hc2 : wf_cgraph (with_avail cg m2)) by (apply static_wf; assumption).
  assert (Hsub : sub m2 (cg_avail cg)) by (eapply sub_trans; [exact Sub2|exact Sub1]).
  destruct (disparity_map (with_avail cg m2) Hc2) as [DM1 DM2].
  change (cg_graph (with_avail cg m2)) with (cg_graph cg) in DM1, DM2.
  assert (Fnd : orderly_team v -> found cg m2).
  { intros Ho. apply (label_omp_found v Ho HL ps (with_avail cg m1) [] (with_avail cg m2) Hc1 Hj' Hps).
    + intros p [].
    + exact Z.
    + intros X'. pose proof (proj2 (In_all_pixels (width (right (cg_graph cg))) (height (right (cg_graph cg))) {| px := 0; py := 0 |}) (origin_in cg Hst)) as Y'.
      fold ps in Y'. rewrite X' in Y'. destruct Y'.
    + intros p Hp. right. apply In_all_pixels. exact Hp. }
  (* Either every pixel has a node left or some pixel has none. *)
  assert (Dec : (forall p, in_image (cg_graph cg) p -> hasb cg m2 p = true) \/ exists p, in_image (cg_graph cg) p /\ hasb cg m2 p = false).
  { destruct (forallb (hasb cg m2) ps) eqn:E.
    - left. intros p Hp. rewrite forallb_forall in E. apply E. apply In_all_pixels. exact Hp.
    - right. assert (X' : exists p, In p ps /\ hasb cg m2 p = false).
      { clear - E. induction ps as [|p ps IH]; [discriminate|]. cbn [forallb] in E.
        destruct (hasb cg m2 p) eqn:B; [|exists p; split; [left; reflexivity|exact B]].
        destruct (IH E) as [q [Hq Bq]]. exists q. split; [right; exact Hq|exact Bq]. }
      destruct X' as [p [Hp B]]. exists p. split; [apply In_all_pixels in Hp; exact Hp|exact B]. }
  destruct Dec as [Has|[p [Hp Hno]]].
  2:{ right. right. left. split; [|intros Ho; destruct (Fnd Ho) as [Fd _]; destruct (Fd p Hp); congruence]. rewrite (DM2 p Hp) in O.
      - destruct O as [[x [X' _]]|[e [X' E']]]; unfold does in X'; [discriminate|]. injection X' as ->. exact E'.
      - intros d M A. apply available_with in A; [|exact Hst|exact Hm2|apply match_inb; exact M].
        assert (hasb cg m2 p = true) by (apply hasb_ex; try assumption; exists d; split; assumption). congruence. }
  right. right. right.
  assert (Has' : forall p, in_image (cg_graph cg) p -> exists d, match_exists (cg_graph cg) {| npix := p; disp := d |} /\
    available (with_avail cg m2) {| npix := p; disp := d |}).
  { intros p Hp. specialize (Has p Hp). apply hasb_ex in Has; try assumption. destruct Has as [d [M A]].
    exists d. split; [exact M|]. apply available_with; try assumption. apply match_inb; exact M. }
  destruct (DM1 Has') as [img [Ei [Wi [Hi [Mi [Li [Vi Di]]]]]]]. rewrite Ei in O.
  destruct O as [[x [X' O]]|[e [X' _]]]; unfold does in X'; [|discriminate]. injection X' as ->. cbn [fst] in O.
  exists img. split; [exact O|].
  assert (Wn : forall n, match_exists g n -> available (with_avail cg m2) n -> node_within g lp t n).
  { intros n M A. assert (I : inb cg n) by (apply match_inb; rewrite Gc; exact M).
    apply available_with in A; try assumption. apply (proj1 (Ha n I)). apply Hsub. exact A. }
  assert (Kn : forall p, in_image g p -> match_exists g (label_node (map_labeling img) p) /\
    available (with_avail cg m2) (label_node (map_labeling img) p)).
  { intros p Hp. rewrite <- Gc in Hp. destruct (Di p Hp) as [d [Ed [Md [Ad _]]]]. rewrite <- Wi in Ed.
    pose proof (get_map_labeling img p d Ed) as Q. unfold label_node. rewrite Q. rewrite Gc in Md. split; assumption. }
  split.
  - rewrite Gc in *. unfold matched_map. rewrite (wf_width g Hw), (wf_height g Hw).
    refine (conj Wi (conj Hi (conj Mi (conj _ (conj Vi (conj _ _)))))).
    + unfold consistent_image. rewrite Li, Wi, Hi. reflexivity.
    + intros p Hp. apply Kn. exact Hp.
    + intros p Hp. apply Wn; apply Kn; exact Hp.
  - intros Ho.
    pose proof (Fnd Ho) as Fd.
    destruct (found_solution cg m2 Hst Hm2 Fd) as [k [Sk Uk]].
    destruct (labeled_map HL g lp t (with_avail cg m2) k Hc2 Gc Lc Tc Low Sk) as [img' [Ei' Bi]].
    + intros p Hp. assert (Mk : match_exists g (label_node k p)) by (rewrite <- Gc; apply (proj1 (proj1 Sk)); change (in_image (cg_graph cg) p); rewrite Gc; exact Hp).
        apply Wn; [exact Mk|]. apply Uk; [rewrite Gc; exact Mk|reflexivity].
    + intros n M A. apply Uk; [rewrite Gc; exact M|exact A].
    + rewrite Ei in Ei'. injection Ei' as <-. split; [exact Bi|].
      intros k' p c0 c1 Lk' Good Hp Pre E0 E1.
      assert (Wk : nodes_within g lp t (map_labeling img) /\ edges_within g lp t (map_labeling img)).
      { apply Bi with k.
        - rewrite <- Gc. apply Sk.
        - intros q Hq. assert (Mk : match_exists g (label_node k q)) by (rewrite <- Gc; apply (proj1 (proj1 Sk)); change (in_image (cg_graph cg) q); rewrite Gc; exact Hq).
          apply Wn; [exact Mk|]. apply Uk; [rewrite Gc; exact Mk|reflexivity].
        - rewrite <- Gc, <- Lc, <- Tc. apply Sk. }
      destruct (Good t (proj1 Wk) (proj2 Wk)) as [N' E'].
      destruct (Keep k' (within_solution g lp t k' cg Hw El Ec Lk' N' E')) as [_ Sk'].
      assert (Hin : In p ps) by (apply In_all_pixels; change (in_image (cg_graph cg) p); rewrite Gc; exact Hp).
      apply in_split in Hin. destruct Hin as [pre [post Hsp]].
      apply (label_omp_first v HL ps (with_avail cg m1) (with_avail cg m2) (map_labeling img) Hc1 Hj' Hps) with (pre := pre) (post := post); try assumption.
      * change (cg_graph (with_avail cg m1)) with (cg_graph cg). rewrite Gc. intros n c2 M En. eapply node_nonneg; eassumption.
      * change (cg_graph (with_avail cg m1)) with (cg_graph cg). rewrite Gc. intros q Hq. apply In_all_pixels in Hq.
        assert (Hq' : in_image g q) by (rewrite <- Gc; exact Hq). destruct (Kn q Hq') as [Mq Aq]. split; [exact Mq|].
        apply available_with in Aq; [exact Aq|exact Hst|exact Hm2|apply match_inb; rewrite Gc; exact Mq].
      * intros q Hq. apply Pre.
        -- assert (Hq' : In q ps) by (rewrite Hsp; apply in_or_app; left; exact Hq). apply In_all_pixels in Hq'. rewrite <- Gc. exact Hq'.
        -- exact (all_pixels_earlier _ _ _ _ _ Hsp q Hq).
      * change (cg_graph (with_avail cg m1)) with (cg_graph cg). rewrite Gc. exact E0.
      * change (cg_graph (with_avail cg m1)) with (cg_graph cg). rewrite Gc. exact E1.
Qed.

(** There is one such map at most. *)
Lemma greedy_unique g lp i1 i2 : wf_graph g -> greedy_map g lp i1 -> greedy_map g lp i2 -> i1 = i2.
Proof.
  intros Hw [B1 G1] [B2 G2]. pose proof B1 as [W1 [H1 [M1 [C1 [_ [L1 _]]]]]]. pose proof B2 as [W2 [H2 [M2 [C2 [_ [L2 _]]]]]].
  assert (A1 : as_good g lp (map_labeling i1) (map_labeling i2)) by (intros b N' E'; apply B1 with (map_labeling i2); assumption).
  assert (A2 : as_good g lp (map_labeling i2) (map_labeling i1)) by (intros b N' E'; apply B2 with (map_labeling i1); assumption).
  apply map_unique; try congruence. rewrite W1, H1, (wf_width g Hw), (wf_height g Hw).
  assert (S : forall x y p, px p < x \/ (px p = x /\ py p < y) -> in_image g p -> map_labeling i1 p = map_labeling i2 p).
  { intros x. induction x as [|x IHx] using N.peano_ind; intros y; induction y as [|y IHy] using N.peano_ind; intros p Hlt Hp.
    - lia.
    - destruct (N.eq_dec (px p) 0) as [Ex|Ex]; [|lia]. destruct (N.eq_dec (py p) y) as [Ey|Ey]; [|apply IHy; [lia|exact Hp]].
      assert (Pre : forall q, in_image g q -> earlier q p -> map_labeling i1 q = map_labeling i2 q).
      { intros q Hq [X|[X Y]]; [lia|]. apply IHy; [lia|exact Hq]. }
      destruct (node_penalty_Ok g _ Hw (proj1 L1 p Hp)) as [c1 E1]. destruct (node_penalty_Ok g _ Hw (proj1 L2 p Hp)) as [c2 E2].
      destruct (G1 (map_labeling i2) p c1 c2 L2 A2 Hp) as [P1 P2]; try assumption; [intros; symmetry; auto|].
      destruct (G2 (map_labeling i1) p c2 c1 L1 A1 Hp) as [P3 P4]; try assumption. specialize (P2 P3). specialize (P4 P1). lia.
    - destruct (N.lt_ge_cases (px p) x) as [X|X]; [apply (IHx 0); [lia|exact Hp]|].
      apply (IHx (py p + 1)); [lia|exact Hp].
    - destruct (N.eq_dec (px p) (N.succ x)) as [Ex|Ex]; [|apply IHy; [lia|exact Hp]].
      destruct (N.eq_dec (py p) y) as [Ey|Ey]; [|apply IHy; [lia|exact Hp]].
      assert (Pre : forall q, in_image g q -> earlier q p -> map_labeling i1 q = map_labeling i2 q).
      { intros q Hq [X|[X Y]]; (apply IHy; [lia|exact Hq]). }
      destruct (node_penalty_Ok g _ Hw (proj1 L1 p Hp)) as [c1 E1]. destruct (node_penalty_Ok g _ Hw (proj1 L2 p Hp)) as [c2 E2].
      destruct (G1 (map_labeling i2) p c1 c2 L2 A2 Hp) as [P1 P2]; try assumption; [intros; symmetry; auto|].
      destruct (G2 (map_labeling i1) p c2 c1 L1 A1 Hp) as [P3 P4]; try assumption. specialize (P2 P3). specialize (P4 P1). lia. }
  intros p Hx Hy. apply (S (px p) (py p + 1)); [lia|split; assumption].
Qed.
End Host.

(** *** Runs of the application *)

Definition omp_map (v : team) (w : world) (o : options) (lpath rpath : text) (x : outcome image) : Prop :=
  exists l r lev c s g lp t, file_holds w lpath l /\ file_holds w rpath r /\
    option_number (width l) (o_levels o) lev /\ option_number 1 (o_cleanness o) c /\ option_number 1 (o_smoothness o) s /\
    make_graph l r lev (@of_u cpu c) (of_u s) = Ok g /\ make_lowest g = Ok lp /\ lower_bound g lp t /\
    (x = Stop (Throw CannotSolve) \/ x = Stop (Throw CannotLabel) \/ (x = Stop (Throw NoLabel) /\ ~ orderly_team v) \/
     exists img, x = Ok img /\ matched_map g lp t img /\ (orderly_team v -> greedy_map g lp img)).

Lemma map_omp_spec v srt w o lpath rpath x : sorts srt -> usable_files w -> team_ok v -> map_omp v srt w o lpath rpath x ->
  (exists y, x = Stop (Throw y) /\ disparity_map_of srt w o lpath rpath = Stop (Throw y)) \/ omp_map v w o lpath rpath x.
Proof.
  intros Hs U Hv M. unfold map_omp in M. unfold disparity_map_of.
  destruct (read_total w lpath U) as [[l El]|[y Ey]]; [rewrite El in M|rewrite Ey in M];
    destruct M as [[a [X M]]|[e [X M]]]; unfold does in X; try discriminate; injection X as ->;
    [|left; exists y; rewrite Ey; split; [exact M|reflexivity]]. rewrite El. cbn [bind].
  destruct (read_total w rpath U) as [[r Er]|[y Ey]]; [rewrite Er in M|rewrite Ey in M];
    destruct M as [[a [X M]]|[e [X M]]]; unfold does in X; try discriminate; injection X as ->;
    [|left; exists y; rewrite Ey; split; [exact M|reflexivity]]. rewrite Er. cbn [bind].
  destruct (number_total (width l) (o_levels o)) as [[lev Elev]|[y Ey]]; [rewrite Elev in M|rewrite Ey in M];
    destruct M as [[a [X M]]|[e [X M]]]; unfold does in X; try discriminate; injection X as ->;
    [|left; exists y; rewrite Ey; split; [exact M|reflexivity]]. rewrite Elev. cbn [bind].
  destruct (number_total 1 (o_cleanness o)) as [[c Ec]|[y Ey]]; [rewrite Ec in M|rewrite Ey in M];
    destruct M as [[a [X M]]|[e [X M]]]; unfold does in X; try discriminate; injection X as ->;
    [|left; exists y; rewrite Ey; split; [exact M|reflexivity]]. rewrite Ec. cbn [bind].
  destruct (number_total 1 (o_smoothness o)) as [[s Es]|[y Ey]]; [rewrite Es in M|rewrite Ey in M];
    destruct M as [[a [X M]]|[e [X M]]]; unfold does in X; try discriminate; injection X as ->;
    [|left; exists y; rewrite Ey; split; [exact M|reflexivity]]. rewrite Es. cbn [bind].
  apply read_held in El. apply read_held in Er. apply number_value in Elev. apply number_value in Ec. apply number_value in Es.
  destruct (held_usable w lpath l U El) as [S1 S2]. destruct (held_usable w rpath r U Er) as [S3 _].
  pose proof (held_consistent _ _ _ El) as Cl. pose proof (held_consistent _ _ _ Er) as Cr.
  assert (Rej : forall y, make_graph l r lev (@of_u cpu c) (of_u s) = Stop (Throw y) ->
    exists y, x = Stop (Throw y) /\ solve_problem srt l r lev (@of_u cpu c) (of_u s) = Stop (Throw y)).
  { intros y Ek. unfold solve_problem_omp in M. rewrite Ek in M. destruct M as [[g [X _]]|[e [X M]]]; unfold does in X; [discriminate|].
    injection X as ->. exists y. split; [exact M|]. unfold solve_problem. rewrite Ek. reflexivity. }
  destruct (made_total l r lev (@of_u cpu c) (of_u s)) as [[g Eg]|[[k Ek]|Ek]]; try assumption; [discriminate| | |].
  - right. assert (Hf : finite_penalties g).
    { eapply made_finite; try eassumption; try (eapply number_small; [|eassumption]; reflexivity).
      intros u [Hu|Hu]; [apply (proj2 (held_small _ _ _ El) u Hu)|apply (proj2 (held_small _ _ _ Er) u Hu)]. }
    pose proof (problem_fits _ _ _ _ _ _ Eg S2) as Fit.
    assert (Hj : sized_for v g).
    { intros bound jobs B. destruct (Hv bound jobs B) as [J1 J2].
      destruct (make_graph_Ok l r lev _ _ g Eg) as [_ [_ [_ [Lw [Ww [Wh [_ [_ [_ [_ [_ E]]]]]]]]]]].
      destruct (make_graph_wf l r lev _ _ g Eg Cl Cr Fit) as [Hw _]. pose proof (wf_levels g Hw). pose proof (wf_levels_width g Hw).
      assert (Eh : height (right g) = height r /\ width (right g) = width r) by (rewrite E; split; reflexivity). destruct Eh as [Eh Ewd].
      rewrite Ewd in *. rewrite Eh. split; [exact J1|]. change (wmod cpu) with (2 ^ 64).
      assert (height r <= width r * height r) by nia. lia. }
    destruct (solve_omp_spec cpu_laws v srt l r lev _ _ g x Hs Eg Cl Cr Fit Hf Hj M) as [lp [t [A [B C]]]].
    exists l, r, lev, c, s, g, lp, t. repeat (split; [assumption|]). exact C.
  - left. exact (Rej _ Ek).
  - left. exact (Rej _ Ek).
Qed.

Lemma matched_written w o lpath rpath v img : usable_files w -> omp_map v w o lpath rpath (Ok img) ->
  exists txt, write_image [] (Some img) = Ok txt /\ valid_image img.
Proof.
  intros U [l [r [lev [c [s [g [lp [t [Hl [_ [_ [_ [_ [Eg [_ [_ X]]]]]]]]]]]]]]]].
  destruct X as [X|[X|[[X _]|[img' [X [[W [H [_ [C [V _]]]]] _]]]]]]; try discriminate. injection X as <-.
  assert (Sz : width img * height img < 2 ^ 32).
  { destruct (make_graph_Ok l r lev _ _ g Eg) as [_ [_ [_ [_ [_ [_ [_ [_ [_ [_ [_ E]]]]]]]]]]]. subst g. cbn [left] in W, H.
    rewrite W, H. apply (held_usable w lpath l U Hl). }
  eexists. split; [exact (written img V C Sz [])|exact V].
Qed.

(** Every run comes to one of these ends. *)
Lemma omp_ends v srt w o lpath rpath out e : sorts srt -> usable_files w -> team_ok v ->
  all_paths o lpath rpath out -> technology_ok o -> main_omp v srt w (Parsed o) e ->
  (exists y, e = Ok (ends 0 (Some (report y)) None) /\
     (main srt w (Parsed o) = Ok (ends 0 (Some (report y)) None) \/ y = CannotSolve \/ y = CannotLabel \/ (y = NoLabel /\ ~ orderly_team v))) \/
  exists img txt, omp_map v w o lpath rpath (Ok img) /\ write_image [] (Some img) = Ok txt /\
    e = Ok (ends 0 None (if writable w out then Some (out, txt) else None)).
Proof.
  intros Hs U Hv [E1 [E2 E3]] Ht M. unfold main_omp in M. rewrite E1, E2, E3 in M.
  destruct (parallel_cases o) as [[_ Ep]|[X _]]; [|contradiction]. rewrite Ep in M. destruct M as [x [M ->]].
  destruct (map_omp_spec v srt w o lpath rpath x Hs U Hv M) as [[y [-> Ey]]|D].
  - left. exists y. split; [reflexivity|]. left. eapply main_failed; [split; [|split]; eassumption|exact Ht|exact Ey].
  - assert (D' := D). destruct D' as [l [r [lev [c [s [g [lp [t [_ [_ [_ [_ [_ [_ [_ [_ X]]]]]]]]]]]]]]]].
    destruct X as [->|[->|[[-> Ho]|[img [-> _]]]]]; [left; eexists; split; [reflexivity|auto]..|].
    right. destruct (matched_written w o lpath rpath v img U D) as [txt [Et _]].
    exists img, txt. split; [exact D|]. split; [exact Et|]. unfold finishes. cbn [bind].
    destruct (writable w out); [rewrite Et|]; reflexivity.
Qed.

Lemma main_omp_other v srt w p e : (forall o l r out, p = Parsed o -> all_paths o l r out -> ~ technology_ok o) ->
  main_omp v srt w p e <-> e = main srt w p.
Proof.
  intros H. destruct p as [o| |]; [|reflexivity..]. unfold main_omp, main.
  destruct (o_output o) as [out|] eqn:E1, (o_left o) as [l|] eqn:E2, (o_right o) as [r|] eqn:E3;
    try (destruct (_ || _); [reflexivity|]; destruct (_ =? _); reflexivity).
  specialize (H o l r out eq_refl (conj E2 (conj E3 E1))).
  destruct (parallel_cases o) as [[X _]|[_ ->]]; [contradiction|reflexivity].
Qed.

Lemma omp_total v srt w p e : sorts srt -> usable_files w -> team_ok v -> main_omp v srt w p e -> exists e', e = Ok e'.
Proof.
  intros Hs U Hv M.
  assert (D : (exists o l r out, p = Parsed o /\ all_paths o l r out /\ technology_ok o) \/
    forall o l r out, p = Parsed o -> all_paths o l r out -> ~ technology_ok o).
  { destruct p as [o| |]; [|right; discriminate..].
    destruct (options_cases o) as [X|[[l [r [X1 [X2 X3]]]]|[l [r [out X]]]]].
    - right. intros o' l r out Eo [A [B C]]. injection Eo as <-. destruct X as [X|X]; congruence.
    - right. intros o' l' r' out Eo [A [B C]]. injection Eo as <-. congruence.
    - destruct (technology_dec o) as [Y|Y]; [left; exists o, l, r, out; auto|right]. intros o' l' r' out' Eo _. injection Eo as <-. exact Y. }
  destruct D as [[o [l [r [out [-> [A B]]]]]]|D].
  - destruct (omp_ends v srt w o l r out e Hs U Hv A B M) as [[y [-> _]]|[img [txt [_ [_ ->]]]]]; eexists; reflexivity.
  - apply (main_omp_other v srt w p e D) in M. destruct (main_total srt w p Hs U) as [e' E']. exists e'. congruence.
Qed.
