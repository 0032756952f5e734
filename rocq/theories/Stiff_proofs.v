(** Proofs about problems in which the smoothness outweighs the intensities. *)
From Coq Require Import Reals Lia.
From Flocq Require Import Core.Core IEEE754.BinarySingleNaN.
From Verif Require Export Stiff_spec Special_proofs Across_proofs Device_proofs.
Local Open Scope Z_scope.
Local Notation G cg := (cg_graph cg).
Local Notation nd p d := {| npix := p; disp := d |}.

(** *** Maps *)

Lemma zero_ordered r lev : (0 < lev)%N -> ordered_labeling r lev (fun _ => 0%N).
Proof.
  intros Lv. split.
  - intros p [Hx Hy]. unfold is_match, label_node, inside. cbn [npix disp]. lia.
  - intros p q _ _ A. unfold in_order, label_node, horizontal_pair. cbn [npix disp]. lia.
Qed.

Lemma flat_row (f : N -> N) w : (forall x, x + 1 < w -> f x = f (x + 1))%N -> (f (w - 1) = 0)%N ->
  forall x, (x < w)%N -> f x = 0%N.
Proof.
  intros Step Last x Hx.
  assert (X : forall i, (i < w)%N -> f (w - 1 - i)%N = 0%N).
  { induction i as [|i IH] using N.peano_ind; intros Hi; [rewrite N.sub_0_r; exact Last|].
    rewrite Step by lia. replace (w - 1 - N.succ i + 1)%N with (w - 1 - i)%N by lia. apply IH. lia. }
  specialize (X (w - 1 - x)%N ltac:(lia)). replace (w - 1 - (w - 1 - x))%N with x in X by lia. exact X.
Qed.

Lemma no_step s d d' b : 0 <= s -> edge_cost s d d' <= b -> b < s -> d = d'.
Proof.
  unfold edge_cost. intros S0 H L. destruct (Z.eq_dec (Z.of_N d) (Z.of_N d')) as [E|E]; [lia|exfalso].
  set (t := Z.of_N d - Z.of_N d') in *. assert (1 <= t ^ 2) by (rewrite Z.pow_2_r; destruct (Z_lt_le_dec t 0); nia).
  rewrite Z.pow_2_r in *. nia.
Qed.

Lemma stiff_map lev a b img : (0 < lev)%N -> stiff lev a b ->
  optimal_map (p_left a) (p_right a) lev (Z.of_N (p_cleanness a)) (Z.of_N (p_smoothness a)) img ->
  img = zero_map (width (p_right a)) (height (p_right a)) lev.
Proof.
  intros Lv [Wb Lb] [Wi [Hi [Mi [Ci [_ [[K _] Best]]]]]].
  destruct (Best _ b (zero_ordered _ _ Lv) Wb) as [_ Ed].
  rewrite (zero_map_unique img Ci); [rewrite Wi, Hi, Mi; reflexivity|].
  rewrite Wi, Hi. intros [x y] Hx Hy. cbn [px py] in Hx, Hy.
  apply (flat_row (fun x => map_labeling img {| px := x; py := y |}) (width (p_right a))); [| |exact Hx].
  - intros x0 H0. eapply no_step; [apply N2Z.is_nonneg|apply Ed; unfold inside, adjacent, horizontal_pair; cbn [px py]; lia|exact Lb].
  - destruct (K {| px := width (p_right a) - 1; py := y |}) as [_ [_ X]]; [split; cbn [px py]; lia|].
    unfold label_node in X. cbn [npix disp px] in X. lia.
Qed.

Lemma accepted_levels lev a : accepted lev a -> (1 < lev)%N.
Proof.
  intros [g Eg]. destruct (make_graph_Ok _ _ _ _ _ g Eg) as [_ [_ [X _]]]. exact X.
Qed.

Lemma stiff_flat srt lev a b : sorts srt -> accepted lev a -> small_problem (2 ^ 53) lev a -> stiff lev a b ->
  solution_of srt lev a = Stop (Throw CannotLabel) \/
  solution_of srt lev a = Ok (zero_map (width (p_right a)) (height (p_right a)) lev).
Proof.
  intros Srt Ac Sm St. pose proof (accepted_levels lev a Ac) as Lv. destruct Ac as [g Eg]. destruct Sm as [Cl [Cr [F64 Sm]]].
  destruct (exact_solution 53 1024 hp53 he53 (2 ^ 64) Z.of_N (fun n _ => eq_refl) srt _ _ lev _ _ g Srt Eg Cl Cr F64 Sm) as [H|[img [H O]]].
  - left. exact H.
  - right. rewrite <- (stiff_map lev a b img ltac:(lia) St O). exact H.
Qed.

Lemma stiff_device d v srt lev a b o : sorts srt -> accepted lev a -> small_problem (2 ^ 24) lev a ->
  addressable d (p_right a) lev -> stiff lev a b -> device_solution_of d v srt lev a o ->
  o = Stop (Throw NoLabel) \/ o = Ok (zero_map (width (p_right a)) (height (p_right a)) lev).
Proof.
  intros Srt Ac Sm Ad St Ho. pose proof (accepted_levels lev a Ac) as Lv. destruct Ac as [g Eg]. destruct Sm as [Cl [Cr [F64 Sm]]].
  destruct (gpu_optimal d v srt _ _ lev _ _ g o Srt Eg Cl Cr F64 Ad Sm Ho) as [H|[img [H O]]]; [left; exact H|].
  right. rewrite <- (stiff_map lev a b img ltac:(lia) St O). exact H.
Qed.

(** *** Steps of maps *)

Lemma zero_within m lev a : 0 <= m -> at_most m (p_left a) -> at_most m (p_right a) ->
  width (p_left a) = width (p_right a) -> height (p_left a) = height (p_right a) ->
  within_bound (p_left a) (p_right a) lev (Z.of_N (p_cleanness a)) (Z.of_N (p_smoothness a))
    (Z.of_N (p_cleanness a) * m ^ 2) (fun _ => 0%N).
Proof.
  intros M0 Ml Mr Ew Eh. split.
  - intros p z Hi [[n [En [Mn <-]]] _]. unfold node_cost, label_node. cbn [npix disp]. rewrite N.add_0_r.
    assert (X : inside (p_left a) {| px := px p; py := py p |}) by (destruct Hi; split; cbn [px py]; congruence).
    pose proof (Ml _ X) as B1. pose proof (Mr p Hi) as B2.
    assert (0 <= brightness (p_left a) {| px := px p; py := py p |}) by apply N2Z.is_nonneg.
    assert (0 <= brightness (p_right a) p) by apply N2Z.is_nonneg.
    set (u := brightness (p_right a) p - brightness (p_left a) {| px := px p; py := py p |}) in *.
    assert (u ^ 2 <= m ^ 2) by (rewrite !Z.pow_2_r; nia).
    set (t := brightness (p_right a) (npix n) - _). assert (0 <= t ^ 2) by (rewrite Z.pow_2_r; nia). nia.
  - intros p q _ _ _. unfold edge_cost. assert (0 <= m ^ 2) by (rewrite Z.pow_2_r; nia). nia.
Qed.

Lemma steps_add s b (f : N -> N) w : 0 <= b -> 0 <= s ->
  (forall x, (x + 1 < w)%N -> edge_cost s (f x) (f (x + 1)%N) <= b) -> (f (w - 1) = 0)%N ->
  forall x, (x < w)%N -> s * Z.of_N (f x) ^ 2 <= b * (Z.of_N w - 1 - Z.of_N x) ^ 2.
Proof.
  intros B0 S0 Step Last x Hx.
  assert (X : forall i, (i < w)%N -> s * Z.of_N (f (w - 1 - i)%N) ^ 2 <= b * Z.of_N i ^ 2).
  { induction i as [|i IH] using N.peano_ind; intros Hi; [rewrite N.sub_0_r, Last; cbn; lia|].
    specialize (IH ltac:(lia)). specialize (Step (w - 1 - N.succ i)%N ltac:(lia)).
    replace (w - 1 - N.succ i + 1)%N with (w - 1 - i)%N in Step by lia. unfold edge_cost in Step.
    rewrite N2Z.inj_succ. set (k := Z.of_N (f (w - 1 - i)%N)) in *. set (k1 := Z.of_N (f (w - 1 - N.succ i)%N)) in *.
    assert (0 <= k) by apply N2Z.is_nonneg. assert (0 <= k1) by apply N2Z.is_nonneg. set (D := Z.of_N i) in *.
    assert (0 <= D) by apply N2Z.is_nonneg. rewrite !Z.pow_2_r in *.
    destruct (Z_le_gt_dec k1 k) as [Le|Gt]; [nia|]. set (j := k1 - k) in *. assert (Ek : k1 = k + j) by lia. rewrite Ek.
    assert (Mid : s * k * j <= b * D).
    { destruct (Z_le_gt_dec (s * k * j) (b * D)) as [L|L]; [exact L|exfalso].
      assert ((s * (k * k)) * (s * (j * j)) <= (b * (D * D)) * b) by (apply Z.mul_le_mono_nonneg; nia).
      assert ((b * D) * (b * D) < (s * k * j) * (s * k * j)) by (apply Z.mul_lt_mono_nonneg; nia). nia. }
    unfold Z.succ. nia. }
  specialize (X (w - 1 - x)%N ltac:(lia)). replace (w - 1 - (w - 1 - x))%N with x in X by lia.
  replace (Z.of_N w - 1 - Z.of_N x) with (Z.of_N (w - 1 - x)) by lia. exact X.
Qed.

Lemma map_steps lev a b img : (0 < lev)%N -> 0 <= b ->
  within_bound (p_left a) (p_right a) lev (Z.of_N (p_cleanness a)) (Z.of_N (p_smoothness a)) b (fun _ => 0%N) ->
  optimal_map (p_left a) (p_right a) lev (Z.of_N (p_cleanness a)) (Z.of_N (p_smoothness a)) img ->
  (forall p q, inside (p_right a) p -> inside (p_right a) q -> adjacent p q ->
     Z.of_N (p_smoothness a) * (Z.of_N (map_labeling img p) - Z.of_N (map_labeling img q)) ^ 2 <= b) /\
  forall p, inside (p_right a) p ->
    Z.of_N (p_smoothness a) * Z.of_N (map_labeling img p) ^ 2 <= b * (Z.of_N (width (p_right a)) - 1 - Z.of_N (px p)) ^ 2.
Proof.
  intros Lv B0 Wb [Wi [Hi [Mi [Ci [_ [[K _] Best]]]]]].
  destruct (Best _ b (zero_ordered _ _ Lv) Wb) as [_ Ed]. split; [exact Ed|].
  intros [x y] [Hx Hy]. cbn [px py] in *.
  apply (steps_add _ b (fun x => map_labeling img {| px := x; py := y |})); [exact B0|lia| | |exact Hx].
  - intros x0 H0. apply Ed; unfold inside, adjacent, horizontal_pair; cbn [px py]; lia.
  - destruct (K {| px := width (p_right a) - 1; py := y |}) as [_ [_ X]]; [split; cbn [px py]; lia|].
    unfold label_node in X. cbn [npix disp px] in X. lia.
Qed.

Lemma solution_steps srt lev a b img : sorts srt -> accepted lev a -> small_problem (2 ^ 53) lev a -> 0 <= b ->
  within_bound (p_left a) (p_right a) lev (Z.of_N (p_cleanness a)) (Z.of_N (p_smoothness a)) b (fun _ => 0%N) ->
  solution_of srt lev a = Ok img ->
  (forall p q, inside (p_right a) p -> inside (p_right a) q -> adjacent p q ->
     Z.of_N (p_smoothness a) * (Z.of_N (map_labeling img p) - Z.of_N (map_labeling img q)) ^ 2 <= b) /\
  forall p, inside (p_right a) p ->
    Z.of_N (p_smoothness a) * Z.of_N (map_labeling img p) ^ 2 <= b * (Z.of_N (width (p_right a)) - 1 - Z.of_N (px p)) ^ 2.
Proof.
  intros Srt Ac Sm B0 Wb Ei. pose proof (accepted_levels lev a Ac) as Lv. destruct Ac as [g Eg]. destruct Sm as [Cl [Cr [F64 Sm]]].
  destruct (exact_solution 53 1024 hp53 he53 (2 ^ 64) Z.of_N (fun n _ => eq_refl) srt _ _ lev _ _ g Srt Eg Cl Cr F64 Sm) as [H|[img' [H O]]];
    unfold solution_of in Ei; assert (E2 := eq_trans (eq_sym Ei) H); [discriminate E2|].
  assert (E3 : img = img') by (injection E2; auto). subst img'.
  apply (map_steps lev a b img); try assumption. lia.
Qed.

Lemma bright_steps srt lev a m img : sorts srt -> accepted lev a -> small_problem (2 ^ 53) lev a ->
  at_most m (p_left a) -> at_most m (p_right a) -> solution_of srt lev a = Ok img ->
  (forall p q, inside (p_right a) p -> inside (p_right a) q -> adjacent p q ->
     Z.of_N (p_smoothness a) * (Z.of_N (map_labeling img p) - Z.of_N (map_labeling img q)) ^ 2 <= Z.of_N (p_cleanness a) * m ^ 2) /\
  forall p, inside (p_right a) p ->
    Z.of_N (p_smoothness a) * Z.of_N (map_labeling img p) ^ 2 <=
    Z.of_N (p_cleanness a) * m ^ 2 * (Z.of_N (width (p_right a)) - 1 - Z.of_N (px p)) ^ 2.
Proof.
  intros Srt Ac Sm Ml Mr Ei.
  destruct (Z_le_gt_dec 0 m) as [M0|M0].
  - apply (solution_steps srt lev a); try assumption.
    + assert (0 <= m ^ 2) by (rewrite Z.pow_2_r; nia). nia.
    + pose proof Ac as [g Eg]. destruct (make_graph_Ok _ _ _ _ _ g Eg) as [_ [_ [_ [_ [Ew [Eh _]]]]]].
      apply zero_within; assumption.
  - assert (No : forall p, ~ inside (p_right a) p).
    { intros p Hi. pose proof (Mr p Hi). assert (0 <= brightness (p_right a) p) by apply N2Z.is_nonneg. lia. }
    split; intros p; intros; exfalso; eapply No; eassumption.
Qed.

(** *** The first pixel takes a cheapest one of its matches *)

Section First.
Implicit Type cg : cgraph cpu.
Let p0 : pixel := {| px := 0; py := 0 |}.

Lemma first_pixel w h : (0 < w)%N -> (0 < h)%N -> exists l, all_pixels w h = p0 :: l.
Proof.
  intros Hw Hh. unfold all_pixels.
  rewrite (range_split 0 1 w) by lia. change (range 0 1) with [0%N]. cbn [app flat_map].
  rewrite (range_split 0 1 h) by lia. change (range 0 1) with [0%N]. cbn [app map]. eexists. reflexivity.
Qed.

Lemma first_taken cg j img : wf_cgraph cg -> in_image (G cg) p0 -> mapped (exec find_labeling cg) = Ok img ->
  match_exists (G cg) (nd p0 j) -> available cg (nd p0 j) -> nonneg_at cg (cg_avail cg) p0 ->
  match_exists (G cg) (nd p0 (map_labeling img p0)) /\
  forall v v', node_penalty (G cg) (nd p0 (map_labeling img p0)) = Ok v -> node_penalty (G cg) (nd p0 j) = Ok v' -> fle v v' = true.
Proof.
  intros C Hp Ei Mj Aj Nn. pose proof (wf_static cg C) as Hs. pose proof (wfc_avail cg C) as Hm.
  apply (available_iff cg _ C (match_inb cg _ Mj)) in Aj.
  unfold mapped, find_labeling, exec in Ei. rewrite (column_order_eq (G cg) (st_graph cg Hs)) in Ei.
  assert (Hps : pixels_ok cg (all_pixels (width (right (G cg))) (height (right (G cg)))))
    by (intros p X; apply In_all_pixels in X; exact X).
  destruct (first_pixel (width (right (G cg))) (height (right (G cg)))) as [l El]; [destruct Hp as [Hx Hy]; cbn [px py p0] in *; lia..|].
  rewrite El in Ei, Hps. cbn [label_pixels] in Ei.
  destruct (run_choose cg (cg_avail cg) p0 cpu_laws Hs Hm Hp) as [b [m1 [E1 [Hm1 [Sub1 [Oth [Eb [_ HT]]]]]]]].
  rewrite cbind_assoc_run, E1 in Ei. cbn [bind fst snd] in Ei.
  assert (Tb : b = true). { rewrite Eb. apply hasb_ex; [exact Hs|exact Hp|]. exists j. auto. }
  rewrite Tb in Ei, HT. cbn [negb] in Ei. destruct (HT eq_refl) as [d [M [A [U Best]]]]. clear HT.
  rewrite cbind_assoc_run, run_solve_one in Ei by assumption. cbn [bind] in Ei.
  pose proof (solved_ok cg m1 Hm1) as Hm2. pose proof (solved_sub cg m1 Hs Hm1) as Sub2.
  destruct (solved cg m1) as [ok m2]. cbn [fst snd] in *. destruct ok; cbn [negb run bind fst snd] in Ei; [|discriminate Ei].
  destruct (run_label_pixels cg cpu_laws l m2 [] Hs Hm2) as [b3 [m3 [E3 [Hm3 [Sub3 _]]]]];
    [intros x Hx; apply Hps; right; exact Hx|intros p []|].
  rewrite E3 in Ei. cbn [bind fst snd] in Ei. destruct b3; cbn [negb bind fst snd] in Ei; [|discriminate Ei].
  assert (C3 : wf_cgraph (with_avail cg m3)) by (apply static_wf; assumption).
  destruct (disparity_map (with_avail cg m3) C3) as [D1 D2].
  change (G (with_avail cg m3)) with (G cg) in D1, D2.
  assert (Dec : (exists p, in_image (G cg) p /\ hasb cg m3 p = false) \/ forall p, in_image (G cg) p -> hasb cg m3 p = true).
  { destruct (existsb (fun p => negb (hasb cg m3 p)) (all_pixels (width (right (G cg))) (height (right (G cg))))) eqn:X.
    - left. apply existsb_exists in X. destruct X as [p [I X]]. exists p. apply In_all_pixels in I.
      destruct (hasb cg m3 p); [discriminate|]. split; [exact I|reflexivity].
    - right. intros p I. destruct (hasb cg m3 p) eqn:Y; [reflexivity|exfalso].
      assert (X' : existsb (fun p => negb (hasb cg m3 p)) (all_pixels (width (right (G cg))) (height (right (G cg)))) = true)
        by (apply existsb_exists; exists p; split; [apply In_all_pixels; exact I|rewrite Y; reflexivity]). congruence. }
  assert (AW : forall n, match_exists (G cg) n -> available (with_avail cg m3) n <-> avb cg m3 n = true).
  { intros n Mn. rewrite available_with by (try assumption; apply match_inb; exact Mn). reflexivity. }
  destruct Dec as [[p [Ip Np]]|All].
  - exfalso. fold (exec build_disparity_map (with_avail cg m3)) in Ei. rewrite (D2 p Ip) in Ei; [discriminate Ei|].
    intros d' M' A'. apply AW in A'; [|exact M']. assert (hasb cg m3 p = true); [|congruence].
    apply hasb_ex; [exact Hs|exact Ip|]. exists d'. auto.
  - destruct D1 as [img' [E' [Wi [Hi [_ [Li [_ Lab]]]]]]].
    { intros p Ip. pose proof (proj1 (hasb_ex cg m3 p Hs Ip) (All p Ip)) as [d' [M' A']].
      exists d'. split; [exact M'|]. apply AW; assumption. }
    fold (exec build_disparity_map (with_avail cg m3)) in Ei.
    rewrite E' in Ei. cbn [bind fst snd] in Ei. assert (img' = img) by (injection Ei; auto). subst img'.
    destruct (Lab p0 Hp) as [d' [Gd [M' [A' _]]]]. apply AW in A'; [|exact M'].
    assert (d' = d). { apply U; [exact M'|]. apply Sub2, Sub3. exact A'. }
    subst d'. assert (Ed : map_labeling img p0 = d).
    { unfold map_labeling. rewrite Wi. change (G (with_avail cg m3)) with (G cg) in Gd |- *.
      pose proof (get_Ok_lt _ _ _ Gd) as Lt. rewrite (get_nth _ _ 0%N Lt) in Gd. injection Gd; auto. }
    rewrite Ed. split; [exact M|]. intros v v' Ev Ev'. apply (Best Nn j v v' Mj Aj Ev Ev').
Qed.

(** A match of the first pixel survives the sweep if its neighbors have the same one. *)
Lemma first_kept cg m j : static cg -> mem_ok cg m -> in_image (G cg) p0 -> match_exists (G cg) (nd p0 j) ->
  fst (solved cg m) = true -> avb cg m (nd p0 j) = true ->
  (forall q, in_image (G cg) q -> adjacent p0 q -> avb cg m (nd q j) = true /\ compat cg (nd p0 j) (nd q j)) ->
  avb cg (snd (solved cg m)) (nd p0 j) = true.
Proof.
  intros Hs Hm Hp Mj Ok1 Aj Sup.
  assert (Er : exists l, raster cg = p0 :: l).
  { destruct Hp as [Hx Hy]. cbn [px py p0] in Hx, Hy. unfold raster, grid.
    rewrite (range_split 0 1 (height (right (G cg)))) by lia. change (range 0 1) with [0%N]. cbn [app flat_map].
    unfold row at 1. rewrite (range_split 0 1 (width (right (G cg)))) by lia. change (range 0 1) with [0%N]. cbn [app map].
    eexists. reflexivity. }
  destruct Er as [l Er].
  assert (K : avb cg (snd (sweep cg (raster cg) m)) (nd p0 j) = true).
  { pose proof (NoDup_raster cg) as ND. pose proof (raster_ok cg) as Ro. rewrite Er in *. cbn [sweep].
    inversion ND as [|x l' Np ND']; subst x l'.
    assert (P : avb cg (process cg p0 m) (nd p0 j) = true).
    { unfold process. apply proc_keeps; try assumption; [apply dispsok_disps; assumption|apply match_inb; exact Mj|].
      intros _ q Hq Adj. destruct (Sup q Hq Adj) as [A Co]. exists (nd q j). split; [reflexivity|]. split; [|auto].
      apply match_inb. apply Co. }
    destruct (hasb cg (process cg p0 m) p0); [|exact P]. rewrite sweep_other; [exact P|assumption| | |apply match_inb; exact Mj|exact Np].
    - apply process_ok. exact Hm.
    - intros x Hx. apply Ro. right. exact Hx. }
  unfold solved in *. destruct (fst (sweep cg (raster cg) m)); [exact K|discriminate Ok1].
Qed.
End First.

(** *** A scene moved by some columns *)

Lemma stiff_moved srt lev a b j : sorts srt -> accepted lev a -> small_problem (2 ^ 53) lev a -> stiff lev a b ->
  (0 < p_cleanness a)%N -> (0 < j < lev)%N -> (j + 1 < width (p_right a))%N -> moved j (p_left a) (p_right a) ->
  brightness (p_right a) {| px := 0; py := 0 |} <> brightness (p_left a) {| px := 0; py := 0 |} ->
  solution_of srt lev a = Stop (Throw CannotLabel).
Proof.
  intros Srt Ac Sm St Pc Hj Hw Mv Ne. destruct (stiff_flat srt lev a b Srt Ac Sm St) as [E|E]; [exact E|exfalso].
  pose proof (accepted_levels lev a Ac) as Lv.
  destruct (accepted_ready srt lev a Srt Ac Sm) as [cg0 [cg [b0 R]]].
  destruct R as [Ep F0 C0 Ea C El Er Ev Hz Hl Hc Hs It _ Hb].
  destruct (Hb (fun _ => 0%N) b (zero_ordered (p_right a) lev ltac:(lia)) (proj1 St)) as [B0 B1]. clear Hb.
  assert (Em : mapped (exec find_labeling cg) = Ok (zero_map (width (p_right a)) (height (p_right a)) lev) /\
               fst (solved cg0 (cg_avail cg0)) = true).
  { unfold solution_of, solve_problem in E. unfold prepared in Ep.
    destruct (make_graph _ _ _ _ _) as [g|] eqn:Eg; cbn [bind] in Ep, E; [|discriminate Ep].
    destruct (make_lowest g) as [lp|] eqn:Elp; cbn [bind] in Ep, E; [|discriminate Ep].
    destruct (fetch_available_penalties srt lp) as [cs|]; cbn [bind] in Ep, E; [|discriminate Ep].
    destruct (calculate_minimal_consistent_threshold lp g cs) as [t|]; cbn [bind] in Ep, E; [|discriminate Ep].
    destruct Sm as [Cl [Cr [F64 _]]]. destruct (make_graph_wf _ _ lev _ _ g Eg Cl Cr F64) as [Hg _].
    destruct (make_constraint_spec g lp t Hg Elp) as [c1 [E1 [C1 [Eg1 [El1 [Et1 _]]]]]]. rewrite E1 in Ep, E. cbn [bind] in Ep, E.
    rewrite (exec_solve_csp c1 C1) in Ep, E. cbn [bind fst snd] in Ep, E.
    destruct (fst (solved c1 (cg_avail c1))) eqn:Ok1; cbn [negb] in Ep, E; [|discriminate Ep].
    assert (Ec : with_avail c1 (snd (solved c1 (cg_avail c1))) = cg) by (injection Ep; auto).
    split; [rewrite <- Ec; exact E|]. assert (c1 = cg0); [|subst c1; exact Ok1].
    rewrite Ea in Ec.
    pose proof (f_equal (@cg_graph cpu) Ec) as X1. pose proof (f_equal (@cg_lowest cpu) Ec) as X2. pose proof (f_equal (@cg_threshold cpu) Ec) as X3.
    cbn [with_avail cg_graph cg_lowest cg_threshold] in X1, X2, X3. rewrite <- X1, <- X2, <- X3, Eg1, El1, Et1 in F0. congruence. }
  destruct Em as [Em Ok1].
  set (g := G cg0) in *. pose proof (wfc_graph _ C0) as Hg. fold g in Hg.
  assert (Sg : small_penalties (2 ^ 53) (left g) (right g) (levels g) (Z.of_N (p_cleanness a)) (Z.of_N (p_smoothness a)))
    by (rewrite El, Er, Ev; apply Sm).
  assert (Ht : (0 < height (p_right a))%N).
  { rewrite <- Er. apply (wf_rows g Hg). }
  set (p0 := {| px := 0; py := 0 |}).
  assert (I0 : in_image g p0) by (unfold in_image; rewrite Er; split; cbn [px py p0]; lia).
  assert (Ma : forall q, in_image g q -> (px q <= 1)%N -> match_exists g (nd q j)).
  { intros q Hq Hx. unfold match_exists. cbn [npix disp]. split; [exact Hq|]. rewrite Ev, ?El, Er in *. split; lia. }
  assert (Ze : forall q, in_image g q -> (px q <= 1)%N -> node_cost (left g) (right g) (Z.of_N (p_cleanness a)) (nd q j) = 0).
  { intros q Hq Hx. unfold node_cost. cbn [npix disp]. rewrite El, Er.
    rewrite <- (Mv q); [|unfold in_image in Hq; rewrite Er in Hq; exact Hq|lia]. rewrite Z.sub_diag. cbn. lia. }
  destruct (small_minima 53 1024 hp53 he53 (2 ^ 64) Z.of_N (fun n _ => eq_refl) g _ _ _ Hg Hz Hc Hs Sg Hl) as [Lo [_ [Nx Ex]]].
  destruct (small_formulas 53 1024 hp53 he53 (2 ^ 64) Z.of_N (fun n _ => eq_refl) g _ _ Hg Hz Hc Hs Sg) as [Fn _].
  destruct (make_constraint_spec g (cg_lowest cg0) (cg_threshold cg0) Hg Hl) as [cg1 [E1 [_ [_ [_ [_ Av]]]]]].
  assert (cg1 = cg0) by congruence. subst cg1.
  assert (Nw : forall q, in_image g q -> (px q <= 1)%N -> avb cg0 (cg_avail cg0) (nd q j) = true).
  { intros q Hq Hx. apply Av; [apply match_inb, Ma; assumption|]. split; [apply Ma; assumption|].
    destruct (Nx (nd q j) (Ma q Hq Hx)) as [v [z [X [L I]]]]. apply (node_within_excess _ _ _ _ _ X).
    apply (int_le 53 1024 hp53 he53 (2 ^ 64) Z.of_N _ _ _ _ I It).
    eapply Z.le_trans; [apply Z.sub_le_mono_r, Z.eq_le_incl, (Ze q Hq Hx)|].
    destruct L as [[n [_ [_ <-]]] _]. unfold node_cost. set (t := brightness _ _ - _).
    assert (0 <= t ^ 2) by (rewrite Z.pow_2_r; nia). nia. }
  assert (Hs0 : static cg0) by (apply wf_static; exact C0).
  assert (Kept : avb cg0 (cg_avail cg) (nd p0 j) = true).
  { rewrite Ea. cbn [with_avail cg_avail]. apply first_kept; try assumption.
    - apply wfc_avail. exact C0.
    - apply Ma; [exact I0|cbn; lia].
    - apply Nw; [exact I0|cbn; lia].
    - intros q Hq Adj.
      assert (Xq : (px q <= 1)%N) by (unfold adjacent, horizontal_pair, vertical_pair in Adj; cbn [px py p0] in Adj; lia).
      split; [apply Nw; assumption|]. split.
      + split; [apply Ma; [exact I0|cbn; lia]|]. split; [apply Ma; assumption|]. split; [exact Adj|].
        unfold in_order, horizontal_pair. cbn [enode enbr npix disp]. lia.
      + apply ewb_iff. destruct (Ex (nd p0 j) (nd q j)) as [v [X I]]; [apply Ma; [exact I0|cbn; lia]|apply Ma; assumption|exact Adj|].
        apply (edge_within_excess _ _ _ _ _ X). apply (int_le 53 1024 hp53 he53 (2 ^ 64) Z.of_N _ _ _ _ I It).
        unfold edge_cost. cbn [disp]. rewrite Z.sub_diag. cbn. lia. }
  assert (Gg : G cg = g) by (rewrite Ea; reflexivity).
  assert (Nn : nonneg_at cg (cg_avail cg) p0).
  { intros d v M _ Ev'. rewrite Gg in *. destruct (Fn (nd p0 d) M) as [v' [Ev2 I]]. pose proof (eq_trans (eq_sym Ev2) Ev') as Q. assert (Qv : v' = v) by (injection Q; auto). subst v'.
    apply (int_le 53 1024 hp53 he53 (2 ^ 64) Z.of_N _ _ 0 _ (int_zero _ _ _ _ _ _) I).
    unfold node_cost. set (t := brightness _ _ - _). assert (0 <= t ^ 2) by (rewrite Z.pow_2_r; nia). nia. }
  destruct (first_taken cg j (zero_map (width (p_right a)) (height (p_right a)) lev)) as [M0 Le]; try assumption.
  - rewrite Gg. exact I0.
  - rewrite Gg. apply Ma; [exact I0|cbn; lia].
  - apply available_iff; [exact C|apply match_inb; rewrite Gg; apply Ma; [exact I0|cbn; lia]|].
    rewrite Ea in *. exact Kept.
  - rewrite Gg in *. fold p0 in M0, Le, Ne.
    assert (Z0 : map_labeling (zero_map (width (p_right a)) (height (p_right a)) lev) p0 = 0%N).
    { unfold map_labeling, zero_map, fill. cbn [data width]. apply nth_repeat. }
    rewrite Z0 in *. destruct (Fn (nd p0 0%N) M0) as [v [Ev0 I]]. destruct (Fn (nd p0 j)) as [v' [Ev1 I']]; [apply Ma; [exact I0|cbn; lia]|].
    specialize (Le v v' Ev0 Ev1). apply (int_le 53 1024 hp53 he53 (2 ^ 64) Z.of_N _ _ _ _ I I') in Le.
    pose proof (Z.le_trans _ _ _ Le (Z.eq_le_incl _ _ (Ze p0 I0 ltac:(cbn; lia)))) as Le'. clear Le. rename Le' into Le. assert (Le2 : node_cost (p_left a) (p_right a) (Z.of_N (p_cleanness a)) (nd p0 0%N) <= 0) by (rewrite <- El, <- Er; exact Le).
    unfold node_cost in Le2. cbn [npix disp px py p0] in Le2. change (0 + 0)%N with 0%N in Le2. fold p0 in Le2.
    set (t := brightness (p_right a) p0 - brightness (p_left a) p0) in *. assert (t <> 0) by (unfold t; lia).
    assert (1 <= t ^ 2) by (rewrite Z.pow_2_r; destruct (Z_lt_le_dec t 0); nia). nia.
Qed.

Lemma stiff_message srt lev a b j w o lpath rpath out : sorts srt -> small_problem (2 ^ 53) lev a -> stiff lev a b ->
  good_problem (p_left a) (p_right a) lev (p_cleanness a) (p_smoothness a) ->
  (width (p_left a) * height (p_left a) < 2 ^ 32)%N -> (width (p_left a) * height (p_left a) * 4 * lev <= vector_max_size)%N ->
  (0 < p_cleanness a)%N -> (0 < j < lev)%N -> (j + 1 < width (p_right a))%N -> moved j (p_left a) (p_right a) ->
  brightness (p_right a) {| px := 0; py := 0 |} <> brightness (p_left a) {| px := 0; py := 0 |} ->
  all_paths o lpath rpath out -> technology_ok o -> file_holds w lpath (p_left a) -> file_holds w rpath (p_right a) ->
  option_number (width (p_left a)) (o_levels o) lev -> option_number 1 (o_cleanness o) (p_cleanness a) ->
  option_number 1 (o_smoothness o) (p_smoothness a) ->
  main srt w (Parsed o) = Ok (ends 0 (Some (LogicError CannotLabel)) None).
Proof.
  intros Srt Sm St Go Sl Sv Pc Hj Hw Mv Ne Hp Ht H1 H2 L C S.
  assert (Sr : (width (p_right a) * height (p_right a) < 2 ^ 32)%N) by (destruct Go as [_ [_ [W [H _]]]]; congruence).
  apply (main_failed srt w o lpath rpath out CannotLabel Hp Ht).
  rewrite (given_problem w o lpath rpath (p_left a) (p_right a) lev _ _ H1 H2 L C S Sl Sr srt).
  exact (stiff_moved srt lev a b j Srt (good_accepted lev a Sm Sl Sv Go) Sm St Pc Hj Hw Mv Ne).
Qed.

Lemma zero_below lev a b : 0 <= b ->
  (forall p, inside (p_right a) p -> node_cost (p_left a) (p_right a) (Z.of_N (p_cleanness a)) (nd p 0%N) <= b) ->
  within_bound (p_left a) (p_right a) lev (Z.of_N (p_cleanness a)) (Z.of_N (p_smoothness a)) b (fun _ => 0%N).
Proof.
  intros B0 H. split.
  - intros p z Hi [[n [_ [_ <-]]] _]. specialize (H p Hi). unfold label_node. unfold node_cost at 2.
    set (t := brightness (p_right a) (npix n) - _). assert (0 <= t ^ 2) by (rewrite Z.pow_2_r; nia). nia.
  - intros p q _ _ _. unfold edge_cost. lia.
Qed.

(** The flat map is an optimal one. *)
Lemma zero_map_zero w h lev p : map_labeling (zero_map w h lev) p = 0%N.
Proof. unfold map_labeling, zero_map, fill. cbn [data width]. apply nth_repeat. Qed.

Lemma within_ext l r lev c s b k k' : (forall p, k p = k' p) -> within_bound l r lev c s b k -> within_bound l r lev c s b k'.
Proof.
  intros E [A B]. split.
  - intros p m Hi L. specialize (A p m Hi L). unfold label_node in *. rewrite <- E. exact A.
  - intros p q Hp Hq Adj. rewrite <- !E. apply B; assumption.
Qed.

Lemma stiff_optimal lev a b : accepted lev a -> stiff lev a b ->
  optimal_map (p_left a) (p_right a) lev (Z.of_N (p_cleanness a)) (Z.of_N (p_smoothness a))
    (zero_map (width (p_right a)) (height (p_right a)) lev).
Proof.
  intros Ac [Wb Lb]. pose proof (accepted_levels lev a Ac) as Lv. destruct Ac as [g Eg].
  destruct (make_graph_Ok _ _ _ _ _ g Eg) as [_ [Vr [_ [_ [_ [_ _]]]]]].
  set (img := zero_map _ _ lev). refine (conj eq_refl (conj eq_refl (conj eq_refl (conj _ (conj _ (conj _ _)))))).
  - unfold consistent_image, img, zero_map. cbn [width height data]. apply len_fill.
  - destruct (image_valid_nonzero _ Vr) as [W H]. refine (conj W (conj H (conj _ _))); cbn [zero_map max_value img]; [lia|].
    intros v Hv. unfold img, zero_map, fill in Hv. cbn [data] in Hv. apply repeat_spec in Hv. subst v. lia.
  - destruct (zero_ordered (p_right a) lev ltac:(lia)) as [A B].
    assert (E : forall p, label_node (map_labeling img) p = label_node (fun _ => 0%N) p)
      by (intros p; unfold label_node; f_equal; apply zero_map_zero).
    split; [intros p Hi; rewrite E; apply A; exact Hi|intros p q Hp Hq Adj; rewrite !E; apply B; assumption].
  - intros k b' [K _] W. apply (within_ext _ _ _ _ _ _ (fun _ => 0%N)); [intros p; symmetry; apply zero_map_zero|].
    destruct (Z_lt_le_dec b' (Z.of_N (p_smoothness a))) as [Lt|Ge].
    + destruct W as [Wn We].
      assert (Z0 : forall p, inside (p_right a) p -> k p = 0%N).
      { intros [x y] [Hx Hy]. cbn [px py] in Hx, Hy.
        apply (flat_row (fun x => k {| px := x; py := y |}) (width (p_right a))); [| |exact Hx].
        - intros x0 H0. eapply no_step; [apply N2Z.is_nonneg|apply We; unfold inside, adjacent, horizontal_pair; cbn [px py]; lia|exact Lt].
        - destruct (K {| px := width (p_right a) - 1; py := y |}) as [_ [_ X]]; [split; cbn [px py]; lia|].
          unfold label_node in X. cbn [npix disp px] in X. lia. }
      split.
      * intros p m Hi L. specialize (Wn p m Hi L). unfold label_node in *. rewrite (Z0 p Hi) in Wn. exact Wn.
      * intros p q Hp Hq Adj. specialize (We p q Hp Hq Adj). rewrite (Z0 p Hp), (Z0 q Hq) in We. exact We.
    + destruct Wb as [Wn We]. split.
      * intros p m Hi L. specialize (Wn p m Hi L). lia.
      * intros p q Hp Hq Adj. specialize (We p q Hp Hq Adj). lia.
Qed.

Lemma stiff_missed srt lev a b j : sorts srt -> accepted lev a -> small_problem (2 ^ 53) lev a -> stiff lev a b ->
  (0 < p_cleanness a)%N -> (0 < j < lev)%N -> (j + 1 < width (p_right a))%N -> moved j (p_left a) (p_right a) ->
  brightness (p_right a) {| px := 0; py := 0 |} <> brightness (p_left a) {| px := 0; py := 0 |} ->
  optimal_map (p_left a) (p_right a) lev (Z.of_N (p_cleanness a)) (Z.of_N (p_smoothness a))
    (zero_map (width (p_right a)) (height (p_right a)) lev) /\
  solution_of srt lev a = Stop (Throw CannotLabel).
Proof.
  intros Srt Ac Sm St Pc Hj Hw Mv Ne. split; [exact (stiff_optimal lev a b Ac St)|].
  exact (stiff_moved srt lev a b j Srt Ac Sm St Pc Hj Hw Mv Ne).
Qed.
