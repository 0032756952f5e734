(** If the labeling on the CPU succeeds, devices find the same one. *)
From Coq Require Import Lia.
From Verif Require Export Gpu_facts Device_main_proofs Greedy_proofs.
Local Open Scope N_scope.

Notation G cg := (cg_graph cg).
Notation nd p d := {| npix := p; disp := d |}.

(** *** Two copies of a problem *)

Record twins {T D : target} (cg : cgraph T) (cd : cgraph D) : Prop := {
  tw_image : forall p, in_image (G cd) p <-> in_image (G cg) p;
  tw_match : forall n, match_exists (G cd) n <-> match_exists (G cg) n;
  tw_mem : forall m, mem_ok cd m <-> mem_ok cg m;
  tw_avb : forall m n, match_exists (G cg) n -> avb cd m n = avb cg m n;
  tw_compat : forall n n', match_exists (G cg) n -> match_exists (G cg) n' -> (compat cd n n' <-> compat cg n n');
  tw_pen : forall n n' v v' w w', match_exists (G cg) n -> match_exists (G cg) n' ->
    node_penalty (G cg) n = Ok v -> node_penalty (G cg) n' = Ok v' ->
    node_penalty (G cd) n = Ok w -> node_penalty (G cd) n' = Ok w' -> fle w w' = fle v v';
  tw_nonneg : forall n v, match_exists (G cg) n -> node_penalty (G cg) n = Ok v -> fle fzero v = true;
  tw_nonneg_d : forall n v, match_exists (G cg) n -> node_penalty (G cd) n = Ok v -> fle fzero v = true
}.

Lemma pixel_dec (p q : pixel) : p = q \/ p <> q.
Proof.
  destruct q as [x y], p as [x' y']. destruct (N.eq_dec x x') as [->|X]; [|right; congruence].
  destruct (N.eq_dec y y') as [->|Y]; [left; reflexivity|right; congruence].
Qed.

Section Twins.
Context {T D : target} (HT : laws T) (HD : laws D) (cg : cgraph T) (cd : cgraph D).
Context (a : api) (kind : barrier_kind) (partition : (nat -> nat) -> Prop).
Hypotheses (Hs : static cg) (Hsd : static cd) (Tw : twins cg cd).
Hypothesis Settles : forall m f m' f', mem_ok cd m -> propagate cd a true kind partition m f m' f' -> settled (with_avail cd m').

Definition below (md mh : mem) : Prop := forall n, match_exists (G cg) n -> avb cg md n = true -> avb cg mh n = true.

Lemma twin_support K : support cd K -> support cg K.
Proof.
  intros S n Kn. destruct (S n Kn) as [M Sup]. apply (tw_match _ _ Tw) in M. split; [exact M|].
  intros q Hq A. apply (tw_image _ _ Tw) in Hq. destruct (Sup q Hq A) as [n' [E [Kn' C]]].
  exists n'. split; [exact E|]. split; [exact Kn'|]. apply (tw_compat _ _ Tw); [exact M| |exact C].
  apply (tw_match _ _ Tw). apply (S n' Kn').
Qed.

Lemma same_labels k l : labeling_ok (G cg) k -> edges_within (G cg) (cg_lowest cg) (cg_threshold cg) k ->
  support cd (label_set cg k) -> pixels_ok cg l ->
  forall mh mh' md f md' f', mem_ok cg mh -> mem_ok cg md -> run (label_pixels cg l) mh = Ok (true, mh') ->
  label_device cd a true kind partition l md f md' f' ->
  holds cg (label_set cg k) mh' -> holds cg (label_set cg k) md -> below md mh -> holds cg (label_set cg k) md'.
Proof.
  intros Hk He Kd. induction l as [|p l IH]; intros Hps mh mh' md f md' f' Hmh Hmd; cbn [label_pixels]; intros R LD Kh Kmd B.
  - inversion LD; subst. exact Kmd.
  - assert (Hp : in_image (G cg) p) by (apply Hps; left; reflexivity).
    assert (Hps' : pixels_ok cg l) by (intros x Hx; apply Hps; right; exact Hx).
    pose proof (proj1 Hk p Hp) as Mk. unfold label_node in Mk.
    pose proof (st_graph cg Hs) as Hw. pose proof (st_graph cd Hsd) as Hwd.
    (* the choice of the host *)
    destruct (run_choose cg mh p HT Hs Hmh Hp) as [b [m1 [E1 [Hm1 [Sub1 [Oth [Eb [_ HC]]]]]]]].
    rewrite cbind_assoc_run, E1 in R. cbn [bind fst snd] in R. destruct b; cbn [negb] in R; [|discriminate].
    destruct (HC eq_refl) as [d [M [A [U Min]]]].
    rewrite cbind_assoc_run, run_solve_one in R by assumption. cbn [bind] in R.
    pose proof (solved_ok cg m1 Hm1) as Hm2. pose proof (solved_sub cg m1 Hs Hm1) as Sub2.
    assert (Es : fst (solved cg m1) = true -> snd (solved cg m1) = snd (sweep cg (raster cg) m1)).
    { unfold solved. destruct (fst (sweep cg (raster cg) m1)); [reflexivity|discriminate]. }
    destruct (solved cg m1) as [ok m2]. cbn [fst snd] in *. destruct ok; cbn [negb] in R; [|discriminate].
    assert (Keep : forall K, support cg K -> total cg K -> holds cg K m1 -> holds cg K m2).
    { intros K K1 K2 K3. rewrite (Es eq_refl). apply holds_sweep; try assumption. apply raster_ok. }
    clear Es.
    destruct (run_label_pixels cg HT l m2 [] Hs Hm2 Hps') as [b2 [m3 [E3 [_ [Sub3 _]]]]]; [intros q []|].
    rewrite R in E3. injection E3 as <- <-.
    assert (Dk : d = k p).
    { symmetry. apply U; [exact Mk|]. apply Sub2, Sub3. apply Kh. split; [exact Hp|reflexivity]. }
    subst d.
    (* the choice of the device *)
    inversion LD as [|p0 ps m b' md1 f0 md2 f2 m'' f'' E P LD' Ep]; subst.
    assert (Hpd : in_image (G cd) p) by (apply (tw_image _ _ Tw); exact Hp).
    assert (Hmdd : mem_ok cd md) by (apply (tw_mem _ _ Tw); exact Hmd).
    destruct (run_choose cd md p HD Hsd Hmdd Hpd) as [b1 [md1' [E1' [Hmd1 [Subd [Othd [Ebd [_ HCd]]]]]]]].
    rewrite E in E1'. injection E1' as <- <-.
    assert (Akd : avb cg md (nd p (k p)) = true) by (apply Kmd; split; [exact Hp|reflexivity]).
    assert (Hb : b' = true).
    { rewrite Ebd. apply hasb_ex; try assumption. exists (k p). split; [apply (tw_match _ _ Tw); exact Mk|].
      rewrite (tw_avb _ _ Tw) by exact Mk. exact Akd. }
    destruct (HCd Hb) as [d [Md [Ad [Ud Mind]]]].
    pose proof (proj1 (tw_match _ _ Tw _) Md) as Mdh.
    rewrite (tw_avb _ _ Tw) in Ad by exact Mdh.
    assert (Dk : d = k p).
    { destruct (node_penalty_Ok (G cg) _ Hw Mk) as [vk Evk]. destruct (node_penalty_Ok (G cg) _ Hw Mdh) as [vd Evd].
      destruct (node_penalty_Ok (G cd) _ Hwd (proj2 (tw_match _ _ Tw _) Mk)) as [wk Ewk].
      destruct (node_penalty_Ok (G cd) _ Hwd Md) as [wd Ewd].
      destruct (Min (fun d0 v0 M0 _ E0 => tw_nonneg _ _ Tw _ v0 M0 E0) d vk vd Mdh (B _ Mdh Ad) Evk Evd) as [L1 T1].
      destruct (Mind) with (d' := k p) (v := wd) (v' := wk) as [L2 T2]; try assumption.
      - intros d0 v0 M0 _ E0. apply (tw_nonneg_d _ _ Tw _ v0 (proj1 (tw_match _ _ Tw _) M0) E0).
      - apply (tw_match _ _ Tw). exact Mk.
      - rewrite (tw_avb _ _ Tw) by exact Mk. exact Akd.
      - rewrite (tw_pen _ _ Tw _ _ _ _ _ _ Mdh Mk Evd Evk Ewd Ewk) in L2.
        rewrite (tw_pen _ _ Tw _ _ _ _ _ _ Mk Mdh Evk Evd Ewk Ewd) in T2.
        specialize (T1 L2). specialize (T2 L1). lia. }
    subst d.
    assert (Kd1 : holds cg (label_set cg k) md1).
    { intros [q dq] Hn. pose proof Hn as [Hq Eq]. cbn [npix disp] in Hq, Eq. subst dq.
      pose proof (proj1 Hk q Hq) as Mq. unfold label_node in Mq. rewrite <- (tw_avb _ _ Tw) by exact Mq.
      destruct (pixel_dec q p) as [->|Ne].
      - apply Ud; [exact Md|reflexivity].
      - rewrite Othd; [|apply match_inb, (tw_match _ _ Tw); exact Mq|exact Ne]. rewrite (tw_avb _ _ Tw) by exact Mq.
        apply Kmd. exact Hn. }
    assert (B1 : below md1 m1).
    { intros [q dq] Mq Aq. destruct (pixel_dec q p) as [->|Ne].
      - apply U; [exact Mq|]. rewrite <- (tw_avb _ _ Tw) in Aq by exact Mq. apply Ud in Aq; [exact Aq|]. apply (tw_match _ _ Tw). exact Mq.
      - rewrite Oth; [|apply match_inb; exact Mq|exact Ne]. apply B; [exact Mq|].
        rewrite <- (tw_avb _ _ Tw) in Aq |- * by exact Mq. apply Subd. exact Aq. }
    (* the propagation *)
    destruct (propagate_sub cd a true kind partition Hsd md1 f md2 f2 Hmd1 P) as [Hmd2 Subd2].
    assert (Kd2 : holds cg (label_set cg k) md2).
    { intros n Hn. pose proof (proj1 (Kd n Hn)) as Mn. apply (tw_match _ _ Tw) in Mn. rewrite <- (tw_avb _ _ Tw) by exact Mn.
      apply (kept_sets cd a true kind partition md1 f md2 f2 (label_set cg k) n Hsd Hmd1 P); [|exact Hn].
      apply arc_support; [exact Hsd|exact Hmd1|]. split; [exact Kd|].
      intros n' Hn'. pose proof (proj1 (Kd n' Hn')) as Mn'. apply (tw_match _ _ Tw) in Mn'. rewrite (tw_avb _ _ Tw) by exact Mn'.
      apply Kd1. exact Hn'. }
    assert (B2 : below md2 m2).
    { pose proof (Settles md1 f md2 f2 Hmd1 P) as S. rewrite settled_iff in S by assumption.
      pose proof (twin_support _ (quiet_support cd md2 Hsd Hmd2 S)) as Sup.
      assert (H : holds cg (fun n => match_exists (G cd) n /\ avb cd md2 n = true) m2); [apply (Keep _ Sup)|].
      - intros q Hq. exists (label_node k q). split; [|reflexivity]. pose proof (proj1 Hk q Hq) as Mq.
        split; [apply (tw_match _ _ Tw); exact Mq|]. rewrite (tw_avb _ _ Tw) by exact Mq. apply Kd2. split; [exact Hq|reflexivity].
      - intros n [Mn An]. pose proof (proj1 (tw_match _ _ Tw _) Mn) as Mn'. apply B1; [exact Mn'|].
        rewrite <- (tw_avb _ _ Tw) by exact Mn'. apply Subd2. exact An.
      - intros n Mn An. apply H. split; [apply (tw_match _ _ Tw); exact Mn|]. rewrite (tw_avb _ _ Tw) by exact Mn. exact An. }
    apply (IH Hps' m2 mh' md2 f2 md' f'); try assumption. apply (tw_mem _ _ Tw). exact Hmd2.
Qed.
End Twins.

(** *** Small penalties *)

Section Small.
Context (w : N) (conv : N -> Z) (word : N -> N).
Notation D := (ieee 24 128 hp24 he24 w conv).
Hypothesis Hword : forall n, n < w -> word n = n.
Hypothesis Hconv : forall n, (Z.of_N n <= 2 ^ 24)%Z -> conv n = Z.of_N n.
Hypothesis Hbig : 2 ^ 24 < w.
Context (cg : cgraph cpu) (c s b : Z).
Notation g := (cg_graph cg).
Notation lp := (cg_lowest cg).
Notation t := (cg_threshold cg).
Hypotheses (Hcg : wf_cgraph cg) (Hz : zero_reparam g) (Hl : make_lowest g = Ok lp)
  (Hc : is_int (cleanness g) c) (Hs : is_int (smoothness g) s)
  (Sm : small_penalties (2 ^ 24) (left g) (right g) (levels g) c s)
  (Ht : is_int t b) (Hb : (0 <= b <= 2 ^ 24)%Z)
  (Hf : Device_proofs.fits (T := D) g).
Notation gd := (device_graph (T := D) to_single word g).
Notation cgd := (device_problem (T := D) to_single word cg).

Lemma node_cost_nonneg l r n : (0 <= node_cost l r c n)%Z.
Proof.
  destruct Sm as [m [_ [Bc _]]]. unfold node_cost. apply Z.mul_nonneg_nonneg; [lia|]. rewrite Z.pow_2_r. apply Z.square_nonneg.
Qed.

Lemma host_node n : match_exists g n -> exists v, node_penalty g n = Ok v /\ is_int v (node_cost (left g) (right g) c n).
Proof.
  intros M. assert (Sm' : small_penalties (2 ^ 53) (left g) (right g) (levels g) c s).
  { apply (small_weaker (2 ^ 24)); [|exact Sm]. apply Z.pow_le_mono_r; lia. }
  exact (proj1 (small_formulas 53 1024 hp53 he53 (2 ^ 64) Z.of_N (fun n _ => eq_refl) g c s (wfc_graph cg Hcg) Hz Hc Hs Sm') n M).
Qed.

Lemma device_node n : match_exists g n -> exists v, node_penalty gd n = Ok v /\ is_int v (node_cost (left g) (right g) c n).
Proof.
  intros M. pose proof (wfc_graph cg Hcg) as Hw. destruct (device_sizes (T := D) word Hword g Hw Hf) as [Ew [Eh El]].
  destruct (device_data w conv word Hword Hconv Hbig cg c s Sm) as [DL DR].
  pose proof Sm as [m [Hm [Bc [Bs [B1 [B2 [B3 B4]]]]]]].
  assert (Ic : is_int (cleanness gd) c) by (apply to_single_int; [exact Hc|lia]).
  assert (Is : is_int (smoothness gd) s).
  { apply to_single_int; [exact Hs|]. pose proof (wf_levels g Hw). rewrite Z.pow_2_r in B4. nia. }
  assert (Sd : small_penalties (2 ^ 24) (left gd) (right gd) (levels gd) c s).
  { exists m. rewrite DL, DR. change (levels gd) with (word (levels g)). rewrite El. auto 10. }
  assert (Md : match_exists gd n) by (apply device_match_eq; assumption).
  destruct (proj1 (small_formulas 24 128 hp24 he24 w conv Hconv gd c s
    (device_graph_wf (T := D) to_single word Hword g Hw Hf) (device_zero w conv word cg Hz) Ic Is Sd) n Md) as [v [Ev Iv]].
  exists v. split; [exact Ev|].
  replace (node_cost (left g) (right g) c n) with (node_cost (left gd) (right gd) c n); [exact Iv|].
  unfold node_cost, brightness. rewrite DL, DR.
  cbn [device_graph device_image left right width]. rewrite Ew, (wf_width g Hw). reflexivity.
Qed.

Lemma fle_iff {P1 P2 : target} (x y : F P1) (x' y' : F P2) (A : Prop) : (fle x y = true <-> A) -> (fle x' y' = true <-> A) -> fle x y = fle x' y'.
Proof. intros H1 H2. apply eq_true_iff_eq. rewrite H1, H2. reflexivity. Qed.

Lemma device_twins : twins cg cgd.
Proof.
  pose proof (wfc_graph cg Hcg) as Hw.
  pose proof (device_problem_wf (T := D) to_single word Hword cg Hcg Hf) as Hcd.
  destruct (device_sizes (T := D) word Hword g Hw Hf) as [Ew [Eh El]].
  constructor.
  - intros p. apply device_image_eq; assumption.
  - intros n. apply device_match_eq; assumption.
  - intros m. unfold mem_ok. cbn [device_problem cg_graph device_graph device_image right width height levels]. rewrite Ew, Eh, El. reflexivity.
  - intros m n [Hi [Hd _]].
    assert (Hi' : in_image (cg_graph cgd) (npix n)) by (apply device_image_eq; assumption).
    assert (Hd' : disp n < levels (cg_graph cgd)) by (cbn [device_problem cg_graph device_graph levels]; rewrite El; exact Hd).
    unfold avb. rewrite (proj1 (node_index_small _ n (wfc_graph _ Hcd) Hi' Hd')), (proj1 (node_index_small _ n Hw Hi Hd)).
    cbn [device_problem cg_graph device_graph device_image right height levels]. rewrite Eh, El. reflexivity.
  - intros n n' M M'. unfold compat. rewrite !ewb_iff.
    assert (X : match_pair (cg_graph cgd) {| enode := n; enbr := n' |} <-> match_pair g {| enode := n; enbr := n' |}).
    { unfold match_pair. cbn [enode enbr]. cbn [device_problem cg_graph].
      rewrite !(device_match_eq (T := D) to_single word Hword g) by assumption. reflexivity. }
    rewrite X. split; intros [P E]; (split; [exact P|]); destruct P as [_ [_ [A _]]];
      apply (device_edge_within w conv word Hword Hconv Hbig cg c s b Hcg Hz Hl Hc Hs Sm Ht Hb Hf n n' M M' A); exact E.
  - intros n n' v v' x x' M M' E1 E2 E3 E4.
    destruct (host_node n M) as [y1 [F1 I1]]. destruct (host_node n' M') as [y2 [F2 I2]].
    destruct (device_node n M) as [y3 [F3 I3]]. destruct (device_node n' M') as [y4 [F4 I4]].
    assert (y1 = v /\ y2 = v' /\ y3 = x /\ y4 = x') by (cbn [device_problem cg_graph] in *; repeat split; congruence).
    destruct H as [-> [-> [-> ->]]].
    eapply fle_iff; [exact (int_le 24 128 hp24 he24 w conv _ _ _ _ I3 I4)|exact (int_le 53 1024 hp53 he53 (2 ^ 64) Z.of_N _ _ _ _ I1 I2)].
  - intros n v M E. destruct (host_node n M) as [y1 [F1 I1]]. assert (y1 = v) by congruence. subst y1.
    apply (int_le 53 1024 hp53 he53 (2 ^ 64) Z.of_N fzero v 0 _ (conj eq_refl eq_refl) I1). apply node_cost_nonneg.
  - intros n v M E. destruct (device_node n M) as [y1 [F1 I1]].
    assert (y1 = v) by (cbn [device_problem cg_graph] in E; congruence). subst y1.
    apply (int_le 24 128 hp24 he24 w conv fzero v 0 _ (conj eq_refl eq_refl) I1). apply node_cost_nonneg.
Qed.
End Small.

(** *** The same map *)

Lemma map_unique (i1 i2 : image) : consistent_image i1 -> consistent_image i2 ->
  width i1 = width i2 -> height i1 = height i2 -> max_value i1 = max_value i2 ->
  (forall p, px p < width i1 -> py p < height i1 -> map_labeling i1 p = map_labeling i2 p) -> i1 = i2.
Proof.
  destruct i1 as [w h m dat], i2 as [w' h' m' dat']. unfold consistent_image, map_labeling, len. cbn [width height max_value data].
  intros C1 C2 <- <- <- E. f_equal. apply nth_ext with 0 0; [lia|]. intros i Hi.
  assert (Hw : 0 < w) by (destruct w; lia).
  specialize (E {| px := N.of_nat i mod w; py := N.of_nat i / w |}). cbn [px py] in E.
  pose proof (N.mod_lt (N.of_nat i) w). pose proof (N.div_mod (N.of_nat i) w).
  replace (N.to_nat (N.of_nat i / w * w + N.of_nat i mod w)) with i in E by lia.
  apply E; [lia|]. apply N.div_lt_upper_bound; lia.
Qed.

Lemma same_map {T : target} (cg : cgraph T) m1 m2 (k : labeling) :
  wf_cgraph (with_avail cg m1) -> wf_cgraph (with_avail cg m2) -> labeling_ok (G cg) k ->
  (forall n, match_exists (G cg) n -> (available (with_avail cg m1) n <-> disp n = k (npix n))) ->
  (forall n, match_exists (G cg) n -> (available (with_avail cg m2) n <-> disp n = k (npix n))) ->
  exists img, exec build_disparity_map (with_avail cg m1) = Ok (img, with_avail cg m1) /\
              exec build_disparity_map (with_avail cg m2) = Ok (img, with_avail cg m2).
Proof.
  intros C1 C2 Hk A1 A2.
  assert (X : forall m, wf_cgraph (with_avail cg m) ->
    (forall n, match_exists (G cg) n -> (available (with_avail cg m) n <-> disp n = k (npix n))) ->
    exists img, exec build_disparity_map (with_avail cg m) = Ok (img, with_avail cg m) /\ consistent_image img /\
      width img = width (right (G cg)) /\ height img = height (right (G cg)) /\ max_value img = levels (G cg) /\
      forall p, in_image (G cg) p -> map_labeling img p = k p).
  { intros m C A. destruct (disparity_map (with_avail cg m) C) as [D _]. cbn [with_avail cg_graph] in D.
    destruct D as [img [Ei [Wi [Hi [Mi [Li [_ Di]]]]]]].
    { intros p Hp. exists (k p). pose proof (proj1 Hk p Hp) as M. split; [exact M|]. apply (A _ M). reflexivity. }
    exists img. refine (conj Ei (conj _ (conj Wi (conj Hi (conj Mi _))))); [unfold consistent_image; rewrite Li, Wi, Hi; reflexivity|].
    intros p Hp. destruct (Di p Hp) as [d [Ed [Md [Ad _]]]]. rewrite <- Wi in Ed. rewrite (get_map_labeling img p d Ed).
    apply (A _ Md) in Ad. exact Ad. }
  destruct (X m1 C1 A1) as [i1 [E1 [I1 [W1 [H1 [M1 K1]]]]]]. destruct (X m2 C2 A2) as [i2 [E2 [I2 [W2 [H2 [M2 K2]]]]]].
  assert (i1 = i2).
  { apply map_unique; try congruence. intros p Hx Hy. rewrite K1, K2; [reflexivity| |]; split; cbn; congruence. }
  subst i2. exists i1. auto.
Qed.

Lemma same_found {D : target} (HD : laws D) (cg : cgraph cpu) (cd : cgraph D) a kind (partition : (nat -> nat) -> Prop) cg' md :
  wf_cgraph cg -> wf_cgraph cd -> twins cg cd -> cg_avail cd = cg_avail cg ->
  device_order cd = all_pixels (width (right (G cg))) (height (right (G cg))) ->
  (forall m f m' f', mem_ok cd m -> propagate cd a true kind partition m f m' f' -> settled (with_avail cd m')) ->
  exec find_labeling cg = Ok (true, cg') -> csp_solution cd a true kind partition md ->
  exists img, exec build_disparity_map cg' = Ok (img, cg') /\
              exec build_disparity_map (with_avail cg md) = Ok (img, with_avail cg md).
Proof.
  intros Hc Hcd Tw Ea Eo Settles. pose proof (wf_static cg Hc) as Hs. pose proof (wf_static cd Hcd) as Hsd.
  pose proof (wfc_avail cg Hc) as Hm. pose proof (wfc_avail cd Hcd) as Hmd.
  unfold find_labeling, exec. rewrite (column_order_eq (G cg) (st_graph cg Hs)).
  set (ps := all_pixels _ _) in *.
  assert (Hps : pixels_ok cg ps) by (intros p Hp; apply In_all_pixels in Hp; exact Hp).
  destruct (run_label_pixels cg cpu_laws ps (cg_avail cg) [] Hs Hm Hps) as [b [m' [E [Hm' [Hsub HF]]]]].
  { intros p []. }
  rewrite E. cbn [bind fst snd]. intros X; injection X as -> <-. intros CS.
  assert (Hne : ps <> []).
  { intros X. pose proof (proj2 (In_all_pixels (width (right (G cg))) (height (right (G cg))) {| px := 0; py := 0 |}) (origin_in cg Hs)) as Y.
    fold ps in Y. rewrite X in Y. destruct Y. }
  destruct (found_solution cg m' Hs Hm') as [k [[Lk [Ak Wk]] Uk]].
  { apply HF; [reflexivity|exact Hne|]. intros p Hp; right; apply In_all_pixels; exact Hp. }
  destruct (device_solution_found cd a true kind partition Hsd HD md Hmd CS) as [Hmd' [Sd [Sg _]]].
  destruct CS as [f [f' [_ LD]]]. rewrite Eo, Ea in LD. fold ps in LD.
  pose proof (proj1 (tw_mem _ _ Tw md) Hmd') as Hmdh.
  assert (Kh : holds cg (label_set cg k) m').
  { intros n Hn. rewrite (label_set_node cg k n Hn). destruct Hn as [Hp _].
    apply available_with; [exact Hs|exact Hm'|apply match_inb, Lk; exact Hp|apply Ak; exact Hp]. }
  assert (Kd : holds cg (label_set cg k) md).
  { apply (same_labels cpu_laws HD cg cd a kind partition Hs Hsd Tw Settles k ps Lk Wk) with (mh := cg_avail cg) (mh' := m') (md := cg_avail cg) (f := f) (f' := f'); try assumption.
    - intros n Kn. destruct (label_support cg k Lk Wk n Kn) as [Mn Sup]. split; [apply (tw_match _ _ Tw); exact Mn|].
      intros q Hq A. apply (tw_image _ _ Tw) in Hq. destruct (Sup q Hq A) as [n' [En [Kn' C]]]. exists n'.
      split; [exact En|]. split; [exact Kn'|]. apply (tw_compat _ _ Tw); [exact Mn|apply (label_support cg k Lk Wk n' Kn')|exact C].
    - intros n Hn. apply Hsub. apply Kh. exact Hn.
    - intros n _ A. exact A. }
  apply (same_map cg m' md k); [apply static_wf; assumption|apply static_wf; assumption|exact Lk|exact Uk|].
  intros n M. rewrite available_with; [|exact Hs|exact Hmdh|apply match_inb; exact M]. split.
  - intros A. pose proof (proj1 M) as Hp.
    assert (Ak' : avb cg md (label_node k (npix n)) = true) by (apply Kd; split; [exact Hp|reflexivity]).
    pose proof (proj1 Lk (npix n) Hp) as Mk.
    rewrite <- (tw_avb _ _ Tw) in A, Ak' by assumption.
    destruct n as [p d]. unfold label_node in *. cbn [npix disp] in *.
    apply (Sg p (proj2 (tw_image _ _ Tw p) Hp)); try assumption; apply (tw_match _ _ Tw); assumption.
  - intros Ed. apply Kd. split; [exact (proj1 M)|exact Ed].
Qed.

Lemma settles_orderly {D : target} (cd : cgraph D) a v : static cd -> orderly a v ->
  forall m f m' f', mem_ok cd m -> propagate cd a true (b_kind v) (b_partition v) m f m' f' -> settled (with_avail cd m').
Proof.
  intros Hs [_ [One K]] m f m' f' Hm P. destruct a.
  - exact (propagate_settles cd (b_kind v) (b_partition v) m f m' f' Hs K One Hm P).
  - inversion P as [m0 f0 m1 f1 [group [Pg L]] _|m0 f0 m1 f1 m2 f2 Bad]; [|discriminate]. subst.
    rewrite K in L. exact (proj1 (launch_settles cd CUDA group m f m' f' Hs (One group Pg) Hm L)).
Qed.

Lemma gpu_same a v srt l r lev c s o img :
  sorts srt -> consistent_image l -> consistent_image r ->
  width l * height l * 4 * lev < 2 ^ 64 -> addressable a r lev ->
  small_penalties (2 ^ 24) l r lev (Z.of_N c) (Z.of_N s) -> orderly a v ->
  solve_problem srt l r lev (of_u (t := cpu) c) (of_u s) = Ok img ->
  solves_with (On a) v srt l r lev (of_u c) (of_u s) o -> o = Ok img.
Proof.
  intros Hs Cl Cr Hsz Ha Sm24 Or Ecpu.
  assert (Sm : small_penalties (2 ^ 53) l r lev (Z.of_N c) (Z.of_N s)).
  { apply (small_weaker (2 ^ 24)); [|exact Sm24]. apply Z.pow_le_mono_r; lia. }
  assert (exists g : dgraph cpu, make_graph l r lev (of_u c) (of_u s) = Ok g) as [g Eg].
  { unfold solve_problem in Ecpu. destruct (make_graph l r lev (of_u (t := cpu) c) (of_u s)) as [g|e] eqn:Eg; [exists g; reflexivity|discriminate]. }
  destruct (small_graph 53 1024 hp53 he53 (2 ^ 64) Z.of_N (fun n _ => eq_refl) l r lev c s g Eg Cl Cr Hsz Sm) as [El0 [Er0 [Ev0 [Hw [Hz [Ic Is]]]]]].
  assert (El : @left cpu g = l) by exact El0. assert (Er : @right cpu g = r) by exact Er0. assert (Ev : @levels cpu g = lev) by exact Ev0.
  clear El0 Er0 Ev0.
  assert (Sg : small_penalties (2 ^ 53) (left g) (right g) (levels g) (Z.of_N c) (Z.of_N s)) by (rewrite El, Er, Ev; exact Sm).
  assert (Sg24 : small_penalties (2 ^ 24) (left g) (right g) (levels g) (Z.of_N c) (Z.of_N s)) by (rewrite El, Er, Ev; exact Sm24).
  assert (Hf : finite_penalties g).
  { destruct Sg as [m [Hm [Bc [Bs [B1 [B2 [B3 B4]]]]]]].
    eapply (exact_finite 53 1024 hp53 he53 (2 ^ 64) Z.of_N (fun n _ => eq_refl)); try eassumption; lia. }
  destruct (prepared_accepted cpu_laws srt l r lev _ _ g Hs Eg Cl Cr Hsz Hf) as [lp [cands [t [cg [Elp [Ef [Et [Ep [C [EG [EL [ET [Av Low]]]]]]]]]]]]].
  destruct (small_threshold 53 1024 hp53 he53 (2 ^ 64) Z.of_N (fun n _ => eq_refl) g lp _ _ Hw Hz Ic Is Sg Elp srt cands t Hs Ef Et)
    as [b [It [Hb Hmin]]].
  assert (Hb24 : (0 <= b <= 2 ^ 24)%Z).
  { split; [apply Hb|]. apply (Hmin (fun _ => 0)).
    - assert (X : @labeling_ok cpu g (fun _ => 0)); [|exact X]. pose proof (@wf_levels cpu g Hw). split.
      + intros p [Hx Hy]. unfold match_exists, label_node, in_image. cbn [npix disp]. lia.
      + intros p q _ _ A. unfold in_order, label_node, horizontal_pair. cbn [npix disp]. lia.
    - apply zero_labeling_small; [apply Hw|exact Sg24]. }
  assert (Z1 : zero_reparam (cg_graph cg)) by (rewrite EG; exact Hz).
  assert (Z2 : make_lowest (cg_graph cg) = Ok (cg_lowest cg)) by (rewrite EG, EL; exact Elp).
  assert (Z3 : is_int (cleanness (cg_graph cg)) (Z.of_N c)) by (rewrite EG; exact Ic).
  assert (Z4 : is_int (smoothness (cg_graph cg)) (Z.of_N s)) by (rewrite EG; exact Is).
  assert (Z5 : small_penalties (2 ^ 24) (left (cg_graph cg)) (right (cg_graph cg)) (levels (cg_graph cg)) (Z.of_N c) (Z.of_N s))
    by (rewrite EG; exact Sg24).
  assert (Z6 : is_int (cg_threshold cg) b) by (rewrite ET; exact It).
  assert (Z7 : addressable a (right (cg_graph cg)) (levels (cg_graph cg))) by (rewrite EG, Er, Ev; exact Ha).
  symmetry in Ecpu. apply solves_with_cpu with (v := v) in Ecpu.
  revert Ecpu. unfold solves_with. rewrite Ep. intros [x [Lx Ex]] [y [Ly ->]]. cbn [labels] in Lx. subst x.
  destruct (exec find_labeling cg) as [[b1 cg']|e] eqn:EF; [|discriminate]. unfold mapped in Ex. cbn [bind fst snd] in Ex.
  destruct b1; cbn [negb] in Ex; [|discriminate].
  pose proof (proj1 Or) as Esc.
  destruct a; destruct Ly as [cg1 [[m [CS ->]] ->]]; rewrite Esc in CS; unfold mapped; cbn [bind fst snd negb].
  - pose proof (device_problem_wf (T := opencl) to_single (fun n => n) (fun n _ => eq_refl) cg C Z7) as Wd.
    pose proof (device_twins (2 ^ 64) Z.of_N (fun n => n) (fun n _ => eq_refl) (fun n _ => eq_refl) ltac:(lia) cg
               (Z.of_N c) (Z.of_N s) b C Z1 Z2 Z3 Z4 Z5 Z6 Hb24 Z7) as Tw.
    destruct (same_found opencl_laws cg (opencl_problem cg) OpenCL (b_kind v) (b_partition v) cg' m C Wd Tw eq_refl eq_refl
      (settles_orderly (opencl_problem cg) OpenCL v (wf_static _ Wd) Or) EF CS) as [i [E1 E2]].
    rewrite E1 in Ex. rewrite E2. exact (eq_sym Ex).
  - pose proof (device_problem_wf (T := cuda) to_single (fun n => n mod 2 ^ 32) (fun n H => N.mod_small _ _ H) cg C Z7) as Wd.
    pose proof (device_twins (2 ^ 32) int_of_unsigned (fun n => n mod 2 ^ 32) (fun n H => N.mod_small _ _ H) conv_cuda ltac:(lia) cg
               (Z.of_N c) (Z.of_N s) b C Z1 Z2 Z3 Z4 Z5 Z6 Hb24 Z7) as Tw.
    assert (Eo : device_order (cuda_problem cg) = all_pixels (width (right (cg_graph cg))) (height (right (cg_graph cg)))).
    { destruct (device_sizes (T := cuda) (fun n => n mod 2 ^ 32) (fun n H => N.mod_small _ _ H) (cg_graph cg) (wfc_graph cg C) Z7) as [Ew [Eh _]].
      unfold device_order, cuda_problem. cbn [device_problem cg_graph device_graph device_image right width height].
      rewrite Ew, Eh. reflexivity. }
    destruct (same_found cuda_laws cg (cuda_problem cg) CUDA (b_kind v) (b_partition v) cg' m C Wd Tw eq_refl Eo
      (settles_orderly (cuda_problem cg) CUDA v (wf_static _ Wd) Or) EF CS) as [i [E1 E2]].
    rewrite E1 in Ex. rewrite E2. exact (eq_sym Ex).
Qed.

(** Options that differ in the technology only. *)
Lemma gpu_same_file b v srt w o o' path txt a e e' :
  sorts srt -> usable_files w -> main srt w (Parsed o) = Ok e -> written_file e = Some (path, txt) ->
  same_request o o' -> chosen b (o_parallel o') = Ok (On a) -> orderly a v ->
  (forall lpath rpath l r lev c s, all_paths o lpath rpath path -> file_holds w lpath l -> file_holds w rpath r ->
     option_number (width l) (o_levels o) lev -> option_number 1 (o_cleanness o) c -> option_number 1 (o_smoothness o) s ->
     addressable a r lev /\ small_penalties (2 ^ 24) l r lev (Z.of_N c) (Z.of_N s)) ->
  main_with b v srt w (Parsed o') e' -> e' = Ok e.
Proof.
  intros Hs U M W [R1 [R2 [R3 [R4 [R5 R6]]]]] Ec Or Small. unfold main, main_with in *. rewrite R1, R2, R3, Ec.
  destruct (o_output o) as [out|] eqn:E1, (o_left o) as [lpath|] eqn:E2, (o_right o) as [rpath|] eqn:E3;
    try (destruct (_ || _); [injection M as <-; discriminate|]; destruct (_ =? _); injection M as <-; discriminate).
  destruct (check_parallel (o_parallel o)) as [[]|[y| |]]; [|try discriminate; injection M as <-; discriminate..].
  destruct (disparity_map_of srt w o lpath rpath) as [img|[y| |]] eqn:Ed; cbn [bind] in M; [|try discriminate; injection M as <-; discriminate..].
  destruct (writable w out) eqn:Wo; [|injection M as <-; discriminate].
  destruct (write_image [] (Some img)) as [t|[y| |]] eqn:Et; cbn [bind] in M; try discriminate; injection M as <-;
    cbn [ends written_file] in W; [|discriminate].
  injection W as <- <-. intros [x [MW ->]].
  assert (x = Ok img).
  { unfold disparity_map_of in Ed. unfold map_with in MW. rewrite R4, R5, R6 in MW.
    destruct (read_file w lpath) as [l|y] eqn:El; cbn [bind] in Ed, MW; [|discriminate].
    destruct (read_file w rpath) as [r|y] eqn:Er; cbn [bind] in Ed, MW; [|discriminate].
    destruct (number_or (width l) (o_levels o)) as [lev|y] eqn:Elev; cbn [bind] in Ed, MW; [|discriminate].
    destruct (number_or 1 (o_cleanness o)) as [c|y] eqn:Ecl; cbn [bind] in Ed, MW; [|discriminate].
    destruct (number_or 1 (o_smoothness o)) as [s|y] eqn:Es; cbn [bind] in Ed, MW; [|discriminate].
    apply read_held in El. apply read_held in Er. apply number_value in Elev. apply number_value in Ecl. apply number_value in Es.
    destruct (Small lpath rpath l r lev c s (conj E2 (conj E3 E1)) El Er Elev Ecl Es) as [Ad Sm].
    destruct (solves_made _ _ _ _ _ _ _ _ _ (proj2 (solves_with_cpu v srt l r lev (of_u c) (of_u s) (Ok img)) (eq_sym Ed))) as [g Eg].
    pose proof (held_usable _ _ _ U El) as [_ Sz]. pose proof (problem_fits _ _ _ _ _ _ Eg Sz) as Fit.
    exact (gpu_same a v srt l r lev c s x img Hs (held_consistent _ _ _ El) (held_consistent _ _ _ Er) Fit Ad Sm Or Ed MW). }
  subst x. unfold finishes. cbn [bind]. rewrite Wo, Et. reflexivity.
Qed.
