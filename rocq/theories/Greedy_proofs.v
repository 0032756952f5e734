(** Images that match pixel by pixel: lemmas. *)
From Coq Require Import Lia.
From Verif Require Export App_proofs.
Local Open Scope N_scope.

Section Greedy.
Context {T : target} (HL : laws T).
Notation G cg := (cg_graph cg).
Notation nd p d := {| npix := p; disp := d |}.

Lemma run_label_keeps (cg : cgraph T) k l m : static cg -> mem_ok cg m -> pixels_ok cg l ->
  labeling_ok (G cg) k -> edges_within (G cg) (cg_lowest cg) (cg_threshold cg) k -> cheapest (G cg) k ->
  (forall n v, match_exists (G cg) n -> node_penalty (G cg) n = Ok v -> fle fzero v = true) ->
  holds cg (label_set cg k) m ->
  exists m', run (label_pixels cg l) m = Ok (true, m') /\ mem_ok cg m' /\ holds cg (label_set cg k) m'.
Proof.
  intros Hs Hm Hps Hk He Hg Hn. revert m Hm. induction l as [|p l IH]; intros m Hm Hh; cbn [label_pixels].
  { exists m. split; [reflexivity|]. split; assumption. }
  assert (Hp : in_image (G cg) p) by (apply Hps; left; reflexivity).
  assert (Hps' : pixels_ok cg l) by (intros x Hx; apply Hps; right; exact Hx).
  destruct (run_choose cg m p HL Hs Hm Hp) as [b [m1 [E1 [Hm1 [Sub1 [Oth [Eb [_ HT]]]]]]]].
  pose proof (proj1 Hk p Hp) as Mk. unfold label_node in Mk.
  assert (Ak : avb cg m (nd p (k p)) = true) by (apply Hh; split; [exact Hp|reflexivity]).
  assert (Hb : b = true).
  { rewrite Eb. apply hasb_ex; try assumption. exists (k p). split; assumption. }
  subst b. rewrite Hb in E1, HT. destruct (HT eq_refl) as [d [M [A [U Min]]]].
  pose proof (st_graph cg Hs) as Hw.
  destruct (node_penalty_Ok (G cg) _ Hw M) as [v Ev].
  destruct (node_penalty_Ok (G cg) _ Hw Mk) as [vk Ek].
  assert (Dk : d = k p).
  { destruct (Min (fun d0 v0 M0 _ E0 => Hn _ v0 M0 E0) (k p) v vk Mk Ak Ev Ek) as [L1 T1].
    destruct (Hg p d vk v Hp M Ek Ev) as [L2 T2]. specialize (T1 L2). specialize (T2 L1). lia. }
  subst d.
  assert (H1 : holds cg (label_set cg k) m1).
  { intros n Hn'. destruct n as [q dq]. destruct Hn' as [Hq Eq]. cbn [npix disp] in Hq, Eq. subst dq.
    assert (Dec : q = p \/ q <> p).
    { destruct q as [x y], p as [x' y']. destruct (N.eq_dec x x') as [->|X]; [|right; congruence].
      destruct (N.eq_dec y y') as [->|Y]; [left; reflexivity|right; congruence]. }
    destruct Dec as [->|Ne].
    - apply U; [exact M|reflexivity].
    - rewrite Oth; [|apply match_inb, (proj1 Hk q Hq)|exact Ne]. apply Hh. split; [exact Hq|reflexivity]. }
  rewrite cbind_assoc_run, E1. cbn [bind fst snd negb].
  rewrite cbind_assoc_run, run_solve_one by assumption. cbn [bind].
  destruct (holds_sweep cg _ (raster cg) m1 Hs Hm1 (raster_ok cg)
              (label_support cg k Hk He) (label_total cg k) H1) as [F H].
  pose proof (solved_ok cg m1 Hm1) as Hm2.
  assert (Es : solved cg m1 = (true, snd (sweep cg (raster cg) m1))) by (unfold solved; rewrite F; reflexivity).
  rewrite Es in *. cbn [fst snd negb] in *. apply IH; assumption.
Qed.

(** *** Penalties of nodes without a reparametrization *)

Definition npen (g : dgraph T) (a b : N) : F T := fmul (cleanness g) (fsqr (fsub (of_u a) (of_u b))).

Lemma add_zero_feq (a b : F T) : feq a b = true -> ffin (fadd a fzero) = true -> feq (fadd a fzero) b = true.
Proof.
  intros E F. apply (feq_trans HL) with a; [|exact E]. apply (add_zero T HL). apply (fin_add T HL) in F. apply F.
Qed.

Lemma node_penalty_zero (g : dgraph T) n v : wf_graph g -> zero_reparam g -> match_exists g n ->
  node_penalty g n = Ok v -> ffin v = true ->
  exists vr vl,
    get (data (right g)) (py (npix n) * width (right g) + px (npix n)) = Ok vr /\
    get (data (left g)) (py (npix n) * width (right g) + (px (npix n) + disp n)) = Ok vl /\
    feq v (npen g vr vl) = true /\ ffin (npen g vr vl) = true.
Proof.
  intros Hw Hz Hm Ev Fv.
  destruct (node_penalty_formula g n Hw Hm) as (vr & vl & r0 & r1 & r2 & r3 & E1 & E2 & R0 & R1 & R2 & R3 & E).
  assert (Z : forall i r, get (reparam g) i = Ok r -> r = fzero).
  { intros i r X. apply Hz. apply get_In in X. exact X. }
  apply Z in R0, R1, R2, R3. subst r0 r1 r2 r3. rewrite E in Ev. injection Ev as <-.
  exists vr, vl. split; [exact E1|]. split; [exact E2|]. fold (npen g vr vl) in *.
  pose proof (proj1 (fin_add T HL _ _ Fv)) as F3. pose proof (proj1 (fin_add T HL _ _ F3)) as F2.
  pose proof (proj1 (fin_add T HL _ _ F2)) as F1. pose proof (proj1 (fin_add T HL _ _ F1)) as F0.
  split; [|exact F0].
  apply add_zero_feq; [|exact Fv]. apply add_zero_feq; [|exact F3]. apply add_zero_feq; [|exact F2].
  apply add_zero_feq; [|exact F1]. apply (feq_refl HL). apply (fin_number T HL). exact F0.
Qed.

Lemma npen_parts (g : dgraph T) a b : ffin (npen g a b) = true ->
  ffin (cleanness g) = true /\ ffin (fsqr (fsub (t := T) (of_u a) (of_u b))) = true /\
  ffin (fsub (t := T) (of_u a) (of_u b)) = true /\ ffin (of_u (t := T) a) = true.
Proof.
  unfold npen. intros H. apply (fin_mul T HL) in H. destruct H as [A B].
  assert (C : ffin (fsub (t := T) (of_u a) (of_u b)) = true) by (apply (fin_mul T HL) in B; apply B).
  destruct (fin_sub T HL _ _ C) as [D _]. auto 10.
Qed.
Lemma npen_nonneg (g : dgraph T) a b : ffin (npen g a b) = true -> flt (cleanness g) fzero = false -> fle fzero (npen g a b) = true.
Proof.
  intros H Hs. destruct (npen_parts g a b H) as [A [B _]].
  unfold npen. apply (mul_nonneg T HL); [exact H| |apply (sqr_nonneg T HL); exact B].
  apply (not_flt_le HL); [apply (fin_number T HL); exact A|apply (fin_number T HL), (fin_zero T HL)|exact Hs].
Qed.
Lemma npen_same (g : dgraph T) a : ffin (npen g a a) = true -> feq (npen g a a) fzero = true.
Proof.
  intros H. destruct (npen_parts g a a H) as [A [B [C D]]].
  unfold npen. apply (mul_zero T HL); [exact A|]. unfold fsqr.
  apply (mul_zero T HL); [exact C|]. apply (sub_self T HL); exact D.
Qed.

Lemma node_nonneg (g : dgraph T) n v : wf_graph g -> zero_reparam g -> finite_penalties g -> nonneg_weights g ->
  match_exists g n -> node_penalty g n = Ok v -> fle fzero v = true.
Proof.
  intros Hw Hz [Hf _] [Hc _] Hm Ev. destruct (Hf n Hm) as [v' [Ev' Fv]].
  assert (v' = v) by congruence. subst v'.
  destruct (node_penalty_zero g n v Hw Hz Hm Ev Fv) as [vr [vl [_ [_ [Q F]]]]].
  eapply (fle_trans T HL); [apply (npen_nonneg g vr vl F Hc)|apply (feq_ge HL); exact Q].
Qed.

(** *** The threshold is not negative *)

Lemma node_excess_nonneg (g : dgraph T) lp n c : wf_graph g -> make_lowest g = Ok lp -> finite_penalties g ->
  match_exists g n -> node_excess g lp n c -> fle fzero c = true.
Proof.
  intros Hw Hl [Hf _] Hm [v [m [Ev [Em ->]]]].
  destruct (lowest_pixel_is_min HL g lp (npix n) Hw Hl (proj1 Hm)) as [m' [Em' [[n0 [E0 [M0 V0]]] Min]]].
  assert (m' = m) by congruence. subst m'.
  destruct (Hf n Hm) as [v' [Ev' Fv]]. assert (v' = v) by congruence. subst v'.
  destruct (Hf n0 M0) as [m' [Ev0 Fm]]. assert (m' = m) by congruence. subst m'.
  eapply (fle_trans T HL); [apply (feq_ge HL), (sub_self T HL m Fm)|].
  apply (sub_mono_l T HL); try assumption. apply (Min) with n; [|reflexivity|exact Hm|exact Ev].
  intros n1 v1 _ M1 E1. destruct (Hf n1 M1) as [v1' [E1' F1]]. assert (v1' = v1) by congruence. subst v1'.
  apply (fin_number T HL). exact F1.
Qed.

Lemma threshold_nonneg (g : dgraph T) lp t cg cg' : wf_graph g -> make_lowest g = Ok lp -> finite_penalties g ->
  make_constraint g lp t = Ok cg -> exec solve_csp cg = Ok (true, cg') -> fle fzero t = true.
Proof.
  intros Hw Hl Hf Ec Es.
  destruct (initial_availability g lp t Hw Hl) as [cg0 [Ec0 [Gc [Lc [Tc [Av _]]]]]].
  assert (cg0 = cg) by congruence. subst cg0.
  destruct (make_constraint_Ok g lp t cg Hw Hl Ec) as [C _].
  rewrite exec_solve_csp in Es by exact C. injection Es as Es _.
  pose proof (wf_static cg C) as Hs. pose proof (wfc_avail cg C) as Hm.
  pose proof (solved_facts cg _ Hs Hm Es) as [_ [Sub [Has _]]].
  pose proof (origin_in cg Hs) as Ho. pose proof (Has _ Ho) as Hh.
  apply hasb_ex in Hh; try assumption. destruct Hh as [d [M A]]. apply Sub in A.
  assert (A0 : available cg {| npix := {| px := 0; py := 0 |}; disp := d |}).
  { apply available_iff; [exact C|apply match_inb; exact M|exact A]. }
  rewrite Gc in M. apply Av in A0; [|apply M|apply M]. destruct A0 as [_ [v [m [Ev [Em Le]]]]].
  eapply (fle_trans T HL); [|exact Le]. apply (node_excess_nonneg g lp _ _ Hw Hl Hf M). exists v, m. auto.
Qed.

(** *** The cheapest labeling *)

Lemma solve_cheapest srt l r lev (c s : F T) g lp k :
  sorts srt -> make_graph l r lev c s = Ok g -> make_lowest g = Ok lp -> consistent_image l -> consistent_image r ->
  width l * height l * 4 * lev < wmod T -> finite_penalties g ->
  cheapest g k -> labeling_ok g k -> edges_within g lp fzero k ->
  exists img, solve_problem srt l r lev c s = Ok img /\ best_map g lp img /\
    forall p, in_image g p -> map_labeling img p = k p.
Proof.
  intros Hs Eg El Cl Cr Hsz Hf Hg Hk He. destruct (make_graph_wf l r lev c s g Eg Cl Cr Hsz) as [Hw Hz].
  assert (Hn : nonneg_weights g).
  { destruct (make_graph_Ok l r lev c s g Eg) as [_ [_ [_ [_ [_ [_ [_ [Nc [Ns [_ [_ E]]]]]]]]]]]. rewrite E. split; assumption. }
  destruct (solve_accepted HL srt l r lev c s g Hs Eg Cl Cr Hsz Hf) as [lp' [El' Cases]].
  assert (lp' = lp) by congruence. subst lp'.
  destruct (candidates_complete HL srt g lp Hs Hw El Hf) as [cands [Ef _]].
  destruct (minimal_threshold HL srt g lp cands Hs Hw El Hf Ef) as [t [n [Et _]]]; [left; split; assumption|].
  destruct (make_constraint_spec g lp t Hw El) as [cg [Ec _]].
  destruct (initial_availability g lp t Hw El) as [cg0 [Ec0 [Gc [Lc [Tc [Av _]]]]]].
  assert (cg0 = cg) by congruence. subst cg0.
  destruct (make_constraint_Ok g lp t cg Hw El Ec) as [C _].
  destruct (solvable_at_threshold HL srt g lp cands t cg Hs Hw El Hf Hz Hn Ef Et Ec) as [cg1 E1].
  pose proof (threshold_nonneg g lp t cg cg1 Hw El Hf Ec E1) as Ht.
  (* the labeling is a solution from the start *)
  assert (Sk : solution cg k).
  { split; [rewrite Gc; exact Hk|]. rewrite Gc, Lc, Tc. split.
    - intros p Hp. pose proof (proj1 Hk p Hp) as M. apply Av; [apply M|apply M|]. split; [exact M|].
      destruct (node_penalty_Ok g _ Hw M) as [v Ev].
      destruct (lowest_pixel_is_min HL g lp p Hw El Hp) as [m [Em [[n0 [E0 [M0 V0]]] _]]].
      exists v, m. split; [exact Ev|]. split; [exact Em|].
      destruct n0 as [p0 d0]. cbn [npix] in E0. subst p0.
      destruct (Hg p d0 v m Hp M0 Ev V0) as [Le _].
      destruct (proj1 Hf _ M) as [v' [Ev' Fv]]. assert (v' = v) by congruence. subst v'.
      destruct (proj1 Hf _ M0) as [m' [Em' Fm]]. assert (m' = m) by congruence. subst m'.
      eapply (fle_trans T HL); [|exact Ht].
      eapply (fle_trans T HL); [apply (sub_mono_l T HL) with (b := m); assumption|].
      apply (feq_le HL), (sub_self T HL m Fm).
    - intros p q Hp Hq Adj. destruct (He p q Hp Hq Adj) as [v [m [A [B D]]]]. exists v, m.
      split; [exact A|]. split; [exact B|]. eapply (fle_trans T HL); eassumption. }
  destruct (solve_keeps_solution cg k C Sk) as [cg1' [E1' [S1 K1]]].
  assert (cg1' = cg1) by congruence. subst cg1'.
  pose proof (same_wf cg cg1 C S1) as C1.
  assert (G1 : cg_graph cg1 = g) by (destruct S1 as [X _]; congruence).
  pose proof (wf_static cg1 C1) as Hs1. pose proof (wfc_avail cg1 C1) as Hm1.
  destruct K1 as [Lk [Ak Wk]].
  destruct (run_label_keeps cg1 k (column_order (cg_graph cg1)) (cg_avail cg1) Hs1 Hm1) as [m' [E2 [Hm' Hh]]]; try assumption.
  { rewrite column_order_eq by apply (wfc_graph cg1 C1). intros p Hp. apply In_all_pixels in Hp. exact Hp. }
  { rewrite G1. exact Hg. }
  { rewrite G1. intros n0 v0 M0 V0. eapply node_nonneg; eassumption. }
  { apply label_holds; try assumption. rewrite with_avail_same. exact Ak. }
  assert (Ef2 : exec find_labeling cg1 = Ok (true, with_avail cg1 m')).
  { unfold exec, find_labeling. rewrite E2. reflexivity. }
  destruct (found_labeling HL cg1 C1) as [b [cg2 [E2' [C2 [S2 [R2 F2]]]]]].
  rewrite Ef2 in E2'. injection E2' as <- <-.
  assert (Es : solve_problem srt l r lev c s = r <- exec build_disparity_map (with_avail cg1 m') ;; Ok (fst r)).
  { unfold solve_problem. rewrite Eg. cbn [bind]. rewrite El. cbn [bind]. rewrite Ef. cbn [bind]. rewrite Et. cbn [bind].
    rewrite Ec. cbn [bind]. rewrite E1. cbn [bind fst snd negb]. rewrite Ef2. cbn [bind fst snd negb]. reflexivity. }
  destruct (F2 eq_refl) as [k2 [[Lk2 [Ak2 _]] Uk]].
  assert (G2 : cg_graph (with_avail cg1 m') = g) by exact G1.
  destruct (disparity_map _ C2) as [D _]. destruct D as [img [Ei [Wi [Hi [Mi [Li [Vi Di]]]]]]].
  { intros p Hp. exists (k2 p). destruct Lk2 as [Lk2 _]. split; [apply (Lk2 p Hp)|apply (Ak2 p Hp)]. }
  destruct Cases as [Bad|[img' [Ei' Best]]].
  { rewrite Es, Ei in Bad. discriminate. }
  rewrite Es, Ei in Ei'. cbn [bind fst] in Ei'. injection Ei' as <-.
  exists img. rewrite Es, Ei. split; [reflexivity|]. split; [exact Best|].
  intros p Hp. assert (Hp2 : in_image (cg_graph (with_avail cg1 m')) p) by (rewrite G2; exact Hp).
  destruct (Di p Hp2) as [d [Ed [Md [Ad _]]]]. rewrite G2 in Wi, Ed. rewrite <- Wi in Ed.
  rewrite (get_map_labeling img p d Ed).
  apply (Uk _ Md) in Ad. cbn [disp npix] in Ad.
  assert (Akp : available (with_avail cg1 m') (label_node k p)).
  { apply (proj1 (label_holds cg1 k m' Hs1 Hm' Lk) Hh p). rewrite G1. exact Hp. }
  apply Uk in Akp; [cbn [disp npix label_node] in Akp; congruence|]. rewrite G1. apply (proj1 Hk p Hp).
Qed.

(** *** Equal images *)

Lemma zero_cheapest l lev (c s : F T) g lp : make_graph l l lev c s = Ok g -> make_lowest g = Ok lp ->
  consistent_image l -> width l * height l * 4 * lev < wmod T -> finite_penalties g ->
  cheapest g zero_labeling /\ labeling_ok g zero_labeling /\ edges_within g lp fzero zero_labeling.
Proof.
  intros Eg El Cl Hsz Hf. destruct (make_graph_wf l l lev c s g Eg Cl Cl Hsz) as [Hw Hz].
  assert (Hn : nonneg_weights g /\ left g = l /\ right g = l).
  { destruct (make_graph_Ok l l lev c s g Eg) as [_ [_ [_ [_ [_ [_ [_ [Nc [Ns [_ [_ E]]]]]]]]]]]. rewrite E. split; [split; assumption|split; reflexivity]. }
  destruct Hn as [Hn [Gl Gr]]. split; [|split].
  - intros p d v v' Hp M Ev Ev'. pose proof (zero_match g p Hw Hp) as M0.
    destruct (proj1 Hf _ M0) as [v0 [E0 F0]].
    assert (v0 = v) by (unfold label_node, zero_labeling in Ev; congruence). subst v0.
    destruct (node_penalty_zero g _ v Hw Hz M0 E0 F0) as [vr [vl [Er [Ell [Q F]]]]]. cbn [npix disp] in Er, Ell.
    rewrite N.add_0_r in Ell. rewrite Gr in Er. rewrite Gl, Gr in Ell.
    assert (vl = vr) by congruence. subst vl.
    pose proof (node_nonneg g _ v' Hw Hz Hf Hn M Ev') as Nv. split; [|unfold zero_labeling; lia].
    eapply (fle_trans T HL); [|exact Nv]. apply (feq_le HL). eapply (feq_trans HL); [exact Q|apply npen_same; exact F].
  - apply zero_labeling_ok. exact Hw.
  - intros p q Hp Hq Adj. pose proof (zero_match g p Hw Hp) as M1. pose proof (zero_match g q Hw Hq) as M2.
    apply (edge_within_zero HL g lp fzero (label_node zero_labeling p) (label_node zero_labeling q)); try assumption.
    apply (feq_le HL), (epen_same HL). apply (epen_fin HL g _ _ Hw Hz Hf M1 M2 Adj).
Qed.

Lemma zero_map_unique (img : image) : consistent_image img ->
  (forall p, px p < width img -> py p < height img -> map_labeling img p = 0) ->
  img = zero_map (width img) (height img) (max_value img).
Proof.
  intros Hc Hz. destruct img as [w h m dat]. unfold zero_map. cbn [width height max_value] in *. f_equal.
  unfold consistent_image in Hc. cbn [width height data] in Hc.
  unfold len in Hc. apply nth_ext with 0 0.
  - unfold fill. rewrite repeat_length. lia.
  - intros i Hi. unfold fill. rewrite nth_repeat.
    assert (Hw : 0 < w) by (destruct w; lia).
    specialize (Hz {| px := N.of_nat i mod w; py := N.of_nat i / w |}).
    unfold map_labeling in Hz. cbn [px py width data] in Hz.
    pose proof (N.mod_lt (N.of_nat i) w). pose proof (N.div_mod (N.of_nat i) w).
    replace (N.to_nat (N.of_nat i / w * w + N.of_nat i mod w)) with i in Hz by lia.
    apply Hz; [lia|]. apply N.div_lt_upper_bound; lia.
Qed.

Lemma solve_equal srt l lev (c s : F T) g :
  sorts srt -> make_graph l l lev c s = Ok g -> consistent_image l ->
  width l * height l * 4 * lev < wmod T -> finite_penalties g ->
  solve_problem srt l l lev c s = Ok (zero_map (width l) (height l) lev).
Proof.
  intros Hs Eg Cl Hsz Hf. destruct (make_graph_wf l l lev c s g Eg Cl Cl Hsz) as [Hw Hz].
  destruct (make_lowest_spec g Hw) as [lp [El _]].
  destruct (zero_cheapest l lev c s g lp Eg El Cl Hsz Hf) as [Hg [Hk He]].
  destruct (solve_cheapest srt l l lev c s g lp zero_labeling Hs Eg El Cl Cl Hsz Hf Hg Hk He) as [img [Ei [Best Map]]].
  rewrite Ei. f_equal.
  destruct Best as [Wi [Hi [Mi [Ci _]]]].
  assert (E : left g = l /\ right g = l /\ levels g = lev).
  { destruct (make_graph_Ok l l lev c s g Eg) as [_ [_ [_ [_ [_ [_ [_ [_ [_ [_ [_ E]]]]]]]]]]]. rewrite E. auto. }
  destruct E as [El' [Er' Elev]]. rewrite El' in Wi, Hi. rewrite Elev in Mi. rewrite <- Wi, <- Hi, <- Mi.
  apply zero_map_unique; [exact Ci|]. intros p Px Py. apply Map. split; rewrite Er'; congruence.
Qed.
End Greedy.

(** *** Equal files *)

Section Equal.
Variables (w : world) (o : options) (lpath rpath out : text) (l : image) (lev c s : N).
Hypotheses (Hp : all_paths o lpath rpath out) (Ht : technology_ok o)
  (Hl : file_holds w lpath l) (Hr : file_holds w rpath l)
  (Nl : option_number (width l) (o_levels o) lev) (Nc : option_number 1 (o_cleanness o) c) (Ns : option_number 1 (o_smoothness o) s)
  (Sl : width l * height l < 2 ^ 32).

Lemma given_equal srt : sorts srt -> 4 * (width l * width l * height l) < 2 ^ 64 -> width l * height l * 4 * lev <= vector_max_size ->
  good_problem l l lev c s ->
  valid_image (zero_map (width l) (height l) lev) /\
  exists txt, write_image [] (Some (zero_map (width l) (height l) lev)) = Ok txt /\
    main srt w (Parsed o) = Ok (ends 0 None (if writable w out then Some (out, txt) else None)).
Proof.
  intros Hs Sz Sv G. destruct (given_weights o c s Nc Ns) as [Wc Ws].
  pose proof (held_consistent _ _ _ Hl) as Cl.
  assert (F64 : width l * height l * 4 * lev < wmod cpu) by (change (wmod cpu) with (2 ^ 64); unfold vector_max_size in Sv; lia).
  destruct (make_graph_accepts l l lev (@of_u cpu c) (of_u s)) as [Acc _]; try assumption; [discriminate|].
  pose proof (proj2 (Acc _) (conj (proj1 (good_iff l l lev c s Cl Cl Sl Sl Wc Ws) G) eq_refl)) as Eg. clear Acc.
  match type of Eg with _ = Ok ?x => set (g := x) in * end.
  assert (Hf : finite_penalties g).
  { eapply made_finite; try eassumption.
    intros v [Hv|Hv]; apply (proj2 (held_small _ _ _ Hl) v Hv). }
  pose proof (solve_equal cpu_laws srt l lev _ _ g Hs Eg Cl F64 Hf) as X.
  rewrite <- (given_problem w o lpath rpath l l lev c s) in X by assumption.
  assert (V : valid_image (zero_map (width l) (height l) lev)).
  { destruct G as [[V1 [V2 _]] [_ [_ [_ [_ [G1 _]]]]]]. refine (conj V1 (conj V2 (conj _ _))); cbn [max_value data zero_map]; [lia|].
    intros v Hv. apply repeat_spec in Hv. lia. }
  split; [exact V|].
  assert (C : consistent_image (zero_map (width l) (height l) lev)) by (unfold consistent_image; cbn [zero_map data width height]; apply len_fill).
  pose proof (written _ V C Sl []) as Et. eexists. split; [exact Et|].
  exact (main_found srt w o lpath rpath out _ _ Hp Ht X Et).
Qed.
End Equal.

(** *** Written files *)

Lemma written_laid img txt : valid_image img -> consistent_image img -> width img * height img < 2 ^ 32 ->
  write_image [] (Some img) = Ok txt ->
  laid_out (FORMAT_CODE :: digits (width img) :: digits (height img) :: digits (max_value img) :: map digits (data img)) txt.
Proof.
  intros V C S E. rewrite (written img V C S []) in E. injection E as <-. apply laid_text; [exact C|lia].
Qed.

Lemma held_written w path img txt : valid_image img -> consistent_image img -> width img * height img < 2 ^ 32 ->
  max_value img <= 65536 -> write_image [] (Some img) = Ok txt -> files w path = Some txt -> file_holds w path img.
Proof.
  intros V C S M E F. destruct (round_trip img V C S [] M) as [txt' [E' R]]. cbn [app] in E'.
  assert (txt' = txt) by congruence. subst txt'. destruct (R None) as [st [Er Fb]].
  destruct (read_success txt None st (Some img) Er Fb) as [img' [ts [Ei [L I]]]]. injection Ei as <-.
  exists txt, ts. auto.
Qed.

Lemma unread_written w path img txt : valid_image img -> consistent_image img -> width img * height img < 2 ^ 32 ->
  65536 < max_value img < 2 ^ 64 -> write_image [] (Some img) = Ok txt -> files w path = Some txt ->
  read_file w path = Stop (Throw NotPgm).
Proof.
  intros V C S M E F. apply (read_broken w path txt _ F (written_laid img txt V C S E)).
  assert (S1 : width img < 2 ^ 64 /\ height img < 2 ^ 64) by (destruct V as [V1 [V2 _]]; nia).
  eapply high_max; [|apply M].
  exists (digits (width img)), (digits (height img)), (digits (max_value img)). split; [reflexivity|].
  split; [apply digits_reads; lia|]. split; apply digits_reads; lia.
Qed.

Lemma main_readable srt w p e path txt : sorts srt -> usable_files w -> main srt w p = Ok e -> written_file e = Some (path, txt) ->
  exists o l r img, p = Parsed o /\ all_paths o l r path /\ map_of w o l r img /\
    forall w' path', files w' path' = Some txt ->
      (max_value img <= 65536 -> file_holds w' path' img /\ read_file w' path' = Ok img) /\
      (65536 < max_value img -> read_file w' path' = Stop (Throw NotPgm)).
Proof.
  intros Hs U E W. destruct (main_written srt w p e path txt Hs U E W) as [_ [_ [_ [o [l [r [img [Ep [Hp [_ [M Et]]]]]]]]]]].
  exists o, l, r, img. split; [exact Ep|]. split; [exact Hp|]. split; [exact M|]. intros w' path' F.
  pose proof (map_size w o l r img U M) as Sz.
  destruct M as [li [ri [lev [c [s [g [lp [Hl [_ [Nl [_ [_ [Eg [_ [_ [_ [Mi [C [V _]]]]]]]]]]]]]]]]]]].
  split; intros Hm.
  - pose proof (held_written w' path' img txt V C Sz Hm Et F) as H. split; [exact H|].
    apply held_read; [exact H|unfold vector_max_size; lia].
  - apply (unread_written w' path' img txt V C Sz); [|exact Et|exact F]. split; [exact Hm|].
    assert (E2 : levels g = lev).
    { destruct (make_graph_Ok _ _ _ _ _ _ Eg) as [_ [_ [_ [_ [_ [_ [_ [_ [_ [_ [_ X]]]]]]]]]]]. rewrite X. reflexivity. }
    rewrite Mi, E2. eapply number_small; [|exact Nl]. apply (proj1 (held_small _ _ _ Hl)).
Qed.
