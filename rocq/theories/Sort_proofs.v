(** The result does not depend on the sorting function: different functions may
    only pick different representations of equal thresholds. *)
From Coq Require Import Lia.
From Verif Require Export Main_proofs.
Local Open Scope N_scope.

Lemma existsb_same {A} (f h : A -> bool) l : (forall a, f a = h a) -> existsb f l = existsb h l.
Proof. intros E. induction l as [|a l IH]; cbn [existsb]; [reflexivity|]. rewrite E, IH. reflexivity. Qed.

Section Sorts.
Context {T : target} (HL : laws T).
Implicit Type cg : cgraph T.

Definition retarget cg (t : F T) : cgraph T :=
  {| cg_graph := cg_graph cg; cg_lowest := cg_lowest cg; cg_threshold := t; cg_avail := cg_avail cg |}.

Lemma feq_bound (x t t' : F T) : feq t t' = true -> fle x t' = fle x t.
Proof.
  intros E. apply (feq_spec T HL) in E. destruct E as [A B]. apply eq_iff_eq_true.
  split; intros H; eapply (fle_trans T HL); eassumption.
Qed.

Section Retarget.
Variables (cg : cgraph T) (t : F T).
Hypothesis (E : feq (cg_threshold cg) t = true).
Let cg' := retarget cg t.

Lemma ewb_re e : ewb cg' e = ewb cg e.
Proof.
  unfold ewb, cg', retarget. cbn [cg_graph cg_lowest cg_threshold].
  destruct (edge_penalty (cg_graph cg) e) as [v|]; [|reflexivity].
  destruct (lowest_neighborhood_penalty (cg_lowest cg) e) as [w|]; [|reflexivity].
  apply feq_bound. exact E.
Qed.
Lemma eab_re m e : eab cg' m e = eab cg m e.
Proof. unfold eab. rewrite ewb_re. reflexivity. Qed.
Lemma etb_re m n q : etb cg' m n q = etb cg m n q.
Proof. unfold etb. apply existsb_same. intros d. apply eab_re. Qed.
Lemma rmvb_re m n : rmvb cg' m n = rmvb cg m n.
Proof.
  unfold rmvb. f_equal. apply existsb_same. intros k. rewrite etb_re. reflexivity.
Qed.
Lemma proc_re p ds m : proc cg' p ds m = proc cg p ds m.
Proof.
  revert m. induction ds as [|d ds IH]; intros m; cbn [proc]; [reflexivity|].
  rewrite IH. unfold proc1. rewrite rmvb_re. reflexivity.
Qed.
Lemma sweep_re ps m : sweep cg' ps m = sweep cg ps m.
Proof.
  revert m. induction ps as [|p ps IH]; intros m; cbn [sweep]; [reflexivity|].
  assert (P : process cg' p m = process cg p m) by apply (proc_re p (disps cg p) m). rewrite P.
  change (hasb cg' (process cg p m) p) with (hasb cg (process cg p m) p).
  destruct (hasb cg (process cg p m) p); [apply IH|reflexivity].
Qed.
Lemma solved_re m : solved cg' m = solved cg m.
Proof. unfold solved. rewrite (sweep_re (raster cg')). reflexivity. Qed.

Lemma static_re : static cg -> static cg'.
Proof. intros [A B]. constructor; assumption. Qed.

Lemma run_solve_re m : static cg -> mem_ok cg m -> run (solve_csp cg') m = run (solve_csp cg) m.
Proof.
  intros Hs Hm. unfold solve_csp.
  rewrite (run_solve_csp cg' m 2 (static_re Hs) Hm (le_n 2)), (run_solve_csp cg m 2 Hs Hm (le_n 2)), solved_re. reflexivity.
Qed.

Lemma run_label_re l m : static cg -> mem_ok cg m -> pixels_ok cg l ->
  run (label_pixels cg' l) m = run (label_pixels cg l) m.
Proof.
  intros Hs. revert m. induction l as [|p l IH]; intros m Hm Hp; cbn [label_pixels]; [reflexivity|].
  assert (Ip : in_image (cg_graph cg) p) by (apply Hp; left; reflexivity).
  change (choose_best_node cg' p) with (choose_best_node cg p).
  destruct (run_choose cg m p HL Hs Hm Ip) as [b [m1 [R1 [M1 _]]]].
  rewrite !cbind_assoc_run, R1. cbn [bind fst snd]. destruct b; cbn [negb]; [|reflexivity].
  rewrite !cbind_assoc_run, run_solve_re by assumption. unfold solve_csp.
  rewrite (run_solve_csp cg m1 2 Hs M1 (le_n 2)). cbn [bind].
  pose proof (solved_ok cg m1 M1) as M2. destruct (solved cg m1) as [ok m2]. cbn [fst snd] in *.
  destruct ok; cbn [negb]; [|reflexivity]. apply IH; [exact M2|]. intros q Hq. apply Hp. right; exact Hq.
Qed.
End Retarget.

Lemma make_constraint_re g lp (t t' : F T) cg : wf_graph g -> make_lowest g = Ok lp -> feq t t' = true ->
  make_constraint g lp t = Ok cg -> make_constraint g lp t' = Ok (retarget cg t').
Proof.
  intros Hw Hl E E1. destruct (make_constraint_Ok g lp t cg Hw Hl E1) as [C1 [G1 [L1 [T1 B1]]]].
  destruct (make_constraint_spec g lp t' Hw Hl) as [cg2 [E2 [C2 [G2 [L2 [T2 B2]]]]]].
  rewrite E2. f_equal.
  assert (M : cg_avail cg2 = cg_avail cg).
  { pose proof (wfc_avail cg C1) as W1. pose proof (wfc_avail cg2 C2) as W2. rewrite G1 in W1. rewrite G2 in W2.
    apply mem_ext; [congruence|]. intros i Hi. rewrite W2 in Hi.
    destruct (node_index_surj g i Hw Hi) as [n [P [D <-]]].
    assert (N1 : inb cg n) by (unfold inb; rewrite G1; split; assumption).
    assert (N2 : inb cg2 n) by (unfold inb; rewrite G2; split; assumption).
    apply eq_iff_eq_true. specialize (B1 n N1). specialize (B2 n N2). unfold avb in B1, B2.
    rewrite G1 in B1. rewrite G2 in B2. rewrite B1, B2, <- !nwb_iff. unfold nwb.
    destruct (node_penalty g n) as [v|]; [|tauto].
    destruct (lowest_pixel_penalty lp (npix n)) as [w|]; [|tauto].
    rewrite (feq_bound _ _ _ E). tauto. }
  unfold retarget. destruct cg2 as [a b c d]. cbn [cg_graph cg_lowest cg_threshold cg_avail] in *. congruence.
Qed.

Lemma find_label_re cg cg' res p ds found m : cg_graph cg' = cg_graph cg ->
  run (find_label cg' res p ds found) m = run (find_label cg res p ds found) m.
Proof.
  intros E. induction ds as [|d ds IH]; cbn [find_label]; [reflexivity|].
  unfold is_node_available. rewrite E. rewrite !cbind_assoc_run. cbn [run].
  destruct (get m (node_index (cg_graph cg) {| npix := p; disp := d |})) as [a|e]; cbn [bind fst snd]; [|reflexivity].
  destruct a; [reflexivity|exact IH].
Qed.

Lemma build_re cg cg' m : cg_graph cg' = cg_graph cg ->
  run (build_disparity_map cg') m = run (build_disparity_map cg) m.
Proof.
  intros E. unfold build_disparity_map. rewrite E. cbv zeta. rewrite !(cbind_assoc_run (lift _)).
  destruct (run (lift _) m) as [[dat m1]|e]; cbn [bind fst snd]; [|reflexivity].
  rewrite !(cbind_assoc_run (cloop _ _ _)).
  erewrite run_cloop_ext; [reflexivity|]. intros p st m2 _. cbn beta. rewrite !cbind_assoc_run, (find_label_re cg cg') by exact E. reflexivity.
Qed.

Lemma threshold_unique srt srt' (g : dgraph T) lp l l' t t' : sorts srt -> sorts srt' ->
  wf_graph g -> make_lowest g = Ok lp -> finite_penalties g -> zero_reparam g -> nonneg_weights g ->
  fetch_available_penalties srt lp = Ok l -> fetch_available_penalties srt' lp = Ok l' ->
  calculate_minimal_consistent_threshold lp g l = Ok t ->
  calculate_minimal_consistent_threshold lp g l' = Ok t' -> feq t t' = true.
Proof.
  assert (H : forall srt srt' (g : dgraph T) lp l l' t t', sorts srt -> sorts srt' ->
    wf_graph g -> make_lowest g = Ok lp -> finite_penalties g -> zero_reparam g -> nonneg_weights g ->
    fetch_available_penalties srt lp = Ok l -> fetch_available_penalties srt' lp = Ok l' ->
    calculate_minimal_consistent_threshold lp g l = Ok t ->
    calculate_minimal_consistent_threshold lp g l' = Ok t' -> fle t t' = true).
  { clear srt srt' g lp l l' t t'. intros srt srt' g lp l l' t t' Hs Hs' Hw Hl Hf Hz Hn E E' Et Et'.
    destruct (threshold_spec HL srt g lp l Hs Hw Hl Hf E) as [t0 [n [X1 [_ [X2 [X3 [X4 _]]]]]]].
    { exact (candidates_fit HL srt g lp l Hs Hw Hl Hf Hz Hn E). }
    assert (t0 = t) by congruence. subst t0.
    destruct (threshold_spec HL srt' g lp l' Hs' Hw Hl Hf E') as [t0 [n' [Y1 [_ [Y2 [Y3 [Y4 _]]]]]]].
    { exact (candidates_fit HL srt' g lp l' Hs' Hw Hl Hf Hz Hn E'). }
    assert (t0 = t') by congruence. subst t0.
    destruct (fetch_spec HL srt g lp Hs Hw Hl Hf) as [l0 [Z1 [Z2 [Z3 [Z4 Z5]]]]].
    assert (l0 = l) by congruence. subst l0.
    destruct (fetch_spec HL srt' g lp Hs' Hw Hl Hf) as [l0 [V1 [V2 [V3 [V4 V5]]]]].
    assert (l0 = l') by congruence. subst l0.
    destruct (Z5 t' (V4 t' Y2)) as [y [Hy Q]]. apply (feq_spec T HL) in Q. destruct Q as [Q1 Q2].
    assert (Sy : solvable g lp y = true) by (eapply (solvable_mono HL); eassumption).
    destruct (flt y t) eqn:Lt; [rewrite (X4 y Hy Lt) in Sy; discriminate|].
    eapply (fle_trans T HL); [|exact Q1].
    destruct (fle_total T HL t y (Z3 t X2) (Z3 y Hy)) as [A|A]; [exact A|].
    destruct (fle t y) eqn:B; [reflexivity|]. rewrite (proj2 (flt_spec T HL y t) (conj A B)) in Lt. discriminate. }
  intros. apply (feq_spec T HL). split; [apply (H srt srt' g lp l l')|apply (H srt' srt g lp l' l)]; assumption.
Qed.

Lemma solve_same srt srt' l r lev (c s : F T) g : sorts srt -> sorts srt' ->
  make_graph l r lev c s = Ok g -> consistent_image l -> consistent_image r ->
  width l * height l * 4 * lev < wmod T -> finite_penalties g ->
  solve_problem srt l r lev c s = solve_problem srt' l r lev c s.
Proof.
  intros Hs Hs' Eg Cl Cr Hsz Hf. destruct (make_graph_wf l r lev c s g Eg Cl Cr Hsz) as [Hw Hz].
  assert (Hn : nonneg_weights g).
  { destruct (make_graph_Ok l r lev c s g Eg) as [_ [_ [_ [_ [_ [_ [_ [Nc [Ns [_ [_ E]]]]]]]]]]]. rewrite E. split; assumption. }
  destruct (make_lowest_spec g Hw) as [lp [El _]].
  destruct (candidates_complete HL srt g lp Hs Hw El Hf) as [cands [Ef _]].
  destruct (candidates_complete HL srt' g lp Hs' Hw El Hf) as [cands' [Ef' _]].
  destruct (minimal_threshold HL srt g lp cands Hs Hw El Hf Ef) as [t [n [Et _]]]; [left; split; assumption|].
  destruct (minimal_threshold HL srt' g lp cands' Hs' Hw El Hf Ef') as [t' [n' [Et' _]]]; [left; split; assumption|].
  pose proof (threshold_unique srt srt' g lp cands cands' t t' Hs Hs' Hw El Hf Hz Hn Ef Ef' Et Et') as Q.
  destruct (make_constraint_spec g lp t Hw El) as [cg [Ec [C [Gc [Lc [Tc _]]]]]].
  pose proof (make_constraint_re g lp t t' cg Hw El Q Ec) as Ec'.
  unfold solve_problem. rewrite Eg. cbn [bind]. rewrite El. cbn [bind]. rewrite Ef, Ef'. cbn [bind]. rewrite Et, Et'. cbn [bind].
  rewrite Ec, Ec'. cbn [bind]. rewrite <- Tc in Q.
  pose proof (wf_static cg C) as St. pose proof (wfc_avail cg C) as Hm.
  unfold exec. cbn [retarget cg_avail]. change (mem_ok cg (cg_avail cg)) in Hm.
  rewrite (run_solve_re cg t' Q _ St Hm). unfold solve_csp.
  rewrite (run_solve_csp cg _ 2 St Hm (le_n 2)). cbn [bind].
  pose proof (solved_ok cg (cg_avail cg) Hm) as M2. destruct (solved cg (cg_avail cg)) as [ok m2]. cbn [fst snd] in *.
  destruct ok; cbn [negb]; [|reflexivity]. cbn [with_avail cg_avail]. unfold find_labeling.
  change (label_pixels (with_avail (retarget cg t') m2) (column_order (cg_graph (with_avail (retarget cg t') m2))))
    with (label_pixels (retarget (with_avail cg m2) t') (column_order (cg_graph cg))).
  change (column_order (cg_graph (with_avail cg m2))) with (column_order (cg_graph cg)).
  rewrite (run_label_re (with_avail cg m2) t' Q _ m2).
  - destruct (run (label_pixels (with_avail cg m2) (column_order (cg_graph cg))) m2) as [[b m3]|e]; cbn [bind fst snd]; [|reflexivity].
    destruct b; cbn [negb]; [|reflexivity].
    change (cg_avail (with_avail (with_avail (retarget cg t') m2) m3)) with m3.
    change (cg_avail (with_avail (with_avail cg m2) m3)) with m3.
    rewrite (build_re (with_avail (with_avail cg m2) m3) (with_avail (with_avail (retarget cg t') m2) m3)) by reflexivity.
    destruct (run (build_disparity_map _) m3) as [[img m4]|e]; reflexivity.
  - destruct St as [A B]. constructor; assumption.
  - exact M2.
  - intros p Hp. rewrite Gc in Hp. rewrite (column_order_eq g Hw) in Hp. cbn [with_avail cg_graph]. rewrite Gc. apply In_all_pixels. exact Hp.
Qed.
End Sorts.
