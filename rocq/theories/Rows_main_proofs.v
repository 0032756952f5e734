(** Problems whose rows do not restrict each other, from the threshold to the
    application: lemmas. *)
From Coq Require Import Lia.
From Verif Require Export Rows_run_proofs.
Local Open Scope N_scope.

(** Whatever [x] does, it is [y]. *)
Definition only {A} (x : outcome A -> Prop) (y : outcome A) : Prop := forall o, x o -> o = y.
Lemma only_does {A} (y : outcome A) : only (does y) y.
Proof. intros o H. exact H. Qed.
Lemma only_then {A B} (x : outcome A -> Prop) y (f : A -> outcome B -> Prop) h :
  only x y -> (forall a, y = Ok a -> only (f a) (h a)) -> only (and_then x f) (bind y h).
Proof.
  intros X F o [[a [Xa Fa]]|[e [Xe ->]]].
  - apply X in Xa. subst y. cbn [bind]. apply (F a eq_refl); assumption.
  - apply X in Xe. subst y. reflexivity.
Qed.

Section Graph.
Context {T : target}.
Implicit Type cg : cgraph T.
Notation G cg := (cg_graph cg).

(** Rows are apart if the number of levels is a multiple of the size of words. *)
Lemma multiple_apart (wb : N) (g : dgraph T) : wf_graph g -> wb <> 0 -> levels g mod wb = 0 -> rows_apart wb g.
Proof.
  intros Hw Hb Hm n n' Hn Hd Hn' Hd' E.
  rewrite (proj1 (node_index_small g n Hw Hn Hd)), (proj1 (node_index_small g n' Hw Hn' Hd')) in E.
  set (H := height (right g)) in *. set (q := levels g / wb).
  assert (El : levels g = wb * q) by (unfold q; pose proof (N.div_mod (levels g) wb Hb); lia).
  assert (Hq : q <> 0) by (intros Z; rewrite Z in El; lia).
  assert (D : forall a d, d < levels g -> ((a * levels g + d) / wb) / q = a).
  { intros a d Ld. rewrite N.div_div by assumption. rewrite <- El. rewrite N.div_add_l by lia. rewrite N.div_small by exact Ld. lia. }
  assert (R : px (npix n) * H + py (npix n) = px (npix n') * H + py (npix n')).
  { rewrite <- (D (px (npix n) * H + py (npix n)) (disp n) Hd), <- (D (px (npix n') * H + py (npix n')) (disp n') Hd'). rewrite E. reflexivity. }
  destruct Hn as [_ Hy], Hn' as [_ Hy']. fold H in Hy, Hy'.
  assert (M : forall x y, y < H -> (x * H + y) mod H = y).
  { intros x y Ly. rewrite N.add_comm, N.mod_add by lia. apply N.mod_small. exact Ly. }
  rewrite <- (M (px (npix n)) _ Hy), <- (M (px (npix n')) _ Hy'). rewrite R. reflexivity.
Qed.
Lemma one_row_apart (wb : N) (g : dgraph T) : height (right g) = 1 -> rows_apart wb g.
Proof. intros H n n' [_ Hn] _ [_ Hn'] _ _. lia. Qed.
Lemma one_row_separate cg : height (right (G cg)) = 1 -> separate_rows cg.
Proof. intros H n n' [[_ M] _] [[_ M'] _] V. exfalso. unfold vertical_pair in V. lia. Qed.

Context (HL : laws T).

Lemma candidate_nonneg (g : dgraph T) lp c : wf_graph g -> make_lowest g = Ok lp -> finite_penalties g -> zero_reparam g -> nonneg_weights g ->
  candidate g lp c -> fle fzero c = true.
Proof.
  intros Hw Hl Hf Hz Hn [[n [M E]]|[e [[M [M' [A _]]] E]]].
  - eapply (node_excess_nonneg HL); eassumption.
  - destruct e as [n n']. cbn [enode enbr] in *.
    destruct (edge_excess_zero HL g lp n n' Hw Hl Hz Hf Hn M M' A) as [c' [E' Q]].
    assert (c' = c) by (eapply edge_excess_fun; eassumption). subst c'.
    eapply (fle_trans T HL); [apply (epen_nonneg HL g (disp n) (disp n')); [apply (epen_fin HL g n n'); assumption|apply Hn]|].
    apply (feq_ge HL). exact Q.
Qed.

Lemma search_In (g : dgraph T) lp l fuel : forall start stop calls r, threshold_search g lp l fuel start stop calls = Ok r -> In (fst r) l.
Proof.
  induction fuel as [|fuel IH]; intros start stop calls r E; cbn [threshold_search] in E; [discriminate|].
  destruct (start <? stop).
  - destruct (get l (uadd T start stop / 2)) as [t|]; [|discriminate]. cbn [bind] in E.
    destruct (make_constraint g lp t) as [cg|]; [|discriminate]. cbn [bind] in E.
    destruct (exec solve_csp cg) as [[b cg']|]; [|discriminate]. cbn [bind fst] in E. destruct b; eapply IH; exact E.
  - destruct (get l (uadd T start stop / 2)) as [t|] eqn:Et; [|discriminate]. cbn [bind] in E. injection E as <-. eapply get_In; exact Et.
Qed.

Section Team.
Variable v : team.
Hypothesis Hv : exact_team v.

(** The problems of a graph whose rows do not restrict each other. *)
Definition independent (g : dgraph T) : Prop :=
  rows_apart (t_word v) g /\ height (right g) + 2 ^ 31 <= wmod T /\
  forall lp t cg, make_lowest g = Ok lp -> fle fzero t = true -> make_constraint g lp t = Ok cg -> plain_problem cg /\ separate_rows cg.

Lemma csp_only cg : plain_problem cg -> separate_rows cg -> rows_apart (t_word v) (G cg) -> height (right (G cg)) + 2 ^ 31 <= wmod T ->
  only (csp_omp v cg) (exec solve_csp cg).
Proof. intros P Sep Ap Hh o O. apply (csp_rows HL v); assumption. Qed.

Lemma search_only (g : dgraph T) lp l fuel : wf_graph g -> make_lowest g = Ok lp -> independent g ->
  (forall c, In c l -> fle fzero c = true) -> forall start stop calls,
  only (search_omp v g lp l fuel start stop) (r <- threshold_search g lp l fuel start stop calls ;; Ok (fst r)).
Proof.
  intros Hw El [Ap [Hh Ind]] Hl. induction fuel as [|fuel IH]; intros start stop calls; cbn [search_omp threshold_search]; [apply only_does|].
  destruct (start <? stop).
  - rewrite bind_assoc. apply only_then; [apply only_does|]. intros t Et.
    assert (Nt : fle fzero t = true).
    { apply Hl. eapply get_In; exact Et. }
    rewrite bind_assoc. apply only_then; [apply only_does|]. intros cg Ec.
    destruct (Ind lp t cg El Nt Ec) as [P Sep]. destruct (make_constraint_Ok g lp t cg Hw El Ec) as [_ [Eg _]].
    rewrite bind_assoc. apply only_then.
    + apply csp_only; try assumption; rewrite Eg; assumption.
    + intros [b cg'] _. cbn [fst]. destruct b; apply IH.
  - rewrite bind_assoc. cbn [bind fst]. destruct (get l (uadd T start stop / 2)); apply only_does.
Qed.

Lemma plain_with cg m : plain_problem cg -> mem_ok cg m -> plain_problem (with_avail cg m).
Proof. intros P Hm. pose proof (wf_static cg (pp_wf cg P)) as Hs. destruct P as [Hc Hl Hz Hf Hn]. constructor; try assumption. apply static_wf; assumption. Qed.

Lemma label_only_at cg l : plain_problem cg -> separate_rows cg -> rows_apart (t_word v) (G cg) -> height (right (G cg)) + 2 ^ 31 <= wmod T ->
  (forall p, In p l -> in_image (cg_graph cg) p) -> forall m, mem_ok cg m ->
  only (label_omp v l (with_avail cg m)) (r <- run (label_pixels cg l) m ;; Ok (fst r, with_avail cg (snd r))).
Proof.
  intros P Sep Ap Hh. pose proof (wf_static cg (pp_wf cg P)) as Hs.
  induction l as [|p l IH]; intros Hp m Hm; cbn [label_omp label_pixels]; [apply only_does|].
  destruct (run_choose cg m p HL Hs Hm (Hp p (or_introl eq_refl))) as [b [m1 [E1 [Hm1 _]]]].
  assert (Ec : exec (fun cg => choose_best_node cg p) (with_avail cg m) = Ok (b, with_avail cg m1)).
  { unfold exec. change (choose_best_node (with_avail cg m) p) with (choose_best_node cg p). cbn [with_avail cg_avail]. rewrite E1. reflexivity. }
  rewrite Ec, cbind_assoc_run, E1. cbn [bind].
  apply (only_then _ (Ok (b, with_avail cg m1)) _ (fun x => r <- run (if negb (fst x) then Ret false else
        s <== solve_csp cg ;; if negb s then Ret false else label_pixels cg l) m1 ;; Ok (fst r, with_avail cg (snd r)))); [apply only_does|].
  intros x E. injection E as <-. cbn [fst snd]. destruct b; cbn [negb]; [|apply only_does].
  assert (Hc1 : wf_cgraph (with_avail cg m1)) by (apply static_wf; assumption).
  rewrite cbind_assoc_run, run_solve_one by assumption. cbn [bind].
  pose proof (csp_only (with_avail cg m1) (plain_with cg m1 P Hm1) (separate_with cg m1 Sep) Ap Hh) as C. rewrite exec_solve_csp in C by exact Hc1.
  change (cg_avail (with_avail cg m1)) with m1 in C. rewrite solved_with in C.
  apply (only_then _ _ _ (fun _ => r <- run (if negb (fst (solved cg m1)) then Ret false else label_pixels cg l) (snd (solved cg m1)) ;;
    Ok (fst r, with_avail cg (snd r))) C).
  intros x E. injection E as <-. cbn [fst snd]. destruct (fst (solved cg m1)); cbn [negb]; [|apply only_does].
  apply IH; [intros q Hq; apply Hp; right; exact Hq|]. apply solved_ok. exact Hm1.
Qed.

Lemma label_only l cg : plain_problem cg -> separate_rows cg -> rows_apart (t_word v) (G cg) -> height (right (G cg)) + 2 ^ 31 <= wmod T ->
  (forall p, In p l -> in_image (cg_graph cg) p) -> only (label_omp v l cg) (exec (fun cg => label_pixels cg l) cg).
Proof.
  intros P Sep Ap Hh Hp. pose proof (label_only_at cg l P Sep Ap Hh Hp (cg_avail cg) (wfc_avail cg (pp_wf cg P))) as H.
  rewrite with_avail_same in H. exact H.
Qed.

Lemma solve_only srt l r lev (c s : F T) : sorts srt -> consistent_image l -> consistent_image r ->
  (forall g, make_graph l r lev c s = Ok g -> width l * height l * 4 * lev < wmod T /\ finite_penalties g /\ independent g) ->
  only (solve_problem_omp v srt l r lev c s) (solve_problem srt l r lev c s).
Proof.
  intros Hsrt Cl Cr Hsz. unfold solve_problem_omp, solve_problem.
  apply only_then; [apply only_does|]. intros g Eg. destruct (Hsz g Eg) as [Fit [Hf Ind]].
  destruct (make_graph_wf l r lev c s g Eg Cl Cr Fit) as [Hw Hz].
  assert (Hn : nonneg_weights g).
  { destruct (make_graph_Ok l r lev c s g Eg) as [_ [_ [_ [_ [_ [_ [_ [Nc [Ns [_ [_ E]]]]]]]]]]]. rewrite E. split; assumption. }
  apply only_then; [apply only_does|]. intros lp El.
  apply only_then; [apply only_does|]. intros cands Ef.
  destruct (candidates_complete HL srt g lp Hsrt Hw El Hf) as [cands' [Ef' [_ [_ [Cs _]]]]].
  assert (cands' = cands) by congruence. subst cands'.
  assert (Nc : forall c, In c cands -> fle fzero c = true) by (intros x Hx; eapply candidate_nonneg; try eassumption; apply Cs; exact Hx).
  apply only_then; [apply search_only; assumption|]. intros t Et.
  assert (Nt : fle fzero t = true).
  { apply Nc. unfold calculate_minimal_consistent_threshold in Et.
    destruct (threshold_search g lp cands _ _ _ _) as [r0|] eqn:Es; [|discriminate]. cbn [bind] in Et. injection Et as <-. eapply search_In; exact Es. }
  apply only_then; [apply only_does|]. intros cg Ec. destruct (make_constraint_Ok g lp t cg Hw El Ec) as [Hc [Gc _]].
  destruct Ind as [Ap [Hh Ind]]. destruct (Ind lp t cg El Nt Ec) as [P Sep]. rewrite <- Gc in Ap, Hh.
  apply only_then; [apply csp_only; assumption|]. intros [b1 cg1] E. cbn [fst snd]. destruct b1; cbn [negb]; [|apply only_does].
  rewrite exec_solve_csp in E by exact Hc. injection E as _ <-.
  pose proof (wf_static cg Hc) as Hs. pose proof (solved_ok cg (cg_avail cg) (wfc_avail cg Hc)) as Hm1.
  apply only_then.
  - apply label_only; try assumption; [apply plain_with; assumption|].
    change (cg_graph (with_avail cg (snd (solved cg (cg_avail cg))))) with (cg_graph cg).
    rewrite (column_order_eq (cg_graph cg) (st_graph cg Hs)). intros p Hp. apply In_all_pixels in Hp. exact Hp.
  - intros [b2 cg2] _. cbn [fst snd]. destruct b2; cbn [negb]; [|apply only_does].
    apply only_then; [apply only_does|]. intros x _. apply only_does.
Qed.
End Team.
End Graph.

(** *** The application *)

Lemma cpu_independent v (g : dgraph cpu) : wf_graph g -> finite_penalties g -> zero_reparam g -> nonneg_weights g ->
  height (right g) + 2 ^ 31 <= wmod cpu -> height (right g) = 1 \/ (no_smoothness g /\ t_word v <> 0 /\ levels g mod t_word v = 0) ->
  independent v g.
Proof.
  intros Hw Hf Hz Hn Hh C. split; [|split; [exact Hh|]].
  - destruct C as [C|[_ [C1 C2]]]; [apply one_row_apart; exact C|apply multiple_apart; assumption].
  - intros lp t cg El Nt Ec. destruct (make_constraint_Ok g lp t cg Hw El Ec) as [_ [Eg [_ [Et _]]]].
    pose proof (plain_made cpu_laws g lp t cg Hw El Ec Hz Hf Hn) as P. split; [exact P|].
    destruct C as [C|[C _]]; [apply one_row_separate; rewrite Eg; exact C|].
    apply (no_smoothness_separate cpu_laws); [exact cpu_zero_factor|exact P|rewrite Eg; exact C|rewrite Et; exact Nt].
Qed.

Lemma map_only v srt w o lpath rpath : sorts srt -> usable_files w -> exact_team v -> rows_alone (t_word v) w o ->
  o_left o = Some lpath -> o_right o = Some rpath ->
  only (map_omp v srt w o lpath rpath) (disparity_map_of srt w o lpath rpath).
Proof.
  intros Hsrt U Hv Al E1 E2. unfold map_omp, disparity_map_of.
  apply only_then; [apply only_does|]. intros l El. apply only_then; [apply only_does|]. intros r Er.
  apply only_then; [apply only_does|]. intros lev Elev. apply only_then; [apply only_does|]. intros c Ec.
  apply only_then; [apply only_does|]. intros s Es.
  apply read_held in El. apply read_held in Er. apply number_value in Elev. apply number_value in Ec. apply number_value in Es.
  specialize (Al lpath rpath l r lev s E1 E2 El Er Elev Es).
  destruct (held_usable w lpath l U El) as [S1 S2]. destruct (held_usable w rpath r U Er) as [S3 _].
  pose proof (held_consistent _ _ _ El) as Cl. pose proof (held_consistent _ _ _ Er) as Cr.
  apply (solve_only cpu_laws v Hv); try assumption. intros g Eg.
  pose proof (problem_fits _ _ _ _ _ _ Eg S2) as Fit. split; [exact Fit|].
  assert (Hf : finite_penalties g).
  { eapply made_finite; try eassumption; try (eapply number_small; [|eassumption]; reflexivity).
    intros u [Hu|Hu]; [apply (proj2 (held_small _ _ _ El) u Hu)|apply (proj2 (held_small _ _ _ Er) u Hu)]. }
  split; [exact Hf|].
  destruct (make_graph_Ok l r lev _ _ g Eg) as [_ [_ [_ [Lw [Ww [Wh [_ [Nc [Ns [_ [_ E]]]]]]]]]]].
  destruct (make_graph_wf l r lev _ _ g Eg Cl Cr Fit) as [Hw Hz].
  assert (Eh : height (right g) = height r /\ width (right g) = width r) by (rewrite E; split; reflexivity). destruct Eh as [Eh Ewd].
  apply cpu_independent; try assumption.
  - rewrite E. split; assumption.
  - pose proof (wf_levels g Hw). pose proof (wf_levels_width g Hw). rewrite Ewd in *. rewrite Eh. change (wmod cpu) with (2 ^ 64).
    assert (height r <= width r * height r) by nia. lia.
  - destruct Al as [Al|[-> Al]]; [left; rewrite Eh; exact Al|right].
    assert (Q : levels g = lev /\ smoothness g = of_u 0) by (rewrite E; split; reflexivity). destruct Q as [Q1 Q2]. rewrite Q1.
    split; [|exact Al]. unfold no_smoothness. rewrite Q2. vm_compute. reflexivity.
Qed.

Lemma rows_main v srt w p e : sorts srt -> usable_files w -> exact_team v -> (forall o, p = Parsed o -> rows_alone (t_word v) w o) ->
  main_omp v srt w p e -> e = main srt w p.
Proof.
  intros Hsrt U Hv Al M. destruct p as [o| |]; [|exact M..]. specialize (Al o eq_refl). unfold main_omp in M. unfold main.
  destruct (o_output o) as [out|] eqn:E1, (o_left o) as [l|] eqn:E2, (o_right o) as [r|] eqn:E3;
    try (destruct (_ || _); [exact M|]; destruct (_ =? _); exact M).
  destruct (parallel_cases o) as [[_ E]|[_ E]]; rewrite E in *; [|exact M].
  destruct M as [x [Mx ->]]. rewrite (map_only v srt w o l r Hsrt U Hv Al E2 E3 x Mx). reflexivity.
Qed.

Lemma exact_ok v : exact_team v -> team_ok v.
Proof. intros [_ V] bound jobs B. apply (V bound jobs B). Qed.

Lemma rows_main_iff v srt w p e bound jobs : sorts srt -> usable_files w -> exact_team v -> t_size v bound jobs ->
  (forall o, p = Parsed o -> rows_alone (t_word v) w o) -> main_omp v srt w p e <-> e = main srt w p.
Proof.
  intros Hsrt U Hv B Al. split; [apply rows_main; assumption|]. intros ->.
  destruct (some_run v srt w p bound jobs U (exact_ok v Hv) B) as [e M]. pose proof (rows_main v srt w p e Hsrt U Hv Al M) as E. rewrite <- E. exact M.
Qed.
