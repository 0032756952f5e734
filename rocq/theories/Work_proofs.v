(** Bounds on the work of the solver and of the labeling. *)
From Coq Require Import Lia.
From Verif Require Import Work_spec Base_proofs Indexing_proofs Constraint_proofs Solver_proofs Label_proofs Threshold_proofs.
Local Open Scope N_scope.

Lemma accesses_bind {A B} (c : cmd A) (f : A -> cmd B) m :
  accesses (cbind c f) m =
  accesses c m + match run c m with Ok (a, m') => accesses (f a) m' | Stop _ => 0 end.
Proof.
  revert m; induction c as [a|s|i k IH|i b k IH]; intros m; cbn [cbind accesses run].
  - lia.
  - lia.
  - destruct (get m i); cbn [bind]; [rewrite IH; lia|lia].
  - destruct (set m i b); cbn [bind]; [rewrite IH; lia|lia].
Qed.

Definition atmost {A} (n : N) (c : cmd A) : Prop := forall m, accesses c m <= n.

Lemma atmost_ret {A} n (a : A) : atmost n (Ret a). Proof. intros m. cbn [accesses]. apply N.le_0_l. Qed.
Lemma atmost_lift {A} n (o : outcome A) : atmost n (lift o).
Proof. intros m. destruct o; cbn [lift accesses]; apply N.le_0_l. Qed.
Lemma atmost_le {A} n n' (c : cmd A) : atmost n c -> n <= n' -> atmost n' c.
Proof. intros H L m. specialize (H m). lia. Qed.
Lemma atmost_bind {A B} n k (c : cmd A) (f : A -> cmd B) :
  atmost n c -> (forall a, atmost k (f a)) -> atmost (n + k) (cbind c f).
Proof.
  intros H K m. rewrite accesses_bind. specialize (H m).
  destruct (run c m) as [[a m']|]; [specialize (K a m')|]; lia.
Qed.
Lemma atmost_read {A} n i (k : bool -> cmd A) : (forall b, atmost n (k b)) -> atmost (1 + n) (Read i k).
Proof. intros H m. cbn [accesses]. destruct (get m i) as [b|]; [specialize (H b m)|]; lia. Qed.
Lemma atmost_write {A} n i b (k : cmd A) : atmost n k -> atmost (1 + n) (Write i b k).
Proof. intros H m. cbn [accesses]. destruct (set m i b) as [m'|]; [specialize (H m')|]; lia. Qed.
Lemma atmost_cloop {A S} n (l : list A) (body : A -> S -> cmd S) :
  (forall a s, atmost n (body a s)) -> forall s, atmost (len l * n) (cloop l body s).
Proof.
  intros H. induction l as [|a l IH]; intros s; cbn [cloop]; [apply atmost_ret|].
  eapply atmost_le; [apply atmost_bind; [apply H|intros s'; apply IH]|]. rewrite len_cons. lia.
Qed.
Lemma atmost_cexists {A} n (l : list A) (test : A -> cmd bool) :
  (forall a, atmost n (test a)) -> atmost (len l * n) (cexists l test).
Proof.
  intros H. induction l as [|a l IH]; cbn [cexists]; [apply atmost_ret|].
  eapply atmost_le; [apply atmost_bind; [apply H|intros b]|].
  - instantiate (1 := len l * n). destruct b; [apply atmost_ret|apply IH].
  - rewrite len_cons. lia.
Qed.

Lemma len_take {A} f (l : list A) : len (take_while f l) <= len l.
Proof.
  induction l as [|a l IH]; cbn [take_while]; [lia|].
  destruct (f a); rewrite ?len_cons; [lia|]. rewrite len_nil. lia.
Qed.

Section Graph.
Context {T : target}.
Implicit Type cg : cgraph T.

Lemma len_disparities (g : dgraph T) x from : len (disparities g x from) <= levels g.
Proof. unfold disparities, range_while. etransitivity; [apply len_take|]. rewrite len_range. lia. Qed.
Lemma len_disparities_right (g : dgraph T) x : len (disparities_right g x) <= levels g.
Proof. unfold disparities_right, range_while. etransitivity; [apply len_take|]. rewrite len_range. lia. Qed.

Notation Lc cg := (levels (cg_graph cg)).
Notation Wc cg := (width (right (cg_graph cg))).
Notation Hc cg := (height (right (cg_graph cg))).

Lemma most_available cg n : atmost 1 (is_node_available cg n).
Proof. unfold is_node_available. apply (atmost_read 0). intros b. apply atmost_ret. Qed.
Lemma most_unavailable cg n : atmost 1 (make_node_unavailable cg n).
Proof. unfold make_node_unavailable. apply (atmost_write 0). apply atmost_ret. Qed.

Lemma most_edge cg e : atmost 2 (is_edge_available cg e).
Proof.
  unfold is_edge_available.
  apply (atmost_bind 0 2); [apply atmost_lift|]. intros p.
  apply (atmost_bind 0 2); [apply atmost_lift|]. intros q.
  destruct (fle _ _); [|apply atmost_ret].
  apply (atmost_bind 1 1); [apply most_available|]. intros a. destruct a; [|apply atmost_ret].
  apply (atmost_bind 1 0); [apply most_available|]. intros b. destruct b; apply atmost_ret.
Qed.

Lemma most_edges cg n q : atmost (2 * Lc cg) (has_edge_to cg n q).
Proof.
  unfold has_edge_to. eapply atmost_le; [apply (atmost_cexists 2); intros d; apply most_edge|].
  pose proof (len_disparities (cg_graph cg) (px q) (@first_disparity T n q)). lia.
Qed.

Lemma most_remove cg n : atmost (8 * Lc cg + 1) (should_remove_node cg n).
Proof.
  unfold should_remove_node.
  eapply atmost_le; [apply (atmost_bind 1 (8 * Lc cg)); [apply most_available|]|lia]. intros a.
  destruct (negb a); [apply atmost_ret|].
  eapply atmost_le; [apply (atmost_cexists (2 * Lc cg))|].
  - intros k. destruct (negb _); [apply atmost_ret|].
    eapply atmost_le; [apply (atmost_bind (2 * Lc cg) 0); [apply most_edges|intros b; apply atmost_ret]|lia].
  - rewrite len_range. unfold NEIGHBORS_COUNT. lia.
Qed.

Lemma most_process cg p : atmost (Lc cg * (8 * Lc cg + 2)) (csp_process_pixel cg p).
Proof.
  unfold csp_process_pixel. eapply atmost_le; [apply (atmost_cloop (8 * Lc cg + 2))|].
  - intros d ch. eapply atmost_le; [apply (atmost_bind (8 * Lc cg + 1) 1); [apply most_remove|]|lia].
    intros b. destruct b; [|apply atmost_ret].
    apply (atmost_bind 1 0); [apply most_unavailable|]. intros u. apply atmost_ret.
  - apply N.mul_le_mono_r. apply len_disparities_right.
Qed.

Lemma most_pixel cg p : atmost (Lc cg) (pixel_available cg p).
Proof.
  unfold pixel_available. eapply atmost_le; [apply (atmost_cloop 1)|].
  - intros d pa. apply (atmost_bind 1 0); [apply most_available|]. intros a. apply atmost_ret.
  - pose proof (len_disparities_right (cg_graph cg) (px p)). lia.
Qed.

Lemma most_row cg y xs pa : atmost (len xs * (Lc cg * (8 * Lc cg + 3))) (sweep_row cg y xs pa).
Proof.
  revert pa; induction xs as [|x xs IH]; intros pa; cbn [sweep_row]; [apply atmost_ret|].
  eapply atmost_le.
  - apply atmost_bind; [apply most_process|]. intros u.
    apply atmost_bind; [apply most_pixel|]. intros b.
    instantiate (1 := len xs * (Lc cg * (8 * Lc cg + 3))). destruct b; [apply IH|apply atmost_ret].
  - rewrite len_cons. nia.
Qed.

Lemma most_rows cg fuel y pa : Hc cg < wmod T ->
  atmost ((Hc cg - y) * (Wc cg * (Lc cg * (8 * Lc cg + 3)))) (sweep_rows cg fuel 1 y pa).
Proof.
  intros HW. revert y pa; induction fuel as [|f IH]; intros y pa; cbn [sweep_rows].
  { intros m. cbn [accesses]. apply N.le_0_l. }
  destruct (N.ltb_spec y (Hc cg)) as [Hy|Hy]; [|apply atmost_ret].
  rewrite uadd_small by lia.
  eapply atmost_le.
  - apply atmost_bind; [apply most_row|]. intros b.
    instantiate (1 := (Hc cg - (y + 1)) * (Wc cg * (Lc cg * (8 * Lc cg + 3)))).
    destruct b; [apply IH|apply atmost_ret].
  - rewrite len_range, N.sub_0_r. set (R := Wc cg * _).
    replace (Hc cg - y) with (1 + (Hc cg - (y + 1))) by lia. lia.
Qed.

Lemma count_le (g : dgraph T) : nodes_count g <= width (right g) * height (right g) * levels g.
Proof.
  assert (M : forall a b, umul T a b <= a * b).
  { intros a b. unfold umul. destruct (N.eq_dec (wmod T) 0) as [->|X]; [destruct (a * b); apply N.le_refl|apply N.mod_le; exact X]. }
  unfold nodes_count. etransitivity; [apply M|]. apply N.mul_le_mono_r. apply M.
Qed.

Lemma most_check cg : atmost (Wc cg * Hc cg * Lc cg) (check_nodes_left cg).
Proof.
  unfold check_nodes_left. eapply atmost_le; [apply (atmost_cexists 1)|].
  - intros i. apply (atmost_read 0). intros b. apply atmost_ret.
  - rewrite len_range. pose proof (count_le (cg_graph cg)). lia.
Qed.
Lemma most_clear cg : atmost (Wc cg * Hc cg * Lc cg) (make_all_nodes_unavailable cg).
Proof.
  unfold make_all_nodes_unavailable. eapply atmost_le; [apply (atmost_cloop 1)|].
  - intros i u. apply (atmost_write 0). apply atmost_ret.
  - rewrite len_range. pose proof (count_le (cg_graph cg)). lia.
Qed.

Notation V cg := (Wc cg * Hc cg * Lc cg).

Lemma most_iteration cg : Hc cg < wmod T -> atmost (V cg * (8 * Lc cg + 5)) (csp_solution_iteration cg 1 0).
Proof.
  intros HW. unfold csp_solution_iteration. destruct (_ <=? _); [apply atmost_ret|].
  eapply atmost_le.
  - apply atmost_bind; [apply most_rows; exact HW|]. intros pa. instantiate (1 := V cg + V cg).
    destruct (negb pa); [|apply atmost_ret].
    apply atmost_bind; [apply most_check|]. intros c. destruct (negb c); [apply atmost_ret|].
    eapply atmost_le; [apply (atmost_bind (V cg) 0); [apply most_clear|intros u; apply atmost_ret]|lia].
  - nia.
Qed.

Lemma most_round cg : Hc cg < wmod T -> atmost (V cg * (8 * Lc cg + 5)) (csp_round cg 1 1).
Proof.
  intros HW. unfold csp_round. rewrite (range_cons 0 1), (range_nil (0 + 1) 1) by lia. cbn [cloop].
  eapply atmost_le; [apply (atmost_bind (V cg * (8 * Lc cg + 5)) 0)|lia].
  - eapply atmost_le; [apply (atmost_bind (V cg * (8 * Lc cg + 5)) 0); [apply most_iteration; exact HW|intros r; apply atmost_ret]|lia].
  - intros b. apply atmost_ret.
Qed.

Lemma most_solve cg : Hc cg < wmod T -> atmost (V cg * (16 * Lc cg + 11)) (solve_csp cg).
Proof.
  intros HW. unfold solve_csp, solve_csp_fuel. cbn [csp_rounds].
  eapply atmost_le.
  - apply atmost_bind; [|intros u; apply most_check].
    apply atmost_bind; [apply most_round; exact HW|]. intros c.
    instantiate (1 := V cg * (8 * Lc cg + 5)). destruct c; [|apply atmost_ret].
    eapply atmost_le; [apply (atmost_bind (V cg * (8 * Lc cg + 5)) 0); [apply most_round; exact HW|]|lia].
    intros c. destruct c; [intros m; cbn [accesses]; apply N.le_0_l|apply atmost_ret].
  - nia.
Qed.

(** More fuel changes nothing once the rounds have come to an end. *)
Lemma rounds_fuel cg f k bound jobs m r : run (csp_rounds cg f bound jobs) m = Ok r ->
  run (csp_rounds cg (f + k) bound jobs) m = Ok r /\
  accesses (csp_rounds cg (f + k) bound jobs) m = accesses (csp_rounds cg f bound jobs) m.
Proof.
  revert m; induction f as [|f IH]; intros m E; [discriminate|]. cbn [csp_rounds Nat.add] in *.
  rewrite !accesses_bind. apply run_bind_Ok in E. destruct E as [c [m1 [E1 E2]]].
  rewrite cbind_assoc_run, E1. cbn [bind fst snd]. destruct c; [|split; [exact E2|reflexivity]].
  destruct (IH _ E2) as [A B]. split; [exact A|]. rewrite B. reflexivity.
Qed.

Lemma work_solve cg fuel : wf_cgraph cg -> (2 <= fuel)%nat ->
  accesses (solve_csp_fuel fuel 1 1 cg) (cg_avail cg) <= V cg * (16 * Lc cg + 11).
Proof.
  intros C Hf. pose proof (wf_static _ C) as Hs. pose proof (one_job cg Hs) as H1.
  assert (HW : Hc cg < wmod T) by lia.
  pose proof (run_solve_csp cg (cg_avail cg) 2 Hs (wfc_avail _ C) (le_n 2)) as E.
  unfold solve_csp_fuel in E. apply run_bind_Ok in E. destruct E as [u [m1 [E1 _]]].
  destruct (rounds_fuel cg 2 (fuel - 2) 1 1 _ _ E1) as [A B].
  replace (2 + (fuel - 2))%nat with fuel in A, B by lia.
  pose proof (most_solve cg HW (cg_avail cg)) as M. unfold solve_csp, solve_csp_fuel in M.
  unfold solve_csp_fuel. rewrite accesses_bind in M |- *. rewrite E1 in M. rewrite A, B. exact M.
Qed.

Lemma most_choose cg p : atmost (3 * Lc cg) (choose_best_node cg p).
Proof.
  unfold choose_best_node, best_penalty. pose proof (len_disparities (cg_graph cg) (px p) 0) as D.
  eapply atmost_le.
  - apply atmost_bind.
    + apply (atmost_cloop 1). intros d v. apply (atmost_bind 1 0); [apply most_available|]. intros a.
      destruct (negb a); [apply atmost_ret|]. apply (atmost_bind 0 0); [apply atmost_lift|]. intros x. apply atmost_ret.
    + intros v. apply (atmost_cloop 2). intros d ch. apply (atmost_bind 1 1); [apply most_available|]. intros a.
      destruct (negb a); [apply atmost_ret|]. destruct ch.
      * apply (atmost_bind 1 0); [apply most_unavailable|]. intros u. apply atmost_ret.
      * apply (atmost_bind 0 1); [apply atmost_lift|]. intros x. destruct (flt v x); [|apply atmost_ret].
        apply (atmost_bind 1 0); [apply most_unavailable|]. intros u. apply atmost_ret.
  - lia.
Qed.

Lemma most_pixels cg l : Hc cg < wmod T ->
  atmost (len l * (3 * Lc cg + V cg * (16 * Lc cg + 11))) (label_pixels cg l).
Proof.
  intros HW. induction l as [|p l IH]; cbn [label_pixels]; [apply atmost_ret|].
  eapply atmost_le.
  - apply atmost_bind; [apply most_choose|]. intros c.
    instantiate (1 := V cg * (16 * Lc cg + 11) + len l * (3 * Lc cg + V cg * (16 * Lc cg + 11))).
    destruct (negb c); [apply atmost_ret|].
    apply atmost_bind; [apply most_solve; exact HW|]. intros s. destruct (negb s); [apply atmost_ret|apply IH].
  - rewrite len_cons. lia.
Qed.

Lemma len_columns (g : dgraph T) : wf_graph g -> len (column_order g) = width (right g) * height (right g).
Proof.
  intros Hw. rewrite column_order_eq by exact Hw. unfold all_pixels.
  assert (X : forall xs, len (flat_map (fun x => map (fun y => {| px := x; py := y |}) (range 0 (height (right g)))) xs)
              = len xs * height (right g)).
  { induction xs as [|x xs IH]; [reflexivity|]. cbn [flat_map]. rewrite len_app, IH, len_cons.
    unfold len at 1. rewrite map_length. fold (len (range 0 (height (right g)))). rewrite len_range. lia. }
  rewrite X, len_range. f_equal. lia.
Qed.

Lemma work_label cg : wf_cgraph cg ->
  accesses (find_labeling cg) (cg_avail cg) <= Wc cg * Hc cg * (3 * Lc cg + V cg * (16 * Lc cg + 11)).
Proof.
  intros C. pose proof (one_job cg (wf_static _ C)) as H1.
  assert (HW : Hc cg < wmod T) by lia.
  pose proof (most_pixels cg (column_order (cg_graph cg)) HW (cg_avail cg)) as M.
  rewrite (len_columns _ (wfc_graph _ C)) in M. exact M.
Qed.

Lemma most_find cg res p ds found : atmost (len ds) (find_label cg res p ds found).
Proof.
  induction ds as [|d ds IH]; cbn [find_label]; [apply atmost_ret|].
  eapply atmost_le; [apply (atmost_bind 1 (len ds)); [apply most_available|]|rewrite len_cons; lia].
  intros a. destruct a; [|apply IH]. destruct found; [intros m; cbn [accesses]; apply N.le_0_l|].
  eapply atmost_le; [apply (atmost_bind 0 0); [apply atmost_lift|intros x; apply atmost_ret]|lia].
Qed.

Lemma work_map cg : wf_cgraph cg -> accesses (build_disparity_map cg) (cg_avail cg) <= V cg.
Proof.
  intros C. rewrite <- (len_columns _ (wfc_graph _ C)). clear C. generalize (cg_avail cg).
  change (atmost (len (column_order (cg_graph cg)) * Lc cg) (build_disparity_map cg)).
  unfold build_disparity_map. apply (atmost_bind 0 (len (column_order (cg_graph cg)) * Lc cg)); [apply atmost_lift|].
  intros dat. eapply atmost_le; [apply (atmost_bind (len (column_order (cg_graph cg)) * Lc cg) 0)|lia].
  - apply atmost_cloop. intros p st.
    eapply atmost_le; [apply (atmost_bind (Lc cg) 0)|lia].
    + eapply atmost_le; [apply most_find|apply len_disparities].
    + intros r. destruct (negb (fst r)); [intros m; cbn [accesses]; apply N.le_0_l|apply atmost_ret].
  - intros r. apply atmost_ret.
Qed.

(** A successful labeling looks at all pixels again for every pixel. *)
Lemma least_row cg y xs pa m m' : static cg -> (forall x, In x xs -> x < Wc cg) ->
  run (sweep_row cg y xs pa) m = Ok (true, m') -> 2 * len xs <= accesses (sweep_row cg y xs pa) m.
Proof.
  intros Hs. revert pa m. induction xs as [|x xs IH]; intros pa m Hx E; [apply N.le_0_l|].
  cbn [sweep_row] in *. rewrite accesses_bind. apply run_bind_Ok in E. destruct E as [u [m1 [E1 E]]].
  rewrite E1, accesses_bind. apply run_bind_Ok in E. destruct E as [b [m2 [E2 E]]]. rewrite E2.
  destruct b; [|discriminate E].
  specialize (IH true m2 (fun z Hz => Hx z (or_intror Hz)) E).
  assert (D : exists d ds, disparities_right (cg_graph cg) x = d :: ds).
  { pose proof (st_graph cg Hs) as Hw. specialize (Hx x (or_introl eq_refl)).
    rewrite disparities_right_eq, disparities_eq by assumption. pose proof (wf_levels _ Hw).
    rewrite range_cons by lia. eexists _, _. reflexivity. }
  destruct D as [d [ds D]].
  assert (P : 1 <= accesses (csp_process_pixel cg {| px := x; py := y |}) m).
  { unfold csp_process_pixel. cbn [px]. rewrite D. cbn [cloop]. unfold should_remove_node, is_node_available.
    cbn [cbind accesses]. lia. }
  assert (Q : 1 <= accesses (pixel_available cg {| px := x; py := y |}) m1).
  { unfold pixel_available. cbn [px]. rewrite D. cbn [cloop]. unfold is_node_available.
    cbn [cbind accesses]. lia. }
  rewrite len_cons. lia.
Qed.

Lemma least_rows cg fuel y pa m m' : static cg -> run (sweep_rows cg fuel 1 y pa) m = Ok (true, m') ->
  2 * ((Hc cg - y) * Wc cg) <= accesses (sweep_rows cg fuel 1 y pa) m.
Proof.
  intros Hs. pose proof (one_job cg Hs) as H1.
  revert y pa m. induction fuel as [|f IH]; intros y pa m E; cbn [sweep_rows] in *; [discriminate|].
  destruct (N.ltb_spec y (Hc cg)) as [Hy|Hy]; [|replace (Hc cg - y) with 0 by lia; apply N.le_0_l].
  rewrite accesses_bind. apply run_bind_Ok in E. destruct E as [b [m1 [E1 E]]]. rewrite E1.
  destruct b; [|discriminate E]. apply least_row in E1; [|exact Hs|intros x Hx; apply In_range in Hx; lia].
  apply IH in E. rewrite uadd_small in E |- * by lia. rewrite len_range, N.sub_0_r in E1.
  replace (Hc cg - y) with (1 + (Hc cg - (y + 1))) by lia. lia.
Qed.

Lemma least_solve cg m m' : static cg -> mem_ok cg m -> run (solve_csp cg) m = Ok (true, m') ->
  2 * (Wc cg * Hc cg) <= accesses (solve_csp cg) m.
Proof.
  intros Hs Hm E. pose proof (one_job cg Hs) as H1. rewrite run_solve_one in E by assumption.
  pose proof (origin_in cg Hs) as [_ Ho]. cbn [py] in Ho.
  assert (R : exists m2, run (sweep_rows cg (S (N.to_nat (Hc cg))) 1 0 false) m = Ok (true, m2)).
  { rewrite run_sweep_rows by (try assumption; try lia; right; exact Ho).
    rewrite job_rows_one by lia. fold (raster cg). unfold solved in E.
    destruct (sweep cg (raster cg) m) as [ok m2]. cbn [fst snd] in E.
    destruct ok; [exists m2; reflexivity|discriminate E]. }
  destruct R as [m2 R]. apply least_rows in R; [|exact Hs]. rewrite N.sub_0_r in R.
  unfold solve_csp, solve_csp_fuel. rewrite accesses_bind. etransitivity; [|apply N.le_add_r].
  cbn [csp_rounds]. rewrite accesses_bind. etransitivity; [|apply N.le_add_r].
  unfold csp_round. rewrite (range_cons 0 1) by lia. cbn [cloop].
  rewrite accesses_bind. etransitivity; [|apply N.le_add_r].
  rewrite accesses_bind. etransitivity; [|apply N.le_add_r].
  unfold csp_solution_iteration. destruct (N.leb_spec (Hc cg) 0); [lia|].
  rewrite accesses_bind. etransitivity; [|apply N.le_add_r]. lia.
Qed.

Lemma least_pixels (HL : laws T) cg l m m' : static cg -> mem_ok cg m -> pixels_ok cg l ->
  run (label_pixels cg l) m = Ok (true, m') -> len l * (2 * (Wc cg * Hc cg)) <= accesses (label_pixels cg l) m.
Proof.
  intros Hs. revert m. induction l as [|p l IH]; intros m Hm Hp E; [apply N.le_0_l|].
  cbn [label_pixels] in *. rewrite accesses_bind. apply run_bind_Ok in E. destruct E as [c [m1 [E1 E]]]. rewrite E1.
  destruct c; cbn [negb] in *; [|discriminate E].
  destruct (run_choose cg m p HL Hs Hm (Hp p (or_introl eq_refl))) as [b [m1' [E1' [Hm1 _]]]].
  rewrite E1 in E1'. injection E1' as <- <-.
  rewrite accesses_bind. apply run_bind_Ok in E. destruct E as [s [m2 [E2 E]]]. rewrite E2.
  destruct s; cbn [negb] in *; [|discriminate E].
  pose proof (least_solve cg m1 m2 Hs Hm1 E2) as A.
  assert (Hm2 : mem_ok cg m2).
  { rewrite run_solve_one in E2 by assumption. injection E2 as E2. pose proof (solved_ok cg m1 Hm1) as X.
    rewrite E2 in X. exact X. }
  specialize (IH m2 Hm2 (fun q Hq => Hp q (or_intror Hq)) E). rewrite len_cons. lia.
Qed.

Lemma work_least (HL : laws T) cg cg' : wf_cgraph cg -> exec find_labeling cg = Ok (true, cg') ->
  2 * (Wc cg * Hc cg) * (Wc cg * Hc cg) <= accesses (find_labeling cg) (cg_avail cg).
Proof.
  intros C E. unfold exec in E. apply bind_Ok in E. destruct E as [[b m'] [E X]]. cbn [fst snd] in X.
  injection X as -> _. pose proof (wfc_graph _ C) as Hw. unfold find_labeling in *.
  apply (least_pixels HL) in E; [|apply wf_static; exact C|exact (wfc_avail _ C)|].
  - rewrite (len_columns _ Hw) in E. lia.
  - intros p Hp. rewrite column_order_eq in Hp by exact Hw. apply In_all_pixels in Hp. exact Hp.
Qed.
End Graph.

(** The search for the threshold. *)
Lemma work_threshold {T : target} (HL : laws T) srt (g : dgraph T) lp l : sorts srt -> wf_graph g -> make_lowest g = Ok lp ->
  finite_penalties g -> zero_reparam g -> nonneg_weights g -> fetch_available_penalties srt lp = Ok l ->
  (exists n, minimal_threshold_calls lp g l = Ok n /\
     n <= N.log2_up (2 * (width (right g) * height (right g) * levels g))) /\
  forall t cg, make_constraint g lp t = Ok cg ->
    accesses (solve_csp cg) (cg_avail cg) <= width (right g) * height (right g) * levels g * (16 * levels g + 11).
Proof.
  intros Hs Hw Hl Hf Hz Hn E. split.
  - destruct (minimal_threshold HL srt g lp l Hs Hw Hl Hf E (or_introl (conj Hz Hn))) as [t [n [_ [En [_ [_ [_ B]]]]]]].
    exists n. split; [exact En|]. etransitivity; [exact B|]. apply N.log2_up_le_mono.
    eapply candidates_bound; eassumption.
  - intros t cg Ec. destruct (make_constraint_spec g lp t Hw Hl) as [cg' [Ec' [C [Eg _]]]].
    assert (cg' = cg) by congruence. subst cg'. pose proof (work_solve cg 2 C (le_n 2)) as W.
    rewrite Eg in W. exact W.
Qed.
