(** Teams of one thread, and the sequential build among the runs of larger teams. *)
From Coq Require Import String.
From Verif Require Export Omp_main_proofs.
Local Open Scope N_scope.

(** *** One thread *)

Lemma nth_upd_bit (m : mem) i b j : (i < length m)%nat -> nth j (upd m i b) false = if (j =? i)%nat then b else nth j m false.
Proof.
  revert i j; induction m as [|x m IH]; intros [|i] j H; cbn [length] in H; try lia; destruct j as [|j]; cbn [upd nth Nat.eqb]; try reflexivity.
  apply IH. lia.
Qed.

Lemma store_same wb i b m : i < len m -> store_word wb i b m m = upd m (N.to_nat i) b.
Proof.
  intros H. apply (nth_ext _ _ false false).
  - pose proof (len_store wb i b m m) as L. unfold len in L. rewrite length_upd. lia.
  - intros k Hk. assert (Hk' : (k < length m)%nat) by (pose proof (len_store wb i b m m) as L; unfold len in L; lia).
    rewrite nth_upd_bit by (unfold len in H; lia).
    pose proof (bit_store wb i b m m (N.of_nat k)) as B.
    assert (Q : forall (l : mem), bit l (N.of_nat k) = nth k l false).
    { intros l. rewrite <- elem_bit. unfold elem. rewrite Nat2N.id. reflexivity. }
    rewrite !Q in B. rewrite B. destruct (N.of_nat k <? len m) eqn:E; [|apply N.ltb_ge in E; unfold len in E; lia].
    destruct (N.eqb_spec (N.of_nat k) i) as [<-|Ne].
    + rewrite Nat2N.id, Nat.eqb_refl, N.eqb_refl. reflexivity.
    + destruct (Nat.eqb_spec k (N.to_nat i)) as [->|_]; [rewrite N2Nat.id in Ne; contradiction|].
      destruct (N.of_nat k / wb =? i / wb); reflexivity.
Qed.

Lemma upd_upd {A} (l : list A) i a b : upd (upd l i a) i b = upd l i b.
Proof. revert i; induction l as [|x l IH]; intros [|i]; cbn [upd]; try reflexivity. rewrite IH. reflexivity. Qed.

Section Run.
Context {A : Type}.

(** A thread runs its program while the others wait. *)
Lemma run_alone sc wb (c : cmd A) : forall ts n h r m', nth_error ts n = Some (Run c) -> run c (current h) = Ok (r, m') -> h <> [] ->
  exists k h', psteps sc wb k {| threads := ts; history := h |} {| threads := upd ts n (Run (Ret r)); history := h' |} /\
    current h' = m' /\ h' <> [].
Proof.
  induction c as [a|s|i k IH|i b c IH]; intros ts n h r m' E R Ne; cbn [run] in R.
  - injection R as <- <-. exists 0%nat, h. split; [|split; [reflexivity|exact Ne]].
    assert (X : upd ts n (Run (Ret a)) = ts).
    { clear - E. revert n E; induction ts as [|t ts IH]; intros [|n] E; cbn [nth_error upd] in *; try discriminate; [congruence|].
      rewrite IH; [reflexivity|exact E]. }
    rewrite X. constructor.
  - discriminate.
  - destruct (get (current h) i) as [b|] eqn:Eb; [|discriminate]. cbn [bind] in R.
    destruct (IH b (upd ts n (Run (k b))) n h r m') as [q [h' [P [Q1 Q2]]]]; [eapply nth_error_upd_same; exact E|exact R|exact Ne|].
    exists (S q), h'. split; [|split; assumption]. eapply psteps_more; [|].
    + eapply pool_step; [exact E|]. eapply (step_read sc wb i k h (current h) b); [|exact Eb].
      unfold loads. destruct sc; [reflexivity|]. destruct h; [contradiction|left; reflexivity].
    + rewrite upd_upd in P. exact P.
  - unfold set in R. destruct (N.ltb_spec i (len (current h))) as [L|L]; [|discriminate]. cbn [bind] in R.
    destruct (IH (upd ts n (Run c)) n (store_word wb i b (current h) (current h) :: h) r m') as [q [h' [P [Q1 Q2]]]].
    + eapply nth_error_upd_same; exact E.
    + cbn [current hd]. rewrite store_same by exact L. exact R.
    + discriminate.
    + exists (S (S q)), h'. split; [|split; assumption].
      eapply psteps_more; [eapply pool_step; [exact E|]; eapply (step_load sc wb i b c h (current h)); [|exact L]|].
      { unfold loads. destruct sc; [reflexivity|]. destruct h; [contradiction|left; reflexivity]. }
      eapply psteps_more; [eapply pool_step; [eapply nth_error_upd_same; exact E|]; apply step_store|].
      rewrite upd_upd. rewrite upd_upd in P. exact P.
Qed.

Lemma alone_step wb (t : thread A) h t' h' r : alone t h r -> tstep true wb t h t' h' -> alone t' h' r.
Proof.
  intros H S. destruct S as [i k h w b L E|i b k h w L E|i b w k h]; cbn [alone] in *.
  - cbn [run] in H. unfold loads in L. subst w. rewrite E in H. exact H.
  - cbn [run] in H. unfold loads in L. subst w. unfold set in H. destruct (N.ltb_spec i (len (current h))) as [X|X]; [|lia].
    cbn [bind] in H. auto.
  - destruct H as [-> [L R]]. cbn [current hd]. rewrite store_same by exact L. exact R.
Qed.
Lemma alone_steps wb n (t : thread A) h s r : alone t h r -> psteps true wb n {| threads := [t]; history := h |} s ->
  exists t' h', s = {| threads := [t']; history := h' |} /\ alone t' h' r.
Proof.
  revert t h. induction n as [|n IH]; intros t h H P; inversion P; subst; [exists t, h; auto|].
  match goal with X : pstep _ _ _ _ |- _ => inversion X; subst end.
  destruct n0 as [|n0]; [|destruct n0; discriminate]. match goal with X : nth_error _ _ = _ |- _ => cbn [nth_error] in X; injection X as -> end.
  cbn [upd] in *. eapply IH; [|eassumption]. eapply alone_step; eassumption.
Qed.
End Run.

Section Graph.
Context {T : target}.
Implicit Type cg : cgraph T.
Notation Ht cg := (height (right (cg_graph cg))).

Lemma psteps_trans {A} sc wb n n' (s s' s'' : pool A) : psteps sc wb n s s' -> psteps sc wb n' s' s'' -> psteps sc wb (n + n') s s''.
Proof. intros P. induction P as [x|n x y z St P IH]; intros P'; cbn [Nat.add]; [exact P'|]. econstructor; [exact St|apply IH; exact P']. Qed.

(** The jobs may run one after another. *)
Lemma jobs_in_order {A} sc wb (body : A -> cmd bool) l : forall pre ch0 h ch m', h <> [] ->
  run (cloop l (fun i changed => r <== body i ;; Ret (changed || r)) ch0) (current h) = Ok (ch, m') ->
  exists k h' rs, psteps sc wb k {| threads := map (fun r => Run (Ret r)) pre ++ map (fun i => Run (body i)) l; history := h |}
      {| threads := map (fun r => Run (Ret r)) (pre ++ rs); history := h' |} /\
    current h' = m' /\ ch = ch0 || existsb (fun r => r) rs.
Proof.
  induction l as [|i l IH]; intros pre ch0 h ch m' Ne R; cbn [cloop] in R.
  - cbn [run] in R. injection R as <- <-. exists 0%nat, h, []. cbn [map existsb]. rewrite !app_nil_r, Bool.orb_false_r.
    split; [constructor|auto].
  - rewrite cbind_assoc_run, cbind_assoc_run in R. destruct (run (body i) (current h)) as [[r m1]|] eqn:E; [|discriminate].
    cbn [bind fst snd run] in R. cbn [map].
    destruct (run_alone sc wb (body i) (map (fun r => Run (Ret r)) pre ++ Run (body i) :: map (fun i => Run (body i)) l) (length pre) h r m1)
      as [k1 [h1 [P1 [C1 N1]]]]; [rewrite nth_error_app2; rewrite map_length; [rewrite Nat.sub_diag; reflexivity|lia]|exact E|exact Ne|].
    rewrite <- C1 in R. destruct (IH (pre ++ [r]) (ch0 || r) h1 ch m' N1 R) as [k2 [h2 [rs [P2 [C2 Ec]]]]].
    exists (k1 + k2)%nat, h2, (r :: rs). split; [|split; [exact C2|rewrite Ec; cbn [existsb]; apply eq_sym, Bool.orb_assoc]].
    rewrite map_app, <- app_assoc, <- app_assoc in P2. cbn [map app] in P2.
    assert (X : upd (map (fun r => Run (Ret r)) pre ++ Run (body i) :: map (fun i => Run (body i)) l) (length pre) (Run (Ret r)) =
      map (fun r => Run (Ret r)) pre ++ Run (Ret r) :: map (fun i => Run (body i)) l).
    { generalize (@Run bool (body i)) (map (fun i => @Run bool (body i)) l). clear. intros t ts.
      induction pre as [|x pre IH]; cbn [map app length upd]; [reflexivity|]. f_equal. exact IH. }
    rewrite X in P1. eapply psteps_trans; eassumption.
Qed.

Lemma round_in_order cg sc wb bound jobs m ch m' : run (csp_round cg bound jobs) m = Ok (ch, m') -> round cg sc wb bound jobs m ch m'.
Proof.
  intros R. unfold csp_round in R.
  destruct (jobs_in_order sc wb (csp_solution_iteration cg jobs) (range 0 bound) [] false [m] ch m' ltac:(discriminate) R)
    as [k [h [rs [P [C Ec]]]]].
  exists k. eexists. split; [exact P|]. exists rs. cbn [threads history app]. auto.
Qed.

Lemma one_round_only cg wb m ch m' : round cg true wb 1 1 m ch m' -> run (csp_solution_iteration cg 1 0) m = Ok (ch, m').
Proof.
  intros [n [s [P [rs [E1 [E2 E3]]]]]]. unfold round_start in P. rewrite (range_cons 0 1), (range_nil (0 + 1) 1) in P by lia. cbn [map] in P.
  destruct (alone_steps wb n (Run (csp_solution_iteration cg 1 0)) [m] s (run (csp_solution_iteration cg 1 0) m) eq_refl P) as [t [h [-> Q]]].
  cbn [threads history] in *. destruct rs as [|r [|r' rs]]; try discriminate. cbn [map] in E1. injection E1 as ->.
  cbn [existsb] in E2. rewrite Bool.orb_false_r in E2. subst. cbn [alone run] in Q. symmetry. exact Q.
Qed.

Lemma run_one_round cg m : run (csp_round cg 1 1) m = run (csp_solution_iteration cg 1 0) m.
Proof.
  unfold csp_round. rewrite (range_cons 0 1), (range_nil (0 + 1) 1) by lia. cbn [cloop]. rewrite cbind_assoc_run, cbind_assoc_run.
  destruct (run (csp_solution_iteration cg 1 0) m) as [[r m']|]; reflexivity.
Qed.

Lemma rounds_possible v cg bound jobs f : t_size v bound jobs ->
  forall m m', run (csp_rounds cg f bound jobs) m = Ok (tt, m') -> omp_rounds v cg m m'.
Proof.
  intros B. induction f as [|f IH]; intros m m' R; [discriminate|]. cbn [csp_rounds] in R. rewrite cbind_assoc_run in R.
  destruct (run (csp_round cg bound jobs) m) as [[ch m1]|] eqn:E; [|discriminate]. cbn [bind fst snd] in R. destruct ch.
  - eapply omp_more; [exact B|apply round_in_order; exact E|]. apply IH. exact R.
  - cbn [run] in R. injection R as <-. eapply omp_last; [exact B|apply round_in_order; exact E].
Qed.

(** Then the team does what one thread does. *)
Lemma csp_possible v cg f bound jobs r : t_size v bound jobs -> exec (solve_csp_fuel f bound jobs) cg = Ok r -> csp_omp v cg (Ok r).
Proof.
  intros B E. left. unfold exec, solve_csp_fuel in E. rewrite cbind_assoc_run in E.
  destruct (run (csp_rounds cg f bound jobs) (cg_avail cg)) as [[u m]|] eqn:R; [|discriminate]. destruct u. cbn [bind fst snd] in E.
  exists m. split; [eapply rounds_possible; eassumption|]. rewrite <- E. unfold exec. cbn [with_avail cg_avail].
  change (check_nodes_left (with_avail cg m)) with (check_nodes_left cg).
  destruct (run (check_nodes_left cg) m) as [[b m2]|]; reflexivity.
Qed.

Lemma rounds_only v cg m m' : one_thread v -> omp_rounds v cg m m' ->
  exists f0, forall f, (f0 <= f)%nat -> run (csp_rounds cg f 1 1) m = Ok (tt, m').
Proof.
  intros [V1 [_ V2]] R. induction R as [m m' bound jobs B R|m m1 m' bound jobs B R R' [f0 IH]];
    destruct (V2 _ _ B) as [-> ->]; rewrite V1 in R; apply one_round_only in R.
  - exists 1%nat. intros [|f] Hf; [lia|]. cbn [csp_rounds]. rewrite cbind_assoc_run, run_one_round, R. reflexivity.
  - exists (S f0). intros [|f] Hf; [lia|]. cbn [csp_rounds]. rewrite cbind_assoc_run, run_one_round, R. cbn [bind]. apply IH. lia.
Qed.

(** *** The solver *)

Lemma csp_one_possible v cg : wf_cgraph cg -> t_size v 1 1 -> csp_omp v cg (exec solve_csp cg).
Proof.
  intros Hc B. pose proof (exec_solve_csp cg Hc) as E. rewrite E. unfold solve_csp in E. eapply csp_possible; eassumption.
Qed.

Lemma csp_one_only v cg o : wf_cgraph cg -> one_thread v -> csp_omp v cg o -> o = exec solve_csp cg.
Proof.
  intros Hc V O. pose proof (wf_static cg Hc) as Hs. pose proof (wfc_avail cg Hc) as Hm.
  destruct O as [[m [R ->]]|[F _]].
  - destruct (rounds_only v cg _ _ V R) as [f0 E]. specialize (E (f0 + 2)%nat ltac:(lia)).
    pose proof (run_solve_csp cg (cg_avail cg) (f0 + 2) Hs Hm ltac:(lia)) as S1.
    pose proof (run_solve_csp cg (cg_avail cg) 2 Hs Hm ltac:(lia)) as S2.
    unfold exec, solve_csp. rewrite S2, <- S1. unfold solve_csp_fuel. rewrite cbind_assoc_run, E. cbn [bind fst snd with_avail cg_avail].
    change (check_nodes_left (with_avail cg m)) with (check_nodes_left cg).
    destruct (run (check_nodes_left cg) m) as [[b m2]|]; reflexivity.
  - exfalso. revert F. apply no_omp_faults; [exact Hs| |exact Hm].
    intros bound jobs B. destruct V as [_ [_ V]]. destruct (V _ _ B) as [-> ->]. split; [lia|apply one_job; exact Hs].
Qed.

(** *** Both directions at once *)

(** The outcome of [x] is [y], possibly among others; with [only], it is the only one. *)
Definition agrees {A} (only : Prop) (x : outcome A -> Prop) (y : outcome A) : Prop := x y /\ (only -> forall o, x o -> o = y).

Lemma agrees_does {A} only (y : outcome A) : agrees only (does y) y.
Proof. split; [reflexivity|]. intros _ o H. exact H. Qed.
Lemma agrees_then {A B} only (x : outcome A -> Prop) y (f : A -> outcome B -> Prop) h :
  agrees only x y -> (forall a, y = Ok a -> agrees only (f a) (h a)) -> agrees only (and_then x f) (bind y h).
Proof.
  intros [X1 X2] F. split.
  - destruct y as [a|e]; [left; exists a; split; [exact X1|apply F; reflexivity]|right; exists e; auto].
  - intros O o [[a [Xa Fa]]|[e [Xe ->]]].
    + apply (X2 O) in Xa. subst y. cbn [bind]. apply (F a eq_refl); assumption.
    + apply (X2 O) in Xe. subst y. reflexivity.
Qed.

Lemma sweep_with cg m' ps m : sweep (with_avail cg m') ps m = sweep cg ps m.
Proof.
  revert m. induction ps as [|p ps IH]; intros m; cbn [sweep]; [reflexivity|].
  assert (P : process (with_avail cg m') p m = process cg p m).
  { unfold process. change (disps (with_avail cg m') p) with (disps cg p). generalize (disps cg p). intros ds. revert m.
    induction ds as [|d ds IHd]; intros m; cbn [proc]; [reflexivity|]. rewrite IHd. reflexivity. }
  rewrite P. change (hasb (with_avail cg m')) with (hasb cg).
  destruct (hasb cg (process cg p m) p); [apply IH|reflexivity].
Qed.
Lemma solved_with cg m' m : solved (with_avail cg m') m = solved cg m.
Proof. unfold solved. change (raster (with_avail cg m')) with (raster cg). rewrite sweep_with. reflexivity. Qed.

Section Team.
Variable v : team.
Hypothesis H1 : t_size v 1 1.
Definition alone_only : Prop := one_thread v.

Lemma csp_agrees cg : wf_cgraph cg -> agrees alone_only (csp_omp v cg) (exec solve_csp cg).
Proof. intros Hc. split; [apply csp_one_possible; assumption|intros V o; apply csp_one_only; assumption]. Qed.

Lemma bind_assoc {A B C} (x : outcome A) (f : A -> outcome B) (h : B -> outcome C) :
  bind (bind x f) h = bind x (fun a => bind (f a) h).
Proof. destruct x; reflexivity. Qed.

Lemma search_agrees (g : dgraph T) lp l fuel : wf_graph g -> make_lowest g = Ok lp -> forall start stop calls,
  agrees alone_only (search_omp v g lp l fuel start stop) (r <- threshold_search g lp l fuel start stop calls ;; Ok (fst r)).
Proof.
  intros Hw El. induction fuel as [|fuel IH]; intros start stop calls; cbn [search_omp threshold_search]; [apply agrees_does|].
  destruct (start <? stop).
  - rewrite bind_assoc. apply agrees_then; [apply agrees_does|]. intros t _.
    rewrite bind_assoc. apply agrees_then; [apply agrees_does|]. intros cg Ec.
    rewrite bind_assoc. apply agrees_then.
    + apply csp_agrees. destruct (make_constraint_Ok g lp t cg Hw El Ec) as [Hc _]. exact Hc.
    + intros [b cg'] _. cbn [fst]. destruct b; apply IH.
  - rewrite bind_assoc. cbn [bind fst]. destruct (get l (uadd T start stop / 2)); apply agrees_does.
Qed.

Lemma label_agrees_at (HL : laws T) cg l : static cg -> (forall p, In p l -> in_image (cg_graph cg) p) -> forall m, mem_ok cg m ->
  agrees alone_only (label_omp v l (with_avail cg m)) (r <- run (label_pixels cg l) m ;; Ok (fst r, with_avail cg (snd r))).
Proof.
  intros Hs. induction l as [|p l IH]; intros Hp m Hm; cbn [label_omp label_pixels]; [apply agrees_does|].
  destruct (run_choose cg m p HL Hs Hm (Hp p (or_introl eq_refl))) as [b [m1 [E1 [Hm1 _]]]].
  assert (Ec : exec (fun cg => choose_best_node cg p) (with_avail cg m) = Ok (b, with_avail cg m1)).
  { unfold exec. change (choose_best_node (with_avail cg m) p) with (choose_best_node cg p). cbn [with_avail cg_avail]. rewrite E1. reflexivity. }
  rewrite Ec, cbind_assoc_run, E1. cbn [bind].
  apply (agrees_then _ _ (Ok (b, with_avail cg m1)) _ (fun x => r <- run (if negb (fst x) then Ret false else
        s <== solve_csp cg ;; if negb s then Ret false else label_pixels cg l) m1 ;; Ok (fst r, with_avail cg (snd r)))); [apply agrees_does|].
  intros x E. injection E as <-. cbn [fst snd]. destruct b; cbn [negb]; [|apply agrees_does].
  assert (Hc1 : wf_cgraph (with_avail cg m1)) by (apply static_wf; assumption).
  rewrite cbind_assoc_run, run_solve_one by assumption. cbn [bind].
  pose proof (csp_agrees _ Hc1) as C. rewrite exec_solve_csp in C by exact Hc1.
  change (cg_avail (with_avail cg m1)) with m1 in C. rewrite solved_with in C.
  apply (agrees_then _ _ _ _ (fun _ => r <- run (if negb (fst (solved cg m1)) then Ret false else label_pixels cg l) (snd (solved cg m1)) ;;
    Ok (fst r, with_avail cg (snd r))) C).
  intros x E. injection E as <-. cbn [fst snd]. destruct (fst (solved cg m1)); cbn [negb]; [|apply agrees_does].
  apply IH; [intros q Hq; apply Hp; right; exact Hq|]. apply solved_ok. exact Hm1.
Qed.

Lemma label_agrees (HL : laws T) l cg : wf_cgraph cg -> (forall p, In p l -> in_image (cg_graph cg) p) ->
  agrees alone_only (label_omp v l cg) (exec (fun cg => label_pixels cg l) cg).
Proof.
  intros Hc Hp. pose proof (label_agrees_at HL cg l (wf_static cg Hc) Hp (cg_avail cg) (wfc_avail cg Hc)) as H.
  rewrite with_avail_same in H. exact H.
Qed.

Lemma solve_agrees (HL : laws T) srt l r lev (c s : F T) :
  consistent_image l -> consistent_image r ->
  (forall g, make_graph l r lev c s = Ok g -> width l * height l * 4 * lev < wmod T) ->
  agrees alone_only (solve_problem_omp v srt l r lev c s) (solve_problem srt l r lev c s).
Proof.
  intros Cl Cr Hsz. unfold solve_problem_omp, solve_problem.
  apply agrees_then; [apply agrees_does|]. intros g Eg. destruct (make_graph_wf l r lev c s g Eg Cl Cr (Hsz g Eg)) as [Hw _].
  apply agrees_then; [apply agrees_does|]. intros lp El.
  apply agrees_then; [apply agrees_does|]. intros cands Ef.
  apply agrees_then; [apply search_agrees; assumption|]. intros t _.
  apply agrees_then; [apply agrees_does|]. intros cg Ec. destruct (make_constraint_Ok g lp t cg Hw El Ec) as [Hc [_ [Gc _]]].
  apply agrees_then; [apply csp_agrees; exact Hc|]. intros [b1 cg1] E. cbn [fst snd]. destruct b1; cbn [negb]; [|apply agrees_does].
  rewrite exec_solve_csp in E by exact Hc. injection E as _ <-.
  pose proof (wf_static cg Hc) as Hs.
  apply agrees_then.
  - apply label_agrees; [exact HL|apply static_wf; [exact Hs|apply solved_ok; apply (wfc_avail cg Hc)]|].
    change (cg_graph (with_avail cg (snd (solved cg (cg_avail cg))))) with (cg_graph cg).
    rewrite (column_order_eq (cg_graph cg) (st_graph cg Hs)). intros p Hp. apply In_all_pixels in Hp. exact Hp.
  - intros [b2 cg2] _. cbn [fst snd]. destruct b2; cbn [negb]; [|apply agrees_does].
    apply agrees_then; [apply agrees_does|]. intros x _. apply agrees_does.
Qed.
End Team.
End Graph.

(** *** The application *)

Lemma map_agrees v srt w o lpath rpath : usable_files w -> t_size v 1 1 ->
  agrees (alone_only v) (map_omp v srt w o lpath rpath) (disparity_map_of srt w o lpath rpath).
Proof.
  intros U H1. unfold map_omp, disparity_map_of.
  apply agrees_then; [apply agrees_does|]. intros l El. apply agrees_then; [apply agrees_does|]. intros r Er.
  apply agrees_then; [apply agrees_does|]. intros lev _. apply agrees_then; [apply agrees_does|]. intros c _.
  apply agrees_then; [apply agrees_does|]. intros s _.
  apply read_held in El. apply read_held in Er. destruct (held_usable w lpath l U El) as [S1 S2].
  pose proof (held_consistent _ _ _ El) as Cl. pose proof (held_consistent _ _ _ Er) as Cr.
  apply solve_agrees; [exact H1|exact cpu_laws|exact Cl|exact Cr|].
  intros g Eg. exact (problem_fits _ _ _ _ _ _ Eg S2).
Qed.

Lemma main_agrees v srt w p : usable_files w -> t_size v 1 1 ->
  main_omp v srt w p (main srt w p) /\ (one_thread v -> forall e, main_omp v srt w p e -> e = main srt w p).
Proof.
  intros U H1. destruct p as [o| |]; [|split; [reflexivity|intros _ e H; exact H]..]. unfold main_omp, main.
  destruct (o_output o) as [out|] eqn:E1, (o_left o) as [l|] eqn:E2, (o_right o) as [r|] eqn:E3;
    try (destruct (_ || _); [split; [reflexivity|intros _ e H; exact H]|]; destruct (_ =? _); (split; [reflexivity|intros _ e H; exact H])).
  destruct (map_agrees v srt w o l r U H1) as [M1 M2].
  destruct (parallel_cases o) as [[_ ->]|[_ ->]]; [|split; [reflexivity|intros _ e H; exact H]].
  split.
  - exists (disparity_map_of srt w o l r). split; [exact M1|reflexivity].
  - intros V e [x [Mx ->]]. rewrite (M2 V x Mx). reflexivity.
Qed.
