(** Bounds on the work of the threads of the OpenMP build and of the work-items of a
    device. *)
From Coq Require Import Lia.
From Verif Require Import Gpu_facts Work_proofs Schedule Toil_spec Runs_spec.
Local Open Scope N_scope.

(** *** Programs, whatever they read *)

Definition deep {A} (n : N) (c : cmd A) : Prop := N.of_nat (depth c) <= n.

Lemma deep_ret {A} n (a : A) : deep n (Ret a). Proof. unfold deep. cbn [depth]. lia. Qed.
Lemma deep_fail {A} n e : deep n (@Fail A e). Proof. unfold deep. cbn [depth]. lia. Qed.
Lemma deep_lift {A} n (o : outcome A) : deep n (lift o).
Proof. destruct o; [apply deep_ret|apply deep_fail]. Qed.
Lemma deep_le {A} n n' (c : cmd A) : deep n c -> n <= n' -> deep n' c.
Proof. unfold deep. lia. Qed.
Lemma deep_read {A} n i (k : bool -> cmd A) : (forall b, deep n (k b)) -> deep (1 + n) (Read i k).
Proof. intros H. pose proof (H true). pose proof (H false). unfold deep in *. cbn [depth]. lia. Qed.
Lemma deep_write {A} n i b (k : cmd A) : deep n k -> deep (2 + n) (Write i b k).
Proof. unfold deep. cbn [depth]. lia. Qed.
Lemma deep_bind {A B} n k (c : cmd A) (f : A -> cmd B) :
  deep n c -> (forall a, deep k (f a)) -> deep (n + k) (cbind c f).
Proof.
  intros H K. revert n H. induction c as [a|s|i g IH|i b g IH]; intros n H; unfold deep in *; cbn [cbind depth] in *.
  - specialize (K a). lia.
  - lia.
  - pose proof (IH true (n - 1) ltac:(lia)). pose proof (IH false (n - 1) ltac:(lia)). lia.
  - specialize (IH (n - 2) ltac:(lia)). lia.
Qed.
Lemma deep_cloop {A S} n (l : list A) (body : A -> S -> cmd S) :
  (forall a s, deep n (body a s)) -> forall s, deep (len l * n) (cloop l body s).
Proof.
  intros H. induction l as [|a l IH]; intros s; cbn [cloop]; [apply deep_ret|].
  eapply deep_le; [apply deep_bind; [apply H|intros s'; apply IH]|]. rewrite len_cons. lia.
Qed.
Lemma deep_cexists {A} n (l : list A) (test : A -> cmd bool) :
  (forall a, deep n (test a)) -> deep (len l * n) (cexists l test).
Proof.
  intros H. induction l as [|a l IH]; cbn [cexists]; [apply deep_ret|].
  eapply deep_le; [apply deep_bind; [apply H|intros b]|].
  - instantiate (1 := len l * n). destruct b; [apply deep_ret|apply IH].
  - rewrite len_cons. lia.
Qed.

(** *** Rows of a job *)

Definition share (jobs n : N) : N := (n + (jobs - 1)) / jobs.
Lemma share_0 jobs : 1 <= jobs -> share jobs 0 = 0.
Proof. intros H. unfold share. apply N.div_small. lia. Qed.
Lemma share_step jobs n : 1 <= jobs -> 1 <= n -> share jobs n = 1 + share jobs (n - jobs).
Proof.
  intros H Hn. unfold share. destruct (N.le_gt_cases jobs n) as [L|L].
  - replace (n + (jobs - 1)) with (n - jobs + (jobs - 1) + 1 * jobs) by lia.
    rewrite N.div_add by lia. lia.
  - replace (n - jobs) with 0 by lia. rewrite (N.div_small (0 + (jobs - 1))) by lia.
    symmetry. apply (N.div_unique _ _ _ (n - 1)); lia.
Qed.
Lemma share_mono jobs a b : 1 <= jobs -> a <= b -> share jobs a <= share jobs b.
Proof. intros H L. unfold share. apply N.div_le_mono; lia. Qed.

Fixpoint nsum (l : list N) : N := match l with [] => 0 | x :: r => x + nsum r end.
Lemma nsum_le {A} (f g : A -> N) l : (forall x, In x l -> f x <= g x) -> nsum (map f l) <= nsum (map g l).
Proof.
  induction l as [|x l IH]; intros H; cbn [map nsum]; [lia|].
  specialize (IH (fun y Hy => H y (or_intror Hy))). specialize (H x (or_introl eq_refl)). lia.
Qed.
Lemma nsum_add {A} (f g : A -> N) l : nsum (map (fun x => f x + g x) l) = nsum (map f l) + nsum (map g l).
Proof. induction l as [|x l IH]; cbn [map nsum]; [lia|]. rewrite IH. lia. Qed.
Lemma nsum_mul {A} (f : A -> N) k l : nsum (map (fun x => f x * k) l) = nsum (map f l) * k.
Proof. induction l as [|x l IH]; cbn [map nsum]; [lia|]. rewrite IH. lia. Qed.

(** The numbers below [h] among those from [a] on. *)
Lemma nsum_below h a b : nsum (map (fun i => if i <? h then 1 else 0) (range a b)) = N.min b h - a.
Proof.
  remember (N.to_nat (b - a)) as k. revert a Heqk. induction k as [|k IH]; intros a E.
  - rewrite range_nil by lia. cbn [map nsum]. lia.
  - rewrite range_cons by lia. cbn [map nsum]. rewrite IH by lia. destruct (N.ltb_spec a h); lia.
Qed.

(** All rows are shared out. *)
Lemma shares jobs h bound : 1 <= jobs -> bound <= jobs ->
  nsum (map (fun i => share jobs (h - i)) (range 0 bound)) <= h.
Proof.
  intros H Hb. remember (N.to_nat h) as k. revert h Heqk.
  induction k as [k IH] using (well_founded_induction Wf_nat.lt_wf). intros h E.
  destruct (N.eq_dec h 0) as [->|Nz].
  { assert (X : nsum (map (fun i => share jobs (0 - i)) (range 0 bound)) <= nsum (map (fun i => 0 * 0) (range 0 bound))).
    { apply nsum_le. intros i _. rewrite N.sub_0_l, share_0 by exact H. lia. }
    rewrite (nsum_mul (fun _ => 0)) in X. lia. }
  assert (St : forall i, share jobs (h - i) = (if i <? h then 1 else 0) + share jobs (h - jobs - i)).
  { intros i. destruct (N.ltb_spec i h).
    - rewrite share_step by lia. do 2 f_equal. lia.
    - replace (h - i) with 0 by lia. replace (h - jobs - i) with 0 by lia. rewrite share_0 by exact H. lia. }
  assert (X : nsum (map (fun i => share jobs (h - i)) (range 0 bound)) =
              nsum (map (fun i => (if i <? h then 1 else 0) + share jobs (h - jobs - i)) (range 0 bound))).
  { f_equal. apply map_ext. exact St. }
  rewrite X, nsum_add, nsum_below.
  specialize (IH (N.to_nat (h - jobs)) ltac:(lia) (h - jobs) eq_refl). lia.
Qed.

Section Graph.
Context {T : target}.
Implicit Type cg : cgraph T.
Notation Lc cg := (levels (cg_graph cg)).
Notation Wc cg := (width (right (cg_graph cg))).
Notation Hc cg := (height (right (cg_graph cg))).
Notation V cg := (Wc cg * Hc cg * Lc cg).

Lemma deep_available cg n : deep 1 (is_node_available cg n).
Proof. unfold is_node_available. apply (deep_read 0). intros b. apply deep_ret. Qed.
Lemma deep_unavailable cg n : deep 2 (make_node_unavailable cg n).
Proof. unfold make_node_unavailable. apply (deep_write 0). apply deep_ret. Qed.

Lemma deep_edge cg e : deep 2 (is_edge_available cg e).
Proof.
  unfold is_edge_available.
  apply (deep_bind 0 2); [apply deep_lift|]. intros p.
  apply (deep_bind 0 2); [apply deep_lift|]. intros q.
  destruct (fle _ _); [|apply deep_ret].
  apply (deep_bind 1 1); [apply deep_available|]. intros a. destruct a; [|apply deep_ret].
  apply (deep_bind 1 0); [apply deep_available|]. intros b. destruct b; apply deep_ret.
Qed.

Lemma deep_edges cg n q : deep (2 * Lc cg) (has_edge_to cg n q).
Proof.
  unfold has_edge_to. eapply deep_le; [apply (deep_cexists 2); intros d; apply deep_edge|].
  pose proof (len_disparities (cg_graph cg) (px q) (@first_disparity T n q)). lia.
Qed.

Lemma deep_remove cg n : deep (8 * Lc cg + 1) (should_remove_node cg n).
Proof.
  unfold should_remove_node.
  eapply deep_le; [apply (deep_bind 1 (8 * Lc cg)); [apply deep_available|]|lia]. intros a.
  destruct (negb a); [apply deep_ret|].
  eapply deep_le; [apply (deep_cexists (2 * Lc cg))|].
  - intros k. destruct (negb _); [apply deep_ret|].
    eapply deep_le; [apply (deep_bind (2 * Lc cg) 0); [apply deep_edges|intros b; apply deep_ret]|lia].
  - rewrite len_range. unfold NEIGHBORS_COUNT. lia.
Qed.

Lemma deep_process cg p : deep (Lc cg * (8 * Lc cg + 3)) (csp_process_pixel cg p).
Proof.
  unfold csp_process_pixel. eapply deep_le; [apply (deep_cloop (8 * Lc cg + 3))|].
  - intros d ch. eapply deep_le; [apply (deep_bind (8 * Lc cg + 1) 2); [apply deep_remove|]|lia].
    intros b. destruct b; [|apply deep_ret].
    apply (deep_bind 2 0); [apply deep_unavailable|]. intros u. apply deep_ret.
  - apply N.mul_le_mono_r. apply len_disparities_right.
Qed.

Lemma deep_pixel cg p : deep (Lc cg) (pixel_available cg p).
Proof.
  unfold pixel_available. eapply deep_le; [apply (deep_cloop 1)|].
  - intros d pa. apply (deep_bind 1 0); [apply deep_available|]. intros a. apply deep_ret.
  - pose proof (len_disparities_right (cg_graph cg) (px p)). lia.
Qed.

Lemma deep_row cg y xs pa : deep (len xs * (Lc cg * (8 * Lc cg + 4))) (sweep_row cg y xs pa).
Proof.
  revert pa; induction xs as [|x xs IH]; intros pa; cbn [sweep_row]; [apply deep_ret|].
  eapply deep_le.
  - apply deep_bind; [apply deep_process|]. intros u.
    apply deep_bind; [apply deep_pixel|]. intros b.
    instantiate (1 := len xs * (Lc cg * (8 * Lc cg + 4))). destruct b; [apply IH|apply deep_ret].
  - rewrite len_cons. nia.
Qed.

Lemma deep_rows cg fuel jobs y pa : 1 <= jobs -> Hc cg + jobs < wmod T ->
  deep (share jobs (Hc cg - y) * (Wc cg * (Lc cg * (8 * Lc cg + 4)))) (sweep_rows cg fuel jobs y pa).
Proof.
  intros Hj HW. revert y pa; induction fuel as [|f IH]; intros y pa; cbn [sweep_rows]; [apply deep_fail|].
  destruct (N.ltb_spec y (Hc cg)) as [Hy|Hy]; [|apply deep_ret].
  rewrite uadd_small by lia.
  eapply deep_le.
  - apply deep_bind; [apply deep_row|]. intros b.
    instantiate (1 := share jobs (Hc cg - (y + jobs)) * (Wc cg * (Lc cg * (8 * Lc cg + 4)))).
    destruct b; [apply IH|apply deep_ret].
  - rewrite len_range, N.sub_0_r, (share_step jobs (Hc cg - y)) by lia.
    replace (Hc cg - y - jobs) with (Hc cg - (y + jobs)) by lia. lia.
Qed.

Lemma deep_check cg : deep (V cg) (check_nodes_left cg).
Proof.
  unfold check_nodes_left. eapply deep_le; [apply (deep_cexists 1)|].
  - intros i. apply (deep_read 0). intros b. apply deep_ret.
  - rewrite len_range. pose proof (count_le (cg_graph cg)). lia.
Qed.
Lemma deep_clear cg : deep (2 * V cg) (make_all_nodes_unavailable cg).
Proof.
  unfold make_all_nodes_unavailable. eapply deep_le; [apply (deep_cloop 2)|].
  - intros i u. apply (deep_write 0). apply deep_ret.
  - rewrite len_range. pose proof (count_le (cg_graph cg)). lia.
Qed.

Definition job_work cg jobs i : N :=
  share jobs (Hc cg - i) * (Wc cg * (Lc cg * (8 * Lc cg + 4))) + (if i <? Hc cg then 1 else 0) * (3 * V cg).

Lemma deep_job cg jobs i : 1 <= jobs -> Hc cg + jobs < wmod T ->
  deep (job_work cg jobs i) (csp_solution_iteration cg jobs i).
Proof.
  intros Hj HW. unfold csp_solution_iteration, job_work.
  destruct (N.leb_spec (Hc cg) i) as [L|L]; [apply deep_ret|].
  destruct (N.ltb_spec i (Hc cg)) as [_|]; [|lia].
  eapply deep_le.
  - apply deep_bind; [apply deep_rows; assumption|]. intros pa. instantiate (1 := V cg + (2 * V cg + 0)).
    destruct (negb pa); [|apply deep_ret].
    apply deep_bind; [apply deep_check|]. intros c. destruct (negb c); [apply deep_ret|].
    apply deep_bind; [apply deep_clear|intros u; apply deep_ret].
  - lia.
Qed.

(** *** Rounds *)

Lemma round_work cg sc wb bound jobs m n s : 1 <= jobs -> bound <= jobs -> Hc cg + jobs < wmod T ->
  psteps sc wb n (round_start cg bound jobs m) s ->
  N.of_nat n <= V cg * (8 * Lc cg + 4) + 3 * V cg * N.min bound (Hc cg).
Proof.
  intros Hj Hb HW P. apply psteps_depth in P. unfold pdepth, round_start in P. cbn [threads] in P. rewrite map_map in P.
  assert (Sm : forall l, N.of_nat (list_sum (map (fun i => tdepth (Run (csp_solution_iteration cg jobs i))) l)) <=
                         nsum (map (job_work cg jobs) l)).
  { induction l as [|i l IH]; [apply N.le_refl|]. cbn [map]. rewrite list_sum_cons. cbn [nsum tdepth] in *.
    pose proof (deep_job cg jobs i Hj HW) as D. unfold deep in D. lia. }
  specialize (Sm (range 0 bound)). unfold job_work in Sm.
  rewrite nsum_add, nsum_mul, nsum_mul, nsum_below in Sm. pose proof (shares jobs (Hc cg) bound Hj Hb) as Sh.
  assert (X : nsum (map (fun i => share jobs (Hc cg - i)) (range 0 bound)) * (Wc cg * (Lc cg * (8 * Lc cg + 4))) <=
              Hc cg * (Wc cg * (Lc cg * (8 * Lc cg + 4)))) by (apply N.mul_le_mono_r; exact Sh).
  lia.
Qed.

Lemma nth_upd_other {A} (l : list A) i j v : i <> j -> nth_error (upd l i v) j = nth_error l j.
Proof. revert i j; induction l as [|x l IH]; intros [|i] [|j] H; cbn [upd nth_error]; try reflexivity; [lia|apply IH; lia]. Qed.
Lemma nth_upd_same {A} (l : list A) i v x : nth_error l i = Some x -> nth_error (upd l i v) i = Some v.
Proof. revert i; induction l as [|y l IH]; intros [|i] H; cbn [upd nth_error] in *; try discriminate; [reflexivity|apply IH; exact H]. Qed.

Lemma turns_depth {A} sc wb tr (s s' : pool A) i t : turns sc wb tr s s' -> nth_error (threads s) i = Some t ->
  turns_of i tr <= N.of_nat (tdepth t).
Proof.
  intros P. revert t. induction P as [s|j tr ts u u' h h' s E St P IH]; intros t Et; unfold turns_of in *; cbn [filter threads] in *.
  - rewrite len_nil. lia.
  - destruct (Nat.eqb_spec i j) as [->|Ne].
    + assert (u = t) by congruence. subst u. apply tstep_depth in St. specialize (IH u' (nth_upd_same _ _ _ _ Et)).
      rewrite len_cons. lia.
    + apply IH. rewrite nth_upd_other by (intros X; apply Ne; symmetry; exact X). exact Et.
Qed.

Lemma turns_none_beyond {A} sc wb tr (s s' : pool A) i : turns sc wb tr s s' -> nth_error (threads s) i = None ->
  turns_of i tr = 0.
Proof.
  intros P. induction P as [s|j tr ts u u' h h' s E St P IH]; intros Et; unfold turns_of in *; cbn [filter threads] in *.
  - reflexivity.
  - destruct (Nat.eqb_spec i j) as [->|Ne]; [congruence|]. apply IH.
    rewrite nth_upd_other by (intros X; apply Ne; symmetry; exact X). exact Et.
Qed.

Lemma thread_work cg sc wb bound jobs m tr s i : 1 <= jobs -> Hc cg + jobs < wmod T ->
  turns sc wb tr (round_start cg bound jobs m) s ->
  turns_of i tr <= (Hc cg + (jobs - 1)) / jobs * (Wc cg * Lc cg * (8 * Lc cg + 4)) + 3 * V cg.
Proof.
  intros Hj HW P. destruct (nth_error (threads (round_start cg bound jobs m)) i) as [t|] eqn:E.
  - pose proof (turns_depth sc wb tr _ s i t P E) as D. unfold round_start in E. cbn [threads] in E.
    rewrite nth_error_map in E. destruct (nth_error (range 0 bound) i) as [k|]; [|discriminate]. injection E as <-.
    pose proof (deep_job cg jobs k Hj HW) as X. unfold deep, job_work in X. cbn [tdepth] in D.
    assert (Sh : share jobs (Hc cg - k) * (Wc cg * (Lc cg * (8 * Lc cg + 4))) <= share jobs (Hc cg) * (Wc cg * (Lc cg * (8 * Lc cg + 4)))).
    { apply N.mul_le_mono_r. apply share_mono; lia. }
    unfold share in Sh at 2. destruct (k <? Hc cg); lia.
  - rewrite (turns_none_beyond sc wb tr _ s i P E). apply N.le_0_l.
Qed.

(** Every execution has its turns. *)
Lemma psteps_turns {A} sc wb n (s s' : pool A) : psteps sc wb n s s' <-> exists tr, turns sc wb tr s s' /\ length tr = n.
Proof.
  split.
  - intros P. induction P as [s|n s s1 s2 St P [tr [IH L]]]; [exists []; split; [constructor|reflexivity]|].
    destruct St as [i ts t t' h h' E St]. exists (i :: tr). split; [econstructor; eassumption|cbn [length]; rewrite L; reflexivity].
  - intros [tr [P <-]]. induction P as [s|i tr ts t t' h h' s E St P IH]; cbn [length]; [constructor|].
    econstructor; [|exact IH]. econstructor; eassumption.
Qed.

(** *** Calls of [solve_csp] *)

Lemma toil_rounds cg sc wb bound jobs m m' :
  (exists k, rounds cg sc wb bound jobs k m m') <-> exists n, toil cg sc wb bound jobs n m m'.
Proof.
  split.
  - intros [k R]. induction R as [m m' [n [s [P E]]]|k m m1 m' [n [s [P E]]] R [n' IH]].
    + exists n. eapply toil_last; eassumption.
    + exists (n + n')%nat. eapply toil_more; eassumption.
  - intros [n R]. induction R as [n m s m' P E|n n' m s m1 m' P E R [k IH]].
    + exists 1%nat. apply rounds_last. exists n, s. auto.
    + exists (S k). eapply rounds_more; [exists n, s; eauto|exact IH].
Qed.

Lemma toil_work cg bound jobs n m' : wf_cgraph cg -> 1 <= jobs -> bound <= jobs -> Hc cg + jobs < wmod T ->
  toil cg true 1 bound jobs n (cg_avail cg) m' ->
  N.of_nat n <= V cg * (16 * Lc cg + 8) + 6 * V cg * N.min bound (Hc cg).
Proof.
  intros C Hj Hb HW R. destruct (jobs_terminate cg bound jobs C Hj HW) as [_ [Two _]].
  inversion R as [a b s c P E|a k b s m1 c P E R2]; subst.
  - pose proof (round_work _ _ _ _ _ _ _ _ Hj Hb HW P). lia.
  - inversion R2 as [a' b' s' c' P' E'|a' k' b' s' m2 c' P' E' R3]; subst.
    + pose proof (round_work _ _ _ _ _ _ _ _ Hj Hb HW P). pose proof (round_work _ _ _ _ _ _ _ _ Hj Hb HW P'). lia.
    + exfalso. apply (Two m1 m2); [exists a, s; auto|exists a', s'; auto].
Qed.

(** *** Launches *)

Lemma ones_count m : ones m = available_count m.
Proof.
  unfold ones, available_count. induction m as [|b m IH]; [reflexivity|]. cbn [map filter]. rewrite list_sum_cons, IH.
  destruct b; reflexivity.
Qed.

Lemma len_item_pixels cg a : static cg -> len (item_pixels cg a) = Wc cg * Hc cg.
Proof.
  intros Hs. pose proof (st_graph cg Hs) as Hw. unfold item_pixels. destruct a.
  - assert (X : forall (f : N -> pixel) l, len (map f l) = len l) by (intros f l; unfold len; rewrite map_length; reflexivity).
    rewrite X, len_range. pose proof (wf_right _ Hw) as R. unfold consistent_image in R. lia.
  - assert (X : forall h xs, len (flat_map (fun x => map (fun y => {| px := x; py := y |}) (range 0 h)) xs) = len xs * h).
    { intros h. induction xs as [|x xs IH]; [reflexivity|]. cbn [flat_map]. rewrite len_app, IH, len_cons.
      unfold len at 1. rewrite map_length. fold (len (range 0 h)). rewrite len_range. lia. }
    rewrite X, len_range. lia.
Qed.

Lemma launch_work cg a kind group f n s : wf_cgraph cg ->
  kernel_path cg a true kind group n (launch_start cg a (cg_avail cg) f) s ->
  N.of_nat n <= Wc cg * Hc cg * (N.of_nat (available_count (cg_avail cg)) + 1) * (Lc cg * (8 * Lc cg + 3) + 10).
Proof.
  intros C P. pose proof (wf_static _ C) as Hs. pose proof (wfc_avail _ C) as Hm.
  set (D := N.to_nat (Lc cg * (8 * Lc cg + 3))).
  set (gl := map (fun p => (p, match a with OpenCL => Enter | CUDA => Reset end, false)) (item_pixels cg a)).
  assert (K : counted cg (cg_avail cg) D (total_weight D gl (cg_avail cg) f) (launch_start cg a (cg_avail cg) f)).
  { exists gl. unfold gl. cbn [launch_start items khistory kflags current hd]. split; [rewrite map_map; reflexivity|].
    split; [rewrite map_map; cbn [fst]; rewrite map_id; apply NoDup_item_pixels; exact Hs|].
    split; [apply launch_start_safe; [exact Hs|]; apply good_none; [exact Hm|apply sub_refl]|]. split; [|reflexivity].
    intros x Hx. apply in_map_iff in Hx. destruct Hx as [p [<- Hp]]. split; cbn [fst snd].
    - apply (In_item_pixels cg a Hs). exact Hp.
    - split; [|destruct a; reflexivity]. pose proof (deep_process cg p) as X. unfold deep in X. unfold D. lia. }
  apply (path_counted cg a kind group (cg_avail cg) D Hs n _ _ _ P) in K.
  assert (W : forall l marks, N.of_nat (list_sum (map (weight D marks f) (map (fun p => (p, match a with OpenCL => Enter | CUDA => Reset end, false)) l))) <=
              len l * ((N.of_nat marks + 1) * (N.of_nat D + 10))).
  { induction l as [|p l IH]; intros marks; [apply N.le_refl|]. cbn [map]. rewrite list_sum_cons, len_cons.
    specialize (IH marks).
    assert (X : (weight D marks f (p, match a with OpenCL => Enter | CUDA => Reset end, false) <= (marks + 1) * (D + 10))%nat).
    { unfold weight. destruct a; cbn [fst snd sees andb pos]; nia. }
    nia. }
  assert (Z : marks_left gl (cg_avail cg) = available_count (cg_avail cg)).
  { unfold marks_left. rewrite ones_count. unfold gl. rewrite map_map. cbn [snd].
    assert (Y : forall l : list pixel, list_sum (map (fun _ => 0%nat) l) = 0%nat)
      by (induction l as [|q l IH]; [reflexivity|]; cbn [map]; rewrite list_sum_cons, IH; reflexivity).
    rewrite Y. lia. }
  unfold total_weight in K. rewrite Z in K. specialize (W (item_pixels cg a) (available_count (cg_avail cg))).
  rewrite (len_item_pixels cg a Hs) in W. fold gl in W.
  replace (N.of_nat D) with (Lc cg * (8 * Lc cg + 3)) in W by (unfold D; lia). lia.
Qed.
End Graph.

(** *** Without a bound: elements packed into words *)

Lemma cg63_again : exists n s, (1 <= n)%nat /\ psteps true 64 n (round_start cg63 2 2 (cg_avail cg63)) s /\ round_end s true (cg_avail cg63).
Proof.
  assert (R : round cg63 true 64 2 2 (cg_avail cg63) true (cg_avail cg63)).
  { eapply (round_by_round _ _ _ _ sch63). vm_compute. reflexivity. }
  destruct R as [n [s [P E]]]. exists n, s. split; [|split; assumption].
  destruct n; [|lia]. exfalso. inversion P; subst.
  destruct E as [rs [E _]].
  assert (X : existsb (fun t => match t with Run (Ret _) => true | _ => false end) (threads (round_start cg63 2 2 (cg_avail cg63))) = false)
    by (vm_compute; reflexivity).
  rewrite E in X. destruct rs as [|r rs]; [|discriminate X].
  apply (f_equal (@length _)) in E. vm_compute in E. discriminate E.
Qed.
Definition sch63_end : list nat := first_then 0 1.
Definition cg63_left : mem := match round_by cg63 64 2 2 sch63_end (cg_avail cg63) with Some (_, m) => m | None => [] end.

Definition cg63_last : mem := match round_by cg63 64 2 2 sch63_end cg63_left with Some (_, m) => m | None => [] end.

Lemma cg63_ends : exists n m, toil cg63 true 64 2 2 n (cg_avail cg63) m.
Proof.
  assert (R : exists k, rounds cg63 true 64 2 2 k (cg_avail cg63) cg63_last).
  { exists 2%nat. eapply rounds_more with (m1 := cg63_left); [eapply round_by_round; apply gives_some; vm_compute; reflexivity|].
    apply rounds_last. eapply round_by_round. apply gives_some. vm_compute. reflexivity. }
  apply toil_rounds in R. destruct R as [n R]. exact (ex_intro _ n (ex_intro _ cg63_last R)).
Qed.

Lemma toil_unbounded : exists (l r : image) lev (c s : F cpu) g cg,
  make_graph l r lev c s = Ok g /\ wf_cgraph cg /\ cg_graph cg = g /\ make_lowest g = Ok (cg_lowest cg) /\
  forall k, exists n m, (k <= n)%nat /\ toil cg true 64 2 2 n (cg_avail cg) m.
Proof.
  exists (left g63), (right g63), (levels g63), (cleanness g63), (smoothness g63), g63, cg63.
  refine (conj g63_made _).
  assert (Ec : make_constraint g63 (low g63) (num 0) = Ok (con g63 (num 0))) by (apply con_ok; vm_compute; reflexivity).
  destruct (make_constraint_Ok g63 (low g63) (num 0) _ g63_wf g63_low Ec) as [C [Eg _]].
  refine (conj _ (conj Eg (conj g63_low _))).
  - apply static_wf; [apply wf_static; exact C|vm_compute; reflexivity].
  - intros k. destruct cg63_ends as [n0 [m0 R0]]. destruct cg63_again as [d [s [Hd [P E]]]].
    induction k as [|k [n [m [L R]]]]; [exists n0, m0; split; [lia|exact R0]|].
    exists (d + n)%nat, m. split; [lia|]. eapply toil_more; eassumption.
Qed.
