(** Runs of the OpenMP build. *)
From Verif Require Export Omp_spec Device_main_proofs.
From Verif Require Export Same_proofs.
From Verif Require Export Sc_proofs Gpu_group_proofs.
Local Open Scope N_scope.

Section Graph.
Context {T : target}.
Implicit Type cg : cgraph T.
Notation G cg := (cg_graph cg).
Notation Wd cg := (width (right (cg_graph cg))).
Notation Ht cg := (height (right (cg_graph cg))).
Notation Lv cg := (levels (cg_graph cg)).
Notation nd p d := {| npix := p; disp := d |}.

(** *** Every team *)

Section Any.
Variable v : team.
Definition sized_team cg : Prop := forall bound jobs, t_size v bound jobs -> 1 <= jobs /\ Ht cg + jobs < wmod T.

Lemma omp_rounds_safe cg (K : node -> Prop) m init m' : static cg -> support cg K ->
  total cg K \/ (forall n, ~ K n) -> sized_team cg ->
  good (places cg K) (size cg) init m -> omp_rounds v cg m m' -> good (places cg K) (size cg) init m'.
Proof.
  intros Hs HK HT Hj Hm R. induction R as [m m' bound jobs B R|m m1 m' bound jobs B R R' IH]; destruct (Hj _ _ B) as [J1 J2].
  - apply (round_safe cg K (t_sc v) (t_word v) bound jobs m init false m' Hs HK HT J1 J2 Hm R).
  - apply IH. apply (round_safe cg K (t_sc v) (t_word v) bound jobs m init true m1 Hs HK HT J1 J2 Hm R).
Qed.

Lemma no_omp_faults cg m : static cg -> sized_team cg -> mem_ok cg m -> ~ omp_faults v cg m.
Proof.
  intros Hs Hj Hm F. induction F as [m bound jobs n s t B P I F|m m1 bound jobs B R F IH]; destruct (Hj _ _ B) as [J1 J2].
  - pose proof (start_safe cg no_node bound jobs m m Hs (no_support cg) (or_intror (fun n H => H)) J1 J2
      (good_none cg _ _ Hm (sub_refl _))) as S.
    pose proof (psteps_safe _ _ _ _ _ _ n _ s S P) as S'. exact (safe_not_faulty _ _ _ _ s t S' I F).
  - apply IH. apply (round_safe cg no_node (t_sc v) (t_word v) bound jobs m m true m1 Hs (no_support cg)
      (or_intror (fun n H => H)) J1 J2 (good_none cg _ _ Hm (sub_refl _)) R).
Qed.

Lemma csp_omp_any cg o : wf_cgraph cg -> sized_team cg -> csp_omp v cg o ->
  exists b m, o = Ok (b, with_avail cg m) /\ mem_ok cg m /\ sub m (cg_avail cg) /\
    omp_rounds v cg (cg_avail cg) m /\ b = existsb (fun b => b) m /\
    (forall k, solution cg k -> b = true /\ solution (with_avail cg m) k).
Proof.
  intros Hc Hj O. pose proof (wf_static cg Hc) as Hs. pose proof (wfc_avail cg Hc) as Hm.
  destruct O as [[m [R ->]]|[F _]]; [|exfalso; exact (no_omp_faults cg _ Hs Hj Hm F)].
  pose proof (omp_rounds_safe cg no_node _ (cg_avail cg) m Hs (no_support cg) (or_intror (fun n H => H)) Hj
    (good_none cg _ _ Hm (sub_refl _)) R) as [Lm [_ Sm]].
  pose proof (run_check_nodes (with_avail cg m) m (wf_static _ (static_wf cg m Hs Lm)) Lm) as E.
  assert (E' : exec check_nodes_left (with_avail cg m) = Ok (existsb (fun b => b) m, with_avail cg m)).
  { unfold exec. cbn [with_avail cg_avail]. rewrite E. reflexivity. }
  exists (existsb (fun b => b) m), m. rewrite E'. refine (conj eq_refl (conj Lm (conj Sm (conj R (conj eq_refl _))))).
  intros k Sk. destruct (labels_set cg k Hc Sk) as [S1 S2].
  pose proof (omp_rounds_safe cg (label_set cg k) _ _ m Hs S1 (or_introl (label_total cg k)) Hj S2 R) as Hg.
  split; [|eapply good_solution; eassumption].
  apply any_bit. pose proof (origin_in cg Hs) as O.
  assert (Kn : label_set cg k (label_node k {| px := 0; py := 0 |})) by (split; [exact O|reflexivity]).
  exists (node_index (G cg) (label_node k {| px := 0; py := 0 |})). split.
  - apply idx_lt; [exact Hs|apply Hg|]. apply match_inb. apply (proj1 (proj1 Sk)). exact O.
  - apply (good_holds cg k m (cg_avail cg)); try assumption. apply Sk.
Qed.

Lemma label_omp_any (HL : laws T) l : forall cg o, wf_cgraph cg -> sized_team cg -> pixels_ok cg l -> label_omp v l cg o ->
  exists b m, o = Ok (b, with_avail cg m) /\ mem_ok cg m /\ sub m (cg_avail cg).
Proof.
  induction l as [|p l IH]; intros cg o Hc Hj Hps O; cbn [label_omp] in O.
  - unfold does in O. subst o. exists true, (cg_avail cg). rewrite with_avail_same.
    refine (conj eq_refl (conj (wfc_avail cg Hc) (sub_refl _))).
  - pose proof (wf_static cg Hc) as Hs. pose proof (wfc_avail cg Hc) as Hm.
    destruct (run_choose cg (cg_avail cg) p HL Hs Hm (Hps p (or_introl eq_refl))) as [b [m1 [E1 [Hm1 [Sub1 _]]]]].
    assert (E : exec (fun cg => choose_best_node cg p) cg = Ok (b, with_avail cg m1)) by (unfold exec; rewrite E1; reflexivity).
    destruct O as [[x [X O]]|[e [X _]]]; unfold does in X; rewrite E in X; [|discriminate].
    injection X as ->. cbn [fst snd] in O. destruct b; cbn [negb] in O.
    2:{ unfold does in O. subst o. exists false, m1. auto. }
    assert (Hc1 : wf_cgraph (with_avail cg m1)) by (apply static_wf; assumption).
    destruct O as [[y [Y O]]|[e [Y _]]];
      destruct (csp_omp_any _ _ Hc1 Hj Y) as [b [m2 [E2 [Hm2 [Sub2 _]]]]]; [|discriminate].
    injection E2 as ->. cbn [fst snd] in O. change (cg_avail (with_avail cg m1)) with m1 in Sub2.
    destruct b; cbn [negb] in O.
    2:{ unfold does in O. subst o. exists false, m2. refine (conj eq_refl (conj Hm2 _)). eapply sub_trans; eassumption. }
    change (with_avail (with_avail cg m1) m2) with (with_avail cg m2) in O.
    destruct (IH (with_avail cg m2) o) as [b [m3 [E3 [Hm3 Sub3]]]]; [apply static_wf; assumption|exact Hj| |exact O|].
    { intros q Hq. apply Hps. right. exact Hq. }
    exists b, m3. refine (conj E3 (conj Hm3 _)). eapply sub_trans; [exact Sub3|]. eapply sub_trans; [exact Sub2|exact Sub1].
Qed.
(** A labeling that agrees with the choices so far has kept its labels, so that each
    choice is no worse than its label. *)
Lemma label_omp_first (HL : laws T) l : forall cg cg' k, wf_cgraph cg -> sized_team cg -> pixels_ok cg l ->
  (forall n c, match_exists (G cg) n -> node_penalty (G cg) n = Ok c -> fle fzero c = true) ->
  label_omp v l cg (Ok (true, cg')) ->
  (forall p, In p l -> match_exists (G cg) (nd p (k p)) /\ avb cg (cg_avail cg') (nd p (k p)) = true) ->
  forall k' pre p post c c', solution cg k' -> l = pre ++ p :: post -> (forall q, In q pre -> k' q = k q) ->
    node_penalty (G cg) (label_node k p) = Ok c -> node_penalty (G cg) (label_node k' p) = Ok c' ->
    fle c c' = true /\ (fle c' c = true -> k p <= k' p).
Proof.
  induction l as [|p0 l IH]; intros cg cg' k Hc Hj Hps Nn O Hk k' pre p post c c' Sk El Hpre Ec Ec'; [destruct pre; discriminate|].
  cbn [label_omp] in O. pose proof (wf_static cg Hc) as Hs. pose proof (wfc_avail cg Hc) as Hm.
  pose proof (Hps p0 (or_introl eq_refl)) as Hp0.
  destruct (run_choose cg (cg_avail cg) p0 HL Hs Hm Hp0) as [b [m1 [E1 [Hm1 [Sub1 [Oth [_ [_ HT]]]]]]]].
  assert (E : exec (fun cg => choose_best_node cg p0) cg = Ok (b, with_avail cg m1)) by (unfold exec; rewrite E1; reflexivity).
  destruct O as [[x [X O]]|[e [X _]]]; unfold does in X; rewrite E in X; [|discriminate].
  injection X as ->. cbn [fst snd] in O. destruct b; cbn [negb] in O; [|discriminate O].
  destruct (HT eq_refl) as [d [M [A [U Min]]]].
  assert (Hc1 : wf_cgraph (with_avail cg m1)) by (apply static_wf; assumption).
  destruct O as [[y [Y O]]|[e [Y _]]];
    destruct (csp_omp_any _ _ Hc1 Hj Y) as [b [m2 [E2 [Hm2 [Sub2 [_ [_ Keep]]]]]]]; [|discriminate].
  injection E2 as ->. cbn [fst snd] in O. change (cg_avail (with_avail cg m1)) with m1 in Sub2.
  destruct b; cbn [negb] in O; [|discriminate O].
  change (with_avail (with_avail cg m1) m2) with (with_avail cg m2) in O.
  assert (Hc2 : wf_cgraph (with_avail cg m2)) by (apply static_wf; assumption).
  assert (Hps' : pixels_ok (with_avail cg m2) l) by (intros q Hq; apply Hps; right; exact Hq).
  destruct (label_omp_any HL l _ _ Hc2 Hj Hps' O) as [b [m3 [E3 [Hm3 Sub3]]]]. injection E3 as _ ->.
  cbn [with_avail cg_avail] in Sub3, Hk.
  assert (Dk : k p0 = d).
  { destruct (Hk p0 (or_introl eq_refl)) as [Mk Ak]. apply U; [exact Mk|]. apply Sub2, Sub3. exact Ak. }
  destruct Sk as [Lk' [Av Ew]].
  assert (Ak' : forall q, in_image (G cg) q -> avb cg (cg_avail cg) (label_node k' q) = true).
  { intros q Hq. apply available_iff; [exact Hc|apply match_inb, (proj1 Lk'); exact Hq|apply Av; exact Hq]. }
  destruct pre as [|p1 pre]; cbn [app] in El; injection El as -> El.
  - unfold label_node in Ec, Ec'. rewrite Dk in Ec |- *.
    apply (Min (fun d0 c0 M0 _ E0 => Nn _ c0 M0 E0) (k' p) c c'); try assumption.
    + apply (proj1 Lk' p Hp0).
    + apply (Ak' p Hp0).
  - assert (S1 : solution (with_avail cg m1) k').
    { split; [exact Lk'|]. split; [|exact Ew]. intros q Hq. change (in_image (G cg) q) in Hq.
      pose proof (proj1 Lk' q Hq) as Mq. apply available_with; try assumption; [apply match_inb; exact Mq|].
      destruct (pixel_dec q p1) as [->|Ne].
      - apply U; [exact Mq|]. rewrite <- Dk. apply Hpre. left. reflexivity.
      - rewrite Oth; [apply Ak'; exact Hq|apply match_inb; exact Mq|exact Ne]. }
    destruct (Keep k' S1) as [_ S2]. change (with_avail (with_avail cg m1) m2) with (with_avail cg m2) in S2.
    apply (IH (with_avail cg m2) (with_avail cg m3) k Hc2 Hj Hps' Nn O) with (pre := pre) (post := post); try assumption.
    + intros q Hq. apply Hk. right. exact Hq.
    + intros q Hq. apply Hpre. right. exact Hq.
Qed.
End Any.

(** *** Lists of threads *)

Lemma nth_error_upd_same {B} (l : list B) i v x : nth_error l i = Some x -> nth_error (upd l i v) i = Some v.
Proof. revert i; induction l as [|y l IH]; intros [|i]; cbn [nth_error upd]; intros H; try discriminate; auto. Qed.
Lemma nth_error_upd_other {B} (l : list B) i j v : i <> j -> nth_error (upd l i v) j = nth_error l j.
Proof. revert i j; induction l as [|y l IH]; intros [|i] [|j] H; cbn [nth_error upd]; try reflexivity; try contradiction. apply IH. congruence. Qed.
Lemma length_upd {B} (l : list B) i v : length (upd l i v) = length l.
Proof. revert i; induction l as [|y l IH]; intros [|i]; cbn [length upd]; auto. Qed.

(** *** Stores that cannot be made good

    When no pixel has two nodes, removing a node is noticed by the thread that did it,
    unless another thread stores something later; that thread is then the one to
    notice its own store. *)

Section Doom.
Variable cg : cgraph T.
Variable m0 : mem.
Hypothesis Hs : static cg.
Definition lower (m : mem) : Prop := mem_ok cg m /\ sub m m0.

(** [R] holds for every result.  After a store, what the thread would end with if
    it were alone satisfies [Q]. *)
Fixpoint dooms {A} (R : A -> Prop) (Q : A -> mem -> Prop) (c : cmd A) : Prop :=
  match c with
  | Ret a => R a
  | Fail _ => True
  | Read i k => forall b, (b = true -> bit m0 i = true) -> dooms R Q (k b)
  | Write i b k => (b = false /\ forall m, lower m -> bit m i = false -> forall a m', run k m = Ok (a, m') -> Q a m') /\ dooms R Q k
  end.

Lemma dooms_bind {A B} R Q R' Q' (c : cmd A) (f : A -> cmd B) : dooms R Q c -> (forall a, R a -> dooms R' Q' (f a)) ->
  (forall a m b m', Q a m -> run (f a) m = Ok (b, m') -> Q' b m') -> dooms R' Q' (cbind c f).
Proof.
  intros H Hf HQ. induction c as [a|s|i k IH|i b k IH]; cbn [dooms cbind] in *; auto.
  destruct H as [[Eb H1] H2]. split; [|apply IH; exact H2]. split; [exact Eb|].
  intros m Hm Hb a m' E. apply run_bind_Ok in E. destruct E as [a1 [m1 [E1 E2]]]. eapply HQ; [|exact E2]. eapply H1; eassumption.
Qed.
Lemma dooms_readonly {A} (R : A -> Prop) Q c : readonly c -> (forall a, R a) -> dooms R Q c.
Proof. intros H HR. induction c as [a|s|i k IH|i b k IH]; cbn [dooms readonly] in *; auto. contradiction. Qed.

(** Programs that only remove nodes. *)
Lemma run_safe_sub {A} (R : A -> Prop) c m a m' : safe (places cg no_node) (size cg) R c -> mem_ok cg m -> run c m = Ok (a, m') ->
  mem_ok cg m' /\ sub m' m.
Proof.
  intros S. revert m. induction S as [x Hx|i k Hi Hk IH|i k Hi Hk S IH]; intros m Hm E; cbn [run] in E.
  - injection E as <- <-. split; [exact Hm|apply sub_refl].
  - destruct (get m i) as [b|] eqn:Eb; [|discriminate]. apply (IH b); [|exact Hm|exact E].
    intros [n [_ [[] _]]].
  - unfold set in E. destruct (N.ltb_spec i (len m)) as [L|L]; [|discriminate]. cbn [bind] in E.
    destruct (IH (upd m (N.to_nat i) false)) as [H1 H2]; [unfold mem_ok; rewrite len_upd; exact Hm|exact E|].
    split; [exact H1|]. eapply sub_trans; [exact H2|]. intros j. rewrite bit_upd by exact L. destruct (j =? i); [discriminate|auto].
Qed.

Definition gone (p : pixel) (m : mem) : Prop := lower m /\ hasb cg m p = false.
Lemma gone_sub p m m' : in_image (G cg) p -> gone p m -> mem_ok cg m' -> sub m' m -> gone p m'.
Proof.
  intros Hp [[H1 H2] H3] Hm' S. split; [split; [exact Hm'|eapply sub_trans; eassumption]|].
  destruct (hasb cg m' p) eqn:E; [|reflexivity]. apply hasb_iff in E; try assumption. destruct E as [n [M [En A]]].
  assert (hasb cg m p = true) by (apply hasb_iff; try assumption; exists n; split; [exact M|split; [exact En|apply S; exact A]]). congruence.
Qed.

Definition alone_in (p : pixel) : Prop := in_image (G cg) p /\ single cg m0 p.

Lemma dooms_process p : alone_in p -> dooms (fun _ => True) (fun _ m => gone p m) (csp_process_pixel cg p).
Proof.
  intros [Hp Hsi]. unfold csp_process_pixel. rewrite disparities_right_eq by (try apply Hp; apply Hs). fold (disps cg p).
  assert (D : forall d, In d (disps cg p) -> match_exists (G cg) (nd p d)) by (intros d Hd; apply disps_In in Hd; assumption).
  generalize false. revert D. generalize (disps cg p). intros ds.
  induction ds as [|d ds IH]; intros D s; cbn [cloop]; [exact I|]. cbv zeta.
  pose proof (D d (or_introl eq_refl)) as M.
  eapply (dooms_bind (fun _ => True) (fun _ m => gone p m)); [|intros a _; apply IH; intros d' Hd'; apply D; right; exact Hd'|].
  - eapply (dooms_bind (fun b => b = true -> avb cg m0 (nd p d) = true) (fun _ _ => False)).
    + unfold should_remove_node. eapply (dooms_bind (fun b => b = true -> avb cg m0 (nd p d) = true) (fun _ _ => False)).
      * unfold is_node_available. cbn [dooms]. intros b Hb E. exact (Hb E).
      * intros a Ha. destruct a; cbn [negb]; [|cbn [dooms]; discriminate].
        apply dooms_readonly; [|intros b _; apply Ha; reflexivity].
        pose proof (readonly_should_remove cg (nd p d)) as R. unfold should_remove_node in R.
        cbn [is_node_available cbind readonly] in R. exact (R true).
      * intros a m b m' [].
    + intros rm Hrm. destruct rm; [|exact I]. unfold make_node_unavailable. cbn [cbind dooms]. split; [|exact I].
      split; [reflexivity|]. intros m Hm Hb a m' E. cbn [run] in E. injection E as _ <-. split; [exact Hm|].
      destruct (hasb cg m p) eqn:E; [|reflexivity]. apply hasb_iff in E; try assumption. destruct E as [[q d'] [M' [Eq A]]].
      cbn [npix] in Eq. subst q. assert (d = d') by (apply Hsi; try assumption; [apply Hrm; reflexivity|apply Hm; exact A]).
      subst d'. unfold avb in A. congruence.
    + intros a m b m' [].
  - intros a m b m' Hg E.
    assert (S : safe (places cg no_node) (size cg) (fun _ : bool => True) (cloop ds (fun d changed =>
       let n := nd p d in rm <== should_remove_node cg n ;; if rm then _ <== make_node_unavailable cg n ;; Ret true else Ret changed) a)).
    { apply (safe_cloop _ _ (fun _ _ => True) _ []); [|exact I]. intros pre x post s1 El _. cbv zeta.
      assert (Hn : inb cg (nd p x)) by (apply match_inb; apply D; right; rewrite El; apply in_elt).
      eapply safe_bind; [apply (safe_should_remove cg no_node Hs (no_support cg)); exact Hn|]. cbv beta. intros rm _. destruct rm; [|constructor; exact I].
      eapply safe_bind; [apply (safe_clear cg no_node Hs); [exact Hn|intros []]|]. intros _ _. constructor. exact I. }
    destruct (run_safe_sub _ _ m b m' S (proj1 (proj1 Hg)) E) as [H1 H2]. eapply gone_sub; eassumption.
Qed.

Lemma readonly_cloop {A S} (l : list A) (body : A -> S -> cmd S) : (forall a s, readonly (body a s)) -> forall s, readonly (cloop l body s).
Proof. intros H. induction l as [|a l IH]; intros s; cbn [cloop]; [exact I|]. apply readonly_bind; auto. Qed.

Definition lost (pa : bool) (m : mem) : Prop := lower m /\ pa = false.

Lemma dooms_sweep_row y xs : (forall x, In x xs -> alone_in {| px := x; py := y |}) -> forall pa, dooms (fun _ => True) lost (sweep_row cg y xs pa).
Proof.
  induction xs as [|x xs IH]; intros Hx pa; cbn [sweep_row]; [exact I|]. cbv zeta.
  assert (Hp := Hx x (or_introl eq_refl)).
  eapply dooms_bind; [apply dooms_process; exact Hp| |].
  - intros u _. eapply (dooms_bind (fun _ => True) (fun _ _ => False)).
    + apply dooms_readonly; [|auto]. unfold pixel_available. apply readonly_cloop. intros d s. cbn. auto.
    + intros pa' _. destruct pa'; [|exact I]. apply IH. intros z Hz. apply Hx. right. exact Hz.
    + intros a m b m' [].
  - cbv beta. intros u m b m' [Hm Hg] E. rewrite cbind_assoc_run, run_pixel_available in E; [|exact Hs|apply Hm|apply Hp].
    rewrite Hg in E. cbn [bind run] in E. injection E as <- <-. split; [exact Hm|reflexivity].
Qed.

Hypothesis Hall : forall p, in_image (G cg) p -> single cg m0 p.

Lemma dooms_sweep_rows fuel jobs : forall y pa, dooms (fun _ => True) lost (sweep_rows cg fuel jobs y pa).
Proof.
  induction fuel as [|f IH]; intros y pa; cbn [sweep_rows]; [exact I|].
  destruct (N.ltb_spec y (Ht cg)) as [Hy|Hy]; [|exact I].
  eapply dooms_bind; [apply dooms_sweep_row| |].
  - intros x Hx. apply In_range in Hx. assert (Hi : in_image (G cg) {| px := x; py := y |}) by (split; cbn [px py]; lia).
    split; [exact Hi|apply Hall; exact Hi].
  - intros pa' _. destruct pa'; [apply IH|exact I].
  - intros a m b m' [Hm ->] E. cbn [run] in E. injection E as <- <-. split; [exact Hm|reflexivity].
Qed.

Definition noticed (r : bool) (m : mem) : Prop := r = true \/ existsb (fun b => b) m = false.

Lemma dooms_job jobs job : dooms (fun _ => True) noticed (csp_solution_iteration cg jobs job).
Proof.
  unfold csp_solution_iteration. destruct (Ht cg <=? job); [exact I|].
  eapply dooms_bind; [apply dooms_sweep_rows| |].
  - intros pa _. destruct pa; cbn [negb]; [exact I|].
    eapply (dooms_bind (fun _ => True) (fun _ _ => False)).
    + apply dooms_readonly; [|auto]. unfold check_nodes_left. apply readonly_cexists. intros i. cbn. auto.
    + intros c _. destruct c; cbn [negb]; [|exact I].
      eapply (dooms_bind (fun _ => True) (fun _ _ => True)).
      * unfold make_all_nodes_unavailable. generalize (range 0 (nodes_count (G cg))) tt. intros l.
        induction l as [|i l IH]; intros u; cbn [cloop]; [exact I|]. cbn [cbind dooms]. split; [auto|apply IH].
      * intros u _. exact I.
      * intros u m b m' _ E. cbn [run] in E. injection E as <- _. left. reflexivity.
    + intros a m b m' [].
  - intros a m b m' [[Hm _] ->] E. cbv beta in E. cbn [negb] in E. rewrite cbind_assoc_run, run_check_nodes in E by assumption. cbn [bind fst snd] in E.
    destruct (existsb (fun b => b) m) eqn:Eb; cbn [negb] in E.
    + rewrite cbind_assoc_run, run_make_all in E by assumption. cbn [bind run] in E. injection E as <- _. left. reflexivity.
    + cbn [run] in E. injection E as <- <-. right. exact Eb.
Qed.
End Doom.

(** *** A thread as if it were alone *)

Section Run.
Context {A : Type}.
Definition alone (t : thread A) (h : list mem) (r : outcome (A * mem)) : Prop :=
  match t with
  | Run c => run c (current h) = r
  | Store i b w k => w = current h /\ i < len (current h) /\ run k (upd (current h) (N.to_nat i) b) = r
  end.

(** Steps that store nothing. *)
Lemma alone_back wb t h t' h' r : tstep true wb t h t' h' -> h' = h -> alone t' h' r -> alone t h r.
Proof.
  intros S E H. destruct S as [i k h w b L G|i b k h w L G|i b w k h]; cbn [alone] in *.
  - unfold loads in L. subst w. cbn [run]. rewrite G. exact H.
  - destruct H as [_ [H1 H2]]. cbn [run]. unfold set. destruct (N.ltb_spec i (len (current h))) as [X|X]; [|lia]. exact H2.
  - exfalso. apply (f_equal (@length mem)) in E. cbn [length] in E. lia.
Qed.
End Run.

(** *** Rounds in which nothing is stored *)

Section Quiet.
Variable cg : cgraph T.
Variable m0 : mem.
Hypothesis Hs : static cg.
Hypothesis Hm0 : mem_ok cg m0.
Context {A : Type} (R : A -> Prop) (Q : A -> mem -> Prop).

Definition tdooms (t : thread A) : Prop :=
  match t with
  | Run c => dooms cg m0 R Q c
  | Store i b w k => lower cg m0 w /\ b = false /\
      (forall m, lower cg m0 m -> bit m i = false -> forall a m', run k m = Ok (a, m') -> Q a m') /\ dooms cg m0 R Q k
  end.
Definition doomed (h : list mem) (t : thread A) : Prop := forall a m, alone t h (Ok (a, m)) -> Q a m.

Variable start : nat -> cmd A.
Definition watched (s : pool A) : Prop :=
  lower cg m0 (current (history s)) /\ (forall j t, nth_error (threads s) j = Some t -> tdooms t) /\
  ((history s = [m0] /\ forall j t r, nth_error (threads s) j = Some t -> alone t [m0] r -> run (start j) m0 = r) \/
   exists j t, nth_error (threads s) j = Some t /\ doomed (history s) t).

Lemma watched_step wb s s' : watched s -> pstep true wb s s' -> watched s'.
Proof.
  intros [Hl [Hd Hw]] St. destruct St as [n ts t t' h h' E S]. cbn [threads history] in *.
  pose proof (Hd n t E) as Dt.
  assert (Upd : tdooms t' -> forall j x, nth_error (upd ts n t') j = Some x -> tdooms x).
  { intros D' j x Ex. destruct (Nat.eq_dec n j) as [<-|Ne].
    - rewrite (nth_error_upd_same _ _ _ _ E) in Ex. injection Ex as <-. exact D'.
    - rewrite nth_error_upd_other in Ex by exact Ne. eapply Hd; exact Ex. }
  assert (Calm : h' = h -> tdooms t' -> lower cg m0 (current h') /\ (forall j x, nth_error (upd ts n t') j = Some x -> tdooms x) /\
    ((h' = [m0] /\ forall j x r, nth_error (upd ts n t') j = Some x -> alone x [m0] r -> run (start j) m0 = r) \/
     exists j x, nth_error (upd ts n t') j = Some x /\ doomed h' x)).
  { intros -> D'. split; [exact Hl|]. split; [apply Upd; exact D'|]. destruct Hw as [[Eh Ha]|[j [x [Ex Dx]]]].
    - left. split; [exact Eh|]. intros j x r Ex Ax. destruct (Nat.eq_dec n j) as [<-|Ne].
      + rewrite (nth_error_upd_same _ _ _ _ E) in Ex. injection Ex as <-. apply (Ha n t r E).
        subst h. eapply alone_back; [exact S|reflexivity|exact Ax].
      + rewrite nth_error_upd_other in Ex by exact Ne. eapply Ha; eassumption.
    - right. destruct (Nat.eq_dec n j) as [<-|Ne].
      + exists n, t'. split; [eapply nth_error_upd_same; exact E|]. intros a m Aa. apply Dx.
        assert (x = t) by congruence. subst x. eapply alone_back; [exact S|reflexivity|exact Aa].
      + exists j, x. split; [rewrite nth_error_upd_other by exact Ne; exact Ex|exact Dx]. }
  unfold watched. cbn [threads history].
  destruct S as [i k h w b L G|i b k h w L G|i b w k h].
  - apply Calm; [reflexivity|]. cbn [tdooms dooms] in *. apply Dt. intros ->. unfold loads in L. subst w.
    apply bit_get_Ok in G. apply Hl. exact G.
  - apply Calm; [reflexivity|]. cbn [tdooms dooms] in *. unfold loads in L. subst w. destruct Dt as [[D1 D2] D3]. auto.
  - cbn [tdooms] in Dt. destruct Dt as [[Lw Sw] [-> [D1 D2]]]. destruct Hl as [Lm Sm].
    assert (Hl' : lower cg m0 (store_word wb i false w (current h))).
    { split; [unfold mem_ok; rewrite len_store; exact Lm|]. intros j. rewrite bit_store. destruct (j <? len (current h)); [|discriminate].
      destruct (j / wb =? i / wb); [|apply Sm]. destruct (j =? i); [discriminate|apply Sw]. }
    split; [exact Hl'|]. split; [apply Upd; exact D2|]. right. exists n, (Run k). split; [eapply nth_error_upd_same; exact E|].
    intros a m Aa. cbn [alone current hd] in Aa. eapply D1; [exact Hl'| |exact Aa].
    rewrite bit_store. destruct (i <? len (current h)); [|reflexivity]. rewrite !N.eqb_refl. reflexivity.
Qed.
Lemma watched_steps wb n s s' : watched s -> psteps true wb n s s' -> watched s'.
Proof. intros H P. induction P as [s|n s s1 s2 St P IH]; [exact H|]. apply IH. eapply watched_step; eassumption. Qed.
End Quiet.

Lemma nth_range a bound j : (j < N.to_nat (bound - a))%nat -> nth_error (range a bound) j = Some (a + N.of_nat j).
Proof.
  unfold range. generalize (N.to_nat (bound - a)). intros m. revert a j. induction m as [|m IH]; intros a j Hk; [lia|].
  destruct j as [|j]; cbn [seqN nth_error]; [f_equal; lia|]. rewrite IH by lia. f_equal. lia.
Qed.

(** Without two nodes in a pixel a round without changes, and after which nodes are
    left, has stored nothing. *)
Lemma round_quiet cg wb bound jobs m m' : static cg -> mem_ok cg m -> (forall p, in_image (G cg) p -> single cg m p) ->
  round cg true wb bound jobs m false m' -> existsb (fun b => b) m' = true ->
  m' = m /\ forall j, j < bound -> run (csp_solution_iteration cg jobs j) m = Ok (false, m).
Proof.
  intros Hs Hm Hall [c [s [P [rs [E1 [E2 E3]]]]]] Hb.
  set (start := fun j => csp_solution_iteration cg jobs (N.of_nat j)).
  assert (Ln : length (range 0 bound) = N.to_nat bound) by (pose proof (len_range 0 bound) as X; unfold len in X; lia).
  assert (W : watched cg m (fun _ => True) (noticed) start s).
  { eapply watched_steps; [|exact P]. split; [cbn [round_start history current hd]; split; [exact Hm|apply sub_refl]|].
    assert (N0 : forall j t, nth_error (threads (round_start cg bound jobs m)) j = Some t -> t = Run (start j)).
    { intros j t E. cbn [round_start threads] in E. rewrite nth_error_map in E.
      destruct (Nat.lt_ge_cases j (N.to_nat bound)) as [L|L].
      - rewrite nth_range in E by lia. injection E as <-. reflexivity.
      - rewrite (proj2 (nth_error_None (range 0 bound) j)) in E by lia. discriminate. }
    split.
    - intros j t E. rewrite (N0 j t E). cbn [tdooms]. apply dooms_job; assumption.
    - left. split; [reflexivity|]. intros j t r E. rewrite (N0 j t E). cbn [alone current hd]. auto. }
  destruct W as [_ [_ [[Eh Ha]|[j [t [Et Dt]]]]]].
  - rewrite Eh in E3. cbn [current hd] in E3. split; [exact E3|]. intros j Hj.
    assert (Le : length (threads s) = N.to_nat bound).
    { assert (X : forall n s1 s2, psteps true wb n s1 s2 -> length (threads (A := bool) s2) = length (threads s1)).
      { intros n s1 s2 Ps. induction Ps as [x|n x y z St Ps IH]; [reflexivity|]. rewrite IH. destruct St. cbn [threads]. apply length_upd. }
      rewrite (X _ _ _ P). cbn [round_start threads]. rewrite map_length. exact Ln. }
    destruct (nth_error rs (N.to_nat j)) as [r|] eqn:Er.
    + specialize (Ha (N.to_nat j) (Run (Ret r)) (Ok (r, m))). unfold start in Ha. rewrite N2Nat.id in Ha.
      assert (r = false).
      { destruct r; [|reflexivity]. apply nth_error_In in Er. assert (existsb (fun r => r) rs = true) by (apply existsb_exists; exists true; auto). congruence. }
      subst r. apply Ha; [|reflexivity]. rewrite E1, nth_error_map, Er. reflexivity.
    + apply nth_error_None in Er. rewrite E1, map_length in Le. lia.
  - exfalso. rewrite E1, nth_error_map in Et. destruct (nth_error rs j) as [r|] eqn:Er; [|discriminate]. cbn [option_map] in Et. injection Et as <-.
    destruct (Dt r (current (history s)) eq_refl) as [->|F]; [|congruence].
    apply nth_error_In in Er. assert (existsb (fun r => r) rs = true) by (apply existsb_exists; exists true; auto). congruence.
Qed.

(** *** Sweeps that remove nothing *)

Lemma proc_still cg p ds m : static cg -> mem_ok cg m -> dispsok cg p ds -> sub m (proc cg p ds m) ->
  proc cg p ds m = m /\ forall d, In d ds -> rmvb cg m (nd p d) = false.
Proof.
  intros Hs Hm. induction ds as [|d ds IH]; intros Hd Sb; cbn [proc] in *; [split; [reflexivity|intros d []]|].
  assert (Hn : inb cg (nd p d)) by (apply Hd; left; reflexivity).
  assert (Hd' : dispsok cg p ds) by (intros x Hx; apply Hd; right; exact Hx).
  assert (E : rmvb cg m (nd p d) = false).
  { destruct (rmvb cg m (nd p d)) eqn:E; [|reflexivity]. exfalso. unfold proc1 in Sb. rewrite E in Sb.
    pose proof (sub_proc cg p ds (clear cg m (nd p d)) Hs (clear_ok cg m _ Hm) Hd') as S2.
    assert (Av : avb cg m (nd p d) = true) by (apply rmvb_iff in E; try assumption; apply E).
    assert (X : avb cg (clear cg m (nd p d)) (nd p d) = true) by (apply S2, Sb; exact Av).
    apply avb_clear in X; try assumption. destruct X as [_ X]. contradiction. }
  unfold proc1 in *. rewrite E in *. destruct (IH Hd' Sb) as [H1 H2]. split; [exact H1|]. intros x [<-|Hx]; auto.
Qed.

Lemma sweep_still cg ps m : static cg -> mem_ok cg m -> pixels_ok cg ps -> sweep cg ps m = (true, m) ->
  forall p, In p ps -> hasb cg m p = true /\ forall d, match_exists (G cg) (nd p d) -> rmvb cg m (nd p d) = false.
Proof.
  intros Hs Hm. induction ps as [|q ps IH]; intros Hps E p Hp; [destruct Hp|]. cbn [sweep] in E.
  assert (Hq : in_image (G cg) q) by (apply Hps; left; reflexivity).
  assert (Hps' : pixels_ok cg ps) by (intros x Hx; apply Hps; right; exact Hx).
  pose proof (dispsok_disps cg q Hs Hq) as Dq.
  assert (St : process cg q m = m /\ forall d, In d (disps cg q) -> rmvb cg m (nd q d) = false).
  { apply proc_still; try assumption. destruct (hasb cg (process cg q m) q); [|discriminate].
    pose proof (sub_sweep cg ps (process cg q m) Hs (process_ok cg q m Hm) Hps') as S2. rewrite E in S2. exact S2. }
  destruct St as [St1 St2]. rewrite St1 in E. destruct (hasb cg m q) eqn:Hh; [|discriminate].
  destruct Hp as [<-|Hp]; [|apply IH; assumption]. split; [exact Hh|]. intros d M. apply St2. apply disps_In; assumption.
Qed.

Lemma job_row_in fuel jobs : forall y h r k, r = y + k * jobs -> r < h -> 1 <= jobs -> h - y < N.of_nat fuel -> In r (job_rows fuel jobs y h).
Proof.
  induction fuel as [|f IH]; intros y h r k E Hr Hj Hf; [lia|]. cbn [job_rows].
  assert (y <= r) by nia. destruct (N.ltb_spec y h); [|lia].
  destruct (N.eq_dec k 0) as [->|Hk]; [left; lia|]. right. apply (IH (y + jobs) h r (k - 1)); [|assumption|assumption|lia].
  rewrite E. replace k with (1 + (k - 1)) at 1 by lia. lia.
Qed.

(** The jobs of a full team visit all pixels. *)
Lemma still_all cg bound jobs m : static cg -> mem_ok cg m -> 1 <= jobs <= bound -> Ht cg + jobs < wmod T ->
  existsb (fun b => b) m = true ->
  (forall j, j < bound -> run (csp_solution_iteration cg jobs j) m = Ok (false, m)) ->
  forall p, in_image (G cg) p -> hasb cg m p = true /\ forall d, match_exists (G cg) (nd p d) -> rmvb cg m (nd p d) = false.
Proof.
  intros Hs Hm Hj Hjw Hb Hr p Hp. set (j := py p mod jobs).
  assert (Lj : j < jobs) by (apply N.mod_lt; lia). specialize (Hr j ltac:(lia)).
  rewrite run_iteration in Hr by (try assumption; lia).
  assert (E : iter cg jobs j m = (false, m)) by (injection Hr; auto). unfold iter in E.
  assert (Hy : py p < Ht cg) by apply Hp.
  assert (Ly : j <= py p) by (apply N.mod_le; lia). destruct (N.leb_spec (Ht cg) j); [lia|].
  assert (Pok : pixels_ok cg (job_pixels cg jobs j)).
  { intros q Hq. unfold job_pixels in Hq. apply In_grid in Hq. destruct Hq as [Q1 Q2]. apply In_job_rows in Q2. split; lia. }
  destruct (sweep cg (job_pixels cg jobs j) m) as [ok m'] eqn:Es. cbn [fst snd] in E. destruct ok.
  - injection E as ->. apply (sweep_still cg (job_pixels cg jobs j)); try assumption.
    unfold job_pixels. apply In_grid. split; [apply Hp|].
    apply (job_row_in _ jobs j (Ht cg) (py p) (py p / jobs)); [|exact Hy|lia|lia].
    pose proof (N.div_mod (py p) jobs ltac:(lia)). unfold j. lia.
  - exfalso. injection E as _ E. rewrite <- E in Hb. rewrite none_no_bit in Hb. discriminate.
Qed.

Section Orderly.
Variable v : team.
Hypothesis Ho : orderly_team v.

Lemma last_round cg m m' : omp_rounds v cg m m' -> static cg -> mem_ok cg m -> sized_team v cg ->
  exists m1 bound jobs, t_size v bound jobs /\ mem_ok cg m1 /\ sub m1 m /\ round cg (t_sc v) (t_word v) bound jobs m1 false m'.
Proof.
  intros R Hs Hm Hj. induction R as [m m' bound jobs B R|m m1 m' bound jobs B R R' IH].
  - exists m, bound, jobs. split; [exact B|]. split; [exact Hm|]. split; [apply sub_refl|exact R].
  - destruct (Hj _ _ B) as [J1 J2].
    pose proof (round_safe cg no_node (t_sc v) (t_word v) bound jobs m m true m1 Hs (no_support cg) (or_intror (fun n H => H)) J1 J2
      (good_none cg _ _ Hm (sub_refl _)) R) as [[L1 [_ S1]] _].
    destruct (IH L1) as [m2 [b2 [j2 [B2 [H1 [H2 H3]]]]]]. exists m2, b2, j2.
    split; [exact B2|]. split; [exact H1|]. split; [eapply sub_trans; eassumption|exact H3].
Qed.

(** When every pixel has at most one node and some are left, the nodes left are a
    consistent labeling. *)
Lemma csp_omp_found cg m : wf_cgraph cg -> sized_team v cg -> (forall p, in_image (G cg) p -> single cg (cg_avail cg) p) ->
  omp_rounds v cg (cg_avail cg) m -> existsb (fun b => b) m = true -> found cg m.
Proof.
  intros Hc Hj Hall R Hb. pose proof (wf_static cg Hc) as Hs. destruct Ho as [Esc Eb].
  destruct (last_round cg _ m R Hs (wfc_avail cg Hc) Hj) as [m1 [bound [jobs [B [Hm1 [Sub1 Rl]]]]]].
  rewrite Esc in Rl. destruct (Hj _ _ B) as [J1 J2]. destruct (Eb _ _ B) as [_ J3].
  assert (Hall1 : forall p, in_image (G cg) p -> single cg m1 p) by (intros p Hp; eapply single_sub; [exact Sub1|apply Hall; exact Hp]).
  destruct (round_quiet cg (t_word v) bound jobs m1 m Hs Hm1 Hall1 Rl Hb) as [-> Hr].
  pose proof (still_all cg bound jobs m1 Hs Hm1 ltac:(lia) J2 Hb Hr) as Still. split.
  - intros p Hp. split; [apply Hall1; exact Hp|apply Still; exact Hp].
  - intros n n' M M' A A' Adj. assert (Rm : rmvb cg m1 n = false).
    { destruct n as [p d]. apply (Still p); [apply M|exact M]. }
    destruct (not_removed cg m1 n (npix n') Hs (match_inb cg n M) A Rm (proj1 M') Adj) as [n2 [E2 [A2 C2]]].
    assert (n2 = n').
    { assert (M2 : match_exists (G cg) n2) by apply C2. destruct n2 as [q2 d2], n' as [q' d']. cbn [npix] in *. subst q2. f_equal.
      apply (Hall1 q'); [apply M'|exact M2|exact M'|exact A2|exact A']. }
    subst n2. exact C2.
Qed.

Lemma label_omp_found (HL : laws T) l : forall cg done cg', wf_cgraph cg -> sized_team v cg -> pixels_ok cg l ->
  (forall p, In p done -> single cg (cg_avail cg) p) -> label_omp v l cg (Ok (true, cg')) -> l <> [] ->
  (forall p, in_image (G cg) p -> In p done \/ In p l) ->
  found cg (cg_avail cg').
Proof.
  induction l as [|p l IH]; intros cg done cg' Hc Hj Hps Hd O Ne Hall; [contradiction|]. cbn [label_omp] in O.
  pose proof (wf_static cg Hc) as Hs. pose proof (wfc_avail cg Hc) as Hm.
  destruct (run_choose cg (cg_avail cg) p HL Hs Hm (Hps p (or_introl eq_refl))) as [b [m1 [E1 [Hm1 [Sub1 [_ [_ [_ HT]]]]]]]].
  assert (E : exec (fun cg => choose_best_node cg p) cg = Ok (b, with_avail cg m1)) by (unfold exec; rewrite E1; reflexivity).
  destruct O as [[x [X O]]|[e [X _]]]; unfold does in X; rewrite E in X; [|discriminate].
  injection X as ->. cbn [fst snd] in O. destruct b; cbn [negb] in O; [|discriminate O].
  destruct (HT eq_refl) as [d [M [A [U _]]]].
  assert (Hc1 : wf_cgraph (with_avail cg m1)) by (apply static_wf; assumption).
  assert (Sp : single cg m1 p).
  { intros d1 d2 M1 M2 A1 A2. rewrite U in A1, A2 by assumption. congruence. }
  assert (Hd1 : forall q, In q (done ++ [p]) -> single cg m1 q).
  { intros q Hq. apply in_app_iff in Hq. destruct Hq as [Hq|[<-|[]]]; [|exact Sp].
    eapply single_sub; [exact Sub1|apply Hd; exact Hq]. }
  destruct O as [[y [Y O]]|[e [Y _]]];
    destruct (csp_omp_any v _ _ Hc1 Hj Y) as [b [m2 [E2 [Hm2 [Sub2 [R2 [Eb2 _]]]]]]]; [|discriminate].
  injection E2 as ->. cbn [fst snd] in O. change (cg_avail (with_avail cg m1)) with m1 in Sub2.
  destruct b; cbn [negb] in O; [|discriminate O].
  change (with_avail (with_avail cg m1) m2) with (with_avail cg m2) in O.
  destruct l as [|p' l'].
  - cbn [label_omp] in O. unfold does in O. injection O as ->. cbn [with_avail cg_avail].
    apply (csp_omp_found (with_avail cg m1) m2 Hc1 Hj); [|exact R2|symmetry; exact Eb2].
    intros q Hq. apply Hd1. apply in_or_app. destruct (Hall q Hq) as [X|[X|[]]]; [left; exact X|right; left; exact X].
  - apply (IH (with_avail cg m2) (done ++ [p]) cg'); [apply static_wf; assumption|exact Hj| | |exact O|discriminate|].
    + intros q Hq. apply Hps. right. exact Hq.
    + intros q Hq. eapply (single_sub cg m1 m2); [exact Sub2|apply Hd1; exact Hq].
    + intros q Hq. destruct (Hall q Hq) as [X|[X|X]].
      * left. apply in_or_app. left; exact X.
      * left. apply in_or_app. right; left; exact X.
      * right; exact X.
Qed.
End Orderly.
End Graph.
