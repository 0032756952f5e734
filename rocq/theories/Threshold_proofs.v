(** The minimal threshold. *)
From Verif Require Export Fetch_proofs.
Local Open Scope N_scope.

Section Graph.
Context {T : target} (HL : laws T).
Implicit Types (g : dgraph T) (l : list (F T)).

Definition solvable g lp (t : F T) : bool :=
  match make_constraint g lp t with
  | Ok cg => match exec solve_csp cg with Ok (b, _) => b | Stop _ => false end
  | Stop _ => false
  end.

Lemma solvable_says g lp t : wf_graph g -> make_lowest g = Ok lp -> solver_says g lp t (solvable g lp t).
Proof.
  intros Hw Hl. unfold solver_says, solvable.
  destruct (make_constraint_spec g lp t Hw Hl) as [cg [E [Hc _]]]. rewrite E.
  pose proof (exec_solve_csp cg Hc) as Es. rewrite Es.
  eexists. eexists. split; [reflexivity|exact Es].
Qed.

Lemma says_fun g lp t b b' : solver_says g lp t b -> solver_says g lp t b' -> b = b'.
Proof. intros [cg [cg' [E1 E2]]] [cg1 [cg1' [E3 E4]]]. congruence. Qed.

Lemma says_solvable g lp t b : wf_graph g -> make_lowest g = Ok lp -> solver_says g lp t b -> solvable g lp t = b.
Proof. intros Hw Hl H. eapply says_fun; [apply solvable_says; assumption|exact H]. Qed.

Lemma solvable_mono g lp t1 t2 : wf_graph g -> make_lowest g = Ok lp -> fle t1 t2 = true ->
  solvable g lp t1 = true -> solvable g lp t2 = true.
Proof.
  intros Hw Hl Ht S. pose proof (solvable_says g lp t1 Hw Hl) as [cg1 [cg1' [E1 E2]]]. rewrite S in E2.
  destruct (solve_monotone_fresh HL g lp t1 t2 cg1 cg1' Hw Hl Ht E1 E2) as [cg2 [cg2' [E3 [E4 _]]]].
  apply says_solvable; [assumption..|]. exists cg2, cg2'. auto.
Qed.

Lemma labeling_solvable g lp t k : wf_graph g -> make_lowest g = Ok lp ->
  labeling_ok g k -> nodes_within g lp t k -> edges_within g lp t k -> solvable g lp t = true.
Proof.
  intros Hw Hl Hk Hn He. destruct (make_constraint_spec g lp t Hw Hl) as [cg [E [Hc [Eg [El [Et Ha]]]]]].
  assert (S : solution cg k).
  { split; [rewrite Eg; exact Hk|]. split; [|rewrite Eg, El, Et; exact He].
    rewrite Eg. intros p Hp. destruct Hk as [Hk _]. pose proof (Hk p Hp) as M.
    assert (Hi : inb cg (label_node k p)) by (unfold inb; rewrite Eg; split; apply M).
    apply available_iff; [exact Hc|exact Hi|]. apply Ha; [exact Hi|]. split; [exact M|apply Hn; exact Hp]. }
  destruct (solve_keeps_solution cg k Hc S) as [cg' [E' _]].
  apply says_solvable; [assumption..|]. exists cg, cg'. auto.
Qed.

(** *** Lists *)

Lemma nth_get {A} (l : list A) i : i < len l -> exists v, get l i = Ok v /\ nth_error l (N.to_nat i) = Some v.
Proof.
  intros H. unfold get. destruct (N.ltb_spec i (len l)); [|lia].
  destruct (nth_error l (N.to_nat i)) eqn:E; [eauto|]. apply nth_error_None in E. unfold len in H. lia.
Qed.

Lemma increasing_nth l i j a b : increasing l -> (i < j)%nat ->
  nth_error l i = Some a -> nth_error l j = Some b -> flt a b = true.
Proof.
  intros S. revert i j. induction S as [|x l S IH F]; intros i j Hij Ha Hb; [destruct i; discriminate|].
  destruct j as [|j]; [lia|]. cbn in Hb. destruct i as [|i]; cbn in Ha.
  - injection Ha as <-. rewrite Forall_forall in F. apply F. eapply nth_error_In; exact Hb.
  - eapply IH; [|exact Ha|exact Hb]. lia.
Qed.

Lemma log2_up_half s : 2 <= s -> N.log2_up ((s + 1) / 2) + 1 <= N.log2_up s.
Proof.
  intros Hs. destruct (N.log2_up_spec s ltac:(lia)) as [_ U].
  assert (P : 0 < N.log2_up s) by (apply N.log2_up_pos; lia).
  assert (E : N.log2_up s = N.succ (N.pred (N.log2_up s))) by lia.
  set (k := N.pred (N.log2_up s)) in *. rewrite E in U |- *. rewrite N.pow_succ_r' in U.
  assert (Q : (s + 1) / 2 <= 2 ^ k) by (apply N.lt_succ_r; apply N.div_lt_upper_bound; lia).
  apply N.log2_up_le_pow2 in Q; [lia|]. apply N.div_str_pos. lia.
Qed.

Lemma log2_up_mono a b : a <= b -> N.log2_up a <= N.log2_up b.
Proof. apply N.log2_up_le_mono. Qed.

(** *** The search *)

Lemma search_spec g lp l fuel start stop calls :
  wf_graph g -> make_lowest g = Ok lp -> 2 * len l < wmod T ->
  increasing l -> start <= stop -> stop < len l -> (N.to_nat (stop - start) < fuel)%nat ->
  (forall i t, i < start -> nth_error l (N.to_nat i) = Some t -> solvable g lp t = false) ->
  (forall t, nth_error l (N.to_nat stop) = Some t -> solvable g lp t = true) ->
  exists t i n, threshold_search g lp l fuel start stop calls = Ok (t, n) /\
    nth_error l (N.to_nat i) = Some t /\ solvable g lp t = true /\
    (forall j t', j < i -> nth_error l (N.to_nat j) = Some t' -> solvable g lp t' = false) /\
    n <= calls + N.log2_up (stop - start + 1).
Proof.
  intros Hw Hl Hlen Inc. revert start stop calls.
  induction fuel as [|f IH]; intros start stop calls Hss Hst Hf Hlo Hhi; [lia|].
  cbn [threshold_search]. rewrite uadd_small by lia.
  set (cur := (start + stop) / 2).
  assert (Hc1 : 2 * cur <= start + stop) by (apply N.mul_div_le; lia).
  assert (Hc2 : start + stop < 2 * cur + 2).
  { unfold cur. pose proof (N.div_mod (start + stop) 2 ltac:(lia)). pose proof (N.mod_lt (start + stop) 2 ltac:(lia)). lia. }
  destruct (N.ltb_spec start stop) as [Hlt|Hge].
  - destruct (nth_get l cur ltac:(lia)) as [t [Eg En]]. rewrite Eg. cbn [bind].
    pose proof (solvable_says g lp t Hw Hl) as [cg [cg' [E1 E2]]]. rewrite E1. cbn [bind]. rewrite E2. cbn [bind fst].
    assert (Hlog : forall s, 2 * s <= stop - start + 2 -> N.log2_up s + 1 <= N.log2_up (stop - start + 1)).
    { intros s Hs. eapply N.le_trans; [|apply log2_up_half; lia].
      apply N.add_le_mono_r, log2_up_mono. apply N.div_le_lower_bound; lia. }
    destruct (solvable g lp t) eqn:St.
    + destruct (IH start cur (calls + 1)) as [t' [i [n [E [Ei [Si [Fi Hn]]]]]]]; try lia; [exact Hlo| |].
      * intros t' Et'. congruence.
      * exists t', i, n. split; [exact E|]. split; [exact Ei|]. split; [exact Si|]. split; [exact Fi|].
        pose proof (Hlog (cur - start + 1) ltac:(lia)). lia.
    + rewrite uadd_small by lia.
      destruct (IH (cur + 1) stop (calls + 1)) as [t' [i [n [E [Ei [Si [Fi Hn]]]]]]]; try lia; [|exact Hhi|].
      * intros i t' Hi Et'. destruct (N.eq_dec i cur) as [->|Hne]; [congruence|].
        destruct (solvable g lp t') eqn:St'; [|reflexivity]. exfalso.
        assert (X : solvable g lp t = true).
        { eapply solvable_mono; [exact Hw|exact Hl| |exact St'].
          apply (flt_le HL). eapply (increasing_nth l (N.to_nat i) (N.to_nat cur)); try eassumption. lia. }
        congruence.
      * exists t', i, n. split; [exact E|]. split; [exact Ei|]. split; [exact Si|]. split; [exact Fi|].
        pose proof (Hlog (stop - (cur + 1) + 1) ltac:(lia)). lia.
  - assert (Es : stop = start) by lia. subst stop. assert (Ec : cur = start) by lia. rewrite Ec.
    destruct (nth_get l start ltac:(lia)) as [t [Eg En]]. rewrite Eg. cbn [bind].
    exists t, start, calls. split; [reflexivity|]. split; [exact En|]. split; [apply Hhi; exact En|].
    split; [exact Hlo|]. lia.
Qed.

(** *** The largest candidate is solvable *)

Definition zero_labeling : labeling := fun _ => 0.

Lemma zero_labeling_ok g : wf_graph g -> labeling_ok g zero_labeling.
Proof.
  intros Hw. pose proof (wf_levels g Hw). split.
  - intros p [Hx Hy]. unfold match_exists, in_image, label_node, zero_labeling. cbn [npix disp]. lia.
  - intros p q _ _ _. split; intros [H1 H2]; cbn [label_node npix disp] in *; unfold zero_labeling; lia.
Qed.

Lemma zero_enumerated g p q : wf_graph g -> in_image g p -> in_image g q -> adjacent p q ->
  enumerated g (label_edge zero_labeling p q).
Proof.
  intros Hw Hp Hq A. destruct (zero_labeling_ok g Hw) as [M _].
  split; [apply M; exact Hp|]. split; [apply M; exact Hq|]. split; [exact A|]. right. apply N.le_0_l.
Qed.

Lemma node_excess_ex g lp n : wf_graph g -> make_lowest g = Ok lp -> match_exists g n ->
  exists c, node_excess g lp n c.
Proof.
  intros Hw Hl M. destruct (node_penalty_Ok g n Hw M) as [v Ev].
  destruct (lowest_pixel_Ok g (npix n) Hw (proj1 M)) as [m [Em _]].
  rewrite <- (lowest_pixel_value g lp _ Hw Hl (proj1 M)) in Em.
  exists (fsub v m), v, m. auto.
Qed.

Lemma edge_excess_ex g lp n n' : wf_graph g -> make_lowest g = Ok lp -> match_exists g n -> match_exists g n' ->
  adjacent (npix n) (npix n') -> exists c, edge_excess g lp {| enode := n; enbr := n' |} c.
Proof.
  intros Hw Hl M M' A.
  destruct (edge_penalty_Ok g n n' Hw (proj1 M) (proj1 (proj2 M)) (proj1 M') (proj1 (proj2 M')) A) as [v Ev].
  destruct (lowest_nbr_Ok g (npix n) (npix n') Hw (proj1 M) (proj1 M') A) as [m [Em _]].
  exists (fsub v m), v, m. split; [exact Ev|]. split; [|reflexivity].
  rewrite (lowest_nbr_value g lp {| enode := n; enbr := n' |} Hw Hl); [exact Em|apply M|apply M'|exact A].
Qed.

Lemma within_candidates g lp l t k : wf_graph g -> make_lowest g = Ok lp -> labeling_ok g k ->
  (forall c, candidate g lp c -> exists y, In y l /\ feq y c = true) ->
  (forall p q c, in_image g p -> in_image g q -> adjacent p q ->
     edge_excess g lp (label_edge k p q) c -> exists y, In y l /\ feq y c = true) ->
  (forall y, In y l ->
     (exists p c, in_image g p /\ node_excess g lp (label_node k p) c /\ feq y c = true) \/
     (exists p q c, in_image g p /\ in_image g q /\ adjacent p q /\
        edge_excess g lp (label_edge k p q) c /\ feq y c = true) -> fle y t = true) ->
  nodes_within g lp t k /\ edges_within g lp t k.
Proof.
  intros Hw Hl [Hk _] Hc He Ht. split.
  - intros p Hp. destruct (node_excess_ex g lp _ Hw Hl (Hk p Hp)) as [c Ec].
    apply (node_within_excess g lp t _ c Ec).
    destruct (Hc c) as [y [Hy Q]]; [left; exists (label_node k p); auto|].
    apply (feq_le_iff HL y c t Q). apply Ht; [exact Hy|]. left. exists p, c. auto.
  - intros p q Hp Hq A. destruct (edge_excess_ex g lp _ _ Hw Hl (Hk p Hp) (Hk q Hq) A) as [c Ec].
    apply (edge_within_excess g lp t _ c Ec).
    destruct (He p q c Hp Hq A Ec) as [y [Hy Q]].
    apply (feq_le_iff HL y c t Q). apply Ht; [exact Hy|]. right. exists p, q, c. auto 6.
Qed.

Lemma last_solvable srt g lp l : sorts srt -> wf_graph g -> make_lowest g = Ok lp -> finite_penalties g ->
  fetch_available_penalties srt lp = Ok l ->
  0 < len l /\ forall t, nth_error l (N.to_nat (len l - 1)) = Some t -> solvable g lp t = true.
Proof.
  intros Hs Hw Hl Hf E. destruct (fetch_spec HL srt g lp Hs Hw Hl Hf) as [l' [E' [Inc [Num [Sub Cov]]]]].
  assert (l' = l) by congruence. subst l'. clear E'.
  pose proof (zero_labeling_ok g Hw) as Z.
  pose proof (wf_sizes g Hw) as Sz. pose proof (sz_l g Sz). pose proof (sz_lw g Sz). pose proof (sz_h g Sz).
  assert (O : in_image g {| px := 0; py := 0 |}) by (unfold in_image; cbn [px py]; lia).
  assert (Hpos : 0 < len l).
  { destruct (node_excess_ex g lp _ Hw Hl (proj1 Z _ O)) as [c Ec].
    destruct (Cov c) as [y [Hy _]]; [left; eexists; split; [|exact Ec]; apply Z; exact O|].
    destruct l; [destruct Hy|]. unfold len. cbn [length]. lia. }
  split; [exact Hpos|]. intros t Et.
  destruct (within_candidates g lp l t zero_labeling Hw Hl Z Cov) as [Wn We].
  - intros p q c Hp Hq A Ec. apply Cov. right. exists (label_edge zero_labeling p q).
    split; [apply zero_enumerated; assumption|exact Ec].
  - intros y Hy _. apply In_nth_error in Hy. destruct Hy as [i Ei].
    assert (Hi : (i < length l)%nat) by (apply nth_error_Some; congruence).
    destruct (Nat.eq_dec i (N.to_nat (len l - 1))) as [->|Hne].
    + assert (y = t) by congruence. subst y. apply Num. eapply nth_error_In; exact Et.
    + apply (flt_le HL). eapply (increasing_nth l i); [exact Inc| |exact Ei|exact Et]. unfold len in *. lia.
  - eapply labeling_solvable; eassumption.
Qed.

Lemma threshold_spec srt g lp l : sorts srt -> wf_graph g -> make_lowest g = Ok lp -> finite_penalties g ->
  fetch_available_penalties srt lp = Ok l -> 2 * len l < wmod T ->
  exists t n, calculate_minimal_consistent_threshold lp g l = Ok t /\ minimal_threshold_calls lp g l = Ok n /\
    In t l /\ solvable g lp t = true /\
    (forall t', In t' l -> flt t' t = true -> solvable g lp t' = false) /\
    n <= N.log2_up (len l).
Proof.
  intros Hs Hw Hl Hf E Hlen. destruct (last_solvable srt g lp l Hs Hw Hl Hf E) as [Hpos Hlast].
  destruct (fetch_spec HL srt g lp Hs Hw Hl Hf) as [l' [E' [Inc [Num _]]]].
  assert (l' = l) by congruence. subst l'.
  unfold calculate_minimal_consistent_threshold, minimal_threshold_calls. rewrite usub_small by lia.
  destruct (search_spec g lp l (S (length l)) 0 (len l - 1) 0 Hw Hl Hlen Inc) as [t [i [n [Es [Ei [Si [Fi Hn]]]]]]].
  - lia.
  - lia.
  - unfold len in *. lia.
  - intros j t Hj. lia.
  - exact Hlast.
  - rewrite Es. cbn [bind fst snd]. exists t, n. split; [reflexivity|]. split; [reflexivity|].
    split; [eapply nth_error_In; exact Ei|]. split; [exact Si|]. split.
    + intros t' Ht' Hlt. apply In_nth_error in Ht'. destruct Ht' as [j Ej].
      apply (Fi (N.of_nat j)); [|rewrite Nnat.Nat2N.id; exact Ej].
      destruct (N.lt_ge_cases (N.of_nat j) i) as [L|L]; [exact L|]. exfalso.
      destruct (N.eq_dec (N.of_nat j) i) as [Q|Q].
      * subst i. rewrite Nnat.Nat2N.id in Ei. assert (t' = t) by congruence. subst t'.
        apply (flt_spec T HL) in Hlt. destruct Hlt. congruence.
      * assert (flt t t' = true) by (eapply (increasing_nth l (N.to_nat i) j); try eassumption; lia).
        apply (flt_spec T HL) in Hlt. apply (flt_spec T HL) in H. destruct H, Hlt. congruence.
    + rewrite N.add_0_l in Hn. replace (len l - 1 - 0 + 1) with (len l) in Hn by lia. exact Hn.
Qed.

(** *** Number of candidates for a zero reparametrization *)

Lemma increasing_pigeonhole l (U : list (F T)) : increasing l -> covers l U -> len l <= len U.
Proof.
  intros Inc Cov.
  set (f := fun x => match find (fun y => feq y x) U with Some y => y | None => x end).
  assert (Hf : forall x, In x l -> In (f x) U /\ feq (f x) x = true).
  { intros x Hx. unfold f. destruct (Cov x Hx) as [y [Hy Q]].
    destruct (find (fun y => feq y x) U) eqn:E.
    - apply find_some in E. exact E.
    - eapply find_none in E; [|exact Hy]. cbn beta in E. congruence. }
  assert (ND : NoDup (map f l)).
  { clear Cov. induction Inc as [|x l Inc IH Fx]; cbn [map]; [constructor|].
    constructor.
    - intros Hin. apply in_map_iff in Hin. destruct Hin as [y [Ey Hy]].
      destruct (Hf x (or_introl eq_refl)) as [_ Q1]. destruct (Hf y (or_intror Hy)) as [_ Q2].
      rewrite Ey in Q2. assert (Q : feq y x = true) by (eapply (feq_trans HL); [apply (feq_sym HL); exact Q2|exact Q1]).
      rewrite Forall_forall in Fx. pose proof (Fx y Hy) as L.
      apply (flt_spec T HL) in L. apply (feq_spec T HL) in Q. destruct L, Q. congruence.
    - apply IH. intros y Hy. apply Hf. right; exact Hy. }
  assert (IN : incl (map f l) U).
  { intros y Hy. apply in_map_iff in Hy. destruct Hy as [x [<- Hx]]. apply Hf; exact Hx. }
  pose proof (NoDup_incl_length ND IN) as L. rewrite map_length in L. unfold len. lia.
Qed.

Definition the_excess g lp (n : node) : F T :=
  match node_penalty g n, lowest_pixel_penalty lp (npix n) with
  | Ok v, Ok m => fsub v m
  | _, _ => fzero
  end.

Definition universe g lp : list (F T) :=
  flat_map (fun p => map (fun d => the_excess g lp {| npix := p; disp := d |}) (range 0 (levels g)))
    (all_pixels (width (right g)) (height (right g)))
  ++ flat_map (fun d => map (fun d' => epen g d d') (range 0 (levels g))) (range 0 (levels g)).

Lemma len_flat_map_const {A B} (f : A -> list B) xs c : (forall x, In x xs -> len (f x) = c) ->
  len (flat_map f xs) = len xs * c.
Proof.
  intros H. induction xs as [|x xs IH]; [reflexivity|]. cbn [flat_map].
  unfold len in *. rewrite app_length. cbn [length].
  rewrite !Nnat.Nat2N.inj_add, IH by (intros; apply H; right; assumption).
  rewrite (H x) by (left; reflexivity). lia.
Qed.

Lemma len_map {A B} (f : A -> B) xs : len (map f xs) = len xs.
Proof. unfold len. rewrite map_length. reflexivity. Qed.

Lemma len_range a b : len (range a b) = b - a.
Proof.
  unfold range, len. assert (H : forall n f, length (seqN n f) = n) by (induction n; intros; cbn [seqN length]; auto).
  rewrite H. lia.
Qed.

Lemma len_universe g lp : len (universe g lp) = width (right g) * height (right g) * levels g + levels g * levels g.
Proof.
  unfold universe. unfold len at 1. rewrite app_length, Nnat.Nat2N.inj_add. fold (@len (F T)).
  change (N.of_nat (length ?a)) with (len a). f_equal.
  - rewrite (len_flat_map_const _ _ (levels g)) by (intros; rewrite len_map, len_range; lia).
    unfold all_pixels. rewrite (len_flat_map_const _ _ (height (right g))) by (intros; rewrite len_map, len_range; lia).
    rewrite len_range. f_equal. f_equal. lia.
  - rewrite (len_flat_map_const _ _ (levels g)) by (intros; rewrite len_map, len_range; lia).
    rewrite len_range. f_equal. lia.
Qed.

Lemma candidates_bound srt g lp l : sorts srt -> wf_graph g -> make_lowest g = Ok lp -> finite_penalties g ->
  zero_reparam g -> nonneg_weights g -> fetch_available_penalties srt lp = Ok l ->
  len l <= 2 * (width (right g) * height (right g) * levels g).
Proof.
  intros Hs Hw Hl Hf Hz Hn E. destruct (fetch_spec HL srt g lp Hs Hw Hl Hf) as [l' [E' [Inc [Num [Sub _]]]]].
  assert (l' = l) by congruence. subst l'.
  assert (C : covers l (universe g lp)).
  { intros x Hx. unfold universe. destruct (Sub x Hx) as [[[p d] [M [v [m [Ev [Em ->]]]]]]|[[n n'] [[M1 [M2 [A _]]] X]]].
    - exists (fsub v m). split; [|apply (feq_refl HL), Num; exact Hx]. apply in_or_app. left.
      apply in_flat_map. exists p. split; [apply In_all_pixels; apply M|].
      apply in_map_iff. exists d. split; [|apply In_range; destruct M as [_ [M _]]; cbn [disp] in M; lia].
      unfold the_excess. rewrite Ev. cbn [npix] in *. rewrite Em. reflexivity.
    - cbn [enode enbr] in *. destruct (edge_excess_zero HL g lp n n' Hw Hl Hz Hf Hn M1 M2 A) as [c [Ec Q]].
      assert (c = x) by (eapply edge_excess_fun; eassumption). subst c.
      exists (epen g (disp n) (disp n')). split; [|apply (feq_sym HL); exact Q]. apply in_or_app. right.
      apply in_flat_map. exists (disp n). split; [apply In_range; destruct M1 as [_ [M1 _]]; lia|].
      apply in_map_iff. exists (disp n'). split; [reflexivity|apply In_range; destruct M2 as [_ [M2 _]]; lia]. }
  pose proof (increasing_pigeonhole l _ Inc C) as B. rewrite len_universe in B.
  pose proof (wf_sizes g Hw) as Sz. pose proof (sz_l g Sz). pose proof (sz_lw g Sz). pose proof (sz_h g Sz).
  assert (levels g * levels g <= width (right g) * height (right g) * levels g) by (apply N.mul_le_mono_r; nia).
  lia.
Qed.

Lemma candidates_fit srt g lp l : sorts srt -> wf_graph g -> make_lowest g = Ok lp -> finite_penalties g ->
  zero_reparam g -> nonneg_weights g -> fetch_available_penalties srt lp = Ok l -> 2 * len l < wmod T.
Proof.
  intros Hs Hw Hl Hf Hz Hn E. pose proof (candidates_bound srt g lp l Hs Hw Hl Hf Hz Hn E).
  pose proof (wf_wrap g Hw). lia.
Qed.

(** *** Statements *)

Lemma minimal_threshold srt g lp l : sorts srt -> wf_graph g -> make_lowest g = Ok lp -> finite_penalties g ->
  fetch_available_penalties srt lp = Ok l ->
  (zero_reparam g /\ nonneg_weights g) \/ 2 * len l < wmod T ->
  exists t n, calculate_minimal_consistent_threshold lp g l = Ok t /\ minimal_threshold_calls lp g l = Ok n /\
    In t l /\ solver_says g lp t true /\
    (forall t', In t' l -> flt t' t = true -> solver_says g lp t' false) /\
    n <= N.log2_up (len l).
Proof.
  intros Hs Hw Hl Hf E Hlen.
  assert (Hlen' : 2 * len l < wmod T).
  { destruct Hlen as [[Hz Hn]|H]; [|exact H]. eapply candidates_fit; eassumption. }
  destruct (threshold_spec srt g lp l Hs Hw Hl Hf E Hlen') as [t [n [E1 [E2 [I [S [M B]]]]]]].
  exists t, n. split; [exact E1|]. split; [exact E2|]. split; [exact I|]. split; [|split; [|exact B]].
  - rewrite <- S. apply solvable_says; assumption.
  - intros t' I' L. rewrite <- (M t' I' L). apply solvable_says; assumption.
Qed.

Lemma threshold_below srt g lp l t k b : sorts srt -> wf_graph g -> make_lowest g = Ok lp -> finite_penalties g ->
  zero_reparam g -> nonneg_weights g -> fetch_available_penalties srt lp = Ok l ->
  calculate_minimal_consistent_threshold lp g l = Ok t ->
  labeling_ok g k -> nodes_within g lp b k -> edges_within g lp b k -> fle t b = true.
Proof.
  intros Hs Hw Hl Hf Hz Hn E Et Hk Wn We.
  destruct (threshold_spec srt g lp l Hs Hw Hl Hf E (candidates_fit srt g lp l Hs Hw Hl Hf Hz Hn E))
    as [t' [n [E1 [_ [It [St [Min _]]]]]]].
  assert (t' = t) by congruence. subst t'.
  destruct (candidates_complete HL srt g lp Hs Hw Hl Hf) as [l' [E' [Inc [Num [Sub [Cov CovE]]]]]].
  assert (l' = l) by congruence. subst l'. specialize (CovE Hz Hn).
  pose proof (wf_sizes g Hw) as Sz. pose proof (sz_l g Sz). pose proof (sz_lw g Sz). pose proof (sz_h g Sz).
  assert (O : in_image g {| px := 0; py := 0 |}) by (unfold in_image; cbn [px py]; lia).
  assert (Nb : is_number b).
  { destruct (Wn _ O) as [v [m [_ [_ L]]]]. apply (fle_number T HL) in L. apply L. }
  destruct (fle_total T HL t b) as [L|L]; [apply Num; exact It|exact Nb|exact L|].
  (* The candidates not above b contain one that is the largest. *)
  apply In_nth_error in It. destruct It as [i Ei].
  destruct (fle t b) eqn:Etb; [reflexivity|exfalso].
  assert (Hlt : flt b t = true) by (apply (flt_spec T HL); auto).
  assert (Hpre : forall y, In y l -> fle y b = true -> exists j, (j < i)%nat /\ nth_error l j = Some y).
  { intros y Hy Hyb. apply In_nth_error in Hy. destruct Hy as [j Ej]. exists j. split; [|exact Ej].
    destruct (Nat.lt_ge_cases j i) as [L'|L']; [exact L'|exfalso].
    assert (fle t y = true).
    { destruct (Nat.eq_dec i j) as [->|Hne].
      - assert (y = t) by congruence. subst y. apply Num. eapply nth_error_In; exact Ei.
      - apply (flt_le HL). eapply (increasing_nth l i j); try eassumption. lia. }
    assert (fle t b = true) by (eapply (fle_trans T HL); eassumption). congruence. }
  assert (Hfst : exists y, In y l /\ fle y b = true).
  { destruct Hk as [Hk _]. destruct (node_excess_ex g lp _ Hw Hl (Hk _ O)) as [c Ec].
    destruct (Cov c) as [y [Hy Q]]; [left; eexists; split; [|exact Ec]; apply Hk; exact O|].
    exists y. split; [exact Hy|]. apply (feq_le_iff HL y c b Q).
    apply (node_within_excess g lp b _ c Ec). apply Wn; exact O. }
  destruct Hfst as [y0 [Hy0 Hb0]]. destruct (Hpre y0 Hy0 Hb0) as [j0 [Hj0 _]].
  assert (Hi : (i < length l)%nat) by (apply nth_error_Some; congruence).
  destruct (nth_error l (i - 1)) as [t'|] eqn:Et'; [|apply nth_error_None in Et'; lia].
  assert (Hlt' : flt t' t = true) by (eapply (increasing_nth l (i - 1) i); try eassumption; lia).
  assert (X : solvable g lp t' = true).
  { destruct (within_candidates g lp l t' k Hw Hl Hk Cov) as [Wn' We'].
    - intros p q c Hp Hq A Ec. apply CovE with (label_edge k p q); [|exact Ec].
      split; [apply Hk; exact Hp|]. split; [apply Hk; exact Hq|]. split; [exact A|]. apply Hk; assumption.
    - intros y Hy Hex.
      assert (Hyb : fle y b = true).
      { destruct Hex as [[p [c [Hp [Ec Q]]]]|[p [q [c [Hp [Hq [A [Ec Q]]]]]]]];
          apply (feq_le_iff HL y c b Q).
        - apply (node_within_excess g lp b _ c Ec). apply Wn; exact Hp.
        - apply (edge_within_excess g lp b _ c Ec). apply We; assumption. }
      destruct (Hpre y Hy Hyb) as [j [Hj Ej]].
      destruct (Nat.eq_dec j (i - 1)) as [->|Hne].
      + assert (y = t') by congruence. subst y. apply Num; exact Hy.
      + apply (flt_le HL). eapply (increasing_nth l j (i - 1)); try eassumption. lia.
    - eapply labeling_solvable; eassumption. }
  rewrite (Min t') in X; [discriminate|eapply nth_error_In; exact Et'|exact Hlt'].
Qed.
Lemma solvable_at_threshold srt g lp l t cg : sorts srt -> wf_graph g -> make_lowest g = Ok lp -> finite_penalties g ->
  zero_reparam g -> nonneg_weights g -> fetch_available_penalties srt lp = Ok l ->
  calculate_minimal_consistent_threshold lp g l = Ok t -> make_constraint g lp t = Ok cg ->
  exists cg', exec solve_csp cg = Ok (true, cg').
Proof.
  intros Hs Hw Hl Hf Hz Hn E Et Ec.
  destruct (minimal_threshold srt g lp l Hs Hw Hl Hf E (or_introl (conj Hz Hn))) as [t' [n [Et' [_ [_ [[cg1 [cg' [E1 E2]]] _]]]]]].
  rewrite Et in Et'. assert (t' = t) by congruence. subst t'. rewrite Ec in E1. assert (cg1 = cg) by congruence. subst cg1.
  exists cg'. exact E2.
Qed.
End Graph.
