(** The concrete problems behind the examples and the refutations. *)
From Verif Require Export Checks Target_proofs.
Local Open Scope N_scope.

Definition num (n : N) : F cpu := @of_u cpu n.
Definition pic (w h : N) (d : list N) : image := {| width := w; height := h; max_value := 10; data := d |}.
Definition problem (w h lev : N) (l r : list N) (c s : N) : dgraph cpu :=
  {| left := pic w h l; right := pic w h r; levels := lev; cleanness := num c; smoothness := num s;
     reparam := fill (w * h * 4 * lev) fzero |}.
Definition with_reparam (g : dgraph cpu) (l : list (F cpu)) : dgraph cpu :=
  {| left := left g; right := right g; levels := levels g; cleanness := cleanness g;
     smoothness := smoothness g; reparam := l |}.

(** One sweep is not enough: after it the second pixel should lose a node. *)
Definition g36 : dgraph cpu := problem 3 1 2 [1; 1; 1] [0; 0; 1] 1 1.
(** The solver succeeds, but there is no labeling within the threshold. *)
Definition g37 : dgraph cpu := problem 4 2 4 [0; 2; 2; 0; 0; 2; 3; 1] [0; 1; 3; 3; 0; 0; 2; 3] 2 3.
(** No labeling is found. *)
Definition g51 : dgraph cpu := problem 3 1 2 [0; 1; 0] [1; 1; 1] 1 2.
(** Different minima for the two directions of one neighborhood. *)
Definition g26 : dgraph cpu :=
  with_reparam (problem 3 1 3 [0; 0; 0] [0; 0; 0] 1 1)
    (fill 2 fzero ++ [num 10] ++ fill 9 fzero ++ [fsub fzero (num 10)] ++ fill 2 fzero ++ [num 10] ++ fill 20 fzero).
(** Negative penalties. *)
Definition g46 : dgraph cpu :=
  with_reparam (problem 3 1 3 [0; 0; 0] [0; 0; 0] 1 1)
    ([num 4; fsub fzero (num 3); num 10] ++ fill 33 fzero).

Definition nd (x y d : N) : node := {| npix := {| px := x; py := y |}; disp := d |}.
Definition px0 : pixel := {| px := 0; py := 0 |}.

Lemma made w h lev l r c s :
  image_valid cpu (pic w h l) = Ok true -> image_valid cpu (pic w h r) = Ok true ->
  (lev <=? 1) || (w <? lev) = false ->
  @flt cpu (num c) fzero = false -> @flt cpu (num s) fzero = false ->
  @flt cpu (num c) feps = false ->
  w * h * 4 * lev <= vector_max_size -> w * h * 4 * lev < 2 ^ 64 ->
  make_graph (pic w h l) (pic w h r) lev (num c) (num s) = Ok (problem w h lev l r c s).
Proof.
  intros E1 E2 E3 E4 E5 E6 Hv Hw. apply orb_false_iff in E3. destruct E3 as [E3 E3'].
  unfold make_graph. rewrite E1, E2. cbn [bind negb pic width height max_value].
  rewrite E3, E3', !N.eqb_refl, E4, E5, E6. cbn [negb andb].
  destruct (image_valid_nonzero (T := cpu) _ E1) as [Hx Hy]. cbn [pic width height] in Hx, Hy.
  apply N.leb_gt in E3.
  assert (1 * (w * h * 4) <= lev * (w * h * 4)) by (apply N.mul_le_mono_r; lia).
  assert (2 ^ 64 = wmod cpu) by reflexivity.
  rewrite (umul_small cpu w h) by lia. unfold NEIGHBORS_COUNT.
  rewrite (umul_small cpu (w * h) 4) by lia. rewrite umul_small by lia.
  unfold alloc. destruct (N.ltb_spec vector_max_size (w * h * 4 * lev)); [lia|]. reflexivity.
Qed.

Ltac made := apply made; vm_compute; (reflexivity || discriminate).

Lemma g36_made : make_graph (left g36) (right g36) (levels g36) (cleanness g36) (smoothness g36) = Ok g36.
Proof. made. Qed.
Lemma g37_made : make_graph (left g37) (right g37) (levels g37) (cleanness g37) (smoothness g37) = Ok g37.
Proof. made. Qed.
Lemma g51_made : make_graph (left g51) (right g51) (levels g51) (cleanness g51) (smoothness g51) = Ok g51.
Proof. made. Qed.

Lemma g36_wf : wf_graph g36. Proof. apply wfb_ok. vm_compute. reflexivity. Qed.
Lemma g37_wf : wf_graph g37. Proof. apply wfb_ok. vm_compute. reflexivity. Qed.
Lemma g51_wf : wf_graph g51. Proof. apply wfb_ok. vm_compute. reflexivity. Qed.
Lemma g26_wf : wf_graph g26. Proof. apply wfb_ok. vm_compute. reflexivity. Qed.
Lemma g46_wf : wf_graph g46. Proof. apply wfb_ok. vm_compute. reflexivity. Qed.

Lemma g36_finite : finite_penalties g36. Proof. apply finite_check_ok; [apply g36_wf|]. vm_compute. reflexivity. Qed.
Lemma g37_finite : finite_penalties g37. Proof. apply finite_check_ok; [apply g37_wf|]. vm_compute. reflexivity. Qed.
Lemma g51_finite : finite_penalties g51. Proof. apply finite_check_ok; [apply g51_wf|]. vm_compute. reflexivity. Qed.
Lemma g26_finite : finite_penalties g26. Proof. apply finite_check_ok; [apply g26_wf|]. vm_compute. reflexivity. Qed.
Lemma g46_finite : finite_penalties g46. Proof. apply finite_check_ok; [apply g46_wf|]. vm_compute. reflexivity. Qed.

Lemma g36_low : make_lowest g36 = Ok (low g36). Proof. apply low_ok. vm_compute. reflexivity. Qed.
Lemma g37_low : make_lowest g37 = Ok (low g37). Proof. apply low_ok. vm_compute. reflexivity. Qed.
Lemma g51_low : make_lowest g51 = Ok (low g51). Proof. apply low_ok. vm_compute. reflexivity. Qed.
Lemma g26_low : make_lowest g26 = Ok (low g26). Proof. apply low_ok. vm_compute. reflexivity. Qed.
Lemma g46_low : make_lowest g46 = Ok (low g46). Proof. apply low_ok. vm_compute. reflexivity. Qed.

Lemma zero_problem w h lev l r c s : zero_reparam (problem w h lev l r c s).
Proof. eapply zero_fill. reflexivity. Qed.
Lemma g36_zero : zero_reparam g36. Proof. apply zero_problem. Qed.
Lemma g37_zero : zero_reparam g37. Proof. apply zero_problem. Qed.
Lemma g51_zero : zero_reparam g51. Proof. apply zero_problem. Qed.

Lemma g37_nonneg : nonneg_weights g37. Proof. split; vm_compute; reflexivity. Qed.
Lemma g51_nonneg : nonneg_weights g51. Proof. split; vm_compute; reflexivity. Qed.

Lemma con_wf (g : dgraph cpu) t : wf_graph g -> make_lowest g = Ok (low g) ->
  ok (make_constraint g (low g) t) = true -> wf_cgraph (con g t).
Proof. intros Hw Hl E. apply con_ok in E. apply (make_constraint_Ok g (low g) t (con g t) Hw Hl E). Qed.

Lemma con_graph (g : dgraph cpu) t : wf_graph g -> make_lowest g = Ok (low g) ->
  ok (make_constraint g (low g) t) = true -> cg_graph (con g t) = g.
Proof. intros Hw Hl E. apply con_ok in E. apply (make_constraint_Ok g (low g) t (con g t) Hw Hl E). Qed.

Lemma solve_wf (cg cg' : cgraph cpu) b : wf_cgraph cg -> exec solve_csp cg = Ok (b, cg') ->
  wf_cgraph cg' /\ cg_graph cg' = cg_graph cg.
Proof.
  intros C E. rewrite exec_solve_csp in E by exact C. injection E as _ <-. split; [|reflexivity].
  apply static_wf; [apply wf_static; exact C|]. apply solved_ok. apply (wfc_avail _ C).
Qed.

(** *** The sample problem *)

Definition sg : dgraph cpu := sample_graph cpu.
Lemma sg_low : make_lowest sg = Ok (low sg). Proof. apply low_ok. vm_compute. reflexivity. Qed.
Lemma sg_finite : finite_penalties sg. Proof. apply finite_check_ok; [apply sample_wf_cpu|]. vm_compute. reflexivity. Qed.
Lemma sg_zero : zero_reparam sg. Proof. eapply zero_fill. reflexivity. Qed.
Lemma sg_nonneg : nonneg_weights sg. Proof. split; vm_compute; reflexivity. Qed.

(** A threshold with several available nodes per pixel, and a labeling. *)
Definition t25 : F cpu := num 25.
Definition scg : cgraph cpu := con sg t25.
Definition k2 : labeling := fun p => if (px p =? 0) && (py p =? 0) then 2 else if (px p =? 1) && (py p =? 0) then 1 else 0.
Lemma scg_made : make_constraint sg (low sg) t25 = Ok scg. Proof. apply con_ok. vm_compute. reflexivity. Qed.
Lemma scg_wf : wf_cgraph scg.
Proof. apply con_wf; [exact sample_wf_cpu|exact sg_low|vm_compute; reflexivity]. Qed.
Lemma scg_graph : cg_graph scg = sg.
Proof. apply con_graph; [exact sample_wf_cpu|exact sg_low|vm_compute; reflexivity]. Qed.
Lemma k2_ok : labeling_ok sg k2 /\ nodes_within sg (low sg) t25 k2 /\ edges_within sg (low sg) t25 k2.
Proof. apply sol_check_ok; [exact sample_wf_cpu|]. vm_compute. reflexivity. Qed.
Lemma k2_solution : solution scg k2.
Proof.
  destruct (make_constraint_Ok sg (low sg) t25 scg sample_wf_cpu sg_low scg_made) as [_ [Eg [El [Et B]]]].
  destruct k2_ok as [K [Nw Ew]]. unfold solution. rewrite Eg, El, Et. split; [exact K|]. split; [|exact Ew].
  intros p Hp. pose proof (proj1 K p Hp) as M.
  assert (I : inb scg (label_node k2 p)) by (unfold inb; rewrite Eg; split; apply M).
  apply available_iff; [exact scg_wf|exact I|]. apply B; [exact I|]. split; [exact M|apply Nw; exact Hp].
Qed.
Lemma scg_solves : exec solve_csp scg = Ok (true, after solve_csp scg).
Proof. apply answers_ok. vm_compute. reflexivity. Qed.

(** *** C26 *)

(** The penalties of all edges between two pixels are above a value. *)
Definition above (g : dgraph cpu) (p q : pixel) (o : outcome (F cpu)) : bool :=
  match o with
  | Stop _ => false
  | Ok m =>
    forallb (fun n => forallb (fun n' =>
      if edge_exists g {| enode := n; enbr := n' |}
      then match edge_penalty g {| enode := n; enbr := n' |} with Ok v => flt m v | Stop _ => false end
      else true) (nodes_of g q)) (nodes_of g p)
  end.

Lemma above_ok g p q o : wf_graph g -> above g p q o = true ->
  exists m, o = Ok m /\ forall e v, match_pair g e -> npix (enode e) = p -> npix (enbr e) = q ->
    edge_penalty g e = Ok v -> flt m v = true.
Proof.
  intros Hw H. destruct o as [m|]; [|discriminate]. exists m. split; [reflexivity|].
  intros [n n'] v M Ep Eq Ev. cbn [enode enbr] in *. subst p q. unfold above in H. rewrite forallb_forall in H.
  pose proof M as [M1 [M2 _]]. cbn [enode enbr] in M1, M2.
  specialize (H n (In_nodes_of g n Hw M1)). rewrite forallb_forall in H.
  specialize (H n' (In_nodes_of g n' Hw M2)).
  assert (X : edge_exists g {| enode := n; enbr := n' |} = true).
  { apply (edge_exists_inb {| cg_graph := g; cg_lowest := low g; cg_threshold := fzero; cg_avail := [] |});
      try (apply match_inb; assumption); assumption. }
  rewrite X, Ev in H. exact H.
Qed.

Lemma left_minimum_wrong : exists (g : dgraph cpu) lp p q m,
  wf_graph g /\ finite_penalties g /\ make_lowest g = Ok lp /\ in_image g p /\ in_image g q /\ adjacent p q /\
  lowest_neighborhood_penalty_fast lp p q = Ok m /\
  forall e v, match_pair g e -> npix (enode e) = p -> npix (enbr e) = q -> edge_penalty g e = Ok v -> flt m v = true.
Proof.
  exists g26, (low g26), {| px := 1; py := 0 |}, px0.
  destruct (above_ok g26 {| px := 1; py := 0 |} px0
     (lowest_neighborhood_penalty_fast (low g26) {| px := 1; py := 0 |} px0) g26_wf) as [m [E A]]; [vm_compute; reflexivity|].
  exists m. refine (conj g26_wf (conj g26_finite (conj g26_low (conj _ (conj _ (conj _ (conj E A))))))).
  - split; reflexivity.
  - split; reflexivity.
  - right; left. split; reflexivity.
Qed.

(** *** C30 *)

Definition e26 : edge := {| enode := nd 0 0 0; enbr := nd 1 0 0 |}.

Lemma edge_not_symmetric : exists (g : dgraph cpu) lp t cg e,
  wf_graph g /\ finite_penalties g /\ make_lowest g = Ok lp /\ fle fzero t = true /\ make_constraint g lp t = Ok cg /\
  match_pair g e /\ edge_available cg e /\ ~ edge_available cg (reverse e).
Proof.
  exists g26, (low g26), fzero, (con g26 fzero), e26.
  refine (conj g26_wf (conj g26_finite (conj g26_low (conj _ (conj _ (conj _ (conj _ _))))))).
  - vm_compute. reflexivity.
  - apply con_ok. vm_compute. reflexivity.
  - unfold match_pair, match_exists, in_image, adjacent, in_order, horizontal_pair, e26, nd. cbn. lia.
  - apply edge_available_iff; [apply con_wf; [apply g26_wf|apply g26_low|vm_compute; reflexivity]| | | |].
    1,2: unfold inb; rewrite con_graph by (apply g26_wf || apply g26_low || (vm_compute; reflexivity));
         unfold in_image, e26, nd; cbn; lia.
    + left; split; reflexivity.
    + vm_compute; reflexivity.
  - intros A. apply edge_available_iff in A; [|apply con_wf; [apply g26_wf|apply g26_low|vm_compute; reflexivity]| | |].
    2,3: unfold inb; rewrite con_graph by (apply g26_wf || apply g26_low || (vm_compute; reflexivity));
         unfold in_image, e26, nd; cbn; lia.
    + vm_compute in A. discriminate.
    + right; left; split; reflexivity.
Qed.

(** *** C36 *)

(** What a bit of the availability array says about a node. *)
Definition avail_bit (cg : cgraph cpu) (n : node) : bool := avb cg (cg_avail cg) n.

Definition cg36 := con g36 fzero.
Definition cg36' := after solve_csp cg36.
Definition cg36'' := after solve_csp cg36'.

Lemma not_arc_consistent : exists (l r : image) lev (c s : F cpu) g lp t cg cg' cg'' n,
  make_graph l r lev c s = Ok g /\ wf_graph g /\ zero_reparam g /\ finite_penalties g /\ make_lowest g = Ok lp /\
  fle fzero t = true /\ make_constraint g lp t = Ok cg /\
  exec solve_csp cg = Ok (true, cg') /\ match_exists g n /\ available cg' n /\
  exec (fun cg => should_remove_node cg n) cg' = Ok (true, cg') /\
  exec solve_csp cg' = Ok (true, cg'') /\ ~ available cg'' n.
Proof.
  exists (left g36), (right g36), (levels g36), (cleanness g36), (smoothness g36), g36, (low g36), fzero, cg36, cg36', cg36'', (nd 0 0 1).
  assert (Ec : ok (make_constraint g36 (low g36) fzero) = true) by (vm_compute; reflexivity).
  assert (C : wf_cgraph cg36) by (apply con_wf; [apply g36_wf|apply g36_low|exact Ec]).
  assert (Gc : cg_graph cg36 = g36) by (apply con_graph; [apply g36_wf|apply g36_low|exact Ec]).
  assert (S1 : exec solve_csp cg36 = Ok (true, cg36')) by (apply answers_ok; vm_compute; reflexivity).
  assert (S2 : exec solve_csp cg36' = Ok (true, cg36'')) by (apply answers_ok; vm_compute; reflexivity).
  destruct (solve_wf cg36 cg36' true C S1) as [C' Gc']. rewrite Gc in Gc'.
  destruct (solve_wf cg36' cg36'' true C' S2) as [C'' Gc'']. rewrite Gc' in Gc''.
  assert (M : match_exists g36 (nd 0 0 1)) by (unfold match_exists, in_image, nd; cbn; lia).
  refine (conj g36_made (conj g36_wf (conj g36_zero (conj g36_finite (conj g36_low (conj _ (conj _ (conj S1 (conj M (conj _ (conj _ (conj S2 _)))))))))))).
  - vm_compute. reflexivity.
  - apply con_ok. exact Ec.
  - apply available_iff; [exact C'|unfold inb; rewrite Gc'; split; apply M|]. vm_compute. reflexivity.
  - destruct (removal_test cg36' (nd 0 0 1) C') as [b [E _]]; [rewrite Gc'; apply M|rewrite Gc'; apply M|].
    rewrite E. f_equal. f_equal.
    assert (A : answers (fun cg => should_remove_node cg (nd 0 0 1)) cg36' true = true) by (vm_compute; reflexivity).
    unfold answers in A. rewrite E in A. destruct b; [reflexivity|discriminate].
  - intros A. apply available_iff in A; [|exact C''|unfold inb; rewrite Gc''; split; apply M]. vm_compute in A. discriminate.
Qed.

(** *** C37 *)

Lemma true_without_labeling : exists (l r : image) lev (c s : F cpu) g lp t cg cg',
  make_graph l r lev c s = Ok g /\ wf_graph g /\ zero_reparam g /\ finite_penalties g /\ make_lowest g = Ok lp /\
  make_constraint g lp t = Ok cg /\ exec solve_csp cg = Ok (true, cg') /\
  forall k, labeling_ok g k -> nodes_within g lp t k -> edges_within g lp t k -> False.
Proof.
  exists (left g37), (right g37), (levels g37), (cleanness g37), (smoothness g37), g37, (low g37), (num 3),
    (con g37 (num 3)), (after solve_csp (con g37 (num 3))).
  refine (conj g37_made (conj g37_wf (conj g37_zero (conj g37_finite (conj g37_low (conj _ (conj _ _))))))).
  - apply con_ok. vm_compute. reflexivity.
  - apply answers_ok. vm_compute. reflexivity.
  - intros k. apply no_labeling_ok; [exact g37_wf|]. vm_compute. reflexivity.
Qed.

(** *** C43 *)

(** 3 is a candidate threshold for [g37]: it is the excess of an edge whose ends
    differ by 1. *)
Definition e37 : edge := {| enode := nd 0 0 0; enbr := nd 1 0 1 |}.

Lemma threshold_without_labeling : exists (l r : image) lev (c s : F cpu) g lp,
  make_graph l r lev c s = Ok g /\ wf_graph g /\ zero_reparam g /\ finite_penalties g /\ nonneg_weights g /\
  make_lowest g = Ok lp /\
  forall srt, sorts srt -> exists cands t,
    fetch_available_penalties srt lp = Ok cands /\
    calculate_minimal_consistent_threshold lp g cands = Ok t /\
    forall k, labeling_ok g k -> nodes_within g lp t k -> edges_within g lp t k -> False.
Proof.
  exists (left g37), (right g37), (levels g37), (cleanness g37), (smoothness g37), g37, (low g37).
  refine (conj g37_made (conj g37_wf (conj g37_zero (conj g37_finite (conj g37_nonneg (conj g37_low _)))))).
  intros srt Hs.
  destruct (candidates_complete cpu_laws srt g37 (low g37) Hs g37_wf g37_low g37_finite) as [cands [E [Inc [Num [Sub [Cov CovE]]]]]].
  destruct (minimal_threshold cpu_laws srt g37 (low g37) cands Hs g37_wf g37_low g37_finite E) as [t [n [Et [_ [It [St [Min _]]]]]]].
  { left. split; [exact g37_zero|exact g37_nonneg]. }
  exists cands, t. split; [exact E|]. split; [exact Et|].
  (* t <= 3 *)
  assert (T3 : fle t (num 3) = true).
  { assert (X : exists v m, edge_penalty g37 e37 = Ok v /\ lowest_neighborhood_penalty (low g37) e37 = Ok m /\
               feq (fsub v m) (num 3) = true).
    { assert (Y : match edge_penalty g37 e37, lowest_neighborhood_penalty (low g37) e37 with
                  | Ok v, Ok m => feq (fsub v m) (num 3) | _, _ => false end = true) by (vm_compute; reflexivity).
      destruct (edge_penalty g37 e37) as [v|]; [|discriminate].
      destruct (lowest_neighborhood_penalty (low g37) e37) as [m|]; [|discriminate]. exists v, m. auto. }
    destruct X as [v [m [Ev [Em Q]]]].
    assert (Mp : match_pair g37 e37).
    { unfold match_pair, match_exists, in_image, adjacent, in_order, horizontal_pair, e37, nd. cbn. lia. }
    destruct (CovE g37_zero g37_nonneg e37 (fsub v m) Mp) as [y [Iy Qy]]; [exists v, m; auto|].
    assert (Q3 : feq y (num 3) = true) by (eapply (feq_trans cpu_laws); eassumption).
    destruct (flt y t) eqn:L.
    - exfalso. destruct (Min y Iy L) as [cg [cg' [Ec Es]]].
      destruct (solve_monotone_fresh cpu_laws g37 (low g37) (num 3) y (con g37 (num 3)) (after solve_csp (con g37 (num 3))) g37_wf g37_low)
        as [cg2 [cg2' [E2 [S2 _]]]].
      + apply (feq_ge cpu_laws). exact Q3.
      + apply con_ok. vm_compute. reflexivity.
      + apply answers_ok. vm_compute. reflexivity.
      + assert (cg2 = cg) by congruence. subst cg2. congruence.
    - eapply (fle_trans _ cpu_laws); [|apply (feq_le cpu_laws); exact Q3].
      apply (not_flt_le cpu_laws); [apply Num; exact Iy|apply Num; exact It|exact L]. }
  intros k Hk Hn He. apply (no_labeling_ok g37 (num 3) k g37_wf); [vm_compute; reflexivity|exact Hk| |].
  - intros p Hp. destruct (Hn p Hp) as [v [m [A [B C]]]]. exists v, m. split; [exact A|]. split; [exact B|].
    eapply (fle_trans _ cpu_laws); eassumption.
  - intros p q Hp Hq Adj. destruct (He p q Hp Hq Adj) as [v [m [A [B C]]]]. exists v, m. split; [exact A|]. split; [exact B|].
    eapply (fle_trans _ cpu_laws); eassumption.
Qed.

(** *** C46 *)

Definition cg46 := con g46 (num 100).
Definition cg46' := after (fun cg => choose_best_node cg px0) cg46.

Lemma negative_not_lowest : exists (g : dgraph cpu) lp t cg cg' p d d' v v',
  wf_graph g /\ finite_penalties g /\ make_lowest g = Ok lp /\ make_constraint g lp t = Ok cg /\
  exec (fun cg => choose_best_node cg p) cg = Ok (true, cg') /\
  match_exists g {| npix := p; disp := d |} /\ available cg' {| npix := p; disp := d |} /\
  match_exists g {| npix := p; disp := d' |} /\ available cg {| npix := p; disp := d' |} /\
  node_penalty g {| npix := p; disp := d |} = Ok v /\ node_penalty g {| npix := p; disp := d' |} = Ok v' /\
  flt v' v = true.
Proof.
  assert (Ec : ok (make_constraint g46 (low g46) (num 100)) = true) by (vm_compute; reflexivity).
  assert (C : wf_cgraph cg46) by (apply con_wf; [apply g46_wf|apply g46_low|exact Ec]).
  assert (Gc : cg_graph cg46 = g46) by (apply con_graph; [apply g46_wf|apply g46_low|exact Ec]).
  assert (M0 : match_exists g46 (nd 0 0 0)) by (unfold match_exists, in_image, nd; cbn; lia).
  assert (M1 : match_exists g46 (nd 0 0 1)) by (unfold match_exists, in_image, nd; cbn; lia).
  destruct (node_penalty_Ok g46 _ g46_wf M0) as [v Ev].
  destruct (node_penalty_Ok g46 _ g46_wf M1) as [v' Ev'].
  assert (L : match node_penalty g46 (nd 0 0 1), node_penalty g46 (nd 0 0 0) with
              | Ok a, Ok b => flt a b | _, _ => false end = true) by (vm_compute; reflexivity).
  rewrite Ev, Ev' in L.
  assert (A : exec (fun cg => choose_best_node cg px0) cg46 = Ok (true, cg46')) by (apply answers_ok; vm_compute; reflexivity).
  assert (P0 : in_image (cg_graph cg46) px0) by (rewrite Gc; apply M0).
  destruct (choose_best cpu_laws cg46 px0 C P0) as [b [c2 [E2 [C2 [S2 _]]]]].
  assert (c2 = cg46') by congruence. subst c2.
  exists g46, (low g46), (num 100), cg46, cg46', px0, 0, 1, v, v'.
  refine (conj g46_wf (conj g46_finite (conj g46_low (conj (con_ok _ _ Ec) (conj A (conj M0 (conj _ (conj M1 (conj _ (conj Ev (conj Ev' L))))))))))).
  - apply available_iff; [exact C2| |vm_compute; reflexivity]. unfold inb. rewrite (proj1 S2), Gc. split; apply M0.
  - apply available_iff; [exact C| |vm_compute; reflexivity]. unfold inb. rewrite Gc. split; apply M1.
Qed.
