(** Concrete problems for the properties of arc-consistent problems. *)
From Coq Require Import Lia.
From Verif Require Import Row_device_proofs Witnesses Gpu_schedule Device_witness Same_witness.
From Verif Require Export Lattice_spec.
Local Open Scope N_scope.

(** *** Checks *)

Section Checks.
Context {T : target}.
Implicit Type cg : cgraph T.

Definition zero_check cg : bool :=
  forallb (fun m => ffin m && feq m fzero) (lp_neighborhoods (cg_lowest cg)).

Lemma zero_check_ok cg : wf_cgraph cg -> zero_check cg = true ->
  forall e, in_image (cg_graph cg) (npix (enode e)) -> in_image (cg_graph cg) (npix (enbr e)) ->
    adjacent (npix (enode e)) (npix (enbr e)) ->
    exists m, lowest_neighborhood_penalty (cg_lowest cg) e = Ok m /\ ffin m = true /\ feq m fzero = true.
Proof.
  intros [Hw Hl _] Z e Hp Hq A. destruct (adjacent_slot _ _ A) as [k S].
  unfold lowest_neighborhood_penalty, neighborhood_index_slow. rewrite (wfl_graph _ _ Hl).
  rewrite (neighbor_index_slot _ _ _ k Hw Hp Hq S).
  pose proof (proj2 (neighborhood_index_small _ _ k Hw Hp (slot_of_lt _ _ _ S))) as B.
  rewrite <- (wfl_neighborhoods _ _ Hl) in B. apply get_in_bounds in B. destruct B as [v E]. exists v. split; [exact E|].
  unfold zero_check in Z. rewrite forallb_forall in Z. specialize (Z v (get_In _ _ _ E)). apply andb_true_iff in Z. exact Z.
Qed.

Definition settled_check cg : bool :=
  forallb (fun p => forallb (fun n => negb (rmvb cg (cg_avail cg) n)) (nodes_of (cg_graph cg) p)) (pixels_of (cg_graph cg)).

Lemma settled_check_ok cg : wf_cgraph cg -> settled_check cg = true -> settled cg.
Proof.
  intros Hc H. apply settled_rmvb; [exact Hc|]. intros n M. unfold settled_check in H. rewrite forallb_forall in H.
  specialize (H (npix n) (proj2 (In_all_pixels _ _ _) (proj1 M))). rewrite forallb_forall in H.
  specialize (H n (In_nodes_of _ n (wfc_graph cg Hc) M)). apply negb_true_iff in H. exact H.
Qed.

Definition everywhere_check cg : bool :=
  forallb (fun p => existsb (fun n => avb cg (cg_avail cg) n) (nodes_of (cg_graph cg) p)) (pixels_of (cg_graph cg)).

Lemma everywhere_check_ok cg : wf_cgraph cg -> everywhere_check cg = true -> everywhere_available cg.
Proof.
  intros Hc H p Hp. unfold everywhere_check in H. rewrite forallb_forall in H.
  specialize (H p (proj2 (In_all_pixels _ _ _) Hp)). apply existsb_exists in H. destruct H as [n [In_n A]].
  apply in_map_iff in In_n. destruct In_n as [d [<- Hd]]. apply (In_disparities _ _ _ _ (wfc_graph cg Hc)) in Hd; [|exact Hp].
  destruct Hd as [_ M]. exists {| npix := p; disp := d |}. split; [reflexivity|]. split; [exact M|].
  apply available_iff; [exact Hc|apply match_inb; exact M|exact A].
Qed.

Lemma none_left cg m : wf_cgraph cg -> len m = len (cg_avail cg) -> forallb negb m = true ->
  forall n, match_exists (cg_graph cg) n -> ~ available (with_avail cg m) n.
Proof.
  intros Hc Hm X n M A. rewrite forallb_forall in X.
  apply available_with in A; [|apply wf_static; exact Hc|unfold mem_ok; rewrite Hm; apply Hc|apply match_inb; exact M].
  unfold avb, bit in A. destruct (get m _) as [b|] eqn:Eb in A; [|discriminate]. apply get_In in Eb.
  specialize (X b Eb). subst b. discriminate.
Qed.

Lemma csp_by cg es fuel m f : label_by cg CUDA Strict same_group es fuel (device_order cg) (cg_avail cg) no_flags = Some (m, f) ->
  csp_solution cg CUDA true (b_kind good_device) (b_partition good_device) m.
Proof.
  intros E. exists no_flags, f. split; [discriminate|].
  exact (label_by_ok cg CUDA Strict same_group es one_group fuel same_group_one _ _ _ _ _ E).
Qed.

Definition by_cuda cg es fuel := label_by cg CUDA Strict same_group es fuel (device_order cg) (cg_avail cg) no_flags.
Lemma labels_by cg es fuel : match by_cuda cg es fuel with Some _ => true | None => false end = true ->
  exists m', csp_solution cg CUDA true (b_kind good_device) (b_partition good_device) m'.
Proof. unfold by_cuda. destruct (label_by _ _ _ _ _ _ _ _ _) as [[m f]|] eqn:E; [|discriminate]. intros _. exists m. exact (csp_by cg _ _ m f E). Qed.
Lemma fails_by cg es fuel : wf_cgraph cg ->
  match by_cuda cg es fuel with Some (m, _) => (len m =? len (cg_avail cg)) && forallb negb m | None => false end = true ->
  exists m', csp_solution cg CUDA true (b_kind good_device) (b_partition good_device) m' /\
    forall n, match_exists (cg_graph cg) n -> ~ available (with_avail cg m') n.
Proof.
  intros Hc. unfold by_cuda. destruct (label_by _ _ _ _ _ _ _ _ _) as [[m f]|] eqn:E; [|discriminate]. intros X.
  apply andb_true_iff in X. destruct X as [X1 X2]. apply N.eqb_eq in X1.
  exists m. split; [exact (csp_by cg _ _ m f E)|exact (none_left cg m Hc X1 X2)].
Qed.
End Checks.

(** *** The sample problem *)

Lemma scg_plain : plain_problem scg.
Proof.
  apply (plain_made cpu_laws sg (low sg) t25 scg); [exact sample_wf_cpu|exact sg_low|exact scg_made|exact sg_zero|exact sg_finite|exact sg_nonneg].
Qed.

(** Neither below [k2] nor above it. *)
Definition k1 : labeling := fun p => if (px p =? 0) && (py p =? 0) then 1 else if px p =? 0 then 1 else if (px p =? 1) && (py p =? 1) then 1 else 0.
Lemma k1_ok : labeling_ok sg k1 /\ nodes_within sg (low sg) t25 k1 /\ edges_within sg (low sg) t25 k1.
Proof. apply sol_check_ok; [exact sample_wf_cpu|]. vm_compute. reflexivity. Qed.
Lemma k1_solution : solution scg k1.
Proof.
  destruct (make_constraint_Ok sg (low sg) t25 scg sample_wf_cpu sg_low scg_made) as [_ [Eg [El [Et B]]]].
  destruct k1_ok as [K [Nw Ew]]. unfold solution. rewrite Eg, El, Et. split; [exact K|]. split; [|exact Ew].
  intros p Hp. pose proof (proj1 K p Hp) as M.
  assert (I : inb scg (label_node k1 p)) by (unfold inb; rewrite Eg; split; apply M).
  apply available_iff; [exact scg_wf|exact I|]. apply B; [exact I|]. split; [exact M|apply Nw; exact Hp].
Qed.
Lemma k1_k2_apart : k1 px0 < k2 px0 /\ k2 {| px := 0; py := 1 |} < k1 {| px := 0; py := 1 |}.
Proof. vm_compute. split; reflexivity. Qed.

(** *** One row on which the first two sweeps remove nodes *)

Definition g84 : dgraph cpu := problem 5 1 4 [0; 3; 1; 3; 2] [1; 2; 3; 4; 2] 1 1.
Definition cg84 : cgraph cpu := con g84 (num 1).
Lemma g84_made : make_graph (left g84) (right g84) (levels g84) (cleanness g84) (smoothness g84) = Ok g84.
Proof. made. Qed.
Lemma g84_wf : wf_graph g84. Proof. apply wfb_ok. vm_compute. reflexivity. Qed.
Lemma g84_low : make_lowest g84 = Ok (low g84). Proof. apply low_ok. vm_compute. reflexivity. Qed.
Lemma g84_finite : finite_penalties g84. Proof. apply finite_check_ok; [apply g84_wf|]. vm_compute. reflexivity. Qed.
Lemma g84_zero : zero_reparam g84. Proof. apply zero_problem. Qed.
Lemma g84_nonneg : nonneg_weights g84. Proof. split; vm_compute; reflexivity. Qed.
Lemma cg84_made : make_constraint g84 (low g84) (num 1) = Ok cg84. Proof. apply con_ok. vm_compute. reflexivity. Qed.
Lemma cg84_graph : cg_graph cg84 = g84.
Proof. apply (make_constraint_Ok g84 (low g84) (num 1) cg84 g84_wf g84_low cg84_made). Qed.
Lemma cg84_plain : plain_problem cg84.
Proof. exact (plain_made cpu_laws g84 (low g84) (num 1) cg84 g84_wf g84_low cg84_made g84_zero g84_finite g84_nonneg). Qed.
Lemma cg84_row : height (right (cg_graph cg84)) = 1. Proof. rewrite cg84_graph. reflexivity. Qed.
Lemma cg84_solves : exec solve_csp cg84 = Ok (true, after solve_csp cg84).
Proof. apply answers_ok. vm_compute. reflexivity. Qed.
Lemma cg84_changes : cg_avail (after solve_csp cg84) <> cg_avail cg84 /\
  cg_avail (after solve_csp (after solve_csp cg84)) <> cg_avail (after solve_csp cg84).
Proof. split; vm_compute; discriminate. Qed.

(** Settled, and several nodes are available for some pixels. *)
Definition cg85 : cgraph cpu := after solve_csp (after solve_csp cg84).
Lemma cg85_eq : exists m, mem_ok cg84 m /\ cg85 = with_avail cg84 m.
Proof.
  pose proof (pp_wf cg84 cg84_plain) as Hc. pose proof (wfc_avail cg84 Hc) as Hm. fold (mem_ok cg84 (cg_avail cg84)) in Hm.
  unfold cg85, after at 2. rewrite exec_solve_csp by exact Hc.
  set (m1 := snd (solved cg84 (cg_avail cg84))). assert (Hm1 : mem_ok cg84 m1) by (apply solved_ok; exact Hm).
  assert (Hc1 : wf_cgraph (with_avail cg84 m1)) by (apply static_wf; [apply wf_static; exact Hc|exact Hm1]).
  unfold after. rewrite exec_solve_csp by exact Hc1.
  exists (snd (solved (with_avail cg84 m1) m1)). split; [|reflexivity].
  rewrite solved_with. apply solved_ok. exact Hm1.
Qed.
Lemma cg85_plain : plain_problem cg85 /\ height (right (cg_graph cg85)) = 1.
Proof.
  destruct cg85_eq as [m [Hm E]]. rewrite E. split; [apply plain_with; [exact cg84_plain|exact Hm]|].
  exact cg84_row.
Qed.
Lemma cg85_settled : settled cg85 /\ everywhere_available cg85.
Proof.
  split; [apply settled_check_ok; [apply cg85_plain|]|apply everywhere_check_ok; [apply cg85_plain|]]; vm_compute; reflexivity.
Qed.
Lemma cg85_choice : available cg85 (nd 0 0 0) /\ available cg85 (nd 0 0 2).
Proof.
  split; (apply available_iff; [apply cg85_plain|split; [split|]; vm_compute; reflexivity|vm_compute; reflexivity]).
Qed.

(** *** Two rows, settled, no labeling found *)

Definition g85 : dgraph cpu := problem 4 2 3 [1; 2; 0; 1; 0; 0; 2; 1] [2; 1; 1; 0; 1; 0; 1; 2] 1 1.
Lemma g85_made : make_graph (left g85) (right g85) (levels g85) (cleanness g85) (smoothness g85) = Ok g85.
Proof. made. Qed.
Lemma g85_wf : wf_graph g85. Proof. apply wfb_ok. vm_compute. reflexivity. Qed.
Lemma g85_low : make_lowest g85 = Ok (low g85). Proof. apply low_ok. vm_compute. reflexivity. Qed.
Lemma g85_finite : finite_penalties g85. Proof. apply finite_check_ok; [apply g85_wf|]. vm_compute. reflexivity. Qed.
Lemma g85_zero : zero_reparam g85. Proof. apply zero_problem. Qed.
Lemma g85_nonneg : nonneg_weights g85. Proof. split; vm_compute; reflexivity. Qed.
Definition two85 : cgraph cpu := con g85 (num 1).
Lemma two85_made : make_constraint g85 (low g85) (num 1) = Ok two85. Proof. apply con_ok. vm_compute. reflexivity. Qed.
Lemma two85_plain : plain_problem two85.
Proof. exact (plain_made cpu_laws g85 (low g85) (num 1) two85 g85_wf g85_low two85_made g85_zero g85_finite g85_nonneg). Qed.
Lemma two85_settled : settled two85 /\ everywhere_available two85.
Proof.
  split; [apply settled_check_ok; [apply two85_plain|]|apply everywhere_check_ok; [apply two85_plain|]]; vm_compute; reflexivity.
Qed.
Lemma two85_fails : exec find_labeling two85 = Ok (false, after find_labeling two85).
Proof. apply answers_ok. vm_compute. reflexivity. Qed.

(** *** Devices *)

Lemma after_graph {T : target} {A} (f : cgraph T -> cmd A) cg : cg_graph (after f cg) = cg_graph cg.
Proof. unfold after, exec. destruct (run (f cg) (cg_avail cg)) as [[a m]|]; reflexivity. Qed.
Lemma zero_cuda (cg : cgraph cpu) : zero_reparam (cg_graph cg) -> zero_reparam (cg_graph (cuda_problem cg)).
Proof.
  intros Z v Hv. apply in_map_iff in Hv. destruct Hv as [x [<- Hx]]. rewrite (Z x Hx). reflexivity.
Qed.
Lemma zero_opencl (cg : cgraph cpu) : zero_reparam (cg_graph cg) -> zero_reparam (cg_graph (opencl_problem cg)).
Proof.
  intros Z v Hv. apply in_map_iff in Hv. destruct Hv as [x [<- Hx]]. rewrite (Z x Hx). reflexivity.
Qed.
Lemma cg58_zero : zero_reparam (cg_graph cg58).
Proof.
  destruct (make_constraint_Ok g58 (low g58) (num 0) cg58 g58_wf g58_low cg58_made) as [_ [-> _]]. apply zero_problem.
Qed.

Lemma cud58_plain : plain_problem cud58.
Proof.
  constructor; [exact cud58_wf|apply zero_check_ok; [exact cud58_wf|vm_compute; reflexivity]| | |].
  - apply zero_cuda. exact cg58_zero.
  - apply finite_check_ok; [apply cud58_wf|]. vm_compute. reflexivity.
  - split; vm_compute; reflexivity.
Qed.
Lemma ocl58_plain : plain_problem ocl58.
Proof.
  constructor; [exact ocl58_wf|apply zero_check_ok; [exact ocl58_wf|vm_compute; reflexivity]| | |].
  - apply zero_opencl. exact cg58_zero.
  - apply finite_check_ok; [apply ocl58_wf|]. vm_compute. reflexivity.
  - split; vm_compute; reflexivity.
Qed.

(** A device as expected that labels the settled row. *)
Definition row85 : cgraph cuda := cuda_problem cg85.
Lemma row85_wf : wf_cgraph row85. Proof. apply cgb_ok; [reflexivity|]. vm_compute. reflexivity. Qed.
Lemma row85_plain : plain_problem row85 /\ height (right (cg_graph row85)) = 1.
Proof.
  split; [|vm_compute; reflexivity].
  constructor; [exact row85_wf|apply zero_check_ok; [exact row85_wf|vm_compute; reflexivity]| | |].
  - apply zero_cuda. unfold cg85. rewrite !after_graph, cg84_graph. exact g84_zero.
  - apply finite_check_ok; [apply row85_wf|]. vm_compute. reflexivity.
  - split; vm_compute; reflexivity.
Qed.
Lemma row85_settled : settled row85 /\ everywhere_available row85.
Proof.
  split; [apply settled_check_ok; [exact row85_wf|]|apply everywhere_check_ok; [exact row85_wf|]]; vm_compute; reflexivity.
Qed.
Lemma row85_labels : exists m', csp_solution row85 CUDA true (b_kind good_device) (b_partition good_device) m'.
Proof. apply (labels_by row85 (Device_witness.rounds 5 6) 4). vm_compute. reflexivity. Qed.

(** Two rows, settled: after a choice nothing is left. *)
Definition g87 : dgraph cpu := problem 5 2 5 [1; 0; 3; 3; 2; 4; 4; 0; 1; 3] [4; 0; 5; 3; 2; 4; 5; 2; 0; 3] 1 5.
Lemma g87_made : make_graph (left g87) (right g87) (levels g87) (cleanness g87) (smoothness g87) = Ok g87.
Proof. made. Qed.
Lemma g87_wf : wf_graph g87. Proof. apply wfb_ok. vm_compute. reflexivity. Qed.
Lemma g87_low : make_lowest g87 = Ok (low g87). Proof. apply low_ok. vm_compute. reflexivity. Qed.
Definition start87 : cgraph cpu := after solve_csp (after solve_csp (con g87 (num 8))).
Definition two87 : cgraph cuda := cuda_problem start87.
Lemma two87_wf : wf_cgraph two87. Proof. apply cgb_ok; [reflexivity|]. vm_compute. reflexivity. Qed.
Lemma two87_plain : plain_problem two87.
Proof.
  constructor; [exact two87_wf|apply zero_check_ok; [exact two87_wf|vm_compute; reflexivity]| | |].
  - apply zero_cuda. unfold start87. rewrite !after_graph, con_graph; [apply zero_problem|exact g87_wf|exact g87_low|].
    vm_compute. reflexivity.
  - apply finite_check_ok; [apply two87_wf|]. vm_compute. reflexivity.
  - split; vm_compute; reflexivity.
Qed.
Lemma two87_settled : settled two87 /\ everywhere_available two87.
Proof.
  split; [apply settled_check_ok; [exact two87_wf|]|apply everywhere_check_ok; [exact two87_wf|]]; vm_compute; reflexivity.
Qed.
Lemma two87_fails : exists m', csp_solution two87 CUDA true (b_kind good_device) (b_partition good_device) m' /\
  forall n, match_exists (cg_graph two87) n -> ~ available (with_avail two87 m') n.
Proof. apply (fails_by two87 (Device_witness.rounds 10 12) 4 two87_wf). vm_compute. reflexivity. Qed.

(** *** For the statements *)

Lemma same_mem_eq (x y : cgraph cpu) : cg_graph x = cg_graph y -> cg_lowest x = cg_lowest y -> cg_threshold x = cg_threshold y ->
  cg_avail x = cg_avail y -> x = y.
Proof. destruct x, y. cbn. congruence. Qed.
Fixpoint same_bits (l l' : list bool) : bool :=
  match l, l' with [], [] => true | a :: l, b :: l' => Bool.eqb a b && same_bits l l' | _, _ => false end.
Lemma same_bits_eq l l' : same_bits l l' = true -> l = l'.
Proof.
  revert l'. induction l as [|a l IH]; intros [|b l'] H; try discriminate; [reflexivity|].
  cbn in H. apply andb_true_iff in H. destruct H as [H1 H2]. apply Bool.eqb_prop in H1. subst b. f_equal. apply IH. exact H2.
Qed.
Lemma unchanged_by (cg : cgraph cpu) : wf_cgraph cg -> answers solve_csp cg true = true ->
  same_bits (cg_avail (after solve_csp cg)) (cg_avail cg) = true -> exec solve_csp cg = Ok (true, cg).
Proof.
  intros Hc Ha Hb. apply answers_ok in Ha. rewrite Ha. f_equal. f_equal.
  apply same_bits_eq in Hb. rewrite exec_solve_csp in Ha by exact Hc.
  unfold after in Hb |- *. rewrite exec_solve_csp in Hb |- * by exact Hc. cbn [snd] in *.
  apply same_mem_eq; try reflexivity. exact Hb.
Qed.
Lemma cg85_unchanged : exec solve_csp cg85 = Ok (true, cg85).
Proof. apply unchanged_by; [apply cg85_plain|vm_compute; reflexivity|vm_compute; reflexivity]. Qed.

Lemma g84_threshold :
  ok (calculate_minimal_consistent_threshold (low g84) g84 (the [] (fetch_available_penalties isort (low g84)))) = true.
Proof. vm_compute. reflexivity. Qed.

Lemma two_rows_fail : exists (g : dgraph cpu) lp t cg cg',
  make_graph (left g) (right g) (levels g) (cleanness g) (smoothness g) = Ok g /\
  make_lowest g = Ok lp /\ make_constraint g lp t = Ok cg /\
  plain_problem cg /\ settled cg /\ everywhere_available cg /\ (exists k, solution cg k) /\
  exec find_labeling cg = Ok (false, cg').
Proof.
  exists g85, (low g85), (num 1), two85, (after find_labeling two85).
  refine (conj g85_made (conj g85_low (conj two85_made (conj two85_plain (conj (proj1 two85_settled) (conj (proj2 two85_settled) (conj _ two85_fails))))))).
  exact (settled_solution cpu_laws cpu_order two85 two85_plain (proj1 two85_settled) (proj2 two85_settled)).
Qed.

Lemma cud58_propagates : exists m' f',
  propagate cud58 CUDA true (b_kind good_device) (b_partition good_device) (cg_avail cud58) no_flags m' f' /\ m' <> cg_avail cud58.
Proof.
  destruct cud58_launch as [m' [f' [L Ne]]]. exists m', f'. split; [|exact Ne].
  apply propagate_once; [|discriminate]. exists same_group. split; [exact same_group_one|exact L].
Qed.

Lemma two_rows_fail_cuda : exists (cg : cgraph cuda) m',
  plain_problem cg /\ settled cg /\ everywhere_available cg /\ (exists k, solution cg k) /\ orderly CUDA good_device /\
  csp_solution cg CUDA true (b_kind good_device) (b_partition good_device) m' /\
  forall n, match_exists (cg_graph cg) n -> ~ available (with_avail cg m') n.
Proof.
  destruct two87_fails as [m' [S N]]. exists two87, m'.
  refine (conj two87_plain (conj (proj1 two87_settled) (conj (proj2 two87_settled) (conj _ (conj (good_orderly CUDA) (conj S N)))))).
  exact (settled_solution cuda_laws cuda_order two87 two87_plain (proj1 two87_settled) (proj2 two87_settled)).
Qed.
