(** Deciding, by computation, whether concrete problems meet the hypotheses of the
    theorems.  Used only for the examples and the refutations. *)
From Verif Require Export Label_proofs Samples.
Local Open Scope N_scope.

Definition ok {A} (o : outcome A) : bool := match o with Ok _ => true | Stop _ => false end.
Definition the {A} (d : A) (o : outcome A) : A := match o with Ok a => a | Stop _ => d end.
Lemma ok_the {A} (d : A) o : ok o = true -> o = Ok (the d o).
Proof. destruct o; [reflexivity|discriminate]. Qed.

Section Checks.
Context {T : target}.
Implicit Type g : dgraph T.

Definition wfb g : bool :=
  (width (left g) =? width (right g)) && (height (left g) =? height (right g)) &&
  (1 <? levels g) && (levels g <=? width (right g)) && (0 <? height (right g)) &&
  (len (data (left g)) =? width (left g) * height (left g)) &&
  (len (data (right g)) =? width (right g) * height (right g)) &&
  (len (reparam g) =? width (right g) * height (right g) * 4 * levels g) &&
  (width (right g) * height (right g) * 4 * levels g <? wmod T) &&
  (width (right g) * height (right g) * 4 * levels g <=? vector_max_size).

Lemma wfb_ok g : wfb g = true -> wf_graph g.
Proof.
  unfold wfb. rewrite !andb_true_iff, !N.eqb_eq, !N.ltb_lt, !N.leb_le.
  intros [[[[[[[[[A B] C] D] E] F1] F2] F3] F4] F5]. constructor; assumption.
Qed.

(** *** Lowest penalties and constraint graphs *)

Definition no_lowest g : lowest T := {| lp_graph := g; lp_pixels := []; lp_neighborhoods := [] |}.
Definition low g : lowest T := the (no_lowest g) (make_lowest g).
Lemma low_ok g : ok (make_lowest g) = true -> make_lowest g = Ok (low g).
Proof. apply ok_the. Qed.

Definition no_constraint g t : cgraph T :=
  {| cg_graph := g; cg_lowest := no_lowest g; cg_threshold := t; cg_avail := [] |}.
Definition con g t : cgraph T := the (no_constraint g t) (make_constraint g (low g) t).
Lemma con_ok g t : ok (make_constraint g (low g) t) = true -> make_constraint g (low g) t = Ok (con g t).
Proof. apply ok_the. Qed.

Definition after {A} (f : cgraph T -> cmd A) cg : cgraph T :=
  match exec f cg with Ok (_, cg') => cg' | Stop _ => cg end.
Definition answers (f : cgraph T -> cmd bool) cg (b : bool) : bool :=
  match exec f cg with Ok (b', _) => Bool.eqb b b' | Stop _ => false end.
Lemma answers_ok f cg b : answers f cg b = true -> exec f cg = Ok (b, after f cg).
Proof.
  unfold answers, after. destruct (exec f cg) as [[b' cg']|]; [|discriminate].
  intros E. apply eqb_prop in E. subst. reflexivity.
Qed.

(** *** Finite penalties *)

Definition neighbors_of g (p : pixel) : list pixel :=
  map (fun k => neighbor_by_index T p k)
    (filter (fun k => neighborhood_exists_fast g p k) (range 0 4)).

Lemma In_neighbors_of g p q : wf_graph g -> in_image g p -> in_image g q -> adjacent p q -> In q (neighbors_of g p).
Proof.
  intros Hw Hp Hq A. destruct (adjacent_slot _ _ A) as [k S]. pose proof (slot_of_lt _ _ _ S).
  apply in_map_iff. exists k. split; [apply neighbor_by_index_slot with (g := g); assumption|].
  apply filter_In. split; [apply In_range; lia|].
  apply (neighborhood_exists_fast_iff _ _ _ Hw). exists q. split; [exact Hp|split; assumption].
Qed.

Definition pixels_of g : list pixel := all_pixels (width (right g)) (height (right g)).
Definition nodes_of g (p : pixel) : list node :=
  map (fun d => {| npix := p; disp := d |}) (disparities g (px p) 0).

Lemma In_nodes_of g n : wf_graph g -> match_exists g n -> In n (nodes_of g (npix n)).
Proof.
  intros Hw M. apply in_map_iff. exists (disp n). destruct n as [p d]. split; [reflexivity|].
  apply In_disparities; [exact Hw|apply M|]. split; [cbn [disp]; lia|exact M].
Qed.

Definition finb (o : outcome (F T)) : bool := match o with Ok v => ffin v | Stop _ => false end.
Definition finite_check g : bool :=
  forallb (fun p =>
    forallb (fun n => finb (node_penalty g n) &&
      forallb (fun q => forallb (fun n' => finb (edge_penalty g {| enode := n; enbr := n' |})) (nodes_of g q))
        (neighbors_of g p)) (nodes_of g p)) (pixels_of g).

Lemma finb_ok o : finb o = true -> exists v, o = Ok v /\ ffin v = true.
Proof. destruct o as [v|]; [|discriminate]. intros E. exists v. split; [reflexivity|exact E]. Qed.

Lemma finite_check_ok g : wf_graph g -> finite_check g = true -> finite_penalties g.
Proof.
  intros Hw H. unfold finite_check in H. rewrite forallb_forall in H. split.
  - intros n M. specialize (H (npix n)). rewrite forallb_forall in H.
    specialize (H (proj2 (In_all_pixels _ _ _) (proj1 M)) n (In_nodes_of g n Hw M)).
    apply andb_true_iff in H. apply finb_ok. apply H.
  - intros [n n'] M M' A. cbn [enode enbr] in *. specialize (H (npix n)). rewrite forallb_forall in H.
    specialize (H (proj2 (In_all_pixels _ _ _) (proj1 M)) n (In_nodes_of g n Hw M)).
    apply andb_true_iff in H. destruct H as [_ H]. rewrite forallb_forall in H.
    specialize (H (npix n') (In_neighbors_of g _ _ Hw (proj1 M) (proj1 M') A)). rewrite forallb_forall in H.
    apply finb_ok. apply H. apply In_nodes_of; assumption.
Qed.

(** *** Zero reparametrization *)

Lemma zero_fill g n : reparam g = fill n fzero -> zero_reparam g.
Proof. intros E v Hv. rewrite E in Hv. unfold fill in Hv. apply repeat_spec in Hv. exact Hv. Qed.

(** *** Searching all labelings *)

Definition ewg g lp t (e : edge) : bool :=
  match edge_penalty g e, lowest_neighborhood_penalty lp e with
  | Ok v, Ok w => fle (fsub v w) t
  | _, _ => false
  end.
Lemma ewg_iff g lp t e : ewg g lp t e = true <-> edge_within g lp t e.
Proof.
  unfold ewg, edge_within. split.
  - destruct (edge_penalty g e) as [v|]; [|discriminate].
    destruct (lowest_neighborhood_penalty lp e) as [w|]; [|discriminate].
    intros E. exists v, w. auto.
  - intros [v [w [-> [-> E]]]]. exact E.
Qed.

Definition right_of (p : pixel) : pixel := {| px := px p + 1; py := py p |}.
Definition below (p : pixel) : pixel := {| px := px p; py := py p + 1 |}.
Definition inb_image g (p : pixel) : bool := (px p <? width (right g)) && (py p <? height (right g)).
Lemma inb_image_iff g p : inb_image g p = true <-> in_image g p.
Proof. unfold inb_image, in_image. rewrite andb_true_iff, !N.ltb_lt. reflexivity. Qed.

(** [forallb] that stops at the first failure when computed. *)
Fixpoint all {A} (f : A -> bool) (l : list A) : bool :=
  match l with [] => true | a :: r => if f a then all f r else false end.
Lemma all_forallb {A} (f : A -> bool) l : all f l = forallb f l.
Proof. induction l as [|a l IH]; cbn [all forallb]; [reflexivity|]. rewrite IH. destruct (f a); reflexivity. Qed.

(** A necessary condition for a labeling to be within the threshold. *)
Definition label_check g lp t (k : labeling) : bool :=
  all (fun p =>
    nwb g lp t (label_node k p) &&
    (if inb_image g (right_of p)
     then (px p + k p <=? px p + 1 + k (right_of p)) && ewg g lp t (label_edge k p (right_of p)) else true) &&
    (if inb_image g (below p) then ewg g lp t (label_edge k p (below p)) else true)) (pixels_of g).

Lemma label_check_ok g lp t k : labeling_ok g k -> nodes_within g lp t k -> edges_within g lp t k ->
  label_check g lp t k = true.
Proof.
  intros [K1 K2] Hn He. unfold label_check. rewrite all_forallb. apply forallb_forall. intros p Hp. apply In_all_pixels in Hp.
  assert (Hp' : in_image g p) by exact Hp. apply andb_true_iff. split; [apply andb_true_iff; split|].
  - apply nwb_iff, Hn. exact Hp'.
  - destruct (inb_image g (right_of p)) eqn:E; [|reflexivity]. apply inb_image_iff in E.
    assert (A : adjacent p (right_of p)) by (left; split; reflexivity).
    apply andb_true_iff. split; [|apply ewg_iff, He; assumption].
    apply N.leb_le. destruct (K2 p (right_of p) Hp' E A) as [O _]. apply O. split; reflexivity.
  - destruct (inb_image g (below p)) eqn:E; [|reflexivity]. apply inb_image_iff in E.
    apply ewg_iff, He; [assumption|assumption|]. right; right; left. split; reflexivity.
Qed.

Fixpoint choices g (ps : list pixel) : list (list N) :=
  match ps with
  | [] => [[]]
  | p :: r => let c := choices g r in flat_map (fun d => map (cons d) c) (disparities g (px p) 0)
  end.
Lemma In_choices g ps k : wf_graph g -> labeling_ok g k -> (forall p, In p ps -> in_image g p) ->
  In (map k ps) (choices g ps).
Proof.
  intros Hw [K _]. induction ps as [|p ps IH]; intros Hps; cbn [choices map]; [left; reflexivity|].
  cbv zeta. apply in_flat_map. exists (k p). split.
  - apply In_disparities; [exact Hw|apply Hps; left; reflexivity|]. split; [lia|apply K, Hps; left; reflexivity].
  - apply in_map. apply IH. intros q Hq. apply Hps. right; exact Hq.
Qed.

Fixpoint lookup (ps : list pixel) (vs : list N) (p : pixel) : N :=
  match ps, vs with
  | q :: r, v :: w => if (px q =? px p) && (py q =? py p) then v else lookup r w p
  | _, _ => 0
  end.
Lemma lookup_map ps (k : labeling) p : In p ps -> lookup ps (map k ps) p = k p.
Proof.
  induction ps as [|q r IH]; intros H; [destruct H|]. cbn [lookup map].
  destruct ((px q =? px p) && (py q =? py p)) eqn:E.
  - apply andb_true_iff in E. rewrite !N.eqb_eq in E. f_equal. destruct q as [a b], p as [a1 b1]; cbn [px py] in E; destruct E; congruence.
  - apply IH. destruct H as [->|H]; [rewrite !N.eqb_refl in E; discriminate|exact H].
Qed.

Lemma forallb_ext_in {A} (f h : A -> bool) l : (forall a, In a l -> f a = h a) -> forallb f l = forallb h l.
Proof.
  induction l as [|a l IH]; intros H; cbn [forallb]; [reflexivity|].
  rewrite (H a) by (left; reflexivity). rewrite IH by (intros; apply H; right; assumption). reflexivity.
Qed.

Lemma label_check_ext g lp t k k' : (forall p, in_image g p -> k p = k' p) ->
  label_check g lp t k = label_check g lp t k'.
Proof.
  intros E. unfold label_check. rewrite !all_forallb. apply forallb_ext_in. intros p Hp. apply In_all_pixels in Hp.
  assert (Hp' : in_image g p) by exact Hp. unfold label_edge, label_node. rewrite (E p Hp').
  destruct (inb_image g (right_of p)) eqn:E1; destruct (inb_image g (below p)) eqn:E2;
    try (apply inb_image_iff in E1; rewrite (E _ E1)); try (apply inb_image_iff in E2; rewrite (E _ E2)); reflexivity.
Qed.

Definition no_labeling g t : bool :=
  let lp := low g in
  let ps := pixels_of g in
  forallb (fun vs => negb (label_check g lp t (lookup ps vs))) (choices g ps).

Lemma no_labeling_ok g t k : wf_graph g -> no_labeling g t = true ->
  labeling_ok g k -> nodes_within g (low g) t k -> edges_within g (low g) t k -> False.
Proof.
  intros Hw H Hk Hn He. unfold no_labeling in H. cbv zeta in H. rewrite forallb_forall in H.
  assert (Hps : forall p, In p (pixels_of g) -> in_image g p) by (intros p Hp; apply In_all_pixels in Hp; exact Hp).
  specialize (H _ (In_choices g (pixels_of g) k Hw Hk Hps)).
  rewrite (label_check_ext g (low g) t _ k) in H.
  - rewrite (label_check_ok g (low g) t k Hk Hn He) in H. discriminate.
  - intros p Hp. apply lookup_map. apply In_all_pixels. exact Hp.
Qed.

(** Checking one labeling. *)
Definition sol_check g lp t (k : labeling) : bool :=
  forallb (fun p =>
    ((k p <? levels g) && node_exists g (label_node k p)) && nwb g lp t (label_node k p) &&
    forallb (fun q => edge_exists g (label_edge k p q) && ewg g lp t (label_edge k p q)) (neighbors_of g p))
    (pixels_of g).

Lemma sol_check_ok g lp t k : wf_graph g -> sol_check g lp t k = true ->
  labeling_ok g k /\ nodes_within g lp t k /\ edges_within g lp t k.
Proof.
  intros Hw H. unfold sol_check in H. rewrite forallb_forall in H.
  assert (P : forall p, in_image g p -> match_exists g (label_node k p) /\ node_within g lp t (label_node k p) /\
     forall q, in_image g q -> adjacent p q ->
       edge_exists g (label_edge k p q) = true /\ edge_within g lp t (label_edge k p q)).
  { intros p Hp. specialize (H p (proj2 (In_all_pixels _ _ _) Hp)).
    apply andb_true_iff in H. destruct H as [H Hn]. apply andb_true_iff in H. destruct H as [A B].
    split; [|split].
    - apply andb_true_iff in A. destruct A as [A1 A2]. apply N.ltb_lt in A1.
      apply node_exists_in_image; assumption.
    - apply nwb_iff; exact B.
    - intros q Hq Adj. rewrite forallb_forall in Hn. specialize (Hn q (In_neighbors_of g p q Hw Hp Hq Adj)).
      apply andb_true_iff in Hn. destruct Hn as [C D]. split; [exact C|apply ewg_iff; exact D]. }
  split; [split|split].
  - intros p Hp. apply P; exact Hp.
  - intros p q Hp Hq Adj. destruct (P p Hp) as [Mp [_ Q]]. destruct (Q q Hq Adj) as [X _].
    destruct (P q Hq) as [Mq _].
    apply (edge_exists_inb {| cg_graph := g; cg_lowest := lp; cg_threshold := t; cg_avail := [] |}) in X;
      [apply X|exact Hw|apply match_inb; exact Mp|apply match_inb; exact Mq].
  - intros p Hp. apply P; exact Hp.
  - intros p q Hp Hq Adj. apply P; assumption.
Qed.

(** *** A sorting function *)

Fixpoint insert (x : F T) (l : list (F T)) : list (F T) :=
  match l with [] => [x] | y :: r => if fle x y then x :: l else y :: insert x r end.
Definition isort (l : list (F T)) : list (F T) := fold_right insert [] l.

Lemma insert_perm x l : Permutation (x :: l) (insert x l).
Proof.
  induction l as [|y l IH]; cbn [insert]; [reflexivity|]. destruct (fle x y); [reflexivity|].
  rewrite perm_swap. apply perm_skip. exact IH.
Qed.
Lemma isort_perm l : Permutation l (isort l).
Proof.
  induction l as [|x l IH]; cbn [isort fold_right]; [reflexivity|].
  rewrite <- insert_perm. apply perm_skip. exact IH.
Qed.
Lemma isort_sorts (HL : laws T) : sorts isort.
Proof.
  intros l Hl. split; [apply isort_perm|].
  induction l as [|x l IH]; cbn [isort fold_right]; [constructor|]. fold (isort l).
  assert (Hx : is_number x) by (apply Hl; left; reflexivity).
  assert (IH' := IH (fun y Hy => Hl y (or_intror Hy))). clear IH.
  assert (Hn : forall y, In y (isort l) -> is_number y).
  { intros y Hy. apply Hl. right. apply Permutation_in with (isort l); [symmetry; apply isort_perm|exact Hy]. }
  induction (isort l) as [|y s IHs]; cbn [insert]; [constructor; constructor|].
  inversion IH' as [|y' s' Ss Fs]; subst y' s'. destruct (fle x y) eqn:E.
  - constructor; [exact IH'|]. constructor; [exact E|]. rewrite Forall_forall in *. intros z Hz.
    eapply (fle_trans T HL); [exact E|apply Fs; exact Hz].
  - constructor.
    + apply IHs; [exact Ss|]. intros z Hz. apply Hn. right; exact Hz.
    + rewrite Forall_forall in *. intros z Hz.
      apply (Permutation_in _ (Permutation_sym (insert_perm x s))) in Hz. destruct Hz as [<-|Hz]; [|apply Fs; exact Hz].
      destruct (fle_total T HL x y Hx) as [X|X]; [apply Hn; left; reflexivity|congruence|exact X].
Qed.
End Checks.
