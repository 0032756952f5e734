(** Concrete problems for more disparity levels. *)
From Coq Require Import Lia.
From Verif Require Export Levels_proofs.
From Verif Require Import Witnesses.
Local Open Scope N_scope.

(** What the theorems ask of one problem. *)
Definition ready (g : dgraph cpu) : Prop :=
  make_graph (left g) (right g) (levels g) (cleanness g) (smoothness g) = Ok g /\
  wf_graph g /\ make_lowest g = Ok (low g) /\ finite_penalties g /\ zero_reparam g /\ nonneg_weights g.
Ltac ready := split; [made|]; split; [apply wfb_ok; vm_compute; reflexivity|];
  split; [apply low_ok; vm_compute; reflexivity|];
  split; [apply finite_check_ok; [apply wfb_ok|]; vm_compute; reflexivity|];
  split; [apply zero_problem|]; split; vm_compute; reflexivity.

Lemma threshold_exists g srt : ready g -> sorts srt -> exists l t,
  fetch_available_penalties srt (low g) = Ok l /\ calculate_minimal_consistent_threshold (low g) g l = Ok t /\ is_number t.
Proof.
  intros [_ [W [L [Fi [Z Nn]]]]] S.
  destruct (candidates_complete cpu_laws srt g (low g) S W L Fi) as [l [E [_ [Num _]]]].
  destruct (minimal_threshold cpu_laws srt g (low g) l S W L Fi E) as [t [n [Et [_ [It _]]]]]; [left; auto|].
  exists l, t. split; [exact E|]. split; [exact Et|]. apply Num. exact It.
Qed.

(** A labeling within [a] for one problem, and none within [a] for the other. *)
Lemma thresholds_apart g h srt k a l t l' t' : ready g -> ready h -> height (right h) = 1 -> sorts srt ->
  labeling_ok g k -> nodes_within g (low g) a k -> edges_within g (low g) a k -> no_labeling h a = true ->
  fetch_available_penalties srt (low g) = Ok l -> calculate_minimal_consistent_threshold (low g) g l = Ok t -> is_number t ->
  fetch_available_penalties srt (low h) = Ok l' -> calculate_minimal_consistent_threshold (low h) h l' = Ok t' -> is_number t' ->
  flt t t' = true.
Proof.
  intros [_ [W [L [Fi [Z Nn]]]]] [_ [W' [L' [Fi' [Z' Nn']]]]] H1 S K Kn Ke No El Et Nt El' Et' Nt'.
  pose proof (threshold_below cpu_laws srt g (low g) l t k a S W L Fi Z Nn El Et K Kn Ke) as Le.
  destruct (row_threshold_least cpu_laws srt h (low h) l' t' S W' L' Fi' Z' Nn' El' Et' H1) as [[k' [K' [Kn' Ke']]] _].
  apply (not_le_flt cpu_laws); [exact Nt|exact Nt'|]. destruct (fle t' t) eqn:X; [|reflexivity]. exfalso.
  assert (Y : fle t' a = true) by (eapply (fle_trans _ cpu_laws); eassumption).
  apply (no_labeling_ok h a k' W' No K').
  - intros p Hp. destruct (Kn' p Hp) as [v [m [A [B C]]]]. exists v, m. split; [exact A|]. split; [exact B|].
    eapply (fle_trans _ cpu_laws); eassumption.
  - intros p q Hp Hq Adj. destruct (Ke' p q Hp Hq Adj) as [v [m [A [B C]]]]. exists v, m. split; [exact A|]. split; [exact B|].
    eapply (fle_trans _ cpu_laws); eassumption.
Qed.

(** *** A third level adds a match that fits too well to be used *)

Definition worse (lev : N) : dgraph cpu := problem 3 1 lev [0; 0; 9] [9; 0; 9] 1 1.
Lemma worse2_ready : ready (worse 2). Proof. ready. Qed.
Lemma worse3_ready : ready (worse 3). Proof. ready. Qed.
Definition flat : labeling := fun _ => 0.
Lemma flat_ok : labeling_ok (worse 2) flat /\ nodes_within (worse 2) (low (worse 2)) (num 0) flat /\ edges_within (worse 2) (low (worse 2)) (num 0) flat.
Proof. apply sol_check_ok; [apply worse2_ready|]. vm_compute. reflexivity. Qed.

Lemma worse_more : more_levels (worse 2) (worse 3).
Proof. repeat split; try reflexivity; vm_compute; discriminate. Qed.
Lemma worse_grows : match_exists (worse 2) (nd 0 0 0) /\
  exists c c', node_excess (worse 2) (low (worse 2)) (nd 0 0 0) c /\ node_excess (worse 3) (low (worse 3)) (nd 0 0 0) c' /\
    flt c c' = true.
Proof.
  assert (M2 : match_exists (worse 2) (nd 0 0 0)) by (repeat split; vm_compute; reflexivity).
  assert (M3 : match_exists (worse 3) (nd 0 0 0)) by (repeat split; vm_compute; reflexivity).
  split; [exact M2|].
  destruct (node_excess_ex (worse 2) (low (worse 2)) (nd 0 0 0)) as [c [v [m [V [M E]]]]];
    [apply worse2_ready|apply worse2_ready|exact M2|].
  destruct (node_excess_ex (worse 3) (low (worse 3)) (nd 0 0 0)) as [c' [v' [m' [V' [M' E']]]]];
    [apply worse3_ready|apply worse3_ready|exact M3|].
  exists c, c'. split; [exists v, m; auto|]. split; [exists v', m'; auto|]. subst c c'.
  assert (Q : match node_penalty (worse 2) (nd 0 0 0), lowest_pixel_penalty (low (worse 2)) (npix (nd 0 0 0)),
                    node_penalty (worse 3) (nd 0 0 0), lowest_pixel_penalty (low (worse 3)) (npix (nd 0 0 0)) with
              | Ok a, Ok b, Ok c, Ok d => flt (fsub a b) (fsub c d) | _, _, _, _ => false end = true) by (vm_compute; reflexivity).
  rewrite V, M, V', M' in Q. exact Q.
Qed.

Lemma levels_hurt : exists (g g' : dgraph cpu) lp lp',
  make_graph (left g) (right g) (levels g) (cleanness g) (smoothness g) = Ok g /\
  make_graph (left g') (right g') (levels g') (cleanness g') (smoothness g') = Ok g' /\
  more_levels g g' /\ make_lowest g = Ok lp /\ make_lowest g' = Ok lp' /\ nonneg_weights g /\ height (right g) = 1 /\
  forall srt, sorts srt -> exists l t l' t',
    fetch_available_penalties srt lp = Ok l /\ calculate_minimal_consistent_threshold lp g l = Ok t /\
    fetch_available_penalties srt lp' = Ok l' /\ calculate_minimal_consistent_threshold lp' g' l' = Ok t' /\
    flt t t' = true.
Proof.
  exists (worse 2), (worse 3), (low (worse 2)), (low (worse 3)).
  split; [apply worse2_ready|]. split; [apply worse3_ready|].
  split; [repeat split; try reflexivity; vm_compute; discriminate|].
  split; [apply worse2_ready|]. split; [apply worse3_ready|]. split; [apply worse2_ready|]. split; [reflexivity|].
  intros srt S. destruct (threshold_exists (worse 2) srt worse2_ready S) as [l [t [E [Et Nt]]]].
  destruct (threshold_exists (worse 3) srt worse3_ready S) as [l' [t' [E' [Et' Nt']]]].
  exists l, t, l', t'. split; [exact E|]. split; [exact Et|]. split; [exact E'|]. split; [exact Et'|].
  destruct flat_ok as [K [Kn Ke]].
  apply (thresholds_apart (worse 2) (worse 3) srt flat (num 0) l t l' t'); try assumption;
    [exact worse2_ready|exact worse3_ready|reflexivity|vm_compute; reflexivity].
Qed.

(** *** A fourth level adds a match as good as the best one, and it helps *)

Definition better (lev : N) : dgraph cpu := problem 4 1 lev [5; 1; 1; 5] [5; 5; 5; 5] 1 1.
Lemma better3_ready : ready (better 3). Proof. ready. Qed.
Lemma better4_ready : ready (better 4). Proof. ready. Qed.
Definition slope : labeling := fun p => 3 - px p.
Lemma slope_ok : labeling_ok (better 4) slope /\ nodes_within (better 4) (low (better 4)) (num 1) slope /\ edges_within (better 4) (low (better 4)) (num 1) slope.
Proof. apply sol_check_ok; [apply better4_ready|]. vm_compute. reflexivity. Qed.
Definition steep : labeling := fun p => if px p =? 0 then 0 else 3 - px p.
Lemma steep_ok : labeling_ok (better 3) steep /\ nodes_within (better 3) (low (better 3)) (num 4) steep /\ edges_within (better 3) (low (better 3)) (num 4) steep.
Proof. apply sol_check_ok; [apply better3_ready|]. vm_compute. reflexivity. Qed.

Lemma better_more : more_levels (better 3) (better 4).
Proof. repeat split; try reflexivity; vm_compute; discriminate. Qed.
Lemma better_closer : none_closer (better 3) (better 4).
Proof.
  intros n' v' [[Hx Hy] [D B]] D' V'. destruct n' as [[x y] d].
  cbn [npix disp px py] in *. change (levels (better 4)) with 4 in D. change (levels (better 3)) with 3 in D'.
  change (width (right (better 4))) with 4 in *. change (height (right (better 4))) with 1 in Hy.
  assert (x = 0) by lia. assert (y = 0) by lia. assert (d = 3) by lia. subst x y d.
  assert (M : match_exists (better 3) (nd 0 0 0)) by (repeat split; vm_compute; reflexivity).
  destruct (node_penalty_Ok (better 3) (nd 0 0 0) (proj1 (proj2 better3_ready)) M) as [v V].
  exists (nd 0 0 0), v. split; [reflexivity|]. split; [exact M|]. split; [exact V|].
  assert (Q : match node_penalty (better 3) (nd 0 0 0), node_penalty (better 4) (nd 0 0 3) with
              | Ok a, Ok b => fle a b | _, _ => false end = true) by (vm_compute; reflexivity).
  rewrite V in Q. change (nd 0 0 3) with {| npix := {| px := 0; py := 0 |}; disp := 3 |} in Q. rewrite V' in Q. exact Q.
Qed.
Lemma levels_help : forall srt, sorts srt -> exists l t l' t',
  fetch_available_penalties srt (low (better 3)) = Ok l /\ calculate_minimal_consistent_threshold (low (better 3)) (better 3) l = Ok t /\
  fetch_available_penalties srt (low (better 4)) = Ok l' /\ calculate_minimal_consistent_threshold (low (better 4)) (better 4) l' = Ok t' /\
  flt t' t = true.
Proof.
  intros srt S. destruct (threshold_exists (better 3) srt better3_ready S) as [l [t [E [Et Nt]]]].
  destruct (threshold_exists (better 4) srt better4_ready S) as [l' [t' [E' [Et' Nt']]]].
  exists l, t, l', t'. split; [exact E|]. split; [exact Et|]. split; [exact E'|]. split; [exact Et'|].
  destruct slope_ok as [K [Kn Ke]].
  apply (thresholds_apart (better 4) (better 3) srt slope (num 1) l' t' l t); try assumption;
    [exact better4_ready|exact better3_ready|reflexivity|vm_compute; reflexivity].
Qed.
