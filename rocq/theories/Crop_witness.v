(** Concrete problems for parts of images. *)
From Coq Require Import Lia.
From Verif Require Export Crop_proofs Levels_witness.
From Verif Require Import Witnesses.
Local Open Scope N_scope.

(** Pixels compared by computing. *)
Definition same_check (c a : N) (img img' : image) : bool :=
  forallb (fun y => forallb (fun x =>
    match get (data img') (y * width img' + x), get (data img) ((y + a) * width img + (x + c)) with
    | Ok u, Ok v => u =? v | _, _ => false end) (range 0 (width img'))) (range 0 (height img')).
Lemma same_check_ok c a img img' : same_check c a img img' = true -> forall x y, x < width img' -> y < height img' ->
  get (data img') (y * width img' + x) = get (data img) ((y + a) * width img + (x + c)).
Proof.
  intros H x y Hx Hy. unfold same_check in H. rewrite forallb_forall in H.
  specialize (H y (proj2 (In_range 0 _ y) (conj (N.le_0_l y) Hy))). rewrite forallb_forall in H.
  specialize (H x (proj2 (In_range 0 _ x) (conj (N.le_0_l x) Hx))).
  destruct (get (data img') (y * width img' + x)); [|discriminate].
  destruct (get (data img) ((y + a) * width img + (x + c))); [|discriminate].
  apply N.eqb_eq in H. congruence.
Qed.

Lemma fails_apart g h srt k a b l t l' t' : ready g -> ready h -> sorts srt ->
  labeling_ok g k -> nodes_within g (low g) a k -> edges_within g (low g) a k -> fle a b = true ->
  solver_says h (low h) b false ->
  fetch_available_penalties srt (low g) = Ok l -> calculate_minimal_consistent_threshold (low g) g l = Ok t -> is_number t ->
  fetch_available_penalties srt (low h) = Ok l' -> calculate_minimal_consistent_threshold (low h) h l' = Ok t' -> is_number t' ->
  flt t t' = true.
Proof.
  intros [_ [W [L [Fi [Z Nn]]]]] [_ [W' [L' [Fi' [Z' Nn']]]]] S K Kn Ke Ab No El Et Nt El' Et' Nt'.
  pose proof (threshold_below cpu_laws srt g (low g) l t k a S W L Fi Z Nn El Et K Kn Ke) as Le.
  pose proof (threshold_decides cpu_laws srt h (low h) l' t' b S W' L' Fi' Z' Nn' El' Et') as D.
  pose proof (says_fun h (low h) b _ _ No D) as Q.
  apply (not_le_flt cpu_laws); [exact Nt|exact Nt'|]. destruct (fle t' t) eqn:X; [|reflexivity].
  assert (Y : fle t' b = true) by (eapply (fle_trans _ cpu_laws); [exact X|]; eapply (fle_trans _ cpu_laws); eassumption).
  congruence.
Qed.

(** *** The second row of two, without its first column *)

Definition whole : dgraph cpu := problem 5 2 3 [0; 3; 9; 9; 9; 5; 5; 1; 1; 5] [9; 0; 0; 0; 0; 5; 5; 5; 5; 5] 1 1.
Lemma whole_ready : ready whole. Proof. ready. Qed.
Lemma whole_part : part_of 1 1 whole (better 3).
Proof.
  split; [|split; [|repeat split; reflexivity]]; (split; [reflexivity|split; [vm_compute; discriminate|]]);
    apply same_check_ok; vm_compute; reflexivity.
Qed.
Lemma whole_fails : solver_says whole (low whole) (num 20) false.
Proof.
  exists (con whole (num 20)), (after solve_csp (con whole (num 20))).
  split; [apply con_ok; vm_compute; reflexivity|apply answers_ok; vm_compute; reflexivity].
Qed.
Lemma part_helps : forall srt, sorts srt -> exists l t l' t',
  fetch_available_penalties srt (low whole) = Ok l /\ calculate_minimal_consistent_threshold (low whole) whole l = Ok t /\
  fetch_available_penalties srt (low (better 3)) = Ok l' /\ calculate_minimal_consistent_threshold (low (better 3)) (better 3) l' = Ok t' /\
  flt t' t = true.
Proof.
  intros srt S. destruct (threshold_exists whole srt whole_ready S) as [l [t [E [Et Nt]]]].
  destruct (threshold_exists (better 3) srt better3_ready S) as [l' [t' [E' [Et' Nt']]]].
  exists l, t, l', t'. split; [exact E|]. split; [exact Et|]. split; [exact E'|]. split; [exact Et'|].
  destruct steep_ok as [K [Kn Ke]].
  apply (fails_apart (better 3) whole srt steep (num 4) (num 20) l' t' l t); try assumption;
    [exact better3_ready|exact whole_ready|vm_compute; reflexivity|exact whole_fails].
Qed.
Lemma whole_labeled : exists k b, labeling_ok whole k /\ nodes_within whole (low whole) b k /\ edges_within whole (low whole) b k.
Proof.
  exists (fun p => if (px p =? 0) && (py p =? 0) then 1 else 0), (num 100).
  apply sol_check_ok; [apply whole_ready|]. vm_compute. reflexivity.
Qed.

(** *** Without the last column *)

Definition wide : dgraph cpu := problem 4 1 3 [0; 3; 9; 0] [9; 0; 0; 0] 1 1.
Definition narrow : dgraph cpu := problem 3 1 3 [0; 3; 9] [9; 0; 0] 1 1.
Lemma wide_ready : ready wide. Proof. ready. Qed.
Lemma narrow_ready : ready narrow. Proof. ready. Qed.
Definition ramp : labeling := fun p => if px p =? 0 then 2 else 3 - px p.
Lemma ramp_ok : labeling_ok wide ramp /\ nodes_within wide (low wide) (num 1) ramp /\ edges_within wide (low wide) (num 1) ramp.
Proof. apply sol_check_ok; [apply wide_ready|]. vm_compute. reflexivity. Qed.
Lemma narrow_fails : solver_says narrow (low narrow) (num 20) false.
Proof.
  exists (con narrow (num 20)), (after solve_csp (con narrow (num 20))).
  split; [apply con_ok; vm_compute; reflexivity|apply answers_ok; vm_compute; reflexivity].
Qed.
Lemma narrowed_ok : narrowed 1 (left wide) (left narrow) /\ narrowed 1 (right wide) (right narrow).
Proof.
  split; (split; [reflexivity|split; [reflexivity|]]); intros x y Hx Hy.
  - rewrite (same_check_ok 0 0 (left wide) (left narrow)) by (try assumption; vm_compute; reflexivity).
    rewrite !N.add_0_r. reflexivity.
  - rewrite (same_check_ok 0 0 (right wide) (right narrow)) by (try assumption; vm_compute; reflexivity).
    rewrite !N.add_0_r. reflexivity.
Qed.

Lemma columns_hurt : exists (g g' : dgraph cpu) lp lp',
  make_graph (left g) (right g) (levels g) (cleanness g) (smoothness g) = Ok g /\
  make_graph (left g') (right g') (levels g') (cleanness g') (smoothness g') = Ok g' /\
  narrowed 1 (left g) (left g') /\ narrowed 1 (right g) (right g') /\
  levels g' = levels g /\ cleanness g' = cleanness g /\ smoothness g' = smoothness g /\ nonneg_weights g /\
  make_lowest g = Ok lp /\ make_lowest g' = Ok lp' /\
  forall srt, sorts srt -> exists l t l' t',
    fetch_available_penalties srt lp = Ok l /\ calculate_minimal_consistent_threshold lp g l = Ok t /\
    fetch_available_penalties srt lp' = Ok l' /\ calculate_minimal_consistent_threshold lp' g' l' = Ok t' /\
    flt t t' = true.
Proof.
  exists wide, narrow, (low wide), (low narrow).
  split; [apply wide_ready|]. split; [apply narrow_ready|]. split; [apply narrowed_ok|]. split; [apply narrowed_ok|].
  split; [reflexivity|]. split; [reflexivity|]. split; [reflexivity|]. split; [apply wide_ready|].
  split; [apply wide_ready|]. split; [apply narrow_ready|].
  intros srt S. destruct (threshold_exists wide srt wide_ready S) as [l [t [E [Et Nt]]]].
  destruct (threshold_exists narrow srt narrow_ready S) as [l' [t' [E' [Et' Nt']]]].
  exists l, t, l', t'. split; [exact E|]. split; [exact Et|]. split; [exact E'|]. split; [exact Et'|].
  destruct ramp_ok as [K [Kn Ke]].
  apply (fails_apart wide narrow srt ramp (num 1) (num 20) l t l' t'); try assumption;
    [exact wide_ready|exact narrow_ready|vm_compute; reflexivity|exact narrow_fails].
Qed.
