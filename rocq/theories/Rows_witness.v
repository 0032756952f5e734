(** Concrete problems without smoothness. *)
From Coq Require Import Lia.
From Verif Require Import Device_witness Same_witness Lattice_witness.
From Verif Require Export Rows_app_proofs Special_witness Noise_witness Crop_witness.
From Verif Require Import Gpu_schedule Witnesses.
Local Open Scope N_scope.
Local Notation nd x y d := {| npix := {| px := x; py := y |}; disp := d |}.

(** *** Two rows *)

Definition g119 : dgraph cpu := problem 4 2 3 [3; 1; 0; 2; 0; 2; 2; 1] [0; 2; 0; 2; 0; 0; 1; 2] 1 0.
Lemma g119_ready : ready g119. Proof. ready. Qed.
Lemma g119_still : no_smoothness g119. Proof. vm_compute. reflexivity. Qed.
Lemma con119 b : ok (make_constraint g119 (low g119) (num b)) = true -> fle fzero (num b) = true ->
  make_constraint g119 (low g119) (num b) = Ok (con g119 (num b)) /\
  plain_problem (con g119 (num b)) /\ separate_rows (con g119 (num b)) /\ cg_graph (con g119 (num b)) = g119.
Proof.
  intros H Nn. apply con_ok in H. destruct g119_ready as [_ [W [L [Fi [Z Pn]]]]].
  pose proof (plain_made cpu_laws g119 (low g119) (num b) _ W L H Z Fi Pn) as P.
  destruct (make_constraint_Ok g119 (low g119) (num b) _ W L H) as [_ [Eg [_ [Eth _]]]].
  split; [exact H|]. split; [exact P|]. split; [|exact Eg].
  apply (no_smoothness_separate cpu_laws _ cpu_zero_factor P); [rewrite Eg; exact g119_still|rewrite Eth; exact Nn].
Qed.

(** At the smallest threshold one call is successful, the second one removes more. *)
Definition cg119 : cgraph cpu := con g119 (num 1).
Lemma cg119_facts : plain_problem cg119 /\ separate_rows cg119 /\ height (right (cg_graph cg119)) = 2 /\
  exec solve_csp cg119 = Ok (true, after solve_csp cg119) /\
  cg_avail (after solve_csp (after solve_csp cg119)) <> cg_avail (after solve_csp cg119).
Proof.
  destruct (con119 1) as [_ [P [S E]]]; [vm_compute; reflexivity|vm_compute; reflexivity|].
  refine (conj P (conj S (conj _ (conj _ _)))).
  - unfold cg119. rewrite E. reflexivity.
  - apply answers_ok. vm_compute. reflexivity.
  - vm_compute. discriminate.
Qed.
Lemma g119_threshold :
  ok (calculate_minimal_consistent_threshold (low g119) g119 (the [] (fetch_available_penalties isort (low g119)))) = true.
Proof. vm_compute. reflexivity. Qed.

(** At a larger one nothing is to be removed after two calls, and there are choices. *)
Definition cg119' : cgraph cpu := after solve_csp (after solve_csp (con g119 (num 3))).
Lemma cg119'_facts : plain_problem cg119' /\ separate_rows cg119' /\ height (right (cg_graph cg119')) = 2 /\
  settled cg119' /\ everywhere_available cg119' /\
  available cg119' (nd 1 1 0) /\ available cg119' (nd 1 1 2).
Proof.
  destruct (con119 3) as [_ [P [S E]]]; [vm_compute; reflexivity|vm_compute; reflexivity|].
  assert (Q : exists m, mem_ok (con g119 (num 3)) m /\ cg119' = with_avail (con g119 (num 3)) m).
  { unfold cg119'. generalize dependent (con g119 (num 3)). intros cg P _ _.
    pose proof (pp_wf cg P) as Hc. pose proof (wfc_avail cg Hc) as Hm. fold (mem_ok cg (cg_avail cg)) in Hm.
    unfold after at 2. rewrite exec_solve_csp by exact Hc.
    set (m1 := snd (solved cg (cg_avail cg))). assert (Hm1 : mem_ok cg m1) by (apply solved_ok; exact Hm).
    assert (Hc1 : wf_cgraph (with_avail cg m1)) by (apply static_wf; [apply wf_static; exact Hc|exact Hm1]).
    unfold after. rewrite exec_solve_csp by exact Hc1.
    exists (snd (solved (with_avail cg m1) m1)). split; [|reflexivity].
    rewrite solved_with. apply solved_ok. exact Hm1. }
  assert (P' : plain_problem cg119') by (destruct Q as [m [Hm ->]]; apply plain_with; assumption).
  refine (conj P' (conj _ (conj _ (conj _ (conj _ (conj _ _)))))).
  - destruct Q as [m [_ ->]]. apply separate_with. exact S.
  - destruct Q as [m [_ ->]]. cbn [with_avail cg_graph]. rewrite E. reflexivity.
  - apply settled_check_ok; [apply P'|]. vm_compute. reflexivity.
  - apply everywhere_check_ok; [apply P'|]. vm_compute. reflexivity.
  - apply available_iff; [apply P'|split; [split|]; vm_compute; reflexivity|vm_compute; reflexivity].
  - apply available_iff; [apply P'|split; [split|]; vm_compute; reflexivity|vm_compute; reflexivity].
Qed.

(** The same on a device. *)
Definition dev119 : cgraph cuda := cuda_problem cg119'.
Lemma dev119_wf : wf_cgraph dev119. Proof. apply cgb_ok; [reflexivity|]. vm_compute. reflexivity. Qed.
Lemma dev119_facts : plain_problem dev119 /\ separate_rows dev119 /\ height (right (cg_graph dev119)) = 2 /\
  settled dev119 /\ everywhere_available dev119 /\ orderly CUDA good_device /\
  exists m', csp_solution dev119 CUDA true (b_kind good_device) (b_partition good_device) m'.
Proof.
  assert (P : plain_problem dev119).
  { constructor; [exact dev119_wf|apply zero_check_ok; [exact dev119_wf|vm_compute; reflexivity]| | |].
    - apply zero_cuda. unfold cg119'. rewrite !after_graph. destruct (con119 3) as [_ [_ [_ ->]]]; [vm_compute; reflexivity|vm_compute; reflexivity|].
      apply g119_ready.
    - apply finite_check_ok; [apply dev119_wf|]. vm_compute. reflexivity.
    - split; vm_compute; reflexivity. }
  refine (conj P (conj _ (conj _ (conj _ (conj _ (conj (good_orderly CUDA) _)))))).
  - apply (no_smoothness_separate cuda_laws dev119 cuda_zero_factor P); vm_compute; reflexivity.
  - vm_compute. reflexivity.
  - apply settled_check_ok; [exact dev119_wf|]. vm_compute. reflexivity.
  - apply everywhere_check_ok; [exact dev119_wf|]. vm_compute. reflexivity.
  - apply (labels_by dev119 (Device_witness.rounds 8 6) 4). vm_compute. reflexivity.
Qed.

(** *** The application *)

Definition still : stereo := small_pics 4 2 [3; 1; 0; 2; 0; 2; 2; 1] [0; 2; 0; 2; 0; 0; 1; 2] 1 0.
Lemma still_ok : (accepted 3 still /\ small_problem (2 ^ 53) 3 still) /\ (accepted 2 still /\ small_problem (2 ^ 53) 2 still).
Proof. split; apply small_pics_ok; first [reflexivity|discriminate|lia|repeat constructor; discriminate]. Qed.
Lemma still_threshold : threshold_of isort 3 still 1.
Proof. apply (threshold_shown 3 still 1 (proj1 (proj1 still_ok)) (proj2 (proj1 still_ok))); [discriminate|vm_compute; reflexivity]. Qed.
Lemma still_fails srt : sorts srt -> solution_of srt 3 still = Stop (Throw CannotLabel).
Proof.
  intros S. destruct still_ok as [[[g Eg] _] _].
  assert (E : g = g119).
  { pose proof (proj1 g119_ready) as E. change (make_graph (T := cpu) (p_left still) (p_right still) 3 (of_u (p_cleanness still)) (of_u (p_smoothness still)) = Ok g119) in E.
    rewrite Eg in E. assert (X : Ok g = Ok g119) by exact E. injection X. auto. }
  subst g. unfold solution_of.
  rewrite (solve_same cpu_laws srt isort _ _ 3 _ _ g119 S (isort_sorts cpu_laws) Eg).
  - vm_compute. reflexivity.
  - reflexivity.
  - reflexivity.
  - reflexivity.
  - apply g119_ready.
Qed.
Lemma still_refuted : exists lev a, accepted lev a /\ small_problem (2 ^ 53) lev a /\ p_smoothness a = 0 /\
  forall srt, sorts srt -> solution_of srt lev a = Stop (Throw CannotLabel).
Proof. exists 3, still. exact (conj (proj1 (proj1 still_ok)) (conj (proj2 (proj1 still_ok)) (conj eq_refl still_fails))). Qed.

(** *** One row below the other *)

Definition upper119 : dgraph cpu := problem 4 1 3 [3; 1; 0; 2] [0; 2; 0; 2] 1 0.
Definition lower119 : dgraph cpu := problem 4 1 3 [0; 2; 2; 1] [0; 0; 1; 2] 1 0.
Lemma upper119_ready : ready upper119. Proof. ready. Qed.
Lemma lower119_ready : ready lower119. Proof. ready. Qed.
Lemma stacked119 : stacked g119 upper119 lower119.
Proof.
  split; [|split; [|reflexivity]]; (split; [|split; [|repeat split; reflexivity]]); (split; [reflexivity|split; [vm_compute; discriminate|]]);
    apply same_check_ok; vm_compute; reflexivity.
Qed.
Definition least (g : dgraph cpu) : F cpu :=
  the (num 9) (calculate_minimal_consistent_threshold (low g) g (the [] (fetch_available_penalties isort (low g)))).
Lemma thresholds119 : feq (least upper119) (num 1) = true /\ feq (least lower119) (num 0) = true /\ feq (least g119) (num 1) = true.
Proof. repeat split; vm_compute; reflexivity. Qed.
