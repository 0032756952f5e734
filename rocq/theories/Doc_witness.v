(** Concrete problems for the documented iteration. *)
From Coq Require Import Lia.
From Verif Require Import Doc_proofs Row_proofs Lattice_proofs Again_proofs Row_device_proofs Gpu_schedule Device_witness Same_witness Lattice_witness Witnesses.
From Verif Require Export Doc_spec.
Local Open Scope N_scope.

(** *** Checks *)

Section Checks.
Context {T : target}.
Implicit Type cg : cgraph T.
Fixpoint same_bits (m m' : list bool) : bool :=
  match m, m' with
  | [], [] => true
  | b :: m, b' :: m' => Bool.eqb b b' && same_bits m m'
  | _, _ => false
  end.
Lemma same_bits_ok m m' : same_bits m m' = true -> m = m'.
Proof.
  revert m'. induction m as [|b m IH]; intros [|b' m']; cbn [same_bits]; try discriminate; [reflexivity|].
  intros E. apply andb_true_iff in E. destruct E as [E1 E2]. apply Bool.eqb_prop in E1. apply IH in E2. congruence.
Qed.
Lemma same_bits_refl m : same_bits m m = true.
Proof. induction m as [|[] m IH]; cbn [same_bits Bool.eqb andb]; auto. Qed.
Lemma frugal_ends_by cg k : wf_cgraph cg ->
  same_bits (times cg (S k) (cg_avail cg)) (times cg k (cg_avail cg)) = true -> frugal_ends cg k.
Proof.
  intros Hc E n F. apply same_bits_ok in E. apply frugal_times; [exact Hc|]. rewrite E. apply frugal_times; assumption.
Qed.
Lemma frugal_yes cg k n : wf_cgraph cg -> match_exists (cg_graph cg) n -> avb cg (times cg k (cg_avail cg)) n = true -> frugal cg k n.
Proof. intros Hc M A. apply frugal_times; auto. Qed.
Lemma frugal_no cg k n : wf_cgraph cg -> avb cg (times cg k (cg_avail cg)) n = false -> ~ frugal cg k n.
Proof. intros Hc A F. apply frugal_times in F; [|exact Hc]. destruct F. congruence. Qed.
Lemma lasting_no cg k n : wf_cgraph cg -> avb cg (times cg k (cg_avail cg)) n = false -> ~ lasting cg n.
Proof. intros Hc A L. exact (frugal_no cg k n Hc A (lasting_frugal cg k n L)). Qed.
Lemma all_available cg : wf_cgraph cg -> forallb (fun n => avb cg (cg_avail cg) n) (every_node cg) = true ->
  forall n, match_exists (cg_graph cg) n -> available cg n.
Proof.
  intros Hc E n M. rewrite forallb_forall in E. apply available_iff; [exact Hc|apply match_inb; exact M|].
  apply E. apply In_every; [apply wf_static; exact Hc|exact M].
Qed.
End Checks.

(** *** Two iterations are needed *)

Lemma cg36_wf : wf_cgraph cg36.
Proof. apply con_wf; [apply g36_wf|apply g36_low|vm_compute; reflexivity]. Qed.
Lemma cg36_graph : cg_graph cg36 = g36.
Proof. apply con_graph; [apply g36_wf|apply g36_low|vm_compute; reflexivity]. Qed.
Lemma cg36_exists : match_exists (cg_graph cg36) (nd 0 0 1).
Proof. rewrite cg36_graph. unfold match_exists, in_image, nd; cbn; lia. Qed.
Lemma cg36_first : frugal cg36 1 (nd 0 0 1).
Proof. apply frugal_yes; [exact cg36_wf|exact cg36_exists|]. vm_compute. reflexivity. Qed.
Lemma cg36_second : ~ frugal cg36 2 (nd 0 0 1).
Proof. apply frugal_no; [exact cg36_wf|]. vm_compute. reflexivity. Qed.
Lemma cg36_lost : ~ lasting cg36 (nd 0 0 1).
Proof. apply (lasting_no cg36 2); [exact cg36_wf|]. vm_compute. reflexivity. Qed.
Lemma cg36_frugal_ends : frugal_ends cg36 2.
Proof. apply frugal_ends_by; [exact cg36_wf|]. vm_compute. reflexivity. Qed.
Lemma cg36_documented_ends : documented_ends cg36 5.
Proof. exact (frugal_documented_ends cg36 2 cg36_frugal_ends). Qed.
Lemma cg36_stays : frugal cg36 2 (nd 0 0 0).
Proof.
  apply frugal_yes; [exact cg36_wf| |vm_compute; reflexivity]. rewrite cg36_graph. unfold match_exists, in_image, nd; cbn; lia.
Qed.
Lemma cg36_all n : match_exists (cg_graph cg36) n -> available cg36 n.
Proof. apply all_available; [exact cg36_wf|]. vm_compute. reflexivity. Qed.

Lemma nodes_alone : exists (l r : image) lev (c s : F cpu) g lp t cg n k,
  make_graph l r lev c s = Ok g /\ make_lowest g = Ok lp /\ make_constraint g lp t = Ok cg /\ wf_cgraph cg /\
  (forall n, fst (documented cg k) n <-> fst (documented cg (S k)) n) /\
  fst (documented cg k) n /\ ~ lasting cg n.
Proof.
  exists (left g36), (right g36), (levels g36), (cleanness g36), (smoothness g36), g36, (low g36), fzero, cg36, (nd 0 0 1), 1%nat.
  refine (conj g36_made (conj g36_low (conj _ (conj cg36_wf (conj _ (conj _ cg36_lost)))))).
  - apply con_ok. vm_compute. reflexivity.
  - intros n. split; [apply second_iteration; exact cg36_all|apply documented_pred].
  - apply frugal_documented. exact cg36_first.
Qed.

Lemma one_call_more : exists (l r : image) lev (c s : F cpu) g lp t cg cg' n,
  make_graph l r lev c s = Ok g /\ make_lowest g = Ok lp /\ make_constraint g lp t = Ok cg /\ wf_cgraph cg /\
  exec solve_csp cg = Ok (true, cg') /\ match_exists g n /\ available cg' n /\ ~ lasting cg n.
Proof.
  exists (left g36), (right g36), (levels g36), (cleanness g36), (smoothness g36), g36, (low g36), fzero, cg36, cg36', (nd 0 0 1).
  assert (S1 : exec solve_csp cg36 = Ok (true, cg36')) by (apply answers_ok; vm_compute; reflexivity).
  destruct (solve_wf cg36 cg36' true cg36_wf S1) as [C' Gc']. rewrite cg36_graph in Gc'.
  pose proof cg36_exists as M. rewrite cg36_graph in M.
  refine (conj g36_made (conj g36_low (conj _ (conj cg36_wf (conj S1 (conj M (conj _ cg36_lost))))))).
  - apply con_ok. vm_compute. reflexivity.
  - apply available_iff; [exact C'|unfold inb; rewrite Gc'; split; apply M|]. vm_compute. reflexivity.
Qed.

Lemma cg36_solves : exec solve_csp cg36 = Ok (true, cg36').
Proof. apply answers_ok. vm_compute. reflexivity. Qed.

(** *** A device that removes two nodes *)

Definition row84 : cgraph cuda := cuda_problem cg84.
Lemma row84_wf : wf_cgraph row84. Proof. apply cgb_ok; [reflexivity|]. vm_compute. reflexivity. Qed.
Definition by84 := propagate_by row84 CUDA Strict same_group (Device_witness.rounds 5 6) 4 (cg_avail row84) no_flags.
Lemma row84_propagates : exists m' f',
  propagate row84 CUDA true (b_kind good_device) (b_partition good_device) (cg_avail row84) no_flags m' f' /\
  m' <> cg_avail row84 /\ In true m'.
Proof.
  assert (E : match by84 with Some (m, _) => negb (same_bits m (cg_avail row84)) && existsb (fun b => b) m | None => false end = true)
    by (vm_compute; reflexivity).
  unfold by84 in E. destruct (propagate_by _ _ _ _ _ _ _ _) as [[m f]|] eqn:P; [|discriminate].
  apply andb_true_iff in E. destruct E as [E1 E2]. exists m, f. split; [|split].
  - exact (propagate_by_ok row84 CUDA Strict same_group _ one_group 4 same_group_one _ _ _ _ P).
  - intros ->. apply negb_true_iff in E1. rewrite same_bits_refl in E1. discriminate E1.
  - apply existsb_exists in E2. destruct E2 as [b [Ib ->]]. exact Ib.
Qed.
