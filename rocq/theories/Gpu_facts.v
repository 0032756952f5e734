(** The lemmas about launches and runs of devices, stated for well-formed graphs. *)
From Verif Require Export Gpu_end_proofs Gpu_hang_proofs Gpu_host_proofs.
Local Open Scope N_scope.

Section Graph.
Context {T : target} (cg : cgraph T).
Implicit Types (a : api) (sc : bool) (kind : barrier_kind) (group : nat -> nat).
Hypothesis Hc : wf_cgraph cg.
Let Hs : static cg := wf_static cg Hc.
Let Hm : mem_ok cg (cg_avail cg) := wfc_avail cg Hc.

Lemma device_safe a sc kind group f s : kernel_steps cg a sc kind group (launch_start cg a (cg_avail cg) f) s ->
  let cg' := with_avail cg (current (khistory s)) in
  wf_cgraph cg' /\ same_problem cg cg' /\
  (forall p t, In (p, Work t) (items s) -> in_image (cg_graph cg) p /\ ~ faulty (current (khistory s)) t /\
     ((exists r, t = Run (Ret r)) \/ exists t' h', tstep sc 1 t (khistory s) t' h')) /\
  (forall n, in_image (cg_graph cg) (npix n) -> disp n < levels (cg_graph cg) -> available cg' n -> available cg n) /\
  (forall k, solution cg k -> solution cg' k).
Proof.
  intros P. cbv zeta.
  destruct (kernel_reached_safe cg a sc kind Hs group (cg_avail cg) f s Hm P) as [A [B [C D]]].
  rewrite with_avail_same in C, D. split; [exact A|]. split; [|auto].
  apply same_with; [exact Hc|exact (wfc_avail _ A)].
Qed.

Lemma device_propagation a sc kind partition f m' f' : propagate cg a sc kind partition (cg_avail cg) f m' f' ->
  let cg' := with_avail cg m' in
  wf_cgraph cg' /\ same_problem cg cg' /\
  (forall n, in_image (cg_graph cg) (npix n) -> disp n < levels (cg_graph cg) -> available cg' n -> available cg n) /\
  (forall K n, arc_consistent cg K -> K n -> available cg' n) /\
  (forall k, solution cg k -> solution cg' k).
Proof.
  intros P. cbv zeta.
  destruct (propagate_sub cg a sc kind partition Hs _ f m' f' Hm P) as [Hm' Sub].
  split; [apply static_wf; assumption|]. split; [apply same_with; assumption|].
  assert (Av : forall n, inb cg n -> (available (with_avail cg m') n <-> avb cg m' n = true)).
  { intros n I. apply available_with; assumption. }
  split; [|split].
  - intros n Hp Hd A. apply Av in A; [|split; assumption]. rewrite <- (with_avail_same cg).
    apply available_with; try assumption; [split; assumption|]. apply Sub. exact A.
  - intros K n HK Kn. pose proof (proj1 (HK n Kn)) as M. apply Av; [apply match_inb; exact M|].
    apply (kept_sets cg a sc kind partition (cg_avail cg) f m' f' K n Hs Hm P); [rewrite with_avail_same; exact HK|exact Kn].
  - intros k [K1 [K2 K3]]. split; [exact K1|]. split; [|exact K3]. intros p Hp.
    pose proof (proj1 K1 p Hp) as M.
    apply Av; [apply match_inb; exact M|].
    apply (kept_sets cg a sc kind partition (cg_avail cg) f m' f' (fun n => exists q, in_image (cg_graph cg) q /\ n = label_node k q) _ Hs Hm P); [|exists p; auto].
    rewrite with_avail_same. intros n [q [Hq ->]]. split; [apply (proj1 K1 q Hq)|]. split; [apply (K2 q Hq)|].
    intros q' Hq' Ad. exists (label_node k q'). split; [reflexivity|]. split; [exists q'; auto|]. split.
    + unfold match_pair. cbn [enode enbr]. split; [apply (proj1 K1 q Hq)|]. split; [apply (proj1 K1 q' Hq')|].
      split; [exact Ad|apply (proj2 K1); assumption].
    + apply K3; assumption.
Qed.

Lemma device_settles a group f m' f' : one_group group -> launch cg a true Strict group (cg_avail cg) f m' f' ->
  settled (with_avail cg m') /\
  (forall n, match_exists (cg_graph cg) n ->
     (available (with_avail cg m') n <-> exists K, arc_consistent cg K /\ K n)) /\
  (a = OpenCL -> any_flag f' = false -> m' = cg_avail cg).
Proof.
  intros Hg L. destruct (launch_settles cg a group (cg_avail cg) f m' f' Hs Hg Hm L) as [A [B C]].
  rewrite with_avail_same in B. auto.
Qed.

Lemma host_settles kind (partition : (nat -> nat) -> Prop) f m' f' : kind <> Absent -> (forall g, partition g -> one_group g) ->
  propagate cg OpenCL true kind partition (cg_avail cg) f m' f' ->
  settled (with_avail cg m') /\
  forall n, match_exists (cg_graph cg) n -> (available (with_avail cg m') n <-> exists K, arc_consistent cg K /\ K n).
Proof.
  intros Hk Hg P. pose proof (propagate_settles cg kind partition (cg_avail cg) f m' f' Hs Hk Hg Hm P) as S.
  split; [exact S|]. intros n M.
  pose proof (settled_largest cg OpenCL true kind partition (cg_avail cg) f m' f' Hs Hm P S n M) as X.
  rewrite with_avail_same in X. exact X.
Qed.

Lemma device_label (HL : laws T) a sc kind partition m' : csp_solution cg a sc kind partition m' ->
  let cg' := with_avail cg m' in
  wf_cgraph cg' /\ same_problem cg cg' /\
  (forall n, in_image (cg_graph cg) (npix n) -> disp n < levels (cg_graph cg) -> available cg' n -> available cg n) /\
  (forall n n', match_exists (cg_graph cg) n -> match_exists (cg_graph cg) n' -> npix n = npix n' ->
     available cg' n -> available cg' n' -> n = n') /\
  ((forall p, in_image (cg_graph cg) p -> exists d, match_exists (cg_graph cg) {| npix := p; disp := d |} /\ available cg' {| npix := p; disp := d |}) ->
   exists k, solution cg' k /\ forall n, match_exists (cg_graph cg) n -> (available cg' n <-> disp n = k (npix n))).
Proof. exact (device_labeling cg a sc kind partition Hs HL m' Hm). Qed.

Lemma device_bounded a kind group f : exists bound, forall n s,
  kernel_path cg a true kind group n (launch_start cg a (cg_avail cg) f) s -> (n <= bound)%nat.
Proof. exact (launch_bounded cg a kind group (cg_avail cg) f Hs Hm). Qed.

Lemma device_stuck a sc kind group f s : kernel_steps cg a sc kind group (launch_start cg a (cg_avail cg) f) s ->
  (forall s', ~ kernel_step cg a sc kind group s s') -> finished s \/ (kind = Strict /\ diverged group s).
Proof. exact (stuck_ends cg a sc kind group Hs (cg_avail cg) f s Hm). Qed.
End Graph.
