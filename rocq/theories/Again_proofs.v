(** Repeated calls of the solver, and images of one row: lemmas. *)
From Coq Require Import Lia.
From Verif Require Export Omp_one_proofs Lattice_proofs.
Local Open Scope N_scope.

(** Number of available elements. *)
Fixpoint ones (m : list bool) : nat :=
  match m with [] => O | b :: r => (if b then 1 else 0) + ones r end.

Lemma bit_next b (m : list bool) i : bit (b :: m) (i + 1) = bit m i.
Proof.
  unfold bit, get, len. cbn [length]. replace (N.to_nat (i + 1)) with (S (N.to_nat i)) by lia. cbn [nth_error].
  destruct (N.ltb_spec i (N.of_nat (length m))); destruct (N.ltb_spec (i + 1) (N.of_nat (S (length m)))); try lia; reflexivity.
Qed.

Lemma ones_sub (m m' : list bool) : length m' = length m -> sub m' m -> m' = m \/ (ones m' < ones m)%nat.
Proof.
  revert m'. induction m as [|b m IH]; intros [|b' m'] L S; try discriminate; [left; reflexivity|].
  injection L as L.
  assert (S' : sub m' m).
  { intros i Hi. specialize (S (i + 1)). rewrite !bit_next in S. apply S. exact Hi. }
  assert (B : b' = true -> b = true) by (intros ->; apply (S 0); reflexivity).
  destruct (IH m' L S') as [E|Lt].
  - subst m'. destruct b', b; cbn [ones]; try (left; reflexivity); [specialize (B eq_refl); discriminate|right; lia].
  - right. destruct b', b; cbn [ones]; lia.
Qed.

Lemma ones_length m : (ones m <= length m)%nat.
Proof. induction m as [|[] m IH]; cbn [ones length]; lia. Qed.

Section Graph.
Context {T : target}.
Implicit Type cg : cgraph T.
Notation G cg := (cg_graph cg).
Notation nd p d := {| npix := p; disp := d |}.

Lemma sub_length cg m m' : mem_ok cg m -> mem_ok cg m' -> length m' = length m.
Proof. unfold mem_ok, len. intros. lia. Qed.

Lemma sub_antisym cg m m' : mem_ok cg m -> mem_ok cg m' -> sub m m' -> sub m' m -> m = m'.
Proof.
  intros H H' S S'. apply mem_ext; [unfold mem_ok in *; congruence|]. intros i _.
  destruct (bit m i) eqn:E; [symmetry; apply S; exact E|].
  destruct (bit m' i) eqn:E'; [apply S' in E'; congruence|reflexivity].
Qed.

(** A sweep that changes nothing finds nothing to remove. *)
Lemma proc_fixed cg p ds m : static cg -> mem_ok cg m -> dispsok cg p ds -> proc cg p ds m = m ->
  forall d, In d ds -> rmvb cg m (nd p d) = false.
Proof.
  intros Hs. induction ds as [|d ds IH]; intros Hm Hd E x Hx; [destruct Hx|].
  assert (H1 : inb cg (nd p d)) by (apply Hd; left; reflexivity).
  assert (Hd' : dispsok cg p ds) by (intros z Hz; apply Hd; right; exact Hz).
  cbn [proc] in E.
  assert (E1 : proc1 cg m (nd p d) = m).
  { apply (sub_antisym cg); [apply proc1_ok; exact Hm|exact Hm|apply sub_proc1; assumption|].
    rewrite <- E at 1. apply sub_proc; [exact Hs|apply proc1_ok; exact Hm|exact Hd']. }
  rewrite E1 in E. destruct Hx as [<-|Hx]; [|apply IH; assumption].
  unfold proc1 in E1. destruct (rmvb cg m (nd p d)) eqn:R; [|reflexivity]. exfalso.
  assert (A : avb cg m (nd p d) = true) by (unfold rmvb in R; apply andb_true_iff in R; apply R).
  rewrite <- E1 in A. apply avb_clear in A; try assumption. destruct A. contradiction.
Qed.

Lemma sweep_fixed cg ps m : static cg -> mem_ok cg m -> pixels_ok cg ps ->
  sweep cg ps m = (true, m) -> forall p d, In p ps -> match_exists (G cg) (nd p d) -> rmvb cg m (nd p d) = false.
Proof.
  intros Hs. induction ps as [|q ps IH]; intros Hm Hps E p d Hp M; [destruct Hp|].
  assert (Hq : in_image (G cg) q) by (apply Hps; left; reflexivity).
  assert (Hps' : pixels_ok cg ps) by (intros x Hx; apply Hps; right; exact Hx).
  cbn [sweep] in E. destruct (hasb cg (process cg q m) q); [|discriminate].
  assert (E1 : process cg q m = m).
  { apply (sub_antisym cg); [apply process_ok; exact Hm|exact Hm|apply sub_process; assumption|].
    pose proof (sub_sweep cg ps _ Hs (process_ok cg q m Hm) Hps') as S. rewrite E in S. exact S. }
  rewrite E1 in E. destruct Hp as [<-|Hp]; [|apply IH; assumption].
  apply (proc_fixed cg q (disps cg q) m Hs Hm (dispsok_disps cg q Hs Hq) E1).
  apply disps_In; assumption.
Qed.

Lemma solved_fixed cg m : static cg -> mem_ok cg m -> snd (solved cg m) = m ->
  (forall n, match_exists (G cg) n -> rmvb cg m n = false).
Proof.
  intros Hs Hm E [p d] M. unfold solved in E.
  destruct (sweep cg (raster cg) m) as [b m'] eqn:Es. cbn [fst snd] in E. destruct b; cbn [snd] in E.
  - subst m'. apply (sweep_fixed cg (raster cg) m Hs Hm (raster_ok cg) Es); [apply In_raster; apply M|exact M].
  - rewrite <- E. apply rmvb_none.
Qed.

(** *** Repeated calls *)

Fixpoint again cg (n : nat) (m : list bool) : bool * list bool :=
  match n with O => solved cg m | S n' => again cg n' (snd (solved cg m)) end.

Lemma solve_again_eq cg n m : static cg -> mem_ok cg m ->
  solve_again n (with_avail cg m) = Ok (fst (again cg n m), with_avail cg (snd (again cg n m))).
Proof.
  intros Hs. assert (X : forall m, mem_ok cg m -> exec solve_csp (with_avail cg m) =
    Ok (fst (solved cg m), with_avail cg (snd (solved cg m)))).
  { intros m0 Hm. pose proof (exec_solve_csp (with_avail cg m0) (static_wf cg m0 Hs Hm)) as E.
    rewrite E. rewrite solved_with. reflexivity. }
  revert m. induction n as [|n IH]; intros m Hm; cbn [solve_again again]; [apply X; exact Hm|].
  rewrite X by exact Hm. cbn [bind snd]. apply IH. apply solved_ok; exact Hm.
Qed.

Lemma again_ok cg n m : mem_ok cg m -> mem_ok cg (snd (again cg n m)).
Proof. revert m. induction n as [|n IH]; intros m Hm; cbn [again]; [|apply IH]; apply solved_ok; exact Hm. Qed.

Lemma again_sub cg n m : static cg -> mem_ok cg m -> sub (snd (again cg n m)) m.
Proof.
  intros Hs. revert m. induction n as [|n IH]; intros m Hm; cbn [again]; [apply solved_sub; assumption|].
  eapply sub_trans; [apply IH; apply solved_ok; exact Hm|apply solved_sub; assumption].
Qed.

Lemma again_fixed cg n m : snd (solved cg m) = m -> again cg n m = solved cg m.
Proof. intros E. induction n as [|n IH]; cbn [again]; [reflexivity|]. rewrite E. exact IH. Qed.

Lemma again_settles cg n m : static cg -> mem_ok cg m -> (ones m <= n)%nat ->
  snd (solved cg (snd (again cg n m))) = snd (again cg n m) /\ fst (again cg n m) = fst (solved cg (snd (again cg n m))).
Proof.
  intros Hs. revert m. induction n as [|n IH]; intros m Hm Hn.
  - cbn [again]. destruct (ones_sub m (snd (solved cg m))) as [E|L].
    + apply (sub_length cg); [exact Hm|apply solved_ok; exact Hm].
    + apply solved_sub; assumption.
    + rewrite !E. split; reflexivity.
    + lia.
  - destruct (ones_sub m (snd (solved cg m))) as [E|L].
    + apply (sub_length cg); [exact Hm|apply solved_ok; exact Hm].
    + apply solved_sub; assumption.
    + rewrite (again_fixed cg (S n) m E). rewrite !E. split; reflexivity.
    + cbn [again]. apply IH; [apply solved_ok; exact Hm|lia].
Qed.

Lemma again_keeps cg n m k : static cg -> mem_ok cg m -> solution (with_avail cg m) k ->
  fst (again cg n m) = true /\ solution (with_avail cg (snd (again cg n m))) k.
Proof.
  intros Hs. assert (X : forall m, mem_ok cg m -> solution (with_avail cg m) k ->
    fst (solved cg m) = true /\ solution (with_avail cg (snd (solved cg m))) k).
  { intros m0 Hm Sk. destruct (solve_keeps_solution (with_avail cg m0) k (static_wf cg m0 Hs Hm) Sk) as [cg' [E [_ S']]].
    rewrite (exec_solve_csp (with_avail cg m0) (static_wf cg m0 Hs Hm)) in E.
    rewrite solved_with in E. cbn [with_avail cg_avail] in E.
    injection E as E1 E2. split; [exact E1|]. subst cg'. exact S'. }
  revert m. induction n as [|n IH]; intros m Hm Sk; cbn [again]; [apply X; assumption|].
  apply IH; [apply solved_ok; exact Hm|apply X; assumption].
Qed.

Lemma solution_sub cg m m' k : static cg -> mem_ok cg m -> mem_ok cg m' -> sub m' m ->
  solution (with_avail cg m') k -> solution (with_avail cg m) k.
Proof.
  intros Hs Hm Hm' S [Hk [Ha He]]. split; [exact Hk|]. split; [|exact He]. intros p Hp.
  pose proof (match_inb cg _ (proj1 Hk p Hp)) as I. specialize (Ha p Hp).
  apply available_with in Ha; try assumption. apply available_with; try assumption. apply S. exact Ha.
Qed.

Lemma solved_everywhere cg m : static cg -> mem_ok cg m -> fst (solved cg m) = true ->
  everywhere_available (with_avail cg (snd (solved cg m))).
Proof.
  intros Hs Hm F p Hp. destruct (solved_facts cg m Hs Hm F) as [Hm' [_ [H _]]].
  specialize (H p Hp). apply hasb_iff in H; try assumption. destruct H as [n [M [E A]]].
  exists n. split; [exact E|]. split; [exact M|]. apply available_with; try assumption. apply match_inb; exact M.
Qed.

Context (HL : laws T) (HO : order_laws T).

Lemma plain_with cg m : plain_problem cg -> mem_ok cg m -> plain_problem (with_avail cg m).
Proof.
  intros [Hc Hl Hz Hf Hn] Hm. constructor; try assumption. apply static_wf; [apply wf_static; exact Hc|exact Hm].
Qed.

(** Calls repeated as often as there are nodes decide whether a labeling exists. *)
Lemma again_decides cg n : plain_problem cg ->
  width (right (G cg)) * height (right (G cg)) * levels (G cg) <= N.of_nat n ->
  exists b cg', solve_again n cg = Ok (b, cg') /\ same_problem cg cg' /\ settled cg' /\
    (b = true <-> exists k, solution cg k) /\
    (forall k, solution cg' k <-> solution cg k).
Proof.
  intros P Hn. pose proof (pp_wf cg P) as Hc. pose proof (wf_static cg Hc) as Hs. pose proof (wfc_avail cg Hc) as Hm.
  fold (mem_ok cg (cg_avail cg)) in Hm.
  pose proof (solve_again_eq cg n (cg_avail cg) Hs Hm) as E. rewrite with_avail_same in E. rewrite E.
  pose proof (again_ok cg n _ Hm) as Hm'.
  destruct (again_settles cg n (cg_avail cg) Hs Hm) as [E1 E2].
  { pose proof (ones_length (cg_avail cg)). unfold mem_ok, len in Hm. lia. }
  pose proof (again_sub cg n _ Hs Hm) as Sub.
  eexists _, _. split; [reflexivity|]. split; [apply same_with; assumption|].
  assert (St : settled (with_avail cg (snd (again cg n (cg_avail cg))))).
  { apply settled_rmvb; [apply static_wf; assumption|]. intros x M.
    apply (solved_fixed cg _ Hs Hm' E1 x M). }
  split; [exact St|].
  assert (Sol : forall k, solution (with_avail cg (snd (again cg n (cg_avail cg)))) k <-> solution cg k).
  { intros k. split; intros Sk.
    - pose proof (solution_sub cg (cg_avail cg) _ k Hs Hm Hm' Sub Sk) as X. rewrite with_avail_same in X. exact X.
    - apply again_keeps; try assumption. rewrite with_avail_same. exact Sk. }
  split; [|exact Sol]. split.
  - intros B. rewrite E2 in B. pose proof (solved_everywhere cg _ Hs Hm' B) as Ev. rewrite E1 in Ev.
    destruct (settled_solution HL HO _ (plain_with cg _ P Hm') St Ev) as [k Sk]. exists k. apply Sol. exact Sk.
  - intros [k Sk]. apply (again_keeps cg n (cg_avail cg) k Hs Hm). rewrite with_avail_same. exact Sk.
Qed.

(** One call that changes nothing. *)
Lemma unchanged_solution cg : plain_problem cg -> exec solve_csp cg = Ok (true, cg) ->
  settled cg /\ exists k, solution cg k.
Proof.
  intros P E. pose proof (pp_wf cg P) as Hc. pose proof (wf_static cg Hc) as Hs. pose proof (wfc_avail cg Hc) as Hm.
  fold (mem_ok cg (cg_avail cg)) in Hm.
  rewrite exec_solve_csp in E by exact Hc. injection E as E1 E2.
  assert (E3 : snd (solved cg (cg_avail cg)) = cg_avail cg) by (rewrite <- E2 at 3; reflexivity).
  assert (St : settled cg) by (apply settled_rmvb; [exact Hc|]; intros; apply solved_fixed; assumption).
  split; [exact St|]. pose proof (solved_everywhere cg _ Hs Hm E1) as Ev. rewrite E3, with_avail_same in Ev.
  apply settled_solution; assumption.
Qed.
End Graph.
