(** Executions by a given schedule, to exhibit concrete interleavings. *)
From Verif Require Export Sc_proofs Witnesses.
Local Open Scope N_scope.

Definition tnext {A} (wb : N) (t : thread A) (h : list mem) : option (thread A * list mem) :=
  match t with
  | Run (Read i k) => match get (current h) i with Ok b => Some (Run (k b), h) | Stop _ => None end
  | Run (Write i b k) => if i <? len (current h) then Some (Store i b (current h) k, h) else None
  | Store i b w k => Some (Run k, store_word wb i b w (current h) :: h)
  | Run _ => None
  end.

Lemma tnext_step {A} wb (t : thread A) h t' h' : tnext wb t h = Some (t', h') -> tstep true wb t h t' h'.
Proof.
  destruct t as [[r|s|i k|i b k]|i b w k]; cbn [tnext]; try discriminate.
  - destruct (get (current h) i) as [b|] eqn:E; [|discriminate]. intros X; injection X as <- <-.
    eapply step_read; [reflexivity|exact E].
  - destruct (N.ltb_spec i (len (current h))); [|discriminate]. intros X; injection X as <- <-.
    eapply step_load; [reflexivity|assumption].
  - intros X; injection X as <- <-. apply step_store.
Qed.

(** Only the current contents are kept. *)
Fixpoint follow {A} (wb : N) (sch : list nat) (ts : list (thread A)) (h : list mem) : list (thread A) * list mem :=
  match sch with
  | [] => (ts, h)
  | n :: r =>
      match nth_error ts n with
      | Some t => match tnext wb t h with
                  | Some (t', h') => follow wb r (upd ts n t') h'
                  | None => follow wb r ts h
                  end
      | None => follow wb r ts h
      end
  end.

Lemma follow_steps {A} wb sch : forall (ts : list (thread A)) h, exists n,
  psteps true wb n {| threads := ts; history := h |}
    {| threads := fst (follow wb sch ts h); history := snd (follow wb sch ts h) |}.
Proof.
  induction sch as [|i r IH]; intros ts h; cbn [follow]; [exists 0%nat; constructor|].
  destruct (nth_error ts i) as [t|] eqn:E; [|apply IH].
  destruct (tnext wb t h) as [[t' h']|] eqn:Et; [|apply IH].
  destruct (IH (upd ts i t') h') as [n P]. exists (S n). econstructor; [|exact P].
  econstructor; [exact E|]. apply tnext_step; exact Et.
Qed.

Definition results (ts : list (thread bool)) : option (list bool) :=
  fold_right (fun t acc => match t, acc with Run (Ret r), Some l => Some (r :: l) | _, _ => None end) (Some []) ts.

Lemma results_map ts rs : results ts = Some rs -> ts = map (fun r => Run (Ret r)) rs.
Proof.
  revert rs; induction ts as [|t ts IH]; intros rs; cbn [results fold_right].
  - intros X; injection X as <-. reflexivity.
  - fold (results ts). destruct t as [[r| | |]|]; try discriminate.
    destruct (results ts) as [l|]; [|discriminate]. intros X; injection X as <-. cbn [map]. rewrite (IH l eq_refl). reflexivity.
Qed.

Section Graph.
Context {T : target}.

Definition start_threads (cg : cgraph T) bound jobs : list (thread bool) :=
  map (fun i => Run (csp_solution_iteration cg jobs i)) (range 0 bound).

Definition round_by (cg : cgraph T) wb bound jobs sch m : option (bool * mem) :=
  let r := follow wb sch (start_threads cg bound jobs) [m] in
  match results (fst r) with Some rs => Some (existsb (fun r => r) rs, current (snd r)) | None => None end.

Lemma round_by_round cg wb bound jobs sch m ch m' :
  round_by cg wb bound jobs sch m = Some (ch, m') -> round cg true wb bound jobs m ch m'.
Proof.
  unfold round_by. destruct (follow_steps wb sch (start_threads cg bound jobs) [m]) as [n P]. revert P.
  generalize (follow wb sch (start_threads cg bound jobs) [m]). intros [ts h]. cbn [fst snd]. intros P.
  destruct (results ts) as [rs|] eqn:E; [|discriminate]. intros X; injection X as <- <-.
  exists n, {| threads := ts; history := h |}. split; [exact P|].
  exists rs. split; [apply results_map; exact E|]. split; reflexivity.
Qed.
End Graph.

(** *** The result depends on the schedule *)

Definition first_then (a b : nat) : list nat := repeat a 2000 ++ repeat b 2000.
Definition cg40 : cgraph cpu := con g37 (num 3).
Definition cg40a : mem := match round_by cg40 64 2 2 (first_then 0 1) (cg_avail cg40) with Some (_, m) => m | None => [] end.
Definition cg40b : mem := match round_by cg40 64 2 2 (first_then 1 0) (cg_avail cg40) with Some (_, m) => m | None => [] end.
Definition cg40c : mem := match round_by cg40 64 2 2 (first_then 1 0) cg40b with Some (_, m) => m | None => [] end.

Definition gives (r : option (bool * mem)) (ch : bool) : bool :=
  match r with Some (c, _) => Bool.eqb c ch | None => false end.
Lemma gives_some r ch : gives r ch = true -> r = Some (ch, match r with Some (_, m) => m | None => [] end).
Proof. destruct r as [[c m]|]; [|discriminate]. cbn [gives]. intros H. apply Bool.eqb_prop in H. subst. reflexivity. Qed.

Lemma schedule_matters : exists (l r : image) lev (c s : F cpu) g lp t cg cg1 cg2,
  make_graph l r lev c s = Ok g /\ wf_graph g /\ zero_reparam g /\ finite_penalties g /\ make_lowest g = Ok lp /\
  make_constraint g lp t = Ok cg /\
  solves cg true 64 2 2 true cg1 /\ solves cg true 64 2 2 false cg2.
Proof.
  exists (left g37), (right g37), (levels g37), (cleanness g37), (smoothness g37), g37, (low g37), (num 3),
    cg40, (with_avail cg40 cg40a), (with_avail cg40 cg40c).
  refine (conj g37_made (conj g37_wf (conj g37_zero (conj g37_finite (conj g37_low _))))).
  assert (Ec : make_constraint g37 (low g37) (num 3) = Ok cg40) by (apply con_ok; vm_compute; reflexivity).
  assert (C : wf_cgraph cg40) by (apply (make_constraint_Ok g37 (low g37) (num 3) cg40 g37_wf g37_low Ec)).
  refine (conj Ec (conj _ _)).
  - exists 1%nat, cg40a. split; [|split; [reflexivity|]].
    + apply rounds_last. eapply round_by_round. apply gives_some. vm_compute. reflexivity.
    + rewrite run_check_nodes; [|apply wf_static; exact C|vm_compute; reflexivity].
      replace (existsb (fun b => b) cg40a) with true by (vm_compute; reflexivity). reflexivity.
  - exists 2%nat, cg40c. split; [|split; [reflexivity|]].
    + eapply rounds_more with (m1 := cg40b); [eapply round_by_round; apply gives_some; vm_compute; reflexivity|].
      apply rounds_last. eapply round_by_round. apply gives_some. vm_compute. reflexivity.
    + rewrite run_check_nodes; [|apply wf_static; exact C|vm_compute; reflexivity].
      replace (existsb (fun b => b) cg40c) with false by (vm_compute; reflexivity). reflexivity.
Qed.

(** *** Lost updates can repeat a round for ever *)

Definition g63 : dgraph cpu := problem 2 2 2 [0; 0; 0; 0] [0; 0; 0; 0] 1 1.
Lemma g63_made : make_graph (left g63) (right g63) (levels g63) (cleanness g63) (smoothness g63) = Ok g63.
Proof. made. Qed.
Lemma g63_wf : wf_graph g63. Proof. apply wfb_ok. vm_compute. reflexivity. Qed.
Lemma g63_low : make_lowest g63 = Ok (low g63). Proof. apply low_ok. vm_compute. reflexivity. Qed.
Definition cg63 : cgraph cpu :=
  with_avail (con g63 (num 0)) [false; false; false; false; true; false; false; false].
Definition sch63 : list nat :=
  repeat 0%nat 17 ++ repeat 1%nat 16 ++ [0; 0; 1; 0; 1; 1; 0; 0; 0; 0; 0; 1; 1; 1; 1; 1; 1]%nat.

Lemma same_again : exists (l r : image) lev (c s : F cpu) g cg,
  make_graph l r lev c s = Ok g /\ wf_cgraph cg /\ cg_graph cg = g /\ make_lowest g = Ok (cg_lowest cg) /\
  round cg true 64 2 2 (cg_avail cg) true (cg_avail cg).
Proof.
  exists (left g63), (right g63), (levels g63), (cleanness g63), (smoothness g63), g63, cg63.
  refine (conj g63_made _).
  assert (Ec : make_constraint g63 (low g63) (num 0) = Ok (con g63 (num 0))) by (apply con_ok; vm_compute; reflexivity).
  destruct (make_constraint_Ok g63 (low g63) (num 0) _ g63_wf g63_low Ec) as [C [Eg _]].
  refine (conj _ (conj Eg (conj g63_low _))).
  - apply static_wf; [apply wf_static; exact C|vm_compute; reflexivity].
  - eapply (round_by_round _ _ _ _ sch63). vm_compute. reflexivity.
Qed.

(** *** A case for the theorems about several jobs *)

Lemma two_jobs : 1 <= 2. Proof. vm_compute. discriminate. Qed.
Lemma two_jobs_scg : height (right (cg_graph scg)) + 2 < wmod cpu. Proof. vm_compute. reflexivity. Qed.
Definition scg_two : mem := match round_by scg 64 2 2 (first_then 0 1) (cg_avail scg) with Some (_, m) => m | None => [] end.
Lemma scg_two_jobs : exists cg', solves scg true 64 2 2 true cg'.
Proof.
  exists (with_avail scg scg_two), 1%nat, scg_two. split; [|split; [reflexivity|]].
  - apply rounds_last. eapply round_by_round. apply gives_some. vm_compute. reflexivity.
  - rewrite run_check_nodes; [|apply wf_static; exact scg_wf|vm_compute; reflexivity].
    replace (existsb (fun b => b) scg_two) with true by (vm_compute; reflexivity). reflexivity.
Qed.
