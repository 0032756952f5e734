(** Several jobs: safety for every interleaving, termination and results on
    sequentially consistent memory. *)
From Verif Require Export Safe_proofs.
Local Open Scope N_scope.

(** *** Every interleaving ends *)

Fixpoint depth {A} (c : cmd A) : nat :=
  match c with
  | Ret _ | Fail _ => 0
  | Read _ k => S (Nat.max (depth (k true)) (depth (k false)))
  | Write _ _ k => S (S (depth k))
  end.
Definition tdepth {A} (t : thread A) : nat :=
  match t with Run c => depth c | Store _ _ _ k => S (depth k) end.
Definition pdepth {A} (s : pool A) : nat := list_sum (map tdepth (threads s)).

Lemma tstep_depth {A} sc wb (t t' : thread A) h h' : tstep sc wb t h t' h' -> (tdepth t' < tdepth t)%nat.
Proof. intros H. destruct H as [i k h w b _ _|i b k h w _ _|i b w k h]; cbn [tdepth depth]; [|lia|lia]. destruct b; lia. Qed.

Lemma list_sum_cons x l : list_sum (x :: l) = (x + list_sum l)%nat.
Proof. reflexivity. Qed.

Lemma list_sum_upd (l : list nat) i v x : nth_error l i = Some v -> (x < v)%nat ->
  (list_sum (upd l i x) < list_sum l)%nat.
Proof.
  revert i; induction l as [|y l IH]; intros [|i] E Hx; try discriminate; cbn [nth_error upd] in *; rewrite !list_sum_cons.
  - injection E as ->. lia.
  - specialize (IH i E Hx). lia.
Qed.

Lemma map_upd {A B} (f : A -> B) l i v : map f (upd l i v) = upd (map f l) i (f v).
Proof. revert i; induction l as [|x l IH]; intros [|i]; cbn [upd map]; [reflexivity..|]. rewrite IH. reflexivity. Qed.

Lemma pstep_depth {A} sc wb (s s' : pool A) : pstep sc wb s s' -> (pdepth s' < pdepth s)%nat.
Proof.
  intros H. destruct H as [n ts t t' h h' E Hs]. unfold pdepth. cbn [threads]. rewrite map_upd.
  eapply list_sum_upd; [rewrite nth_error_map, E; reflexivity|]. eapply tstep_depth; exact Hs.
Qed.

Lemma psteps_depth {A} sc wb n (s s' : pool A) : psteps sc wb n s s' -> (n <= pdepth s)%nat.
Proof. intros H. induction H; [lia|]. apply pstep_depth in H. lia. Qed.

(** A thread that is not finished and not faulty can go on. *)
Lemma progress {A} sc wb (t : thread A) h : h <> [] -> ~ faulty (current h) t ->
  (exists r, t = Run (Ret r)) \/ exists t' h', tstep sc wb t h t' h'.
Proof.
  intros Hh F. assert (L : loads sc h (current h)).
  { unfold loads. destruct sc; [reflexivity|]. destruct h; [contradiction|left; reflexivity]. }
  destruct t as [[r|s|i k|i b k]|i b w k]; cbn [faulty] in F.
  - left. exists r. reflexivity.
  - exfalso. apply F. exact I.
  - right. assert (Hi : i < len (current h)) by lia.
    eexists _, _. eapply step_read; [exact L|apply bit_get; exact Hi].
  - right. eexists _, _. eapply step_load; [exact L|lia].
  - right. eexists _, _. apply step_store.
Qed.

Section Graph.
Context {T : target}.
Implicit Type cg : cgraph T.
Notation G cg := (cg_graph cg).
Notation Wd cg := (width (right (cg_graph cg))).
Notation Ht cg := (height (right (cg_graph cg))).
Notation Lv cg := (levels (cg_graph cg)).

Lemma start_safe cg (K : node -> Prop) bound jobs m init : static cg -> support cg K ->
  total cg K \/ (forall n, ~ K n) -> 1 <= jobs -> Ht cg + jobs < wmod T ->
  good (places cg K) (size cg) init m ->
  pool_safe (places cg K) (size cg) init (fun b => total cg K -> b = false) (round_start cg bound jobs m).
Proof.
  intros Hs HK HT Hj Hjw Hm. split; cbn [round_start threads history].
  - intros t Ht. apply in_map_iff in Ht. destruct Ht as [i [<- _]]. cbn [thread_safe].
    apply safe_iteration; assumption.
  - split; [discriminate|]. intros x [<-|[]]. exact Hm.
Qed.

Lemma round_safe cg (K : node -> Prop) sc wb bound jobs m init ch m' : static cg -> support cg K ->
  total cg K \/ (forall n, ~ K n) -> 1 <= jobs -> Ht cg + jobs < wmod T ->
  good (places cg K) (size cg) init m -> round cg sc wb bound jobs m ch m' ->
  good (places cg K) (size cg) init m' /\ (total cg K -> ch = false).
Proof.
  intros Hs HK HT Hj Hjw Hm [n [s [P [rs [E1 [E2 E3]]]]]].
  pose proof (psteps_safe _ _ _ _ sc wb n _ s (start_safe cg K bound jobs m init Hs HK HT Hj Hjw Hm) P) as [S1 S2].
  split; [subst m'; apply good_current; exact S2|]. intros X. subst ch.
  destruct (existsb (fun r => r) rs) eqn:E; [|reflexivity]. apply existsb_exists in E. destruct E as [r [Hr ->]].
  rewrite E1 in S1. specialize (S1 (Run (Ret true)) (in_map (fun r => Run (Ret r)) rs true Hr)).
  cbn [thread_safe] in S1. inversion S1; subst. specialize (H0 X). discriminate.
Qed.

Lemma rounds_safe cg (K : node -> Prop) sc wb bound jobs n m init m' : static cg -> support cg K ->
  total cg K \/ (forall n, ~ K n) -> 1 <= jobs -> Ht cg + jobs < wmod T ->
  good (places cg K) (size cg) init m -> rounds cg sc wb bound jobs n m m' ->
  good (places cg K) (size cg) init m'.
Proof.
  intros Hs HK HT Hj Hjw Hm R. induction R as [m m' R|n m m1 m' R R' IH].
  - apply (round_safe cg K sc wb bound jobs m init false m' Hs HK HT Hj Hjw Hm R).
  - apply IH. apply (round_safe cg K sc wb bound jobs m init true m1 Hs HK HT Hj Hjw Hm R).
Qed.

Lemma reached_safe cg (K : node -> Prop) sc wb bound jobs m init s : static cg -> support cg K ->
  total cg K \/ (forall n, ~ K n) -> 1 <= jobs -> Ht cg + jobs < wmod T ->
  good (places cg K) (size cg) init m -> reached cg sc wb bound jobs m s ->
  pool_safe (places cg K) (size cg) init (fun b => total cg K -> b = false) s.
Proof.
  intros Hs HK HT Hj Hjw Hm R. induction R as [m n s P|m m' s R R' IH].
  - eapply psteps_safe; [|exact P]. apply start_safe; assumption.
  - apply IH. apply (round_safe cg K sc wb bound jobs m init true m' Hs HK HT Hj Hjw Hm R).
Qed.

(** The two sets of interest: none and the nodes of a labeling. *)
Definition no_node : node -> Prop := fun _ => False.
Lemma no_support cg : support cg no_node. Proof. intros n []. Qed.

Lemma good_none cg m init : mem_ok cg m -> sub m init -> good (places cg no_node) (size cg) init m.
Proof. intros H1 H2. split; [exact H1|]. split; [|exact H2]. intros i _ [n [_ [[] _]]]. Qed.

Lemma good_labels cg k m : static cg -> mem_ok cg m -> holds cg (label_set cg k) m ->
  good (places cg (label_set cg k)) (size cg) m m.
Proof.
  intros Hs Hm Hh. split; [exact Hm|]. split; [|apply sub_refl].
  intros i _ [n [_ [Kn <-]]]. apply Hh. exact Kn.
Qed.

Lemma good_holds cg k m init : static cg -> labeling_ok (G cg) k ->
  good (places cg (label_set cg k)) (size cg) init m -> holds cg (label_set cg k) m.
Proof.
  intros Hs Hk [Lm [Km _]] n Kn.
  assert (Hn : inb cg n).
  { rewrite (label_set_node cg k n Kn). apply match_inb, Hk. apply Kn. }
  apply Km; [apply idx_size; assumption|]. exists n. auto.
Qed.

Lemma labels_set cg k : wf_cgraph cg -> solution cg k ->
  support cg (label_set cg k) /\ good (places cg (label_set cg k)) (size cg) (cg_avail cg) (cg_avail cg).
Proof.
  intros Hc [S1 [S2 S3]]. pose proof (wf_static cg Hc) as Hs. pose proof (wfc_avail cg Hc) as Hm.
  split; [apply label_support; assumption|]. apply good_labels; try assumption.
  apply label_holds; try assumption. rewrite with_avail_same. exact S2.
Qed.

Lemma good_solution cg k m init : wf_cgraph cg -> solution cg k ->
  good (places cg (label_set cg k)) (size cg) init m -> solution (with_avail cg m) k.
Proof.
  intros Hc [S1 [S2 S3]] Hg. pose proof (wf_static cg Hc) as Hs.
  split; [exact S1|]. split; [|exact S3].
  apply (label_holds cg k m Hs (proj1 Hg) S1). apply (good_holds cg k m init); assumption.
Qed.

Lemma jobs_safe cg sc wb bound jobs s : wf_cgraph cg -> 1 <= jobs -> Ht cg + jobs < wmod T ->
  reached cg sc wb bound jobs (cg_avail cg) s ->
  let cg' := with_avail cg (current (history s)) in
  wf_cgraph cg' /\ same_problem cg cg' /\
  (forall t, In t (threads s) -> ~ faulty (current (history s)) t /\
     ((exists r, t = Run (Ret r)) \/ exists t' h', tstep sc wb t (history s) t' h')) /\
  (forall n, in_image (G cg) (npix n) -> disp n < Lv cg -> available cg' n -> available cg n) /\
  (forall k, solution cg k -> solution cg' k).
Proof.
  intros Hc Hj Hjw R. cbv zeta. pose proof (wf_static cg Hc) as Hs. pose proof (wfc_avail cg Hc) as Hm.
  pose proof (reached_safe cg no_node sc wb bound jobs _ (cg_avail cg) s Hs (no_support cg)
    (or_intror (fun n H => H)) Hj Hjw (good_none cg _ _ Hm (sub_refl _)) R) as P.
  pose proof (good_current _ _ _ _ (proj2 P)) as [Lm [_ Sm]].
  split; [apply static_wf; assumption|]. split; [apply same_with; assumption|]. split; [|split].
  - intros t Ht. pose proof (safe_not_faulty _ _ _ _ s t P Ht) as F. split; [exact F|].
    apply progress; [apply (proj1 (proj2 P))|exact F].
  - intros n Hn Hd A. eapply sub_available; eassumption.
  - intros k Sk. destruct (labels_set cg k Hc Sk) as [S1 S2].
    pose proof (reached_safe cg (label_set cg k) sc wb bound jobs _ (cg_avail cg) s Hs S1
      (or_introl (label_total cg k)) Hj Hjw S2 R) as P'.
    eapply good_solution; try eassumption. apply good_current. apply (proj2 P').
Qed.

Lemma jobs_keep_solution cg sc wb bound jobs k b cg' : wf_cgraph cg -> 1 <= jobs -> Ht cg + jobs < wmod T ->
  solution cg k -> solves cg sc wb bound jobs b cg' -> b = true /\ solution cg' k.
Proof.
  intros Hc Hj Hjw Sk [n [m [R [-> E]]]]. pose proof (wf_static cg Hc) as Hs.
  destruct (labels_set cg k Hc Sk) as [S1 S2].
  pose proof (rounds_safe cg (label_set cg k) sc wb bound jobs n _ _ m Hs S1 (or_introl (label_total cg k)) Hj Hjw S2 R) as Hg.
  split; [|eapply good_solution; eassumption].
  rewrite run_check_nodes in E; [|assumption|apply Hg]. injection E as <-.
  apply any_bit. pose proof (origin_in cg Hs) as O.
  assert (Kn : label_set cg k (label_node k {| px := 0; py := 0 |})) by (split; [exact O|reflexivity]).
  exists (node_index (G cg) (label_node k {| px := 0; py := 0 |})). split.
  - apply idx_lt; [exact Hs|apply Hg|]. apply match_inb. apply (proj1 (proj1 Sk)). exact O.
  - apply (good_holds cg k m (cg_avail cg)); try assumption. apply Sk.
Qed.

Lemma jobs_only_remove cg sc wb bound jobs b cg' : wf_cgraph cg -> 1 <= jobs -> Ht cg + jobs < wmod T ->
  solves cg sc wb bound jobs b cg' ->
  wf_cgraph cg' /\ same_problem cg cg' /\
  forall n, in_image (G cg) (npix n) -> disp n < Lv cg -> available cg' n -> available cg n.
Proof.
  intros Hc Hj Hjw [n [m [R [-> E]]]]. pose proof (wf_static cg Hc) as Hs. pose proof (wfc_avail cg Hc) as Hm.
  pose proof (rounds_safe cg no_node sc wb bound jobs n _ (cg_avail cg) m Hs (no_support cg)
    (or_intror (fun n H => H)) Hj Hjw (good_none cg _ _ Hm (sub_refl _)) R) as [Lm [_ Sm]].
  split; [apply static_wf; assumption|]. split; [apply same_with; assumption|].
  intros x Hn Hd A. eapply sub_available; eassumption.
Qed.
End Graph.
