(** Several jobs on sequentially consistent memory whose elements are stored one
    by one: termination and results. *)
From Verif Require Export Jobs_proofs.
Local Open Scope N_scope.

Lemma store_one i b w m : i < len m -> store_word 1 i b w m = upd m (N.to_nat i) b.
Proof.
  intros Hi. apply mem_ext; [rewrite len_store, len_upd; reflexivity|].
  intros j Hj. rewrite len_store in Hj. rewrite bit_store, bit_upd by exact Hi.
  rewrite !N.div_1_r. destruct (N.ltb_spec j (len m)); [|lia]. destruct (j =? i); reflexivity.
Qed.

(** *** Assertions that other threads cannot invalidate *)

Definition dec (m m' : mem) : Prop := len m' = len m /\ sub m' m.
Lemma dec_refl m : dec m m. Proof. split; [reflexivity|apply sub_refl]. Qed.
Lemma dec_trans a b c : dec a b -> dec b c -> dec a c.
Proof. intros [L1 S1] [L2 S2]. split; [congruence|eapply sub_trans; eassumption]. Qed.
Lemma dec_clear m i : i < len m -> dec m (upd m (N.to_nat i) false).
Proof.
  intros Hi. split; [apply len_upd|]. intros j. rewrite bit_upd by exact Hi. destruct (j =? i); [discriminate|auto].
Qed.

Definition stable (R : mem -> mem -> Prop) (P : mem -> Prop) : Prop := forall m m', P m -> R m m' -> P m'.

(** What a program knows while others change the memory by [R]; its own changes
    clear elements. *)
Fixpoint knows (R : mem -> mem -> Prop) (n : N) {A} (P : mem -> Prop) (c : cmd A) (Q : A -> mem -> Prop) : Prop :=
  match c with
  | Ret a => forall m, P m -> Q a m
  | Fail _ => False
  | Read i k => i < n /\
      forall b, knows R n (fun m => exists m0, P m0 /\ bit m0 i = b /\ R m0 m) (k b) Q
  | Write i b k => i < n /\ b = false /\
      knows R n (fun m => exists m0, P m0 /\ R (upd m0 (N.to_nat i) false) m) k Q
  end.

Section Knows.
Variables (R : mem -> mem -> Prop) (n : N).

Lemma knows_mono {A} (c : cmd A) : forall (P P' : mem -> Prop) (Q Q' : A -> mem -> Prop),
  (forall m, P' m -> P m) -> (forall a m, Q a m -> Q' a m) -> knows R n P c Q -> knows R n P' c Q'.
Proof.
  induction c as [a|s|i k IH|i b k IH]; intros P P' Q Q' HP HQ; cbn [knows].
  - auto.
  - auto.
  - intros [Hi H]. split; [exact Hi|]. intros b. eapply IH; [|exact HQ|apply H].
    cbv beta. intros m [m0 [H1 H2]]. exists m0. auto.
  - intros [Hi [Hb H]]. split; [exact Hi|]. split; [exact Hb|]. eapply IH; [|exact HQ|apply H].
    cbv beta. intros m [m0 [H1 H2]]. exists m0. auto.
Qed.

Lemma knows_bind {A B} (c : cmd A) (f : A -> cmd B) Q' : forall (P : mem -> Prop) Q,
  knows R n P c Q -> (forall a, knows R n (Q a) (f a) Q') -> knows R n P (cbind c f) Q'.
Proof.
  induction c as [a|s|i k IH|i b k IH]; intros P Q H Hf; cbn [knows cbind] in *.
  - eapply knows_mono; [|intros x m Hx; exact Hx|apply (Hf a)]. exact H.
  - destruct H.
  - destruct H as [Hi H]. split; [exact Hi|]. intros b. eapply IH; [apply H|exact Hf].
  - destruct H as [Hi [Hb H]]. split; [exact Hi|]. split; [exact Hb|]. eapply IH; [apply H|exact Hf].
Qed.

Lemma knows_cloop {A S} (I : list A -> S -> mem -> Prop) (l done : list A) body s :
  (forall pre a post s, l = pre ++ a :: post ->
     knows R n (I (done ++ pre) s) (body a s) (I (done ++ pre ++ [a]))) ->
  knows R n (I done s) (cloop l body s) (I (done ++ l)).
Proof.
  revert done s. induction l as [|a l IH]; intros done s Hb; cbn [cloop knows].
  - rewrite app_nil_r. auto.
  - eapply knows_bind.
    + pose proof (Hb [] a l s eq_refl) as H. rewrite app_nil_r in H. exact H.
    + cbn [app]. intros s'. replace (done ++ a :: l) with ((done ++ [a]) ++ l) by (rewrite <- app_assoc; reflexivity).
      apply IH. intros pre x post s1 El. rewrite <- !app_assoc. cbn [app].
      exact (Hb (a :: pre) x post s1 (f_equal (cons a) El)).
Qed.

(** A search that stops at the first success; [I] collects what is known about the
    failures. *)
Lemma knows_cexists {A} (I : list A -> mem -> Prop) (Q : mem -> Prop) (l done : list A) (test : A -> cmd bool) :
  (forall pre a post, l = pre ++ a :: post ->
     knows R n (I (done ++ pre)) (test a) (fun b m => if b then Q m else I (done ++ pre ++ [a]) m)) ->
  knows R n (I done) (cexists l test) (fun b m => if b then Q m else I (done ++ l) m).
Proof.
  revert done. induction l as [|a l IH]; intros done Hb; cbn [cexists knows].
  - rewrite app_nil_r. auto.
  - eapply knows_bind.
    + pose proof (Hb [] a l eq_refl) as H. rewrite app_nil_r in H. exact H.
    + cbn [app]. intros b. cbv beta. destruct b; [cbn [knows]; auto|].
      replace (done ++ a :: l) with ((done ++ [a]) ++ l) by (rewrite <- app_assoc; reflexivity).
      apply IH. intros pre x post El. rewrite <- !app_assoc. cbn [app].
      exact (Hb (a :: pre) x post (f_equal (cons a) El)).
Qed.

(** Programs that stay inside the array keep stable assertions. *)
Lemma safe_knows {A} (Q : A -> Prop) c (P : mem -> Prop) :
  stable R P -> (forall m i, P m -> i < n -> P (upd m (N.to_nat i) false)) ->
  safe (fun _ => False) n Q c -> knows R n P c (fun a m => Q a /\ P m).
Proof.
  intros HP HC S. induction S as [a Ha|i k Hi Hk IH|i k Hi _ S IH]; cbn [knows].
  - auto.
  - split; [exact Hi|]. intros b. eapply knows_mono; [|intros a m Hx; exact Hx|apply (IH b)].
    + cbv beta. intros m [m0 [H1 [_ H2]]]. eapply HP; eassumption.
    + intros [].
  - split; [exact Hi|]. split; [reflexivity|]. eapply knows_mono; [|intros a m Hx; exact Hx|apply IH].
    cbv beta. intros m [m0 [H1 H2]]. eapply HP; [|exact H2]. apply HC; assumption.
Qed.
End Knows.

(** *** Pools *)

Section Pool.
Variable n : N.
Context {A : Type}.

Definition tknows (P : mem -> Prop) (t : thread A) (Q : A -> mem -> Prop) : Prop :=
  match t with
  | Run c => knows dec n P c Q
  | Store i b w k => knows dec n P (Write i b k) Q
  end.

(** All threads know something true. *)
Definition pool_knows (Q : A -> mem -> Prop) (s : pool A) : Prop :=
  history s <> [] /\ len (current (history s)) = n /\
  forall t, In t (threads s) -> exists P, stable dec P /\ P (current (history s)) /\ tknows P t Q.

Lemma tstep_knows (P : mem -> Prop) Q t h t' h' : tstep true 1 t h t' h' -> len (current h) = n ->
  stable dec P -> P (current h) -> tknows P t Q ->
  len (current h') = n /\ dec (current h) (current h') /\ h' <> [] /\
  exists P', stable dec P' /\ P' (current h') /\ tknows P' t' Q.
Proof.
  intros St L HP Hc Kt. destruct St as [i k h w b Lo Gt|i b k h w Lo Hi|i b w k h]; cbn [tknows] in *.
  - destruct Kt as [Hi Kt]. cbn [loads] in Lo. subst w.
    split; [exact L|]. split; [apply dec_refl|]. split.
    { intros ->. cbn [current hd] in Gt. unfold get in Gt. rewrite (proj2 (N.ltb_ge _ _)) in Gt; [discriminate|]. 
      unfold len; cbn [length]. lia. }
    exists (fun m => exists m0, P m0 /\ bit m0 i = b /\ dec m0 m). split; [|split].
    + intros m m' [m0 [H1 [H2 H3]]] H4. exists m0. split; [exact H1|]. split; [exact H2|eapply dec_trans; eassumption].
    + exists (current h). split; [exact Hc|]. split; [apply bit_get_Ok; exact Gt|apply dec_refl].
    + apply Kt.
  - split; [exact L|]. split; [apply dec_refl|]. split.
    { intros ->. cbn [current hd] in Hi. unfold len in Hi; cbn [length] in Hi. lia. }
    exists P. auto.
  - cbn [knows] in Kt. destruct Kt as [Hi [-> Kt]]. cbn [current hd].
    fold (current h). rewrite store_one by lia. rewrite len_upd.
    split; [exact L|]. split; [apply dec_clear; lia|]. split; [discriminate|].
    exists (fun m => exists m0, P m0 /\ dec (upd m0 (N.to_nat i) false) m). split; [|split].
    + intros m m' [m0 [H1 H2]] H3. exists m0. split; [exact H1|eapply dec_trans; eassumption].
    + exists (current h). split; [exact Hc|apply dec_refl].
    + exact Kt.
Qed.

Lemma pstep_knows Q s s' : pool_knows Q s -> pstep true 1 s s' -> pool_knows Q s'.
Proof.
  intros [H1 [H2 H3]] St. destruct St as [j ts t t' h h' E Hs]. cbn [threads history] in *.
  destruct (H3 t (nth_error_In _ _ E)) as [P [HP [Hc Kt]]].
  destruct (tstep_knows P Q t h t' h' Hs H2 HP Hc Kt) as [L [D [Ne [P' [HP' [Hc' Kt']]]]]].
  split; [exact Ne|]. split; [exact L|]. cbn [threads history]. intros x Hx. apply In_upd in Hx.
  destruct Hx as [->|Hx]; [exists P'; auto|].
  destruct (H3 x Hx) as [Px [HPx [Hcx Kx]]]. exists Px. split; [exact HPx|]. split; [|exact Kx].
  eapply HPx; eassumption.
Qed.

Lemma psteps_knows Q k s s' : pool_knows Q s -> psteps true 1 k s s' -> pool_knows Q s'.
Proof. intros H P. induction P; [exact H|]. apply IHP. eapply pstep_knows; eassumption. Qed.

Lemma ended_knows Q s r : pool_knows Q s -> In (Run (Ret r)) (threads s) -> Q r (current (history s)).
Proof. intros [_ [_ H]] I. destruct (H _ I) as [P [_ [Hc K]]]. cbn [tknows knows] in K. apply K. exact Hc. Qed.
End Pool.

Section Graph.
Context {T : target}.
Implicit Type cg : cgraph T.
Notation G cg := (cg_graph cg).
Notation Wd cg := (width (right (cg_graph cg))).
Notation Ht cg := (height (right (cg_graph cg))).
Notation Lv cg := (levels (cg_graph cg)).

Definition all_false (m : mem) : Prop := forall i, bit m i = false.

Lemma all_false_stable : stable dec all_false.
Proof.
  intros m m' H [_ S] i. destruct (bit m' i) eqn:E; [|reflexivity]. apply S in E. rewrite H in E. discriminate.
Qed.

Lemma bit_false_dec m m' i : bit m i = false -> dec m m' -> bit m' i = false.
Proof. intros H [_ S]. destruct (bit m' i) eqn:E; [|reflexivity]. apply S in E. congruence. Qed.

Lemma all_false_range n m : len m = n -> (forall i, In i (range 0 n) -> bit m i = false) -> all_false m.
Proof.
  intros L H i. destruct (N.lt_ge_cases i n) as [Hi|Hi]; [apply H; apply In_range; lia|apply bit_oob; lia].
Qed.

Definition sized cg (m : mem) : Prop := len m = size cg.
Lemma sized_stable cg : stable dec (sized cg).
Proof. intros m m' H [L _]. unfold sized in *. congruence. Qed.
Lemma sized_clear cg m i : sized cg m -> i < size cg -> sized cg (upd m (N.to_nat i) false).
Proof. intros H _. unfold sized. rewrite len_upd. exact H. Qed.

Lemma knows_check cg : static cg ->
  knows dec (size cg) (sized cg) (check_nodes_left cg) (fun b m => sized cg m /\ (b = false -> all_false m)).
Proof.
  intros Hs. unfold check_nodes_left. rewrite (count_size cg Hs).
  eapply knows_mono; [| |apply (knows_cexists dec (size cg)
    (fun is m => sized cg m /\ forall i, In i is -> bit m i = false) (sized cg) _ [])].
  - intros m H. split; [exact H|intros i []].
  - cbv beta. intros b m H. destruct b; [split; [exact H|discriminate]|]. destruct H as [L H].
    split; [exact L|]. intros _. eapply all_false_range; [exact L|exact H].
  - cbn [app]. intros pre i post E. cbn [knows].
    assert (Hi : In i (range 0 (size cg))) by (rewrite E; apply in_elt). apply In_range in Hi.
    split; [lia|]. intros b m [m0 [[L H] [Eb D]]].
    assert (Lm : sized cg m) by (eapply sized_stable; eassumption).
    destruct b; [exact Lm|]. split; [exact Lm|]. intros j Hj. apply in_app_iff in Hj.
    destruct Hj as [Hj|[<-|[]]]; eapply bit_false_dec; eauto.
Qed.

Lemma knows_make_all cg : static cg ->
  knows dec (size cg) (sized cg) (make_all_nodes_unavailable cg) (fun _ m => all_false m).
Proof.
  intros Hs. unfold make_all_nodes_unavailable. rewrite (count_size cg Hs).
  eapply knows_mono; [| |apply (knows_cloop dec (size cg)
    (fun is _ m => sized cg m /\ forall i, In i is -> bit m i = false) _ [])].
  - intros m H. split; [exact H|intros i []].
  - cbv beta. intros _ m [L H]. eapply all_false_range; [exact L|exact H].
  - cbn [app]. intros pre i post _ E. cbn [knows].
    assert (Hi : In i (range 0 (size cg))) by (rewrite E; apply in_elt). apply In_range in Hi.
    split; [lia|]. split; [reflexivity|]. intros m [m0 [[L H] D]].
    assert (Li : i < len m0) by (unfold sized in L; lia).
    split; [eapply sized_stable; [|exact D]; apply sized_clear; [exact L|lia]|].
    intros j Hj. eapply bit_false_dec; [|exact D]. rewrite bit_upd by exact Li.
    destruct (N.eqb_spec j i) as [->|Hne]; [reflexivity|]. apply in_app_iff in Hj.
    destruct Hj as [Hj|[->|[]]]; [apply H; exact Hj|contradiction].
Qed.

Lemma safe_anything cg {A} (Q : A -> Prop) c :
  safe (places cg no_node) (size cg) Q c -> safe (fun _ => False) (size cg) Q c.
Proof.
  intros S. induction S as [a Ha|i k Hi Hk IH|i k Hi _ S IH]; constructor; auto.
  intros b _. apply IH. intros [n [_ [[] _]]].
Qed.

(** A job that reports a change has removed everything. *)
Lemma knows_iteration cg jobs job : static cg -> 1 <= jobs -> Ht cg + jobs < wmod T ->
  knows dec (size cg) (sized cg) (csp_solution_iteration cg jobs job) (fun b m => b = true -> all_false m).
Proof.
  intros Hs Hj Hjw. unfold csp_solution_iteration.
  destruct (N.leb_spec (Ht cg) job) as [Hh|Hh]; [cbn [knows]; discriminate|].
  eapply knows_bind.
  - eapply safe_knows with (P := sized cg); [apply sized_stable|apply sized_clear|].
    apply safe_anything. apply (safe_sweep_rows cg no_node Hs (no_support cg)); try assumption. lia.
  - cbv beta. intros pa. destruct pa; cbn [negb knows]; [discriminate|].
    eapply knows_bind; [eapply knows_mono; [| |apply (knows_check cg Hs)]|].
    + cbv beta. intros m H. apply H.
    + intros b m H. exact H.
    + cbv beta. intros c. destruct c; cbn [negb]; [|cbn [knows]; discriminate].
      eapply knows_bind; [eapply knows_mono; [| |apply (knows_make_all cg Hs)]|].
      * cbv beta. intros m H. apply H.
      * intros b m H. exact H.
      * intros u. cbn [knows]. auto.
Qed.

(** If there is no available node, no job reports a change. *)
Lemma knows_iteration_none cg jobs job : static cg -> 1 <= jobs -> Ht cg + jobs < wmod T ->
  knows dec (size cg) (fun m => sized cg m /\ all_false m) (csp_solution_iteration cg jobs job)
    (fun b _ => b = false).
Proof.
  intros Hs Hj Hjw. unfold csp_solution_iteration.
  destruct (N.leb_spec (Ht cg) job) as [Hh|Hh]; [cbn [knows]; reflexivity|].
  eapply knows_bind.
  - eapply safe_knows with (P := fun m => sized cg m /\ all_false m).
    + intros m m' [H1 H2] D. split; [eapply sized_stable; eassumption|eapply all_false_stable; eassumption].
    + intros m i [H1 H2] Hi. split; [apply sized_clear; assumption|]. intros j.
      rewrite bit_upd by (unfold sized in H1; lia). destruct (j =? i); auto.
    + apply safe_anything. apply (safe_sweep_rows cg no_node Hs (no_support cg)); try assumption. lia.
  - cbv beta. intros pa. destruct pa; cbn [negb knows]; [reflexivity|].
    eapply knows_bind with (Q := fun b _ => b = false).
    + unfold check_nodes_left. rewrite (count_size cg Hs).
      eapply knows_mono; [| |apply (knows_cexists dec (size cg)
        (fun _ m => all_false m) (fun _ => False) _ [])].
      * cbv beta. intros m H. apply H.
      * cbv beta. intros b m H. destruct b; [contradiction|reflexivity].
      * cbn [app]. intros pre i post E. cbn [knows].
        assert (Hi : In i (range 0 (size cg))) by (rewrite E; apply in_elt). apply In_range in Hi.
        split; [lia|]. intros b m [m0 [H [Eb D]]]. rewrite (H i) in Eb. subst b.
        eapply all_false_stable; eassumption.
    + cbv beta. intros c. destruct c; cbn [negb].
      * eapply knows_bind with (Q := fun _ _ => False).
        -- eapply knows_mono; [| |apply (safe_knows dec (size cg) (fun _ => True) _ (fun _ => False))].
           ++ cbv beta. intros m H. discriminate.
           ++ cbv beta. intros _ m [_ H]. exact H.
           ++ intros m m' [].
           ++ intros m i [].
           ++ apply safe_anything. apply (safe_make_all cg no_node Hs). intros n [].
        -- intros _. cbn [knows]. intros m [].
      * cbn [knows]. auto.
Qed.

Lemma start_knows cg bound jobs m P Q : sized cg m -> stable dec P -> P m ->
  (forall i, knows dec (size cg) P (csp_solution_iteration cg jobs i) Q) ->
  pool_knows (size cg) Q (round_start cg bound jobs m).
Proof.
  intros L HP Hm HK. split; [discriminate|]. split; [exact L|]. cbn [round_start threads history current hd].
  intros t Ht. apply in_map_iff in Ht. destruct Ht as [i [<- _]]. exists P. cbn [tknows]. auto.
Qed.

Lemma round_changed cg bound jobs m m' : static cg -> 1 <= jobs -> Ht cg + jobs < wmod T -> mem_ok cg m ->
  round cg true 1 bound jobs m true m' -> mem_ok cg m' /\ all_false m'.
Proof.
  intros Hs Hj Hjw Hm [n [s [P [rs [E1 [E2 E3]]]]]].
  assert (K : pool_knows (size cg) (fun b m => b = true -> all_false m) s).
  { eapply psteps_knows; [|exact P]. apply (start_knows cg bound jobs m (sized cg)); [exact Hm|apply sized_stable|exact Hm|].
    intros i. apply knows_iteration; assumption. }
  subst m'. split; [apply K|]. symmetry in E2. apply existsb_exists in E2. destruct E2 as [r [Hr ->]].
  apply (ended_knows (size cg) _ s true K); [|reflexivity]. rewrite E1. apply (in_map (fun r => Run (Ret r)) rs true Hr).
Qed.

Lemma round_none cg bound jobs m ch m' : static cg -> 1 <= jobs -> Ht cg + jobs < wmod T -> mem_ok cg m -> all_false m ->
  round cg true 1 bound jobs m ch m' -> ch = false.
Proof.
  intros Hs Hj Hjw Hm Hf [n [s [P [rs [E1 [E2 E3]]]]]].
  assert (K : pool_knows (size cg) (fun b m => b = false) s).
  { eapply psteps_knows; [|exact P].
    apply (start_knows cg bound jobs m (fun m => sized cg m /\ all_false m)); [exact Hm| |split; assumption|].
    - intros a b [H1 H2] D. split; [eapply sized_stable; eassumption|eapply all_false_stable; eassumption].
    - intros i. apply knows_iteration_none; assumption. }
  subst ch. destruct (existsb (fun r => r) rs) eqn:E; [|reflexivity]. apply existsb_exists in E. destruct E as [r [Hr ->]].
  pose proof (ended_knows (size cg) _ s true K) as X. rewrite E1 in X.
  specialize (X (in_map (fun r => Run (Ret r)) rs true Hr)). discriminate.
Qed.

Lemma jobs_terminate cg bound jobs : wf_cgraph cg -> 1 <= jobs -> Ht cg + jobs < wmod T ->
  (forall sc wb m, exists steps, forall n s, psteps sc wb n (round_start cg bound jobs m) s -> (n <= steps)%nat) /\
  (forall m1 m2, round cg true 1 bound jobs (cg_avail cg) true m1 -> ~ round cg true 1 bound jobs m1 true m2) /\
  (forall n m, rounds cg true 1 bound jobs n (cg_avail cg) m -> (n <= 2)%nat).
Proof.
  intros Hc Hj Hjw. pose proof (wf_static cg Hc) as Hs. pose proof (wfc_avail cg Hc) as Hm.
  assert (Two : forall m1 m2, round cg true 1 bound jobs (cg_avail cg) true m1 -> ~ round cg true 1 bound jobs m1 true m2).
  { intros m1 m2 R1 R2. destruct (round_changed cg bound jobs _ m1 Hs Hj Hjw Hm R1) as [L1 F1].
    pose proof (round_none cg bound jobs m1 true m2 Hs Hj Hjw L1 F1 R2). discriminate. }
  split; [|split].
  - intros sc wb m. eexists. intros n s P. exact (psteps_depth sc wb n _ s P).
  - exact Two.
  - intros n m R. inversion R as [a b R1|n' a m1 b R1 R2]; subst; [lia|].
    inversion R2 as [a b R3|n'' a m2 b R3 R4]; subst; [lia|].
    exfalso. eapply Two; eassumption.
Qed.
End Graph.
