(** One group, barriers that wait for all work-items, sequentially consistent
    memory: a launch that ends has reached arc consistency. *)
From Verif Require Export Gpu_spec Gpu_proofs.
Local Open Scope N_scope.

(** *** Programs that return true after a change *)

Fixpoint readonly {A} (c : cmd A) : Prop :=
  match c with
  | Ret _ | Fail _ => True
  | Read _ k => forall b, readonly (k b)
  | Write _ _ _ => False
  end.

Lemma readonly_bind {A B} (c : cmd A) (f : A -> cmd B) : readonly c -> (forall r, readonly (f r)) -> readonly (cbind c f).
Proof. intros H Hf. induction c as [r|s|i k IH|i b k IH]; cbn [readonly cbind] in *; auto. Qed.

Lemma readonly_cexists {A} (l : list A) test : (forall x, readonly (test x)) -> readonly (cexists l test).
Proof.
  intros H. induction l as [|x l IH]; cbn [cexists]; [exact I|]. apply readonly_bind; [apply H|].
  intros b. destruct b; [exact I|exact IH].
Qed.

Lemma readonly_lift {A} (o : outcome A) : readonly (lift o).
Proof. destruct o; exact I. Qed.

(** All results are true. *)
Fixpoint must (c : cmd bool) : Prop :=
  match c with
  | Ret r => r = true
  | Fail _ => True
  | Read _ k => forall b, must (k b)
  | Write _ _ k => must k
  end.
(** All results after a change are true. *)
Fixpoint wmust (c : cmd bool) : Prop :=
  match c with
  | Ret _ | Fail _ => True
  | Read _ k => forall b, wmust (k b)
  | Write _ _ k => must k
  end.
Definition tmust (t : thread bool) : Prop :=
  match t with Run c => must c | Store _ _ _ k => must k end.
Definition twmust (t : thread bool) : Prop :=
  match t with Run c => wmust c | Store _ _ _ k => must k end.

Lemma must_bind {A} (c : cmd A) f : (forall r, must (f r)) -> must (cbind c f).
Proof. intros H. induction c as [r|s|i k IH|i b k IH]; cbn [must cbind]; auto. Qed.
Lemma wmust_bind {A} (c : cmd A) f : readonly c -> (forall r, wmust (f r)) -> wmust (cbind c f).
Proof. intros R H. induction c as [r|s|i k IH|i b k IH]; cbn [wmust cbind readonly] in *; auto. destruct R. Qed.
Lemma must_wmust c : must c -> wmust c.
Proof. induction c as [r|s|i k IH|i b k IH]; cbn [must wmust]; auto. Qed.

Lemma tstep_must sc t h t' h' : tstep sc 1 t h t' h' -> tmust t -> tmust t'.
Proof. intros St. destruct St as [i k h w b _ _|i b k h w _ _|i b w k h]; cbn [tmust must]; auto. Qed.
Lemma tstep_wmust sc t h t' h' : tstep sc 1 t h t' h' -> twmust t -> twmust t'.
Proof.
  intros St. destruct St as [i k h w b _ _|i b k h w _ _|i b w k h]; cbn [twmust wmust]; auto.
  apply must_wmust.
Qed.

Section Graph.
Context {T : target}.
Implicit Type cg : cgraph T.
Notation G cg := (cg_graph cg).
Notation Wd cg := (width (right (cg_graph cg))).
Notation Ht cg := (height (right (cg_graph cg))).
Notation Lv cg := (levels (cg_graph cg)).
Notation nd p d := {| npix := p; disp := d |}.

Lemma readonly_should_remove cg n : readonly (should_remove_node cg n).
Proof.
  unfold should_remove_node. apply readonly_bind; [cbn; auto|]. intros a. destruct (negb a); [exact I|].
  apply readonly_cexists. intros k. destruct (negb (neighborhood_exists_fast (G cg) (npix n) k)); [exact I|].
  apply readonly_bind; [|intros r; exact I]. unfold has_edge_to. apply readonly_cexists. intros d.
  unfold is_edge_available. apply readonly_bind; [apply readonly_lift|]. intros v.
  apply readonly_bind; [apply readonly_lift|]. intros w. destruct (fle (fsub v w) (cg_threshold cg)); [|exact I].
  apply readonly_bind; [cbn; auto|]. intros b. destruct b; [|exact I].
  apply readonly_bind; [cbn; auto|]. intros b. destruct b; exact I.
Qed.

Lemma process_wmust cg p : wmust (csp_process_pixel cg p).
Proof.
  unfold csp_process_pixel.
  assert (M : forall ds, must (cloop ds (fun d changed =>
       let n := nd p d in rm <== should_remove_node cg n ;;
       if rm then _ <== make_node_unavailable cg n ;; Ret true else Ret changed) true)).
  { induction ds as [|d ds IH]; cbn [cloop]; [reflexivity|]. cbv zeta.
    assert (X : forall (c : cmd bool), must (cbind (cbind c (fun rm : bool => if rm then _ <== make_node_unavailable cg (nd p d) ;; Ret true else Ret true))
      (fun s' => cloop ds (fun d changed =>
       let n := nd p d in rm <== should_remove_node cg n ;;
       if rm then _ <== make_node_unavailable cg n ;; Ret true else Ret changed) s'))).
    { intros c. induction c as [r|s|i k IHc|i b k IHc]; cbn [cbind must]; auto. destruct r; exact IH. }
    apply X. }
  induction (disparities_right (G cg) (px p)) as [|d ds IH]; cbn [cloop]; [exact I|]. cbv zeta.
  pose proof (readonly_should_remove cg (nd p d)) as R. revert R.
  generalize (should_remove_node cg (nd p d)) as c. intros c R.
  induction c as [r|s|i k IHc|i b k IHc]; cbn [cbind wmust readonly] in *; auto; [|destruct R].
  destruct r; [|exact IH]. cbn [make_node_unavailable cbind wmust]. apply M.
Qed.

(** *** Passes without a change *)

Lemma process_false cg p m m' : static cg -> mem_ok cg m -> in_image (G cg) p ->
  run (csp_process_pixel cg p) m = Ok (false, m') ->
  m' = m /\ forall d, match_exists (G cg) (nd p d) -> rmvb cg m (nd p d) = false.
Proof.
  intros Hs Hm Hp. unfold csp_process_pixel.
  rewrite disparities_right_eq by (try apply Hp; apply Hs). fold (disps cg p).
  assert (Tr : forall ds m m' r, run (cloop ds (fun d changed =>
       let n := nd p d in rm <== should_remove_node cg n ;;
       if rm then _ <== make_node_unavailable cg n ;; Ret true else Ret changed) true) m = Ok (r, m') -> r = true).
  { induction ds as [|d ds IH]; intros m0 m1 r; cbn [cloop]; [cbn [run]; congruence|]. cbv zeta.
    rewrite cbind_assoc_run, cbind_assoc_run.
    destruct (run (should_remove_node cg (nd p d)) m0) as [[rm m2]|]; cbn [bind fst snd]; [|discriminate].
    destruct rm; cbn [make_node_unavailable cbind run].
    - destruct (set m2 (node_index (G cg) (nd p d)) false) as [m3|]; cbn [bind fst snd]; [apply IH|discriminate].
    - cbn [bind fst snd]. apply IH. }
  pose proof (dispsok_disps cg p Hs Hp) as Hd.
  assert (X : forall ds, dispsok cg p ds -> run (cloop ds (fun d changed =>
       let n := nd p d in rm <== should_remove_node cg n ;;
       if rm then _ <== make_node_unavailable cg n ;; Ret true else Ret changed) false) m = Ok (false, m') ->
     m' = m /\ forall d, In d ds -> rmvb cg m (nd p d) = false).
  { induction ds as [|d ds IH]; intros Hds E; cbn [cloop] in E.
    - cbn [run] in E. split; [congruence|intros d []].
    - cbv zeta in E. rewrite cbind_assoc_run, cbind_assoc_run in E.
      assert (Hn : inb cg (nd p d)) by (apply Hds; left; reflexivity).
      rewrite run_should_remove in E by assumption. cbn [bind fst snd] in E.
      destruct (rmvb cg m (nd p d)) eqn:Er.
      + rewrite cbind_assoc_run, run_clear in E by assumption. cbn [bind fst snd run] in E.
        apply Tr in E. discriminate.
      + cbn [run bind fst snd] in E. destruct IH as [-> IH]; [intros x Hx; apply Hds; right; exact Hx|exact E|].
        split; [reflexivity|]. intros x [<-|Hx]; [exact Er|apply IH; exact Hx]. }
  intros E. destruct (X (disps cg p) Hd E) as [-> Y]. split; [reflexivity|].
  intros d M. apply Y. apply disps_In; assumption.
Qed.

Lemma process_quiet cg p m : static cg -> mem_ok cg m -> in_image (G cg) p ->
  (forall d, match_exists (G cg) (nd p d) -> rmvb cg m (nd p d) = false) ->
  run (csp_process_pixel cg p) m = Ok (false, m).
Proof.
  intros Hs Hm Hp. unfold csp_process_pixel.
  rewrite disparities_right_eq by (try apply Hp; apply Hs). fold (disps cg p).
  pose proof (dispsok_disps cg p Hs Hp) as Hd. intros Q.
  assert (Q' : forall d, In d (disps cg p) -> rmvb cg m (nd p d) = false) by (intros d X; apply Q, disps_In; assumption).
  clear Q. induction (disps cg p) as [|d ds IH]; cbn [cloop]; [reflexivity|]. cbv zeta.
  rewrite cbind_assoc_run, cbind_assoc_run, run_should_remove by (try assumption; apply Hd; left; reflexivity).
  cbn [bind fst snd]. rewrite Q' by (left; reflexivity). cbn [run bind fst snd]. apply IH.
  - intros x Hx. apply Hd. right; exact Hx.
  - intros x Hx. apply Q'. right; exact Hx.
Qed.

Section Group.
Variables (cg : cgraph T) (a : api) (group : nat -> nat) (ms : mem).
Hypothesis Hs : static cg.
Hypothesis Hg : one_group group.

(** *** Barriers of one group *)

Lemma pass_all who k l : (forall i x, nth_error l i = Some x -> who (k + i)%nat = true) ->
  pass cg who k l = map (fun x => (fst x, behind cg (fst x) (snd x))) l.
Proof.
  revert k. induction l as [|[p ph] l IH]; intros k H; cbn [pass map fst snd]; [reflexivity|].
  pose proof (H 0%nat _ eq_refl) as H0. rewrite Nat.add_0_r in H0. rewrite H0, IH; [reflexivity|].
  intros i x E. replace (S k + i)%nat with (k + S i)%nat by lia. apply (H (S i) x E).
Qed.

Lemma barrier_all kind b who l : kind <> Absent -> may_pass kind group b who l -> (forall p, ~ In (p, Done) l) ->
  l <> [] /\ (forall p ph, In (p, ph) l -> ph = b) /\ pass cg who 0 l = map (fun x => (fst x, behind cg (fst x) (snd x))) l.
Proof.
  intros Hk [[i [[p ph] [Ei Wi]]] [H1 H2]] ND.
  assert (All : forall j x, nth_error l j = Some x -> who j = true).
  { intros j [q phq] Ej. specialize (H2 i j p ph q phq Ei Wi Ej (Hg j i)).
    destruct kind; [exact H2| |contradiction]. destruct H2 as [H2| ->]; [exact H2|].
    exfalso. apply (ND q). eapply nth_error_In; exact Ej. }
  split; [intros ->; destruct i; discriminate|]. split.
  + intros q phq Hq. apply In_nth_error in Hq. destruct Hq as [j Ej]. eapply H1; [exact Ej|eapply All; exact Ej].
  + apply pass_all. intros j x Ej. apply (All j x Ej).
Qed.

Lemma barrier_strict b who l : b = First \/ b = Second -> may_pass Strict group b who l ->
  l <> [] /\ (forall p ph, In (p, ph) l -> ph = b) /\ pass cg who 0 l = map (fun x => (fst x, behind cg (fst x) (snd x))) l.
Proof.
  intros Hb M. apply (barrier_all Strict); [discriminate|exact M|].
  intros p Hp. apply In_nth_error in Hp. destruct Hp as [j Ej]. destruct M as [[i [[q phq] [Ei Wi]]] [H1 H2]].
  pose proof (H1 j p Done Ej (H2 i j q phq p Done Ei Wi Ej (Hg j i))) as X. subst b. destruct Hb; discriminate.
Qed.

(** *** The stages of a launch *)

Definition some (l : list (pixel * phase)) (Q : phase -> Prop) : Prop :=
  exists j p ph, nth_error l j = Some (p, ph) /\ Q ph.
Definition all (l : list (pixel * phase)) (Q : pixel -> phase -> Prop) : Prop :=
  forall p ph, In (p, ph) l -> Q p ph.

Definition s_start (_ : pixel) (ph : phase) : Prop :=
  match ph with Enter | Enter2 | Reset | First => True | _ => False end.
Definition s_clean (m : mem) (p : pixel) (ph : phase) : Prop :=
  match ph with
  | Work (Run c) => run c m = run (csp_process_pixel cg p) m /\ wmust c
  | Second => run (csp_process_pixel cg p) m = Ok (false, m)
  | _ => False
  end.
Definition s_dirty (_ : pixel) (ph : phase) : Prop :=
  match ph with Work t => twmust t | MarkStep | MarkAny | Second => True | _ => False end.
Definition s_again (_ : pixel) (ph : phase) : Prop :=
  match ph with Test | Reset | First | Done => True | _ => False end.
Definition s_settled (_ : pixel) (ph : phase) : Prop :=
  match ph with Test | Done => True | _ => False end.
Definition passed_entry (ph : phase) : Prop := ph = Reset \/ ph = First.
Definition will_mark (ph : phase) : Prop := match ph with MarkStep => True | Work t => tmust t | _ => False end.
Definition will_mark_any (ph : phase) : Prop :=
  match ph with MarkStep | MarkAny => True | Work t => tmust t | _ => False end.

Inductive stage (l : list (pixel * phase)) (m : mem) (f : flags) : Prop :=
| Starting : all l s_start -> m = ms -> (some l (eq First) -> step_flag f = false) ->
    (a = OpenCL -> some l passed_entry -> any_flag f = false) -> stage l m f
| Clean : all l (s_clean m) -> step_flag f = false -> (a = OpenCL -> m = ms \/ any_flag f = true) -> stage l m f
| Dirty : all l s_dirty -> step_flag f = true \/ some l will_mark ->
    (a = OpenCL -> any_flag f = true \/ some l will_mark_any) -> stage l m f
| Again : all l s_again ->
    (step_flag f = true /\ ~ some l (eq First) /\ ~ some l (eq Done)) \/ (step_flag f = false /\ some l (eq First)) ->
    (a = OpenCL -> any_flag f = true) -> stage l m f
| Settled : all l s_settled -> step_flag f = false ->
    (forall p ph, In (p, ph) l -> run (csp_process_pixel cg p) m = Ok (false, m)) ->
    (a = OpenCL -> m = ms \/ any_flag f = true) -> stage l m f.

Lemma all_upd l i v (Q : pixel -> phase -> Prop) : all l Q -> Q (fst v) (snd v) -> all (upd l i v) Q.
Proof. intros H Hv p ph Hp. apply In_upd in Hp. destruct Hp as [<-|Hp]; [exact Hv|apply H; exact Hp]. Qed.

Lemma some_new l i p ph ph' (Q : phase -> Prop) : nth_error l i = Some (p, ph) -> Q ph' -> some (upd l i (p, ph')) Q.
Proof. intros E H. exists i, p, ph'. split; [eapply nth_upd_same; exact E|exact H]. Qed.

Lemma some_keep l i p ph ph' (Q : phase -> Prop) : nth_error l i = Some (p, ph) -> some l Q -> (Q ph -> Q ph') ->
  some (upd l i (p, ph')) Q.
Proof.
  intros E [j [q [phq [Ej Hq]]]] H. destruct (Nat.eq_dec i j) as [<-|Hne].
  - rewrite E in Ej. injection Ej as -> ->. eapply some_new; [exact E|auto].
  - exists j, q, phq. split; [rewrite nth_upd_other by exact Hne; exact Ej|exact Hq].
Qed.

Lemma some_back l i p ph ph' (Q : phase -> Prop) : nth_error l i = Some (p, ph) -> some (upd l i (p, ph')) Q ->
  some l Q \/ Q ph'.
Proof.
  intros E [j [q [phq [Ej Hq]]]]. destruct (Nat.eq_dec i j) as [<-|Hne].
  - rewrite (nth_upd_same _ _ _ _ E) in Ej. injection Ej as -> ->. right; exact Hq.
  - rewrite nth_upd_other in Ej by exact Hne. left. exists j, q, phq. auto.
Qed.

Lemma all_some l Q R : all l Q -> some l R -> exists p ph, Q p ph /\ R ph.
Proof. intros H [j [p [ph [E X]]]]. exists p, ph. split; [apply H; eapply nth_error_In; exact E|exact X]. Qed.

Lemma stage_item l h f i p ph ph' h' f' : h <> [] -> nth_error l i = Some (p, ph) ->
  (forall t, ph = Work t -> ~ faulty (current h) t) ->
  (forall j b w k, ph = Work (Store j b w k) -> j < len (current h)) ->
  item_step a true ph h f ph' h' f' ->
  stage l (current h) f -> stage (upd l i (p, ph')) (current h') f'.
Proof.
  intros Hh E NF SI St Sg. pose proof (nth_error_In _ _ E) as Ip.
  destruct Sg as [A1 A2 A3 A4|A1 A2 A3|A1 A2 A3|A1 A2 A3|A1 A2 A3 A4]; pose proof (A1 p ph Ip) as Sp.
  - (* Starting *)
    destruct St as [h f|h f|h f|t t' h h' f St|r h f|h f|h f|b h f Hb]; cbn [s_start] in Sp; try contradiction.
    + apply Starting; [apply all_upd; [exact A1|exact I]|exact A2|reflexivity|]. cbn [any_flag].
      intros Ea X. apply A4; [exact Ea|]. apply (some_back _ _ _ _ _ _ E) in X. destruct X as [X|[X|X]]; [exact X|discriminate..].
    + apply Starting; [apply all_upd; [exact A1|exact I]|exact A2| |reflexivity]. cbn [step_flag].
      intros X. apply A3. apply (some_back _ _ _ _ _ _ E) in X. destruct X as [X|X]; [exact X|discriminate].
    + apply Starting; [apply all_upd; [exact A1|exact I]|exact A2|reflexivity|]. cbn [any_flag].
      intros Ea X. apply A4; [exact Ea|]. apply (some_back _ _ _ _ _ _ E) in X. destruct X as [X|X]; [exact X|].
      exists i, p, Reset. split; [exact E|left; reflexivity].
  - (* Clean *)
    destruct St as [h f|h f|h f|t t' h h' f St|r h f|h f|h f|b h f Hb]; cbn [s_clean] in Sp; try contradiction.
    + destruct St as [j k h w b Lo Gt|j b k h w Lo Hj|j b w k h]; [| |contradiction].
      * cbn [loads] in Lo. subst w. apply Clean; [|exact A2|exact A3]. apply all_upd; [exact A1|].
        cbn [fst snd s_clean]. destruct Sp as [Sr Sw]. cbn [run] in Sr. rewrite Gt in Sr. cbn [bind] in Sr.
        split; [exact Sr|apply Sw].
      * cbn [loads] in Lo. subst w. destruct Sp as [Sr Sw]. cbn [wmust] in Sw.
        apply Dirty.
        -- apply all_upd; [|exact Sw]. intros q phq Hq. specialize (A1 q phq Hq).
           destruct phq as [| | | |[c|]| | | | |]; cbn [s_clean] in A1; try contradiction; [apply A1|exact I].
        -- right. eapply some_new; [exact E|]. exact Sw.
        -- intros _. right. eapply some_new; [exact E|]. exact Sw.
    + destruct Sp as [Sr _]. cbn [run] in Sr. destruct r.
      * apply Dirty.
        -- apply all_upd; [|exact I]. intros q phq Hq. specialize (A1 q phq Hq).
           destruct phq as [| | | |[c|]| | | | |]; cbn [s_clean] in A1; try contradiction; [apply A1|exact I].
        -- right. eapply some_new; [exact E|exact I].
        -- intros _. right. eapply some_new; [exact E|exact I].
      * apply Clean; [|exact A2|exact A3]. apply all_upd; [exact A1|]. cbn [fst snd s_clean]. symmetry; exact Sr.
  - (* Dirty *)
    destruct St as [h f|h f|h f|t t' h h' f St|r h f|h f|h f|b h f Hb]; cbn [s_dirty] in Sp; try contradiction.
    + apply Dirty.
      * apply all_upd; [exact A1|]. exact (tstep_wmust _ _ _ _ _ St Sp).
      * destruct A2 as [A2|A2]; [left; exact A2|right]. eapply some_keep; [exact E|exact A2|]. exact (tstep_must _ _ _ _ _ St).
      * intros Ea. destruct (A3 Ea) as [X|X]; [left; exact X|right]. eapply some_keep; [exact E|exact X|].
        exact (tstep_must _ _ _ _ _ St).
    + apply Dirty.
      * apply all_upd; [exact A1|]. destruct r; exact I.
      * destruct A2 as [A2|A2]; [left; exact A2|right]. eapply some_keep; [exact E|exact A2|].
        cbn [will_mark tmust must]. intros ->. exact I.
      * intros Ea. destruct (A3 Ea) as [X|X]; [left; exact X|right]. eapply some_keep; [exact E|exact X|].
        cbn [will_mark_any tmust must]. intros ->. exact I.
    + apply Dirty.
      * apply all_upd; [exact A1|]. destruct a; exact I.
      * left. reflexivity.
      * intros Ea. cbn [any_flag]. destruct (A3 Ea) as [X|X]; [left; exact X|right].
        eapply some_new; [exact E|]. rewrite Ea. exact I.
    + apply Dirty.
      * apply all_upd; [exact A1|exact I].
      * cbn [step_flag]. destruct A2 as [A2|A2]; [left; exact A2|right]. eapply some_keep; [exact E|exact A2|]. intros [].
      * intros _. left. reflexivity.
  - (* Again *)
    destruct St as [h f|h f|h f|t t' h h' f St|r h f|h f|h f|b h f Hb]; cbn [s_again] in Sp; try contradiction.
    + apply Again; [apply all_upd; [exact A1|exact I]| |exact A3]. right. split; [reflexivity|].
      eapply some_new; [exact E|reflexivity].
    + rewrite (Hb eq_refl) in *. apply Again; [apply all_upd; [exact A1|destruct (step_flag f); exact I]| |exact A3].
      destruct A2 as [[B1 [B2 B3]]|[B1 B2]]; rewrite B1 in *.
      * left. split; [reflexivity|]. split; intros X; apply (some_back _ _ _ _ _ _ E) in X; destruct X as [X|X];
          try discriminate; contradiction.
      * right. split; [reflexivity|]. eapply some_keep; [exact E|exact B2|]. discriminate.
  - (* Settled *)
    destruct St as [h f|h f|h f|t t' h h' f St|r h f|h f|h f|b h f Hb]; cbn [s_settled] in Sp; try contradiction.
    rewrite (Hb eq_refl), A2 in *. apply Settled; [apply all_upd; [exact A1|exact I]|exact A2| |exact A4].
    intros q phq Hq. apply In_upd in Hq. destruct Hq as [X|Hq]; [injection X as -> ->; exact (A3 p Test Ip)|eapply A3; exact Hq].
Qed.

Lemma stage_barrier l m f b : l <> [] -> b = First \/ b = Second -> (forall p ph, In (p, ph) l -> ph = b) ->
  stage l m f -> stage (map (fun x => (fst x, behind cg (fst x) (snd x))) l) m f.
Proof.
  intros Hne Hb All Sg. destruct l as [|[p0 ph0] l0] eqn:El; [contradiction|]. rewrite <- El in *.
  assert (I0 : In (p0, ph0) l) by (rewrite El; left; reflexivity).
  pose proof (All p0 ph0 I0) as E0. subst ph0.
  assert (N0 : nth_error l 0 = Some (p0, b)) by (rewrite El; reflexivity).
  assert (Back : forall p ph, In (p, ph) (map (fun x => (fst x, behind cg (fst x) (snd x))) l) ->
            In (p, b) l /\ ph = behind cg p b).
  { intros p ph H. apply in_map_iff in H. destruct H as [[q phq] [X Hq]]. cbn [fst snd] in X. injection X as -> <-.
    rewrite <- (All p phq Hq). auto. }
  destruct Hb as [->| ->].
  - (* the first barrier *)
    assert (ToClean : step_flag f = false -> (a = OpenCL -> m = ms \/ any_flag f = true) ->
       stage (map (fun x => (fst x, behind cg (fst x) (snd x))) l) m f).
    { intros F1 F2. apply Clean; [|exact F1|exact F2]. intros p ph H. destruct (Back p ph H) as [_ ->].
      cbn [behind s_clean]. split; [reflexivity|apply process_wmust]. }
    assert (S0 : some l (eq First)) by (exists 0%nat, p0, First; auto).
    destruct Sg as [A1 A2 A3 A4|A1 A2 A3|A1 A2 A3|A1 A2 A3|A1 A2 A3 A4]; pose proof (A1 p0 First I0) as Sp.
    + apply ToClean; [apply A3; exact S0|]. intros _. left. exact A2.
    + destruct Sp.
    + destruct Sp.
    + apply ToClean; [|intros Ea; right; apply A3; exact Ea]. destruct A2 as [[_ [X _]]|[X _]]; [contradiction|exact X].
    + destruct Sp.
  - (* the second barrier *)
    destruct Sg as [A1 A2 A3 A4|A1 A2 A3|A1 A2 A3|A1 A2 A3|A1 A2 A3 A4]; pose proof (A1 p0 Second I0) as Sp; try (destruct Sp; fail).
    + apply Settled; [|exact A2| |exact A3].
      * intros p ph H. destruct (Back p ph H) as [_ ->]. exact I.
      * intros p ph H. destruct (Back p ph H) as [X _]. exact (A1 p Second X).
    + assert (NW : forall Q : phase -> Prop, ~ Q Second -> ~ some l Q).
      { intros Q HQ [j [p [ph [Ej Hq]]]]. apply HQ. rewrite <- (All p ph (nth_error_In _ _ Ej)). exact Hq. }
      apply Again.
      * intros p ph H. destruct (Back p ph H) as [_ ->]. exact I.
      * left. split; [|split].
        -- destruct A2 as [A2|A2]; [exact A2|]. exfalso. revert A2. apply NW. intros [].
        -- intros [j [p [ph [Ej Hq]]]]. destruct (Back p ph (nth_error_In _ _ Ej)) as [_ ->]. discriminate.
        -- intros [j [p [ph [Ej Hq]]]]. destruct (Back p ph (nth_error_In _ _ Ej)) as [_ ->]. discriminate.
      * intros Ea. destruct (A3 Ea) as [X|X]; [exact X|]. exfalso. revert X. apply NW. intros [].
Qed.

Definition stage_inv (s : kernel_state) : Prop :=
  kernel_safe cg no_node ms s /\ stage (items s) (current (khistory s)) (kflags s).

Lemma stage_step s s' : kernel_step cg a true Strict group s s' -> stage_inv s -> stage_inv s'.
Proof.
  intros St [Sf Sg]. split; [eapply kernel_step_safe; [exact Hs|apply no_support|exact St|exact Sf]|].
  destruct St as [i p ph ph' l h h' f f' E St|b who l h f Hb Hm]; cbn [items khistory kflags] in *.
  - destruct Sf as [S1 S2]. cbn [items khistory] in *. destruct (S1 p ph (nth_error_In _ _ E)) as [_ Sp].
    eapply stage_item; [apply S2|exact E| | |exact St|exact Sg].
    + intros t ->. cbn [phase_safe] in Sp.
      apply (safe_not_faulty (places cg no_node) (size cg) ms (fun _ : bool => True)
        {| threads := [t]; history := h |} t); [|left; reflexivity].
      split; cbn [threads history]; [|exact S2]. intros x [<-|[]]. exact Sp.
    + intros j b w k ->. cbn [phase_safe thread_safe] in Sp. rewrite (proj1 (good_current _ _ _ _ S2)). apply Sp.
  - destruct (barrier_strict b who l Hb Hm) as [Hne [All ->]].
    eapply stage_barrier; eassumption.
Qed.

Lemma stage_steps s s' : kernel_steps cg a true Strict group s s' -> stage_inv s -> stage_inv s'.
Proof. intros P. induction P as [s|s s1 s2 St P IH]; [auto|]. intros H. apply IH. eapply stage_step; eassumption. Qed.

Lemma stage_start f : mem_ok cg ms -> stage_inv (launch_start cg a ms f).
Proof.
  intros Hm. split; [apply launch_start_safe; [exact Hs|]; apply good_none; [exact Hm|apply sub_refl]|].
  assert (It : forall p ph, In (p, ph) (items (launch_start cg a ms f)) -> ph = match a with OpenCL => Enter | CUDA => Reset end).
  { intros p ph H. cbn [launch_start items] in H. apply in_map_iff in H. destruct H as [q [X _]]. injection X as _ <-. reflexivity. }
  apply Starting.
  - intros p ph H. rewrite (It p ph H). destruct a; exact I.
  - reflexivity.
  - intros [j [p [ph [Ej X]]]]. rewrite (It p ph (nth_error_In _ _ Ej)) in X. destruct a; discriminate.
  - intros Ea [j [p [ph [Ej X]]]]. rewrite (It p ph (nth_error_In _ _ Ej)) in X. rewrite Ea in X. destruct X; discriminate.
Qed.

Lemma items_pixels s s' : kernel_steps cg a true Strict group s s' -> map fst (items s') = map fst (items s).
Proof.
  intros P. induction P as [s|s s1 s2 St P IH]; [reflexivity|]. rewrite IH.
  destruct St as [i p ph ph' l h h' f f' E St|b who l h f Hb Hm]; cbn [items].
  - eapply map_fst_upd. exact E.
  - apply map_fst_pass.
Qed.

Lemma has_item s f m p : kernel_steps cg a true Strict group (launch_start cg a m f) s -> in_image (G cg) p ->
  exists ph, In (p, ph) (items s).
Proof.
  intros P Hp. pose proof (items_pixels _ _ P) as E.
  assert (X : In p (map fst (items s))).
  { rewrite E. cbn [launch_start items]. rewrite map_map. cbn [fst]. rewrite map_id. apply In_item_pixels; assumption. }
  apply in_map_iff in X. destruct X as [[q ph] [Eq H]]. cbn [fst] in Eq. subst q. exists ph. exact H.
Qed.

Lemma group_finished f m' f' : mem_ok cg ms -> launch cg a true Strict group ms f m' f' ->
  mem_ok cg m' /\ sub m' ms /\
  (forall n, match_exists (G cg) n -> rmvb cg m' n = false) /\
  (a = OpenCL -> m' = ms \/ any_flag f' = true).
Proof.
  intros Hm [s [P [Fin [-> ->]]]]. destruct (stage_steps _ _ P (stage_start f Hm)) as [Sf Sg].
  pose proof (good_current _ _ _ _ (proj2 Sf)) as [Lm [_ Sm]]. split; [exact Lm|]. split; [exact Sm|].
  destruct (has_item s f ms {| px := 0; py := 0 |} P (origin_in cg Hs)) as [ph0 H0].
  pose proof (Fin _ _ H0) as E0. subst ph0.
  destruct Sg as [A1 A2 A3 A4|A1 A2 A3|A1 A2 A3|A1 A2 A3|A1 A2 A3 A4]; try (destruct (A1 _ _ H0); fail).
  - exfalso. destruct A2 as [[_ [_ X]]|[_ [j [p [ph [Ej X]]]]]].
    + apply X. apply In_nth_error in H0. destruct H0 as [j Ej]. exists j, {| px := 0; py := 0 |}, Done. auto.
    + rewrite (Fin p ph (nth_error_In _ _ Ej)) in X. discriminate.
  - split; [|exact A4]. intros [p d] M. destruct (has_item s f ms p P (proj1 M)) as [ph Hp].
    destruct (process_false cg p _ _ Hs Lm (proj1 M) (A3 p ph Hp)) as [_ Q]. apply Q; exact M.
Qed.
End Group.

(** The set of nodes that are left. *)
Lemma arc_support cg m K : static cg -> mem_ok cg m ->
  arc_consistent (with_avail cg m) K <-> support cg K /\ holds cg K m.
Proof.
  intros Hs Hm. split.
  - intros H. split.
    + intros n Kn. destruct (H n Kn) as [M [_ S]]. split; [exact M|]. intros q Hq A.
      destruct (S q Hq A) as [n' [E [Kn' [Mp Ew]]]]. exists n'. split; [exact E|]. split; [exact Kn'|].
      split; [exact Mp|]. apply ewb_iff. exact Ew.
    + intros n Kn. destruct (H n Kn) as [M [Av _]]. apply available_with in Av; try assumption. apply match_inb; exact M.
  - intros [H1 H2] n Kn. destruct (H1 n Kn) as [M S]. split; [exact M|]. split.
    + apply available_with; try assumption; [apply match_inb; exact M|apply H2; exact Kn].
    + intros q Hq A. destruct (S q Hq A) as [n' [E [Kn' [Mp Ew]]]]. exists n'. split; [exact E|]. split; [exact Kn'|].
      split; [exact Mp|]. apply ewb_iff in Ew. exact Ew.
Qed.

Lemma quiet_support cg m : static cg -> mem_ok cg m -> (forall n, match_exists (G cg) n -> rmvb cg m n = false) ->
  support cg (fun n => match_exists (G cg) n /\ avb cg m n = true).
Proof.
  intros Hs Hm Q n [M Av]. split; [exact M|]. intros q Hq A.
  destruct (not_removed cg m n q Hs (match_inb cg n M) Av (Q n M) Hq A) as [n' [E [An C]]].
  exists n'. split; [exact E|]. split; [|exact C]. split; [apply C|exact An].
Qed.

Lemma settled_iff cg m : static cg -> mem_ok cg m ->
  settled (with_avail cg m) <-> forall n, match_exists (G cg) n -> rmvb cg m n = false.
Proof.
  intros Hs Hm. split; intros H n M; specialize (H n M).
  - unfold exec in H. pose proof (run_should_remove cg m n Hs Hm (match_inb cg n M)) as E.
    cbn [with_avail cg_avail] in H. change (should_remove_node (with_avail cg m) n) with (should_remove_node cg n) in H.
    rewrite E in H. cbn [bind fst snd] in H. congruence.
  - unfold exec. pose proof (run_should_remove cg m n Hs Hm (match_inb cg n M)) as E.
    cbn [with_avail cg_avail]. change (should_remove_node (with_avail cg m) n) with (should_remove_node cg n).
    rewrite E. cbn [bind fst snd]. rewrite H. reflexivity.
Qed.

Lemma launch_settles cg a group m f m' f' : static cg -> one_group group -> mem_ok cg m ->
  launch cg a true Strict group m f m' f' ->
  settled (with_avail cg m') /\
  (forall n, match_exists (G cg) n ->
     (available (with_avail cg m') n <-> exists K, arc_consistent (with_avail cg m) K /\ K n)) /\
  (a = OpenCL -> any_flag f' = false -> m' = m).
Proof.
  intros Hs Hg Hm L. destruct (group_finished cg a group m Hs Hg f m' f' Hm L) as [Hm' [Sub [Q Any]]].
  split; [apply settled_iff; assumption|]. split.
  - intros n M. rewrite available_with by (try assumption; apply match_inb; exact M). split.
    + intros Av. exists (fun n => match_exists (G cg) n /\ avb cg m' n = true). split; [|auto].
      apply arc_support; try assumption. split; [apply quiet_support; assumption|].
      intros x [_ Ax]. apply Sub; exact Ax.
    + intros [K [HK Kn]]. apply arc_support in HK; try assumption. destruct HK as [H1 H2].
      assert (Gd : good (places cg K) (size cg) m m).
      { split; [exact Hm|]. split; [|apply sub_refl]. intros i _ [x [_ [Kx <-]]]. apply H2; exact Kx. }
      destruct (launch_safe cg a true Strict group Hs K m f m m' f' H1 Gd L) as [_ [Kp _]].
      apply Kp; [apply idx_size; [exact Hs|apply match_inb; exact M]|]. exists n. split; [apply match_inb; exact M|auto].
  - intros Ea F. destruct (Any Ea) as [X|X]; [exact X|congruence].
Qed.
End Graph.
