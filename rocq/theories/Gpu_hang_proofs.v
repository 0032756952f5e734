(** One group and barriers that wait for all: a launch hangs on some schedule as soon
    as there is a node to remove. *)
From Verif Require Export Gpu_group_proofs.
Local Open Scope N_scope.

Lemma must_run c : must c -> forall m r m', run c m = Ok (r, m') -> r = true.
Proof.
  induction c as [r0|s|i k IH|i b k IH]; cbn [must run]; intros M m r m' E.
  - congruence.
  - discriminate.
  - destruct (get m i) as [b|]; [|discriminate]. cbn [bind] in E. exact (IH b (M b) m r m' E).
  - destruct (set m i b) as [m1|]; [|discriminate]. cbn [bind] in E. exact (IH M m1 r m' E).
Qed.

Lemma set_store m i b m' : set m i b = Ok m' -> i < len m /\ store_word 1 i b m m = m'.
Proof.
  intros E. assert (Hi : i < len m).
  { unfold set in E. destruct (N.ltb_spec i (len m)); [assumption|discriminate]. }
  split; [exact Hi|]. rewrite store_one by exact Hi. rewrite set_in_bounds in E by exact Hi. congruence.
Qed.

Section Graph.
Context {T : target}.
Implicit Type cg : cgraph T.
Notation G cg := (cg_graph cg).
Notation nd p d := {| npix := p; disp := d |}.

Section Launch.
Variables (cg : cgraph T) (a : api) (kind : barrier_kind) (group : nat -> nat).
Hypothesis Hs : static cg.

Lemma kernel_steps_trans sc s s' s'' : kernel_steps cg a sc kind group s s' -> kernel_steps cg a sc kind group s' s'' ->
  kernel_steps cg a sc kind group s s''.
Proof. intros P Q. induction P as [s|s s1 s2 St P IH]; [exact Q|]. econstructor; [exact St|auto]. Qed.

Lemma kernel_steps_one sc s s' : kernel_step cg a sc kind group s s' -> kernel_steps cg a sc kind group s s'.
Proof. intros H. econstructor; [exact H|constructor]. Qed.

(** *** One work-item after the other *)

Inductive item_steps : phase -> list mem -> flags -> phase -> list mem -> flags -> Prop :=
| item_none ph h f : item_steps ph h f ph h f
| item_more ph h f ph1 h1 f1 ph2 h2 f2 : item_step a true ph h f ph1 h1 f1 -> item_steps ph1 h1 f1 ph2 h2 f2 ->
    item_steps ph h f ph2 h2 f2.

Lemma item_steps_trans ph h f ph1 h1 f1 ph2 h2 f2 : item_steps ph h f ph1 h1 f1 -> item_steps ph1 h1 f1 ph2 h2 f2 ->
  item_steps ph h f ph2 h2 f2.
Proof. intros P Q. induction P as [ph h f|ph h f pha ha fa phb hb fb St P IH]; [exact Q|]. econstructor; [exact St|auto]. Qed.

Lemma upd_middle {A} (l1 l2 : list A) x y : upd (l1 ++ x :: l2) (length l1) y = l1 ++ y :: l2.
Proof. induction l1 as [|z l1 IH]; cbn [app length upd]; [reflexivity|]. rewrite IH. reflexivity. Qed.
Lemma nth_middle {A} (l1 l2 : list A) x : nth_error (l1 ++ x :: l2) (length l1) = Some x.
Proof. induction l1 as [|z l1 IH]; cbn [app length nth_error]; auto. Qed.

Lemma item_kernel p ph h f ph' h' f' l1 l2 : item_steps ph h f ph' h' f' ->
  kernel_steps cg a true kind group {| items := l1 ++ (p, ph) :: l2; khistory := h; kflags := f |}
    {| items := l1 ++ (p, ph') :: l2; khistory := h'; kflags := f' |}.
Proof.
  intros P. induction P as [ph h f|ph h f pha ha fa phb hb fb St P IH]; [constructor|].
  econstructor; [|exact IH]. rewrite <- (upd_middle l1 l2 (p, ph) (p, pha)).
  econstructor; [apply nth_middle|exact St].
Qed.

Lemma sweep (A B : pixel -> phase) (I : list pixel -> list mem -> flags -> Prop) :
  (forall p rs h f, I (p :: rs) h f -> exists h' f', item_steps (A p) h f (B p) h' f' /\ I rs h' f') ->
  forall rs h f, I rs h f -> exists h' f',
    kernel_steps cg a true kind group {| items := map (fun p => (p, A p)) rs; khistory := h; kflags := f |}
      {| items := map (fun p => (p, B p)) rs; khistory := h'; kflags := f' |} /\ I [] h' f'.
Proof.
  intros H rs h f HI. change (map (fun p => (p, A p)) rs) with (map (fun p => (p, B p)) [] ++ map (fun p => (p, A p)) rs).
  change (map (fun p => (p, B p)) rs) with (map (fun p => (p, B p)) ([] ++ rs)). generalize (@nil pixel) at 1 2 as qs.
  revert h f HI. induction rs as [|p rs IH]; intros h f HI qs.
  - exists h, f. cbn [map]. rewrite !app_nil_r. split; [constructor|exact HI].
  - destruct (H p rs h f HI) as [h1 [f1 [P I1]]]. destruct (IH h1 f1 I1 (qs ++ [p])) as [h2 [f2 [Q I2]]].
    exists h2, f2. split; [|exact I2]. cbn [map].
    eapply kernel_steps_trans; [apply item_kernel; exact P|].
    rewrite map_app in Q. cbn [map] in Q. rewrite <- !app_assoc in Q. cbn [app] in Q. exact Q.
Qed.

Lemma run_item c : forall h f r m', run c (current h) = Ok (r, m') ->
  exists h', item_steps (Work (Run c)) h f (Work (Run (Ret r))) h' f /\ current h' = m'.
Proof.
  induction c as [r0|s|i k IH|i b k IH]; intros h f r m' E; cbn [run] in E.
  - injection E as -> <-. exists h. split; [constructor|reflexivity].
  - discriminate.
  - destruct (get (current h) i) as [b|] eqn:G; [|discriminate]. cbn [bind] in E.
    destruct (IH b h f r m' E) as [h' [P Q]]. exists h'. split; [|exact Q].
    econstructor; [|exact P]. apply item_work. econstructor; [reflexivity|exact G].
  - destruct (set (current h) i b) as [m1|] eqn:S; [|discriminate]. cbn [bind] in E.
    destruct (set_store _ _ _ _ S) as [Hi <-].
    destruct (IH (store_word 1 i b (current h) (current h) :: h) f r m' E) as [h' [P Q]]. exists h'. split; [|exact Q].
    econstructor; [apply item_work; econstructor; [reflexivity|exact Hi]|].
    econstructor; [apply item_work; apply step_store|]. exact P.
Qed.

Definition quiet (m : mem) (p : pixel) : Prop := run (csp_process_pixel cg p) m = Ok (false, m).

Lemma barrier_everybody b ph (ps : list pixel) h f : ps <> [] -> b = First \/ b = Second -> ph = b ->
  kernel_steps cg a true kind group {| items := map (fun p => (p, ph)) ps; khistory := h; kflags := f |}
    {| items := map (fun p => (p, behind cg p ph)) ps; khistory := h; kflags := f |}.
Proof.
  intros Hne Hb ->. apply kernel_steps_one.
  replace (map (fun p => (p, behind cg p b)) ps) with (pass cg (fun _ => true) 0 (map (fun p => (p, b)) ps)).
  2: { rewrite pass_all by reflexivity. rewrite map_map. reflexivity. }
  econstructor; [exact Hb|]. split; [|split].
  - destruct ps as [|p ps]; [contradiction|]. exists 0%nat. eexists. split; reflexivity.
  - intros i p ph E _. apply nth_error_In, in_map_iff in E. destruct E as [q [X _]]. congruence.
  - intros i j p ph p' ph' _ _ _ _. destruct kind; auto.
Qed.

(** Everybody enters and processes its pixel once. *)
Lemma first_pass m f ps : mem_ok cg m -> ps <> [] -> (forall p, In p ps -> in_image (G cg) p) ->
  (exists p, In p ps /\ ~ quiet m p) ->
  exists h' f', kernel_steps cg a true kind group
    {| items := map (fun p => (p, match a with OpenCL => Enter | CUDA => Reset end)) ps; khistory := [m]; kflags := f |}
    {| items := map (fun p => (p, Test)) ps; khistory := h'; kflags := f' |} /\ step_flag f' = true.
Proof.
  intros Hm Hne Hin HQ.
  destruct (sweep (fun _ => match a with OpenCL => Enter | CUDA => Reset end) (fun _ => First)
    (fun rs h f => h = [m] /\ (rs = [] -> step_flag f = false))) with (rs := ps) (h := [m]) (f := f)
    as [h1 [f1 [P1 [-> Q1]]]].
  { intros p rs h f0 [-> _]. exists [m], {| step_flag := false; any_flag := match a with OpenCL => false | CUDA => any_flag f0 end |}.
    split; [|split; [reflexivity|reflexivity]]. destruct a.
    - econstructor; [apply item_enter|]. econstructor; [apply item_enter2|].
      econstructor; [apply item_reset|]. constructor.
    - econstructor; [apply item_reset|]. constructor. }
  { split; [reflexivity|]. intros ->. contradiction. }
  pose proof (barrier_everybody First First ps [m] f1 Hne (or_introl eq_refl) eq_refl) as P2.
  destruct (sweep (fun p => Work (Run (csp_process_pixel cg p))) (fun _ => Second)
    (fun rs h f => mem_ok cg (current h) /\ (forall p, In p rs -> in_image (G cg) p) /\
       (step_flag f = true \/ exists p, In p rs /\ ~ quiet (current h) p))) with (rs := ps) (h := [m]) (f := f1)
    as [h3 [f3 [P3 [_ [_ Q3]]]]].
  { intros p rs h f0 [Mh [Ir Hn]]. destruct (run_process cg p (current h)) as [ch R]; try assumption.
    { apply Ir. left; reflexivity. }
    destruct (run_item _ h f0 _ _ R) as [h' [P E]].
    assert (Mh' : mem_ok cg (current h')).
    { rewrite E. apply process_ok. exact Mh. }
    destruct ch.
    - exists h', {| step_flag := true; any_flag := match a with OpenCL => true | CUDA => any_flag f0 end |}.
      split; [|split; [exact Mh'|split; [intros q Hq; apply Ir; right; exact Hq|left; reflexivity]]].
      eapply item_steps_trans; [exact P|]. econstructor; [apply item_result|]. econstructor; [apply item_mark|]. destruct a.
      + econstructor; [apply item_mark_any|]. constructor.
      + constructor.
    - exists h', f0. split; [eapply item_steps_trans; [exact P|]; econstructor; [apply item_result|constructor]|].
      split; [exact Mh'|]. split; [intros q Hq; apply Ir; right; exact Hq|].
      destruct Hn as [Hn|[q [[<-|Hq] NQ]]]; [left; exact Hn| |].
      + exfalso. apply NQ. unfold quiet. rewrite R. f_equal. f_equal.
        apply (process_false cg p _ _ Hs Mh (Ir p (or_introl eq_refl)) R).
      + right. exists q. split; [exact Hq|]. rewrite E.
        rewrite (proj1 (process_false cg p _ _ Hs Mh (Ir p (or_introl eq_refl)) R)). exact NQ. }
  { split; [exact Hm|]. split; [exact Hin|]. right. exact HQ. }
  exists h3, f3. split; [|destruct Q3 as [Q3|[p [[] _]]]; exact Q3].
  eapply kernel_steps_trans; [exact P1|]. eapply kernel_steps_trans; [exact P2|]. cbn [behind].
  eapply kernel_steps_trans; [exact P3|].
  exact (barrier_everybody Second Second ps h3 f3 Hne (or_intror eq_refl) eq_refl).
Qed.

(** The first work-item starts a second pass, the second one leaves. *)
Lemma leaves p q ps h f : step_flag f = true ->
  exists f', kernel_steps cg a true kind group
    {| items := map (fun p => (p, Test)) (p :: q :: ps); khistory := h; kflags := f |}
    {| items := (p, First) :: (q, Done) :: map (fun p => (p, Test)) ps; khistory := h; kflags := f' |}.
Proof.
  intros Hf. eexists. cbn [map].
  eapply kernel_steps_trans.
  - apply (item_kernel p Test h f First h {| step_flag := false; any_flag := any_flag f |} []).
    econstructor; [apply (item_test _ _ true); auto|]. econstructor; [apply item_reset|]. constructor.
  - apply (item_kernel q Test h _ Done h {| step_flag := false; any_flag := any_flag f |} [(p, First)]).
    econstructor; [apply (item_test _ _ false); reflexivity|]. constructor.
Qed.
End Launch.

Section Hang.
Variables (cg : cgraph T) (a : api) (group : nat -> nat).
Hypothesis Hg : one_group group.

Lemma diverged_step sc s s' : kernel_step cg a sc Strict group s s' -> diverged group s -> diverged group s'.
Proof.
  intros St [i [j [p [q [ph [Ei [Ej [Eg Hw]]]]]]]].
  destruct St as [k r phr ph' l h h' f f' E St|b who l h f Hb [[k [[r phr] [Ek Wk]]] [H1 H2]]]; cbn [items] in *.
  - exists i, j, p, q, ph. cbn [items].
    assert (k <> i) by (intros ->; rewrite Ei in E; injection E as <- <-; inversion St).
    assert (k <> j) by (intros ->; rewrite Ej in E; injection E as <- <-; destruct Hw as [->| ->]; inversion St).
    rewrite !nth_upd_other by assumption. auto.
  - exfalso. pose proof (H1 i p Done Ei (H2 k i r phr p Done Ek Wk Ei (Hg i k))) as X. subst b.
    destruct Hb; discriminate.
Qed.

Lemma diverged_for_ever sc s s' : kernel_steps cg a sc Strict group s s' -> diverged group s -> ~ finished s'.
Proof.
  intros P. induction P as [s|s s1 s2 St P IH]; intros D.
  - intros F. destruct D as [i [j [p [q [ph [_ [Ej [_ Hw]]]]]]]].
    rewrite (F q ph (nth_error_In _ _ Ej)) in Hw. destruct Hw; discriminate.
  - apply IH. eapply diverged_step; eassumption.
Qed.
End Hang.

Lemma two_items {A} (l : list A) x y : In x l -> In y l -> x <> y -> exists u v r, l = u :: v :: r.
Proof.
  destruct l as [|u [|v r]]; intros Hx Hy N; [destruct Hx| |eauto].
  destruct Hx as [<-|[]], Hy as [<-|[]]. contradiction.
Qed.

Lemma rmvb_neighbor cg m n : static cg -> inb cg n -> rmvb cg m n = true ->
  exists q, in_image (G cg) q /\ q <> npix n.
Proof.
  intros Hs Hn R. apply rmvb_iff in R; try assumption. destruct R as [_ [q [Hq [A _]]]].
  exists q. split; [exact Hq|]. intros ->. unfold adjacent, horizontal_pair, vertical_pair in A. lia.
Qed.

Lemma hangs cg a group m f n : static cg -> one_group group -> mem_ok cg m ->
  match_exists (G cg) n -> rmvb cg m n = true ->
  exists s, kernel_steps cg a true Strict group (launch_start cg a m f) s /\ diverged group s /\
    forall sc s', kernel_steps cg a sc Strict group s s' -> ~ finished s'.
Proof.
  intros Hs Hg Hm M R.
  destruct (rmvb_neighbor cg m n Hs (match_inb cg n M) R) as [q [Hq Nq]].
  pose proof (proj2 (In_item_pixels cg a Hs (npix n)) (proj1 M)) as I1.
  pose proof (proj2 (In_item_pixels cg a Hs q) Hq) as I2.
  destruct (two_items _ _ _ I1 I2 (fun X => Nq (eq_sym X))) as [u [v [r E]]].
  destruct (first_pass cg a Strict group Hs m f (item_pixels cg a) Hm) as [h' [f' [P F]]].
  { intros X. rewrite X in I1. destruct I1. }
  { intros p Hp. apply (In_item_pixels cg a Hs). exact Hp. }
  { exists (npix n). split; [exact I1|]. intros Q.
    destruct (process_false cg _ _ _ Hs Hm (proj1 M) Q) as [_ Q'].
    specialize (Q' (disp n)). destruct n as [p d]. cbn [npix disp] in *. rewrite Q' in R by exact M. discriminate. }
  destruct (leaves cg a Strict group u v r h' f' F) as [f2 P2].
  assert (D : diverged group {| items := (u, First) :: (v, Done) :: map (fun p => (p, Test)) r; khistory := h'; kflags := f2 |}).
  { exists 1%nat, 0%nat, v, u, First. cbn [items nth_error]. repeat split; auto. }
  eexists. split; [|split; [exact D|]].
  - eapply kernel_steps_trans; [exact P|]. rewrite E. exact P2.
  - intros sc s' P'. exact (diverged_for_ever cg a group Hg sc _ _ P' D).
Qed.

(** *** Nothing to remove *)

Section Quiet.
Variables (cg : cgraph T) (a : api) (group : nat -> nat) (ms : mem).
Hypothesis Hs : static cg.
Hypothesis Hg : one_group group.
Hypothesis Hq : forall p, in_image (G cg) p -> quiet cg ms p.

Inductive calm (l : list (pixel * phase)) (f : flags) : Prop :=
| calm_start : all l s_start -> (some l (eq First) -> step_flag f = false) -> calm l f
| calm_work : all l (s_clean cg ms) -> step_flag f = false -> calm l f
| calm_end : all l s_settled -> step_flag f = false -> calm l f.

Lemma calm_item l h f i p ph ph' h' f' : (forall p ph, In (p, ph) l -> in_image (G cg) p) -> current h = ms ->
  nth_error l i = Some (p, ph) -> item_step a true ph h f ph' h' f' ->
  calm l f -> calm (upd l i (p, ph')) f' /\ current h' = ms.
Proof.
  intros Il Eh E St C. pose proof (nth_error_In _ _ E) as Ip.
  destruct C as [A1 A2|A1 A2|A1 A2]; pose proof (A1 p ph Ip) as Sp.
  - destruct St as [h f|h f|h f|t t' h h' f St|r h f|h f|h f|b h f Hb]; cbn [s_start] in Sp; try contradiction; (split; [|exact Eh]).
    + apply calm_start; [apply all_upd; [exact A1|exact I]|reflexivity].
    + apply calm_start; [apply all_upd; [exact A1|exact I]|]. cbn [step_flag].
      intros X. apply A2. apply (some_back _ _ _ _ _ _ E) in X. destruct X as [X|X]; [exact X|discriminate].
    + apply calm_start; [apply all_upd; [exact A1|exact I]|reflexivity].
  - pose proof (Hq p (Il p ph Ip)) as Qp. unfold quiet in Qp.
    destruct St as [h f|h f|h f|t t' h h' f St|r h f|h f|h f|b h f Hb]; cbn [s_clean] in Sp; try contradiction.
    + destruct St as [j k h w b Lo Gt|j b k h w Lo Hj|j b w k h]; [| |contradiction]; destruct Sp as [Sr Sw]; cbn [loads] in Lo; subst w; rewrite Qp in Sr.
      * split; [|exact Eh]. apply calm_work; [|exact A2]. apply all_upd; [exact A1|]. cbn [fst snd s_clean].
        cbn [run] in Sr. rewrite <- Eh, Gt in Sr. cbn [bind] in Sr. rewrite Eh in Sr. rewrite Qp. split; [exact Sr|apply Sw].
      * exfalso. pose proof (must_run (Write j b k) Sw _ _ _ Sr). discriminate.
    + split; [|exact Eh]. destruct Sp as [Sr _]. rewrite Qp in Sr. cbn [run] in Sr. injection Sr as ->.
      apply calm_work; [|exact A2]. apply all_upd; [exact A1|]. exact Qp.
  - destruct St as [h f|h f|h f|t t' h h' f St|r h f|h f|h f|b h f Hb]; cbn [s_settled] in Sp; try contradiction.
    split; [|exact Eh]. rewrite (Hb eq_refl), A2. apply calm_end; [apply all_upd; [exact A1|exact I]|exact A2].
Qed.

Lemma calm_pass l f b who : b = First \/ b = Second -> may_pass Strict group b who l -> calm l f -> calm (pass cg who 0 l) f.
Proof.
  intros Hb M C. destruct (barrier_strict cg group Hg b who l Hb M) as [Hne [All ->]].
  destruct l as [|[p0 ph0] l0] eqn:El; [contradiction|]. rewrite <- El in *.
  assert (I0 : In (p0, ph0) l) by (rewrite El; left; reflexivity).
  pose proof (All p0 ph0 I0) as E0. subst ph0.
  assert (Back : forall p ph, In (p, ph) (map (fun x => (fst x, behind cg (fst x) (snd x))) l) ->
            In (p, b) l /\ ph = behind cg p b).
  { intros p ph H. apply in_map_iff in H. destruct H as [[q phq] [X Hq']]. cbn [fst snd] in X. injection X as -> <-.
    rewrite <- (All p phq Hq'). auto. }
  destruct Hb as [->| ->]; destruct C as [A1 A2|A1 A2|A1 A2]; pose proof (A1 _ _ I0) as Sp; try (destruct Sp; fail).
  - apply calm_work; [|apply A2; exists 0%nat, p0, First; rewrite El; auto].
    intros p ph H. destruct (Back p ph H) as [_ ->]. split; [reflexivity|apply process_wmust].
  - apply calm_end; [|exact A2]. intros p ph H. destruct (Back p ph H) as [_ ->]. exact I.
Qed.

Lemma calm_reached m f s : m = ms -> kernel_steps cg a true Strict group (launch_start cg a m f) s ->
  calm (items s) (kflags s) /\ current (khistory s) = ms.
Proof.
  intros -> P.
  assert (X : forall s s', kernel_steps cg a true Strict group s s' ->
    (forall p ph, In (p, ph) (items s) -> in_image (G cg) p) /\ calm (items s) (kflags s) /\ current (khistory s) = ms ->
    (forall p ph, In (p, ph) (items s') -> in_image (G cg) p) /\ calm (items s') (kflags s') /\ current (khistory s') = ms).
  { clear P s. intros s s' P. induction P as [s|s s1 s2 St P IH]; [auto|]. intros [Il [C Eh]]. apply IH.
    destruct St as [i p ph ph' l h h' f0 f' E St|b who l h f0 Hb Hm]; cbn [items khistory kflags] in *.
    - split; [|exact (calm_item l h f0 i p ph ph' h' f' Il Eh E St C)].
      intros q phq Hq'. apply In_upd in Hq'. destruct Hq' as [Y|Hq']; [injection Y as -> _; eapply Il; eapply nth_error_In; exact E|eapply Il; exact Hq'].
    - split; [|split; [eapply calm_pass; eassumption|exact Eh]].
      intros q phq Hq'. destruct (pass_in cg _ _ _ _ Hq') as [ph0 [Y _]]. eapply Il; exact Y. }
  apply (X _ _ P). cbn [launch_start items khistory kflags current hd]. split; [|split; [|reflexivity]].
  - intros p ph H. apply in_map_iff in H. destruct H as [q [Y Hq']]. injection Y as -> _. apply (In_item_pixels cg a Hs). exact Hq'.
  - apply calm_start.
    + intros p ph H. apply in_map_iff in H. destruct H as [q [Y _]]. injection Y as _ <-. destruct a; exact I.
    + intros [j [p [ph [Ej Y]]]]. apply nth_error_In, in_map_iff in Ej. destruct Ej as [q [Z _]]. injection Z as _ <-. destruct a; discriminate.
Qed.

Lemma calm_together l f h : calm l f -> ~ diverged group {| items := l; khistory := h; kflags := f |}.
Proof.
  intros C [i [j [p [q [ph [Ei [Ej [_ Hw]]]]]]]]. cbn [items] in *.
  apply nth_error_In in Ei. apply nth_error_In in Ej.
  destruct C as [A1 A2|A1 A2|A1 A2].
  - exact (A1 _ _ Ei).
  - exact (A1 _ _ Ei).
  - pose proof (A1 _ _ Ej) as X. destruct Hw as [->| ->]; exact X.
Qed.
End Quiet.

Lemma settled_quiet cg m : static cg -> mem_ok cg m -> settled (with_avail cg m) ->
  forall p, in_image (G cg) p -> quiet cg m p.
Proof.
  intros Hs Hm S p Hp. apply process_quiet; try assumption. intros d M. apply settled_iff; assumption.
Qed.

Lemma hang_iff cg a group f : wf_cgraph cg -> one_group group ->
  (settled cg -> forall s, kernel_steps cg a true Strict group (launch_start cg a (cg_avail cg) f) s ->
     ~ diverged group s /\ current (khistory s) = cg_avail cg) /\
  (forall n, match_exists (G cg) n -> exec (fun cg => should_remove_node cg n) cg = Ok (true, cg) ->
     exists s, kernel_steps cg a true Strict group (launch_start cg a (cg_avail cg) f) s /\ diverged group s /\
       forall sc s', kernel_steps cg a sc Strict group s s' -> ~ finished s').
Proof.
  intros Hc Hg. pose proof (wf_static cg Hc) as Hs. pose proof (wfc_avail cg Hc) as Hm. split.
  - intros S s P.
    destruct (calm_reached cg a group (cg_avail cg) Hs Hg (settled_quiet cg _ Hs Hm (eq_ind_r settled S (with_avail_same cg)))
      (cg_avail cg) f s eq_refl P) as [C E].
    split; [|exact E]. destruct s as [l h fl]. eapply calm_together. exact C.
  - intros n M E. apply (hangs cg a group _ f n); try assumption.
    unfold exec in E. rewrite run_should_remove in E by (try assumption; apply match_inb; exact M). cbn [bind fst snd] in E.
    congruence.
Qed.
End Graph.
