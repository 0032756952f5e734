(** Launches and complete runs on devices. *)
From Verif Require Export Runs_spec Gpu_hang_proofs Gpu_facts Device_main_proofs.
Local Open Scope N_scope.

Local Notation G cg := (cg_graph cg).
Local Notation nd p d := {| npix := p; disp := d |}.

(** *** Numbers of available matches *)

Lemma count_ones m : available_count m = ones m.
Proof.
  unfold available_count, ones. induction m as [|[] m IH]; cbn [filter length map list_sum fold_right]; [reflexivity| |exact IH].
  unfold list_sum in IH. rewrite <- IH. reflexivity.
Qed.

Lemma ones_sub m : forall m', len m' = len m -> sub m' m -> (ones m' <= ones m)%nat.
Proof.
  induction m as [|b m IH]; intros [|b' m'] L S; unfold len in L; cbn [length] in L; try lia.
  assert (H0 : b' = true -> b = true) by (intros ->; exact (S 0 eq_refl)).
  assert (H1 : sub m' m).
  { intros i Hi. specialize (S (i + 1)). unfold bit, get in S, Hi |- *. unfold len in *. cbn [length] in S.
    destruct (N.ltb_spec i (N.of_nat (length m'))) as [X|X]; [|discriminate].
    destruct (N.ltb_spec (i + 1) (N.of_nat (Datatypes.S (length m')))) as [Y|Y]; [|lia].
    destruct (N.ltb_spec i (N.of_nat (length m))) as [Z|Z]; [|lia].
    destruct (N.ltb_spec (i + 1) (N.of_nat (Datatypes.S (length m)))) as [W|W]; [|lia].
    replace (N.to_nat (i + 1)) with (Datatypes.S (N.to_nat i)) in S by lia. cbn [nth_error] in S. exact (S Hi). }
  assert (LE := IH m' ltac:(unfold len; lia) H1). unfold ones, list_sum in *. cbn [map fold_right].
  destruct b'; [rewrite (H0 eq_refl)|]; destruct b; lia.
Qed.
Lemma ones_lost m m' i : len m' = len m -> sub m' m -> bit m i = true -> bit m' i = false -> (ones m' < ones m)%nat.
Proof.
  intros L S B B'. assert (Hi : i < len m) by (destruct (N.ltb_spec i (len m)); [assumption|unfold bit, get in B; destruct (N.ltb_spec i (len m)); [lia|discriminate]]).
  pose proof (ones_clear m i Hi B) as X. assert (ones m' <= ones (upd m (N.to_nat i) false))%nat; [|lia].
  apply ones_sub; [rewrite len_upd; exact L|]. intros j Hj. rewrite bit_upd by exact Hi.
  destruct (N.eqb_spec j i) as [->|]; [congruence|]. apply S. exact Hj.
Qed.

(** *** A launch that asks for another one has removed something *)

Section Guarded.
Variable ms : mem.
Fixpoint guarded {A} (Q : A -> Prop) (c : cmd A) : Prop :=
  match c with
  | Ret r => Q r
  | Fail _ => True
  | Read i k => (bit ms i = true -> guarded Q (k true)) /\ guarded Q (k false)
  | Write i b _ => b = false /\ bit ms i = true
  end.
Lemma guarded_bind {A B} (Q : A -> Prop) (Q' : B -> Prop) c f : (forall r, Q r -> guarded Q' (f r)) ->
  guarded Q c -> guarded Q' (cbind c f).
Proof.
  intros H. induction c as [r|s|i k IH|i b k IH]; intros Hc; cbn [cbind guarded] in *; auto.
  destruct Hc as [H1 H2]. split; [intros X|]; apply IH; auto.
Qed.
Lemma guarded_readonly {A} (Q : A -> Prop) c : readonly c -> (forall r, Q r) -> guarded Q c.
Proof. intros R H. induction c as [r|s|i k IH|i b k IH]; cbn [readonly guarded] in *; auto. contradiction. Qed.

Lemma guarded_process {T : target} (cg : cgraph T) p : guarded (fun r => r = false) (csp_process_pixel cg p).
Proof.
  unfold csp_process_pixel. induction (disparities_right (G cg) (px p)) as [|d ds IH]; cbn [cloop]; [reflexivity|]. cbv zeta.
  apply (guarded_bind (fun r => r = false)); [intros r ->; exact IH|].
  apply (guarded_bind (fun r => r = true -> bit ms (node_index (G cg) (nd p d)) = true)).
  - intros [|] Hr; [|reflexivity]. cbn [make_node_unavailable cbind guarded]. split; [reflexivity|apply Hr; reflexivity].
  - unfold should_remove_node. apply (guarded_bind (fun r => r = true -> bit ms (node_index (G cg) (nd p d)) = true)).
    + intros [|] Hr; cbn [negb]; [|discriminate]. apply guarded_readonly; [|auto].
      pose proof (readonly_should_remove cg (nd p d)) as R. unfold should_remove_node in R.
      cbn [is_node_available cbind readonly] in R. specialize (R true). cbn [negb cbind] in R. exact R.
    + unfold is_node_available. cbn [guarded]. split; [auto|discriminate].
Qed.

Definition tguarded (t : thread bool) : Prop :=
  match t with Run c => guarded (fun r => r = false) c | Store i b _ _ => b = false /\ bit ms i = true end.
End Guarded.

Section Relaunch.
Context {T : target}.
Variables (cg : cgraph T) (sc : bool) (kind : barrier_kind) (group : nat -> nat) (ms : mem).
Hypothesis (Hs : static cg) (Hm : mem_ok cg ms).

Definition lost (s : kernel_state) : Prop := exists i, bit ms i = true /\ bit (current (khistory s)) i = false.
Definition not_marking (ph : phase) : Prop :=
  match ph with MarkStep | MarkAny => False | Work t => tguarded ms t | _ => True end.
Definition entering (ph : phase) : Prop := ph = Enter \/ ph = Enter2.
Definition nothing_yet (s : kernel_state) : Prop :=
  (forall p ph, In (p, ph) (items s) -> not_marking ph) /\
  (any_flag (kflags s) = false \/ exists p ph, In (p, ph) (items s) /\ entering ph).

Lemma lost_later s s' : kernel_safe cg no_node ms s -> kernel_step cg OpenCL sc kind group s s' ->
  decreasing (khistory s) -> lost s -> lost s'.
Proof.
  intros S St D [i [B L]]. exists i. split; [exact B|].
  destruct (kernel_step_decreasing cg OpenCL sc kind group no_node ms s s' St S D) as [D' I'].
  assert (X : sub (current (khistory s')) (current (khistory s))).
  { apply D'. apply I'. destruct (proj2 S) as [Ne _]. destruct (khistory s); [contradiction|left; reflexivity]. }
  destruct (bit (current (khistory s')) i) eqn:E; [|reflexivity]. apply X in E. congruence.
Qed.

Lemma step_nothing s s' : kernel_safe cg no_node ms s -> kernel_step cg OpenCL sc kind group s s' ->
  nothing_yet s -> nothing_yet s' \/ lost s'.
Proof.
  intros S St [N A]. pose proof (proj2 S) as Hh.
  destruct St as [i p ph ph' l h h' f f' E St|b who l h f Hb Hp]; unfold nothing_yet in *; cbn [items khistory kflags] in *.
  - pose proof (nth_error_In _ _ E) as I. pose proof (N p ph I) as Np.
    assert (KN : not_marking ph' -> forall q phq, In (q, phq) (upd l i (p, ph')) -> not_marking phq).
    { intros H q phq Hq. apply In_upd in Hq. destruct Hq as [X|Hq]; [injection X as -> ->; exact H|exact (N q phq Hq)]. }
    assert (KA : any_flag f' = any_flag f -> ~ entering ph -> any_flag f' = false \/ exists q phq, In (q, phq) (upd l i (p, ph')) /\ entering phq).
    { intros -> Ne. destruct A as [A|[q [phq [Hq He]]]]; [left; exact A|right]. exists q, phq. split; [|exact He].
      apply In_nth_error in Hq. destruct Hq as [j Hj]. destruct (Nat.eq_dec j i) as [->|Nj].
      - exfalso. rewrite E in Hj. injection Hj as <- <-. exact (Ne He).
      - apply (nth_error_In _ j). rewrite nth_upd_other by congruence. exact Hj. }
    destruct St as [h f|h f|h f|t t' h h' f St|r h f|h f|h f|b h f Hb]; cbn [any_flag] in *.
    + left. split; [apply KN; exact Logic.I|]. right. exists p, Enter2. split; [|right; reflexivity].
      apply (nth_error_In _ i). exact (nth_upd_same l i (p, Enter2) _ E).
    + left. split; [apply KN; exact Logic.I|]. left. reflexivity.
    + left. split; [apply KN; exact Logic.I|]. apply KA; [reflexivity|intros [X|X]; discriminate].
    + destruct St as [j k h w b0 L Gt|j b0 k h w L Hj|j b0 w k h]; cbn [not_marking tguarded] in Np.
      * left. split; [|apply KA; [reflexivity|intros [X|X]; discriminate]]. apply KN. cbn [not_marking tguarded guarded] in *.
        destruct b0; [|apply Np]. apply (proj1 Np).
        destruct (good_loads _ _ _ sc h w Hh L) as [_ [_ Sw]]. apply Sw. unfold bit. rewrite Gt. reflexivity.
      * left. split; [|apply KA; [reflexivity|intros [X|X]; discriminate]]. apply KN. exact Np.
      * right. destruct Np as [-> Bj]. exists j. cbn [khistory current hd]. split; [exact Bj|].
        destruct (good_current _ _ _ _ Hh) as [Lc _].
        assert (Hj : j < len (current h)).
        { rewrite Lc. rewrite <- Hm. destruct (N.ltb_spec j (len ms)) as [X|X]; [exact X|].
          unfold bit, get in Bj. destruct (N.ltb_spec j (len ms)); [lia|discriminate]. }
        change (hd [] h) with (current h). rewrite store_one by exact Hj. rewrite bit_upd by exact Hj. rewrite N.eqb_refl. reflexivity.
    + cbn [not_marking tguarded guarded] in Np. subst r. left. split; [apply KN; exact Logic.I|]. apply KA; [reflexivity|intros [X|X]; discriminate].
    + destruct Np.
    + destruct Np.
    + left. split; [apply KN; destruct b; exact Logic.I|]. apply KA; [reflexivity|intros [X|X]; discriminate].
  - left. split.
    + intros q phq Hq. apply pass_in in Hq. destruct Hq as [ph0 [Hq0 [->| ->]]]; [exact (N q ph0 Hq0)|].
      pose proof (N q ph0 Hq0) as Nq. destruct ph0; cbn [behind]; auto. cbn [not_marking tguarded]. apply guarded_process.
    + destruct A as [A|[q [phq [Hq He]]]]; [left; exact A|right].
      apply In_nth_error in Hq. destruct Hq as [j Hj].
      exists q, phq. split; [|exact He].
      apply (nth_error_In _ j). rewrite pass_nth, Hj. destruct He as [-> | ->]; destruct (who (0 + j)%nat); reflexivity.
Qed.

Lemma again_lost f m' f' : item_pixels cg OpenCL <> [] -> launch cg OpenCL sc kind group ms f m' f' -> any_flag f' = true ->
  exists i, bit ms i = true /\ bit m' i = false.
Proof.
  intros Hne [s [P [Fin [-> ->]]]] Hf.
  assert (X : forall s0 s1, kernel_steps cg OpenCL sc kind group s0 s1 -> kernel_safe cg no_node ms s0 -> decreasing (khistory s0) ->
    nothing_yet s0 \/ lost s0 -> nothing_yet s1 \/ lost s1).
  { clear - Hs Hm. intros s0 s1 P. induction P as [s|s s1 s2 St P IH]; [auto|]. intros S D H.
    apply IH; [exact (kernel_step_safe cg OpenCL sc kind group Hs no_node ms s s1 (no_support cg) St S)|
      apply (kernel_step_decreasing cg OpenCL sc kind group no_node ms s s1 St S D)|].
    destruct H as [H|H]; [exact (step_nothing s s1 S St H)|right; exact (lost_later s s1 S St D H)]. }
  destruct (X _ _ P) as [[N A]|L]; [| | |exfalso|exact L].
  - apply launch_start_safe; [exact Hs|]. apply good_none; [exact Hm|apply sub_refl].
  - intros x [<-|[]]. apply sub_refl.
  - left. split; cbn [launch_start items kflags].
    + intros p ph H. apply in_map_iff in H. destruct H as [q [E _]]. injection E as <- <-. exact Logic.I.
    + right. destruct (item_pixels cg OpenCL) as [|p ps]; [contradiction|]. exists p, Enter.
      split; [left; reflexivity|left; reflexivity].
  - destruct A as [A|[p [ph [I [E|E]]]]]; [congruence| |]; rewrite (Fin p ph I) in E; discriminate.
Qed.
End Relaunch.

Section Bound.
Context {T : target}.
Variables (cg : cgraph T) (sc : bool) (kind : barrier_kind) (partition : (nat -> nat) -> Prop).
Hypothesis (Hs : static cg).

Lemma relaunch_less m f m' f' : mem_ok cg m -> item_pixels cg OpenCL <> [] ->
  some_launch cg OpenCL sc kind partition m f m' f' -> any_flag f' = true -> (available_count m' < available_count m)%nat.
Proof.
  intros Hm Hne L Hf. rewrite !count_ones.
  destruct (some_launch_sub cg OpenCL sc kind partition Hs m f m' f' Hm L) as [Hm' S].
  destruct L as [group [_ L]]. destruct (again_lost cg sc kind group m Hs Hm f m' f' Hne L Hf) as [i [B B']].
  apply (ones_lost m m' i); try assumption. rewrite Hm', Hm. reflexivity.
Qed.

Lemma relaunched_bound n m f m' f' : mem_ok cg m -> item_pixels cg OpenCL <> [] ->
  relaunched cg sc kind partition n m f m' f' -> mem_ok cg m' /\ (n + available_count m' <= available_count m)%nat.
Proof.
  intros Hm Hne R. induction R as [m f|n m f m1 f1 m' f' L A R IH]; [split; [exact Hm|lia]|].
  destruct (IH (proj1 (some_launch_sub cg OpenCL sc kind partition Hs m f m1 f1 Hm L))) as [H1 H2]. split; [exact H1|].
  pose proof (relaunch_less m f m1 f1 Hm Hne L A). lia.
Qed.

Lemma launches_bound (HL : laws T) n ps m f m' f' : mem_ok cg m -> item_pixels cg OpenCL <> [] -> pixels_ok cg ps ->
  labeling_launches cg sc kind partition n ps m f m' f' ->
  mem_ok cg m' /\ (n + available_count m' <= length ps + available_count m)%nat.
Proof.
  intros Hm Hne Hps L. revert Hm Hps.
  induction L as [ps m f|p ps n m b m1 f m' f' E R|p ps n n' m b m1 f m2 f2 m3 f3 m' f' E R L A LL IH]; intros Hm Hps.
  - split; [exact Hm|lia].
  - destruct (run_choose cg m p HL Hs Hm (Hps p (or_introl eq_refl))) as [b' [m1' [E' [Hm1 [Sub1 _]]]]].
    rewrite E in E'. injection E' as <- <-. destruct (relaunched_bound n m1 f m' f' Hm1 Hne R) as [H1 H2]. split; [exact H1|].
    assert (X := ones_sub m m1 (eq_trans Hm1 (eq_sym Hm)) Sub1). rewrite !count_ones in *. cbn [length]. lia.
  - destruct (run_choose cg m p HL Hs Hm (Hps p (or_introl eq_refl))) as [b' [m1' [E' [Hm1 [Sub1 _]]]]].
    rewrite E in E'. injection E' as <- <-. destruct (relaunched_bound n m1 f m2 f2 Hm1 Hne R) as [H1 H2].
    destruct (some_launch_sub cg OpenCL sc kind partition Hs m2 f2 m3 f3 H1 L) as [Hm3 S3].
    destruct (IH Hm3 (fun q Hq => Hps q (or_intror Hq))) as [H3 H4]. split; [exact H3|].
    assert (X := ones_sub m m1 (eq_trans Hm1 (eq_sym Hm)) Sub1).
    assert (Y := ones_sub m2 m3 (eq_trans Hm3 (eq_sym H1)) S3). rewrite !count_ones in *. cbn [length]. lia.
Qed.

(** Every complete labeling has a number of launches. *)
Lemma propagate_launches m f m' f' : propagate cg OpenCL sc kind partition m f m' f' ->
  exists n m1 f1, relaunched cg sc kind partition n m f m1 f1 /\ some_launch cg OpenCL sc kind partition m1 f1 m' f' /\ any_flag f' = false.
Proof.
  intros P. induction P as [m f m' f' L A|m f m1 f1 m' f' _ L A P [n [m2 [f2 [R H]]]]].
  - exists 0%nat, m, f. split; [constructor|]. auto.
  - exists (S n), m2, f2. split; [|exact H]. econstructor; eassumption.
Qed.
Lemma label_launches ps m f m' f' : label_device cg OpenCL sc kind partition ps m f m' f' ->
  exists n, labeling_launches cg sc kind partition n ps m f m' f'.
Proof.
  intros L. induction L as [m f|p ps m b m1 f m2 f2 m' f' E P LD [n IH]]; [exists 0%nat; constructor|].
  destruct (propagate_launches m1 f m2 f2 P) as [k [m3 [f3 [R [L A]]]]]. exists (k + S n)%nat. econstructor; eassumption.
Qed.
End Bound.

(** *** A launch that ends *)

Lemma run_decreases O c : forall m r m', owned O (fun (_ : bool) _ => True) m c -> run c m = Ok (r, m') ->
  (ones m' <= ones m)%nat /\ (truthful c -> r = true -> (ones m' < ones m)%nat).
Proof.
  induction c as [r0|s|i k IH|i b k IH]; intros m r m' Ow E; cbn [run owned truthful] in *.
  - injection E as <- <-. split; [lia|]. congruence.
  - discriminate.
  - destruct (get m i) as [b|] eqn:Gt; [|discriminate]. cbn [bind] in E.
    destruct (IH b m r m' (Ow b ltac:(intros _; unfold bit; rewrite Gt; reflexivity)) E) as [A B]. split; [exact A|]. intros Tr. apply B. apply Tr.
  - destruct Ow as [_ [Hi [-> [Hb Ow]]]]. rewrite set_in_bounds in E by exact Hi. cbn [bind] in E.
    destruct (IH _ r m' Ow E) as [A _]. pose proof (ones_clear m i Hi Hb). split; [lia|]. intros _ _. lia.
Qed.

Section Ending.
Context {T : target}.
Variables (cg : cgraph T) (a : api) (kind : barrier_kind) (group : nat -> nat).
Hypothesis Hs : static cg.

Lemma one_round h f ps : mem_ok cg (current h) -> ps <> [] -> (forall p, In p ps -> in_image (G cg) p) ->
  exists h' f', kernel_steps cg a true kind group
    {| items := map (fun p => (p, Reset)) ps; khistory := h; kflags := f |}
    {| items := map (fun p => (p, Test)) ps; khistory := h'; kflags := f' |} /\ mem_ok cg (current h') /\
    (ones (current h') <= ones (current h))%nat /\ (step_flag f' = true -> (ones (current h') < ones (current h))%nat).
Proof.
  intros Hm Hne Hin.
  destruct (Gpu_hang_proofs.sweep cg a kind group (fun _ => Reset) (fun _ => First)
    (fun rs h' f' => h' = h /\ (rs = [] -> step_flag f' = false))) with (rs := ps) (h := h) (f := f)
    as [h1 [f1 [P1 [-> Q1]]]].
  { intros p rs h0 f0 [-> _]. exists h, {| step_flag := false; any_flag := any_flag f0 |}.
    split; [|split; reflexivity]. econstructor; [apply item_reset|constructor]. }
  { split; [reflexivity|]. intros ->. contradiction. }
  specialize (Q1 eq_refl).
  pose proof (barrier_everybody cg a kind group First First ps h f1 Hne (or_introl eq_refl) eq_refl) as P2.
  destruct (Gpu_hang_proofs.sweep cg a kind group (fun p => Work (Run (csp_process_pixel cg p))) (fun _ => Second)
    (fun rs h' f' => mem_ok cg (current h') /\ (forall p, In p rs -> in_image (G cg) p) /\
       (ones (current h') <= ones (current h))%nat /\
       (step_flag f' = true -> (ones (current h') < ones (current h))%nat))) with (rs := ps) (h := h) (f := f1)
    as [h3 [f3 [P3 [Q3 [_ [Q4 Q5]]]]]].
  { intros p rs h0 f0 [Mh [Ir [Le Lt]]]. pose proof (Ir p (or_introl eq_refl)) as Hp.
    destruct (run_process cg p (current h0) Hs Mh Hp) as [ch R].
    destruct (run_item a _ h0 f0 _ _ R) as [h' [P E]].
    assert (Mh' : mem_ok cg (current h')) by (rewrite E; apply process_ok; exact Mh).
    destruct (run_decreases _ _ _ _ _ (process_owned cg p (current h0) Hs Mh Hp) R) as [D1 D2].
    specialize (D2 (process_truthful cg p)). rewrite <- E in D1, D2.
    destruct ch.
    - specialize (D2 eq_refl). exists h', {| step_flag := true; any_flag := match a with OpenCL => true | CUDA => any_flag f0 end |}.
      split; [|split; [exact Mh'|split; [intros q Hq; apply Ir; right; exact Hq|split; [lia|intros _; lia]]]].
      eapply item_steps_trans; [exact P|]. econstructor; [apply item_result|]. econstructor; [apply item_mark|]. destruct a.
      + econstructor; [apply item_mark_any|]. constructor.
      + constructor.
    - exists h', f0. split; [eapply item_steps_trans; [exact P|]; econstructor; [apply item_result|constructor]|].
      split; [exact Mh'|]. split; [intros q Hq; apply Ir; right; exact Hq|]. split; [lia|]. intros X. specialize (Lt X). lia. }
  { split; [exact Hm|]. split; [exact Hin|]. split; [lia|]. congruence. }
  exists h3, f3. split; [|auto].
  eapply kernel_steps_trans; [exact P1|]. eapply kernel_steps_trans; [exact P2|]. cbn [behind].
  eapply kernel_steps_trans; [exact P3|].
  exact (barrier_everybody cg a kind group Second Second ps h3 f3 Hne (or_intror eq_refl) eq_refl).
Qed.

Lemma lockstep k : forall h f ps, (ones (current h) <= k)%nat -> mem_ok cg (current h) -> ps <> [] -> (forall p, In p ps -> in_image (G cg) p) ->
  exists h' f', kernel_steps cg a true kind group
    {| items := map (fun p => (p, Reset)) ps; khistory := h; kflags := f |}
    {| items := map (fun p => (p, Done)) ps; khistory := h'; kflags := f' |}.
Proof.
  induction k as [|k IH]; intros h f ps Hk Hm Hne Hin;
    destruct (one_round h f ps Hm Hne Hin) as [h1 [f1 [P1 [Hm1 [Le Lt]]]]].
  all: destruct (Gpu_hang_proofs.sweep cg a kind group (fun _ => Test) (fun _ => if step_flag f1 then Reset else Done)
    (fun rs h' f' => h' = h1 /\ f' = f1)) with (rs := ps) (h := h1) (f := f1) as [h2 [f2 [P2 [-> ->]]]];
    [intros p rs h0 f0 [-> ->]; exists h1, f1; split; [|auto]; econstructor; [apply item_test; reflexivity|constructor]|auto|].
  all: destruct (step_flag f1) eqn:Ef;
    [specialize (Lt eq_refl)|exists h1, f1; eapply kernel_steps_trans; eassumption].
  - lia.
  - destruct (IH h1 f1 ps ltac:(lia) Hm1 Hne Hin) as [h3 [f3 P3]]. exists h3, f3.
    eapply kernel_steps_trans; [exact P1|]. eapply kernel_steps_trans; eassumption.
Qed.

Lemma launch_ends m f : mem_ok cg m -> item_pixels cg a <> [] -> exists m' f', launch cg a true kind group m f m' f'.
Proof.
  intros Hm Hne. assert (Hin : forall p, In p (item_pixels cg a) -> in_image (G cg) p) by (intros p; apply In_item_pixels; exact Hs).
  destruct (Gpu_hang_proofs.sweep cg a kind group (fun _ => match a with OpenCL => Enter | CUDA => Reset end) (fun _ => Reset)
    (fun rs h' f' => h' = [m])) with (rs := item_pixels cg a) (h := [m]) (f := f) as [h1 [f1 [P1 ->]]].
  { intros p rs h0 f0 ->. exists [m], match a with OpenCL => {| step_flag := false; any_flag := false |} | CUDA => f0 end.
    split; [|reflexivity]. destruct a.
    - econstructor; [apply item_enter|]. econstructor; [apply item_enter2|]. constructor.
    - constructor. }
  { reflexivity. }
  destruct (lockstep (ones m) [m] f1 (item_pixels cg a) (le_n _) Hm Hne Hin) as [h2 [f2 P2]].
  exists (current h2), f2. eexists. split; [eapply kernel_steps_trans; eassumption|]. split; [|split; reflexivity].
  intros p ph H. cbn [items] in H. apply in_map_iff in H. destruct H as [q [E _]]. congruence.
Qed.
End Ending.

(** Sequentially consistent executions are executions of weaker memory too. *)
Section Weaker.
Context {T : target}.
Variables (cg : cgraph T) (a : api) (sc : bool) (kind : barrier_kind) (group : nat -> nat).

Lemma loads_any h w : h <> [] -> loads true h w -> loads sc h w.
Proof.
  intros Hne L. unfold loads in *. subst w. destruct sc; [reflexivity|]. destruct h as [|m h]; [contradiction|left; reflexivity].
Qed.
Lemma item_any ph h f ph' h' f' : h <> [] -> item_step a true ph h f ph' h' f' -> item_step a sc ph h f ph' h' f' /\ h' <> [].
Proof.
  intros Hne St. destruct St as [h f|h f|h f|t t' h h' f St|r h f|h f|h f|b h f Hb].
  4: { destruct St as [i k h w b L Gt|i b k h w L Hi|i b w k h].
       - split; [apply item_work; econstructor; [apply loads_any; eassumption|exact Gt]|exact Hne].
       - split; [apply item_work; econstructor; [apply loads_any; eassumption|exact Hi]|exact Hne].
       - split; [apply item_work; constructor|discriminate]. }
  all: (split; [|exact Hne]); try constructor. intros _. apply Hb. reflexivity.
Qed.
Lemma steps_any s s' : khistory s <> [] -> kernel_steps cg a true kind group s s' -> kernel_steps cg a sc kind group s s'.
Proof.
  intros Hne P. induction P as [s|s s1 s2 St P IH]; [constructor|].
  destruct St as [i p ph ph' l h h' f f' E St|b who l h f Hb Hp]; cbn [khistory] in *.
  - destruct (item_any _ _ _ _ _ _ Hne St) as [St' Hne']. econstructor; [econstructor; eassumption|]. apply IH. exact Hne'.
  - econstructor; [econstructor; eassumption|]. apply IH. exact Hne.
Qed.
Lemma launch_any m f m' f' : launch cg a true kind group m f m' f' -> launch cg a sc kind group m f m' f'.
Proof. intros [s [P H]]. exists s. split; [|exact H]. apply steps_any; [discriminate|exact P]. Qed.
End Weaker.

Section Device.
Context {T : target}.
Variables (cg : cgraph T) (a : api) (sc : bool) (kind : barrier_kind) (partition : (nat -> nat) -> Prop) (group : nat -> nat).
Hypothesis (Hs : static cg) (Hg : partition group) (Hne : item_pixels cg a <> []).

Lemma some_ends m f : mem_ok cg m -> exists m' f', some_launch cg a sc kind partition m f m' f'.
Proof.
  intros Hm. destruct (launch_ends cg a kind group Hs m f Hm Hne) as [m' [f' L]].
  exists m', f', group. split; [exact Hg|]. apply launch_any. exact L.
Qed.

Lemma propagate_ends_some k : forall m f, (available_count m <= k)%nat -> mem_ok cg m ->
  exists m' f', propagate cg a sc kind partition m f m' f'.
Proof.
  induction k as [|k IH]; intros m f Hk Hm; destruct (some_ends m f Hm) as [m1 [f1 L]];
    (assert (Ha : a = OpenCL /\ any_flag f1 = true \/ (a = OpenCL -> any_flag f1 = false));
     [destruct a; [destruct (any_flag f1); [left; auto|right; reflexivity]|right; discriminate]|
      destruct Ha as [[Ha Hf]|Ha]; [|exists m1, f1; apply propagate_once; assumption]]).
  all: assert (Lt : (available_count m1 < available_count m)%nat) by
    (revert Hne L; rewrite Ha; intros Hne L; apply (relaunch_less cg sc kind partition Hs m f m1 f1); assumption).
  - lia.
  - destruct (IH m1 f1 ltac:(lia)) as [m' [f' P]]; [apply (some_launch_sub cg a sc kind partition Hs m f m1 f1 Hm L)|].
    exists m', f'. eapply propagate_again; eassumption.
Qed.

Lemma label_ends (HL : laws T) ps : forall m f, pixels_ok cg ps -> mem_ok cg m -> exists m' f', label_device cg a sc kind partition ps m f m' f'.
Proof.
  induction ps as [|p ps IH]; intros m f Hps Hm; [exists m, f; constructor|].
  destruct (run_choose cg m p HL Hs Hm (Hps p (or_introl eq_refl))) as [b [m1 [E [Hm1 _]]]].
  destruct (propagate_ends_some _ m1 f (le_n _) Hm1) as [m2 [f2 P]].
  destruct (IH m2 f2 (fun q Hq => Hps q (or_intror Hq))) as [m' [f' L]];
    [apply (propagate_sub cg a sc kind partition Hs m1 f m2 f2 Hm1 P)|].
  exists m', f'. econstructor; eassumption.
Qed.
End Device.

Lemma pixels_there {T : target} (cg : cgraph T) a : static cg -> item_pixels cg a <> [].
Proof.
  intros Hs E. pose proof (proj2 (In_item_pixels cg a Hs {| px := 0; py := 0 |}) (origin_in cg Hs)) as X. rewrite E in X. destruct X.
Qed.
Lemma order_ok {T : target} (cg : cgraph T) : pixels_ok cg (device_order cg).
Proof. intros p Hp. apply In_all_pixels in Hp. exact Hp. Qed.

Lemma device_ends {T : target} (cg : cgraph T) a sc kind partition : laws T -> wf_cgraph cg -> (exists group, partition group) ->
  exists m', csp_solution cg a sc kind partition m'.
Proof.
  intros HL Hc [group Hg]. pose proof (wf_static cg Hc) as Hs.
  destruct (label_ends cg a sc kind partition group Hs Hg (pixels_there cg a Hs) HL (device_order cg) (cg_avail cg)
    {| step_flag := false; any_flag := false |} (order_ok cg)) as [m' [f' L]]; [apply Hc|].
  exists m', {| step_flag := false; any_flag := false |}, f'. split; [reflexivity|exact L].
Qed.

Lemma len_order {T : target} (cg : cgraph T) : len (device_order cg) = width (right (G cg)) * height (right (G cg)).
Proof.
  unfold device_order. cbv zeta. generalize (width (right (G cg))) as w, (height (right (G cg))) as h. intros w h.
  transitivity (len (range 0 w) * h); [|rewrite len_range; f_equal; lia].
  induction (range 0 w) as [|x xs IH]; cbn [flat_map]; [reflexivity|].
  unfold len in *. rewrite app_length, map_length. cbn [length].
  pose proof (len_range 0 h) as L. unfold len in L. lia.
Qed.
Lemma device_launches {T : target} (cg : cgraph T) sc kind partition n f m' f' : laws T -> wf_cgraph cg ->
  labeling_launches cg sc kind partition n (device_order cg) (cg_avail cg) f m' f' ->
  N.of_nat (n + available_count m') <= width (right (G cg)) * height (right (G cg)) + N.of_nat (available_count (cg_avail cg)).
Proof.
  intros HL Hc L. pose proof (wf_static cg Hc) as Hs.
  destruct (launches_bound cg sc kind partition Hs HL n (device_order cg) (cg_avail cg) f m' f') as [_ X];
    [apply Hc|apply pixels_there; exact Hs|apply order_ok|exact L|].
  replace (width (right (G cg)) * height (right (G cg))) with (len (device_order cg)).
  - unfold len. lia.
  - apply len_order.
Qed.
Lemma count_len m : N.of_nat (available_count m) <= len m.
Proof.
  unfold available_count, len. induction m as [|[] m IH]; cbn [filter length]; lia.
Qed.
Lemma device_launches_levels {T : target} (cg : cgraph T) sc kind partition n f m' f' : laws T -> wf_cgraph cg ->
  labeling_launches cg sc kind partition n (device_order cg) (cg_avail cg) f m' f' ->
  N.of_nat n <= width (right (G cg)) * height (right (G cg)) * (levels (G cg) + 1).
Proof.
  intros HL Hc L. pose proof (device_launches cg sc kind partition n f m' f' HL Hc L) as X.
  pose proof (count_len (cg_avail cg)) as Y. assert (Z : mem_ok cg (cg_avail cg)) by apply Hc. unfold mem_ok in Z. rewrite Z in Y. lia.
Qed.
Lemma device_counted {T : target} (cg : cgraph T) sc kind partition m' : csp_solution cg OpenCL sc kind partition m' ->
  exists n f', labeling_launches cg sc kind partition n (device_order cg) (cg_avail cg) {| step_flag := false; any_flag := false |} m' f'.
Proof.
  intros [f [f' [Hf L]]]. rewrite (Hf eq_refl) in L. destruct (label_launches cg sc kind partition _ _ _ _ _ L) as [n H]. exists n, f'. exact H.
Qed.
Lemma relaunches {T : target} (cg : cgraph T) sc kind partition n f m' f' : wf_cgraph cg ->
  relaunched cg sc kind partition n (cg_avail cg) f m' f' -> (n + available_count m' <= available_count (cg_avail cg))%nat.
Proof.
  intros Hc R. pose proof (wf_static cg Hc) as Hs.
  apply (relaunched_bound cg sc kind partition Hs n (cg_avail cg) f m' f'); [apply Hc|apply pixels_there; exact Hs|exact R].
Qed.

(** *** Runs of the application *)

Lemma labels_exist a v cg : wf_cgraph cg -> addressable a (right (cg_graph cg)) (levels (cg_graph cg)) ->
  (exists group, b_partition v group) -> exists x, labels (On a) v cg x.
Proof.
  intros Hc Hf Hg. destruct a.
  - destruct (device_ends (opencl_problem cg) OpenCL (b_sc v) (b_kind v) (b_partition v) opencl_laws) as [m CS]; [|exact Hg|].
    { exact (device_problem_wf (T := opencl) to_single (fun n => n) (fun n _ => eq_refl) cg Hc Hf). }
    exists (Ok (true, with_avail cg m)), (with_avail cg m). split; [|reflexivity]. exists m. split; [exact CS|reflexivity].
  - destruct (device_ends (cuda_problem cg) CUDA (b_sc v) (b_kind v) (b_partition v) cuda_laws) as [m CS]; [|exact Hg|].
    { exact (device_problem_wf (T := cuda) to_single (fun n => n mod 2 ^ 32) (fun n H => N.mod_small _ _ H) cg Hc Hf). }
    exists (Ok (true, with_avail cg m)), (with_avail cg m). split; [|reflexivity]. exists m. split; [exact CS|reflexivity].
Qed.

Lemma runs_exist b v srt w o lpath rpath out a :
  sorts srt -> usable_files w -> all_paths o lpath rpath out -> chosen b (o_parallel o) = Ok (On a) ->
  (forall l lev, file_holds w lpath l -> option_number (width l) (o_levels o) lev -> lev <= width l -> addressable a l lev) ->
  (exists group, b_partition v group) -> exists e, main_with b v srt w (Parsed o) e.
Proof.
  intros Hs U [E1 [E2 E3]] Ec Ad Hg. unfold main_with. rewrite E1, E2, E3, Ec.
  cut (exists x, map_with (On a) v srt w o lpath rpath x); [intros [x H]; exists (finishes w out x), x; auto|].
  unfold map_with.
  destruct (read_total w lpath U) as [[l El]|[y Ey]]; [|rewrite Ey; eexists; reflexivity]. rewrite El. cbn [bind].
  destruct (read_total w rpath U) as [[r Er]|[y Ey]]; [|rewrite Ey; eexists; reflexivity]. rewrite Er. cbn [bind].
  destruct (number_total (width l) (o_levels o)) as [[lev Elev]|[y Ey]]; [|rewrite Ey; eexists; reflexivity]. rewrite Elev. cbn [bind].
  destruct (number_total 1 (o_cleanness o)) as [[c Ecl]|[y Ey]]; [|rewrite Ey; eexists; reflexivity]. rewrite Ecl. cbn [bind].
  destruct (number_total 1 (o_smoothness o)) as [[s Es]|[y Ey]]; [|rewrite Ey; eexists; reflexivity]. rewrite Es. cbn [bind].
  apply read_held in El. apply read_held in Er. apply number_value in Elev. apply number_value in Ecl. apply number_value in Es.
  destruct (held_usable w lpath l U El) as [S1 S2]. destruct (held_usable w rpath r U Er) as [S3 _].
  pose proof (held_consistent _ _ _ El) as Cl. pose proof (held_consistent _ _ _ Er) as Cr.
  unfold solves_with.
  destruct (made_total l r lev (@of_u cpu c) (of_u s)) as [[g Eg]|[[k Ek]|Ek]]; try assumption; [discriminate| | |].
  - assert (Hf : finite_penalties g).
    { eapply made_finite; try eassumption; try (eapply number_small; [|eassumption]; reflexivity).
      intros u [Hv|Hv]; [apply (proj2 (held_small _ _ _ El) u Hv)|apply (proj2 (held_small _ _ _ Er) u Hv)]. }
    destruct (make_graph_Ok l r lev _ _ g Eg) as [_ [_ [_ [Lw [Ww [Wh [_ [_ [_ [_ [_ E]]]]]]]]]]].
    assert (A : addressable a r lev).
    { pose proof (Ad l lev El Elev Lw) as X. unfold addressable in *. rewrite <- Ww, <- Wh. exact X. }
    destruct (prepared_accepted cpu_laws srt l r lev _ _ g Hs Eg Cl Cr (problem_fits _ _ _ _ _ _ Eg S2) Hf)
      as [lp [cands [t [cg [_ [_ [_ [Ep [C [EG _]]]]]]]]]].
    rewrite Ep. destruct (labels_exist a v cg C) as [x Hx].
    { rewrite EG, E. exact A. }
    { exact Hg. }
    exists (mapped x), x. auto.
  - unfold prepared. rewrite Ek. eexists. reflexivity.
  - unfold prepared. rewrite Ek. eexists. reflexivity.
Qed.
