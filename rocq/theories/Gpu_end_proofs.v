(** Every launch ends on sequentially consistent memory, or is stuck at a barrier. *)
From Verif Require Export Gpu_host_proofs.
Local Open Scope N_scope.

(** *** Programs that change only available elements of their own *)

Section Own.
Variable O : N -> Prop.

Fixpoint owned {A} (Q : A -> mem -> Prop) (m : mem) (c : cmd A) : Prop :=
  match c with
  | Ret r => Q r m
  | Fail _ => True
  | Read i k => forall b, (O i -> b = bit m i) -> owned Q m (k b)
  | Write i b k => O i /\ i < len m /\ b = false /\ bit m i = true /\ owned Q (upd m (N.to_nat i) false) k
  end.

Lemma owned_bind {A B} (Q : A -> mem -> Prop) (Q' : B -> mem -> Prop) c f : (forall r m, Q r m -> owned Q' m (f r)) ->
  forall m, owned Q m c -> owned Q' m (cbind c f).
Proof.
  intros H. induction c as [r|s|i k IH|i b k IH]; intros m Hc; cbn [cbind owned] in *; auto.
  destruct Hc as [H1 [H2 [H3 [H4 H5]]]]. auto 6.
Qed.

Lemma owned_readonly {A} (Q : A -> mem -> Prop) c m : readonly c -> (forall r, Q r m) -> owned Q m c.
Proof. intros R H. induction c as [r|s|i k IH|i b k IH]; cbn [readonly owned] in *; auto. contradiction. Qed.

Lemma owned_ext {A} c : forall m m', len m = len m' -> (forall i, O i -> bit m i = bit m' i) ->
  owned (fun (_ : A) _ => True) m c -> owned (fun _ _ => True) m' c.
Proof.
  induction c as [r|s|i k IH|i b k IH]; intros m m' L E H; cbn [owned] in *; auto.
  - intros b Hb. apply (IH b m m' L E), H. intros Oi. rewrite E by exact Oi. auto.
  - destruct H as [H1 [H2 [H3 [H4 H5]]]]. split; [exact H1|]. split; [lia|]. split; [exact H3|].
    split; [rewrite <- E by exact H1; exact H4|]. eapply IH; [| |exact H5].
    + rewrite !len_upd. exact L.
    + intros j Oj. rewrite !bit_upd by lia. destruct (j =? i); auto.
Qed.

Definition towned (m : mem) (t : thread bool) : Prop :=
  match t with
  | Run c => owned (fun _ _ => True) m c
  | Store i b _ k => owned (fun _ _ => True) m (Write i b k)
  end.

Lemma towned_ext t m m' : len m = len m' -> (forall i, O i -> bit m i = bit m' i) -> towned m t -> towned m' t.
Proof. intros L E H. destruct t as [c|i b w k]; eapply owned_ext; eassumption. Qed.
End Own.

(** All results before a change are false, all results after one are true. *)
Fixpoint truthful (c : cmd bool) : Prop :=
  match c with
  | Ret r => r = false
  | Fail _ => True
  | Read _ k => forall b, truthful (k b)
  | Write _ _ k => must k
  end.
Definition ttruthful (t : thread bool) : Prop :=
  match t with Run c => truthful c | Store _ _ _ k => must k end.

(** *** Sums *)

Definition ones (m : mem) : nat := list_sum (map (fun b : bool => if b then 1%nat else 0%nat) m).

Lemma ones_clear m i : i < len m -> bit m i = true -> (ones (upd m (N.to_nat i) false) < ones m)%nat.
Proof.
  intros Hi Hb. unfold ones. rewrite map_upd. apply list_sum_upd with (v := 1%nat); [|lia].
  rewrite nth_error_map. pose proof (bit_get m i Hi) as E. rewrite Hb in E. unfold get in E.
  destruct (i <? len m); [|discriminate]. destruct (nth_error m (N.to_nat i)) as [x|]; [|discriminate].
  injection E as ->. reflexivity.
Qed.

Lemma sum_upd {A} (w w' : A -> nat) l i x x' : nth_error l i = Some x -> (w' x' < w x)%nat ->
  (forall y, In y l -> w' y <= w y)%nat -> (list_sum (map w' (upd l i x')) < list_sum (map w l))%nat.
Proof.
  revert i; induction l as [|y l IH]; intros [|i] E Hx Hl; try discriminate; cbn [nth_error upd map] in *; rewrite !list_sum_cons.
  - injection E as ->. assert (list_sum (map w' l) <= list_sum (map w l))%nat; [|lia].
    clear -Hl. induction l as [|z l IH]; [cbn; lia|]. cbn [map]. rewrite !list_sum_cons.
    pose proof (Hl z (or_intror (or_introl eq_refl))). assert (list_sum (map w' l) <= list_sum (map w l))%nat; [|lia].
    apply IH. intros y0 [->|H0]; apply Hl; [left; reflexivity|right; right; exact H0].
  - specialize (IH i E Hx (fun z Hz => Hl z (or_intror Hz))). pose proof (Hl y (or_introl eq_refl)). lia.
Qed.

Section Graph.
Context {T : target}.
Implicit Type cg : cgraph T.
Notation G cg := (cg_graph cg).
Notation nd p d := {| npix := p; disp := d |}.

Definition own cg (p : pixel) (i : N) : Prop := exists d, inb cg (nd p d) /\ node_index (G cg) (nd p d) = i.

Lemma own_other cg p q i : static cg -> own cg p i -> own cg q i -> p = q.
Proof.
  intros Hs [d [H1 <-]] [d' [H2 E]]. apply idx_inj in E; try assumption. congruence.
Qed.

Lemma process_truthful cg p : truthful (csp_process_pixel cg p).
Proof.
  pose proof (process_wmust cg p) as W. revert W. unfold csp_process_pixel.
  induction (disparities_right (G cg) (px p)) as [|d ds IH]; cbn [cloop]; [reflexivity|]. cbv zeta.
  pose proof (readonly_should_remove cg (nd p d)) as R. revert R.
  generalize (should_remove_node cg (nd p d)) as c. intros c R.
  induction c as [r|s|i k IHc|i b k IHc]; cbn [cbind wmust truthful readonly] in *; auto.
  destruct r; cbn [make_node_unavailable cbind wmust truthful]; auto.
Qed.

Lemma process_owned cg p m : static cg -> mem_ok cg m -> in_image (G cg) p ->
  owned (own cg p) (fun _ _ => True) m (csp_process_pixel cg p).
Proof.
  intros Hs Hm Hp. unfold csp_process_pixel.
  rewrite disparities_right_eq by (try apply Hp; apply Hs). fold (disps cg p).
  pose proof (dispsok_disps cg p Hs Hp) as Hd. generalize false as ch.
  revert m Hm. induction (disps cg p) as [|d ds IH]; intros m Hm ch; cbn [cloop]; [exact I|]. cbv zeta.
  assert (Hn : inb cg (nd p d)) by (apply Hd; left; reflexivity).
  assert (Hds : dispsok cg p ds) by (intros x Hx; apply Hd; right; exact Hx).
  apply (owned_bind _ (fun _ m' => mem_ok cg m')); [intros r m1 Hm1; apply IH; assumption|].
  apply (owned_bind _ (fun r m' => m' = m /\ (r = true -> avb cg m (nd p d) = true))).
  - intros r m1 [-> Hr]. destruct r; [|exact Hm]. cbn [make_node_unavailable cbind owned].
    split; [exists d; auto|]. split; [apply idx_lt; assumption|]. split; [reflexivity|].
    split; [apply (Hr eq_refl)|]. unfold mem_ok. rewrite len_upd. exact Hm.
  - unfold should_remove_node. apply (owned_bind _ (fun r m' => m' = m /\ r = avb cg m (nd p d))).
    + intros r m1 [-> ->]. destruct (avb cg m (nd p d)) eqn:Ea; cbn [negb].
      * apply owned_readonly; [|intros r; split; [reflexivity|auto]].
        pose proof (readonly_should_remove cg (nd p d)) as R. unfold should_remove_node in R.
        cbn [is_node_available cbind readonly] in R. specialize (R true). cbn [negb cbind] in R. exact R.
      * cbn [owned]. split; [reflexivity|discriminate].
    + cbn [is_node_available owned]. intros b Hb. split; [reflexivity|]. apply Hb. exists d. auto.
Qed.

Lemma NoDup_item_pixels cg a : static cg -> NoDup (item_pixels cg a).
Proof.
  intros [Hw _]. unfold item_pixels. cbv zeta. pose proof (wf_sizes _ Hw) as Z. pose proof (sz_w _ Z). destruct a.
  - apply NoDup_map_inj; [|apply NoDup_range]. intros i j _ _ E. injection E as E1 E2.
    rewrite (N.div_mod i (width (right (G cg)))), (N.div_mod j (width (right (G cg)))) by lia. congruence.
  - apply NoDup_flat_map; [apply NoDup_range| |].
    + intros x _. apply NoDup_map_inj; [|apply NoDup_range]. intros y y' _ _ E. injection E; auto.
    + intros x x' p _ _ H1 H2. apply in_map_iff in H1, H2. destruct H1 as [y [<- _]], H2 as [y' [E _]]. congruence.
Qed.

(** *** The measure *)

Section Launch.
Variables (cg : cgraph T) (a : api) (kind : barrier_kind) (group : nat -> nat) (ms : mem) (D : nat).
Hypothesis Hs : static cg.

Definition pos (ph : phase) : nat :=
  match ph with
  | Enter => D + 9 | Enter2 => D + 8 | Reset => D + 7 | First => D + 6
  | Work t => tdepth t + 5 | MarkStep => 4 | MarkAny => 3 | Second => 2 | Test => 1 | Done => 0
  end.
Definition sees (ph : phase) : bool :=
  match ph with Enter | Enter2 | Reset | Done => false | _ => true end.
Definition weight (marks : nat) (f : flags) (x : pixel * phase * bool) : nat :=
  (marks + if sees (snd (fst x)) && step_flag f then 1 else 0) * (D + 10) + pos (snd (fst x)).

(** [snd]: the work-item has changed something since the last barrier and has not yet
    said so. *)
Definition item_ok (m : mem) (x : pixel * phase * bool) : Prop :=
  in_image (G cg) (fst (fst x)) /\ (depth (csp_process_pixel cg (fst (fst x))) <= D)%nat /\
  match snd (fst x) with
  | Work t => towned (own cg (fst (fst x))) m t /\ if snd x then tmust t else ttruthful t
  | MarkStep => snd x = true
  | _ => snd x = false
  end.

Definition marks_left (gl : list (pixel * phase * bool)) (m : mem) : nat :=
  ones m + list_sum (map (fun x => if snd x : bool then 1%nat else 0%nat) gl).
Definition total_weight (gl : list (pixel * phase * bool)) (m : mem) (f : flags) : nat :=
  list_sum (map (weight (marks_left gl m) f) gl).

Definition counted (n : nat) (s : kernel_state) : Prop :=
  exists gl, items s = map fst gl /\ NoDup (map fst (items s)) /\ kernel_safe cg no_node ms s /\
    (forall x, In x gl -> item_ok (current (khistory s)) x) /\
    total_weight gl (current (khistory s)) (kflags s) = n.

Lemma weight_mono marks marks' f f' x : (marks' <= marks)%nat ->
  (marks' + (if step_flag f' then 1 else 0) <= marks + (if step_flag f then 1 else 0))%nat ->
  (weight marks' f' x <= weight marks f x)%nat.
Proof.
  intros H1 H2. unfold weight. apply Nat.add_le_mono_r, Nat.mul_le_mono_r.
  destruct (sees (snd (fst x))), (step_flag f), (step_flag f'); cbn [andb]; lia.
Qed.

Lemma nth_map_fst {A B} (l : list (A * B)) i x : nth_error (map fst l) i = Some x ->
  exists y, nth_error l i = Some (x, y).
Proof.
  rewrite nth_error_map. destruct (nth_error l i) as [[u v]|]; [|discriminate]. cbn [option_map fst].
  intros E; injection E as ->. eauto.
Qed.

Lemma sum_flags gl i (x x' : pixel * phase * bool) : nth_error gl i = Some x ->
  (list_sum (map (fun x => if snd x : bool then 1%nat else 0%nat) (upd gl i x')) + (if snd x then 1 else 0) =
   list_sum (map (fun x => if snd x : bool then 1%nat else 0%nat) gl) + if snd x' then 1 else 0)%nat.
Proof.
  revert i; induction gl as [|y gl IH]; intros [|i] E; try discriminate; cbn [nth_error upd map] in *; rewrite !list_sum_cons.
  - injection E as ->. lia.
  - specialize (IH i E). lia.
Qed.

(** Others are not disturbed. *)
Lemma others_ok gl i p ph g (m m' : mem) : (forall x, In x gl -> item_ok m x) -> NoDup (map fst (map fst gl)) ->
  nth_error gl i = Some (p, ph, g) -> len m' = len m -> (forall j, ~ own cg p j -> bit m' j = bit m j) ->
  forall j x, nth_error gl j = Some x -> j <> i -> item_ok m' x.
Proof.
  intros Ok ND Ei L E j [[q phq] gq] Ej Hne. pose proof (Ok _ (nth_error_In _ _ Ej)) as [H1 [H2 H3]].
  split; [exact H1|]. split; [exact H2|]. cbn [fst snd] in *. destruct phq as [| | | |t| | | | |]; try exact H3.
  destruct H3 as [H3 H4]. split; [|exact H4]. eapply towned_ext; [symmetry; exact L| |exact H3].
  intros k Ok'. symmetry. apply E. intros Ok2. apply Hne.
  pose proof (own_other cg _ _ _ Hs Ok' Ok2) as X. cbn [fst] in X. subst q.
  assert (Li : (j < length (map fst (map fst gl)))%nat).
  { rewrite !map_length. apply nth_error_Some. congruence. }
  apply (proj1 (NoDup_nth_error _) ND _ _ Li). rewrite !nth_error_map, Ei, Ej. reflexivity.
Qed.

Lemma in_upd_nth {A} (l : list A) i v x : In x (upd l i v) -> x = v \/ exists j, nth_error l j = Some x /\ j <> i.
Proof.
  revert i; induction l as [|y l IH]; intros i H; [destruct i; destruct H|].
  destruct i as [|i]; cbn [upd] in H; destruct H as [<-|H].
  - left. reflexivity.
  - right. apply In_nth_error in H. destruct H as [j E]. exists (S j). split; [exact E|lia].
  - right. exists 0%nat. split; [reflexivity|lia].
  - destruct (IH i H) as [X|[j [E N]]]; [left; exact X|right]. exists (S j). split; [exact E|lia].
Qed.

Lemma item_counted i p ph ph' l h h' f f' n : nth_error l i = Some (p, ph) -> item_step a true ph h f ph' h' f' ->
  counted n {| items := l; khistory := h; kflags := f |} ->
  exists n', (n' < n)%nat /\ counted n' {| items := upd l i (p, ph'); khistory := h'; kflags := f' |}.
Proof.
  intros E St [gl [El [ND [Sf [Ok <-]]]]]. cbn [items khistory kflags] in *. subst l.
  pose proof (kernel_step_safe cg a true kind group Hs no_node ms _ _ (no_support cg) (kernel_item cg a true kind group i p ph ph' _ h h' f f' E St) Sf) as Sf'.
  destruct (nth_map_fst _ _ _ E) as [g Eg].
  pose proof (Ok _ (nth_error_In _ _ Eg)) as [Hp [HD Hi]]. cbn [fst snd] in *.
  pose proof (good_current _ _ _ _ (proj2 Sf)) as [Lm _]. cbn [khistory] in Lm.
  (* it is enough to find the new ghost value *)
  assert (Enough : forall g', len (current h') = len (current h) ->
     (forall j, ~ own cg p j -> bit (current h') j = bit (current h) j) ->
     item_ok (current h') (p, ph', g') ->
     (ones (current h') + (if g' then 1 else 0) <= ones (current h) + (if g then 1 else 0))%nat ->
     (ones (current h') + (if g' then 1 else 0) + (if step_flag f' then 1 else 0) <=
      ones (current h) + (if g then 1 else 0) + (if step_flag f then 1 else 0))%nat ->
     (forall marks marks', (marks' <= marks)%nat -> (marks' + (if step_flag f' then 1 else 0) <= marks + (if step_flag f then 1 else 0))%nat ->
        weight marks' f' (p, ph', g') < weight marks f (p, ph, g))%nat ->
     exists n', (n' < total_weight gl (current h) f)%nat /\
       counted n' {| items := upd (map fst gl) i (p, ph'); khistory := h'; kflags := f' |}).
  { intros g' L Eb Ok' M1 M2 W. exists (total_weight (upd gl i (p, ph', g')) (current h') f'). split.
    - unfold total_weight. pose proof (sum_flags gl i (p, ph, g) (p, ph', g') Eg) as SF. cbn [snd] in SF.
      assert (B1 : (marks_left (upd gl i (p, ph', g')) (current h') <= marks_left gl (current h))%nat) by (unfold marks_left; lia).
      assert (B2 : (marks_left (upd gl i (p, ph', g')) (current h') + (if step_flag f' then 1 else 0) <=
                    marks_left gl (current h) + (if step_flag f then 1 else 0))%nat) by (unfold marks_left; lia).
      eapply sum_upd; [exact Eg|apply W; assumption|]. intros y _. apply weight_mono; assumption.
    - exists (upd gl i (p, ph', g')). cbn [items khistory kflags]. split; [rewrite map_upd; reflexivity|].
      split; [rewrite (map_fst_upd _ _ _ _ _ E); exact ND|]. split; [exact Sf'|]. split; [|reflexivity].
      intros x Hx. apply in_upd_nth in Hx. destruct Hx as [->|[j [Ej Nj]]]; [exact Ok'|].
      eapply others_ok; try eassumption. }
  destruct St as [h f|h f|h f|t t' h h' f St|r h f|h f|h f|b h f Hb].
  - apply (Enough g); auto; try (split; [exact Hp|split; [exact HD|exact Hi]]); cbn [step_flag];
      [destruct (step_flag f); lia|]. intros marks marks' H1 H2. unfold weight. cbn [fst snd sees andb pos]. nia.
  - apply (Enough g); auto; try (split; [exact Hp|split; [exact HD|exact Hi]]). cbn [step_flag].
    intros marks marks' H1 H2. unfold weight. cbn [fst snd sees andb pos]. nia.
  - apply (Enough g); auto; try (split; [exact Hp|split; [exact HD|exact Hi]]); cbn [step_flag];
      [destruct (step_flag f); lia|]. intros marks marks' H1 H2. unfold weight. cbn [fst snd sees andb pos step_flag]. nia.
  - destruct Hi as [Ho Hg].
    assert (Wt : forall g' marks marks', (marks' <= marks)%nat ->
       (weight marks' f (p, Work t', g') < weight marks f (p, Work t, g))%nat).
    { intros g' marks marks' H1. pose proof (tstep_depth _ _ _ _ _ _ St). unfold weight. cbn [fst snd sees andb pos].
      assert ((marks' + (if step_flag f then 1 else 0)) * (D + 10) <= (marks + (if step_flag f then 1 else 0)) * (D + 10))%nat
        by (apply Nat.mul_le_mono_r; lia). lia. }
    destruct St as [j k h w b Lo Gt|j b k h w Lo Hj|j b w k h].
    + cbn [loads] in Lo. subst w. apply (Enough g); auto.
      split; [exact Hp|]. split; [exact HD|]. cbn [fst snd towned owned] in *. split.
      * apply Ho. intros _. symmetry. apply bit_get_Ok. exact Gt.
      * destruct g; cbn [tmust ttruthful must truthful] in *; apply Hg.
    + cbn [loads] in Lo. subst w. apply (Enough g); auto.
      split; [exact Hp|]. split; [exact HD|]. cbn [fst snd towned] in *. split; [exact Ho|].
      destruct g; exact Hg.
    + cbn [towned owned] in Ho. destruct Ho as [O1 [O2 [-> [O4 O5]]]].
      assert (Ec : current (store_word 1 j false w (current h) :: h) = upd (current h) (N.to_nat j) false).
      { cbn [current hd]. apply store_one. exact O2. }
      rewrite Ec in *. pose proof (ones_clear (current h) j O2 O4) as Lt.
      assert (Mk : must k) by (destruct g; exact Hg).
      apply (Enough true).
      * apply len_upd.
      * intros q Hq. rewrite bit_upd by exact O2. destruct (N.eqb_spec q j) as [->|_]; [contradiction|reflexivity].
      * split; [exact Hp|]. split; [exact HD|]. cbn [fst snd towned]. split; [exact O5|exact Mk].
      * destruct g; lia.
      * destruct g; lia.
      * intros marks marks' H1 _. apply Wt. exact H1.
  - destruct Hi as [_ Hg]. apply (Enough g); auto.
    + split; [exact Hp|]. split; [exact HD|]. cbn [fst snd]. destruct g; cbn [tmust must ttruthful truthful] in Hg; subst r; reflexivity.
    + intros marks marks' H1 H2. unfold weight. cbn [fst snd sees andb pos tdepth depth].
      assert ((marks' + (if step_flag f then 1 else 0)) * (D + 10) <= (marks + (if step_flag f then 1 else 0)) * (D + 10))%nat
        by (apply Nat.mul_le_mono_r; lia). destruct r; cbn [sees andb pos]; lia.
  - subst g. apply (Enough false); auto.
    + split; [exact Hp|]. split; [exact HD|]. cbn [fst snd]. destruct a; reflexivity.
    + lia.
    + cbn [step_flag]. destruct (step_flag f); lia.
    + cbn [step_flag]. intros marks marks' H1 H2. unfold weight.
      assert ((marks' + 1) * (D + 10) <= (marks + (if step_flag f then 1 else 0)) * (D + 10))%nat
        by (apply Nat.mul_le_mono_r; lia). destruct a; cbn [fst snd sees andb pos step_flag]; lia.
  - apply (Enough g); auto; try (split; [exact Hp|split; [exact HD|exact Hi]]). cbn [step_flag].
    intros marks marks' H1 H2. unfold weight. cbn [fst snd sees andb pos step_flag].
    assert ((marks' + (if step_flag f then 1 else 0)) * (D + 10) <= (marks + (if step_flag f then 1 else 0)) * (D + 10))%nat
        by (apply Nat.mul_le_mono_r; lia). lia.
  - rewrite (Hb eq_refl) in *. apply (Enough g); auto.
    + split; [exact Hp|]. split; [exact HD|]. cbn [fst snd]. destruct (step_flag f); exact Hi.
    + intros marks marks' H1 H2. unfold weight. destruct (step_flag f); cbn [fst snd sees andb pos]; nia.
Qed.

(** Barriers. *)
Fixpoint gpass (who : nat -> bool) (i : nat) (gl : list (pixel * phase * bool)) : list (pixel * phase * bool) :=
  match gl with
  | [] => []
  | (p, ph, g) :: r => (p, if who i then behind cg p ph else ph, g) :: gpass who (S i) r
  end.

Lemma gpass_fst who k gl : map fst (gpass who k gl) = pass cg who k (map fst gl).
Proof. revert k; induction gl as [|[[p ph] g] gl IH]; intros k; cbn [gpass pass map fst]; [reflexivity|]. rewrite IH. reflexivity. Qed.
Lemma gpass_snd who k gl : map (fun x => if snd x : bool then 1%nat else 0%nat) (gpass who k gl) = map (fun x => if snd x : bool then 1%nat else 0%nat) gl.
Proof. revert k; induction gl as [|[[p ph] g] gl IH]; intros k; cbn [gpass map snd]; [reflexivity|]. rewrite IH. reflexivity. Qed.

Lemma gpass_In who k gl p ph g : In (p, ph, g) (gpass who k gl) ->
  exists ph0, In (p, ph0, g) gl /\ (ph = ph0 \/ ph = behind cg p ph0).
Proof.
  revert k; induction gl as [|[[q phq] gq] gl IH]; intros k H; [destruct H|]. cbn [gpass] in H. destruct H as [H|H].
  - injection H as -> <- ->. exists phq. split; [left; reflexivity|]. destruct (who k); auto.
  - destruct (IH _ H) as [ph0 [H0 X]]. exists ph0. split; [right; exact H0|exact X].
Qed.

Lemma behind_ok m p ph g : mem_ok cg m -> item_ok m (p, ph, g) -> item_ok m (p, behind cg p ph, g).
Proof.
  intros Hm [H1 [H2 H3]]. split; [exact H1|]. split; [exact H2|]. cbn [fst snd] in *.
  destruct ph; cbn [behind]; try exact H3. split; [apply process_owned; assumption|]. subst g. apply process_truthful.
Qed.

Lemma behind_weight marks f m p ph g : item_ok m (p, ph, g) ->
  (weight marks f (p, behind cg p ph, g) <= weight marks f (p, ph, g))%nat /\
  (ph = First \/ ph = Second -> weight marks f (p, behind cg p ph, g) < weight marks f (p, ph, g))%nat.
Proof.
  intros [_ [HD _]]. cbn [fst snd] in *.
  destruct ph as [| | | |t| | | | |]; unfold weight; cbn [behind fst snd sees andb pos tdepth];
    (split; [lia|intros [X|X]; try discriminate; lia]).
Qed.

Lemma gpass_weight who marks f m k gl : (forall x, In x gl -> item_ok m x) ->
  (list_sum (map (weight marks f) (gpass who k gl)) <= list_sum (map (weight marks f) gl))%nat /\
  forall i p ph g, nth_error gl i = Some (p, ph, g) -> who (k + i)%nat = true -> ph = First \/ ph = Second ->
    (list_sum (map (weight marks f) (gpass who k gl)) < list_sum (map (weight marks f) gl))%nat.
Proof.
  revert k; induction gl as [|[[q phq] gq] gl IH]; intros k Ok.
  - split; [cbn; lia|]. intros i p ph g E. destruct i; discriminate.
  - cbn [gpass map]. rewrite !list_sum_cons. destruct (IH (S k) (fun x Hx => Ok x (or_intror Hx))) as [I1 I2].
    destruct (behind_weight marks f m q phq gq (Ok _ (or_introl eq_refl))) as [B1 B2].
    assert (B : (weight marks f (q, if who k then behind cg q phq else phq, gq) <= weight marks f (q, phq, gq))%nat)
      by (destruct (who k); [exact B1|lia]).
    split; [lia|]. intros [|i] p ph g E W Hb; cbn [nth_error] in E.
    + injection E as -> -> ->. rewrite Nat.add_0_r in W. rewrite W in *. specialize (B2 Hb). lia.
    + replace (k + S i)%nat with (S k + i)%nat in W by lia. specialize (I2 i p ph g E W Hb). lia.
Qed.

Lemma step_counted n s s' : kernel_step cg a true kind group s s' -> counted n s ->
  exists n', (n' < n)%nat /\ counted n' s'.
Proof.
  intros St C. pose proof St as St0. destruct St as [i p ph ph' l h h' f f' E St|b who l h f Hb Hm]; [eapply item_counted; eassumption|].
  destruct C as [gl [El [ND [Sf [Ok <-]]]]]. cbn [items khistory kflags] in *. subst l.
  pose proof (kernel_step_safe cg a true kind group Hs no_node ms _ _ (no_support cg) St0 Sf) as Sf'.
  pose proof (good_current _ _ _ _ (proj2 Sf)) as [Lm _]. cbn [khistory] in Lm.
  exists (total_weight (gpass who 0 gl) (current h) f). split.
  - unfold total_weight, marks_left. rewrite gpass_snd. destruct Hm as [[i [[p ph] [Ei Wi]]] [H1 _]].
    destruct (nth_map_fst _ _ _ Ei) as [g Eg]. eapply gpass_weight; [exact Ok|exact Eg|exact Wi|].
    rewrite (H1 i p ph Ei Wi). exact Hb.
  - exists (gpass who 0 gl). cbn [items khistory kflags]. split; [symmetry; apply gpass_fst|].
    split; [rewrite map_fst_pass; exact ND|]. split; [exact Sf'|]. split; [|reflexivity].
    intros [[p ph] g] Hx. apply gpass_In in Hx. destruct Hx as [ph0 [H0 [->| ->]]]; [apply Ok; exact H0|].
    apply behind_ok; [exact Lm|]. apply Ok; exact H0.
Qed.

Lemma path_counted k n s s' : kernel_path cg a true kind group k s s' -> counted n s -> (k <= n)%nat.
Proof.
  intros P. revert n. induction P as [s|k s s1 s2 St P IH]; intros n C; [lia|].
  destruct (step_counted n _ _ St C) as [n' [Lt C']]. specialize (IH n' C'). lia.
Qed.

Lemma start_counted f : mem_ok cg ms -> (forall p, In p (item_pixels cg a) -> depth (csp_process_pixel cg p) <= D)%nat ->
  exists n, counted n (launch_start cg a ms f).
Proof.
  intros Hm HD. eexists. exists (map (fun p => (p, match a with OpenCL => Enter | CUDA => Reset end, false)) (item_pixels cg a)).
  cbn [launch_start items khistory kflags current hd]. split; [rewrite map_map; reflexivity|].
  split; [rewrite map_map; cbn [fst]; rewrite map_id; apply NoDup_item_pixels; exact Hs|].
  split; [apply launch_start_safe; [exact Hs|]; apply good_none; [exact Hm|apply sub_refl]|]. split; [|reflexivity].
  intros x Hx. apply in_map_iff in Hx. destruct Hx as [p [<- Hp]]. split; cbn [fst snd].
  - apply (In_item_pixels cg a Hs). exact Hp.
  - split; [apply HD; exact Hp|]. destruct a; reflexivity.
Qed.
End Launch.

Lemma le_list_max {A} (w : A -> nat) l x : In x l -> (w x <= list_sum (map w l))%nat.
Proof.
  induction l as [|y l IH]; intros H; [destruct H|]. cbn [map]. rewrite list_sum_cons.
  destruct H as [->|H]; [lia|]. specialize (IH H). lia.
Qed.

Lemma launch_bounded cg a kind group m f : static cg -> mem_ok cg m ->
  exists bound, forall n s, kernel_path cg a true kind group n (launch_start cg a m f) s -> (n <= bound)%nat.
Proof.
  intros Hs Hm.
  destruct (start_counted cg a m (list_sum (map (fun p => depth (csp_process_pixel cg p)) (item_pixels cg a))) Hs f Hm) as [n C].
  { intros p Hp. apply (le_list_max (fun p => depth (csp_process_pixel cg p))). exact Hp. }
  exists n. intros k s P. eapply path_counted; eassumption.
Qed.

(** *** Stuck states *)

Section Stuck.
Variables (cg : cgraph T) (a : api) (sc : bool) (kind : barrier_kind) (group : nat -> nat).
Hypothesis Hs : static cg.

Definition between (ph : phase) : Prop :=
  match ph with Work _ | MarkStep | MarkAny | Second => True | _ => False end.
(** If a work-item is between the barriers, then all of its group are, or are done. *)
Definition together (l : list (pixel * phase)) : Prop :=
  forall i j p q ph phq, nth_error l i = Some (p, ph) -> nth_error l j = Some (q, phq) -> group i = group j ->
    between ph -> between phq \/ phq = Done.

Lemma together_step s s' : kind <> Absent -> kernel_step cg a sc kind group s s' -> together (items s) -> together (items s').
Proof.
  intros Hk St Tg. destruct St as [k r ph ph' l h h' f f' E St|b who l h f Hb [[k [[r phr] [Ek Wk]]] [H1 H2]]]; cbn [items] in *.
  - assert (Sm : (between ph /\ between ph') \/ (~ between ph /\ ~ between ph' /\ ph <> Done)).
    { destruct St as [h f|h f|h f|t t' h h' f St|r0 h f|h f|h f|b h f Hb]; cbn [between].
      - refine (or_intror (conj _ (conj _ _))); [intros []|intros []|discriminate].
      - refine (or_intror (conj _ (conj _ _))); [intros []|intros []|discriminate].
      - refine (or_intror (conj _ (conj _ _))); [intros []|intros []|discriminate].
      - left; auto.
      - left. cbn [between]. split; [exact I|destruct r0; exact I].
      - left. cbn [between]. split; [exact I|destruct a; exact I].
      - left; auto.
      - destruct b; refine (or_intror (conj _ (conj _ _))); try discriminate; intros []. }
    intros i j p q phi phj Ei Ej Eg Hin.
    destruct (Nat.eq_dec k i) as [Ki|Ni], (Nat.eq_dec k j) as [Kj|Nj]; try (rewrite <- Ki in * ); try (rewrite <- Kj in * ).
    + rewrite Ei in Ej. injection Ej as -> <-. left; exact Hin.
    + rewrite (nth_upd_same _ _ _ _ E) in Ei. injection Ei as <- <-. rewrite nth_upd_other in Ej by exact Nj.
      destruct Sm as [[S1 _]|[_ [S2 _]]]; [|contradiction]. eapply Tg; [exact E|exact Ej|exact Eg|exact S1].
    + rewrite (nth_upd_same _ _ _ _ E) in Ej. injection Ej as <- <-. rewrite nth_upd_other in Ei by exact Ni.
      destruct (Tg _ _ _ _ _ _ Ei E Eg Hin) as [X|X]; destruct Sm as [[S1 S2]|[S1 [S2 S3]]]; try contradiction; left; [exact S2|].
      rewrite X in S1. destruct S1.
    + rewrite nth_upd_other in Ei, Ej by assumption. exact (Tg i j p q phi phj Ei Ej Eg Hin).
  - intros i j p q phi phj Ei Ej Eg Hin. rewrite pass_nth in Ei, Ej. cbn [Nat.add] in Ei, Ej.
    destruct (nth_error l i) as [[pi ph0]|] eqn:Ni; [|discriminate]. destruct (nth_error l j) as [[pj phj0]|] eqn:Nj; [|discriminate].
    injection Ei as -> <-. injection Ej as -> <-.
    destruct (who i) eqn:Wi.
    + pose proof (H1 i p ph0 Ni Wi) as E0. subst ph0. pose proof (H2 i j p b q phj0 Ni Wi Nj (eq_sym Eg)) as Kj.
      destruct kind; [| |contradiction].
      * rewrite Kj. rewrite (H1 j q phj0 Nj Kj). destruct Hb as [->| ->]; [left; exact I|destruct Hin].
      * destruct Kj as [Kj|Kj]; [rewrite Kj; rewrite (H1 j q phj0 Nj Kj); destruct Hb as [->| ->]; [left; exact I|destruct Hin]|].
        subst phj0. right. destruct (who j); reflexivity.
    + destruct (who j) eqn:Wj.
      * exfalso. pose proof (H1 j q phj0 Nj Wj) as E0. subst phj0.
        pose proof (H2 j i q b p ph0 Nj Wj Ni Eg) as Kj. destruct kind; [congruence| |contradiction].
        destruct Kj as [Kj| ->]; [congruence|destruct Hin].
      * eapply Tg; [exact Ni|exact Nj|exact Eg|exact Hin].
Qed.

Lemma together_start m f : together (items (launch_start cg a m f)).
Proof.
  intros i j p q ph phq Ei _ _ Hin. exfalso. cbn [launch_start items] in Ei. apply nth_error_In, in_map_iff in Ei.
  destruct Ei as [r [X _]]. injection X as _ <-. destruct a; exact Hin.
Qed.

Lemma stuck_ends m f s : mem_ok cg m -> kernel_steps cg a sc kind group (launch_start cg a m f) s ->
  (forall s', ~ kernel_step cg a sc kind group s s') -> finished s \/ (kind = Strict /\ diverged group s).
Proof.
  intros Hm P St.
  assert (Sf : kernel_safe cg no_node m s).
  { eapply kernel_steps_safe; [exact Hs|apply no_support|exact P|]. apply launch_start_safe; [exact Hs|].
    apply good_none; [exact Hm|apply sub_refl]. }
  assert (Tg : kind <> Absent -> together (items s)).
  { intros Hk. revert P. generalize (together_start m f). generalize (launch_start cg a m f) as s0.
    intros s0 T0 P. induction P as [s|s s1 s2 St' P IH]; [exact T0|]. apply IH; [exact St|exact Sf|]. eapply together_step; eassumption. }
  destruct s as [l h fl]. cbn [items] in Tg. destruct Sf as [Si Sh]. cbn [items khistory] in *.
  assert (W : forall i p ph, nth_error l i = Some (p, ph) -> ph = First \/ ph = Second \/ ph = Done).
  { intros i p ph E.
    assert (Go : forall ph' h' f', item_step a sc ph h fl ph' h' f' -> False).
    { intros ph' h' f' It. eapply St. econstructor; [exact E|exact It]. }
    destruct ph as [| | | |t| | | | |]; auto; exfalso.
    - eapply Go. apply item_enter.
    - eapply Go. apply item_enter2.
    - eapply Go. apply item_reset.
    - destruct (Si p _ (nth_error_In _ _ E)) as [_ Sp]. cbn [phase_safe] in Sp.
      destruct (progress sc 1 t h (proj1 Sh)) as [[r ->]|[t' [h' Ts]]].
      + apply (safe_not_faulty (places cg no_node) (size cg) m (fun _ : bool => True)
          {| threads := [t]; history := h |} t); [|left; reflexivity].
        split; cbn [threads history]; [|exact Sh]. intros x [<-|[]]. exact Sp.
      + eapply Go. apply item_result.
      + eapply Go. apply item_work. exact Ts.
    - eapply Go. apply item_mark.
    - eapply Go. apply item_mark_any.
    - eapply Go. apply (item_test _ _ (step_flag fl)). reflexivity. }
  destruct (existsb (fun x => match snd x with Done => false | _ => true end) l) eqn:Ex.
  2: { left. intros p ph Hp. cbn [items] in Hp.
       destruct (In_nth_error _ _ Hp) as [i Ei]. destruct (W i p ph Ei) as [->|[->|X]]; [| |exact X];
       (exfalso; assert (existsb (fun x : pixel * phase => match snd x with Done => false | _ => true end) l = true); [|congruence];
        apply existsb_exists; eexists; split; [exact Hp|reflexivity]). }
  apply existsb_exists in Ex. destruct Ex as [[p ph] [Hp Nd]]. destruct (In_nth_error _ _ Hp) as [i Ei].
  assert (Hb : ph = First \/ ph = Second).
  { destruct (W i p ph Ei) as [X|[X|X]]; auto. subst ph. discriminate. }
  clear Nd.
  set (atb := fun x : phase => match ph, x with First, First => true | Second, Second => true | _, _ => false end).
  assert (Atb : forall x, atb x = true -> x = ph).
  { intros x. unfold atb. destruct Hb as [->| ->]; destruct x; try discriminate; reflexivity. }
  assert (Atb' : atb ph = true) by (unfold atb; destruct Hb as [->| ->]; reflexivity).
  set (who := fun j => Nat.eqb (group j) (group i) && match nth_error l j with Some (_, x) => atb x | None => false end).
  assert (Others : kind <> Absent -> forall j q phq, nth_error l j = Some (q, phq) -> group j = group i -> atb phq = true \/ phq = Done).
  { intros Hk j q phq Ej Gj. destruct (W j q phq Ej) as [X|[X|X]]; [| |right; exact X]; left; subst phq; unfold atb; destruct Hb as [->| ->]; try reflexivity; exfalso.
    - destruct (Tg Hk _ _ _ _ _ _ Ei Ej (eq_sym Gj) I) as [X|X]; [exact X|discriminate].
    - destruct (Tg Hk _ _ _ _ _ _ Ej Ei Gj I) as [X|X]; [exact X|discriminate]. }
  assert (NP : ~ may_pass kind group ph who l).
  { intros M. eapply St. eapply (kernel_barrier cg a sc kind group ph who l h fl Hb M). }
  assert (P1 : (exists i x, nth_error l i = Some x /\ who i = true) /\
               (forall i p ph0, nth_error l i = Some (p, ph0) -> who i = true -> ph0 = ph)).
  { split.
    - exists i, (p, ph). split; [exact Ei|]. unfold who. rewrite Nat.eqb_refl, Ei. exact Atb'.
    - intros j q phq Ej Wj. unfold who in Wj. rewrite Ej in Wj. apply andb_true_iff in Wj. apply Atb, Wj. }
  assert (Gi : forall j, who j = true -> group j = group i).
  { intros j Wj. unfold who in Wj. apply andb_true_iff in Wj. apply Nat.eqb_eq, Wj. }
  assert (Wj' : forall j q phq, nth_error l j = Some (q, phq) -> group j = group i -> atb phq = true -> who j = true).
  { intros j q phq Ej Gj A. unfold who. rewrite Ej, Gj, Nat.eqb_refl. exact A. }
  destruct kind.
  - right. split; [reflexivity|].
    destruct (existsb (fun j => Nat.eqb (group j) (group i) && match nth_error l j with Some (_, Done) => true | _ => false end) (seq 0 (length l))) eqn:Ex.
    + apply existsb_exists in Ex. destruct Ex as [j [_ Ej]]. apply andb_true_iff in Ej. destruct Ej as [Gj Ej].
      apply Nat.eqb_eq in Gj. destruct (nth_error l j) as [[q [| | | | | | | | |]]|] eqn:Nj; try discriminate.
      exists j, i, q, p, ph. cbn [items]. auto.
    + exfalso. apply NP. split; [apply P1|]. split; [apply P1|].
      intros k j q phq r phr Ek Wk Ej Gj. rewrite (Gi k Wk) in Gj.
      destruct (Others ltac:(discriminate) j r phr Ej Gj) as [A|A]; [exact (Wj' j r phr Ej Gj A)|]. subst phr. exfalso.
      assert (X : existsb (fun j => Nat.eqb (group j) (group i) && match nth_error l j with Some (_, Done) => true | _ => false end) (seq 0 (length l)) = true); [|congruence].
      apply existsb_exists. exists j. split; [apply in_seq; assert (j < length l)%nat by (apply nth_error_Some; congruence); lia|].
      rewrite Ej, Gj, Nat.eqb_refl. reflexivity.
  - exfalso. apply NP. split; [apply P1|]. split; [apply P1|].
    intros k j q phq r phr Ek Wk Ej Gj. rewrite (Gi k Wk) in Gj.
    destruct (Others ltac:(discriminate) j r phr Ej Gj) as [A|A]; [left; exact (Wj' j r phr Ej Gj A)|right; exact A].
  - exfalso. apply NP. split; [apply P1|]. split; [apply P1|]. auto.
Qed.
End Stuck.
End Graph.
