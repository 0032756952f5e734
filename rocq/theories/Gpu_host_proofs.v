(** The loop of the host around the OpenCL kernel, one group. *)
From Verif Require Export Gpu_hang_proofs.
Local Open Scope N_scope.

Section Graph.
Context {T : target}.
Implicit Type cg : cgraph T.
Notation G cg := (cg_graph cg).

Section Group.
Variables (cg : cgraph T) (kind : barrier_kind) (group : nat -> nat) (ms : mem).
Hypothesis Hs : static cg.
Hypothesis Hk : kind <> Absent.
Hypothesis Hg : one_group group.

Definition s_later (_ : pixel) (ph : phase) : Prop := match ph with Enter | Enter2 => False | _ => True end.

Inductive course (l : list (pixel * phase)) (m : mem) (f : flags) : Prop :=
| course_start : all l s_start -> m = ms -> (some l (eq First) -> step_flag f = false) -> course l m f
| course_clean : all l (s_clean cg ms) -> m = ms -> step_flag f = false -> course l m f
| course_settled : all l s_settled -> m = ms -> step_flag f = false ->
    (forall p ph, In (p, ph) l -> quiet cg ms p) -> course l m f
| course_marked : all l s_later -> any_flag f = true \/ some l will_mark_any -> course l m f.

Lemma course_item l h f i p ph ph' h' f' : nth_error l i = Some (p, ph) ->
  item_step OpenCL true ph h f ph' h' f' ->
  course l (current h) f -> course (upd l i (p, ph')) (current h') f'.
Proof.
  intros E St C. pose proof (nth_error_In _ _ E) as Ip.
  assert (CL : forall m, all l (s_clean cg m) -> all l s_later).
  { intros m A q phq Hq. specialize (A q phq Hq). destruct phq; try exact I; destruct A. }
  destruct C as [A1 A2 A3|A1 A2 A3|A1 A2 A3 A4|A1 A2]; pose proof (A1 p ph Ip) as Sp.
  - destruct St as [h f|h f|h f|t t' h h' f St|r h f|h f|h f|b h f Hb]; cbn [s_start] in Sp; try contradiction.
    + apply course_start; [apply all_upd; [exact A1|exact I]|exact A2|reflexivity].
    + apply course_start; [apply all_upd; [exact A1|exact I]|exact A2|]. cbn [step_flag].
      intros X. apply A3. apply (some_back _ _ _ _ _ _ E) in X. destruct X as [X|X]; [exact X|discriminate].
    + apply course_start; [apply all_upd; [exact A1|exact I]|exact A2|reflexivity].
  - destruct St as [h f|h f|h f|t t' h h' f St|r h f|h f|h f|b h f Hb]; cbn [s_clean] in Sp; try contradiction.
    + destruct St as [j k h w b Lo Gt|j b k h w Lo Hj|j b w k h]; [| |contradiction]; destruct Sp as [Sr Sw]; cbn [loads] in Lo; subst w.
      * apply course_clean; [|exact A2|exact A3]. apply all_upd; [exact A1|]. cbn [fst snd s_clean].
        cbn [run] in Sr. rewrite <- A2, Gt in Sr. cbn [bind] in Sr. rewrite A2 in Sr. split; [exact Sr|apply Sw].
      * apply course_marked; [apply all_upd; [exact (CL _ A1)|exact I]|]. right. eapply some_new; [exact E|]. exact Sw.
    + destruct Sp as [Sr _]. destruct r.
      * apply course_marked; [apply all_upd; [exact (CL _ A1)|exact I]|]. right. eapply some_new; [exact E|exact I].
      * apply course_clean; [|exact A2|exact A3]. apply all_upd; [exact A1|]. cbn [run] in Sr. symmetry. exact Sr.
  - destruct St as [h f|h f|h f|t t' h h' f St|r h f|h f|h f|b h f Hb]; cbn [s_settled] in Sp; try contradiction.
    rewrite (Hb eq_refl), A3. apply course_settled; [apply all_upd; [exact A1|exact I]|exact A2|exact A3|].
    intros q phq Hq. apply In_upd in Hq. destruct Hq as [X|Hq]; [injection X as -> ->; exact (A4 p Test Ip)|eapply A4; exact Hq].
  - destruct St as [h f|h f|h f|t t' h h' f St|r h f|h f|h f|b h f Hb]; cbn [s_later] in Sp; try contradiction.
    + apply course_marked; [apply all_upd; [exact A1|exact I]|]. cbn [any_flag].
      destruct A2 as [A2|A2]; [left; exact A2|right]. eapply some_keep; [exact E|exact A2|]. intros [].
    + apply course_marked; [apply all_upd; [exact A1|exact I]|].
      destruct A2 as [A2|A2]; [left; exact A2|right]. eapply some_keep; [exact E|exact A2|]. exact (tstep_must _ _ _ _ _ St).
    + apply course_marked; [apply all_upd; [exact A1|destruct r; exact I]|].
      destruct A2 as [A2|A2]; [left; exact A2|right]. eapply some_keep; [exact E|exact A2|].
      cbn [will_mark_any tmust must]. intros ->. exact I.
    + apply course_marked; [apply all_upd; [exact A1|exact I]|]. right. eapply some_new; [exact E|exact I].
    + apply course_marked; [apply all_upd; [exact A1|exact I]|]. left. reflexivity.
    + apply course_marked; [apply all_upd; [exact A1|destruct b; exact I]|].
      destruct A2 as [A2|A2]; [left; exact A2|right]. eapply some_keep; [exact E|exact A2|]. intros [].
Qed.

Lemma course_pass l m f b who : b = First \/ b = Second -> may_pass kind group b who l ->
  course l m f -> course (pass cg who 0 l) m f.
Proof.
  intros Hb M C.
  assert (Pre : (forall p, ~ In (p, Done) l) -> exists p0, In (p0, b) l /\ nth_error l 0 = Some (p0, b) /\
     forall p ph, In (p, ph) (pass cg who 0 l) -> In (p, b) l /\ ph = behind cg p b).
  { intros ND. destruct (barrier_all cg group Hg kind b who l Hk M ND) as [Hne [All ->]].
    destruct l as [|[p0 ph0] l0] eqn:El; [contradiction|]. rewrite <- El in *.
    assert (I0 : In (p0, ph0) l) by (rewrite El; left; reflexivity).
    pose proof (All p0 ph0 I0) as E0. subst ph0. exists p0. split; [exact I0|]. split; [rewrite El; reflexivity|].
    intros p ph H. apply in_map_iff in H. destruct H as [[q phq] [X Hq']]. cbn [fst snd] in X. injection X as -> <-.
    rewrite <- (All p phq Hq'). auto. }
  destruct C as [A1 A2 A3|A1 A2 A3|A1 A2 A3 A4|A1 A2].
  - destruct Pre as [p0 [I0 [N0 Back]]]; [intros p Hp; exact (A1 _ _ Hp)|]. pose proof (A1 _ _ I0) as Sp.
    destruct Hb as [->| ->]; [|destruct Sp]. apply course_clean; [|exact A2|apply A3; exists 0%nat, p0, First; auto].
    intros p ph H. destruct (Back p ph H) as [_ ->]. split; [reflexivity|apply process_wmust].
  - destruct Pre as [p0 [I0 [N0 Back]]]; [intros p Hp; exact (A1 _ _ Hp)|]. pose proof (A1 _ _ I0) as Sp.
    destruct Hb as [->| ->]; [destruct Sp|]. apply course_settled; [|exact A2|exact A3|].
    + intros p ph H. destruct (Back p ph H) as [_ ->]. exact I.
    + intros p ph H. destruct (Back p ph H) as [X _]. exact (A1 p Second X).
  - exfalso. destruct M as [[i [[p ph] [Ei Wi]]] [H1 _]]. pose proof (H1 i p ph Ei Wi) as E. subst ph.
    pose proof (A1 _ _ (nth_error_In _ _ Ei)) as Sp. destruct Hb as [->| ->]; exact Sp.
  - apply course_marked.
    + intros p ph H. destruct (pass_in cg _ _ _ _ H) as [ph0 [H0 [->| ->]]]; [exact (A1 _ _ H0)|].
      pose proof (A1 _ _ H0) as Sp. destruct ph0; try exact Sp; exact I.
    + destruct A2 as [A2|[j [p [ph [Ej W]]]]]; [left; exact A2|right]. exists j, p, ph. split; [|exact W].
      rewrite pass_nth, Ej. destruct (who (0 + j)%nat); [|reflexivity].
      destruct ph; cbn [will_mark_any] in W; try contradiction; reflexivity.
Qed.

Lemma course_finished f m' f' : mem_ok cg ms -> launch cg OpenCL true kind group ms f m' f' -> any_flag f' = false ->
  m' = ms /\ settled (with_avail cg ms).
Proof.
  intros Hm [s [P [Fin [-> ->]]]] Fa.
  assert (X : forall s s', kernel_steps cg OpenCL true kind group s s' ->
    course (items s) (current (khistory s)) (kflags s) -> course (items s') (current (khistory s')) (kflags s')).
  { clear P Fin Fa s. intros s s' P. induction P as [s|s s1 s2 St P IH]; [auto|]. intros C. apply IH.
    destruct St as [i p ph ph' l h h' f0 f1 E St|b who l h f0 Hb Hmp]; cbn [items khistory kflags] in *.
    - eapply course_item; eassumption.
    - eapply course_pass; eassumption. }
  pose proof (X _ _ P) as C. clear X.
  assert (Pix : forall p, in_image (G cg) p -> In (p, Done) (items s)).
  { intros p Hp.
    assert (E : map fst (items s) = map fst (items (launch_start cg OpenCL ms f))).
    { clear -P. induction P as [s|s s1 s2 St P IH]; [reflexivity|]. rewrite IH.
      destruct St as [i p ph ph' l h h' f0 f' E St|b who l h f0 Hb Hm]; cbn [items].
      - eapply map_fst_upd. exact E.
      - apply map_fst_pass. }
    assert (X : In p (map fst (items s))).
    { rewrite E. cbn [launch_start items]. rewrite map_map. cbn [fst]. rewrite map_id. apply (In_item_pixels cg OpenCL Hs); assumption. }
    apply in_map_iff in X. destruct X as [[q ph] [Eq H]]. cbn [fst] in Eq. subst q. rewrite <- (Fin p ph H). exact H. }
  pose proof (Pix _ (origin_in cg Hs)) as H0.
  destruct C as [A1 A2 A3|A1 A2 A3|A1 A2 A3 A4|A1 A2].
  - apply course_start; [|reflexivity|].
    + intros p ph H. cbn [launch_start items] in H. apply in_map_iff in H. destruct H as [q [Y _]]. injection Y as _ <-. exact I.
    + intros [j [p [ph [Ej Y]]]]. cbn [launch_start items] in Ej. apply nth_error_In, in_map_iff in Ej. destruct Ej as [q [Z _]]. injection Z as _ <-. discriminate.
  - destruct (A1 _ _ H0).
  - destruct (A1 _ _ H0).
  - rewrite A2. split; [reflexivity|]. apply settled_iff; try assumption. intros [p d] M.
    destruct (process_false cg p _ _ Hs Hm (proj1 M) (A4 p Done (Pix p (proj1 M)))) as [_ Q]. apply Q; exact M.
  - exfalso. destruct A2 as [A2|[j [p [ph [Ej W]]]]]; [congruence|].
    rewrite (Fin p ph (nth_error_In _ _ Ej)) in W. exact W.
Qed.
End Group.

(** Everything the host's loop leaves. *)
Lemma kept_sets cg a sc kind partition m f m' f' K n : static cg -> mem_ok cg m ->
  propagate cg a sc kind partition m f m' f' ->
  arc_consistent (with_avail cg m) K -> K n -> avb cg m' n = true.
Proof.
  intros Hs Hm P HK Kn. pose proof (proj1 (HK n Kn)) as M.
  apply arc_support in HK; try assumption. destruct HK as [H1 H2].
  assert (Gd : good (places cg K) (size cg) m m).
  { split; [exact Hm|]. split; [|apply sub_refl]. intros i _ [x [_ [Kx <-]]]. apply H2; exact Kx. }
  destruct (propagate_safe cg a sc kind partition Hs K m f m' f' m H1 Gd P) as [_ [Kp _]].
  apply Kp; [apply idx_size; [exact Hs|apply match_inb; exact M]|]. exists n. split; [apply match_inb; exact M|auto].
Qed.

Lemma settled_largest cg a sc kind partition m f m' f' : static cg -> mem_ok cg m ->
  propagate cg a sc kind partition m f m' f' -> settled (with_avail cg m') ->
  forall n, match_exists (G cg) n ->
     (available (with_avail cg m') n <-> exists K, arc_consistent (with_avail cg m) K /\ K n).
Proof.
  intros Hs Hm P S n M.
  destruct (propagate_sub cg a sc kind partition Hs m f m' f' Hm P) as [Hm' Sub].
  rewrite available_with by (try assumption; apply match_inb; exact M). split.
  - intros Av. exists (fun n => match_exists (G cg) n /\ avb cg m' n = true). split; [|auto].
    apply arc_support; try assumption. split; [apply quiet_support; try assumption; apply settled_iff; assumption|].
    intros x [_ Ax]. apply Sub; exact Ax.
  - intros [K [HK Kn]]. exact (kept_sets cg a sc kind partition m f m' f' K n Hs Hm P HK Kn).
Qed.

Lemma propagate_settles cg kind (partition : (nat -> nat) -> Prop) m f m' f' : static cg -> kind <> Absent -> (forall g, partition g -> one_group g) ->
  mem_ok cg m -> propagate cg OpenCL true kind partition m f m' f' -> settled (with_avail cg m').
Proof.
  intros Hs Hk Hp Hm P. induction P as [m f m' f' L F|m f m1 f1 m' f' _ L _ P IH].
  - destruct L as [g [Pg L]]. destruct (course_finished cg kind g m Hs Hk (Hp g Pg) f m' f' Hm L (F eq_refl)) as [-> S]. exact S.
  - apply IH. apply (some_launch_sub cg OpenCL true kind partition Hs m f m1 f1 Hm L).
Qed.
End Graph.
