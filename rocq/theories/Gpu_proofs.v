(** The GPU kernels for every interleaving, partition into groups, meaning of
    divergent barriers and kind of memory: safety, and what is known about the
    nodes that are left. *)
From Verif Require Export Gpu Label_proofs Sc_proofs.
Local Open Scope N_scope.

(** *** Lists of work-items *)

Lemma nth_upd_same {A} (l : list A) i v x : nth_error l i = Some x -> nth_error (upd l i v) i = Some v.
Proof. revert i; induction l as [|y l IH]; intros [|i] H; try discriminate; [reflexivity|]. exact (IH i H). Qed.

Lemma nth_upd_other {A} (l : list A) i j v : i <> j -> nth_error (upd l i v) j = nth_error l j.
Proof.
  revert i j; induction l as [|y l IH]; intros [|i] [|j] H; cbn [upd nth_error]; try reflexivity; [contradiction|].
  apply IH. congruence.
Qed.

Section Pass.
Context {T : target} (cg : cgraph T).

Lemma pass_nth who k l i : nth_error (pass cg who k l) i =
  match nth_error l i with
  | Some (p, ph) => Some (p, if who (k + i)%nat then behind cg p ph else ph)
  | None => None
  end.
Proof.
  revert k i. induction l as [|[p ph] l IH]; intros k [|i]; cbn [pass nth_error]; try reflexivity.
  - rewrite Nat.add_0_r. reflexivity.
  - rewrite IH. replace (S k + i)%nat with (k + S i)%nat by lia. reflexivity.
Qed.

Lemma pass_in who l p ph : In (p, ph) (pass cg who 0 l) ->
  exists ph0, In (p, ph0) l /\ (ph = ph0 \/ ph = behind cg p ph0).
Proof.
  intros H. apply In_nth_error in H. destruct H as [i H]. rewrite pass_nth in H.
  destruct (nth_error l i) as [[p0 ph0]|] eqn:E; [|discriminate]. injection H as -> <-.
  exists ph0. split; [eapply nth_error_In; exact E|]. destruct (who _); auto.
Qed.

Lemma map_fst_pass who k l : map fst (pass cg who k l) = map fst l.
Proof. revert k; induction l as [|[p ph] l IH]; intros k; cbn [pass map]; [reflexivity|]. rewrite IH. reflexivity. Qed.
End Pass.

Lemma map_fst_upd {A B} (l : list (A * B)) i a b b' : nth_error l i = Some (a, b) -> map fst (upd l i (a, b')) = map fst l.
Proof.
  revert i; induction l as [|x l IH]; intros [|i] H; try discriminate; cbn [upd map nth_error] in *.
  - injection H as ->. reflexivity.
  - rewrite (IH i H). reflexivity.
Qed.

(** *** Safety *)

Section Graph.
Context {T : target}.
Implicit Type cg : cgraph T.
Notation G cg := (cg_graph cg).
Notation Wd cg := (width (right (cg_graph cg))).
Notation Ht cg := (height (right (cg_graph cg))).
Notation Lv cg := (levels (cg_graph cg)).
Notation nd p d := {| npix := p; disp := d |}.

Definition phase_safe (K : N -> Prop) (n : N) (init : mem) (ph : phase) : Prop :=
  match ph with Work t => thread_safe K n init (fun _ => True) t | _ => True end.

Definition kernel_safe cg (K : node -> Prop) (init : mem) (s : kernel_state) : Prop :=
  (forall p ph, In (p, ph) (items s) -> in_image (G cg) p /\ phase_safe (places cg K) (size cg) init ph) /\
  hist_good (places cg K) (size cg) init (khistory s).

Lemma behind_safe cg K init p ph : static cg -> support cg K -> in_image (G cg) p ->
  phase_safe (places cg K) (size cg) init ph ->
  phase_safe (places cg K) (size cg) init (behind cg p ph).
Proof.
  intros Hs HK Hp H. destruct ph; cbn [behind phase_safe] in *; auto.
  cbn [thread_safe]. apply safe_process; assumption.
Qed.

Lemma item_step_safe K n init a sc ph h f ph' h' f' : item_step a sc ph h f ph' h' f' ->
  phase_safe K n init ph -> hist_good K n init h -> phase_safe K n init ph' /\ hist_good K n init h'.
Proof.
  intros St Sp Sh. destruct St as [h f|h f|h f|t t' h h' f St|r h f|h f|h f|b h f Hb]; cbn [phase_safe] in *; auto.
  - eapply tstep_safe; eassumption.
  - destruct r; cbn [phase_safe]; auto.
  - destruct a; cbn [phase_safe]; auto.
  - destruct b; cbn [phase_safe]; auto.
Qed.

Section Kernel.
Variables (cg : cgraph T) (a : api) (sc : bool) (kind : barrier_kind) (group : nat -> nat).
Hypothesis Hs : static cg.

Lemma kernel_step_safe K init s s' : support cg K ->
  kernel_step cg a sc kind group s s' -> kernel_safe cg K init s -> kernel_safe cg K init s'.
Proof.
  intros HK St [S1 S2]. destruct St as [i p ph ph' l h h' f f' E St|b who l h f Hb Hm]; cbn [items khistory] in *.
  - assert (I : In (p, ph) l) by (eapply nth_error_In; exact E).
    destruct (S1 p ph I) as [Hp Sp].
    destruct (item_step_safe _ _ _ _ _ _ _ _ _ _ _ St Sp S2) as [Sp' Sh'].
    split; cbn [items khistory]; [|exact Sh'].
    intros q phq Hq. apply In_upd in Hq. destruct Hq as [X|Hq]; [|apply S1; exact Hq].
    injection X as -> ->. auto.
  - split; cbn [items khistory]; [|exact S2]. intros q phq Hq. apply pass_in in Hq.
    destruct Hq as [ph0 [Hq0 [->| ->]]]; destruct (S1 q ph0 Hq0) as [Hp Sp]; split; try assumption.
    apply behind_safe; assumption.
Qed.

Lemma kernel_steps_safe K init s s' : support cg K ->
  kernel_steps cg a sc kind group s s' -> kernel_safe cg K init s -> kernel_safe cg K init s'.
Proof. intros HK P. induction P as [s|s s1 s2 St P IH]; [auto|]. intros H. apply IH. eapply kernel_step_safe; eassumption. Qed.

Lemma In_item_pixels p : In p (item_pixels cg a) <-> in_image (G cg) p.
Proof.
  destruct Hs as [Hw _]. unfold item_pixels. cbv zeta. destruct a.
  - rewrite in_map_iff. pose proof (wf_right _ Hw) as Hr. unfold consistent_image in Hr. rewrite Hr.
    pose proof (wf_sizes _ Hw) as Z. pose proof (sz_w _ Z). split.
    + intros [i [<- Hi]]. apply In_range in Hi. split; cbn [px py].
      * apply N.mod_lt. lia.
      * apply N.div_lt_upper_bound; lia.
    + intros [Hx Hy]. exists (Wd cg * py p + px p). split.
      * destruct p as [x y]. cbn [px py] in *.
        rewrite (N.mul_comm (Wd cg) y), N.add_comm, N.mod_add, N.mod_small by lia.
        rewrite N.div_add, N.div_small by lia. reflexivity.
      * apply In_range. nia.
  - rewrite in_flat_map. split.
    + intros [x [Hx Hp]]. apply in_map_iff in Hp. destruct Hp as [y [<- Hy]].
      apply In_range in Hx, Hy. split; cbn [px py]; lia.
    + intros [Hx Hy]. exists (px p). split; [apply In_range; lia|]. apply in_map_iff.
      exists (py p). split; [destruct p; reflexivity|apply In_range; lia].
Qed.

Lemma launch_start_safe K m f init : good (places cg K) (size cg) init m ->
  kernel_safe cg K init (launch_start cg a m f).
Proof.
  intros Hm. split; cbn [launch_start items khistory].
  - intros p ph H. apply in_map_iff in H. destruct H as [q [X Hq]]. injection X as -> <-.
    split; [apply In_item_pixels; exact Hq|]. destruct a; exact I.
  - split; [discriminate|]. intros x [<-|[]]. exact Hm.
Qed.

Lemma launch_safe K m f init m' f' : support cg K -> good (places cg K) (size cg) init m ->
  launch cg a sc kind group m f m' f' -> good (places cg K) (size cg) init m'.
Proof.
  intros HK Hm [s [P [_ [-> _]]]]. apply good_current.
  apply (kernel_steps_safe K init _ _ HK P). apply launch_start_safe. exact Hm.
Qed.

(** *** The nodes that are left were supported at the start of the launch *)

(** All results of a program whose loads return at least [lo] and at most [hi] and
    which clears nothing of [lo]. *)
Fixpoint bounded (lo hi : N -> Prop) {A} (Q : A -> Prop) (c : cmd A) : Prop :=
  match c with
  | Ret r => Q r
  | Fail _ => True
  | Read i k => forall b, (lo i -> b = true) -> (b = true -> hi i) -> bounded lo hi Q (k b)
  | Write i b k => b = false -> ~ lo i -> bounded lo hi Q k
  end.

Implicit Types lo hi : N -> Prop.

Lemma bounded_mono lo hi {A} (Q Q' : A -> Prop) c : (forall r, Q r -> Q' r) -> bounded lo hi Q c -> bounded lo hi Q' c.
Proof. intros H. induction c as [r|s|i k IH|i b k IH]; cbn [bounded]; auto. Qed.

Lemma bounded_bind lo hi {A B} (Q : A -> Prop) (Q' : B -> Prop) c f :
  bounded lo hi Q c -> (forall r, Q r -> bounded lo hi Q' (f r)) -> bounded lo hi Q' (cbind c f).
Proof.
  intros H Hf. revert H. induction c as [r|s|i k IH|i b k IH]; cbn [bounded cbind]; auto.
Qed.

Lemma bounded_cexists_false lo hi {A} (l : list A) test :
  (forall x, In x l -> bounded lo hi (fun b => b = false) (test x)) ->
  bounded lo hi (fun b => b = false) (cexists l test).
Proof.
  induction l as [|x l IH]; intros H; cbn [cexists]; [reflexivity|].
  eapply bounded_bind; [apply H; left; reflexivity|]. cbv beta. intros b ->. apply IH. intros y Hy. apply H. right; exact Hy.
Qed.

Lemma bounded_any lo hi {A} (c : cmd A) : bounded lo hi (fun _ => True) c.
Proof. induction c as [r|s|i k IH|i b k IH]; cbn [bounded]; auto. Qed.

Lemma bounded_cexists_true lo hi {A} (l : list A) test x : In x l ->
  bounded lo hi (fun b => b = true) (test x) ->
  bounded lo hi (fun b => b = true) (cexists l test).
Proof.
  induction l as [|y l IH]; intros Hx Hb; [destruct Hx|]. cbn [cexists].
  destruct Hx as [->|Hx].
  - eapply bounded_bind; [exact Hb|]. cbv beta. intros b ->. reflexivity.
  - eapply bounded_bind; [apply bounded_any|]. intros b _. destruct b; [reflexivity|]. apply IH; assumption.
Qed.

(** A node without support in [hi] is removed. *)
Lemma bounded_unsupported lo hi n q : inb cg n -> in_image (G cg) q -> adjacent (npix n) q ->
  lo (node_index (G cg) n) ->
  (forall n', npix n' = q -> match_exists (G cg) n' -> hi (node_index (G cg) n') -> ~ compat cg n n') ->
  bounded lo hi (fun b => b = true) (should_remove_node cg n).
Proof.
  intros Hn Hq A Lo No. unfold should_remove_node. cbn [is_node_available cbind bounded].
  intros b Hb _. rewrite (Hb Lo). cbn [negb].
  destruct (adjacent_slot _ _ A) as [k S]. pose proof (slot_of_lt _ _ _ S) as Hk.
  apply (bounded_cexists_true _ _ _ _ k); [apply In_range; unfold NEIGHBORS_COUNT; lia|].
  assert (Ex : neighborhood_exists_fast (G cg) (npix n) k = true).
  { apply (neighborhood_exists_fast_iff _ _ _ (st_graph cg Hs)). exists q. split; [apply Hn|split; assumption]. }
  rewrite Ex, (neighbor_by_index_slot _ _ q k (st_graph cg Hs) (proj1 Hn) Hq S). cbn [negb].
  eapply bounded_bind with (Q := fun b => b = false); [|cbv beta; intros r ->; reflexivity].
  unfold has_edge_to. apply bounded_cexists_false. intros d' Hd'.
  apply In_disparities in Hd'; [|apply Hs|exact Hq]. destruct Hd' as [_ M'].
  pose proof (match_inb cg _ M') as Hn'.
  set (e := {| enode := n; enbr := nd q d' |}).
  destruct (edge_values cg e Hs Hn Hn' A) as [v [w [Ev Ew]]].
  unfold is_edge_available. rewrite Ev, Ew. cbn [lift cbind].
  destruct (fle (fsub v w) (cg_threshold cg)) eqn:Ef; [|reflexivity].
  cbn [is_node_available cbind bounded]. intros b1 _ _. destruct b1; [|reflexivity].
  cbn [cbind bounded]. intros b2 _ H2. destruct b2; [|reflexivity]. cbn [bounded].
  destruct (edge_exists (G cg) e) eqn:Ee; [|reflexivity]. exfalso.
  apply (No (nd q d') eq_refl M' (H2 eq_refl)). split.
  - apply (edge_exists_inb cg e (st_graph cg Hs) Hn Hn'). exact Ee.
  - unfold ewb. fold e. rewrite Ev, Ew. exact Ef.
Qed.

Lemma bounded_process lo hi n q : match_exists (G cg) n -> in_image (G cg) q -> adjacent (npix n) q ->
  lo (node_index (G cg) n) ->
  (forall n', npix n' = q -> match_exists (G cg) n' -> hi (node_index (G cg) n') -> ~ compat cg n n') ->
  bounded lo hi (fun _ => False) (csp_process_pixel cg (npix n)).
Proof.
  intros M Hq A Lo No. unfold csp_process_pixel. rewrite disparities_right_eq by (try apply M; apply Hs).
  fold (disps cg (npix n)).
  assert (Hd : In (disp n) (disps cg (npix n))) by (apply disps_In; [exact Hs|apply M|destruct n; exact M]).
  revert Hd. generalize false as ch. induction (disps cg (npix n)) as [|d ds IH]; intros ch Hd; [destruct Hd|].
  cbn [cloop]. destruct Hd as [Hd|Hd].
  - subst d. cbv zeta. replace (nd (npix n) (disp n)) with n by (destruct n; reflexivity).
    eapply bounded_bind with (Q := fun _ => False); [|intros r []].
    eapply bounded_bind; [apply (bounded_unsupported lo hi n q); try assumption; apply match_inb; exact M|].
    cbv beta. intros b ->. cbn [make_node_unavailable cbind bounded]. intros _ X. contradiction.
  - eapply bounded_bind; [apply bounded_any|]. intros ch' _. apply IH. exact Hd.
Qed.

(** The contents only decrease. *)
Definition decreasing (h : list mem) : Prop := forall m, In m h -> sub (current h) m.

Lemma tstep_decreasing {A} (Q : A -> Prop) K n init t h t' h' : tstep sc 1 t h t' h' ->
  thread_safe K n init Q t -> hist_good K n init h -> decreasing h ->
  decreasing h' /\ (forall m, In m h -> In m h').
Proof.
  intros St Ts Hh D. destruct St as [i k h w b L Gt|i b k h w L Hi|i b w k h]; [auto..|].
  split; [|intros m Hm; right; exact Hm]. cbn [thread_safe] in Ts. destruct Ts as [Hi [_ [-> _]]].
  pose proof (proj1 (good_current _ _ _ _ Hh)) as L. rewrite store_one by lia.
  intros m [<-|Hm]; cbn [current hd]; [apply sub_refl|].
  intros j. rewrite bit_upd by (unfold current in *; lia). destruct (j =? i); [discriminate|]. apply D; exact Hm.
Qed.

Lemma kernel_step_decreasing K init s s' : kernel_step cg a sc kind group s s' -> kernel_safe cg K init s ->
  decreasing (khistory s) -> decreasing (khistory s') /\ (forall m, In m (khistory s) -> In m (khistory s')).
Proof.
  intros St [S1 S2] D. destruct St as [i p ph ph' l h h' f f' E St|b who l h f Hb Hm]; cbn [items khistory] in *; [|auto].
  destruct (S1 p ph (nth_error_In _ _ E)) as [_ Sp].
  destruct St as [h f|h f|h f|t t' h h' f St|r h f|h f|h f|b h f Hb]; auto.
  eapply tstep_decreasing; eassumption.
Qed.

Lemma kernel_steps_decreasing K init s s' : support cg K -> kernel_steps cg a sc kind group s s' -> kernel_safe cg K init s ->
  decreasing (khistory s) -> decreasing (khistory s') /\ (forall m, In m (khistory s) -> In m (khistory s')).
Proof.
  intros HK P. induction P as [s|s s1 s2 St P IH]; intros S D; [auto|].
  destruct (kernel_step_decreasing K init s s1 St S D) as [D1 I1].
  destruct (IH (kernel_step_safe K init s s1 HK St S) D1) as [D2 I2]. split; [exact D2|]. auto.
Qed.

(** A work-item that cannot get through the removal pass. *)
Definition tbounded (lo hi : N -> Prop) (t : thread bool) : Prop :=
  match t with
  | Run c => bounded lo hi (fun _ => False) c
  | Store i b w k => bounded lo hi (fun _ => False) (Write i b k)
  end.
Definition stuck_before lo hi (ph : phase) : Prop :=
  match ph with
  | Enter | Enter2 | Reset | First => True
  | Work t => tbounded lo hi t
  | _ => False
  end.

Lemma item_step_stuck lo (init : mem) ph h f ph' h' f' : item_step a sc ph h f ph' h' f' ->
  phase_safe (places cg no_node) (size cg) init ph ->
  hist_good (places cg no_node) (size cg) init h ->
  (forall m, In m h' -> forall i, lo i -> bit m i = true) ->
  stuck_before lo (fun i => bit init i = true) ph ->
  stuck_before lo (fun i => bit init i = true) ph'.
Proof.
  intros St Sp Hh Hlo. destruct St as [h f|h f|h f|t t' h h' f St|r h f|h f|h f|b h f Hb]; cbn [stuck_before phase_safe] in *; auto;
    try (intros X; contradiction X).
  destruct St as [i k h w b L Gt|i b k h w L Hi|i b w k h]; cbn [tbounded] in *.
  - cbn [bounded]. intros H. pose proof (good_loads _ _ _ _ _ _ Hh L) as [_ [_ Sw]]. apply bit_get_Ok in Gt.
    assert (Iw : In w h).
    { unfold loads in L. destruct sc; [|exact L]. subst w. destruct h as [|m0 h0]; [|left; reflexivity].
      exfalso. apply (proj1 Hh). reflexivity. }
    apply H; [intros Li; rewrite <- Gt; apply (Hlo w Iw); exact Li|]. intros ->. apply Sw. exact Gt.
  - auto.
  - cbn [bounded]. intros H. cbn [thread_safe] in Sp. destruct Sp as [Hi [_ [-> _]]].
    apply H; [reflexivity|]. intros Li. pose proof (proj1 (good_current _ _ _ _ Hh)) as Lc.
    rewrite store_one in Hlo by lia.
    pose proof (Hlo _ (or_introl eq_refl) i Li) as X. rewrite bit_upd in X by (unfold current in *; lia).
    rewrite N.eqb_refl in X. discriminate.
Qed.

(** After a launch every existing node that is left has, for every neighboring
    pixel, a compatible node that was available when the launch started. *)
Lemma launch_support m f m' f' n q : mem_ok cg m -> launch cg a sc kind group m f m' f' ->
  match_exists (G cg) n -> avb cg m' n = true -> in_image (G cg) q -> adjacent (npix n) q ->
  exists n', npix n' = q /\ match_exists (G cg) n' /\ avb cg m n' = true /\ compat cg n n'.
Proof.
  intros Hm [s [P [Fin [-> ->]]]] M Av Hq A.
  assert (D : (exists n', npix n' = q /\ match_exists (G cg) n' /\ avb cg m n' = true /\ compat cg n n') \/
    (forall n', npix n' = q -> match_exists (G cg) n' -> bit m (node_index (G cg) n') = true -> ~ compat cg n n')).
  { destruct (existsb (fun d => avb cg m (nd q d) && edge_exists (G cg) {| enode := n; enbr := nd q d |}
                && ewb cg {| enode := n; enbr := nd q d |}) (disps cg q)) eqn:E.
    - left. apply existsb_exists in E. destruct E as [d [Hd E]]. apply disps_In in Hd; try assumption.
      apply andb_true_iff in E. destruct E as [E E3]. apply andb_true_iff in E. destruct E as [E1 E2].
      exists (nd q d). split; [reflexivity|]. split; [exact Hd|]. split; [exact E1|]. split; [|exact E3].
      apply (edge_exists_inb cg _ (st_graph cg Hs)) in E2; [exact E2|apply match_inb; exact M|apply match_inb; exact Hd].
    - right. intros [q' d] Eq Mn Bn C. cbn [npix] in Eq. subst q'.
      assert (X : existsb (fun d => avb cg m (nd q d) && edge_exists (G cg) {| enode := n; enbr := nd q d |}
                && ewb cg {| enode := n; enbr := nd q d |}) (disps cg q) = true).
      { apply existsb_exists. exists d. split; [apply disps_In; assumption|].
        destruct C as [C1 C2]. rewrite C2. unfold avb. rewrite Bn. rewrite andb_true_r. cbn [andb].
        apply (edge_exists_inb cg _ (st_graph cg Hs)); [apply match_inb; exact M|apply match_inb; exact Mn|exact C1]. }
      congruence. }
  destruct D as [D|No]; [exact D|exfalso].
  set (lo := fun i => bit (current (khistory s)) i = true).
  set (hi := fun i => bit m i = true).
  assert (B : bounded lo hi (fun _ => False) (csp_process_pixel cg (npix n))) by (apply (bounded_process lo hi n q); assumption).
  pose proof (launch_start_safe no_node m f m (good_none cg m m Hm (sub_refl m))) as S0.
  assert (D0 : decreasing (khistory (launch_start cg a m f))) by (intros x [<-|[]]; apply sub_refl).
  assert (Inv : forall s0 s1, kernel_steps cg a sc kind group s0 s1 -> s1 = s -> kernel_safe cg no_node m s0 -> decreasing (khistory s0) ->
    (exists i ph, nth_error (items s0) i = Some (npix n, ph) /\ stuck_before lo hi ph) -> 
    exists i ph, nth_error (items s) i = Some (npix n, ph) /\ stuck_before lo hi ph).
  { clear P Fin S0 D0. intros s0 s1 P Es. subst s1.
    induction P as [s|s0 s1 s St P IH]; [auto|]. intros S D [i [ph [Ei Hi]]].
    pose proof (kernel_step_safe no_node m s0 s1 (no_support cg) St S) as S1.
    destruct (kernel_step_decreasing no_node m s0 s1 St S D) as [D1 _].
    apply (IH Av B S1 D1).
    destruct (kernel_steps_decreasing no_node m s1 s (no_support cg) P S1 D1) as [D2 I2].
    assert (Hlo : forall x, In x (khistory s1) -> forall j, lo j -> bit x j = true).
    { intros x Hx j Hj. apply (D2 x (I2 x Hx)). exact Hj. }
    destruct St as [i0 p ph0 ph' l h h' fl fl' E St|b who l h fl Hb Hmp]; cbn [items khistory] in *.
    - destruct (Nat.eq_dec i0 i) as [->|Hne].
      + rewrite E in Ei. injection Ei as -> ->. exists i, ph'. split; [eapply nth_upd_same; exact E|].
        destruct S as [S Sh]. cbn [items khistory] in S, Sh. destruct (S _ _ (nth_error_In _ _ E)) as [_ Sp].
        eapply (item_step_stuck lo m); eassumption.
      + exists i, ph. split; [rewrite nth_upd_other by exact Hne; exact Ei|exact Hi].
    - exists i. rewrite pass_nth, Ei. eexists. split; [reflexivity|].
      destruct (who (0 + i)%nat); [|exact Hi]. destruct ph; cbn [behind stuck_before] in *; auto. }
  destruct (Inv _ _ P eq_refl S0 D0) as [i [ph [Ei Hi]]].
  - assert (Ip : In (npix n) (item_pixels cg a)) by (apply In_item_pixels; apply M).
    apply In_nth_error in Ip. destruct Ip as [i Ei]. exists i. cbn [launch_start items]. rewrite nth_error_map, Ei.
    eexists. split; [reflexivity|]. destruct a; exact I.
  - rewrite (Fin _ _ (nth_error_In _ _ Ei)) in Hi. exact Hi.
Qed.
End Kernel.

(** *** The host *)

Section Host.
Variables (cg : cgraph T) (a : api) (sc : bool) (kind : barrier_kind) (partition : (nat -> nat) -> Prop).
Hypothesis Hs : static cg.

Lemma propagate_safe K m f m' f' init : support cg K -> good (places cg K) (size cg) init m ->
  propagate cg a sc kind partition m f m' f' -> good (places cg K) (size cg) init m'.
Proof.
  intros HK Hm P. induction P as [m f m' f' [gr [_ L]] _|m f m1 f1 m' f' _ [gr [_ L]] _ P IH].
  - eapply launch_safe; eassumption.
  - apply IH. eapply launch_safe; eassumption.
Qed.

Lemma propagate_sub m f m' f' : mem_ok cg m -> propagate cg a sc kind partition m f m' f' -> mem_ok cg m' /\ sub m' m.
Proof.
  intros Hm P. destruct (propagate_safe no_node m f m' f' m (no_support cg) (good_none cg m m Hm (sub_refl m)) P) as [A [_ B]].
  split; assumption.
Qed.

Lemma some_launch_sub m f m' f' : mem_ok cg m -> some_launch cg a sc kind partition m f m' f' -> mem_ok cg m' /\ sub m' m.
Proof.
  intros Hm [gr [_ L]].
  destruct (launch_safe cg a sc kind gr Hs no_node m f m m' f' (no_support cg) (good_none cg m m Hm (sub_refl m)) L) as [A [_ B]].
  split; assumption.
Qed.

Lemma propagate_support m f m' f' n q : mem_ok cg m -> propagate cg a sc kind partition m f m' f' ->
  match_exists (G cg) n -> avb cg m' n = true -> in_image (G cg) q -> adjacent (npix n) q ->
  exists n', npix n' = q /\ match_exists (G cg) n' /\ avb cg m n' = true /\ compat cg n n'.
Proof.
  intros Hm P M Av Hq A. revert Hm. induction P as [m f m' f' L _|m f m1 f1 m' f' _ L _ P IH]; intros Hm.
  - destruct L as [gr [_ L]]. eapply launch_support; eassumption.
  - destruct (some_launch_sub m f m1 f1 Hm L) as [Hm1 S1].
    destruct (IH Av Hm1) as [n' [E [Mn [An C]]]]. exists n'. split; [exact E|]. split; [exact Mn|]. split; [apply S1; exact An|exact C].
Qed.

Lemma label_device_found (HL : laws T) ps m f m' f' done : label_device cg a sc kind partition ps m f m' f' ->
  mem_ok cg m -> pixels_ok cg ps -> (forall p, In p done -> single cg m p) ->
  mem_ok cg m' /\ sub m' m /\
  (ps <> [] -> (forall p, in_image (G cg) p -> In p done \/ In p ps) ->
   (forall p, in_image (G cg) p -> single cg m' p) /\
   (forall n n', match_exists (G cg) n -> match_exists (G cg) n' -> avb cg m' n = true -> avb cg m' n' = true ->
      adjacent (npix n) (npix n') -> compat cg n n')).
Proof.
  intros LD. revert done. induction LD as [m f|p ps m b m1 f m2 f2 m' f' E P LD IH]; intros done Hm Hps Hd.
  - split; [exact Hm|]. split; [apply sub_refl|]. contradiction.
  - assert (Hp : in_image (G cg) p) by (apply Hps; left; reflexivity).
    assert (Hps' : pixels_ok cg ps) by (intros x Hx; apply Hps; right; exact Hx).
    destruct (run_choose cg m p HL Hs Hm Hp) as [b' [m1' [E' [Hm1 [Sub1 [_ [Eb [HF HT]]]]]]]].
    rewrite E in E'. injection E' as <- <-.
    assert (Sp : single cg m1 p).
    { destruct b.
      - destruct (HT eq_refl) as [d [_ [_ [U _]]]]. intros d1 d2 M1 M2 A1 A2. rewrite U in A1, A2 by assumption. congruence.
      - intros d1 d2 M1 M2 A1 A2. exfalso. apply Sub1 in A1.
        assert (X : hasb cg m p = true) by (apply hasb_ex; try assumption; exists d1; split; assumption). congruence. }
    assert (Hd1 : forall q, In q (done ++ [p]) -> single cg m1 q).
    { intros q Hq. apply in_app_iff in Hq. destruct Hq as [Hq|[<-|[]]]; [|exact Sp].
      eapply single_sub; [exact Sub1|apply Hd; exact Hq]. }
    destruct (propagate_sub m1 f m2 f2 Hm1 P) as [Hm2 Sub2].
    destruct (IH (done ++ [p]) Hm2 Hps') as [Hm3 [Sub3 HF3]].
    { intros q Hq. eapply single_sub; [exact Sub2|apply Hd1; exact Hq]. }
    split; [exact Hm3|]. split; [eapply sub_trans; [exact Sub3|eapply sub_trans; eassumption]|].
    intros _ Hall. destruct ps as [|p' ps'].
    + inversion LD; subst. clear HF3 Sub3 IH.
      assert (Sall : forall q, in_image (G cg) q -> single cg m1 q).
      { intros q Hq. apply Hd1. apply in_or_app. destruct (Hall q Hq) as [X|[X|[]]]; [left; exact X|right; left; exact X]. }
      split; [intros q Hq; eapply single_sub; [exact Sub2|apply Sall; exact Hq]|].
      intros n n' Mn Mn' An An' Adj.
      destruct (propagate_support m1 f m' f' n (npix n') Hm1 P Mn An (proj1 Mn') Adj) as [n2 [E2 [M2 [A2 C2]]]].
      assert (n2 = n').
      { destruct n2 as [q2 d2], n' as [q' d']. cbn [npix] in *. subst q2. f_equal.
        apply (Sall q'); [apply Mn'|exact M2|exact Mn'|exact A2|]. apply Sub2; exact An'. }
      subst n2. exact C2.
    + apply HF3; [discriminate|]. intros q Hq. destruct (Hall q Hq) as [X|[X|X]].
      * left. apply in_or_app. left; exact X.
      * left. apply in_or_app. right; left; exact X.
      * right; exact X.
Qed.

Lemma device_solution_found (HL : laws T) m' : mem_ok cg (cg_avail cg) -> csp_solution cg a sc kind partition m' ->
  mem_ok cg m' /\ sub m' (cg_avail cg) /\
  (forall p, in_image (G cg) p -> single cg m' p) /\
  ((forall p, in_image (G cg) p -> hasb cg m' p = true) -> found cg m').
Proof.
  intros Hm [f [f' [_ LD]]].
  assert (Eo : device_order cg = all_pixels (Wd cg) (Ht cg)) by reflexivity.
  rewrite Eo in LD.
  destruct (label_device_found HL _ _ _ _ _ [] LD Hm) as [Hm' [Sub HF]].
  - intros p Hp; apply In_all_pixels in Hp; exact Hp.
  - intros p [].
  - assert (Hne : all_pixels (Wd cg) (Ht cg) <> []).
    { intros X. pose proof (proj2 (In_all_pixels (Wd cg) (Ht cg) {| px := 0; py := 0 |}) (origin_in cg Hs)) as Y.
      rewrite X in Y. destruct Y. }
    destruct (HF Hne) as [F1 F2]; [intros p Hp; right; apply In_all_pixels; exact Hp|].
    split; [exact Hm'|]. split; [exact Sub|]. split; [exact F1|]. intros Hh. split; [|exact F2].
    intros p Hp. split; [apply F1|apply Hh]; exact Hp.
Qed.

Lemma device_labeling (HL : laws T) m' : mem_ok cg (cg_avail cg) -> csp_solution cg a sc kind partition m' ->
  let cg' := with_avail cg m' in
  wf_cgraph cg' /\ same_problem cg cg' /\
  (forall n, in_image (G cg) (npix n) -> disp n < Lv cg -> available cg' n -> available cg n) /\
  (forall n n', match_exists (G cg) n -> match_exists (G cg) n' -> npix n = npix n' ->
     available cg' n -> available cg' n' -> n = n') /\
  ((forall p, in_image (G cg) p -> exists d, match_exists (G cg) (nd p d) /\ available cg' (nd p d)) ->
   exists k, solution cg' k /\ forall n, match_exists (G cg) n -> (available cg' n <-> disp n = k (npix n))).
Proof.
  intros Hm CS. cbv zeta. destruct (device_solution_found HL m' Hm CS) as [Hm' [Sub [Sg Fd]]].
  assert (Hc : wf_cgraph cg) by (constructor; [apply Hs|apply Hs|exact Hm]).
  split; [apply static_wf; assumption|]. split; [apply same_with; assumption|].
  split; [intros n Hn Hd A; eapply sub_available; eassumption|]. split.
  - intros [p d] [q d'] M M' E A A'. cbn [npix] in E. subst q. f_equal.
    apply available_with in A, A'; try assumption; try (apply match_inb; assumption).
    apply (Sg p); try assumption. apply M.
  - intros H. apply found_solution; try assumption. apply Fd. intros p Hp. apply hasb_ex; try assumption.
    destruct (H p Hp) as [d [M A]]. exists d. split; [exact M|].
    apply available_with in A; try assumption. apply match_inb; exact M.
Qed.

(** Safety of all states reached on the device. *)
Lemma kernel_reached_safe gr m f s : mem_ok cg m -> kernel_steps cg a sc kind gr (launch_start cg a m f) s ->
  let cg' := with_avail cg (current (khistory s)) in
  wf_cgraph cg' /\
  (forall p t, In (p, Work t) (items s) -> in_image (G cg) p /\ ~ faulty (current (khistory s)) t /\
     ((exists r, t = Run (Ret r)) \/ exists t' h', tstep sc 1 t (khistory s) t' h')) /\
  (forall n, in_image (G cg) (npix n) -> disp n < Lv cg -> available cg' n -> available (with_avail cg m) n) /\
  (forall k, solution (with_avail cg m) k -> solution cg' k).
Proof.
  intros Hm P. cbv zeta.
  pose proof (kernel_steps_safe cg a sc kind gr Hs no_node m _ _ (no_support cg) P
    (launch_start_safe cg a Hs no_node m f m (good_none cg m m Hm (sub_refl m)))) as S.
  pose proof (good_current _ _ _ _ (proj2 S)) as [Lm [_ Sm]].
  split; [apply static_wf; assumption|]. split; [|split].
  - intros p t Ht. destruct (proj1 S p _ Ht) as [Hp St]. cbn [phase_safe] in St. split; [exact Hp|].
    assert (F : ~ faulty (current (khistory s)) t).
    { apply (safe_not_faulty (places cg no_node) (size cg) m (fun _ : bool => True)
        {| threads := [t]; history := khistory s |} t); [|left; reflexivity].
      split; cbn [threads history]; [|apply S]. intros x [<-|[]]. exact St. }
    split; [exact F|]. apply progress; [apply (proj1 (proj2 S))|exact F].
  - intros n Hn Hd A. pose proof (conj Hn Hd : inb cg n) as Hi.
    apply available_with in A; try assumption. apply available_with; try assumption. apply Sm; exact A.
  - intros k Sk. destruct (labels_set (with_avail cg m) k (static_wf cg m Hs Hm) Sk) as [S1 S2].
    pose proof (kernel_steps_safe cg a sc kind gr Hs (label_set cg k) m _ _ S1 P
      (launch_start_safe cg a Hs (label_set cg k) m f m S2)) as S'.
    apply (good_solution (with_avail cg m) k _ m (static_wf cg m Hs Hm) Sk). apply good_current. apply S'.
Qed.
End Host.
End Graph.
