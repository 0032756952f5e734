(** The list of candidate thresholds. *)
From Verif Require Export Zero_proofs.
Local Open Scope N_scope.

Section Graph.
Context {T : target} (HL : laws T).
Implicit Types (g : dgraph T) (l : list (F T)).

Definition numbers l : Prop := forall x, In x l -> is_number x.
(** Every element of the first list occurs in the second one, up to equality. *)
Definition covers l l' : Prop := forall x, In x l -> exists y, In y l' /\ feq y x = true.

Lemma covers_incl l l' : numbers l -> incl l l' -> covers l l'.
Proof. intros N I x Hx. exists x. split; [apply I; exact Hx|apply (feq_refl HL), N; exact Hx]. Qed.

Lemma covers_trans a b c : covers a b -> covers b c -> covers a c.
Proof.
  intros H1 H2 x Hx. destruct (H1 x Hx) as [y [Hy E]]. destruct (H2 y Hy) as [z [Hz E']].
  exists z. split; [exact Hz|]. eapply (feq_trans HL); eassumption.
Qed.

(** *** Library algorithms *)

Lemma In_unique_from last l x : In x (unique_from last l) -> In x l.
Proof.
  revert last; induction l as [|a l IH]; intros last; cbn [unique_from]; [auto|].
  destruct (feq last a); cbn [In]; intros H; [right; eapply IH; exact H|].
  destruct H as [->|H]; [left; reflexivity|right; eapply IH; exact H].
Qed.

Lemma In_unique l x : In x (std_unique l) -> In x l.
Proof.
  destruct l as [|a l]; cbn [std_unique]; [auto|]. intros [->|H]; [left; reflexivity|].
  right. eapply In_unique_from; exact H.
Qed.

Lemma unique_from_covers last l x : numbers l -> In x l ->
  feq last x = true \/ exists y, In y (unique_from last l) /\ feq y x = true.
Proof.
  revert last; induction l as [|a l IH]; intros last Hn Hx; [destruct Hx|].
  assert (Hn' : numbers l) by (intros y Hy; apply Hn; right; exact Hy).
  cbn [unique_from]. destruct Hx as [->|Hx].
  - destruct (feq last x) eqn:E; [left; reflexivity|]. right. exists x.
    split; [left; reflexivity|]. apply (feq_refl HL), Hn. left; reflexivity.
  - destruct (feq last a) eqn:E.
    + apply IH; assumption.
    + destruct (IH a Hn' Hx) as [H|[y [Hy H]]]; right.
      * exists a. split; [left; reflexivity|exact H].
      * exists y. split; [right; exact Hy|exact H].
Qed.

Lemma unique_covers l : numbers l -> covers l (std_unique l).
Proof.
  destruct l as [|a l]; intros Hn x Hx; [destruct Hx|]. cbn [std_unique].
  destruct Hx as [->|Hx].
  - exists x. split; [left; reflexivity|]. apply (feq_refl HL), Hn. left; reflexivity.
  - destruct (unique_from_covers a l x) as [H|[y [Hy H]]].
    + intros y Hy. apply Hn. right; exact Hy.
    + exact Hx.
    + exists a. split; [left; reflexivity|exact H].
    + exists y. split; [right; exact Hy|exact H].
Qed.

Lemma unique_from_increasing last l : numbers (last :: l) ->
  StronglySorted (fun a b => fle a b = true) (last :: l) -> increasing (last :: unique_from last l).
Proof.
  revert last; induction l as [|a l IH]; intros last Hn Hs; cbn [unique_from].
  - constructor; constructor.
  - inversion Hs as [|x y Hs' Hf]; subst. inversion Hf as [|x y Hla Hfl]; subst.
    destruct (feq last a) eqn:E.
    + apply IH.
      * intros x [<-|Hx]; apply Hn; [left; reflexivity|right; right; exact Hx].
      * inversion Hs'; subst. constructor; assumption.
    + assert (Hlt : flt last a = true).
      { apply (flt_spec T HL). split; [exact Hla|]. destruct (fle a last) eqn:E2; [|reflexivity].
        assert (feq last a = true) by (apply (feq_spec T HL); auto). congruence. }
      assert (Hi : increasing (a :: unique_from a l)).
      { apply IH; [intros x Hx; apply Hn; right; exact Hx|exact Hs']. }
      constructor; [exact Hi|]. constructor; [exact Hlt|].
      inversion Hi as [|x y _ Hfa]; subst. apply Forall_forall. intros x Hx.
      rewrite Forall_forall in Hfa. eapply (flt_le_trans HL); [exact Hlt|]. apply (flt_le HL), Hfa; exact Hx.
Qed.

Lemma unique_increasing l : numbers l -> StronglySorted (fun a b => fle a b = true) l -> increasing (std_unique l).
Proof.
  destruct l as [|a l]; intros Hn Hs; cbn [std_unique]; [constructor|]. apply unique_from_increasing; assumption.
Qed.

Lemma In_merge (a b : list (F T)) x : In x (std_merge a b) <-> In x a \/ In x b.
Proof.
  revert b; induction a as [|u a IH]; intros b.
  - destruct b; cbn; tauto.
  - induction b as [|v b IHb].
    + cbn. tauto.
    + cbn [std_merge]. destruct (flt v u).
      * cbn [In]. change ((fix merge_b (b0 : list (F T)) := match b0 with
                           | [] => u :: a
                           | y :: b' => if flt y u then y :: merge_b b' else u :: std_merge a b0
                           end) b) with (std_merge (u :: a) b).
        rewrite IHb. cbn [In]. tauto.
      * cbn [In]. rewrite IH. cbn [In]. tauto.
Qed.

Lemma sort_unique_spec srt l : sorts srt -> numbers l ->
  exists l', sort_unique srt l = Ok l' /\ increasing l' /\ incl l' l /\ covers l l'.
Proof.
  intros Hs Hn. unfold sort_unique, std_sort.
  assert (E : existsb (fun x => negb (feq x x)) l = false).
  { destruct (existsb _ l) eqn:E; [|reflexivity]. apply existsb_exists in E. destruct E as [x [Hx E]].
    rewrite (feq_refl HL) in E by (apply Hn; exact Hx). discriminate. }
  rewrite E. cbn [bind]. destruct (Hs l Hn) as [P S].
  assert (Hn' : numbers (srt l)).
  { intros x Hx. apply Hn. apply Permutation_sym in P. eapply Permutation_in; eassumption. }
  exists (std_unique (srt l)). split; [reflexivity|]. split; [apply unique_increasing; assumption|]. split.
  - intros x Hx. apply In_unique in Hx. apply Permutation_sym in P. eapply Permutation_in; eassumption.
  - intros x Hx. apply (unique_covers (srt l) Hn'). eapply Permutation_in; eassumption.
Qed.

Lemma collect_spec {A B} (xs : list A) (f : A -> outcome B) :
  (forall a, In a xs -> exists b, f a = Ok b) ->
  exists bs, collect xs f = Ok bs /\ forall b, In b bs <-> exists a, In a xs /\ f a = Ok b.
Proof.
  induction xs as [|a xs IH]; intros H; cbn [collect].
  - exists []. split; [reflexivity|]. intros b. split; [intros []|intros [a [[] _]]].
  - destruct (H a) as [b E]; [left; reflexivity|]. destruct IH as [bs [E2 I]]; [intros; apply H; right; assumption|].
    rewrite E. cbn [bind]. rewrite E2. cbn [bind]. exists (b :: bs). split; [reflexivity|].
    intros b'. cbn [In]. rewrite I. split.
    + intros [<-|[a' [Ha' E']]]; [exists a; auto|exists a'; auto].
    + intros [a' [[<-|Ha'] E']]; [left; congruence|right; exists a'; auto].
Qed.

(** *** Penalties of one pixel and one neighborhood *)

Lemma fetch_pixel_spec srt g lp p : sorts srt -> wf_graph g -> make_lowest g = Ok lp -> finite_penalties g ->
  in_image g p ->
  exists m l, lowest_pixel_penalty lp p = Ok m /\ fetch_pixel_available_penalties srt g p m = Ok l /\
    increasing l /\ numbers l /\
    (forall c, In c l -> exists d, match_exists g {| npix := p; disp := d |} /\ node_excess g lp {| npix := p; disp := d |} c) /\
    (forall d c, match_exists g {| npix := p; disp := d |} -> node_excess g lp {| npix := p; disp := d |} c ->
       exists y, In y l /\ feq y c = true).
Proof.
  intros Hsrt Hw Hl [Hf _] Hp.
  destruct (lowest_pixel_Ok g p Hw Hp) as [m [Em [d0 [M0 Ed0]]]].
  destruct (Hf _ M0) as [m' [Em' Fm]]. rewrite Ed0 in Em'. injection Em' as <-.
  rewrite <- (lowest_pixel_value g lp p Hw Hl Hp) in Em.
  exists m. unfold fetch_pixel_available_penalties.
  pose proof (wf_sizes g Hw) as S. pose proof (sz_w2 g S). pose proof (sz_lw g S). pose proof (sz_l g S). pose proof (sz_h g S).
  destruct Hp as [Hx Hy]. rewrite (wf_width g Hw), !uadd_small, usub_small by lia.
  match goal with |- context [range 0 ?s] => set (size := s) end.
  assert (Es : size = N.min (levels g) (width (right g) - px p)).
  { unfold size. destruct (N.ltb_spec (px p + levels g) (width (right g) + 1)); lia. }
  destruct (N.ltb_spec vector_max_size size) as [X|_].
  { exfalso. pose proof (wf_alloc g Hw) as Al.
    assert (1 * levels g <= width (right g) * height (right g) * 4 * levels g) by (apply N.mul_le_mono_r; nia).
    lia. }
  assert (In_size : forall d, In d (range 0 size) <-> match_exists g {| npix := p; disp := d |}).
  { intros d. rewrite In_range, Es. unfold match_exists, in_image. cbn [npix disp]. lia. }
  destruct (collect_spec (range 0 size) (fun d => v <- node_penalty g {| npix := p; disp := d |} ;; Ok (fsub v m)))
    as [l0 [E0 I0]].
  { intros d Hd. apply In_size in Hd. destruct (node_penalty_Ok g _ Hw Hd) as [v ->]. cbn [bind]. eauto. }
  rewrite E0. cbn [bind].
  assert (I1 : forall c, In c l0 <-> exists d, match_exists g {| npix := p; disp := d |} /\ node_excess g lp {| npix := p; disp := d |} c).
  { intros c. rewrite I0. split.
    - intros [d [Hd E]]. apply bind_Ok in E. destruct E as [v [Ev E]]. injection E as <-.
      exists d. split; [apply In_size; exact Hd|]. exists v, m. auto.
    - intros [d [Hd [v [w [Ev [Ew ->]]]]]]. exists d. split; [apply In_size; exact Hd|].
      rewrite Ev. cbn [bind]. cbn [npix] in Ew. congruence. }
  assert (N0 : numbers l0).
  { intros c Hc. apply I1 in Hc. destruct Hc as [d [Hd [v [w [Ev [Ew ->]]]]]]. cbn [npix] in Ew.
    assert (w = m) by congruence. subst w. destruct (Hf _ Hd) as [v' [Ev' Fv]].
    assert (v' = v) by congruence. subst v'. apply (sub_number T HL); assumption. }
  destruct (sort_unique_spec srt l0 Hsrt N0) as [l [El [Inc [Sub Cov]]]].
  exists l. split; [exact Em|]. split; [exact El|]. split; [exact Inc|]. split; [intros x Hx'; apply N0, Sub; exact Hx'|].
  split.
  - intros c Hc. apply I1, Sub; exact Hc.
  - intros d c Hd Hc. apply Cov. apply I1. exists d. auto.
Qed.

Lemma lowest_nbr_fin g p q m : wf_graph g -> finite_penalties g -> in_image g p -> in_image g q -> adjacent p q ->
  calculate_lowest_neighborhood_penalty g p q = Ok m -> ffin m = true.
Proof.
  intros Hw [_ Hf] Hp Hq A E. destruct (lowest_nbr_Ok g p q Hw Hp Hq A) as [m' [E' [d [d' [M1 [M2 [_ Ed]]]]]]].
  rewrite E in E'. injection E' as <-. destruct (Hf (pair_edge p q (d, d')) M1 M2 A) as [v [Ev Fv]]. congruence.
Qed.

Lemma fetch_edge_spec srt g lp p q : sorts srt -> wf_graph g -> make_lowest g = Ok lp -> finite_penalties g ->
  in_image g p -> in_image g q -> adjacent p q ->
  let e0 := pair_edge p q (0, 0) in
  exists m l, lowest_neighborhood_penalty lp e0 = Ok m /\ fetch_edge_available_penalties srt g e0 m = Ok l /\
    increasing l /\ numbers l /\
    (forall c, In c l -> exists e, npix (enode e) = p /\ npix (enbr e) = q /\ enumerated g e /\ edge_excess g lp e c) /\
    (forall e c, npix (enode e) = p -> npix (enbr e) = q -> enumerated g e -> edge_excess g lp e c ->
       exists y, In y l /\ feq y c = true).
Proof.
  intros Hsrt Hw Hl Hfp Hp Hq A e0.
  destruct (lowest_nbr_Ok g p q Hw Hp Hq A) as [m [Em _]].
  pose proof (lowest_nbr_fin g p q m Hw Hfp Hp Hq A Em) as Fm. destruct Hfp as [_ Hf].
  assert (Elow : forall e, npix (enode e) = p -> npix (enbr e) = q -> lowest_neighborhood_penalty lp e = Ok m).
  { intros e Ep Eq. rewrite (lowest_nbr_value g lp e Hw Hl); rewrite ?Ep, ?Eq; assumption. }
  exists m. unfold fetch_edge_available_penalties, e0, pair_edge. cbn [fst snd enode enbr npix].
  destruct (collect_spec (disparities g (px p) 0)
    (fun d => collect (disparities g (px q) (@initial_disparity T p q d))
         (fun d' => v <- edge_penalty g {| enode := {| npix := p; disp := d |};
                                   enbr := {| npix := q; disp := d' |} |} ;; Ok (fsub v m)))) as [ls [E0 I0]].
  { intros d Hd. apply In_disparities in Hd; try assumption.
    destruct (collect_spec (disparities g (px q) (@initial_disparity T p q d))
      (fun d' => v <- edge_penalty g {| enode := {| npix := p; disp := d |};
                                   enbr := {| npix := q; disp := d' |} |} ;; Ok (fsub v m))) as [l0 [E _]].
    - intros d' Hd'. apply In_disparities in Hd'; try assumption.
      destruct (pair_penalty_Ok g p q d d' Hw A (proj2 Hd) (proj2 Hd')) as [v Ev].
      unfold pair_edge in Ev. cbn [fst snd] in Ev. rewrite Ev. cbn [bind]. eauto.
    - eauto. }
  rewrite E0. cbn [bind].
  assert (I1 : forall c, In c (concat ls) <->
    exists d d', In (d, d') (pairs_of g p q) /\ edge_excess g lp (pair_edge p q (d, d')) c).
  { intros c. rewrite in_concat. unfold pairs_of. split.
    - intros [l0 [Hl0 Hc]]. apply I0 in Hl0. destruct Hl0 as [d [Hd E]].
      destruct (collect_spec (disparities g (px q) (@initial_disparity T p q d))
        (fun d' => v <- edge_penalty g {| enode := {| npix := p; disp := d |};
                                   enbr := {| npix := q; disp := d' |} |} ;; Ok (fsub v m))) as [l1 [E1 I1]].
      { intros d' Hd'. apply In_disparities in Hd, Hd'; try assumption.
        destruct (pair_penalty_Ok g p q d d' Hw A (proj2 Hd) (proj2 Hd')) as [v Ev].
        unfold pair_edge in Ev. cbn [fst snd] in Ev. rewrite Ev. cbn [bind]. eauto. }
      rewrite E in E1. injection E1 as <-. apply I1 in Hc. destruct Hc as [d' [Hd' E2]].
      apply bind_Ok in E2. destruct E2 as [v [Ev E2]]. injection E2 as <-.
      exists d, d'. split; [apply in_flat_map; exists d; split; [exact Hd|apply in_map; exact Hd']|].
      exists v, m. split; [exact Ev|]. split; [apply Elow; reflexivity|reflexivity].
    - intros [d [d' [Hd [v [w [Ev [Ew ->]]]]]]]. apply in_flat_map in Hd. destruct Hd as [d1 [Hd1 Hd]].
      apply in_map_iff in Hd. destruct Hd as [d2 [E Hd2]]. injection E as -> ->.
      rewrite Elow in Ew by reflexivity. injection Ew as <-.
      destruct (collect_spec (disparities g (px q) (@initial_disparity T p q d))
        (fun d' => v <- edge_penalty g {| enode := {| npix := p; disp := d |};
                                   enbr := {| npix := q; disp := d' |} |} ;; Ok (fsub v m))) as [l1 [E1 I1]].
      { intros a Ha. apply In_disparities in Hd1, Ha; try assumption.
        destruct (pair_penalty_Ok g p q d a Hw A (proj2 Hd1) (proj2 Ha)) as [v' Ev'].
        unfold pair_edge in Ev'. cbn [fst snd] in Ev'. rewrite Ev'. cbn [bind]. eauto. }
      exists l1. split; [apply I0; exists d; auto|]. apply I1. exists d'. split; [exact Hd2|].
      unfold pair_edge in Ev. cbn [fst snd] in Ev. rewrite Ev. reflexivity. }
  assert (I2 : forall c, In c (concat ls) <->
    exists e, npix (enode e) = p /\ npix (enbr e) = q /\ enumerated g e /\ edge_excess g lp e c).
  { intros c. rewrite I1. split.
    - intros [d [d' [Hd Ex]]]. apply In_pairs_of in Hd; try assumption. destruct Hd as [M1 [M2 O]].
      exists (pair_edge p q (d, d')). split; [reflexivity|]. split; [reflexivity|]. split; [|exact Ex].
      split; [exact M1|]. split; [exact M2|]. split; [exact A|exact O].
    - intros [[[p1 d] [q1 d']] [Ep [Eq [[M1 [M2 [_ O]]] Ex]]]]. cbn [enode enbr npix disp] in *. subst p1 q1.
      exists d, d'. split; [apply In_pairs_of; auto|exact Ex]. }
  assert (N0 : numbers (concat ls)).
  { intros c Hc. apply I2 in Hc. destruct Hc as [e [Ep [Eq [[M1 [M2 [Aj _]]] [v [w [Ev [Ew ->]]]]]]]].
    rewrite Elow in Ew by assumption. injection Ew as <-.
    destruct (Hf e M1 M2 Aj) as [v' [Ev' Fv]]. assert (v' = v) by congruence. subst v'.
    apply (sub_number T HL); assumption. }
  destruct (sort_unique_spec srt (concat ls) Hsrt N0) as [l [El [Inc [Sub Cov]]]].
  exists l. split; [apply Elow; reflexivity|]. split; [exact El|]. split; [exact Inc|].
  split; [intros x Hx'; apply N0, Sub; exact Hx'|]. split.
  - intros c Hc. apply I2, Sub; exact Hc.
  - intros e c Ep Eq En Hc. apply Cov. apply I2. exists e. auto.
Qed.

(** *** All candidates *)

Definition cand_nodes g lp (p : pixel) (c : F T) : Prop :=
  exists n, npix n = p /\ match_exists g n /\ node_excess g lp n c.
Definition cand_edges g lp (p : pixel) (ks : list N) (c : F T) : Prop :=
  exists e k, npix (enode e) = p /\ In k ks /\ slot_of k p (npix (enbr e)) /\ enumerated g e /\ edge_excess g lp e c.

(** The list represents a set of numbers. *)
Definition represents l (P : F T -> Prop) : Prop :=
  increasing l /\ numbers l /\ (forall c, In c l -> P c) /\
  (forall c, P c -> exists y, In y l /\ feq y c = true).

Lemma merge_step srt (res a : list (F T)) (P Q : F T -> Prop) : sorts srt -> represents res P -> represents a Q ->
  exists res', sort_unique srt (std_merge res a) = Ok res' /\ represents res' (fun c => P c \/ Q c).
Proof.
  intros Hs [_ [N1 [S1 C1]]] [_ [N2 [S2 C2]]].
  assert (Nm : numbers (std_merge res a)).
  { intros x Hx. apply In_merge in Hx. destruct Hx; auto. }
  destruct (sort_unique_spec srt _ Hs Nm) as [l [El [Inc [Sub Cov]]]].
  exists l. split; [exact El|]. split; [exact Inc|]. split; [intros x Hx; apply Nm, Sub; exact Hx|]. split.
  - intros c Hc. apply Sub, In_merge in Hc. destruct Hc as [Hc|Hc]; auto.
  - assert (X : forall y c, In y (std_merge res a) -> feq y c = true -> exists z, In z l /\ feq z c = true).
    { intros y c Hy E. destruct (Cov y Hy) as [z [Hz E']]. exists z. split; [exact Hz|].
      eapply (feq_trans HL); eassumption. }
    intros c [Hc|Hc]; [destruct (C1 c Hc) as [y [Hy E]]|destruct (C2 c Hc) as [y [Hy E]]];
      (eapply X; [apply In_merge; eauto|exact E]).
Qed.

Lemma represents_ext l (P Q : F T -> Prop) : (forall c, P c <-> Q c) -> represents l P -> represents l Q.
Proof.
  intros H [A [B [C D]]]. split; [exact A|]. split; [exact B|]. split.
  - intros c Hc. apply H, C; exact Hc.
  - intros c Hc. apply D, H; exact Hc.
Qed.

Lemma fetch_edges_loop srt g lp p res P : sorts srt -> wf_graph g -> make_lowest g = Ok lp -> finite_penalties g ->
  in_image g p -> represents res P ->
  exists res', loop (range 0 NEIGHBORS_COUNT)
      (fun k res =>
         if negb (neighborhood_exists_fast g p k) then Ok res else
         let e := {| enode := {| npix := p; disp := 0 |};
                     enbr := {| npix := neighbor_by_index T p k; disp := 0 |} |} in
         m <- lowest_neighborhood_penalty lp e ;;
         a <- fetch_edge_available_penalties srt g e m ;;
         sort_unique srt (std_merge res a)) res = Ok res' /\
    represents res' (fun c => P c \/ cand_edges g lp p (range 0 NEIGHBORS_COUNT) c).
Proof.
  intros Hs Hw Hl Hf Hp HR.
  apply (loop_inv (fun ks res => represents res (fun c => P c \/ cand_edges g lp p ks c))).
  - eapply represents_ext; [|exact HR]. intros c. split; [auto|]. intros [H|[e [k [_ [[] _]]]]]; exact H.
  - intros pre k post r1 _ HR1. destruct (neighborhood_exists_fast g p k) eqn:Ex; cbn [negb].
    + apply (neighborhood_exists_fast_iff g p k Hw) in Ex. destruct Ex as [q [_ [Hq S]]].
      cbv zeta. rewrite (neighbor_by_index_slot g p q k Hw Hp Hq S).
      destruct (fetch_edge_spec srt g lp p q Hs Hw Hl Hf Hp Hq (slot_adjacent _ _ _ S))
        as [m [a [Em [Ea [Inc [Na [Sa Ca]]]]]]].
      unfold pair_edge in Em, Ea. cbn [fst snd] in Em, Ea. rewrite Em. cbn [bind]. rewrite Ea. cbn [bind].
      assert (Ra : represents a (fun c => exists e, npix (enode e) = p /\ npix (enbr e) = q /\ enumerated g e /\ edge_excess g lp e c)).
      { split; [exact Inc|]. split; [exact Na|]. split; [exact Sa|].
        intros c [e [E1 [E2 [E3 E4]]]]. eapply Ca; eassumption. }
      destruct (merge_step srt r1 a _ _ Hs HR1 Ra) as [r2 [E2 R2]].
      exists r2. split; [exact E2|]. eapply represents_ext; [|exact R2].
      intros c. split.
      * intros [[H|[e [k' [E [I [S' X]]]]]]|[e [E1 [E3 X]]]]; [left; exact H| |].
        -- right. exists e, k'. split; [exact E|]. split; [apply in_or_app; left; exact I|]. auto.
        -- right. exists e, k. split; [exact E1|]. split; [apply in_or_app; right; left; reflexivity|].
           split; [rewrite E3; exact S|exact X].
      * intros [H|[e [k' [E [I [S' X]]]]]]; [left; left; exact H|].
        apply in_app_iff in I. destruct I as [I|[<-|[]]].
        -- left; right. exists e, k'. auto.
        -- right. exists e. split; [exact E|]. split; [eapply slot_of_target; eassumption|exact X].
    + exists r1. split; [reflexivity|]. eapply represents_ext; [|exact HR1].
      intros c. split.
      * intros [H|[e [k' [E [I X]]]]]; [left; exact H|]. right. exists e, k'. split; [exact E|].
        split; [apply in_or_app; left; exact I|exact X].
      * intros [H|[e [k' [E [I [S' X]]]]]]; [left; exact H|]. apply in_app_iff in I. destruct I as [I|[<-|[]]].
        -- right. exists e, k'. auto.
        -- exfalso. destruct X as [[_ [M2 _]] _].
           assert (neighborhood_exists_fast g p k = true).
           { apply (neighborhood_exists_fast_iff g p k Hw). exists (npix (enbr e)).
             split; [exact Hp|]. split; [apply M2|exact S']. }
           congruence.
Qed.

Lemma fetch_spec srt g lp : sorts srt -> wf_graph g -> make_lowest g = Ok lp -> finite_penalties g ->
  exists l, fetch_available_penalties srt lp = Ok l /\ represents l (candidate g lp).
Proof.
  intros Hs Hw Hl Hf.
  assert (Eg : lp_graph lp = g).
  { destruct (make_lowest_spec g Hw) as [lp' [E [Eg _]]]. congruence. }
  unfold fetch_available_penalties. rewrite Eg.
  rewrite (loop_pixels (width (right g)) (height (right g)) (fun p res =>
      m <- lowest_pixel_penalty lp p ;;
      a <- fetch_pixel_available_penalties srt g p m ;;
      res <- sort_unique srt (std_merge res a) ;;
      loop (range 0 NEIGHBORS_COUNT)
        (fun k res =>
           if negb (neighborhood_exists_fast g p k) then Ok res else
           let e := {| enode := {| npix := p; disp := 0 |};
                       enbr := {| npix := neighbor_by_index T p k; disp := 0 |} |} in
           m <- lowest_neighborhood_penalty lp e ;;
           a <- fetch_edge_available_penalties srt g e m ;;
           sort_unique srt (std_merge res a)) res)).
  match goal with |- context [loop (all_pixels _ _) ?b []] => set (body := b) end.
  destruct (loop_inv (fun ps res => represents res (fun c => exists p, In p ps /\
      (cand_nodes g lp p c \/ cand_edges g lp p (range 0 NEIGHBORS_COUNT) c)))
    (all_pixels (width (right g)) (height (right g))) body []) as [l [E R]].
  - split; [constructor|]. split; [intros x []|]. split; [intros c []|]. intros c [p [[] _]].
  - intros pre p post r1 Er HR.
    assert (Hp : in_image g p) by (apply (In_all_pixels (width (right g)) (height (right g))); rewrite Er; apply in_elt).
    unfold body. destruct (fetch_pixel_spec srt g lp p Hs Hw Hl Hf Hp) as [m [a [Em [Ea [Inc [Na [Sa Ca]]]]]]].
    rewrite Em. cbn [bind]. rewrite Ea. cbn [bind].
    assert (Ra : represents a (cand_nodes g lp p)).
    { split; [exact Inc|]. split; [exact Na|]. split.
      - intros c Hc. destruct (Sa c Hc) as [d [M X]]. exists {| npix := p; disp := d |}. auto.
      - intros c [[p' d] [E1 [M X]]]. cbn [npix] in E1. subst p'. eapply Ca; eassumption. }
    destruct (merge_step srt r1 a _ _ Hs HR Ra) as [r2 [E2 R2]]. rewrite E2. cbn [bind].
    destruct (fetch_edges_loop srt g lp p r2 _ Hs Hw Hl Hf Hp R2) as [r3 [E3 R3]].
    exists r3. split; [exact E3|]. eapply represents_ext; [|exact R3].
    intros c. split.
    + intros [[[p' [I X]]|X]|X].
      * exists p'. split; [apply in_or_app; left; exact I|exact X].
      * exists p. split; [apply in_or_app; right; left; reflexivity|left; exact X].
      * exists p. split; [apply in_or_app; right; left; reflexivity|right; exact X].
    + intros [p' [I X]]. apply in_app_iff in I. destruct I as [I|[<-|[]]].
      * left; left. exists p'. auto.
      * destruct X as [X|X]; [left; right; exact X|right; exact X].
  - exists l. split; [exact E|]. eapply represents_ext; [|exact R].
    intros c. split.
    + intros [p [Hp [[n [En [M X]]]|[e [k [Ep [Ik [S [En X]]]]]]]]].
      * left. exists n. auto.
      * right. exists e. auto.
    + intros [[n [M X]]|[e [En X]]].
      * exists (npix n). split; [apply In_all_pixels; apply M|]. left. exists n. auto.
      * exists (npix (enode e)). pose proof En as [M1 [M2 [A _]]].
        split; [apply In_all_pixels; apply M1|]. right.
        destruct (adjacent_slot _ _ A) as [k S]. exists e, k. split; [reflexivity|].
        split; [apply In_range; apply slot_of_lt in S; unfold NEIGHBORS_COUNT; lia|]. auto.
Qed.

(** With a zero reparametrization every existing edge has its candidate. *)
Lemma edge_candidate g lp e c : wf_graph g -> make_lowest g = Ok lp ->
  zero_reparam g -> finite_penalties g -> nonneg_weights g ->
  match_pair g e -> edge_excess g lp e c -> exists c', candidate g lp c' /\ feq c c' = true.
Proof.
  intros Hw Hl Hz Hf Hs Hm Hc. destruct e as [n n']. destruct Hm as [M1 [M2 [A O]]]. cbn [enode enbr] in *.
  destruct (edge_excess_zero HL g lp n n' Hw Hl Hz Hf Hs M1 M2 A) as [c1 [E1 Q1]].
  assert (c1 = c) by (eapply edge_excess_fun; eassumption). subst c1.
  destruct (edge_excess_zero HL g lp n' n Hw Hl Hz Hf Hs M2 M1 (adjacent_sym _ _ A)) as [c2 [E2 Q2]].
  assert (Q : feq c c2 = true).
  { eapply (feq_trans HL); [exact Q1|]. rewrite (epen_sym HL g (disp n) (disp n')) by (apply (epen_fin HL); assumption).
    apply (feq_sym HL); exact Q2. }
  destruct (N.le_gt_cases (disp n) (disp n' + 1)) as [Hle|Hgt].
  - exists c. split.
    + right. exists {| enode := n; enbr := n' |}. split; [|exact E1].
      split; [exact M1|]. split; [exact M2|]. split; [exact A|]. right. exact Hle.
    + destruct Hf as [_ Hf]. eapply (feq_trans HL); [exact Q1|apply (feq_sym HL); exact Q1].
  - exists c2. split; [|exact Q]. right. exists {| enode := n'; enbr := n |}. split; [|exact E2].
    split; [exact M2|]. split; [exact M1|]. split; [apply adjacent_sym; exact A|]. right. cbn [enode enbr]. lia.
Qed.

Lemma candidates_complete srt g lp : sorts srt -> wf_graph g -> make_lowest g = Ok lp -> finite_penalties g ->
  exists l, fetch_available_penalties srt lp = Ok l /\ increasing l /\ numbers l /\
    (forall c, In c l -> candidate g lp c) /\
    (forall c, candidate g lp c -> exists y, In y l /\ feq y c = true) /\
    (zero_reparam g -> nonneg_weights g ->
     forall e c, match_pair g e -> edge_excess g lp e c -> exists y, In y l /\ feq y c = true).
Proof.
  intros Hs Hw Hl Hf. destruct (fetch_spec srt g lp Hs Hw Hl Hf) as [l [E [I [N [S C]]]]].
  exists l. split; [exact E|]. split; [exact I|]. split; [exact N|]. split; [exact S|]. split; [exact C|].
  intros Hz Hn e c Hm Hc. destruct (edge_candidate g lp e c Hw Hl Hz Hf Hn Hm Hc) as [c' [Cc Q]].
  destruct (C c' Cc) as [y [Hy Qy]]. exists y. split; [exact Hy|].
  eapply (feq_trans HL); [exact Qy|apply (feq_sym HL); exact Q].
Qed.
End Graph.
