(** Choosing nodes, finding a labeling and building the disparity map. *)
From Verif Require Export Threshold_proofs.
Local Open Scope N_scope.

Section Graph.
Context {T : target}.
Implicit Type cg : cgraph T.

Notation G cg := (cg_graph cg).
Notation Wd cg := (width (right (cg_graph cg))).
Notation Ht cg := (height (right (cg_graph cg))).
Notation Lv cg := (levels (cg_graph cg)).
Notation nd p d := {| npix := p; disp := d |}.

(** *** [choose_best_node] *)

Definition nonneg_at cg m (p : pixel) : Prop :=
  forall d v, match_exists (G cg) (nd p d) -> avb cg m (nd p d) = true ->
    node_penalty (G cg) (nd p d) = Ok v -> fle fzero v = true.

Lemma disps_split cg p pre a post : static cg -> in_image (G cg) p -> disps cg p = pre ++ a :: post ->
  match_exists (G cg) (nd p a) /\ (forall d, In d pre <-> d < a).
Proof.
  intros Hs Hp E. split.
  - apply disps_In; try assumption. rewrite E. apply in_elt.
  - unfold disps in E. rewrite disparities_eq in E by (try apply Hp; apply Hs).
    apply range_app_inv in E. destruct E as [-> _]. intros d. rewrite In_range. lia.
Qed.

Lemma run_best cg m p (HL : laws T) : static cg -> mem_ok cg m -> in_image (G cg) p ->
  exists best, run (best_penalty cg p) m = Ok (best, m) /\
    ((hasb cg m p = false /\ best = fneg1) \/
     ((exists d, match_exists (G cg) (nd p d) /\ avb cg m (nd p d) = true /\ node_penalty (G cg) (nd p d) = Ok best) /\
      (nonneg_at cg m p -> forall d v, match_exists (G cg) (nd p d) -> avb cg m (nd p d) = true ->
         node_penalty (G cg) (nd p d) = Ok v -> fle best v = true))).
Proof.
  intros Hs Hm Hp. unfold best_penalty. fold (disps cg p).
  destruct (cloop_inv (fun (pre : list N) (acc : F T) m' => m' = m /\
     (((forall d, In d pre -> avb cg m (nd p d) = false) /\ acc = fneg1) \/
      ((exists d, In d pre /\ avb cg m (nd p d) = true /\ node_penalty (G cg) (nd p d) = Ok acc) /\
       (nonneg_at cg m p -> forall d v, In d pre -> avb cg m (nd p d) = true ->
         node_penalty (G cg) (nd p d) = Ok v -> fle acc v = true))))
     (disps cg p)
     (fun d m =>
       let n := {| npix := p; disp := d |} in
       a <== is_node_available cg n ;;
       if negb a then Ret m else
       v <== lift (node_penalty (cg_graph cg) n) ;;
       Ret (if flt m fzero then v else fmin v m)) fneg1 m) as [best [m' [E [-> I]]]].
  - split; [reflexivity|]. left. split; [intros d []|reflexivity].
  - intros pre d post acc m1 Es [-> I]. destruct (disps_split cg p pre d post Hs Hp Es) as [M Hpre].
    assert (Mp : forall d', In d' pre -> match_exists (G cg) (nd p d')).
    { intros d' Hd'. apply disps_In; try assumption. rewrite Es. apply in_or_app. left; exact Hd'. }
    cbv zeta. rewrite cbind_assoc_run, run_node by (try assumption; apply match_inb; exact M). cbn [bind fst snd].
    destruct (avb cg m (nd p d)) eqn:Ea; cbn [negb].
    + destruct (node_penalty_Ok (G cg) (nd p d) (st_graph cg Hs) M) as [v Ev]. rewrite Ev. cbn [lift cbind run].
      eexists _, _. split; [reflexivity|]. split; [reflexivity|]. right.
      assert (Nn : nonneg_at cg m p -> is_number v).
      { intros Hn. specialize (Hn d v M Ea Ev). apply (fle_number T HL) in Hn. apply Hn. }
      destruct I as [[No ->]|[[d0 [I0 [A0 E0]]] Min]].
      * rewrite (neg1_lt T HL). split.
        -- exists d. split; [apply in_or_app; right; left; reflexivity|auto].
        -- intros Hn d' v' Hd' Ha' Ev'. apply in_app_iff in Hd'. destruct Hd' as [Hd'|[<-|[]]].
           ++ rewrite (No d' Hd') in Ha'. discriminate.
           ++ assert (v' = v) by congruence. subst v'. apply Nn; exact Hn.
      * split.
        -- destruct (flt acc fzero); [|unfold fmin; destruct (fle v acc)].
           ++ exists d. split; [apply in_or_app; right; left; reflexivity|auto].
           ++ exists d. split; [apply in_or_app; right; left; reflexivity|auto].
           ++ exists d0. split; [apply in_or_app; left; exact I0|auto].
        -- intros Hn d' v' Hd' Ha' Ev'.
           assert (Hacc : fle fzero acc = true) by (apply (Hn d0 acc (Mp d0 I0) A0 E0)).
           assert (Nacc : is_number acc) by (apply (fle_number T HL) in Hacc; apply Hacc).
           destruct (flt acc fzero) eqn:Ef; [apply (flt_spec T HL) in Ef; destruct Ef; congruence|].
           assert (Hmin : fle (fmin v acc) v = true /\ fle (fmin v acc) acc = true).
           { unfold fmin. destruct (fle v acc) eqn:El.
             - split; [apply Nn; exact Hn|exact El].
             - split; [|exact Nacc]. destruct (fle_total T HL v acc (Nn Hn) Nacc); [congruence|assumption]. }
           apply in_app_iff in Hd'. destruct Hd' as [Hd'|[<-|[]]].
           ++ eapply (fle_trans T HL); [apply Hmin|]. eapply Min; eassumption.
           ++ assert (v' = v) by congruence. subst v'. apply Hmin.
    + cbn [run]. exists acc, m. split; [reflexivity|]. split; [reflexivity|].
      assert (In_app : forall d', In d' (pre ++ [d]) -> avb cg m (nd p d') = true -> In d' pre).
      { intros d' Hd' Ha'. apply in_app_iff in Hd'. destruct Hd' as [Hd'|[<-|[]]]; [exact Hd'|congruence]. }
      destruct I as [[No ->]|[[d0 [I0 R0]] Min]].
      * left. split; [|reflexivity]. intros d' Hd'. apply in_app_iff in Hd'. destruct Hd' as [Hd'|[<-|[]]]; auto.
      * right. split; [exists d0; split; [apply in_or_app; left; exact I0|exact R0]|].
        intros Hn d' v' Hd' Ha' Ev'. exact (Min Hn d' v' (In_app d' Hd' Ha') Ha' Ev').
  - exists best. split; [exact E|]. destruct I as [[No ->]|[[d [Id R]] Min]].
    + left. split; [|reflexivity]. unfold hasb. destruct (existsb _ (disps cg p)) eqn:Ex; [|reflexivity].
      apply existsb_exists in Ex. destruct Ex as [d [Hd A]]. rewrite (No d Hd) in A. discriminate.
    + right. split.
      * exists d. split; [apply disps_In; assumption|exact R].
      * intros Hn d' v' M'. apply Min; [exact Hn|apply disps_In; assumption].
Qed.

Lemma run_choose cg m p (HL : laws T) : static cg -> mem_ok cg m -> in_image (G cg) p ->
  exists b m', run (choose_best_node cg p) m = Ok (b, m') /\ mem_ok cg m' /\ sub m' m /\
    (forall n, inb cg n -> npix n <> p -> avb cg m' n = avb cg m n) /\
    b = hasb cg m p /\ (b = false -> m' = m) /\
    (b = true -> exists d, match_exists (G cg) (nd p d) /\ avb cg m (nd p d) = true /\
       (forall d', match_exists (G cg) (nd p d') -> (avb cg m' (nd p d') = true <-> d' = d)) /\
       (nonneg_at cg m p -> forall d' v v', match_exists (G cg) (nd p d') -> avb cg m (nd p d') = true ->
          node_penalty (G cg) (nd p d) = Ok v -> node_penalty (G cg) (nd p d') = Ok v' ->
          fle v v' = true /\ (fle v' v = true -> d <= d'))).
Proof.
  intros Hs Hm Hp. unfold choose_best_node. fold (disps cg p).
  destruct (run_best cg m p HL Hs Hm Hp) as [best [Eb Hb]].
  rewrite cbind_assoc_run, Eb. cbn [bind fst snd].
  destruct (cloop_inv (fun (pre : list N) (chosen : bool) m' => mem_ok cg m' /\ sub m' m /\
      (forall n, inb cg n -> npix n <> p \/ ~ In (disp n) pre -> avb cg m' n = avb cg m n) /\
      (chosen = false ->
         (forall d, In d pre -> avb cg m' (nd p d) = false) /\
         (forall d, In d pre -> avb cg m (nd p d) = true ->
            exists v, node_penalty (G cg) (nd p d) = Ok v /\ flt best v = true) /\
         ((forall d, In d pre -> avb cg m (nd p d) = false) -> m' = m)) /\
      (chosen = true -> exists d v, In d pre /\ avb cg m (nd p d) = true /\
         node_penalty (G cg) (nd p d) = Ok v /\ flt best v = false /\
         (forall d', In d' pre -> (avb cg m' (nd p d') = true <-> d' = d)) /\
         (forall d', d' < d -> avb cg m (nd p d') = true ->
            exists v', node_penalty (G cg) (nd p d') = Ok v' /\ flt best v' = true)))
     (disps cg p)
     (fun d (chosen : bool) =>
       let n := {| npix := p; disp := d |} in
       a <== is_node_available cg n ;;
       if negb a then Ret chosen else
       if chosen then _ <== make_node_unavailable cg n ;; Ret chosen else
       v <== lift (node_penalty (cg_graph cg) n) ;;
       if flt best v then _ <== make_node_unavailable cg n ;; Ret chosen
       else Ret true) false m) as [b [m' [E [Hm' [Hsub [Oth [HF HT]]]]]]].
  - split; [exact Hm|]. split; [apply sub_refl|]. split; [reflexivity|]. split.
    + intros _. split; [intros d []|]. split; [intros d []|]. reflexivity.
    + discriminate.
  - intros pre d post chosen m1 Es [Hm1 [Hsub [Oth [HF HT]]]].
    destruct (disps_split cg p pre d post Hs Hp Es) as [M Hpre].
    pose proof (match_inb cg _ M) as Hin.
    assert (Hd : ~ In d pre) by (rewrite Hpre; lia).
    assert (Ea1 : avb cg m1 (nd p d) = avb cg m (nd p d)) by (apply Oth; [exact Hin|right; exact Hd]).
    assert (Hib : forall d', In d' pre -> inb cg (nd p d')).
    { intros d' Hd'. apply match_inb, disps_In; try assumption. rewrite Es. apply in_or_app. left; exact Hd'. }
    assert (Hne : forall d', In d' pre -> nd p d' <> nd p d) by (intros d' Hd' X; injection X as ->; contradiction).
    cbv zeta. rewrite cbind_assoc_run, run_node by assumption. cbn [bind fst snd]. rewrite Ea1.
    assert (Oth_app : forall n, inb cg n -> npix n <> p \/ ~ In (disp n) (pre ++ [d]) -> avb cg m1 n = avb cg m n /\ n <> nd p d).
    { intros n Hn Ho. split.
      - apply Oth; [exact Hn|]. destruct Ho as [Ho|Ho]; [left; exact Ho|right].
        intros X; apply Ho, in_or_app; left; exact X.
      - intros ->. cbn [npix disp] in Ho. destruct Ho as [Ho|Ho]; [contradiction|].
        apply Ho, in_or_app. right; left; reflexivity. }
    destruct (avb cg m (nd p d)) eqn:Ea; cbn [negb].
    + (* available *)
      assert (Hclear : forall n, inb cg n -> npix n <> p \/ ~ In (disp n) (pre ++ [d]) ->
                avb cg (clear cg m1 (nd p d)) n = avb cg m n).
      { intros n Hn Ho. destruct (Oth_app n Hn Ho) as [<- X]. apply eq_iff_eq_true.
        rewrite avb_clear by assumption. tauto. }
      assert (Hcs : sub (clear cg m1 (nd p d)) m) by (eapply sub_trans; [apply sub_clear; assumption|exact Hsub]).
      destruct chosen.
      * rewrite cbind_assoc_run, run_clear by assumption. cbn [bind fst snd run].
        exists true, (clear cg m1 (nd p d)). split; [reflexivity|]. split; [apply clear_ok; exact Hm1|].
        split; [exact Hcs|]. split; [exact Hclear|]. split; [discriminate|].
        intros _. destruct (HT eq_refl) as [d0 [v0 [I0 [A0 [E0 [L0 [U0 P0]]]]]]].
        exists d0, v0. split; [apply in_or_app; left; exact I0|]. split; [exact A0|]. split; [exact E0|].
        split; [exact L0|]. split; [|exact P0]. intros d' Hd'. apply in_app_iff in Hd'.
        destruct Hd' as [Hd'|[<-|[]]].
        -- rewrite avb_clear; [|assumption|assumption|assumption|apply Hib; exact Hd'].
           rewrite (U0 d' Hd'). split; [tauto|]. intros ->. split; [reflexivity|apply Hne; exact I0].
        -- rewrite avb_clear by assumption. split; [tauto|]. intros X. subst d0. contradiction.
      * destruct (node_penalty_Ok (G cg) (nd p d) (st_graph cg Hs) M) as [v Ev]. rewrite Ev. cbn [lift cbind].
        destruct (HF eq_refl) as [F1 [F2 F3]].
        destruct (flt best v) eqn:Ef.
        -- rewrite cbind_assoc_run, run_clear by assumption. cbn [bind fst snd run].
           exists false, (clear cg m1 (nd p d)). split; [reflexivity|]. split; [apply clear_ok; exact Hm1|].
           split; [exact Hcs|]. split; [exact Hclear|]. split; [|discriminate].
           intros _. split; [|split].
           ++ intros d' Hd'. apply in_app_iff in Hd'. destruct (avb cg (clear cg m1 (nd p d)) (nd p d')) eqn:X; [|reflexivity].
              destruct Hd' as [Hd'|[<-|[]]].
              ** apply avb_clear in X; [|assumption|assumption|assumption|apply Hib; exact Hd']. rewrite (F1 d' Hd') in X. destruct X; discriminate.
              ** apply avb_clear in X; try assumption. destruct X; contradiction.
           ++ intros d' Hd' Ha'. apply in_app_iff in Hd'. destruct Hd' as [Hd'|[<-|[]]]; [auto|eauto].
           ++ intros No. rewrite (No d) in Ea by (apply in_or_app; right; left; reflexivity). discriminate.
        -- cbn [run]. exists true, m1. split; [reflexivity|]. split; [exact Hm1|]. split; [exact Hsub|].
           split; [intros n Hn Ho; apply (Oth_app n Hn Ho)|]. split; [discriminate|].
           intros _. exists d, v. split; [apply in_or_app; right; left; reflexivity|]. split; [exact Ea|].
           split; [exact Ev|]. split; [exact Ef|]. split.
           ++ intros d' Hd'. apply in_app_iff in Hd'. destruct Hd' as [Hd'|[<-|[]]].
              ** rewrite (F1 d' Hd'). split; [discriminate|]. intros ->. contradiction.
              ** rewrite Ea1. tauto.
           ++ intros d' Hlt. apply F2. apply Hpre; exact Hlt.
    + cbn [run]. exists chosen, m1. split; [reflexivity|]. split; [exact Hm1|]. split; [exact Hsub|].
      split; [intros n Hn Ho; apply (Oth_app n Hn Ho)|]. split.
      * intros ->. destruct (HF eq_refl) as [F1 [F2 F3]]. split; [|split].
        -- intros d' Hd'. apply in_app_iff in Hd'. destruct Hd' as [Hd'|[<-|[]]]; [auto|exact Ea1].
        -- intros d' Hd' Ha'. apply in_app_iff in Hd'. destruct Hd' as [Hd'|[<-|[]]]; [auto|congruence].
        -- intros No. apply F3. intros d' Hd'. apply No, in_or_app. left; exact Hd'.
      * intros ->. destruct (HT eq_refl) as [d0 [v0 [I0 [A0 [E0 [L0 [U0 P0]]]]]]].
        exists d0, v0. split; [apply in_or_app; left; exact I0|]. split; [exact A0|]. split; [exact E0|].
        split; [exact L0|]. split; [|exact P0]. intros d' Hd'. apply in_app_iff in Hd'.
        destruct Hd' as [Hd'|[<-|[]]]; [apply U0; exact Hd'|].
        rewrite Ea1. split; [discriminate|]. intros X. subst d0. contradiction.
  - exists b, m'. split; [exact E|]. split; [exact Hm'|]. split; [exact Hsub|].
    split; [intros n Hn Ho; apply Oth; [exact Hn|left; exact Ho]|].
    assert (In_disps : forall d, match_exists (G cg) (nd p d) -> In d (disps cg p)) by (intros; apply disps_In; assumption).
    assert (Ebh : b = hasb cg m p).
    { destruct b.
      - destruct (HT eq_refl) as [d [v [I [A _]]]]. symmetry. unfold hasb. apply existsb_exists. eauto.
      - destruct Hb as [[Hno _]|[[d [M [A Ev]]] _]]; [symmetry; exact Hno|].
        destruct (HF eq_refl) as [_ [F2 _]]. destruct (F2 d (In_disps d M) A) as [v [Ev' L]].
        exfalso. assert (v = best) by congruence. subst v. eapply (flt_irrefl HL); exact L. }
    split; [exact Ebh|]. split.
    + intros ->. destruct (HF eq_refl) as [_ [_ F3]]. apply F3. intros d Hd.
      destruct (avb cg m (nd p d)) eqn:A; [|reflexivity].
      assert (hasb cg m p = true) by (unfold hasb; apply existsb_exists; eauto). congruence.
    + intros ->. destruct (HT eq_refl) as [d [v [I [A [Ev [L [U P]]]]]]].
      exists d. split; [apply disps_In; assumption|]. split; [exact A|]. split; [intros d' M'; apply U, In_disps; exact M'|].
      intros Hn d' v1 v' M' A' Ev1 Ev'. assert (v1 = v) by congruence. subst v1. clear Ev1.
      destruct Hb as [[Hno _]|[_ Min]]; [congruence|]. specialize (Min Hn).
      pose proof (Min d v (proj1 (disps_In cg p d Hs Hp) I) A Ev) as Lv1.
      pose proof (Min d' v' M' A' Ev') as L'.
      assert (Lvb : fle v best = true).
      { apply (fle_number T HL) in Lv1. destruct Lv1 as [N1 N2]. destruct (fle v best) eqn:X; [reflexivity|].
        destruct (fle_total T HL best v N1 N2) as [Y|Y]; [|congruence].
        assert (flt best v = true) by (apply (flt_spec T HL); auto). congruence. }
      split; [eapply (fle_trans T HL); eassumption|].
      intros Lv'. destruct (N.le_gt_cases d d') as [Y|Y]; [exact Y|exfalso].
      destruct (P d' Y A') as [v2 [Ev2 L2]]. assert (v2 = v') by congruence. subst v2.
      apply (flt_spec T HL) in L2. destruct L2 as [_ L2].
      assert (fle v' best = true) by (eapply (fle_trans T HL); eassumption). congruence.
Qed.

(** *** Surviving a sweep *)

Lemma not_removed cg m n q : static cg -> inb cg n -> avb cg m n = true -> rmvb cg m n = false ->
  in_image (G cg) q -> adjacent (npix n) q ->
  exists n', npix n' = q /\ avb cg m n' = true /\ compat cg n n'.
Proof.
  intros Hs Hn Ha Hr Hq A. destruct (etb cg m n q) eqn:E.
  - apply etb_iff in E; try assumption. destruct E as [n' [E1 [_ [E2 E3]]]]. eauto.
  - exfalso. unfold rmvb in Hr. rewrite Ha in Hr. cbn [andb] in Hr.
    destruct (adjacent_slot _ _ A) as [k S]. pose proof (slot_of_lt _ _ _ S).
    assert (X : existsb (fun k => if negb (neighborhood_exists_fast (G cg) (npix n) k) then false
                    else negb (etb cg m n (neighbor_by_index T (npix n) k))) (range 0 NEIGHBORS_COUNT) = true).
    { apply existsb_exists. exists k. split; [apply In_range; unfold NEIGHBORS_COUNT; lia|].
      assert (Ex : neighborhood_exists_fast (G cg) (npix n) k = true).
      { apply (neighborhood_exists_fast_iff _ _ _ (st_graph cg Hs)). exists q. split; [apply Hn|split; assumption]. }
      rewrite Ex, (neighbor_by_index_slot _ _ q k (st_graph cg Hs) (proj1 Hn) Hq S), E. reflexivity. }
    congruence.
Qed.

Lemma proc_support cg p ds m n q : static cg -> mem_ok cg m -> dispsok cg p ds ->
  npix n = p -> In (disp n) ds -> avb cg (proc cg p ds m) n = true ->
  in_image (G cg) q -> adjacent p q ->
  exists n', npix n' = q /\ avb cg m n' = true /\ compat cg n n'.
Proof.
  intros Hs. revert m. induction ds as [|d ds IH]; intros m Hm Hd En Hin Ha Hq A; [destruct Hin|].
  assert (H1 : inb cg (nd p d)) by (apply Hd; left; reflexivity).
  assert (Hd' : dispsok cg p ds) by (intros x Hx; apply Hd; right; exact Hx).
  cbn [proc] in Ha. destruct Hin as [Hin|Hin].
  - assert (n = nd p d) by (destruct n as [p0 d0]; cbn [npix disp] in *; congruence). subst n.
    pose proof (sub_proc cg p ds _ Hs (proc1_ok cg m (nd p d) Hm) Hd' _ Ha) as Ha1.
    fold (avb cg (proc1 cg m (nd p d)) (nd p d)) in Ha1. unfold proc1 in Ha1.
    destruct (rmvb cg m (nd p d)) eqn:Er; [apply avb_clear in Ha1; try assumption; destruct Ha1; contradiction|].
    apply (not_removed cg m (nd p d) q); assumption.
  - destruct (IH _ (proc1_ok cg m (nd p d) Hm) Hd' En Hin Ha Hq A) as [n' [E1 [E2 E3]]].
    exists n'. split; [exact E1|]. split; [|exact E3]. eapply sub_proc1; eassumption.
Qed.

Lemma sweep_support cg ps m n q : static cg -> mem_ok cg m -> pixels_ok cg ps ->
  fst (sweep cg ps m) = true -> In (npix n) ps -> match_exists (G cg) n ->
  avb cg (snd (sweep cg ps m)) n = true -> in_image (G cg) q -> adjacent (npix n) q ->
  exists n', npix n' = q /\ avb cg m n' = true /\ compat cg n n'.
Proof.
  intros Hs. revert m. induction ps as [|p ps IH]; intros m Hm Hps Hf Hin M Ha Hq A; [destruct Hin|].
  assert (Hp : in_image (G cg) p) by (apply Hps; left; reflexivity).
  assert (Hps' : pixels_ok cg ps) by (intros x Hx; apply Hps; right; exact Hx).
  cbn [sweep] in *. destruct (hasb cg (process cg p m) p) eqn:Eh; [|discriminate].
  destruct Hin as [Hin|Hin].
  - assert (Ha1 : avb cg (process cg p m) n = true).
    { eapply (sub_sweep cg ps); [exact Hs|apply process_ok; exact Hm|exact Hps'|exact Ha]. }
    unfold process in Ha1.
    eapply proc_support; try eassumption; [apply dispsok_disps; assumption|congruence| |congruence].
    apply disps_In; try assumption. rewrite Hin. destruct n; exact M.
  - destruct (IH _ (process_ok cg p m Hm) Hps' Hf Hin M Ha Hq A) as [n' [E1 [E2 E3]]].
    exists n'. split; [exact E1|]. split; [|exact E3]. eapply sub_process; eassumption.
Qed.

(** *** [find_labeling] *)

(** At most one existing node of the pixel is available. *)
Definition single cg m (p : pixel) : Prop :=
  forall d d', match_exists (G cg) (nd p d) -> match_exists (G cg) (nd p d') ->
    avb cg m (nd p d) = true -> avb cg m (nd p d') = true -> d = d'.

Lemma single_sub cg m m' p : sub m' m -> single cg m p -> single cg m' p.
Proof. intros Hsub H d d' M M' A A'. apply H; try assumption; apply Hsub; assumption. Qed.

Lemma solved_facts cg m : static cg -> mem_ok cg m -> fst (solved cg m) = true ->
  let m' := snd (solved cg m) in
  mem_ok cg m' /\ sub m' m /\ (forall p, in_image (G cg) p -> hasb cg m' p = true) /\
  (forall n q, match_exists (G cg) n -> avb cg m' n = true -> in_image (G cg) q -> adjacent (npix n) q ->
     exists n', npix n' = q /\ avb cg m n' = true /\ compat cg n n').
Proof.
  intros Hs Hm Hf m'. pose proof (solved_ok cg m Hm) as Hm'. fold m' in Hm'.
  unfold solved in Hf, m'.
  destruct (fst (sweep cg (raster cg) m)) eqn:Ef; cbn [fst] in Hf; [|discriminate].
  cbn [snd] in m'. split; [exact Hm'|]. split; [apply sub_sweep; try assumption; apply raster_ok|]. split.
  - intros p Hp. apply sweep_true; try assumption; [apply raster_ok|apply NoDup_raster|apply In_raster; exact Hp].
  - intros n q M A Hq Adj. eapply sweep_support; try eassumption; [apply raster_ok|apply In_raster; apply M].
Qed.

Lemma run_solve_one cg m : static cg -> mem_ok cg m -> run (solve_csp cg) m = Ok (solved cg m).
Proof. intros Hs Hm. apply run_solve_csp; [assumption|assumption|lia]. Qed.

Lemma solved_sub cg m : static cg -> mem_ok cg m -> sub (snd (solved cg m)) m.
Proof.
  intros Hs Hm. unfold solved. destruct (fst (sweep cg (raster cg) m)); cbn [snd].
  - apply sub_sweep; try assumption. apply raster_ok.
  - intros i. rewrite bit_fill_false. discriminate.
Qed.

(** The labeling found: after the last call of the solver all pixels have exactly
    one node and the edges between these are available. *)
Definition found cg m : Prop :=
  (forall p, in_image (G cg) p -> single cg m p /\ hasb cg m p = true) /\
  (forall n n', match_exists (G cg) n -> match_exists (G cg) n' -> avb cg m n = true -> avb cg m n' = true ->
     adjacent (npix n) (npix n') -> compat cg n n').

Lemma run_label_pixels cg (HL : laws T) l m done : static cg -> mem_ok cg m -> pixels_ok cg l ->
  (forall p, In p done -> single cg m p) ->
  exists b m', run (label_pixels cg l) m = Ok (b, m') /\ mem_ok cg m' /\ sub m' m /\
    (b = true -> l <> [] -> (forall p, in_image (G cg) p -> In p done \/ In p l) -> found cg m').
Proof.
  intros Hs. revert m done. induction l as [|p l IH]; intros m done Hm Hps Hd; cbn [label_pixels].
  - exists true, m. split; [reflexivity|]. split; [exact Hm|]. split; [apply sub_refl|]. contradiction.
  - assert (Hp : in_image (G cg) p) by (apply Hps; left; reflexivity).
    assert (Hps' : pixels_ok cg l) by (intros x Hx; apply Hps; right; exact Hx).
    destruct (run_choose cg m p HL Hs Hm Hp) as [b [m1 [E1 [Hm1 [Sub1 [Oth [Eb [_ HT]]]]]]]].
    rewrite cbind_assoc_run, E1. cbn [bind fst snd].
    destruct b; cbn [negb]; [|exists false, m1; split; [reflexivity|]; split; [exact Hm1|]; split; [exact Sub1|discriminate]].
    destruct (HT eq_refl) as [d [M [A [U _]]]].
    rewrite cbind_assoc_run, run_solve_one by assumption. cbn [bind].
    pose proof (solved_ok cg m1 Hm1) as Hm2. pose proof (solved_sub cg m1 Hs Hm1) as Sub2.
    pose proof (solved_facts cg m1 Hs Hm1) as SF. cbv zeta in SF.
    destruct (solved cg m1) as [ok m2]. cbn [fst snd] in *.
    destruct ok; cbn [negb]; [|exists false, m2; split; [reflexivity|]; split; [exact Hm2|];
                               split; [eapply sub_trans; eassumption|discriminate]].
    destruct (SF eq_refl) as [_ [_ [Has Sup]]].
    assert (Sp : single cg m1 p).
    { intros d1 d2 M1 M2 A1 A2. rewrite U in A1, A2 by assumption. congruence. }
    assert (Hd1 : forall q, In q (done ++ [p]) -> single cg m1 q).
    { intros q Hq. apply in_app_iff in Hq. destruct Hq as [Hq|[<-|[]]]; [|exact Sp].
      eapply single_sub; [exact Sub1|apply Hd; exact Hq]. }
    destruct (IH m2 (done ++ [p]) Hm2 Hps') as [b [m3 [E3 [Hm3 [Sub3 HF]]]]].
    { intros q Hq. eapply single_sub; [exact Sub2|apply Hd1; exact Hq]. }
    exists b, m3. split; [exact E3|]. split; [exact Hm3|].
    split; [eapply sub_trans; [exact Sub3|eapply sub_trans; eassumption]|].
    intros -> _ Hall. destruct l as [|p' l'].
    + (* p is the last pixel *)
      cbn [label_pixels run] in E3. injection E3 as <-. clear HF Sub3.
      assert (Sall : forall q, in_image (G cg) q -> single cg m1 q).
      { intros q Hq. apply Hd1. apply in_or_app. destruct (Hall q Hq) as [X|[X|[]]]; [left; exact X|right; left; exact X]. }
      split.
      * intros q Hq. split; [eapply single_sub; [exact Sub2|apply Sall; exact Hq]|apply Has; exact Hq].
      * intros n n' Mn Mn' An An' Adj.
        destruct (Sup n (npix n') Mn An (proj1 Mn') Adj) as [n2 [E2 [A2 C2]]].
        assert (n2 = n').
        { pose proof C2 as [[_ [M2 _]] _]. cbn [enbr] in M2.
          destruct n2 as [q2 d2], n' as [q' d']. cbn [npix] in *. subst q2. f_equal.
          apply (Sall q'); [apply Mn'|exact M2|exact Mn'|exact A2|]. apply Sub2; exact An'. }
        subst n2. exact C2.
    + apply HF; [reflexivity|discriminate|]. intros q Hq. destruct (Hall q Hq) as [X|[X|X]].
      * left. apply in_or_app. left; exact X.
      * left. apply in_or_app. right; left; exact X.
      * right; exact X.
Qed.

Lemma column_order_eq (g : dgraph T) : wf_graph g -> column_order g = all_pixels (width (right g)) (height (right g)).
Proof. intros Hw. unfold column_order, all_pixels. rewrite (wf_width g Hw), (wf_height g Hw). reflexivity. Qed.

Definition first_label cg m (p : pixel) : option N :=
  find (fun d => avb cg m (nd p d)) (disps cg p).

Lemma find_split {A} (f : A -> bool) l x : find f l = Some x ->
  exists pre post, l = pre ++ x :: post /\ f x = true /\ forall y, In y pre -> f y = false.
Proof.
  induction l as [|a l IH]; cbn [find]; [discriminate|]. destruct (f a) eqn:E.
  - intros X. injection X as <-. exists [], l. split; [reflexivity|]. split; [exact E|intros y []].
  - intros X. destruct (IH X) as [pre [post [-> [F P]]]]. exists (a :: pre), post.
    split; [reflexivity|]. split; [exact F|]. intros y [<-|Hy]; [exact E|apply P; exact Hy].
Qed.

Lemma first_label_spec cg m p : static cg -> in_image (G cg) p ->
  match first_label cg m p with
  | Some d => match_exists (G cg) (nd p d) /\ avb cg m (nd p d) = true /\
              forall d', match_exists (G cg) (nd p d') -> avb cg m (nd p d') = true -> d <= d'
  | None => hasb cg m p = false
  end.
Proof.
  intros Hs Hp. unfold first_label. destruct (find _ (disps cg p)) as [d|] eqn:E.
  - apply find_split in E. destruct E as [pre [post [Es [A P]]]].
    destruct (disps_split cg p pre d post Hs Hp Es) as [M Hpre].
    split; [exact M|]. split; [exact A|]. intros d' M' A'.
    destruct (N.le_gt_cases d d') as [X|X]; [exact X|]. apply Hpre, P in X. congruence.
  - unfold hasb. destruct (existsb _ _) eqn:Ex; [|reflexivity]. apply existsb_exists in Ex.
    destruct Ex as [d [I A]]. pose proof (find_none _ _ E d I) as X. cbv beta in X. congruence.
Qed.

(** *** [build_disparity_map] *)

Definition put (r : image) (p : pixel) (d : N) : image :=
  {| width := width r; height := height r; max_value := max_value r;
     data := upd (data r) (N.to_nat (pixel_index T r p)) d |}.

Fixpoint paint cg m (ps : list pixel) (r : image) : option image :=
  match ps with
  | [] => Some r
  | p :: rest => match first_label cg m p with
                 | Some d => paint cg m rest (put r p d)
                 | None => None
                 end
  end.

Lemma run_find_label cg m r p ds : static cg -> mem_ok cg m -> dispsok cg p ds ->
  pixel_index T r p < len (data r) ->
  run (find_label cg r p ds false) m =
  match find (fun d => avb cg m (nd p d)) ds with
  | Some d => Ok ((true, put r p d), m)
  | None => Ok ((false, r), m)
  end.
Proof.
  intros Hs Hm Hd Hi. induction ds as [|d ds IH]; cbn [find_label find]; [reflexivity|].
  rewrite cbind_assoc_run, run_node by (try assumption; apply Hd; left; reflexivity). cbn [bind fst snd].
  destruct (avb cg m (nd p d)).
  - rewrite set_in_bounds by exact Hi. reflexivity.
  - apply IH. intros x Hx. apply Hd. right; exact Hx.
Qed.

Lemma run_paint cg m ps r : static cg -> mem_ok cg m -> pixels_ok cg ps ->
  (forall p, in_image (G cg) p -> pixel_index T r p < len (data r)) ->
  run (cloop ps (fun p (st : bool * image) =>
       r <== find_label cg (snd st) p (disparities (G cg) (px p) 0) (fst st) ;;
       if negb (fst r) then Fail (Throw NoLabel) else Ret (false, snd r)) (false, r)) m =
  match paint cg m ps r with
  | Some r' => Ok ((false, r'), m)
  | None => Stop (Throw NoLabel)
  end.
Proof.
  intros Hs Hm. revert r. induction ps as [|p ps IH]; intros r Hps Hi; cbn [cloop paint]; [reflexivity|].
  assert (Hp : in_image (G cg) p) by (apply Hps; left; reflexivity).
  rewrite cbind_assoc_run, cbind_assoc_run. cbn [fst snd]. fold (disps cg p).
  rewrite run_find_label; [|assumption|assumption|apply dispsok_disps; assumption|apply Hi; exact Hp].
  fold (first_label cg m p). destruct (first_label cg m p) as [d|]; cbn [bind fst snd negb run]; [|reflexivity].
  apply IH.
  - intros x Hx. apply Hps. right; exact Hx.
  - intros q Hq. unfold put, pixel_index. cbn [data width]. rewrite len_upd. apply Hi; exact Hq.
Qed.

Lemma get_put r p q d : inside r p -> inside r q -> width r * height r < wmod T ->
  len (data r) = width r * height r ->
  get (data (put r p d)) (pixel_index T r q) =
  if pixel_index T r q =? pixel_index T r p then Ok d else get (data r) (pixel_index T r q).
Proof.
  intros Hp Hq Hw HL. unfold put; cbn [data].
  assert (Hi : pixel_index T r p < len (data r)) by (rewrite HL; apply pixel_index_small; assumption).
  destruct (set_Ok (data r) (upd (data r) (N.to_nat (pixel_index T r p)) d) (pixel_index T r p) d) as [_ [_ E]].
  - apply set_in_bounds; exact Hi.
  - apply E.
Qed.

Lemma paint_spec cg m ps r : static cg -> pixels_ok cg ps -> NoDup ps ->
  width r = Wd cg -> height r = Ht cg -> len (data r) = Wd cg * Ht cg ->
  match paint cg m ps r with
  | Some r' => width r' = Wd cg /\ height r' = Ht cg /\ max_value r' = max_value r /\
      len (data r') = Wd cg * Ht cg /\
      (forall p, In p ps -> exists d, first_label cg m p = Some d /\ get (data r') (pixel_index T r p) = Ok d) /\
      (forall p, in_image (G cg) p -> ~ In p ps -> get (data r') (pixel_index T r p) = get (data r) (pixel_index T r p))
  | None => exists p, In p ps /\ first_label cg m p = None
  end.
Proof.
  intros Hs. revert r. induction ps as [|p ps IH]; intros r Hps ND Ew Eh El; cbn [paint].
  - refine (conj Ew (conj Eh (conj eq_refl (conj El (conj _ _))))); [intros p []|reflexivity].
  - inversion ND as [|p' ps' Np ND']; subst p' ps'.
    assert (Hp : in_image (G cg) p) by (apply Hps; left; reflexivity).
    assert (Hps' : pixels_ok cg ps) by (intros x Hx; apply Hps; right; exact Hx).
    assert (Hwm : width r * height r < wmod T).
    { rewrite Ew, Eh. destruct Hs as [Hw _]. pose proof (wf_sizes (G cg) Hw). pose proof (wf_wrap (G cg) Hw).
      pose proof (wf_levels (G cg) Hw). nia. }
    assert (Hin : forall q, in_image (G cg) q -> inside r q) by (intros q [A B]; split; [rewrite Ew|rewrite Eh]; assumption).
    assert (EL' : len (data r) = width r * height r) by (rewrite Ew, Eh; exact El).
    destruct (first_label cg m p) as [d|] eqn:Ef; [|exists p; split; [left; reflexivity|exact Ef]].
    specialize (IH (put r p d) Hps' ND' Ew Eh).
    assert (El2 : len (data (put r p d)) = Wd cg * Ht cg) by (unfold put; cbn [data]; rewrite len_upd; exact El).
    specialize (IH El2). destruct (paint cg m ps (put r p d)) as [r'|].
    + destruct IH as [A [B [C [D [E1 E2]]]]].
      refine (conj A (conj B (conj C (conj D (conj _ _))))).
      * intros q [<-|Hq]; [|apply E1; exact Hq].
        exists d. split; [exact Ef|]. change (pixel_index T r p) with (pixel_index T (put r p d) p).
        rewrite (E2 p Hp Np). change (pixel_index T (put r p d) p) with (pixel_index T r p).
        rewrite get_put by (try assumption; apply Hin; exact Hp). rewrite N.eqb_refl. reflexivity.
      * intros q Hq Nq. change (pixel_index T r q) with (pixel_index T (put r p d) q) at 1.
        rewrite (E2 q Hq) by (intros X; apply Nq; right; exact X).
        change (pixel_index T (put r p d) q) with (pixel_index T r q).
        rewrite get_put by (try assumption; apply Hin; assumption).
        destruct (N.eqb_spec (pixel_index T r q) (pixel_index T r p)) as [X|X]; [|reflexivity].
        apply pixel_index_inj in X; [|apply Hin; exact Hq|apply Hin; exact Hp|exact Hwm].
        exfalso. apply Nq. left. symmetry; exact X.
    + destruct IH as [q [Hq Eq]]. exists q. split; [right; exact Hq|exact Eq].
Qed.

Lemma hasb_ex cg m p : static cg -> in_image (G cg) p ->
  hasb cg m p = true <-> exists d, match_exists (G cg) (nd p d) /\ avb cg m (nd p d) = true.
Proof.
  intros Hs Hp. rewrite hasb_iff by assumption. split.
  - intros [[q d] [M [E A]]]. cbn [npix] in E. subst q. exists d. split; assumption.
  - intros [d [M A]]. exists (nd p d). split; [exact M|split; [reflexivity|exact A]].
Qed.

(** *** Statements *)

Lemma choose_best (HL : laws T) cg p : wf_cgraph cg -> in_image (G cg) p ->
  exists b cg', exec (fun cg => choose_best_node cg p) cg = Ok (b, cg') /\
    wf_cgraph cg' /\ same_problem cg cg' /\
    (forall n, in_image (G cg) (npix n) -> disp n < Lv cg -> npix n <> p ->
       (available cg' n <-> available cg n)) /\
    ((forall d, match_exists (G cg) (nd p d) -> ~ available cg (nd p d)) -> b = false /\ cg' = cg) /\
    (forall d0, match_exists (G cg) (nd p d0) -> available cg (nd p d0) ->
       b = true /\
       exists d, match_exists (G cg) (nd p d) /\ available cg (nd p d) /\
         (forall d', match_exists (G cg) (nd p d') -> (available cg' (nd p d') <-> d' = d)) /\
         ((forall d' v', match_exists (G cg) (nd p d') -> available cg (nd p d') ->
             node_penalty (G cg) (nd p d') = Ok v' -> fle fzero v' = true) ->
          forall d' v v', match_exists (G cg) (nd p d') -> available cg (nd p d') ->
            node_penalty (G cg) (nd p d) = Ok v -> node_penalty (G cg) (nd p d') = Ok v' ->
            fle v v' = true /\ (fle v' v = true -> d <= d'))).
Proof.
  intros Hc Hp. pose proof (wf_static cg Hc) as Hs. pose proof (wfc_avail cg Hc) as Hm.
  destruct (run_choose cg (cg_avail cg) p HL Hs Hm Hp) as [b [m' [E [Hm' [Hsub [Oth [Eb [HF HT]]]]]]]].
  exists b, (with_avail cg m'). unfold exec. rewrite E. cbn [bind fst snd].
  split; [reflexivity|]. split; [apply static_wf; assumption|]. split; [apply same_with; assumption|].
  assert (Av : forall d, match_exists (G cg) (nd p d) -> (available cg (nd p d) <-> avb cg (cg_avail cg) (nd p d) = true)).
  { intros d M. apply available_iff; [exact Hc|apply match_inb; exact M]. }
  split; [|split].
  - intros n Hn Hd Ne. pose proof (conj Hn Hd : inb cg n) as Hi.
    rewrite available_with, available_iff by assumption. rewrite (Oth n Hi Ne). reflexivity.
  - intros No. assert (Hb : b = false).
    { rewrite Eb. destruct (hasb cg (cg_avail cg) p) eqn:X; [|reflexivity].
      apply hasb_ex in X; try assumption. destruct X as [d [M A]]. exfalso. apply (No d M). apply Av; assumption. }
    split; [exact Hb|]. rewrite (HF Hb). apply with_avail_same.
  - intros d0 M0 A0. assert (Hb : b = true).
    { rewrite Eb. apply hasb_ex; try assumption. exists d0. split; [exact M0|apply Av; assumption]. }
    split; [exact Hb|]. destruct (HT Hb) as [d [M [A [U Min]]]].
    exists d. split; [exact M|]. split; [apply Av; assumption|]. split.
    + intros d' M'. rewrite available_with by (try assumption; apply match_inb; exact M'). apply U; exact M'.
    + intros Nn d' v v' M' A' Ev Ev'. apply Min; try assumption; [|apply Av; assumption].
      intros d1 v1 M1 A1 E1. eapply Nn; [exact M1|apply Av; assumption|exact E1].
Qed.

Lemma found_solution cg m' : static cg -> mem_ok cg m' -> found cg m' ->
  exists k, solution (with_avail cg m') k /\
    forall n, match_exists (G cg) n -> (available (with_avail cg m') n <-> disp n = k (npix n)).
Proof.
  intros Hs Hm' [F1 F2].
  set (k := fun p => match first_label cg m' p with Some d => d | None => 0 end).
  assert (K : forall p, in_image (G cg) p -> match_exists (G cg) (nd p (k p)) /\ avb cg m' (nd p (k p)) = true).
  { intros p Hp. pose proof (first_label_spec cg m' p Hs Hp) as FS. unfold k. destruct (F1 p Hp) as [_ Hh].
    destruct (first_label cg m' p); [split; apply FS|congruence]. }
  exists k. split.
  - assert (C : forall p q, in_image (G cg) p -> in_image (G cg) q -> adjacent p q -> compat cg (label_node k p) (label_node k q)).
    { intros p q Hp Hq Adj. apply F2; try (apply K; assumption); assumption. }
    split; [split|split].
    + intros p Hp. apply K; exact Hp.
    + intros p q Hp Hq Adj. destruct (C p q Hp Hq Adj) as [[_ [_ [_ O]]] _]. exact O.
    + intros p Hp. apply available_with; try assumption; [apply match_inb|]; apply K; exact Hp.
    + intros p q Hp Hq Adj. destruct (C p q Hp Hq Adj) as [_ X]. apply ewb_iff; exact X.
  - intros [p d] M. cbn [npix disp]. rewrite available_with by (try assumption; apply match_inb; exact M).
    split.
    + intros A. destruct (F1 p (proj1 M)) as [Sg _]. apply Sg; try assumption; apply K; apply M.
    + intros ->. apply K. apply M.
Qed.

Lemma found_labeling (HL : laws T) cg : wf_cgraph cg ->
  exists b cg', exec find_labeling cg = Ok (b, cg') /\ wf_cgraph cg' /\ same_problem cg cg' /\
    (forall n, in_image (G cg) (npix n) -> disp n < Lv cg -> available cg' n -> available cg n) /\
    (b = true -> exists k, solution cg' k /\
       forall n, match_exists (G cg) n -> (available cg' n <-> disp n = k (npix n))).
Proof.
  intros Hc. pose proof (wf_static cg Hc) as Hs. pose proof (wfc_avail cg Hc) as Hm.
  unfold find_labeling, exec. rewrite (column_order_eq (G cg) (st_graph cg Hs)).
  assert (Hps : pixels_ok cg (all_pixels (Wd cg) (Ht cg))) by (intros p Hp; apply In_all_pixels in Hp; exact Hp).
  destruct (run_label_pixels cg HL (all_pixels (Wd cg) (Ht cg)) (cg_avail cg) [] Hs Hm Hps) as [b [m' [E [Hm' [Hsub HF]]]]].
  { intros p []. }
  rewrite E. cbn [bind fst snd]. exists b, (with_avail cg m'). split; [reflexivity|].
  split; [apply static_wf; assumption|]. split; [apply same_with; assumption|].
  split; [intros n Hn Hd A; eapply sub_available; eassumption|].
  intros ->. specialize (HF eq_refl).
  assert (Hne : all_pixels (Wd cg) (Ht cg) <> []).
  { intros X. pose proof (proj2 (In_all_pixels (Wd cg) (Ht cg) {| px := 0; py := 0 |}) (origin_in cg Hs)) as Y.
    rewrite X in Y. destruct Y. }
  specialize (HF Hne). apply found_solution; [exact Hs|exact Hm'|]. apply HF. intros p Hp; right; apply In_all_pixels; exact Hp.
Qed.

Lemma disparity_map cg : wf_cgraph cg ->
  ((forall p, in_image (G cg) p -> exists d, match_exists (G cg) (nd p d) /\ available cg (nd p d)) ->
   exists img, exec build_disparity_map cg = Ok (img, cg) /\
     width img = Wd cg /\ height img = Ht cg /\ max_value img = Lv cg /\ len (data img) = Wd cg * Ht cg /\
     valid_image img /\
     forall p, in_image (G cg) p -> exists d, get (data img) (py p * Wd cg + px p) = Ok d /\
       match_exists (G cg) (nd p d) /\ available cg (nd p d) /\
       forall d', match_exists (G cg) (nd p d') -> available cg (nd p d') -> d <= d') /\
  (forall p, in_image (G cg) p -> (forall d, match_exists (G cg) (nd p d) -> ~ available cg (nd p d)) ->
   exec build_disparity_map cg = Stop (Throw NoLabel)).
Proof.
  intros Hc. pose proof (wf_static cg Hc) as Hs. pose proof (wfc_avail cg Hc) as Hm.
  pose proof (wfc_graph cg Hc) as Hw.
  assert (Sz : Ht cg * Wd cg < wmod T /\ Ht cg * Wd cg <= vector_max_size).
  { pose proof (wf_wrap (G cg) Hw). pose proof (wf_alloc (G cg) Hw). pose proof (wf_levels (G cg) Hw). nia. }
  set (r0 := {| width := Wd cg; height := Ht cg; max_value := Lv cg; data := fill (Wd cg * Ht cg) 0 |}).
  set (ps := all_pixels (Wd cg) (Ht cg)).
  assert (Hps : pixels_ok cg ps) by (intros p Hp; apply In_all_pixels in Hp; exact Hp).
  assert (Hwm : width r0 * height r0 < wmod T) by (unfold r0; cbn [width height]; nia).
  assert (E0 : exec build_disparity_map cg =
     match paint cg (cg_avail cg) ps r0 with Some r' => Ok (r', cg) | None => Stop (Throw NoLabel) end).
  { unfold build_disparity_map, exec. cbv zeta. rewrite (column_order_eq (G cg) Hw). fold ps.
    rewrite (wf_width _ Hw), (wf_height _ Hw). rewrite umul_small by apply Sz.
    unfold alloc. destruct (N.ltb_spec vector_max_size (Ht cg * Wd cg)) as [X|X]; [lia|].
    cbn [lift cbind]. rewrite (N.mul_comm (Ht cg) (Wd cg)). fold r0.
    rewrite cbind_assoc_run, run_paint; [|assumption|assumption|assumption|].
    - destruct (paint cg (cg_avail cg) ps r0); cbn [bind fst snd run]; [|reflexivity]. rewrite with_avail_same. reflexivity.
    - intros p [A B]. unfold r0 at 2; cbn [data]. rewrite len_fill. apply (pixel_index_small T r0 p); [split; assumption|exact Hwm]. }
  assert (Av : forall p d, match_exists (G cg) (nd p d) -> (available cg (nd p d) <-> avb cg (cg_avail cg) (nd p d) = true)).
  { intros p d M. apply available_iff; [exact Hc|apply match_inb; exact M]. }
  pose proof (paint_spec cg (cg_avail cg) ps r0 Hs Hps (NoDup_all_pixels _ _) eq_refl eq_refl (len_fill _ _)) as PS.
  rewrite E0. clear E0. destruct (paint cg (cg_avail cg) ps r0) as [img|].
  - destruct PS as [A [B [C [D [E _]]]]]. split.
    + intros Hall. exists img.
      assert (V : forall p, in_image (G cg) p -> exists d, get (data img) (py p * Wd cg + px p) = Ok d /\
         match_exists (G cg) (nd p d) /\ available cg (nd p d) /\
         forall d', match_exists (G cg) (nd p d') -> available cg (nd p d') -> d <= d').
      { intros p Hp. destruct (E p) as [d [Ef Eg]]; [apply In_all_pixels; exact Hp|].
        rewrite (proj1 (pixel_index_small T r0 p Hp Hwm)) in Eg. exists d. split; [exact Eg|].
        pose proof (first_label_spec cg (cg_avail cg) p Hs Hp) as FS. rewrite Ef in FS.
        destruct FS as [M [Ad Mi]]. split; [exact M|]. split; [apply Av; assumption|].
        intros d' M' A'. apply Mi; [exact M'|apply Av; assumption]. }
      refine (conj eq_refl (conj A (conj B (conj C (conj D (conj _ V)))))).
      pose proof (wf_levels _ Hw). pose proof (wf_levels_width _ Hw). pose proof (wf_rows _ Hw).
      split; [lia|]. split; [lia|]. split; [rewrite C; unfold r0; cbn [max_value]; lia|].
      intros v Hv. apply In_get in Hv. destruct Hv as [i [Hi Ev]].
      destruct (pixel_index_surj T r0 i Hwm) as [p [Hp Ei]]; [unfold r0; cbn [width height]; lia|].
      destruct (V p Hp) as [d [Ed [M _]]]. rewrite (proj1 (pixel_index_small T r0 p Hp Hwm)) in Ei.
      unfold r0 in Ei; cbn [width] in Ei. rewrite Ei in Ed. assert (d = v) by congruence. subst d.
      rewrite C. unfold r0; cbn [max_value]. destruct M as [_ [M _]]. cbn [disp] in M. lia.
    + intros p Hp No. exfalso. destruct (E p) as [d [Ef _]]; [apply In_all_pixels; exact Hp|].
      pose proof (first_label_spec cg (cg_avail cg) p Hs Hp) as FS. rewrite Ef in FS.
      apply (No d); [apply FS|]. apply Av; apply FS.
  - destruct PS as [p [Hp Ef]]. split; [|reflexivity].
    intros Hall. exfalso. apply In_all_pixels in Hp. destruct (Hall p Hp) as [d [M A]].
    pose proof (first_label_spec cg (cg_avail cg) p Hs Hp) as FS. rewrite Ef in FS.
    assert (hasb cg (cg_avail cg) p = true) by (apply hasb_ex; try assumption; exists d; split; [exact M|apply Av; assumption]).
    congruence.
Qed.
End Graph.
