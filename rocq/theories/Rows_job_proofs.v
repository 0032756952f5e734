(** Jobs of the OpenMP build when rows do not restrict each other: lemmas. *)
From Coq Require Import Lia.
From Verif Require Export Rows_omp_proofs.
Local Open Scope N_scope.

Section Graph.
Context {T : target}.
Implicit Type cg : cgraph T.
Notation G cg := (cg_graph cg).
Notation Wd cg := (width (right (cg_graph cg))).
Notation Ht cg := (height (right (cg_graph cg))).
Notation Lv cg := (levels (cg_graph cg)).
Notation nd p d := {| npix := p; disp := d |}.
Notation at_ x y := {| px := x; py := y |}.

(** The row of an element. *)
Definition row_of cg (i : N) : N := (i / Lv cg) mod Ht cg.
Definition owns cg (jobs j i : N) : bool := row_of cg i mod jobs =? j.

Lemma row_of_index cg n : static cg -> inb cg n -> row_of cg (node_index (G cg) n) = py (npix n).
Proof.
  intros Hs [[Hx Hy] Hd]. unfold row_of. rewrite (proj1 (node_index_small (G cg) n (st_graph cg Hs) (conj Hx Hy) Hd)).
  rewrite N.div_add_l by lia. rewrite (N.div_small (disp n)) by exact Hd. rewrite N.add_0_r, N.add_comm, N.mod_add by lia.
  apply N.mod_small. exact Hy.
Qed.

Section Job.
Variables (cg : cgraph T) (K : node -> Prop) (jobs j : N) (m0 : mem).
Hypothesis Hs : static cg.
Hypothesis Sep : separate_rows cg.
Hypothesis HK : support cg K.
Hypothesis Hj : j < jobs.
Hypothesis Hjw : Ht cg + jobs < wmod T.
Notation own := (owns cg jobs j).
Notation KI := (places cg K).
Notation idx n := (node_index (G cg) n).
Notation mine y := (y mod jobs = j).

Definition base (m : mem) : Prop := mem_ok cg m /\ (forall i, KI i -> bit m i = true).
Notation keeps := (keeps own KI).
Notation tr := (tr own KI).

Lemma own_node n : inb cg n -> own (idx n) = true <-> mine (py (npix n)).
Proof. intros Hn. unfold owns. rewrite row_of_index by assumption. apply N.eqb_eq. Qed.
Lemma base_keeps m m' : base m -> keeps m m' -> base m'.
Proof. intros [L B] [L' [_ [_ K']]]. split; [unfold mem_ok; congruence|]. intros i Hi. apply K'; auto. Qed.
Lemma keeps_node m m' n : keeps m m' -> inb cg n -> mine (py (npix n)) -> avb cg m' n = avb cg m n.
Proof. intros [_ [_ [O _]]] Hn M. apply O. apply own_node; assumption. Qed.
Lemma place n : inb cg n -> K n -> KI (idx n).
Proof. intros Hn Kn. exists n. auto. Qed.
Lemma base_node m n : base m -> K n -> avb cg m n = true.
Proof. intros [_ B] Kn. apply B, place; [|exact Kn]. apply match_inb. apply (HK n Kn). Qed.

Lemma tr_node m n : base m -> inb cg n ->
  tr (fun b m' => keeps m m' /\ (K n -> b = true) /\ (mine (py (npix n)) -> b = avb cg m n)) (is_node_available cg n) m.
Proof.
  intros B Hn. eapply tr_mono; [|apply tr_read].
  - cbv beta. intros b m' [H1 [H2 [H3 _]]]. split; [exact H1|]. split; [intros Kn; apply H2, place; assumption|].
    intros M. apply H3, own_node; assumption.
  - apply idx_lt; [exact Hs|apply B|exact Hn].
  - apply B.
Qed.

Lemma tr_cexists {A} (I : mem -> Prop) (Y Z : A -> Prop) (l : list A) test :
  (forall a m, In a l -> I m -> tr (fun b m' => I m' /\ (b = true -> Y a) /\ (b = false -> Z a)) (test a) m) ->
  forall m, I m -> tr (fun b m' => I m' /\ (b = true -> exists a, In a l /\ Y a) /\ (b = false -> forall a, In a l -> Z a)) (cexists l test) m.
Proof.
  induction l as [|a l IH]; intros H m Im; cbn [cexists].
  - cbn [Rows_omp_proofs.tr]. split; [exact Im|]. split; [discriminate|intros _ a []].
  - eapply tr_bind'; [apply H; [left; reflexivity|exact Im]|]. cbv beta. intros b m' [Im' [H1 H2]]. destruct b.
    + cbn [Rows_omp_proofs.tr]. split; [exact Im'|]. split; [intros _; exists a; split; [left; reflexivity|auto]|discriminate].
    + eapply tr_mono; [|apply IH; [intros x m1 Hx; apply H; right; exact Hx|exact Im']]. cbv beta. intros b m1 [I1 [Q1 Q2]].
      split; [exact I1|]. split; [intros E; destruct (Q1 E) as [x [Hx Yx]]; exists x; split; [right; exact Hx|exact Yx]|].
      intros E x [<-|Hx]; auto.
Qed.

(** *** One node *)

Definition since (m m' : mem) : Prop := base m' /\ keeps m m'.
Lemma since_trans a b c : since a b -> keeps b c -> since a c.
Proof. intros [B1 K1] K2. split; [eapply base_keeps; eassumption|eapply keeps_trans; eassumption]. Qed.

Lemma tr_edge m m1 n n' : base m -> since m m1 -> inb cg n -> inb cg n' -> adjacent (npix n) (npix n') -> mine (py (npix n)) ->
  tr (fun b m' => since m m' /\ (b = true -> mine (py (npix n')) -> avb cg m n' = true /\ compat cg n n') /\
      (b = false -> ~ (avb cg m n = true /\ compat cg n n' /\ (K n' \/ mine (py (npix n')) /\ avb cg m n' = true))))
    (is_edge_available cg {| enode := n; enbr := n' |}) m1.
Proof.
  intros B S1 Hn Hn' A M. set (e := {| enode := n; enbr := n' |}).
  destruct (edge_values cg e Hs Hn Hn' A) as [v [w [Ev Ew]]].
  assert (Ee : edge_exists (G cg) e = true <-> match_pair (G cg) e) by (apply edge_exists_inb; try assumption; apply Hs).
  assert (Ec : compat cg n n' <-> fle (fsub v w) (cg_threshold cg) = true /\ edge_exists (G cg) e = true).
  { unfold compat. fold e. unfold ewb. rewrite Ev, Ew, Ee. tauto. }
  unfold is_edge_available. rewrite Ev, Ew. cbn [lift cbind].
  destruct (fle (fsub v w) (cg_threshold cg)) eqn:Ef.
  2:{ cbn [Rows_omp_proofs.tr]. split; [exact S1|]. split; [discriminate|]. intros _ [_ [C _]]. apply Ec in C. destruct C. discriminate. }
  eapply tr_bind'; [apply tr_node; [apply S1|exact Hn]|]. cbv beta. cbn [e enode enbr]. intros a m2 [K2 [_ H2]].
  specialize (H2 M). rewrite (keeps_node m m1) in H2 by (try assumption; apply S1). subst a.
  pose proof (since_trans _ _ _ S1 K2) as S2.
  destruct (avb cg m n) eqn:An.
  2:{ cbn [Rows_omp_proofs.tr]. split; [exact S2|]. split; [discriminate|]. intros _ [X _]. discriminate. }
  eapply tr_bind'; [apply tr_node; [apply S2|exact Hn']|]. cbv beta. intros b m3 [K3 [H4 H5]].
  pose proof (since_trans _ _ _ S2 K3) as S3.
  assert (H5' : mine (py (npix n')) -> b = avb cg m n').
  { intros M'. rewrite (H5 M'). apply keeps_node; [apply S2|exact Hn'|exact M']. }
  destruct b; cbn [Rows_omp_proofs.tr].
  - split; [exact S3|]. split.
    + intros E M'. split; [symmetry; auto|apply Ec; auto].
    + intros E [_ [C _]]. apply Ec in C. destruct C as [_ C]. fold e in E. congruence.
  - split; [exact S3|]. split; [discriminate|]. intros _ [_ [_ [Kn'|[M' A']]]].
    + specialize (H4 Kn'). discriminate.
    + specialize (H5' M'). congruence.
Qed.

Lemma tr_has_edge m m1 n q : base m -> since m m1 -> inb cg n -> in_image (G cg) q -> adjacent (npix n) q -> mine (py (npix n)) ->
  tr (fun b m' => since m m' /\
      (b = true -> mine (py q) -> exists n', npix n' = q /\ avb cg m n' = true /\ compat cg n n') /\
      (b = false -> avb cg m n = true -> forall n', npix n' = q -> compat cg n n' -> ~ K n' /\ (mine (py q) -> avb cg m n' = false)))
    (has_edge_to cg n q) m1.
Proof.
  intros B S1 Hn Hq A M. unfold has_edge_to.
  eapply tr_mono; [|apply (tr_cexists (since m)
    (fun d => mine (py q) -> avb cg m (nd q d) = true /\ compat cg n (nd q d))
    (fun d => ~ (avb cg m n = true /\ compat cg n (nd q d) /\ (K (nd q d) \/ mine (py q) /\ avb cg m (nd q d) = true)))); [|exact S1]].
  - cbv beta. intros b m' [S' [H1 H2]]. split; [exact S'|]. split.
    + intros E Mq. destruct (H1 E) as [d [_ Y]]. destruct (Y Mq) as [Y1 Y2]. exists (nd q d). auto.
    + intros E An [q' d'] Eq C. cbn [npix] in Eq. subst q'.
      assert (In d' (disparities (G cg) (px q) (@first_disparity T n q))) as Hd.
      { pose proof C as [[M1 [M2 [_ [O1 O2]]]] _]. cbn [enode enbr npix disp] in *.
        apply In_disparities; [apply Hs|exact Hq|]. split; [|exact M2].
        rewrite (first_eq cg n q Hs Hn Hq).
        destruct (N.eqb_spec (px (npix n) + 1) (px q)) as [Ex|Ex]; cbn [andb]; [|lia].
        destruct (N.ltb_spec 1 (disp n)); [|lia].
        assert (H0 : horizontal_pair (npix n) q) by (unfold adjacent, horizontal_pair, vertical_pair in *; lia).
        specialize (O1 H0). lia. }
      specialize (H2 E d' Hd). split; [intros Kn; apply H2; auto|].
      intros Mq. destruct (avb cg m (nd q d')) eqn:X; [|reflexivity]. exfalso. apply H2. auto.
  - intros d m2 Hd S2. apply In_disparities in Hd; [|apply Hs|exact Hq].
    apply (tr_edge m m2 n (nd q d)); try assumption. apply match_inb, Hd.
Qed.

(** A node has an available neighbor in the pixel. *)
Definition sup (m : mem) (n : node) (q : pixel) : Prop := exists n', npix n' = q /\ avb cg m n' = true /\ compat cg n n'.
Definition left_ok (m : mem) (n : node) : Prop := forall q, in_image (G cg) q -> horizontal_pair q (npix n) -> sup m n q.
Definition right_ok (m : mem) (n : node) : Prop := forall q, in_image (G cg) q -> horizontal_pair (npix n) q -> sup m n q.

Lemma tr_should_remove m n : base m -> match_exists (G cg) n -> mine (py (npix n)) ->
  tr (fun b m' => since m m' /\
      (b = true -> avb cg m n = true /\ ~ K n /\ (total cg K -> ~ (left_ok m n /\ right_ok m n))) /\
      (b = false -> avb cg m n = true -> left_ok m n /\ right_ok m n))
    (should_remove_node cg n) m.
Proof.
  intros B Hm M. pose proof (match_inb cg n Hm) as Hn. unfold should_remove_node.
  eapply tr_bind'; [apply tr_node; assumption|]. cbv beta. intros a m1 [K1 [_ H1]]. specialize (H1 M). subst a.
  assert (S1 : since m m1) by (split; [eapply base_keeps; eassumption|exact K1]).
  destruct (avb cg m n) eqn:An; cbn [negb].
  2:{ cbn [Rows_omp_proofs.tr]. split; [exact S1|]. split; discriminate. }
  eapply tr_mono; [|apply (tr_cexists (since m)
    (fun k => exists q, in_image (G cg) q /\ slot_of k (npix n) q /\
       forall n', npix n' = q -> compat cg n n' -> ~ K n' /\ (mine (py q) -> avb cg m n' = false))
    (fun k => forall q, in_image (G cg) q -> slot_of k (npix n) q -> mine (py q) -> sup m n q)); [|exact S1]].
  - cbv beta. intros b m' [S' [Q1 Q2]]. split; [exact S'|]. split.
    + intros E. split; [reflexivity|]. destruct (Q1 E) as [k [_ [q [Hq [Sl No]]]]]. pose proof (slot_adjacent _ _ _ Sl) as Ad.
      split.
      * intros Kn. destruct (proj2 (HK n Kn) q Hq Ad) as [n' [E' [K' C]]]. apply (No n' E' C). exact K'.
      * intros Tk [Lo Ro].
        assert (Cs : (horizontal_pair (npix n) q \/ horizontal_pair q (npix n)) \/ (vertical_pair (npix n) q \/ vertical_pair q (npix n)))
          by (unfold adjacent in Ad; tauto).
        destruct Cs as [Cs|Cs].
        -- assert (Mq : mine (py q)) by (destruct Cs as [Cs|Cs]; destruct Cs as [_ Ey]; congruence).
           assert (Su : sup m n q) by (destruct Cs; auto). destruct Su as [n' [E' [A' C]]].
           destruct (No n' E' C) as [_ X]. specialize (X Mq). congruence.
        -- destruct (Tk q Hq) as [n' [Kn' E']]. pose proof (proj1 (HK n' Kn')) as M'.
           assert (C : compat cg n n').
           { subst q. split; [|apply ewb_iff; apply Sep; assumption].
             split; [exact Hm|]. split; [exact M'|]. split; [exact Ad|].
             unfold in_order, horizontal_pair, vertical_pair in *. cbn [enode enbr npix] in *. split; intros; exfalso; lia. }
           apply (proj1 (No n' E' C)). exact Kn'.
    + intros E _. split; intros q Hq Hp.
      * apply (Q2 E 1); [apply In_range; unfold NEIGHBORS_COUNT; lia|exact Hq|unfold slot_of; auto|]. destruct Hp as [_ Ey]. congruence.
      * apply (Q2 E 0); [apply In_range; unfold NEIGHBORS_COUNT; lia|exact Hq|unfold slot_of; auto|]. destruct Hp as [_ Ey]. congruence.
  - intros k m2 _ S2. destruct (neighborhood_exists_fast (G cg) (npix n) k) eqn:Ex; cbn [negb].
    + apply (neighborhood_exists_fast_iff _ _ _ (st_graph cg Hs)) in Ex. destruct Ex as [q [Hp [Hq Sl]]].
      rewrite (neighbor_by_index_slot _ _ q k (st_graph cg Hs) Hp Hq Sl).
      pose proof (slot_adjacent _ _ _ Sl) as A.
      eapply tr_bind'; [apply (tr_has_edge m m2 n q); assumption|]. cbv beta. intros f m3 [S3 [F1 F2]].
      cbn [Rows_omp_proofs.tr]. split; [exact S3|]. split.
      * intros E. destruct f; [discriminate|]. exists q. split; [exact Hq|]. split; [exact Sl|]. apply F2; [reflexivity|exact An].
      * intros E q' Hq' Sl' Mq. destruct f; [|discriminate].
        assert (q' = q) by (rewrite <- (neighbor_by_index_slot _ _ q k (st_graph cg Hs) Hp Hq Sl); symmetry; apply (neighbor_by_index_slot _ _ q' k (st_graph cg Hs) Hp Hq' Sl')).
        subst q'. apply F1; [reflexivity|exact Mq].
    + cbn [Rows_omp_proofs.tr]. split; [exact S2|]. split; [discriminate|]. intros _ q Hq Sl Mq. exfalso.
      assert (X : neighborhood_exists_fast (G cg) (npix n) k = true).
      { apply (neighborhood_exists_fast_iff _ _ _ (st_graph cg Hs)). exists q. split; [apply Hm|]. auto. }
      congruence.
Qed.

(** *** One pixel *)

(** The elements of other pixels of the own rows are the same. *)
Definition apart_from (p : pixel) (m m' : mem) : Prop :=
  forall n, inb cg n -> mine (py (npix n)) -> npix n <> p -> avb cg m' n = avb cg m n.

Lemma sup_apart p m m' n q : apart_from p m m' -> q <> p -> mine (py q) -> sup m n q -> sup m' n q.
Proof.
  intros Ap Ne Mq [n' [E [A C]]]. exists n'. split; [exact E|]. split; [|exact C].
  pose proof C as [[_ [M' _]] _]. cbn [enbr] in M'. rewrite Ap; [exact A|apply match_inb; exact M'|congruence|congruence].
Qed.
Lemma apart_sym p m m' : apart_from p m m' -> apart_from p m' m.
Proof. intros H n A B C. symmetry. apply H; assumption. Qed.
Lemma apart_trans p a b c : apart_from p a b -> apart_from p b c -> apart_from p a c.
Proof. intros H1 H2 n A B C. rewrite H2, H1 by assumption. reflexivity. Qed.
Lemma apart_keeps p m m' : keeps m m' -> apart_from p m m'.
Proof. intros H n A B _. eapply keeps_node; eassumption. Qed.
Lemma sides_apart p m m' n : apart_from p m m' -> npix n = p -> mine (py p) ->
  left_ok m n /\ right_ok m n -> left_ok m' n /\ right_ok m' n.
Proof.
  intros Ap <- M [L R]. split; intros q Hq Hp; eapply sup_apart; try eassumption; try (apply L; assumption); try (apply R; assumption).
  - intros ->. destruct Hp as [X _]. lia.
  - destruct Hp as [_ E]. congruence.
  - intros ->. destruct Hp as [X _]. lia.
  - destruct Hp as [_ E]. congruence.
Qed.

(** What processing a pixel does to a node of it. *)
Definition settles (m m' : mem) (n : node) : Prop :=
  (avb cg m' n = true -> avb cg m n = true /\ left_ok m n /\ right_ok m n) /\
  (total cg K -> avb cg m n = true -> left_ok m n -> right_ok m n -> avb cg m' n = true).

Lemma tr_process p m : base m -> in_image (G cg) p -> mine (py p) ->
  tr (fun _ m' => base m' /\ apart_from p m m' /\
      (forall d, match_exists (G cg) (nd p d) -> settles m m' (nd p d)) /\
      (forall d, d < Lv cg -> ~ match_exists (G cg) (nd p d) -> avb cg m' (nd p d) = avb cg m (nd p d)))
    (csp_process_pixel cg p) m.
Proof.
  intros B Hp M. unfold csp_process_pixel. rewrite disparities_right_eq by (try apply Hp; apply Hs). fold (disps cg p).
  assert (ND : NoDup (disps cg p)) by (unfold disps; rewrite disparities_eq by (try apply Hp; apply Hs); apply NoDup_range).
  assert (Main : forall ds done m1 s, disps cg p = done ++ ds -> base m1 -> apart_from p m m1 ->
    (forall d, In d done -> settles m m1 (nd p d)) ->
    (forall d, d < Lv cg -> ~ In d done -> avb cg m1 (nd p d) = avb cg m (nd p d)) ->
    tr (fun _ m' => base m' /\ apart_from p m m' /\
      (forall d, In d (disps cg p) -> settles m m' (nd p d)) /\
      (forall d, d < Lv cg -> ~ In d (disps cg p) -> avb cg m' (nd p d) = avb cg m (nd p d)))
      (cloop ds (fun d changed => let n := nd p d in rm <== should_remove_node cg n ;;
         if rm then _ <== make_node_unavailable cg n ;; Ret true else Ret changed) s) m1).
  { induction ds as [|d ds IH]; intros done m1 s El B1 A1 D1 U1; cbn [cloop].
    - rewrite app_nil_r in El. rewrite El. cbn [Rows_omp_proofs.tr]. auto.
    - cbv zeta. assert (Md : match_exists (G cg) (nd p d)) by (apply (disps_In cg p d Hs Hp); rewrite El; apply in_elt).
      pose proof (match_inb cg _ Md) as Hn.
      assert (Nd : ~ In d done).
      { intros X. rewrite El in ND. apply NoDup_remove_2 in ND. apply ND. apply in_app_iff. left; exact X. }
      assert (Same : avb cg m1 (nd p d) = avb cg m (nd p d)) by (apply U1; [apply Md|exact Nd]).
      assert (Next : forall m2 s2, base m2 -> apart_from p m m2 -> settles m m2 (nd p d) ->
        (forall d', d' < Lv cg -> d' <> d -> avb cg m2 (nd p d') = avb cg m1 (nd p d')) ->
        tr (fun _ m' => base m' /\ apart_from p m m' /\
          (forall d, In d (disps cg p) -> settles m m' (nd p d)) /\
          (forall d, d < Lv cg -> ~ In d (disps cg p) -> avb cg m' (nd p d) = avb cg m (nd p d)))
        (cloop ds (fun d changed => let n := nd p d in rm <== should_remove_node cg n ;;
          if rm then _ <== make_node_unavailable cg n ;; Ret true else Ret changed) s2) m2).
      { intros m2 s2 B2 A2 St Un. apply (IH (done ++ [d])); try assumption.
        - rewrite <- app_assoc. exact El.
        - intros d' Hd'. apply in_app_iff in Hd'. destruct Hd' as [Hd'|[<-|[]]]; [|exact St].
          assert (In d' (disps cg p)) as Id by (rewrite El; apply in_app_iff; left; exact Hd').
          apply disps_In in Id; try assumption.
          destruct (D1 d' Hd') as [X1 X2]. unfold settles. rewrite Un; [auto|apply Id|]. intros ->. contradiction.
        - intros d' Ld Nd'. rewrite Un; [apply U1|exact Ld|]; [exact Ld| |]; intros X; apply Nd'; apply in_app_iff; [left; exact X|right; left; auto]. }
      eapply tr_bind'; [eapply tr_bind'; [apply (tr_should_remove m1); [exact B1|exact Md|exact M]|]|].
      2:{ instantiate (1 := fun _ m2 => base m2 /\ apart_from p m m2 /\ settles m m2 (nd p d) /\
            (forall d', d' < Lv cg -> d' <> d -> avb cg m2 (nd p d') = avb cg m1 (nd p d'))).
          cbv beta. intros s2 m2 [X1 [X2 [X3 X4]]]. apply Next; assumption. }
      cbv beta. intros rm m2 [[B2 K2] [R1 R2]].
      assert (A2 : apart_from p m m2) by (eapply apart_trans; [exact A1|apply apart_keeps; exact K2]).
      assert (P2 : forall d', d' < Lv cg -> avb cg m2 (nd p d') = avb cg m1 (nd p d')).
      { intros d' Ld. apply (keeps_node m1); [exact K2|split; [exact Hp|exact Ld]|exact M]. }
      destruct rm.
      + destruct (R1 eq_refl) as [An [NK Rt]]. unfold make_node_unavailable. cbn [cbind Rows_omp_proofs.tr].
        assert (Lt : idx (nd p d) < len m2) by (apply idx_lt; [exact Hs|apply B2|exact Hn]).
        split; [reflexivity|]. split; [apply own_node; assumption|]. split; [intros X; apply NK, (places_node cg K Hs); assumption|].
        split; [exact Lt|].
        assert (Bu : forall n, inb cg n -> avb cg (upd m2 (N.to_nat (idx (nd p d))) false) n = if idx n =? idx (nd p d) then false else avb cg m2 n).
        { intros n _. unfold avb. rewrite bit_upd by exact Lt. reflexivity. }
        assert (Ne : forall n, inb cg n -> n <> nd p d -> avb cg (upd m2 (N.to_nat (idx (nd p d))) false) n = avb cg m2 n).
        { intros n Hi X. rewrite Bu by exact Hi. destruct (N.eqb_spec (idx n) (idx (nd p d))) as [E|]; [|reflexivity].
          exfalso. apply X. eapply idx_inj; eassumption. }
        split.
        { split; [unfold mem_ok; rewrite len_upd; apply B2|]. intros i Ki. rewrite bit_upd by exact Lt.
          destruct (N.eqb_spec i (idx (nd p d))) as [->|]; [|apply B2; exact Ki].
          exfalso. apply NK. apply (places_node cg K Hs); assumption. }
        split; [intros n Hi Mn Nn; rewrite Ne; [apply A2; assumption|exact Hi|intros ->; apply Nn; reflexivity]|].
        split.
        { split.
          - rewrite Bu by exact Hn. rewrite N.eqb_refl. discriminate.
          - intros Tk _ L R. exfalso. apply (Rt Tk). eapply (sides_apart p m m1); eauto. }
        intros d' Ld Nd'. rewrite Ne; [apply P2; exact Ld|split; [exact Hp|exact Ld]|congruence].
      + cbn [Rows_omp_proofs.tr]. split; [exact B2|]. split; [exact A2|]. split; [|intros d' Ld _; apply P2; exact Ld].
        assert (P : avb cg m2 (nd p d) = avb cg m (nd p d)) by (rewrite P2 by apply Md; exact Same).
        split.
        * rewrite P. intros E. split; [exact E|]. rewrite Same in R2. specialize (R2 eq_refl E).
          eapply (sides_apart p m1 m); eauto. apply apart_sym. exact A1.
        * intros _ E _ _. congruence. }
  eapply tr_mono; [|apply (Main (disps cg p) [] m false eq_refl B)].
  - cbv beta. intros _ m' [B' [A' [D' U']]]. split; [exact B'|]. split; [exact A'|]. split.
    + intros d Md. apply D'. apply disps_In; assumption.
    + intros d Ld Nm. apply U'; [exact Ld|]. intros X. apply Nm. apply disps_In in X; assumption.
  - intros n _ _ _. reflexivity.
  - intros d [].
  - intros d _ _. reflexivity.
Qed.

Lemma tr_pixel_available p m : base m -> in_image (G cg) p -> mine (py p) ->
  tr (fun b m' => since m m' /\ (b = true -> exists d, match_exists (G cg) (nd p d) /\ avb cg m (nd p d) = true) /\ (total cg K -> b = true))
    (pixel_available cg p) m.
Proof.
  intros B Hp M. unfold pixel_available. rewrite disparities_right_eq by (try apply Hp; apply Hs). fold (disps cg p).
  assert (Main : forall ds done m1 s, disps cg p = done ++ ds -> since m m1 ->
    (s = true -> exists d, In d done /\ avb cg m (nd p d) = true) ->
    ((exists d, In d done /\ avb cg m (nd p d) = true) -> s = true) ->
    tr (fun b m' => since m m' /\ (b = true -> exists d, In d (disps cg p) /\ avb cg m (nd p d) = true) /\
       ((exists d, In d (disps cg p) /\ avb cg m (nd p d) = true) -> b = true))
      (cloop ds (fun d pa => a <== is_node_available cg (nd p d) ;; Ret (if a then true else pa)) s) m1).
  { induction ds as [|d ds IH]; intros done m1 s El S1 H1 H2; cbn [cloop].
    - rewrite app_nil_r in El. rewrite El. cbn [Rows_omp_proofs.tr]. auto.
    - assert (Md : match_exists (G cg) (nd p d)) by (apply (disps_In cg p d Hs Hp); rewrite El; apply in_elt).
      pose proof (match_inb cg _ Md) as Hn.
      eapply tr_bind'; [eapply tr_bind'; [apply (tr_node m1); [apply S1|exact Hn]|]|].
      2:{ instantiate (1 := fun s2 m2 => since m m2 /\ s2 = (if avb cg m (nd p d) then true else s)).
          cbv beta. intros s2 m2 [S2 ->]. apply (IH (done ++ [d])); [rewrite <- app_assoc; exact El|exact S2| |].
          - destruct (avb cg m (nd p d)) eqn:E.
            + intros _. exists d. split; [apply in_app_iff; right; left; reflexivity|exact E].
            + intros X. destruct (H1 X) as [d' [I' A']]. exists d'. split; [apply in_app_iff; left; exact I'|exact A'].
          - intros [d' [I' A']]. destruct (avb cg m (nd p d)) eqn:E; [reflexivity|]. apply H2.
            apply in_app_iff in I'. destruct I' as [I'|[<-|[]]]; [exists d'; auto|congruence]. }
      cbv beta. intros a m2 [K2 [_ H3]]. cbn [Rows_omp_proofs.tr]. split; [eapply since_trans; eassumption|].
      rewrite (H3 M). rewrite (keeps_node m m1); [reflexivity|apply S1|exact Hn|exact M]. }
  eapply tr_mono; [|apply (Main (disps cg p) [] m false eq_refl)].
  - cbv beta. intros b m' [S' [H1 H2]]. split; [exact S'|]. split.
    + intros E. destruct (H1 E) as [d [I A]]. apply disps_In in I; try assumption. exists d. auto.
    + intros Tk. destruct (Tk p Hp) as [[q d] [Kn E]]. cbn [npix] in E. subst q. apply H2. exists d. split.
      * apply disps_In; try assumption. apply (HK _ Kn).
      * apply base_node; assumption.
  - split; [exact B|apply keeps_refl].
  - discriminate.
  - intros [d [[] _]].
Qed.

(** *** Rows *)

(** Row [y], of which the pixels before [x] have been processed. *)
Definition Row (y x : N) (m : mem) : Prop :=
  (forall x' d, x' < x -> x' < Wd cg -> match_exists (G cg) (nd (at_ x' y) d) ->
     (avb cg m (nd (at_ x' y) d) = true ->
        avb cg m0 (nd (at_ x' y) d) = true /\ left_ok m (nd (at_ x' y) d) /\ right_ok m0 (nd (at_ x' y) d)) /\
     (total cg K -> avb cg m0 (nd (at_ x' y) d) = true -> left_ok m (nd (at_ x' y) d) -> right_ok m0 (nd (at_ x' y) d) ->
        avb cg m (nd (at_ x' y) d) = true)) /\
  (forall x', x' < x -> x' < Wd cg -> exists d, match_exists (G cg) (nd (at_ x' y) d) /\ avb cg m (nd (at_ x' y) d) = true) /\
  (forall x' d, x' < Wd cg -> d < Lv cg -> x <= x' \/ ~ match_exists (G cg) (nd (at_ x' y) d) ->
     avb cg m (nd (at_ x' y) d) = avb cg m0 (nd (at_ x' y) d)).

Definition same_row (y : N) (m m' : mem) : Prop :=
  forall n, inb cg n -> py (npix n) = y -> avb cg m' n = avb cg m n.

Lemma sup_row m m' n q : same_row (py q) m m' -> in_image (G cg) q -> sup m n q -> sup m' n q.
Proof.
  intros Sm Hq [n' [E [A C]]]. exists n'. split; [exact E|]. split; [|exact C].
  pose proof C as [[_ [M' _]] _]. cbn [enbr] in M'. rewrite Sm; [exact A|apply match_inb; exact M'|congruence].
Qed.
Lemma left_row m m' n : same_row (py (npix n)) m m' -> left_ok m n -> left_ok m' n.
Proof. intros Sm L q Hq Hp. apply (sup_row m); [destruct Hp as [_ E]; rewrite <- E; exact Sm|exact Hq|apply L; assumption]. Qed.
Lemma same_row_sym y m m' : same_row y m m' -> same_row y m' m.
Proof. intros H n A B. symmetry. apply H; assumption. Qed.
Lemma same_row_trans y a b c : same_row y a b -> same_row y b c -> same_row y a c.
Proof. intros H1 H2 n A B. rewrite H2, H1 by assumption. reflexivity. Qed.
Lemma row_inb y x d : y < Ht cg -> x < Wd cg -> d < Lv cg -> inb cg (nd (at_ x y) d).
Proof. intros. split; [split|]; assumption. Qed.

Lemma Row_same y x m m' : y < Ht cg -> same_row y m m' -> Row y x m -> Row y x m'.
Proof.
  intros Hy Sm [R1 [R2 R3]]. pose proof (same_row_sym y m m' Sm) as Sm'. split; [|split].
  - intros x' d Lx Wx Mx. destruct (R1 x' d Lx Wx Mx) as [A B]. rewrite (Sm (nd (at_ x' y) d)) by (try reflexivity; apply match_inb; exact Mx). split.
    + intros E. destruct (A E) as [A1 [A2 A3]]. split; [exact A1|]. split; [|exact A3]. apply (left_row m); assumption.
    + intros Tk E L R. apply B; try assumption. apply (left_row m'); assumption.
  - intros x' Lx Wx. destruct (R2 x' Lx Wx) as [d [Md A]]. exists d. split; [exact Md|]. rewrite Sm; [exact A|apply match_inb; exact Md|reflexivity].
  - intros x' d Wx Ld C. rewrite Sm; [apply R3; assumption|apply row_inb; assumption|reflexivity].
Qed.

Lemma same_keeps y m m' : keeps m m' -> mine y -> same_row y m m'.
Proof. intros H M n Hn <-. eapply keeps_node; eassumption. Qed.

(** Processing the next pixel. *)
Lemma Row_next y x m m' : y < Ht cg -> x < Wd cg -> mine y -> base m -> Row y x m -> apart_from (at_ x y) m m' ->
  (forall d, match_exists (G cg) (nd (at_ x y) d) -> settles m m' (nd (at_ x y) d)) ->
  (forall d, d < Lv cg -> ~ match_exists (G cg) (nd (at_ x y) d) -> avb cg m' (nd (at_ x y) d) = avb cg m (nd (at_ x y) d)) ->
  (exists d, match_exists (G cg) (nd (at_ x y) d) /\ avb cg m' (nd (at_ x y) d) = true) ->
  Row y (x + 1) m'.
Proof.
  intros Hy Hx M B [R1 [R2 R3]] Ap St Un Has.
  assert (Ot : forall x' d, x' <> x -> x' < Wd cg -> d < Lv cg -> avb cg m' (nd (at_ x' y) d) = avb cg m (nd (at_ x' y) d)).
  { intros x' d Ne Wx Ld. apply Ap; [apply row_inb; assumption|exact M|]. cbn [npix]. congruence. }
  assert (Lf : forall x' d, x' <= x -> left_ok m (nd (at_ x' y) d) <-> left_ok m' (nd (at_ x' y) d)).
  { intros x' d Lx. split; intros L q Hq Hp.
    - apply (sup_apart (at_ x y) m); [exact Ap| | |apply L; assumption]; destruct Hp as [Ex Ey]; cbn [npix px py] in *; [|congruence].
      intros ->. cbn [px] in *. lia.
    - apply (sup_apart (at_ x y) m'); [apply apart_sym; exact Ap| | |apply L; assumption]; destruct Hp as [Ex Ey]; cbn [npix px py] in *; [|congruence].
      intros ->. cbn [px] in *. lia. }
  assert (Rt : forall d, right_ok m (nd (at_ x y) d) <-> right_ok m0 (nd (at_ x y) d)).
  { intros d. split; intros R q Hq Hp; destruct (R q Hq Hp) as [[q' d'] [E [A C]]]; cbn [npix] in E; subst q';
      exists (nd q d'); (split; [reflexivity|]); (split; [|exact C]);
      pose proof C as [[_ [M' _]] _]; cbn [enbr] in M'; destruct q as [qx qy], Hp as [Ex Ey]; cbn [npix px py] in *; subst qx qy;
      [rewrite <- R3|rewrite R3]; try exact A; try apply M'; left; lia. }
  split; [|split].
  - intros x' d Lx Wx Mx. assert (C : x' = x \/ x' < x) by lia. destruct C as [->|C].
    + destruct (St d Mx) as [S1 S2].
      assert (E0 : avb cg m (nd (at_ x y) d) = avb cg m0 (nd (at_ x y) d)) by (apply R3; [exact Wx|apply Mx|left; lia]).
      split.
      * intros E. destruct (S1 E) as [A1 [A2 A3]]. split; [congruence|]. split; [apply Lf; [lia|exact A2]|apply Rt; exact A3].
      * intros Tk E L R. apply S2; [exact Tk|congruence|apply Lf; [lia|exact L]|apply Rt; exact R].
    + destruct (R1 x' d C Wx Mx) as [A1 A2]. rewrite Ot by (try lia; apply Mx). split.
      * intros E. destruct (A1 E) as [X1 [X2 X3]]. split; [exact X1|]. split; [apply Lf; [lia|exact X2]|exact X3].
      * intros Tk E L R. apply A2; try assumption. apply Lf; [lia|exact L].
  - intros x' Lx Wx. assert (C : x' = x \/ x' < x) by lia. destruct C as [->|C]; [exact Has|].
    destruct (R2 x' C Wx) as [d [Md A]]. exists d. split; [exact Md|]. rewrite Ot by (try lia; apply Md). exact A.
  - intros x' d Wx Ld C. destruct (N.eq_dec x' x) as [->|Ne].
    + destruct C as [C|C]; [lia|]. rewrite Un by assumption. apply R3; auto.
    + rewrite Ot by assumption. apply R3; try assumption. destruct C as [C|C]; [left; lia|right; exact C].
Qed.

(** The other rows of the job. *)
Definition Others (y : N) (m : mem) : Prop :=
  forall r, r < Ht cg -> mine r -> (r < y -> Row r (Wd cg) m) /\ (y < r -> Row r 0 m).
Lemma Others_same y m m' : Others y m -> (forall r, r < Ht cg -> mine r -> r <> y -> same_row r m m') -> Others y m'.
Proof.
  intros O Sm r Hr Mr. destruct (O r Hr Mr) as [O1 O2]. split; intros L; (eapply Row_same; [exact Hr|apply Sm; [exact Hr|exact Mr|lia]|auto]).
Qed.

Lemma tr_sweep_row y : y < Ht cg -> mine y -> forall xs x pa m, xs = range x (Wd cg) -> x <= Wd cg -> (x = Wd cg -> pa = true) ->
  base m -> Row y x m -> Others y m ->
  tr (fun (b : bool) m' => base m' /\ (if b then Row y (Wd cg) m' /\ Others y m' else ~ total cg K)) (sweep_row cg y xs pa) m.
Proof.
  intros Hy M. induction xs as [|x0 xs IH]; intros x pa m Ex Lx Hpa B Rw Ot; cbn [sweep_row].
  - assert (x = Wd cg).
    { destruct (N.lt_ge_cases x (Wd cg)) as [L|L]; [|lia]. rewrite range_cons in Ex by exact L. discriminate. }
    subst x. rewrite (Hpa eq_refl). cbn [Rows_omp_proofs.tr]. auto.
  - assert (Lx' : x < Wd cg).
    { destruct (N.lt_ge_cases x (Wd cg)) as [L|L]; [exact L|]. rewrite range_nil in Ex by exact L. discriminate. }
    rewrite range_cons in Ex by exact Lx'. injection Ex as -> Ex. cbv zeta.
    assert (Hp : in_image (G cg) (at_ x y)) by (split; assumption).
    eapply tr_bind'; [apply (tr_process (at_ x y) m B Hp M)|]. cbv beta. intros _ m1 [B1 [A1 [S1 U1]]].
    eapply tr_bind'; [apply (tr_pixel_available (at_ x y) m1 B1 Hp M)|]. cbv beta. intros pa' m2 [[B2 K2] [P1 P2]].
    destruct pa'.
    + apply (IH (x + 1)); try assumption; [lia|reflexivity| |].
      * apply (Row_same y (x + 1) m1); [exact Hy|apply same_keeps; assumption|].
        eapply (Row_next y x m m1); try eassumption. apply P1. reflexivity.
      * apply (Others_same y m); [exact Ot|]. intros r Hr Mr Ne. eapply same_row_trans; [|apply same_keeps; [exact K2|exact Mr]].
        intros n Hn En. apply A1; [exact Hn|congruence|]. intros X. apply Ne. rewrite <- En, X. reflexivity.
    + cbn [Rows_omp_proofs.tr]. split; [exact B2|]. intros Tk. specialize (P2 Tk). discriminate.
Qed.

Lemma tr_sweep_rows fuel : forall y pa m, mine y -> Ht cg - y < N.of_nat fuel -> y < Ht cg + jobs -> pa = true \/ y < Ht cg -> base m ->
  (forall r, r < Ht cg -> mine r -> (r < y -> Row r (Wd cg) m) /\ (y <= r -> Row r 0 m)) ->
  tr (fun (b : bool) m' => base m' /\ (if b then forall r, r < Ht cg -> mine r -> Row r (Wd cg) m' else ~ total cg K)) (sweep_rows cg fuel jobs y pa) m.
Proof.
  induction fuel as [|f IH]; intros y pa m M Lf Ly Hpa B Rs; [lia|]. cbn [sweep_rows].
  destruct (N.ltb_spec y (Ht cg)) as [Hy|Hy].
  - eapply tr_bind'.
    + apply (tr_sweep_row y Hy M _ 0); [reflexivity|lia| |exact B| |].
      * intros X. pose proof (wf_sizes _ (st_graph cg Hs)) as S. pose proof (sz_w _ S). lia.
      * apply (Rs y Hy M). lia.
      * intros r Hr Mr. destruct (Rs r Hr Mr) as [X1 X2]. split; [exact X1|]. intros L. apply X2. lia.
    + cbv beta. intros b m' [B' H]. destruct b.
      * destruct H as [Ry Ot]. rewrite uadd_small by lia. apply IH; try assumption; [|lia|lia|left; reflexivity|].
        -- replace (y + jobs) with (y + 1 * jobs) by lia. rewrite N.mod_add by lia. exact M.
        -- intros r Hr Mr. destruct (Ot r Hr Mr) as [O1 O2].
           assert (Nb : y < r -> r < y + jobs -> False).
           { intros L1 L2. pose proof (N.div_mod y jobs ltac:(lia)) as D1. pose proof (N.div_mod r jobs ltac:(lia)) as D2.
             rewrite M in D1. rewrite Mr in D2. generalize dependent (y / jobs). generalize dependent (r / jobs). intros a D2 b D1.
             clear - D1 D2 L1 L2. assert (b < a \/ a <= b) as [X|X] by lia; nia. }
           split; intros L.
           ++ destruct (N.lt_trichotomy r y) as [C|[->|C]]; [auto|exact Ry|exfalso; auto].
           ++ apply O2. lia.
      * cbn [Rows_omp_proofs.tr]. split; assumption.
  - cbn [Rows_omp_proofs.tr]. split; [exact B|]. destruct Hpa as [->|L]; [|lia].
    intros r Hr Mr. apply (Rs r Hr Mr). lia.
Qed.

Lemma tr_check_nodes m : base m ->
  tr (fun b m' => b = false -> forall i, i < size cg -> bit m' i = false) (check_nodes_left cg) m.
Proof.
  intros B. unfold check_nodes_left. rewrite (count_size cg Hs).
  assert (Main : forall l m1, (forall i, In i l -> i < size cg) -> base m1 ->
    tr (fun b m' => sub m' m1 /\ (b = false -> forall i, In i l -> bit m' i = false)) (cexists l (fun i => Read i (fun b => Ret b))) m1).
  { induction l as [|i l IH]; intros m1 Hl B1; cbn [cexists]; [cbn [Rows_omp_proofs.tr]; split; [apply sub_refl|intros _ i []]|].
    eapply tr_bind'; [apply tr_read; [|apply B1]|].
    - rewrite (proj1 B1). apply Hl. left. reflexivity.
    - cbv beta. intros b m2 [K2 [_ [_ H2]]]. pose proof (base_keeps _ _ B1 K2) as B2. destruct b.
      + cbn [Rows_omp_proofs.tr]. split; [apply K2|discriminate].
      + eapply tr_mono; [|apply IH; [intros x Hx; apply Hl; right; exact Hx|exact B2]]. cbv beta. intros b m3 [S3 H3]. split; [eapply sub_trans; [exact S3|apply K2]|].
        intros E x [<-|Hx]; [|auto]. destruct (bit m3 i) eqn:Y; [|reflexivity]. apply S3 in Y. rewrite H2 in Y by reflexivity. discriminate. }
  eapply tr_mono; [|apply (Main (range 0 (size cg)) m); [intros i Hi; apply In_range in Hi; lia|exact B]].
  cbv beta. intros b m' [_ H] E i Hi. apply H; [exact E|]. apply In_range. lia.
Qed.

Definition job_end (m : mem) : Prop :=
  (forall r, r < Ht cg -> mine r -> Row r (Wd cg) m) \/ (~ total cg K /\ forall i, i < size cg -> bit m i = false).

Lemma trt_job : base m0 -> trt own KI (~ total cg K) job_end (csp_solution_iteration cg jobs j) m0.
Proof.
  intros B. unfold csp_solution_iteration. destruct (N.leb_spec (Ht cg) j) as [L|L].
  - cbn [trt]. left. intros r Hr Mr. rewrite N.mod_small in Mr by lia. lia.
  - eapply trt_bind; [apply tr_sweep_rows|].
    + apply N.mod_small. exact Hj.
    + lia.
    + lia.
    + right. exact L.
    + exact B.
    + intros r Hr Mr. split.
      * intros X. exfalso. rewrite N.mod_small in Mr by lia. lia.
      * intros _. split; [intros; lia|]. split; [intros; lia|]. auto.
    + cbv beta. intros b m [Bm H]. destruct b; cbn [negb]; [left; exact H|].
      eapply trt_bind; [apply tr_check_nodes; exact Bm|]. cbv beta. intros c m1 Hc. destruct c; cbn [negb].
      * apply trt_gives_up; [exact H|].
        assert (X : forall l u, ends_true (_ <== cloop l (fun i _ => Write i false (Ret tt)) u ;; Ret true)).
        { induction l as [|i l IHl]; intros u; cbn [cloop cbind ends_true]; [reflexivity|apply IHl]. }
        apply X.
      * cbn [trt]. right. auto.
Qed.
End Job.
End Graph.
