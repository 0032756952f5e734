(** Runs of the OpenMP build that write the closest matches: lemmas. *)
From Coq Require Import Reals Lia.
From Flocq Require Import Core.Core IEEE754.BinarySingleNaN.
From Verif Require Import Greedy_proofs Omp_main_proofs Omp_run_proofs Special_proofs Stack_proofs Total_proofs Total_builds_proofs Factor_proofs.
From Verif Require Export Factor_spec.
Local Open Scope N_scope.

(** The first of the optimal maps is the cheapest labeling if that is optimal. *)
Lemma first_cheapest {T : target} (g : dgraph T) lp img k : wf_graph g -> greedy_map g lp img -> labeling_ok g k -> cheapest g k ->
  as_good g lp k (map_labeling img) -> forall p, in_image g p -> map_labeling img p = k p.
Proof.
  intros Hw [Bm Gm] Lk Ch Ag. pose proof Bm as [_ [_ [_ [_ [_ [L1 _]]]]]].
  assert (Here : forall p, in_image g p -> (forall q, in_image g q -> earlier q p -> k q = map_labeling img q) -> map_labeling img p = k p).
  { intros p Hp Pre.
    destruct (node_penalty_Ok g _ Hw (proj1 L1 p Hp)) as [c1 E1]. destruct (node_penalty_Ok g _ Hw (proj1 Lk p Hp)) as [c2 E2].
    destruct (Gm k p c1 c2 Lk Ag Hp Pre E1 E2) as [P1 P2].
    destruct (Ch p (map_labeling img p) c2 c1 Hp (proj1 L1 p Hp) E2 E1) as [P3 P4]. specialize (P2 P3). specialize (P4 P1). lia. }
  assert (S : forall x y p, px p < x \/ (px p = x /\ py p < y) -> in_image g p -> map_labeling img p = k p).
  { intros x. induction x as [|x IHx] using N.peano_ind; intros y; induction y as [|y IHy] using N.peano_ind; intros p Hlt Hp.
    - lia.
    - destruct (N.eq_dec (py p) y) as [Ey|Ey]; [|apply IHy; [lia|exact Hp]].
      apply Here; [exact Hp|]. intros q Hq [X|[X Y]]; symmetry; apply IHy; try exact Hq; lia.
    - apply (IHx (py p + 1)); [lia|exact Hp].
    - destruct (N.eq_dec (px p) (N.succ x)) as [Ex|Ex]; [|apply IHy; [lia|exact Hp]].
      destruct (N.eq_dec (py p) y) as [Ey|Ey]; [|apply IHy; [lia|exact Hp]].
      apply Here; [exact Hp|]. intros q Hq [X|[X Y]]; symmetry; apply IHy; try exact Hq; lia. }
  intros p Hp. apply (S (px p) (py p + 1)); [lia|exact Hp].
Qed.

Lemma largest {A V} (val : A -> V -> Z -> Prop) l x0 : (forall x, In x l -> exists v z, val x v z) -> In x0 l ->
  exists x v z, In x l /\ val x v z /\ forall y, In y l -> exists v' z', val y v' z' /\ (z' <= z)%Z.
Proof.
  revert x0. induction l as [|x l IH]; intros x0 H Hi; [destruct Hi|].
  destruct (H x (or_introl eq_refl)) as [v [z V0]]. destruct l as [|y l].
  { exists x, v, z. split; [left; reflexivity|]. split; [exact V0|]. intros y [<-|[]]. exists v, z. split; [exact V0|lia]. }
  destruct (IH y (fun u Hu => H u (or_intror Hu)) (or_introl eq_refl)) as [x1 [v1 [z1 [I1 [V1 M1]]]]].
  destruct (Z_le_gt_dec z z1) as [L|L].
  - exists x1, v1, z1. split; [right; exact I1|]. split; [exact V1|]. intros u [<-|Hu]; [exists v, z; auto|apply M1; exact Hu].
  - exists x, v, z. split; [left; reflexivity|]. split; [exact V0|]. intros u [<-|Hu]; [exists v, z; split; [exact V0|lia]|].
    destruct (M1 u Hu) as [v' [z' [V' L']]]. exists v', z'. split; [exact V'|lia].
Qed.

Section Ieee.
Context (prec emax : Z) (Hp : Prec_gt_0 prec) (He : Prec_lt_emax prec emax) (w : N) (conv : N -> Z).
Notation B := (ieee prec emax Hp He w conv).
Notation P := (2 ^ prec)%Z.
Hypothesis Hconv : forall n, (Z.of_N n <= P)%Z -> conv n = Z.of_N n.

(** The least bound of a labeling. *)
Lemma least_bound (g : dgraph B) lp c s j : wf_graph g -> zero_reparam g -> is_int (cleanness g) c -> is_int (smoothness g) s ->
  small_penalties P (left g) (right g) (levels g) c s -> make_lowest g = Ok lp -> labeling_ok g j ->
  exists (t : F B) z, is_int t z /\ nodes_within g lp t j /\ edges_within g lp t j /\
    forall b, nodes_within g lp b j -> edges_within g lp b j -> fle t b = true.
Proof.
  intros Hw Hz Ic Is Sm Hl Hj. destruct Sm as [m [Hm [Bc [Bs [B1 [B2 [B3 B4]]]]]]].
  set (ps := all_pixels (width (right g)) (height (right g))).
  set (es := some_pairs (right g)).
  set (items := map inl ps ++ map inr (es ++ map (fun e => (snd e, fst e)) es) : list (pixel + pixel * pixel)).
  set (val := fun (x : pixel + pixel * pixel) (v : F B) z => match x with
    | inl p => node_excess g lp (label_node j p) v /\ is_int v z
    | inr (p, q) => edge_excess g lp (label_edge j p q) v /\ is_int v z end).
  assert (Ip : forall p, In (inl p) items <-> in_image g p).
  { intros p. unfold items. rewrite in_app_iff, !in_map_iff. split.
    - intros [[x [E H]]|[x [E _]]]; [|discriminate E]. injection E as ->. apply In_all_pixels in H. exact H.
    - intros H. left. exists p. split; [reflexivity|]. apply In_all_pixels. exact H. }
  assert (Ie : forall p q, In (inr (p, q)) items <-> in_image g p /\ in_image g q /\ adjacent p q).
  { intros p q. unfold items. rewrite in_app_iff, !in_map_iff. pose proof (proj2 (some_pairs_in (right g))) as Q. fold es in Q. split.
    - intros [[x [E _]]|[x [E H]]]; [discriminate E|]. injection E as ->. apply in_app_iff in H. destruct H as [H|H].
      + apply Q in H. unfold adjacent. unfold in_image, inside in *. tauto.
      + apply in_map_iff in H. destruct H as [[u v] [E H]]. injection E as <- <-. apply Q in H. unfold adjacent. unfold in_image, inside in *. tauto.
    - intros [H1 [H2 A]]. right. exists (p, q). split; [reflexivity|]. apply in_app_iff.
      assert (C : (horizontal_pair p q \/ vertical_pair p q) \/ (horizontal_pair q p \/ vertical_pair q p)) by (unfold adjacent in A; tauto).
      destruct C as [C|C]; [left; apply Q; auto|]. right. apply in_map_iff. exists (q, p). split; [reflexivity|]. apply Q. auto. }
  assert (Ev : forall x, In x items -> exists v z, val x v z).
  { intros [p|[p q]] H.
    - apply Ip in H. pose proof (proj1 Hj p H) as M.
      edestruct (exact_node_excess prec emax Hp He w conv Hconv g lp) as [v [z [_ [X [I _]]]]]; try eassumption; try lia.
      exists v, (node_cost (left g) (right g) c (label_node j p) - z)%Z. split; assumption.
    - apply Ie in H. destruct H as [H1 [H2 A]].
      edestruct (exact_edge_excess prec emax Hp He w conv Hconv g lp) with (n := label_node j p) (n' := label_node j q) as [v [X I]];
        try eassumption; try lia; [apply (proj1 Hj p H1)|apply (proj1 Hj q H2)|].
      exists v. eexists. split; [exact X|exact I]. }
  assert (Hin : In (inl {| px := 0; py := 0 |}) items).
  { apply Ip. pose proof (wf_levels g Hw). pose proof (wf_levels_width g Hw). pose proof (wf_rows g Hw). split; cbn [px py]; lia. }
  destruct (largest val items _ Ev Hin) as [x [t [z [Hx [Vx Mx]]]]].
  assert (It : is_int t z) by (destruct x as [p|[p q]]; apply Vx).
  exists t, z. split; [exact It|]. split; [|split].
  - intros p Hi. destruct (Mx _ (proj2 (Ip p) Hi)) as [v [z' [[X I] L]]].
    apply (node_within_excess g lp t _ v X). apply (int_le prec emax Hp He w conv _ _ _ _ I It). exact L.
  - intros p q Hi Hq A. destruct (Mx _ (proj2 (Ie p q) (conj Hi (conj Hq A)))) as [v [z' [[X I] L]]].
    apply (edge_within_excess g lp t _ v X). apply (int_le prec emax Hp He w conv _ _ _ _ I It). exact L.
  - intros b Nb Eb. destruct x as [p|[p q]].
    + apply (node_within_excess g lp b _ t (proj1 Vx)). apply Nb. apply Ip. exact Hx.
    + apply Ie in Hx. destruct Hx as [H1 [H2 A]]. apply (edge_within_excess g lp b _ t (proj1 Vx)). apply Eb; assumption.
Qed.

Lemma first_closest l r lev c s (g : dgraph B) lp img k : make_graph l r lev (@of_u B c) (of_u s) = Ok g -> make_lowest g = Ok lp ->
  consistent_image l -> consistent_image r -> (width l * height l * 4 * lev < w)%N ->
  small_penalties P l r lev (Z.of_N c) (Z.of_N s) -> ordered_labeling r lev k -> cheapest_costs l r lev (Z.of_N c) k ->
  (forall k' b, ordered_labeling r lev k' -> within_bound l r lev (Z.of_N c) (Z.of_N s) b k' ->
     within_bound l r lev (Z.of_N c) (Z.of_N s) b k) ->
  greedy_map g lp img -> forall p, inside r p -> map_labeling img p = k p.
Proof.
  intros Eg El Cl Cr Fit Sm K Cc Un Gr.
  destruct (small_graph prec emax Hp He w conv Hconv l r lev c s g Eg Cl Cr Fit Sm) as [El' [Er [Ev [Hw [Hz [Ic Is]]]]]].
  assert (Sm' : small_penalties P (left g) (right g) (levels g) (Z.of_N c) (Z.of_N s)) by (rewrite El', Er, Ev; exact Sm).
  destruct (small_formulas prec emax Hp He w conv Hconv g _ _ Hw Hz Ic Is Sm') as [Fn _].
  assert (Lk : labeling_ok g k) by (apply ordered_spec; rewrite Er, Ev; exact K).
  assert (Lm : labeling_ok g (map_labeling img)) by apply Gr.
  assert (Ch : cheapest g k).
  { intros p d u u' Hi Mm Eu Eu'. destruct (Fn _ (proj1 Lk p Hi)) as [x [Ex I]]. destruct (Fn _ Mm) as [x' [Ex' I']].
    assert (x = u) by congruence. assert (x' = u') by congruence. subst x x'.
    rewrite (int_le _ _ _ _ _ _ _ _ _ _ I I'), (int_le _ _ _ _ _ _ _ _ _ _ I' I).
    rewrite El', Er in *. apply Cc; [rewrite <- Er; exact Hi|]. rewrite <- Er, <- Ev. exact Mm. }
  pose proof (ieee_laws prec emax Hp He w conv) as HL.
  assert (Ag : as_good g lp k (map_labeling img)).
  { intros b Nb Eb.
    destruct (least_bound g lp _ _ (map_labeling img) Hw Hz Ic Is Sm' El Lm) as [t0 [z [It [Nt [Et Lt]]]]]. specialize (Lt b Nb Eb).
    destruct Sm' as [m [Hm [Bc [Bs [B1 [B2 [B3 B4]]]]]]].
    assert (Q : forall j, labeling_ok g j ->
      nodes_within g lp t0 j /\ edges_within g lp t0 j <-> within_bound (left g) (right g) (levels g) (Z.of_N c) (Z.of_N s) z j).
    { intros j Hj. eapply (exact_within prec emax Hp He w conv Hconv g lp); try eassumption; lia. }
    assert (Wk : nodes_within g lp t0 k /\ edges_within g lp t0 k).
    { apply (Q k Lk). rewrite El', Er, Ev. apply (Un (map_labeling img)).
      - rewrite <- Er, <- Ev. apply ordered_spec. exact Lm.
      - rewrite <- El', <- Er, <- Ev. apply (Q _ Lm). split; assumption. }
    destruct Wk as [Wn We]. split; [exact (nodes_within_mono HL g lp t0 b k Lt Wn)|].
    intros p q Hi Hq Ad. destruct (We p q Hi Hq Ad) as [x [y [X [Y Z]]]]. exists x, y. split; [exact X|]. split; [exact Y|].
    eapply (fle_trans B HL); eassumption. }
  intros p Hi. apply (first_cheapest g lp img k Hw Gr Lk Ch Ag). unfold in_image. rewrite Er. exact Hi.
Qed.
End Ieee.

Lemma closest_omp v srt w o lpath rpath out e f : sorts srt -> usable_files w -> orderly_team v -> all_paths o lpath rpath out -> technology_ok o ->
  main_omp v srt w (Parsed o) (Ok e) -> written_file e = Some f ->
  exists l r lev c s img txt, file_holds w lpath l /\ file_holds w rpath r /\
    option_number (width l) (o_levels o) lev /\ option_number 1 (o_cleanness o) c /\ option_number 1 (o_smoothness o) s /\
    write_image [] (Some img) = Ok txt /\ f = (out, txt) /\
    (small_penalties (2 ^ 53) l r lev (Z.of_N c) (Z.of_N s) -> 0 < c ->
     forall k, ordered_labeling r lev k -> closest l r lev k ->
       unbeaten lev {| p_left := l; p_right := r; p_cleanness := c; p_smoothness := s |} k ->
       forall p, inside r p -> map_labeling img p = k p).
Proof.
  intros Hs U O1 A Ht M F.
  destruct (omp_ends v srt w o lpath rpath out _ Hs U (orderly_ok v O1) A Ht M) as [[y [E _]]|[img [txt [D [W E]]]]];
    [injection E as ->; discriminate F|].
  destruct D as [l [r [lev [c [s [g [lp [t [Hl [Hr [Hlev [Hc [Hsm [Eg [El [_ X]]]]]]]]]]]]]]]].
  destruct X as [X|[X|[[X _]|[img' [X [_ Gr]]]]]]; try discriminate X. injection X as <-. specialize (Gr O1).
  exists l, r, lev, c, s, img, txt. refine (conj Hl (conj Hr (conj Hlev (conj Hc (conj Hsm (conj W (conj _ _))))))).
  { injection E as ->. cbn [ends written_file] in F. destruct (writable w out); [injection F as <-; reflexivity|discriminate F]. }
  intros Sm Pc k K C Un.
  pose proof (held_usable _ _ _ U Hl) as [_ Sz]. pose proof (problem_fits _ _ _ _ _ _ Eg Sz) as Fit.
  apply (first_closest 53 1024 hp53 he53 (2 ^ 64)%N Z.of_N (fun n _ => eq_refl) l r lev c s g lp img k Eg El
           (held_consistent _ _ _ Hl) (held_consistent _ _ _ Hr) Fit Sm K (closest_costs l r lev (Z.of_N c) k ltac:(lia) K C) Un Gr).
Qed.
