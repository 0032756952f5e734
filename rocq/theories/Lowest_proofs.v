(** Lemmas about the lowest penalties. *)
From Verif Require Export Disparity_proofs.
Local Open Scope N_scope.

(** *** Loops over pixels and pairs *)

Definition all_pixels (w h : N) : list pixel :=
  flat_map (fun x => map (fun y => {| px := x; py := y |}) (range 0 h)) (range 0 w).

Lemma In_all_pixels w h p : In p (all_pixels w h) <-> px p < w /\ py p < h.
Proof.
  unfold all_pixels. rewrite in_flat_map. split.
  - intros [x [Hx Hp]]. apply in_map_iff in Hp. destruct Hp as [y [<- Hy]].
    apply In_range in Hx, Hy. cbn [px py]. lia.
  - intros [Hx Hy]. exists (px p). split; [apply In_range; lia|].
    apply in_map_iff. exists (py p). split; [destruct p; reflexivity|apply In_range; lia].
Qed.

Lemma NoDup_app_intro {A} (l1 l2 : list A) :
  NoDup l1 -> NoDup l2 -> (forall a, In a l1 -> In a l2 -> False) -> NoDup (l1 ++ l2).
Proof.
  induction l1 as [|a l1 IH]; intros H1 H2 H3; cbn [app]; [exact H2|].
  inversion H1 as [|a' l' Hn Hd]; subst. constructor.
  - rewrite in_app_iff. intros [H|H]; [contradiction|]. apply (H3 a); [left; reflexivity|exact H].
  - apply IH; try assumption. intros b Hb Hb'. apply (H3 b); [right; exact Hb|exact Hb'].
Qed.

Lemma NoDup_flat_map {A B} (f : A -> list B) (l : list A) :
  NoDup l -> (forall a, In a l -> NoDup (f a)) ->
  (forall a a' b, In a l -> In a' l -> In b (f a) -> In b (f a') -> a = a') ->
  NoDup (flat_map f l).
Proof.
  induction l as [|a l IH]; intros Hl Hf Hd; cbn [flat_map]; [constructor|].
  inversion Hl as [|a' l' Hn Hnd]; subst.
  apply NoDup_app_intro.
  - apply Hf. left; reflexivity.
  - apply IH; [exact Hnd| |].
    + intros x Hx; apply Hf; right; exact Hx.
    + intros x x' b Hx Hx'. apply Hd; right; assumption.
  - intros b Hb Hb'. apply in_flat_map in Hb'. destruct Hb' as [a' [Ha' Hb']].
    assert (a = a') by (eapply Hd; [left; reflexivity|right; exact Ha'|exact Hb|exact Hb']).
    subst a'. contradiction.
Qed.

Lemma NoDup_map_inj {A B} (f : A -> B) (l : list A) :
  (forall a a', In a l -> In a' l -> f a = f a' -> a = a') -> NoDup l -> NoDup (map f l).
Proof.
  induction l as [|a l IH]; intros Hi Hn; cbn [map]; [constructor|].
  inversion Hn as [|a' l' Ha Hd]; subst. constructor.
  - intros H. apply in_map_iff in H. destruct H as [a' [E H]].
    apply Hi in E; [subst; contradiction|right; exact H|left; reflexivity].
  - apply IH; [|exact Hd]. intros x x' Hx Hx'. apply Hi; right; assumption.
Qed.

Lemma NoDup_all_pixels w h : NoDup (all_pixels w h).
Proof.
  unfold all_pixels. apply NoDup_flat_map.
  - apply NoDup_range.
  - intros x _. apply NoDup_map_inj; [|apply NoDup_range].
    intros y y' _ _ E. injection E; auto.
  - intros x x' p _ _ H H'. apply in_map_iff in H, H'.
    destruct H as [y [<- _]], H' as [y' [E _]]. injection E; auto.
Qed.

Lemma loop_flat_map {A B C S} (l : list A) (h : A -> list B) (f : A -> B -> C)
  (body : C -> S -> outcome S) s :
  loop (flat_map (fun a => map (f a) (h a)) l) body s
  = loop l (fun a s => loop (h a) (fun b s => body (f a b) s) s) s.
Proof.
  assert (M : forall (a : A) (bs : list B) s, loop (map (f a) bs) body s = loop bs (fun b s => body (f a b) s) s).
  { intros a bs. induction bs as [|b bs IH]; intros s1; cbn [map loop]; [reflexivity|].
    destruct (body (f a b) s1); cbn [bind]; auto. }
  revert s. induction l as [|a l IH]; intros s; cbn [flat_map loop]; [reflexivity|].
  rewrite loop_app, M. destruct (loop (h a) (fun b s0 => body (f a b) s0) s); cbn [bind]; auto.
Qed.

Lemma loop_pixels {S} w h (body : pixel -> S -> outcome S) s :
  loop (range 0 w) (fun x s => loop (range 0 h) (fun y s => body {| px := x; py := y |} s) s) s
  = loop (all_pixels w h) body s.
Proof.
  unfold all_pixels.
  rewrite (loop_flat_map (range 0 w) (fun _ => range 0 h) (fun x y => {| px := x; py := y |})). reflexivity.
Qed.

Section Graph.
Context {T : target}.
Implicit Type g : dgraph T.

Notation Wd g := (width (right g)).
Notation Ht g := (height (right g)).
Notation Lv g := (levels g).

(** *** Minima *)

Definition min_body {A} (f : A -> outcome (F T)) (a : A) (m : F T) : outcome (F T) :=
  v <- f a ;; Ok (fmin v m).

Lemma loop_min_Ok {A} (f : A -> outcome (F T)) (l : list A) m0 :
  (forall a, In a l -> exists v, f a = Ok v) ->
  exists m, loop l (min_body f) m0 = Ok m /\
    (m = m0 \/ exists a, In a l /\ f a = Ok m).
Proof.
  revert m0. induction l as [|a l IH]; intros m0 Hf; cbn [loop].
  - exists m0; auto.
  - destruct (Hf a) as [v E]; [left; reflexivity|]. unfold min_body at 1. rewrite E. cbn [bind].
    destruct (IH (fmin v m0)) as [m [Em Hm]]; [intros; apply Hf; right; assumption|].
    exists m. split; [exact Em|]. destruct Hm as [->|[a' [Ha' E']]].
    + unfold fmin. destruct (fle v m0); [right; exists a; split; [left; reflexivity|exact E]|left; reflexivity].
    + right. exists a'. split; [right; exact Ha'|exact E'].
Qed.

Lemma fmin_spec (HL : laws T) (a b : F T) : is_number a -> is_number b ->
  is_number (fmin a b) /\ fle (fmin a b) a = true /\ fle (fmin a b) b = true.
Proof.
  intros Ha Hb. unfold fmin. destruct (fle a b) eqn:E.
  - repeat split; assumption.
  - destruct (fle_total T HL a b Ha Hb) as [H|H]; [congruence|]. repeat split; assumption.
Qed.

Lemma loop_min (HL : laws T) {A} (f : A -> outcome (F T)) (l : list A) m0 m :
  (forall a v, In a l -> f a = Ok v -> is_number v) -> is_number m0 ->
  loop l (min_body f) m0 = Ok m ->
  is_number m /\ fle m m0 = true /\ (forall a v, In a l -> f a = Ok v -> fle m v = true).
Proof.
  revert m0. induction l as [|a l IH]; intros m0 Hf H0 E; cbn [loop] in E.
  - injection E as <-. repeat split; [exact H0|exact H0|]. intros a v [].
  - unfold min_body at 1 in E. destruct (f a) as [v|] eqn:Ea; cbn [bind] in E; [|discriminate].
    assert (Hv : is_number v) by (apply (Hf a); [left; reflexivity|exact Ea]).
    destruct (fmin_spec HL v m0 Hv H0) as [N1 [L1 L2]].
    destruct (IH (fmin v m0)) as [N2 [L3 L4]]; [intros; eapply Hf; [right; eassumption|eassumption]|exact N1|exact E|].
    split; [exact N2|]. split; [eapply (fle_trans T HL); eassumption|].
    intros a' v' [<-|Ha'] E'.
    + rewrite Ea in E'. injection E' as <-. eapply (fle_trans T HL); eassumption.
    + eapply L4; eassumption.
Qed.

(** *** Pixels *)

Lemma lowest_pixel_Ok g p : wf_graph g -> in_image g p ->
  exists m, calculate_lowest_pixel_penalty g p = Ok m /\
    exists d, match_exists g {| npix := p; disp := d |} /\
      node_penalty g {| npix := p; disp := d |} = Ok m.
Proof.
  intros Hw Hp. unfold calculate_lowest_pixel_penalty.
  pose proof (zero_match g p Hw Hp) as H0.
  destruct (node_penalty_Ok g _ Hw H0) as [m0 E0]. rewrite E0. cbn [bind].
  destruct (loop_min_Ok (fun d => node_penalty g {| npix := p; disp := d |}) (disparities g (px p) 0) m0) as [m [Em Hm]].
  { intros d Hd. apply In_disparities in Hd; [|assumption|assumption]. apply node_penalty_Ok; tauto. }
  exists m. split; [exact Em|]. destruct Hm as [->|[d [Hd E]]].
  - exists 0. auto.
  - exists d. apply In_disparities in Hd; tauto.
Qed.

Lemma lowest_pixel_min (HL : laws T) g p m : wf_graph g -> in_image g p ->
  (forall d v, match_exists g {| npix := p; disp := d |} ->
     node_penalty g {| npix := p; disp := d |} = Ok v -> is_number v) ->
  calculate_lowest_pixel_penalty g p = Ok m ->
  forall d v, match_exists g {| npix := p; disp := d |} ->
     node_penalty g {| npix := p; disp := d |} = Ok v -> fle m v = true.
Proof.
  intros Hw Hp Hn E d v Hd Ev. unfold calculate_lowest_pixel_penalty in E.
  apply bind_Ok in E. destruct E as [m0 [E0 E]].
  assert (N0 : is_number m0) by (eapply Hn; [apply zero_match; assumption|exact E0]).
  destruct (loop_min HL (fun d => node_penalty g {| npix := p; disp := d |}) (disparities g (px p) 0) m0 m) as [_ [_ L]].
  - intros d' v' Hd' E'. apply In_disparities in Hd'; [|assumption|assumption]. eapply Hn; [apply Hd'|exact E'].
  - exact N0.
  - exact E.
  - eapply L; [|exact Ev]. apply In_disparities; try assumption. split; [lia|exact Hd].
Qed.

(** *** Neighborhoods *)

(** The pairs of disparities enumerated for a pair of pixels. *)
Definition pairs_of g (p q : pixel) : list (N * N) :=
  flat_map (fun d => map (pair d) (disparities g (px q) (@initial_disparity T p q d)))
           (disparities g (px p) 0).

Definition pair_edge (p q : pixel) (dd : N * N) : edge :=
  {| enode := {| npix := p; disp := fst dd |}; enbr := {| npix := q; disp := snd dd |} |}.

Lemma initial_eq g p q d : wf_graph g -> d < Lv g ->
  @initial_disparity T p q d = if (d <=? 1) || (px q =? px p) then 0 else d - 1.
Proof.
  intros Hw Hd. pose proof (wf_sizes g Hw) as S. pose proof (sz_w2 g S). pose proof (sz_lw g S).
  unfold initial_disparity. destruct ((d <=? 1) || (px q =? px p)) eqn:E; [reflexivity|].
  apply orb_false_iff in E. destruct E as [E _]. apply N.leb_gt in E. apply usub_small; lia.
Qed.

Lemma In_pairs_of g p q d d' : wf_graph g -> in_image g p -> in_image g q ->
  In (d, d') (pairs_of g p q) <->
  match_exists g {| npix := p; disp := d |} /\ match_exists g {| npix := q; disp := d' |} /\
  (px q = px p \/ d <= d' + 1).
Proof.
  intros Hw Hp Hq. unfold pairs_of. rewrite in_flat_map. split.
  - intros [d1 [H1 H2]]. apply in_map_iff in H2. destruct H2 as [d2 [E H2]].
    injection E as -> ->. apply In_disparities in H1, H2; try assumption.
    destruct H1 as [_ H1], H2 as [H2 H3]. split; [exact H1|split; [exact H3|]].
    rewrite (initial_eq g p q d Hw) in H2 by apply H1.
    destruct (N.leb_spec d 1), (N.eqb_spec (px q) (px p)); cbn [orb] in H2; lia.
  - intros [H1 [H2 H3]]. exists d. split; [apply In_disparities; try assumption; split; [lia|exact H1]|].
    apply in_map_iff. exists d'. split; [reflexivity|].
    apply In_disparities; try assumption. split; [|exact H2].
    rewrite (initial_eq g p q d Hw) by apply H1.
    destruct (N.leb_spec d 1), (N.eqb_spec (px q) (px p)); cbn [orb]; lia.
Qed.

Lemma lowest_nbr_loop g p q :
  calculate_lowest_neighborhood_penalty g p q =
  (m0 <- edge_penalty g (pair_edge p q (0, 0)) ;;
   loop (pairs_of g p q) (min_body (fun dd => edge_penalty g (pair_edge p q dd))) m0).
Proof.
  unfold calculate_lowest_neighborhood_penalty, calculate_lowest_neighborhood_penalty_fast, pairs_of.
  cbn [npix enode enbr]. destruct (edge_penalty g (pair_edge p q (0, 0))) as [m0|s] eqn:E;
  unfold pair_edge in E; cbn [fst snd] in E; rewrite E; cbn [bind]; [|reflexivity].
  rewrite loop_flat_map. reflexivity.
Qed.

Lemma pair_penalty_Ok g p q d d' : wf_graph g -> adjacent p q ->
  match_exists g {| npix := p; disp := d |} -> match_exists g {| npix := q; disp := d' |} ->
  exists v, edge_penalty g (pair_edge p q (d, d')) = Ok v.
Proof.
  intros Hw A [Hp [Hd _]] [Hq [Hd' _]]. unfold pair_edge; cbn [fst snd].
  apply edge_penalty_Ok; assumption.
Qed.

Lemma lowest_nbr_Ok g p q : wf_graph g -> in_image g p -> in_image g q -> adjacent p q ->
  exists m, calculate_lowest_neighborhood_penalty g p q = Ok m /\
    exists d d', match_exists g {| npix := p; disp := d |} /\ match_exists g {| npix := q; disp := d' |} /\
      (px q = px p \/ d <= d' + 1) /\ edge_penalty g (pair_edge p q (d, d')) = Ok m.
Proof.
  intros Hw Hp Hq A. rewrite lowest_nbr_loop.
  pose proof (zero_match g p Hw Hp) as Z1. pose proof (zero_match g q Hw Hq) as Z2.
  destruct (pair_penalty_Ok g p q 0 0 Hw A Z1 Z2) as [m0 E0]. rewrite E0. cbn [bind].
  destruct (loop_min_Ok (fun dd => edge_penalty g (pair_edge p q dd)) (pairs_of g p q) m0) as [m [Em Hm]].
  { intros [d d'] H. apply In_pairs_of in H; try assumption.
    destruct H as [H1 [H2 _]]. apply pair_penalty_Ok; assumption. }
  exists m. split; [exact Em|]. destruct Hm as [->|[[d d'] [Hd E]]].
  - exists 0, 0. split; [exact Z1|split; [exact Z2|split; [lia|exact E0]]].
  - exists d, d'. apply In_pairs_of in Hd; try assumption. tauto.
Qed.

Lemma lowest_nbr_min (HL : laws T) g p q m : wf_graph g -> in_image g p -> in_image g q -> adjacent p q ->
  (forall d d' v, match_exists g {| npix := p; disp := d |} -> match_exists g {| npix := q; disp := d' |} ->
     edge_penalty g (pair_edge p q (d, d')) = Ok v -> is_number v) ->
  calculate_lowest_neighborhood_penalty g p q = Ok m ->
  forall d d' v, match_exists g {| npix := p; disp := d |} -> match_exists g {| npix := q; disp := d' |} ->
    (px q = px p \/ d <= d' + 1) -> edge_penalty g (pair_edge p q (d, d')) = Ok v -> fle m v = true.
Proof.
  intros Hw Hp Hq A Hn E d d' v Hd Hd' Ho Ev. rewrite lowest_nbr_loop in E.
  apply bind_Ok in E. destruct E as [m0 [E0 E]].
  assert (N0 : is_number m0).
  { eapply (Hn 0 0); [apply zero_match; assumption|apply zero_match; assumption|exact E0]. }
  destruct (loop_min HL (fun dd => edge_penalty g (pair_edge p q dd)) (pairs_of g p q) m0 m) as [_ [_ L]].
  - intros [a a'] v' Ha E'. apply In_pairs_of in Ha; try assumption.
    destruct Ha as [Ha [Ha' _]]. eapply Hn; eassumption.
  - exact N0.
  - exact E.
  - eapply (L (d, d')); [|exact Ev]. apply In_pairs_of; try assumption. tauto.
Qed.

(** *** The constructor *)

Lemma slow_eq g p q k : wf_graph g -> in_image g p -> in_image g q -> slot_of k p q ->
  calculate_lowest_neighborhood_penalty_slow g p k = calculate_lowest_neighborhood_penalty g p q.
Proof.
  intros Hw Hp Hq S. unfold calculate_lowest_neighborhood_penalty_slow.
  rewrite (neighbor_by_index_slot g p q k Hw Hp Hq S). reflexivity.
Qed.

Definition nbr_stored g (p : pixel) (k : N) (ns : list (F T)) : Prop :=
  forall q, in_image g q -> slot_of k p q ->
  exists v, calculate_lowest_neighborhood_penalty g p q = Ok v /\
    get ns (neighborhood_index_fast g p k) = Ok v.

Lemma nbr_loop g p (ns : list (F T)) : wf_graph g -> in_image g p ->
  len ns = 4 * (Wd g * Ht g) ->
  exists ns', loop (range 0 NEIGHBORS_COUNT)
      (fun n ns =>
         if negb (neighborhood_exists_fast g p n) then Ok ns else
         w <- calculate_lowest_neighborhood_penalty_slow g p n ;;
         set ns (neighborhood_index_fast g p n) w) ns = Ok ns' /\
    len ns' = 4 * (Wd g * Ht g) /\
    (forall k, k < 4 -> nbr_stored g p k ns') /\
    (forall p' k', in_image g p' -> k' < 4 -> p' <> p ->
       get ns' (neighborhood_index_fast g p' k') = get ns (neighborhood_index_fast g p' k')).
Proof.
  intros Hw Hp Hn.
  destruct (loop_inv (fun (done : list N) (ns' : list (F T)) =>
      len ns' = 4 * (Wd g * Ht g) /\
      (forall k, In k done -> nbr_stored g p k ns') /\
      (forall p' k', in_image g p' -> k' < 4 -> p' <> p ->
         get ns' (neighborhood_index_fast g p' k') = get ns (neighborhood_index_fast g p' k')))
    (range 0 NEIGHBORS_COUNT)
    (fun n ns =>
         if negb (neighborhood_exists_fast g p n) then Ok ns else
         w <- calculate_lowest_neighborhood_penalty_slow g p n ;;
         set ns (neighborhood_index_fast g p n) w) ns) as [ns' [E [L [D R]]]].
  - split; [exact Hn|]. split; [intros k []|]. intros; reflexivity.
  - intros pre k post ns1 Er [L [D R]].
    assert (Hk : k < 4).
    { assert (I : In k (range 0 NEIGHBORS_COUNT)) by (rewrite Er; apply in_or_app; right; left; reflexivity).
      apply In_range in I. unfold NEIGHBORS_COUNT in I. lia. }
    assert (Hnd : ~ In k pre).
    { pose proof (NoDup_range 0 NEIGHBORS_COUNT) as ND. rewrite Er in ND.
      apply NoDup_remove_2 in ND. intros I. apply ND. apply in_or_app; left; exact I. }
    destruct (neighborhood_exists_fast g p k) eqn:Ex; cbn [negb].
    + apply (neighborhood_exists_fast_iff g p k Hw) in Ex. destruct Ex as [q [_ [Hq S]]].
      rewrite (slow_eq g p q k Hw Hp Hq S).
      destruct (lowest_nbr_Ok g p q Hw Hp Hq (slot_adjacent _ _ _ S)) as [m [Em _]]. rewrite Em. cbn [bind].
      destruct (neighborhood_index_small g p k Hw Hp Hk) as [_ B].
      destruct (set ns1 (neighborhood_index_fast g p k) m) as [ns2|] eqn:Es.
      2:{ rewrite set_in_bounds in Es by lia. discriminate. }
      exists ns2. split; [reflexivity|]. apply set_Ok in Es. destruct Es as [_ [L2 G]].
      split; [lia|]. split.
      * intros k0 Hk0. apply in_app_iff in Hk0. intros q0 Hq0 S0.
        destruct Hk0 as [Hk0|[<-|[]]].
        -- destruct (D k0 Hk0 q0 Hq0 S0) as [v [E1 E2]]. exists v. split; [exact E1|].
           rewrite G. destruct (N.eqb_spec (neighborhood_index_fast g p k0) (neighborhood_index_fast g p k)) as [Ei|Ei]; [|exact E2].
           apply neighborhood_index_inj in Ei; try assumption; [|eapply slot_of_lt; eassumption].
           destruct Ei as [_ ->]. contradiction.
        -- rewrite (slot_of_target _ _ _ _ S0 S). exists m. split; [exact Em|].
           rewrite G, N.eqb_refl. reflexivity.
      * intros p' k' Hp' Hk' Hne. rewrite G.
        destruct (N.eqb_spec (neighborhood_index_fast g p' k') (neighborhood_index_fast g p k)) as [Ei|Ei]; [|apply R; assumption].
        apply neighborhood_index_inj in Ei; try assumption. destruct Ei; contradiction.
    + exists ns1. split; [reflexivity|]. split; [exact L|]. split; [|exact R].
      intros k0 Hk0. apply in_app_iff in Hk0. destruct Hk0 as [Hk0|[<-|[]]]; [apply D; exact Hk0|].
      intros q Hq S. exfalso.
      assert (X : neighborhood_exists_fast g p k = true).
      { apply (neighborhood_exists_fast_iff g p k Hw). exists q. auto. }
      congruence.
  - exists ns'. split; [exact E|]. split; [exact L|]. split; [|exact R].
    intros k Hk. apply D. apply In_range. unfold NEIGHBORS_COUNT. lia.
Qed.

Definition pix_stored g (p : pixel) (ps : list (F T)) : Prop :=
  exists v, calculate_lowest_pixel_penalty g p = Ok v /\ get ps (pixel_index T (right g) p) = Ok v.

Lemma make_lowest_spec g : wf_graph g ->
  exists lp, make_lowest g = Ok lp /\ lp_graph lp = g /\
    len (lp_pixels lp) = Wd g * Ht g /\ len (lp_neighborhoods lp) = 4 * (Wd g * Ht g) /\
    (forall p, in_image g p -> pix_stored g p (lp_pixels lp)) /\
    (forall p k, in_image g p -> k < 4 -> nbr_stored g p k (lp_neighborhoods lp)).
Proof.
  intros Hw. pose proof (wf_sizes g Hw) as S. unfold make_lowest.
  pose proof (sz_wh g S). pose proof (sz_4wh g S). pose proof (sz_w g S). pose proof (sz_h g S).
  assert (Hv : 4 * (Wd g * Ht g) <= vector_max_size).
  { pose proof (wf_alloc g Hw). pose proof (sz_l g S).
    assert (Wd g * Ht g * 4 * 1 <= Wd g * Ht g * 4 * Lv g) by (apply N.mul_le_mono_l; lia). lia. }
  assert (P4 : 4 * Ht g <= 4 * (Wd g * Ht g)).
  { assert (1 * Ht g <= Wd g * Ht g) by (apply N.mul_le_mono_r; lia). lia. }
  rewrite (umul_small T (Ht g) (Wd g)) by lia.
  unfold NEIGHBORS_COUNT at 1. rewrite (umul_small T 4 (Ht g)) by lia.
  rewrite (umul_small T (4 * Ht g) (Wd g)) by lia.
  unfold alloc.
  destruct (N.ltb_spec vector_max_size (Ht g * Wd g)); [lia|].
  destruct (N.ltb_spec vector_max_size (4 * Ht g * Wd g)); [lia|]. cbn [bind].
  rewrite (loop_pixels (Wd g) (Ht g) (fun p (st : list (F T) * list (F T)) =>
      v <- calculate_lowest_pixel_penalty g p ;;
      ps' <- set (fst st) (pixel_index T (right g) p) v ;;
      ns' <- loop (range 0 NEIGHBORS_COUNT)
              (fun n ns =>
                 if negb (neighborhood_exists_fast g p n) then Ok ns else
                 w <- calculate_lowest_neighborhood_penalty_slow g p n ;;
                 set ns (neighborhood_index_fast g p n) w) (snd st) ;;
      Ok (ps', ns'))).
  match goal with |- context [loop (all_pixels _ _) ?b ?s] => set (body := b); set (st0 := s) end.
  destruct (loop_inv (fun (done : list pixel) (st : list (F T) * list (F T)) =>
      len (fst st) = Wd g * Ht g /\ len (snd st) = 4 * (Wd g * Ht g) /\
      (forall p, In p done -> pix_stored g p (fst st)) /\
      (forall p k, In p done -> k < 4 -> nbr_stored g p k (snd st)))
    (all_pixels (Wd g) (Ht g)) body st0) as [st [E [L1 [L2 [D1 D2]]]]].
  - unfold st0; cbn [fst snd]. rewrite !len_fill. split; [lia|]. split; [lia|]. split; [intros p []|intros p k []].
  - intros pre p post [ps ns] Er [L1 [L2 [D1 D2]]]. cbn [fst snd] in *.
    assert (Hin : forall x, In x (pre ++ p :: post) -> in_image g x).
    { intros x Hx. rewrite <- Er in Hx. apply In_all_pixels in Hx. exact Hx. }
    assert (Hp : in_image g p) by (apply Hin; apply in_or_app; right; left; reflexivity).
    assert (Hnd : ~ In p pre).
    { pose proof (NoDup_all_pixels (Wd g) (Ht g)) as ND. rewrite Er in ND.
      apply NoDup_remove_2 in ND. intros I. apply ND. apply in_or_app; left; exact I. }
    unfold body. cbn [fst snd].
    destruct (lowest_pixel_Ok g p Hw Hp) as [v [Ev _]]. rewrite Ev. cbn [bind].
    destruct (in_image_inside g p Hw Hp) as [Ip _].
    destruct (pixel_index_small T (right g) p Ip) as [_ B]; [assumption|].
    destruct (set ps (pixel_index T (right g) p) v) as [ps2|] eqn:Es.
    2:{ rewrite set_in_bounds in Es by lia. discriminate. }
    cbn [bind]. apply set_Ok in Es. destruct Es as [_ [L3 G]].
    destruct (nbr_loop g p ns Hw Hp L2) as [ns2 [E2 [L4 [D3 R]]]].
    rewrite E2. cbn [bind]. exists (ps2, ns2). split; [reflexivity|]. cbn [fst snd].
    split; [lia|]. split; [exact L4|]. split.
    + intros p' Hp'. apply in_app_iff in Hp'. destruct Hp' as [Hp'|[<-|[]]].
      * destruct (D1 p' Hp') as [v' [E1' E2']]. exists v'. split; [exact E1'|].
        rewrite G. destruct (N.eqb_spec (pixel_index T (right g) p') (pixel_index T (right g) p)) as [Ei|Ei]; [|exact E2'].
        assert (Hi : in_image g p') by (apply Hin; apply in_or_app; left; exact Hp').
        apply pixel_index_inj in Ei; try assumption.
        subst p'. contradiction.
      * exists v. split; [exact Ev|]. rewrite G, N.eqb_refl. reflexivity.
    + intros p' k Hp' Hk. apply in_app_iff in Hp'. destruct Hp' as [Hp'|[<-|[]]].
      * intros q Hq Sq. destruct (D2 p' k Hp' Hk q Hq Sq) as [v' [E1' E2']]. exists v'. split; [exact E1'|].
        rewrite R; try assumption.
        -- apply Hin. apply in_or_app; left; exact Hp'.
        -- intros ->. contradiction.
      * apply D3. exact Hk.
  - rewrite E. cbn [bind]. eexists. split; [reflexivity|]. cbn [lp_graph lp_pixels lp_neighborhoods].
    split; [reflexivity|]. split; [exact L1|]. split; [exact L2|]. split.
    + intros p Hp. apply D1. apply In_all_pixels. exact Hp.
    + intros p k Hp Hk. apply D2; [|exact Hk]. apply In_all_pixels. exact Hp.
Qed.

(** What the access functions return. *)
Lemma lowest_pixel_value g lp p : wf_graph g -> make_lowest g = Ok lp -> in_image g p ->
  lowest_pixel_penalty lp p = calculate_lowest_pixel_penalty g p.
Proof.
  intros Hw E Hp. destruct (make_lowest_spec g Hw) as [lp' [E' [Eg [_ [_ [D1 _]]]]]].
  rewrite E in E'. injection E' as <-. destruct (D1 p Hp) as [v [E1 E2]].
  unfold lowest_pixel_penalty. rewrite Eg, E1. exact E2.
Qed.

Lemma lowest_nbr_value g lp e : wf_graph g -> make_lowest g = Ok lp ->
  in_image g (npix (enode e)) -> in_image g (npix (enbr e)) -> adjacent (npix (enode e)) (npix (enbr e)) ->
  lowest_neighborhood_penalty lp e = calculate_lowest_neighborhood_penalty g (npix (enode e)) (npix (enbr e)).
Proof.
  intros Hw E Hp Hq A. destruct (make_lowest_spec g Hw) as [lp' [E' [Eg [_ [_ [_ D2]]]]]].
  rewrite E in E'. injection E' as <-.
  apply adjacent_slot in A. destruct A as [k S].
  destruct (D2 _ k Hp (slot_of_lt _ _ _ S) _ Hq S) as [v [E1 E2]].
  unfold lowest_neighborhood_penalty, neighborhood_index_slow. rewrite Eg.
  rewrite (neighbor_index_slot g _ _ k Hw Hp Hq S), E1. exact E2.
Qed.

Lemma make_lowest_wf g lp : wf_graph g -> make_lowest g = Ok lp -> wf_lowest g lp.
Proof.
  intros Hw E. destruct (make_lowest_spec g Hw) as [lp' [E' [Eg [L1 [L2 _]]]]].
  rewrite E in E'. injection E' as <-. constructor; [exact Eg|lia|lia].
Qed.

Lemma lowest_pixel_in g lp p : wf_graph g -> wf_lowest g lp -> in_image g p ->
  exists v, lowest_pixel_penalty lp p = Ok v.
Proof.
  intros Hw [Eg L _] Hp. unfold lowest_pixel_penalty. rewrite Eg. apply get_in_bounds.
  destruct (in_image_inside g p Hw Hp) as [Ip _].
  destruct (pixel_index_small T (right g) p Ip) as [_ B]; [|lia].
  pose proof (wf_sizes g Hw) as S. destruct S; lia.
Qed.

Lemma lowest_nbr_in g lp e : wf_graph g -> wf_lowest g lp ->
  in_image g (npix (enode e)) -> in_image g (npix (enbr e)) -> adjacent (npix (enode e)) (npix (enbr e)) ->
  exists v, lowest_neighborhood_penalty lp e = Ok v.
Proof.
  intros Hw [Eg _ L] Hp Hq A. apply adjacent_slot in A. destruct A as [k S].
  unfold lowest_neighborhood_penalty, neighborhood_index_slow. rewrite Eg.
  rewrite (neighbor_index_slot g _ _ k Hw Hp Hq S). apply get_in_bounds. rewrite L.
  apply neighborhood_index_small; [exact Hw|exact Hp|exact (slot_of_lt _ _ _ S)].
Qed.

Lemma lowest_nbr_fast_value g lp p q : wf_graph g -> make_lowest g = Ok lp ->
  in_image g p -> in_image g q -> adjacent p q ->
  lowest_neighborhood_penalty_fast lp p q = calculate_lowest_neighborhood_penalty g p q.
Proof.
  intros Hw E Hp Hq A.
  pose proof (lowest_nbr_value g lp (pair_edge p q (0, 0)) Hw E Hp Hq A) as H.
  cbn [pair_edge enode enbr npix] in H. rewrite <- H. reflexivity.
Qed.
End Graph.
