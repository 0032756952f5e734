(** Lemmas about index computations and existence checks. *)
From Verif Require Export Base_proofs Spec.
Local Open Scope N_scope.

Lemma mix_bound a b A B : a < A -> b < B -> a * B + b < A * B.
Proof. nia. Qed.

Lemma mix_inj a b a' b' B : b < B -> b' < B -> a * B + b = a' * B + b' -> a = a' /\ b = b'.
Proof.
  intros Hb Hb' E.
  assert (a = a') by nia. subst. split; [reflexivity|lia].
Qed.

Section U.
Context (T : target).
Lemma uadd_small a b : a + b < wmod T -> uadd T a b = a + b.
Proof. intros H. unfold uadd. apply N.mod_small; exact H. Qed.
Lemma umul_small a b : a * b < wmod T -> umul T a b = a * b.
Proof. intros H. unfold umul. apply N.mod_small; exact H. Qed.
Lemma usub_small a b : b <= a -> a < wmod T -> usub T a b = a - b.
Proof.
  intros H H'. unfold usub. replace (a + (wmod T - b)) with ((a - b) + 1 * wmod T) by lia.
  rewrite N.mod_add by lia. apply N.mod_small. lia.
Qed.
Lemma uadd_lt a b : 0 < wmod T -> uadd T a b < wmod T.
Proof. intros H. unfold uadd. apply N.mod_lt. lia. Qed.
End U.

(** ** Images *)

Section Img.
Context (T : target).
Implicit Type img : image.

Lemma pixel_index_small img p :
  inside img p -> width img * height img < wmod T ->
  pixel_index T img p = py p * width img + px p /\
  pixel_index T img p < width img * height img.
Proof.
  intros [Hx Hy] Hs. unfold pixel_index.
  assert (B : py p * width img + px p < height img * width img) by (apply mix_bound; assumption).
  rewrite umul_small by nia. rewrite uadd_small by nia. split; nia.
Qed.

Lemma pixel_index_inj img p q :
  inside img p -> inside img q -> width img * height img < wmod T ->
  pixel_index T img p = pixel_index T img q -> p = q.
Proof.
  intros Hp Hq Hs E.
  rewrite (proj1 (pixel_index_small img p Hp Hs)), (proj1 (pixel_index_small img q Hq Hs)) in E.
  destruct Hp as [Hp1 Hp2], Hq as [Hq1 Hq2].
  apply mix_inj in E; try assumption. destruct p, q; cbn in *. destruct E; congruence.
Qed.

Lemma pixel_index_surj img i :
  width img * height img < wmod T -> i < width img * height img ->
  exists p, inside img p /\ pixel_index T img p = i.
Proof.
  intros Hs Hi. assert (width img <> 0) by nia.
  set (p := {| px := i mod width img; py := i / width img |}).
  assert (Hp : inside img p).
  { split; unfold p; cbn.
    - apply N.mod_lt; assumption.
    - apply N.div_lt_upper_bound; assumption. }
  exists p; split; [exact Hp|].
  rewrite (proj1 (pixel_index_small img p Hp Hs)). unfold p; cbn [px py].
  rewrite (N.div_mod i (width img)) at 3 by assumption. lia.
Qed.
End Img.

(** ** Graphs *)

Section Graph.
Context {T : target}.
Implicit Type g : dgraph T.

Notation W g := (width (right g)).
Notation Ht g := (height (right g)).
Notation L g := (levels g).

Record sizes g : Prop := {
  sz_w : 2 <= W g; sz_h : 1 <= Ht g; sz_l : 2 <= L g; sz_lw : L g <= W g;
  sz_wh : W g * Ht g < wmod T;
  sz_4wh : 4 * (W g * Ht g) < wmod T;
  sz_whl : W g * Ht g * L g < wmod T;
  sz_4whl : W g * Ht g * 4 * L g < wmod T;
  sz_big : 16 <= wmod T;
  sz_w2 : 8 * W g <= wmod T;
  sz_h2 : 8 * Ht g <= wmod T
}.

Lemma wf_sizes g : wf_graph g -> sizes g.
Proof.
  intros [Ww Wh Wl Wlw Wr _ _ _ Wm _].
  assert (2 <= W g) by lia.
  assert (W g * Ht g * 4 * 2 <= W g * Ht g * 4 * L g) by (apply N.mul_le_mono_l; lia).
  assert (W g * 1 <= W g * Ht g) by (apply N.mul_le_mono_l; lia).
  assert (1 * Ht g <= W g * Ht g) by (apply N.mul_le_mono_r; lia).
  assert (W g * Ht g * L g <= W g * Ht g * 4 * L g).
  { apply N.mul_le_mono_r. lia. }
  constructor; try lia.
Qed.

Lemma in_image_inside g p : wf_graph g -> in_image g p -> inside (right g) p /\ inside (left g) p.
Proof. intros Hw [Hx Hy]. unfold inside. rewrite (wf_width g Hw), (wf_height g Hw). auto. Qed.

(** *** reparametrization *)
Lemma reparam_index_small g n k :
  wf_graph g -> in_image g (npix n) -> disp n < L g -> k < 4 ->
  reparametrization_index_fast g n k
    = ((px (npix n) * 4 + k) * L g + disp n) * Ht g + py (npix n) /\
  reparametrization_index_fast g n k < W g * Ht g * 4 * L g.
Proof.
  intros Hw [Hx Hy] Hd Hk. pose proof (wf_sizes g Hw) as S.
  unfold reparametrization_index_fast, NEIGHBORS_COUNT. cbv zeta.
  rewrite (wf_height g Hw).
  set (x := px (npix n)) in *. set (y := py (npix n)) in *. set (d := disp n) in *.
  assert (B1 : x * 4 + k < W g * 4) by (apply mix_bound; assumption).
  assert (B2 : (x * 4 + k) * L g + d < W g * 4 * L g) by (apply mix_bound; assumption).
  assert (B3 : ((x * 4 + k) * L g + d) * Ht g + y < W g * 4 * L g * Ht g) by (apply mix_bound; assumption).
  assert (E : W g * Ht g * 4 * L g = W g * 4 * L g * Ht g) by lia.
  pose proof (sz_4whl g S) as Hs. pose proof (sz_h g S). pose proof (sz_l g S).
  assert (W g * 4 * 1 <= W g * 4 * L g) by (apply N.mul_le_mono_l; lia).
  assert (W g * 4 * L g * 1 <= W g * 4 * L g * Ht g) by (apply N.mul_le_mono_l; lia).
  assert (x * 4 <= x * 4 + k) by lia.
  assert ((x * 4 + k) * L g <= (x * 4 + k) * L g + d) by lia.
  assert (((x * 4 + k) * L g + d) * Ht g <= ((x * 4 + k) * L g + d) * Ht g + y) by lia.
  rewrite (umul_small T 0) by lia.
  replace (0 * W g) with 0 by lia.
  rewrite (uadd_small T 0 x) by lia. rewrite N.add_0_l.
  rewrite (umul_small T x 4) by lia.
  rewrite (uadd_small T (x * 4) k) by lia.
  rewrite (umul_small T (x * 4 + k)) by lia.
  rewrite (uadd_small T ((x * 4 + k) * L g) d) by lia.
  rewrite (umul_small T ((x * 4 + k) * L g + d)) by lia.
  rewrite uadd_small by lia. split; lia.
Qed.

Lemma reparam_index_inj g n k n' k' :
  wf_graph g -> in_image g (npix n) -> disp n < L g -> k < 4 ->
  in_image g (npix n') -> disp n' < L g -> k' < 4 ->
  reparametrization_index_fast g n k = reparametrization_index_fast g n' k' ->
  n = n' /\ k = k'.
Proof.
  intros Hw Hp Hd Hk Hp' Hd' Hk' E.
  rewrite (proj1 (reparam_index_small g n k Hw Hp Hd Hk)) in E.
  rewrite (proj1 (reparam_index_small g n' k' Hw Hp' Hd' Hk')) in E.
  destruct Hp as [Hx Hy], Hp' as [Hx' Hy'].
  apply mix_inj in E; [|assumption|assumption]. destruct E as [E Ey].
  apply mix_inj in E; [|assumption|assumption]. destruct E as [E Ed].
  apply mix_inj in E; [|assumption|assumption]. destruct E as [E Ek].
  destruct n as [[x y] d], n' as [[x' y'] d']; cbn in *. subst. auto.
Qed.

(** *** nodes *)
Lemma node_index_small g n :
  wf_graph g -> in_image g (npix n) -> disp n < L g ->
  node_index g n = (px (npix n) * Ht g + py (npix n)) * L g + disp n /\
  node_index g n < W g * Ht g * L g.
Proof.
  intros Hw [Hx Hy] Hd. pose proof (wf_sizes g Hw) as S. unfold node_index.
  set (x := px (npix n)) in *. set (y := py (npix n)) in *. set (d := disp n) in *.
  assert (B1 : x * Ht g + y < W g * Ht g) by (apply mix_bound; assumption).
  assert (B2 : (x * Ht g + y) * L g + d < W g * Ht g * L g) by (apply mix_bound; assumption).
  pose proof (sz_whl g S). pose proof (sz_wh g S). pose proof (sz_l g S).
  assert ((x * Ht g + y) * L g <= (x * Ht g + y) * L g + d) by lia.
  rewrite (umul_small T (Ht g) x) by lia.
  rewrite (uadd_small T y) by lia.
  replace (y + Ht g * x) with (x * Ht g + y) by lia.
  rewrite (umul_small T (L g)) by lia.
  rewrite uadd_small by lia. split; lia.
Qed.

Lemma node_index_inj g n n' :
  wf_graph g -> in_image g (npix n) -> disp n < L g ->
  in_image g (npix n') -> disp n' < L g ->
  node_index g n = node_index g n' -> n = n'.
Proof.
  intros Hw Hp Hd Hp' Hd' E.
  rewrite (proj1 (node_index_small g n Hw Hp Hd)) in E.
  rewrite (proj1 (node_index_small g n' Hw Hp' Hd')) in E.
  destruct Hp as [Hx Hy], Hp' as [Hx' Hy'].
  apply mix_inj in E; [|assumption|assumption]. destruct E as [E Ed].
  apply mix_inj in E; [|assumption|assumption]. destruct E as [E Ey].
  destruct n as [[x y] d], n' as [[x' y'] d']; cbn in *. subst. auto.
Qed.

Lemma node_index_surj g i :
  wf_graph g -> i < W g * Ht g * L g ->
  exists n, in_image g (npix n) /\ disp n < L g /\ node_index g n = i.
Proof.
  intros Hw Hi. pose proof (wf_sizes g Hw) as S. pose proof (sz_l g S). pose proof (sz_h g S).
  set (n := {| npix := {| px := i / L g / Ht g; py := (i / L g) mod Ht g |}; disp := i mod L g |}).
  assert (Hd : disp n < L g) by (unfold n; cbn; apply N.mod_lt; lia).
  assert (Hq : i / L g < W g * Ht g) by (apply N.div_lt_upper_bound; lia).
  assert (Hp : in_image g (npix n)).
  { split; unfold n; cbn.
    - apply N.div_lt_upper_bound; lia.
    - apply N.mod_lt; lia. }
  exists n; split; [exact Hp|split; [exact Hd|]].
  rewrite (proj1 (node_index_small g n Hw Hp Hd)). unfold n; cbn [npix px py disp].
  pose proof (N.div_mod i (L g)) as E1. pose proof (N.div_mod (i / L g) (Ht g)) as E2.
  rewrite (N.mul_comm (i / L g / Ht g)), <- E2 by lia. rewrite (N.mul_comm (i / L g)). symmetry. apply E1. lia.
Qed.

(** *** neighborhoods *)
Lemma neighborhood_index_small g p k :
  wf_graph g -> in_image g p -> k < 4 ->
  neighborhood_index_fast g p k = (px p * Ht g + py p) * 4 + k /\
  neighborhood_index_fast g p k < 4 * (W g * Ht g).
Proof.
  intros Hw [Hx Hy] Hk. pose proof (wf_sizes g Hw) as S. unfold neighborhood_index_fast, NEIGHBORS_COUNT.
  set (x := px p) in *. set (y := py p) in *.
  assert (B1 : x * Ht g + y < W g * Ht g) by (apply mix_bound; assumption).
  assert (B2 : (x * Ht g + y) * 4 + k < W g * Ht g * 4) by (apply mix_bound; assumption).
  pose proof (sz_4wh g S). pose proof (sz_wh g S).
  rewrite (umul_small T (Ht g) x) by lia.
  rewrite (uadd_small T y) by lia.
  rewrite (umul_small T 4) by lia.
  rewrite uadd_small by lia. split; lia.
Qed.

Lemma neighborhood_index_inj g p k p' k' :
  wf_graph g -> in_image g p -> k < 4 -> in_image g p' -> k' < 4 ->
  neighborhood_index_fast g p k = neighborhood_index_fast g p' k' -> p = p' /\ k = k'.
Proof.
  intros Hw Hp Hk Hp' Hk' E.
  rewrite (proj1 (neighborhood_index_small g p k Hw Hp Hk)) in E.
  rewrite (proj1 (neighborhood_index_small g p' k' Hw Hp' Hk')) in E.
  destruct Hp as [Hx Hy], Hp' as [Hx' Hy'].
  apply mix_inj in E; [|assumption|assumption]. destruct E as [E Ek].
  apply mix_inj in E; [|assumption|assumption]. destruct E as [E Ey].
  destruct p, p'; cbn in *. subst. auto.
Qed.

Lemma neighborhood_index_surj g i :
  wf_graph g -> i < 4 * (W g * Ht g) ->
  exists p k, in_image g p /\ k < 4 /\ neighborhood_index_fast g p k = i.
Proof.
  intros Hw Hi. pose proof (wf_sizes g Hw) as S. pose proof (sz_h g S).
  set (p := {| px := i / 4 / Ht g; py := (i / 4) mod Ht g |}).
  assert (Hd : i mod 4 < 4) by (apply N.mod_lt; lia).
  assert (Hq : i / 4 < W g * Ht g) by (apply N.div_lt_upper_bound; lia).
  assert (Hp : in_image g p).
  { split; unfold p; cbn.
    - apply N.div_lt_upper_bound; lia.
    - apply N.mod_lt; lia. }
  exists p, (i mod 4); split; [exact Hp|split; [exact Hd|]].
  rewrite (proj1 (neighborhood_index_small g p (i mod 4) Hw Hp Hd)). unfold p; cbn [px py].
  pose proof (N.div_mod i 4) as E1. pose proof (N.div_mod (i / 4) (Ht g)) as E2.
  rewrite (N.mul_comm (i / 4 / Ht g)), <- E2 by lia. rewrite (N.mul_comm (i / 4)). symmetry. apply E1. lia.
Qed.

(** *** neighbors *)

Lemma neighbor_index_spec (p q : pixel) :
  px p + 1 < wmod T -> py p + 1 < wmod T -> px q + 1 < wmod T -> py q + 1 < wmod T ->
  (exists k, neighbor_index T p q = k /\ slot_of k p q) \/
  (neighbor_index T p q = 4 /\ ~ adjacent p q).
Proof.
  intros Hpx Hpy Hqx Hqy. unfold neighbor_index, NEIGHBORS_COUNT.
  rewrite !uadd_small by assumption. unfold slot_of, adjacent, horizontal_pair, vertical_pair.
  destruct p as [a b], q as [c d]; cbn [px py] in *.
  destruct (N.eqb_spec a c); destruct (N.eqb_spec b d); cbn [negb andb];
  destruct (N.eqb_spec (a + 1) c); destruct (N.eqb_spec a (c + 1));
  destruct (N.eqb_spec (b + 1) d); destruct (N.eqb_spec b (d + 1));
  try (right; split; [reflexivity|lia]); left; eexists; (split; [reflexivity|lia]).
Qed.

Lemma slot_of_lt k p q : slot_of k p q -> k < 4.
Proof. unfold slot_of; lia. Qed.

Lemma slot_adjacent k p q : slot_of k p q -> adjacent p q.
Proof. unfold slot_of, adjacent; tauto. Qed.

Lemma adjacent_sym p q : adjacent p q -> adjacent q p.
Proof. unfold adjacent; tauto. Qed.

Lemma adjacent_slot p q : adjacent p q -> exists k, slot_of k p q.
Proof.
  unfold adjacent, slot_of. intros [A|[A|[A|A]]];
  [exists 0|exists 1|exists 2|exists 3]; tauto.
Qed.

Lemma slot_of_unique k k' p q : slot_of k p q -> slot_of k' p q -> k = k'.
Proof. unfold slot_of, horizontal_pair, vertical_pair. lia. Qed.

Lemma slot_of_target k p q q' : slot_of k p q -> slot_of k p q' -> q = q'.
Proof.
  unfold slot_of, horizontal_pair, vertical_pair.
  destruct q as [a b], q' as [c d]; cbn [px py]. intros S1 S2. f_equal; lia.
Qed.

(** The facing slot. *)
Definition opposite (k : N) : N := if k =? 0 then 1 else if k =? 1 then 0 else if k =? 2 then 3 else 2.

Lemma slot_of_opposite k p q : slot_of k p q -> slot_of (opposite k) q p.
Proof.
  unfold slot_of, opposite, horizontal_pair, vertical_pair.
  intros [[-> S]|[[-> S]|[[-> S]|[-> S]]]]; cbn; lia.
Qed.

Lemma in_image_small g p : wf_graph g -> in_image g p ->
  px p + 1 < wmod T /\ py p + 1 < wmod T.
Proof.
  intros Hw [Hx Hy]. pose proof (wf_sizes g Hw) as S.
  pose proof (sz_w2 g S). pose proof (sz_h2 g S). pose proof (sz_h g S). pose proof (sz_w g S). lia.
Qed.

Lemma neighbor_index_slot_small p q k :
  px p + 1 < wmod T -> py p + 1 < wmod T -> px q + 1 < wmod T -> py q + 1 < wmod T ->
  slot_of k p q -> neighbor_index T p q = k.
Proof.
  intros Hpx Hpy Hqx Hqy S.
  destruct (neighbor_index_spec p q) as [[k' [E S']]|[E N]]; try assumption.
  - rewrite E. eapply slot_of_unique; eauto.
  - exfalso; apply N. eapply slot_adjacent; eauto.
Qed.

Lemma neighbor_index_slot g p q k :
  wf_graph g -> in_image g p -> in_image g q -> slot_of k p q -> neighbor_index T p q = k.
Proof.
  intros Hw Hp Hq S.
  destruct (in_image_small g p Hw Hp), (in_image_small g q Hw Hq).
  apply neighbor_index_slot_small; assumption.
Qed.

Lemma neighbor_by_index_slot_small p q k :
  px p + 1 < wmod T -> py p + 1 < wmod T -> px q + 1 < wmod T -> py q + 1 < wmod T ->
  slot_of k p q -> neighbor_by_index T p k = q.
Proof.
  intros Hpx Hpy Hqx Hqy S.
  unfold neighbor_by_index. destruct p as [a b], q as [c d].
  unfold slot_of, horizontal_pair, vertical_pair in S. cbn [px py] in *.
  destruct S as [[-> S]|[[-> S]|[[-> S]|[-> S]]]]; cbn [N.eqb Pos.eqb px py];
  f_equal; rewrite ?uadd_small, ?usub_small by lia; lia.
Qed.

Lemma neighbor_by_index_slot g p q k :
  wf_graph g -> in_image g p -> in_image g q -> slot_of k p q -> neighbor_by_index T p k = q.
Proof.
  intros Hw Hp Hq S.
  destruct (in_image_small g p Hw Hp), (in_image_small g q Hw Hq).
  apply neighbor_by_index_slot_small; assumption.
Qed.

Lemma neighborhood_exists_fast_iff g p k :
  wf_graph g ->
  neighborhood_exists_fast g p k = true <->
  exists q, in_image g p /\ in_image g q /\ slot_of k p q.
Proof.
  intros Hw. pose proof (wf_sizes g Hw) as S.
  unfold neighborhood_exists_fast. rewrite (wf_width g Hw), (wf_height g Hw).
  pose proof (sz_w2 g S). pose proof (sz_h2 g S). pose proof (sz_h g S). pose proof (sz_w g S).
  unfold in_image, slot_of, horizontal_pair, vertical_pair.
  destruct (N.leb_spec (Ht g) (py p)) as [Hy|Hy].
  { split; [lia|]. intros [q Q]. lia. }
  destruct (N.leb_spec (W g) (px p)) as [Hx|Hx].
  { split; [lia|]. intros [q Q]. lia. }
  rewrite !uadd_small by lia.
  split.
  - intros Hb.
    assert (Hk : k = 0 \/ k = 1 \/ k = 2 \/ k = 3) by lia.
    destruct Hk as [-> | [-> | [-> | ->]]].
    + exists {| px := px p + 1; py := py p |}; cbn [px py]. lia.
    + exists {| px := px p - 1; py := py p |}; cbn [px py]. lia.
    + exists {| px := px p; py := py p + 1 |}; cbn [px py]. lia.
    + exists {| px := px p; py := py p - 1 |}; cbn [px py]. lia.
  - intros [q Q]. lia.
Qed.

Lemma neighborhood_exists_small_iff g p q :
  wf_graph g -> px q + 1 < wmod T -> py q + 1 < wmod T ->
  neighborhood_exists g p q = true <-> in_image g p /\ in_image g q /\ adjacent p q.
Proof.
  intros Hw Hqx Hqy. unfold neighborhood_exists. rewrite neighborhood_exists_fast_iff by exact Hw.
  split.
  - intros [q' [Hp [Hq' S]]].
    destruct (in_image_small g p Hw Hp).
    destruct (neighbor_index_spec p q) as [[k' [E S']]|[E N]]; try assumption.
    + rewrite E in S. rewrite (slot_of_target _ _ _ _ S' S) in *.
      split; [assumption|split; [assumption|eapply slot_adjacent; eauto]].
    + rewrite E in S. apply slot_of_lt in S. lia.
  - intros [Hp [Hq A]]. exists q. split; [assumption|split; [assumption|]].
    apply adjacent_slot in A. destruct A as [k S].
    rewrite (neighbor_index_slot g p q k Hw Hp Hq S). exact S.
Qed.

(** All coordinates of the index type, also the largest ones. *)
Lemma neighborhood_exists_iff g p q :
  wf_graph g -> px q < wmod T -> py q < wmod T -> px p < wmod T -> py p < wmod T ->
  neighborhood_exists g p q = true <-> in_image g p /\ in_image g q /\ adjacent p q.
Proof.
  intros Hw Hqx Hqy Hpx Hpy. pose proof (wf_sizes g Hw) as S.
  pose proof (sz_w2 g S). pose proof (sz_h2 g S). pose proof (sz_h g S). pose proof (sz_w g S).
  destruct (N.lt_ge_cases (px q + 1) (wmod T)) as [Hx|Hx];
  [destruct (N.lt_ge_cases (py q + 1) (wmod T)) as [Hy|Hy]|].
  - apply neighborhood_exists_small_iff; assumption.
  - (* row of q is the largest value *)
    split; [|intros [Hp [[Hq1 Hq2] A]]; lia].
    intros E. exfalso. unfold neighborhood_exists in E.
    apply (neighborhood_exists_fast_iff g p _ Hw) in E. destruct E as [q' [Hp [Hq' Sl]]].
    destruct Hp as [Hp1 Hp2]. unfold neighbor_index, NEIGHBORS_COUNT in Sl.
    assert (Ey : uadd T (py q) 1 = 0).
    { unfold uadd. replace (py q + 1) with (1 * wmod T) by lia. apply N.mod_mul. lia. }
    rewrite Ey in Sl. rewrite !uadd_small in Sl by lia.
    destruct (N.eqb_spec (px p) (px q)); destruct (N.eqb_spec (py p) (py q)); cbn [negb andb] in Sl; try lia;
    destruct (N.eqb_spec (px p + 1) (px q)); destruct (N.eqb_spec (px p) (px q + 1));
    destruct (N.eqb_spec (py p + 1) (py q)); destruct (N.eqb_spec (py p) 0);
    apply slot_of_lt in Sl as Sl'; unfold slot_of, horizontal_pair, vertical_pair in Sl; destruct Hq'; lia.
  - split; [|intros [Hp [[Hq1 Hq2] A]]; lia].
    intros E. exfalso. unfold neighborhood_exists in E.
    apply (neighborhood_exists_fast_iff g p _ Hw) in E. destruct E as [q' [Hp [Hq' Sl]]].
    destruct Hp as [Hp1 Hp2]. unfold neighbor_index, NEIGHBORS_COUNT in Sl.
    assert (Ex : uadd T (px q) 1 = 0).
    { unfold uadd. replace (px q + 1) with (1 * wmod T) by lia. apply N.mod_mul. lia. }
    rewrite Ex in Sl. rewrite (uadd_small T (px p)), (uadd_small T (py p)) in Sl by lia.
    destruct (N.eqb_spec (px p) (px q)); [lia|]. cbn [negb andb] in Sl.
    destruct (N.eqb_spec (px p + 1) (px q)); [lia|].
    destruct (N.eqb_spec (py p) (py q)) as [Hyy|Hyy]; cbn [negb andb] in Sl;
      [|apply slot_of_lt in Sl; lia].
    destruct (N.eqb_spec (px p) 0);
      [unfold slot_of, horizontal_pair, vertical_pair in Sl; destruct Hq'; lia|].
    assert (U : uadd T (py q) 1 = py q + 1) by (apply uadd_small; lia). rewrite U in Sl.
    destruct (N.eqb_spec (py p + 1) (py q)); [lia|].
    destruct (N.eqb_spec (py p) (py q + 1)); [lia|].
    apply slot_of_lt in Sl. lia.
Qed.

Lemma node_exists_iff g n :
  wf_graph g -> px (npix n) + disp n < wmod T \/ px (npix n) < W g /\ disp n < L g ->
  node_exists g n = true <-> match_exists g n.
Proof.
  intros Hw Hs. pose proof (wf_sizes g Hw) as S. pose proof (sz_w2 g S). pose proof (sz_lw g S).
  pose proof (sz_w g S).
  unfold node_exists, match_exists, in_image. rewrite (wf_width g Hw).
  assert (E : uadd T (px (npix n)) (disp n) = px (npix n) + disp n) by (apply uadd_small; lia).
  rewrite E. lia.
Qed.

Lemma node_exists_in_image g n :
  wf_graph g -> in_image g (npix n) -> disp n < L g ->
  node_exists g n = true <-> match_exists g n.
Proof. intros Hw [Hx _] Hd. apply node_exists_iff; auto. Qed.

Lemma edge_exists_iff g e :
  wf_graph g ->
  px (npix (enode e)) + disp (enode e) < wmod T ->
  px (npix (enbr e)) + disp (enbr e) < wmod T ->
  edge_exists g e = true <-> match_pair g e.
Proof.
  intros Hw Hs1 Hs2. pose proof (wf_sizes g Hw) as S. pose proof (sz_w2 g S). pose proof (sz_lw g S).
  pose proof (sz_w g S). pose proof (sz_h2 g S). pose proof (sz_h g S).
  unfold edge_exists, match_pair.
  destruct (node_exists g (enode e)) eqn:E1; cbn [negb].
  2:{ split; [discriminate|]. intros [A _]. apply (node_exists_iff g (enode e) Hw (or_introl Hs1)) in A. congruence. }
  apply (node_exists_iff g (enode e) Hw (or_introl Hs1)) in E1.
  destruct (node_exists g (enbr e)) eqn:E2; cbn [negb].
  2:{ split; [discriminate|]. intros [_ [A _]]. apply (node_exists_iff g (enbr e) Hw (or_introl Hs2)) in A. congruence. }
  apply (node_exists_iff g (enbr e) Hw (or_introl Hs2)) in E2.
  pose proof E1 as [Hp [Hd Hm]]. pose proof E2 as [Hq [Hd' Hm']].
  destruct (in_image_small g _ Hw Hp) as [? ?], (in_image_small g _ Hw Hq) as [? ?].
  destruct (neighborhood_exists g (npix (enode e)) (npix (enbr e))) eqn:E3; cbn [negb].
  2:{ split; [discriminate|]. intros [_ [_ [A _]]].
      assert (X : neighborhood_exists g (npix (enode e)) (npix (enbr e)) = true)
        by (apply neighborhood_exists_small_iff; auto). congruence. }
  apply neighborhood_exists_small_iff in E3; try assumption. destruct E3 as [_ [_ A]].
  rewrite !uadd_small by lia.
  pose proof A as A0.
  unfold in_order, horizontal_pair. unfold adjacent, horizontal_pair, vertical_pair in A.
  destruct e as [[[x y] d] [[x' y'] d']]; cbn [enode enbr npix px py disp] in *.
  destruct (N.eqb_spec y y'); cbn [negb].
  2:{ split; [|reflexivity]. intros _. refine (conj E1 (conj E2 (conj A0 (conj _ _)))); lia. }
  destruct (N.eqb_spec (x + 1) x'); destruct (N.ltb_spec (d' + 1) d); cbn [andb];
  destruct (N.eqb_spec x (x' + 1)); destruct (N.ltb_spec (d + 1) d'); cbn [andb];
  (split; [try discriminate; intros _; refine (conj E1 (conj E2 (conj A0 (conj _ _)))); lia
          |intros [_ [_ [_ [I1 I2]]]]; try reflexivity; exfalso; cbn [px py] in *; lia]).
Qed.

Lemma match_pair_reverse g e : match_pair g e <-> match_pair g (reverse e).
Proof.
  unfold match_pair, reverse, in_order; cbn [enode enbr].
  split; intros [A [B [C [D E]]]]; exact (conj B (conj A (conj (adjacent_sym _ _ C) (conj E D)))).
Qed.

(** *** Loops over disparities *)
Lemma disparities_eq g x from :
  wf_graph g -> x < W g -> disparities g x from = range from (N.min (L g) (W g - x)).
Proof.
  intros Hw Hx. pose proof (wf_sizes g Hw) as S. pose proof (sz_w2 g S). pose proof (sz_lw g S).
  unfold disparities. apply range_while_below. intros i Hi. rewrite (wf_width g Hw).
  rewrite uadd_small by lia.
  destruct (N.ltb_spec (x + i) (W g)), (N.ltb_spec i (W g - x)); auto; lia.
Qed.

Lemma disparities_right_eq g x :
  wf_graph g -> x < W g -> disparities_right g x = disparities g x 0.
Proof.
  intros Hw Hx. rewrite disparities_eq by assumption.
  pose proof (wf_sizes g Hw) as S. pose proof (sz_w2 g S). pose proof (sz_lw g S).
  unfold disparities_right. apply range_while_below. intros i Hi.
  rewrite uadd_small by lia.
  destruct (N.ltb_spec (x + i) (W g)), (N.ltb_spec i (W g - x)); auto; lia.
Qed.

Lemma In_disparities g p from d :
  wf_graph g -> in_image g p ->
  In d (disparities g (px p) from) <-> from <= d /\ match_exists g {| npix := p; disp := d |}.
Proof.
  intros Hw Hp. rewrite disparities_eq, In_range by (try apply Hp; assumption).
  unfold match_exists; cbn [npix disp]. destruct Hp as [Hx Hy]. unfold in_image. lia.
Qed.

Lemma zero_match g p : wf_graph g -> in_image g p -> match_exists g {| npix := p; disp := 0 |}.
Proof.
  intros Hw Hp. pose proof (wf_levels g Hw). unfold match_exists; cbn [npix disp].
  destruct Hp as [Hx Hy]. unfold in_image. lia.
Qed.
End Graph.

(** ** Statements of the properties *)

Section Props.
Context (T : target).

Lemma pixel_addressing (img : image) :
  width img * height img < wmod T ->
  (forall p, inside img p -> pixel_index T img p = py p * width img + px p) /\
  (forall p, inside img p -> pixel_index T img p < width img * height img) /\
  (forall p q, inside img p -> inside img q ->
     pixel_index T img p = pixel_index T img q -> p = q) /\
  (forall i, i < width img * height img ->
     exists p, inside img p /\ pixel_index T img p = i) /\
  (consistent_image img -> forall p, inside img p ->
     exists v, pixel_value T img p = Ok v /\
       nth_error (data img) (N.to_nat (py p * width img + px p)) = Some v).
Proof.
  intros Hs. repeat apply conj.
  - intros p Hp. apply pixel_index_small; assumption.
  - intros p Hp. apply pixel_index_small; assumption.
  - intros p q Hp Hq. apply pixel_index_inj; assumption.
  - intros i Hi. apply pixel_index_surj; assumption.
  - intros Hc p Hp. destruct (pixel_index_small T img p Hp Hs) as [E B].
    unfold pixel_value. unfold consistent_image in Hc. rewrite <- Hc in B.
    destruct (get_in_bounds _ _ B) as [v Ev]. exists v. split; [exact Ev|].
    apply get_spec in Ev. rewrite <- E. apply Ev.
Qed.

Lemma reparametrization_addressing (g : dgraph T) :
  wf_graph g ->
  (forall n k, in_image g (npix n) -> disp n < levels g -> k < 4 ->
     reparametrization_index_fast g n k < len (reparam g)) /\
  (forall n k n' k', in_image g (npix n) -> disp n < levels g -> k < 4 ->
     in_image g (npix n') -> disp n' < levels g -> k' < 4 ->
     reparametrization_index_fast g n k = reparametrization_index_fast g n' k' ->
     n = n' /\ k = k') /\
  (forall n m k, in_image g (npix n) -> in_image g (npix m) -> slot_of k (npix n) (npix m) ->
     reparametrization_index g n (npix m) = reparametrization_index_fast g n k /\
     reparametrization_index_slow g {| enode := n; enbr := m |}
       = reparametrization_index_fast g n k).
Proof.
  intros Hw. repeat apply conj.
  - intros n k Hp Hd Hk. rewrite (wf_reparam g Hw). apply reparam_index_small; assumption.
  - intros. eapply reparam_index_inj; eassumption.
  - intros n m k Hp Hq S. unfold reparametrization_index, reparametrization_index_slow; cbn [enode enbr].
    rewrite (neighbor_index_slot g _ _ _ Hw Hp Hq S). auto.
Qed.

Lemma neighbor_slots (img : image) (p q : pixel) :
  width img < wmod T -> height img < wmod T -> inside img p -> inside img q ->
  (neighbor_index T p q < 4 <-> adjacent p q) /\
  (adjacent p q -> neighbor_by_index T p (neighbor_index T p q) = q) /\
  (neighbor_index T p q = 0 <-> neighbor_index T q p = 1) /\
  (neighbor_index T p q = 2 <-> neighbor_index T q p = 3).
Proof.
  intros Hw Hh [Px Py] [Qx Qy].
  assert (A : forall a b : pixel, px a + 1 < wmod T -> py a + 1 < wmod T -> px b + 1 < wmod T -> py b + 1 < wmod T ->
    (exists k, neighbor_index T a b = k /\ slot_of k a b) \/
    (neighbor_index T a b = 4 /\ ~ adjacent a b)) by (intros; apply neighbor_index_spec; assumption).
  assert (S1 : px p + 1 < wmod T /\ py p + 1 < wmod T /\ px q + 1 < wmod T /\ py q + 1 < wmod T) by lia.
  destruct S1 as [S1 [S2 [S3 S4]]].
  pose proof (A p q S1 S2 S3 S4) as P. pose proof (A q p S3 S4 S1 S2) as Q. clear A.
  destruct P as [[k [E S]]|[E N]].
  - destruct Q as [[k' [E' S']]|[E' N']].
    2:{ exfalso. apply N', adjacent_sym. eapply slot_adjacent; eauto. }
    pose proof (slot_of_unique _ _ _ _ S' (slot_of_opposite _ _ _ S)) as K.
    pose proof (slot_of_lt _ _ _ S).
    refine (conj _ (conj _ (conj _ _))).
    + split; intros _; [eapply slot_adjacent; eauto|lia].
    + intros _. rewrite E. apply neighbor_by_index_slot_small; assumption.
    + rewrite E, E', K. unfold opposite. destruct (N.eqb_spec k 0), (N.eqb_spec k 1), (N.eqb_spec k 2); lia.
    + rewrite E, E', K. unfold opposite. destruct (N.eqb_spec k 0), (N.eqb_spec k 1), (N.eqb_spec k 2); lia.
  - destruct Q as [[k' [E' S']]|[E' N']].
    { exfalso. apply N, adjacent_sym. eapply slot_adjacent; eauto. }
    rewrite E, E'. refine (conj _ (conj _ (conj _ _))); [split; [lia|tauto]|tauto|lia|lia].
Qed.

Lemma neighborhoods_exist (g : dgraph T) (p q : pixel) :
  wf_graph g -> px p < wmod T -> py p < wmod T -> px q < wmod T -> py q < wmod T ->
  (neighborhood_exists g p q = true <-> in_image g p /\ in_image g q /\ adjacent p q) /\
  neighborhood_exists g q p = neighborhood_exists g p q.
Proof.
  intros Hw H1 H2 H3 H4.
  pose proof (neighborhood_exists_iff g p q Hw H3 H4 H1 H2) as A.
  pose proof (neighborhood_exists_iff g q p Hw H1 H2 H3 H4) as B.
  split; [exact A|].
  assert (C : in_image g p /\ in_image g q /\ adjacent p q <-> in_image g q /\ in_image g p /\ adjacent q p).
  { split; intros [X [Y Z]]; (split; [exact Y|split; [exact X|apply adjacent_sym; exact Z]]). }
  destruct (neighborhood_exists g p q), (neighborhood_exists g q p); try reflexivity.
  - apply B, C, A. reflexivity.
  - symmetry. apply A, C, B. reflexivity.
Qed.

Lemma matches_exist (g : dgraph T) (n : node) :
  wf_graph g ->
  (px (npix n) + disp n < wmod T -> (node_exists g n = true <-> match_exists g n)) /\
  (in_image g (npix n) -> disp n < levels g -> px (npix n) + disp n < wmod T).
Proof.
  intros Hw. split.
  - intros Hs. apply node_exists_iff; auto.
  - intros [Hx _] Hd. pose proof (wf_sizes g Hw) as S. pose proof (sz_w2 g S). pose proof (sz_lw g S). lia.
Qed.

Lemma match_exists_node g n : wf_graph g -> match_exists g n -> @node_exists T g n = true.
Proof.
  intros Hw Hm. apply node_exists_iff; [exact Hw| |exact Hm].
  destruct Hm as [[Hx _] [Hd _]]. right; auto.
Qed.

Lemma edges_exist (g : dgraph T) (e : edge) :
  wf_graph g ->
  px (npix (enode e)) + disp (enode e) < wmod T ->
  px (npix (enbr e)) + disp (enbr e) < wmod T ->
  (edge_exists g e = true <-> match_pair g e) /\
  edge_exists g (reverse e) = edge_exists g e.
Proof.
  intros Hw H1 H2.
  pose proof (edge_exists_iff g e Hw H1 H2) as A.
  assert (B : edge_exists g (reverse e) = true <-> match_pair g (reverse e)).
  { apply edge_exists_iff; assumption. }
  split; [exact A|].
  pose proof (match_pair_reverse g e) as C.
  destruct (edge_exists g e), (edge_exists g (reverse e)); try reflexivity.
  - apply B, C, A. reflexivity.
  - symmetry. apply A, C, B. reflexivity.
Qed.
End Props.
