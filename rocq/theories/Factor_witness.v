(** Problems whose maps have energies that are many times the lowest one. *)
From Coq Require Import Reals Lia ZArith.
From Verif Require Import Base_proofs Forward_proofs Lowest_proofs Scale_proofs Greedy_proofs Special_proofs Total_proofs Factor_proofs.
Local Open Scope N_scope.

(** The second pixel is [m], the other ones with odd numbers are 1, the rest is 0. *)
Definition wave (m x : N) : N := if x =? 1 then m else x mod 2.
Definition wave_image (m : N) : image :=
  {| width := 2 * m + 1; height := 1; max_value := m; data := map (wave m) (range 0 (2 * m + 1)) |}.
Definition dark_image (m : N) : image :=
  {| width := 2 * m + 1; height := 1; max_value := m; data := map (fun _ => 0) (range 0 (2 * m + 1)) |}.
Definition waves (m : N) : stereo :=
  {| p_left := wave_image m; p_right := dark_image m; p_cleanness := 1; p_smoothness := m * m |}.
Definition zigzag (p : pixel) : N := px p mod 2.

Lemma nth_range (f : N -> N) w x : x < w -> nth (N.to_nat x) (map f (range 0 w)) 0 = f x.
Proof.
  intros H. pose proof (get_range 0 w x) as G. rewrite N.sub_0_r in G. specialize (G H).
  assert (L : x < len (range 0 w)) by (rewrite Base_proofs.len_range; lia).
  rewrite (get_nth _ x 0 L) in G. injection G as G. rewrite N.add_0_l in G.
  rewrite (nth_indep _ 0 (f 0)) by (rewrite map_length; unfold len in L; lia). rewrite map_nth, G. reflexivity.
Qed.
Lemma wave_at m p : py p = 0 -> px p < 2 * m + 1 -> brightness (wave_image m) p = Z.of_N (wave m (px p)).
Proof.
  intros Hy Hx. unfold brightness. rewrite Hy, N.mul_0_l, N.add_0_l. f_equal. apply (nth_range (wave m) (2 * m + 1)). exact Hx.
Qed.
Lemma dark_at m p : py p = 0 -> px p < 2 * m + 1 -> brightness (dark_image m) p = 0%Z.
Proof.
  intros Hy Hx. unfold brightness. rewrite Hy, N.mul_0_l, N.add_0_l. change 0%Z with (Z.of_N 0). f_equal.
  apply (nth_range (fun _ => 0) (2 * m + 1)). exact Hx.
Qed.
Lemma wave_even m x : x mod 2 = 0 -> wave m x = 0.
Proof. intros H. unfold wave. destruct (N.eqb_spec x 1) as [->|E]; [discriminate H|exact H]. Qed.
Lemma wave_odd m x : 1 <= m -> x mod 2 = 1 -> 1 <= wave m x.
Proof. intros Hm H. unfold wave. destruct (N.eqb_spec x 1) as [->|E]; lia. Qed.
Lemma two_kinds x : x mod 2 = 0 \/ x mod 2 = 1.
Proof. pose proof (N.mod_upper_bound x 2). lia. Qed.

Lemma row_pixels w : all_pixels w 1 = map (fun x => {| px := x; py := 0 |}) (range 0 w).
Proof. unfold all_pixels. change (range 0 1) with [0]. induction (range 0 w) as [|x l IH]; [reflexivity|]. cbn [flat_map map app]. f_equal; exact IH. Qed.
Lemma zsum_between {A} (f : A -> Z) (u v : Z) l : (forall x, In x l -> (u <= f x <= v)%Z) ->
  (u * Z.of_nat (length l) <= zsum f l <= v * Z.of_nat (length l))%Z.
Proof.
  induction l as [|x l IH]; intros H; cbn [zsum length]; [lia|].
  pose proof (H x (or_introl eq_refl)). assert (I : forall y, In y l -> (u <= f y <= v)%Z) by (intros y Hy; apply H; right; exact Hy).
  specialize (IH I). lia.
Qed.

Section Waves.
Context (m : N) (Hm : 1 <= m <= 2 ^ 25).
Notation a := (waves m).
Notation w := (2 * m + 1).

Lemma waves_cost n : is_match (p_right a) 2 n -> node_cost (p_left a) (p_right a) (Z.of_N (p_cleanness a)) n =
  (Z.of_N (wave m (px (npix n) + disp n)) ^ 2)%Z.
Proof.
  intros [[Hx Hy] [_ Hd]]. cbn [waves p_left p_right p_cleanness] in *. cbn [dark_image width height] in Hx, Hy, Hd. unfold node_cost.
  rewrite dark_at, wave_at; cbn [px py]; try lia.
Qed.

Lemma zigzag_match p : inside (p_right a) p -> is_match (p_right a) 2 (label_node zigzag p).
Proof.
  intros [Hx Hy]. cbn [waves p_right dark_image width height] in Hx, Hy. split; [split; assumption|].
  unfold label_node, zigzag. cbn [npix disp waves p_right dark_image width].
  pose proof (N.div_mod (px p) 2). pose proof (two_kinds (px p)). split; lia.
Qed.
Lemma zigzag_even p : (px p + zigzag p) mod 2 = 0.
Proof.
  unfold zigzag. rewrite N.add_mod by lia. destruct (two_kinds (px p)) as [E|E]; rewrite E; reflexivity.
Qed.
Lemma zigzag_ordered : ordered_labeling (p_right a) 2 zigzag.
Proof.
  split; [apply zigzag_match|]. intros p q _ _ _.
  assert (X : forall p q, horizontal_pair p q -> px p + zigzag p <= px q + zigzag q).
  { intros p' q' [E _]. unfold zigzag. pose proof (N.mod_upper_bound (px p') 2). lia. }
  split; intros H; cbn [label_node npix disp] in *; apply X; exact H.
Qed.
Lemma zigzag_closest : closest (p_left a) (p_right a) 2 zigzag.
Proof.
  intros p d Hi Hd Hx. pose proof (zigzag_match p Hi) as [_ [_ Hz]].
  cbn [waves p_left p_right dark_image width label_node npix disp] in *. destruct Hi as [Hix Hiy]. cbn [waves p_right dark_image width height] in Hix, Hiy.
  unfold mismatch. rewrite dark_at by lia. rewrite !wave_at by (cbn [px py]; lia). cbn [px].
  rewrite (wave_even m _ (zigzag_even p)). split; [lia|]. intros E.
  destruct (two_kinds (px p + d)) as [K|K].
  - unfold zigzag. assert (C : d = 0 \/ d = 1) by lia. destruct C as [-> | ->].
    + rewrite N.add_0_r in K. rewrite K. lia.
    + pose proof (two_kinds (px p)). lia.
  - pose proof (wave_odd m _ (proj1 Hm) K). lia.
Qed.

Lemma waves_least k b : ordered_labeling (p_right a) 2 k ->
  within_bound (p_left a) (p_right a) 2 (Z.of_N (p_cleanness a)) (Z.of_N (p_smoothness a)) b k -> (Z.of_N (m * m) <= b)%Z.
Proof.
  intros [K _] [N E].
  set (p := {| px := 0; py := 0 |}). set (q := {| px := 1; py := 0 |}).
  assert (Ip : inside (p_right a) p) by (split; cbn; lia). assert (Iq : inside (p_right a) q) by (split; cbn; lia).
  assert (L : forall z d, inside (p_right a) z -> px z + d < w -> d < 2 -> (px z + d) mod 2 = 0 ->
    lowest_cost (p_left a) (p_right a) 2 (Z.of_N (p_cleanness a)) z 0).
  { intros z d Hz Hx Hd He. split.
    - exists {| npix := z; disp := d |}. split; [reflexivity|].
      assert (M : is_match (p_right a) 2 {| npix := z; disp := d |}) by (split; [exact Hz|split; assumption]).
      split; [exact M|]. rewrite (waves_cost _ M). cbn [npix disp]. rewrite (wave_even m _ He). reflexivity.
    - intros n _ M. rewrite (waves_cost _ M). rewrite Z.pow_2_r. apply Z.square_nonneg. }
  pose proof (L p 0 Ip ltac:(cbn; lia) ltac:(lia) eq_refl) as Lp.
  pose proof (L q 1 Iq ltac:(cbn; lia) ltac:(lia) eq_refl) as Lq.
  specialize (E p q Ip Iq). assert (A : adjacent p q) by (left; split; reflexivity). specialize (E A).
  apply (N q 0%Z Iq) in Lq. apply (N p 0%Z Ip) in Lp.
  pose proof (K p Ip) as Mp. pose proof (K q Iq) as Mq.
  rewrite (waves_cost _ Mp) in Lp. rewrite (waves_cost _ Mq) in Lq.
  destruct Mp as [_ [Kp _]]. destruct Mq as [_ [Kq _]]. unfold label_node in *. cbn [disp npix px p q] in Kp, Kq, Lp, Lq.
  assert (Cp : k p = 0 \/ k p = 1) by lia. assert (Cq : k q = 0 \/ k q = 1) by lia.
  assert (W1 : wave m 1 = m) by reflexivity.
  unfold edge_cost in E. cbn [waves p_smoothness] in E.
  destruct Cq as [Cq|Cq]; rewrite Cq in *.
  - change (1 + 0) with 1 in Lq. rewrite W1, Z.pow_2_r in Lq. lia.
  - destruct Cp as [Cp|Cp]; rewrite Cp in *.
    + change ((Z.of_N 0 - Z.of_N 1) ^ 2)%Z with 1%Z in E. lia.
    + change (0 + 1) with 1 in Lp. rewrite W1, Z.pow_2_r in Lp. lia.
Qed.
Lemma zigzag_within : within_bound (p_left a) (p_right a) 2 (Z.of_N (p_cleanness a)) (Z.of_N (p_smoothness a)) (Z.of_N (m * m)) zigzag.
Proof.
  split.
  - intros p z Hi [[n [_ [M <-]]] _]. rewrite (waves_cost _ (zigzag_match p Hi)), (waves_cost _ M).
    cbn [label_node npix disp]. rewrite (wave_even m _ (zigzag_even p)).
    rewrite !Z.pow_2_r. pose proof (Z.square_nonneg (Z.of_N (wave m (px (npix n) + disp n)))). lia.
  - intros p q _ _ _. unfold edge_cost, zigzag. cbn [waves p_smoothness].
    destruct (two_kinds (px p)) as [-> | ->], (two_kinds (px q)) as [-> | ->]; rewrite Z.pow_2_r; cbn; lia.
Qed.
Lemma zigzag_unbeaten : unbeaten 2 a zigzag.
Proof.
  intros k b Hk Wk. pose proof (waves_least k b Hk Wk) as L. destruct zigzag_within as [B1 B2]. split.
  - intros p z Hp X. specialize (B1 p z Hp X). lia.
  - intros p q Hp Hq A. specialize (B2 p q Hp Hq A). lia.
Qed.

Lemma wave_small x : wave m x <= m.
Proof. unfold wave. destruct (N.eqb_spec x 1); [lia|]. pose proof (N.mod_upper_bound x 2). lia. Qed.
Lemma waves_small : small_problem (2 ^ 53) 2 a.
Proof.
  assert (C : forall f : N -> N, len (map f (range 0 w)) = w * 1).
  { intros f. unfold len. rewrite map_length. fold (len (range 0 w)). rewrite Base_proofs.len_range. lia. }
  split; [apply C|]. split; [apply C|]. cbn [waves p_left p_right p_cleanness p_smoothness wave_image width height].
  split; [lia|]. exists (Z.of_N m). split.
  - intros v [H|H]; cbn [wave_image dark_image data] in H; apply in_map_iff in H; destruct H as [x [<- _]]; [|lia].
    pose proof (wave_small x). lia.
  - rewrite !Z.pow_2_r. nia.
Qed.
Lemma waves_accepted : accepted 2 a.
Proof.
  apply good_accepted; [exact waves_small|cbn; lia|cbn [waves p_left wave_image width height]; unfold vector_max_size; lia|].
  cbn [waves p_left p_right p_cleanness p_smoothness].
  assert (V : forall f, (forall x, f x <= m) -> valid_image {| width := w; height := 1; max_value := m; data := map f (range 0 w) |}).
  { intros f Hf. split; [cbn; lia|]. split; [cbn; lia|]. split; [cbn; lia|]. intros v H. apply in_map_iff in H. destruct H as [x [<- _]]. apply Hf. }
  split; [apply V; apply wave_small|]. split; [apply V; intros; lia|]. cbn [wave_image dark_image width height max_value].
  repeat split; try lia.
Qed.

Lemma zigzag_map srt : sorts srt -> exists img, solution_of srt 2 a = Ok img /\
  forall p, inside (p_right a) p -> map_labeling img p = zigzag p.
Proof.
  intros Hs. destruct (closest_row srt 2 a zigzag Hs waves_accepted waves_small) as [img [E [_ [_ [_ [_ M]]]]]];
    [reflexivity|exact zigzag_ordered|exact zigzag_closest|exact zigzag_unbeaten|reflexivity|].
  exists img. split; assumption.
Qed.

(** *** The energies *)

Lemma zero_fits4 : ordered_labeling (p_right a) 2 zero_labeling.
Proof.
  split.
  - intros p [Hx Hy]. unfold is_match, inside, zero_labeling, label_node. cbn [npix disp]. lia.
  - intros p q _ _ _. unfold in_order, zero_labeling, label_node, horizontal_pair. cbn [npix disp]. lia.
Qed.
Lemma zero_inside x : x < w -> inside (p_right a) {| px := x; py := 0 |}.
Proof. intros H. split; cbn [px py waves p_right dark_image width height]; lia. Qed.
Lemma zero_energy e : has_energy a zero_labeling e -> (0 < e <= Z.of_N (m * m) + 2 * Z.of_N m)%Z.
Proof.
  intros H.
  assert (T : has_energy a zero_labeling
    (zsum (fun p => node_cost (p_left a) (p_right a) (Z.of_N (p_cleanness a)) (label_node zero_labeling p)) (all_pixels w 1) +
     zsum (fun pq => edge_cost (Z.of_N (p_smoothness a)) (zero_labeling (fst pq)) (zero_labeling (snd pq))) (some_pairs (p_right a)))).
  { exists (all_pixels w 1), (some_pairs (p_right a)). split; [split; [apply NoDup_all_pixels|apply In_all_pixels]|].
    split; [apply some_pairs_in|reflexivity]. }
  pose proof (total_unique _ _ _ _ _ _ _ H T) as E. rewrite E. clear H T E e.
  assert (C : forall x, x < w -> node_cost (p_left a) (p_right a) (Z.of_N (p_cleanness a)) (label_node zero_labeling {| px := x; py := 0 |}) =
    (Z.of_N (wave m x) ^ 2)%Z).
  { intros x Hx. rewrite (waves_cost _ (proj1 zero_fits4 _ (zero_inside x Hx))). unfold label_node, zero_labeling. cbn [npix disp px].
    rewrite N.add_0_r. reflexivity. }
  assert (Ed : (zsum (fun pq => edge_cost (Z.of_N (p_smoothness a)) (zero_labeling (fst pq)) (zero_labeling (snd pq))) (some_pairs (p_right a)) = 0)%Z).
  { pose proof (zsum_between (fun pq => edge_cost (Z.of_N (p_smoothness a)) (zero_labeling (fst pq)) (zero_labeling (snd pq))) 0 0 (some_pairs (p_right a))) as X.
    assert (Y : forall pq : pixel * pixel, edge_cost (Z.of_N (p_smoothness a)) (zero_labeling (fst pq)) (zero_labeling (snd pq)) = 0%Z).
    { intros pq. unfold edge_cost, zero_labeling. change ((Z.of_N 0 - Z.of_N 0) ^ 2)%Z with 0%Z. lia. }
    assert (Y' : forall x, In x (some_pairs (p_right a)) -> (0 <= edge_cost (Z.of_N (p_smoothness a)) (zero_labeling (fst x)) (zero_labeling (snd x)) <= 0)%Z)
      by (intros x _; rewrite (Y x); lia). specialize (X Y'). lia. }
  rewrite Ed. clear Ed. rewrite row_pixels.
  rewrite (range_cons 0 w), (range_cons (0 + 1) w) by lia. cbn [map zsum].
  rewrite (C 0), (C (0 + 1)) by lia. change (wave m 0) with 0. change (wave m (0 + 1)) with m.
  match goal with |- context [zsum ?f ?l] => pose proof (zsum_between f 0 1 l) as X end.
  match type of X with ?A -> _ => assert (Y : A) end.
  { intros p Hp. apply in_map_iff in Hp. destruct Hp as [x [<- Hx]]. apply In_range in Hx. rewrite C by lia.
    unfold wave. destruct (N.eqb_spec x 1) as [E|_]; [lia|]. destruct (two_kinds x) as [-> | ->]; cbn; lia. }
  specialize (X Y). rewrite map_length in X.
  assert (L : Z.of_nat (length (range (0 + 1 + 1) w)) = (2 * Z.of_N m - 1)%Z).
  { pose proof (Base_proofs.len_range (0 + 1 + 1) w) as L. unfold len in L. lia. }
  rewrite L in X. rewrite !Z.pow_2_r. rewrite N2Z.inj_mul. cbn [Z.of_N] in *. nia.
Qed.
Lemma zigzag_energy k e : (forall p, inside (p_right a) p -> k p = zigzag p) -> has_energy a k e ->
  (2 * Z.of_N m * Z.of_N (m * m) <= e)%Z.
Proof.
  intros Hk [ps [es [Hps [Hes ->]]]].
  pose proof (pairs_length (p_right a) es ltac:(cbn [waves p_right dark_image width]; lia) ltac:(cbn [waves p_right dark_image height]; lia) Hes) as L.
  pose proof (zsum_between (fun p => node_cost (p_left a) (p_right a) (Z.of_N (p_cleanness a)) (label_node k p)) 0 0 ps) as X.
  match type of X with ?A -> _ => assert (Y : A) end.
  { intros p Hp. apply Hps in Hp. unfold label_node. rewrite (Hk p Hp). change {| npix := p; disp := zigzag p |} with (label_node zigzag p).
    rewrite (waves_cost _ (zigzag_match p Hp)). unfold label_node. cbn [npix disp]. rewrite (wave_even m _ (zigzag_even p)). cbn. lia. }
  specialize (X Y).
  pose proof (zsum_between (fun pq => edge_cost (Z.of_N (p_smoothness a)) (k (fst pq)) (k (snd pq))) (Z.of_N (m * m)) (Z.of_N (m * m)) es) as U.
  match type of U with ?A -> _ => assert (V : A) end.
  { intros [p q] H. apply Hes in H. destruct H as [Hp [Hq A]]. cbn [fst snd]. rewrite (Hk p Hp), (Hk q Hq).
    destruct Hp as [_ Hp], Hq as [_ Hq]. cbn [waves p_right dark_image height] in Hp, Hq.
    destruct A as [A|A]; destruct A as [A1 A2]; [|lia].
    unfold edge_cost, zigzag. cbn [waves p_smoothness].
    assert (S : Z.abs (Z.of_N (px p mod 2) - Z.of_N (px q mod 2)) = 1%Z).
    { pose proof (N.div_mod (px p) 2). pose proof (N.div_mod (px q) 2). destruct (two_kinds (px p)), (two_kinds (px q)); lia. }
    assert (S2 : ((Z.of_N (px p mod 2) - Z.of_N (px q mod 2)) ^ 2)%Z = 1%Z) by (rewrite Z.pow_2_r; nia). rewrite S2. lia. }
  specialize (U V). cbn [waves p_right dark_image width height] in L. nia.
Qed.
End Waves.

(** No factor up to [2 ^ 23] bounds the energies of the maps. *)
Lemma no_factor F : (1 <= F <= 2 ^ 23)%Z -> exists srt lev a img k e e',
  sorts srt /\ accepted lev a /\ small_problem (2 ^ 53) lev a /\ solution_of srt lev a = Ok img /\
  ordered_labeling (p_right a) lev k /\ has_energy a (map_labeling img) e /\ has_energy a k e' /\ (0 < e')%Z /\ (F * e' < e)%Z.
Proof.
  intros HF. set (m := Z.to_N (3 * F)). assert (Hm : 1 <= m <= 2 ^ 25) by (unfold m; lia).
  destruct (zigzag_map m Hm isort (isort_sorts cpu_laws)) as [img [E M]].
  destruct (total_exists (p_left (waves m)) (p_right (waves m)) (Z.of_N (p_cleanness (waves m))) (Z.of_N (p_smoothness (waves m))) (map_labeling img)) as [e He].
  destruct (total_exists (p_left (waves m)) (p_right (waves m)) (Z.of_N (p_cleanness (waves m))) (Z.of_N (p_smoothness (waves m))) zero_labeling) as [e' He'].
  exists isort, 2, (waves m), img, zero_labeling, e, e'.
  pose proof (zero_energy m Hm e' He') as [L U]. pose proof (zigzag_energy m Hm _ e M He) as D.
  refine (conj (isort_sorts cpu_laws) (conj (waves_accepted m Hm) (conj (waves_small m Hm) (conj E (conj (zero_fits4 m Hm) (conj He (conj He' (conj L _)))))))).
  assert (Z.of_N m = 3 * F)%Z by (unfold m; lia). rewrite N2Z.inj_mul in *. nia.
Qed.

(** The problem with [m = 3]: the closest matches exist and the smoothness is not 0. *)
Lemma waves3 : exists img, sorts (@isort cpu) /\ accepted 2 (waves 3) /\ small_problem (2 ^ 53) 2 (waves 3) /\ 0 < p_cleanness (waves 3) /\
  ordered_labeling (p_right (waves 3)) 2 zigzag /\ closest (p_left (waves 3)) (p_right (waves 3)) 2 zigzag /\
  unbeaten 2 (waves 3) zigzag /\ height (p_right (waves 3)) = 1 /\ p_smoothness (waves 3) = 9 /\ solution_of isort 2 (waves 3) = Ok img.
Proof.
  assert (H : 1 <= 3 <= 2 ^ 25) by lia. destruct (zigzag_map 3 H isort (isort_sorts cpu_laws)) as [img [E _]]. exists img.
  exact (conj (isort_sorts cpu_laws) (conj (waves_accepted 3 H) (conj (waves_small 3 H) (conj eq_refl (conj (zigzag_ordered 3 H)
    (conj (zigzag_closest 3 H) (conj (zigzag_unbeaten 3 H) (conj eq_refl (conj eq_refl E))))))))).
Qed.
