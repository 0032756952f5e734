(** Two optimal maps of a problem whose energies differ. *)
From Coq Require Import Lia.
From Verif Require Import Exact_witness Total_proofs Witnesses.
From Verif Require Export Total_spec.
Local Open Scope Z_scope.

Definition l4 : image := pic 4 1 [0; 7; 10; 12]%N.
Definition r4 : image := pic 4 1 [0; 10; 10; 12]%N.
Definition low4 : image := {| width := 4; height := 1; max_value := 2; data := [0; 1; 0; 0]%N |}.
Definition high4 : image := {| width := 4; height := 1; max_value := 2; data := [0; 1; 1; 0]%N |}.

Lemma all4 (P : pixel -> Prop) : Forall P (all_pixels 4 1) -> forall p, inside r4 p -> P p.
Proof. intros H p Hp. rewrite Forall_forall in H. apply H. apply In_all_pixels. exact Hp. Qed.
Lemma total4 k : total_cost l4 r4 1 6 k
  (zsum (fun p => node_cost l4 r4 1 (label_node k p)) (all_pixels 4 1) +
   zsum (fun pq => edge_cost 6 (k (fst pq)) (k (snd pq))) (some_pairs r4)).
Proof.
  exists (all_pixels 4 1), (some_pairs r4). split; [split; [apply NoDup_all_pixels|apply In_all_pixels]|].
  split; [apply some_pairs_in|reflexivity].
Qed.
Lemma cost_positive l r n : 0 <= node_cost l r 1 n.
Proof. unfold node_cost. rewrite Z.pow_2_r. pose proof (Z.square_nonneg (brightness r (npix n) - brightness l {| px := px (npix n) + disp n; py := py (npix n) |})). lia. Qed.

(** Every labeling needs the bound 6. *)
Lemma at_least_six k b : ordered_labeling r4 2 k -> within_bound l4 r4 2 1 6 b k -> 6 <= b.
Proof.
  intros [K _] [N E].
  set (p := {| px := 0; py := 0 |}%N). set (q := {| px := 1; py := 0 |}%N).
  assert (Ip : inside r4 p) by (split; reflexivity). assert (Iq : inside r4 q) by (split; reflexivity).
  assert (Lq : lowest_cost l4 r4 2 1 q 0).
  { split; [|intros n _ _; apply cost_positive]. exists {| npix := q; disp := 1 |}. split; [reflexivity|]. split; [|reflexivity].
    split; [exact Iq|]. split; reflexivity. }
  assert (Lp : lowest_cost l4 r4 2 1 p 0).
  { split; [|intros n _ _; apply cost_positive]. exists {| npix := p; disp := 0 |}. split; [reflexivity|]. split; [|reflexivity].
    split; [exact Ip|]. split; reflexivity. }
  specialize (E p q Ip Iq). assert (A : adjacent p q) by (left; split; reflexivity). specialize (E A).
  apply (N q 0 Iq) in Lq. apply (N p 0 Ip) in Lp.
  destruct (K p Ip) as [_ [Kp _]]. destruct (K q Iq) as [_ [Kq _]]. unfold label_node in *. cbn [disp] in Kp, Kq.
  assert (Cp : k p = 0%N \/ k p = 1%N) by lia. assert (Cq : k q = 0%N \/ k q = 1%N) by lia.
  destruct Cp as [Cp|Cp], Cq as [Cq|Cq]; rewrite ?Cp, ?Cq in *;
    (let v := match type of Lp with ?a <= b => eval vm_compute in a end in change (v <= b) in Lp);
    (let v := match type of Lq with ?a <= b => eval vm_compute in a end in change (v <= b) in Lq);
    (let v := match type of E with ?a <= b => eval vm_compute in a end in change (v <= b) in E); lia.
Qed.

Lemma pairs4 (P : pixel -> pixel -> Prop) : Forall (fun p => Forall (P p) (all_pixels 4 1)) (all_pixels 4 1) ->
  forall p q, inside r4 p -> inside r4 q -> P p q.
Proof. intros H p q Hp Hq. apply all4; [|exact Hq]. revert p Hp. apply all4. exact H. Qed.

Lemma six_enough img : width img = 4%N -> height img = 1%N -> max_value img = 2%N -> consistent_image img -> valid_image img ->
  ordered_labeling r4 2 (map_labeling img) ->
  Forall (fun p => node_cost l4 r4 1 (label_node (map_labeling img) p) <= 6) (all_pixels 4 1) ->
  Forall (fun p => Forall (fun q => edge_cost 6 (map_labeling img p) (map_labeling img q) <= 6) (all_pixels 4 1)) (all_pixels 4 1) ->
  within_bound l4 r4 2 1 6 6 (map_labeling img) /\ optimal_map l4 r4 2 1 6 img.
Proof.
  intros W H M C V O HN HE.
  assert (B : within_bound l4 r4 2 1 6 6 (map_labeling img)).
  { split.
    - intros p m Hp [[n [_ [_ <-]]] _]. pose proof (cost_positive l4 r4 n). pose proof (all4 _ HN p Hp). cbv beta in *. lia.
    - intros p q Hp Hq _. exact (pairs4 _ HE p q Hp Hq). }
  split; [exact B|]. refine (conj W (conj H (conj M (conj C (conj V (conj O _)))))).
  intros k b Hk Wk. pose proof (at_least_six k b Hk Wk). destruct B as [B1 B2]. split.
  - intros p m Hp L. specialize (B1 p m Hp L). lia.
  - intros p q Hp Hq A. specialize (B2 p q Hp Hq A). lia.
Qed.

Ltac everywhere := repeat (constructor; [first [vm_compute; intuition (discriminate || lia) | repeat (constructor; [vm_compute; intuition (discriminate || lia)|]); constructor]|]); constructor.
Lemma low4_ordered : ordered_labeling r4 2 (map_labeling low4).
Proof.
  split; [apply all4|].
  - repeat (constructor; [split; [split; reflexivity|split; reflexivity]|]); constructor.
  - apply (pairs4 (fun p q => adjacent p q -> in_order (label_node (map_labeling low4) p) (label_node (map_labeling low4) q))).
    repeat (constructor; [repeat (constructor; [vm_compute; intuition (discriminate || congruence)|]); constructor|]); constructor.
Qed.
Lemma high4_ordered : ordered_labeling r4 2 (map_labeling high4).
Proof.
  split; [apply all4|].
  - repeat (constructor; [split; [split; reflexivity|split; reflexivity]|]); constructor.
  - apply (pairs4 (fun p q => adjacent p q -> in_order (label_node (map_labeling high4) p) (label_node (map_labeling high4) q))).
    repeat (constructor; [repeat (constructor; [vm_compute; intuition (discriminate || congruence)|]); constructor|]); constructor.
Qed.
Lemma low4_optimal : within_bound l4 r4 2 1 6 6 (map_labeling low4) /\ optimal_map l4 r4 2 1 6 low4.
Proof.
  apply six_enough; try reflexivity; [|exact low4_ordered|everywhere..].
  repeat split. intros v H. cbn in H. decompose [or] H; subst; vm_compute; try discriminate; contradiction.
Qed.
Lemma high4_optimal : optimal_map l4 r4 2 1 6 high4.
Proof.
  apply six_enough; try reflexivity; [|exact high4_ordered|everywhere..].
  repeat split. intros v H. cbn in H. decompose [or] H; subst; vm_compute; try discriminate; contradiction.
Qed.
Lemma costs4 : total_cost l4 r4 1 6 (map_labeling low4) 12 /\ total_cost l4 r4 1 6 (map_labeling high4) 16.
Proof. split; [exact (total4 (map_labeling low4))|exact (total4 (map_labeling high4))]. Qed.
