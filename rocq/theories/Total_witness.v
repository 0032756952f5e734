(** A map that does not have the lowest energy, and problems with potentials. *)
From Coq Require Import Reals Lra Lia.
From Verif Require Import Exact_witness Energy_witness Total_proofs Witnesses.
From Verif Require Export Total_spec.
Local Open Scope Z_scope.

Definition l128 : image := pic 3 1 [0; 7; 10]%N.
Definition r128 : image := pic 3 1 [0; 10; 10]%N.
Definition map128 : image := {| width := 3; height := 1; max_value := 2; data := [0; 1; 0]%N |}.
Lemma solves128 : solve_problem (T := cpu) isort l128 r128 2 (of_u 1) (of_u 6) = Ok map128.
Proof. vm_compute. reflexivity. Qed.
Lemma small128 : small_penalties (2 ^ 53) l128 r128 2 1 6.
Proof. exists 10. split; [|lia]. intros v [H|H]; cbn in H; decompose [or] H; subst; try lia; contradiction. Qed.
Lemma total128 k : total_cost l128 r128 1 6 k
  (zsum (fun p => node_cost l128 r128 1 (label_node k p)) (all_pixels 3 1) +
   zsum (fun pq => edge_cost 6 (k (fst pq)) (k (snd pq))) (some_pairs r128)).
Proof.
  exists (all_pixels 3 1), (some_pairs r128). split; [split; [apply NoDup_all_pixels|apply In_all_pixels]|].
  split; [apply some_pairs_in|reflexivity].
Qed.
Lemma zero128 : ordered_labeling r128 2 zero_labeling.
Proof.
  split; [intros p [P1 P2]; unfold is_match, inside, zero_labeling, label_node in *; cbn in *; lia|].
  intros p q _ _ _. unfold in_order, zero_labeling, label_node. cbn. unfold horizontal_pair; intuition lia.
Qed.

Lemma not_least : exists srt l r lev c s img k e e',
  @sorts cpu srt /\ consistent_image l /\ consistent_image r /\
  solve_problem (T := cpu) srt l r lev (of_u c) (of_u s) = Ok img /\
  small_penalties (2 ^ 53) l r lev (Z.of_N c) (Z.of_N s) /\ ordered_labeling r lev k /\
  total_cost l r (Z.of_N c) (Z.of_N s) (map_labeling img) e /\ total_cost l r (Z.of_N c) (Z.of_N s) k e' /\ e' < e.
Proof.
  exists isort, l128, r128, 2%N, 1%N, 6%N, map128, zero_labeling, 12, 9.
  refine (conj (isort_sorts cpu_laws) (conj _ (conj _ (conj solves128 (conj small128 (conj zero128 (conj _ (conj _ _)))))))); try reflexivity.
  - exact (total128 (map_labeling map128)).
  - exact (total128 zero_labeling).
Qed.

(** The hypotheses about the map, with the bound 6: energy 12 is at most 9 + 6 * 5. *)
Lemma map128_optimal : optimal_map l128 r128 2 1 6 map128.
Proof.
  set (g := problem 3 1 2 [0; 7; 10]%N [0; 10; 10]%N 1 6).
  assert (E : make_graph (T := cpu) l128 r128 2 (of_u 1) (of_u 6) = Ok g).
  { change (make_graph (left g) (right g) (levels g) (cleanness g) (smoothness g) = Ok g). made. }
  destruct (exact_solution 53 1024 hp53 he53 (2 ^ 64)%N Z.of_N (fun n _ => eq_refl) isort l128 r128 2 1 6 g
    (isort_sorts cpu_laws) E eq_refl eq_refl eq_refl small128) as [X|[img [X O]]];
  match type of X with ?a = _ => change a with (solve_problem (T := cpu) isort l128 r128 2 (of_u 1) (of_u 6)) in X end;
  rewrite solves128 in X; [discriminate X|]. injection X as <-. exact O.
Qed.
Lemma small_all (P : pixel -> Prop) : Forall P (all_pixels 3 1) -> forall p, inside r128 p -> P p.
Proof. intros H p Hp. rewrite Forall_forall in H. apply H. apply In_all_pixels. exact Hp. Qed.
Lemma map128_bound : ordered_labeling r128 2 (map_labeling map128) /\ within_bound l128 r128 2 1 6 6 (map_labeling map128).
Proof.
  split; [apply map128_optimal|]. split.
  - intros p m Hp [[n [_ [_ <-]]] _].
    assert (E : node_cost l128 r128 1 (label_node (map_labeling map128) p) = 0).
    { revert p Hp. apply small_all. repeat constructor. }
    rewrite E. unfold node_cost. pose proof (Z.pow_even_nonneg (brightness r128 (npix n) - brightness l128 {| px := px (npix n) + disp n; py := py (npix n) |}) 2
      ltac:(exists 1; reflexivity)). lia.
  - intros p q Hp Hq _. revert p Hp. apply small_all. revert q Hq. 
    assert (H : forall q, inside r128 q -> Forall (fun p => edge_cost 6 (map_labeling map128 p) (map_labeling map128 q) <= 6) (all_pixels 3 1)).
    { apply small_all. repeat (constructor; [repeat (constructor; [vm_compute; discriminate|]); constructor|]). constructor. }
    exact H.
Qed.
