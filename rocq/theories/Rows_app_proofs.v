(** Problems without smoothness as the application makes them: lemmas. *)
From Coq Require Import Reals Lia.
From Flocq Require Import Core.Core IEEE754.BinarySingleNaN.
From Verif Require Export Noise_proofs Stack_proofs.
Local Open Scope Z_scope.

Lemma application_threshold srt lev a b : sorts srt -> small_problem (2 ^ 53) lev a -> p_smoothness a = 0%N ->
  threshold_of srt lev a b ->
  (exists k, ordered_labeling (p_right a) lev k /\
     within_bound (p_left a) (p_right a) lev (Z.of_N (p_cleanness a)) 0 b k) /\
  forall k b', ordered_labeling (p_right a) lev k ->
    within_bound (p_left a) (p_right a) lev (Z.of_N (p_cleanness a)) 0 b' k -> b <= b'.
Proof.
  intros Srt [Cl [Cr [F64 Sm]]] Z0 [g [lp [l [t [Eg [Elp [Ef [Et It]]]]]]]]. rewrite Z0 in Eg, Sm. cbn [Z.of_N] in Sm.
  destruct (small_graph 53 1024 hp53 he53 (2 ^ 64) Z.of_N (fun n _ => eq_refl) _ _ lev _ _ g Eg Cl Cr F64 Sm) as [El [Er [Ev [Hw [Hz [Ic Is]]]]]].
  change (@left cpu g = p_left a) in El. change (@right cpu g = p_right a) in Er. change (@levels cpu g = lev) in Ev.
  assert (Sg : small_penalties (2 ^ 53) (left g) (right g) (levels g) (Z.of_N (p_cleanness a)) 0).
  { rewrite El, Er, Ev. exact Sm. }
  destruct (small_plain g _ _ Hw Hz Ic Is Sg) as [Hf Nn].
  assert (Ns : no_smoothness g).
  { destruct (make_graph_Ok _ _ lev _ _ g Eg) as [_ [_ [_ [_ [_ [_ [_ [_ [_ [_ [_ E]]]]]]]]]]].
    unfold no_smoothness. rewrite E. reflexivity. }
  destruct (rows_threshold cpu_laws srt g lp l t cpu_zero_factor Srt Hw Elp Hf Hz Nn Ef Et Ns) as [[k [K W]] _].
  rewrite <- El, <- Er, <- Ev. split.
  - exists k. split; [exact K|].
    apply (small_bounds 53 1024 hp53 he53 (2 ^ 64) Z.of_N (fun n _ => eq_refl) g lp _ _ Hw Hz Ic Is Sg Elp t b k It K). exact W.
  - intros k' b' K' W'.
    destruct (small_threshold 53 1024 hp53 he53 (2 ^ 64) Z.of_N (fun n _ => eq_refl) g lp _ _ Hw Hz Ic Is Sg Elp srt l t Srt Ef Et) as [b0 [I0 [_ L]]].
    rewrite (int_unique 53 1024 hp53 he53 (2 ^ 64) Z.of_N t b b0 It I0). apply (L k'); assumption.
Qed.

(** With two levels the ordering constraint holds for all labelings. *)
Lemma two_levels srt a : sorts srt -> accepted 2 a -> small_problem (2 ^ 53) 2 a ->
  (0 < p_cleanness a)%N -> p_smoothness a = 0%N ->
  exists img, solution_of srt 2 a = Ok img /\
    width img = width (p_right a) /\ height img = height (p_right a) /\ max_value img = 2%N /\ consistent_image img /\
    closest (p_left a) (p_right a) 2 (map_labeling img).
Proof.
  intros Srt Ac Sm Pc Ps. set (r := p_right a). set (l := p_left a).
  set (k := fun p => if (px p + 1 <? width r)%N && (mismatch l r p 1 <? mismatch l r p 0) then 1%N else 0%N).
  assert (Small : forall p, (k p <= 1)%N) by (intros p; unfold k; destruct (_ && _); lia).
  assert (K : ordered_labeling r 2 k).
  { split.
    - intros p Hp. split; [exact Hp|]. unfold label_node. cbn [npix disp]. specialize (Small p). split; [lia|].
      unfold k in *. destruct (N.ltb_spec (px p + 1) (width r)) as [L|L]; cbn [andb].
      + destruct (_ <? _); lia.
      + rewrite N.add_0_r. apply Hp.
    - intros p q _ _ _. unfold in_order, label_node, horizontal_pair. cbn [npix disp]. pose proof (Small p). pose proof (Small q). lia. }
  assert (C : closest l r 2 k).
  { intros p d Hp Hd Hw. assert (Cd : d = 0%N \/ d = 1%N) by lia. unfold k.
    destruct (N.ltb_spec (px p + 1) (width r)) as [L|L]; cbn [andb].
    - destruct (Z.ltb_spec (mismatch l r p 1) (mismatch l r p 0)) as [M|M]; destruct Cd as [-> | ->]; lia.
    - destruct Cd as [-> | ->]; lia. }
  destruct (closest_solution srt 2 a k Srt Ac Sm Pc Ps K C) as [img [E [Ew [Eh [Em [Ci Ek]]]]]].
  exists img. refine (conj E (conj Ew (conj Eh (conj Em (conj Ci _))))).
  intros p d Hp Hd Hw. rewrite Ek by exact Hp. apply C; assumption.
Qed.
