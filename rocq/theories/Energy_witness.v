(** A problem with potentials. *)
From Coq Require Import Reals Lra Lia.
From Verif Require Export Energy_proofs Threshold_proofs Samples.
Local Open Scope N_scope.

(** The potential 5 of the slot to the right of pixel (0, 0) and disparity 1. *)
Definition plain : dgraph exact := sample_graph exact.
Definition shifted : dgraph exact := with_potentials plain (fill 2 0%R ++ [5%R] ++ fill 69 0%R).

Lemma plain_wf : wf_graph plain. Proof. apply sample_wf. reflexivity. Qed.
Lemma shifted_wf : wf_graph shifted.
Proof. constructor; try reflexivity; try (cbn; lia); vm_compute; discriminate. Qed.
Lemma plain_outer : no_outer_potentials plain.
Proof. apply zero_no_outer. intros v Hv. apply repeat_spec in Hv. exact Hv. Qed.

Lemma other_potentials i v : get (reparam shifted) i = Ok v -> i <> 2 -> v = 0%R.
Proof.
  unfold get. destruct (i <? len (reparam shifted)); [|discriminate]. intros E Hi.
  assert (Hn : N.to_nat i <> 2%nat) by lia. revert E Hn. generalize (N.to_nat i). intros n E Hn.
  change (reparam shifted) with ([0; 0; 5]%R ++ repeat 0%R 69) in E.
  destruct n as [|[|[|n]]]; [cbn [nth_error app] in E; injection E as <-; reflexivity|cbn [nth_error app] in E; injection E as <-; reflexivity|congruence|].
  rewrite nth_error_app2 in E by (cbn [List.length]; lia). cbn [List.length Nat.sub] in E.
  match type of E with context [nth_error ?l ?i] => destruct (nth_error l i) as [u|] eqn:En end; [|discriminate]. injection E as <-.
  apply nth_error_In in En. apply repeat_spec in En. exact En.
Qed.
Lemma shifted_outer : no_outer_potentials shifted.
Proof.
  intros [[x y] d] k v Hp Hd Hk Hq E. apply other_potentials in E; [exact E|]. intros X.
  unfold potential_at, in_image in *.
  change (levels shifted) with 3 in *. change (height (right shifted)) with 2 in *. change (width (right shifted)) with 3 in *.
  cbn [npix disp px py] in *.
  apply (Hq {| px := 1; py := 0 |}); [split; cbn; lia|]. left. assert (x = 0 /\ k = 0 /\ d = 1 /\ y = 0) as [-> [-> [-> ->]]] by lia.
  split; [reflexivity|split; reflexivity].
Qed.
Lemma shifted_same : reparametrized plain shifted. Proof. repeat split. Qed.

Lemma zero_fits : labeling_ok plain zero_labeling /\ all_matched plain zero_labeling.
Proof. pose proof (zero_labeling_ok plain plain_wf) as H. split; [exact H|exact (proj1 H)]. Qed.

(** The potentials do change penalties. *)
Lemma shifted_differs : exists n v v', match_exists plain n /\ node_penalty plain n = Ok v /\ node_penalty shifted n = Ok v' /\ v <> v'.
Proof.
  set (n := {| npix := {| px := 0; py := 0 |}; disp := 1 |}).
  assert (M : match_exists plain n) by (unfold match_exists, in_image; cbn; lia).
  exists n. eexists _, _. split; [exact M|]. split; [apply (node_value plain plain_wf n M)|].
  split; [apply (node_value shifted shifted_wf n M)|].
  change (bare_node shifted n) with (bare_node plain n).
  change (value (get (reparam shifted) (potential_at shifted n 0))) with 5%R.
  change (value (get (reparam shifted) (potential_at shifted n 1))) with 0%R.
  change (value (get (reparam shifted) (potential_at shifted n 2))) with 0%R.
  change (value (get (reparam shifted) (potential_at shifted n 3))) with 0%R.
  change (value (get (reparam plain) (potential_at plain n 0))) with 0%R.
  change (value (get (reparam plain) (potential_at plain n 1))) with 0%R.
  change (value (get (reparam plain) (potential_at plain n 2))) with 0%R.
  change (value (get (reparam plain) (potential_at plain n 3))) with 0%R. intros X.
  match type of X with @eq _ ?a ?b => change (@eq R a b) in X end. lra.
Qed.
Lemma lowest_shifted : exists lp, make_lowest shifted = Ok lp.
Proof. destruct (make_lowest_spec shifted shifted_wf) as [lp [E _]]. exists lp. exact E. Qed.
