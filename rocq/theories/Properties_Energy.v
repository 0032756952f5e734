(** Properties C23 and C24: potentials and the energy of labelings, in exact
    arithmetic. *)
From Coq Require Import Reals.
From Verif Require Import Energy_witness.
Local Open Scope N_scope.

(** C23: every labeling has an energy, which does not depend on the potentials. *)
Theorem C23_energy_invariant (g g' : dgraph exact) (k : labeling) :
  wf_graph g -> wf_graph g' -> reparametrized g g' -> all_matched g k ->
  no_outer_potentials g -> no_outer_potentials g' ->
  (exists e, energy g k e) /\ forall e e', energy g k e -> energy g' k e' -> e = e'.
Proof.
  exact (fun Hw Hw' R Hk Ho Ho' => conj (energy_exists g k Hw Hk)
    (fun e e' => energy_invariant g g' k e e' Hw Hw' R Hk Ho Ho')).
Qed.
Print Assumptions C23_energy_invariant.

Example C23_hypotheses : wf_graph plain /\ wf_graph shifted /\ reparametrized plain shifted /\ all_matched plain zero_labeling /\
  no_outer_potentials plain /\ no_outer_potentials shifted.
Proof. exact (conj plain_wf (conj shifted_wf (conj shifted_same (conj (proj2 zero_fits) (conj plain_outer shifted_outer))))). Qed.
Example C23_penalties_differ : exists n v v',
  match_exists plain n /\ node_penalty plain n = Ok v /\ node_penalty shifted n = Ok v' /\ v <> v'.
Proof. exact shifted_differs. Qed.

(** C24: the sum of the stored minima is a lower bound on the energy... *)
Theorem C24_lower_bound (g : dgraph exact) lp (k : labeling) e : wf_graph g -> make_lowest g = Ok lp ->
  labeling_ok g k -> energy g k e ->
  (exists b, lowest_sum g lp b) /\ forall b, lowest_sum g lp b -> (b <= e)%R.
Proof.
  exact (fun Hw Hl Hk He => conj (lowest_sum_exists g lp Hw Hl) (fun b => lower_bound g lp Hw Hl k e b Hk He)).
Qed.
Print Assumptions C24_lower_bound.

(** ...and, for all potentials, on the energy of the problem as given. *)
Theorem C24_dual_bound (g g' : dgraph exact) lp' (k : labeling) e b :
  wf_graph g -> wf_graph g' -> reparametrized g g' -> no_outer_potentials g -> no_outer_potentials g' ->
  make_lowest g' = Ok lp' -> labeling_ok g k -> energy g k e -> lowest_sum g' lp' b -> (b <= e)%R.
Proof. exact (dual_bound g g' lp' k e b). Qed.
Print Assumptions C24_dual_bound.

Example C24_hypotheses : labeling_ok plain zero_labeling /\ exists lp, make_lowest shifted = Ok lp.
Proof. exact (conj (proj1 zero_fits) lowest_shifted). Qed.
