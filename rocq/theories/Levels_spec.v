(** What is meant by allowing more disparity levels. *)
From Verif Require Export Spec.
Local Open Scope N_scope.

(** The same problem, except that more levels may be allowed. *)
Definition more_levels {T : target} (g g' : dgraph T) : Prop :=
  left g' = left g /\ right g' = right g /\ cleanness g' = cleanness g /\ smoothness g' = smoothness g /\
  levels g <= levels g'.
(** Every match the new levels add is at least as bad as an old match of its pixel. *)
Definition none_closer {T : target} (g g' : dgraph T) : Prop :=
  forall n' v', match_exists g' n' -> levels g <= disp n' -> node_penalty g' n' = Ok v' ->
    exists n v, npix n = npix n' /\ match_exists g n /\ node_penalty g n = Ok v /\ fle v v' = true.
