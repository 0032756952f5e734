(** Labelings that no labeling beats. *)
From Verif Require Export Special_spec Total_spec.
Local Open Scope Z_scope.

(** The labeling is within every bound within which some labeling is. *)
Definition unbeaten (lev : N) (a : stereo) (k : labeling) : Prop :=
  let l := p_left a in let r := p_right a in let c := Z.of_N (p_cleanness a) in let s := Z.of_N (p_smoothness a) in
  forall k' b, ordered_labeling r lev k' -> within_bound l r lev c s b k' -> within_bound l r lev c s b k.

(** The energy of a labeling of the problem. *)
Definition has_energy (a : stereo) (k : labeling) (e : Z) : Prop :=
  total_cost (p_left a) (p_right a) (Z.of_N (p_cleanness a)) (Z.of_N (p_smoothness a)) k e.
