(** Vocabulary for problems in which the smoothness outweighs the intensities. *)
From Verif Require Export Scale_spec.
Local Open Scope Z_scope.

(** No disparity at all stays within the bound, and one step costs more. *)
Definition stiff (lev : N) (a : stereo) (b : Z) : Prop :=
  within_bound (p_left a) (p_right a) lev (Z.of_N (p_cleanness a)) (Z.of_N (p_smoothness a)) b (fun _ => 0%N) /\
  b < Z.of_N (p_smoothness a).

(** The right image is the left one moved by [j] columns. *)
Definition moved (j : N) (l r : image) : Prop :=
  forall p, inside r p -> (px p + j < width r)%N ->
    brightness r p = brightness l {| px := px p + j; py := py p |}.

(** No intensity is above [m]. *)
Definition at_most (m : Z) (img : image) : Prop := forall p, inside img p -> brightness img p <= m.
