(** Vocabulary for special problems: closest matches, images upside down. *)
From Verif Require Export Scale_spec.
Local Open Scope N_scope.

(** How far the intensities of the pixel and of its match are from each other. *)
Definition mismatch (l r : image) (p : pixel) (d : N) : Z :=
  Z.abs (brightness r p - brightness l {| px := px p + d; py := py p |}).

(** Every pixel gets its closest match, the one with the smallest disparity if there are
    several. *)
Definition closest (l r : image) (lev : N) (k : labeling) : Prop :=
  forall p d, inside r p -> d < lev -> px p + d < width r ->
    (mismatch l r p (k p) <= mismatch l r p d)%Z /\
    (mismatch l r p (k p) = mismatch l r p d -> k p <= d).

(** The rows of the image in the opposite order. *)
Definition across (img : image) (p : pixel) : pixel :=
  {| px := px p; py := height img - 1 - py p |}.
Definition upside_down (a b : image) : Prop :=
  width b = width a /\ height b = height a /\
  forall p, inside a p -> brightness b p = brightness a (across a p).
