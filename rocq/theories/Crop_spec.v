(** What is meant by a part of two images. *)
From Verif Require Export Spec.
Local Open Scope N_scope.

(** [img'] is [img] without its first [c] columns and without some rows, the
    first [a] of them at the top. *)
Definition part_image (c a : N) (img img' : image) : Prop :=
  c + width img' = width img /\ a + height img' <= height img /\
  forall x y, x < width img' -> y < height img' ->
    get (data img') (y * width img' + x) = get (data img) ((y + a) * width img + (x + c)).
(** The same for a problem. *)
Definition part_of {T : target} (c a : N) (g g' : dgraph T) : Prop :=
  part_image c a (left g) (left g') /\ part_image c a (right g) (right g') /\
  levels g' = levels g /\ cleanness g' = cleanness g /\ smoothness g' = smoothness g.
(** The labels of the pixels that are kept. *)
Definition part_labeling (c a : N) (k : labeling) : labeling :=
  fun p => k {| px := px p + c; py := py p + a |}.

(** [img'] is [img] without its last [k] columns. *)
Definition narrowed (k : N) (img img' : image) : Prop :=
  width img' + k = width img /\ height img' = height img /\
  forall x y, x < width img' -> y < height img' ->
    get (data img') (y * width img' + x) = get (data img) (y * width img + x).
