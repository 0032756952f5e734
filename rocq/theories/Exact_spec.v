(** Vocabulary for the properties of exact arithmetic: penalties as integers. *)
From Coq Require Import Reals.
From Flocq Require Import Core.Core IEEE754.BinarySingleNaN.
From Verif Require Export Main_spec.
Local Open Scope Z_scope.

(** The floating-point number is the integer. *)
Definition is_int {prec emax : Z} (x : binary_float prec emax) (z : Z) : Prop :=
  is_finite x = true /\ B2R x = IZR z.

(** The intensity of a pixel. *)
Definition brightness (img : image) (p : pixel) : Z :=
  Z.of_N (nth (N.to_nat (py p * width img + px p)) (data img) 0%N).

(** The penalties of the problem. *)
Definition node_cost (l r : image) (c : Z) (n : node) : Z :=
  c * (brightness r (npix n) - brightness l {| px := px (npix n) + disp n; py := py (npix n) |}) ^ 2.
Definition edge_cost (s : Z) (d d' : N) : Z := s * (Z.of_N d - Z.of_N d') ^ 2.

(** Matches inside of both images. *)
Definition is_match (r : image) (lev : N) (n : node) : Prop :=
  (inside r (npix n) /\ disp n < lev /\ px (npix n) + disp n < width r)%N.

(** The integer is the lowest penalty of the matches of the pixel. *)
Definition lowest_cost (l r : image) (lev : N) (c : Z) (p : pixel) (m : Z) : Prop :=
  (exists n, npix n = p /\ is_match r lev n /\ node_cost l r c n = m) /\
  forall n, npix n = p -> is_match r lev n -> m <= node_cost l r c n.

(** A labeling of the pixels with matches in order. *)
Definition ordered_labeling (r : image) (lev : N) (k : labeling) : Prop :=
  (forall p, inside r p -> is_match r lev (label_node k p)) /\
  forall p q, inside r p -> inside r q -> adjacent p q -> in_order (label_node k p) (label_node k q).

(** The penalties of the labeling exceed the lowest possible ones by at most [b].
    Equal disparities cost nothing, so the lowest penalty of an edge is 0. *)
Definition within_bound (l r : image) (lev : N) (c s b : Z) (k : labeling) : Prop :=
  (forall p m, inside r p -> lowest_cost l r lev c p m -> node_cost l r c (label_node k p) - m <= b) /\
  forall p q, inside r p -> inside r q -> adjacent p q -> edge_cost s (k p) (k q) <= b.

(** No labeling stays within a lower bound than the map. *)
Definition optimal_map (l r : image) (lev : N) (c s : Z) (img : image) : Prop :=
  width img = width r /\ height img = height r /\ max_value img = lev /\
  consistent_image img /\ valid_image img /\ ordered_labeling r lev (map_labeling img) /\
  forall k b, ordered_labeling r lev k -> within_bound l r lev c s b k ->
    within_bound l r lev c s b (map_labeling img).

(** The penalties stay below the bound up to which all integers are representable. *)
Definition small_penalties (bound : Z) (l r : image) (lev : N) (c s : Z) : Prop :=
  exists m, (forall v, In v (data l) \/ In v (data r) -> Z.of_N v <= m) /\ 0 <= c <= bound /\ 0 <= s /\
    m ^ 2 <= bound /\ c * m ^ 2 <= bound /\ Z.of_N lev ^ 2 <= bound /\ s * Z.of_N lev ^ 2 <= bound.
