(** The energy of a labeling, in exact arithmetic. *)
From Coq Require Import Reals.
From Verif Require Export Spec.
Local Open Scope N_scope.

(** The list holds all pixels of the image, each one once. *)
Definition all_of_image {T : target} (g : dgraph T) (ps : list pixel) : Prop :=
  NoDup ps /\ forall p, In p ps <-> in_image g p.

(** The list holds all pairs of a pixel and its right or lower neighbor, each one
    once. *)
Definition all_pairs {T : target} (g : dgraph T) (es : list (pixel * pixel)) : Prop :=
  NoDup es /\ forall p q, In (p, q) es <->
    in_image g p /\ in_image g q /\ (horizontal_pair p q \/ vertical_pair p q).

(** The sum of the values. *)
Inductive sums {A : Type} (f : A -> outcome R) : list A -> R -> Prop :=
| sums_nil : sums f [] 0%R
| sums_cons x l v s : f x = Ok v -> sums f l s -> sums f (x :: l) (v + s)%R.

(** The energy: the penalties of all nodes and edges of the labeling. *)
Definition energy (g : dgraph exact) (k : labeling) (e : R) : Prop :=
  exists ps es a b, all_of_image g ps /\ all_pairs g es /\
    sums (fun p => node_penalty g (label_node k p)) ps a /\
    sums (fun pq => edge_penalty g (label_edge k (fst pq) (snd pq))) es b /\ e = (a + b)%R.

(** The sum of the lowest penalties of the pixels and of the neighborhoods to the
    right and downwards. *)
Definition lowest_sum (g : dgraph exact) (lp : lowest exact) (e : R) : Prop :=
  exists ps es a b, all_of_image g ps /\ all_pairs g es /\
    sums (fun p => lowest_pixel_penalty lp p) ps a /\
    sums (fun pq => lowest_neighborhood_penalty_fast lp (fst pq) (snd pq)) es b /\ e = (a + b)%R.

(** No potentials in the slots that lead out of the image. *)
Definition no_outer_potentials (g : dgraph exact) : Prop :=
  forall n k v, in_image g (npix n) -> disp n < levels g -> k < 4 ->
    (forall q, in_image g q -> ~ slot_of k (npix n) q) ->
    get (reparam g) (potential_at g n k) = Ok v -> v = 0%R.

(** Every pixel has a possible match. *)
Definition all_matched {T : target} (g : dgraph T) (k : labeling) : Prop :=
  forall p, in_image g p -> match_exists g (label_node k p).

(** The same problem with other potentials. *)
Definition reparametrized (g g' : dgraph exact) : Prop :=
  left g' = left g /\ right g' = right g /\ levels g' = levels g /\ cleanness g' = cleanness g /\ smoothness g' = smoothness g.
