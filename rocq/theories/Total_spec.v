(** The energy of labelings in integers, and the number of its terms. *)
From Verif Require Export Exact_spec Energy_spec.
Local Open Scope Z_scope.

Fixpoint zsum {A : Type} (f : A -> Z) (l : list A) : Z :=
  match l with [] => 0 | x :: l => f x + zsum f l end.

(** All pixels of the image, and all pairs of a pixel and its right or lower neighbor,
    each one once. *)
Definition pixels_in (r : image) (ps : list pixel) : Prop :=
  NoDup ps /\ forall p, In p ps <-> inside r p.
Definition pairs_in (r : image) (es : list (pixel * pixel)) : Prop :=
  NoDup es /\ forall p q, In (p, q) es <-> inside r p /\ inside r q /\ (horizontal_pair p q \/ vertical_pair p q).

(** The function that is to be minimized (include/disparity_graph.hpp 107-121). *)
Definition total_cost (l r : image) (c s : Z) (k : labeling) (e : Z) : Prop :=
  exists ps es, pixels_in r ps /\ pairs_in r es /\
    e = zsum (fun p => node_cost l r c (label_node k p)) ps +
        zsum (fun pq => edge_cost s (k (fst pq)) (k (snd pq))) es.

(** The number of pixels and pairs. *)
Definition terms (r : image) : Z :=
  let w := Z.of_N (width r) in let h := Z.of_N (height r) in w * h + (w - 1) * h + w * (h - 1).
