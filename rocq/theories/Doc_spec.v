(** The iteration that the documentation describes (include/constraint_graph.hpp 91-146
    with markers of edges, 198-259 without). *)
From Verif Require Export Lattice_spec.
Local Open Scope N_scope.

Section Graph.
Context {T : target}.
Implicit Type cg : cgraph T.

(** The edges that are available at first: a^0. *)
Definition edge_ok cg (e : edge) : Prop :=
  match_pair (cg_graph cg) e /\ edge_within (cg_graph cg) (cg_lowest cg) (cg_threshold cg) e.

(** b^k and a^k: a node stays if it has an edge to every neighboring pixel, an edge
    stays if its nodes were there.  All nodes and edges change at once. *)
Fixpoint documented cg (k : nat) : (node -> Prop) * (edge -> Prop) :=
  match k with
  | O => ((fun n => match_exists (cg_graph cg) n /\ available cg n), edge_ok cg)
  | S k =>
      let b := fst (documented cg k) in
      let a := snd (documented cg k) in
      ((fun n => b n /\ forall q, in_image (cg_graph cg) q -> adjacent (npix n) q ->
                   exists n', npix n' = q /\ a {| enode := n; enbr := n' |}),
       (fun e => a e /\ b (enode e) /\ b (enbr e)))
  end.

(** b^k without markers of edges. *)
Fixpoint frugal cg (k : nat) : node -> Prop :=
  match k with
  | O => fun n => match_exists (cg_graph cg) n /\ available cg n
  | S k => fun n => frugal cg k n /\ forall q, in_image (cg_graph cg) q -> adjacent (npix n) q ->
                      exists n', npix n' = q /\ frugal cg k n' /\ edge_ok cg {| enode := n; enbr := n' |}
  end.

(** "If available nodes stay available and available edges stay available after the kth
    iteration, the algorithm is finished." *)
Definition documented_ends cg (k : nat) : Prop :=
  (forall n, fst (documented cg k) n -> fst (documented cg (S k)) n) /\
  (forall e, snd (documented cg k) e -> snd (documented cg (S k)) e).
Definition frugal_ends cg (k : nat) : Prop := forall n, frugal cg k n -> frugal cg (S k) n.

(** The nodes of arc-consistent sets. *)
Definition lasting cg (n : node) : Prop := exists K, arc_consistent cg K /\ K n.
End Graph.
