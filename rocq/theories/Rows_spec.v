(** Rows that do not restrict each other. *)
From Verif Require Export Lattice_spec Crop_spec.
Local Open Scope N_scope.

(** A factor of zero makes the product zero.  Proved for the three builds and for the
    reference build with real numbers (Rows_proofs.v). *)
Definition zero_factor (T : target) : Prop :=
  forall a b : F T, feq a fzero = true -> ffin b = true -> feq (fmul a b) fzero = true.

Section Graph.
Context {T : target}.
Implicit Type cg : cgraph T.

(** Whatever disparities two pixels one above the other take, the edge between them
    stays within the threshold. *)
Definition separate_rows cg : Prop :=
  forall n n', match_exists (cg_graph cg) n -> match_exists (cg_graph cg) n' ->
    vertical_pair (npix n) (npix n') \/ vertical_pair (npix n') (npix n) ->
    edge_within (cg_graph cg) (cg_lowest cg) (cg_threshold cg) {| enode := n; enbr := n' |}.

(** No smoothness is asked for. *)
Definition no_smoothness (g : dgraph T) : Prop := feq (smoothness g) fzero = true.

(** The images of [g] are those of [g1] and, below them, those of [g2]. *)
Definition stacked (g g1 g2 : dgraph T) : Prop :=
  part_of 0 0 g g1 /\ part_of 0 (height (right g1)) g g2 /\
  height (right g1) + height (right g2) = height (right g).
End Graph.
