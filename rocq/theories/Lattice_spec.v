(** Vocabulary for the properties of arc-consistent problems, and the laws of
    floating-point numbers these need in addition to [laws]. *)
From Verif Require Export Gpu_spec.
Local Open Scope N_scope.

(** Conversions and products keep the order.  Proved for the three builds and for the
    reference build with real numbers (Lattice_proofs.v). *)
Record order_laws (T : target) : Prop := {
  of_u_mono : forall a b, a <= b -> 2 * b < wmod T ->
    ffin (of_u (t := T) a) = true -> ffin (of_u (t := T) b) = true ->
    fle (of_u (t := T) a) (of_u (t := T) b) = true;
  mul_mono : forall c a b : F T, fle fzero c = true -> fle a b = true ->
    ffin (fmul c a) = true -> ffin (fmul c b) = true -> fle (fmul c a) (fmul c b) = true;
  sqr_mono : forall a b : F T, fle fzero a = true -> fle a b = true ->
    ffin (fsqr a) = true -> ffin (fsqr b) = true -> fle (fsqr a) (fsqr b) = true
}.

Section Graph.
Context {T : target}.
Implicit Type cg : cgraph T.

(** Every pixel has an available match. *)
Definition everywhere_available cg : Prop :=
  forall p, in_image (cg_graph cg) p ->
    exists n, npix n = p /\ match_exists (cg_graph cg) n /\ available cg n.

(** The labeling takes the smallest (largest) available disparity of every pixel. *)
Definition smallest_available cg (k : labeling) : Prop :=
  forall p, in_image (cg_graph cg) p ->
    match_exists (cg_graph cg) (label_node k p) /\ available cg (label_node k p) /\
    forall d, match_exists (cg_graph cg) {| npix := p; disp := d |} ->
      available cg {| npix := p; disp := d |} -> k p <= d.
Definition largest_available cg (k : labeling) : Prop :=
  forall p, in_image (cg_graph cg) p ->
    match_exists (cg_graph cg) (label_node k p) /\ available cg (label_node k p) /\
    forall d, match_exists (cg_graph cg) {| npix := p; disp := d |} ->
      available cg {| npix := p; disp := d |} -> d <= k p.

(** Pixel by pixel, the smaller (larger) of two disparities. *)
Definition lower_labeling (k k' : labeling) : labeling := fun p => N.min (k p) (k' p).
Definition upper_labeling (k k' : labeling) : labeling := fun p => N.max (k p) (k' p).

(** [solve_csp] called several times, [n] times more than once. *)
Fixpoint solve_again (n : nat) cg : outcome (bool * cgraph T) :=
  match n with
  | O => exec solve_csp cg
  | S n' => r <- exec solve_csp cg ;; solve_again n' (snd r)
  end.

(** A problem as the application makes it, on the host or on a device: no
    reparametrization, and the lowest penalties of the neighborhoods are zero. *)
Record plain_problem cg : Prop := {
  pp_wf : wf_cgraph cg;
  pp_lowest : forall e, in_image (cg_graph cg) (npix (enode e)) -> in_image (cg_graph cg) (npix (enbr e)) ->
    adjacent (npix (enode e)) (npix (enbr e)) ->
    exists m, lowest_neighborhood_penalty (cg_lowest cg) e = Ok m /\ ffin m = true /\ feq m fzero = true;
  pp_zero : zero_reparam (cg_graph cg);
  pp_finite : finite_penalties (cg_graph cg);
  pp_weights : nonneg_weights (cg_graph cg)
}.
End Graph.
