(** Specification vocabulary: what the words of the properties mean.

    Only data types and the outcomes of API functions of the model are used
    here; all arithmetic is on unbounded numbers. *)
From Coq Require Export Permutation Sorted.
From Verif Require Export Laws Labeling.
Local Open Scope N_scope.

(** Images with the right number of elements. *)
Definition consistent_image (img : image) : Prop :=
  len (data img) = width img * height img.

(** What it means for an image to be valid. *)
Definition valid_image (img : image) : Prop :=
  0 < width img /\ 0 < height img /\ 0 < max_value img /\
  forall v, In v (data img) -> v <= max_value img.

(** The pixel lies in the image. *)
Definition inside (img : image) (p : pixel) : Prop :=
  px p < width img /\ py p < height img.

(** Four-adjacency. *)
Definition horizontal_pair (l r : pixel) : Prop := px r = px l + 1 /\ py r = py l.
Definition vertical_pair (u d : pixel) : Prop := py d = py u + 1 /\ px d = px u.
Definition adjacent (p q : pixel) : Prop :=
  horizontal_pair p q \/ horizontal_pair q p \/ vertical_pair p q \/ vertical_pair q p.

(** Slots 0, 1, 2, 3 lead to the right, left, lower and upper neighbor. *)
Definition slot_of (k : N) (p q : pixel) : Prop :=
  (k = 0 /\ horizontal_pair p q) \/ (k = 1 /\ horizontal_pair q p) \/
  (k = 2 /\ vertical_pair p q) \/ (k = 3 /\ vertical_pair q p).

Section Graph.
Context {T : target}.
Implicit Type g : dgraph T.

(** A graph as the constructor makes it, for sizes that do not overflow; the
    reparametrization may hold arbitrary values. *)
Record wf_graph g : Prop := {
  wf_width : width (left g) = width (right g);
  wf_height : height (left g) = height (right g);
  wf_levels : 1 < levels g;
  wf_levels_width : levels g <= width (right g);
  wf_rows : 0 < height (right g);
  wf_left : consistent_image (left g);
  wf_right : consistent_image (right g);
  wf_reparam : len (reparam g) = width (right g) * height (right g) * 4 * levels g;
  wf_wrap : width (right g) * height (right g) * 4 * levels g < wmod T;
  wf_alloc : width (right g) * height (right g) * 4 * levels g <= vector_max_size
}.

(** The conditions of a problem, in the order in which they are checked. *)
Definition violated (l r : image) (lev : N) (c s : F T) (k : N) : Prop :=
  match k with
  | 0 => ~ valid_image l
  | 1 => ~ valid_image r
  | 2 => lev < 2
  | 3 => width l < lev
  | 4 => width l <> width r
  | 5 => height l <> height r
  | 6 => max_value l <> max_value r
  | 7 => flt c fzero = true
  | 8 => flt s fzero = true
  | 9 => flt c feps = true /\ flt s feps = true
  | _ => False
  end.
Definition first_violated (l r : image) (lev : N) (c s : F T) (k : N) : Prop :=
  violated l r lev c s k /\ forall j, j < k -> ~ violated l r lev c s j.

(** Pixels of the image, possible matches, pairs of matches in order. *)
Definition in_image g (p : pixel) : Prop :=
  px p < width (right g) /\ py p < height (right g).

Definition match_exists g (n : node) : Prop :=
  in_image g (npix n) /\ disp n < levels g /\
  px (npix n) + disp n < width (right g).

(** Two matches of adjacent pixels respect the order of the columns. *)
Definition in_order (m n : node) : Prop :=
  (horizontal_pair (npix m) (npix n) ->
     px (npix m) + disp m <= px (npix n) + disp n) /\
  (horizontal_pair (npix n) (npix m) ->
     px (npix n) + disp n <= px (npix m) + disp m).

Definition match_pair g (e : edge) : Prop :=
  match_exists g (enode e) /\ match_exists g (enbr e) /\
  adjacent (npix (enode e)) (npix (enbr e)) /\ in_order (enode e) (enbr e).

Definition reverse (e : edge) : edge := {| enode := enbr e; enbr := enode e |}.


(** The position of the potential of a node and a slot. *)
Definition potential_at g (n : node) (k : N) : N :=
  ((px (npix n) * 4 + k) * levels g + disp n) * height (right g) + py (npix n).

(** The slot under which a neighbor sees the pixel. *)
Definition facing (k : N) : N := match k with 0 => 1 | 1 => 0 | 2 => 3 | _ => 2 end.

(** The graph a LowestPenalties object points to may be changed later. *)
Definition with_potentials g (rp : list (F T)) : dgraph T :=
  {| left := left g; right := right g; levels := levels g; cleanness := cleanness g;
     smoothness := smoothness g; reparam := rp |}.
Definition pointing_to g (lp : lowest T) : lowest T :=
  {| lp_graph := g; lp_pixels := lp_pixels lp; lp_neighborhoods := lp_neighborhoods lp |}.

(** All penalties are finite numbers. *)
Definition finite_penalties g : Prop :=
  (forall n, match_exists g n -> exists v, node_penalty g n = Ok v /\ ffin v = true) /\
  (forall e, match_exists g (enode e) -> match_exists g (enbr e) ->
     adjacent (npix (enode e)) (npix (enbr e)) ->
     exists v, edge_penalty g e = Ok v /\ ffin v = true).

(** The reparametrization the constructor produces. *)
Definition zero_reparam g : Prop := forall v, In v (reparam g) -> v = fzero.

(** *** Labelings *)

Definition labeling : Type := pixel -> N.
Definition label_node (k : labeling) (p : pixel) : node := {| npix := p; disp := k p |}.
Definition label_edge (k : labeling) (p q : pixel) : edge :=
  {| enode := label_node k p; enbr := label_node k q |}.

(** Every pixel has a possible match and the ordering constraint holds. *)
Definition labeling_ok g (k : labeling) : Prop :=
  (forall p, in_image g p -> match_exists g (label_node k p)) /\
  (forall p q, in_image g p -> in_image g q -> adjacent p q ->
     in_order (label_node k p) (label_node k q)).

(** The penalty of a node (an edge) exceeds the lowest one of its pixel
    (neighborhood) by at most the threshold. *)
Definition node_within (g : dgraph T) (lp : lowest T) (t : F T) (n : node) : Prop :=
  exists v m, node_penalty g n = Ok v /\ lowest_pixel_penalty lp (npix n) = Ok m /\
    fle (fsub v m) t = true.
Definition edge_within (g : dgraph T) (lp : lowest T) (t : F T) (e : edge) : Prop :=
  exists v m, edge_penalty g e = Ok v /\ lowest_neighborhood_penalty lp e = Ok m /\
    fle (fsub v m) t = true.

Definition edges_within (g : dgraph T) (lp : lowest T) (t : F T) (k : labeling) : Prop :=
  forall p q, in_image g p -> in_image g q -> adjacent p q ->
    edge_within g lp t (label_edge k p q).
Definition nodes_within (g : dgraph T) (lp : lowest T) (t : F T) (k : labeling) : Prop :=
  forall p, in_image g p -> node_within g lp t (label_node k p).

(** The excess of a penalty over the lowest one. *)
Definition node_excess (g : dgraph T) (lp : lowest T) (n : node) (c : F T) : Prop :=
  exists v m, node_penalty g n = Ok v /\ lowest_pixel_penalty lp (npix n) = Ok m /\
    c = fsub v m.
Definition edge_excess (g : dgraph T) (lp : lowest T) (e : edge) (c : F T) : Prop :=
  exists v m, edge_penalty g e = Ok v /\ lowest_neighborhood_penalty lp e = Ok m /\
    c = fsub v m.

(** The pairs of nodes the code enumerates for two neighboring pixels.  From a
    pixel to its left neighbor these are not the existing edges. *)
Definition enumerated g (e : edge) : Prop :=
  match_exists g (enode e) /\ match_exists g (enbr e) /\
  adjacent (npix (enode e)) (npix (enbr e)) /\
  (px (npix (enbr e)) = px (npix (enode e)) \/ disp (enode e) <= disp (enbr e) + 1).

(** Candidates for the threshold. *)
Definition candidate (g : dgraph T) (lp : lowest T) (c : F T) : Prop :=
  (exists n, match_exists g n /\ node_excess g lp n c) \/
  (exists e, enumerated g e /\ edge_excess g lp e c).

(** The constructor rejects negative weights. *)
Definition nonneg_weights g : Prop :=
  flt (cleanness g) fzero = false /\ flt (smoothness g) fzero = false.

(** A correct sorting function. *)
Definition sorts (srt : list (F T) -> list (F T)) : Prop :=
  forall l, (forall x, In x l -> is_number x) ->
    Permutation l (srt l) /\ StronglySorted (fun a b => fle a b = true) (srt l).
Definition increasing : list (F T) -> Prop := StronglySorted (fun a b => flt a b = true).

(** *** Availability *)

Implicit Type cg : cgraph T.

Definition available cg (n : node) : Prop :=
  exec (fun cg => is_node_available cg n) cg = Ok (true, cg).

Definition edge_available cg (e : edge) : Prop :=
  exec (fun cg => is_edge_available cg e) cg = Ok (true, cg).

(** Tables of lowest penalties that belong to the graph and have the right sizes;
    the values are arbitrary (on a GPU they are not computed from its penalties). *)
Record wf_lowest (g : dgraph T) (lp : lowest T) : Prop := {
  wfl_graph : lp_graph lp = g;
  wfl_pixels : len (lp_pixels lp) = width (right g) * height (right g);
  wfl_neighborhoods : len (lp_neighborhoods lp) = 4 * (width (right g) * height (right g))
}.

(** A constraint graph whose parts belong together and whose arrays have the right
    sizes. *)
Record wf_cgraph cg : Prop := {
  wfc_graph : wf_graph (cg_graph cg);
  wfc_lowest : wf_lowest (cg_graph cg) (cg_lowest cg);
  wfc_avail : len (cg_avail cg)
              = width (right (cg_graph cg)) * height (right (cg_graph cg))
                * levels (cg_graph cg)
}.

(** The same problem, with possibly different availability. *)
Definition same_problem cg cg' : Prop :=
  cg_graph cg' = cg_graph cg /\ cg_lowest cg' = cg_lowest cg /\
  cg_threshold cg' = cg_threshold cg /\ len (cg_avail cg') = len (cg_avail cg).

(** The solver succeeds (fails) on a new constraint graph for a threshold. *)
Definition solver_says (g : dgraph T) (lp : lowest T) (t : F T) (b : bool) : Prop :=
  exists cg cg', make_constraint g lp t = Ok cg /\ exec solve_csp cg = Ok (b, cg').

(** A consistent labeling among the available nodes. *)
Definition solution cg (k : labeling) : Prop :=
  labeling_ok (cg_graph cg) k /\
  (forall p, in_image (cg_graph cg) p -> available cg (label_node k p)) /\
  edges_within (cg_graph cg) (cg_lowest cg) (cg_threshold cg) k.
End Graph.
