(** Properties C01, C02 and C05 - C08: addressing and existence checks. *)
From Verif Require Import Indexing_proofs Samples.
Local Open Scope N_scope.

(** C01: row-major order, in bounds, one-to-one, onto; [pixel_value] returns the
    element of that position. *)
Theorem C01_pixel_addressing (T : target) (img : image) :
  width img * height img < wmod T ->
  (forall p, inside img p -> pixel_index T img p = py p * width img + px p) /\
  (forall p, inside img p -> pixel_index T img p < width img * height img) /\
  (forall p q, inside img p -> inside img q ->
     pixel_index T img p = pixel_index T img q -> p = q) /\
  (forall i, i < width img * height img ->
     exists p, inside img p /\ pixel_index T img p = i) /\
  (consistent_image img -> forall p, inside img p ->
     exists v, pixel_value T img p = Ok v /\
       nth_error (data img) (N.to_nat (py p * width img + px p)) = Some v).
Proof. exact (pixel_addressing T img). Qed.
Print Assumptions C01_pixel_addressing.

Example C01_hypotheses :
  width sample_left * height sample_left < wmod cuda /\ consistent_image sample_left /\
  inside sample_left {| px := 1; py := 1 |}.
Proof. repeat split; reflexivity. Qed.

(** C02: reparametrization indices are in bounds and distinct for distinct
    (node, slot); the variants taking a pixel or an edge agree with the one
    taking the slot. *)
Theorem C02_reparametrization_addressing (T : target) (g : dgraph T) :
  wf_graph g ->
  (forall n k, in_image g (npix n) -> disp n < levels g -> k < 4 ->
     reparametrization_index_fast g n k < len (reparam g)) /\
  (forall n k n' k', in_image g (npix n) -> disp n < levels g -> k < 4 ->
     in_image g (npix n') -> disp n' < levels g -> k' < 4 ->
     reparametrization_index_fast g n k = reparametrization_index_fast g n' k' ->
     n = n' /\ k = k') /\
  (forall n m k, in_image g (npix n) -> in_image g (npix m) -> slot_of k (npix n) (npix m) ->
     reparametrization_index g n (npix m) = reparametrization_index_fast g n k /\
     reparametrization_index_slow g {| enode := n; enbr := m |}
       = reparametrization_index_fast g n k).
Proof. exact (reparametrization_addressing T g). Qed.
Print Assumptions C02_reparametrization_addressing.

Example C02_hypotheses : wf_graph (sample_graph cpu).
Proof. exact sample_wf_cpu. Qed.

(** C05: slots are below 4 exactly for adjacent pixels, lead back to the
    neighbor, and the neighbor sees the pixel in the facing slot. *)
Theorem C05_neighbor_slots (T : target) (img : image) (p q : pixel) :
  width img < wmod T -> height img < wmod T -> inside img p -> inside img q ->
  (neighbor_index T p q < 4 <-> adjacent p q) /\
  (adjacent p q -> neighbor_by_index T p (neighbor_index T p q) = q) /\
  (neighbor_index T p q = 0 <-> neighbor_index T q p = 1) /\
  (neighbor_index T p q = 2 <-> neighbor_index T q p = 3).
Proof. exact (neighbor_slots T img p q). Qed.
Print Assumptions C05_neighbor_slots.

Example C05_hypotheses :
  width sample_left < wmod cpu /\ height sample_left < wmod cpu /\
  inside sample_left {| px := 1; py := 1 |} /\ inside sample_left {| px := 1; py := 0 |} /\
  neighbor_index cpu {| px := 1; py := 1 |} {| px := 1; py := 0 |} = 3.
Proof. repeat split; reflexivity. Qed.

(** C06: for all coordinates of the index type. *)
Theorem C06_neighborhood_exists (T : target) (g : dgraph T) (p q : pixel) :
  wf_graph g -> px p < wmod T -> py p < wmod T -> px q < wmod T -> py q < wmod T ->
  (neighborhood_exists g p q = true <-> in_image g p /\ in_image g q /\ adjacent p q) /\
  neighborhood_exists g q p = neighborhood_exists g p q.
Proof. exact (neighborhoods_exist T g p q). Qed.
Print Assumptions C06_neighborhood_exists.

Example C06_hypotheses :
  wf_graph (sample_graph cpu) /\
  neighborhood_exists (sample_graph cpu) {| px := 1; py := 1 |} {| px := 2; py := 1 |} = true /\
  neighborhood_exists (sample_graph cpu) {| px := 0; py := 1 |} {| px := 2 ^ 64 - 1; py := 1 |} = false.
Proof. split; [exact sample_wf_cpu|split; reflexivity]. Qed.

(** C07: [node_exists] is exactly the set of possible matches when [x + d] does
    not wrap, and it does not wrap for nodes of the graph. *)
Theorem C07_node_exists (T : target) (g : dgraph T) (n : node) :
  wf_graph g ->
  (px (npix n) + disp n < wmod T -> (node_exists g n = true <-> match_exists g n)) /\
  (in_image g (npix n) -> disp n < levels g -> px (npix n) + disp n < wmod T).
Proof. exact (matches_exist T g n). Qed.
Print Assumptions C07_node_exists.

Example C07_hypotheses :
  wf_graph (sample_graph cpu) /\
  match_exists (sample_graph cpu) {| npix := {| px := 1; py := 1 |}; disp := 1 |} /\
  node_exists (sample_graph cpu) {| npix := {| px := 1; py := 1 |}; disp := 2 |} = false.
Proof. split; [exact sample_wf_cpu|split; [repeat split; reflexivity|reflexivity]]. Qed.

(** C08: the ordering constraint, and symmetry. *)
Theorem C08_edge_exists (T : target) (g : dgraph T) (e : edge) :
  wf_graph g ->
  px (npix (enode e)) + disp (enode e) < wmod T ->
  px (npix (enbr e)) + disp (enbr e) < wmod T ->
  (edge_exists g e = true <-> match_pair g e) /\
  edge_exists g (reverse e) = edge_exists g e.
Proof. exact (edges_exist T g e). Qed.
Print Assumptions C08_edge_exists.

Example C08_hypotheses :
  wf_graph (sample_graph cpu) /\
  match_pair (sample_graph cpu)
    {| enode := {| npix := {| px := 0; py := 1 |}; disp := 2 |};
       enbr := {| npix := {| px := 1; py := 1 |}; disp := 1 |} |} /\
  edge_exists (sample_graph cpu)
    {| enode := {| npix := {| px := 0; py := 1 |}; disp := 2 |};
       enbr := {| npix := {| px := 1; py := 1 |}; disp := 0 |} |} = false.
Proof.
  split; [exact sample_wf_cpu|]. split; [|reflexivity].
  split; [repeat split; reflexivity|]. split; [repeat split; reflexivity|].
  split; [left; split; reflexivity|]. split; intros H.
  - discriminate.
  - destruct H as [H _]. discriminate H.
Qed.
