(** Lowest penalties of pixels and neighborhoods (lib/lowest_penalties.cpp). *)
From Verif Require Export Disparity.
Local Open Scope N_scope.

(** struct LowestPenalties, include/lowest_penalties.hpp (fields).  [lp_graph]
    is the graph the pointer [graph] points to. *)
Record lowest (T : target) : Type := {
  lp_graph : dgraph T;
  lp_pixels : list (F T);
  lp_neighborhoods : list (F T)
}.
Arguments lp_graph {T}. Arguments lp_pixels {T}. Arguments lp_neighborhoods {T}.

Section Graph.
Context {T : target}.
Implicit Type g : dgraph T.

(** The values of [d] in
    [for (d = from; x + d < graph->left.width && d < graph->disparity_levels; ++d)];
    this loop header occurs in lib/lowest_penalties.cpp 106-111, 148-153 and
    166-171, lib/constraint_graph.cpp 93-99 and 219-226, lib/labeling_finder.cpp
    110-115, 128-133, 269-274, 294-299 and 399-406. *)
Definition disparities g (x from : N) : list N :=
  range_while (fun d => uadd T x d <? width (left g)) from (levels g).

(** [calculate_lowest_pixel_penalty], lib/lowest_penalties.cpp 97-119. *)
Definition calculate_lowest_pixel_penalty g (p : pixel) : outcome (F T) :=
  m0 <- node_penalty g {| npix := p; disp := 0 |} ;;
  loop (disparities g (px p) 0)
    (fun d m => v <- node_penalty g {| npix := p; disp := d |} ;; Ok (fmin v m)) m0.

(** First neighbor disparity for a node disparity [d],
    lib/lowest_penalties.cpp 155-165 and lib/labeling_finder.cpp 117-127. *)
Definition initial_disparity (p q : pixel) (d : N) : N :=
  if (d <=? 1) || (px q =? px p) then 0 else usub T d 1.

(** [calculate_lowest_neighborhood_penalty_fast], lib/lowest_penalties.cpp
    141-180. *)
Definition calculate_lowest_neighborhood_penalty_fast g (e : edge) : outcome (F T) :=
  let p := npix (enode e) in
  let q := npix (enbr e) in
  m0 <- edge_penalty g e ;;
  loop (disparities g (px p) 0)
    (fun d m =>
       loop (disparities g (px q) (initial_disparity p q d))
         (fun d' m' =>
            v <- edge_penalty g {| enode := {| npix := p; disp := d |};
                                   enbr := {| npix := q; disp := d' |} |} ;;
            Ok (fmin v m')) m) m0.

(** [calculate_lowest_neighborhood_penalty], lib/lowest_penalties.cpp 121-139. *)
Definition calculate_lowest_neighborhood_penalty g (p q : pixel) : outcome (F T) :=
  calculate_lowest_neighborhood_penalty_fast g
    {| enode := {| npix := p; disp := 0 |}; enbr := {| npix := q; disp := 0 |} |}.

(** [calculate_lowest_neighborhood_penalty_slow], lib/lowest_penalties.cpp
    182-200. *)
Definition calculate_lowest_neighborhood_penalty_slow g (p : pixel) (nbr : N)
  : outcome (F T) :=
  calculate_lowest_neighborhood_penalty_fast g
    {| enode := {| npix := p; disp := 0 |};
       enbr := {| npix := neighbor_by_index T p nbr; disp := 0 |} |}.

(** The constructor of LowestPenalties, lib/lowest_penalties.cpp 43-94. *)
Definition make_lowest g : outcome (lowest T) :=
  ps <- alloc (umul T (height (right g)) (width (right g))) fzero ;;
  ns <- alloc (umul T (umul T NEIGHBORS_COUNT (height (right g))) (width (right g)))
              fzero ;;
  r <- loop (range 0 (width (right g)))
    (fun x st =>
       loop (range 0 (height (right g)))
         (fun y (st : list (F T) * list (F T)) =>
            let p := {| px := x; py := y |} in
            v <- calculate_lowest_pixel_penalty g p ;;
            ps' <- set (fst st) (pixel_index T (right g) p) v ;;
            ns' <- loop (range 0 NEIGHBORS_COUNT)
              (fun n ns =>
                 if negb (neighborhood_exists_fast g p n) then Ok ns else
                 w <- calculate_lowest_neighborhood_penalty_slow g p n ;;
                 set ns (neighborhood_index_fast g p n) w) (snd st) ;;
            Ok (ps', ns')) st) (ps, ns) ;;
  Ok {| lp_graph := g; lp_pixels := fst r; lp_neighborhoods := snd r |}.

(** [lowest_pixel_penalty], lib/lowest_penalties.cpp 202-208. *)
Definition lowest_pixel_penalty (lp : lowest T) (p : pixel) : outcome (F T) :=
  get (lp_pixels lp) (pixel_index T (right (lp_graph lp)) p).

(** [lowest_neighborhood_penalty_fast], lib/lowest_penalties.cpp 210-219. *)
Definition lowest_neighborhood_penalty_fast (lp : lowest T) (p q : pixel)
  : outcome (F T) :=
  get (lp_neighborhoods lp) (neighborhood_index (lp_graph lp) p q).

(** [lowest_neighborhood_penalty], lib/lowest_penalties.cpp 221-229. *)
Definition lowest_neighborhood_penalty (lp : lowest T) (e : edge) : outcome (F T) :=
  get (lp_neighborhoods lp) (neighborhood_index_slow (lp_graph lp) e).
End Graph.
