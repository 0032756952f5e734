(** The disparity graph (lib/disparity_graph.cpp). *)
From Verif Require Export Indexing.
Local Open Scope N_scope.

(** [max_size] of [std::vector] of 8-byte elements (libstdc++): larger requests
    throw [std::length_error].  Smaller allocations are assumed to succeed. *)
Definition vector_max_size : N := 2 ^ 60 - 1.
Definition alloc {A} (n : N) (v : A) : outcome (list A) :=
  if vector_max_size <? n then Stop (Throw LengthError) else Ok (fill n v).

Section Graph.
Context {T : target}.
Implicit Type g : dgraph T.

(** The constructor of DisparityGraph, lib/disparity_graph.cpp 64-181.  The
    exceptions are numbered in the order of the checks:
    0 left image (77-80), 1 right image (81-84), 2 too few levels (85-90),
    3 too many levels (91-102), 4 widths (103-113), 5 heights (114-124),
    6 maximal values (125-135), 7 negative cleanness (136-144),
    8 negative smoothness (145-153), 9 both weights below epsilon (154-168).
    The [resize] and [fill] are lines 170-180. *)
Definition make_graph (l r : image) (lev : N) (c s : F T) : outcome (dgraph T) :=
  lv <- image_valid T l ;;
  if negb lv then Stop (Throw (InvalidArgument 0)) else
  rv <- image_valid T r ;;
  if negb rv then Stop (Throw (InvalidArgument 1)) else
  if lev <=? 1 then Stop (Throw (InvalidArgument 2)) else
  if width l <? lev then Stop (Throw (InvalidArgument 3)) else
  if negb (width l =? width r) then Stop (Throw (InvalidArgument 4)) else
  if negb (height l =? height r) then Stop (Throw (InvalidArgument 5)) else
  if negb (max_value l =? max_value r) then Stop (Throw (InvalidArgument 6)) else
  if flt c fzero then Stop (Throw (InvalidArgument 7)) else
  if flt s fzero then Stop (Throw (InvalidArgument 8)) else
  if flt c feps && flt s feps then Stop (Throw (InvalidArgument 9)) else
  rp <- alloc (umul T (umul T (umul T (width l) (height l)) NEIGHBORS_COUNT) lev)
              fzero ;;
  Ok {| left := l; right := r; levels := lev; cleanness := c; smoothness := s;
        reparam := rp |}.

(** [edge_penalty], lib/disparity_graph.cpp 184-191. *)
Definition edge_penalty g (e : edge) : outcome (F T) :=
  r1 <- reparametrization_value_slow g e ;;
  r2 <- reparametrization_value g (enbr e) (npix (enode e)) ;;
  Ok (fsub (fsub (fmul (smoothness g)
                       (fsqr (fsub (of_u (disp (enode e))) (of_u (disp (enbr e))))))
                 r1) r2).

(** [node_penalty], lib/disparity_graph.cpp 193-206. *)
Definition node_penalty g (n : node) : outcome (F T) :=
  let left_pixel := {| px := uadd T (px (npix n)) (disp n); py := py (npix n) |} in
  vr <- pixel_value T (right g) (npix n) ;;
  vl <- pixel_value T (left g) left_pixel ;;
  r0 <- reparametrization_value_fast g n 0 ;;
  r1 <- reparametrization_value_fast g n 1 ;;
  r2 <- reparametrization_value_fast g n 2 ;;
  r3 <- reparametrization_value_fast g n 3 ;;
  Ok (fadd (fadd (fadd (fadd
        (fmul (cleanness g) (fsqr (fsub (of_u vr) (of_u vl)))) r0) r1) r2) r3).
End Graph.
