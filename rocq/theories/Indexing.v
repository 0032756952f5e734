(** Index computations (lib/indexing.cpp) and existence checks
    (lib/indexing_checks.cpp). *)
From Verif Require Export Image.
Local Open Scope N_scope.

(** struct Pixel, include/types.hpp 116-126. *)
Record pixel : Type := { px : N; py : N }.
(** struct Node, include/types.hpp 132-146. *)
Record node : Type := { npix : pixel; disp : N }.
(** struct Edge, include/types.hpp 151-161. *)
Record edge : Type := { enode : node; enbr : node }.

Definition pixel_eqb (p q : pixel) : bool := (px p =? px q) && (py p =? py q).

(** NEIGHBORS_COUNT, include/disparity_graph.hpp 59. *)
Definition NEIGHBORS_COUNT : N := 4.

(** struct DisparityGraph, include/disparity_graph.hpp 310-393 (fields). *)
Record dgraph (T : target) : Type := {
  left : image;
  right : image;
  levels : N;
  cleanness : F T;
  smoothness : F T;
  reparam : list (F T)
}.
Arguments left {T}. Arguments right {T}. Arguments levels {T}.
Arguments cleanness {T}. Arguments smoothness {T}. Arguments reparam {T}.

(** [pixel_index], lib/indexing.cpp 36-39. *)
Definition pixel_index (T : target) (img : image) (p : pixel) : N :=
  uadd T (umul T (width img) (py p)) (px p).

(** [pixel_value], lib/indexing.cpp 41-44. *)
Definition pixel_value (T : target) (img : image) (p : pixel) : outcome N :=
  get (data img) (pixel_index T img p).

(** [neighbor_index], lib/indexing.cpp 46-72. *)
Definition neighbor_index (T : target) (p q : pixel) : N :=
  if negb (px p =? px q) && negb (py p =? py q) then NEIGHBORS_COUNT
  else if uadd T (px p) 1 =? px q then 0
  else if px p =? uadd T (px q) 1 then 1
  else if uadd T (py p) 1 =? py q then 2
  else if py p =? uadd T (py q) 1 then 3
  else NEIGHBORS_COUNT.

(** [neighbor_by_index], lib/indexing.cpp 187-209. *)
Definition neighbor_by_index (T : target) (p : pixel) (n : N) : pixel :=
  if n =? 0 then {| px := uadd T (px p) 1; py := py p |}
  else if n =? 1 then {| px := usub T (px p) 1; py := py p |}
  else if n =? 2 then {| px := px p; py := uadd T (py p) 1 |}
  else if n =? 3 then {| px := px p; py := usub T (py p) 1 |}
  else p.

Section Graph.
Context {T : target}.
Implicit Type g : dgraph T.

(** [reparametrization_index_fast], lib/indexing.cpp 74-91. *)
Definition reparametrization_index_fast g (n : node) (nbr : N) : N :=
  let index := 0 in
  let index := umul T index (width (right g)) in
  let index := uadd T index (px (npix n)) in
  let index := umul T index NEIGHBORS_COUNT in
  let index := uadd T index nbr in
  let index := umul T index (levels g) in
  let index := uadd T index (disp n) in
  let index := umul T index (height (left g)) in
  uadd T index (py (npix n)).

(** [reparametrization_index], lib/indexing.cpp 93-104. *)
Definition reparametrization_index g (n : node) (nbr : pixel) : N :=
  reparametrization_index_fast g n (neighbor_index T (npix n) nbr).

(** [reparametrization_index_slow], lib/indexing.cpp 106-116. *)
Definition reparametrization_index_slow g (e : edge) : N :=
  reparametrization_index_fast g (enode e)
    (neighbor_index T (npix (enode e)) (npix (enbr e))).

(** [reparametrization_value], lib/indexing.cpp 118-125. *)
Definition reparametrization_value g (n : node) (nbr : pixel) : outcome (F T) :=
  get (reparam g) (reparametrization_index g n nbr).

(** [reparametrization_value_slow], lib/indexing.cpp 127-133. *)
Definition reparametrization_value_slow g (e : edge) : outcome (F T) :=
  get (reparam g) (reparametrization_index_slow g e).

(** [reparametrization_value_fast], lib/indexing.cpp 135-144. *)
Definition reparametrization_value_fast g (n : node) (nbr : N) : outcome (F T) :=
  get (reparam g) (reparametrization_index_fast g n nbr).

(** [node_index], lib/indexing.cpp 146-150. *)
Definition node_index g (n : node) : N :=
  uadd T (disp n)
    (umul T (levels g)
       (uadd T (py (npix n)) (umul T (height (right g)) (px (npix n))))).

(** [neighborhood_index_fast], lib/indexing.cpp 152-160. *)
Definition neighborhood_index_fast g (p : pixel) (nbr : N) : N :=
  uadd T nbr
    (umul T NEIGHBORS_COUNT (uadd T (py p) (umul T (height (right g)) (px p)))).

(** [neighborhood_index], lib/indexing.cpp 162-173. *)
Definition neighborhood_index g (p q : pixel) : N :=
  neighborhood_index_fast g p (neighbor_index T p q).

(** [neighborhood_index_slow], lib/indexing.cpp 175-185. *)
Definition neighborhood_index_slow g (e : edge) : N :=
  neighborhood_index_fast g (npix (enode e))
    (neighbor_index T (npix (enode e)) (npix (enbr e))).

(** [neighborhood_exists_fast], lib/indexing_checks.cpp 51-65. *)
Definition neighborhood_exists_fast g (p : pixel) (nbr : N) : bool :=
  negb ((3 <? nbr)
        || (height (right g) <=? py p)
        || (width (right g) <=? px p)
        || ((uadd T (px p) 1 =? width (left g)) && (nbr =? 0))
        || ((px p =? 0) && (nbr =? 1))
        || ((uadd T (py p) 1 =? height (left g)) && (nbr =? 2))
        || ((py p =? 0) && (nbr =? 3))).

(** [neighborhood_exists], lib/indexing_checks.cpp 38-49. *)
Definition neighborhood_exists g (p q : pixel) : bool :=
  neighborhood_exists_fast g p (neighbor_index T p q).

(** [node_exists], lib/indexing_checks.cpp 67-78. *)
Definition node_exists g (n : node) : bool :=
  negb ((levels g <=? disp n)
        || (height (right g) <=? py (npix n))
        || (width (right g) <=? px (npix n))
        || (width (left g) <=? uadd T (px (npix n)) (disp n))).

(** [edge_exists], lib/indexing_checks.cpp 80-115. *)
Definition edge_exists g (e : edge) : bool :=
  if negb (node_exists g (enode e)) then false
  else if negb (node_exists g (enbr e)) then false
  else if negb (neighborhood_exists g (npix (enode e)) (npix (enbr e))) then false
  else if negb (py (npix (enode e)) =? py (npix (enbr e))) then true
  else if (uadd T (px (npix (enode e))) 1 =? px (npix (enbr e)))
          && (uadd T (disp (enbr e)) 1 <? disp (enode e)) then false
  else if (px (npix (enode e)) =? uadd T (px (npix (enbr e))) 1)
          && (uadd T (disp (enode e)) 1 <? disp (enbr e)) then false
  else true.
End Graph.
