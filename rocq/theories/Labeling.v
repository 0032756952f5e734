(** Thresholds and labelings (lib/labeling_finder.cpp). *)
From Verif Require Export Constraint.
Local Open Scope N_scope.

Section Graph.
Context {T : target}.

(** *** Library algorithms *)

(** [std::sort] is an arbitrary function [srt] (the theorems assume that it
    returns an ordered permutation); sorting a range that contains a NaN breaks
    the precondition of [std::sort]. *)
Definition std_sort (srt : list (F T) -> list (F T)) (l : list (F T))
  : outcome (list (F T)) :=
  if existsb (fun x => negb (feq x x)) l then Stop Undef else Ok (srt l).

(** [std::unique] followed by [erase]: an element equal to the last kept one is
    dropped. *)
Fixpoint unique_from (last : F T) (l : list (F T)) : list (F T) :=
  match l with
  | [] => []
  | x :: r => if feq last x then unique_from last r else x :: unique_from x r
  end.
Definition std_unique (l : list (F T)) : list (F T) :=
  match l with [] => [] | x :: r => x :: unique_from x r end.

(** [std::merge]: an element of the second range is taken first only if it is
    smaller. *)
Fixpoint std_merge (a : list (F T)) : list (F T) -> list (F T) :=
  fix merge_b (b : list (F T)) : list (F T) :=
    match a, b with
    | [], _ => b
    | _, [] => a
    | x :: a', y :: b' => if flt y x then y :: merge_b b' else x :: std_merge a' b
    end.

Fixpoint collect {A B} (l : list A) (f : A -> outcome B) : outcome (list B) :=
  match l with
  | [] => Ok []
  | a :: r => b <- f a ;; bs <- collect r f ;; Ok (b :: bs)
  end.

Section WithSort.
Context (srt : list (F T) -> list (F T)).

(** The three lines [sort], [unique], [erase], lib/labeling_finder.cpp 94-96,
    139-141, 177-179 and 218-220. *)
Definition sort_unique (l : list (F T)) : outcome (list (F T)) :=
  s <- std_sort srt l ;; Ok (std_unique s).

(** [fetch_pixel_available_penalties], lib/labeling_finder.cpp 70-99.  The
    preallocated result array is modelled by the list of its elements. *)
Definition fetch_pixel_available_penalties (g : dgraph T) (p : pixel) (m : F T)
  : outcome (list (F T)) :=
  let size := if uadd T (px p) (levels g) <? uadd T (width (left g)) 1
              then levels g else usub T (width (left g)) (px p) in
  if vector_max_size <? size then Stop (Throw LengthError) else
  l <- collect (range 0 size)
         (fun d => v <- node_penalty g {| npix := p; disp := d |} ;; Ok (fsub v m)) ;;
  sort_unique l.

(** [fetch_edge_available_penalties], lib/labeling_finder.cpp 101-144. *)
Definition fetch_edge_available_penalties (g : dgraph T) (e : edge) (m : F T)
  : outcome (list (F T)) :=
  let p := npix (enode e) in
  let q := npix (enbr e) in
  ls <- collect (disparities g (px p) 0)
    (fun d =>
       collect (disparities g (px q) (@initial_disparity T p q d))
         (fun d' =>
            v <- edge_penalty g {| enode := {| npix := p; disp := d |};
                                   enbr := {| npix := q; disp := d' |} |} ;;
            Ok (fsub v m))) ;;
  sort_unique (concat ls).

(** [fetch_available_penalties], lib/labeling_finder.cpp 146-225. *)
Definition fetch_available_penalties (lp : lowest T) : outcome (list (F T)) :=
  let g := lp_graph lp in
  loop (range 0 (width (right g)))
    (fun x res =>
       loop (range 0 (height (right g)))
         (fun y res =>
            let p := {| px := x; py := y |} in
            m <- lowest_pixel_penalty lp p ;;
            a <- fetch_pixel_available_penalties g p m ;;
            res <- sort_unique (std_merge res a) ;;
            loop (range 0 NEIGHBORS_COUNT)
              (fun k res =>
                 if negb (neighborhood_exists_fast g p k) then Ok res else
                 let e := {| enode := {| npix := p; disp := 0 |};
                             enbr := {| npix := neighbor_by_index T p k; disp := 0 |} |} in
                 m <- lowest_neighborhood_penalty lp e ;;
                 a <- fetch_edge_available_penalties g e m ;;
                 sort_unique (std_merge res a)) res) res) [].
End WithSort.

(** The loop of [calculate_minimal_consistent_threshold],
    lib/labeling_finder.cpp 233-256.  The second component of the result counts
    the calls of [solve_csp]; it does not exist in the code. *)
Fixpoint threshold_search (g : dgraph T) (lp : lowest T) (l : list (F T))
  (fuel : nat) (start stop calls : N) : outcome (F T * N) :=
  match fuel with
  | O => Stop Diverge
  | S f =>
      let current := uadd T start stop / 2 in
      if start <? stop then
        t <- get l current ;;
        cg <- make_constraint g lp t ;;
        r <- exec solve_csp cg ;;
        if fst r then threshold_search g lp l f start current (calls + 1)
        else threshold_search g lp l f (uadd T current 1) stop (calls + 1)
      else t <- get l current ;; Ok (t, calls)
  end.

(** [calculate_minimal_consistent_threshold], lib/labeling_finder.cpp 227-257. *)
Definition calculate_minimal_consistent_threshold (lp : lowest T) (g : dgraph T)
  (l : list (F T)) : outcome (F T) :=
  r <- threshold_search g lp l (S (length l)) 0 (usub T (len l) 1) 0 ;; Ok (fst r).

(** The number of calls of [solve_csp] made by it. *)
Definition minimal_threshold_calls (lp : lowest T) (g : dgraph T) (l : list (F T))
  : outcome N :=
  r <- threshold_search g lp l (S (length l)) 0 (usub T (len l) 1) 0 ;; Ok (snd r).

Implicit Type cg : cgraph T.

(** First loop of [choose_best_node], lib/labeling_finder.cpp 268-291. *)
Definition best_penalty cg (p : pixel) : cmd (F T) :=
  cloop (disparities (cg_graph cg) (px p) 0)
    (fun d m =>
       let n := {| npix := p; disp := d |} in
       a <== is_node_available cg n ;;
       if negb a then Ret m else
       v <== lift (node_penalty (cg_graph cg) n) ;;
       Ret (if flt m fzero then v else fmin v m)) fneg1.

(** [choose_best_node], lib/labeling_finder.cpp 260-319; the result is whether
    the returned pointer is not null. *)
Definition choose_best_node cg (p : pixel) : cmd bool :=
  m <== best_penalty cg p ;;
  cloop (disparities (cg_graph cg) (px p) 0)
    (fun d (chosen : bool) =>
       let n := {| npix := p; disp := d |} in
       a <== is_node_available cg n ;;
       if negb a then Ret chosen else
       if chosen then _ <== make_node_unavailable cg n ;; Ret chosen else
       v <== lift (node_penalty (cg_graph cg) n) ;;
       if flt m v then _ <== make_node_unavailable cg n ;; Ret chosen
       else Ret true) false.

(** The pixels in the order of the loops of [find_labeling],
    lib/labeling_finder.cpp 353-355. *)
Definition column_order (g : dgraph T) : list pixel :=
  flat_map (fun x => map (fun y => {| px := x; py := y |})
                         (range 0 (height (left g))))
           (range 0 (width (left g))).

Fixpoint label_pixels cg (l : list pixel) : cmd bool :=
  match l with
  | [] => Ret true
  | p :: r =>
      c <== choose_best_node cg p ;;
      if negb c then Ret false else
      s <== solve_csp cg ;;
      if negb s then Ret false else label_pixels cg r
  end.

(** [find_labeling], lib/labeling_finder.cpp 349-368; the result is whether the
    returned pointer is not null. *)
Definition find_labeling cg : cmd bool := label_pixels cg (column_order (cg_graph cg)).

(** Inner loop of [build_disparity_map], lib/labeling_finder.cpp 399-425. *)
Fixpoint find_label cg (res : image) (p : pixel) (ds : list N) (found : bool)
  : cmd (bool * image) :=
  match ds with
  | [] => Ret (found, res)
  | d :: r =>
      a <== is_node_available cg {| npix := p; disp := d |} ;;
      if a then
        if found then Fail (Throw TwoLabels) else
        dat <== lift (set (data res) (pixel_index T res p) d) ;;
        Ret (true, {| width := width res; height := height res;
                      max_value := max_value res; data := dat |})
      else find_label cg res p r found
  end.

(** [build_disparity_map], lib/labeling_finder.cpp 370-440. *)
Definition build_disparity_map cg : cmd image :=
  let g := cg_graph cg in
  dat <== lift (alloc (umul T (height (left g)) (width (left g))) 0) ;;
  r <== cloop (column_order g)
    (fun p (st : bool * image) =>
       r <== find_label cg (snd st) p (disparities g (px p) 0) (fst st) ;;
       if negb (fst r) then Fail (Throw NoLabel) else Ret (false, snd r))
    (false, {| width := width (left g); height := height (left g);
               max_value := levels g; data := dat |}) ;;
  Ret (snd r).
End Graph.
