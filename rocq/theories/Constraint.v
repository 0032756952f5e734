(** The constraint graph and its solver (lib/constraint_graph.cpp). *)
From Verif Require Export Lowest Cmd.
Local Open Scope N_scope.

(** struct ConstraintGraph, include/constraint_graph.hpp 273-330 (fields); the
    first two fields are what the pointers point to. *)
Record cgraph (T : target) : Type := {
  cg_graph : dgraph T;
  cg_lowest : lowest T;
  cg_threshold : F T;
  cg_avail : list bool
}.
Arguments cg_graph {T}. Arguments cg_lowest {T}. Arguments cg_threshold {T}.
Arguments cg_avail {T}.

(** [max_size] of [std::vector<bool>] (libstdc++). *)
Definition bit_vector_max_size : N := 2 ^ 63 - 64.
Definition alloc_bits (n : N) : outcome (list bool) :=
  if bit_vector_max_size <? n then Stop (Throw LengthError) else Ok (fill n false).

Section Graph.
Context {T : target}.
Implicit Type cg : cgraph T.

Definition with_avail cg (m : list bool) : cgraph T :=
  {| cg_graph := cg_graph cg; cg_lowest := cg_lowest cg;
     cg_threshold := cg_threshold cg; cg_avail := m |}.

(** Single-threaded execution of a function on a constraint graph. *)
Definition exec {A} (f : cgraph T -> cmd A) cg : outcome (A * cgraph T) :=
  r <- run (f cg) (cg_avail cg) ;; Ok (fst r, with_avail cg (snd r)).

(** Number of elements of the availability array as computed in
    lib/constraint_graph.cpp 70-72, 138-140 and 247-249. *)
Definition nodes_count (g : dgraph T) : N :=
  umul T (umul T (width (right g)) (height (right g))) (levels g).

(** [make_node_available], lib/constraint_graph.cpp 115-122. *)
Definition make_node_available cg (n : node) : cmd unit :=
  Write (node_index (cg_graph cg) n) true (Ret tt).

(** [make_node_unavailable], lib/constraint_graph.cpp 124-131. *)
Definition make_node_unavailable cg (n : node) : cmd unit :=
  Write (node_index (cg_graph cg) n) false (Ret tt).

(** [make_all_nodes_unavailable], lib/constraint_graph.cpp 133-146. *)
Definition make_all_nodes_unavailable cg : cmd unit :=
  cloop (range 0 (nodes_count (cg_graph cg)))
    (fun i _ => Write i false (Ret tt)) tt.

(** [is_node_available], lib/constraint_graph.cpp 148-156. *)
Definition is_node_available cg (n : node) : cmd bool :=
  Read (node_index (cg_graph cg) n) (fun b => Ret b).

(** [is_edge_available], lib/constraint_graph.cpp 158-170; [&&] evaluates from
    left to right and stops at the first false operand. *)
Definition is_edge_available cg (e : edge) : cmd bool :=
  p <== lift (edge_penalty (cg_graph cg) e) ;;
  m <== lift (lowest_neighborhood_penalty (cg_lowest cg) e) ;;
  if fle (fsub p m) (cg_threshold cg) then
    a <== is_node_available cg (enode e) ;;
    if a then
      b <== is_node_available cg (enbr e) ;;
      if b then Ret (edge_exists (cg_graph cg) e) else Ret false
    else Ret false
  else Ret false.

(** First neighbor disparity, lib/constraint_graph.cpp 206-216. *)
Definition first_disparity (n : node) (q : pixel) : N :=
  if (uadd T (px (npix n)) 1 =? px q) && (1 <? disp n) then usub T (disp n) 1 else 0.

(** The search for an available edge to one neighbor,
    lib/constraint_graph.cpp 218-233. *)
Definition has_edge_to cg (n : node) (q : pixel) : cmd bool :=
  cexists (disparities (cg_graph cg) (px q) (first_disparity n q))
    (fun d' => is_edge_available cg
       {| enode := n; enbr := {| npix := q; disp := d' |} |}).

(** [should_remove_node], lib/constraint_graph.cpp 172-240. *)
Definition should_remove_node cg (n : node) : cmd bool :=
  a <== is_node_available cg n ;;
  if negb a then Ret false else
  cexists (range 0 NEIGHBORS_COUNT)
    (fun k =>
       if negb (neighborhood_exists_fast (cg_graph cg) (npix n) k) then Ret false else
       found <== has_edge_to cg n (neighbor_by_index T (npix n) k) ;;
       Ret (negb found)).

(** [check_nodes_left], lib/constraint_graph.cpp 242-259. *)
Definition check_nodes_left cg : cmd bool :=
  cexists (range 0 (nodes_count (cg_graph cg))) (fun i => Read i (fun b => Ret b)).

(** Loop header of lib/constraint_graph.cpp 270-276 and 320-326 (it uses the
    width of the right image). *)
Definition disparities_right (g : dgraph T) (x : N) : list N :=
  range_while (fun d => uadd T x d <? width (right g)) 0 (levels g).

(** [csp_process_pixel], lib/constraint_graph.cpp 261-285. *)
Definition csp_process_pixel cg (p : pixel) : cmd bool :=
  cloop (disparities_right (cg_graph cg) (px p))
    (fun d changed =>
       let n := {| npix := p; disp := d |} in
       rm <== should_remove_node cg n ;;
       if rm then _ <== make_node_unavailable cg n ;; Ret true else Ret changed)
    false.

(** The test whether a pixel still has a node, lib/constraint_graph.cpp
    319-332 (no [break] in this loop). *)
Definition pixel_available cg (p : pixel) : cmd bool :=
  cloop (disparities_right (cg_graph cg) (px p))
    (fun d pa =>
       a <== is_node_available cg {| npix := p; disp := d |} ;;
       Ret (if a then true else pa)) false.

(** The loop over one row, lib/constraint_graph.cpp 312-337.  The result of
    [csp_process_pixel] is not used.  [pa] is the variable [pixel_available]. *)
Fixpoint sweep_row cg (y : N) (xs : list N) (pa : bool) : cmd bool :=
  match xs with
  | [] => Ret pa
  | x :: r =>
      let p := {| px := x; py := y |} in
      _ <== csp_process_pixel cg p ;;
      pa' <== pixel_available cg p ;;
      if pa' then sweep_row cg y r pa' else Ret false
  end.

(** The loop over the rows of one job, lib/constraint_graph.cpp 306-342. *)
Fixpoint sweep_rows cg (fuel : nat) (jobs y : N) (pa : bool) : cmd bool :=
  match fuel with
  | O => Fail Diverge
  | S f =>
      if y <? height (right (cg_graph cg)) then
        pa' <== sweep_row cg y (range 0 (width (right (cg_graph cg)))) pa ;;
        if pa' then sweep_rows cg f jobs (uadd T y jobs) pa' else Ret false
      else Ret pa
  end.

(** [csp_solution_iteration], lib/constraint_graph.cpp 287-353.  The variable
    [changed] of the code is never assigned after its initialisation. *)
Definition csp_solution_iteration cg (jobs job_number : N) : cmd bool :=
  if height (right (cg_graph cg)) <=? job_number then Ret false else
  pa <== sweep_rows cg (S (N.to_nat (height (right (cg_graph cg))))) jobs job_number
           false ;;
  if negb pa then
    c <== check_nodes_left cg ;;
    if negb c then Ret false else
    _ <== make_all_nodes_unavailable cg ;; Ret true
  else Ret false.

(** One round of the loop of [solve_csp] executed by one thread,
    lib/constraint_graph.cpp 364-371; [bound] is the number of iterations of the
    [for] loop and [jobs] the value of THREADS_NUMBER inside its body. *)
Definition csp_round cg (bound jobs : N) : cmd bool :=
  cloop (range 0 bound)
    (fun i changed =>
       r <== csp_solution_iteration cg jobs i ;; Ret (changed || r)) false.

Fixpoint csp_rounds cg (fuel : nat) (bound jobs : N) : cmd unit :=
  match fuel with
  | O => Fail Diverge
  | S f =>
      changed <== csp_round cg bound jobs ;;
      if changed then csp_rounds cg f bound jobs else Ret tt
  end.

(** [solve_csp] with an explicit bound on the number of rounds,
    lib/constraint_graph.cpp 356-374. *)
Definition solve_csp_fuel (fuel : nat) (bound jobs : N) cg : cmd bool :=
  _ <== csp_rounds cg fuel bound jobs ;; check_nodes_left cg.

(** [solve_csp] without OpenMP: THREADS_NUMBER is 1 (lib/constraint_graph.cpp
    40).  Two rounds are always enough (theorem [C35_solve_csp_terminates]). *)
Definition solve_csp cg : cmd bool := solve_csp_fuel 2 1 1 cg.

(** The constructor of ConstraintGraph, lib/constraint_graph.cpp 60-112. *)
Definition make_constraint (g : dgraph T) (lp : lowest T) (t : F T)
  : outcome (cgraph T) :=
  m <- alloc_bits (nodes_count g) ;;
  let cg := {| cg_graph := g; cg_lowest := lp; cg_threshold := t; cg_avail := m |} in
  r <- run
    (cloop (range 0 (width (right g)))
       (fun x _ =>
          cloop (range 0 (height (right g)))
            (fun y _ =>
               cloop (disparities g x 0)
                 (fun d _ =>
                    let n := {| npix := {| px := x; py := y |}; disp := d |} in
                    p <== lift (node_penalty g n) ;;
                    l <== lift (lowest_pixel_penalty lp (npix n)) ;;
                    if fle (fsub p l) t then make_node_available cg n else Ret tt)
                 tt) tt) tt)
    m ;;
  Ok (with_avail cg (snd r)).
End Graph.
