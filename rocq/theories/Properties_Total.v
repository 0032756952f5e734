(** Property C128: the energy of the maps. *)
From Coq Require Import Reals String.
From Verif Require Import Exact_witness Energy_witness Total_proofs Witnesses Total_witness.
Local Open Scope Z_scope.

(** C128: every labeling has exactly one energy... *)
Theorem C128_energy_exists l r c s k :
  (exists e, total_cost l r c s k e) /\ forall e e', total_cost l r c s k e -> total_cost l r c s k e' -> e = e'.
Proof. exact (conj (total_exists l r c s k) (total_unique l r c s k)). Qed.
Print Assumptions C128_energy_exists.

(** ...that of an optimal map exceeds the lowest energy by at most the threshold for
    every pixel and every pair of neighbors; it is the lowest one if some labeling
    takes only penalties that are lowest (b = 0)... *)
Theorem C128_maps l r lev c s b k k' img e e' :
  0 <= s -> optimal_map l r lev c s img ->
  ordered_labeling r lev k -> within_bound l r lev c s b k -> ordered_labeling r lev k' ->
  total_cost l r c s (map_labeling img) e -> total_cost l r c s k' e' -> e <= e' + b * terms r.
Proof. exact (map_near l r lev c s b k k' img e e'). Qed.
Print Assumptions C128_maps.

(** The bound says that the energy 12 of this map exceeds others by at most 30. *)
Example C128_map : optimal_map l128 r128 2 1 6 map128 /\ ordered_labeling r128 2 (map_labeling map128) /\
  within_bound l128 r128 2 1 6 6 (map_labeling map128) /\ terms r128 = 5.
Proof. exact (conj map128_optimal (conj (proj1 map128_bound) (conj (proj2 map128_bound) eq_refl))). Qed.

(** ...the maps that runs write are such maps... *)
Theorem C128_written srt w p e path txt :
  sorts srt -> usable_files w -> main srt w p = Ok e -> written_file e = Some (path, txt) ->
  exists o lpath rpath l r lev c s img, p = Parsed o /\ all_paths o lpath rpath path /\
    file_holds w lpath l /\ file_holds w rpath r /\ option_number (width l) (o_levels o) lev /\
    option_number 1 (o_cleanness o) c /\ option_number 1 (o_smoothness o) s /\
    write_image [] (Some img) = Ok txt /\
    (small_penalties (2 ^ 53) l r lev (Z.of_N c) (Z.of_N s) ->
     forall k b k' e e', ordered_labeling r lev k -> within_bound l r lev (Z.of_N c) (Z.of_N s) b k -> ordered_labeling r lev k' ->
       total_cost l r (Z.of_N c) (Z.of_N s) (map_labeling img) e -> total_cost l r (Z.of_N c) (Z.of_N s) k' e' ->
       e <= e' + b * terms r).
Proof. exact (written_near srt w p e path txt). Qed.
Print Assumptions C128_written.

Example C128_hypotheses : usable_files wg /\ (exists srt, @sorts cpu srt) /\ all_paths (og out_path) (lit "l.pgm") (lit "r.pgm") out_path /\
  file_holds wg (lit "l.pgm") gl /\ file_holds wg (lit "r.pgm") gr /\
  option_number (width gl) (o_levels (og out_path)) 3 /\ option_number 1 (o_cleanness (og out_path)) 1 /\
  option_number 1 (o_smoothness (og out_path)) 1 /\ small_penalties (2 ^ 53) gl gr 3 1 1.
Proof. exact small_run. Qed.

(** ...but they need not have the lowest energy. *)
Theorem C128_lowest_energy_refuted : exists srt l r lev c s img k e e',
  @sorts cpu srt /\ consistent_image l /\ consistent_image r /\
  solve_problem (T := cpu) srt l r lev (of_u c) (of_u s) = Ok img /\
  small_penalties (2 ^ 53) l r lev (Z.of_N c) (Z.of_N s) /\ ordered_labeling r lev k /\
  total_cost l r (Z.of_N c) (Z.of_N s) (map_labeling img) e /\ total_cost l r (Z.of_N c) (Z.of_N s) k e' /\ e' < e.
Proof. exact not_least. Qed.
Print Assumptions C128_lowest_energy_refuted.

(** The same in real numbers: a labeling within a threshold of the lower bound... *)
Theorem C128_bound (g : dgraph exact) lp (t : R) k e b :
  wf_graph g -> make_lowest g = Ok lp -> nodes_within g lp t k -> edges_within g lp t k ->
  energy g k e -> lowest_sum g lp b -> (e <= b + t * IZR (terms (right g)))%R.
Proof. exact (energy_near g lp t k e b). Qed.
Print Assumptions C128_bound.

(** ...and, for all potentials, of the lowest energy: with the threshold 0 it is "a
    solution to the minimization problem". *)
Theorem C128_dual (g g' : dgraph exact) lp' (t : R) k k' e e' :
  wf_graph g -> wf_graph g' -> reparametrized g g' -> no_outer_potentials g -> no_outer_potentials g' ->
  make_lowest g' = Ok lp' -> labeling_ok g k -> nodes_within g' lp' t k -> edges_within g' lp' t k -> labeling_ok g k' ->
  energy g k e -> energy g k' e' -> (e <= e' + t * IZR (terms (right g)))%R.
Proof. exact (dual_near g g' lp' t k k' e e'). Qed.
Print Assumptions C128_dual.

(** Every labeling is within some threshold. *)
Theorem C128_some_threshold (g : dgraph exact) lp k :
  wf_graph g -> make_lowest g = Ok lp -> labeling_ok g k ->
  exists t : R, (0 <= t)%R /\ nodes_within g lp t k /\ edges_within g lp t k.
Proof. exact (some_threshold g lp k). Qed.
Print Assumptions C128_some_threshold.

Example C128_dual_hypotheses : wf_graph plain /\ wf_graph shifted /\ reparametrized plain shifted /\
  no_outer_potentials plain /\ no_outer_potentials shifted /\ labeling_ok plain zero_labeling /\
  exists lp, make_lowest shifted = Ok lp.
Proof.
  exact (conj plain_wf (conj shifted_wf (conj shifted_same (conj plain_outer (conj shifted_outer (conj (proj1 zero_fits) lowest_shifted)))))).
Qed.
