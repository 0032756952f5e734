(** Properties C22 (second part), C60 and C61: exact arithmetic. *)
From Coq Require Import Reals String.
From Flocq Require Import Core.Core IEEE754.BinarySingleNaN.
From Verif Require Import Exact_witness.
Local Open Scope Z_scope.

(** C22, second part: while the penalties stay small, they are the documented
    integers.  For every IEEE 754 build whose conversion of small numbers is exact. *)
Theorem C22_exact prec emax (Hp : Prec_gt_0 prec) (He : Prec_lt_emax prec emax) w conv
  (Hconv : forall n, Z.of_N n <= 2 ^ prec -> conv n = Z.of_N n) (g : dgraph (ieee prec emax Hp He w conv)) c s :
  wf_graph g -> zero_reparam g -> is_int (cleanness g) c -> is_int (smoothness g) s ->
  small_penalties (2 ^ prec) (left g) (right g) (levels g) c s ->
  (forall n, is_match (right g) (levels g) n ->
     exists v, node_penalty g n = Ok v /\ is_int v (node_cost (left g) (right g) c n)) /\
  (forall n n', is_match (right g) (levels g) n -> is_match (right g) (levels g) n' -> adjacent (npix n) (npix n') ->
     exists v, edge_penalty g {| enode := n; enbr := n' |} = Ok v /\ is_int v (edge_cost s (disp n) (disp n'))).
Proof. exact (small_formulas prec emax Hp He w conv Hconv g c s). Qed.
Print Assumptions C22_exact.

Example C22_exact_hypotheses : wf_graph sg /\ zero_reparam sg /\ is_int (cleanness sg) 1 /\ is_int (smoothness sg) 1 /\
  small_penalties (2 ^ 53) (left sg) (right sg) (levels sg) 1 1.
Proof. exact (conj sample_wf_cpu (conj sg_zero (conj (proj1 one_int) (conj (proj2 one_int) (proj1 small_sample))))). Qed.

(** C60: the stored minima and the excesses are the exact ones too... *)
Theorem C60_minima prec emax (Hp : Prec_gt_0 prec) (He : Prec_lt_emax prec emax) w conv
  (Hconv : forall n, Z.of_N n <= 2 ^ prec -> conv n = Z.of_N n) (g : dgraph (ieee prec emax Hp He w conv)) lp c s :
  wf_graph g -> zero_reparam g -> is_int (cleanness g) c -> is_int (smoothness g) s ->
  small_penalties (2 ^ prec) (left g) (right g) (levels g) c s -> make_lowest g = Ok lp ->
  (forall p, inside (right g) p -> exists v z, lowest_pixel_penalty lp p = Ok v /\ is_int v z /\
     lowest_cost (left g) (right g) (levels g) c p z) /\
  (forall e, inside (right g) (npix (enode e)) -> inside (right g) (npix (enbr e)) -> adjacent (npix (enode e)) (npix (enbr e)) ->
     exists v, lowest_neighborhood_penalty lp e = Ok v /\ is_int v 0) /\
  (forall n, is_match (right g) (levels g) n -> exists v z, node_excess g lp n v /\
     lowest_cost (left g) (right g) (levels g) c (npix n) z /\ is_int v (node_cost (left g) (right g) c n - z)) /\
  (forall n n', is_match (right g) (levels g) n -> is_match (right g) (levels g) n' -> adjacent (npix n) (npix n') ->
     exists v, edge_excess g lp {| enode := n; enbr := n' |} v /\ is_int v (edge_cost s (disp n) (disp n'))).
Proof. exact (small_minima prec emax Hp He w conv Hconv g lp c s). Qed.
Print Assumptions C60_minima.

(** ...comparisons of such numbers are exact... *)
Theorem C60_comparisons prec emax (Hp : Prec_gt_0 prec) (He : Prec_lt_emax prec emax) w conv
  (x y : F (ieee prec emax Hp He w conv)) a b : is_int x a -> is_int y b ->
  (fle x y = true <-> a <= b) /\ (flt x y = true <-> a < b) /\ (feq x y = true <-> a = b).
Proof. exact (small_compare prec emax Hp He w conv x y a b). Qed.
Print Assumptions C60_comparisons.

(** ...the threshold is an integer below which no labeling stays... *)
Theorem C60_threshold prec emax (Hp : Prec_gt_0 prec) (He : Prec_lt_emax prec emax) w conv
  (Hconv : forall n, Z.of_N n <= 2 ^ prec -> conv n = Z.of_N n) (g : dgraph (ieee prec emax Hp He w conv)) lp c s srt cands t :
  wf_graph g -> zero_reparam g -> is_int (cleanness g) c -> is_int (smoothness g) s ->
  small_penalties (2 ^ prec) (left g) (right g) (levels g) c s -> make_lowest g = Ok lp ->
  sorts srt -> fetch_available_penalties srt lp = Ok cands -> calculate_minimal_consistent_threshold lp g cands = Ok t ->
  exists b, is_int t b /\ 0 <= b <= 2 ^ prec /\
    forall k b', ordered_labeling (right g) (levels g) k -> within_bound (left g) (right g) (levels g) c s b' k -> b <= b'.
Proof.
  exact (fun Hw Hz Hc Hs Sm Hl => small_threshold prec emax Hp He w conv Hconv g lp c s Hw Hz Hc Hs Sm Hl srt cands t).
Qed.
Print Assumptions C60_threshold.

(** ...and the disparity map computed is optimal in exact integer arithmetic. *)
Theorem C60_optimal prec emax (Hp : Prec_gt_0 prec) (He : Prec_lt_emax prec emax) w conv
  (Hconv : forall n, Z.of_N n <= 2 ^ prec -> conv n = Z.of_N n) srt l r lev c s (g : dgraph (ieee prec emax Hp He w conv)) :
  sorts srt -> make_graph l r lev (of_u c) (of_u s) = Ok g -> consistent_image l -> consistent_image r ->
  (width l * height l * 4 * lev < w)%N -> small_penalties (2 ^ prec) l r lev (Z.of_N c) (Z.of_N s) ->
  solve_problem srt l r lev (@of_u (ieee prec emax Hp He w conv) c) (of_u s) = Stop (Throw CannotLabel) \/
  exists img, solve_problem srt l r lev (@of_u (ieee prec emax Hp He w conv) c) (of_u s) = Ok img /\
    optimal_map l r lev (Z.of_N c) (Z.of_N s) img.
Proof. exact (exact_solution prec emax Hp He w conv Hconv srt l r lev c s g). Qed.
Print Assumptions C60_optimal.

Theorem C60_written srt w p e path txt :
  sorts srt -> usable_files w -> main srt w p = Ok e -> written_file e = Some (path, txt) ->
  exists o lpath rpath l r lev c s img, p = Parsed o /\ all_paths o lpath rpath path /\
    file_holds w lpath l /\ file_holds w rpath r /\ option_number (width l) (o_levels o) lev /\
    option_number 1 (o_cleanness o) c /\ option_number 1 (o_smoothness o) s /\
    write_image [] (Some img) = Ok txt /\
    (small_penalties (2 ^ 53) l r lev (Z.of_N c) (Z.of_N s) -> optimal_map l r lev (Z.of_N c) (Z.of_N s) img).
Proof. exact (main_exact srt w p e path txt). Qed.
Print Assumptions C60_written.

Example C60_hypotheses : make_lowest sg = Ok (low sg) /\ sorts (@isort cpu) /\
  (forall n, Z.of_N n <= 2 ^ 53 -> Z.of_N n = Z.of_N n) /\ (forall n, Z.of_N n <= 2 ^ 24 -> int_of_unsigned n = Z.of_N n) /\
  make_graph sample_left sample_right 3 (@of_u cpu 1) (of_u 1) = Ok sg /\ small_penalties (2 ^ 53) sample_left sample_right 3 1 1.
Proof. exact (conj sg_low (conj (isort_sorts cpu_laws) (conj (conv_id 53) (conj conv_cuda (conj sample_made (proj1 small_sample)))))). Qed.
Example C60_run : usable_files wg /\ (exists srt, @sorts cpu srt) /\ all_paths (og out_path) (lit "l.pgm") (lit "r.pgm") out_path /\
  file_holds wg (lit "l.pgm") gl /\ file_holds wg (lit "r.pgm") gr /\
  option_number (width gl) (o_levels (og out_path)) 3 /\ option_number 1 (o_cleanness (og out_path)) 1 /\
  option_number 1 (o_smoothness (og out_path)) 1 /\ small_penalties (2 ^ 53) gl gr 3 1 1.
Proof. exact small_run. Qed.

(** C61: below the bound of single precision the three builds compute the same
    penalties... *)
Theorem C61_same_penalties l r lev c s (gc : dgraph cpu) (go : dgraph opencl) (gd : dgraph cuda) :
  consistent_image l -> consistent_image r -> (width l * height l * 4 * lev < 2 ^ 32)%N ->
  make_graph l r lev (of_u c) (of_u s) = Ok gc -> make_graph l r lev (of_u c) (of_u s) = Ok go ->
  make_graph l r lev (of_u c) (of_u s) = Ok gd ->
  small_penalties (2 ^ 24) l r lev (Z.of_N c) (Z.of_N s) ->
  (forall n, is_match r lev n -> exists z x y v, node_penalty gc n = Ok x /\ node_penalty go n = Ok y /\ node_penalty gd n = Ok v /\
     is_int x z /\ is_int y z /\ is_int v z) /\
  (forall n n', is_match r lev n -> is_match r lev n' -> adjacent (npix n) (npix n') ->
     exists z x y v, edge_penalty gc {| enode := n; enbr := n' |} = Ok x /\ edge_penalty go {| enode := n; enbr := n' |} = Ok y /\
       edge_penalty gd {| enode := n; enbr := n' |} = Ok v /\ is_int x z /\ is_int y z /\ is_int v z).
Proof. exact (same_penalties l r lev c s gc go gd). Qed.
Print Assumptions C61_same_penalties.

Example C61_hypotheses : make_graph sample_left sample_right 3 (of_u 1) (of_u 1) = Ok (sample_graph cpu) /\
  (make_graph sample_left sample_right 3 (of_u 1) (of_u 1) = Ok (sample_graph opencl) /\
   make_graph sample_left sample_right 3 (of_u 1) (of_u 1) = Ok (sample_graph cuda)) /\
  small_penalties (2 ^ 24) sample_left sample_right 3 1 1.
Proof. exact (conj sample_made (conj sample_builds (proj2 small_sample))). Qed.

(** ...but not in general. *)
Theorem C61_all_problems_refuted : exists l r lev (gc : dgraph cpu) (go : dgraph opencl) (gd : dgraph cuda) n x y v,
  make_graph l r lev (of_u 1) (of_u 1) = Ok gc /\ make_graph l r lev (of_u 1) (of_u 1) = Ok go /\
  make_graph l r lev (of_u 1) (of_u 1) = Ok gd /\ consistent_image l /\ consistent_image r /\ (max_value l <= 65536)%N /\ is_match r lev n /\
  node_penalty gc n = Ok x /\ node_penalty go n = Ok y /\ node_penalty gd n = Ok v /\
  is_int x (4097 ^ 2) /\ is_int y (4097 ^ 2 - 1) /\ is_int v (4097 ^ 2 - 1).
Proof. exact rounded. Qed.
Print Assumptions C61_all_problems_refuted.

(** Intensities that no file may have, but images made by a program may, are negative
    numbers for CUDA. *)
Theorem C61_signs_refuted : exists l r lev (gc : dgraph cpu) (go : dgraph opencl) (gd : dgraph cuda) n x y v,
  make_graph l r lev (of_u 1) (of_u 1) = Ok gc /\ make_graph l r lev (of_u 1) (of_u 1) = Ok go /\
  make_graph l r lev (of_u 1) (of_u 1) = Ok gd /\ consistent_image l /\ consistent_image r /\ (max_value l < 2 ^ 32)%N /\ is_match r lev n /\
  node_penalty gc n = Ok x /\ node_penalty go n = Ok y /\ node_penalty gd n = Ok v /\
  is_int x 1 /\ is_int y 0 /\ is_int v (2 ^ 64).
Proof. exact negative. Qed.
Print Assumptions C61_signs_refuted.
