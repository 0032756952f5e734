(** The unit tests of the project (tests/*.cpp), run on the model.  They are no
    proofs of properties; they show that the model behaves as the authors of the
    code expect it to.  BOOST_CHECK_CLOSE is translated to equality of numbers. *)
From Coq Require Import String.
From Flocq Require Import IEEE754.BinarySingleNaN.
From Verif Require Import Checks MainProg.
Local Open Scope N_scope.

Definition num (z : Z) : F cpu := ieee_of_Z 53 1024 hp53 he53 z.
Definition halves (z : Z) : F cpu := binary_normalize 53 1024 hp53 he53 mode_NE z (-1) false.

Definition pix (x y : N) : pixel := {| px := x; py := y |}.
Definition nod (x y d : N) : node := {| npix := pix x y; disp := d |}.
Definition edg (x y d x' y' d' : N) : edge := {| enode := nod x y d; enbr := nod x' y' d' |}.
Definition grid (w h m : N) (l : list N) : image := {| width := w; height := h; max_value := m; data := l |}.

(** Checks on the results of functions. *)
Definition holds {A} (x : outcome A) (t : A -> bool) : bool :=
  match x with Ok a => t a | Stop _ => false end.
Definition is (x : outcome (F cpu)) (v : F cpu) : bool := holds x (fun y => feq y v).
Definition value (x : outcome N) (v : N) : bool := holds x (N.eqb v).
Fixpoint are (l l' : list (F cpu)) : bool :=
  match l, l' with
  | [], [] => true
  | x :: r, y :: r' => feq x y && are r r'
  | _, _ => false
  end.
Definition all (l : list bool) : bool := forallb (fun b => b) l.

(** Reading into an object without an image. *)
Definition reading (s : string) (t : image -> bool) : bool :=
  holds (read_image (opened (lit s)) None) (fun r =>
    negb (failbit (fst r)) && match snd r with Some img => t img | None => false end).
Definition rejected (s : string) : bool :=
  holds (read_image (opened (lit s)) None) (fun r =>
    failbit (fst r) && match snd r with Some _ => false | None => true end).

(** The objects the tests create. *)
Definition graph_of (l r : image) (lev : N) (c s : Z) (t : dgraph cpu -> bool) : bool :=
  holds (make_graph l r lev (num c) (num s)) t.
Definition lowest_of (g : dgraph cpu) (t : lowest cpu -> bool) : bool := holds (make_lowest g) t.
Definition constraint_of (g : dgraph cpu) (lp : lowest cpu) (v : F cpu) (t : cgraph cpu -> bool) : bool :=
  feq v v && holds (make_constraint g lp v) t.
(** [graph.reparametrization[reparametrization_index(&graph, n, q)] = v] *)
Definition assign (n : node) (q : pixel) (v : F cpu) (g : dgraph cpu) (t : dgraph cpu -> bool) : bool :=
  holds (set (reparam g) (reparametrization_index g n q) v) (fun rp => t (with_potentials g rp)).
Definition node_is (cg : cgraph cpu) (n : node) (b : bool) : bool :=
  holds (exec (fun cg => is_node_available cg n) cg) (fun r => Bool.eqb (fst r) b).
Definition edge_is (cg : cgraph cpu) (e : edge) (b : bool) : bool :=
  holds (exec (fun cg => is_edge_available cg e) cg) (fun r => Bool.eqb (fst r) b).
Definition solved (cg : cgraph cpu) (t : cgraph cpu -> bool) : bool :=
  holds (exec solve_csp cg) (fun r => fst r && t (snd r)).
Definition removing (l : list node) (cg : cgraph cpu) (t : cgraph cpu -> bool) : bool :=
  fold_right (fun n k cg => holds (exec (fun cg => make_node_unavailable cg n) cg) (fun r => k (snd r))) t l cg.

(** tests/image.cpp 45-49 *)
Example image_check_valid : holds (image_valid cpu (grid 2 1 1 [0; 1])) (fun b => b) = true.
Proof. vm_compute. reflexivity. Qed.

(** tests/image.cpp 51-55 *)
Example image_invalid_value : holds (image_valid cpu (grid 2 1 1 [0; 2])) negb = true.
Proof. vm_compute. reflexivity. Qed.

(** tests/image.cpp 57-61 *)
Example image_invalid_max_value : holds (image_valid cpu (grid 2 1 0 [0; 0])) negb = true.
Proof. vm_compute. reflexivity. Qed.

(** tests/image.cpp 63-67 *)
Example image_invalid_size : holds (image_valid cpu (grid 0 0 1 [])) negb = true.
Proof. vm_compute. reflexivity. Qed.

(** tests/image.cpp 69-81 *)
Example image_check_pixel_index : (let img := grid 3 2 5 [5; 4; 3; 2; 1; 0] in
  all [(pixel_index cpu img (pix 0 0) =? 0);
    (pixel_index cpu img (pix 1 0) =? 1);
    (pixel_index cpu img (pix 2 0) =? 2);
    (pixel_index cpu img (pix 0 1) =? 3);
    (pixel_index cpu img (pix 1 1) =? 4);
    (pixel_index cpu img (pix 2 1) =? 5)]) = true.
Proof. vm_compute. reflexivity. Qed.

(** tests/image.cpp 83-95 *)
Example image_check_pixel_value : (let img := grid 3 2 5 [5; 4; 3; 2; 1; 0] in
  all [value (pixel_value cpu img (pix 0 0)) 5;
    value (pixel_value cpu img (pix 1 0)) 4;
    value (pixel_value cpu img (pix 2 0)) 3;
    value (pixel_value cpu img (pix 0 1)) 2;
    value (pixel_value cpu img (pix 1 1)) 1;
    value (pixel_value cpu img (pix 2 1)) 0]) = true.
Proof. vm_compute. reflexivity. Qed.

(** tests/pgm_io.cpp 41-70 *)
Example pgm_read_image : reading "
    ##### Grayscale image #####
    P2
    # 3 columns and 2 rows
    3 2
    10 #Sticky comment

    0 1 2
    3 4 5
    # The end
    # Long end
    " (fun img => all [(width img =? 3); (height img =? 2); (max_value img =? 10);
    value (pixel_value cpu img (pix 0 0)) 0;
    value (pixel_value cpu img (pix 1 0)) 1;
    value (pixel_value cpu img (pix 2 0)) 2;
    value (pixel_value cpu img (pix 0 1)) 3;
    value (pixel_value cpu img (pix 1 1)) 4;
    value (pixel_value cpu img (pix 2 1)) 5]) = true.
Proof. vm_compute. reflexivity. Qed.

(** tests/pgm_io.cpp 72-79 *)
Example pgm_read_blank_file : rejected "" = true.
Proof. vm_compute. reflexivity. Qed.

(** tests/pgm_io.cpp 81-90 *)
Example pgm_read_comment_file : rejected "
    # Comment
    " = true.
Proof. vm_compute. reflexivity. Qed.

(** tests/pgm_io.cpp 92-105 *)
Example pgm_read_wrong_format_name : rejected "
    P
    3 2
    10
    0 1 2
    3 4 5
    " = true.
Proof. vm_compute. reflexivity. Qed.

(** tests/pgm_io.cpp 107-120 *)
Example pgm_read_big_max_value : rejected "
    P2
    3 2
    65537
    0 1 2
    3 4 5
    " = true.
Proof. vm_compute. reflexivity. Qed.

(** tests/pgm_io.cpp 122-135 *)
Example pgm_read_incomplete_data : rejected "
    P2
    3 2
    65537
    0 1 2
    3 4
    " = true.
Proof. vm_compute. reflexivity. Qed.

(** tests/pgm_io.cpp 137-150 *)
Example pgm_read_redundant_data : rejected "
    P2
    3 2
    65537
    0 1 2
    3 4 5 6
    " = true.
Proof. vm_compute. reflexivity. Qed.

(** tests/pgm_io.cpp 152-165 *)
Example pgm_read_wrong_max_value : rejected "
    P2
    3 2
    -1
    0 1 2
    3 4 5
    " = true.
Proof. vm_compute. reflexivity. Qed.

(** tests/pgm_io.cpp 167-180 *)
Example pgm_read_intensity_letter : rejected "
    P2
    3 2
    5
    p 1 2
    3 4 5
    " = true.
Proof. vm_compute. reflexivity. Qed.

(** tests/pgm_io.cpp 182-199 *)
Example pgm_write_image : holds (write_image [] (Some (grid 3 2 5 [0; 1; 2; 3; 4; 5])))
  (fun t => if list_eq_dec ascii_dec t (lit "P2
3 2
5
0 1 2
3 4 5
") then true else false) = true.
Proof. vm_compute. reflexivity. Qed.

(** tests/pgm_io.cpp 201-210 *)
Example pgm_write_no_image : holds (write_image [] None) (fun t => if list_eq_dec ascii_dec t (lit "") then true else false) = true.
Proof. vm_compute. reflexivity. Qed.

(** tests/pgm_io.cpp 212-235 *)
Example pgm_read_write_image : (let s := "P2
3 2
5
0 1 2
3 4 5
"%string in
  reading s (fun img => all [(width img =? 3); (height img =? 2); (max_value img =? 5);
    holds (write_image [] (Some img)) (fun t => if list_eq_dec ascii_dec t (lit s) then true else false)])) = true.
Proof. vm_compute. reflexivity. Qed.

(** tests/pgm_io.cpp 237-265 *)
Example pgm_read_write_imagelong : (let s := "P2
13 3
65536
65536 65536 65536 65536 65536 65536 65536 65536 65536 65536 65536
65536 65536
1 2 3 4 5 6 7 8 9 10 11
12 13
0 1 100 1000 10000 5 50 500 5000 50000 65535
0 2
"%string in
  reading s (fun img => all [(width img =? 13); (height img =? 3); (max_value img =? 65536);
    holds (write_image [] (Some img)) (fun t => if list_eq_dec ascii_dec t (lit s) then true else false)])) = true.
Proof. vm_compute. reflexivity. Qed.

(** tests/disparity_graph.cpp 44-77 *)
Example graph_check_nodes_existence : reading "
    P2
    3 2
    2
    0 0 0
    0 0 0
    " (fun l =>
  graph_of l l 2 1 1 (fun g => all [Bool.eqb (node_exists g (nod 0 0 0)) true;
    Bool.eqb (node_exists g (nod 1 0 0)) true;
    Bool.eqb (node_exists g (nod 2 0 0)) true;
    Bool.eqb (node_exists g (nod 0 0 1)) true;
    Bool.eqb (node_exists g (nod 1 0 1)) true;
    Bool.eqb (node_exists g (nod 0 0 2)) false;
    Bool.eqb (node_exists g (nod 1 0 2)) false;
    Bool.eqb (node_exists g (nod 2 0 1)) false;
    Bool.eqb (node_exists g (nod 0 2 0)) false;
    Bool.eqb (node_exists g (nod 3 0 2)) false;
    Bool.eqb (node_exists g (nod 3 2 2)) false;
    Bool.eqb (node_exists g (nod 0 1 0)) true;
    Bool.eqb (node_exists g (nod 1 1 0)) true;
    Bool.eqb (node_exists g (nod 2 1 0)) true;
    Bool.eqb (node_exists g (nod 0 1 1)) true;
    Bool.eqb (node_exists g (nod 1 1 1)) true;
    Bool.eqb (node_exists g (nod 0 1 2)) false;
    Bool.eqb (node_exists g (nod 1 1 2)) false;
    Bool.eqb (node_exists g (nod 2 1 1)) false])) = true.
Proof. vm_compute. reflexivity. Qed.

(** tests/disparity_graph.cpp 79-112 *)
Example graph_check_reparametrization_indexing : reading "
    P2
    3 2
    2
    0 0 0
    0 0 0
    " (fun l =>
  graph_of l l 3 1 1 (fun g => all [(reparametrization_index_fast g (nod 0 0 0) 0 =? 0);
    (reparametrization_index_fast g (nod 0 1 0) 0 =? 1);
    (reparametrization_index_fast g (nod 0 0 1) 0 =? 2);
    (reparametrization_index_fast g (nod 0 0 2) 0 =? 4);
    (reparametrization_index_fast g (nod 0 1 2) 0 =? 5);
    (reparametrization_index_fast g (nod 0 0 0) 1 =? 6);
    (reparametrization_index_fast g (nod 0 1 0) 1 =? 7);
    (reparametrization_index_fast g (nod 0 0 1) 1 =? 8);
    (reparametrization_index_fast g (nod 0 1 1) 1 =? 9);
    (reparametrization_index_fast g (nod 0 0 2) 1 =? 10);
    (reparametrization_index_fast g (nod 0 1 2) 1 =? 11);
    (reparametrization_index_fast g (nod 0 0 0) 2 =? 12);
    (reparametrization_index_fast g (nod 0 0 0) 3 =? 18);
    (reparametrization_index_fast g (nod 0 1 2) 3 =? 23);
    (reparametrization_index_fast g (nod 1 0 0) 0 =? 24);
    (reparametrization_index_fast g (nod 1 1 2) 3 =? 47)])) = true.
Proof. vm_compute. reflexivity. Qed.

(** tests/disparity_graph.cpp 114-158 *)
Example graph_check_neighborhood : reading "
    P2
    3 2
    2
    0 1 2
    2 0 1
    " (fun l =>
  reading "
    P2
    3 2
    2
    1 0 2
    2 0 1
    " (fun r => graph_of l r 3 1 1 (fun g => all [Bool.eqb (neighborhood_exists g (pix 0 0) (pix 1 0)) true;
    Bool.eqb (neighborhood_exists g (pix 0 0) (pix 0 1)) true;
    Bool.eqb (neighborhood_exists g (pix 1 0) (pix 2 0)) true;
    Bool.eqb (neighborhood_exists g (pix 1 0) (pix 0 0)) true;
    Bool.eqb (neighborhood_exists g (pix 1 0) (pix 1 1)) true;
    Bool.eqb (neighborhood_exists g (pix 0 0) (pix 0 0)) false;
    Bool.eqb (neighborhood_exists g (pix 0 0) (pix 1 1)) false;
    Bool.eqb (neighborhood_exists g (pix 0 0) (pix 0 2)) false;
    Bool.eqb (neighborhood_exists g (pix 0 0) (pix 2 0)) false;
    Bool.eqb (neighborhood_exists g (pix 1 0) (pix 1 0)) false;
    Bool.eqb (neighborhood_exists g (pix 1 0) (pix 0 1)) false;
    Bool.eqb (neighborhood_exists g (pix 1 0) (pix 2 1)) false]))) = true.
Proof. vm_compute. reflexivity. Qed.

(** tests/disparity_graph.cpp 160-199 *)
Example graph_check_edges_existence : reading "
    P2
    3 2
    2
    0 1 2
    2 0 1
    " (fun l =>
  reading "
    P2
    3 2
    2
    1 0 2
    2 0 1
    " (fun r => graph_of l r 2 1 1 (fun g => all [Bool.eqb (edge_exists g (edg 0 0 0 1 0 0)) true;
    Bool.eqb (edge_exists g (edg 0 0 0 1 0 1)) true;
    Bool.eqb (edge_exists g (edg 1 0 0 0 0 0)) true;
    Bool.eqb (edge_exists g (edg 1 0 1 0 0 0)) true;
    Bool.eqb (edge_exists g (edg 1 0 2 1 0 1)) false;
    Bool.eqb (edge_exists g (edg 0 0 1 1 0 2)) false;
    Bool.eqb (edge_exists g (edg 0 0 2 1 0 0)) false;
    Bool.eqb (edge_exists g (edg 1 0 0 1 0 2)) false]))) = true.
Proof. vm_compute. reflexivity. Qed.

(** tests/disparity_graph.cpp 201-234 *)
Example graph_check_continuity_constraint : reading "
    P2
    3 2
    2
    0 1 2
    2 0 1
    " (fun l =>
  reading "
    P2
    3 2
    2
    1 0 2
    2 0 1
    " (fun r => graph_of l r 3 1 1 (fun g => all [Bool.eqb (edge_exists g (edg 0 0 2 1 0 0)) false;
    Bool.eqb (edge_exists g (edg 1 0 0 0 0 2)) false;
    Bool.eqb (edge_exists g (edg 0 1 2 1 1 0)) false;
    Bool.eqb (edge_exists g (edg 1 1 0 0 1 2)) false]))) = true.
Proof. vm_compute. reflexivity. Qed.

(** tests/disparity_graph.cpp 236-296 *)
Example graph_check_initial_edges_penalties : reading "
    P2
    3 2
    2
    0 1 2
    2 0 1
    " (fun l =>
  reading "
    P2
    3 2
    2
    1 0 2
    2 0 1
    " (fun r => graph_of l r 3 1 1 (fun g => all [is (edge_penalty g (edg 0 0 0 1 0 0)) (num 0);
    is (edge_penalty g (edg 0 0 0 0 1 1)) (num 1);
    is (edge_penalty g (edg 1 0 1 2 0 0)) (num 1);
    is (edge_penalty g (edg 1 0 0 0 0 2)) (num 4);
    is (edge_penalty g (edg 1 0 2 0 1 0)) (num 4);
    is (edge_penalty g (edg 1 0 2 1 1 2)) (num 0)]))) = true.
Proof. vm_compute. reflexivity. Qed.

(** tests/disparity_graph.cpp 298-343 *)
Example graph_check_initial_nodes_penalties : reading "
    P2
    3 2
    2
    0 1 2
    2 0 1
    " (fun l =>
  reading "
    P2
    3 2
    2
    1 0 2
    2 0 1
    " (fun r => graph_of l r 3 1 1 (fun g => all [is (node_penalty g (nod 0 0 0)) (num 1);
    is (node_penalty g (nod 0 0 1)) (num 0);
    is (node_penalty g (nod 0 0 2)) (num 1);
    is (node_penalty g (nod 1 0 0)) (num 1);
    is (node_penalty g (nod 1 0 1)) (num 4);
    is (node_penalty g (nod 2 0 0)) (num 0);
    is (node_penalty g (nod 0 1 0)) (num 0);
    is (node_penalty g (nod 0 1 1)) (num 4);
    is (node_penalty g (nod 0 1 2)) (num 1);
    is (node_penalty g (nod 1 1 0)) (num 0);
    is (node_penalty g (nod 1 1 1)) (num 1);
    is (node_penalty g (nod 2 1 0)) (num 0)]))) = true.
Proof. vm_compute. reflexivity. Qed.

(** tests/disparity_graph.cpp 345-398 *)
Example graph_check_edges_penalties : reading "
    P2
    3 2
    2
    0 1 2
    2 0 1
    " (fun l =>
  reading "
    P2
    3 2
    2
    1 0 2
    2 0 1
    " (fun r => graph_of l r 3 1 10 (fun g => assign (nod 0 0 0) (pix 1 0) (num (-2)) g (fun g => all [is (edge_penalty g (edg 0 0 0 1 0 0)) (num 2);
    is (edge_penalty g (edg 0 0 0 1 0 1)) (num 12);
    is (edge_penalty g (edg 1 0 0 0 0 0)) (num 2);
    is (edge_penalty g (edg 1 0 0 0 0 1)) (num 10)])))) = true.
Proof. vm_compute. reflexivity. Qed.

(** tests/disparity_graph.cpp 400-436 *)
Example graph_check_nodes_penalties : reading "
    P2
    3 2
    2
    0 1 2
    2 0 1
    " (fun l =>
  reading "
    P2
    3 2
    2
    1 0 2
    2 0 1
    " (fun r => graph_of l r 3 10 1 (fun g => assign (nod 0 0 0) (pix 1 0) (num (-2)) g (fun g => all [is (node_penalty g (nod 0 0 0)) (num 8);
    is (node_penalty g (nod 0 0 1)) (num 0);
    is (node_penalty g (nod 1 0 0)) (num 10)])))) = true.
Proof. vm_compute. reflexivity. Qed.

(** tests/lowest_penalties.cpp 44-290 *)
Example lowest_check_neighborhoods_indexing : reading "
    P2
    3 2
    2
    0 0 0
    0 0 0
    " (fun l =>
  graph_of l l 3 1 1 (fun g => lowest_of g (fun lp => all [(neighborhood_index_fast g (pix 0 0) 0 =? 0);
    (neighborhood_index g (pix 0 0) (pix 1 0) =? 0);
    Bool.eqb (neighborhood_exists_fast g (pix 0 0) 0) true;
    (neighborhood_index_fast g (pix 0 0) 1 =? 1);
    Bool.eqb (neighborhood_exists_fast g (pix 0 0) 1) false;
    (neighborhood_index_fast g (pix 0 0) 2 =? 2);
    (neighborhood_index g (pix 0 0) (pix 0 1) =? 2);
    Bool.eqb (neighborhood_exists_fast g (pix 0 0) 2) true;
    (neighborhood_index_fast g (pix 0 0) 3 =? 3);
    Bool.eqb (neighborhood_exists_fast g (pix 0 0) 3) false;
    (neighborhood_index_fast g (pix 0 1) 0 =? 4);
    (neighborhood_index g (pix 0 1) (pix 1 1) =? 4);
    Bool.eqb (neighborhood_exists_fast g (pix 0 1) 0) true;
    (neighborhood_index_fast g (pix 0 1) 1 =? 5);
    Bool.eqb (neighborhood_exists_fast g (pix 0 1) 1) false;
    (neighborhood_index_fast g (pix 0 1) 2 =? 6);
    Bool.eqb (neighborhood_exists_fast g (pix 0 1) 2) false;
    (neighborhood_index_fast g (pix 0 1) 3 =? 7);
    (neighborhood_index g (pix 0 1) (pix 0 0) =? 7);
    Bool.eqb (neighborhood_exists_fast g (pix 0 1) 3) true;
    (neighborhood_index_fast g (pix 1 0) 0 =? 8);
    (neighborhood_index g (pix 1 0) (pix 2 0) =? 8);
    Bool.eqb (neighborhood_exists_fast g (pix 1 0) 0) true;
    (neighborhood_index_fast g (pix 1 0) 1 =? 9);
    (neighborhood_index g (pix 1 0) (pix 0 0) =? 9);
    Bool.eqb (neighborhood_exists_fast g (pix 1 0) 1) true;
    (neighborhood_index_fast g (pix 1 0) 2 =? 10);
    (neighborhood_index g (pix 1 0) (pix 1 1) =? 10);
    Bool.eqb (neighborhood_exists_fast g (pix 1 0) 2) true;
    (neighborhood_index_fast g (pix 1 0) 3 =? 11);
    Bool.eqb (neighborhood_exists_fast g (pix 1 0) 3) false;
    (neighborhood_index_fast g (pix 1 1) 0 =? 12);
    (neighborhood_index g (pix 1 1) (pix 2 1) =? 12);
    Bool.eqb (neighborhood_exists_fast g (pix 1 1) 0) true;
    (neighborhood_index_fast g (pix 1 1) 1 =? 13);
    (neighborhood_index g (pix 1 1) (pix 0 1) =? 13);
    Bool.eqb (neighborhood_exists_fast g (pix 1 1) 1) true;
    (neighborhood_index_fast g (pix 1 1) 2 =? 14);
    Bool.eqb (neighborhood_exists_fast g (pix 1 1) 2) false;
    (neighborhood_index_fast g (pix 1 1) 3 =? 15);
    (neighborhood_index g (pix 1 1) (pix 1 0) =? 15);
    Bool.eqb (neighborhood_exists_fast g (pix 1 1) 3) true;
    (neighborhood_index_fast g (pix 2 0) 0 =? 16);
    Bool.eqb (neighborhood_exists_fast g (pix 2 0) 0) false;
    (neighborhood_index_fast g (pix 2 0) 1 =? 17);
    (neighborhood_index g (pix 2 0) (pix 1 0) =? 17);
    Bool.eqb (neighborhood_exists_fast g (pix 2 0) 1) true;
    (neighborhood_index_fast g (pix 2 0) 2 =? 18);
    (neighborhood_index g (pix 2 0) (pix 2 1) =? 18);
    Bool.eqb (neighborhood_exists_fast g (pix 2 0) 2) true;
    (neighborhood_index_fast g (pix 2 0) 3 =? 19);
    Bool.eqb (neighborhood_exists_fast g (pix 2 0) 3) false;
    (neighborhood_index_fast g (pix 2 1) 0 =? 20);
    Bool.eqb (neighborhood_exists_fast g (pix 2 1) 0) false;
    (neighborhood_index_fast g (pix 2 1) 1 =? 21);
    (neighborhood_index g (pix 2 1) (pix 1 1) =? 21);
    Bool.eqb (neighborhood_exists_fast g (pix 2 1) 1) true;
    (neighborhood_index_fast g (pix 2 1) 2 =? 22);
    Bool.eqb (neighborhood_exists_fast g (pix 2 1) 2) false;
    (neighborhood_index_fast g (pix 2 1) 3 =? 23);
    (neighborhood_index g (pix 2 1) (pix 2 0) =? 23);
    Bool.eqb (neighborhood_exists_fast g (pix 2 1) 3) true]))) = true.
Proof. vm_compute. reflexivity. Qed.

(** tests/lowest_penalties.cpp 292-328 *)
Example lowest_check_lowest_pixel_penalty : reading "
    P2
    3 2
    4
    1 2 0
    3 4 3
    " (fun l =>
  reading "
    P2
    3 2
    4
    0 1 2
    4 3 0
    " (fun r => graph_of l r 2 10 1 (fun g => lowest_of g (fun lp => all [is (lowest_pixel_penalty lp (pix 0 0)) (num 10);
    is (lowest_pixel_penalty lp (pix 1 0)) (num 10);
    is (lowest_pixel_penalty lp (pix 2 0)) (num 40);
    is (lowest_pixel_penalty lp (pix 0 1)) (num 0);
    is (lowest_pixel_penalty lp (pix 1 1)) (num 0);
    is (lowest_pixel_penalty lp (pix 2 1)) (num 90)])))) = true.
Proof. vm_compute. reflexivity. Qed.

(** tests/lowest_penalties.cpp 330-385 *)
Example lowest_check_lowest_vertical_neighborhood_penalty : reading "
    P2
    3 2
    4
    0 0 0
    0 0 0
    " (fun l =>
  reading "
    P2
    3 2
    4
    0 0 0
    0 0 0
    " (fun r => graph_of l r 3 1 1 (fun g => assign (nod 0 0 0) (pix 0 1) (num (-5)) g (fun g => assign (nod 0 0 1) (pix 0 1) (num (-5)) g (fun g => assign (nod 0 0 2) (pix 0 1) (num 0) g (fun g => assign (nod 0 1 0) (pix 0 0) (num 0) g (fun g => assign (nod 0 1 1) (pix 0 0) (num (-5)) g (fun g => assign (nod 0 1 2) (pix 0 0) (num (-5)) g (fun g => lowest_of g (fun lp => all [is (lowest_neighborhood_penalty_fast lp (pix 0 0) (pix 0 1)) (num 4)])))))))))) = true.
Proof. vm_compute. reflexivity. Qed.

(** tests/lowest_penalties.cpp 387-471 *)
Example lowest_check_lowest_neighborhood_penalty : reading "
    P2
    3 2
    4
    1 2 0
    3 4 3
    " (fun l =>
  reading "
    P2
    3 2
    4
    0 1 2
    4 3 0
    " (fun r =>
  graph_of l r 2 1 10 (fun g => assign (nod 1 0 0) (pix 1 1) (halves 1) g (fun g =>
  assign (nod 1 0 0) (pix 2 0) (num (-2)) g (fun g =>
  assign (nod 2 0 1) (pix 1 0) (num (-2)) g (fun g =>
  assign (nod 2 0 0) (pix 2 1) (num (-1)) g (fun g =>
  assign (nod 2 1 0) (pix 2 0) (num (-1)) g (fun g =>
  lowest_of g (fun lp => assign (nod 1 1 0) (pix 1 0) (halves 1) g (fun g => let lp := {| lp_graph := g; lp_pixels := lp_pixels lp; lp_neighborhoods := lp_neighborhoods lp |} in
    all [is (lowest_neighborhood_penalty_fast lp (pix 0 0) (pix 1 0)) (num 0);
    is (lowest_neighborhood_penalty_fast lp (pix 0 0) (pix 0 1)) (num 0);
    is (lowest_neighborhood_penalty_fast lp (pix 1 0) (pix 1 1)) (halves (-1));
    is (lowest_neighborhood_penalty_fast lp (pix 1 0) (pix 2 0)) (num 2);
    is (lowest_neighborhood_penalty_fast lp (pix 2 0) (pix 2 1)) (num 2)])))))))))) = true.
Proof. vm_compute. reflexivity. Qed.

(** tests/constraint_graph.cpp 43-67 *)
Example constraint_check_nodes_indexing : reading "
    P2
    3 2
    2
    0 0 0
    0 0 0
    " (fun l =>
  graph_of l l 3 1 1 (fun g => lowest_of g (fun lp => constraint_of g lp (num 1) (fun cg => all [(node_index g (nod 0 0 0) =? 0);
    (node_index g (nod 0 0 2) =? 2);
    (node_index g (nod 0 1 0) =? 3);
    (node_index g (nod 0 1 2) =? 5);
    (node_index g (nod 1 0 0) =? 6)])))) = true.
Proof. vm_compute. reflexivity. Qed.

(** tests/constraint_graph.cpp 69-116 *)
Example constraint_check_black_images : reading "
    P2
    3 2
    2
    0 0 0
    0 0 0
    " (fun l =>
  graph_of l l 3 1 1 (fun g => lowest_of g (fun lp => constraint_of g lp (num 1) (fun cg => all [feq (cg_threshold cg) (num 1);
    node_is cg (nod 0 0 0) true;
    node_is cg (nod 0 0 1) true;
    node_is cg (nod 0 0 2) true;
    node_is cg (nod 0 1 0) true;
    node_is cg (nod 0 1 1) true;
    node_is cg (nod 0 1 2) true;
    node_is cg (nod 1 0 0) true;
    node_is cg (nod 1 0 1) true;
    node_is cg (nod 1 0 2) false;
    node_is cg (nod 1 1 0) true;
    node_is cg (nod 1 1 1) true;
    node_is cg (nod 1 1 2) false;
    node_is cg (nod 2 0 0) true;
    node_is cg (nod 2 0 1) false;
    node_is cg (nod 2 0 2) false;
    node_is cg (nod 2 1 0) true;
    node_is cg (nod 2 1 1) false;
    node_is cg (nod 2 1 2) false])))) = true.
Proof. vm_compute. reflexivity. Qed.

(** tests/constraint_graph.cpp 118-155 *)
Example constraint_check_equal_images : reading "
    P2
    3 2
    256
    0   127 256
    256 127 0
    " (fun l =>
  graph_of l l 3 1 1 (fun g => lowest_of g (fun lp => constraint_of g lp (num 16384) (fun cg => all [feq (cg_threshold cg) (num 16384);
    is (node_penalty g (nod 0 0 0)) (num 0);
    node_is cg (nod 0 0 0) true;
    is (node_penalty g (nod 0 0 1)) (num 16129);
    node_is cg (nod 0 0 1) true;
    is (node_penalty g (nod 0 0 2)) (num 65536);
    node_is cg (nod 0 0 2) false;
    is (node_penalty g (nod 0 1 0)) (num 0);
    node_is cg (nod 0 1 0) true;
    is (node_penalty g (nod 0 1 1)) (num 16641);
    node_is cg (nod 0 1 1) false;
    is (node_penalty g (nod 0 1 2)) (num 65536);
    node_is cg (nod 0 1 2) false])))) = true.
Proof. vm_compute. reflexivity. Qed.

(** tests/constraint_graph.cpp 157-193 *)
Example constraint_check_disparity_loop : reading "
    P2
    3 2
    10
    8 7 10
    0 0 0
    " (fun l =>
  reading "
    P2
    3 2
    10
    10 0 0
    0 0 0
    " (fun r => graph_of l r 2 1 1 (fun g => lowest_of g (fun lp => constraint_of g lp (num 15) (fun cg => all [feq (cg_threshold cg) (num 15);
    is (node_penalty g (nod 0 0 0)) (num 4);
    node_is cg (nod 0 0 0) true;
    is (node_penalty g (nod 0 0 1)) (num 9);
    node_is cg (nod 0 0 1) true]))))) = true.
Proof. vm_compute. reflexivity. Qed.

(** tests/constraint_graph.cpp 206-239 *)
Example constraint_check_minimal_node_value_calculation : reading "
    P2
    3 2
    1
    0 0 1
    0 0 0
    " (fun l =>
  reading "
    P2
    3 2
    1
    0 0 0
    0 0 0
    " (fun r => graph_of l r 3 1 1 (fun g => lowest_of g (fun lp => constraint_of g lp (halves 1) (fun cg => all [feq (cg_threshold cg) (halves 1);
    is (node_penalty g (nod 2 0 0)) (num 1);
    node_is cg (nod 2 0 0) true]))))) = true.
Proof. vm_compute. reflexivity. Qed.

(** tests/constraint_graph.cpp 241-297 *)
Example constraint_check_removal : reading "
    P2
    3 2
    10
    4 5 10
    0 0 0
    " (fun l =>
  reading "
    P2
    3 2
    10
    10 7 0
    0 0 0
    " (fun r =>
  graph_of l r 3 1 1 (fun g => lowest_of g (fun lp => constraint_of g lp (num 16) (fun cg =>
    all [feq (cg_threshold cg) (num 16);
    is (node_penalty g (nod 0 0 0)) (num 36);
    node_is cg (nod 0 0 0) false;
    is (node_penalty g (nod 0 0 1)) (num 25);
    node_is cg (nod 0 0 1) false;
    is (node_penalty g (nod 0 0 2)) (num 0);
    node_is cg (nod 0 0 2) true;
    is (node_penalty g (nod 1 0 0)) (num 4);
    node_is cg (nod 1 0 0) true] &&
    solved cg (fun cg => all [node_is cg (nod 0 0 0) false;
    node_is cg (nod 0 0 1) false;
    node_is cg (nod 0 0 2) true;
    node_is cg (nod 1 0 0) false;
    node_is cg (nod 1 0 1) true;
    edge_is cg (edg 0 0 0 1 0 0) false;
    edge_is cg (edg 0 0 1 1 0 0) false;
    edge_is cg (edg 0 0 2 1 0 0) false])))))) = true.
Proof. vm_compute. reflexivity. Qed.

(** tests/constraint_graph.cpp 299-338 *)
Example constraint_check_unconstrained_disparities : reading "
    P2
    4 3
    1
    0 0 0 0
    0 0 0 0
    0 0 0 0
    " (fun l =>
  graph_of l l 4 1 1 (fun g => lowest_of g (fun lp => constraint_of g lp (num 9) (fun cg =>
    all [feq (cg_threshold cg) (num 9)] && solved cg (fun cg =>
    removing [nod 1 0 0; nod 1 1 1; nod 1 1 2; nod 0 0 1; nod 0 0 2; nod 0 0 3; nod 1 2 0; nod 1 2 1] cg (fun cg =>
    solved cg (fun cg => all [node_is cg (nod 0 0 0) true;
    node_is cg (nod 1 0 2) true;
    node_is cg (nod 2 0 1) true;
    node_is cg (nod 1 1 0) true]))))))) = true.
Proof. vm_compute. reflexivity. Qed.

(** tests/labeling_finder.cpp 47-100 *)
Example labeling_check_black_images : reading "
    P2
    3 2
    2
    0 0 0
    0 0 0
    " (fun l =>
  graph_of l l 2 1 1 (fun g => lowest_of g (fun lp =>
    holds (fetch_pixel_available_penalties isort g (pix 0 0) (num 0)) (fun a => are a [num 0]) &&
    holds (fetch_edge_available_penalties isort g (edg 0 0 0 0 1 0) (num 0)) (fun a => are a [num 0; num 1]) &&
    holds (fetch_available_penalties isort lp) (fun cands => are cands [num 0; num 1] &&
      holds (calculate_minimal_consistent_threshold lp g cands) (fun t => feq t (num 0) &&
        constraint_of g lp t (fun cg => solved cg (fun cg => holds (exec find_labeling cg) fst))))))) = true.
Proof. vm_compute. reflexivity. Qed.

(** tests/labeling_finder.cpp 102-162 *)
Example labeling_check_equal_images : reading "
    P2
    3 2
    256
    0   127 256
    256 127 0
    " (fun l =>
  graph_of l l 3 1 1 (fun g => lowest_of g (fun lp =>
    holds (fetch_pixel_available_penalties isort g (pix 1 0) (num 0)) (fun a => are a [num 0; num 16641]) &&
    holds (fetch_edge_available_penalties isort g (edg 0 0 0 0 1 0) (num 0)) (fun a => are a [num 0; num 1; num 4]) &&
    holds (fetch_available_penalties isort lp) (fun cands => are cands [num 0; num 1; num 4; num 16129; num 16641; num 65536] &&
      holds (calculate_minimal_consistent_threshold lp g cands) (fun t => feq t (num 0) &&
        constraint_of g lp t (fun cg => solved cg (fun cg => holds (exec find_labeling cg) fst))))))) = true.
Proof. vm_compute. reflexivity. Qed.

(** tests/labeling_finder.cpp 164-236 *)
Example labeling_basic_check : reading "
    P2
    3 2
    10
    4 5 10
    0 0 0
    " (fun l =>
  reading "
    P2
    3 2
    10
    10 7 0
    0 0 0
    " (fun r => graph_of l r 3 1 1 (fun g => lowest_of g (fun lp =>
    holds (fetch_pixel_available_penalties isort g (pix 0 0) (num 0)) (fun a => are a [num 0; num 25; num 36]) &&
    holds (fetch_edge_available_penalties isort g (edg 0 0 0 0 1 0) (num 0)) (fun a => are a [num 0; num 1; num 4]) &&
    holds (fetch_available_penalties isort lp) (fun cands => are cands [num 0; num 1; num 4; num 5; num 25; num 36] &&
      holds (calculate_minimal_consistent_threshold lp g cands) (fun t => feq t (num 5) &&
        constraint_of g lp t (fun cg => solved cg (fun cg => holds (exec find_labeling cg) fst)))))))) = true.
Proof. vm_compute. reflexivity. Qed.
