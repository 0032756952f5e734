(** The OpenMP build on problems whose rows do not restrict each other. *)
From Verif Require Export Omp_spec Rows_spec.
Local Open Scope N_scope.

(** A team that works the way the code was written for and takes each row once: words
    of memory are accessed one after another, and each of the [jobs] jobs is started
    once. *)
Definition exact_team (v : team) : Prop :=
  t_sc v = true /\ forall bound jobs, t_size v bound jobs -> 1 <= jobs < 2 ^ 31 /\ bound = jobs.

(** Nodes of different rows are kept in different words of [wb] elements. *)
Definition rows_apart {T : target} (wb : N) (g : dgraph T) : Prop :=
  forall n n', in_image g (npix n) -> disp n < levels g -> in_image g (npix n') -> disp n' < levels g ->
    node_index g n / wb = node_index g n' / wb -> py (npix n) = py (npix n').

(** The images consist of one row, or there is no smoothness and the number of levels
    is a multiple of the number of elements in a word. *)
Definition rows_alone (wb : N) (w : world) (o : options) : Prop :=
  forall lpath rpath l r lev s, o_left o = Some lpath -> o_right o = Some rpath ->
    file_holds w lpath l -> file_holds w rpath r ->
    option_number (width l) (o_levels o) lev -> option_number 1 (o_smoothness o) s ->
    height r = 1 \/ (s = 0 /\ wb <> 0 /\ lev mod wb = 0).
