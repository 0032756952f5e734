(** Vocabulary for the properties of the OpenMP build. *)
From Verif Require Export MainOmp Main_spec.
Local Open Scope N_scope.

(** [omp_get_num_threads()] is a positive [int]. *)
Definition team_ok (v : team) : Prop :=
  forall bound jobs, t_size v bound jobs -> 1 <= jobs < 2 ^ 31.

(** A team that works the way the code was written for: words of memory are accessed
    one after another, and there is a job for every remainder of the row numbers. *)
Definition orderly_team (v : team) : Prop :=
  t_sc v = true /\ forall bound jobs, t_size v bound jobs -> 1 <= jobs < 2 ^ 31 /\ jobs <= bound.

(** A team of one thread. *)
Definition one_thread (v : team) : Prop :=
  t_sc v = true /\ t_size v 1 1 /\ forall bound jobs, t_size v bound jobs -> bound = 1 /\ jobs = 1.

(** A map of the problem that names existing matches; the penalties of its nodes
    are within [t]. *)
Definition matched_map {T : target} (g : dgraph T) (lp : lowest T) (t : F T) (img : image) : Prop :=
  width img = width (left g) /\ height img = height (left g) /\ max_value img = levels g /\
  consistent_image img /\ valid_image img /\
  (forall p, in_image g p -> match_exists g (label_node (map_labeling img) p)) /\
  nodes_within g lp t (map_labeling img).

(** The bound is below every bound within which a labeling stays. *)
Definition lower_bound {T : target} (g : dgraph T) (lp : lowest T) (t : F T) : Prop :=
  forall k b, labeling_ok g k -> nodes_within g lp b k -> edges_within g lp b k -> fle t b = true.

(** The order in which pixels get their labels: column by column. *)
Definition earlier (q p : pixel) : Prop := px q < px p \/ (px q = px p /\ py q < py p).

(** The labeling stays within every bound within which the other one stays. *)
Definition as_good {T : target} (g : dgraph T) (lp : lowest T) (k k' : labeling) : Prop :=
  forall b, nodes_within g lp b k' -> edges_within g lp b k' -> nodes_within g lp b k /\ edges_within g lp b k.

(** The map is optimal and, among the optimal ones, the first in this sense: where
    another one differs from it for the first time, it costs more there, or as much
    with a greater disparity. *)
Definition greedy_map {T : target} (g : dgraph T) (lp : lowest T) (img : image) : Prop :=
  best_map g lp img /\
  forall k p v v', labeling_ok g k -> as_good g lp k (map_labeling img) -> in_image g p ->
    (forall q, in_image g q -> earlier q p -> k q = map_labeling img q) ->
    node_penalty g (label_node (map_labeling img) p) = Ok v -> node_penalty g (label_node k p) = Ok v' ->
    fle v v' = true /\ (fle v' v = true -> map_labeling img p <= k p).
