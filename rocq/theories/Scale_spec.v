(** Vocabulary for problems that differ by a factor in all penalties. *)
From Verif Require Export Exact_spec Gpu_spec.
Local Open Scope Z_scope.

(** A pair of images and the weights of the two kinds of penalties. *)
Record stereo : Type := {
  p_left : image;
  p_right : image;
  p_cleanness : N;
  p_smoothness : N
}.

(** The penalties of matches and of edges of the second problem are those of the first
    one times [j], divided by [k]. *)
Definition proportional (lev : N) (j k : Z) (a b : stereo) : Prop :=
  0 < j /\ 0 < k /\
  width (p_right b) = width (p_right a) /\ height (p_right b) = height (p_right a) /\
  (forall n, is_match (p_right a) lev n ->
     k * node_cost (p_left b) (p_right b) (Z.of_N (p_cleanness b)) n =
     j * node_cost (p_left a) (p_right a) (Z.of_N (p_cleanness a)) n) /\
  k * Z.of_N (p_smoothness b) = j * Z.of_N (p_smoothness a).

(** The penalties of the problem are small integers. *)
Definition small_problem (bound : Z) (lev : N) (a : stereo) : Prop :=
  consistent_image (p_left a) /\ consistent_image (p_right a) /\
  (width (p_left a) * height (p_left a) * 4 * lev < 2 ^ 64)%N /\
  small_penalties bound (p_left a) (p_right a) lev (Z.of_N (p_cleanness a)) (Z.of_N (p_smoothness a)).

(** The same change of the intensity of every pixel. *)
Definition recolor (f : N -> N) (maxv : N) (img : image) : image :=
  {| width := width img; height := height img; max_value := maxv; data := map f (data img) |}.

(** The problem is accepted. *)
Definition accepted (lev : N) (a : stereo) : Prop :=
  exists g, make_graph (T := cpu) (p_left a) (p_right a) lev (of_u (p_cleanness a)) (of_u (p_smoothness a)) = Ok g.

(** The outcome of the application, on the CPU and on a device. *)
Definition solution_of (srt : list (F cpu) -> list (F cpu)) (lev : N) (a : stereo) : outcome image :=
  solve_problem srt (p_left a) (p_right a) lev (of_u (p_cleanness a)) (of_u (p_smoothness a)).
Definition device_solution_of (d : api) (v : behaviour) (srt : list (F cpu) -> list (F cpu)) (lev : N) (a : stereo)
  (o : outcome image) : Prop :=
  solves_with (On d) v srt (p_left a) (p_right a) lev (of_u (p_cleanness a)) (of_u (p_smoothness a)) o.
