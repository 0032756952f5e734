(** Vocabulary for problems whose penalties differ a little. *)
From Verif Require Export Stiff_spec.
Local Open Scope Z_scope.

(** The threshold computed for the problem is the integer. *)
Definition threshold_of (srt : list (F cpu) -> list (F cpu)) (lev : N) (a : stereo) (b : Z) : Prop :=
  exists g lp l t,
    make_graph (T := cpu) (p_left a) (p_right a) lev (of_u (p_cleanness a)) (of_u (p_smoothness a)) = Ok g /\
    make_lowest g = Ok lp /\ fetch_available_penalties srt lp = Ok l /\
    calculate_minimal_consistent_threshold lp g l = Ok t /\ is_int t b.

(** What the penalties of the second problem exceed the lowest possible ones by is
    at most [d] more than in the first one. *)
Definition costs_more (lev : N) (d : Z) (a a' : stereo) : Prop :=
  width (p_right a') = width (p_right a) /\ height (p_right a') = height (p_right a) /\
  (forall n z z', is_match (p_right a) lev n ->
     lowest_cost (p_left a) (p_right a) lev (Z.of_N (p_cleanness a)) (npix n) z ->
     lowest_cost (p_left a') (p_right a') lev (Z.of_N (p_cleanness a')) (npix n) z' ->
     node_cost (p_left a') (p_right a') (Z.of_N (p_cleanness a')) n - z' <=
     node_cost (p_left a) (p_right a) (Z.of_N (p_cleanness a)) n - z + d) /\
  (forall e e', (e < lev)%N -> (e' < lev)%N ->
     edge_cost (Z.of_N (p_smoothness a')) e e' <= edge_cost (Z.of_N (p_smoothness a)) e e' + d).

(** The same images with weights that are not larger. *)
Definition lighter (a a' : stereo) : Prop :=
  p_left a' = p_left a /\ p_right a' = p_right a /\
  (p_cleanness a' <= p_cleanness a)%N /\ (p_smoothness a' <= p_smoothness a)%N.

(** Every intensity differs by at most [e]; the weights are the same. *)
Definition noise (e : Z) (img img' : image) : Prop :=
  width img' = width img /\ height img' = height img /\
  forall p, inside img p -> Z.abs (brightness img' p - brightness img p) <= e.
Definition noisy (e : Z) (a a' : stereo) : Prop :=
  noise e (p_left a) (p_left a') /\ noise e (p_right a) (p_right a') /\
  p_cleanness a' = p_cleanness a /\ p_smoothness a' = p_smoothness a.
