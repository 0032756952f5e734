(** Properties C98 - C100: functions of the library, special problems. *)
From Coq Require Import Lia.
From Verif Require Import Special_witness.
Local Open Scope N_scope.

(** C98: the penalties of a pixel are the excesses of its matches... *)
Theorem C98_pixel_penalties (T : target) (HL : laws T) srt (g : dgraph T) lp p :
  sorts srt -> wf_graph g -> make_lowest g = Ok lp -> finite_penalties g -> in_image g p ->
  exists m l, lowest_pixel_penalty lp p = Ok m /\ fetch_pixel_available_penalties srt g p m = Ok l /\
    increasing l /\ numbers l /\
    (forall c, In c l -> exists d, match_exists g {| npix := p; disp := d |} /\ node_excess g lp {| npix := p; disp := d |} c) /\
    (forall d c, match_exists g {| npix := p; disp := d |} -> node_excess g lp {| npix := p; disp := d |} c ->
       exists y, In y l /\ feq y c = true).
Proof. exact (fetch_pixel_spec HL srt g lp p). Qed.
Print Assumptions C98_pixel_penalties.

(** ... those of two neighboring pixels the excesses of the enumerated pairs. *)
Theorem C98_edge_penalties (T : target) (HL : laws T) srt (g : dgraph T) lp p q :
  sorts srt -> wf_graph g -> make_lowest g = Ok lp -> finite_penalties g ->
  in_image g p -> in_image g q -> adjacent p q ->
  let e0 := {| enode := {| npix := p; disp := 0 |}; enbr := {| npix := q; disp := 0 |} |} in
  exists m l, lowest_neighborhood_penalty lp e0 = Ok m /\ fetch_edge_available_penalties srt g e0 m = Ok l /\
    increasing l /\ numbers l /\
    (forall c, In c l -> exists e, npix (enode e) = p /\ npix (enbr e) = q /\ enumerated g e /\ edge_excess g lp e c) /\
    (forall e c, npix (enode e) = p -> npix (enbr e) = q -> enumerated g e -> edge_excess g lp e c ->
       exists y, In y l /\ feq y c = true).
Proof. exact (fetch_edge_spec HL srt g lp p q). Qed.
Print Assumptions C98_edge_penalties.

(** The three ways to read a potential return the same entry. *)
Theorem C98_potentials (T : target) (g : dgraph T) n m k :
  wf_graph g -> in_image g (npix n) -> disp n < levels g -> in_image g (npix m) -> slot_of k (npix n) (npix m) ->
  exists v, get (reparam g) (potential_at g n k) = Ok v /\ reparametrization_value_fast g n k = Ok v /\
    reparametrization_value g n (npix m) = Ok v /\ reparametrization_value_slow g {| enode := n; enbr := m |} = Ok v.
Proof. exact (potentials g n m k). Qed.
Print Assumptions C98_potentials.

(** A slot of a pixel leads to a pixel of the image or is reported as missing. *)
Theorem C98_slots (T : target) (g : dgraph T) p k :
  wf_graph g -> neighborhood_exists_fast g p k = true <-> exists q, in_image g p /\ in_image g q /\ slot_of k p q.
Proof. exact (neighborhood_exists_fast_iff g p k). Qed.
Print Assumptions C98_slots.

(** Nodes are left exactly if some node is available, and the check changes nothing. *)
Theorem C98_nodes_left (T : target) (cg : cgraph T) :
  wf_cgraph cg ->
  exists b, exec check_nodes_left cg = Ok (b, cg) /\
    (b = true <-> exists n, in_image (cg_graph cg) (npix n) /\ disp n < levels (cg_graph cg) /\ available cg n).
Proof. exact (nodes_left cg). Qed.
Print Assumptions C98_nodes_left.

Example C98_hypotheses :
  laws cpu /\ sorts (isort (T:=cpu)) /\ wf_graph sg /\ make_lowest sg = Ok (low sg) /\ finite_penalties sg /\
  wf_cgraph scg /\ (exists cg, exec check_nodes_left scg = Ok (true, cg)) /\
  wf_cgraph nobody /\ (exists cg, exec check_nodes_left nobody = Ok (false, cg)).
Proof.
  exact (conj cpu_laws (conj (isort_sorts cpu_laws) (conj sample_wf_cpu (conj sg_low (conj sg_finite
    (conj scg_wf (conj some_left (conj nobody_wf nobody_left)))))))).
Qed.
Example C98_pixels : in_image sg {| px := 1; py := 0 |} /\ in_image sg {| px := 2; py := 0 |} /\
  slot_of 0 {| px := 1; py := 0 |} {| px := 2; py := 0 |} /\ adjacent {| px := 1; py := 0 |} {| px := 2; py := 0 |}.
Proof. exact sg_pixels. Qed.

(** C99: without smoothness, closest matches that are in order are the map... *)
Theorem C99_closest srt lev a k :
  sorts srt -> accepted lev a -> small_problem (2 ^ 53) lev a -> 0 < p_cleanness a -> p_smoothness a = 0 ->
  ordered_labeling (p_right a) lev k -> closest (p_left a) (p_right a) lev k ->
  exists img, solution_of srt lev a = Ok img /\
    width img = width (p_right a) /\ height img = height (p_right a) /\ max_value img = lev /\ consistent_image img /\
    forall p, inside (p_right a) p -> map_labeling img p = k p.
Proof. exact (closest_solution srt lev a k). Qed.
Print Assumptions C99_closest.

Example C99_hypotheses : accepted 3 near /\ small_problem (2 ^ 53) 3 near /\ 0 < p_cleanness near /\ p_smoothness near = 0 /\
  ordered_labeling (p_right near) 3 near_map /\ closest (p_left near) (p_right near) 3 near_map.
Proof.
  exact (conj (proj1 near_ok) (conj (proj2 near_ok) (conj eq_refl (conj eq_refl (conj near_ordered near_closest))))).
Qed.

(** ... and the map is zero if no match is closer than the pixel at the same place, or if
    intensities do not count. *)
Theorem C99_zero srt lev a :
  sorts srt -> accepted lev a -> small_problem (2 ^ 53) lev a ->
  (p_cleanness a = 0 \/
   forall p d, inside (p_right a) p -> d < lev -> px p + d < width (p_right a) ->
     (mismatch (p_left a) (p_right a) p 0 <= mismatch (p_left a) (p_right a) p d)%Z) ->
  solution_of srt lev a = Ok (zero_map (width (p_right a)) (height (p_right a)) lev).
Proof. exact (zero_solution srt lev a). Qed.
Print Assumptions C99_zero.

Example C99_zero_hypotheses : accepted 3 even_rows /\ small_problem (2 ^ 53) 3 even_rows /\
  (forall p d, inside (p_right even_rows) p -> d < 3 -> px p + d < width (p_right even_rows) ->
     (mismatch (p_left even_rows) (p_right even_rows) p 0 <= mismatch (p_left even_rows) (p_right even_rows) p d)%Z) /\
  accepted 3 no_cleanness /\ small_problem (2 ^ 53) 3 no_cleanness /\ p_cleanness no_cleanness = 0.
Proof.
  exact (conj (proj1 even_rows_ok) (conj (proj2 even_rows_ok) (conj even_rows_zero
    (conj (proj1 no_cleanness_ok) (conj (proj2 no_cleanness_ok) eq_refl))))).
Qed.

(** C100 is violated: turning both images upside down need not turn the map upside down... *)
Theorem C100_upside_down_refuted : exists srt lev a a' img img', sorts srt /\ accepted lev a /\ accepted lev a' /\
  small_problem (2 ^ 53) lev a /\ small_problem (2 ^ 53) lev a' /\
  upside_down (p_left a) (p_left a') /\ upside_down (p_right a) (p_right a') /\
  p_cleanness a' = p_cleanness a /\ p_smoothness a' = p_smoothness a /\
  solution_of srt lev a = Ok img /\ solution_of srt lev a' = Ok img' /\ ~ upside_down img img'.
Proof. exact flip_differs. Qed.
Print Assumptions C100_upside_down_refuted.

(** ... but the maps are equally good: each stays within the same bounds as the other. *)
Theorem C100_equally_good srt srt' lev a a' img img' b :
  sorts srt -> sorts srt' -> accepted lev a -> accepted lev a' ->
  small_problem (2 ^ 53) lev a -> small_problem (2 ^ 53) lev a' ->
  upside_down (p_left a) (p_left a') -> upside_down (p_right a) (p_right a') ->
  p_cleanness a' = p_cleanness a -> p_smoothness a' = p_smoothness a ->
  solution_of srt lev a = Ok img -> solution_of srt' lev a' = Ok img' ->
  within_bound (p_left a) (p_right a) lev (Z.of_N (p_cleanness a)) (Z.of_N (p_smoothness a)) b (map_labeling img) <->
  within_bound (p_left a') (p_right a') lev (Z.of_N (p_cleanness a)) (Z.of_N (p_smoothness a)) b (map_labeling img').
Proof. exact (flip_solutions srt srt' lev a a' img img' b). Qed.
Print Assumptions C100_equally_good.

Example C100_hypotheses : sorts (@isort cpu) /\ accepted 3 upright /\ accepted 3 overturned /\
  small_problem (2 ^ 53) 3 upright /\ small_problem (2 ^ 53) 3 overturned /\
  upside_down (p_left upright) (p_left overturned) /\ upside_down (p_right upright) (p_right overturned) /\
  solution_of isort 3 upright = Ok upright_map /\ solution_of isort 3 overturned = Ok overturned_map.
Proof.
  exact (conj (isort_sorts cpu_laws) (conj (proj1 upright_ok) (conj (proj1 overturned_ok) (conj (proj2 upright_ok) (conj (proj2 overturned_ok)
    (conj (proj1 overturned_images) (conj (proj2 overturned_images) (conj upright_solved overturned_solved)))))))).
Qed.
