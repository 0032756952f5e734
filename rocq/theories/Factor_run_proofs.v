(** Runs that write the closest matches, and devices: lemmas. *)
From Coq Require Import Lia.
From Verif Require Import Same_proofs Total_builds_proofs Scale_proofs Factor_proofs.
From Verif Require Export Factor_spec.
Local Open Scope N_scope.

Lemma closest_written srt w p e path txt : sorts srt -> usable_files w -> main srt w p = Ok e -> written_file e = Some (path, txt) ->
  exists o lpath rpath l r lev c s img, p = Parsed o /\ all_paths o lpath rpath path /\
    file_holds w lpath l /\ file_holds w rpath r /\ option_number (width l) (o_levels o) lev /\
    option_number 1 (o_cleanness o) c /\ option_number 1 (o_smoothness o) s /\
    write_image [] (Some img) = Ok txt /\
    (small_penalties (2 ^ 53) l r lev (Z.of_N c) (Z.of_N s) -> 0 < c ->
     forall k, ordered_labeling r lev k -> closest l r lev k ->
       unbeaten lev {| p_left := l; p_right := r; p_cleanness := c; p_smoothness := s |} k ->
       forall p, inside r p -> map_labeling img p = k p).
Proof.
  intros Hs U M W. destruct p as [o| |]; [|injection M as <-; discriminate..]. unfold main in M.
  destruct (o_output o) as [out|] eqn:E1, (o_left o) as [lpath|] eqn:E2, (o_right o) as [rpath|] eqn:E3;
    try (destruct (_ || _); [injection M as <-; discriminate|]; destruct (_ =? _); injection M as <-; discriminate).
  destruct (check_parallel (o_parallel o)) as [[]|[y| |]]; [|try discriminate; injection M as <-; discriminate..].
  destruct (disparity_map_of srt w o lpath rpath) as [img|[y| |]] eqn:Ed; cbn [bind] in M; [|try discriminate; injection M as <-; discriminate..].
  destruct (writable w out) eqn:Wo; [|injection M as <-; discriminate].
  destruct (write_image [] (Some img)) as [t|[y| |]] eqn:Et; cbn [bind] in M; try discriminate; injection M as <-;
    cbn [ends written_file] in W; [|discriminate].
  injection W as <- <-. unfold disparity_map_of in Ed.
  destruct (read_file w lpath) as [l|y] eqn:El; cbn [bind] in Ed; [|discriminate].
  destruct (read_file w rpath) as [r|y] eqn:Er; cbn [bind] in Ed; [|discriminate].
  destruct (number_or (width l) (o_levels o)) as [lev|y] eqn:Elev; cbn [bind] in Ed; [|discriminate].
  destruct (number_or 1 (o_cleanness o)) as [c|y] eqn:Ecl; cbn [bind] in Ed; [|discriminate].
  destruct (number_or 1 (o_smoothness o)) as [s|y] eqn:Es; cbn [bind] in Ed; [|discriminate].
  apply read_held in El. apply read_held in Er. apply number_value in Elev. apply number_value in Ecl. apply number_value in Es.
  exists o, lpath, rpath, l, r, lev, c, s, img.
  refine (conj eq_refl (conj (conj E2 (conj E3 E1)) (conj El (conj Er (conj Elev (conj Ecl (conj Es (conj Et _)))))))).
  intros Sm Pc k K C Un.
  assert (Ex : exists g, make_graph (T := cpu) l r lev (of_u c) (of_u s) = Ok g).
  { unfold solve_problem in Ed. destruct (make_graph l r lev (of_u c) (of_u s)) as [g|y]; [exists g; reflexivity|discriminate Ed]. }
  destruct Ex as [g Eg]. pose proof (held_usable _ _ _ U El) as [_ Sz]. pose proof (problem_fits _ _ _ _ _ _ Eg Sz) as Fit.
  set (a := {| p_left := l; p_right := r; p_cleanness := c; p_smoothness := s |}) in *.
  assert (Ac : accepted lev a) by (exists g; exact Eg).
  assert (S : small_problem (2 ^ 53) lev a) by (refine (conj (held_consistent _ _ _ El) (conj (held_consistent _ _ _ Er) (conj Fit Sm)))).
  exact (closest_map srt lev a k img Hs Ac S Pc K C Un Ed).
Qed.

Lemma closest_device d v srt lev a k o : sorts srt -> accepted lev a -> small_problem (2 ^ 24) lev a -> 0 < p_cleanness a ->
  addressable d (p_right a) lev -> orderly d v ->
  ordered_labeling (p_right a) lev k -> closest (p_left a) (p_right a) lev k -> unbeaten lev a k ->
  height (p_right a) = 1 -> device_solution_of d v srt lev a o ->
  exists img, o = Ok img /\
    width img = width (p_right a) /\ height img = height (p_right a) /\ max_value img = lev /\ consistent_image img /\
    forall p, inside (p_right a) p -> map_labeling img p = k p.
Proof.
  intros Hs Ac S24 Pc Ad Or K C Un H1 D.
  assert (S53 : small_problem (2 ^ 53) lev a) by (apply (small_bigger (2 ^ 24)); [apply Z.pow_le_mono_r; lia|exact S24]).
  destruct (closest_row srt lev a k Hs Ac S53 Pc K C Un H1) as [img [E R]]. exists img. split; [|exact R].
  destruct S24 as [Cl [Cr [Fit Sm]]]. exact (gpu_same d v srt _ _ lev _ _ o img Hs Cl Cr Fit Ad Sm Or E D).
Qed.
