(** Property C128, continued: the energy of the maps of the other builds. *)
From Coq Require Import String.
From Verif Require Import Total_builds_proofs Device_witness Omp_witness Witnesses Total_builds_witness.
Local Open Scope N_scope.

(** The energies of two optimal maps of a problem differ by at most the threshold for
    every pixel and every pair of neighbors... *)
Theorem C128_two_maps l r lev c s b k img img' e e' :
  (0 <= s)%Z -> optimal_map l r lev c s img -> optimal_map l r lev c s img' ->
  ordered_labeling r lev k -> within_bound l r lev c s b k ->
  total_cost l r c s (map_labeling img) e -> total_cost l r c s (map_labeling img') e' ->
  (Z.abs (e - e') <= b * terms r)%Z.
Proof. exact (maps_near l r lev c s b k img img' e e'). Qed.
Print Assumptions C128_two_maps.

(** ...they may differ. *)
Example C128_two_energies : optimal_map l4 r4 2 1 6 low4 /\ optimal_map l4 r4 2 1 6 high4 /\
  ordered_labeling r4 2 (map_labeling low4) /\ within_bound l4 r4 2 1 6 6 (map_labeling low4) /\
  total_cost l4 r4 1 6 (map_labeling low4) 12 /\ total_cost l4 r4 1 6 (map_labeling high4) 16 /\ terms r4 = 7%Z.
Proof.
  exact (conj (proj2 low4_optimal) (conj high4_optimal (conj low4_ordered (conj (proj1 low4_optimal)
    (conj (proj1 costs4) (conj (proj2 costs4) eq_refl)))))).
Qed.

(** Maps that are written on a device, whatever it does, are as near to the lowest
    energy as those of the sequential program, while its numbers hold all penalties... *)
Theorem C128_device b v srt w p e path txt a :
  sorts srt -> usable_files w -> main_with b v srt w p (Ok e) -> written_file e = Some (path, txt) ->
  (forall o, p = Parsed o -> chosen b (o_parallel o) = Ok (On a)) ->
  exists o lpath rpath l r lev c s img, p = Parsed o /\ all_paths o lpath rpath path /\
    file_holds w lpath l /\ file_holds w rpath r /\ option_number (width l) (o_levels o) lev /\
    option_number 1 (o_cleanness o) c /\ option_number 1 (o_smoothness o) s /\
    write_image [] (Some img) = Ok txt /\
    (addressable a r lev -> small_penalties (2 ^ 24) l r lev (Z.of_N c) (Z.of_N s) ->
     forall k b k' e e', ordered_labeling r lev k -> within_bound l r lev (Z.of_N c) (Z.of_N s) b k -> ordered_labeling r lev k' ->
       total_cost l r (Z.of_N c) (Z.of_N s) (map_labeling img) e -> total_cost l r (Z.of_N c) (Z.of_N s) k' e' ->
       (e <= e' + b * terms r)%Z).
Proof. exact (device_near b v srt w p e path txt a). Qed.
Print Assumptions C128_device.

Example C128_device_hypotheses a : sorts (@isort cpu) /\ usable_files wg /\
  main_with both good_device (@isort cpu) wg (Parsed (od a)) (Ok (ends 0 None (Some (out_path, textg)))) /\
  (forall o, Parsed (od a) = Parsed o -> chosen both (o_parallel o) = Ok (On a)) /\
  addressable a gr 3 /\ small_penalties (2 ^ 24) gl gr 3 1 1.
Proof.
  refine (conj (isort_sorts cpu_laws) (conj wg_usable (conj (device_run a) (conj _ (conj _ _))))).
  - intros o E. injection E as <-. destruct a; vm_compute; reflexivity.
  - destruct a; reflexivity.
  - exists 10%Z. split; [|lia]. intros v [H|H]; cbn in H; decompose [or] H; subst; try lia; contradiction.
Qed.

(** ...and so are the maps of orderly teams of threads. *)
Theorem C128_openmp v srt w o lpath rpath out e f :
  sorts srt -> usable_files w -> orderly_team v -> all_paths o lpath rpath out -> technology_ok o ->
  main_omp v srt w (Parsed o) (Ok e) -> written_file e = Some f ->
  exists l r lev c s img txt, file_holds w lpath l /\ file_holds w rpath r /\
    option_number (width l) (o_levels o) lev /\ option_number 1 (o_cleanness o) c /\ option_number 1 (o_smoothness o) s /\
    write_image [] (Some img) = Ok txt /\ f = (out, txt) /\
    (small_penalties (2 ^ 53) l r lev (Z.of_N c) (Z.of_N s) ->
     forall k b k' e e', ordered_labeling r lev k -> within_bound l r lev (Z.of_N c) (Z.of_N s) b k -> ordered_labeling r lev k' ->
       total_cost l r (Z.of_N c) (Z.of_N s) (map_labeling img) e -> total_cost l r (Z.of_N c) (Z.of_N s) k' e' ->
       (e <= e' + b * terms r)%Z).
Proof. exact (omp_near v srt w o lpath rpath out e f). Qed.
Print Assumptions C128_openmp.

Example C128_openmp_hypotheses : sorts (@isort cpu) /\ usable_files wg /\ orderly_team two_team /\
  all_paths (og out_path) (lit "l.pgm") (lit "r.pgm") out_path /\ technology_ok (og out_path) /\
  main_omp two_team (@isort cpu) wg (Parsed (og out_path)) (Ok (ends 0 None (Some (out_path, textg)))).
Proof.
  exact (conj (isort_sorts cpu_laws) (conj wg_usable (conj two_orderly (conj (og_paths _) (conj (run_technology _ _ _ _) two_run))))).
Qed.
