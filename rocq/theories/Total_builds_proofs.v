(** The energy of the maps written by the other builds: lemmas. *)
From Coq Require Import Reals Lia.
From Verif Require Import Device_main_proofs Omp_run_proofs Total_proofs.
From Verif Require Export Total_spec.
Local Open Scope N_scope.

(** Two optimal maps of a problem. *)
Lemma maps_near l r lev c s b k img img' e e' : (0 <= s)%Z ->
  optimal_map l r lev c s img -> optimal_map l r lev c s img' ->
  ordered_labeling r lev k -> within_bound l r lev c s b k ->
  total_cost l r c s (map_labeling img) e -> total_cost l r c s (map_labeling img') e' ->
  (Z.abs (e - e') <= b * terms r)%Z.
Proof.
  intros Hs O O' Hk Wk T T'.
  assert (K : ordered_labeling r lev (map_labeling img)) by apply O.
  assert (K' : ordered_labeling r lev (map_labeling img')) by apply O'.
  pose proof (map_near l r lev c s b k _ img e e' Hs O Hk Wk K' T T').
  pose proof (map_near l r lev c s b k _ img' e' e Hs O' Hk Wk K T' T). lia.
Qed.

Lemma device_near b v srt w p e path txt a :
  sorts srt -> usable_files w -> main_with b v srt w p (Ok e) -> written_file e = Some (path, txt) ->
  (forall o, p = Parsed o -> chosen b (o_parallel o) = Ok (On a)) ->
  exists o lpath rpath l r lev c s img, p = Parsed o /\ all_paths o lpath rpath path /\
    file_holds w lpath l /\ file_holds w rpath r /\ option_number (width l) (o_levels o) lev /\
    option_number 1 (o_cleanness o) c /\ option_number 1 (o_smoothness o) s /\
    write_image [] (Some img) = Ok txt /\
    (addressable a r lev -> small_penalties (2 ^ 24) l r lev (Z.of_N c) (Z.of_N s) ->
     forall k b k' e e', ordered_labeling r lev k -> within_bound l r lev (Z.of_N c) (Z.of_N s) b k -> ordered_labeling r lev k' ->
       total_cost l r (Z.of_N c) (Z.of_N s) (map_labeling img) e -> total_cost l r (Z.of_N c) (Z.of_N s) k' e' ->
       (e <= e' + b * terms r)%Z).
Proof.
  intros Hs U M W Ha.
  destruct (gpu_written b v srt w p e path txt a Hs U M W Ha) as [_ [_ [_ [o [lpath [rpath [l [r [lev [c [s [img [A1 [A2 [A3 [A4 [A5 [A6 [A7 [A8 A9]]]]]]]]]]]]]]]]]]]].
  exists o, lpath, rpath, l, r, lev, c, s, img. refine (conj A1 (conj A2 (conj A3 (conj A4 (conj A5 (conj A6 (conj A7 (conj A8 _)))))))).
  intros Ad Sm k b' k' e1 e2 Hk Wk Hk'. apply (map_near l r lev _ _ b' k k' img e1 e2); [lia|apply A9; [exact Ad|exact Sm]|assumption..].
Qed.

Lemma omp_exact v srt w o lpath rpath out e f : sorts srt -> usable_files w -> orderly_team v -> all_paths o lpath rpath out -> technology_ok o ->
  main_omp v srt w (Parsed o) (Ok e) -> written_file e = Some f ->
  exists l r lev c s img txt, file_holds w lpath l /\ file_holds w rpath r /\
    option_number (width l) (o_levels o) lev /\ option_number 1 (o_cleanness o) c /\ option_number 1 (o_smoothness o) s /\
    write_image [] (Some img) = Ok txt /\ f = (out, txt) /\
    (small_penalties (2 ^ 53) l r lev (Z.of_N c) (Z.of_N s) -> optimal_map l r lev (Z.of_N c) (Z.of_N s) img).
Proof.
  intros Hs U Ho A Ht R F.
  destruct (omp_optimal v srt w o lpath rpath out e f Hs U Ho A Ht R F)
    as [l [r [lev [c [s [g [lp [img [txt [Hl [Hr [Nl [Nc [Ns [Eg [Elp [Best [Et Ef]]]]]]]]]]]]]]]]]].
  exists l, r, lev, c, s, img, txt. refine (conj Hl (conj Hr (conj Nl (conj Nc (conj Ns (conj Et (conj Ef _))))))). intros Sm.
  pose proof (held_usable _ _ _ U Hl) as [_ Sz]. pose proof (problem_fits _ _ _ _ _ _ Eg Sz) as Fit.
  destruct (small_graph 53 1024 hp53 he53 (2 ^ 64)%N Z.of_N (fun n _ => eq_refl) l r lev c s g Eg
              (held_consistent _ _ _ Hl) (held_consistent _ _ _ Hr) Fit Sm) as [El [Er [Ev [Hw [Hz [Ic Is]]]]]].
  destruct Sm as [m [Hm [Bc [Bs [B1 [B2 [B3 B4]]]]]]].
  rewrite <- El, <- Er in Hm |- *. rewrite <- Ev in B3, B4 |- *.
  apply (exact_best 53 1024 hp53 he53 (2 ^ 64)%N Z.of_N (fun n _ => eq_refl) g lp _ _ m Hw Hz Ic Is) in Best; try assumption; lia.
Qed.

Lemma omp_near v srt w o lpath rpath out e f : sorts srt -> usable_files w -> orderly_team v -> all_paths o lpath rpath out -> technology_ok o ->
  main_omp v srt w (Parsed o) (Ok e) -> written_file e = Some f ->
  exists l r lev c s img txt, file_holds w lpath l /\ file_holds w rpath r /\
    option_number (width l) (o_levels o) lev /\ option_number 1 (o_cleanness o) c /\ option_number 1 (o_smoothness o) s /\
    write_image [] (Some img) = Ok txt /\ f = (out, txt) /\
    (small_penalties (2 ^ 53) l r lev (Z.of_N c) (Z.of_N s) ->
     forall k b k' e e', ordered_labeling r lev k -> within_bound l r lev (Z.of_N c) (Z.of_N s) b k -> ordered_labeling r lev k' ->
       total_cost l r (Z.of_N c) (Z.of_N s) (map_labeling img) e -> total_cost l r (Z.of_N c) (Z.of_N s) k' e' ->
       (e <= e' + b * terms r)%Z).
Proof.
  intros Hs U Ho A Ht R F.
  destruct (omp_exact v srt w o lpath rpath out e f Hs U Ho A Ht R F) as [l [r [lev [c [s [img [txt [A1 [A2 [A3 [A4 [A5 [A6 [A7 A8]]]]]]]]]]]]]].
  exists l, r, lev, c, s, img, txt. refine (conj A1 (conj A2 (conj A3 (conj A4 (conj A5 (conj A6 (conj A7 _))))))).
  intros Sm k b k' e1 e2 Hk Wk Hk'. apply (map_near l r lev _ _ b k k' img e1 e2); [lia|apply A8; exact Sm|assumption..].
Qed.
