(** Problems in which the smoothness outweighs the intensities: examples. *)
From Coq Require Import String Lia.
From Verif Require Export Stiff_proofs Special_witness Device_witness.
Local Open Scope N_scope.

(** Pixels of small images one after another. *)
Lemma few (w h : N) (P : pixel -> Prop) : Forall P (all_pixels w h) -> forall p, px p < w -> py p < h -> P p.
Proof. intros F p Hx Hy. apply (proj1 (Forall_forall _ _) F). apply In_all_pixels. auto. Qed.

(** Two rows moved by a column; one step costs 5, no disparity costs at most 4. *)
Definition walk : stereo := small_pics 4 2 [1; 3; 5; 7; 8; 6; 4; 2] [3; 5; 7; 7; 6; 4; 2; 2] 1 5.
Lemma walk_ok : accepted 2 walk /\ small_problem (2 ^ 53) 2 walk.
Proof. apply small_pics_ok; first [reflexivity|discriminate|lia|repeat constructor; discriminate]. Qed.
Lemma walk_stiff : stiff 2 walk 4.
Proof.
  split; [|reflexivity]. apply (zero_below 2 walk 4); [discriminate|].
  intros p [Hx Hy]. revert p Hx Hy. apply few. repeat constructor; vm_compute; discriminate.
Qed.
Lemma walk_moved : moved 1 (p_left walk) (p_right walk).
Proof.
  intros p [Hx Hy]. revert p Hx Hy.
  apply (few 4 2 (fun p => px p + 1 < width (p_right walk) ->
    brightness (p_right walk) p = brightness (p_left walk) {| px := px p + 1; py := py p |})).
  repeat constructor; intros H; first [exfalso; vm_compute in H; discriminate H|vm_compute; reflexivity].
Qed.
Lemma walk_starts : brightness (p_right walk) {| px := 0; py := 0 |} <> brightness (p_left walk) {| px := 0; py := 0 |}.
Proof. vm_compute. discriminate. Qed.

(** A middle pixel that resembles its neighbor. *)
Definition even : stereo := small_pics 3 1 [5; 4; 6] [5; 6; 6] 1 5.
Lemma even_ok : accepted 2 even /\ small_problem (2 ^ 53) 2 even.
Proof. apply small_pics_ok; first [reflexivity|discriminate|lia|repeat constructor; discriminate]. Qed.
Lemma even_stiff : stiff 2 even 4.
Proof.
  split; [|reflexivity]. apply (zero_below 2 even 4); [discriminate|].
  intros p [Hx Hy]. revert p Hx Hy. apply few. repeat constructor; vm_compute; discriminate.
Qed.
Lemma even_solved : solution_of isort 2 even = Ok (zero_map 3 1 2).
Proof. vm_compute. reflexivity. Qed.
Lemma even_closer : (node_cost (p_left even) (p_right even) 1 {| npix := {| px := 1; py := 0 |}; disp := 1 |} <
  node_cost (p_left even) (p_right even) 1 {| npix := {| px := 1; py := 0 |}; disp := 0 |})%Z.
Proof. reflexivity. Qed.

(** Intensities up to 9. *)
Lemma pg_limits : at_most 9 (p_left pg) /\ at_most 9 (p_right pg).
Proof. split; intros p [Hx Hy]; revert p Hx Hy; apply few; repeat constructor; vm_compute; discriminate. Qed.

(** Files with the moved rows. *)
Definition textwl : text := lit "P2 4 2 10 1 3 5 7 8 6 4 2".
Definition textwr : text := lit "P2 4 2 10 3 5 7 7 6 4 2 2".
Definition ww : world := world_of [(lit "l.pgm", textwl); (lit "r.pgm", textwr)].
Definition ow : options := run_options (Some out_path) (Some (lit "2")) (Some (lit "1")) (Some (lit "5")).
Lemma tokenswl : exists ts, laid_out ts textwl /\ image_tokens (p_left walk) [] ts.
Proof. tokens [lit "1"; lit "3"; lit "5"; lit "7"; lit "8"; lit "6"; lit "4"; lit "2"]. Qed.
Lemma tokenswr : exists ts, laid_out ts textwr /\ image_tokens (p_right walk) [] ts.
Proof. tokens [lit "3"; lit "5"; lit "7"; lit "7"; lit "6"; lit "4"; lit "2"; lit "2"]. Qed.
Lemma ww_left : file_holds ww (lit "l.pgm") (p_left walk).
Proof. destruct tokenswl as [ts [L I]]. exists textwl, ts. auto. Qed.
Lemma ww_right : file_holds ww (lit "r.pgm") (p_right walk).
Proof. destruct tokenswr as [ts [L I]]. exists textwr, ts. auto. Qed.
Lemma walk_good : good_problem (p_left walk) (p_right walk) 2 (p_cleanness walk) (p_smoothness walk).
Proof.
  refine (conj (pic_valid _ _ _ _ _ _) (conj (pic_valid _ _ _ _ _ _) _)); try reflexivity; try (repeat constructor; discriminate).
Qed.

Lemma stiff_example : sorts (@isort cpu) /\
  (accepted 2 walk /\ small_problem (2 ^ 53) 2 walk /\ stiff 2 walk 4) /\
  (accepted 2 even /\ small_problem (2 ^ 53) 2 even /\ stiff 2 even 4 /\ solution_of isort 2 even = Ok (zero_map 3 1 2) /\
   (node_cost (p_left even) (p_right even) 1 {| npix := {| px := 1; py := 0 |}; disp := 1 |} <
    node_cost (p_left even) (p_right even) 1 {| npix := {| px := 1; py := 0 |}; disp := 0 |})%Z).
Proof. exact (conj (isort_sorts cpu_laws) (conj (conj (proj1 walk_ok) (conj (proj2 walk_ok) walk_stiff))
  (conj (proj1 even_ok) (conj (proj2 even_ok) (conj even_stiff (conj even_solved even_closer)))))). Qed.

Lemma steps_example : sorts (@isort cpu) /\ accepted 3 pg /\ small_problem (2 ^ 53) 3 pg /\
  at_most 9 (p_left pg) /\ at_most 9 (p_right pg) /\
  exists img, solution_of isort 3 pg = Ok img /\ data img = [0; 1; 1; 0; 1; 1; 0; 0].
Proof. refine (conj (isort_sorts cpu_laws) (conj pg_accepted (conj (pg_small _ _) (conj (proj1 pg_limits) (conj (proj2 pg_limits) pg_solved))))). lia. Qed.

Lemma moved_example : small_problem (2 ^ 53) 2 walk /\ stiff 2 walk 4 /\
  good_problem (p_left walk) (p_right walk) 2 (p_cleanness walk) (p_smoothness walk) /\
  width (p_left walk) * height (p_left walk) < 2 ^ 32 /\ width (p_left walk) * height (p_left walk) * 4 * 2 <= vector_max_size /\
  0 < p_cleanness walk /\ 0 < 1 < 2 /\ 1 + 1 < width (p_right walk) /\ moved 1 (p_left walk) (p_right walk) /\
  brightness (p_right walk) {| px := 0; py := 0 |} <> brightness (p_left walk) {| px := 0; py := 0 |} /\
  all_paths ow (lit "l.pgm") (lit "r.pgm") out_path /\ technology_ok ow /\
  file_holds ww (lit "l.pgm") (p_left walk) /\ file_holds ww (lit "r.pgm") (p_right walk) /\
  option_number (width (p_left walk)) (o_levels ow) 2 /\ option_number 1 (o_cleanness ow) (p_cleanness walk) /\
  option_number 1 (o_smoothness ow) (p_smoothness walk).
Proof.
  refine (conj (proj2 walk_ok) (conj walk_stiff (conj walk_good (conj eq_refl (conj _ (conj eq_refl (conj (conj eq_refl eq_refl) (conj eq_refl
    (conj walk_moved (conj walk_starts (conj (conj eq_refl (conj eq_refl eq_refl)) (conj (run_technology _ _ _ _) (conj ww_left (conj ww_right _))))))))))))));
    [discriminate|]. repeat split; apply number_value; reflexivity.
Qed.

(** A device on the problem with the flat map. *)
Definition prepe : outcome (cgraph cpu) := prepared (@isort cpu) (p_left even) (p_right even) 2 (of_u 1) (of_u 5).
Definition cge : cgraph cpu := match prepe with Ok cg => cg | Stop _ => cg58 end.
Lemma prepe_ok : prepe = Ok cge.
Proof. unfold cge. assert (X : ok prepe = true) by (vm_compute; reflexivity). destruct prepe as [cg|]; [reflexivity|discriminate]. Qed.
Lemma even_device a : device_solution_of a good_device isort 2 even (Ok (zero_map 3 1 2)).
Proof.
  apply (solves_by a _ _ _ _ _ _ cge [true; false; true; false; true; false] (zero_map 3 1 2) 6 8 4);
    [exact prepe_ok|destruct a; vm_compute; reflexivity|vm_compute; reflexivity].
Qed.
Lemma even_device_example a : sorts (@isort cpu) /\ accepted 2 even /\ small_problem (2 ^ 24) 2 even /\ addressable a (p_right even) 2 /\
  stiff 2 even 4 /\ device_solution_of a good_device isort 2 even (Ok (zero_map 3 1 2)).
Proof.
  refine (conj (isort_sorts cpu_laws) (conj (proj1 even_ok) (conj _ (conj _ (conj even_stiff (even_device a)))))); [|destruct a; reflexivity].
  destruct even_ok as [_ [A [B [C _]]]]. refine (conj A (conj B (conj C _))). exists 6%Z. split.
  - intros v [H|H]; revert v H; apply Forall_forall; repeat constructor; discriminate.
  - cbn [even small_pics p_cleanness p_smoothness]. lia.
Qed.
