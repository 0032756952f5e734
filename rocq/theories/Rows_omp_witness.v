(** Concrete runs of the OpenMP build on rows that do not restrict each other. *)
From Coq Require Import String Lia.
From Verif Require Import Lattice_witness Device_witness Levels_witness.
From Verif Require Export Rows_main_proofs Rows_witness Omp_witness.
From Verif Require Import Witnesses.
Local Open Scope N_scope.

(** Two threads with words of one element, as with the [int] elements of a device. *)
Definition pair_team : team := {| t_sc := true; t_word := 1; t_size := fun bound jobs => bound = 2 /\ jobs = 2 |}.
Lemma pair_exact : exact_team pair_team. Proof. split; [reflexivity|]. intros bound jobs [-> ->]. lia. Qed.
Lemma two_exact : exact_team two_team. Proof. split; [reflexivity|]. intros bound jobs [-> ->]. lia. Qed.

(** *** The solver *)

Lemma cg119_apart : plain_problem cg119 /\ separate_rows cg119 /\ exact_team pair_team /\ rows_apart (t_word pair_team) (cg_graph cg119) /\
  height (right (cg_graph cg119)) = 2 /\ height (right (cg_graph cg119)) + 2 ^ 31 <= wmod cpu /\
  (exists o, csp_omp pair_team cg119 o) /\
  cg_avail (after solve_csp cg119) <> cg_avail cg119.
Proof.
  destruct cg119_facts as [P [S [H _]]]. refine (conj P (conj S (conj pair_exact (conj _ (conj H (conj _ (conj _ _))))))).
  - apply multiple_apart; [apply (pp_wf _ P)|discriminate|apply N.mod_1_r].
  - rewrite H. vm_compute. discriminate.
  - exists (by_schedule 2 2 1 reversed 10 cg119).
    destruct (may_by_schedule 2 2 pair_team 1 reversed 10 cg119 eq_refl eq_refl (conj eq_refl eq_refl)) as [E|E]; [|exact E].
    exfalso. assert (X : ok (by_schedule 2 2 1 reversed 10 cg119) = true) by (vm_compute; reflexivity).
    rewrite E in X. discriminate.
  - vm_compute. discriminate.
Qed.

(** *** Rows that share words *)

Definition text121l : text := lit "P2 5 2 3 1 1 1 2 2 1 1 1 2 2".
Definition text121r : text := lit "P2 5 2 3 2 0 3 3 3 2 0 3 3 3".
Definition w121 : world := world_of [(lit "l.pgm", text121l); (lit "r.pgm", text121r)].
Definition o121 : options := run_options (Some out_path) (Some (lit "4")) (Some (lit "1")) (Some (lit "0")).
Definition left121 : image := {| width := 5; height := 2; max_value := 3; data := [1; 1; 1; 2; 2; 1; 1; 1; 2; 2] |}.
Definition right121 : image := {| width := 5; height := 2; max_value := 3; data := [2; 0; 3; 3; 3; 2; 0; 3; 3; 3] |}.
Definition written121 : text := lit "P2" ++ [newline] ++ lit "5 2" ++ [newline] ++ lit "4" ++ [newline] ++ lit "0 0 1 0 0" ++ [newline] ++ lit "0 0 1 0 0" ++ [newline].
Lemma tokens121l : exists ts, laid_out ts text121l /\ image_tokens left121 [] ts.
Proof. tokens [lit "1"; lit "1"; lit "1"; lit "2"; lit "2"; lit "1"; lit "1"; lit "1"; lit "2"; lit "2"]. Qed.
Lemma tokens121r : exists ts, laid_out ts text121r /\ image_tokens right121 [] ts.
Proof. tokens [lit "2"; lit "0"; lit "3"; lit "3"; lit "3"; lit "2"; lit "0"; lit "3"; lit "3"; lit "3"]. Qed.
Lemma w121_usable : usable_files w121.
Proof.
  intros path t E. apply world_files in E. destruct E as [E|[E|[]]]; injection E as <- <-.
  - destruct tokens121l as [ts [L I]]. eapply usable_image; [exact L|exact I|vm_compute; reflexivity..].
  - destruct tokens121r as [ts [L I]]. eapply usable_image; [exact L|exact I|vm_compute; reflexivity..].
Qed.
Lemma w121_right : file_holds w121 (lit "r.pgm") right121.
Proof. destruct tokens121r as [ts [L I]]. exists text121r, ts. auto. Qed.

(** Both threads make their steps in turn. *)
Definition in_step : list nat := flat_map (fun _ => [0; 1]%nat) (repeat tt 2000).
Definition together : cgraph cpu -> outcome (bool * cgraph cpu) := by_schedule 2 2 64 in_step 10.
Lemma may_together cg : may (csp_omp two_team cg) (together cg).
Proof. apply may_by_schedule; [reflexivity..|split; reflexivity]. Qed.
Lemma run121 : main_omp two_team (@isort cpu) w121 (Parsed o121) (Ok (ends 0 (Some (LogicError CannotLabel)) None)).
Proof.
  eapply (order_run together together); [exact may_together..|apply run_paths|apply run_technology|]. vm_compute. reflexivity.
Qed.
Lemma main121 : main (@isort cpu) w121 (Parsed o121) = Ok (ends 0 None (Some (out_path, written121))).
Proof. vm_compute. reflexivity. Qed.

Lemma shared_words : exists v srt w o rpath r path txt,
  exact_team v /\ t_word v = 64 /\ sorts srt /\ usable_files w /\ o_right o = Some rpath /\ file_holds w rpath r /\
  option_number 1 (o_smoothness o) 0 /\ height r = 2 /\
  main srt w (Parsed o) = Ok (ends 0 None (Some (path, txt))) /\
  main_omp v srt w (Parsed o) (Ok (ends 0 (Some (LogicError CannotLabel)) None)).
Proof.
  exists two_team, (@isort cpu), w121, o121, (lit "r.pgm"), right121, out_path, written121.
  refine (conj two_exact (conj eq_refl (conj (isort_sorts cpu_laws) (conj w121_usable (conj eq_refl (conj w121_right (conj _ (conj eq_refl (conj main121 run121))))))))).
  apply number_value. reflexivity.
Qed.

(** With a smoothness the order of the threads matters even if no words are shared. *)
Definition backwards1 : cgraph cpu -> outcome (bool * cgraph cpu) := by_schedule 2 2 1 reversed 10.
Lemma may_backwards1 cg : may (csp_omp pair_team cg) (backwards1 cg).
Proof. apply may_by_schedule; [reflexivity..|split; reflexivity]. Qed.
Lemma run121s : main_omp pair_team (@isort cpu) w79 (Parsed o79) (Ok (ends 0 (Some (LogicError CannotLabel)) None)).
Proof.
  eapply (order_run backwards1 backwards1); [exact may_backwards1..|apply run_paths|apply run_technology|]. vm_compute. reflexivity.
Qed.
Lemma main121s : main (@isort cpu) w79 (Parsed o79) = Ok (ends 0 None (Some (out_path, written79))).
Proof. vm_compute. reflexivity. Qed.
Lemma smoothness_matters : exists v srt w o path txt,
  exact_team v /\ t_word v = 1 /\ sorts srt /\ usable_files w /\ option_number 1 (o_smoothness o) 1 /\
  main srt w (Parsed o) = Ok (ends 0 None (Some (path, txt))) /\
  main_omp v srt w (Parsed o) (Ok (ends 0 (Some (LogicError CannotLabel)) None)).
Proof.
  exists pair_team, (@isort cpu), w79, o79, out_path, written79.
  refine (conj pair_exact (conj eq_refl (conj (isort_sorts cpu_laws) (conj w79_usable (conj _ (conj main121s run121s)))))).
  apply number_value. reflexivity.
Qed.

(** *** Rows that do not *)

Lemma alone_by wb w lev' c n : number_or 0 (Some lev') = Ok n -> wb <> 0 -> n mod wb = 0 ->
  rows_alone wb w (run_options (Some out_path) (Some lev') c (Some (lit "0"))).
Proof.
  intros E B M lpath rpath l r lev s _ _ _ _ Hl Hs. right. cbn [run_options o_levels o_smoothness] in Hl, Hs.
  assert (Es : s = 0).
  { assert (N0 : number_or 1 (Some (lit "0")) = Ok 0) by reflexivity. apply (number_unique _ _ _ _ Hs). apply number_value. exact N0. }
  assert (El : lev = n) by (apply (number_unique _ _ _ _ Hl); apply (proj1 (number_value _ _ _)); exact E).
  subst. auto.
Qed.

Lemma pair_run : exact_team pair_team /\ t_size pair_team 2 2 /\ sorts (@isort cpu) /\ usable_files w121 /\
  (forall o, Parsed o121 = Parsed o -> rows_alone (t_word pair_team) w121 o) /\
  main (@isort cpu) w121 (Parsed o121) = Ok (ends 0 None (Some (out_path, written121))).
Proof.
  refine (conj pair_exact (conj (conj eq_refl eq_refl) (conj (isort_sorts cpu_laws) (conj w121_usable (conj _ main121))))).
  intros o E. injection E as <-. apply (alone_by _ _ _ _ 4); [reflexivity|discriminate|reflexivity].
Qed.

(** Words of 64 elements, 64 levels. *)
Definition text121l' : text := lit "P2 64 2 3 2 1 3 0 0 0 2 0 1 0 0 3 3 0 1 0 3 0 0 1 0 3 0 1 0 1 2 3 1 0 2 1 0 1 2 0 0 0 1 3 3 2 3 3 2 2 1 1 1 0 2 3 2 3 2 0 0 3 1 2 1 3 3 0 0 2 2 2 3 3 0 0 2 3 0 0 2 3 2 3 2 0 3 2 1 0 3 0 1 2 1 1 3 3 3 0 1 3 3 2 1 3 2 3 2 3 1 1 0 1 1 1 1 0 3 1 2 2 0 1 3 2 2 1 0 3 3 3".
Definition text121r' : text := lit "P2 64 2 3 3 3 0 3 3 0 1 0 1 3 1 0 2 0 0 0 1 0 2 0 0 1 3 1 2 2 2 3 0 0 3 3 3 3 2 0 1 0 2 2 3 1 0 1 2 1 0 2 0 2 2 1 2 1 2 1 1 1 3 1 1 3 2 0 0 2 3 2 1 2 3 2 2 0 1 0 1 3 1 2 1 3 0 3 2 0 0 3 1 3 1 3 2 0 3 3 3 0 1 1 1 0 1 3 1 3 2 1 1 0 0 0 1 3 1 1 0 2 1 2 1 2 2 3 1 0 2 3".
Definition w121' : world := world_of [(lit "l.pgm", text121l'); (lit "r.pgm", text121r')].
Definition o121' : options := run_options (Some out_path) (Some (lit "64")) (Some (lit "1")) (Some (lit "0")).
Definition left121' : image := {| width := 64; height := 2; max_value := 3; data := [2; 1; 3; 0; 0; 0; 2; 0; 1; 0; 0; 3; 3; 0; 1; 0; 3; 0; 0; 1; 0; 3; 0; 1; 0; 1; 2; 3; 1; 0; 2; 1; 0; 1; 2; 0; 0; 0; 1; 3; 3; 2; 3; 3; 2; 2; 1; 1; 1; 0; 2; 3; 2; 3; 2; 0; 0; 3; 1; 2; 1; 3; 3; 0; 0; 2; 2; 2; 3; 3; 0; 0; 2; 3; 0; 0; 2; 3; 2; 3; 2; 0; 3; 2; 1; 0; 3; 0; 1; 2; 1; 1; 3; 3; 3; 0; 1; 3; 3; 2; 1; 3; 2; 3; 2; 3; 1; 1; 0; 1; 1; 1; 1; 0; 3; 1; 2; 2; 0; 1; 3; 2; 2; 1; 0; 3; 3; 3] |}.
Definition right121' : image := {| width := 64; height := 2; max_value := 3; data := [3; 3; 0; 3; 3; 0; 1; 0; 1; 3; 1; 0; 2; 0; 0; 0; 1; 0; 2; 0; 0; 1; 3; 1; 2; 2; 2; 3; 0; 0; 3; 3; 3; 3; 2; 0; 1; 0; 2; 2; 3; 1; 0; 1; 2; 1; 0; 2; 0; 2; 2; 1; 2; 1; 2; 1; 1; 1; 3; 1; 1; 3; 2; 0; 0; 2; 3; 2; 1; 2; 3; 2; 2; 0; 1; 0; 1; 3; 1; 2; 1; 3; 0; 3; 2; 0; 0; 3; 1; 3; 1; 3; 2; 0; 3; 3; 3; 0; 1; 1; 1; 0; 1; 3; 1; 3; 2; 1; 1; 0; 0; 0; 1; 3; 1; 1; 0; 2; 1; 2; 1; 2; 2; 3; 1; 0; 2; 3] |}.
Lemma tokens121l' : exists ts, laid_out ts text121l' /\ image_tokens left121' [] ts.
Proof. tokens [lit "2"; lit "1"; lit "3"; lit "0"; lit "0"; lit "0"; lit "2"; lit "0"; lit "1"; lit "0"; lit "0"; lit "3"; lit "3"; lit "0"; lit "1"; lit "0"; lit "3"; lit "0"; lit "0"; lit "1"; lit "0"; lit "3"; lit "0"; lit "1"; lit "0"; lit "1"; lit "2"; lit "3"; lit "1"; lit "0"; lit "2"; lit "1"; lit "0"; lit "1"; lit "2"; lit "0"; lit "0"; lit "0"; lit "1"; lit "3"; lit "3"; lit "2"; lit "3"; lit "3"; lit "2"; lit "2"; lit "1"; lit "1"; lit "1"; lit "0"; lit "2"; lit "3"; lit "2"; lit "3"; lit "2"; lit "0"; lit "0"; lit "3"; lit "1"; lit "2"; lit "1"; lit "3"; lit "3"; lit "0"; lit "0"; lit "2"; lit "2"; lit "2"; lit "3"; lit "3"; lit "0"; lit "0"; lit "2"; lit "3"; lit "0"; lit "0"; lit "2"; lit "3"; lit "2"; lit "3"; lit "2"; lit "0"; lit "3"; lit "2"; lit "1"; lit "0"; lit "3"; lit "0"; lit "1"; lit "2"; lit "1"; lit "1"; lit "3"; lit "3"; lit "3"; lit "0"; lit "1"; lit "3"; lit "3"; lit "2"; lit "1"; lit "3"; lit "2"; lit "3"; lit "2"; lit "3"; lit "1"; lit "1"; lit "0"; lit "1"; lit "1"; lit "1"; lit "1"; lit "0"; lit "3"; lit "1"; lit "2"; lit "2"; lit "0"; lit "1"; lit "3"; lit "2"; lit "2"; lit "1"; lit "0"; lit "3"; lit "3"; lit "3"]. Qed.
Lemma tokens121r' : exists ts, laid_out ts text121r' /\ image_tokens right121' [] ts.
Proof. tokens [lit "3"; lit "3"; lit "0"; lit "3"; lit "3"; lit "0"; lit "1"; lit "0"; lit "1"; lit "3"; lit "1"; lit "0"; lit "2"; lit "0"; lit "0"; lit "0"; lit "1"; lit "0"; lit "2"; lit "0"; lit "0"; lit "1"; lit "3"; lit "1"; lit "2"; lit "2"; lit "2"; lit "3"; lit "0"; lit "0"; lit "3"; lit "3"; lit "3"; lit "3"; lit "2"; lit "0"; lit "1"; lit "0"; lit "2"; lit "2"; lit "3"; lit "1"; lit "0"; lit "1"; lit "2"; lit "1"; lit "0"; lit "2"; lit "0"; lit "2"; lit "2"; lit "1"; lit "2"; lit "1"; lit "2"; lit "1"; lit "1"; lit "1"; lit "3"; lit "1"; lit "1"; lit "3"; lit "2"; lit "0"; lit "0"; lit "2"; lit "3"; lit "2"; lit "1"; lit "2"; lit "3"; lit "2"; lit "2"; lit "0"; lit "1"; lit "0"; lit "1"; lit "3"; lit "1"; lit "2"; lit "1"; lit "3"; lit "0"; lit "3"; lit "2"; lit "0"; lit "0"; lit "3"; lit "1"; lit "3"; lit "1"; lit "3"; lit "2"; lit "0"; lit "3"; lit "3"; lit "3"; lit "0"; lit "1"; lit "1"; lit "1"; lit "0"; lit "1"; lit "3"; lit "1"; lit "3"; lit "2"; lit "1"; lit "1"; lit "0"; lit "0"; lit "0"; lit "1"; lit "3"; lit "1"; lit "1"; lit "0"; lit "2"; lit "1"; lit "2"; lit "1"; lit "2"; lit "2"; lit "3"; lit "1"; lit "0"; lit "2"; lit "3"]. Qed.
Lemma w121'_usable : usable_files w121'.
Proof.
  intros path t E. apply world_files in E. destruct E as [E|[E|[]]]; injection E as <- <-.
  - destruct tokens121l' as [ts [L I]]. eapply usable_image; [exact L|exact I|vm_compute; reflexivity..].
  - destruct tokens121r' as [ts [L I]]. eapply usable_image; [exact L|exact I|vm_compute; reflexivity..].
Qed.
Lemma valid121' : valid_image left121' /\ valid_image right121'.
Proof.
  assert (H : forall d, forallb (fun v => v <=? 3) d = true -> valid_image {| width := 64; height := 2; max_value := 3; data := d |}).
  { intros d H. refine (conj eq_refl (conj eq_refl (conj eq_refl _))). intros v Hv. apply (proj1 (forallb_forall _ _) H) in Hv.
    apply N.leb_le in Hv. exact Hv. }
  split; apply H; vm_compute; reflexivity.
Qed.
Lemma wide_accepted : accepted 64 {| p_left := left121'; p_right := right121'; p_cleanness := 1; p_smoothness := 0 |}.
Proof.
  destruct valid121' as [Vl Vr]. apply good_accepted.
  - refine (conj eq_refl (conj eq_refl (conj _ _))); [vm_compute; (reflexivity || discriminate)|]. exists 3%Z. split.
    + intros v [Hv|Hv]; [apply Vl in Hv|apply Vr in Hv]; cbn [left121' right121' max_value] in Hv; lia.
    + vm_compute. repeat split; (reflexivity || discriminate).
  - vm_compute. reflexivity.
  - vm_compute. (reflexivity || discriminate).
  - refine (conj Vl (conj Vr (conj eq_refl (conj eq_refl (conj eq_refl (conj eq_refl (conj _ (or_introl eq_refl)))))))). vm_compute. discriminate.
Qed.
Lemma wide_words : exact_team two_team /\ t_size two_team 2 2 /\ sorts (@isort cpu) /\ usable_files w121' /\
  (forall o, Parsed o121' = Parsed o -> rows_alone (t_word two_team) w121' o) /\
  t_word two_team = 64 /\ file_holds w121' (lit "l.pgm") left121' /\ file_holds w121' (lit "r.pgm") right121' /\
  accepted 64 {| p_left := left121'; p_right := right121'; p_cleanness := 1; p_smoothness := 0 |}.
Proof.
  refine (conj two_exact (conj (conj eq_refl eq_refl) (conj (isort_sorts cpu_laws) (conj w121'_usable (conj _ (conj eq_refl (conj _ (conj _ _)))))))).
  - intros o E. injection E as <-. apply (alone_by _ _ _ _ 64); [reflexivity|discriminate|reflexivity].
  - destruct tokens121l' as [ts [L I]]. exists text121l', ts. auto.
  - destruct tokens121r' as [ts [L I]]. exists text121r', ts. auto.
  - exact wide_accepted.
Qed.
