(** Runs with failing libraries. *)
From Coq Require Import String.
From Verif Require Export Fail_spec Device_main_proofs.
Local Open Scope N_scope.

(** *** CUDA *)

Section Cuda.
Context (k : conditions) (v : behaviour).

Definition sound (c : cuda_state) : Prop := c_error c = false /\ c_lost c = false.
Definition unsound (c : cuda_state) : Prop := c_error c = true \/ c_lost c = true.
Lemma sound_dec c : sound c \/ unsound c.
Proof. unfold sound, unsound. destruct (c_error c), (c_lost c); auto. Qed.

Lemma errchk_cases c x : errchk k c x ->
  (x = Goes (true, c) /\ c_lost c = false) \/
  (exists c', x = Goes (false, c') /\ ndebug k = true /\ c_error c' = true /\ (c_lost c = true -> c_lost c' = true)) \/
  (x = Dies /\ ndebug k = false).
Proof.
  intros [c' H|c' H N|c' H N]; inversion H; subst.
  - left. auto.
  - right; left. eexists. split; [reflexivity|]. cbn [with_error c_error c_lost]. auto.
  - right; right. auto.
Qed.

Lemma errchks_cases n : forall c y, errchks k n c y ->
  (y = Goes c /\ (n <> O -> c_lost c = false)) \/
  (exists c', y = Goes c' /\ ndebug k = true /\ c_error c' = true /\ (c_lost c = true -> c_lost c' = true)) \/
  (y = Dies /\ ndebug k = false).
Proof.
  induction n as [|n IH]; intros c y H; cbn [errchks] in H.
  - left. split; [exact H|]. intros X. contradiction.
  - destruct H as [x [Hx Hy]]. destruct (errchk_cases c x Hx) as [[-> L]|[[c1 [-> [N [E L]]]]|[-> N]]]; cbn [afterwards snd] in Hy.
    + destruct (IH c y Hy) as [[-> _]|R]; [left|right; exact R]. split; [reflexivity|]. intros _. exact L.
    + right. destruct (IH c1 y Hy) as [[-> _]|[[c' [-> [N' [E' L']]]]|D]]; [left; exists c1; auto 8|left; exists c'; auto 8|right; exact D].
    + right; right. auto.
Qed.

Lemma prepare_cases avail c y : sound c -> prepare_problem k avail c y ->
  (exists c', y = Goes c' /\ ((sound c' /\ c_mem c' = avail /\ c_flags c' = c_flags c) \/ c_error c' = true)) \/
  (y = Dies /\ ndebug k = false).
Proof.
  intros [S1 S2] [x1 [x2 [H1 [H2 H3]]]].
  assert (Q : forall c', c_error c' = true -> errchks k 2 c' y -> (exists c'', y = Goes c'' /\ c_error c'' = true) \/ (y = Dies /\ ndebug k = false)).
  { intros c' E' H. destruct (errchks_cases _ _ _ H) as [[-> _]|[[c'' [-> [_ [E'' _]]]]|D]]; [left; eauto|left; eauto|right; exact D]. }
  assert (P : forall c', c_error c' = true -> upload k avail c' x2 -> (exists c'', y = Goes c'' /\ c_error c'' = true) \/ (y = Dies /\ ndebug k = false)).
  { intros c' E' U. destruct U as [c2 H|c2 m H|H]; cbn [afterwards] in H3.
    - destruct (errchk_cases _ _ H) as [[X _]|[[c3 [X _]]|[X _]]]; try discriminate X. injection X as ->.
      apply (Q _) in H3; [exact H3|exact E'].
    - destruct (errchk_cases _ _ H) as [[X _]|[[c3 [X [_ [E3 _]]]]|[X _]]]; try discriminate X. injection X as ->.
      apply (Q _) in H3; [exact H3|exact E3].
    - destruct (errchk_cases _ _ H) as [[X _]|[[c3 [X _]]|[_ N]]]; try discriminate X. right. auto. }
  assert (W : forall c', ((exists c'', y = Goes c'' /\ c_error c'' = true) \/ (y = Dies /\ ndebug k = false)) ->
    (exists c'', y = Goes c'' /\ ((sound c'' /\ c_mem c'' = avail /\ c_flags c'' = c_flags c') \/ c_error c'' = true)) \/ (y = Dies /\ ndebug k = false)).
  { intros c' [[c'' [-> E]]|D]; [left; eauto|right; exact D]. }
  destruct (errchks_cases _ _ _ H1) as [[-> _]|[[c1 [-> [_ [E1 _]]]]|[-> N]]]; cbn [afterwards] in H2.
  - destruct H2 as [c2 H|c2 m H|H]; cbn [afterwards] in H3.
    + destruct (errchk_cases _ _ H) as [[X _]|[[c3 [X _]]|[X _]]]; try discriminate X. injection X as ->.
      destruct (errchks_cases _ _ _ H3) as [[-> _]|[[c'' [-> [_ [E'' _]]]]|D]]; [left|left; eauto|right; exact D].
      eexists. split; [reflexivity|]. left. unfold sound, with_mem. cbn [c_error c_lost c_mem c_flags]. auto.
    + apply W. destruct (errchk_cases _ _ H) as [[X _]|[[c3 [X [_ [E3 _]]]]|[X _]]]; try discriminate X. injection X as ->.
      apply (Q _) in H3; [exact H3|exact E3].
    + destruct (errchk_cases _ _ H) as [[X _]|[[c3 [X _]]|[_ N]]]; try discriminate X. right. auto.
  - apply W. exact (P c1 E1 H2).
  - subst x2. cbn [afterwards] in H3. right. auto.
Qed.

Lemma launches_cases fits effect c c' : launches fits effect c c' ->
  (sound c' -> fits = true /\ sound c /\ effect (c_mem c) (c_flags c) (c_mem c') (c_flags c')) /\
  (fits = false -> c_error c' = true) /\ (c_error c = true -> c_error c' = true) /\ (c_lost c = true -> c_lost c' = true).
Proof.
  unfold sound. intros [m f F L E| |m f F L]; cbn [with_error c_error c_lost c_mem c_flags].
  - split; [intros [X _]; auto|]. split; [congruence|]. split; [auto|congruence].
  - split; [intros [X _]; discriminate|]. auto.
  - split; [intros [_ X]; discriminate|]. split; [congruence|]. auto.
Qed.

Lemma check_cases c y : check_error c y -> (y = Goes c /\ c_error c = false) \/ (y = Leaves /\ unsound c).
Proof. intros [E|E]; [left; auto|right]. split; [reflexivity|]. apply orb_true_iff in E. exact E. Qed.

Lemma loop_cases cg ps : forall c y, cuda_loop k v cg ps c y ->
  y = Leaves \/ exists c', y = Goes c' /\
    (sound c' -> sound c /\ (ps <> [] -> launchable k (right (cg_graph cg)) = true) /\
       label_device cg CUDA (b_sc v) (b_kind v) (b_partition v) ps (c_mem c) (c_flags c) (c_mem c') (c_flags c')) /\
    (c_lost c = true -> c_lost c' = true) /\ (c_error c = true -> c_error c' = true) /\
    (c_error c' = false -> ps <> [] -> launchable k (right (cg_graph cg)) = true).
Proof.
  induction ps as [|p ps IH]; intros c y H; inversion H as [|? ? ? L|? ? ? c0 c1 c2 ? Hc H1 H2 H3]; subst.
  - right. exists c. split; [reflexivity|]. split; [|split; [auto|split; [auto|contradiction]]].
    intros S. split; [exact S|]. split; [contradiction|constructor].
  - left. reflexivity.
  - destruct (check_cases _ _ Hc) as [[X E]|[X _]]; [|discriminate]. injection X as ->.
    destruct (launches_cases _ _ _ _ H1) as [A1 [_ [B1 D1]]]. destruct (launches_cases _ _ _ _ H2) as [A2 [F2 [B2 D2]]].
    destruct (IH _ _ H3) as [->|[c' [-> [S [L' [E' F']]]]]]; [left; reflexivity|right]. exists c'. split; [reflexivity|].
    split; [|split; [auto|split; [auto|]]].
    + intros Hs. destruct (S Hs) as [Sc2 [_ LD]]. destruct (A2 Sc2) as [Fit [Sc1 Pr]]. destruct (A1 Sc1) as [_ [Sc [[b Cb] Ef]]].
      split; [exact Sc|]. split; [intros _; exact Fit|]. apply (label_pixel _ _ _ _ _ p ps _ b (c_mem c1) _ (c_mem c2) (c_flags c2)).
      * exact Cb.
      * rewrite <- Ef. exact Pr.
      * exact LD.
    + intros E0 _. destruct (launchable k (right (cg_graph cg))) eqn:Q; [reflexivity|]. rewrite (E' (F2 eq_refl)) in E0. discriminate.
Qed.

Lemma solution_cases cg c y : device_order cg <> [] -> csp_solution_cuda k v cg c y ->
  y = Leaves \/ (y = Dies /\ ndebug k = false) \/
  (launchable k (right (cg_graph cg)) = true /\ c_error c = false /\ exists c', y = Goes c' /\
    ((sound c /\ sound c' /\ exists f', label_device cg CUDA (b_sc v) (b_kind v) (b_partition v) (device_order cg) (c_mem c) (c_flags c) (c_mem c') f') \/
     (ndebug k = true /\ c_lost c' = true) \/
     (ndebug k = true /\ c_error c' = true /\ sound c /\ exists f', label_device cg CUDA (b_sc v) (b_kind v) (b_partition v) (device_order cg) (c_mem c) (c_flags c) (c_mem c') f'))).
Proof.
  intros Ne [x1 [x2 [H1 [H2 H3]]]].
  destruct (loop_cases _ _ _ _ H1) as [->|[c1 [-> [S [L [E F]]]]]]; cbn [afterwards] in H2.
  - subst x2. cbn [afterwards] in H3. left. exact H3.
  - destruct (check_cases _ _ H2) as [[-> E1]|[-> _]]; cbn [afterwards] in H3; [|left; exact H3].
    assert (Ec : c_error c = false) by (destruct (c_error c); [rewrite E in E1 by reflexivity; discriminate|reflexivity]).
    cbn [errchks] in H3. destruct H3 as [x [Hx Hy]].
    destruct (errchk_cases _ _ Hx) as [[-> Lc]|[[c2 [-> [N [E2 L2]]]]|[-> N]]]; cbn [afterwards snd] in Hy.
    + right; right. split; [exact (F E1 Ne)|]. split; [exact Ec|]. exists c1. split; [exact Hy|]. left.
      destruct (S (conj E1 Lc)) as [Sc [_ LD]]. split; [exact Sc|]. split; [split; assumption|]. eauto.
    + right; right. split; [exact (F E1 Ne)|]. split; [exact Ec|]. exists c2. split; [exact Hy|]. right.
      destruct (c_lost c1) eqn:Lc; [left; auto|right]. split; [exact N|]. split; [exact E2|].
      destruct (S (conj E1 Lc)) as [Sc [_ LD]]. split; [exact Sc|].
      inversion Hx as [|c' Hcall Hn|]; subst. inversion Hcall; subst. cbn [with_error c_mem]. eauto.
    + right; left. auto.
Qed.

Lemma free_cases size c y : free_problem k size c y ->
  (y = Goes (c_mem c) /\ c_lost c = false) \/ (y = Goes (fill size false) /\ ndebug k = true) \/ (y = Dies /\ ndebug k = false).
Proof.
  intros [x [H1 H2]].
  assert (Q : forall c' m, (exists z, errchks k 9 c' z /\ afterwards (fun _ y => y = Goes m) z y) -> y = Goes m \/ (y = Dies /\ ndebug k = false)).
  { intros c' m [z [Hz Hy]]. destruct (errchks_cases _ _ _ Hz) as [[-> _]|[[c'' [-> _]]|[-> N]]]; cbn [afterwards] in Hy; auto. }
  destruct H1 as [c' H|c' H|H]; cbn [afterwards fst snd] in H2.
  - destruct (errchk_cases _ _ H) as [[X L]|[[c3 [X _]]|[X _]]]; try discriminate X. injection X as ->.
    destruct (Q _ _ H2) as [->|D]; auto.
  - destruct (errchk_cases _ _ H) as [[X _]|[[c3 [X [N _]]]|[X _]]]; try discriminate X.
    destruct (Q _ _ H2) as [->|D]; auto.
  - destruct (errchk_cases _ _ H) as [[X _]|[[c3 [X _]]|[_ N]]]; try discriminate X. auto.
Qed.

Lemma labels_cuda_cases (cg : cgraph cpu) y : device_order (cuda_problem cg) <> [] -> labels_cuda k v cg y ->
  y = Leaves \/ (y = Dies /\ ndebug k = false) \/
  (launchable k (right (cg_graph (cuda_problem cg))) = true /\ exists cg', y = Goes cg' /\
    (find_labeling_cuda (b_sc v) (b_kind v) (b_partition v) cg cg' \/
     (ndebug k = true /\ cg' = with_avail cg (fill (len (cg_avail cg)) false)))).
Proof.
  intros Ne [m [f [x1 [x2 [x3 [H1 [H2 [H3 H4]]]]]]]].
  destruct (prepare_cases (cg_avail cg) {| c_mem := m; c_flags := f; c_error := false; c_lost := false |} _ (conj eq_refl eq_refl) H1) as [[c [-> Hc]]|[-> N]]; cbn [afterwards] in H2.
  2:{ subst x2. cbn [afterwards] in H3. subst x3. cbn [afterwards] in H4. auto. }
  destruct (solution_cases _ _ _ Ne H2) as [->|[[-> N]|[La [Ec [c' [-> Hc']]]]]]; cbn [afterwards] in H3.
  - subst x3. cbn [afterwards] in H4. auto.
  - subst x3. cbn [afterwards] in H4. auto.
  - destruct Hc as [[_ [Em Ef]]|X]; [|congruence]. rewrite Em in Hc'.
    assert (Z : x3 = Goes (fill (len (cg_avail cg)) false) /\ ndebug k = true -> y = Leaves \/ (y = Dies /\ ndebug k = false) \/
      (launchable k (right (cg_graph (cuda_problem cg))) = true /\ exists cg', y = Goes cg' /\
        (find_labeling_cuda (b_sc v) (b_kind v) (b_partition v) cg cg' \/ (ndebug k = true /\ cg' = with_avail cg (fill (len (cg_avail cg)) false))))).
    { intros [-> N]. cbn [afterwards] in H4. right; right. split; [exact La|]. eexists. split; [exact H4|]. right. auto. }
    destruct (free_cases _ _ _ H3) as [[-> Lc]|[Zr|[-> N]]]; [|exact (Z Zr)|cbn [afterwards] in H4; auto].
    cbn [afterwards] in H4. right; right. split; [exact La|]. eexists. split; [exact H4|]. left.
    assert (LD : exists f', label_device (cuda_problem cg) CUDA (b_sc v) (b_kind v) (b_partition v) (device_order (cuda_problem cg)) (cg_avail cg) (c_flags c) (c_mem c') f').
    { destruct Hc' as [[_ [_ R]]|[[_ X]|[_ [_ [_ R]]]]]; [exact R|congruence|exact R]. }
    destruct LD as [f' LD]. exists (c_mem c'). split; [|reflexivity]. exists (c_flags c), f'. split; [discriminate|]. exact LD.
Qed.

(** Nothing fails. *)
Lemma errchk_goes c : c_lost c = false -> errchk k c (Goes (true, c)).
Proof. intros L. apply errchk_success. constructor. exact L. Qed.
Lemma errchks_go n c : c_lost c = false -> errchks k n c (Goes c).
Proof.
  intros L. induction n as [|n IH]; [reflexivity|]. cbn [errchks]. exists (Goes (true, c)).
  split; [exact (errchk_goes c L)|exact IH].
Qed.
Lemma prepare_goes avail m f : prepare_problem k avail {| c_mem := m; c_flags := f; c_error := false; c_lost := false |}
  (Goes {| c_mem := avail; c_flags := f; c_error := false; c_lost := false |}).
Proof.
  set (c := {| c_mem := m |}). exists (Goes c), (Goes (with_mem c avail)).
  split; [apply errchks_go; reflexivity|]. split; [|exact (errchks_go 2 (with_mem c avail) eq_refl)].
  cbn [afterwards]. apply upload_done. apply errchk_goes. reflexivity.
Qed.
Lemma loop_goes cg ps : launchable k (right (cg_graph cg)) = true -> forall m f m' f',
  label_device cg CUDA (b_sc v) (b_kind v) (b_partition v) ps m f m' f' ->
  cuda_loop k v cg ps {| c_mem := m; c_flags := f; c_error := false; c_lost := false |}
    (Goes {| c_mem := m'; c_flags := f'; c_error := false; c_lost := false |}).
Proof.
  intros La m f m' f' H. induction H as [m f|p ps m b m1 f m2 f2 m' f' Hb Hp H IH]; [constructor|].
  eapply loop_pixel; [apply check_passes; reflexivity| | |exact IH].
  - apply (launch_runs true _ {| c_mem := m; c_flags := f; c_error := false; c_lost := false |} m1 f); [reflexivity|reflexivity|].
    split; [exists b; exact Hb|reflexivity].
  - apply (launch_runs _ _ {| c_mem := m1; c_flags := f; c_error := false; c_lost := false |} m2 f2); [exact La|reflexivity|exact Hp].
Qed.
Lemma labels_cuda_goes cg cg' : launchable k (right (cg_graph (cuda_problem cg))) = true ->
  find_labeling_cuda (b_sc v) (b_kind v) (b_partition v) cg cg' -> labels_cuda k v cg (Goes cg').
Proof.
  intros La [m [[f [f' [_ LD]]] ->]].
  set (c1 := {| c_mem := cg_avail cg; c_flags := f; c_error := false; c_lost := false |}).
  set (c2 := {| c_mem := m; c_flags := f'; c_error := false; c_lost := false |}).
  exists [], f, (Goes c1), (Goes c2), (Goes m). split; [apply prepare_goes|]. cbn [afterwards]. split; [|split; [|reflexivity]].
  - exists (Goes c2), (Goes c2). split; [exact (loop_goes _ _ La _ _ _ _ LD)|]. cbn [afterwards].
    split; [apply check_passes; reflexivity|apply errchks_go; reflexivity].
  - exists (Goes (m, c2)). split; [exact (download_done k _ c2 c2 (errchk_goes c2 eq_refl))|].
    cbn [afterwards fst snd]. exists (Goes c2). split; [exact (errchks_go 9 c2 eq_refl)|reflexivity].
Qed.

(** Both kernels are refused. *)
Lemma labels_cuda_leaves cg : device_order (cuda_problem cg) <> [] -> labels_cuda k v cg Leaves.
Proof.
  intros Ne. destruct (device_order (cuda_problem cg)) as [|p ps] eqn:E; [contradiction|].
  set (f := {| step_flag := false; any_flag := false |}).
  set (c1 := {| c_mem := cg_avail cg; c_flags := f; c_error := false; c_lost := false |}).
  set (c2 := with_error (with_error c1 false) false).
  exists [], f, (Goes c1), Leaves, Leaves. split; [apply prepare_goes|]. cbn [afterwards]. split; [|split; reflexivity].
  assert (L : check_error c2 Leaves) by (apply check_exits; reflexivity).
  assert (R : forall y, cuda_loop k v (cuda_problem cg) ps c2 y -> cuda_loop k v (cuda_problem cg) (p :: ps) c1 y).
  { intros y H. apply (loop_pixel k v _ p ps c1 c1 (with_error c1 false) c2); [apply check_passes; reflexivity| | |exact H].
    - exact (launch_refused true _ c1).
    - exact (launch_refused _ _ (with_error c1 false)). }
  destruct ps as [|q ps].
  - exists (Goes c2), Leaves. rewrite E. split; [apply R; constructor|]. split; [exact L|reflexivity].
  - exists Leaves, Leaves. rewrite E. split; [apply R; apply loop_exits; exact L|split; reflexivity].
Qed.
End Cuda.

(** *** The program *)

(** The problems of two files. *)
Definition given (w : world) (o : options) (lpath rpath : text) (srt : list (F cpu) -> list (F cpu)) : outcome (cgraph cpu) :=
  l <- read_file w lpath ;;
  r <- read_file w rpath ;;
  lev <- number_or (width l) (o_levels o) ;;
  c <- number_or 1 (o_cleanness o) ;;
  s <- number_or 1 (o_smoothness o) ;;
  prepared srt l r lev (of_u c) (of_u s).

Lemma given_map pa v srt w o lpath rpath x : map_with pa v srt w o lpath rpath x <->
  match given w o lpath rpath srt with Stop e => x = Stop e | Ok cg => exists y, labels pa v cg y /\ x = mapped y end.
Proof.
  unfold map_with, given.
  destruct (read_file w lpath) as [l|e]; cbn [bind]; [|reflexivity].
  destruct (read_file w rpath) as [r|e]; cbn [bind]; [|reflexivity].
  destruct (number_or (width l) (o_levels o)) as [lev|e]; cbn [bind]; [|reflexivity].
  destruct (number_or 1 (o_cleanness o)) as [c|e]; cbn [bind]; [|reflexivity].
  destruct (number_or 1 (o_smoothness o)) as [s|e]; cbn [bind]; reflexivity.
Qed.

(** What a prepared problem is like. *)
Lemma given_prepared w o lpath rpath srt cg : sorts srt -> usable_files w -> given w o lpath rpath srt = Ok cg ->
  wf_cgraph cg /\ exists l r, file_holds w lpath l /\ file_holds w rpath r /\ right (cg_graph cg) = r /\
    width l = width r /\ height l = height r /\ width r * height r < 2 ^ 32.
Proof.
  intros Hs U. unfold given.
  destruct (read_file w lpath) as [l|e] eqn:El; cbn [bind]; [|discriminate].
  destruct (read_file w rpath) as [r|e] eqn:Er; cbn [bind]; [|discriminate].
  destruct (number_or (width l) (o_levels o)) as [lev|e] eqn:Elev; cbn [bind]; [|discriminate].
  destruct (number_or 1 (o_cleanness o)) as [c|e] eqn:Ecl; cbn [bind]; [|discriminate].
  destruct (number_or 1 (o_smoothness o)) as [s|e] eqn:Es; cbn [bind]; [|discriminate].
  apply read_held in El. apply read_held in Er. apply number_value in Elev. apply number_value in Ecl. apply number_value in Es.
  destruct (held_usable w lpath l U El) as [S1 S2]. destruct (held_usable w rpath r U Er) as [S3 _].
  pose proof (held_consistent _ _ _ El) as Cl. pose proof (held_consistent _ _ _ Er) as Cr.
  destruct (made_total l r lev (@of_u cpu c) (of_u s)) as [[g Eg]|[[k Ek]|Ek]]; try assumption; [discriminate| | |].
  - assert (Hf : finite_penalties g).
    { eapply made_finite; try eassumption; try (eapply number_small; [|eassumption]; reflexivity).
      intros u [Hv|Hv]; [apply (proj2 (held_small _ _ _ El) u Hv)|apply (proj2 (held_small _ _ _ Er) u Hv)]. }
    destruct (prepared_accepted cpu_laws srt l r lev _ _ g Hs Eg Cl Cr (problem_fits _ _ _ _ _ _ Eg S2) Hf)
      as [lp [cands [t [cg' [_ [_ [_ [Ep [C [EG _]]]]]]]]]].
    rewrite Ep. intros X. injection X as <-. split; [exact C|]. exists l, r.
    destruct (make_graph_Ok l r lev _ _ g Eg) as [_ [_ [_ [Lw [Ww [Wh [_ [_ [_ [_ [_ E]]]]]]]]]]].
    rewrite EG, E. cbn [right]. auto 8.
  - unfold prepared. rewrite Ek. discriminate.
  - unfold prepared. rewrite Ek. discriminate.
Qed.

Lemma nothing_available (cg : cgraph cpu) : wf_cgraph cg -> mapped (Ok (true, with_avail cg (fill (len (cg_avail cg)) false))) = Stop (Throw NoLabel).
Proof.
  intros C. unfold mapped. cbn [bind fst snd negb]. set (cg' := with_avail cg (fill (len (cg_avail cg)) false)).
  assert (C' : wf_cgraph cg').
  { destruct C as [c1 c2 c3]. constructor; try assumption. cbn [cg' with_avail cg_avail cg_graph]. rewrite len_fill. assumption. }
  destruct (disparity_map cg' C') as [_ Bad].
  rewrite (Bad {| px := 0; py := 0 |}); [reflexivity|exact (origin_in cg' (wf_static cg' C'))|].
  intros d M A. apply available_with in A; [|exact (wf_static cg C)|exact (wfc_avail cg' C')|apply match_inb; exact M].
  unfold avb in A. rewrite bit_fill_false in A. discriminate.
Qed.

Lemma order_some (cg : cgraph cpu) : wf_cgraph cg -> width (right (cg_graph cg)) * height (right (cg_graph cg)) < 2 ^ 32 ->
  device_order (cuda_problem cg) <> [].
Proof.
  intros C S. pose proof (wf_rows _ (wfc_graph _ C)) as H. pose proof (wf_levels _ (wfc_graph _ C)) as L.
  pose proof (wf_levels_width _ (wfc_graph _ C)) as W.
  assert (X : In {| px := 0; py := 0 |} (device_order (cuda_problem cg))).
  { unfold device_order. cbv zeta. cbn [cuda_problem device_problem cg_graph device_graph right device_image width height].
    rewrite !N.mod_small by nia. apply in_flat_map. exists 0. split; [apply In_range; lia|].
    apply in_map_iff. exists 0. split; [reflexivity|apply In_range; lia]. }
  intros Y. rewrite Y in X. destruct X.
Qed.

Lemma launchable_room k (cg : cgraph cpu) : wf_cgraph cg -> width (right (cg_graph cg)) * height (right (cg_graph cg)) < 2 ^ 32 ->
  launchable k (right (cg_graph (cuda_problem cg))) = true <-> room_for k (right (cg_graph cg)).
Proof.
  intros C S. pose proof (wf_rows _ (wfc_graph _ C)) as H. pose proof (wf_levels _ (wfc_graph _ C)) as L.
  pose proof (wf_levels_width _ (wfc_graph _ C)) as W. unfold launchable, room_for. cbv zeta.
  cbn [cuda_problem device_problem cg_graph device_graph right device_image width height].
  rewrite !N.mod_mod by discriminate. rewrite !N.mod_small by nia. rewrite !andb_true_iff, !N.ltb_lt, !N.leb_le. lia.
Qed.

Lemma contained k b v srt w p e : sorts srt -> usable_files w -> main_failing k b v srt w p e ->
  (exists x, e = Ends x /\ main_with b v srt w p x) \/
  exists o a, p = Parsed o /\ chosen b (o_parallel o) = Ok (On a) /\ failed k a e.
Proof.
  intros Hs U M. destruct p as [o| |]; [|left; eexists; split; [exact M|reflexivity]..].
  unfold main_failing in M. unfold main_with.
  destruct (o_output o) as [out|] eqn:E1, (o_left o) as [lpath|] eqn:E2, (o_right o) as [rpath|] eqn:E3;
    try (left; destruct (_ || _); [eexists; split; [exact M|reflexivity]|]; destruct (_ =? _); eexists; split; [exact M|reflexivity|exact M|reflexivity]).
  destruct (chosen b (o_parallel o)) as [pa|x] eqn:Ec; [|left; destruct x; eexists; split; [exact M|reflexivity|exact M|reflexivity|exact M|reflexivity]].
  unfold block_with in M. fold (given w o lpath rpath srt) in M.
  destruct (given w o lpath rpath srt) as [cg|x] eqn:Eg.
  2:{ left. eexists. split; [exact M|]. exists (Stop x). split; [|reflexivity]. apply given_map. rewrite Eg. reflexivity. }
  assert (Q : forall y, labels pa v cg y -> e = Ends (finishes w out (mapped y)) ->
    exists x, e = Ends x /\ exists x0, map_with pa v srt w o lpath rpath x0 /\ x = finishes w out x0).
  { intros y Hy ->. eexists. split; [reflexivity|]. exists (mapped y). split; [|reflexivity]. apply given_map. rewrite Eg. eauto. }
  destruct pa as [|[]]; unfold concludes in M.
  - left. destruct M as [y [Hy E]]. exact (Q y Hy E).
  - destruct M as [->|[y [Hy E]]]; [right|left; exact (Q y Hy E)]. exists o, OpenCL. split; [reflexivity|]. split; [exact Ec|reflexivity].
  - destruct M as [y [Hy E]]. destruct (given_prepared _ _ _ _ _ _ Hs U Eg) as [C [l [r [_ [_ [Er [_ [_ S]]]]]]]].
    rewrite <- Er in S.
    destruct (labels_cuda_cases k v cg y (order_some cg C S) Hy) as [->|[[-> N]|[_ [cg' [-> [F|[N ->]]]]]]].
    + right. exists o, CUDA. split; [reflexivity|]. split; [exact Ec|]. left. exact E.
    + right. exists o, CUDA. split; [reflexivity|]. split; [exact Ec|]. right; left. auto.
    + left. apply (Q (Ok (true, cg'))); [|exact E]. exists cg'. auto.
    + right. exists o, CUDA. split; [reflexivity|]. split; [exact Ec|]. right; right. split; [exact N|].
      rewrite E, (nothing_available cg C). reflexivity.
Qed.

(** Without failures. *)
Lemma unfailing k b v srt w p x : sorts srt -> usable_files w ->
  (forall o lpath l, p = Parsed o -> chosen b (o_parallel o) = Ok (On CUDA) -> o_left o = Some lpath -> file_holds w lpath l -> room_for k l) ->
  main_with b v srt w p x -> main_failing k b v srt w p (Ends x).
Proof.
  intros Hs U R M. destruct p as [o| |]; [|cbn in *; congruence..].
  unfold main_with in M. unfold main_failing.
  destruct (o_output o) as [out|] eqn:E1, (o_left o) as [lpath|] eqn:E2, (o_right o) as [rpath|] eqn:E3;
    try (destruct (_ || _); [congruence|]; destruct (_ =? _); congruence).
  destruct (chosen b (o_parallel o)) as [pa|y] eqn:Ec; [|destruct y; congruence].
  destruct M as [z [M ->]]. apply given_map in M. unfold block_with. fold (given w o lpath rpath srt).
  destruct (given w o lpath rpath srt) as [cg|y] eqn:Eg; [|congruence].
  destruct M as [y [Hy ->]]. destruct pa as [|[]]; unfold concludes; [eauto|eauto|].
  destruct (given_prepared _ _ _ _ _ _ Hs U Eg) as [C [l [r [Hl [_ [Er [Ew [Eh S]]]]]]]].
  destruct Hy as [cg' [F ->]]. exists (Goes cg'). split; [|reflexivity].
  apply labels_cuda_goes; [|exact F]. rewrite <- Er in S. apply (launchable_room k cg C S).
  destruct (R o lpath l eq_refl Ec E2 Hl) as [R1 R2]. unfold room_for. rewrite Er, <- Ew, <- Eh. auto.
Qed.

(** Images for which the device has no room. *)
Lemma no_room k b v srt w o lpath rpath out l e :
  sorts srt -> usable_files w -> all_paths o lpath rpath out -> chosen b (o_parallel o) = Ok (On CUDA) ->
  file_holds w lpath l -> ~ room_for k l -> main_failing k b v srt w (Parsed o) e ->
  e = Exits \/ (ndebug k = false /\ e = Aborts) \/
  exists x, given w o lpath rpath srt = Stop x /\ e = Ends (finishes w out (Stop x)).
Proof.
  intros Hs U [E1 [E2 E3]] Ec Hl R M. unfold main_failing in M. rewrite E1, E2, E3, Ec in M.
  unfold block_with in M. fold (given w o lpath rpath srt) in M.
  destruct (given w o lpath rpath srt) as [cg|x] eqn:Eg; [|right; right; eauto].
  destruct M as [y [Hy E]]. destruct (given_prepared _ _ _ _ _ _ Hs U Eg) as [C [l' [r [Hl' [_ [Er [Ew [Eh S]]]]]]]].
  rewrite <- Er in S. destruct (labels_cuda_cases k v cg y (order_some cg C S) Hy) as [->|[[-> N]|[La _]]]; [auto|auto|].
  exfalso. apply R. apply (launchable_room k cg C S) in La. rewrite Er in La. unfold room_for in *.
  assert (l' = l).
  { destruct (held_usable _ _ _ U Hl) as [S1 _]. destruct (held_usable _ _ _ U Hl') as [S2 _].
    pose proof (held_read _ _ _ Hl) as A. pose proof (held_read _ _ _ Hl') as B.
    rewrite A in B by (unfold vector_max_size; lia). assert (Ok l = Ok l') by (apply B; unfold vector_max_size; lia). congruence. }
  subst l'. rewrite Ew, Eh. exact La.
Qed.

Lemma no_room_file k b v srt w o lpath rpath out l e :
  sorts srt -> usable_files w -> all_paths o lpath rpath out -> chosen b (o_parallel o) = Ok (On CUDA) ->
  file_holds w lpath l -> ~ room_for k l -> main_failing k b v srt w (Parsed o) e -> leaves_file e = None.
Proof.
  intros Hs U Hp Ec Hl R M. destruct (no_room _ _ _ _ _ _ _ _ _ _ _ Hs U Hp Ec Hl R M) as [->|[[_ ->]|[x [_ ->]]]]; [reflexivity..|].
  unfold finishes. cbn [bind]. destruct x; reflexivity.
Qed.

(** A run without a map. *)
Lemma exits_run k b v srt w o lpath rpath out cg :
  sorts srt -> usable_files w -> all_paths o lpath rpath out -> chosen b (o_parallel o) = Ok (On CUDA) ->
  given w o lpath rpath srt = Ok cg -> main_failing k b v srt w (Parsed o) Exits.
Proof.
  intros Hs U [E1 [E2 E3]] Ec Eg. unfold main_failing. rewrite E1, E2, E3, Ec. unfold block_with. fold (given w o lpath rpath srt).
  rewrite Eg. destruct (given_prepared _ _ _ _ _ _ Hs U Eg) as [C [l [r [_ [_ [Er [_ [_ S]]]]]]]]. rewrite <- Er in S.
  exists Leaves. split; [|reflexivity]. apply labels_cuda_leaves. exact (order_some cg C S).
Qed.

(** Every failure may happen. *)
Section Happen.
Context (k : conditions) (v : behaviour).

Lemma labels_cuda_dies cg : ndebug k = false -> labels_cuda k v cg Dies.
Proof.
  intros N. exists [], {| step_flag := false; any_flag := false |}, Dies, Dies, Dies.
  split; [|split; [|split]; reflexivity]. exists Dies, Dies. split; [|split; reflexivity].
  exists Dies. split; [|reflexivity]. eapply errchk_asserts; [|exact N]. apply (call_fails _ false). discriminate.
Qed.

Lemma labels_cuda_zeros cg cg' : ndebug k = true -> launchable k (right (cg_graph (cuda_problem cg))) = true ->
  find_labeling_cuda (b_sc v) (b_kind v) (b_partition v) cg cg' -> labels_cuda k v cg (Goes (with_avail cg (fill (len (cg_avail cg)) false))).
Proof.
  intros N La [m [[f [f' [_ LD]]] ->]].
  set (c1 := {| c_mem := cg_avail cg; c_flags := f; c_error := false; c_lost := false |}).
  set (c2 := {| c_mem := m; c_flags := f'; c_error := false; c_lost := false |}).
  exists [], f, (Goes c1), (Goes c2), (Goes (fill (len (cg_avail cg)) false)). split; [apply prepare_goes|]. cbn [afterwards]. split; [|split; [|reflexivity]].
  - exists (Goes c2), (Goes c2). split; [exact (loop_goes k v _ _ La _ _ _ _ LD)|]. cbn [afterwards].
    split; [apply check_passes; reflexivity|apply errchks_go; reflexivity].
  - set (c3 := with_error c2 false). exists (Goes (fill (len (cg_avail cg)) false, c3)). split.
    + apply download_failed. apply errchk_ignored; [|exact N]. apply call_fails. discriminate.
    + cbn [afterwards fst snd]. exists (Goes c3). split; [exact (errchks_go k 9 c3 eq_refl)|reflexivity].
Qed.
End Happen.

Lemma happens k b v srt w o lpath rpath out a x e : sorts srt -> usable_files w -> all_paths o lpath rpath out ->
  chosen b (o_parallel o) = Ok (On a) -> main_with b v srt w (Parsed o) (Ok x) -> written_file x <> None ->
  (forall l, file_holds w lpath l -> room_for k l) -> failed k a e -> main_failing k b v srt w (Parsed o) e.
Proof.
  intros Hs U [E1 [E2 E3]] Ec M W R Fe. unfold main_with in M. unfold main_failing. rewrite E1, E2, E3, Ec in M |- *.
  destruct M as [z [M Ez]]. apply given_map in M. unfold block_with. fold (given w o lpath rpath srt).
  destruct (given w o lpath rpath srt) as [cg|y] eqn:Eg.
  2:{ subst z. unfold finishes in Ez. cbn [bind] in Ez. destruct y; try discriminate. injection Ez as ->. cbn in W. congruence. }
  destruct M as [y [Hy _]]. destruct a; unfold failed in Fe; unfold concludes.
  - left. exact Fe.
  - destruct (given_prepared _ _ _ _ _ _ Hs U Eg) as [C [l [r [Hl [_ [Er [Ew [Eh S]]]]]]]]. rewrite <- Er in S.
    destruct Fe as [->|[[N ->]|[N ->]]].
    + exists Leaves. split; [exact (labels_cuda_leaves k v cg (order_some cg C S))|reflexivity].
    + exists Dies. split; [exact (labels_cuda_dies k v cg N)|reflexivity].
    + destruct Hy as [cg' [F _]]. eexists. split; [eapply labels_cuda_zeros; [exact N| |exact F]|].
      * apply (launchable_room k cg C S). destruct (R l Hl) as [R1 R2]. unfold room_for. rewrite Er, <- Ew, <- Eh. auto.
      * cbv iota beta. rewrite (nothing_available cg C). reflexivity.
Qed.
