(** Runs on orderly devices agree: lemmas. *)
From Coq Require Import Lia.
From Verif Require Export Same_proofs Lattice_spec.
Local Open Scope N_scope.

Lemma twins_join {T D E : target} (cg : cgraph T) (c1 : cgraph D) (c2 : cgraph E) :
  wf_cgraph cg -> twins cg c1 -> twins cg c2 -> twins c1 c2.
Proof.
  intros Hc T1 T2. pose proof (wfc_graph cg Hc) as Hw. constructor.
  - intros p. rewrite (tw_image _ _ T2), (tw_image _ _ T1). reflexivity.
  - intros n. rewrite (tw_match _ _ T2), (tw_match _ _ T1). reflexivity.
  - intros m. rewrite (tw_mem _ _ T2), (tw_mem _ _ T1). reflexivity.
  - intros m n M. apply (tw_match _ _ T1) in M. rewrite (tw_avb _ _ T2), (tw_avb _ _ T1) by exact M. reflexivity.
  - intros n n' M M'. apply (tw_match _ _ T1) in M, M'. rewrite (tw_compat _ _ T2), (tw_compat _ _ T1) by assumption. reflexivity.
  - intros n n' v v' w w' M M' E1 E2 E3 E4. apply (tw_match _ _ T1) in M, M'.
    destruct (node_penalty_Ok (G cg) n Hw M) as [x Ex]. destruct (node_penalty_Ok (G cg) n' Hw M') as [x' Ex'].
    rewrite (tw_pen _ _ T2 n n' x x' w w'), (tw_pen _ _ T1 n n' x x' v v') by assumption. reflexivity.
  - intros n v M E1. apply (tw_match _ _ T1) in M. exact (tw_nonneg_d _ _ T1 n v M E1).
  - intros n v M E1. apply (tw_match _ _ T1) in M. exact (tw_nonneg_d _ _ T2 n v M E1).
Qed.

Section Agree.
Context {T D : target} (HT : laws T) (HD : laws D) (cg : cgraph T) (cd : cgraph D).
Context (a : api) (kind : barrier_kind) (partition : (nat -> nat) -> Prop).
Context (a' : api) (kind' : barrier_kind) (partition' : (nat -> nat) -> Prop).
Hypotheses (Hs : static cg) (Hsd : static cd) (Tw : twins cg cd).
Hypothesis Settles : forall m f m' f', mem_ok cg m -> propagate cg a true kind partition m f m' f' -> settled (with_avail cg m').
Hypothesis Settles' : forall m f m' f', mem_ok cd m -> propagate cd a' true kind' partition' m f m' f' -> settled (with_avail cd m').

(** The same matches are available. *)
Definition agree (m md : mem) : Prop := forall n, match_exists (G cg) n -> avb cg m n = avb cg md n.

Lemma agree_chosen m md b m1 b' md1 p : mem_ok cg m -> mem_ok cd md -> in_image (G cg) p -> agree m md ->
  run (choose_best_node cg p) m = Ok (b, m1) -> run (choose_best_node cd p) md = Ok (b', md1) ->
  mem_ok cg m1 /\ mem_ok cd md1 /\ agree m1 md1.
Proof using HT HD Hs Hsd Tw.
  clear Settles Settles' a kind partition a' kind' partition'.
  intros Hm Hmd Hp A E E'. pose proof (st_graph cg Hs) as Hw. pose proof (st_graph cd Hsd) as Hwd.
  pose proof (proj2 (tw_image _ _ Tw p) Hp) as Hpd.
  destruct (run_choose cg m p HT Hs Hm Hp) as [b0 [m0 [E0 [Hm1 [Sub [Oth [Eb [None HC]]]]]]]].
  rewrite E in E0. injection E0 as <- <-.
  destruct (run_choose cd md p HD Hsd Hmd Hpd) as [b0 [m0 [E0 [Hmd1 [Subd [Othd [Ebd [Noned HCd]]]]]]]].
  rewrite E' in E0. injection E0 as <- <-.
  split; [exact Hm1|]. split; [exact Hmd1|].
  assert (Bb : b = b').
  { rewrite Eb, Ebd. apply eq_true_iff_eq. rewrite !hasb_ex by assumption.
    split; intros [d [M Ad]]; exists d; (split; [apply (tw_match _ _ Tw); exact M|]).
    - rewrite (tw_avb _ _ Tw) by exact M. rewrite <- A by exact M. exact Ad.
    - apply (tw_match _ _ Tw) in M. rewrite (tw_avb _ _ Tw) in Ad by exact M. rewrite A by exact M. exact Ad. }
  intros [q dq] Mq. pose proof (proj2 (tw_match _ _ Tw _) Mq) as Mqd.
  destruct (pixel_dec q p) as [->|Ne].
  2: { rewrite <- (tw_avb _ _ Tw md1) by exact Mq. rewrite Oth, Othd by (try exact Ne; apply match_inb; assumption).
       rewrite (tw_avb _ _ Tw) by exact Mq. apply A. exact Mq. }
  destruct b.
  - destruct (HC eq_refl) as [d [M [Ad [U Min]]]]. destruct (HCd (eq_sym Bb)) as [d' [M' [Ad' [U' Min']]]].
    assert (d' = d).
    { pose proof (proj1 (tw_match _ _ Tw _) M') as M'h. pose proof (proj2 (tw_match _ _ Tw _) M) as Md.
      destruct (node_penalty_Ok (G cg) _ Hw M) as [v Ev]. destruct (node_penalty_Ok (G cg) _ Hw M'h) as [v' Ev'].
      destruct (node_penalty_Ok (G cd) _ Hwd Md) as [w Ew]. destruct (node_penalty_Ok (G cd) _ Hwd M') as [w' Ew'].
      assert (X : avb cg m (nd p d') = true) by (rewrite A by exact M'h; rewrite <- (tw_avb _ _ Tw) by exact M'h; exact Ad').
      assert (Y : avb cd md (nd p d) = true) by (rewrite (tw_avb _ _ Tw) by exact M; rewrite <- A by exact M; exact Ad).
      destruct (Min (fun d0 v0 M0 _ E0 => tw_nonneg _ _ Tw _ v0 M0 E0) d' v v' M'h X Ev Ev') as [L1 T1].
      destruct (Min' (fun d0 v0 M0 _ E0 => tw_nonneg_d _ _ Tw _ v0 (proj1 (tw_match _ _ Tw _) M0) E0) d w' w Md Y Ew' Ew) as [L2 T2].
      rewrite (tw_pen _ _ Tw _ _ _ _ _ _ M'h M Ev' Ev Ew' Ew) in L2.
      rewrite (tw_pen _ _ Tw _ _ _ _ _ _ M M'h Ev Ev' Ew Ew') in T2.
      specialize (T1 L2). specialize (T2 L1). lia. }
    subst d'. apply eq_true_iff_eq. rewrite <- (tw_avb _ _ Tw md1) by exact Mq. rewrite (U dq Mq), (U' dq Mqd). reflexivity.
  - assert (X : forall m0, sub m0 m -> avb cg m0 (nd p dq) = false).
    { intros m0 S. destruct (avb cg m0 (nd p dq)) eqn:Ea; [|reflexivity]. apply S in Ea.
      assert (hasb cg m p = true) by (apply hasb_ex; [exact Hs|exact Hp|]; exists dq; auto). congruence. }
    rewrite (X m1 Sub). symmetry.
    destruct (avb cg md1 (nd p dq)) eqn:Ea; [|reflexivity].
    rewrite <- (tw_avb _ _ Tw) in Ea by exact Mq. apply Subd in Ea. fold (avb cd md (nd p dq)) in Ea.
    assert (hasb cd md p = true) by (apply hasb_ex; [exact Hsd|exact Hpd|]; exists dq; auto). congruence.
Qed.

Lemma agree_support K : support cd K <-> support cg K.
Proof.
  split; intros S n Kn.
  - exact (twin_support cg cd Tw K S n Kn).
  - destruct (S n Kn) as [M Sup]. split; [apply (tw_match _ _ Tw); exact M|].
    intros q Hq Ad. apply (tw_image _ _ Tw) in Hq. destruct (Sup q Hq Ad) as [n' [E [Kn' C]]].
    exists n'. split; [exact E|]. split; [exact Kn'|]. apply (tw_compat _ _ Tw); [exact M|apply (S n' Kn')|exact C].
Qed.

Lemma agree_propagated m f m' f' md g md' g' : mem_ok cg m -> mem_ok cd md -> agree m md ->
  propagate cg a true kind partition m f m' f' -> propagate cd a' true kind' partition' md g md' g' ->
  mem_ok cg m' /\ mem_ok cd md' /\ agree m' md'.
Proof.
  intros Hm Hmd A P P'.
  destruct (propagate_sub cg a true kind partition Hs m f m' f' Hm P) as [Hm' _].
  destruct (propagate_sub cd a' true kind' partition' Hsd md g md' g' Hmd P') as [Hmd' _].
  split; [exact Hm'|]. split; [exact Hmd'|]. intros n M. pose proof (proj2 (tw_match _ _ Tw n) M) as Md.
  rewrite <- (tw_avb _ _ Tw md') by exact M. apply eq_true_iff_eq.
  pose proof (settled_largest cg a true kind partition m f m' f' Hs Hm P (Settles _ _ _ _ Hm P) n M) as L.
  pose proof (settled_largest cd a' true kind' partition' md g md' g' Hsd Hmd P' (Settles' _ _ _ _ Hmd P') n Md) as L'.
  rewrite available_with in L by (try assumption; apply match_inb; exact M).
  rewrite available_with in L' by (try assumption; apply match_inb; exact Md).
  rewrite L, L'. split; intros [K [HK Kn]]; exists K; (split; [|exact Kn]).
  - apply arc_support in HK; try assumption. destruct HK as [S H]. apply arc_support; try assumption. split; [apply agree_support; exact S|].
    intros x Kx. pose proof (proj1 (S x Kx)) as Mx. rewrite (tw_avb _ _ Tw) by exact Mx. rewrite <- A by exact Mx. apply H. exact Kx.
  - apply arc_support in HK; try assumption. destruct HK as [S H]. apply arc_support; try assumption.
    apply agree_support in S. split; [exact S|].
    intros x Kx. pose proof (proj1 (S x Kx)) as Mx. rewrite A by exact Mx. rewrite <- (tw_avb _ _ Tw) by exact Mx. apply H. exact Kx.
Qed.

Lemma agree_labels l : pixels_ok cg l -> forall m f m' f' md g md' g', mem_ok cg m -> mem_ok cd md -> agree m md ->
  label_device cg a true kind partition l m f m' f' -> label_device cd a' true kind' partition' l md g md' g' ->
  mem_ok cg m' /\ mem_ok cd md' /\ agree m' md'.
Proof.
  induction l as [|p l IH]; intros Hps m f m' f' md g md' g' Hm Hmd A L L'.
  - inversion L; subst. inversion L'; subst. auto.
  - inversion L as [|p0 ps m0 b m1 f0 m2 f2 m'' f'' E P L1 Ep]; subst.
    inversion L' as [|p0 ps m0 b' md1 f0 md2 g2 md'' f'' E' P' L1' Ep]; subst.
    destruct (agree_chosen m md b m1 b' md1 p Hm Hmd (Hps p (or_introl eq_refl)) A E E') as [Hm1 [Hmd1 A1]].
    destruct (agree_propagated m1 f m2 f2 md1 g md2 g2 Hm1 Hmd1 A1 P P') as [Hm2 [Hmd2 A2]].
    apply (IH (fun x Hx => Hps x (or_intror Hx)) m2 f2 m' f' md2 g2 md' g'); assumption.
Qed.
End Agree.

(** Two runs on the same problem. *)
Lemma runs_agree {T : target} (HL : laws T) (cg : cgraph T) a v m a' v' m' : plain_problem cg -> orderly a v -> orderly a' v' ->
  csp_solution cg a true (b_kind v) (b_partition v) m -> csp_solution cg a' true (b_kind v') (b_partition v') m' ->
  forall n, match_exists (G cg) n -> (available (with_avail cg m) n <-> available (with_avail cg m') n).
Proof.
  intros P Or Or' [f [f1 [_ LD]]] [g [g1 [_ LD']]] n M. pose proof (pp_wf cg P) as Hc. pose proof (wf_static cg Hc) as Hs.
  pose proof (wfc_avail cg Hc) as Hm. fold (mem_ok cg (cg_avail cg)) in Hm.
  assert (Tw : twins cg cg).
  { assert (Nn : forall x v, match_exists (G cg) x -> node_penalty (G cg) x = Ok v -> fle fzero v = true).
    { intros x w Mx E. exact (node_nonneg HL (G cg) x w (wfc_graph cg Hc) (pp_zero cg P) (pp_finite cg P) (pp_weights cg P) Mx E). }
    constructor; try reflexivity; [|exact Nn|exact Nn].
    intros x x' w w' y y' _ _ E1 E2 E3 E4. rewrite E1 in E3. rewrite E2 in E4. injection E3 as ->. injection E4 as ->. reflexivity. }
  assert (Hps : pixels_ok cg (device_order cg)).
  { intros p Hp. change (device_order cg) with (all_pixels (width (right (G cg))) (height (right (G cg)))) in Hp. apply In_all_pixels in Hp. exact Hp. }
  destruct (agree_labels HL HL cg cg a (b_kind v) (b_partition v) a' (b_kind v') (b_partition v') Hs Hs Tw
    (settles_orderly cg a v Hs Or) (settles_orderly cg a' v' Hs Or')
    _ Hps _ _ _ _ _ _ _ _ Hm Hm (fun n _ => eq_refl) LD LD') as [M1 [M2 A]].
  rewrite !available_with by (try assumption; apply match_inb; exact M). rewrite (A n M). reflexivity.
Qed.

(** Maps are made of the available matches. *)
Lemma map_agrees {T : target} (cg : cgraph T) m1 m2 : wf_cgraph (with_avail cg m1) -> wf_cgraph (with_avail cg m2) ->
  (forall n, match_exists (G cg) n -> (available (with_avail cg m1) n <-> available (with_avail cg m2) n)) ->
  (r <- exec build_disparity_map (with_avail cg m1) ;; Ok (fst r)) = (r <- exec build_disparity_map (with_avail cg m2) ;; Ok (fst r)).
Proof.
  intros C1 C2 A.
  destruct (disparity_map (with_avail cg m1) C1) as [D1 F1]. destruct (disparity_map (with_avail cg m2) C2) as [D2 F2].
  cbn [with_avail cg_graph] in D1, F1, D2, F2.
  assert (Hs2 : static (with_avail cg m2)) by (apply wf_static; exact C2).
  assert (Dec : (exists p, in_image (G cg) p /\ forall d, match_exists (G cg) (nd p d) -> ~ available (with_avail cg m2) (nd p d)) \/
     (forall p, in_image (G cg) p -> exists d, match_exists (G cg) (nd p d) /\ available (with_avail cg m2) (nd p d))).
  { assert (Av : forall p d, match_exists (G cg) (nd p d) -> available (with_avail cg m2) (nd p d) <-> avb (with_avail cg m2) m2 (nd p d) = true).
    { intros p d M. apply available_iff; [exact C2|]. apply match_inb. exact M. }
    assert (X : forall ps, (forall p, In p ps -> in_image (G cg) p) ->
      (exists p, In p ps /\ hasb (with_avail cg m2) m2 p = false) \/ (forall p, In p ps -> hasb (with_avail cg m2) m2 p = true)).
    { induction ps as [|p ps IH]; intros Hps; [right; intros p []|].
      destruct (hasb (with_avail cg m2) m2 p) eqn:Eh; [|left; exists p; split; [left; reflexivity|exact Eh]].
      destruct IH as [[q [Hq Eq]]|H]; [intros; apply Hps; right; assumption|left; exists q; split; [right; exact Hq|exact Eq]|].
      right. intros q [<-|Hq]; [exact Eh|apply H; exact Hq]. }
    destruct (X (all_pixels (width (right (G cg))) (height (right (G cg))))) as [[p [Hp Ep]]|H].
    - intros p Hp. apply In_all_pixels in Hp. exact Hp.
    - left. exists p. apply In_all_pixels in Hp. split; [exact Hp|]. intros d M Ad. apply Av in Ad; [|exact M].
      assert (hasb (with_avail cg m2) m2 p = true) by (apply hasb_ex; [exact Hs2|exact Hp|]; exists d; auto). congruence.
    - right. intros p Hp. specialize (H p (proj2 (In_all_pixels _ _ p) Hp)). apply hasb_ex in H; [|exact Hs2|exact Hp].
      destruct H as [d [M Ad]]. exists d. split; [exact M|]. apply Av; assumption. }
  destruct Dec as [[p [Hp N]]|H].
  - rewrite (F1 p Hp), (F2 p Hp); [reflexivity|exact N|]. intros d M Ad. apply A in Ad; [|exact M]. exact (N d M Ad).
  - destruct D2 as [i2 [E2 [W2 [H2 [M2 [L2 [_ K2]]]]]]]; [exact H|].
    destruct D1 as [i1 [E1 [W1 [H1 [M1 [L1 [_ K1]]]]]]].
    { intros p Hp. destruct (H p Hp) as [d [M Ad]]. exists d. split; [exact M|]. apply A; assumption. }
    rewrite E1, E2. cbn [bind fst]. f_equal.
    apply map_unique; [unfold consistent_image; rewrite L1, W1, H1; reflexivity|unfold consistent_image; rewrite L2, W2, H2; reflexivity|congruence|congruence|congruence|].
    intros p Hx Hy. assert (Hp : in_image (G cg) p) by (split; cbn in *; congruence).
    destruct (K1 p Hp) as [d1 [G1 [Md1 [Ad1 Min1]]]]. destruct (K2 p Hp) as [d2 [G2 [Md2 [Ad2 Min2]]]].
    rewrite <- W1 in G1. rewrite <- W2 in G2. rewrite (get_map_labeling i1 p d1 G1), (get_map_labeling i2 p d2 G2).
    specialize (Min1 d2 Md2 (proj2 (A _ Md2) Ad2)). specialize (Min2 d1 Md1 (proj1 (A _ Md1) Ad1)). lia.
Qed.

(** *** The application *)

(** What is known of a run on an orderly device. *)
Definition labeled_by (cg : cgraph cpu) (a : api) (v : behaviour) (y : outcome (bool * cgraph cpu)) : Prop :=
  exists (D : target) (cd : cgraph D) m f f', laws D /\ wf_cgraph cd /\ twins cg cd /\
    (forall m f m' f', mem_ok cd m -> propagate cd a true (b_kind v) (b_partition v) m f m' f' -> settled (with_avail cd m')) /\
    label_device cd a true (b_kind v) (b_partition v) (all_pixels (width (right (G cg))) (height (right (G cg)))) (cg_avail cg) f m f' /\
    y = Ok (true, with_avail cg m).

Lemma labels_labeled (cg : cgraph cpu) a v y c s b : wf_cgraph cg -> zero_reparam (G cg) -> make_lowest (G cg) = Ok (cg_lowest cg) ->
  is_int (cleanness (G cg)) c -> is_int (smoothness (G cg)) s ->
  small_penalties (2 ^ 24) (left (G cg)) (right (G cg)) (levels (G cg)) c s ->
  is_int (cg_threshold cg) b -> (0 <= b <= 2 ^ 24)%Z -> addressable a (right (G cg)) (levels (G cg)) -> orderly a v ->
  labels (On a) v cg y -> labeled_by cg a v y.
Proof.
  intros C Z1 Z2 Z3 Z4 Z5 Z6 Hb Z7 Or L. pose proof (proj1 Or) as Esc.
  destruct a; destruct L as [cg1 [[m [CS ->]] ->]]; rewrite Esc in CS.
  - pose proof (device_problem_wf (T := opencl) to_single (fun n => n) (fun n _ => eq_refl) cg C Z7) as Wd.
    pose proof (device_twins (2 ^ 64) Z.of_N (fun n => n) (fun n _ => eq_refl) (fun n _ => eq_refl) ltac:(lia) cg
               c s b C Z1 Z2 Z3 Z4 Z5 Z6 Hb Z7) as Tw.
    destruct CS as [f [f' [_ LD]]].
    exists opencl, (opencl_problem cg), m, f, f'.
    exact (conj opencl_laws (conj Wd (conj Tw (conj (settles_orderly (opencl_problem cg) OpenCL v (wf_static _ Wd) Or) (conj LD eq_refl))))).
  - pose proof (device_problem_wf (T := cuda) to_single (fun n => n mod 2 ^ 32) (fun n H => N.mod_small _ _ H) cg C Z7) as Wd.
    pose proof (device_twins (2 ^ 32) int_of_unsigned (fun n => n mod 2 ^ 32) (fun n H => N.mod_small _ _ H) conv_cuda ltac:(lia) cg
               c s b C Z1 Z2 Z3 Z4 Z5 Z6 Hb Z7) as Tw.
    assert (Eo : device_order (cuda_problem cg) = all_pixels (width (right (cg_graph cg))) (height (right (cg_graph cg)))).
    { destruct (device_sizes (T := cuda) (fun n => n mod 2 ^ 32) (fun n H => N.mod_small _ _ H) (cg_graph cg) (wfc_graph cg C) Z7) as [Ew [Eh _]].
      unfold device_order, cuda_problem. cbn [device_problem cg_graph device_graph device_image right width height].
      rewrite Ew, Eh. reflexivity. }
    destruct CS as [f [f' [_ LD]]]. rewrite Eo in LD.
    exists cuda, (cuda_problem cg), m, f, f'.
    exact (conj cuda_laws (conj Wd (conj Tw (conj (settles_orderly (cuda_problem cg) CUDA v (wf_static _ Wd) Or) (conj LD eq_refl))))).
Qed.

Lemma labeled_agree cg a v y a' v' y' : wf_cgraph cg -> labeled_by cg a v y -> labeled_by cg a' v' y' -> mapped y = mapped y'.
Proof.
  intros C (D & cd & m & f & f' & HD & Wd & Tw & St & LD & ->) (D' & cd' & m' & g & g' & HD' & Wd' & Tw' & St' & LD' & ->).
  pose proof (wf_static cg C) as Hs. pose proof (wfc_avail cg C) as Hm. fold (mem_ok cg (cg_avail cg)) in Hm.
  pose proof (wf_static cd Wd) as Hsd. pose proof (wf_static cd' Wd') as Hsd'.
  pose proof (twins_join cg cd cd' C Tw Tw') as Tj.
  assert (Hps : pixels_ok cd (all_pixels (width (right (G cg))) (height (right (G cg))))).
  { intros p Hp. apply In_all_pixels in Hp. apply (tw_image _ _ Tw). exact Hp. }
  destruct (agree_labels HD HD' cd cd' a (b_kind v) (b_partition v) a' (b_kind v') (b_partition v') Hsd Hsd' Tj St St'
    _ Hps _ _ _ _ _ _ _ _ (proj2 (tw_mem _ _ Tw _) Hm) (proj2 (tw_mem _ _ Tw' _) Hm) (fun n _ => eq_refl) LD LD') as [M1 [M2 A]].
  apply (tw_mem _ _ Tw) in M1. apply (tw_mem _ _ Tw') in M2.
  unfold mapped. cbn [bind fst snd negb]. apply map_agrees; [apply static_wf; assumption|apply static_wf; assumption|].
  intros n M. pose proof (match_inb cg n M) as I. rewrite !available_with by assumption.
  specialize (A n (proj2 (tw_match _ _ Tw n) M)). rewrite !(tw_avb _ _ Tw) in A by exact M. rewrite A. reflexivity.
Qed.

Lemma gpu_agree a a' v v' srt l r lev c s o o' :
  sorts srt -> consistent_image l -> consistent_image r ->
  width l * height l * 4 * lev < 2 ^ 64 -> addressable a r lev -> addressable a' r lev ->
  small_penalties (2 ^ 24) l r lev (Z.of_N c) (Z.of_N s) -> orderly a v -> orderly a' v' ->
  solves_with (On a) v srt l r lev (of_u (t := cpu) c) (of_u s) o ->
  solves_with (On a') v' srt l r lev (of_u (t := cpu) c) (of_u s) o' -> o = o'.
Proof.
  intros Hs Cl Cr Hsz Ha Ha' Sm24 Or Or'.
  destruct (make_graph l r lev (of_u (t := cpu) c) (of_u s)) as [g|e] eqn:Eg.
  2: { unfold solves_with, prepared. rewrite Eg. cbn [bind]. congruence. }
  assert (Sm : small_penalties (2 ^ 53) l r lev (Z.of_N c) (Z.of_N s)).
  { apply (small_weaker (2 ^ 24)); [|exact Sm24]. apply Z.pow_le_mono_r; lia. }
  destruct (small_graph 53 1024 hp53 he53 (2 ^ 64) Z.of_N (fun n _ => eq_refl) l r lev c s g Eg Cl Cr Hsz Sm) as [El0 [Er0 [Ev0 [Hw [Hz [Ic Is]]]]]].
  assert (El : @left cpu g = l) by exact El0. assert (Er : @right cpu g = r) by exact Er0. assert (Ev : @levels cpu g = lev) by exact Ev0.
  clear El0 Er0 Ev0.
  assert (Sg : small_penalties (2 ^ 53) (left g) (right g) (levels g) (Z.of_N c) (Z.of_N s)) by (rewrite El, Er, Ev; exact Sm).
  assert (Sg24 : small_penalties (2 ^ 24) (left g) (right g) (levels g) (Z.of_N c) (Z.of_N s)) by (rewrite El, Er, Ev; exact Sm24).
  assert (Hf : finite_penalties g).
  { destruct Sg as [m [Hm [Bc [Bs [B1 [B2 [B3 B4]]]]]]].
    eapply (exact_finite 53 1024 hp53 he53 (2 ^ 64) Z.of_N (fun n _ => eq_refl)); try eassumption; lia. }
  destruct (prepared_accepted cpu_laws srt l r lev _ _ g Hs Eg Cl Cr Hsz Hf) as [lp [cands [t [cg [Elp [Ef [Et [Ep [C [EG [EL [ET [Av Low]]]]]]]]]]]]].
  destruct (small_threshold 53 1024 hp53 he53 (2 ^ 64) Z.of_N (fun n _ => eq_refl) g lp _ _ Hw Hz Ic Is Sg Elp srt cands t Hs Ef Et)
    as [b [It [Hb Hmin]]].
  assert (Hb24 : (0 <= b <= 2 ^ 24)%Z).
  { split; [apply Hb|]. apply (Hmin (fun _ => 0)).
    - assert (X : @labeling_ok cpu g (fun _ => 0)); [|exact X]. pose proof (@wf_levels cpu g Hw). split.
      + intros p [Hx Hy]. unfold match_exists, label_node, in_image. cbn [npix disp]. lia.
      + intros p q _ _ A. unfold in_order, label_node, horizontal_pair. cbn [npix disp]. lia.
    - apply zero_labeling_small; [apply Hw|exact Sg24]. }
  assert (Z1 : zero_reparam (cg_graph cg)) by (rewrite EG; exact Hz).
  assert (Z2 : make_lowest (cg_graph cg) = Ok (cg_lowest cg)) by (rewrite EG, EL; exact Elp).
  assert (Z3 : is_int (cleanness (cg_graph cg)) (Z.of_N c)) by (rewrite EG; exact Ic).
  assert (Z4 : is_int (smoothness (cg_graph cg)) (Z.of_N s)) by (rewrite EG; exact Is).
  assert (Z5 : small_penalties (2 ^ 24) (left (cg_graph cg)) (right (cg_graph cg)) (levels (cg_graph cg)) (Z.of_N c) (Z.of_N s))
    by (rewrite EG; exact Sg24).
  assert (Z6 : is_int (cg_threshold cg) b) by (rewrite ET; exact It).
  assert (Z7 : addressable a (right (cg_graph cg)) (levels (cg_graph cg))) by (rewrite EG, Er, Ev; exact Ha).
  assert (Z7' : addressable a' (right (cg_graph cg)) (levels (cg_graph cg))) by (rewrite EG, Er, Ev; exact Ha').
  unfold solves_with. rewrite Ep. intros [y [Ly ->]] [y' [Ly' ->]].
  apply (labeled_agree cg a v y a' v' y' C).
  - exact (labels_labeled cg a v y _ _ b C Z1 Z2 Z3 Z4 Z5 Z6 Hb24 Z7 Or Ly).
  - exact (labels_labeled cg a' v' y' _ _ b C Z1 Z2 Z3 Z4 Z5 Z6 Hb24 Z7' Or' Ly').
Qed.

Lemma gpu_agree_file b b' v v' srt w o o' a a' e e' :
  sorts srt -> usable_files w -> same_request o o' ->
  chosen b (o_parallel o) = Ok (On a) -> chosen b' (o_parallel o') = Ok (On a') -> orderly a v -> orderly a' v' ->
  (forall lpath rpath path l r lev c s, all_paths o lpath rpath path -> file_holds w lpath l -> file_holds w rpath r ->
     option_number (width l) (o_levels o) lev -> option_number 1 (o_cleanness o) c -> option_number 1 (o_smoothness o) s ->
     addressable a r lev /\ addressable a' r lev /\ small_penalties (2 ^ 24) l r lev (Z.of_N c) (Z.of_N s)) ->
  main_with b v srt w (Parsed o) e -> main_with b' v' srt w (Parsed o') e' -> e = e'.
Proof.
  intros Hs U [R1 [R2 [R3 [R4 [R5 R6]]]]] Ec Ec' Or Or' Small. unfold main_with. rewrite R1, R2, R3, Ec, Ec'.
  destruct (o_output o) as [out|] eqn:E1, (o_left o) as [lpath|] eqn:E2, (o_right o) as [rpath|] eqn:E3;
    try (destruct (_ || _); [congruence|]; destruct (_ =? _); congruence).
  intros [x [MW ->]] [x' [MW' ->]]. f_equal.
  unfold map_with in MW, MW'. rewrite R4, R5, R6 in MW'.
  destruct (read_file w lpath) as [l|y] eqn:El; cbn [bind] in MW, MW'; [|congruence].
  destruct (read_file w rpath) as [r|y] eqn:Er; cbn [bind] in MW, MW'; [|congruence].
  destruct (number_or (width l) (o_levels o)) as [lev|y] eqn:Elev; cbn [bind] in MW, MW'; [|congruence].
  destruct (number_or 1 (o_cleanness o)) as [c|y] eqn:Ecl; cbn [bind] in MW, MW'; [|congruence].
  destruct (number_or 1 (o_smoothness o)) as [s|y] eqn:Es; cbn [bind] in MW, MW'; [|congruence].
  apply read_held in El. apply read_held in Er. apply number_value in Elev. apply number_value in Ecl. apply number_value in Es.
  destruct (Small lpath rpath out l r lev c s (conj E2 (conj E3 E1)) El Er Elev Ecl Es) as [Ad [Ad' Sm]].
  destruct (make_graph l r lev (of_u (t := cpu) c) (of_u s)) as [g|y] eqn:Eg.
  2: { unfold solves_with, prepared in MW, MW'. rewrite Eg in MW, MW'. cbn [bind] in MW, MW'. congruence. }
  pose proof (held_usable _ _ _ U El) as [_ Sz]. pose proof (problem_fits _ _ _ _ _ _ Eg Sz) as Fit.
  exact (gpu_agree a a' v v' srt l r lev c s x x' Hs (held_consistent _ _ _ El) (held_consistent _ _ _ Er) Fit Ad Ad' Sm Or Or' MW MW').
Qed.
