(** Problems with proportional penalties have the same results: lemmas. *)
From Coq Require Import Lia.
From Verif Require Export Agree_proofs Scale_spec.
Local Open Scope N_scope.

(** *** The solver and the labeling on two copies of a problem *)

Section Follow.
Context {T D : target} (HT : laws T) (HD : laws D) (cg : cgraph T) (cd : cgraph D).
Hypotheses (Hs : static cg) (Hsd : static cd) (Tw : twins cg cd).
Hypotheses (Ew : width (right (G cd)) = width (right (G cg))) (Eh : height (right (G cd)) = height (right (G cg)))
  (Ed : forall p, in_image (G cg) p -> disps cd p = disps cg p).

Lemma agree_rmvb m md n : agree cg m md -> match_exists (G cg) n -> rmvb cd md n = rmvb cg m n.
Proof.
  intros A M. pose proof (proj2 (tw_match _ _ Tw n) M) as Md. apply eq_true_iff_eq.
  rewrite !rmvb_iff by (try assumption; apply match_inb; assumption). rewrite (tw_avb _ _ Tw md n M), <- (A n M).
  split; intros [X [q [Hq [Ad N]]]]; (split; [exact X|]); exists q; (split; [apply (tw_image _ _ Tw); exact Hq|]);
    (split; [exact Ad|]); intros n' En [An C]; apply (N n' En).
  - pose proof (proj1 (proj2 (proj1 C))) as M'. cbn [enbr] in M'. split; [|apply (tw_compat _ _ Tw); assumption].
    rewrite (tw_avb _ _ Tw md n' M'), <- (A n' M'). exact An.
  - pose proof (proj1 (proj2 (proj1 C))) as M'. cbn [enbr] in M'. apply (tw_match _ _ Tw) in M'.
    split; [|apply (tw_compat _ _ Tw); assumption]. rewrite (A n' M'), <- (tw_avb _ _ Tw md n' M'). exact An.
Qed.

Lemma agree_proc1 m md n : mem_ok cg m -> mem_ok cd md -> agree cg m md -> match_exists (G cg) n ->
  agree cg (proc1 cg m n) (proc1 cd md n).
Proof.
  intros Hm Hmd A M. unfold proc1. rewrite (agree_rmvb m md n A M). destruct (rmvb cg m n); [|exact A].
  intros x Mx. pose proof (proj2 (tw_match _ _ Tw n) M) as Md. pose proof (proj2 (tw_match _ _ Tw x) Mx) as Mxd.
  rewrite <- (tw_avb _ _ Tw (clear cd md n) x Mx). apply eq_true_iff_eq.
  rewrite !avb_clear by (try assumption; apply match_inb; assumption). rewrite (tw_avb _ _ Tw md x Mx), (A x Mx). reflexivity.
Qed.

Lemma agree_proc p ds : (forall d, In d ds -> match_exists (G cg) (nd p d)) ->
  forall m md, mem_ok cg m -> mem_ok cd md -> agree cg m md -> agree cg (proc cg p ds m) (proc cd p ds md).
Proof.
  induction ds as [|d ds IH]; intros Hd m md Hm Hmd A; cbn [proc]; [exact A|].
  apply IH; [intros x Hx; apply Hd; right; exact Hx|apply proc1_ok; exact Hm|apply proc1_ok; exact Hmd|].
  apply agree_proc1; try assumption. apply Hd. left. reflexivity.
Qed.

Lemma agree_process p m md : in_image (G cg) p -> mem_ok cg m -> mem_ok cd md -> agree cg m md ->
  agree cg (process cg p m) (process cd p md).
Proof.
  intros Hp Hm Hmd A. unfold process. rewrite (Ed p Hp). apply agree_proc; try assumption.
  intros d Hd. apply disps_In in Hd; assumption.
Qed.

Lemma agree_hasb p m md : in_image (G cg) p -> agree cg m md -> hasb cd md p = hasb cg m p.
Proof.
  intros Hp A. pose proof (proj2 (tw_image _ _ Tw p) Hp) as Hpd. apply eq_true_iff_eq. rewrite !hasb_ex by assumption.
  split; intros [d [M Ad]]; exists d; (split; [apply (tw_match _ _ Tw); exact M|]).
  - apply (tw_match _ _ Tw) in M. rewrite (A _ M), <- (tw_avb _ _ Tw md _ M). exact Ad.
  - rewrite (tw_avb _ _ Tw md _ M), <- (A _ M). exact Ad.
Qed.

Lemma agree_sweep ps : pixels_ok cg ps -> forall m md, mem_ok cg m -> mem_ok cd md -> agree cg m md ->
  fst (sweep cd ps md) = fst (sweep cg ps m) /\ agree cg (snd (sweep cg ps m)) (snd (sweep cd ps md)).
Proof.
  induction ps as [|p ps IH]; intros Hps m md Hm Hmd A; cbn [sweep]; [auto|].
  pose proof (Hps p (or_introl eq_refl)) as Hp. pose proof (agree_process p m md Hp Hm Hmd A) as A1.
  rewrite (agree_hasb p _ _ Hp A1). destruct (hasb cg (process cg p m) p); [|cbn [fst snd]; auto].
  apply IH; [intros x Hx; apply Hps; right; exact Hx|apply process_ok; exact Hm|apply process_ok; exact Hmd|exact A1].
Qed.

Lemma agree_solved m md : mem_ok cg m -> mem_ok cd md -> agree cg m md ->
  fst (solved cd md) = fst (solved cg m) /\ agree cg (snd (solved cg m)) (snd (solved cd md)).
Proof.
  intros Hm Hmd A. assert (Er : raster cd = raster cg) by (unfold raster; rewrite Ew, Eh; reflexivity).
  destruct (agree_sweep (raster cg) (raster_ok cg) m md Hm Hmd A) as [E1 A1].
  unfold solved. rewrite Er, E1. destruct (fst (sweep cg (raster cg) m)); cbn [fst snd]; [auto|].
  split; [reflexivity|]. intros n M. unfold avb. rewrite !bit_fill_false. reflexivity.
Qed.

Lemma agree_pixels l : pixels_ok cg l -> forall m md, mem_ok cg m -> mem_ok cd md -> agree cg m md ->
  exists b m' md', run (label_pixels cg l) m = Ok (b, m') /\ run (label_pixels cd l) md = Ok (b, md') /\
    mem_ok cg m' /\ mem_ok cd md' /\ agree cg m' md'.
Proof.
  induction l as [|p l IH]; intros Hps m md Hm Hmd A; cbn [label_pixels].
  - exists true, m, md. cbn [run]. auto.
  - pose proof (Hps p (or_introl eq_refl)) as Hp. pose proof (proj2 (tw_image _ _ Tw p) Hp) as Hpd.
    destruct (run_choose cg m p HT Hs Hm Hp) as [b [m1 [E1 [Hm1 [_ [_ [Eb _]]]]]]].
    destruct (run_choose cd md p HD Hsd Hmd Hpd) as [b' [md1 [E1' [Hmd1 [_ [_ [Eb' _]]]]]]].
    destruct (agree_chosen HT HD cg cd Hs Hsd Tw m md b m1 b' md1 p Hm Hmd Hp A E1 E1') as [_ [_ A1]].
    assert (b' = b) by (rewrite Eb, Eb'; apply agree_hasb; assumption). clear Eb Eb'. subst b'.
    rewrite !cbind_assoc_run, E1, E1'. cbn [bind fst snd].
    destruct b; cbn [negb].
    + rewrite !cbind_assoc_run, !run_solve_one by assumption. cbn [bind].
      destruct (agree_solved m1 md1 Hm1 Hmd1 A1) as [E2 A2].
      pose proof (solved_ok cg m1 Hm1) as Hm2. pose proof (solved_ok cd md1 Hmd1) as Hmd2.
      destruct (solved cg m1) as [ok m2]. destruct (solved cd md1) as [ok' md2]. cbn [fst snd] in *. subst ok'.
      destruct ok; cbn [negb].
      * apply IH; try assumption. intros x Hx; apply Hps; right; exact Hx.
      * exists false, m2, md2. cbn [run]. auto.
    + exists false, m1, md1. cbn [run]. auto.
Qed.
End Follow.

(** Maps of two copies. *)
Lemma map_follows {T D : target} (c1 : cgraph T) (c2 : cgraph D) : wf_cgraph c1 -> wf_cgraph c2 ->
  width (right (G c2)) = width (right (G c1)) -> height (right (G c2)) = height (right (G c1)) -> levels (G c2) = levels (G c1) ->
  (forall n, match_exists (G c2) n <-> match_exists (G c1) n) ->
  (forall n, match_exists (G c1) n -> (available c2 n <-> available c1 n)) ->
  (r <- exec build_disparity_map c2 ;; Ok (fst r)) = (r <- exec build_disparity_map c1 ;; Ok (fst r)).
Proof.
  intros C1 C2 Ew Eh El Em A.
  assert (I : forall p, in_image (G c2) p <-> in_image (G c1) p) by (intros p; unfold in_image; rewrite Ew, Eh; reflexivity).
  destruct (disparity_map c1 C1) as [D1 F1]. destruct (disparity_map c2 C2) as [D2 F2].
  pose proof (wf_static c1 C1) as Hs1.
  assert (Av : forall p d, match_exists (G c1) (nd p d) -> available c1 (nd p d) <-> avb c1 (cg_avail c1) (nd p d) = true).
  { intros p d M. apply available_iff; [exact C1|]. apply match_inb. exact M. }
  assert (Dec : (exists p, in_image (G c1) p /\ forall d, match_exists (G c1) (nd p d) -> ~ available c1 (nd p d)) \/
     (forall p, in_image (G c1) p -> exists d, match_exists (G c1) (nd p d) /\ available c1 (nd p d))).
  { assert (X : forall ps, (forall p, In p ps -> in_image (G c1) p) ->
      (exists p, In p ps /\ hasb c1 (cg_avail c1) p = false) \/ (forall p, In p ps -> hasb c1 (cg_avail c1) p = true)).
    { induction ps as [|p ps IH]; intros Hps; [right; intros p []|].
      destruct (hasb c1 (cg_avail c1) p) eqn:Eb; [|left; exists p; split; [left; reflexivity|exact Eb]].
      destruct IH as [[q [Hq Eq]]|H]; [intros; apply Hps; right; assumption|left; exists q; split; [right; exact Hq|exact Eq]|].
      right. intros q [<-|Hq]; [exact Eb|apply H; exact Hq]. }
    destruct (X (all_pixels (width (right (G c1))) (height (right (G c1))))) as [[p [Hp Ep]]|H].
    - intros p Hp. apply In_all_pixels in Hp. exact Hp.
    - left. exists p. apply In_all_pixels in Hp. split; [exact Hp|]. intros d M Ad. apply Av in Ad; [|exact M].
      assert (hasb c1 (cg_avail c1) p = true) by (apply hasb_ex; [exact Hs1|exact Hp|]; exists d; auto). congruence.
    - right. intros p Hp. specialize (H p (proj2 (In_all_pixels _ _ p) Hp)). apply hasb_ex in H; [|exact Hs1|exact Hp].
      destruct H as [d [M Ad]]. exists d. split; [exact M|]. apply Av; assumption. }
  destruct Dec as [[p [Hp N]]|H].
  - rewrite (F1 p Hp N), (F2 p (proj2 (I p) Hp)); [reflexivity|]. intros d M Ad. apply Em in M. apply A in Ad; [|exact M]. exact (N d M Ad).
  - destruct D1 as [i1 [E1 [W1 [H1 [M1 [L1 [_ K1]]]]]]]; [exact H|].
    destruct D2 as [i2 [E2 [W2 [H2 [M2 [L2 [_ K2]]]]]]].
    { intros p Hp. apply I in Hp. destruct (H p Hp) as [d [M Ad]]. exists d. split; [apply Em; exact M|]. apply A; assumption. }
    rewrite E1, E2. cbn [bind fst]. f_equal.
    apply map_unique; [unfold consistent_image; rewrite L2, W2, H2; reflexivity|unfold consistent_image; rewrite L1, W1, H1; reflexivity|congruence|congruence|congruence|].
    intros p Hx Hy. assert (Hp : in_image (G c1) p) by (split; cbn in *; congruence).
    destruct (K1 p Hp) as [d1 [G1 [Md1 [Ad1 Min1]]]]. destruct (K2 p (proj2 (I p) Hp)) as [d2 [G2 [Md2 [Ad2 Min2]]]].
    rewrite <- W1 in G1. rewrite <- W2 in G2. rewrite (get_map_labeling i1 p d1 G1), (get_map_labeling i2 p d2 G2).
    pose proof (proj1 (Em _) Md2) as Md2'. pose proof (proj2 (Em _) Md1) as Md1'.
    specialize (Min1 d2 Md2' (proj1 (A _ Md2') Ad2)). specialize (Min2 d1 Md1' (proj2 (A _ Md1) Ad1)). lia.
Qed.

(** *** Proportional penalties *)

Section Proportional.
Context (g g' : dgraph cpu) (lp lp' : lowest cpu) (c s c' s' j k : Z).
Hypotheses (Hw : wf_graph g) (Hz : zero_reparam g) (Hc : is_int (cleanness g) c) (Hs : is_int (smoothness g) s)
  (Sm : small_penalties (2 ^ 53) (left g) (right g) (levels g) c s) (Hl : make_lowest g = Ok lp).
Hypotheses (Hw' : wf_graph g') (Hz' : zero_reparam g') (Hc' : is_int (cleanness g') c') (Hs' : is_int (smoothness g') s')
  (Sm' : small_penalties (2 ^ 53) (left g') (right g') (levels g') c' s') (Hl' : make_lowest g' = Ok lp').
Hypotheses (Ew : width (right g') = width (right g)) (Eh : height (right g') = height (right g)) (El : levels g' = levels g).
Hypotheses (Pj : (0 < j)%Z) (Pk : (0 < k)%Z) (En : forall n, match_exists g n ->
  (k * node_cost (left g') (right g') c' n = j * node_cost (left g) (right g) c n)%Z) (Es : (k * s' = j * s)%Z).

Local Notation facts := (small_minima 53 1024 hp53 he53 (2 ^ 64) Z.of_N (fun n _ => eq_refl)).

Lemma p_image p : in_image g' p <-> in_image g p.
Proof. unfold in_image. rewrite Ew, Eh. reflexivity. Qed.
Lemma p_match n : match_exists g' n <-> match_exists g n.
Proof. unfold match_exists. rewrite p_image, Ew, El. reflexivity. Qed.

Lemma p_lowest p z z' : lowest_cost (left g) (right g) (levels g) c p z -> lowest_cost (left g') (right g') (levels g') c' p z' -> (k * z' = j * z)%Z.
Proof.
  intros [[n [N1 [N2 N3]]] NL] [[n' [N1' [N2' N3']]] NL'].
  assert (M : match_exists g n) by exact N2. assert (M' : match_exists g' n') by exact N2'.
  specialize (NL n' N1' (proj1 (p_match n') M')). specialize (NL' n N1 (proj2 (p_match n) M)).
  pose proof (En n M). pose proof (En n' (proj1 (p_match n') M')). nia.
Qed.

Lemma p_node_excess n v b : match_exists g n -> node_excess g lp n v -> is_int v b ->
  exists v' b', node_excess g' lp' n v' /\ is_int v' b' /\ (k * b' = j * b)%Z.
Proof.
  intros M X I. destruct (facts g lp c s Hw Hz Hc Hs Sm Hl) as [_ [_ [NX _]]].
  destruct (facts g' lp' c' s' Hw' Hz' Hc' Hs' Sm' Hl') as [_ [_ [NX' _]]].
  destruct (NX n M) as [v1 [z [X1 [L1 I1]]]]. destruct (NX' n (proj2 (p_match n) M)) as [v2 [z2 [X2 [L2 I2]]]].
  assert (v1 = v) by exact (node_excess_fun g lp n _ _ X1 X). subst v1.
  pose proof (int_unique 53 1024 hp53 he53 (2 ^ 64) Z.of_N v _ _ I I1) as ->.
  exists v2. eexists. split; [exact X2|]. split; [exact I2|].
  rewrite !Z.mul_sub_distr_l. apply (f_equal2 Z.sub); [exact (En n M)|exact (p_lowest _ _ _ L1 L2)].
Qed.

Lemma p_edge_excess n n' v b : match_exists g n -> match_exists g n' -> adjacent (npix n) (npix n') ->
  edge_excess g lp {| enode := n; enbr := n' |} v -> is_int v b ->
  exists v' b', edge_excess g' lp' {| enode := n; enbr := n' |} v' /\ is_int v' b' /\ (k * b' = j * b)%Z.
Proof.
  intros M M' A X I. destruct (facts g lp c s Hw Hz Hc Hs Sm Hl) as [_ [_ [_ EX]]].
  destruct (facts g' lp' c' s' Hw' Hz' Hc' Hs' Sm' Hl') as [_ [_ [_ EX']]].
  destruct (EX n n' M M' A) as [v1 [X1 I1]]. destruct (EX' n n' (proj2 (p_match n) M) (proj2 (p_match n') M') A) as [v2 [X2 I2]].
  assert (v1 = v) by exact (edge_excess_fun g lp _ _ _ X1 X). subst v1.
  pose proof (int_unique 53 1024 hp53 he53 (2 ^ 64) Z.of_N v _ _ I I1) as ->.
  exists v2. eexists. split; [exact X2|]. split; [exact I2|]. unfold edge_cost. rewrite !Z.mul_assoc, Es. reflexivity.
Qed.

Lemma p_le a b a' b' : (k * a' = j * a)%Z -> (k * b' = j * b)%Z -> (a' <= b' <-> a <= b)%Z.
Proof. intros. split; intros; nia. Qed.

Lemma excess_int n : match_exists g n -> exists v b, node_excess g lp n v /\ is_int v b.
Proof.
  intros M. destruct (facts g lp c s Hw Hz Hc Hs Sm Hl) as [_ [_ [NX _]]]. destruct (NX n M) as [v [z [X [_ I]]]]. exists v. eexists. split; eassumption.
Qed.

Section Thresholds.
Context (t t' : F cpu) (b b' : Z) (It : is_int t b) (It' : is_int t' b') (Eb : (k * b' = j * b)%Z).

Lemma p_node_within n : match_exists g n -> node_within g' lp' t' n <-> node_within g lp t n.
Proof.
  intros M. destruct (excess_int n M) as [v [z [X I]]]. destruct (p_node_excess n v z M X I) as [v' [z' [X' [I' Ez]]]].
  rewrite (node_within_excess g lp t n v X), (node_within_excess g' lp' t' n v' X').
  rewrite (int_le 53 1024 hp53 he53 (2 ^ 64) Z.of_N _ _ _ _ I It), (int_le 53 1024 hp53 he53 (2 ^ 64) Z.of_N _ _ _ _ I' It').
  apply p_le; assumption.
Qed.

Lemma p_edge_within n n' : match_exists g n -> match_exists g n' -> adjacent (npix n) (npix n') ->
  edge_within g' lp' t' {| enode := n; enbr := n' |} <-> edge_within g lp t {| enode := n; enbr := n' |}.
Proof.
  intros M M' A. destruct (facts g lp c s Hw Hz Hc Hs Sm Hl) as [_ [_ [_ EX]]]. destruct (EX n n' M M' A) as [v [X I]].
  destruct (p_edge_excess n n' v _ M M' A X I) as [v' [z' [X' [I' Ez]]]].
  rewrite (edge_within_excess g lp t _ v X), (edge_within_excess g' lp' t' _ v' X').
  rewrite (int_le 53 1024 hp53 he53 (2 ^ 64) Z.of_N _ _ _ _ I It), (int_le 53 1024 hp53 he53 (2 ^ 64) Z.of_N _ _ _ _ I' It').
  apply p_le; assumption.
Qed.

Lemma fresh_twins (cg cg' : cgraph cpu) : cg_graph cg = g -> cg_lowest cg = lp -> cg_threshold cg = t ->
  cg_graph cg' = g' -> cg_lowest cg' = lp' -> cg_threshold cg' = t' -> twins cg cg'.
Proof.
  intros Eg Elp Et Eg' Elp' Et'.
  assert (N1 : forall n v, match_exists g n -> node_penalty g n = Ok v -> is_int v (node_cost (left g) (right g) c n)).
  { intros n v M E. destruct (small_formulas 53 1024 hp53 he53 (2 ^ 64) Z.of_N (fun n _ => eq_refl) g c s Hw Hz Hc Hs Sm) as [NF _].
    destruct (NF n M) as [y [E1 I]]. assert (X : Ok y = Ok v) by exact (eq_trans (eq_sym E1) E). injection X as ->. exact I. }
  assert (N2 : forall n v, match_exists g n -> node_penalty g' n = Ok v -> is_int v (node_cost (left g') (right g') c' n)).
  { intros n v M E. destruct (small_formulas 53 1024 hp53 he53 (2 ^ 64) Z.of_N (fun n _ => eq_refl) g' c' s' Hw' Hz' Hc' Hs' Sm') as [NF _].
    destruct (NF n (proj2 (p_match n) M)) as [y [E1 I]]. assert (X : Ok y = Ok v) by exact (eq_trans (eq_sym E1) E). injection X as ->. exact I. }
  assert (Nn : forall x y (z : image) (q : Z), (0 <= q)%Z -> (0 <= node_cost y z q x)%Z).
  { intros x y z q Hq. unfold node_cost. apply Z.mul_nonneg_nonneg; [exact Hq|]. rewrite Z.pow_2_r; apply Z.square_nonneg. }
  constructor; rewrite ?Eg, ?Eg'.
  - apply p_image.
  - apply p_match.
  - intros m. unfold mem_ok. rewrite Eg, Eg', Ew, Eh, El. reflexivity.
  - intros m n [Hi [Hd _]]. unfold avb. rewrite Eg, Eg'.
    assert (Hi' : in_image g' (npix n)) by (apply p_image; exact Hi). assert (Hd' : disp n < levels g') by (rewrite El; exact Hd).
    rewrite (proj1 (node_index_small g' n Hw' Hi' Hd')), (proj1 (node_index_small g n Hw Hi Hd)). rewrite Eh, El. reflexivity.
  - intros n n' M M'. unfold compat. rewrite !ewb_iff. unfold match_pair. cbn [enode enbr].
    rewrite Eg, Eg', Elp, Elp', Et, Et', !p_match.
    split; intros [P E]; (split; [exact P|]); destruct P as [_ [_ [A _]]]; apply (p_edge_within n n' M M' A); exact E.
  - intros n n' v v' x x' M M' E1 E2 E3 E4. apply eq_true_iff_eq.
    rewrite (int_le 53 1024 hp53 he53 (2 ^ 64) Z.of_N _ _ _ _ (N1 _ _ M E1) (N1 _ _ M' E2)).
    rewrite (int_le 53 1024 hp53 he53 (2 ^ 64) Z.of_N _ _ _ _ (N2 _ _ M E3) (N2 _ _ M' E4)).
    apply p_le; apply En; assumption.
  - intros n v M E. apply (int_le 53 1024 hp53 he53 (2 ^ 64) Z.of_N fzero v 0 _ (conj eq_refl eq_refl) (N1 n v M E)).
    apply Nn. destruct Sm as [m [_ [B _]]]. lia.
  - intros n v M E. apply (int_le 53 1024 hp53 he53 (2 ^ 64) Z.of_N fzero v 0 _ (conj eq_refl eq_refl) (N2 n v M E)).
    apply Nn. destruct Sm' as [m [_ [B _]]]. lia.
Qed.

Lemma p_disps (cg cg' : cgraph cpu) p : cg_graph cg = g -> cg_graph cg' = g' -> disps cg' p = disps cg p.
Proof.
  intros Eg Eg'. unfold disps, disparities. rewrite Eg, Eg', El, (wf_width g Hw), (wf_width g' Hw'), Ew. reflexivity.
Qed.

(** The solver on the fresh graphs. *)
Lemma p_fresh (cg cg' : cgraph cpu) : make_constraint g lp t = Ok cg -> make_constraint g' lp' t' = Ok cg' ->
  twins cg cg' /\ agree cg (cg_avail cg) (cg_avail cg') /\
  fst (solved cg' (cg_avail cg')) = fst (solved cg (cg_avail cg)) /\
  agree cg (snd (solved cg (cg_avail cg))) (snd (solved cg' (cg_avail cg'))).
Proof.
  intros E E'. destruct (make_constraint_spec g lp t Hw Hl) as [c0 [E0 [C [Eg [Elp [Et A]]]]]].
  assert (c0 = cg) by congruence. subst c0.
  destruct (make_constraint_spec g' lp' t' Hw' Hl') as [c0 [E0' [C' [Eg' [Elp' [Et' A']]]]]].
  assert (c0 = cg') by congruence. subst c0.
  pose proof (fresh_twins cg cg' Eg Elp Et Eg' Elp' Et') as Tw.
  pose proof (wf_static cg C) as S. pose proof (wf_static cg' C') as S'.
  assert (Ag : agree cg (cg_avail cg) (cg_avail cg')).
  { intros n M. rewrite <- (tw_avb _ _ Tw (cg_avail cg') n M). apply eq_true_iff_eq. pose proof (proj2 (tw_match _ _ Tw n) M) as M'.
    rewrite A by (apply match_inb; exact M). rewrite A' by (apply match_inb; exact M').
    rewrite Eg in M. rewrite p_match, (p_node_within n M). reflexivity. }
  split; [exact Tw|]. split; [exact Ag|].
  apply (agree_solved cg cg' S S' Tw).
  - rewrite Eg, Eg'. exact Ew.
  - rewrite Eg, Eg'. exact Eh.
  - intros p _. apply p_disps; assumption.
  - exact (wfc_avail cg C).
  - exact (wfc_avail cg' C').
  - exact Ag.
Qed.

Lemma p_solvable : solvable g' lp' t' = solvable g lp t.
Proof.
  unfold solvable. destruct (make_constraint_spec g lp t Hw Hl) as [cg [E [C _]]].
  destruct (make_constraint_spec g' lp' t' Hw' Hl') as [cg' [E' [C' _]]]. rewrite E, E'.
  rewrite !exec_solve_csp by assumption. destruct (p_fresh cg cg' E E') as [_ [_ [X _]]]. exact X.
Qed.
End Thresholds.
End Proportional.

Lemma small_plain (g : dgraph cpu) c s : wf_graph g -> zero_reparam g -> is_int (cleanness g) c -> is_int (smoothness g) s ->
  small_penalties (2 ^ 53) (left g) (right g) (levels g) c s -> finite_penalties g /\ nonneg_weights g.
Proof.
  intros Hw Hz Hc Hs [m [Hm [Bc [Bs [B1 [B2 [B3 B4]]]]]]]. split.
  - eapply (exact_finite 53 1024 hp53 he53 (2 ^ 64) Z.of_N (fun n _ => eq_refl)); try eassumption; lia.
  - apply (exact_weights 53 1024 hp53 he53 (2 ^ 64) Z.of_N g c s Hc Hs); lia.
Qed.

Lemma threshold_below_scaled (g g' : dgraph cpu) lp lp' c s c' s' j k srt l l' t t' b b' :
  sorts srt ->
  wf_graph g -> zero_reparam g -> is_int (cleanness g) c -> is_int (smoothness g) s ->
  small_penalties (2 ^ 53) (left g) (right g) (levels g) c s -> make_lowest g = Ok lp ->
  wf_graph g' -> zero_reparam g' -> is_int (cleanness g') c' -> is_int (smoothness g') s' ->
  small_penalties (2 ^ 53) (left g') (right g') (levels g') c' s' -> make_lowest g' = Ok lp' ->
  width (right g') = width (right g) -> height (right g') = height (right g) -> levels g' = levels g ->
  (0 < j)%Z -> (0 < k)%Z ->
  (forall n, match_exists g n -> (k * node_cost (left g') (right g') c' n = j * node_cost (left g) (right g) c n)%Z) ->
  (k * s' = j * s)%Z ->
  fetch_available_penalties srt lp = Ok l -> calculate_minimal_consistent_threshold lp g l = Ok t ->
  fetch_available_penalties srt lp' = Ok l' -> calculate_minimal_consistent_threshold lp' g' l' = Ok t' ->
  is_int t b -> is_int t' b' -> (k * b' <= j * b)%Z.
Proof.
  intros Srt Hw Hz Hc Hs Sm Hl Hw' Hz' Hc' Hs' Sm' Hl' Ew Eh El Pj Pk En Es Ef Et Ef' Et' It It'.
  destruct (small_plain g c s Hw Hz Hc Hs Sm) as [Fi Nn]. destruct (small_plain g' c' s' Hw' Hz' Hc' Hs' Sm') as [Fi' Nn'].
  destruct (candidates_complete cpu_laws srt g lp Srt Hw Hl Fi) as [l0 [E0 [_ [_ [Sub _]]]]].
  assert (l0 = l) by congruence. subst l0.
  destruct (candidates_complete cpu_laws srt g' lp' Srt Hw' Hl' Fi') as [l0 [E0' [_ [_ [_ [Cov _]]]]]].
  assert (l0 = l') by congruence. subst l0.
  destruct (minimal_threshold cpu_laws srt g lp l Srt Hw Hl Fi Ef (or_introl (conj Hz Nn))) as [t0 [n0 [Et0 [_ [In0 [Says _]]]]]].
  assert (t0 = t) by congruence. subst t0.
  destruct (minimal_threshold cpu_laws srt g' lp' l' Srt Hw' Hl' Fi' Ef' (or_introl (conj Hz' Nn'))) as [t0 [n0' [Et0' [_ [_ [_ [Min _]]]]]]].
  assert (t0 = t') by congruence. subst t0.
  apply says_solvable in Says; [|exact Hw|exact Hl].
  assert (X : exists v b2, candidate g' lp' v /\ is_int v b2 /\ (k * b2 = j * b)%Z).
  { destruct (Sub t In0) as [[n [M X]]|[[n n'] [[M [M' [A O]]] X]]].
    - destruct (p_node_excess g g' lp lp' c s c' s' j k Hw Hz Hc Hs Sm Hl Hw' Hz' Hc' Hs' Sm' Hl' Ew Eh El Pj Pk En n t b M X It) as [v [b2 [X' [I E]]]].
      exists v, b2. split; [|auto]. left. exists n. split; [|exact X']. apply (p_match g g' Ew Eh El). exact M.
    - cbn [enode enbr] in M, M', A, O.
      destruct (p_edge_excess g g' lp lp' c s c' s' j k Hw Hz Hc Hs Sm Hl Hw' Hz' Hc' Hs' Sm' Hl' Ew Eh El Es n n' t b M M' A X It) as [v [b2 [X' [I E]]]].
      exists v, b2. split; [|auto]. right. exists {| enode := n; enbr := n' |}. split; [|exact X'].
      unfold enumerated. cbn [enode enbr]. rewrite !(p_match g g' Ew Eh El). auto. }
  destruct X as [v [b2 [Cv [Iv Ev]]]].
  pose proof (p_solvable g g' lp lp' c s c' s' j k Hw Hz Hc Hs Sm Hl Hw' Hz' Hc' Hs' Sm' Hl' Ew Eh El Pj Pk En Es t v b b2 It Iv Ev) as Sv.
  rewrite Says in Sv. destruct (Cov v Cv) as [y [Iy Qy]].
  assert (Sy : solvable g' lp' y = true).
  { apply (solvable_mono cpu_laws g' lp' v y Hw' Hl'); [|exact Sv]. apply (feq_spec cpu cpu_laws) in Qy. apply Qy. }
  destruct (flt y t') eqn:Ly.
  - pose proof (Min y Iy Ly) as Sf. apply says_solvable in Sf; [|exact Hw'|exact Hl']. congruence.
  - assert (Le : fle t' v = true).
    { apply (feq_spec cpu cpu_laws) in Qy. destruct (fle t' v) eqn:Z; [reflexivity|exfalso].
      assert (~ (b' <= b2)%Z).
      { intros H. apply (int_le 53 1024 hp53 he53 (2 ^ 64) Z.of_N t' v b' b2 It' Iv) in H. discriminate (eq_trans (eq_sym H) Z). }
      assert (flt y t' = true); [|congruence].
      apply (flt_spec cpu cpu_laws). destruct Qy as [Q1 Q2]. split.
      - apply (fle_trans cpu cpu_laws y v t'); [exact Q1|]. apply (int_le 53 1024 hp53 he53 (2 ^ 64) Z.of_N v t' b2 b' Iv It'). lia.
      - destruct (fle t' y) eqn:Z2; [|reflexivity]. pose proof (fle_trans cpu cpu_laws t' y v Z2 Q1). congruence. }
    apply (int_le 53 1024 hp53 he53 (2 ^ 64) Z.of_N t' v b' b2 It' Iv) in Le. nia.
Qed.

(** *** Preparation *)

(** What is known of an accepted problem with small penalties before the labeling. *)
Record ready (srt : list (F cpu) -> list (F cpu)) (lev : N) (a : stereo) (cg0 cg : cgraph cpu) (b : Z) : Prop := {
  rd_prepared : prepared srt (p_left a) (p_right a) lev (of_u (p_cleanness a)) (of_u (p_smoothness a)) = Ok cg;
  rd_fresh : make_constraint (cg_graph cg0) (cg_lowest cg0) (cg_threshold cg0) = Ok cg0;
  rd_fresh_wf : wf_cgraph cg0;
  rd_after : cg = with_avail cg0 (snd (solved cg0 (cg_avail cg0)));
  rd_wf : wf_cgraph cg;
  rd_left : left (cg_graph cg0) = p_left a;
  rd_right : right (cg_graph cg0) = p_right a;
  rd_levels : levels (cg_graph cg0) = lev;
  rd_zero : zero_reparam (cg_graph cg0);
  rd_lowest : make_lowest (cg_graph cg0) = Ok (cg_lowest cg0);
  rd_cleanness : is_int (cleanness (cg_graph cg0)) (Z.of_N (p_cleanness a));
  rd_smoothness : is_int (smoothness (cg_graph cg0)) (Z.of_N (p_smoothness a));
  rd_threshold : is_int (cg_threshold cg0) b;
  rd_cands : exists cands, fetch_available_penalties srt (cg_lowest cg0) = Ok cands /\
    calculate_minimal_consistent_threshold (cg_lowest cg0) (cg_graph cg0) cands = Ok (cg_threshold cg0);
  rd_bound : forall k b', ordered_labeling (p_right a) lev k ->
    within_bound (p_left a) (p_right a) lev (Z.of_N (p_cleanness a)) (Z.of_N (p_smoothness a)) b' k -> (0 <= b <= b')%Z
}.

Lemma accepted_ready srt lev a : sorts srt -> accepted lev a -> small_problem (2 ^ 53) lev a ->
  exists cg0 cg b, ready srt lev a cg0 cg b.
Proof.
  intros Srt [g Eg] [Cl [Cr [Hsz Sm]]].
  destruct (small_graph 53 1024 hp53 he53 (2 ^ 64) Z.of_N (fun n _ => eq_refl) _ _ lev _ _ g Eg Cl Cr Hsz Sm) as [El0 [Er0 [Ev0 [Hw [Hz [Ic Is]]]]]].
  assert (El : @left cpu g = p_left a) by exact El0. assert (Er : @right cpu g = p_right a) by exact Er0.
  assert (Ev : @levels cpu g = lev) by exact Ev0. clear El0 Er0 Ev0.
  assert (Sg : small_penalties (2 ^ 53) (left g) (right g) (levels g) (Z.of_N (p_cleanness a)) (Z.of_N (p_smoothness a)))
    by (rewrite El, Er, Ev; exact Sm).
  destruct (small_plain g _ _ Hw Hz Ic Is Sg) as [Hf _].
  destruct (prepared_accepted cpu_laws srt _ _ lev _ _ g Srt Eg Cl Cr Hsz Hf) as [lp [cands [t [cg [Elp [Ef [Et [Ep [C [EG [EL [ET [Av Low]]]]]]]]]]]]].
  destruct (small_threshold 53 1024 hp53 he53 (2 ^ 64) Z.of_N (fun n _ => eq_refl) g lp _ _ Hw Hz Ic Is Sg Elp srt cands t Srt Ef Et)
    as [b [It [Hb Hmin]]].
  destruct (make_constraint_spec g lp t Hw Elp) as [cg0 [E0 [C0 [Eg0 [El0 [Et0 A0]]]]]].
  exists cg0, cg, b. pose proof Ep as Ep0. unfold prepared in Ep. rewrite Eg in Ep. cbn [bind] in Ep. rewrite Elp in Ep. cbn [bind] in Ep.
  rewrite Ef in Ep. cbn [bind] in Ep. rewrite Et in Ep. cbn [bind] in Ep. rewrite E0 in Ep. cbn [bind] in Ep.
  rewrite (exec_solve_csp cg0 C0) in Ep. cbn [bind fst snd] in Ep.
  destruct (fst (solved cg0 (cg_avail cg0))); cbn [negb] in Ep; [|discriminate]. injection Ep as <-.
  constructor; rewrite ?Eg0, ?El0, ?Et0; try assumption; try reflexivity.
  - exists cands. auto.
  - intros k b' Hk Wk. split; [apply Hb|]. rewrite <- Er, <- Ev in Hk. rewrite <- El, <- Er, <- Ev in Wk.
    exact (Hmin k b' Hk Wk).
Qed.

Lemma small_bigger bound bound' lev a : (bound <= bound')%Z -> small_problem bound lev a -> small_problem bound' lev a.
Proof. intros H [A [B [C D]]]. repeat split; try assumption. exact (small_weaker _ _ _ _ _ _ _ H D). Qed.

Lemma scaled_ready srt lev j k a a' cg0 cg b cg0' cg' b' : sorts srt -> small_problem (2 ^ 53) lev a -> small_problem (2 ^ 53) lev a' ->
  proportional lev j k a a' -> ready srt lev a cg0 cg b -> ready srt lev a' cg0' cg' b' ->
  twins cg cg' /\ agree cg (cg_avail cg) (cg_avail cg') /\ (k * b' = j * b)%Z /\
  (forall p, disps cg' p = disps cg p).
Proof.
  intros Srt [_ [_ [_ Sm]]] [_ [_ [_ Sm']]] [Pj [Pk [Ew [Eh [En Es]]]]] R R'.
  destruct R as [Ep F0 C0 Ea C El Er Ev Hz Hl Hc Hs It [l [Ef Et]] _].
  destruct R' as [Ep' F0' C0' Ea' C' El' Er' Ev' Hz' Hl' Hc' Hs' It' [l' [Ef' Et']] _].
  pose proof (wfc_graph _ C0) as Hw. pose proof (wfc_graph _ C0') as Hw'.
  rewrite <- El, <- Er, <- Ev in Sm, En. rewrite <- El', <- Er' in Sm', En. rewrite <- Ev' in Sm'.
  rewrite <- Er, <- Er' in Ew, Eh.
  assert (Evv : levels (cg_graph cg0') = levels (cg_graph cg0)) by congruence.
  assert (En1 : forall n, match_exists (cg_graph cg0) n ->
    (k * node_cost (left (cg_graph cg0')) (right (cg_graph cg0')) (Z.of_N (p_cleanness a')) n =
     j * node_cost (left (cg_graph cg0)) (right (cg_graph cg0)) (Z.of_N (p_cleanness a)) n)%Z) by exact En.
  assert (En2 : forall n, match_exists (cg_graph cg0') n ->
    (j * node_cost (left (cg_graph cg0)) (right (cg_graph cg0)) (Z.of_N (p_cleanness a)) n =
     k * node_cost (left (cg_graph cg0')) (right (cg_graph cg0')) (Z.of_N (p_cleanness a')) n)%Z).
  { intros n M. symmetry. apply En1. apply (p_match _ _ Ew Eh Evv). exact M. }
  assert (Eb : (k * b' = j * b)%Z).
  { pose proof (threshold_below_scaled _ _ _ _ _ _ _ _ j k srt l l' _ _ b b' Srt Hw Hz Hc Hs Sm Hl Hw' Hz' Hc' Hs' Sm' Hl'
      Ew Eh Evv Pj Pk En1 Es Ef Et Ef' Et' It It').
    pose proof (threshold_below_scaled _ _ _ _ _ _ _ _ k j srt l' l _ _ b' b Srt Hw' Hz' Hc' Hs' Sm' Hl' Hw Hz Hc Hs Sm Hl
      (eq_sym Ew) (eq_sym Eh) (eq_sym Evv) Pk Pj En2 (eq_sym Es) Ef' Et' Ef Et It' It). lia. }
  destruct (p_fresh _ _ _ _ _ _ _ _ j k Hw Hz Hc Hs Sm Hl Hw' Hz' Hc' Hs' Sm' Hl' Ew Eh Evv Pj Pk En1 Es _ _ b b' It It' Eb cg0 cg0' F0 F0')
    as [Tw [_ [_ Ag]]].
  subst cg cg'. refine (conj _ (conj Ag (conj Eb _))).
  - exact (fresh_twins _ _ _ _ _ _ _ _ j k Hw Hz Hc Hs Sm Hl Hw' Hz' Hc' Hs' Sm' Hl' Ew Eh Evv Pj Pk En1 Es _ _ b b' It It' Eb
      (with_avail cg0 _) (with_avail cg0' _) eq_refl eq_refl eq_refl eq_refl eq_refl eq_refl).
  - intros p. exact (p_disps _ _ Hw Hw' Ew Evv cg0 cg0' p eq_refl eq_refl).
Qed.

(** *** The CPU *)

Lemma scaled_labels cg cg' : wf_cgraph cg -> wf_cgraph cg' -> twins cg cg' -> agree cg (cg_avail cg) (cg_avail cg') ->
  width (right (G cg')) = width (right (G cg)) -> height (right (G cg')) = height (right (G cg)) -> levels (G cg') = levels (G cg) ->
  (forall p, disps cg' p = disps cg p) ->
  mapped (exec find_labeling cg') = mapped (exec find_labeling cg).
Proof.
  intros C C' Tw Ag Ew Eh Ev Ed. pose proof (wf_static cg C) as Hs. pose proof (wf_static cg' C') as Hs'.
  unfold find_labeling, exec at 1 2. rewrite (column_order_eq (G cg) (st_graph cg Hs)), (column_order_eq (G cg') (st_graph cg' Hs')), Ew, Eh.
  set (ps := all_pixels _ _).
  assert (Hps : pixels_ok cg ps) by (intros p Hp; apply In_all_pixels in Hp; exact Hp).
  destruct (agree_pixels cpu_laws cpu_laws cg cg' Hs Hs' Tw Ew Eh (fun p _ => Ed p) ps Hps _ _ (wfc_avail cg C) (wfc_avail cg' C') Ag)
    as [b [m [m' [E [E' [Hm [Hm' A]]]]]]].
  rewrite E, E'. unfold mapped. cbn [bind fst snd]. destruct b; cbn [negb]; [|reflexivity].
  apply map_follows; cbn [with_avail cg_graph]; try assumption; [apply static_wf; assumption|apply static_wf; assumption|apply (tw_match _ _ Tw)|].
  intros n M. pose proof (proj2 (tw_match _ _ Tw n) M) as M'.
  rewrite !available_with by (try assumption; apply match_inb; assumption).
  rewrite (tw_avb _ _ Tw _ n M), (A n M). reflexivity.
Qed.

Lemma twins_refl {T D : target} (cg : cgraph T) (cd : cgraph D) : twins cg cd -> twins cg cg.
Proof.
  intros Tw. constructor; try reflexivity; [|exact (tw_nonneg _ _ Tw)|exact (tw_nonneg _ _ Tw)].
  intros x x' w w' y y' _ _ E1 E2 E3 E4. rewrite E1 in E3. rewrite E2 in E4. injection E3 as ->. injection E4 as ->. reflexivity.
Qed.
Lemma twins_trans {T D E : target} (c1 : cgraph T) (c2 : cgraph D) (c3 : cgraph E) : wf_cgraph c1 -> wf_cgraph c2 ->
  twins c1 c2 -> twins c2 c3 -> twins c1 c3.
Proof.
  intros W1 W2 T1 T2. apply (twins_join c2); [exact W2| |exact T2]. exact (twins_join c1 c2 c1 W1 T1 (twins_refl _ _ T1)).
Qed.

(** *** Devices *)

Lemma scaled_labeled cg cg' a v y a' v' y' : wf_cgraph cg -> wf_cgraph cg' -> twins cg cg' -> agree cg (cg_avail cg) (cg_avail cg') ->
  width (right (G cg')) = width (right (G cg)) -> height (right (G cg')) = height (right (G cg)) -> levels (G cg') = levels (G cg) ->
  labeled_by cg a v y -> labeled_by cg' a' v' y' -> mapped y' = mapped y.
Proof.
  intros C C' Tc Ag Ew Eh Ev (D & cd & m & f & f' & HD & Wd & Tw & St & LD & ->) (D' & cd' & m' & g & g' & HD' & Wd' & Tw' & St' & LD' & ->).
  pose proof (wf_static cg C) as Hs. pose proof (wfc_avail cg C) as Hm. fold (mem_ok cg (cg_avail cg)) in Hm.
  pose proof (wf_static cg' C') as Hs'. pose proof (wfc_avail cg' C') as Hm'. fold (mem_ok cg' (cg_avail cg')) in Hm'.
  pose proof (wf_static cd Wd) as Hsd. pose proof (wf_static cd' Wd') as Hsd'.
  pose proof (twins_trans cg cg' cd' C C' Tc Tw') as Tw2.
  pose proof (twins_join cg cd cd' C Tw Tw2) as Tj.
  assert (Hps : pixels_ok cd (all_pixels (width (right (G cg))) (height (right (G cg))))).
  { intros p Hp. apply In_all_pixels in Hp. apply (tw_image _ _ Tw). exact Hp. }
  rewrite Ew, Eh in LD'.
  assert (Ag' : agree cd (cg_avail cg) (cg_avail cg')).
  { intros n M. apply (tw_match _ _ Tw) in M. rewrite !(tw_avb _ _ Tw) by exact M. apply Ag. exact M. }
  destruct (agree_labels HD HD' cd cd' a (b_kind v) (b_partition v) a' (b_kind v') (b_partition v') Hsd Hsd' Tj St St'
    _ Hps _ _ _ _ _ _ _ _ (proj2 (tw_mem _ _ Tw _) Hm) (proj2 (tw_mem _ _ Tw' _) Hm') Ag' LD LD') as [M1 [M2 A]].
  apply (tw_mem _ _ Tw) in M1. apply (tw_mem _ _ Tw') in M2.
  unfold mapped. cbn [bind fst snd negb].
  apply map_follows; cbn [with_avail cg_graph]; try assumption; [apply static_wf; assumption|apply static_wf; assumption|apply (tw_match _ _ Tc)|].
  intros n M. pose proof (proj2 (tw_match _ _ Tc n) M) as M'.
  rewrite !available_with by (try assumption; apply match_inb; assumption).
  specialize (A n (proj2 (tw_match _ _ Tw n) M)). rewrite !(tw_avb _ _ Tw) in A by exact M. rewrite (tw_avb _ _ Tc m' n M), A. reflexivity.
Qed.

(** *** Statements *)

Lemma ready_sizes srt lev j k a a' cg0 cg b cg0' cg' b' : proportional lev j k a a' ->
  ready srt lev a cg0 cg b -> ready srt lev a' cg0' cg' b' ->
  width (right (G cg')) = width (right (G cg)) /\ height (right (G cg')) = height (right (G cg)) /\ levels (G cg') = levels (G cg).
Proof.
  intros [_ [_ [Ew [Eh _]]]] R R'. rewrite (rd_after _ _ _ _ _ _ R), (rd_after _ _ _ _ _ _ R'). cbn [with_avail cg_graph].
  rewrite (rd_right _ _ _ _ _ _ R), (rd_right _ _ _ _ _ _ R'), (rd_levels _ _ _ _ _ _ R), (rd_levels _ _ _ _ _ _ R'). auto.
Qed.

Lemma scaled_solution srt lev j k a a' : sorts srt -> accepted lev a -> accepted lev a' ->
  small_problem (2 ^ 53) lev a -> small_problem (2 ^ 53) lev a' -> proportional lev j k a a' ->
  solution_of srt lev a' = solution_of srt lev a.
Proof.
  intros Srt Eg Eg' Sm Sm' P.
  destruct (accepted_ready srt lev a Srt Eg Sm) as [cg0 [cg [b R]]]. destruct (accepted_ready srt lev a' Srt Eg' Sm') as [cg0' [cg' [b' R']]].
  destruct (scaled_ready srt lev j k a a' cg0 cg b cg0' cg' b' Srt Sm Sm' P R R') as [Tw [Ag [_ Ed]]].
  destruct (ready_sizes srt lev j k a a' _ _ _ _ _ _ P R R') as [Ew [Eh Ev]].
  assert (X : forall a cg0 cg b, ready srt lev a cg0 cg b -> solution_of srt lev a = mapped (exec find_labeling cg)).
  { intros p x y z Q. pose proof (proj2 (solves_with_cpu {| b_sc := true; b_kind := SkipDone; b_partition := fun _ => True |} srt
      (p_left p) (p_right p) lev (of_u (p_cleanness p)) (of_u (p_smoothness p)) (solution_of srt lev p)) eq_refl) as H.
    unfold solves_with in H. rewrite (rd_prepared _ _ _ _ _ _ Q) in H. destruct H as [w [L E]]. cbn [labels] in L. subst w. exact E. }
  rewrite (X _ _ _ _ R), (X _ _ _ _ R').
  apply scaled_labels; try assumption; [exact (rd_wf _ _ _ _ _ _ R)|exact (rd_wf _ _ _ _ _ _ R')].
Qed.

Lemma zero_bound lev a b : 1 < lev -> small_problem (2 ^ 24) lev a ->
  (forall k b', ordered_labeling (p_right a) lev k ->
    within_bound (p_left a) (p_right a) lev (Z.of_N (p_cleanness a)) (Z.of_N (p_smoothness a)) b' k -> (0 <= b <= b')%Z) ->
  (0 <= b <= 2 ^ 24)%Z.
Proof.
  intros Hlev [_ [_ [_ Sm]]] H. apply (H (fun _ => 0)).
  - split.
    + intros p [Hx Hy]. unfold is_match, label_node, inside. cbn [npix disp]. lia.
    + intros p q _ _ A. unfold in_order, label_node, horizontal_pair. cbn [npix disp]. lia.
  - apply zero_labeling_small; assumption.
Qed.

Lemma scaled_device srt lev j k a a' d d' v v' o o' : sorts srt -> accepted lev a -> accepted lev a' ->
  small_problem (2 ^ 24) lev a -> small_problem (2 ^ 24) lev a' -> proportional lev j k a a' ->
  addressable d (p_right a) lev -> addressable d' (p_right a') lev -> orderly d v -> orderly d' v' ->
  device_solution_of d v srt lev a o -> device_solution_of d' v' srt lev a' o' -> o' = o.
Proof.
  intros Srt Eg Eg' S24 S24' P Ad Ad' Or Or'.
  assert (Sm : small_problem (2 ^ 53) lev a) by (apply (small_bigger (2 ^ 24)); [apply Z.pow_le_mono_r; lia|exact S24]).
  assert (Sm' : small_problem (2 ^ 53) lev a') by (apply (small_bigger (2 ^ 24)); [apply Z.pow_le_mono_r; lia|exact S24']).
  destruct (accepted_ready srt lev a Srt Eg Sm) as [cg0 [cg [b R]]]. destruct (accepted_ready srt lev a' Srt Eg' Sm') as [cg0' [cg' [b' R']]].
  destruct (scaled_ready srt lev j k a a' cg0 cg b cg0' cg' b' Srt Sm Sm' P R R') as [Tw [Ag [_ Ed]]].
  destruct (ready_sizes srt lev j k a a' _ _ _ _ _ _ P R R') as [Ew [Eh Ev]].
  assert (X : forall a cg0 cg b d v y, small_problem (2 ^ 24) lev a -> addressable d (p_right a) lev -> orderly d v ->
    ready srt lev a cg0 cg b -> labels (On d) v cg y -> labeled_by cg d v y).
  { clear. intros a cg0 cg b d v y S24 Ad Or R L.
    pose proof (rd_after _ _ _ _ _ _ R) as Ea. pose proof (rd_fresh_wf _ _ _ _ _ _ R) as C0. pose proof (wfc_graph _ C0) as Hw.
    assert (EG : cg_graph cg = cg_graph cg0) by (rewrite Ea; reflexivity).
    assert (EL : cg_lowest cg = cg_lowest cg0) by (rewrite Ea; reflexivity).
    assert (ET : cg_threshold cg = cg_threshold cg0) by (rewrite Ea; reflexivity).
    assert (Hb : (0 <= b <= 2 ^ 24)%Z).
    { apply (zero_bound lev a b); [|exact S24|exact (rd_bound _ _ _ _ _ _ R)].
      rewrite <- (rd_levels _ _ _ _ _ _ R). pose proof (@wf_levels cpu _ Hw). lia. }
    destruct S24 as [_ [_ [_ S24]]].
    apply (labels_labeled cg d v y (Z.of_N (p_cleanness a)) (Z.of_N (p_smoothness a)) b); rewrite ?EG, ?EL, ?ET;
      rewrite ?(rd_left _ _ _ _ _ _ R), ?(rd_right _ _ _ _ _ _ R), ?(rd_levels _ _ _ _ _ _ R); try assumption.
    - exact (rd_wf _ _ _ _ _ _ R).
    - exact (rd_zero _ _ _ _ _ _ R).
    - exact (rd_lowest _ _ _ _ _ _ R).
    - exact (rd_cleanness _ _ _ _ _ _ R).
    - exact (rd_smoothness _ _ _ _ _ _ R).
    - exact (rd_threshold _ _ _ _ _ _ R). }
  unfold device_solution_of, solves_with. rewrite (rd_prepared _ _ _ _ _ _ R), (rd_prepared _ _ _ _ _ _ R').
  intros [y [Ly ->]] [y' [Ly' ->]].
  apply (scaled_labeled cg cg' d v y d' v' y'); try assumption; [exact (rd_wf _ _ _ _ _ _ R)|exact (rd_wf _ _ _ _ _ _ R')| |].
  - exact (X _ _ _ _ _ _ _ S24 Ad Or R Ly).
  - exact (X _ _ _ _ _ _ _ S24' Ad' Or' R' Ly').
Qed.

(** *** Accepted problems *)

Lemma small_weights lev a : 1 < lev -> small_problem (2 ^ 53) lev a -> p_cleanness a < 2 ^ 64 /\ p_smoothness a < 2 ^ 64.
Proof.
  intros Hlev [_ [_ [_ [m [_ [Bc [Bs [_ [_ [_ B]]]]]]]]]].
  assert (1 <= Z.of_N lev ^ 2)%Z by (rewrite Z.pow_2_r; nia). split; [lia|].
  assert (Z.of_N (p_smoothness a) <= 2 ^ 53)%Z by nia. lia.
Qed.

Lemma good_accepted lev a : small_problem (2 ^ 53) lev a -> width (p_left a) * height (p_left a) < 2 ^ 32 ->
  width (p_left a) * height (p_left a) * 4 * lev <= vector_max_size ->
  good_problem (p_left a) (p_right a) lev (p_cleanness a) (p_smoothness a) -> accepted lev a.
Proof.
  intros Sm Sl Sv G. pose proof G as [_ [_ [W [H [_ [L _]]]]]].
  destruct (small_weights lev a L Sm) as [Wc Ws]. destruct Sm as [Cl [Cr [F64 _]]].
  assert (Sr : width (p_right a) * height (p_right a) < 2 ^ 32) by (rewrite <- W, <- H; exact Sl).
  destruct (make_graph_accepts (p_left a) (p_right a) lev (@of_u cpu (p_cleanness a)) (of_u (p_smoothness a))) as [Acc _]; try assumption; [discriminate|].
  eexists. apply Acc. split; [|reflexivity]. apply good_iff; assumption.
Qed.

Lemma accepted_sizes lev a : accepted lev a -> width (p_left a) = width (p_right a) /\ height (p_left a) = height (p_right a).
Proof. intros [g E]. destruct (make_graph_Ok _ _ _ _ _ _ E) as [_ [_ [_ [_ [W [H _]]]]]]. auto. Qed.

(** *** Changes of the intensities *)

Lemma recolored_brightness f maxv img p alpha beta : consistent_image img -> inside img p ->
  (forall v, In v (data img) -> (Z.of_N (f v) = alpha * Z.of_N v + beta)%Z) ->
  brightness (recolor f maxv img) p = (alpha * brightness img p + beta)%Z.
Proof.
  intros C [Hx Hy] Hf. unfold brightness, recolor. cbn [data width].
  assert (L : (N.to_nat (py p * width img + px p) < length (data img))%nat).
  { unfold consistent_image, len in C. assert (py p * width img + px p < width img * height img) by nia. lia. }
  rewrite (nth_indep (map f (data img)) 0 (f 0)) by (rewrite map_length; exact L). rewrite map_nth. apply Hf. apply nth_In. exact L.
Qed.

Lemma recolored lev j k a f maxv c' s' alpha beta : consistent_image (p_left a) -> consistent_image (p_right a) ->
  width (p_left a) = width (p_right a) -> height (p_left a) = height (p_right a) ->
  (0 < j)%Z -> (0 < k)%Z ->
  (forall v, In v (data (p_left a)) \/ In v (data (p_right a)) -> (Z.of_N (f v) = alpha * Z.of_N v + beta)%Z) ->
  (k * (Z.of_N c' * alpha ^ 2) = j * Z.of_N (p_cleanness a))%Z -> (k * Z.of_N s' = j * Z.of_N (p_smoothness a))%Z ->
  proportional lev j k a
    {| p_left := recolor f maxv (p_left a); p_right := recolor f maxv (p_right a); p_cleanness := c'; p_smoothness := s' |}.
Proof.
  intros Cl Cr Ew Eh Pj Pk Hf Ec Es. unfold proportional. cbn [p_left p_right p_cleanness p_smoothness].
  refine (conj Pj (conj Pk (conj eq_refl (conj eq_refl (conj _ Es))))). intros n [Hi [Hd Hx]]. unfold node_cost.
  rewrite (recolored_brightness f maxv (p_right a) (npix n) alpha beta Cr Hi) by (intros v Hv; apply Hf; right; exact Hv).
  rewrite (recolored_brightness f maxv (p_left a) _ alpha beta Cl).
  - set (x := brightness (p_right a) (npix n)). set (y := brightness (p_left a) _).
    replace (alpha * x + beta - (alpha * y + beta))%Z with (alpha * (x - y))%Z by ring.
    rewrite Z.pow_mul_l. rewrite !Z.mul_assoc. rewrite <- Ec. ring.
  - destruct Hi as [_ Hy]. split; cbn [px py]; [rewrite Ew; exact Hx|rewrite Eh; exact Hy].
  - intros v Hv. apply Hf. left. exact Hv.
Qed.

Lemma recolored_valid f maxv img : valid_image img -> 0 < maxv -> (forall v, In v (data img) -> f v <= maxv) ->
  valid_image (recolor f maxv img).
Proof.
  intros [W [H _]] M Hf. refine (conj W (conj H (conj M _))). cbn [recolor data max_value]. intros v Hv.
  apply in_map_iff in Hv. destruct Hv as [u [<- Hu]]. apply Hf. exact Hu.
Qed.
Lemma recolored_good f maxv l r lev c s c' s' : good_problem l r lev c s -> 0 < maxv ->
  (forall v, In v (data l) \/ In v (data r) -> f v <= maxv) -> 0 < c' \/ 0 < s' ->
  good_problem (recolor f maxv l) (recolor f maxv r) lev c' s'.
Proof.
  intros [V1 [V2 [W [H [_ [L1 [L2 _]]]]]]] M Hf P.
  refine (conj (recolored_valid f maxv l V1 M _) (conj (recolored_valid f maxv r V2 M _) _)); [auto|auto|].
  cbn [recolor width height max_value]. auto 10.
Qed.

Lemma recolored_solution srt lev j k a f maxv c' s' alpha beta :
  let a' := {| p_left := recolor f maxv (p_left a); p_right := recolor f maxv (p_right a); p_cleanness := c'; p_smoothness := s' |} in
  sorts srt -> good_problem (p_left a) (p_right a) lev (p_cleanness a) (p_smoothness a) ->
  width (p_left a) * height (p_left a) < 2 ^ 32 -> width (p_left a) * height (p_left a) * 4 * lev <= vector_max_size ->
  small_problem (2 ^ 53) lev a -> small_problem (2 ^ 53) lev a' ->
  (0 < j)%Z -> (0 < k)%Z -> alpha <> 0%Z ->
  (forall v, In v (data (p_left a)) \/ In v (data (p_right a)) -> f v <= maxv /\ (Z.of_N (f v) = alpha * Z.of_N v + beta)%Z) -> 0 < maxv ->
  (k * (Z.of_N c' * alpha ^ 2) = j * Z.of_N (p_cleanness a))%Z -> (k * Z.of_N s' = j * Z.of_N (p_smoothness a))%Z ->
  solution_of srt lev a' = solution_of srt lev a.
Proof.
  intros a' Srt G Sl Sv Sm Sm' Pj Pk Na Hf M Ec Es.
  pose proof Sm as [Cl [Cr _]]. pose proof G as [_ [_ [W [H [_ [_ [_ P]]]]]]].
  apply (scaled_solution srt lev j k a a' Srt); try assumption.
  - apply good_accepted; assumption.
  - apply good_accepted; try assumption. apply (recolored_good f maxv _ _ lev _ _ c' s' G M); [intros v Hv; apply Hf; exact Hv|].
    assert (0 < alpha ^ 2)%Z by (rewrite Z.pow_2_r; nia). destruct P as [P|P]; [left|right]; nia.
  - apply (recolored lev j k a f maxv c' s' alpha beta); try assumption. intros v Hv. apply Hf. exact Hv.
Qed.

(** *** Files *)

Lemma scaled_file srt lev j k a a' w w' o o' lpath rpath lpath' rpath' out : sorts srt ->
  proportional lev j k a a' -> small_problem (2 ^ 53) lev a -> small_problem (2 ^ 53) lev a' ->
  good_problem (p_left a) (p_right a) lev (p_cleanness a) (p_smoothness a) ->
  good_problem (p_left a') (p_right a') lev (p_cleanness a') (p_smoothness a') ->
  width (p_left a) * height (p_left a) < 2 ^ 32 -> width (p_left a) * height (p_left a) * 4 * lev <= vector_max_size ->
  all_paths o lpath rpath out -> all_paths o' lpath' rpath' out -> technology_ok o -> technology_ok o' ->
  file_holds w lpath (p_left a) -> file_holds w rpath (p_right a) ->
  file_holds w' lpath' (p_left a') -> file_holds w' rpath' (p_right a') ->
  option_number (width (p_left a)) (o_levels o) lev -> option_number (width (p_left a')) (o_levels o') lev ->
  option_number 1 (o_cleanness o) (p_cleanness a) -> option_number 1 (o_cleanness o') (p_cleanness a') ->
  option_number 1 (o_smoothness o) (p_smoothness a) -> option_number 1 (o_smoothness o') (p_smoothness a') ->
  writable w out = writable w' out -> main srt w (Parsed o) = main srt w' (Parsed o').
Proof.
  intros Srt P Sm Sm' G G' Sl Sv Hp Hp' Ht Ht' H1 H2 H3 H4 L L' C C' S S' Wo.
  pose proof G as [_ [_ [W [H _]]]]. pose proof G' as [_ [_ [W' [H' _]]]]. pose proof P as [_ [_ [Ew [Eh _]]]].
  assert (Sr : width (p_right a) * height (p_right a) < 2 ^ 32) by congruence.
  assert (Sr' : width (p_right a') * height (p_right a') < 2 ^ 32) by congruence.
  assert (Sl' : width (p_left a') * height (p_left a') < 2 ^ 32) by congruence.
  assert (Sv' : width (p_left a') * height (p_left a') * 4 * lev <= vector_max_size) by congruence.
  pose proof (given_problem w o lpath rpath (p_left a) (p_right a) lev _ _ H1 H2 L C S Sl Sr srt) as E.
  pose proof (given_problem w' o' lpath' rpath' (p_left a') (p_right a') lev _ _ H3 H4 L' C' S' Sl' Sr' srt) as E'.
  pose proof (scaled_solution srt lev j k a a' Srt (good_accepted lev a Sm Sl Sv G) (good_accepted lev a' Sm' Sl' Sv' G') Sm Sm' P) as Es.
  unfold solution_of in Es. rewrite Es, <- E in E'.
  destruct Hp as [E1 [E2 E3]]. destruct Hp' as [E1' [E2' E3']]. unfold main. rewrite E1, E2, E3, E1', E2', E3', E', Wo.
  destruct (parallel_cases o) as [[_ ->]|[X _]]; [|contradiction]. destruct (parallel_cases o') as [[_ ->]|[X _]]; [|contradiction].
  reflexivity.
Qed.

(** *** Special cases *)

Lemma brighter_solution srt lev a maxv d :
  let a' := {| p_left := recolor (fun v => v + d) maxv (p_left a); p_right := recolor (fun v => v + d) maxv (p_right a);
               p_cleanness := p_cleanness a; p_smoothness := p_smoothness a |} in
  sorts srt -> good_problem (p_left a) (p_right a) lev (p_cleanness a) (p_smoothness a) ->
  width (p_left a) * height (p_left a) < 2 ^ 32 -> width (p_left a) * height (p_left a) * 4 * lev <= vector_max_size ->
  small_problem (2 ^ 53) lev a -> small_problem (2 ^ 53) lev a' -> 0 < maxv ->
  (forall v, In v (data (p_left a)) \/ In v (data (p_right a)) -> v + d <= maxv) ->
  solution_of srt lev a' = solution_of srt lev a.
Proof.
  intros a' Srt G Sl Sv Sm Sm' M Hf.
  apply (recolored_solution srt lev 1 1 a (fun v => v + d) maxv (p_cleanness a) (p_smoothness a) 1 (Z.of_N d) Srt G Sl Sv Sm Sm'); try lia.
  intros v Hv. split; [apply Hf; exact Hv|lia].
Qed.

Lemma negative_solution srt lev a :
  let f := fun v => max_value (p_left a) - v in
  let a' := {| p_left := recolor f (max_value (p_left a)) (p_left a); p_right := recolor f (max_value (p_right a)) (p_right a);
               p_cleanness := p_cleanness a; p_smoothness := p_smoothness a |} in
  sorts srt -> good_problem (p_left a) (p_right a) lev (p_cleanness a) (p_smoothness a) ->
  width (p_left a) * height (p_left a) < 2 ^ 32 -> width (p_left a) * height (p_left a) * 4 * lev <= vector_max_size ->
  small_problem (2 ^ 53) lev a -> small_problem (2 ^ 53) lev a' ->
  solution_of srt lev a' = solution_of srt lev a.
Proof.
  intros f a' Srt G Sl Sv Sm Sm'. pose proof G as [[_ [_ [M V1]]] [[_ [_ [_ V2]]] [_ [_ [E _]]]]].
  unfold a' in *. rewrite <- E in *.
  apply (recolored_solution srt lev 1 1 a f (max_value (p_left a)) (p_cleanness a) (p_smoothness a) (-1) (Z.of_N (max_value (p_left a))) Srt G Sl Sv Sm Sm'); try lia.
  intros v Hv. assert (v <= max_value (p_left a)) by (destruct Hv as [Hv|Hv]; [apply V1|apply V2]; exact Hv). unfold f. lia.
Qed.

Lemma weights_solution srt lev a q :
  let a' := {| p_left := p_left a; p_right := p_right a;
               p_cleanness := q * p_cleanness a; p_smoothness := q * p_smoothness a |} in
  sorts srt -> good_problem (p_left a) (p_right a) lev (p_cleanness a) (p_smoothness a) ->
  width (p_left a) * height (p_left a) < 2 ^ 32 -> width (p_left a) * height (p_left a) * 4 * lev <= vector_max_size ->
  small_problem (2 ^ 53) lev a -> small_problem (2 ^ 53) lev a' -> 0 < q ->
  solution_of srt lev a' = solution_of srt lev a.
Proof.
  intros a' Srt G Sl Sv Sm Sm' Hq.
  apply (scaled_solution srt lev (Z.of_N q) 1 a a' Srt); try assumption.
  - apply good_accepted; assumption.
  - apply good_accepted; try assumption. destruct G as [V1 [V2 [W [H [M [L1 [L2 P]]]]]]].
    refine (conj V1 (conj V2 (conj W (conj H (conj M (conj L1 (conj L2 _))))))). unfold a'. cbn [p_cleanness p_smoothness].
    destruct P; [left|right]; lia.
  - unfold proportional, a'. cbn [p_left p_right p_cleanness p_smoothness].
    refine (conj _ (conj _ (conj eq_refl (conj eq_refl (conj _ _))))); [lia|lia| |lia].
    intros n _. unfold node_cost. rewrite N2Z.inj_mul. ring.
Qed.
