(** The application: lemmas. *)
From Coq Require Import Lia String.
From Verif Require Export Bound_proofs Pgm_proofs Main_spec.
Local Open Scope N_scope.

Lemma same_wf {T : target} (cg cg' : cgraph T) : wf_cgraph cg -> same_problem cg cg' -> wf_cgraph cg'.
Proof.
  intros [A B C] [E1 [E2 [_ E4]]]. constructor.
  - rewrite E1. exact A.
  - rewrite E1, E2. exact B.
  - rewrite E4, E1. exact C.
Qed.

Lemma get_map_labeling img p d : get (data img) (py p * width img + px p) = Ok d -> map_labeling img p = d.
Proof.
  unfold get, map_labeling. destruct (_ <? _); [|discriminate].
  destruct (nth_error (data img) (N.to_nat (py p * width img + px p))) as [v|] eqn:E; [|discriminate].
  intros X; injection X as <-. apply nth_error_nth. exact E.
Qed.

Section Problem.
Context {T : target} (HL : laws T).

Lemma ordered_relabel (g : dgraph T) (k k' : labeling) : (forall p, in_image g p -> k p = k' p) ->
  labeling_ok g k -> labeling_ok g k'.
Proof.
  intros E [A B]. split.
  - intros p Hp. specialize (A p Hp). unfold label_node in *. rewrite <- E by exact Hp. exact A.
  - intros p q Hp Hq Adj. specialize (B p q Hp Hq Adj). unfold label_node in *. rewrite <- !E by assumption. exact B.
Qed.
Lemma nodes_relabel (g : dgraph T) lp t (k k' : labeling) : (forall p, in_image g p -> k p = k' p) ->
  nodes_within g lp t k -> nodes_within g lp t k'.
Proof. intros E A p Hp. specialize (A p Hp). unfold label_node in *. rewrite <- E by exact Hp. exact A. Qed.
Lemma edges_relabel (g : dgraph T) lp t (k k' : labeling) : (forall p, in_image g p -> k p = k' p) ->
  edges_within g lp t k -> edges_within g lp t k'.
Proof. intros E A p q Hp Hq Adj. specialize (A p q Hp Hq Adj). unfold label_edge, label_node in *. rewrite <- !E by assumption. exact A. Qed.

Lemma solve_accepted srt l r lev (c s : F T) g :
  sorts srt -> make_graph l r lev c s = Ok g -> consistent_image l -> consistent_image r ->
  width l * height l * 4 * lev < wmod T -> finite_penalties g ->
  exists lp, make_lowest g = Ok lp /\
    (solve_problem srt l r lev c s = Stop (Throw CannotLabel) \/
     exists img, solve_problem srt l r lev c s = Ok img /\ best_map g lp img).
Proof.
  intros Hs Eg Cl Cr Hsz Hf. destruct (make_graph_wf l r lev c s g Eg Cl Cr Hsz) as [Hw Hz].
  assert (Hn : nonneg_weights g).
  { destruct (make_graph_Ok l r lev c s g Eg) as [_ [_ [_ [_ [_ [_ [_ [Nc [Ns [_ [_ E]]]]]]]]]]]. rewrite E. split; assumption. }
  destruct (make_lowest_spec g Hw) as [lp [El _]]. exists lp. split; [exact El|].
  destruct (candidates_complete HL srt g lp Hs Hw El Hf) as [cands [Ef _]].
  destruct (minimal_threshold HL srt g lp cands Hs Hw El Hf Ef) as [t [n [Et _]]]; [left; split; assumption|].
  destruct (make_constraint_spec g lp t Hw El) as [cg [Ec _]].
  destruct (initial_availability g lp t Hw El) as [cg0 [Ec0 [Gc [Lc [Tc [Av _]]]]]].
  assert (cg0 = cg) by congruence. subst cg0.
  destruct (make_constraint_Ok g lp t cg Hw El Ec) as [C _].
  destruct (solvable_at_threshold HL srt g lp cands t cg Hs Hw El Hf Hz Hn Ef Et Ec) as [cg1 E1].
  assert (Hin : in_image (cg_graph cg) {| px := 0; py := 0 |}).
  { rewrite Gc. pose proof (wf_levels g Hw). pose proof (wf_levels_width g Hw). pose proof (wf_rows g Hw). split; cbn [px py]; lia. }
  assert (Hj : height (right (cg_graph cg)) + 1 < wmod T).
  { rewrite Gc. pose proof (wf_wrap g Hw). pose proof (wf_levels g Hw). pose proof (wf_levels_width g Hw). pose proof (wf_rows g Hw).
    assert (height (right g) + 1 <= width (right g) * height (right g) * 4 * levels g); [|lia].
    assert (1 <= width (right g) * levels g) by nia. 
    replace (width (right g) * height (right g) * 4 * levels g) with (width (right g) * levels g * (4 * height (right g))) by lia. nia. }
  destruct (solve_only_removes cg {| px := 0; py := 0 |} 1 0 C Hin) as [_ [_ [b1 [cg1' [E1' [S1 R1]]]]]]; [lia|exact Hj|].
  assert (cg1' = cg1) by congruence. subst cg1'. clear E1' b1.
  pose proof (same_wf cg cg1 C S1) as C1.
  destruct (found_labeling HL cg1 C1) as [b [cg2 [E2 [C2 [S2 [R2 F2]]]]]].
  assert (Es : solve_problem srt l r lev c s =
    (if negb b then Stop (Throw CannotLabel) else r <- exec build_disparity_map cg2 ;; Ok (fst r))).
  { unfold solve_problem. rewrite Eg. cbn [bind]. rewrite El. cbn [bind]. rewrite Ef. cbn [bind]. rewrite Et. cbn [bind].
    rewrite Ec. cbn [bind]. rewrite E1. cbn [bind fst snd negb]. rewrite E2. cbn [bind fst snd]. reflexivity. }
  rewrite Es. destruct b; cbn [negb]; [right|left; reflexivity].
  destruct (F2 eq_refl) as [k [[Lk [Ak Wk]] Uk]].
  assert (G1 : cg_graph cg1 = g) by (destruct S1 as [X _]; congruence).
  assert (G2 : cg_graph cg2 = g) by (destruct S2 as [X _]; congruence).
  assert (T2 : cg_threshold cg2 = t) by (destruct S1 as [_ [_ [X _]]], S2 as [_ [_ [Y _]]]; congruence).
  assert (L2 : cg_lowest cg2 = lp) by (destruct S1 as [_ [X _]], S2 as [_ [Y _]]; congruence).
  destruct (disparity_map cg2 C2) as [D _]. destruct D as [img [Ei [Wi [Hi [Mi [Li [Vi Di]]]]]]].
  { intros p Hp. exists (k p). destruct Lk as [Lk _]. split; [apply (Lk p Hp)|apply (Ak p Hp)]. }
  exists img. rewrite Ei. cbn [bind fst]. split; [reflexivity|].
  rewrite G2 in Wi, Hi, Mi, Li.
  assert (K : forall p, in_image g p -> k p = map_labeling img p).
  { intros p Hp. rewrite <- G2 in Hp. destruct (Di p Hp) as [d [Ed [Md [Ad _]]]]. rewrite G2, <- Wi in Ed.
    rewrite (get_map_labeling img p d Ed). rewrite G2, <- G1 in Md. apply (Uk _ Md) in Ad. cbn [disp npix] in Ad. congruence. }
  rewrite G2 in *. rewrite T2, L2 in *.
  assert (Nk : nodes_within g lp t k).
  { intros p Hp. specialize (Ak p Hp). destruct Lk as [Lk _]. specialize (Lk p Hp) as [M1 [M2 M3]].
    assert (A1 : available cg1 (label_node k p)) by (apply R2; rewrite ?G1; assumption).
    assert (A0 : available cg (label_node k p)) by (apply R1; rewrite ?Gc; assumption).
    apply Av in A0; [apply A0|exact M1|exact M2]. }
  unfold best_map. rewrite (wf_width g Hw), (wf_height g Hw). refine (conj Wi (conj Hi (conj Mi (conj _ (conj Vi (conj (ordered_relabel g k _ K Lk) _)))))).
  - unfold consistent_image. rewrite Li, Wi, Hi. reflexivity.
  - intros k' b' O' N' E'. pose proof (threshold_below HL srt g lp cands t k' b' Hs Hw El Hf Hz Hn Ef Et O' N' E') as Le.
    split.
    + apply (nodes_relabel g lp b' k _ K). intros p Hp. destruct (Nk p Hp) as [v [m [A [B D]]]]. exists v, m.
      split; [exact A|]. split; [exact B|]. eapply (fle_trans _ HL); eassumption.
    + apply (edges_relabel g lp b' k _ K). intros p q Hp Hq Adj. destruct (Wk p q Hp Hq Adj) as [v [m [A [B D]]]]. exists v, m.
      split; [exact A|]. split; [exact B|]. eapply (fle_trans _ HL); eassumption.
Qed.

Lemma made_total l r lev (c s : F T) : 2 ^ 32 <= wmod T -> consistent_image l -> consistent_image r ->
  width l * height l < 2 ^ 32 -> width r * height r < 2 ^ 32 ->
  (exists g, make_graph l r lev c s = Ok g) \/
  (exists k, make_graph l r lev c s = Stop (Throw (InvalidArgument k))) \/
  make_graph l r lev c s = Stop (Throw LengthError).
Proof.
  intros Hw Cl Cr Sl Sr. destruct (image_valid_decides T l Hw Cl Sl) as [bl [El _]].
  destruct (image_valid_decides T r Hw Cr Sr) as [br [Er _]].
  unfold make_graph. rewrite El, Er. cbn [bind]. destruct bl; cbn [negb]; [|right; left; eauto].
  destruct br; cbn [negb]; [|right; left; eauto].
  repeat match goal with |- context [if ?b then Stop _ else _] => destruct b; [right; left; eexists; reflexivity|] end.
  unfold alloc. destruct (_ <? _); cbn [bind]; [right; right; reflexivity|left; eauto].
Qed.
End Problem.
