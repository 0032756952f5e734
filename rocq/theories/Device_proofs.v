(** The copy of the problem on the device, and labelings found there. *)
From Coq Require Import Reals Lia.
From Flocq Require Import Core.Core IEEE754.BinarySingleNaN.
From Verif Require Export MainGpu Exact_proofs Gpu_spec Gpu_proofs.
Local Open Scope N_scope.

(** *** The conversion to single precision *)

Lemma to_single_int (x : F cpu) (z : Z) : is_int x z -> (Z.abs z <= 2 ^ 24)%Z -> is_int (to_single x) z.
Proof.
  intros [Fx Ex] Hz. destruct x as [sx|sx| |sx m e H]; try discriminate.
  - split; [reflexivity|exact Ex].
  - cbn [to_single]. pose proof (binary_normalize_correct 24 128 hp24 he24 mode_NE (cond_Zopp sx (Zpos m)) e sx) as C.
    cbv zeta in C. assert (E : F2R (Float radix2 (cond_Zopp sx (Zpos m)) e) = IZR z) by exact Ex.
    rewrite E in C. rewrite (rnd_int 24 128 hp24 he24) in C by exact Hz.
    rewrite Rlt_bool_true in C by (apply (int_bound 24 128 hp24 he24); exact Hz).
    split; apply C.
Qed.

(** *** Sizes on the device *)

Section Device.
Context {T : target} (narrow : F cpu -> F T) (word : N -> N).
Hypothesis Hword : forall n, n < wmod T -> word n = n.

Definition fits (g : dgraph cpu) : Prop :=
  width (right g) * height (right g) * 4 * levels g < wmod T.

Lemma device_sizes g : wf_graph g -> fits g ->
  word (width (right g)) = width (right g) /\ word (height (right g)) = height (right g) /\ word (levels g) = levels g.
Proof.
  intros Hw Hf. unfold fits in Hf. pose proof (wf_levels g Hw). pose proof (wf_levels_width g Hw). pose proof (wf_rows g Hw).
  assert (A : width (right g) <= width (right g) * height (right g)) by nia.
  assert (B : height (right g) <= width (right g) * height (right g)) by nia.
  assert (C : levels g <= width (right g) * height (right g) * 4 * levels g) by nia.
  assert (D : width (right g) * height (right g) <= width (right g) * height (right g) * 4 * levels g) by nia.
  refine (conj _ (conj _ _)); apply Hword; lia.
Qed.

Lemma device_graph_wf g : wf_graph g -> fits g -> wf_graph (device_graph narrow word g).
Proof.
  intros Hw Hf. destruct (device_sizes g Hw Hf) as [Ew [Eh El]].
  constructor; cbn [device_graph device_image left right levels width height data reparam]; rewrite ?Ew, ?Eh, ?El; try reflexivity; try apply Hw.
  - unfold consistent_image. cbn [device_image data width height]. rewrite Ew, Eh, len_map, <- (wf_width g Hw), <- (wf_height g Hw). apply Hw.
  - unfold consistent_image. cbn [device_image data width height]. rewrite Ew, Eh, len_map. apply Hw.
  - rewrite len_map. apply Hw.
  - exact Hf.
Qed.

Lemma device_problem_wf cg : wf_cgraph cg -> fits (cg_graph cg) -> wf_cgraph (device_problem narrow word cg).
Proof.
  intros [Hw Hl Ha] Hf. destruct (device_sizes _ Hw Hf) as [Ew [Eh El]].
  constructor; cbn [device_problem cg_graph cg_lowest cg_avail].
  - apply device_graph_wf; assumption.
  - constructor; cbn [lp_graph lp_pixels lp_neighborhoods device_graph device_image right width height]; [reflexivity|..];
      rewrite len_map, Ew, Eh; apply Hl.
  - cbn [device_graph device_image right width height levels]. rewrite Ew, Eh, El. exact Ha.
Qed.

Lemma device_image_eq g p : wf_graph g -> fits g -> in_image (device_graph narrow word g) p <-> in_image g p.
Proof.
  intros Hw Hf. destruct (device_sizes g Hw Hf) as [Ew [Eh _]].
  unfold in_image. cbn [device_graph device_image right width height]. rewrite Ew, Eh. reflexivity.
Qed.
Lemma device_match_eq g n : wf_graph g -> fits g -> match_exists (device_graph narrow word g) n <-> match_exists g n.
Proof.
  intros Hw Hf. destruct (device_sizes g Hw Hf) as [Ew [Eh El]].
  unfold match_exists, in_image. cbn [device_graph device_image right width height levels]. rewrite Ew, Eh, El. reflexivity.
Qed.
Lemma device_labeling_eq g k : wf_graph g -> fits g -> labeling_ok (device_graph narrow word g) k <-> labeling_ok g k.
Proof.
  intros Hw Hf. unfold labeling_ok. split; intros [A B]; (split; [intros p Hp|intros p q Hp Hq]).
  - apply (device_match_eq g _ Hw Hf), A, device_image_eq; assumption.
  - apply B; apply device_image_eq; assumption.
  - apply (device_match_eq g _ Hw Hf), A. apply (device_image_eq g p Hw Hf); assumption.
  - apply B; [apply (device_image_eq g p Hw Hf)|apply (device_image_eq g q Hw Hf)]; assumption.
Qed.

(** Availability is the same. *)
Lemma device_available cg m n : wf_cgraph cg -> fits (cg_graph cg) -> len m = len (cg_avail cg) ->
  in_image (cg_graph cg) (npix n) -> disp n < levels (cg_graph cg) ->
  available (with_avail (device_problem narrow word cg) m) n <-> available (with_avail cg m) n.
Proof.
  intros Hc Hf Hm Hi Hd. pose proof (wfc_graph cg Hc) as Hw.
  pose proof (device_problem_wf cg Hc Hf) as Hc'. destruct (device_sizes _ Hw Hf) as [Ew [Eh El]].
  assert (Hi' : in_image (cg_graph (device_problem narrow word cg)) (npix n)) by (apply device_image_eq; assumption).
  assert (Hd' : disp n < levels (cg_graph (device_problem narrow word cg))).
  { cbn [device_problem cg_graph device_graph levels]. rewrite El. exact Hd. }
  pose proof (available_with (device_problem narrow word cg) m n (wf_static _ Hc')) as A.
  pose proof (available_with cg m n (wf_static _ Hc)) as B.
  assert (M : mem_ok cg m) by (unfold mem_ok; rewrite Hm; apply Hc).
  assert (M' : mem_ok (device_problem narrow word cg) m).
  { unfold mem_ok. rewrite Hm. exact (wfc_avail _ Hc'). }
  rewrite (A M' (conj Hi' Hd')), (B M (conj Hi Hd)).
  unfold avb. rewrite (proj1 (node_index_small _ n (wfc_graph _ Hc') Hi' Hd')), (proj1 (node_index_small _ n Hw Hi Hd)).
  cbn [device_problem cg_graph device_graph device_image right height levels]. rewrite Eh, El. reflexivity.
Qed.
End Device.

(** *** Small integer penalties on the device *)

Section Small.
Context (w : N) (conv : N -> Z) (word : N -> N).
Notation D := (ieee 24 128 hp24 he24 w conv).
Hypothesis Hword : forall n, n < w -> word n = n.
Hypothesis Hconv : forall n, (Z.of_N n <= 2 ^ 24)%Z -> conv n = Z.of_N n.
Hypothesis Hbig : 2 ^ 24 < w.
Context (cg : cgraph cpu) (c s b : Z).
Notation g := (cg_graph cg).
Notation lp := (cg_lowest cg).
Notation t := (cg_threshold cg).
Hypotheses (Hcg : wf_cgraph cg) (Hz : zero_reparam g) (Hl : make_lowest g = Ok lp)
  (Hc : is_int (cleanness g) c) (Hs : is_int (smoothness g) s)
  (Sm : small_penalties (2 ^ 24) (left g) (right g) (levels g) c s)
  (Ht : is_int t b) (Hb : (0 <= b <= 2 ^ 24)%Z)
  (Hf : fits (T := D) g).
Notation gd := (device_graph (T := D) to_single word g).
Notation cgd := (device_problem (T := D) to_single word cg).

Lemma device_zero : zero_reparam gd.
Proof.
  intros x Hx. apply in_map_iff in Hx. destruct Hx as [y [E Hy]]. apply Hz in Hy. rewrite Hy in E.
  rewrite <- E. reflexivity.
Qed.

Lemma small_intensity v : In v (data (left g)) \/ In v (data (right g)) -> word v = v.
Proof.
  intros Hv. destruct Sm as [m [Hm [Bc [Bs [B1 [B2 [B3 B4]]]]]]]. specialize (Hm v Hv). apply Hword.
  rewrite Z.pow_2_r in B1. assert (m <= 2 ^ 24)%Z by nia. lia.
Qed.
Lemma device_data : data (left gd) = data (left g) /\ data (right gd) = data (right g).
Proof.
  cbn [device_graph device_image left right data].
  split; rewrite <- map_id; apply map_ext_in; intros v Hv; apply small_intensity; [left|right]; exact Hv.
Qed.

Lemma device_edge n n' : match_exists g n -> match_exists g n' -> adjacent (npix n) (npix n') ->
  exists v, edge_penalty gd {| enode := n; enbr := n' |} = Ok v /\ is_int v (edge_cost s (disp n) (disp n')) /\
    (0 <= edge_cost s (disp n) (disp n') <= 2 ^ 24)%Z.
Proof.
  intros M M' A. pose proof (wfc_graph cg Hcg) as Hw. destruct (device_sizes (T := D) word Hword g Hw Hf) as [Ew [Eh El]].
  destruct Sm as [m [Hm [Bc [Bs [B1 [B2 [B3 B4]]]]]]]. destruct device_data as [DL DR].
  assert (Is : is_int (smoothness gd) s).
  { apply to_single_int; [exact Hs|]. pose proof (wf_levels g Hw). rewrite Z.pow_2_r in B4. nia. }
  apply (exact_edge 24 128 hp24 he24 w conv Hconv gd s m).
  - apply device_graph_wf; assumption.
  - exact device_zero.
  - exact Is.
  - lia.
  - rewrite DL, DR. exact Hm.
  - exact B1.
  - change (levels gd) with (word (levels g)). rewrite El. exact B3.
  - change (levels gd) with (word (levels g)). rewrite El. exact B4.
  - apply device_match_eq; assumption.
  - apply device_match_eq; assumption.
  - exact A.
Qed.

Lemma device_lowest e : in_image g (npix (enode e)) -> in_image g (npix (enbr e)) -> adjacent (npix (enode e)) (npix (enbr e)) ->
  exists v, lowest_neighborhood_penalty (cg_lowest cgd) e = Ok v /\ is_int v 0.
Proof.
  intros Hi Hq A. pose proof (wfc_graph cg Hcg) as Hw. destruct (device_sizes (T := D) word Hword g Hw Hf) as [Ew [Eh El]].
  assert (Sm' : small_penalties (2 ^ 53) (left g) (right g) (levels g) c s).
  { apply (small_weaker (2 ^ 24)); [|exact Sm]. apply Z.pow_le_mono_r; lia. }
  destruct (small_minima 53 1024 hp53 he53 (2 ^ 64) Z.of_N (fun n _ => eq_refl) g lp c s Hw Hz Hc Hs Sm' Hl) as [_ [LN _]].
  destruct (LN e Hi Hq A) as [v [E0 I]]. assert (E : @lowest_neighborhood_penalty cpu lp e = Ok v) by exact E0. clear E0. exists (to_single v). split; [|apply to_single_int; [exact I|lia]].
  pose proof (device_graph_wf (T := D) to_single word Hword g Hw Hf) as Hwd.
  destruct (adjacent_slot _ _ A) as [k S].
  unfold lowest_neighborhood_penalty, neighborhood_index_slow in E |- *.
  cbn [device_problem cg_lowest lp_graph lp_neighborhoods].
  rewrite (wfl_graph _ _ (wfc_lowest _ Hcg)) in E.
  rewrite (neighbor_index_slot g _ _ k Hw Hi Hq S) in E.
  assert (Hi' : in_image gd (npix (enode e))) by (apply device_image_eq; assumption).
  assert (Hq' : in_image gd (npix (enbr e))) by (apply device_image_eq; assumption).
  rewrite (neighbor_index_slot gd _ _ k Hwd Hi' Hq' S).
  rewrite (proj1 (neighborhood_index_small gd _ k Hwd Hi' (slot_of_lt _ _ _ S))).
  rewrite (proj1 (neighborhood_index_small g _ k Hw Hi (slot_of_lt _ _ _ S))) in E.
  cbn [device_graph device_image right height]. rewrite Eh.
  unfold get in E |- *. rewrite nth_error_map, len_map.
  destruct (_ <? _); [|discriminate]. destruct (nth_error _ _) as [y|]; [|discriminate].
  injection E as <-. reflexivity.
Qed.

Lemma device_edge_within n n' : match_exists g n -> match_exists g n' -> adjacent (npix n) (npix n') ->
  edge_within gd (cg_lowest cgd) (cg_threshold cgd) {| enode := n; enbr := n' |} <-> edge_within g lp t {| enode := n; enbr := n' |}.
Proof.
  intros M M' A. pose proof (wfc_graph cg Hcg) as Hw.
  assert (Sm' : small_penalties (2 ^ 53) (left g) (right g) (levels g) c s).
  { apply (small_weaker (2 ^ 24)); [|exact Sm]. apply Z.pow_le_mono_r; lia. }
  destruct (small_minima 53 1024 hp53 he53 (2 ^ 64) Z.of_N (fun n _ => eq_refl) g lp c s Hw Hz Hc Hs Sm' Hl) as [_ [_ [_ EX]]].
  destruct (EX n n' M M' A) as [x [X Ix]]. rewrite (edge_within_excess g lp t _ x X).
  rewrite (int_le 53 1024 hp53 he53 (2 ^ 64) Z.of_N _ _ _ _ Ix Ht).
  destruct (device_edge n n' M M' A) as [v [Ev [Iv Rv]]].
  destruct (device_lowest {| enode := n; enbr := n' |} (proj1 M) (proj1 M') A) as [v0 [E0 I0]].
  assert (Xd : edge_excess gd (cg_lowest cgd) {| enode := n; enbr := n' |} (fsub v v0)).
  { exists v, v0. split; [exact Ev|]. split; [exact E0|reflexivity]. }
  rewrite (edge_within_excess gd (cg_lowest cgd) _ _ _ Xd).
  assert (Id : is_int (@fsub D v v0) (edge_cost s (disp n) (disp n'))).
  { rewrite <- (Z.sub_0_r (edge_cost s (disp n) (disp n'))). apply int_sub; [exact Iv|exact I0|lia]. }
  apply (int_le 24 128 hp24 he24 w conv _ _ _ _ Id). apply to_single_int; [exact Ht|lia].
Qed.

Lemma device_edges_within k : labeling_ok g k ->
  edges_within gd (cg_lowest cgd) (cg_threshold cgd) k <-> edges_within g lp t k.
Proof.
  intros [Hk _]. pose proof (wfc_graph cg Hcg) as Hw. split; intros E p q Hp Hq A.
  - apply (device_edge_within (label_node k p) (label_node k q) (Hk p Hp) (Hk q Hq) A). apply E; [apply device_image_eq; assumption..|exact A].
  - apply (device_image_eq (T := D) to_single word Hword g) in Hp, Hq; try assumption.
    apply (device_edge_within (label_node k p) (label_node k q) (Hk p Hp) (Hk q Hq) A). apply E; assumption.
Qed.
End Small.

(** *** The graph to label *)

Section Host.
Context {T : target} (HL : laws T).

Lemma prepared_accepted srt l r lev (c s : F T) g :
  sorts srt -> make_graph l r lev c s = Ok g -> consistent_image l -> consistent_image r ->
  width l * height l * 4 * lev < wmod T -> finite_penalties g ->
  exists lp cands t cg, make_lowest g = Ok lp /\ fetch_available_penalties srt lp = Ok cands /\
    calculate_minimal_consistent_threshold lp g cands = Ok t /\
    prepared srt l r lev c s = Ok cg /\ wf_cgraph cg /\
    cg_graph cg = g /\ cg_lowest cg = lp /\ cg_threshold cg = t /\
    (forall n, in_image g (npix n) -> disp n < levels g -> available cg n -> match_exists g n /\ node_within g lp t n) /\
    (forall k b, labeling_ok g k -> nodes_within g lp b k -> edges_within g lp b k -> fle t b = true).
Proof.
  intros Hs Eg Cl Cr Hsz Hf. destruct (make_graph_wf l r lev c s g Eg Cl Cr Hsz) as [Hw Hz].
  assert (Hn : nonneg_weights g).
  { destruct (make_graph_Ok l r lev c s g Eg) as [_ [_ [_ [_ [_ [_ [_ [Nc [Ns [_ [_ E]]]]]]]]]]]. rewrite E. split; assumption. }
  destruct (make_lowest_spec g Hw) as [lp [El _]].
  destruct (candidates_complete HL srt g lp Hs Hw El Hf) as [cands [Ef _]].
  destruct (minimal_threshold HL srt g lp cands Hs Hw El Hf Ef) as [t [n [Et _]]]; [left; split; assumption|].
  destruct (make_constraint_spec g lp t Hw El) as [cg [Ec _]].
  destruct (initial_availability g lp t Hw El) as [cg0 [Ec0 [Gc [Lc [Tc [Av _]]]]]].
  assert (cg0 = cg) by congruence. subst cg0.
  destruct (make_constraint_Ok g lp t cg Hw El Ec) as [C _].
  destruct (solvable_at_threshold HL srt g lp cands t cg Hs Hw El Hf Hz Hn Ef Et Ec) as [cg1 E1].
  assert (Hin : in_image (cg_graph cg) {| px := 0; py := 0 |}).
  { rewrite Gc. pose proof (wf_levels g Hw). pose proof (wf_levels_width g Hw). pose proof (wf_rows g Hw). split; cbn [px py]; lia. }
  assert (Hj : height (right (cg_graph cg)) + 1 < wmod T).
  { rewrite Gc. pose proof (wf_wrap g Hw). pose proof (wf_levels g Hw). pose proof (wf_levels_width g Hw). pose proof (wf_rows g Hw).
    assert (height (right g) + 1 <= width (right g) * height (right g) * 4 * levels g); [|lia].
    assert (1 <= width (right g) * levels g) by nia.
    replace (width (right g) * height (right g) * 4 * levels g) with (width (right g) * levels g * (4 * height (right g))) by lia. nia. }
  destruct (solve_only_removes cg {| px := 0; py := 0 |} 1 0 C Hin) as [_ [_ [b1 [cg1' [E1' [S1 R1]]]]]]; [lia|exact Hj|].
  assert (cg1' = cg1) by congruence. subst cg1'. clear E1' b1.
  pose proof (same_wf cg cg1 C S1) as C1. destruct S1 as [SG [SL [ST _]]].
  exists lp, cands, t, cg1. refine (conj El (conj Ef (conj Et (conj _ (conj C1 (conj _ (conj _ (conj _ (conj _ _)))))))));
    try congruence.
  - unfold prepared. rewrite Eg. cbn [bind]. rewrite El. cbn [bind]. rewrite Ef. cbn [bind]. rewrite Et. cbn [bind].
    rewrite Ec. cbn [bind]. rewrite E1. reflexivity.
  - intros n0 Hi Hd A. apply Av; [exact Hi|exact Hd|]. apply R1; rewrite ?Gc; assumption.
  - intros k b O N E. exact (threshold_below HL srt g lp cands t k b Hs Hw El Hf Hz Hn Ef Et O N E).
Qed.

(** A labeling within the threshold gives a best map. *)
Lemma labeled_map (g : dgraph T) lp t (cg : cgraph T) k : wf_cgraph cg -> cg_graph cg = g -> cg_lowest cg = lp -> cg_threshold cg = t ->
  (forall k b, labeling_ok g k -> nodes_within g lp b k -> edges_within g lp b k -> fle t b = true) ->
  solution cg k -> nodes_within g lp t k ->
  (forall n, match_exists g n -> available cg n -> disp n = k (npix n)) ->
  exists img, exec build_disparity_map cg = Ok (img, cg) /\ best_map g lp img.
Proof.
  intros C EG EL ET Low [Lk [Ak Wk]] Nk Uk. pose proof (wfc_graph _ C) as Hw. rewrite EG in *.
  destruct (disparity_map cg C) as [D _]. destruct D as [img [Ei [Wi [Hi [Mi [Li [Vi Di]]]]]]].
  { rewrite EG. intros p Hp. exists (k p). destruct Lk as [Lk _]. split; [apply (Lk p Hp)|apply (Ak p Hp)]. }
  exists img. split; [exact Ei|]. rewrite EG in *.
  assert (K : forall p, in_image g p -> k p = map_labeling img p).
  { intros p Hp. destruct (Di p Hp) as [d [Ed [Md [Ad _]]]]. rewrite <- Wi in Ed.
    rewrite (get_map_labeling img p d Ed). apply (Uk _ Md) in Ad. cbn [disp npix] in Ad. congruence. }
  rewrite EL, ET in *.
  unfold best_map. rewrite (wf_width g Hw), (wf_height g Hw). refine (conj Wi (conj Hi (conj Mi (conj _ (conj Vi (conj (ordered_relabel g k _ K Lk) _)))))).
  - unfold consistent_image. rewrite Li, Wi, Hi. reflexivity.
  - intros k' b' O' N' E'. pose proof (Low k' b' O' N' E') as Le.
    split.
    + apply (nodes_relabel g lp b' k _ K). intros p Hp. destruct (Nk p Hp) as [v [m [A [B D]]]]. exists v, m.
      split; [exact A|]. split; [exact B|]. eapply (fle_trans _ HL); eassumption.
    + apply (edges_relabel g lp b' k _ K). intros p q Hp Hq Adj. destruct (Wk p q Hp Hq Adj) as [v [m [A [B D]]]]. exists v, m.
      split; [exact A|]. split; [exact B|]. eapply (fle_trans _ HL); eassumption.
Qed.
End Host.

(** *** Labelings found on a device *)

Local Notation nd p d := {| npix := p; disp := d |}.

Section Run.
Context {D : target} (HD : laws D) (narrow : F cpu -> F D) (word : N -> N).
Hypothesis Hword : forall n, n < wmod D -> word n = n.
Context (a : api) (v : behaviour).

Lemma device_found cg m : wf_cgraph cg -> fits (T := D) (cg_graph cg) ->
  csp_solution (device_problem narrow word cg) a (b_sc v) (b_kind v) (b_partition v) m ->
  let cg' := with_avail cg m in
  wf_cgraph cg' /\
  (forall n, in_image (cg_graph cg) (npix n) -> disp n < levels (cg_graph cg) -> available cg' n -> available cg n) /\
  (exec build_disparity_map cg' = Stop (Throw NoLabel) \/
   exists k, labeling_ok (cg_graph cg) k /\ (forall p, in_image (cg_graph cg) p -> available cg' (label_node k p)) /\
     (forall n, match_exists (cg_graph cg) n -> available cg' n -> disp n = k (npix n)) /\
     edges_within (cg_graph (device_problem narrow word cg)) (cg_lowest (device_problem narrow word cg))
       (cg_threshold (device_problem narrow word cg)) k).
Proof.
  intros Hc Hf CS. cbv zeta. set (cgd := device_problem narrow word cg) in *.
  pose proof (device_problem_wf narrow word Hword cg Hc Hf : wf_cgraph cgd) as Hcd. pose proof (wfc_graph cg Hc) as Hw.
  destruct (device_labeling cgd a (b_sc v) (b_kind v) (b_partition v) (wf_static _ Hcd) HD m (wfc_avail _ Hcd) CS)
    as [Wd [Sd [Rd [Ud Kd]]]].
  assert (Lm : len m = len (cg_avail cg)) by (destruct Sd as [_ [_ [_ X]]]; exact X).
  assert (AV : forall n, in_image (cg_graph cg) (npix n) -> disp n < levels (cg_graph cg) ->
    available (with_avail cgd m) n <-> available (with_avail cg m) n).
  { intros n Hi Hd. exact (device_available narrow word Hword cg m n Hc Hf Lm Hi Hd). }
  assert (AV0 : forall n, in_image (cg_graph cg) (npix n) -> disp n < levels (cg_graph cg) ->
    available cgd n <-> available cg n).
  { intros n Hi Hd. pose proof (device_available narrow word Hword cg (cg_avail cg) n Hc Hf eq_refl Hi Hd) as X.
    rewrite (with_avail_same cg) in X. rewrite <- X. change (cg_avail cg) with (cg_avail cgd).
    fold cgd. rewrite (with_avail_same cgd). reflexivity. }
  assert (IM : forall p, in_image (cg_graph cgd) p <-> in_image (cg_graph cg) p).
  { intros p. exact (device_image_eq narrow word Hword (cg_graph cg) p Hw Hf). }
  assert (ME : forall n, match_exists (cg_graph cgd) n <-> match_exists (cg_graph cg) n).
  { intros n. exact (device_match_eq narrow word Hword (cg_graph cg) n Hw Hf). }
  assert (LV : levels (cg_graph cgd) = levels (cg_graph cg)) by (apply (device_sizes word Hword (cg_graph cg) Hw Hf)).
  assert (C' : wf_cgraph (with_avail cg m)).
  { apply static_wf; [apply wf_static; exact Hc|]. unfold mem_ok. rewrite Lm. apply Hc. }
  split; [exact C'|]. split.
  { intros n Hi Hd A. apply (AV0 n Hi Hd). apply Rd; [apply IM; exact Hi|rewrite LV; exact Hd|]. apply (AV n Hi Hd). exact A. }
  assert (MA : forall n, match_exists (cg_graph cg) n -> available (with_avail cgd m) n <-> available (with_avail cg m) n).
  { intros n [M1 [M2 _]]. apply AV; assumption. }
  destruct (forallb (fun p => hasb cg m p) (all_pixels (width (right (cg_graph cg))) (height (right (cg_graph cg))))) eqn:E.
  - right. rewrite forallb_forall in E.
    assert (All : forall p, in_image (cg_graph cgd) p -> exists d, match_exists (cg_graph cgd) (nd p d) /\ available (with_avail cgd m) (nd p d)).
    { intros p Hp. apply IM in Hp. specialize (E p (proj2 (In_all_pixels _ _ p) Hp)).
      apply hasb_ex in E; [|exact (wf_static _ Hc)|exact Hp]. destruct E as [d [M A]]. exists d. split; [apply ME; exact M|].
      apply MA; [exact M|]. apply available_with; [exact (wf_static _ Hc)|exact (wfc_avail _ C')|apply match_inb; exact M|exact A]. }
    destruct (Kd All) as [k [[Lk [Ak Wk]] Uk]].
    exists k. apply (device_labeling_eq narrow word Hword (cg_graph cg) k Hw Hf) in Lk.
    refine (conj Lk (conj _ (conj _ _))).
    + intros p Hp. apply MA; [apply Lk; exact Hp|]. apply Ak. apply IM. exact Hp.
    + intros n M A. apply Uk; [apply ME; exact M|]. apply MA; assumption.
    + exact Wk.
  - left. destruct (disparity_map (with_avail cg m) C') as [_ Bad].
    assert (X : exists p, in_image (cg_graph cg) p /\ hasb cg m p = false).
    { destruct (existsb (fun p => negb (hasb cg m p)) (all_pixels (width (right (cg_graph cg))) (height (right (cg_graph cg))))) eqn:Y.
      - apply existsb_exists in Y. destruct Y as [p [Hp Y]]. exists p. split; [apply In_all_pixels in Hp; exact Hp|].
        apply negb_true_iff in Y. exact Y.
      - exfalso. rewrite <- not_true_iff_false in E, Y. apply E. apply forallb_forall. intros p Hp.
        destruct (hasb cg m p) eqn:Z; [reflexivity|]. exfalso. apply Y. apply existsb_exists. exists p. rewrite Z. auto. }
    destruct X as [p [Hp X]]. apply (Bad p Hp). intros d M A.
    assert (Y : hasb cg m p = true).
    { apply hasb_ex; [exact (wf_static _ Hc)|exact Hp|]. exists d. split; [exact M|].
      apply available_with in A; [exact A|exact (wf_static _ Hc)|exact (wfc_avail _ C')|apply match_inb; exact M]. }
    congruence.
Qed.
End Run.

(** *** The application with a GPU *)

Lemma labels_found a v cg x : wf_cgraph cg -> addressable a (right (cg_graph cg)) (levels (cg_graph cg)) -> labels (On a) v cg x ->
  exists m, x = Ok (true, with_avail cg m) /\ wf_cgraph (with_avail cg m) /\
  (forall n, in_image (cg_graph cg) (npix n) -> disp n < levels (cg_graph cg) -> available (with_avail cg m) n -> available cg n) /\
  (exec build_disparity_map (with_avail cg m) = Stop (Throw NoLabel) \/
   exists k, labeling_ok (cg_graph cg) k /\ (forall p, in_image (cg_graph cg) p -> available (with_avail cg m) (label_node k p)) /\
     (forall n, match_exists (cg_graph cg) n -> available (with_avail cg m) n -> disp n = k (npix n)) /\
     match a with
     | OpenCL => edges_within (cg_graph (opencl_problem cg)) (cg_lowest (opencl_problem cg)) (cg_threshold (opencl_problem cg)) k
     | CUDA => edges_within (cg_graph (cuda_problem cg)) (cg_lowest (cuda_problem cg)) (cg_threshold (cuda_problem cg)) k
     end).
Proof.
  intros Hc Hf. destruct a; intros [cg' [[m [CS E]] Ex]]; subst cg'; exists m; (split; [exact Ex|]).
  - exact (device_found opencl_laws to_single (fun n => n) (fun n _ => eq_refl) OpenCL v cg m Hc Hf CS).
  - exact (device_found cuda_laws to_single (fun n => n mod 2 ^ 32) (fun n H => N.mod_small _ _ H) CUDA v cg m Hc Hf CS).
Qed.

Lemma gpu_map a v srt l r lev (c s : F cpu) g o :
  sorts srt -> make_graph l r lev c s = Ok g -> consistent_image l -> consistent_image r ->
  width l * height l * 4 * lev < 2 ^ 64 -> addressable a r lev -> finite_penalties g ->
  solves_with (On a) v srt l r lev c s o ->
  exists lp t, make_lowest g = Ok lp /\
  (o = Stop (Throw NoLabel) \/
   exists img, o = Ok img /\ width img = width r /\ height img = height r /\ max_value img = lev /\
     consistent_image img /\ valid_image img /\ labeling_ok g (map_labeling img) /\ nodes_within g lp t (map_labeling img)) /\
  forall k b, labeling_ok g k -> nodes_within g lp b k -> edges_within g lp b k -> fle t b = true.
Proof.
  intros Hs Eg Cl Cr Hsz Ha Hf.
  destruct (prepared_accepted cpu_laws srt l r lev c s g Hs Eg Cl Cr Hsz Hf) as [lp [cands [t [cg [El [_ [_ [Ep [C [EG [EL [ET [Av Low]]]]]]]]]]]]].
  unfold solves_with. rewrite Ep. intros [x [Lx Eo]]. exists lp, t. split; [exact El|]. split; [|exact Low].
  destruct (make_graph_Ok l r lev _ _ g Eg) as [_ [_ [_ [_ [_ [_ [_ [_ [_ [_ [_ E]]]]]]]]]]].
  assert (Er : right g = r /\ levels g = lev) by (rewrite E; auto). destruct Er as [Er Ev].
  destruct (labels_found a v cg x C) as [m [Ex [C' [R F]]]]; [rewrite EG, Er, Ev; exact Ha|exact Lx|].
  rewrite Ex in Eo. unfold mapped in Eo. cbn [bind fst snd negb] in Eo.
  destruct F as [Bad|[k [Lk [Ak [Uk _]]]]]; [left; rewrite Eo, Bad; reflexivity|right].
  destruct (disparity_map (with_avail cg m) C') as [D _]. cbn [with_avail cg_graph] in D.
  destruct D as [img [Ei [Wi [Hi [Mi [Li [Vi Di]]]]]]].
  { intros p Hp. exists (k p). split; [apply (proj1 Lk p Hp)|apply (Ak p Hp)]. }
  exists img. rewrite Eo, Ei. split; [reflexivity|]. rewrite EG in *.
  assert (K : forall p, in_image g p -> k p = map_labeling img p).
  { intros p Hp. destruct (Di p Hp) as [d [Ed [Md [Ad _]]]]. rewrite <- Wi in Ed.
    rewrite (get_map_labeling img p d Ed). apply (Uk _ Md) in Ad. cbn [disp npix] in Ad. congruence. }
  rewrite Er, Ev in *. refine (conj Wi (conj Hi (conj Mi (conj _ (conj Vi (conj (ordered_relabel g k _ K Lk) _)))))).
  - unfold consistent_image. rewrite Li, Wi, Hi. reflexivity.
  - apply (nodes_relabel g lp t k _ K). intros p Hp. destruct (proj1 Lk p Hp) as [M1 [M2 M3]].
    rewrite Ev in M2. apply Av; [exact M1|exact M2|]. apply R; [exact M1|exact M2|]. apply Ak. exact Hp.
Qed.

Lemma zero_labeling_small l r lev c s : (1 < lev)%N -> small_penalties (2 ^ 24) l r lev c s ->
  within_bound l r lev c s (2 ^ 24) (fun _ => 0).
Proof.
  intros Hl [m [Hm [Bc [Bs [B1 [B2 [B3 B4]]]]]]].
  assert (X : forall img p, (forall v, In v (data img) -> (Z.of_N v <= m)%Z) -> (0 <= brightness img p)%Z /\ ((brightness img p = 0)%Z \/ (brightness img p <= m)%Z)).
  { intros img p H. unfold brightness. split; [lia|].
    destruct (nth_in_or_default (N.to_nat (py p * width img + px p)) (data img) 0) as [Y|Y].
    - right. apply H. exact Y.
    - left. rewrite Y. reflexivity. }
  assert (N0 : forall n, (0 <= node_cost l r c n)%Z).
  { intros n. unfold node_cost. apply Z.mul_nonneg_nonneg; [lia|]. rewrite Z.pow_2_r. apply Z.square_nonneg. }
  split.
  - intros p z Hp [[n [En [Mn Ez]]] _]. specialize (N0 n). rewrite Ez in N0.
    set (n0 := label_node (fun _ => 0) p).
    assert (node_cost l r c n0 <= 2 ^ 24)%Z; [|lia]. unfold node_cost.
    destruct (X r (npix n0)) as [R0 R1]; [intros v Hv; apply Hm; right; exact Hv|].
    destruct (X l {| px := px (npix n0) + disp n0; py := py (npix n0) |}) as [L0 L1]; [intros v Hv; apply Hm; left; exact Hv|].
    set (x := brightness r (npix n0)) in *. set (y := brightness l _) in *.
    assert ((x - y) ^ 2 <= m ^ 2)%Z; [|nia]. rewrite !Z.pow_2_r.
    assert (P : (x <= Z.abs m /\ y <= Z.abs m)%Z) by lia.
    rewrite <- (Z.abs_square m), <- (Z.abs_square (x - y)). apply Z.square_le_mono_nonneg; lia.
  - intros p q _ _ _. unfold edge_cost. rewrite Z.sub_diag. rewrite Z.pow_2_r. lia.
Qed.

Lemma gpu_optimal a v srt l r lev c s (g : dgraph cpu) o :
  sorts srt -> make_graph l r lev (of_u c) (of_u s) = Ok g -> consistent_image l -> consistent_image r ->
  width l * height l * 4 * lev < 2 ^ 64 -> addressable a r lev ->
  small_penalties (2 ^ 24) l r lev (Z.of_N c) (Z.of_N s) ->
  solves_with (On a) v srt l r lev (of_u c) (of_u s) o ->
  o = Stop (Throw NoLabel) \/ exists img, o = Ok img /\ optimal_map l r lev (Z.of_N c) (Z.of_N s) img.
Proof.
  intros Hs Eg Cl Cr Hsz Ha Sm24.
  assert (Sm : small_penalties (2 ^ 53) l r lev (Z.of_N c) (Z.of_N s)).
  { apply (small_weaker (2 ^ 24)); [|exact Sm24]. apply Z.pow_le_mono_r; lia. }
  destruct (small_graph 53 1024 hp53 he53 (2 ^ 64) Z.of_N (fun n _ => eq_refl) l r lev c s g Eg Cl Cr Hsz Sm) as [El0 [Er0 [Ev0 [Hw [Hz [Ic Is]]]]]].
  assert (El : @left cpu g = l) by exact El0. assert (Er : @right cpu g = r) by exact Er0. assert (Ev : @levels cpu g = lev) by exact Ev0.
  clear El0 Er0 Ev0.
  assert (Sg : small_penalties (2 ^ 53) (left g) (right g) (levels g) (Z.of_N c) (Z.of_N s)) by (rewrite El, Er, Ev; exact Sm).
  assert (Sg24 : small_penalties (2 ^ 24) (left g) (right g) (levels g) (Z.of_N c) (Z.of_N s)) by (rewrite El, Er, Ev; exact Sm24).
  assert (Hf : finite_penalties g).
  { destruct Sg as [m [Hm [Bc [Bs [B1 [B2 [B3 B4]]]]]]].
    eapply (exact_finite 53 1024 hp53 he53 (2 ^ 64) Z.of_N (fun n _ => eq_refl)); try eassumption; lia. }
  destruct (prepared_accepted cpu_laws srt l r lev _ _ g Hs Eg Cl Cr Hsz Hf) as [lp [cands [t [cg [Elp [Ef [Et [Ep [C [EG [EL [ET [Av Low]]]]]]]]]]]]].
  destruct (small_threshold 53 1024 hp53 he53 (2 ^ 64) Z.of_N (fun n _ => eq_refl) g lp _ _ Hw Hz Ic Is Sg Elp srt cands t Hs Ef Et)
    as [b [It [Hb Hmin]]].
  assert (Hb24 : (0 <= b <= 2 ^ 24)%Z).
  { split; [apply Hb|]. apply (Hmin (fun _ => 0)).
    - assert (X : @labeling_ok cpu g (fun _ => 0)); [|exact X]. pose proof (@wf_levels cpu g Hw). split.
      + intros p [Hx Hy]. unfold match_exists, label_node, in_image. cbn [npix disp]. lia.
      + intros p q _ _ A. unfold in_order, label_node, horizontal_pair. cbn [npix disp]. lia.
    - apply zero_labeling_small; [apply Hw|exact Sg24]. }
  unfold solves_with. rewrite Ep. intros [x [Lx Eo]].
  destruct (labels_found a v cg x C) as [m [Ex [C' [R F]]]]; [rewrite EG, Er, Ev; exact Ha|exact Lx|].
  rewrite Ex in Eo. unfold mapped in Eo. cbn [bind fst snd negb] in Eo.
  destruct F as [Bad|[k [Lk [Ak [Uk Wk]]]]]; [left; rewrite Eo, Bad; reflexivity|right].
  assert (Wh : edges_within (cg_graph cg) (cg_lowest cg) (cg_threshold cg) k).
  { assert (Z1 : zero_reparam (cg_graph cg)) by (rewrite EG; exact Hz).
    assert (Z2 : make_lowest (cg_graph cg) = Ok (cg_lowest cg)) by (rewrite EG, EL; exact Elp).
    assert (Z3 : is_int (cleanness (cg_graph cg)) (Z.of_N c)) by (rewrite EG; exact Ic).
    assert (Z4 : is_int (smoothness (cg_graph cg)) (Z.of_N s)) by (rewrite EG; exact Is).
    assert (Z5 : small_penalties (2 ^ 24) (left (cg_graph cg)) (right (cg_graph cg)) (levels (cg_graph cg)) (Z.of_N c) (Z.of_N s))
      by (rewrite EG; exact Sg24).
    assert (Z6 : is_int (cg_threshold cg) b) by (rewrite ET; exact It).
    assert (Z7 : addressable a (right (cg_graph cg)) (levels (cg_graph cg))) by (rewrite EG, Er, Ev; exact Ha).
    destruct a.
    - exact (proj1 (device_edges_within (2 ^ 64) Z.of_N (fun n => n) (fun n _ => eq_refl) (fun n _ => eq_refl) ltac:(lia) cg
               (Z.of_N c) (Z.of_N s) b C Z1 Z2 Z3 Z4 Z5 Z6 Hb24 Z7 k Lk) Wk).
    - exact (proj1 (device_edges_within (2 ^ 32) int_of_unsigned (fun n => n mod 2 ^ 32) (fun n H => N.mod_small _ _ H) conv_cuda ltac:(lia) cg
               (Z.of_N c) (Z.of_N s) b C Z1 Z2 Z3 Z4 Z5 Z6 Hb24 Z7 k Lk) Wk). }
  rewrite EG, EL, ET in *.
  destruct (labeled_map cpu_laws g lp t (with_avail cg m) k C' EG EL ET Low) as [img [Ei Best]].
  - unfold solution. cbn [with_avail cg_graph cg_lowest cg_threshold]. rewrite EG, EL, ET. exact (conj Lk (conj Ak Wh)).
  - intros p Hp. destruct (proj1 Lk p Hp) as [M1 [M2 M3]]. apply Av; [exact M1|exact M2|]. apply R; [exact M1|exact M2|]. apply Ak. exact Hp.
  - exact Uk.
  - exists img. rewrite Eo, Ei. split; [reflexivity|].
    destruct Sm as [m0 [Hm [Bc [Bs [B1 [B2 [B3 B4]]]]]]].
    rewrite <- El, <- Er in Hm |- *. rewrite <- Ev in B3, B4 |- *.
    apply (exact_best 53 1024 hp53 he53 (2 ^ 64)%N Z.of_N (fun n _ => eq_refl) g lp _ _ m0 Hw Hz Ic Is) in Best; try assumption; lia.
Qed.
