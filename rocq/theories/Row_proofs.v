(** What one sweep guarantees, and images of one row: lemmas. *)
From Coq Require Import Lia.
From Verif Require Export Again_proofs.
Local Open Scope N_scope.

(** The order of the sweep. *)
Definition raster_before (p q : pixel) : Prop := py p < py q \/ (py p = py q /\ px p < px q).

Lemma range_sorted a b : StronglySorted N.lt (range a b).
Proof.
  unfold range. generalize (N.to_nat (b - a)) as n. intros n. revert a.
  induction n as [|n IH]; intros a; cbn [seqN]; constructor; [apply IH|].
  apply Forall_forall. intros x Hx. apply In_seqN in Hx. lia.
Qed.

Lemma sorted_app {A} (R : A -> A -> Prop) l l' : StronglySorted R l -> StronglySorted R l' ->
  (forall x y, In x l -> In y l' -> R x y) -> StronglySorted R (l ++ l').
Proof.
  induction 1 as [|x l Sl IH Fx]; intros S' H; cbn [app]; [exact S'|]. constructor.
  - apply IH; [exact S'|]. intros y z Hy Hz. apply H; [right; exact Hy|exact Hz].
  - apply Forall_forall. intros y Hy. apply in_app_iff in Hy. destruct Hy as [Hy|Hy].
    + rewrite Forall_forall in Fx. apply Fx; exact Hy.
    + apply H; [left; reflexivity|exact Hy].
Qed.

Lemma row_sorted y xs : StronglySorted N.lt xs -> StronglySorted raster_before (row y xs).
Proof.
  induction 1 as [|x xs Sx IH Fx]; unfold row; cbn [map]; constructor; [exact IH|].
  apply Forall_forall. intros p Hp. apply in_map_iff in Hp. destruct Hp as [x' [<- Hx']].
  rewrite Forall_forall in Fx. right. cbn [px py]. split; [reflexivity|apply Fx; exact Hx'].
Qed.

Lemma grid_sorted w ys : StronglySorted N.lt ys -> StronglySorted raster_before (grid w ys).
Proof.
  unfold grid. induction 1 as [|y ys Sy IH Fy]; cbn [flat_map]; [constructor|].
  apply sorted_app; [apply row_sorted, range_sorted|exact IH|].
  intros p q Hp Hq. rewrite Forall_forall in Fy. unfold row in *. apply in_map_iff in Hp. destruct Hp as [x [<- _]].
  apply in_flat_map in Hq. destruct Hq as [y' [Hy' Hq]]. apply in_map_iff in Hq. destruct Hq as [x' [<- _]].
  left. cbn [py]. apply Fy; exact Hy'.
Qed.

Section Graph.
Context {T : target}.
Implicit Type cg : cgraph T.
Notation G cg := (cg_graph cg).
Notation nd p d := {| npix := p; disp := d |}.

Lemma sweep_other cg ps m n : static cg -> mem_ok cg m -> pixels_ok cg ps -> inb cg n -> ~ In (npix n) ps ->
  avb cg (snd (sweep cg ps m)) n = avb cg m n.
Proof.
  intros Hs. revert m. induction ps as [|p ps IH]; intros m Hm Hps Hn Hni; cbn [sweep snd]; [reflexivity|].
  assert (Hp : in_image (G cg) p) by (apply Hps; left; reflexivity).
  assert (E : avb cg (process cg p m) n = avb cg m n).
  { apply process_other; try assumption. intros X. apply Hni. left. congruence. }
  destruct (hasb cg (process cg p m) p); [|exact E]. rewrite IH; [exact E| | | |].
  - apply process_ok; exact Hm.
  - intros x Hx; apply Hps; right; exact Hx.
  - exact Hn.
  - intros X; apply Hni; right; exact X.
Qed.

(** A node that survives a sweep keeps a neighbor among the pixels swept before. *)
Lemma sweep_back cg ps m n q : static cg -> mem_ok cg m -> pixels_ok cg ps -> StronglySorted raster_before ps ->
  fst (sweep cg ps m) = true -> In (npix n) ps -> match_exists (G cg) n -> avb cg (snd (sweep cg ps m)) n = true ->
  in_image (G cg) q -> adjacent (npix n) q -> raster_before q (npix n) ->
  exists n', npix n' = q /\ avb cg (snd (sweep cg ps m)) n' = true /\ compat cg n n'.
Proof.
  intros Hs. revert m. induction ps as [|p ps IH]; intros m Hm Hps Sd Hf Hin M Ha Hq A B; [destruct Hin|].
  assert (Hp : in_image (G cg) p) by (apply Hps; left; reflexivity).
  assert (Hps' : pixels_ok cg ps) by (intros x Hx; apply Hps; right; exact Hx).
  inversion Sd as [|p' ps' Sd' Fd]; subst p' ps'. rewrite Forall_forall in Fd.
  cbn [sweep] in *. destruct (hasb cg (process cg p m) p) eqn:Eh; [|discriminate].
  pose proof (process_ok cg p m Hm) as Hm1.
  destruct Hin as [Hin|Hin]; [|apply IH; assumption].
  assert (Ha1 : avb cg (process cg p m) n = true).
  { eapply (sub_sweep cg ps); [exact Hs|exact Hm1|exact Hps'|exact Ha]. }
  destruct (proc_support cg p (disps cg p) m n q Hs Hm (dispsok_disps cg p Hs Hp)) as [n' [E1 [E2 E3]]];
    [congruence| |exact Ha1|exact Hq|congruence|].
  { apply disps_In; try assumption. rewrite Hin. destruct n; exact M. }
  exists n'. split; [exact E1|]. split; [|exact E3].
  pose proof E3 as [[_ [M' _]] _]. cbn [enbr] in M'.
  rewrite sweep_other; try assumption; [|apply match_inb; exact M'|].
  - rewrite process_other; try assumption; [apply match_inb; exact M'|].
    intros X. assert (Z : q = npix n) by congruence. rewrite Z in B. unfold raster_before in B. lia.
  - rewrite E1. intros X. specialize (Fd q X). rewrite Hin in Fd. unfold raster_before in *. lia.
Qed.

Lemma solved_back cg m n q : static cg -> mem_ok cg m -> fst (solved cg m) = true ->
  match_exists (G cg) n -> avb cg (snd (solved cg m)) n = true ->
  in_image (G cg) q -> adjacent (npix n) q -> raster_before q (npix n) ->
  exists n', npix n' = q /\ avb cg (snd (solved cg m)) n' = true /\ compat cg n n'.
Proof.
  intros Hs Hm. unfold solved. destruct (fst (sweep cg (raster cg) m)) eqn:F; cbn [fst snd]; [|discriminate].
  intros _ M Ha Hq A B. apply sweep_back; try assumption.
  - apply raster_ok.
  - apply grid_sorted, range_sorted.
  - apply In_raster. apply M.
Qed.

(** *** One row *)

Definition at_column (x : N) : pixel := {| px := x; py := 0 |}.

Lemma row_pixel cg p : height (right (G cg)) = 1 -> in_image (G cg) p -> p = at_column (px p) /\ px p < width (right (G cg)).
Proof. intros Hh [Hx Hy]. destruct p as [x y]. cbn [px py] in *. split; [|exact Hx]. unfold at_column. f_equal. lia. Qed.

Lemma row_in cg x : height (right (G cg)) = 1 -> x < width (right (G cg)) -> in_image (G cg) (at_column x).
Proof. intros Hh Hx. split; cbn [px py at_column]; lia. Qed.

Lemma next_adjacent x : adjacent (at_column (x + 1)) (at_column x).
Proof. right; left. split; reflexivity. Qed.

(** A chain of compatible available nodes. *)
Definition chain cg m (j : N -> N) (lo hi : N) : Prop :=
  (forall i, lo <= i <= hi -> match_exists (G cg) (nd (at_column i) (j i)) /\ avb cg m (nd (at_column i) (j i)) = true) /\
  (forall i, lo <= i -> i < hi -> compat cg (nd (at_column (i + 1)) (j (i + 1))) (nd (at_column i) (j i))).

Lemma chain_back cg m : static cg -> height (right (G cg)) = 1 ->
  (forall x d, x + 1 < width (right (G cg)) -> match_exists (G cg) (nd (at_column (x + 1)) d) ->
     avb cg m (nd (at_column (x + 1)) d) = true ->
     exists d', avb cg m (nd (at_column x) d') = true /\ compat cg (nd (at_column (x + 1)) d) (nd (at_column x) d')) ->
  forall x d, x < width (right (G cg)) -> match_exists (G cg) (nd (at_column x) d) -> avb cg m (nd (at_column x) d) = true ->
  exists j, j x = d /\ chain cg m j 0 x.
Proof.
  intros Hs Hh Back. induction x as [|x IH] using N.peano_ind; intros d Hx M A.
  - exists (fun _ => d). split; [reflexivity|]. split; [|intros; lia]. intros i Hi. replace i with 0 by lia. auto.
  - rewrite <- N.add_1_r in *. destruct (Back x d Hx M A) as [d' [A' C]].
    pose proof C as [[_ [M' _]] _]. cbn [enbr] in M'.
    destruct (IH d' ltac:(lia) M' A') as [j [Ej [J1 J2]]].
    exists (fun i => if i =? x + 1 then d else j i). split; [rewrite N.eqb_refl; reflexivity|]. split.
    + intros i Hi. destruct (N.eqb_spec i (x + 1)) as [->|Hne]; [auto|apply J1; lia].
    + intros i _ Hi. destruct (N.eqb_spec i (x + 1)) as [->|Hne]; [lia|].
      destruct (N.eqb_spec (i + 1) (x + 1)) as [E|E].
      * replace i with x by lia. rewrite Ej. exact C.
      * apply J2; lia.
Qed.

Context (HL : laws T).

Lemma chain_solution cg m j : plain_problem cg -> mem_ok cg m -> height (right (G cg)) = 1 ->
  chain cg m j 0 (width (right (G cg)) - 1) -> solution (with_avail cg m) (fun p => j (px p)).
Proof.
  intros P Hm Hh [J1 J2]. pose proof (wf_static cg (pp_wf cg P)) as Hs.
  apply solution_compat; [apply static_wf; assumption|]. split.
  - intros p Hp. destruct (row_pixel cg p Hh Hp) as [E Hx]. unfold label_node. rewrite E at 1 3. apply J1. lia.
  - assert (X : forall p q, in_image (G cg) p -> in_image (G cg) q -> horizontal_pair p q ->
      compat cg (label_node (fun p => j (px p)) q) (label_node (fun p => j (px p)) p)).
    { intros p q Hp Hq [Ex Ey]. destruct (row_pixel cg p Hh Hp) as [E1 H1]. destruct (row_pixel cg q Hh Hq) as [E2 H2].
      unfold label_node. rewrite E2 at 1. rewrite E1 at 1. rewrite Ex. apply J2; lia. }
    intros p q Hp Hq A. change (compat cg (label_node (fun p => j (px p)) p) (label_node (fun p => j (px p)) q)).
    destruct A as [A|[A|[[A _]|[A _]]]].
    + apply (compat_sym HL); [exact P|]. apply X; assumption.
    + apply X; assumption.
    + exfalso. destruct Hp as [_ Hp], Hq as [_ Hq]. cbn [with_avail cg_graph] in *. lia.
    + exfalso. destruct Hp as [_ Hp], Hq as [_ Hq]. cbn [with_avail cg_graph] in *. lia.
Qed.

Lemma solution_chain cg m k : plain_problem cg -> mem_ok cg m -> height (right (G cg)) = 1 ->
  solution (with_avail cg m) k -> chain cg m (fun x => k (at_column x)) 0 (width (right (G cg)) - 1).
Proof.
  intros P Hm Hh S. pose proof (wf_static cg (pp_wf cg P)) as Hs.
  pose proof (wf_levels_width _ (st_graph cg Hs)). pose proof (wf_levels _ (st_graph cg Hs)).
  apply solution_compat in S; [|apply static_wf; assumption]. destruct S as [K C]. split.
  - intros i Hi. apply (K (at_column i)). apply (row_in cg); [exact Hh|lia].
  - intros i _ Hi. apply (C (at_column (i + 1)) (at_column i)); [apply (row_in cg)|apply (row_in cg)|apply next_adjacent]; try exact Hh; lia.
Qed.

Lemma row_back cg m : static cg -> mem_ok cg m -> height (right (G cg)) = 1 -> fst (solved cg m) = true ->
  forall x d, x + 1 < width (right (G cg)) -> match_exists (G cg) (nd (at_column (x + 1)) d) ->
  avb cg (snd (solved cg m)) (nd (at_column (x + 1)) d) = true ->
  exists d', avb cg (snd (solved cg m)) (nd (at_column x) d') = true /\ compat cg (nd (at_column (x + 1)) d) (nd (at_column x) d').
Proof.
  intros Hs Hm Hh F x d Hx M A.
  destruct (solved_back cg m (nd (at_column (x + 1)) d) (at_column x) Hs Hm F M A) as [[q d'] [E [A' C]]].
  - apply row_in; [exact Hh|lia].
  - apply next_adjacent.
  - right. cbn [px py at_column npix]. lia.
  - cbn [npix] in E. subst q. exists d'. auto.
Qed.

(** A successful sweep over one row proves that a labeling exists. *)
Lemma row_solved cg m : plain_problem cg -> mem_ok cg m -> height (right (G cg)) = 1 -> fst (solved cg m) = true ->
  exists k, solution (with_avail cg (snd (solved cg m))) k.
Proof.
  intros P Hm Hh F. pose proof (wf_static cg (pp_wf cg P)) as Hs.
  destruct (solved_facts cg m Hs Hm F) as [Hm' [_ [Has _]]].
  pose proof (wf_levels_width (G cg) (st_graph cg Hs)) as W1. pose proof (wf_levels (G cg) (st_graph cg Hs)) as W2.
  assert (Hl : in_image (G cg) (at_column (width (right (G cg)) - 1))) by (apply row_in; [exact Hh|lia]).
  specialize (Has _ Hl). apply hasb_iff in Has; try assumption. destruct Has as [[p d] [M [E A]]].
  cbn [npix] in E. subst p.
  destruct (chain_back cg _ Hs Hh (row_back cg m Hs Hm Hh F) (width (right (G cg)) - 1) d ltac:(lia) M A) as [j [_ J]].
  eexists. apply chain_solution; [exact P|exact Hm'|exact Hh|exact J].
Qed.

Lemma row_solution cg cg' : plain_problem cg -> height (right (G cg)) = 1 -> exec solve_csp cg = Ok (true, cg') ->
  exists k, solution cg' k /\ solution cg k.
Proof.
  intros P Hh E. pose proof (pp_wf cg P) as Hc. pose proof (wf_static cg Hc) as Hs. pose proof (wfc_avail cg Hc) as Hm.
  fold (mem_ok cg (cg_avail cg)) in Hm. rewrite exec_solve_csp in E by exact Hc. injection E as E1 E2. subst cg'.
  destruct (row_solved cg _ P Hm Hh E1) as [k Sk]. exists k. split; [exact Sk|].
  pose proof (solution_sub cg (cg_avail cg) _ k Hs Hm (solved_ok cg _ Hm) (solved_sub cg _ Hs Hm) Sk) as X.
  rewrite with_avail_same in X. exact X.
Qed.

(** *** Labeling one row *)

(** Every available node is part of a labeling. *)
Definition extends cg m : Prop :=
  forall n, match_exists (G cg) n -> avb cg m n = true -> exists k, solution (with_avail cg m) k /\ k (npix n) = disp n.

Lemma plain_small cg : plain_problem cg -> 1 < width (right (G cg)).
Proof.
  intros P. pose proof (wfc_graph cg (pp_wf cg P)) as Hw.
  pose proof (wf_levels_width _ Hw). pose proof (wf_levels _ Hw). lia.
Qed.

Lemma settled_extends cg : plain_problem cg -> height (right (G cg)) = 1 -> settled cg ->
  extends cg (cg_avail cg).
Proof.
  intros P Hh St [p d] M A. pose proof (pp_wf cg P) as Hc. pose proof (wf_static cg Hc) as Hs.
  pose proof (wfc_avail cg Hc) as Hm. fold (mem_ok cg (cg_avail cg)) in Hm. pose proof (plain_small cg P) as Hw.
  rewrite settled_rmvb in St by exact Hc.
  assert (Sup : forall n q, match_exists (G cg) n -> avb cg (cg_avail cg) n = true -> in_image (G cg) q -> adjacent (npix n) q ->
    exists d', avb cg (cg_avail cg) (nd q d') = true /\ compat cg n (nd q d')).
  { intros n q Mn An Hq Adj. destruct (not_removed cg (cg_avail cg) n q Hs (match_inb cg n Mn) An (St n Mn) Hq Adj) as [[q' d'] [E [A' C]]].
    cbn [npix] in E. subst q'. exists d'. auto. }
  destruct (row_pixel cg p Hh (proj1 M)) as [E Hx]. rewrite E in M, A.
  destruct (chain_back cg (cg_avail cg) Hs Hh) with (x := px p) (d := d) as [j [Ej J]]; try assumption.
  { intros x d0 Hx0 M0 A0. apply (Sup _ (at_column x) M0 A0); [apply row_in; [exact Hh|lia]|apply next_adjacent]. }
  (* to the right *)
  assert (R : forall i, px p + i < width (right (G cg)) -> exists j', j' (px p) = d /\ chain cg (cg_avail cg) j' 0 (px p + i)).
  { induction i as [|i IH] using N.peano_ind; intros Hi; [exists j; rewrite N.add_0_r; auto|].
    destruct (IH ltac:(lia)) as [j' [E' [J1 J2]]].
    destruct (J1 (px p + i) ltac:(lia)) as [M1 A1].
    destruct (Sup _ (at_column (px p + i + 1)) M1 A1) as [d' [A' C]].
    { apply row_in; [exact Hh|lia]. }
    { apply adjacent_sym, next_adjacent. }
    pose proof C as [[_ [M' _]] _]. cbn [enbr] in M'.
    exists (fun z => if z =? px p + i + 1 then d' else j' z).
    split; [destruct (N.eqb_spec (px p) (px p + i + 1)); [lia|exact E']|]. split.
    - intros z Hz. destruct (N.eqb_spec z (px p + i + 1)) as [->|Hne]; [auto|apply J1; lia].
    - intros z _ Hz. destruct (N.eqb_spec z (px p + i + 1)) as [->|Hne]; [lia|].
      destruct (N.eqb_spec (z + 1) (px p + i + 1)) as [E1|E1].
      + replace z with (px p + i) by lia. apply (compat_sym HL); [exact P|]. exact C.
      + apply J2; lia. }
  destruct (R (width (right (G cg)) - 1 - px p) ltac:(lia)) as [j' [E' J']].
  replace (px p + (width (right (G cg)) - 1 - px p)) with (width (right (G cg)) - 1) in J' by lia.
  exists (fun q => j' (px q)). split; [apply chain_solution; assumption|exact E'].
Qed.

(** Choosing a node of the next pixel and sweeping keeps this. *)
Lemma row_step cg m m1 x d : plain_problem cg -> mem_ok cg m -> mem_ok cg m1 -> height (right (G cg)) = 1 ->
  x < width (right (G cg)) -> extends cg m ->
  (forall i, i < x -> single cg m (at_column i)) ->
  sub m1 m -> (forall n, inb cg n -> npix n <> at_column x -> avb cg m1 n = avb cg m n) ->
  match_exists (G cg) (nd (at_column x) d) -> avb cg m (nd (at_column x) d) = true ->
  (forall d', match_exists (G cg) (nd (at_column x) d') -> (avb cg m1 (nd (at_column x) d') = true <-> d' = d)) ->
  fst (solved cg m1) = true /\ extends cg (snd (solved cg m1)) /\
  (forall i, i < x + 1 -> single cg (snd (solved cg m1)) (at_column i)).
Proof.
  intros P Hm Hm1 Hh Hx Ext Sg Sub Oth Md Ad One. pose proof (wf_static cg (pp_wf cg P)) as Hs. pose proof (plain_small cg P) as Hw.
  (* labelings through the chosen node stay *)
  assert (Keep : forall k, solution (with_avail cg m) k -> k (at_column x) = d -> solution (with_avail cg m1) k).
  { intros k [Hk [Ha He]] Ek. split; [exact Hk|]. split; [|exact He]. intros p Hp.
    pose proof (proj1 Hk p Hp) as M. pose proof (match_inb cg _ M) as I.
    specialize (Ha p Hp). apply available_with in Ha; try assumption. apply available_with; try assumption.
    destruct (pixel_dec p (at_column x)) as [->|Hne].
    - unfold label_node in *. rewrite Ek in *. apply One; [exact Md|reflexivity].
    - rewrite Oth; [exact Ha|exact I|exact Hne]. }
  destruct (Ext _ Md Ad) as [k [Sk Ek]]. cbn [npix disp] in Ek.
  pose proof (Keep k Sk Ek) as Sk1.
  assert (Solve : forall k, solution (with_avail cg m1) k -> fst (solved cg m1) = true /\ solution (with_avail cg (snd (solved cg m1))) k).
  { intros k' S'. apply (again_keeps cg 0 m1 k' Hs Hm1 S'). }
  destruct (Solve k Sk1) as [F Sk2]. split; [exact F|].
  pose proof (solved_sub cg m1 Hs Hm1) as Sub2. pose proof (solved_ok cg m1 Hm1) as Hm2.
  assert (Sg1 : forall i, i < x + 1 -> single cg m1 (at_column i)).
  { intros i Hi. destruct (N.eq_dec i x) as [->|Hne].
    - intros d1 d2 M1 M2 A1 A2. rewrite One in A1, A2 by assumption. congruence.
    - eapply single_sub; [exact Sub|apply Sg; lia]. }
  split; [|intros i Hi; eapply single_sub; [exact Sub2|apply Sg1; exact Hi]].
  intros [p b] M A. cbn [npix disp]. destruct (row_pixel cg p Hh (proj1 M)) as [E Hp]. rewrite E in M, A |- *.
  destruct (N.le_gt_cases (px p) x) as [L|L].
  - (* fixed pixels *)
    exists k. split; [exact Sk2|]. apply (Sg1 (px p) ltac:(lia)).
    + apply (proj1 (proj1 Sk) (at_column (px p))). apply row_in; assumption.
    + exact M.
    + assert (Hi : in_image (G cg) (at_column (px p))) by (apply row_in; assumption).
      pose proof (proj1 (proj2 Sk1) _ Hi) as V. apply available_with in V; try assumption.
      apply match_inb. apply (proj1 (proj1 Sk) _ Hi).
    + apply Sub2. exact A.
  - (* the left part survived the sweep, the right part is that of an old labeling *)
    destruct (chain_back cg _ Hs Hh (row_back cg m1 Hs Hm1 Hh F) (px p) b Hp M A) as [j [Ej [J1 J2]]].
    destruct (Ext (nd (at_column (px p)) b) M (Sub _ (Sub2 _ A))) as [kb [Skb Ekb]]. cbn [npix disp] in Ekb.
    destruct (solution_chain cg m kb P Hm Hh Skb) as [K1 K2].
    set (h := fun i => if i <=? px p then j i else kb (at_column i)).
    assert (Ch : chain cg m1 h 0 (width (right (G cg)) - 1)).
    { split.
      - intros i Hi. unfold h. destruct (N.leb_spec i (px p)) as [Li|Li].
        + destruct (J1 i ltac:(lia)) as [X Y]. split; [exact X|]. apply Sub2. exact Y.
        + destruct (K1 i Hi) as [X Y]. split; [exact X|]. rewrite Oth; [exact Y|apply match_inb; exact X|].
          cbn [npix]. unfold at_column. intros Q. injection Q. lia.
      - intros i _ Hi. unfold h. destruct (N.leb_spec i (px p)) as [Li|Li]; destruct (N.leb_spec (i + 1) (px p)) as [Li'|Li']; try lia.
        + apply J2; lia.
        + replace i with (px p) in * by lia. rewrite Ej, <- Ekb. apply K2; lia.
        + apply K2; lia. }
    exists (fun q => h (px q)). split.
    + apply Solve. apply chain_solution; assumption.
    + cbn [px at_column]. unfold h. rewrite N.leb_refl. exact Ej.
Qed.

Lemma row_pixels w : all_pixels w 1 = map at_column (range 0 w).
Proof.
  unfold all_pixels. generalize (range 0 w) as xs. induction xs as [|x xs IH]; cbn [flat_map map]; [reflexivity|].
  rewrite IH. rewrite (range_cons 0 1), (range_nil (0 + 1) 1) by lia. reflexivity.
Qed.

Lemma row_labels cg : plain_problem cg -> height (right (G cg)) = 1 ->
  forall n x m, x + N.of_nat n = width (right (G cg)) -> mem_ok cg m -> extends cg m ->
  (forall p, in_image (G cg) p -> hasb cg m p = true) ->
  (forall i, i < x -> single cg m (at_column i)) ->
  exists m', run (label_pixels cg (map at_column (range x (width (right (G cg)))))) m = Ok (true, m').
Proof.
  intros P Hh. pose proof (wf_static cg (pp_wf cg P)) as Hs.
  induction n as [|n IH]; intros x m Hn Hm Ext Has Sg.
  - rewrite range_nil by lia. cbn [map label_pixels run]. exists m. reflexivity.
  - rewrite (range_cons x) by lia. cbn [map label_pixels].
    assert (Hp : in_image (G cg) (at_column x)) by (apply row_in; [exact Hh|lia]).
    destruct (run_choose cg m (at_column x) HL Hs Hm Hp) as [b [m1 [E1 [Hm1 [Sub1 [Oth [Eb [_ HT]]]]]]]].
    rewrite (Has _ Hp) in Eb. subst b. destruct (HT eq_refl) as [d [M [A [U _]]]].
    rewrite cbind_assoc_run, E1. cbn [bind fst snd negb].
    destruct (row_step cg m m1 x d P Hm Hm1 Hh ltac:(lia) Ext Sg Sub1 Oth M A U) as [F [Ext2 Sg2]].
    rewrite cbind_assoc_run, run_solve_one by assumption. cbn [bind].
    destruct (solved_facts cg m1 Hs Hm1 F) as [Hm2 [_ [Has2 _]]].
    destruct (solved cg m1) as [ok m2]. cbn [fst snd] in *. subst ok. cbn [negb].
    apply (IH (x + 1) m2); try assumption. lia.
Qed.

Lemma row_labeling cg : plain_problem cg -> height (right (G cg)) = 1 -> settled cg -> everywhere_available cg ->
  exists cg', exec find_labeling cg = Ok (true, cg').
Proof.
  intros P Hh St Ev. pose proof (pp_wf cg P) as Hc. pose proof (wf_static cg Hc) as Hs.
  pose proof (wfc_avail cg Hc) as Hm. fold (mem_ok cg (cg_avail cg)) in Hm.
  unfold exec, find_labeling. rewrite (column_order_eq (G cg) (st_graph cg Hs)), Hh, row_pixels.
  destruct (row_labels cg P Hh (N.to_nat (width (right (G cg)))) 0 (cg_avail cg)) as [m' E].
  - lia.
  - exact Hm.
  - apply settled_extends; assumption.
  - intros p Hp. destruct (Ev p Hp) as [n [En [M A]]]. apply hasb_iff; try assumption. exists n.
    split; [exact M|]. split; [exact En|]. apply available_iff in A; [exact A|exact Hc|apply match_inb; exact M].
  - intros i Hi. lia.
  - rewrite E. cbn [bind fst snd]. eexists. reflexivity.
Qed.

(** *** The minimal threshold of one row *)

Lemma row_threshold srt (g : dgraph T) lp l t : sorts srt -> wf_graph g -> make_lowest g = Ok lp -> finite_penalties g ->
  zero_reparam g -> nonneg_weights g -> fetch_available_penalties srt lp = Ok l ->
  calculate_minimal_consistent_threshold lp g l = Ok t -> height (right g) = 1 ->
  exists k, labeling_ok g k /\ nodes_within g lp t k /\ edges_within g lp t k.
Proof.
  intros Hsrt Hw Hl Hf Hz Hn El Et Hh. destruct (make_constraint_spec g lp t Hw Hl) as [cg [Ec _]].
  destruct (make_constraint_Ok g lp t cg Hw Hl Ec) as [Wc [Eg [Elp [Eth B]]]].
  destruct (solvable_at_threshold HL srt g lp l t cg Hsrt Hw Hl Hf Hz Hn El Et Ec) as [cg' E].
  destruct (row_solution cg cg') as [k [_ [K1 [K2 K3]]]]; try assumption.
  - apply (plain_made HL g lp t); assumption.
  - rewrite Eg; exact Hh.
  - rewrite Eg, Elp, Eth in *. exists k. split; [exact K1|]. split; [|exact K3]. intros p Hp.
    specialize (K2 p Hp). pose proof (proj1 K1 p Hp) as M.
    assert (I : inb cg (label_node k p)) by (unfold inb; rewrite Eg; split; apply M).
    apply available_iff in K2; [|exact Wc|exact I]. apply B in K2; [|exact I]. apply K2.
Qed.

Lemma row_threshold_least srt (g : dgraph T) lp l t : sorts srt -> wf_graph g -> make_lowest g = Ok lp -> finite_penalties g ->
  zero_reparam g -> nonneg_weights g -> fetch_available_penalties srt lp = Ok l ->
  calculate_minimal_consistent_threshold lp g l = Ok t -> height (right g) = 1 ->
  (exists k, labeling_ok g k /\ nodes_within g lp t k /\ edges_within g lp t k) /\
  (forall k b, labeling_ok g k -> nodes_within g lp b k -> edges_within g lp b k -> fle t b = true).
Proof.
  intros Hsrt Hw Hl Hf Hz Hn El Et Hh. split; [apply (row_threshold srt g lp l t); assumption|].
  intros k b. apply (threshold_below HL srt g lp l t k b); assumption.
Qed.

(** *** Support after one call *)

Lemma solve_backward cg cg' n q : wf_cgraph cg -> exec solve_csp cg = Ok (true, cg') ->
  match_exists (G cg) n -> available cg' n -> in_image (G cg) q -> adjacent (npix n) q ->
  px q < px (npix n) \/ py q < py (npix n) ->
  exists n', npix n' = q /\ available cg' n' /\ match_pair (G cg) {| enode := n; enbr := n' |} /\
    edge_within (G cg) (cg_lowest cg) (cg_threshold cg) {| enode := n; enbr := n' |}.
Proof.
  intros Hc E M A Hq Adj B. pose proof (wf_static cg Hc) as Hs. pose proof (wfc_avail cg Hc) as Hm.
  fold (mem_ok cg (cg_avail cg)) in Hm. rewrite exec_solve_csp in E by exact Hc. injection E as E1 E2. subst cg'.
  apply available_with in A; [|exact Hs|apply solved_ok; exact Hm|apply match_inb; exact M].
  destruct (solved_back cg _ n q Hs Hm E1 M A Hq Adj) as [n' [Eq [A' C]]].
  - unfold raster_before. unfold adjacent, horizontal_pair, vertical_pair in Adj. lia.
  - exists n'. pose proof C as [Mp Ew]. split; [exact Eq|]. split; [|split; [exact Mp|apply ewb_iff; exact Ew]].
    apply available_with; [exact Hs|apply solved_ok; exact Hm|apply match_inb; apply Mp|exact A'].
Qed.
End Graph.
