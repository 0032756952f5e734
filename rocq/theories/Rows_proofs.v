(** Rows that do not restrict each other: lemmas. *)
From Coq Require Import Lia Reals.
From Flocq Require Import Core BinarySingleNaN.
From Verif Require Export Rows_spec Row_device_proofs.
From Verif Require Import Greedy_proofs Target_proofs.
Local Open Scope N_scope.

(** *** A factor of zero *)

Lemma ieee_zero_factor prec emax (Hp : FLX.Prec_gt_0 prec) (He : BinarySingleNaN.Prec_lt_emax prec emax) (w : N) (conv : N -> Z) :
  zero_factor (ieee prec emax Hp He w conv).
Proof.
  intros a b Ha Fb. cbn -[Beqb Bmult] in *.
  assert (Za : exists s, a = B754_zero s).
  { destruct a as [s|[]| |[] m e B]; try discriminate. exists s; reflexivity. }
  destruct Za as [s ->]. destruct b as [[]|[]| |[] m e B]; try discriminate; destruct s; reflexivity.
Qed.

Lemma cpu_zero_factor : zero_factor cpu. Proof. apply ieee_zero_factor. Qed.
Lemma opencl_zero_factor : zero_factor opencl. Proof. apply ieee_zero_factor. Qed.
Lemma cuda_zero_factor : zero_factor cuda. Proof. apply ieee_zero_factor. Qed.
Lemma exact_zero_factor : zero_factor exact.
Proof.
  intros a b H _. cbn in *. destruct (Req_bool_spec a 0); [|discriminate]. subst. apply Req_bool_true. ring.
Qed.

(** *** The order of the labeling *)

Definition column_before (p q : pixel) : Prop := px p < px q \/ (px p = px q /\ py p < py q).

Lemma columns_sorted h xs : StronglySorted N.lt xs ->
  StronglySorted column_before (flat_map (fun x => map (fun y => {| px := x; py := y |}) (range 0 h)) xs).
Proof.
  induction 1 as [|x xs Sx IH Fx]; cbn [flat_map]; [constructor|].
  apply sorted_app; [|exact IH|].
  - generalize (range_sorted 0 h). generalize (range 0 h) as ys. induction 1 as [|y ys Sy IHy Fy]; cbn [map]; constructor; [exact IHy|].
    apply Forall_forall. intros p Hp. apply in_map_iff in Hp. destruct Hp as [y' [<- Hy']].
    rewrite Forall_forall in Fy. right. cbn [px py]. split; [reflexivity|apply Fy; exact Hy'].
  - intros p q Hp Hq. rewrite Forall_forall in Fx. apply in_map_iff in Hp. destruct Hp as [y [<- _]].
    apply in_flat_map in Hq. destruct Hq as [x' [Hx' Hq]]. apply in_map_iff in Hq. destruct Hq as [y' [<- _]].
    left. cbn [px]. apply Fx; exact Hx'.
Qed.

Lemma all_pixels_sorted w h : StronglySorted column_before (all_pixels w h).
Proof. apply columns_sorted, range_sorted. Qed.

Lemma sorted_tail {A} (R : A -> A -> Prop) l l' : StronglySorted R (l ++ l') -> StronglySorted R l'.
Proof. induction l as [|x l IH]; cbn [app]; [auto|]. intros S. inversion S; subst. apply IH; assumption. Qed.

(** *** Choosing something for every row *)

Lemma for_every_row {A} (Q : N -> A -> Prop) (a0 : A) (h : N) :
  (forall y, y < h -> exists j, Q y j) -> exists J, forall y, y < h -> Q y (J y).
Proof.
  induction h as [|h IH] using N.peano_ind; intros H; [exists (fun _ => a0); intros; lia|].
  destruct IH as [J HJ]; [intros y Hy; apply H; lia|]. destruct (H h ltac:(lia)) as [j Hj].
  exists (fun y => if y =? h then j else J y). intros y Hy. destruct (N.eqb_spec y h) as [->|Hne]; [exact Hj|apply HJ; lia].
Qed.

Section Graph.
Context {T : target}.
Implicit Type cg : cgraph T.
Notation G cg := (cg_graph cg).
Notation nd p d := {| npix := p; disp := d |}.
Notation at_ x y := {| px := x; py := y |}.

Lemma left_adjacent x y : adjacent (at_ (x + 1) y) (at_ x y).
Proof. right; left. split; reflexivity. Qed.

(** A chain of compatible available nodes of one row. *)
Definition row_chain cg m (y : N) (j : N -> N) (lo hi : N) : Prop :=
  (forall i, lo <= i <= hi -> match_exists (G cg) (nd (at_ i y) (j i)) /\ avb cg m (nd (at_ i y) (j i)) = true) /\
  (forall i, lo <= i -> i < hi -> compat cg (nd (at_ (i + 1) y) (j (i + 1))) (nd (at_ i y) (j i))).

Lemma row_chain_back cg m y :
  (forall x d, x + 1 < width (right (G cg)) -> match_exists (G cg) (nd (at_ (x + 1) y) d) ->
     avb cg m (nd (at_ (x + 1) y) d) = true ->
     exists d', avb cg m (nd (at_ x y) d') = true /\ compat cg (nd (at_ (x + 1) y) d) (nd (at_ x y) d')) ->
  forall x d, x < width (right (G cg)) -> match_exists (G cg) (nd (at_ x y) d) -> avb cg m (nd (at_ x y) d) = true ->
  exists j, j x = d /\ row_chain cg m y j 0 x.
Proof.
  intros Back. induction x as [|x IH] using N.peano_ind; intros d Hx M A.
  - exists (fun _ => d). split; [reflexivity|]. split; [|intros; lia]. intros i Hi. replace i with 0 by lia. auto.
  - rewrite <- N.add_1_r in *. destruct (Back x d Hx M A) as [d' [A' C]].
    pose proof C as [[_ [M' _]] _]. cbn [enbr] in M'.
    destruct (IH d' ltac:(lia) M' A') as [j [Ej [J1 J2]]].
    exists (fun i => if i =? x + 1 then d else j i). split; [rewrite N.eqb_refl; reflexivity|]. split.
    + intros i Hi. destruct (N.eqb_spec i (x + 1)) as [->|Hne]; [auto|apply J1; lia].
    + intros i _ Hi. destruct (N.eqb_spec i (x + 1)) as [->|Hne]; [lia|].
      destruct (N.eqb_spec (i + 1) (x + 1)) as [E|E].
      * replace i with x by lia. rewrite Ej. exact C.
      * apply J2; lia.
Qed.

Context (HL : laws T).

Lemma chains_solution cg m (J : N -> N -> N) : plain_problem cg -> mem_ok cg m -> separate_rows cg ->
  (forall y, y < height (right (G cg)) -> row_chain cg m y (J y) 0 (width (right (G cg)) - 1)) ->
  solution (with_avail cg m) (fun p => J (py p) (px p)).
Proof.
  intros P Hm Sep H. pose proof (wf_static cg (pp_wf cg P)) as Hs.
  set (k := fun p => J (py p) (px p)).
  assert (K : forall p, in_image (G cg) p -> match_exists (G cg) (label_node k p) /\ avb cg m (label_node k p) = true).
  { intros [x y] [Hx Hy]. cbn [px py] in *. destruct (H y Hy) as [J1 _]. apply (J1 x). lia. }
  apply solution_compat; [apply static_wf; assumption|]. split; [exact K|].
  assert (X : forall p q, in_image (G cg) p -> in_image (G cg) q -> horizontal_pair p q ->
    compat cg (label_node k q) (label_node k p)).
  { intros [x y] [x' y'] [Hx Hy] [Hx' Hy'] [Ex Ey]. cbn [px py] in *. subst x' y'. destruct (H y Hy) as [_ J2]. apply (J2 x); lia. }
  assert (Y : forall p q, in_image (G cg) p -> in_image (G cg) q -> vertical_pair p q \/ vertical_pair q p ->
    compat cg (label_node k p) (label_node k q)).
  { intros p q Hp Hq V. destruct (K p Hp) as [M _], (K q Hq) as [M' _]. split.
    - split; [exact M|]. split; [exact M'|]. split; [right; right; exact V|].
      unfold in_order, horizontal_pair, vertical_pair in *. cbn [label_node enode enbr npix] in *. split; intros; exfalso; lia.
    - apply ewb_iff. apply Sep; assumption. }
  intros p q Hp Hq A. change (compat cg (label_node k p) (label_node k q)).
  destruct A as [A|[A|A]].
  - apply (compat_sym HL); [exact P|]. apply X; assumption.
  - apply X; assumption.
  - apply Y; assumption.
Qed.

Lemma solution_row_chain cg m k y : plain_problem cg -> mem_ok cg m -> y < height (right (G cg)) ->
  solution (with_avail cg m) k -> row_chain cg m y (fun x => k (at_ x y)) 0 (width (right (G cg)) - 1).
Proof.
  intros P Hm Hy S. pose proof (wf_static cg (pp_wf cg P)) as Hs. pose proof (plain_small cg P) as Hw.
  apply solution_compat in S; [|apply static_wf; assumption]. destruct S as [K C]. split.
  - intros i Hi. apply (K (at_ i y)). split; cbn [px py with_avail cg_graph]; lia.
  - intros i _ Hi. apply (C (at_ (i + 1) y) (at_ i y)); [| |apply left_adjacent]; split; cbn [px py with_avail cg_graph]; lia.
Qed.

(** One row of a labeling may be replaced. *)
Lemma replace_row cg m k y j : plain_problem cg -> mem_ok cg m -> separate_rows cg ->
  solution (with_avail cg m) k -> row_chain cg m y j 0 (width (right (G cg)) - 1) ->
  exists k', solution (with_avail cg m) k' /\ forall x, k' (at_ x y) = j x.
Proof.
  intros P Hm Sep S Ch. eexists. split.
  - apply (chains_solution cg m (fun y' => if y' =? y then j else fun x => k (at_ x y')) P Hm Sep).
    intros y' Hy'. destruct (N.eqb_spec y' y) as [->|Hne]; [exact Ch|apply solution_row_chain; assumption].
  - intros x. cbn [px py]. rewrite N.eqb_refl. reflexivity.
Qed.

Lemma rows_back cg m y : static cg -> mem_ok cg m -> y < height (right (G cg)) -> fst (solved cg m) = true ->
  forall x d, x + 1 < width (right (G cg)) -> match_exists (G cg) (nd (at_ (x + 1) y) d) ->
  avb cg (snd (solved cg m)) (nd (at_ (x + 1) y) d) = true ->
  exists d', avb cg (snd (solved cg m)) (nd (at_ x y) d') = true /\ compat cg (nd (at_ (x + 1) y) d) (nd (at_ x y) d').
Proof.
  intros Hs Hm Hy F x d Hx M A.
  destruct (solved_back cg m (nd (at_ (x + 1) y) d) (at_ x y) Hs Hm F M A) as [[q d'] [E [A' C]]].
  - split; cbn [px py]; lia.
  - apply left_adjacent.
  - right. cbn [px py npix]. lia.
  - cbn [npix] in E. subst q. exists d'. auto.
Qed.

(** A successful sweep proves that a labeling exists. *)
Lemma rows_solved cg m : plain_problem cg -> mem_ok cg m -> separate_rows cg -> fst (solved cg m) = true ->
  exists k, solution (with_avail cg (snd (solved cg m))) k.
Proof.
  intros P Hm Sep F. pose proof (wf_static cg (pp_wf cg P)) as Hs.
  destruct (solved_facts cg m Hs Hm F) as [Hm' [_ [Has _]]]. pose proof (plain_small cg P) as Hw.
  destruct (for_every_row (fun y j => row_chain cg (snd (solved cg m)) y j 0 (width (right (G cg)) - 1)) (fun _ => 0) (height (right (G cg))))
    as [J HJ].
  { intros y Hy.
    assert (Hl : in_image (G cg) (at_ (width (right (G cg)) - 1) y)) by (split; cbn [px py]; lia).
    specialize (Has _ Hl). apply hasb_iff in Has; try assumption. destruct Has as [[p d] [M [E A]]].
    cbn [npix] in E. subst p.
    destruct (row_chain_back cg _ y (rows_back cg m y Hs Hm Hy F) (width (right (G cg)) - 1) d ltac:(lia) M A) as [j [_ Ch]].
    exists j. exact Ch. }
  eexists. apply (chains_solution cg _ J); assumption.
Qed.

Lemma rows_solution cg cg' : plain_problem cg -> separate_rows cg -> exec solve_csp cg = Ok (true, cg') ->
  exists k, solution cg' k /\ solution cg k.
Proof.
  intros P Sep E. pose proof (pp_wf cg P) as Hc. pose proof (wf_static cg Hc) as Hs. pose proof (wfc_avail cg Hc) as Hm.
  fold (mem_ok cg (cg_avail cg)) in Hm. rewrite exec_solve_csp in E by exact Hc. injection E as E1 E2. subst cg'.
  destruct (rows_solved cg _ P Hm Sep E1) as [k Sk]. exists k. split; [exact Sk|].
  pose proof (solution_sub cg (cg_avail cg) _ k Hs Hm (solved_ok cg _ Hm) (solved_sub cg _ Hs Hm) Sk) as X.
  rewrite with_avail_same in X. exact X.
Qed.

(** *** Labeling *)

Lemma separate_with cg m : separate_rows cg -> separate_rows (with_avail cg m).
Proof. intros H. exact H. Qed.

Lemma settled_rows cg : plain_problem cg -> separate_rows cg -> settled cg -> everywhere_available cg ->
  extends cg (cg_avail cg).
Proof.
  intros P Sep St Ev. pose proof (pp_wf cg P) as Hc. pose proof (wf_static cg Hc) as Hs.
  pose proof (wfc_avail cg Hc) as Hm. fold (mem_ok cg (cg_avail cg)) in Hm. pose proof (plain_small cg P) as Hw.
  rewrite settled_rmvb in St by exact Hc.
  assert (Sup : forall n q, match_exists (G cg) n -> avb cg (cg_avail cg) n = true -> in_image (G cg) q -> adjacent (npix n) q ->
    exists d', avb cg (cg_avail cg) (nd q d') = true /\ compat cg n (nd q d')).
  { intros n q Mn An Hq Adj. destruct (not_removed cg (cg_avail cg) n q Hs (match_inb cg n Mn) An (St n Mn) Hq Adj) as [[q' d'] [E [A' C]]].
    cbn [npix] in E. subst q'. exists d'. auto. }
  assert (Through : forall x y d, match_exists (G cg) (nd (at_ x y) d) -> avb cg (cg_avail cg) (nd (at_ x y) d) = true ->
    exists j, j x = d /\ row_chain cg (cg_avail cg) y j 0 (width (right (G cg)) - 1)).
  { intros x y d M A. destruct (proj1 M) as [Hx Hy]. cbn [px py npix] in Hx, Hy.
    destruct (row_chain_back cg (cg_avail cg) y) with (x := x) (d := d) as [j [Ej J]]; try assumption.
    { intros x0 d0 Hx0 M0 A0. apply (Sup _ (at_ x0 y) M0 A0); [split; cbn [px py]; lia|apply left_adjacent]. }
    assert (R : forall i, x + i < width (right (G cg)) -> exists j', j' x = d /\ row_chain cg (cg_avail cg) y j' 0 (x + i)).
    { induction i as [|i IH] using N.peano_ind; intros Hi; [exists j; rewrite N.add_0_r; auto|].
      destruct (IH ltac:(lia)) as [j' [E' [J1 J2]]].
      destruct (J1 (x + i) ltac:(lia)) as [M1 A1].
      destruct (Sup _ (at_ (x + i + 1) y) M1 A1) as [d' [A' C]].
      { split; cbn [px py]; lia. }
      { apply adjacent_sym, left_adjacent. }
      pose proof C as [[_ [M' _]] _]. cbn [enbr] in M'.
      exists (fun z => if z =? x + i + 1 then d' else j' z).
      split; [destruct (N.eqb_spec x (x + i + 1)); [lia|exact E']|]. split.
      - intros z Hz. destruct (N.eqb_spec z (x + i + 1)) as [->|Hne]; [auto|apply J1; lia].
      - intros z _ Hz. destruct (N.eqb_spec z (x + i + 1)) as [->|Hne]; [lia|].
        destruct (N.eqb_spec (z + 1) (x + i + 1)) as [E1|E1].
        + replace z with (x + i) by lia. apply (compat_sym HL); [exact P|]. exact C.
        + apply J2; lia. }
    destruct (R (width (right (G cg)) - 1 - x) ltac:(lia)) as [j' [E' J']].
    replace (x + (width (right (G cg)) - 1 - x)) with (width (right (G cg)) - 1) in J' by lia. exists j'. auto. }
  destruct (for_every_row (fun y j => row_chain cg (cg_avail cg) y j 0 (width (right (G cg)) - 1)) (fun _ => 0) (height (right (G cg))))
    as [J HJ].
  { intros y Hy. destruct (Ev (at_ 0 y)) as [[p d] [En [M A]]]; [split; cbn [px py]; lia|]. cbn [npix] in En. subst p.
    apply available_iff in A; [|exact Hc|apply match_inb; exact M].
    destruct (Through 0 y d M A) as [j [_ Ch]]. exists j. exact Ch. }
  pose proof (chains_solution cg _ J P Hm Sep HJ) as S0.
  intros [[x y] d] M A. destruct (Through x y d M A) as [j [Ej Ch]].
  destruct (replace_row cg _ _ y j P Hm Sep S0 Ch) as [k [Sk Ek]]. exists k. split; [exact Sk|].
  cbn [npix disp]. rewrite Ek. exact Ej.
Qed.

(** Choosing a node of the next pixel and sweeping keeps this. *)
Lemma rows_step cg m m1 x y d : plain_problem cg -> mem_ok cg m -> mem_ok cg m1 -> separate_rows cg ->
  x < width (right (G cg)) -> y < height (right (G cg)) -> extends cg m ->
  (forall i, i < x -> single cg m (at_ i y)) ->
  sub m1 m -> (forall n, inb cg n -> npix n <> at_ x y -> avb cg m1 n = avb cg m n) ->
  match_exists (G cg) (nd (at_ x y) d) -> avb cg m (nd (at_ x y) d) = true ->
  (forall d', match_exists (G cg) (nd (at_ x y) d') -> (avb cg m1 (nd (at_ x y) d') = true <-> d' = d)) ->
  fst (solved cg m1) = true /\ extends cg (snd (solved cg m1)) /\ single cg (snd (solved cg m1)) (at_ x y).
Proof.
  intros P Hm Hm1 Sep Hx Hy Ext Sg Sub Oth Md Ad One. pose proof (wf_static cg (pp_wf cg P)) as Hs. pose proof (plain_small cg P) as Hw.
  (* labelings through the chosen node stay *)
  assert (Keep : forall k, solution (with_avail cg m) k -> k (at_ x y) = d -> solution (with_avail cg m1) k).
  { intros k [Hk [Ha He]] Ek. split; [exact Hk|]. split; [|exact He]. intros p Hp.
    pose proof (proj1 Hk p Hp) as M. pose proof (match_inb cg _ M) as I.
    specialize (Ha p Hp). apply available_with in Ha; try assumption. apply available_with; try assumption.
    destruct (pixel_dec p (at_ x y)) as [->|Hne].
    - unfold label_node in *. rewrite Ek in *. apply One; [exact Md|reflexivity].
    - rewrite Oth; [exact Ha|exact I|exact Hne]. }
  destruct (Ext _ Md Ad) as [k [Sk Ek]]. cbn [npix disp] in Ek.
  pose proof (Keep k Sk Ek) as Sk1.
  assert (Solve : forall k, solution (with_avail cg m1) k -> fst (solved cg m1) = true /\ solution (with_avail cg (snd (solved cg m1))) k).
  { intros k' S'. apply (again_keeps cg 0 m1 k' Hs Hm1 S'). }
  destruct (Solve k Sk1) as [F Sk2]. split; [exact F|].
  pose proof (solved_sub cg m1 Hs Hm1) as Sub2. pose proof (solved_ok cg m1 Hm1) as Hm2.
  assert (Sg1 : forall i, i < x + 1 -> single cg m1 (at_ i y)).
  { intros i Hi. destruct (N.eq_dec i x) as [->|Hne].
    - intros d1 d2 M1 M2 A1 A2. rewrite One in A1, A2 by assumption. congruence.
    - eapply single_sub; [exact Sub|apply Sg; lia]. }
  split; [|eapply single_sub; [exact Sub2|apply Sg1; lia]].
  intros [[x' y'] b] M A. cbn [npix disp]. destruct (proj1 M) as [Hx' Hy']. cbn [px py npix] in Hx', Hy'.
  assert (Cases : (y' = y /\ x' <= x) \/ (y' <> y \/ x < x')) by lia. destruct Cases as [[-> L]|L].
  - (* fixed pixels *)
    exists k. split; [exact Sk2|]. apply (Sg1 x' ltac:(lia)).
    + apply (proj1 (proj1 Sk) (at_ x' y)). split; assumption.
    + exact M.
    + assert (Hi : in_image (G cg) (at_ x' y)) by (split; assumption).
      pose proof (proj1 (proj2 Sk1) _ Hi) as V. apply available_with in V; try assumption.
      apply match_inb. apply (proj1 (proj1 Sk) _ Hi).
    + apply Sub2. exact A.
  - (* the left part survived the sweep, the right part is that of an old labeling *)
    destruct (row_chain_back cg _ y' (rows_back cg m1 y' Hs Hm1 Hy' F) x' b Hx' M A) as [j [Ej [J1 J2]]].
    destruct (Ext (nd (at_ x' y') b) M (Sub _ (Sub2 _ A))) as [kb [Skb Ekb]]. cbn [npix disp] in Ekb.
    destruct (solution_row_chain cg m kb y' P Hm Hy' Skb) as [K1 K2].
    set (h := fun i => if i <=? x' then j i else kb (at_ i y')).
    assert (Ch : row_chain cg m1 y' h 0 (width (right (G cg)) - 1)).
    { split.
      - intros i Hi. unfold h. destruct (N.leb_spec i x') as [Li|Li].
        + destruct (J1 i ltac:(lia)) as [X Y]. split; [exact X|]. apply Sub2. exact Y.
        + destruct (K1 i Hi) as [X Y]. split; [exact X|]. rewrite Oth; [exact Y|apply match_inb; exact X|].
          cbn [npix]. intros Q. injection Q. lia.
      - intros i _ Hi. unfold h. destruct (N.leb_spec i x') as [Li|Li]; destruct (N.leb_spec (i + 1) x') as [Li'|Li']; try lia.
        + apply J2; lia.
        + replace i with x' in * by lia. rewrite Ej, <- Ekb. apply K2; lia.
        + apply K2; lia. }
    destruct (replace_row cg m1 k y' h P Hm1 Sep Sk1 Ch) as [k' [Sk' Ek']].
    exists k'. split; [apply Solve; exact Sk'|]. rewrite Ek'. unfold h. rewrite N.leb_refl. exact Ej.
Qed.

Lemma rows_labels cg : plain_problem cg -> separate_rows cg ->
  forall ps done m, all_pixels (width (right (G cg))) (height (right (G cg))) = done ++ ps ->
  mem_ok cg m -> extends cg m -> (forall p, in_image (G cg) p -> hasb cg m p = true) ->
  (forall p, In p done -> single cg m p) ->
  exists m', run (label_pixels cg ps) m = Ok (true, m').
Proof.
  intros P Sep. pose proof (wf_static cg (pp_wf cg P)) as Hs.
  induction ps as [|p ps IH]; intros done m Hd Hm Ext Has Sg; [exists m; reflexivity|].
  assert (Hp : in_image (G cg) p).
  { apply In_all_pixels. rewrite Hd. apply in_app_iff. right; left; reflexivity. }
  assert (Before : forall i, i < px p -> In {| px := i; py := py p |} done).
  { intros i Hi.
    assert (I : In {| px := i; py := py p |} (done ++ p :: ps)).
    { rewrite <- Hd. apply In_all_pixels. cbn [px py]. split; [|apply Hp]. destruct Hp as [Hp _]. lia. }
    apply in_app_iff in I. destruct I as [I|I]; [exact I|]. exfalso.
    pose proof (all_pixels_sorted (width (right (G cg))) (height (right (G cg)))) as St. rewrite Hd in St. apply sorted_tail in St.
    inversion St as [|p' ps' _ Fa]; subst p' ps'. rewrite Forall_forall in Fa. destruct I as [I|I].
    - rewrite I in Hi. cbn [px] in Hi. lia.
    - specialize (Fa _ I). unfold column_before in Fa. cbn [px py] in Fa. lia. }
  destruct p as [x y]. cbn [px py] in Before. cbn [label_pixels].
  destruct (run_choose cg m (at_ x y) HL Hs Hm Hp) as [b [m1 [E1 [Hm1 [Sub1 [Oth [Eb [_ HT]]]]]]]].
  rewrite (Has _ Hp) in Eb. subst b. destruct (HT eq_refl) as [d [M [A [U _]]]].
  rewrite cbind_assoc_run, E1. cbn [bind fst snd negb].
  destruct (rows_step cg m m1 x y d P Hm Hm1 Sep (proj1 Hp) (proj2 Hp) Ext (fun i Hi => Sg _ (Before i Hi)) Sub1 Oth M A U) as [F [Ext2 Sg2]].
  rewrite cbind_assoc_run, run_solve_one by assumption. cbn [bind].
  pose proof (solved_sub cg m1 Hs Hm1) as Sub2.
  destruct (solved_facts cg m1 Hs Hm1 F) as [Hm2 [_ [Has2 _]]].
  destruct (solved cg m1) as [ok m2]. cbn [fst snd] in *. subst ok. cbn [negb].
  apply (IH (done ++ [at_ x y]) m2); try assumption; [rewrite <- app_assoc; exact Hd|].
  intros q Hq. apply in_app_iff in Hq. destruct Hq as [Hq|[<-|[]]]; [|exact Sg2].
  eapply single_sub; [|apply Sg; exact Hq]. intros i Hi. apply Sub1, Sub2, Hi.
Qed.

Lemma rows_labeling cg : plain_problem cg -> separate_rows cg -> settled cg -> everywhere_available cg ->
  exists cg', exec find_labeling cg = Ok (true, cg').
Proof.
  intros P Sep St Ev. pose proof (pp_wf cg P) as Hc. pose proof (wf_static cg Hc) as Hs.
  pose proof (wfc_avail cg Hc) as Hm. fold (mem_ok cg (cg_avail cg)) in Hm.
  unfold exec, find_labeling. rewrite (column_order_eq (G cg) (st_graph cg Hs)).
  destruct (rows_labels cg P Sep (all_pixels (width (right (G cg))) (height (right (G cg)))) [] (cg_avail cg)) as [m' E].
  - reflexivity.
  - exact Hm.
  - apply settled_rows; assumption.
  - intros p Hp. destruct (Ev p Hp) as [n [En [M A]]]. apply hasb_iff; try assumption. exists n.
    split; [exact M|]. split; [exact En|]. apply available_iff in A; [exact A|exact Hc|apply match_inb; exact M].
  - intros p [].
  - rewrite E. cbn [bind fst snd]. eexists. reflexivity.
Qed.

(** *** Devices *)

Lemma rows_device cg a v : plain_problem cg -> separate_rows cg -> orderly a v ->
  forall ps m f m' f', label_device cg a true (b_kind v) (b_partition v) ps m f m' f' ->
  pixels_ok cg ps -> mem_ok cg m -> extends cg m -> (forall p, in_image (G cg) p -> hasb cg m p = true) ->
  mem_ok cg m' /\ exists k, solution (with_avail cg m') k.
Proof.
  intros P Sep Or ps m f m' f' LD. pose proof (wf_static cg (pp_wf cg P)) as Hs.
  induction LD as [m f|p ps m b m1 f m2 f2 m' f' E Pr LD IH]; intros Hps Hm Ext Has.
  - split; [exact Hm|]. specialize (Has _ (origin_in cg Hs)). apply hasb_iff in Has; [|exact Hs|apply origin_in; exact Hs].
    destruct Has as [n [M [_ A]]]. destruct (Ext n M A) as [k [S _]]. exists k. exact S.
  - assert (Hp : in_image (G cg) p) by (apply Hps; left; reflexivity).
    destruct (run_choose cg m p HL Hs Hm Hp) as [b' [m1' [E' [Hm1 [Sub1 [Oth [Eb [_ HT]]]]]]]].
    rewrite E in E'. injection E' as <- <-. rewrite (Has p Hp) in Eb. subst b.
    destruct (HT eq_refl) as [d [M [A [One _]]]].
    destruct (Ext (nd p d) M A) as [k [S Ek]]. cbn [npix disp] in Ek.
    assert (S1 : solution (with_avail cg m1) k).
    { destruct S as [K1 [K2 K3]]. split; [exact K1|]. split; [|exact K3]. intros q Hq.
      pose proof (proj1 K1 q Hq) as Mq. pose proof (match_inb cg _ Mq) as I.
      specialize (K2 q Hq). apply available_with in K2; try assumption. apply available_with; try assumption.
      destruct (pixel_dec q p) as [->|Hne].
      - unfold label_node in *. rewrite Ek in *. apply One; [exact M|reflexivity].
      - rewrite Oth; [exact K2|exact I|exact Hne]. }
    destruct (propagate_sub cg a true _ _ Hs m1 f m2 f2 Hm1 Pr) as [Hm2 _].
    pose proof (settles_orderly cg a v Hs Or m1 f m2 f2 Hm1 Pr) as St.
    apply (settling_keeps cg a _ _ m1 f m2 f2 P Hm1 Pr St) in S1.
    apply IH.
    + intros q Hq. apply Hps. right. exact Hq.
    + exact Hm2.
    + exact (settled_rows (with_avail cg m2) (plain_with cg m2 P Hm2) Sep St (solution_everywhere _ k S1)).
    + intros q Hq. apply hasb_iff; try assumption. exists (label_node k q). destruct S1 as [K1 [K2 _]].
      split; [apply K1; exact Hq|]. split; [reflexivity|].
      specialize (K2 q Hq). apply available_with in K2; try assumption. apply match_inb. apply (proj1 K1 q Hq).
Qed.

Lemma rows_device_labeling cg a v m' : plain_problem cg -> separate_rows cg -> settled cg -> everywhere_available cg ->
  orderly a v -> csp_solution cg a true (b_kind v) (b_partition v) m' -> exists k, solution (with_avail cg m') k.
Proof.
  intros P Sep St Ev Or [f [f' [_ LD]]]. pose proof (pp_wf cg P) as Hc. pose proof (wf_static cg Hc) as Hs.
  pose proof (wfc_avail cg Hc) as Hm. fold (mem_ok cg (cg_avail cg)) in Hm.
  apply (rows_device cg a v P Sep Or _ _ _ _ _ LD).
  - intros p Hp. change (device_order cg) with (all_pixels (width (right (G cg))) (height (right (G cg)))) in Hp.
    apply In_all_pixels in Hp. exact Hp.
  - exact Hm.
  - apply settled_rows; assumption.
  - intros p Hp. destruct (Ev p Hp) as [n [En [M A]]]. apply hasb_iff; try assumption. exists n.
    split; [exact M|]. split; [exact En|]. apply available_iff in A; [exact A|exact Hc|apply match_inb; exact M].
Qed.

(** *** Without smoothness *)

Lemma no_smoothness_separate cg : zero_factor T -> plain_problem cg -> no_smoothness (G cg) ->
  fle fzero (cg_threshold cg) = true -> separate_rows cg.
Proof.
  intros HZ P Hn Ht n n' M M' V. assert (A : adjacent (npix n) (npix n')) by (right; right; exact V).
  apply ewb_iff. apply ewb_zero; try assumption.
  pose proof (epen_fin HL (G cg) n n' (wfc_graph cg (pp_wf cg P)) (pp_zero cg P) (pp_finite cg P) M M' A) as Fv.
  destruct (epen_fin_parts HL (G cg) _ _ Fv) as [_ [Fs _]].
  eapply (fle_trans T HL); [|exact Ht]. apply (feq_spec T HL (epen (G cg) (disp n) (disp n')) fzero). apply HZ; assumption.
Qed.

Lemma rows_threshold srt (g : dgraph T) lp l t : zero_factor T -> sorts srt -> wf_graph g -> make_lowest g = Ok lp ->
  finite_penalties g -> zero_reparam g -> nonneg_weights g -> fetch_available_penalties srt lp = Ok l ->
  calculate_minimal_consistent_threshold lp g l = Ok t -> no_smoothness g ->
  (exists k, labeling_ok g k /\ nodes_within g lp t k /\ edges_within g lp t k) /\
  (forall k b, labeling_ok g k -> nodes_within g lp b k -> edges_within g lp b k -> fle t b = true).
Proof.
  intros HZ Hsrt Hw Hl Hf Hz Hn El Et Hns. split; [|intros k b; apply (threshold_below HL srt g lp l t k b); assumption].
  destruct (make_constraint_spec g lp t Hw Hl) as [cg [Ec _]].
  destruct (make_constraint_Ok g lp t cg Hw Hl Ec) as [Wc [Eg [Elp [Eth B]]]].
  destruct (solvable_at_threshold HL srt g lp l t cg Hsrt Hw Hl Hf Hz Hn El Et Ec) as [cg' E].
  pose proof (plain_made HL g lp t cg Hw Hl Ec Hz Hf Hn) as P.
  destruct (rows_solution cg cg') as [k [_ [K1 [K2 K3]]]]; try assumption.
  - apply no_smoothness_separate; try assumption; [rewrite Eg; exact Hns|rewrite Eth].
    exact (threshold_nonneg HL g lp t cg cg' Hw Hl Hf Ec E).
  - rewrite Eg, Elp, Eth in *. exists k. split; [exact K1|]. split; [|exact K3]. intros p Hp.
    specialize (K2 p Hp). pose proof (proj1 K1 p Hp) as M.
    assert (I : inb cg (label_node k p)) by (unfold inb; rewrite Eg; split; apply M).
    apply available_iff in K2; [|exact Wc|exact I]. apply B in K2; [|exact I]. apply K2.
Qed.
End Graph.
