(** The OpenMP build when rows do not restrict each other: lemmas. *)
From Coq Require Import Lia.
From Verif Require Export Rows_job_proofs.
Local Open Scope N_scope.

Section Graph.
Context {T : target}.
Implicit Type cg : cgraph T.
Notation G cg := (cg_graph cg).
Notation Wd cg := (width (right (cg_graph cg))).
Notation Ht cg := (height (right (cg_graph cg))).
Notation Lv cg := (levels (cg_graph cg)).
Notation nd p d := {| npix := p; disp := d |}.
Notation at_ x y := {| px := x; py := y |}.

Lemma wide_enough cg : static cg -> 1 < Wd cg /\ 0 < Ht cg.
Proof. intros Hs. pose proof (wf_sizes _ (st_graph cg Hs)) as S. pose proof (sz_w _ S). pose proof (sz_h _ S). lia. Qed.

(** *** One round *)

Lemma round_rows cg (K : node -> Prop) wb jobs m0 ch m' : static cg -> separate_rows cg -> support cg K ->
  rows_apart wb (G cg) -> 1 <= jobs -> Ht cg + jobs < wmod T -> base cg K m0 ->
  round cg true wb jobs jobs m0 ch m' -> mem_ok cg m' ->
  (ch = true -> ~ total cg K) /\
  (ch = false -> (existsb (fun b => b) m' = true /\ forall y, y < Ht cg -> Row cg K m0 y (Wd cg) m') \/
                 (existsb (fun b => b) m' = false /\ ~ total cg K)).
Proof.
  intros Hs Sep HK Ap J1 J2 B [n [s [P [rs [E1 [E2 E3]]]]]] Hm'.
  set (own := fun j : nat => owns cg jobs (N.of_nat j)).
  set (R := fun j : nat => job_end cg K jobs (N.of_nat j) m0).
  assert (Ln : length (range 0 jobs) = N.to_nat jobs) by (pose proof (len_range 0 jobs) as X; unfold len in X; lia).
  assert (I : team_inv (size cg) wb (places cg K) (~ total cg K) own R s).
  { eapply team_steps; [| | |exact P].
    - intros j i i' Li Li' E. unfold own, owns.
      destruct (idx_surj cg m0 i Hs (proj1 B)) as [a [Ha <-]]; [rewrite (proj1 B); exact Li|].
      destruct (idx_surj cg m0 i' Hs (proj1 B)) as [a' [Ha' <-]]; [rewrite (proj1 B); exact Li'|].
      rewrite !row_of_index by assumption. destruct Ha as [Ha1 Ha2], Ha' as [Ha1' Ha2'].
      rewrite (Ap a a' Ha1 Ha2 Ha1' Ha2' E). reflexivity.
    - intros j j' i _ X Y. unfold own, owns in *. apply N.eqb_eq in X, Y. lia.
    - right. cbn [round_start history threads current hd]. split; [apply B|]. split.
      + intros i Ki. split; [|apply B; exact Ki]. destruct Ki as [a [Ia [Ka <-]]]. rewrite <- (proj1 B). apply idx_lt; [exact Hs|apply B|exact Ia].
      + intros j t E. rewrite nth_error_map in E. destruct (Nat.lt_ge_cases j (N.to_nat jobs)) as [L|L].
        * rewrite nth_range in E by lia. injection E as <-. exists m0. split; [|split].
          -- split; [apply B|]. split; [apply sub_refl|]. auto.
          -- apply B.
          -- apply trt_job; try assumption. lia.
        * rewrite (proj2 (nth_error_None (range 0 jobs) j)) in E by lia. discriminate. }
  assert (Le : length rs = N.to_nat jobs).
  { assert (X : forall n s1 s2, psteps true wb n s1 s2 -> length (threads (A := bool) s2) = length (threads s1)).
    { intros n1 s1 s2 Ps. induction Ps as [x|n1 x y z St Ps IH]; [reflexivity|]. rewrite IH. destruct St. cbn [threads]. apply length_upd. }
    pose proof (X _ _ _ P) as Y. rewrite E1, map_length in Y. rewrite Y. cbn [round_start threads]. rewrite map_length. exact Ln. }
  unfold team_inv in I. rewrite <- E3 in I.
  assert (At : forall j t, nth_error (threads s) j = Some t -> exists r, nth_error rs j = Some r /\ t = Run (Ret r)).
  { intros j t E. rewrite E1, nth_error_map in E. destruct (nth_error rs j) as [r|]; [|discriminate]. cbn [option_map] in E. injection E as <-. exists r. auto. }
  split.
  - intros ->. destruct I as [[HD _]|[_ [_ All]]]; [exact HD|]. symmetry in E2. apply existsb_exists in E2. destruct E2 as [r [Ir ->]].
    apply In_nth_error in Ir. destruct Ir as [j Ej]. destruct (All j (Run (Ret true))) as [pm [_ [_ X]]]; [rewrite E1, nth_error_map, Ej; reflexivity|].
    exact X.
  - intros ->.
    assert (Fs : forall j r, nth_error rs j = Some r -> r = false).
    { intros j [|] Ej; [|reflexivity]. exfalso. assert (existsb (fun r => r) rs = true) by (apply existsb_exists; exists true; split; [eapply nth_error_In; exact Ej|reflexivity]). congruence. }
    destruct I as [[_ [j [t [Et Gt]]]]|[_ [_ All]]].
    { exfalso. destruct (At j t Et) as [r [Er ->]]. rewrite (Fs j r Er) in Gt. cbn [gives_up ends_true] in Gt. discriminate. }
    assert (Done : forall j, j < jobs -> exists pm, view (size cg) own (N.to_nat j) m' pm /\ job_end cg K jobs j m0 pm).
    { intros j Lj. destruct (nth_error rs (N.to_nat j)) as [r|] eqn:Er; [|apply nth_error_None in Er; lia].
      rewrite (Fs _ _ Er) in Er. destruct (All (N.to_nat j) (Run (Ret false))) as [pm [V [_ X]]]; [rewrite E1, nth_error_map, Er; reflexivity|].
      exists pm. split; [exact V|]. cbn [trt] in X. unfold R in X. rewrite N2Nat.id in X. exact X. }
    destruct (wide_enough cg Hs) as [Wp Hp].
    destruct (existsb (fun b => b) m') eqn:Em; [left|right]; (split; [reflexivity|]).
    + intros y Hy. assert (Lj : y mod jobs < jobs) by (apply N.mod_lt; lia).
      destruct (Done _ Lj) as [pm [[Lp [Sb Ow]] [H|[_ H]]]].
      * apply (Row_same cg K m0 y (Wd cg) pm m' Hy); [|apply H; [exact Hy|reflexivity]].
        intros a Ia Ea. unfold avb. apply Ow.
        -- rewrite <- Hm'. apply idx_lt; assumption.
        -- unfold own, owns. rewrite N2Nat.id, row_of_index by assumption. rewrite Ea. apply N.eqb_refl.
      * exfalso. apply existsb_exists in Em. destruct Em as [b [Ib ->]]. apply (In_nth _ _ false) in Ib. destruct Ib as [k [Lk Ek]].
        assert (X : bit m' (N.of_nat k) = true) by (rewrite <- elem_bit; unfold elem; rewrite Nat2N.id; exact Ek).
        apply Sb in X. rewrite H in X; [discriminate|]. rewrite <- Hm'. unfold len. lia.
    + assert (Lj : 0 mod jobs < jobs) by (apply N.mod_lt; lia).
      destruct (Done _ Lj) as [pm [[Lp [Sb Ow]] [H|[X _]]]]; [|exact X]. exfalso.
      destruct (H 0 Hp eq_refl) as [_ [H2 _]]. destruct (H2 0 ltac:(lia) ltac:(lia)) as [d [Md Ad]].
      pose proof (match_inb cg _ Md) as Ia.
      assert (Li : node_index (G cg) (nd (at_ 0 0) d) < size cg) by (rewrite <- Hm'; apply idx_lt; assumption).
      assert (X : avb cg m' (nd (at_ 0 0) d) = true).
      { unfold avb. rewrite (Ow _ Li); [exact Ad|]. unfold own, owns. rewrite N2Nat.id, row_of_index by assumption. apply N.eqb_refl. }
      unfold avb in X. rewrite <- elem_bit in X. unfold elem in X.
      assert (Y : existsb (fun b => b) m' = true).
      { apply existsb_exists. exists true. split; [|reflexivity]. rewrite <- X. apply nth_In. change (len m' = size cg) in Hm'. rewrite <- Hm' in Li. clear - Li. unfold len in Li. lia. }
      congruence.
Qed.

(** *** The end of the rounds *)

(** Two memories whose rows have been swept from the same one are the same. *)
Lemma Row_unique cg (K K' : node -> Prop) m0 m m' : static cg -> mem_ok cg m -> mem_ok cg m' -> total cg K -> total cg K' ->
  (forall y, y < Ht cg -> Row cg K m0 y (Wd cg) m) -> (forall y, y < Ht cg -> Row cg K' m0 y (Wd cg) m') -> m = m'.
Proof.
  intros Hs Hm Hm' Tk Tk' R R'.
  assert (One : forall K K' m m', total cg K' -> (forall y, y < Ht cg -> Row cg K m0 y (Wd cg) m) -> (forall y, y < Ht cg -> Row cg K' m0 y (Wd cg) m') ->
    forall y x, y < Ht cg ->
    (forall x' d, x' < x -> x' < Wd cg -> match_exists (G cg) (nd (at_ x' y) d) -> avb cg m (nd (at_ x' y) d) = true -> avb cg m' (nd (at_ x' y) d) = true) ->
    forall d, x < Wd cg -> match_exists (G cg) (nd (at_ x y) d) -> avb cg m (nd (at_ x y) d) = true -> avb cg m' (nd (at_ x y) d) = true).
  { clear. intros K K' m m' Tk' R R' y x Hy Before d Wx Md A.
    destruct (R y Hy) as [R1 _], (R' y Hy) as [R1' _].
    destruct (R1 x d Wx Wx Md) as [X _]. destruct (R1' x d Wx Wx Md) as [_ X']. destruct (X A) as [A0 [L Ro]].
    apply X'; try assumption. intros q Hq Hp. destruct (L q Hq Hp) as [[q' d'] [E [A' C]]]. cbn [npix] in E. subst q'.
    exists (nd q d'). split; [reflexivity|]. split; [|exact C]. pose proof C as [[_ [M' _]] _]. cbn [enbr] in M'.
    destruct q as [qx qy], Hp as [Ex Ey]. cbn [npix px py] in *. subst qy. apply Before; try assumption; [lia|apply M']. }
  assert (All : forall y x, y < Ht cg -> forall x' d, x' < x -> x' < Wd cg -> match_exists (G cg) (nd (at_ x' y) d) ->
    avb cg m (nd (at_ x' y) d) = true <-> avb cg m' (nd (at_ x' y) d) = true).
  { intros y x Hy. induction x as [|x IH] using N.peano_ind; intros x' d Lx Wx Md; [lia|].
    destruct (N.eq_dec x' x) as [->|Ne]; [|apply IH; try assumption; lia]. split.
    - apply (One K K' m m' Tk' R R' y x Hy); try assumption. intros x1 d1 L1 W1 M1. apply IH; assumption.
    - apply (One K' K m' m Tk R' R y x Hy); try assumption. intros x1 d1 L1 W1 M1. apply IH; assumption. }
  apply mem_ext; [unfold mem_ok in *; congruence|]. intros i Li.
  destruct (idx_surj cg m i Hs Hm Li) as [[[x y] d] [[[Hx Hy] Hd] <-]]. cbn [px py npix disp] in *.
  change (avb cg m (nd (at_ x y) d) = avb cg m' (nd (at_ x y) d)).
  destruct (R y Hy) as [_ [_ R3]], (R' y Hy) as [_ [_ R3']].
  destruct (N.ltb_spec (x + d) (Wd cg)) as [L|L].
  - assert (Md : match_exists (G cg) (nd (at_ x y) d)) by (split; [split; assumption|]; split; [exact Hd|exact L]).
    pose proof (All y (x + 1) Hy x d ltac:(lia) Hx Md) as X.
    destruct (avb cg m (nd (at_ x y) d)), (avb cg m' (nd (at_ x y) d)); try reflexivity; [discriminate (proj1 X eq_refl)|discriminate (proj2 X eq_refl)].
  - assert (Nm : ~ match_exists (G cg) (nd (at_ x y) d)) by (intros [_ [_ X]]; cbn [npix px disp] in X; lia).
    rewrite R3, R3' by (try assumption; right; exact Nm). reflexivity.
Qed.

Lemma all_clear (m m' : mem) : len m = len m' -> existsb (fun b => b) m = false -> existsb (fun b => b) m' = false -> m = m'.
Proof.
  intros L E E'. assert (X : forall l : mem, existsb (fun b => b) l = false -> l = repeat false (length l)).
  { induction l as [|b l IH]; intros H; [reflexivity|]. cbn [existsb] in H. apply Bool.orb_false_iff in H. destruct H as [-> H]. cbn [length repeat]. f_equal. apply IH; exact H. }
  rewrite (X m E), (X m' E'). f_equal. unfold len in L. lia.
Qed.

Section Team.
Context (HL : laws T).
Variable v : team.
Hypothesis Hv : exact_team v.

(** Rows after which nodes are left: a labeling exists. *)
Lemma Rows_chain cg m0 m : plain_problem cg -> separate_rows cg -> mem_ok cg m ->
  (forall y, y < Ht cg -> Row cg no_node m0 y (Wd cg) m) -> exists k, solution (with_avail cg m) k.
Proof.
  intros P Sep Hm R. pose proof (wf_static cg (pp_wf cg P)) as Hs. destruct (wide_enough cg Hs) as [Wp Hp].
  destruct (for_every_row (fun y j => row_chain cg m y j 0 (Wd cg - 1)) (fun _ => 0) (Ht cg)) as [J HJ].
  { intros y Hy. destruct (R y Hy) as [R1 [R2 _]].
    destruct (R2 (Wd cg - 1) ltac:(lia) ltac:(lia)) as [d [M A]].
    destruct (row_chain_back cg m y) with (x := Wd cg - 1) (d := d) as [j [_ Ch]]; [|lia|exact M|exact A|exists j; exact Ch].
    intros x d1 Hx M1 A1. destruct (R1 (x + 1) d1 Hx Hx M1) as [X _]. destruct (X A1) as [_ [L _]].
    destruct (L (at_ x y)) as [[q d'] [E [A' C]]]; [split; cbn [px py]; lia|split; cbn [npix px py]; reflexivity|].
    cbn [npix] in E. subst q. exists d'. auto. }
  eexists. apply (chains_solution HL cg m J P Hm Sep HJ).
Qed.

Lemma exact_sized cg : static cg -> Ht cg + 2 ^ 31 <= wmod T -> sized_team v cg.
Proof. intros Hs Hh bound jobs B. destruct Hv as [_ V]. destruct (V _ _ B) as [[V1 V2] _]. split; [exact V1|lia]. Qed.

Lemma base_none cg m : mem_ok cg m -> base cg no_node m.
Proof. intros Hm. split; [exact Hm|]. intros i [n [_ [[] _]]]. Qed.

Lemma base_labels cg m k : static cg -> mem_ok cg m -> solution (with_avail cg m) k -> base cg (label_set cg k) m /\ support cg (label_set cg k).
Proof.
  intros Hs Hm S. pose proof (static_wf cg m Hs Hm) as Hc.
  destruct (labels_set (with_avail cg m) k Hc S) as [Su [L [G _]]]. split; [|exact Su]. split; [exact Hm|].
  intros i Ki. apply G; [|exact Ki]. destruct Ki as [n [Hn [_ <-]]]. rewrite <- L. apply idx_lt; assumption.
Qed.

(** The rounds of an exact team. *)
Lemma rows_rounds cg m m' : plain_problem cg -> separate_rows cg -> rows_apart (t_word v) (G cg) -> Ht cg + 2 ^ 31 <= wmod T ->
  mem_ok cg m -> omp_rounds v cg m m' -> mem_ok cg m' /\
  ((exists k, solution (with_avail cg m) k /\ forall y, y < Ht cg -> Row cg (label_set cg k) m y (Wd cg) m') \/
   (existsb (fun b => b) m' = false /\ forall k, ~ solution (with_avail cg m) k)).
Proof.
  intros P Sep Ap Hh Hm R. pose proof (wf_static cg (pp_wf cg P)) as Hs. destruct Hv as [Vs V].
  assert (Ok1 : forall m ch m' bound jobs, t_size v bound jobs -> mem_ok cg m -> round cg (t_sc v) (t_word v) bound jobs m ch m' -> mem_ok cg m' /\ sub m' m).
  { intros a ch b bound jobs B Ha Rd. destruct (V _ _ B) as [[V1 V2] _].
    destruct (round_safe cg no_node (t_sc v) (t_word v) bound jobs a a ch b Hs (no_support cg) (or_intror (fun n H => H)) V1 ltac:(lia)
      (good_none cg _ _ Ha (sub_refl _)) Rd) as [[L [_ S]] _]. split; assumption. }
  induction R as [m m' bound jobs B R|m m1 m' bound jobs B R R' IH]; destruct (V _ _ B) as [[V1 V2] ->];
    destruct (Ok1 _ _ _ _ _ B Hm R) as [Hm1 Sb]; rewrite Vs in R.
  - split; [exact Hm1|].
    destruct (round_rows cg no_node (t_word v) jobs m false m' Hs Sep (no_support cg) Ap V1 ltac:(lia) (base_none cg m Hm) R Hm1) as [_ X].
    destruct (X eq_refl) as [[_ Rw]|[Em _]].
    + left. destruct (Rows_chain cg m m' P Sep Hm1 Rw) as [k Sk]. exists k.
      pose proof (solution_sub cg m m' k Hs Hm Hm1 Sb Sk) as Sk0. split; [exact Sk0|].
      destruct (base_labels cg m k Hs Hm Sk0) as [Bk Su].
      destruct (round_rows cg (label_set cg k) (t_word v) jobs m false m' Hs Sep Su Ap V1 ltac:(lia) Bk R Hm1) as [_ Y].
      destruct (Y eq_refl) as [[_ Rk]|[_ Nt]]; [exact Rk|]. exfalso. apply Nt, label_total.
    + right. split; [exact Em|]. intros k Sk. destruct (base_labels cg m k Hs Hm Sk) as [Bk Su].
      destruct (round_rows cg (label_set cg k) (t_word v) jobs m false m' Hs Sep Su Ap V1 ltac:(lia) Bk R Hm1) as [_ Y].
      destruct (Y eq_refl) as [[Em' _]|[_ Nt]]; [congruence|]. apply Nt, label_total.
  - destruct (IH Hm1) as [Hm' C]. split; [exact Hm'|].
    assert (No : forall k, ~ solution (with_avail cg m) k).
    { intros k Sk. destruct (base_labels cg m k Hs Hm Sk) as [Bk Su].
      destruct (round_rows cg (label_set cg k) (t_word v) jobs m true m1 Hs Sep Su Ap V1 ltac:(lia) Bk R Hm1) as [Y _].
      apply (Y eq_refl), label_total. }
    destruct C as [[k [Sk _]]|[Em _]]; [|right; split; assumption]. exfalso. apply (No k).
    exact (solution_sub cg m m1 k Hs Hm Hm1 Sb Sk).
Qed.
End Team.

Definition one_at_a_time (wb : N) : team := {| t_sc := true; t_word := wb; t_size := fun bound jobs => bound = 1 /\ jobs = 1 |}.
Lemma one_exact wb : exact_team (one_at_a_time wb).
Proof. split; [reflexivity|]. intros bound jobs [-> ->]. split; [|reflexivity]. split; [apply N.le_refl|reflexivity]. Qed.

(** [solve_csp] of an exact team is that of the sequential build. *)
Lemma csp_rows (HL : laws T) v cg o : exact_team v -> plain_problem cg -> separate_rows cg -> rows_apart (t_word v) (G cg) ->
  Ht cg + 2 ^ 31 <= wmod T -> csp_omp v cg o -> o = exec solve_csp cg.
Proof.
  intros Hv P Sep Ap Hh O. pose proof (pp_wf cg P) as Hc. pose proof (wf_static cg Hc) as Hs. pose proof (wfc_avail cg Hc) as Hm.
  fold (mem_ok cg (cg_avail cg)) in Hm.
  pose proof (csp_one_possible (one_at_a_time (t_word v)) cg Hc (conj eq_refl eq_refl)) as O'.
  destruct (csp_omp_any v cg o Hc (exact_sized v Hv cg Hs Hh) O) as [b [m [-> [Hm1 [_ [R [Eb _]]]]]]].
  destruct (csp_omp_any _ cg _ Hc (exact_sized _ (one_exact (t_word v)) cg Hs Hh) O') as [b' [m' [-> [Hm1' [_ [R' [Eb' _]]]]]]].
  assert (E : m = m').
  { destruct (rows_rounds HL v Hv cg _ m P Sep Ap Hh Hm R) as [_ C].
    destruct (rows_rounds HL (one_at_a_time (t_word v)) (one_exact _) cg _ m' P Sep Ap Hh Hm R') as [_ C'].
    destruct C as [[k [Sk Rk]]|[Em No]], C' as [[k' [Sk' Rk']]|[Em' No']].
    - eapply (Row_unique cg (label_set cg k) (label_set cg k')); try eassumption; apply label_total.
    - exfalso. apply (No' k Sk).
    - exfalso. apply (No k' Sk').
    - apply all_clear; try assumption. unfold mem_ok in *. congruence. }
  subst m'. rewrite Eb, Eb'. reflexivity.
Qed.
End Graph.
