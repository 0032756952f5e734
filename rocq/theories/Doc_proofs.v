(** The documented iteration and the solvers: lemmas. *)
From Coq Require Import Lia.
From Verif Require Import Lattice_proofs Again_proofs Row_device_proofs Doc_spec.
Local Open Scope N_scope.

Section Graph.
Context {T : target}.
Implicit Type cg : cgraph T.
Notation G cg := (cg_graph cg).

Lemma lasting_frugal cg k n : lasting cg n -> frugal cg k n.
Proof.
  intros [K [A Kn]]. revert n Kn. induction k as [|k IH]; intros n Kn; cbn [frugal]; destruct (A n Kn) as [M [Av S]]; [auto|].
  split; [apply IH; exact Kn|]. intros q Q Ad. destruct (S q Q Ad) as [n' [E [Kn' [Mp Ew]]]]. exists n'.
  split; [exact E|]. split; [apply IH; exact Kn'|split; assumption].
Qed.
Lemma frugal_start cg k n : frugal cg k n -> match_exists (G cg) n /\ available cg n.
Proof. induction k as [|k IH]; cbn [frugal]; [auto|]. intros [H _]. auto. Qed.

Lemma frugal_limit cg k n : frugal_ends cg k -> (frugal cg k n <-> lasting cg n).
Proof.
  intros E. split; [|apply lasting_frugal]. intros F. exists (frugal cg k). split; [|exact F]. intros x Fx.
  destruct (frugal_start cg k x Fx) as [M Av]. split; [exact M|]. split; [exact Av|].
  intros q Q Ad. destruct (E x Fx) as [_ S]. destruct (S q Q Ad) as [n' [E1 [F' [Mp Ew]]]]. exists n'. auto.
Qed.

(** *** With and without edges *)

Lemma frugal_pred cg k n : frugal cg (S k) n -> frugal cg k n.
Proof. cbn [frugal]. intros [H _]. exact H. Qed.

Lemma frugal_documented cg k : forall n, frugal cg k n -> fst (documented cg k) n.
Proof.
  assert (H : forall n, (frugal cg k n -> fst (documented cg k) n) /\
    (forall n', frugal cg k n -> frugal cg k n' -> edge_ok cg {| enode := n; enbr := n' |} -> snd (documented cg k) {| enode := n; enbr := n' |})).
  { induction k as [|k IH]; intros n; cbn [documented fst snd].
    - split; [cbn [frugal]; auto|auto].
    - split.
      + cbn [frugal]. intros [F S]. split; [apply IH; exact F|]. intros q Q Ad. destruct (S q Q Ad) as [n' [E [F' Ok']]].
        exists n'. split; [exact E|]. apply IH; assumption.
      + intros n' F F' Ok'. apply frugal_pred in F. apply frugal_pred in F'. cbn [enode enbr]. split; [|split].
        * apply IH; assumption.
        * apply IH; exact F.
        * apply IH; exact F'. }
  intros n. apply H.
Qed.

Lemma documented_pred cg k n : fst (documented cg (S k)) n -> fst (documented cg k) n.
Proof. cbn [documented fst]. intros [H _]. exact H. Qed.
Lemma documented_edge cg k e : snd (documented cg k) e -> edge_ok cg e.
Proof. induction k as [|k IH]; cbn [documented snd]; [auto|]. intros [H _]. auto. Qed.

Lemma documented_frugal cg k : forall n, fst (documented cg (2 * k)) n -> frugal cg k n.
Proof.
  induction k as [|k IH]; intros n; [cbn [Nat.mul documented fst frugal]; auto|].
  replace (2 * S k)%nat with (S (S (2 * k))) by lia. intros D. cbn [frugal]. split.
  - apply IH. apply documented_pred, documented_pred. exact D.
  - cbn [documented fst snd] in D. destruct D as [_ D]. intros q Q Ad. destruct (D q Q Ad) as [n' [E [A [_ B]]]].
    exists n'. split; [exact E|]. split; [apply IH; exact B|]. eapply documented_edge. exact A.
Qed.

Lemma documented_limit cg k n : documented_ends cg k -> (fst (documented cg k) n <-> lasting cg n).
Proof.
  intros [En Ee]. split; [|intros L; apply frugal_documented, lasting_frugal; exact L].
  intros D. exists (fst (documented cg k)). split; [|exact D]. intros x Dx.
  assert (S0 : match_exists (G cg) x /\ available cg x).
  { clear - Dx. revert x Dx. induction k as [|k IH]; intros x Dx; [exact Dx|]. apply IH. apply documented_pred. exact Dx. }
  split; [apply S0|]. split; [apply S0|]. intros q Q Ad. pose proof (En x Dx) as D1. cbn [documented fst] in D1.
  destruct D1 as [_ D1]. destruct (D1 q Q Ad) as [n' [E A]]. exists n'. split; [exact E|].
  pose proof (Ee _ A) as A1. cbn [documented snd enode enbr] in A1. destruct A1 as [_ [_ B]].
  split; [exact B|]. destruct (documented_edge cg k _ A) as [Mp Ew]. auto.
Qed.

(** *** The end *)

Definition every_node cg : list node :=
  flat_map (fun p => map (fun d => {| npix := p; disp := d |}) (disps cg p)) (raster cg).
Lemma In_every cg n : static cg -> (In n (every_node cg) <-> match_exists (G cg) n).
Proof.
  intros Hs. unfold every_node. rewrite in_flat_map. split.
  - intros [p [Hp H]]. apply in_map_iff in H. destruct H as [d [<- Hd]]. apply In_raster in Hp. apply disps_In in Hd; assumption.
  - intros M. exists (npix n). split; [apply In_raster; apply M|]. apply in_map_iff. exists (disp n).
    destruct n as [p d]. split; [reflexivity|]. apply disps_In; [exact Hs|apply M|exact M].
Qed.

(** One iteration without edges, on the array. *)
Definition at_once cg (m : list bool) : list bool :=
  fold_right (fun n acc => if rmvb cg m n then clear cg acc n else acc) m (every_node cg).

Lemma at_once_gen cg m l : static cg -> mem_ok cg m -> (forall n, In n l -> match_exists (G cg) n) ->
  let m' := fold_right (fun n acc => if rmvb cg m n then clear cg acc n else acc) m l in
  mem_ok cg m' /\ sub m' m /\
  forall x, match_exists (G cg) x -> (avb cg m' x = true <-> avb cg m x = true /\ ~ (In x l /\ rmvb cg m x = true)).
Proof.
  intros Hs Hm. induction l as [|n l IH]; intros Hl; cbn [fold_right]; cbv zeta.
  - split; [exact Hm|]. split; [apply sub_refl|]. intros x _. split; [intros A; split; [exact A|intros [[] _]]|tauto].
  - destruct IH as [I1 [I2 I3]]; [intros y Hy; apply Hl; right; exact Hy|]. cbv zeta in I1, I2, I3.
    set (acc := fold_right _ m l) in *. assert (Mn : match_exists (G cg) n) by (apply Hl; left; reflexivity).
    destruct (rmvb cg m n) eqn:R.
    + split; [apply clear_ok; exact I1|]. split; [eapply sub_trans; [apply sub_clear; [exact Hs|exact I1|apply match_inb; exact Mn]|exact I2]|].
      intros x Mx. rewrite avb_clear by (try assumption; apply match_inb; assumption). rewrite (I3 x Mx). cbn [In].
      split.
      * intros [[A B] C]. split; [exact A|]. intros [[D|D] E]; [congruence|]. apply B. auto.
      * intros [A B]. split; [split; [exact A|]|].
        -- intros [C D]. apply B. auto.
        -- intros ->. apply B. auto.
    + split; [exact I1|]. split; [exact I2|]. intros x Mx. rewrite (I3 x Mx). cbn [In].
      split; intros [A B]; (split; [exact A|]).
      * intros [[D|D] E]; [subst; congruence|]. apply B. auto.
      * intros [C D]. apply B. auto.
Qed.

Fixpoint times cg (k : nat) (m : list bool) : list bool := match k with O => m | S k => at_once cg (times cg k m) end.

Lemma at_once_facts cg m : static cg -> mem_ok cg m ->
  mem_ok cg (at_once cg m) /\ sub (at_once cg m) m /\
  forall x, match_exists (G cg) x -> (avb cg (at_once cg m) x = true <-> avb cg m x = true /\ rmvb cg m x = false).
Proof.
  intros Hs Hm. destruct (at_once_gen cg m (every_node cg) Hs Hm) as [A [B C]]; [intros n H; apply In_every; assumption|].
  split; [exact A|]. split; [exact B|]. intros x Mx. unfold at_once. rewrite (C x Mx).
  pose proof (proj2 (In_every cg x Hs) Mx) as Ix. destruct (rmvb cg m x); split; intros [P Q]; split; try exact P; try reflexivity.
  - exfalso. apply Q. auto.
  - discriminate.
  - intros [_ X]. discriminate.
Qed.
Lemma times_ok cg k m : static cg -> mem_ok cg m -> mem_ok cg (times cg k m).
Proof. intros Hs Hm. induction k as [|k IH]; cbn [times]; [exact Hm|]. apply at_once_facts; assumption. Qed.

Lemma frugal_times cg k n : wf_cgraph cg ->
  (frugal cg k n <-> match_exists (G cg) n /\ avb cg (times cg k (cg_avail cg)) n = true).
Proof.
  intros Hc. pose proof (wf_static cg Hc) as Hs. pose proof (wfc_avail cg Hc) as Hm. fold (mem_ok cg (cg_avail cg)) in Hm.
  revert n. induction k as [|k IH]; intros n; cbn [frugal times].
  - split; intros [M A]; (split; [exact M|]); apply available_iff in A || apply available_iff; try assumption; apply match_inb; exact M.
  - pose proof (times_ok cg k _ Hs Hm) as Hk. destruct (at_once_facts cg _ Hs Hk) as [_ [_ C]]. rewrite (IH n). split.
    + intros [[M A] S]. split; [exact M|]. apply (C n M). split; [exact A|].
      destruct (rmvb cg (times cg k (cg_avail cg)) n) eqn:R; [|reflexivity]. exfalso.
      apply rmvb_iff in R; [|exact Hs|apply match_inb; exact M]. destruct R as [_ [q [Q [Ad No]]]].
      destruct (S q Q Ad) as [n' [E [F [Mp Ew]]]]. apply IH in F. destruct F as [_ A']. apply (No n' E).
      split; [exact A'|]. split; [exact Mp|]. apply ewb_iff. exact Ew.
    + intros [M A]. apply (C n M) in A. destruct A as [A R]. split; [auto|]. intros q Q Ad.
      destruct (not_removed cg _ n q Hs (match_inb cg n M) A R Q Ad) as [n' [E [A' [Mp Ew]]]].
      exists n'. split; [exact E|]. split; [apply IH; split; [apply Mp|exact A']|]. split; [exact Mp|]. apply ewb_iff. exact Ew.
Qed.

Lemma times_end cg m : static cg -> mem_ok cg m ->
  exists k, (k <= Again_proofs.ones m)%nat /\ times cg (S k) m = times cg k m.
Proof.
  intros Hs Hm.
  assert (H : forall j, (exists k, (k < j)%nat /\ times cg (S k) m = times cg k m) \/ (Again_proofs.ones (times cg j m) + j <= Again_proofs.ones m)%nat).
  { induction j as [|j [[k [L E]]|H]]; [right; cbn [times]; lia|left; exists k; split; [lia|exact E]|].
    pose proof (times_ok cg j m Hs Hm) as Hj. destruct (at_once_facts cg _ Hs Hj) as [Hj' [Sb _]].
    destruct (ones_sub (times cg j m) (at_once cg (times cg j m))) as [E|L].
    - apply (sub_length cg); assumption.
    - exact Sb.
    - left. exists j. split; [lia|exact E].
    - right. cbn [times]. lia. }
  destruct (H (S (Again_proofs.ones m))) as [[k [L E]]|X]; [exists k; split; [lia|exact E]|lia].
Qed.

Lemma frugal_end cg : wf_cgraph cg ->
  exists k, N.of_nat k <= width (right (G cg)) * height (right (G cg)) * levels (G cg) /\ frugal_ends cg k.
Proof.
  intros Hc. pose proof (wf_static cg Hc) as Hs. pose proof (wfc_avail cg Hc) as Hm. fold (mem_ok cg (cg_avail cg)) in Hm.
  destruct (times_end cg _ Hs Hm) as [k [L E]]. exists k. split.
  - pose proof (ones_length (cg_avail cg)). unfold mem_ok, len in Hm. lia.
  - intros n F. apply frugal_times; [exact Hc|]. rewrite E. apply frugal_times; assumption.
Qed.

Lemma frugal_documented_ends cg k : frugal_ends cg k -> documented_ends cg (S (2 * k)).
Proof.
  intros E.
  assert (X : forall j n, fst (documented cg (2 * k)) n -> fst (documented cg j) n).
  { intros j n D. apply frugal_documented, lasting_frugal, (frugal_limit cg k n E), documented_frugal. exact D. }
  split.
  - intros n D. apply X. apply documented_pred. exact D.
  - intros e D. cbn [documented snd] in D. destruct D as [D [B1 B2]].
    cbn [documented snd fst] in *. split; [split; [exact D|auto]|]. split.
    + apply (X (S (2 * k))). exact B1.
    + apply (X (S (2 * k))). exact B2.
Qed.
Lemma documented_frugal_ends cg k : documented_ends cg k -> frugal_ends cg k.
Proof. intros E n F. apply lasting_frugal. apply (documented_limit cg k n E). apply frugal_documented. exact F. Qed.
Lemma ends_both cg k :
  (frugal_ends cg k -> documented_ends cg (S (2 * k))) /\ (documented_ends cg k -> frugal_ends cg k).
Proof. split; [apply frugal_documented_ends|apply documented_frugal_ends]. Qed.

Lemma documented_end cg : wf_cgraph cg ->
  exists k, N.of_nat k <= 2 * (width (right (G cg)) * height (right (G cg)) * levels (G cg)) + 1 /\ documented_ends cg k.
Proof.
  intros Hc. destruct (frugal_end cg Hc) as [k [L E]]. exists (S (2 * k)). split; [lia|]. apply frugal_documented_ends. exact E.
Qed.

(** *** The solver of the host *)

Lemma spread cg K : support cg K -> forall k p q, in_image (G cg) p -> in_image (G cg) q ->
  (N.to_nat (px p - px q) + N.to_nat (px q - px p) + N.to_nat (py p - py q) + N.to_nat (py q - py p) <= k)%nat ->
  (exists n, K n /\ npix n = p) -> exists n, K n /\ npix n = q.
Proof.
  intros HK. assert (Step : forall p r, in_image (G cg) r -> adjacent p r ->
    (exists n, K n /\ npix n = p) -> exists n, K n /\ npix n = r).
  { intros p r Hr A [n [Kn <-]]. destruct (HK n Kn) as [_ S]. destruct (S r Hr A) as [n' [E [Kn' _]]]. exists n'. auto. }
  induction k as [|k IH]; intros p q Hp Hq D Ex.
  - destruct p as [x y], q as [x' y']. cbn [px py] in *. assert (x = x') by lia. assert (y = y') by lia. subst. exact Ex.
  - destruct p as [x y], q as [x' y']. unfold in_image in Hp, Hq. cbn [px py] in *.
    destruct (N.lt_trichotomy x x') as [Lx|[->|Lx]]; [| |].
    + assert (Hr : in_image (G cg) {| px := x + 1; py := y |}) by (unfold in_image; cbn [px py]; lia).
      apply (IH {| px := x + 1; py := y |}); try assumption; unfold in_image; cbn [px py]; try lia.
      apply (Step {| px := x; py := y |}); [exact Hr| |exact Ex]. left. split; reflexivity.
    + destruct (N.lt_trichotomy y y') as [Ly|[->|Ly]]; [| |].
      * assert (Hr : in_image (G cg) {| px := x'; py := y + 1 |}) by (unfold in_image; cbn [px py]; lia).
        apply (IH {| px := x'; py := y + 1 |}); try assumption; unfold in_image; cbn [px py]; try lia.
        apply (Step {| px := x'; py := y |}); [exact Hr| |exact Ex]. right; right; left. split; reflexivity.
      * exact Ex.
      * assert (Hr : in_image (G cg) {| px := x'; py := y - 1 |}) by (unfold in_image; cbn [px py]; lia).
        apply (IH {| px := x'; py := y - 1 |}); try assumption; unfold in_image; cbn [px py]; try lia.
        apply (Step {| px := x'; py := y |}); [exact Hr| |exact Ex]. right; right; right. split; cbn [px py]; lia.
    + assert (Hr : in_image (G cg) {| px := x - 1; py := y |}) by (unfold in_image; cbn [px py]; lia).
      apply (IH {| px := x - 1; py := y |}); try assumption; unfold in_image; cbn [px py]; try lia.
      apply (Step {| px := x; py := y |}); [exact Hr| |exact Ex]. right; left. split; cbn [px py]; lia.
Qed.

Lemma support_total cg K n : support cg K -> K n -> total cg K.
Proof.
  intros HK Kn q Hq. destruct (HK n Kn) as [M _].
  apply (spread cg K HK _ (npix n) q (proj1 M) Hq (Nat.le_refl _)). exists n. auto.
Qed.

Lemma holds_solved cg K m n : static cg -> mem_ok cg m -> support cg K -> K n -> holds cg K m ->
  fst (solved cg m) = true /\ holds cg K (snd (solved cg m)).
Proof.
  intros Hs Hm HK Kn Hh.
  destruct (holds_sweep cg K (raster cg) m Hs Hm (raster_ok cg) HK (support_total cg K n HK Kn) Hh) as [A B].
  unfold solved. rewrite A. auto.
Qed.
Lemma holds_again cg K j m n : static cg -> mem_ok cg m -> support cg K -> K n -> holds cg K m ->
  fst (again cg j m) = true /\ holds cg K (snd (again cg j m)).
Proof.
  intros Hs Hm HK Kn. revert m Hm. induction j as [|j IH]; intros m Hm Hh; cbn [again]; [eapply holds_solved; eassumption|].
  apply IH; [apply solved_ok; exact Hm|]. eapply holds_solved; eassumption.
Qed.

Lemma arc_here cg K : static cg -> mem_ok cg (cg_avail cg) ->
  arc_consistent cg K <-> support cg K /\ holds cg K (cg_avail cg).
Proof. intros Hs Hm. pose proof (arc_support cg (cg_avail cg) K Hs Hm) as X. rewrite with_avail_same in X. exact X. Qed.

Lemma lasting_support cg n : wf_cgraph cg -> lasting cg n ->
  exists K, support cg K /\ holds cg K (cg_avail cg) /\ K n.
Proof.
  intros Hc [K [A Kn]]. pose proof (wf_static cg Hc) as Hs. pose proof (wfc_avail cg Hc) as Hm. fold (mem_ok cg (cg_avail cg)) in Hm.
  exists K. apply arc_here in A; [|assumption..]. tauto.
Qed.

Lemma again_lasting cg j : wf_cgraph cg -> width (right (G cg)) * height (right (G cg)) * levels (G cg) <= N.of_nat j ->
  exists b cg', solve_again j cg = Ok (b, cg') /\ same_problem cg cg' /\
    (forall n, match_exists (G cg) n -> (available cg' n <-> lasting cg n)) /\
    (b = true <-> exists n, lasting cg n).
Proof.
  intros Hc Hn. pose proof (wf_static cg Hc) as Hs. pose proof (wfc_avail cg Hc) as Hm.
  fold (mem_ok cg (cg_avail cg)) in Hm.
  pose proof (solve_again_eq cg j (cg_avail cg) Hs Hm) as E. rewrite with_avail_same in E. rewrite E.
  pose proof (again_ok cg j _ Hm) as Hm'.
  destruct (again_settles cg j (cg_avail cg) Hs Hm) as [E1 E2].
  { pose proof (ones_length (cg_avail cg)). unfold mem_ok, len in Hm. lia. }
  pose proof (again_sub cg j _ Hs Hm) as Sub. set (m' := snd (again cg j (cg_avail cg))) in *.
  assert (Back : forall n, match_exists (G cg) n -> avb cg m' n = true -> lasting cg n).
  { intros n M A. exists (fun n => match_exists (G cg) n /\ avb cg m' n = true). split; [|auto].
    apply arc_here; [assumption..|]. split.
    - apply quiet_support; [exact Hs|exact Hm'|]. intros x Mx. apply (solved_fixed cg m' Hs Hm' E1 x Mx).
    - intros x [_ Ax]. apply Sub. exact Ax. }
  eexists _, _. split; [reflexivity|]. split; [apply same_with; assumption|]. split.
  - intros n M. rewrite available_with by (try assumption; apply match_inb; exact M). split; [apply Back; exact M|].
    intros L. destruct (lasting_support cg n Hc L) as [K [HK [Hh Kn]]]. apply (holds_again cg K j _ n Hs Hm HK Kn Hh). exact Kn.
  - split.
    + intros B. rewrite E2 in B. destruct (solved_facts cg m' Hs Hm' B) as [_ [_ [H _]]].
      specialize (H _ (origin_in cg Hs)). apply hasb_iff in H; [|exact Hs|apply origin_in; exact Hs].
      destruct H as [n [M [_ A]]]. rewrite E1 in A. exists n. apply Back; assumption.
    + intros [n L]. destruct (lasting_support cg n Hc L) as [K [HK [Hh Kn]]]. apply (holds_again cg K j _ n Hs Hm HK Kn Hh).
Qed.

(** One call. *)
Lemma one_call cg b cg' n : wf_cgraph cg -> exec solve_csp cg = Ok (b, cg') -> match_exists (G cg) n ->
  (lasting cg n -> b = true /\ available cg' n) /\ (available cg' n -> frugal cg 1 n).
Proof.
  intros Hc E M. pose proof (wf_static cg Hc) as Hs. pose proof (wfc_avail cg Hc) as Hm. fold (mem_ok cg (cg_avail cg)) in Hm.
  rewrite (exec_solve_csp cg Hc) in E. injection E as Eb Ec. subst cg'. pose proof (solved_ok cg _ Hm) as Hm'. split.
  - intros L. destruct (lasting_support cg n Hc L) as [K [HK [Hh Kn]]].
    destruct (holds_solved cg K _ n Hs Hm HK Kn Hh) as [A B]. split; [congruence|].
    apply available_with; [assumption..|apply match_inb; exact M|apply B; exact Kn].
  - intros A. apply available_with in A; [|assumption..|apply match_inb; exact M].
    cbn [frugal]. split.
    + split; [exact M|]. apply available_iff; [exact Hc|apply match_inb; exact M|]. apply (solved_sub cg _ Hs Hm). exact A.
    + intros q Q Ad. destruct (fst (solved cg (cg_avail cg))) eqn:F.
      * destruct (solved_facts cg _ Hs Hm F) as [_ [_ [_ S]]]. destruct (S n q M A Q Ad) as [n' [E' [A' [Mp Ew]]]].
        exists n'. split; [exact E'|]. split; [|split; [exact Mp|apply ewb_iff; exact Ew]].
        split; [apply Mp|]. apply available_iff; [exact Hc|apply match_inb; apply Mp|exact A'].
      * unfold solved in F, A. destruct (fst (sweep cg (raster cg) (cg_avail cg))); [discriminate|]. cbn [snd] in A.
        unfold avb in A. rewrite bit_fill_false in A. discriminate.
Qed.

(** Devices. *)
Lemma device_lasting cg a v f m' f' : wf_cgraph cg -> orderly a v ->
  propagate cg a true (b_kind v) (b_partition v) (cg_avail cg) f m' f' ->
  forall n, match_exists (G cg) n -> (available (with_avail cg m') n <-> lasting cg n).
Proof.
  intros Hc Or Pr n M. pose proof (wf_static cg Hc) as Hs. pose proof (wfc_avail cg Hc) as Hm.
  fold (mem_ok cg (cg_avail cg)) in Hm. destruct (propagate_sub cg a true _ _ Hs _ f m' f' Hm Pr) as [Hm' Sub].
  pose proof (settles_orderly cg a v Hs Or _ f m' f' Hm Pr) as St.
  destruct (device_propagation cg Hc a true _ _ f m' f' Pr) as [_ [_ [_ [Kp _]]]]. split.
  - intros A. apply available_with in A; [|assumption..|apply match_inb; exact M].
    exists (fun n => match_exists (G cg) n /\ avb cg m' n = true). split; [|auto].
    apply arc_here; [assumption..|]. split.
    + apply quiet_support; [exact Hs|exact Hm'|]. apply (settled_iff cg m' Hs Hm'). exact St.
    + intros x [_ Ax]. apply Sub. exact Ax.
  - intros [K [A Kn]]. exact (Kp K n A Kn).
Qed.

(** Markers of edges follow from those of nodes. *)
Lemma documented_edges cg k e :
  snd (documented cg (S k)) e <-> edge_ok cg e /\ fst (documented cg k) (enode e) /\ fst (documented cg k) (enbr e).
Proof.
  induction k as [|k IH].
  - cbn [documented fst snd]. tauto.
  - split.
    + intros D. split; [eapply documented_edge; exact D|]. cbn [documented snd] in D. exact (proj2 D).
    + intros [Ok' [B1 B2]]. change (snd (documented cg (S k)) e /\ fst (documented cg (S k)) (enode e) /\ fst (documented cg (S k)) (enbr e)).
      split; [|split; assumption]. apply IH. split; [exact Ok'|]. split; apply documented_pred; assumption.
Qed.

Lemma steps cg k n :
  (frugal cg k n -> fst (documented cg k) n) /\ (fst (documented cg (2 * k)) n -> frugal cg k n).
Proof. split; [apply frugal_documented|apply documented_frugal]. Qed.

(** If all matches are available at first, the second iteration changes no node. *)
Lemma second_iteration cg n : (forall x, match_exists (G cg) x -> available cg x) ->
  fst (documented cg 1) n -> fst (documented cg 2) n.
Proof.
  intros All D. change (fst (documented cg 1) n /\ forall q, in_image (G cg) q -> adjacent (npix n) q ->
    exists n', npix n' = q /\ snd (documented cg 1) {| enode := n; enbr := n' |}).
  split; [exact D|]. intros q Q Ad. cbn [documented fst snd] in D. destruct D as [_ S]. destruct (S q Q Ad) as [n' [E A]].
  exists n'. split; [exact E|]. apply documented_edges. cbn [documented fst enode enbr].
  pose proof (proj1 (proj1 A)) as M1. pose proof (proj1 (proj2 (proj1 A))) as M2. cbn [enode enbr] in M1, M2.
  refine (conj A (conj (conj M1 (All n M1)) (conj M2 (All n' M2)))).
Qed.

Lemma same_result cg k j n : frugal_ends cg k -> documented_ends cg j ->
  (frugal cg k n <-> fst (documented cg j) n).
Proof. intros Hf Hd. rewrite (frugal_limit cg k n Hf), (documented_limit cg j n Hd). reflexivity. Qed.

Lemma documented_decides (HL : laws T) (HO : order_laws T) cg k : plain_problem cg -> documented_ends cg k ->
  ((exists n, fst (documented cg k) n) <-> exists l, solution cg l).
Proof.
  intros Hp Hd. pose proof (pp_wf cg Hp) as Hc.
  set (j := N.to_nat (width (right (G cg)) * height (right (G cg)) * levels (G cg))).
  assert (B : width (right (G cg)) * height (right (G cg)) * levels (G cg) <= N.of_nat j) by (unfold j; lia).
  destruct (again_decides HL HO cg j Hp B) as [b [cg' [E [_ [_ [D _]]]]]].
  destruct (again_lasting cg j Hc B) as [b' [cg'' [E' [_ [_ D']]]]]. rewrite E in E'. injection E' as <- <-.
  rewrite <- D, D'. split; intros [n H]; exists n; apply (documented_limit cg k n Hd); exact H.
Qed.
End Graph.
