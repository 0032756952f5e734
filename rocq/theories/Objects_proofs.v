(** Owners of images are counted correctly. *)
From Coq Require Import Lia.
From Verif Require Import Base_proofs Objects_spec.
Local Open Scope N_scope.

Definition hold (p : option nat) (a : nat) : N := match p with Some b => if Nat.eqb b a then 1 else 0 | None => 0 end.
Definition holdv (v : option (option nat)) (a : nat) : N := match v with Some p => hold p a | None => 0 end.
Fixpoint count (l : list (option (option nat))) (a : nat) : N :=
  match l with [] => 0 | v :: r => holdv v a + count r a end.

Lemma count_holders m a : holders m a = count (vars m) a.
Proof.
  unfold holders. induction (vars m) as [|v l IH]; [reflexivity|]. cbn [filter count].
  destruct v as [[b|]|]; cbn [holdv hold]; [destruct (Nat.eqb b a)|..]; rewrite ?len_cons; lia.
Qed.
Lemma count_app l v a : count (l ++ [v]) a = count l a + holdv v a.
Proof. induction l as [|u l IH]; cbn [app count]; [lia|]. rewrite IH. lia. Qed.
Lemma count_upd l x v0 v a : nth_error l x = Some v0 -> count (upd l x v) a + holdv v0 a = count l a + holdv v a.
Proof.
  revert x; induction l as [|u l IH]; intros [|x] E; cbn [nth_error upd count] in *; try discriminate.
  - injection E as ->. lia.
  - specialize (IH x E). lia.
Qed.
Lemma count_held l x a : nth_error l x = Some (Some (Some a)) -> 1 <= count l a.
Proof.
  revert x; induction l as [|u l IH]; intros [|x] E; cbn [nth_error count] in *; try discriminate.
  - injection E as ->. cbn [holdv hold]. rewrite Nat.eqb_refl. lia.
  - specialize (IH x E). lia.
Qed.

Lemma nth_upd {A} (l : list A) i j v : nth_error (upd l i v) j = if Nat.eqb j i then match nth_error l i with Some _ => Some v | None => None end else nth_error l j.
Proof.
  revert i j; induction l as [|x l IH]; intros i j.
  - destruct i, j; cbn [upd nth_error Nat.eqb]; try reflexivity. destruct (Nat.eqb j i); reflexivity.
  - destruct i as [|i], j as [|j]; cbn [upd nth_error Nat.eqb]; try reflexivity. apply IH.
Qed.
Lemma length_upd {A} (l : list A) i v : length (upd l i v) = length l.
Proof. revert i; induction l as [|x l IH]; intros [|i]; cbn [upd length]; [reflexivity..|]. rewrite IH. reflexivity. Qed.
Lemma nth_ext {A} (l l' : list A) : (forall i, nth_error l i = nth_error l' i) -> l = l'.
Proof.
  revert l'; induction l as [|x l IH]; intros [|y l'] H; [reflexivity|specialize (H 0%nat); discriminate..|].
  pose proof (H 0%nat) as H0. cbn [nth_error] in H0. injection H0 as ->. f_equal. apply IH. intros i. exact (H (S i)).
Qed.
Lemma upd_self {A} (l : list A) i v : nth_error l i = Some v -> upd l i v = l.
Proof. intros E. apply nth_ext. intros j. rewrite nth_upd. destruct (Nat.eqb_spec j i) as [->|_]; [rewrite E|]; reflexivity. Qed.
Lemma upd_upd {A} (l : list A) i v v' : upd (upd l i v) i v' = upd l i v'.
Proof. apply nth_ext. intros j. rewrite !nth_upd. rewrite Nat.eqb_refl. destruct (Nat.eqb j i); [|reflexivity]. destruct (nth_error l i); reflexivity. Qed.

(** *** Cells and counts *)

Definition counted (h : cells) (imgs : list image) (cnt : nat -> N) : Prop :=
  length h = length imgs /\
  forall a, match nth_error h a with
            | Some (Some c) => owners c = cnt a /\ 1 <= cnt a /\ nth_error imgs a = Some (content c)
            | _ => cnt a = 0
            end.

Lemma counted_ext h imgs cnt cnt' : counted h imgs cnt -> (forall a, cnt' a = cnt a) -> counted h imgs cnt'.
Proof. intros [L C] E. split; [exact L|]. intros a. rewrite E. exact (C a). Qed.

Lemma counted_at h imgs cnt a : counted h imgs cnt -> 1 <= cnt a ->
  exists c, at_cell h a = Ok c /\ nth_error h a = Some (Some c) /\ owners c = cnt a /\ nth_error imgs a = Some (content c).
Proof.
  intros [_ C] H. specialize (C a). unfold at_cell. destruct (nth_error h a) as [[c|]|]; [|lia..].
  exists c. repeat split; apply C.
Qed.

Lemma counted_set h imgs cnt cnt' a c v : counted h imgs cnt -> nth_error h a = Some (Some c) ->
  (forall b, b <> a -> cnt' b = cnt b) ->
  match v with Some c' => owners c' = cnt' a /\ 1 <= cnt' a /\ content c' = content c | None => cnt' a = 0 end ->
  counted (set_cell h a v) imgs cnt'.
Proof.
  intros [L C] E O V. unfold set_cell. split; [rewrite length_upd; exact L|]. intros b. rewrite nth_upd.
  destruct (Nat.eqb_spec b a) as [->|N]; [|rewrite (O b N); exact (C b)].
  rewrite E. specialize (C a). rewrite E in C. destruct v as [c'|]; [|exact V].
  destruct V as [V1 [V2 V3]]. rewrite V3. repeat split; [exact V1|exact V2|apply C].
Qed.

Lemma retain_counted h imgs cnt p : counted h imgs cnt -> (forall a, p = Some a -> 1 <= cnt a) ->
  exists h', retain h p = Ok h' /\ counted h' imgs (fun a => cnt a + hold p a).
Proof.
  intros C H. destruct p as [a|]; cbn [retain].
  - destruct (counted_at h imgs cnt a C (H a eq_refl)) as [c [E [E1 [E2 E3]]]]. rewrite E. cbn [bind].
    eexists. split; [reflexivity|]. eapply counted_set; [exact C|exact E1|..].
    + intros b N. cbn [hold]. destruct (Nat.eqb_spec a b) as [->|_]; [contradiction|lia].
    + cbn [owners content hold]. rewrite Nat.eqb_refl. repeat split; lia.
  - exists h. split; [reflexivity|]. eapply counted_ext; [exact C|]. intros a. cbv beta. cbn [hold]. lia.
Qed.

Lemma release_counted h imgs cnt p : counted h imgs cnt -> (forall a, p = Some a -> 1 <= cnt a) ->
  exists h', release h p = Ok h' /\ counted h' imgs (fun a => cnt a - hold p a).
Proof.
  intros C H. destruct p as [a|]; cbn [release].
  - destruct (counted_at h imgs cnt a C (H a eq_refl)) as [c [E [E1 [E2 E3]]]]. rewrite E. cbn [bind].
    eexists. split; [reflexivity|]. pose proof (H a eq_refl). eapply counted_set; [exact C|exact E1|..].
    + intros b N. cbn [hold]. destruct (Nat.eqb_spec a b) as [->|_]; [contradiction|lia].
    + cbn [hold]. rewrite Nat.eqb_refl. destruct (N.eqb_spec (owners c) 1); cbn [owners content]; [lia|repeat split; lia].
  - exists h. split; [reflexivity|]. eapply counted_ext; [exact C|]. intros a. cbv beta. cbn [hold]. lia.
Qed.

Lemma alter_counted h imgs cnt a c img : counted h imgs cnt -> nth_error h a = Some (Some c) ->
  counted (set_cell h a (Some {| owners := owners c; content := img |})) (upd imgs a img) cnt.
Proof.
  intros [L C] E. unfold set_cell. split; [rewrite !length_upd; exact L|]. intros b. rewrite !nth_upd.
  pose proof (C a) as Ca. rewrite E in Ca. destruct (Nat.eqb_spec b a) as [->|N]; [|exact (C b)].
  rewrite E. destruct Ca as [A [B D]]. rewrite D. cbn [owners content]. auto.
Qed.

Lemma make_counted h imgs cnt img : counted h imgs cnt ->
  counted (h ++ [Some {| owners := 1; content := img |}]) (imgs ++ [img]) (fun a => cnt a + hold (Some (length h)) a).
Proof.
  intros [L C]. split; [rewrite !app_length, L; reflexivity|]. intros a. cbn [hold].
  destruct (Nat.lt_ge_cases a (length h)) as [Lt|Ge].
  - rewrite !nth_error_app1 by lia. destruct (Nat.eqb_spec (length h) a); [lia|]. rewrite N.add_0_r. exact (C a).
  - specialize (C a). rewrite (proj2 (nth_error_None h a)) in C by exact Ge.
    rewrite !nth_error_app2 by lia. rewrite L in *. destruct (Nat.eqb_spec (length imgs) a) as [<-|N].
    + rewrite Nat.sub_diag. cbn [nth_error owners content]. rewrite C. repeat split; lia.
    + destruct (a - length imgs)%nat as [|k] eqn:K; [lia|]. cbn [nth_error]. destruct k; cbn [nth_error]; lia.
Qed.

(** *** The ideal *)

Lemma set_eq w w' x v0 v : nth_error (stands w) x = Some v0 ->
  (variable_set w w' x v <-> w' = {| images := images w; stands := upd (stands w) x v |}).
Proof.
  intros E. split.
  - intros [A [L [X O]]]. destruct w' as [i s]. cbn [images stands] in *. subst i. f_equal. apply nth_ext. intros y. rewrite nth_upd.
    destruct (Nat.eqb_spec y x) as [->|N]; [rewrite E; exact X|exact (O y N)].
  - intros ->. split; [reflexivity|]. cbn [images stands]. split; [apply length_upd|]. split.
    + rewrite nth_upd, Nat.eqb_refl, E. reflexivity.
    + intros y N. rewrite nth_upd. destruct (Nat.eqb_spec y x); [contradiction|reflexivity].
Qed.
Lemma image_eq w w' a i0 img : nth_error (images w) a = Some i0 ->
  (image_set w w' a img <-> w' = {| images := upd (images w) a img; stands := stands w |}).
Proof.
  intros E. split.
  - intros [A [L [X O]]]. destruct w' as [i s]. cbn [images stands] in *. subst s. f_equal. apply nth_ext. intros y. rewrite nth_upd.
    destruct (Nat.eqb_spec y a) as [->|N]; [rewrite E; exact X|exact (O y N)].
  - intros ->. split; [reflexivity|]. cbn [images stands]. split; [apply length_upd|]. split.
    + rewrite nth_upd, Nat.eqb_refl, E. reflexivity.
    + intros y N. rewrite nth_upd. destruct (Nat.eqb_spec y a); [contradiction|reflexivity].
Qed.
Lemma made_eq w w' v : variable_made w w' v <-> w' = {| images := images w; stands := stands w ++ [Some v] |}.
Proof. split; [intros [A B]; destruct w' as [i s]; cbn [images stands] in *; subst; reflexivity|intros ->; split; reflexivity]. Qed.
Lemma new_eq w w' img : image_made w w' img <-> w' = {| images := images w ++ [img]; stands := stands w |}.
Proof. split; [intros [A B]; destruct w' as [i s]; cbn [images stands] in *; subst; reflexivity|intros ->; split; reflexivity]. Qed.

Definition related (m : memory) (w : ideal) : Prop :=
  vars m = stands w /\ counted (cells_of m) (images w) (count (vars m)).

Lemma value_stands m w x p : related m w -> (value m x = Ok p <-> stands_for w x p).
Proof.
  intros [E _]. unfold value, stands_for. rewrite <- E. destruct (nth_error (vars m) x) as [[q|]|]; split; intros X; try discriminate.
  - injection X as ->. reflexivity.
  - injection X as ->. reflexivity.
Qed.
Lemma value_nth m x p : value m x = Ok p -> nth_error (vars m) x = Some (Some p).
Proof. unfold value. destruct (nth_error (vars m) x) as [[q|]|]; intros X; try discriminate. injection X as ->. reflexivity. Qed.
Lemma value_held m x p : value m x = Ok p -> forall a, p = Some a -> 1 <= count (vars m) a.
Proof. intros E a ->. eapply count_held. apply value_nth. exact E. Qed.

(** Every statement, if its variables have values. *)
Lemma do_declare m w : related m w ->
  exists m', default_constructor m = Ok m' /\ related m' {| images := images w; stands := stands w ++ [Some None] |}.
Proof.
  intros [E C]. eexists. split; [reflexivity|]. split; cbn [declare vars cells_of stands images]; [rewrite E; reflexivity|].
  eapply counted_ext; [exact C|]. intros a. cbv beta. rewrite count_app. cbn [holdv hold]. lia.
Qed.
Lemma do_make m w img : related m w ->
  exists m', make_shared m img = Ok m' /\
    related m' {| images := images w ++ [img]; stands := stands w ++ [Some (Some (length (images w)))] |} /\
    nth_error (vars m') (length (vars m)) = Some (Some (Some (length (images w)))).
Proof.
  intros [E C]. pose proof (proj1 C) as L. eexists. split; [reflexivity|]. split; [split|]; cbn [declare vars cells_of stands images].
  - rewrite E, L. reflexivity.
  - eapply counted_ext; [apply make_counted; exact C|]. intros a. cbv beta. rewrite count_app. cbn [holdv]. reflexivity.
  - rewrite nth_error_app2, Nat.sub_diag by lia. cbn [nth_error]. rewrite L. reflexivity.
Qed.
Lemma do_copy m w y p : related m w -> value m y = Ok p ->
  exists m', copy_constructor m y = Ok m' /\ related m' {| images := images w; stands := stands w ++ [Some p] |}.
Proof.
  intros [E C] V. unfold copy_constructor. rewrite V. cbn [bind].
  destruct (retain_counted _ _ _ p C (value_held m y p V)) as [h [-> C']]. cbn [bind].
  eexists. split; [reflexivity|]. split; cbn [declare vars cells_of stands images]; [rewrite E; reflexivity|].
  eapply counted_ext; [exact C'|]. intros a. cbv beta. rewrite count_app. reflexivity.
Qed.
Lemma do_construct m w y p : related m w -> value m y = Ok p ->
  exists m', constructor m y = Ok m' /\ related m' {| images := images w; stands := stands w ++ [Some p] |}.
Proof.
  intros R V. destruct (do_copy m w y p R V) as [m' [E X]]. exists m'. split; [|exact X]. rewrite <- E.
  unfold constructor, copy_constructor. rewrite V. cbn [bind]. destruct (retain (cells_of m) p); reflexivity.
Qed.
Lemma do_move m w y p : related m w -> value m y = Ok p ->
  exists m', move_constructor m y = Ok m' /\
    related m' {| images := images w; stands := upd (stands w) y (Some None) ++ [Some p] |}.
Proof.
  intros [E C] V. unfold move_constructor. rewrite V. cbn [bind].
  eexists. split; [reflexivity|]. split; cbn [declare store vars cells_of stands images]; [rewrite E; reflexivity|].
  eapply counted_ext; [exact C|]. intros a. cbv beta. rewrite count_app.
  pose proof (count_upd _ _ _ (Some None) a (value_nth m y p V)) as X. cbn [holdv hold] in *. lia.
Qed.
Lemma do_assign m w x y p q : related m w -> value m x = Ok q -> value m y = Ok p ->
  exists m', copy_assignment m x y = Ok m' /\ related m' {| images := images w; stands := upd (stands w) x (Some p) |}.
Proof.
  intros [E C] Vx V. unfold copy_assignment. rewrite Vx, V. cbn [bind].
  destruct (retain_counted _ _ _ p C (value_held m y p V)) as [h [-> C']]. cbn [bind].
  assert (H : forall a, q = Some a -> 1 <= count (vars m) a + hold p a).
  { intros a ->. pose proof (value_held m x _ Vx a eq_refl). lia. }
  destruct (release_counted h _ _ q C' H) as [h' [-> C'']]. cbn [bind].
  eexists. split; [reflexivity|]. split; cbn [store vars cells_of stands images]; [rewrite E; reflexivity|].
  eapply counted_ext; [exact C''|]. intros a. cbv beta.
  pose proof (count_upd _ _ _ (Some p) a (value_nth m x q Vx)) as X. cbn [holdv] in X. lia.
Qed.
Lemma do_move_assign m w x y p q : related m w -> value m x = Ok q -> value m y = Ok p ->
  exists m', move_assignment m x y = Ok m' /\
    related m' {| images := images w; stands := upd (upd (stands w) y (Some None)) x (Some p) |}.
Proof.
  intros [E C] Vx V. unfold move_assignment. rewrite Vx, V. cbn [bind].
  pose proof (value_nth m x q Vx) as Nx. pose proof (value_nth m y p V) as Ny.
  set (q' := if Nat.eqb x y then None else q).
  assert (Nx' : nth_error (upd (vars m) y (Some None)) x = Some (Some q')).
  { rewrite nth_upd, Ny. unfold q'. destruct (Nat.eqb x y); [reflexivity|exact Nx]. }
  unfold value at 1. cbn [store vars]. rewrite Nx'. cbn [bind store cells_of vars].
  set (l := upd (upd (vars m) y (Some None)) x (Some p)).
  assert (K : forall a, count (vars m) a = count l a + hold q' a).
  { intros a. pose proof (count_upd _ _ _ (Some None) a Ny) as X1. pose proof (count_upd _ _ _ (Some p) a Nx') as X2.
    fold l in X2. cbn [holdv] in *. change (hold None a) with 0 in *. lia. }
  assert (H : forall a, q' = Some a -> 1 <= count (vars m) a).
  { intros a Q. rewrite K, Q. cbn [hold]. rewrite Nat.eqb_refl. lia. }
  destruct (release_counted _ _ _ q' C H) as [h' [-> C']]. cbn [bind].
  eexists. split; [reflexivity|]. split; cbn [vars cells_of stands images]; [unfold l; rewrite E; reflexivity|].
  eapply counted_ext; [exact C'|]. intros a. cbv beta. specialize (K a). lia.
Qed.
Lemma do_destroy m w x p : related m w -> value m x = Ok p ->
  exists m', destructor m x = Ok m' /\ related m' {| images := images w; stands := upd (stands w) x None |}.
Proof.
  intros [E C] V. unfold destructor. rewrite V. cbn [bind].
  destruct (release_counted _ _ _ p C (value_held m x p V)) as [h [-> C']]. cbn [bind].
  eexists. split; [reflexivity|]. split; cbn [store vars cells_of stands images]; [rewrite E; reflexivity|].
  eapply counted_ext; [exact C'|]. intros a. cbv beta.
  pose proof (count_upd _ _ _ None a (value_nth m x p V)) as X. cbn [holdv] in X. lia.
Qed.
Lemma do_alter m w x a img : related m w -> value m x = Ok (Some a) ->
  exists m' i0, alter m x img = Ok m' /\ nth_error (images w) a = Some i0 /\
    related m' {| images := upd (images w) a img; stands := stands w |}.
Proof.
  intros [E C] V. unfold alter. rewrite V. cbn [bind].
  destruct (counted_at _ _ _ a C (value_held m x _ V a eq_refl)) as [c [-> [N1 [_ N2]]]]. cbn [bind].
  eexists _, _. split; [reflexivity|]. split; [exact N2|]. split; cbn [vars cells_of stands images]; [exact E|].
  apply alter_counted; assumption.
Qed.

(** The end of the local variable of [operator>>]. *)
Lemma leave_ok m w p l : related m w -> vars m = l ++ [Some p] ->
  exists m', (m <- destructor m (length l) ;; Ok {| cells_of := cells_of m; vars := firstn (length l) (vars m) |}) = Ok m' /\
    related m' {| images := images w; stands := l |}.
Proof.
  intros R E. assert (V : value m (length l) = Ok p).
  { unfold value. rewrite E, nth_error_app2, Nat.sub_diag by lia. reflexivity. }
  destruct (do_destroy m w _ p R V) as [m1 [-> [E1 C1]]]. cbn [bind]. cbn [stands images] in *.
  assert (U : upd (stands w) (length l) None = l ++ [None]).
  { rewrite <- (proj1 R), E. clear. induction l as [|v l IH]; cbn [app length upd]; [reflexivity|]. rewrite IH. reflexivity. }
  rewrite U in E1. eexists. split; [reflexivity|]. rewrite E1 in *.
  rewrite firstn_app, Nat.sub_diag, firstn_all, app_nil_r. split; cbn [vars cells_of stands images]; [reflexivity|].
  eapply counted_ext; [exact C1|]. intros a. cbv beta. rewrite count_app. cbn [holdv]. lia.
Qed.

Lemma upd_app {A} (l : list A) x v u : (x < length l)%nat -> upd (l ++ [u]) x v = upd l x v ++ [u].
Proof.
  revert x; induction l as [|y l IH]; intros x L; cbn [length] in L; [lia|].
  destruct x as [|x]; cbn [app upd]; [reflexivity|]. rewrite IH by lia. reflexivity.
Qed.
Lemma upd_last {A} (l : list A) u v : upd (l ++ [u]) (length l) v = l ++ [v].
Proof. induction l as [|y l IH]; cbn [app length upd]; [reflexivity|]. rewrite IH. reflexivity. Qed.

Lemma do_input m w x q t : related m w -> value m x = Ok q ->
  match read_image (opened t) None with
  | Ok (s, Some img) => exists m', input m x t = Ok (m', Read_to s) /\
      related m' {| images := images w ++ [img]; stands := upd (stands w) x (Some (Some (length (images w)))) |}
  | Ok (s, None) => exists m' img, input m x t = Ok (m', Read_to s) /\ related m' {| images := images w ++ [img]; stands := stands w |}
  | Stop (Throw e) => exists m' img, input m x t = Ok (m', Threw e) /\ related m' {| images := images w ++ [img]; stands := stands w |}
  | Stop s => input m x t = Stop s
  end.
Proof.
  intros R V. unfold input. rewrite V. cbn [bind].
  pose proof (proj1 R) as E. set (blank := {| width := 0; height := 0; max_value := 0; data := [] |}).
  destruct (do_make m w blank R) as [m1 [-> [R1 N1]]]. cbn [bind].
  assert (E1 : vars m1 = vars m ++ [Some (Some (length (images w)))]) by (rewrite E; exact (proj1 R1)).
  destruct (leave_ok m1 _ _ (vars m) R1 E1) as [ml [Lm Rm]]. cbn [images] in Rm. rewrite E in Rm.
  destruct (read_image (opened t) None) as [[s [img|]]|[e| |]]; try reflexivity.
  - assert (V1 : value m1 (length (vars m)) = Ok (Some (length (images w)))) by (unfold value; rewrite N1; reflexivity).
    destruct (do_alter m1 _ _ _ img R1 V1) as [m2 [i0 [-> [_ R2]]]]. cbn [bind images stands] in *.
    rewrite upd_last in R2.
    assert (E2 : vars m2 = vars m ++ [Some (Some (length (images w)))]) by (rewrite E; exact (proj1 R2)).
    pose proof (value_nth m x q V) as Nx. assert (Lx : (x < length (vars m))%nat) by (apply nth_error_Some; rewrite Nx; discriminate).
    assert (V2 : value m2 x = Ok q) by (unfold value; rewrite E2, nth_error_app1 by exact Lx; rewrite Nx; reflexivity).
    assert (V3 : value m2 (length (vars m)) = Ok (Some (length (images w)))).
    { unfold value. rewrite E2, nth_error_app2, Nat.sub_diag by lia. reflexivity. }
    destruct (do_assign m2 _ _ _ _ _ R2 V2 V3) as [m3 [E3 R3]]. unfold set_image. rewrite E3. cbn [bind images stands] in *.
    rewrite upd_app in R3 by (rewrite <- E; exact Lx).
    assert (E4 : vars m3 = upd (vars m) x (Some (Some (length (images w)))) ++ [Some (Some (length (images w)))])
      by (rewrite E; exact (proj1 R3)).
    destruct (leave_ok m3 _ _ _ R3 E4) as [m4 [L4 R4]]. rewrite length_upd in L4. rewrite L4. cbn [bind images] in *.
    rewrite E in R4. exists m4. split; [reflexivity|exact R4].
  - rewrite Lm. cbn [bind]. exists ml, blank. split; [reflexivity|exact Rm].
  - rewrite Lm. cbn [bind]. exists ml, blank. split; [reflexivity|exact Rm].
Qed.

Lemma memory_eq m : {| cells_of := cells_of m; vars := vars m |} = m. Proof. destruct m. reflexivity. Qed.

Lemma at_set h a c c' : nth_error h a = Some (Some c) -> at_cell (set_cell h a (Some c')) a = Ok c'.
Proof. intros E. unfold at_cell, set_cell. rewrite nth_upd, Nat.eqb_refl, E. reflexivity. Qed.
Lemma retain_cell h a c : nth_error h a = Some (Some c) ->
  retain h (Some a) = Ok (set_cell h a (Some {| owners := owners c + 1; content := content c |})).
Proof. intros E. unfold retain, at_cell. rewrite E. reflexivity. Qed.
Lemma release_retained h a c : nth_error h a = Some (Some c) -> 1 <= owners c ->
  release (set_cell h a (Some {| owners := owners c + 1; content := content c |})) (Some a) = Ok h.
Proof.
  intros E O. unfold release. rewrite (at_set _ _ _ _ E). cbn [bind owners content].
  destruct (N.eqb_spec (owners c + 1) 1); [lia|]. unfold set_cell. rewrite upd_upd.
  replace (owners c + 1 - 1) with (owners c) by lia. destruct c as [o i]. cbn [owners content] in *.
  rewrite upd_self by exact E. reflexivity.
Qed.

Lemma write_stops img s : image_valid cpu img = Stop s -> write_image [] (Some img) = Stop s.
Proof. intros E. unfold write_image. rewrite E. reflexivity. Qed.
Lemma write_none img : image_valid cpu img = Ok false -> write_image [] (Some img) = Ok [].
Proof. intros E. unfold write_image. rewrite E. reflexivity. Qed.

Lemma do_output m w x p : related m w -> value m x = Ok p ->
  match p with
  | None => output m x = Ok (m, Written [])
  | Some a => exists img, nth_error (images w) a = Some img /\ seen m x = Some img /\
      output m x = (t <- write_image [] (Some img) ;; Ok (m, Written t))
  end.
Proof.
  intros [E C] V. unfold output. rewrite V. cbn [bind]. destruct p as [a|]; [|reflexivity].
  destruct (counted_at _ _ _ a C (value_held m x _ V a eq_refl)) as [c [_ [N1 [O N2]]]].
  pose proof (value_held m x _ V a eq_refl) as H. rewrite <- O in H.
  exists (content c). split; [exact N2|]. split; [unfold seen; rewrite (value_nth m x _ V), N1; reflexivity|].
  rewrite (retain_cell _ _ _ N1). cbn [bind].
  set (c1 := {| owners := owners c + 1; content := content c |}). set (h1 := set_cell (cells_of m) a (Some c1)).
  assert (N3 : nth_error h1 a = Some (Some c1)) by (unfold h1, set_cell; rewrite nth_upd, Nat.eqb_refl, N1; reflexivity).
  rewrite (retain_cell h1 a c1 N3). cbn [bind]. rewrite (at_set _ _ _ _ N3). cbn [bind].
  change (content {| owners := owners c1 + 1; content := content c1 |}) with (content c).
  destruct (image_valid cpu (content c)) as [v|s] eqn:IV; cbn [bind]; [|rewrite write_stops with (s := s) by exact IV; reflexivity].
  rewrite (release_retained h1 a c1 N3) by (cbn [c1 owners]; lia). cbn [bind]. unfold h1 at 1, c1 at 1.
  rewrite (release_retained _ a c N1 H). cbn [bind].
  destruct v; cbn [negb]; [|rewrite write_none by exact IV; rewrite memory_eq; reflexivity].
  rewrite (retain_cell _ _ _ N1). cbn [bind]. rewrite (at_set _ _ _ _ N1). cbn [bind content].
  destruct (write_image [] (Some (content c))) as [t|s]; cbn [bind]; [|reflexivity].
  rewrite (release_retained _ a c N1 H). cbn [bind]. rewrite memory_eq. reflexivity.
Qed.

(** An image without owner may be any. *)
Lemma spare m m' w img img' : related m w ->
  related m' {| images := images w ++ [img]; stands := stands w |} ->
  related m' {| images := images w ++ [img']; stands := stands w |}.
Proof.
  intros [E C] [E' [L' C']]. cbn [images stands] in *. split; [exact E'|]. cbn [images]. split.
  - rewrite app_length in *. exact L'.
  - intros a. specialize (C' a). destruct (nth_error (cells_of m') a) as [[c|]|]; [|exact C'..].
    destruct C' as [A [B D]]. split; [exact A|]. split; [exact B|].
    destruct (Nat.lt_ge_cases a (length (images w))) as [Lt|Ge]; [rewrite nth_error_app1 in * by exact Lt; exact D|].
    exfalso. destruct C as [L C]. specialize (C a). rewrite (proj2 (nth_error_None _ a)) in C by lia.
    rewrite E', <- E in B. lia.
Qed.

Lemma upd_some {A} (l : list A) x v0 y v : nth_error l x = Some v0 -> exists v1, nth_error (upd l y v) x = Some v1.
Proof. intros E. rewrite nth_upd. destruct (Nat.eqb_spec x y) as [->|_]; [rewrite E|]; eauto. Qed.

Lemma silent_Ok o m e : silent o = Ok (m, e) -> o = Ok m /\ e = Silent.
Proof. unfold silent. destruct o; cbn [bind]; intros X; [injection X as -> ->; auto|discriminate]. Qed.

Ltac both := match goal with
  | A : ?o = Ok ?m, B : ?o = Ok ?m' |- _ => rewrite A in B; injection B as <-
  end.

Lemma values2 m x y (k : option nat -> option nat -> outcome memory) m' :
  (q <- value m x ;; p <- value m y ;; k q p) = Ok m' -> exists q p, value m x = Ok q /\ value m y = Ok p.
Proof.
  destruct (value m x) as [q|]; cbn [bind]; [|discriminate]. destruct (value m y) as [p|]; cbn [bind]; [|discriminate].
  intros _. exists q, p. auto.
Qed.

Lemma execute_means m w s m' e : related m w -> execute m s = Ok (m', e) ->
  exists w', means w s w' e /\ related m' w'.
Proof.
  intros R X. destruct s as [|img|y|y|y|x y|x y|x y|y|x img|x t|x|x]; cbn [execute] in X;
    try (apply silent_Ok in X; destruct X as [X ->]).
  - destruct (do_declare m w R) as [m1 [A B]]. both. eexists. split; [|exact B]. apply means_declare, made_eq. reflexivity.
  - destruct (do_make m w img R) as [m1 [A [B _]]]. both. eexists. split; [|exact B].
    eapply means_make; [apply new_eq; reflexivity|apply made_eq; reflexivity].
  - destruct (value m y) as [p|] eqn:V; [|unfold copy_constructor in X; rewrite V in X; discriminate].
    destruct (do_copy m w y p R V) as [m1 [A B]]. both. eexists. split; [|exact B].
    eapply means_copy; [left; reflexivity|apply (value_stands m w y p R); exact V|apply made_eq; reflexivity].
  - destruct (value m y) as [p|] eqn:V; [|unfold move_constructor in X; rewrite V in X; discriminate].
    destruct (do_move m w y p R V) as [m1 [A B]]. both. eexists. split; [|exact B].
    pose proof (proj1 (value_stands m w y p R) V) as S.
    eapply means_move; [exact S|eapply set_eq; [exact S|reflexivity]|apply made_eq; reflexivity].
  - destruct (value m y) as [p|] eqn:V; [|unfold constructor in X; rewrite V in X; discriminate].
    destruct (do_construct m w y p R V) as [m1 [A B]]. both. eexists. split; [|exact B].
    eapply means_copy; [right; left; reflexivity|apply (value_stands m w y p R); exact V|apply made_eq; reflexivity].
  - destruct (values2 _ _ _ _ _ X) as [q [p [Vq Vp]]].
    destruct (do_assign m w x y p q R Vq Vp) as [m1 [A B]]. both. eexists. split; [|exact B].
    pose proof (proj1 (value_stands m w x q R) Vq) as Sq. pose proof (proj1 (value_stands m w y p R) Vp) as Sp.
    eapply means_assign; [left; reflexivity|exact Sq|exact Sp|eapply set_eq; [exact Sq|reflexivity]].
  - destruct (values2 _ _ _ _ _ X) as [q [p [Vq Vp]]].
    destruct (do_move_assign m w x y p q R Vq Vp) as [m1 [A B]]. both. eexists. split; [|exact B].
    pose proof (proj1 (value_stands m w x q R) Vq) as Sq. pose proof (proj1 (value_stands m w y p R) Vp) as Sp.
    destruct (upd_some _ _ _ y (Some None) Sq) as [v1 Sq'].
    eapply means_move_assign; [exact Sq|exact Sp|eapply set_eq; [exact Sp|reflexivity]|].
    eapply set_eq; [exact Sq'|reflexivity].
  - destruct (values2 _ _ _ _ _ X) as [q [p [Vq Vp]]].
    destruct (do_assign m w x y p q R Vq Vp) as [m1 [A B]]. unfold set_image in X. both. eexists. split; [|exact B].
    pose proof (proj1 (value_stands m w x q R) Vq) as Sq. pose proof (proj1 (value_stands m w y p R) Vp) as Sp.
    eapply means_assign; [right; reflexivity|exact Sq|exact Sp|eapply set_eq; [exact Sq|reflexivity]].
  - unfold get_image in X. destruct (value m y) as [p|] eqn:V; [|unfold copy_constructor in X; rewrite V in X; discriminate].
    destruct (do_copy m w y p R V) as [m1 [A B]]. both. eexists. split; [|exact B].
    eapply means_copy; [right; right; reflexivity|apply (value_stands m w y p R); exact V|apply made_eq; reflexivity].
  - destruct (value m x) as [[a|]|] eqn:V; [|unfold alter in X; rewrite V in X; discriminate..].
    destruct (do_alter m w x a img R V) as [m1 [i0 [A [N B]]]]. both. eexists. split; [|exact B].
    eapply means_alter; [apply (value_stands m w x _ R); exact V|eapply image_eq; [exact N|reflexivity]].
  - destruct (value m x) as [q|] eqn:V; [|unfold input in X; rewrite V in X; discriminate].
    pose proof (do_input m w x q t R V) as I. pose proof (proj1 (value_stands m w x q R) V) as S.
    destruct (read_image (opened t) None) as [[s [img|]]|[ex| |]] eqn:RI.
    + destruct I as [m1 [A B]]. rewrite A in X. injection X as <- <-. eexists. split; [|exact B].
      eapply means_read; [exact S|exact RI|apply new_eq; reflexivity|eapply set_eq; [exact S|reflexivity]].
    + destruct I as [m1 [img [A B]]]. rewrite A in X. injection X as <- <-. eexists. split; [|exact B].
      eapply means_fail; [exact S|exact RI|apply new_eq; reflexivity].
    + destruct I as [m1 [img [A B]]]. rewrite A in X. injection X as <- <-. eexists. split; [|exact B].
      eapply means_throw; [exact S|exact RI|apply new_eq; reflexivity].
    + rewrite I in X. discriminate.
    + rewrite I in X. discriminate.
  - destruct (value m x) as [p|] eqn:V; [|unfold output in X; rewrite V in X; discriminate].
    pose proof (do_output m w x p R V) as I. pose proof (proj1 (value_stands m w x p R) V) as S. destruct p as [a|].
    + destruct I as [img [N [_ A]]]. rewrite A in X. destruct (write_image [] (Some img)) as [t|] eqn:W; [|discriminate].
      cbn [bind] in X. injection X as <- <-. exists w. split; [|exact R]. eapply means_write; eassumption.
    + rewrite I in X. injection X as <- <-. exists w. split; [|exact R]. apply means_empty. exact S.
  - destruct (value m x) as [p|] eqn:V; [|unfold destructor in X; rewrite V in X; discriminate].
    destruct (do_destroy m w x p R V) as [m1 [A B]]. both. eexists. split; [|exact B].
    pose proof (proj1 (value_stands m w x p R) V) as S.
    eapply means_destroy; [exact S|eapply set_eq; [exact S|reflexivity]].
Qed.

Lemma means_execute m w s w' e : related m w -> means w s w' e ->
  exists m', execute m s = Ok (m', e) /\ related m' w'.
Proof.
  intros R M. destruct M as [w w' H|w w1 w' img H1 H2|w w' y p s Hs S H|w w1 w' y p S H1 H2|w w' x y p q s Hs Sq Sp H
    |w w1 w' x y p q Sq Sp H1 H2|w w' x a img S H|w w' x p S H|w w1 w' x q t s img S RI H1 H2|w w' x q t s img S RI H
    |w w' x q t ex img S RI H|w x S|w x a img t S N W].
  - apply made_eq in H. subst w'. destruct (do_declare m w R) as [m1 [A B]]. exists m1. cbn [execute]. rewrite A. auto.
  - apply new_eq in H1. subst w1. apply made_eq in H2. subst w'. destruct (do_make m w img R) as [m1 [A [B _]]].
    exists m1. cbn [execute]. rewrite A. auto.
  - apply made_eq in H. subst w'. apply (value_stands m w y p R) in S.
    destruct (do_copy m w y p R S) as [m1 [A B]]. destruct (do_construct m w y p R S) as [m2 [A' B']].
    destruct Hs as [-> | [-> | -> ]]; cbn [execute]; unfold get_image; [exists m1|exists m2|exists m1]; rewrite ?A, ?A'; auto.
  - apply (set_eq _ _ _ _ _ S) in H1. subst w1. apply made_eq in H2. subst w'. apply (value_stands m w y p R) in S.
    destruct (do_move m w y p R S) as [m1 [A B]]. exists m1. cbn [execute]. rewrite A. auto.
  - apply (set_eq _ _ _ _ _ Sq) in H. subst w'. apply (value_stands m w _ _ R) in Sq. apply (value_stands m w _ _ R) in Sp.
    destruct (do_assign m w x y p q R Sq Sp) as [m1 [A B]]. exists m1.
    destruct Hs as [-> | -> ]; cbn [execute]; unfold set_image; rewrite A; auto.
  - apply (set_eq _ _ _ _ _ Sp) in H1. subst w1. destruct (upd_some _ _ _ y (Some None) Sq) as [v1 Sq'].
    apply (set_eq {| images := images w; stands := upd (stands w) y (Some None) |} w' x v1 _ Sq') in H2. subst w'. apply (value_stands m w _ _ R) in Sq. apply (value_stands m w _ _ R) in Sp.
    destruct (do_move_assign m w x y p q R Sq Sp) as [m1 [A B]]. exists m1. cbn [execute]. rewrite A. auto.
  - apply (value_stands m w _ _ R) in S. destruct (do_alter m w x a img R S) as [m1 [i0 [A [N B]]]].
    apply (image_eq _ _ _ _ _ N) in H. subst w'. exists m1. cbn [execute]. rewrite A. auto.
  - apply (set_eq _ _ _ _ _ S) in H. subst w'. apply (value_stands m w _ _ R) in S.
    destruct (do_destroy m w x p R S) as [m1 [A B]]. exists m1. cbn [execute]. rewrite A. auto.
  - apply new_eq in H1. subst w1. apply (set_eq {| images := images w ++ [img]; stands := stands w |} w' x _ _ S) in H2. subst w'.
    apply (value_stands m w _ _ R) in S. pose proof (do_input m w x q t R S) as I. rewrite RI in I.
    destruct I as [m1 [A B]]. exists m1. cbn [execute]. auto.
  - apply new_eq in H. subst w'. apply (value_stands m w _ _ R) in S. pose proof (do_input m w x q t R S) as I. rewrite RI in I.
    destruct I as [m1 [i [A B]]]. exists m1. cbn [execute]. split; [exact A|]. eapply spare; eassumption.
  - apply new_eq in H. subst w'. apply (value_stands m w _ _ R) in S. pose proof (do_input m w x q t R S) as I. rewrite RI in I.
    destruct I as [m1 [i [A B]]]. exists m1. cbn [execute]. split; [exact A|]. eapply spare; eassumption.
  - apply (value_stands m w _ _ R) in S. pose proof (do_output m w x _ R S) as I. cbn iota in I. exists m. auto.
  - apply (value_stands m w _ _ R) in S. pose proof (do_output m w x _ R S) as I. cbn iota in I.
    destruct I as [i [N' [_ A]]]. rewrite N in N'. injection N' as <-. exists m. cbn [execute]. rewrite A, W. auto.
Qed.

Lemma related_nothing : related nothing no_ideal.
Proof. split; [reflexivity|]. split; [reflexivity|]. intros a. cbn [nothing cells_of]. destruct a; reflexivity. Qed.

Lemma executes_meaning p m w m' es : related m w -> executes m p = Ok (m', es) ->
  exists w', meaning w p w' es /\ related m' w'.
Proof.
  revert m w es. induction p as [|s p IH]; intros m w es R X; cbn [executes] in X.
  - injection X as <- <-. exists w. split; [apply meaning_none|exact R].
  - destruct (execute m s) as [[m1 e]|] eqn:E; cbn [bind fst snd] in X; [|discriminate].
    destruct (executes m1 p) as [[m2 es2]|] eqn:E2; cbn [bind fst snd] in X; [|discriminate]. injection X as <- <-.
    destruct (execute_means m w s m1 e R E) as [w1 [M1 R1]]. destruct (IH m1 w1 es2 R1 E2) as [w2 [M2 R2]].
    exists w2. split; [eapply meaning_more; eassumption|exact R2].
Qed.
Lemma meaning_executes p m w w' es : related m w -> meaning w p w' es ->
  exists m', executes m p = Ok (m', es) /\ related m' w'.
Proof.
  intros R M. revert m R. induction M as [w|w s w1 e p w' es M _ IH]; intros m R.
  - exists m. split; [reflexivity|exact R].
  - destruct (means_execute m w s w1 e R M) as [m1 [E R1]]. destruct (IH m1 R1) as [m2 [E2 R2]].
    exists m2. split; [|exact R2]. cbn [executes]. rewrite E. cbn [bind fst snd]. rewrite E2. reflexivity.
Qed.

(** *** What follows *)

Lemma arises_related m : arises m -> exists w, related m w.
Proof.
  intros [p [es X]]. destruct (executes_meaning p nothing no_ideal m es related_nothing X) as [w [_ R]]. exists w. exact R.
Qed.
Lemma arises_step m s m' e : arises m -> execute m s = Ok (m', e) -> arises m'.
Proof.
  intros [p [es X]] E. exists (p ++ [s]), (es ++ [e]). revert es X. generalize nothing.
  induction p as [|s0 p IH]; intros m0 es X; cbn [app executes] in *.
  - injection X as -> <-. rewrite E. reflexivity.
  - destruct (execute m0 s0) as [[m1 e1]|]; cbn [bind fst snd] in *; [|discriminate].
    destruct (executes m1 p) as [[m2 es2]|] eqn:E2; cbn [bind fst snd] in X; [|discriminate]. injection X as -> <-.
    rewrite (IH m1 es2 E2). reflexivity.
Qed.

Lemma related_seen m w x : related m w ->
  seen m x = match nth_error (stands w) x with Some (Some (Some a)) => nth_error (images w) a | _ => None end.
Proof.
  intros [E C]. unfold seen. rewrite <- E. destruct (nth_error (vars m) x) as [[[a|]|]|] eqn:N; try reflexivity.
  destruct (counted_at _ _ _ a C (count_held _ _ _ N)) as [c [_ [-> [_ ->]]]]. reflexivity.
Qed.

Lemma as_if p m es : executes nothing p = Ok (m, es) ->
  exists w, meaning no_ideal p w es /\ vars m = stands w /\
    forall x, seen m x = match nth_error (stands w) x with Some (Some (Some a)) => nth_error (images w) a | _ => None end.
Proof.
  intros X. destruct (executes_meaning p nothing no_ideal m es related_nothing X) as [w [M R]].
  exists w. split; [exact M|]. split; [exact (proj1 R)|]. intros x. apply related_seen. exact R.
Qed.
Lemma as_ideal p w es : meaning no_ideal p w es -> exists m, executes nothing p = Ok (m, es).
Proof. intros M. destruct (meaning_executes p nothing no_ideal w es related_nothing M) as [m [X _]]. exists m. exact X. Qed.

Lemma always_accounted m : arises m -> accounted m.
Proof.
  intros A. destruct (arises_related m A) as [w [_ [_ C]]]. intros a. specialize (C a). rewrite count_holders.
  destruct (nth_error (cells_of m) a) as [[c|]|]; [|exact C..]. split; apply C.
Qed.

Lemma count_none l : (forall x p, nth_error l x <> Some (Some (Some p))) -> forall a, count l a = 0.
Proof.
  induction l as [|v l IH]; intros H a; [reflexivity|]. cbn [count]. rewrite IH by (intros x p; exact (H (S x) p)).
  destruct v as [[b|]|]; try reflexivity. exfalso. exact (H 0%nat b eq_refl).
Qed.
Lemma no_leak m a : arises m -> (forall x b, nth_error (vars m) x <> Some (Some (Some b))) ->
  nth_error (cells_of m) a = None \/ nth_error (cells_of m) a = Some None.
Proof.
  intros A H. pose proof (always_accounted m A a) as X. rewrite count_holders, (count_none _ H) in X.
  destruct (nth_error (cells_of m) a) as [[c|]|]; [lia|auto..].
Qed.

Lemma live_value m x : live m x -> exists p, value m x = Ok p.
Proof. intros [p E]. exists p. unfold value. rewrite E. reflexivity. Qed.

Lemma no_dangling m s : arises m -> Forall (live m) (uses s) ->
  match s with Alter x _ => seen m x <> None | _ => True end ->
  match execute m s with
  | Ok _ => True
  | Stop o => match s with
              | Input _ t => read_image (opened t) None = Stop o
              | Output x => exists img, seen m x = Some img /\ write_image [] (Some img) = Stop o
              | _ => False
              end
  end.
Proof.
  intros A L H. destruct (arises_related m A) as [w R].
  destruct s as [|img|y|y|y|x y|x y|x y|y|x img|x t|x|x]; cbn [uses] in L; cbn [execute];
    repeat match goal with X : Forall _ (_ :: _) |- _ => inversion_clear X end;
    repeat match goal with X : live _ _ |- _ => apply live_value in X; destruct X as [? X] end.
  - destruct (do_declare m w R) as [m1 [E _]]. rewrite E. exact I.
  - exact I.
  - edestruct (do_copy m w y) as [m1 [E _]]; [eassumption..|]. rewrite E. exact I.
  - edestruct (do_move m w y) as [m1 [E _]]; [eassumption..|]. rewrite E. exact I.
  - edestruct (do_construct m w y) as [m1 [E _]]; [eassumption..|]. rewrite E. exact I.
  - edestruct (do_assign m w x y) as [m1 [E _]]; [eassumption..|]. rewrite E. exact I.
  - edestruct (do_move_assign m w x y) as [m1 [E _]]; [eassumption..|]. rewrite E. exact I.
  - unfold set_image. edestruct (do_assign m w x y) as [m1 [E _]]; [eassumption..|]. rewrite E. exact I.
  - unfold get_image. edestruct (do_copy m w y) as [m1 [E _]]; [eassumption..|]. rewrite E. exact I.
  - match goal with X : value m x = Ok ?p |- _ => rename X into V; rename p into q end.
    destruct q as [a|].
    + destruct (do_alter m w x a img R V) as [m1 [i0 [E _]]]. rewrite E. exact I.
    + exfalso. apply H. unfold seen. rewrite (value_nth m x _ V). reflexivity.
  - match goal with X : value m x = Ok ?p |- _ => rename X into V; rename p into q end.
    pose proof (do_input m w x q t R V) as X. destruct (read_image (opened t) None) as [[s [img|]]|[ex| |]].
    + destruct X as [m1 [E _]]. rewrite E. exact I.
    + destruct X as [m1 [i [E _]]]. rewrite E. exact I.
    + destruct X as [m1 [i [E _]]]. rewrite E. exact I.
    + rewrite X. reflexivity.
    + rewrite X. reflexivity.
  - match goal with X : value m x = Ok ?p |- _ => rename X into V; rename p into q end.
    pose proof (do_output m w x q R V) as X. destruct q as [a|].
    + destruct X as [img [_ [S E]]]. rewrite E. destruct (write_image [] (Some img)) as [t|o] eqn:W; cbn [bind]; [exact I|].
      exists img. auto.
    + rewrite X. exact I.
  - edestruct (do_destroy m w x) as [m1 [E _]]; [eassumption..|]. rewrite E. exact I.
Qed.

Lemma old_seen w img x : forall (l : list (option (option nat))),
  (forall a, nth_error l x = Some (Some (Some a)) -> exists i, nth_error (images w) a = Some i) ->
  match nth_error l x with Some (Some (Some a)) => nth_error (images w ++ [img]) a | _ => None end =
  match nth_error l x with Some (Some (Some a)) => nth_error (images w) a | _ => None end.
Proof.
  intros l H. destruct (nth_error l x) as [[[a|]|]|]; try reflexivity. destruct (H a eq_refl) as [i E].
  apply nth_error_app1. apply nth_error_Some. rewrite E. discriminate.
Qed.
Lemma owned_image m w x a : related m w -> nth_error (stands w) x = Some (Some (Some a)) -> exists i, nth_error (images w) a = Some i.
Proof.
  intros [E C] N. rewrite <- E in N. destruct (counted_at _ _ _ a C (count_held _ _ _ N)) as [c [_ [_ [_ X]]]]. eauto.
Qed.
Lemma owned_below m w x a : related m w -> nth_error (stands w) x = Some (Some (Some a)) -> (a < length (images w))%nat.
Proof. intros R N. destruct (owned_image m w x a R N) as [i E]. apply nth_error_Some. rewrite E. discriminate. Qed.

Lemma reading m x t m' e : arises m -> execute m (Input x t) = Ok (m', e) ->
  match read_image (opened t) None with
  | Ok (s, Some img) =>
      e = Read_to s /\ seen m' x = Some img /\ forall y, y <> x -> ~ together m' x y /\ seen m' y = seen m y /\ (live m' y <-> live m y)
  | Ok (s, None) => e = Read_to s /\ vars m' = vars m /\ forall y, seen m' y = seen m y
  | Stop (Throw ex) => e = Threw ex /\ vars m' = vars m /\ forall y, seen m' y = seen m y
  | Stop _ => False
  end.
Proof.
  intros A X. destruct (arises_related m A) as [w R]. cbn [execute] in X.
  destruct (value m x) as [q|] eqn:V; [|unfold input in X; rewrite V in X; discriminate].
  pose proof (do_input m w x q t R V) as I. pose proof (proj1 (value_stands m w x q R) V) as S.
  assert (K : forall img m1, related m1 {| images := images w ++ [img]; stands := stands w |} ->
    vars m1 = vars m /\ forall y, seen m1 y = seen m y).
  { intros img m1 B. split; [rewrite (proj1 B); symmetry; exact (proj1 R)|]. intros y.
    rewrite (related_seen _ _ y B), (related_seen _ _ y R). cbn [images stands]. apply old_seen. intros a N. eapply owned_image; eassumption. }
  destruct (read_image (opened t) None) as [[s [img|]]|[ex| |]].
  - destruct I as [m1 [E B]]. rewrite E in X. injection X as <- <-. split; [reflexivity|].
    assert (Nx : nth_error (upd (stands w) x (Some (Some (length (images w))))) x = Some (Some (Some (length (images w))))).
    { rewrite nth_upd, Nat.eqb_refl. unfold stands_for in S. rewrite S. reflexivity. }
    split.
    + rewrite (related_seen _ _ x B). cbn [images stands]. rewrite Nx, nth_error_app2, Nat.sub_diag by lia. reflexivity.
    + intros y N.
      assert (Ny : nth_error (upd (stands w) x (Some (Some (length (images w))))) y = nth_error (stands w) y).
      { rewrite nth_upd. destruct (Nat.eqb_spec y x); [contradiction|reflexivity]. }
      split; [|split].
      * intros [a [T1 T2]]. rewrite (proj1 B) in T1, T2. cbn [stands] in T1, T2. rewrite Nx in T1. rewrite Ny in T2.
        injection T1 as <-. pose proof (owned_below m w y _ R T2). lia.
      * rewrite (related_seen _ _ y B), (related_seen _ _ y R). cbn [images stands]. rewrite Ny.
        apply old_seen. intros a N'. eapply owned_image; eassumption.
      * unfold live. rewrite (proj1 B), (proj1 R). cbn [stands]. rewrite Ny. reflexivity.
  - destruct I as [m1 [img [E B]]]. rewrite E in X. injection X as <- <-. split; [reflexivity|]. exact (K img m1 B).
  - destruct I as [m1 [img [E B]]]. rewrite E in X. injection X as <- <-. split; [reflexivity|]. exact (K img m1 B).
  - rewrite I in X. discriminate.
  - rewrite I in X. discriminate.
Qed.

Lemma writing m x m' e : arises m -> execute m (Output x) = Ok (m', e) ->
  m' = m /\
  match seen m x with
  | Some img => exists t, write_image [] (Some img) = Ok t /\ e = Written t
  | None => e = Written []
  end.
Proof.
  intros A X. destruct (arises_related m A) as [w R]. cbn [execute] in X.
  destruct (value m x) as [p|] eqn:V; [|unfold output in X; rewrite V in X; discriminate].
  pose proof (do_output m w x p R V) as I. destruct p as [a|].
  - destruct I as [img [_ [S E]]]. rewrite S. rewrite E in X.
    destruct (write_image [] (Some img)) as [t|]; cbn [bind] in X; [|discriminate]. injection X as <- <-. split; [reflexivity|].
    exists t. auto.
  - rewrite I in X. injection X as <- <-. split; [reflexivity|]. unfold seen. rewrite (value_nth m x _ V). reflexivity.
Qed.

Lemma altering m x img m' e : arises m -> execute m (Alter x img) = Ok (m', e) ->
  e = Silent /\ vars m' = vars m /\
  forall y, (together m x y -> seen m' y = Some img) /\ (~ together m x y -> seen m' y = seen m y).
Proof.
  intros A X. destruct (arises_related m A) as [w R]. cbn [execute] in X. apply silent_Ok in X. destruct X as [X ->].
  destruct (value m x) as [[a|]|] eqn:V; [|unfold alter in X; rewrite V in X; discriminate..].
  destruct (do_alter m w x a img R V) as [m1 [i0 [E [N B]]]]. both. split; [reflexivity|].
  split; [rewrite (proj1 B); symmetry; exact (proj1 R)|]. intros y. rewrite (related_seen _ _ y B). cbn [images stands].
  pose proof (value_nth m x _ V) as Nx. split.
  - intros [b [T1 T2]]. rewrite Nx in T1. injection T1 as <-. rewrite <- (proj1 R), T2, nth_upd, Nat.eqb_refl, N. reflexivity.
  - intros T. rewrite (related_seen _ _ y R). destruct (nth_error (stands w) y) as [[[b|]|]|] eqn:Ny; try reflexivity.
    rewrite nth_upd. destruct (Nat.eqb_spec b a) as [->|_]; [|reflexivity]. exfalso. apply T. exists a. rewrite (proj1 R) at 2. auto.
Qed.

Lemma assigning m x y s m' e : arises m -> s = Assign x y \/ s = SetImage x y -> execute m s = Ok (m', e) ->
  e = Silent /\ nth_error (vars m') x = nth_error (vars m) y /\
  (forall z, z <> x -> nth_error (vars m') z = nth_error (vars m) z) /\
  seen m' x = seen m y /\ forall z, z <> x -> seen m' z = seen m z.
Proof.
  intros A Hs X. destruct (arises_related m A) as [w R].
  assert (X' : silent (copy_assignment m x y) = Ok (m', e)) by (destruct Hs as [-> | ->]; exact X). clear X Hs s.
  apply silent_Ok in X'. destruct X' as [X ->]. destruct (values2 _ _ _ _ _ X) as [q [p [Vq Vp]]].
  destruct (do_assign m w x y p q R Vq Vp) as [m1 [E B]]. both. split; [reflexivity|].
  pose proof (value_nth m x _ Vq) as Nx. pose proof (value_nth m y _ Vp) as Ny.
  assert (Hx : nth_error (vars m') x = nth_error (vars m) y).
  { rewrite (proj1 B). cbn [stands]. rewrite nth_upd, Nat.eqb_refl, <- (proj1 R), Nx. symmetry. exact Ny. }
  assert (Hz : forall z, z <> x -> nth_error (vars m') z = nth_error (vars m) z).
  { intros z Z. rewrite (proj1 B). cbn [stands]. rewrite nth_upd, <- (proj1 R). destruct (Nat.eqb_spec z x); [contradiction|reflexivity]. }
  split; [exact Hx|]. split; [exact Hz|]. split.
  - rewrite (related_seen _ _ x B), (related_seen _ _ y R). rewrite <- (proj1 B), <- (proj1 R), Hx. reflexivity.
  - intros z Z. rewrite (related_seen _ _ z B), (related_seen _ _ z R). rewrite <- (proj1 B), <- (proj1 R), (Hz z Z). reflexivity.
Qed.

Lemma destroying m x m' e : arises m -> execute m (Destroy x) = Ok (m', e) ->
  nth_error (vars m') x = Some None /\ forall z, z <> x -> nth_error (vars m') z = nth_error (vars m) z /\ seen m' z = seen m z.
Proof.
  intros A X. destruct (arises_related m A) as [w R]. cbn [execute] in X. apply silent_Ok in X. destruct X as [X ->].
  destruct (value m x) as [p|] eqn:V; [|unfold destructor in X; rewrite V in X; discriminate].
  destruct (do_destroy m w x p R V) as [m1 [E B]]. both. pose proof (value_nth m x _ V) as Nx. split.
  - rewrite (proj1 B). cbn [stands]. rewrite nth_upd, Nat.eqb_refl, <- (proj1 R), Nx. reflexivity.
  - intros z Z. assert (Hz : nth_error (vars m') z = nth_error (vars m) z).
    { rewrite (proj1 B). cbn [stands]. rewrite nth_upd, <- (proj1 R). destruct (Nat.eqb_spec z x); [contradiction|reflexivity]. }
    split; [exact Hz|]. rewrite (related_seen _ _ z B), (related_seen _ _ z R). rewrite <- (proj1 B), <- (proj1 R), Hz. reflexivity.
Qed.

(** *** The values of Pgm.v *)

Lemma read_any s io :
  read_image s io = (r <- read_image s None ;; Ok (fst r, match snd r with Some img => Some img | None => io end)).
Proof.
  unfold read_image. destruct (read_pgm_instruction s) as [r|]; cbn [bind]; [|reflexivity].
  destruct (negb _); [reflexivity|].
  destruct (read_number (snd r)) as [w|]; cbn [bind]; [|reflexivity]. destruct (fst w) as [wd|]; [|reflexivity].
  destruct (read_number (snd w)) as [h|]; cbn [bind]; [|reflexivity]. destruct (fst h) as [ht|]; [|reflexivity].
  destruct (read_number (snd h)) as [m|]; cbn [bind]; [|reflexivity]. destruct (fst m) as [mx|]; [|reflexivity].
  destruct (MAX_VALUE_LIMIT <? mx); [reflexivity|].
  destruct (alloc (umul cpu wd ht) 0) as [dat|]; cbn [bind]; [|reflexivity].
  destruct (read_pixels _ _ _) as [d|]; cbn [bind]; [|reflexivity]. destruct (fst d) as [img|]; [|reflexivity].
  destruct (check_file_end (snd d)); reflexivity.
Qed.

Lemma reading_value m x t m' e : arises m -> execute m (Input x t) = Ok (m', e) ->
  match e with
  | Read_to s => read_image (opened t) (seen m x) = Ok (s, seen m' x)
  | Threw ex => read_image (opened t) (seen m x) = Stop (Throw ex) /\ seen m' x = seen m x
  | _ => False
  end.
Proof.
  intros A X. pose proof (reading m x t m' e A X) as H. rewrite (read_any (opened t) (seen m x)).
  destruct (read_image (opened t) None) as [[s [img|]]|[ex| |]]; cbn [bind fst snd]; try contradiction.
  - destruct H as [-> [-> _]]. reflexivity.
  - destruct H as [-> [_ H]]. rewrite H. reflexivity.
  - destruct H as [-> [_ H]]. rewrite H. auto.
Qed.

Lemma making m s m' e : arises m -> execute m s = Ok (m', e) ->
  match s with
  | Declare => seen m' (length (vars m)) = None
  | MakeShared img => seen m' (length (vars m)) = Some img /\ forall y, y <> length (vars m) -> ~ together m' (length (vars m)) y
  | Copy y | Construct y | GetImage y =>
      nth_error (vars m') (length (vars m)) = nth_error (vars m) y /\ seen m' (length (vars m)) = seen m y
  | Move y => nth_error (vars m') (length (vars m)) = nth_error (vars m) y /\ seen m' (length (vars m)) = seen m y /\
      nth_error (vars m') y = Some (Some None)
  | _ => True
  end /\
  match s with
  | Declare | MakeShared _ | Copy _ | Construct _ | GetImage _ | Move _ =>
      e = Silent /\ length (vars m') = S (length (vars m)) /\
      forall z, (z < length (vars m))%nat -> s <> Move z -> nth_error (vars m') z = nth_error (vars m) z /\ seen m' z = seen m z
  | _ => True
  end.
Proof.
  intros A X. destruct (arises_related m A) as [w R].
  assert (K : forall p m1, related m1 {| images := images w; stands := stands w ++ [Some p] |} ->
    nth_error (vars m1) (length (vars m)) = Some (Some p) /\
    seen m1 (length (vars m)) = match p with Some a => nth_error (images w) a | None => None end /\
    length (vars m1) = S (length (vars m)) /\
    forall z, (z < length (vars m))%nat -> nth_error (vars m1) z = nth_error (vars m) z /\ seen m1 z = seen m z).
  { intros p m1 B. rewrite (related_seen _ _ _ B). pose proof (proj1 B) as E. cbn [stands images] in *.
    rewrite <- (proj1 R) in *. rewrite E. rewrite nth_error_app2, Nat.sub_diag by lia. cbn [nth_error].
    split; [reflexivity|]. split; [destruct p; reflexivity|]. split; [rewrite app_length; cbn [length]; lia|].
    intros z Z. rewrite (related_seen _ _ z B), (related_seen _ _ z R). cbn [stands images].
    rewrite <- (proj1 R). rewrite nth_error_app1 by exact Z. auto. }
  assert (Kc : forall y p, value m y = Ok p ->
    seen m y = match p with Some a => nth_error (images w) a | None => None end).
  { intros y p V. rewrite (related_seen _ _ y R), <- (proj1 R), (value_nth m y p V). reflexivity. }
  destruct s as [|img|y|y|y|x y|x y|x y|y|x img|x t|x|x]; cbn [execute] in X;
    try (split; exact I); apply silent_Ok in X; destruct X as [X ->].
  - destruct (do_declare m w R) as [m1 [E B]]. both. destruct (K _ _ B) as [K1 [K2 [K3 K4]]].
    split; [exact K2|]. split; [reflexivity|]. split; [exact K3|]. intros z Z _. exact (K4 z Z).
  - destruct (do_make m w img R) as [m1 [E [B N]]]. both. pose proof (proj1 B) as EB. cbn [stands images] in EB.
    rewrite <- (proj1 R) in EB.
    assert (Z0 : forall z, (z < length (vars m))%nat -> nth_error (vars m') z = nth_error (vars m) z).
    { intros z Z. rewrite EB. apply nth_error_app1. exact Z. }
    split; [split|].
    + unfold seen at 1. rewrite N. pose proof (related_seen _ _ (length (vars m)) B) as S. unfold seen in S. rewrite N in S.
      rewrite S. cbn [stands images]. rewrite <- (proj1 R), nth_error_app2, Nat.sub_diag by lia. cbn [nth_error].
      rewrite nth_error_app2, Nat.sub_diag by lia. reflexivity.
    + intros y Y [a [T1 T2]]. rewrite N in T1. injection T1 as <-.
      assert (Ly : (y < length (vars m'))%nat) by (apply nth_error_Some; rewrite T2; discriminate).
      rewrite EB, app_length in Ly. cbn [length] in Ly. rewrite Z0 in T2 by lia. rewrite (proj1 R) in T2.
      pose proof (owned_below m w y _ R T2). lia.
    + split; [reflexivity|]. split; [rewrite EB, app_length; cbn [length]; lia|]. intros z Z _. split; [exact (Z0 z Z)|].
      rewrite (related_seen _ _ z B), (related_seen _ _ z R). cbn [stands images].
      rewrite nth_error_app1 by (rewrite <- (proj1 R); exact Z). apply old_seen. intros a N'. eapply owned_image; eassumption.
  - destruct (value m y) as [p|] eqn:V; [|unfold copy_constructor in X; rewrite V in X; discriminate].
    destruct (do_copy m w y p R V) as [m1 [E B]]. both. destruct (K _ _ B) as [K1 [K2 [K3 K4]]]. rewrite (Kc y p V), (value_nth m y p V).
    split; [split; assumption|]. split; [reflexivity|]. split; [exact K3|]. intros z Z _. exact (K4 z Z).
  - destruct (value m y) as [p|] eqn:V; [|unfold move_constructor in X; rewrite V in X; discriminate].
    destruct (do_move m w y p R V) as [m1 [E B]]. both. pose proof (value_nth m y p V) as Ny.
    assert (Ly : (y < length (vars m))%nat) by (apply nth_error_Some; rewrite Ny; discriminate).
    pose proof (proj1 B) as EB. cbn [stands images] in EB. rewrite <- (proj1 R) in EB.
    assert (N1 : nth_error (vars m') (length (vars m)) = Some (Some p)).
    { rewrite EB, nth_error_app2 by (rewrite length_upd; lia). rewrite length_upd, Nat.sub_diag. reflexivity. }
    split; [split; [|split]|].
    + rewrite N1. symmetry. exact Ny.
    + rewrite (related_seen _ _ _ B), <- (proj1 B), N1. cbn [images]. symmetry. destruct p; exact (Kc y _ V).
    + rewrite EB, nth_error_app1 by (rewrite length_upd; exact Ly). rewrite nth_upd, Nat.eqb_refl, Ny. reflexivity.
    + split; [reflexivity|]. split; [rewrite EB, app_length, length_upd; cbn [length]; lia|]. intros z Z M.
      assert (Nz : nth_error (vars m') z = nth_error (vars m) z).
      { rewrite EB, nth_error_app1 by (rewrite length_upd; exact Z). rewrite nth_upd. destruct (Nat.eqb_spec z y) as [->|_]; [contradiction|reflexivity]. }
      split; [exact Nz|]. rewrite (related_seen _ _ z B), (related_seen _ _ z R), <- (proj1 B), <- (proj1 R), Nz. reflexivity.
  - destruct (value m y) as [p|] eqn:V; [|unfold constructor in X; rewrite V in X; discriminate].
    destruct (do_construct m w y p R V) as [m1 [E B]]. both. destruct (K _ _ B) as [K1 [K2 [K3 K4]]]. rewrite (Kc y p V), (value_nth m y p V).
    split; [split; assumption|]. split; [reflexivity|]. split; [exact K3|]. intros z Z _. exact (K4 z Z).
  - unfold get_image in X. destruct (value m y) as [p|] eqn:V; [|unfold copy_constructor in X; rewrite V in X; discriminate].
    destruct (do_copy m w y p R V) as [m1 [E B]]. both. destruct (K _ _ B) as [K1 [K2 [K3 K4]]]. rewrite (Kc y p V), (value_nth m y p V).
    split; [split; assumption|]. split; [reflexivity|]. split; [exact K3|]. intros z Z _. exact (K4 z Z).
Qed.

Lemma moving m x y m' e : arises m -> execute m (MoveAssign x y) = Ok (m', e) ->
  e = Silent /\ nth_error (vars m') x = nth_error (vars m) y /\ (x <> y -> nth_error (vars m') y = Some (Some None)) /\
  (forall z, z <> x -> z <> y -> nth_error (vars m') z = nth_error (vars m) z) /\
  seen m' x = seen m y /\ forall z, z <> x -> z <> y -> seen m' z = seen m z.
Proof.
  intros A X. destruct (arises_related m A) as [w R]. cbn [execute] in X. apply silent_Ok in X. destruct X as [X ->].
  destruct (values2 _ _ _ _ _ X) as [q [p [Vq Vp]]].
  destruct (do_move_assign m w x y p q R Vq Vp) as [m1 [E B]]. both. split; [reflexivity|].
  pose proof (value_nth m x _ Vq) as Nx. pose proof (value_nth m y _ Vp) as Ny.
  pose proof (proj1 B) as EB. cbn [stands images] in EB. rewrite <- (proj1 R) in EB.
  assert (Hx : nth_error (vars m') x = nth_error (vars m) y).
  { rewrite EB, nth_upd, Nat.eqb_refl. destruct (upd_some _ _ _ y (Some None) Nx) as [v ->]. symmetry. exact Ny. }
  assert (Hz : forall z, z <> x -> z <> y -> nth_error (vars m') z = nth_error (vars m) z).
  { intros z Z Z'. rewrite EB, !nth_upd. destruct (Nat.eqb_spec z x); [contradiction|]. destruct (Nat.eqb_spec z y); [contradiction|reflexivity]. }
  split; [exact Hx|]. split.
  - intros D. rewrite EB, !nth_upd. destruct (Nat.eqb_spec y x); [congruence|]. rewrite Nat.eqb_refl, Ny. reflexivity.
  - split; [exact Hz|]. split.
    + rewrite (related_seen _ _ x B), (related_seen _ _ y R), <- (proj1 B), <- (proj1 R), Hx. reflexivity.
    + intros z Z Z'. rewrite (related_seen _ _ z B), (related_seen _ _ z R), <- (proj1 B), <- (proj1 R), (Hz z Z Z'). reflexivity.
Qed.
