(** Threads on one availability array, with arbitrary interleavings, lost updates
    and stale loads: nodes that support each other are never removed. *)
From Verif Require Export Concur Solver_proofs.
Local Open Scope N_scope.

Lemma elem_bit m i : elem m i = bit m i.
Proof.
  unfold elem, bit, get. destruct (N.ltb_spec i (len m)) as [H|H].
  - destruct (nth_error m (N.to_nat i)) eqn:E; [apply nth_error_nth; exact E|].
    apply nth_error_None in E. unfold len in H. lia.
  - apply nth_overflow. unfold len in H. lia.
Qed.

Lemma len_store wb i b w m : len (store_word wb i b w m) = len m.
Proof. unfold store_word, len. rewrite map_length. fold (len (range 0 (len m))). 
  pose proof (len_range 0 (len m)) as E. unfold len in E |- *. lia. Qed.

Lemma bit_map_range (f : N -> bool) n j : bit (map f (range 0 n)) j = if j <? n then f j else false.
Proof.
  unfold bit. destruct (N.ltb_spec j n) as [H|H].
  - assert (L : j < len (map f (range 0 n))).
    { unfold len. rewrite map_length. fold (len (range 0 n)). rewrite len_range. lia. }
    unfold get. destruct (N.ltb_spec j (len (map f (range 0 n)))); [|lia].
    rewrite nth_error_map. 
    assert (E : get (range 0 n) j = Ok j).
    { pose proof (In_range 0 n j) as I. unfold range. 
      assert (X : forall m a k, N.of_nat k < N.of_nat m -> nth_error (seqN m a) k = Some (a + N.of_nat k)).
      { clear. induction m as [|m IH]; intros a k Hk; [lia|]. destruct k as [|k]; cbn [seqN nth_error].
        - f_equal. lia.
        - rewrite IH by lia. f_equal. lia. }
      unfold get. replace (j <? len (seqN (N.to_nat (n - 0)) 0)) with true.
      - rewrite X by lia. f_equal. lia.
      - symmetry. apply N.ltb_lt. fold (range 0 n). rewrite len_range. lia. }
    unfold get in E. destruct (j <? len (range 0 n)); [|discriminate].
    destruct (nth_error (range 0 n) (N.to_nat j)); [|discriminate]. injection E as ->. reflexivity.
  - rewrite get_oob; [reflexivity|]. unfold len. rewrite map_length. fold (len (range 0 n)). rewrite len_range. lia.
Qed.

Lemma bit_store wb i b w m j : bit (store_word wb i b w m) j =
  if j <? len m then if j / wb =? i / wb then if j =? i then b else bit w j else bit m j else false.
Proof. unfold store_word. rewrite bit_map_range, !elem_bit. reflexivity. Qed.

(** *** Programs that only clear elements outside a set *)

Inductive safe (K : N -> Prop) (n : N) {A} (Q : A -> Prop) : cmd A -> Prop :=
| safe_ret a : Q a -> safe K n Q (Ret a)
| safe_read i k : i < n -> (forall b, (K i -> b = true) -> safe K n Q (k b)) -> safe K n Q (Read i k)
| safe_write i k : i < n -> ~ K i -> safe K n Q k -> safe K n Q (Write i false k).

Section Safe.
Variables (K : N -> Prop) (n : N).

Lemma safe_mono {A} (Q Q' : A -> Prop) c : (forall a, Q a -> Q' a) -> safe K n Q c -> safe K n Q' c.
Proof.
  intros H S. induction S as [a Ha|i k Hi Hk IH|i k Hi Hk S IH]; constructor; auto.
Qed.

Lemma safe_bind {A B} (Q : A -> Prop) (Q' : B -> Prop) c f :
  safe K n Q c -> (forall a, Q a -> safe K n Q' (f a)) -> safe K n Q' (cbind c f).
Proof.
  intros S Hf. induction S as [a Ha|i k Hi Hk IH|i k Hi Hk S IH]; cbn [cbind]; [auto|constructor; auto..].
Qed.

Lemma safe_cexists {A} (H : A -> Prop) (l : list A) test :
  (forall a, In a l -> safe K n (fun b => H a -> b = true) (test a)) ->
  safe K n (fun b => (exists a, In a l /\ H a) -> b = true) (cexists l test).
Proof.
  induction l as [|a l IH]; intros Ht; cbn [cexists].
  - constructor. intros [x [[] _]].
  - eapply safe_bind; [apply Ht; left; reflexivity|]. cbv beta. intros b Hb. destruct b.
    + constructor. reflexivity.
    + eapply safe_mono; [|apply IH; intros x Hx; apply Ht; right; exact Hx].
      cbv beta. intros b IHb [x [[<-|Hx] Hh]]; [specialize (Hb Hh); discriminate|].
      apply IHb. exists x. auto.
Qed.

(** The converse direction: true only for a reason. *)
Lemma safe_cexists_neg {A} (H : Prop) (l : list A) test :
  (forall a, In a l -> safe K n (fun b => b = true -> H) (test a)) ->
  safe K n (fun b => b = true -> H) (cexists l test).
Proof.
  induction l as [|a l IH]; intros Ht; cbn [cexists].
  - constructor. discriminate.
  - eapply safe_bind; [apply Ht; left; reflexivity|]. cbv beta. intros b Hb. destruct b.
    + constructor. intros _. auto.
    + apply IH. intros x Hx. apply Ht. right. exact Hx.
Qed.

Lemma safe_cloop {A S} (I : list A -> S -> Prop) (l done : list A) body s :
  (forall pre a post s, l = pre ++ a :: post -> I (done ++ pre) s ->
     safe K n (I (done ++ pre ++ [a])) (body a s)) ->
  I done s -> safe K n (I (done ++ l)) (cloop l body s).
Proof.
  revert done s. induction l as [|a l IH]; intros done s Hb Hi; cbn [cloop].
  - constructor. rewrite app_nil_r. exact Hi.
  - eapply safe_bind.
    + apply (Hb [] a l s eq_refl). rewrite app_nil_r. exact Hi.
    + cbn [app]. intros s' Hi'. replace (done ++ a :: l) with ((done ++ [a]) ++ l) by (rewrite <- app_assoc; reflexivity).
      apply IH; [|exact Hi']. intros pre x post s1 El H1.
      rewrite <- app_assoc in H1 |- *. cbn [app] in H1 |- *.
      exact (Hb (a :: pre) x post s1 (f_equal (cons a) El) H1).
Qed.
End Safe.

(** *** Pools of safe threads *)

Section Pool.
Variables (K : N -> Prop) (n : N) (init : mem).
Context {A : Type} (Q : A -> Prop).

Definition good (m : mem) : Prop := len m = n /\ (forall i, i < n -> K i -> bit m i = true) /\ sub m init.

Definition thread_safe (t : thread A) : Prop :=
  match t with
  | Run c => safe K n Q c
  | Store i b w k => i < n /\ ~ K i /\ b = false /\ good w /\ safe K n Q k
  end.

Definition hist_good (h : list mem) : Prop := h <> [] /\ forall m, In m h -> good m.

Lemma good_current h : hist_good h -> good (current h).
Proof. intros [H1 H2]. destruct h as [|m h]; [contradiction|]. apply H2. left. reflexivity. Qed.

Lemma good_loads sc h w : hist_good h -> loads sc h w -> good w.
Proof.
  intros H L. unfold loads in L. destruct sc; [subst w; apply good_current; exact H|apply (proj2 H); exact L].
Qed.

Lemma good_store wb i w m : i < n -> ~ K i -> good w -> good m -> good (store_word wb i false w m).
Proof.
  intros Hi Hk [Lw [Kw Sw]] [Lm [Km Sm]]. split; [rewrite len_store; exact Lm|]. split.
  - intros j Hj Kj. rewrite bit_store, Lm. destruct (N.ltb_spec j n); [|lia].
    destruct (j / wb =? i / wb); [|apply Km; assumption].
    destruct (N.eqb_spec j i) as [->|]; [contradiction|apply Kw; assumption].
  - intros j. rewrite bit_store. destruct (j <? len m); [|discriminate].
    destruct (j / wb =? i / wb); [|apply Sm]. destruct (j =? i); [discriminate|apply Sw].
Qed.

Lemma tstep_safe sc wb t h t' h' : thread_safe t -> hist_good h -> tstep sc wb t h t' h' ->
  thread_safe t' /\ hist_good h'.
Proof.
  intros St Hh Hst. destruct Hst as [i k h w b L G|i b k h w L Hi|i b w k h].
  - cbn [thread_safe] in *. inversion St as [|i' k' Hi Hk|]; subst. split; [|exact Hh].
    apply Hk. intros Ki. pose proof (good_loads sc h w Hh L) as [Lw [Kw _]].
    apply bit_get_Ok in G. rewrite <- G. apply Kw; assumption.
  - cbn [thread_safe] in *. inversion St as [| |i' k' Hi' Hk Sk]; subst. split; [|exact Hh].
    split; [exact Hi'|]. split; [exact Hk|]. split; [reflexivity|]. split; [eapply good_loads; eassumption|exact Sk].
  - cbn [thread_safe] in *. destruct St as [Hi [Hk [-> [Gw Sk]]]]. split; [exact Sk|].
    split; [discriminate|]. intros m [<-|Hm]; [|apply (proj2 Hh); exact Hm].
    apply good_store; try assumption. apply good_current; exact Hh.
Qed.

Definition pool_safe (s : pool A) : Prop :=
  (forall t, In t (threads s) -> thread_safe t) /\ hist_good (history s).

Lemma In_upd {B} (l : list B) i v x : In x (upd l i v) -> x = v \/ In x l.
Proof.
  revert i; induction l as [|y l IH]; intros i; [destruct i; intros []|].
  destruct i as [|i]; cbn [upd]; intros [<-|H]; auto; [right; right; exact H|right; left; reflexivity|].
  destruct (IH _ H); [left; assumption|right; right; assumption].
Qed.

Lemma pstep_safe sc wb s s' : pool_safe s -> pstep sc wb s s' -> pool_safe s'.
Proof.
  intros [St Sh] H. destruct H as [k ts t t' h h' E Hs]. cbn [threads history] in *.
  assert (It : thread_safe t) by (apply St; eapply nth_error_In; exact E).
  destruct (tstep_safe sc wb t h t' h' It Sh Hs) as [A1 A2]. split; [|exact A2].
  cbn [threads]. intros x Hx. apply In_upd in Hx. destruct Hx as [->|Hx]; [exact A1|apply St; exact Hx].
Qed.

Lemma psteps_safe sc wb k s s' : pool_safe s -> psteps sc wb k s s' -> pool_safe s'.
Proof. intros H P. induction P; [exact H|]. apply IHP. eapply pstep_safe; eassumption. Qed.

Lemma safe_not_faulty s t : pool_safe s -> In t (threads s) -> ~ faulty (current (history s)) t.
Proof.
  intros [St Sh] Ht F. specialize (St t Ht). destruct (good_current _ Sh) as [L _].
  destruct t as [c|i b w c]; [|exact F]. cbn [thread_safe] in St. cbn [faulty] in F.
  inversion St; subst; rewrite ?L in F; lia.
Qed.
End Pool.

(** *** The solver *)

Section Graph.
Context {T : target}.
Implicit Type cg : cgraph T.

Notation G cg := (cg_graph cg).
Notation Wd cg := (width (right (cg_graph cg))).
Notation Ht cg := (height (right (cg_graph cg))).
Notation Lv cg := (levels (cg_graph cg)).
Definition size cg : N := Wd cg * Ht cg * Lv cg.
(** The elements of the nodes of a set. *)
Definition places cg (K : node -> Prop) (i : N) : Prop :=
  exists n, inb cg n /\ K n /\ node_index (G cg) n = i.

Section Keep.
Variable cg : cgraph T.
Variable K : node -> Prop.
Hypothesis Hs : static cg.
Hypothesis HK : support cg K.
Notation safe := (safe (places cg K) (size cg)).

Lemma idx_size n : inb cg n -> node_index (G cg) n < size cg.
Proof.
  intros Hn. pose proof (idx_lt cg (fill (size cg) false) n Hs) as H.
  rewrite len_fill in H. apply H; [|exact Hn]. unfold mem_ok. apply len_fill.
Qed.

Lemma places_node n : inb cg n -> K n <-> places cg K (node_index (G cg) n).
Proof.
  intros Hn. split.
  - intros Kn. exists n. auto.
  - intros [n' [Hn' [Kn' E]]]. assert (n' = n) by (eapply idx_inj; eassumption). subst. exact Kn'.
Qed.

Lemma safe_node n : inb cg n -> safe (fun b => K n -> b = true) (is_node_available cg n).
Proof.
  intros Hn. unfold is_node_available. constructor; [apply idx_size; exact Hn|].
  intros b Hb. constructor. intros Kn. apply Hb. apply places_node; assumption.
Qed.

Lemma safe_edge e : inb cg (enode e) -> inb cg (enbr e) -> adjacent (npix (enode e)) (npix (enbr e)) ->
  safe (fun b => K (enode e) -> K (enbr e) -> compat cg (enode e) (enbr e) -> b = true) (is_edge_available cg e).
Proof.
  intros Hn Hn' A. destruct (edge_values cg e Hs Hn Hn' A) as [v [w [Ev Ew]]].
  assert (Eb : compat cg (enode e) (enbr e) -> fle (fsub v w) (cg_threshold cg) = true /\ edge_exists (G cg) e = true).
  { intros [M E]. replace {| enode := enode e; enbr := enbr e |} with e in * by (destruct e; reflexivity).
    unfold ewb in E. rewrite Ev, Ew in E. split; [exact E|]. apply edge_exists_inb; try assumption. apply Hs. }
  unfold is_edge_available. rewrite Ev, Ew. cbn [lift cbind].
  destruct (fle (fsub v w) (cg_threshold cg)) eqn:Ef.
  2:{ constructor. intros _ _ C. apply Eb in C. destruct C; congruence. }
  eapply safe_bind; [apply safe_node; exact Hn|]. cbv beta. intros a Ha. destruct a.
  2:{ constructor. intros Kn. specialize (Ha Kn). discriminate. }
  eapply safe_bind; [apply safe_node; exact Hn'|]. cbv beta. intros b Hb. destruct b.
  - constructor. intros _ _ C. apply Eb in C. apply C.
  - constructor. intros _ Kn. specialize (Hb Kn). discriminate.
Qed.

Lemma safe_has_edge n q : inb cg n -> in_image (G cg) q -> adjacent (npix n) q ->
  safe (fun b => K n -> (exists n', npix n' = q /\ K n' /\ compat cg n n') -> b = true) (has_edge_to cg n q).
Proof.
  intros Hn Hq A. unfold has_edge_to.
  eapply safe_mono; [|apply (safe_cexists _ _ (fun d => K n /\ K {| npix := q; disp := d |} /\ compat cg n {| npix := q; disp := d |}))].
  - cbv beta. intros b Hb Kn [[q' d'] [E1 [Kn' C]]]. cbn [npix] in E1. subst q'.
    apply Hb. exists d'. split; [|auto].
    pose proof C as [[M1 [M2 [_ [O1 O2]]]] _]. cbn [enode enbr npix disp] in *.
    apply In_disparities; [apply Hs|exact Hq|]. split; [|exact M2].
    rewrite (first_eq cg n q Hs Hn Hq).
    destruct (N.eqb_spec (px (npix n) + 1) (px q)) as [Ex|Ex]; cbn [andb]; [|lia].
    destruct (N.ltb_spec 1 (disp n)); [|lia].
    assert (H0 : horizontal_pair (npix n) q).
    { unfold adjacent, horizontal_pair, vertical_pair in *. lia. }
    specialize (O1 H0). lia.
  - intros d Hd. apply In_disparities in Hd; [|apply Hs|exact Hq].
    eapply safe_mono; [|apply safe_edge; cbn [enode enbr]; [exact Hn|apply match_inb; apply Hd|exact A]].
    cbn [enode enbr]. tauto.
Qed.

Lemma safe_should_remove n : inb cg n -> safe (fun b => b = true -> ~ K n) (should_remove_node cg n).
Proof.
  intros Hn. unfold should_remove_node. eapply safe_bind; [apply safe_node; exact Hn|].
  cbv beta. intros a _. destruct a; cbn [negb]; [|constructor; discriminate].
  apply safe_cexists_neg. intros k _.
  destruct (neighborhood_exists_fast (G cg) (npix n) k) eqn:Ex; cbn [negb]; [|constructor; discriminate].
  apply (neighborhood_exists_fast_iff _ _ _ (st_graph cg Hs)) in Ex. destruct Ex as [q [Hp [Hq S]]].
  rewrite (neighbor_by_index_slot _ _ q k (st_graph cg Hs) Hp Hq S).
  pose proof (slot_adjacent _ _ _ S) as A.
  eapply safe_bind; [apply safe_has_edge; assumption|]. cbv beta. intros found Hf. constructor.
  intros E Kn. rewrite Hf in E; [discriminate|exact Kn|]. apply (proj2 (HK n Kn)); assumption.
Qed.

Lemma safe_clear n : inb cg n -> ~ K n -> safe (fun _ => True) (make_node_unavailable cg n).
Proof.
  intros Hn Kn. unfold make_node_unavailable. constructor; [apply idx_size; exact Hn| |constructor; exact I].
  intros P. apply Kn. apply places_node; assumption.
Qed.

Lemma safe_process p : in_image (G cg) p -> safe (fun _ => True) (csp_process_pixel cg p).
Proof.
  intros Hp. unfold csp_process_pixel. rewrite disparities_right_eq by (try apply Hp; apply Hs).
  pose proof (dispsok_disps cg p Hs Hp) as Hd. unfold disps in Hd.
  apply (safe_cloop _ _ (fun _ _ => True) _ []); [|exact I].
  intros pre d post s E _. cbv zeta.
  assert (Hn : inb cg {| npix := p; disp := d |}) by (apply Hd; rewrite E; apply in_elt).
  eapply safe_bind; [apply safe_should_remove; exact Hn|]. cbv beta. intros rm Hr. destruct rm.
  - eapply safe_bind; [apply safe_clear; auto|]. intros _ _. constructor. exact I.
  - constructor. exact I.
Qed.

Lemma safe_pixel_available p : in_image (G cg) p ->
  safe (fun b => (exists n, K n /\ npix n = p) -> b = true) (pixel_available cg p).
Proof.
  intros Hp. unfold pixel_available. rewrite disparities_right_eq by (try apply Hp; apply Hs).
  pose proof (dispsok_disps cg p Hs Hp) as Hd. unfold disps in Hd.
  eapply safe_mono; [|apply (safe_cloop _ _ (fun ds b => (exists d, In d ds /\ K {| npix := p; disp := d |}) -> b = true) _ [])].
  - cbv beta. intros b Hb [[q d] [Kn E]]. cbn [npix] in E. subst q. apply Hb. exists d. split; [|exact Kn].
    cbn [app]. pose proof (proj1 (HK _ Kn)) as M. apply (disps_In cg p d Hs Hp) in M. exact M.
  - cbn [app]. intros pre d post s E Hi.
    assert (Hn : inb cg {| npix := p; disp := d |}) by (apply Hd; rewrite E; apply in_elt).
    eapply safe_bind; [apply safe_node; exact Hn|]. cbv beta. intros a Ha. constructor.
    intros [d' [Hd' Kd]]. destruct a; [reflexivity|]. apply in_app_iff in Hd'.
    destruct Hd' as [Hd'|[<-|[]]]; [apply Hi; exists d'; auto|]. specialize (Ha Kd). discriminate.
  - intros [d [[] _]].
Qed.

Lemma safe_sweep_row y xs pa : (forall x, In x xs -> in_image (G cg) {| px := x; py := y |}) ->
  safe (fun b => total cg K -> pa = true \/ xs <> [] -> b = true) (sweep_row cg y xs pa).
Proof.
  revert pa. induction xs as [|x xs IH]; intros pa Hx; cbn [sweep_row].
  - constructor. intros _ [H|H]; [exact H|contradiction].
  - cbv zeta. assert (Hi : in_image (G cg) {| px := x; py := y |}) by (apply Hx; left; reflexivity).
    eapply safe_bind; [apply safe_process; exact Hi|]. intros _ _.
    eapply safe_bind; [apply safe_pixel_available; exact Hi|]. cbv beta. intros b Hb. destruct b.
    + eapply safe_mono; [|apply IH; intros z Hz; apply Hx; right; exact Hz]. cbv beta. intros r Hr HT _. apply Hr; auto.
    + constructor. intros HT _. rewrite Hb; [reflexivity|]. apply HT. exact Hi.
Qed.

Lemma safe_sweep_rows fuel jobs y pa : 1 <= jobs -> Ht cg + jobs < wmod T -> Ht cg - y < N.of_nat fuel ->
  safe (fun b => total cg K -> pa = true \/ y < Ht cg -> b = true) (sweep_rows cg fuel jobs y pa).
Proof.
  intros Hj Hjw. revert y pa. induction fuel as [|f IH]; intros y pa Hf; [lia|]. cbn [sweep_rows].
  destruct (N.ltb_spec y (Ht cg)) as [Hy|Hy].
  - eapply safe_bind.
    + apply safe_sweep_row. intros x Hx. apply In_range in Hx. split; cbn [px py]; lia.
    + cbv beta. intros b Hb. destruct b.
      * rewrite uadd_small by lia. eapply safe_mono; [|apply IH; lia]. cbv beta. intros r Hr HT _. apply Hr; auto.
      * constructor. intros HT _. rewrite Hb; [reflexivity|exact HT|]. right.
        pose proof (wf_sizes _ (st_graph cg Hs)) as S. pose proof (sz_w _ S). rewrite range_cons by lia. discriminate.
  - constructor. intros _ [H|H]; [exact H|lia].
Qed.

Lemma count_size : nodes_count (G cg) = size cg.
Proof.
  rewrite (nodes_count_eq cg (fill (size cg) false) Hs); [apply len_fill|]. unfold mem_ok. apply len_fill.
Qed.

Lemma safe_check_nodes : safe (fun _ => True) (check_nodes_left cg).
Proof.
  unfold check_nodes_left. rewrite count_size.
  eapply safe_mono; [|apply (safe_cexists_neg _ _ True)]; [auto|].
  intros i Hi. apply In_range in Hi. constructor; [lia|]. intros b _. constructor. auto.
Qed.

Lemma safe_make_all : (forall n, ~ K n) -> safe (fun _ => True) (make_all_nodes_unavailable cg).
Proof.
  intros HN. unfold make_all_nodes_unavailable. rewrite count_size.
  apply (safe_cloop _ _ (fun _ _ => True) _ []); [|exact I].
  intros pre i post s E _. assert (Hi : In i (range 0 (size cg))) by (rewrite E; apply in_elt).
  apply In_range in Hi. constructor; [lia| |constructor; exact I].
  intros [n [_ [Kn _]]]. exact (HN n Kn).
Qed.

Lemma safe_iteration jobs job : total cg K \/ (forall n, ~ K n) -> 1 <= jobs -> Ht cg + jobs < wmod T ->
  safe (fun b => total cg K -> b = false) (csp_solution_iteration cg jobs job).
Proof.
  intros HT Hj Hjw. unfold csp_solution_iteration.
  destruct (N.leb_spec (Ht cg) job) as [Hh|Hh]; [constructor; reflexivity|].
  eapply safe_bind; [apply safe_sweep_rows; try assumption; lia|]. cbv beta. intros pa Hpa.
  destruct pa; cbn [negb]; [constructor; reflexivity|].
  assert (NT : ~ total cg K) by (intros X; specialize (Hpa X (or_intror Hh)); discriminate).
  eapply safe_bind; [apply safe_check_nodes|]. intros c _. destruct c; cbn [negb]; [|constructor; reflexivity].
  eapply safe_bind; [apply safe_make_all; destruct HT; [contradiction|assumption]|].
  intros _ _. constructor. intros X. contradiction.
Qed.
End Keep.
End Graph.
