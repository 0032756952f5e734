(** Properties of the constraint graph and of the single-threaded solver. *)
From Verif Require Export Constraint_proofs.
Local Open Scope N_scope.

Section Graph.
Context {T : target}.
Implicit Type cg : cgraph T.

Notation G cg := (cg_graph cg).
Notation Wd cg := (width (right (cg_graph cg))).
Notation Ht cg := (height (right (cg_graph cg))).
Notation Lv cg := (levels (cg_graph cg)).

(** *** The constructor *)

Definition all_nodes (g : dgraph T) : list node :=
  flat_map (fun p => map (fun d => {| npix := p; disp := d |}) (disparities g (px p) 0))
    (all_pixels (width (right g)) (height (right g))).

Lemma In_all_nodes g n : wf_graph g -> In n (all_nodes g) <-> match_exists g n.
Proof.
  intros Hw. unfold all_nodes. rewrite in_flat_map. split.
  - intros [p [Hp Hn]]. apply In_all_pixels in Hp. apply in_map_iff in Hn. destruct Hn as [d [<- Hd]].
    apply In_disparities in Hd; [tauto|exact Hw|exact Hp].
  - intros Hm. exists (npix n). split; [apply In_all_pixels; apply Hm|].
    apply in_map_iff. exists (disp n). destruct n as [p d]. split; [reflexivity|].
    cbn [npix disp]. apply In_disparities; [exact Hw|apply Hm|]. split; [lia|exact Hm].
Qed.

Definition nwb (g : dgraph T) (lp : lowest T) (t : F T) (n : node) : bool :=
  match node_penalty g n, lowest_pixel_penalty lp (npix n) with
  | Ok v, Ok w => fle (fsub v w) t
  | _, _ => false
  end.

Lemma nwb_iff g lp t n : nwb g lp t n = true <-> node_within g lp t n.
Proof.
  unfold nwb, node_within. split.
  - destruct (node_penalty g n) as [v|]; [|discriminate].
    destruct (lowest_pixel_penalty lp (npix n)) as [w|]; [|discriminate].
    intros E. exists v, w. auto.
  - intros [v [w [-> [-> E]]]]. exact E.
Qed.

Lemma make_constraint_spec g lp t : wf_graph g -> make_lowest g = Ok lp ->
  exists cg, make_constraint g lp t = Ok cg /\ wf_cgraph cg /\
    cg_graph cg = g /\ cg_lowest cg = lp /\ cg_threshold cg = t /\
    forall n, inb cg n -> (avb cg (cg_avail cg) n = true <-> match_exists g n /\ node_within g lp t n).
Proof.
  intros Hw Hl. pose proof (wf_sizes g Hw) as S. unfold make_constraint.
  set (cg0 := {| cg_graph := g; cg_lowest := lp; cg_threshold := t;
                 cg_avail := fill (nodes_count g) false |}).
  assert (Hs : static cg0) by (constructor; [assumption|apply make_lowest_wf; assumption]).
  assert (En : nodes_count g = width (right g) * height (right g) * levels g).
  { unfold nodes_count. rewrite (umul_small T (width (right g))) by apply (sz_wh _ S).
    rewrite umul_small by apply (sz_whl _ S). reflexivity. }
  assert (Hm0 : mem_ok cg0 (fill (nodes_count g) false)) by (unfold mem_ok; rewrite len_fill; exact En).
  unfold alloc_bits. destruct (N.ltb_spec bit_vector_max_size (nodes_count g)) as [X|_].
  { exfalso. pose proof (wf_alloc g Hw) as A. rewrite En in X.
    assert (width (right g) * height (right g) * levels g <= width (right g) * height (right g) * 4 * levels g)
      by (apply N.mul_le_mono_r; lia).
    unfold bit_vector_max_size, vector_max_size in *. lia. }
  cbn [bind]. fold cg0.
  set (body := fun n => p <== lift (node_penalty g n) ;;
                 l <== lift (lowest_pixel_penalty lp (npix n)) ;;
                 if fle (fsub p l) t then make_node_available cg0 n else Ret tt).
  match goal with |- context [run (cloop (range 0 (width (right g))) ?b tt) ?m] =>
    replace (run (cloop (range 0 (width (right g))) b tt) m)
      with (run (cloop (all_nodes g) (fun n _ => body n) tt) m) end.
  2:{ unfold all_nodes. rewrite run_cloop_flat_map. unfold all_pixels.
      rewrite (run_cloop_flat_map (range 0 (width (right g))) (fun _ => range 0 (height (right g)))
        (fun x y => {| px := x; py := y |})
        (fun p => cloop (disparities g (px p) 0) (fun d _ => body {| npix := p; disp := d |}) tt)).
      reflexivity. }
  destruct (cloop_inv (fun (done : list node) (_ : unit) m =>
      mem_ok cg0 m /\
      forall n, inb cg0 n -> (avb cg0 m n = true <-> In n done /\ node_within g lp t n))
    (all_nodes g) (fun n _ => body n) tt (fill (nodes_count g) false)) as [[] [m [E [Hm B]]]].
  - split; [exact Hm0|]. intros n Hn. unfold avb. rewrite bit_fill_false. split; [discriminate|intros [[] _]].
  - intros pre n post [] m Er [Hm B].
    assert (Hn : match_exists g n) by (apply In_all_nodes; [exact Hw|rewrite Er; apply in_elt]).
    unfold body. destruct (node_penalty_Ok g n Hw Hn) as [v Ev].
    destruct (lowest_pixel_Ok g (npix n) Hw (proj1 Hn)) as [w [Ew _]].
    rewrite <- (lowest_pixel_value g lp (npix n) Hw Hl (proj1 Hn)) in Ew.
    rewrite Ev, Ew. cbn [lift cbind].
    assert (Hi : inb cg0 n) by (apply match_inb; exact Hn).
    pose proof (nwb_iff g lp t n) as Hnw. unfold nwb in Hnw. rewrite Ev, Ew in Hnw.
    destruct (fle (fsub v w) t).
    + unfold make_node_available. cbn [run].
      rewrite set_in_bounds by (apply (idx_lt cg0); assumption). cbn [bind].
      eexists tt, _. split; [reflexivity|]. split; [unfold mem_ok; rewrite len_upd; exact Hm|].
      intros n' Hn'. rewrite in_app_iff. unfold avb. rewrite bit_upd by (apply idx_lt; assumption).
      destruct (N.eqb_spec (node_index (G cg0) n') (node_index (G cg0) n)) as [Ei|Ei].
      * apply (idx_inj cg0) in Ei; try assumption. subst n'. split; [|reflexivity].
        intros _. split; [right; left; reflexivity|]. apply Hnw; reflexivity.
      * fold (avb cg0 m n'). rewrite (B n' Hn'). split; intros [A1 A2]; (split; [|exact A2]); [tauto|].
        destruct A1 as [A1|[A1|[]]]; [exact A1|]. subst n'. contradiction.
    + cbn [run]. exists tt, m. split; [reflexivity|]. split; [exact Hm|].
      intros n' Hn'. rewrite (B n' Hn'), in_app_iff. split; intros [A1 A2]; (split; [|exact A2]); [tauto|].
      destruct A1 as [A1|[A1|[]]]; [exact A1|]. subst n'.
      apply Hnw in A2. discriminate.
  - rewrite E. cbn [bind snd]. eexists. split; [reflexivity|]. split; [apply static_wf; assumption|].
    split; [reflexivity|split; [reflexivity|split; [reflexivity|]]].
    intros n Hn. rewrite <- (In_all_nodes g n Hw). apply B. exact Hn.
Qed.

Lemma make_constraint_Ok g lp t cg : wf_graph g -> make_lowest g = Ok lp -> make_constraint g lp t = Ok cg ->
  wf_cgraph cg /\ cg_graph cg = g /\ cg_lowest cg = lp /\ cg_threshold cg = t /\
  forall n, inb cg n -> (avb cg (cg_avail cg) n = true <-> match_exists g n /\ node_within g lp t n).
Proof.
  intros Hw Hl E. destruct (make_constraint_spec g lp t Hw Hl) as [cg' [E' H]].
  rewrite E in E'. injection E' as <-. exact H.
Qed.

(** *** Supported sets of nodes *)

Definition support cg (K : node -> Prop) : Prop :=
  forall n, K n -> match_exists (G cg) n /\
    forall q, in_image (G cg) q -> adjacent (npix n) q ->
      exists n', npix n' = q /\ K n' /\ compat cg n n'.
Definition total cg (K : node -> Prop) : Prop :=
  forall p, in_image (G cg) p -> exists n, K n /\ npix n = p.
Definition holds cg (K : node -> Prop) m : Prop := forall n, K n -> avb cg m n = true.

Lemma support_not_removed cg K m n : static cg -> support cg K -> holds cg K m -> inb cg n ->
  rmvb cg m n = true -> ~ K n.
Proof.
  intros Hs HK Hh Hn Hr Kn. apply rmvb_iff in Hr; try assumption. destruct Hr as [_ [q [Hq [A No]]]].
  destruct (HK n Kn) as [_ Sup]. destruct (Sup q Hq A) as [n' [E [Kn' C]]].
  apply (No n' E). auto.
Qed.

Lemma holds_proc1 cg K m n : static cg -> mem_ok cg m -> inb cg n -> support cg K -> holds cg K m ->
  holds cg K (proc1 cg m n).
Proof.
  intros Hs Hm Hn HK Hh. unfold proc1. destruct (rmvb cg m n) eqn:E; [|exact Hh].
  intros n' K'. apply avb_clear; try assumption; [apply match_inb; apply (HK n' K')|].
  split; [apply Hh; exact K'|]. intros ->. eapply support_not_removed; eassumption.
Qed.

Lemma holds_process cg K m p : static cg -> mem_ok cg m -> in_image (G cg) p -> support cg K -> holds cg K m ->
  holds cg K (process cg p m).
Proof.
  intros Hs Hm Hp HK. pose proof (dispsok_disps cg p Hs Hp) as Hd. unfold process.
  revert m Hm. induction (disps cg p) as [|d ds IH]; intros m Hm Hh; cbn [proc]; [exact Hh|].
  assert (Hn : inb cg {| npix := p; disp := d |}) by (apply Hd; left; reflexivity).
  apply IH; [intros x Hx; apply Hd; right; exact Hx|apply proc1_ok; exact Hm|].
  apply holds_proc1; assumption.
Qed.

Lemma holds_has cg K m p : static cg -> in_image (G cg) p -> support cg K -> total cg K -> holds cg K m ->
  hasb cg m p = true.
Proof.
  intros Hs Hp HK HT Hh. apply hasb_iff; try assumption. destruct (HT p Hp) as [n [Kn E]].
  exists n. split; [apply (HK n Kn)|]. split; [exact E|apply Hh; exact Kn].
Qed.

Lemma holds_sweep cg K ps m : static cg -> mem_ok cg m -> pixels_ok cg ps -> support cg K -> total cg K ->
  holds cg K m -> fst (sweep cg ps m) = true /\ holds cg K (snd (sweep cg ps m)).
Proof.
  intros Hs Hm Hps HK HT. revert m Hm. induction ps as [|p ps IH]; intros m Hm Hh; cbn [sweep]; [auto|].
  assert (Hp : in_image (G cg) p) by (apply Hps; left; reflexivity).
  pose proof (holds_process cg K m p Hs Hm Hp HK Hh) as H1.
  rewrite (holds_has cg K _ p) by assumption.
  apply IH; [intros x Hx; apply Hps; right; exact Hx|apply process_ok; exact Hm|exact H1].
Qed.

(** The nodes of a labeling. *)
Definition label_set cg (k : labeling) (n : node) : Prop :=
  in_image (G cg) (npix n) /\ disp n = k (npix n).

Lemma label_set_node cg k n : label_set cg k n -> n = label_node k (npix n).
Proof. intros [_ E]. destruct n as [p d]. unfold label_node. cbn [npix disp] in *. congruence. Qed.

Lemma label_support cg k : labeling_ok (G cg) k ->
  edges_within (G cg) (cg_lowest cg) (cg_threshold cg) k -> support cg (label_set cg k).
Proof.
  intros [Hk Ho] He n Hn. pose proof (label_set_node cg k n Hn) as E. destruct Hn as [Hp _].
  split; [rewrite E; apply Hk; exact Hp|].
  intros q Hq A. exists (label_node k q). split; [reflexivity|]. split; [split; [exact Hq|reflexivity]|].
  rewrite E. split.
  - split; [apply Hk; exact Hp|]. split; [apply Hk; exact Hq|]. split; [exact A|].
    apply Ho; assumption.
  - apply ewb_iff. apply He; assumption.
Qed.

Lemma label_total cg k : total cg (label_set cg k).
Proof. intros p Hp. exists (label_node k p). split; [split; [exact Hp|reflexivity]|reflexivity]. Qed.

Lemma label_holds cg k m : static cg -> mem_ok cg m -> labeling_ok (G cg) k ->
  holds cg (label_set cg k) m <-> (forall p, in_image (G cg) p -> available (with_avail cg m) (label_node k p)).
Proof.
  intros Hs Hm [Hk _]. split.
  - intros Hh p Hp. apply available_with; try assumption; [apply match_inb, Hk; exact Hp|].
    apply Hh. split; [exact Hp|reflexivity].
  - intros Ha n Hn. rewrite (label_set_node cg k n Hn). apply available_with; try assumption.
    + apply match_inb, Hk. apply Hn.
    + apply Ha. apply Hn.
Qed.

(** *** Monotonicity *)

Record weaker cg1 cg2 : Prop := {
  wk_graph : cg_graph cg2 = cg_graph cg1;
  wk_edges : forall e, ewb cg1 e = true -> ewb cg2 e = true
}.

Lemma compat_mono cg1 cg2 n n' : weaker cg1 cg2 -> compat cg1 n n' -> compat cg2 n n'.
Proof.
  intros [E H] [A B]. split; [rewrite E; exact A|apply H; exact B].
Qed.

Lemma avb_mono cg1 cg2 m1 m2 n : weaker cg1 cg2 -> sub m1 m2 -> avb cg1 m1 n = true -> avb cg2 m2 n = true.
Proof. intros [E _] H A. unfold avb in *. rewrite E. apply H; exact A. Qed.

Lemma rmvb_mono cg1 cg2 m1 m2 n : static cg1 -> static cg2 -> weaker cg1 cg2 -> sub m1 m2 ->
  inb cg1 n -> avb cg1 m1 n = true -> rmvb cg2 m2 n = true -> rmvb cg1 m1 n = true.
Proof.
  intros H1 H2 Wk Hsub Hn Ha Hr.
  assert (Hn2 : inb cg2 n) by (destruct Wk as [E _]; unfold inb; rewrite E; exact Hn).
  apply rmvb_iff in Hr; try assumption. apply rmvb_iff; try assumption. split; [exact Ha|].
  destruct Hr as [_ [q [Hq [A No]]]]. exists q. rewrite (wk_graph _ _ Wk) in Hq.
  split; [exact Hq|]. split; [exact A|]. intros n' E [B C]. apply (No n' E).
  split; [eapply avb_mono; eassumption|eapply compat_mono; eassumption].
Qed.

Lemma sub_proc1_mono cg1 cg2 m1 m2 n : static cg1 -> static cg2 -> weaker cg1 cg2 ->
  mem_ok cg1 m1 -> mem_ok cg2 m2 -> inb cg1 n -> sub m1 m2 -> sub (proc1 cg1 m1 n) (proc1 cg2 m2 n).
Proof.
  intros H1 H2 Wk M1 M2 Hn Hsub i Hi.
  assert (Hn2 : inb cg2 n) by (destruct Wk as [E _]; unfold inb; rewrite E; exact Hn).
  pose proof (sub_proc1 cg1 m1 n H1 M1 Hn i Hi) as Hi1.
  unfold proc1 at 1. destruct (rmvb cg2 m2 n) eqn:E2; [|apply Hsub; exact Hi1].
  unfold clear. rewrite bit_upd by (apply idx_lt; assumption).
  destruct (N.eqb_spec i (node_index (G cg2) n)) as [->|Hne]; [|apply Hsub; exact Hi1].
  exfalso. rewrite (wk_graph _ _ Wk) in Hi, Hi1.
  assert (E1 : rmvb cg1 m1 n = true) by (eapply rmvb_mono; eassumption).
  unfold proc1 in Hi. rewrite E1 in Hi. fold (avb cg1 (clear cg1 m1 n) n) in Hi.
  apply avb_clear in Hi; try assumption. tauto.
Qed.

Lemma disps_mono cg1 cg2 p : weaker cg1 cg2 -> disps cg2 p = disps cg1 p.
Proof. intros [E _]. unfold disps. rewrite E. reflexivity. Qed.

Lemma sub_process_mono cg1 cg2 m1 m2 p : static cg1 -> static cg2 -> weaker cg1 cg2 ->
  mem_ok cg1 m1 -> mem_ok cg2 m2 -> in_image (G cg1) p -> sub m1 m2 ->
  sub (process cg1 p m1) (process cg2 p m2).
Proof.
  intros H1 H2 Wk. unfold process. rewrite (disps_mono cg1 cg2 p Wk). intros M1 M2 Hp.
  pose proof (dispsok_disps cg1 p H1 Hp) as Hd. revert m1 m2 M1 M2.
  induction (disps cg1 p) as [|d ds IH]; intros m1 m2 M1 M2 Hsub; cbn [proc]; [exact Hsub|].
  apply IH; [intros x Hx; apply Hd; right; exact Hx|apply proc1_ok; assumption|apply proc1_ok; assumption|].
  apply sub_proc1_mono; try assumption. apply Hd; left; reflexivity.
Qed.

Lemma hasb_mono cg1 cg2 m1 m2 p : weaker cg1 cg2 -> sub m1 m2 -> hasb cg1 m1 p = true -> hasb cg2 m2 p = true.
Proof.
  intros Wk Hsub. unfold hasb. rewrite (disps_mono cg1 cg2 p Wk), !existsb_exists.
  intros [d [Hd A]]. exists d. split; [exact Hd|]. eapply avb_mono; eassumption.
Qed.

Lemma sweep_mono cg1 cg2 ps m1 m2 : static cg1 -> static cg2 -> weaker cg1 cg2 ->
  mem_ok cg1 m1 -> mem_ok cg2 m2 -> pixels_ok cg1 ps -> sub m1 m2 ->
  fst (sweep cg1 ps m1) = true ->
  fst (sweep cg2 ps m2) = true /\ sub (snd (sweep cg1 ps m1)) (snd (sweep cg2 ps m2)).
Proof.
  intros H1 H2 Wk. revert m1 m2. induction ps as [|p ps IH]; intros m1 m2 M1 M2 Hps Hsub Hf; cbn [sweep] in *; [auto|].
  assert (Hp : in_image (G cg1) p) by (apply Hps; left; reflexivity).
  pose proof (sub_process_mono cg1 cg2 m1 m2 p H1 H2 Wk M1 M2 Hp Hsub) as Hs.
  destruct (hasb cg1 (process cg1 p m1) p) eqn:E; [|discriminate].
  rewrite (hasb_mono cg1 cg2 _ _ p Wk Hs E).
  apply IH; try assumption; try (apply process_ok; assumption). intros x Hx; apply Hps; right; exact Hx.
Qed.

Lemma solved_mono cg1 cg2 m1 m2 : static cg1 -> static cg2 -> weaker cg1 cg2 ->
  mem_ok cg1 m1 -> mem_ok cg2 m2 -> sub m1 m2 ->
  fst (solved cg1 m1) = true ->
  fst (solved cg2 m2) = true /\ sub (snd (solved cg1 m1)) (snd (solved cg2 m2)).
Proof.
  intros H1 H2 Wk M1 M2 Hsub. unfold solved.
  assert (ER : raster cg2 = raster cg1) by (unfold raster; rewrite (wk_graph _ _ Wk); reflexivity).
  rewrite ER. pose proof (sweep_mono cg1 cg2 (raster cg1) m1 m2 H1 H2 Wk M1 M2 (raster_ok cg1) Hsub) as H.
  destruct (sweep cg1 (raster cg1) m1) as [ok1 r1], (sweep cg2 (raster cg1) m2) as [ok2 r2].
  cbn [fst snd] in *. destruct ok1; cbn [fst snd]; [|discriminate]. intros _.
  destruct (H eq_refl) as [-> S]. cbn [fst snd]. auto.
Qed.

(** *** Statements *)

Lemma exec_solve cg fuel : wf_cgraph cg -> (2 <= fuel)%nat ->
  exec (solve_csp_fuel fuel 1 1) cg
  = Ok (fst (solved cg (cg_avail cg)), with_avail cg (snd (solved cg (cg_avail cg)))).
Proof.
  intros Hc Hf. unfold exec.
  rewrite (run_solve_csp cg (cg_avail cg) fuel (wf_static cg Hc) (wfc_avail cg Hc) Hf). reflexivity.
Qed.

Lemma exec_solve_csp cg : wf_cgraph cg ->
  exec solve_csp cg
  = Ok (fst (solved cg (cg_avail cg)), with_avail cg (snd (solved cg (cg_avail cg)))).
Proof. intros Hc. apply exec_solve; [exact Hc|lia]. Qed.

Lemma same_with cg m : wf_cgraph cg -> mem_ok cg m -> same_problem cg (with_avail cg m).
Proof.
  intros Hc Hm. refine (conj eq_refl (conj eq_refl (conj eq_refl _))).
  cbn [with_avail cg_avail]. rewrite (wfc_avail cg Hc). exact Hm.
Qed.

Lemma sub_available cg m n : wf_cgraph cg -> mem_ok cg m -> sub m (cg_avail cg) ->
  in_image (G cg) (npix n) -> disp n < Lv cg ->
  available (with_avail cg m) n -> available cg n.
Proof.
  intros Hc Hm Hsub Hp Hd A. pose proof (conj Hp Hd : inb cg n) as Hn.
  apply available_iff; [exact Hc|exact Hn|].
  apply available_with in A; [|apply wf_static; exact Hc|exact Hm|exact Hn]. apply Hsub. exact A.
Qed.

Lemma initial_availability (g : dgraph T) lp t : wf_graph g -> make_lowest g = Ok lp ->
  exists cg, make_constraint g lp t = Ok cg /\
    cg_graph cg = g /\ cg_lowest cg = lp /\ cg_threshold cg = t /\
    (forall n, in_image g (npix n) -> disp n < levels g ->
       (available cg n <-> match_exists g n /\ node_within g lp t n)) /\
    (laws T -> finite_penalties g -> fle fzero t = true -> forall p, in_image g p ->
       exists n, npix n = p /\ match_exists g n /\ available cg n).
Proof.
  intros Hw Hl. destruct (make_constraint_spec g lp t Hw Hl) as [cg [E [Hc [Eg [El [Et B]]]]]].
  exists cg. split; [exact E|]. split; [exact Eg|]. split; [exact El|]. split; [exact Et|].
  assert (A : forall n, in_image g (npix n) -> disp n < levels g ->
       (available cg n <-> match_exists g n /\ node_within g lp t n)).
  { intros n Hp Hd. assert (Hn : inb cg n) by (unfold inb; rewrite Eg; split; assumption).
    rewrite available_iff by assumption. apply B; exact Hn. }
  split; [exact A|]. intros HL [Hf _] Ht p Hp.
  destruct (lowest_pixel_Ok g p Hw Hp) as [m [Em [d [Hm Ed]]]].
  exists {| npix := p; disp := d |}. split; [reflexivity|]. split; [exact Hm|].
  apply A; [exact Hp|apply Hm|]. split; [exact Hm|].
  exists m, m. split; [exact Ed|]. split; [cbn [npix]; rewrite lowest_pixel_value with (g := g); assumption|].
  destruct (Hf _ Hm) as [v [Ev Fv]]. rewrite Ed in Ev. injection Ev as <-.
  pose proof (sub_self T HL m Fv) as Es. apply (feq_spec T HL) in Es.
  eapply (fle_trans T HL); [apply Es|exact Ht].
Qed.

Lemma set_availability cg n : wf_cgraph cg -> in_image (G cg) (npix n) -> disp n < Lv cg ->
  (exists cg', exec (fun cg => make_node_available cg n) cg = Ok (tt, cg') /\ same_problem cg cg' /\
     forall n', in_image (G cg) (npix n') -> disp n' < Lv cg ->
       (available cg' n' <-> n' = n \/ available cg n')) /\
  (exists cg', exec (fun cg => make_node_unavailable cg n) cg = Ok (tt, cg') /\ same_problem cg cg' /\
     forall n', in_image (G cg) (npix n') -> disp n' < Lv cg ->
       (available cg' n' <-> n' <> n /\ available cg n')) /\
  (exists cg', exec make_all_nodes_unavailable cg = Ok (tt, cg') /\ same_problem cg cg' /\
     forall n', in_image (G cg) (npix n') -> disp n' < Lv cg -> ~ available cg' n').
Proof.
  intros Hc Hp Hd. pose proof (wf_static cg Hc) as Hs. pose proof (wfc_avail cg Hc) as Hm.
  pose proof (conj Hp Hd : inb cg n) as Hn.
  refine (conj _ (conj _ _)).
  - unfold exec, make_node_available. cbn [run].
    rewrite set_in_bounds by (apply idx_lt; assumption). cbn [bind run fst snd].
    set (m' := upd _ _ _). assert (Hm' : mem_ok cg m') by (unfold m', mem_ok; rewrite len_upd; exact Hm).
    exists (with_avail cg m'). split; [reflexivity|]. split; [apply same_with; assumption|].
    intros n' Hp' Hd'. pose proof (conj Hp' Hd' : inb cg n') as Hn'.
    rewrite available_with, available_iff by assumption. unfold avb, m'.
    rewrite bit_upd by (apply idx_lt; assumption).
    destruct (N.eqb_spec (node_index (G cg) n') (node_index (G cg) n)) as [Ei|Ei].
    + apply (idx_inj cg) in Ei; try assumption. tauto.
    + split; [tauto|]. intros [->|A]; [contradiction|exact A].
  - unfold exec. rewrite run_clear by assumption. cbn [bind fst snd].
    pose proof (clear_ok cg _ n Hm) as Hm'.
    exists (with_avail cg (clear cg (cg_avail cg) n)). split; [reflexivity|]. split; [apply same_with; assumption|].
    intros n' Hp' Hd'. pose proof (conj Hp' Hd' : inb cg n') as Hn'.
    rewrite available_with, available_iff, avb_clear by assumption. tauto.
  - unfold exec. rewrite run_make_all by assumption. cbn [bind fst snd].
    assert (Hm' : mem_ok cg (fill (len (cg_avail cg)) false)) by (unfold mem_ok; rewrite len_fill; exact Hm).
    eexists. split; [reflexivity|]. split; [apply same_with; assumption|].
    intros n' Hp' Hd'. pose proof (conj Hp' Hd' : inb cg n') as Hn'.
    rewrite available_with by assumption. unfold avb. rewrite bit_fill_false. discriminate.
Qed.

Lemma edge_availability cg e : wf_cgraph cg ->
  in_image (G cg) (npix (enode e)) -> disp (enode e) < Lv cg ->
  in_image (G cg) (npix (enbr e)) -> disp (enbr e) < Lv cg ->
  (edge_available cg e <->
   match_pair (G cg) e /\ available cg (enode e) /\ available cg (enbr e) /\
   edge_within (G cg) (cg_lowest cg) (cg_threshold cg) e) /\
  (adjacent (npix (enode e)) (npix (enbr e)) ->
   exists b, exec (fun cg => is_edge_available cg e) cg = Ok (b, cg)).
Proof.
  intros Hc Hp Hd Hq Hd'. pose proof (wf_static cg Hc) as Hs. pose proof (wfc_avail cg Hc) as Hm.
  pose proof (conj Hp Hd : inb cg (enode e)) as Hn. pose proof (conj Hq Hd' : inb cg (enbr e)) as Hn'.
  split.
  - split.
    + intros He.
      assert (Ex : edge_exists (G cg) e = true).
      { unfold edge_available, exec, is_edge_available in He.
        destruct (edge_penalty (G cg) e) as [v|]; cbn [lift cbind] in He; [|discriminate].
        destruct (lowest_neighborhood_penalty (cg_lowest cg) e) as [w|]; cbn [lift cbind] in He; [|discriminate].
        destruct (fle (fsub v w) (cg_threshold cg)); [|discriminate].
        rewrite cbind_assoc_run, run_node in He by assumption. cbn [bind fst snd] in He.
        destruct (avb cg (cg_avail cg) (enode e)); [|discriminate].
        rewrite cbind_assoc_run, run_node in He by assumption. cbn [bind fst snd] in He.
        destruct (avb cg (cg_avail cg) (enbr e)); [|discriminate].
        cbn [run bind fst snd] in He. injection He as He _. exact He. }
      apply edge_exists_inb in Ex; [|apply Hs|exact Hn|exact Hn']. split; [exact Ex|].
      pose proof Ex as [_ [_ [A _]]].
      apply edge_available_iff in He; try assumption. destruct e as [n n']; cbn [enode enbr] in *.
      apply eab_iff in He; try assumption. destruct He as [H1 [H2 [_ H3]]].
      rewrite !available_iff by assumption. rewrite <- ewb_iff. auto.
    + intros [M [A1 [A2 Ew]]]. pose proof M as [_ [_ [A _]]].
      rewrite available_iff in A1, A2 by assumption. apply ewb_iff in Ew.
      apply edge_available_iff; try assumption. destruct e as [n n']; cbn [enode enbr] in *.
      apply eab_iff; try assumption. split; [exact A1|]. split; [exact A2|]. split; assumption.
  - intros A. exists (eab cg (cg_avail cg) e). unfold exec. rewrite run_edge by assumption.
    cbn [bind fst snd]. rewrite with_avail_same. reflexivity.
Qed.

Lemma removal_test cg n : wf_cgraph cg -> in_image (G cg) (npix n) -> disp n < Lv cg ->
  exists b, exec (fun cg => should_remove_node cg n) cg = Ok (b, cg) /\
    (b = true <->
     available cg n /\
     exists q, in_image (G cg) q /\ adjacent (npix n) q /\
       forall n', npix n' = q -> disp n' < Lv cg -> ~ edge_available cg {| enode := n; enbr := n' |}).
Proof.
  intros Hc Hp Hd. pose proof (wf_static cg Hc) as Hs. pose proof (wfc_avail cg Hc) as Hm.
  pose proof (conj Hp Hd : inb cg n) as Hn.
  exists (rmvb cg (cg_avail cg) n). split.
  - unfold exec. rewrite run_should_remove by assumption. cbn [bind fst snd]. rewrite with_avail_same. reflexivity.
  - rewrite rmvb_iff by assumption. rewrite available_iff by assumption.
    split; intros [A [q [Hq [Aj No]]]]; (split; [exact A|]); exists q; (split; [exact Hq|]); (split; [exact Aj|]).
    + intros n' En Hd' He.
      assert (Hn' : inb cg n') by (split; [rewrite En; exact Hq|exact Hd']).
      apply edge_available_iff in He; cbn [enode enbr]; try assumption; [|rewrite En; exact Aj].
      apply eab_iff in He; try assumption. apply (No n' En). tauto.
    + intros n' En [B C].
      assert (Hn' : inb cg n') by (destruct C as [[_ [M _]] _]; apply match_inb; exact M).
      apply (No n' En); [apply Hn'|].
      apply edge_available_iff; cbn [enode enbr]; try assumption; [rewrite En; exact Aj|].
      apply eab_iff; auto.
Qed.

Lemma solve_keeps_solution cg k : wf_cgraph cg -> solution cg k ->
  exists cg', exec solve_csp cg = Ok (true, cg') /\ same_problem cg cg' /\ solution cg' k.
Proof.
  intros Hc [Hk [Ha He]]. pose proof (wf_static cg Hc) as Hs. pose proof (wfc_avail cg Hc) as Hm.
  rewrite exec_solve_csp by exact Hc.
  pose proof (solved_ok cg _ Hm) as Hm'.
  assert (Hh : holds cg (label_set cg k) (cg_avail cg)).
  { apply label_holds; try assumption. rewrite with_avail_same. exact Ha. }
  destruct (holds_sweep cg _ (raster cg) (cg_avail cg) Hs Hm (raster_ok cg)
              (label_support cg k Hk He) (label_total cg k) Hh) as [F H].
  assert (Es : solved cg (cg_avail cg) = (true, snd (sweep cg (raster cg) (cg_avail cg)))).
  { unfold solved. rewrite F. reflexivity. }
  rewrite Es in *. cbn [fst snd] in *.
  eexists. split; [reflexivity|]. split; [apply same_with; assumption|].
  split; [exact Hk|]. split; [|exact He]. cbn [with_avail cg_graph].
  apply label_holds; assumption.
Qed.

Lemma solve_only_removes cg p jobs job : wf_cgraph cg -> in_image (G cg) p ->
  1 <= jobs -> Ht cg + jobs < wmod T ->
  (exists b cg', exec (fun cg => csp_process_pixel cg p) cg = Ok (b, cg') /\ same_problem cg cg' /\
     forall n, in_image (G cg) (npix n) -> disp n < Lv cg -> available cg' n -> available cg n) /\
  (exists b cg', exec (fun cg => csp_solution_iteration cg jobs job) cg = Ok (b, cg') /\ same_problem cg cg' /\
     forall n, in_image (G cg) (npix n) -> disp n < Lv cg -> available cg' n -> available cg n) /\
  (exists b cg', exec solve_csp cg = Ok (b, cg') /\ same_problem cg cg' /\
     forall n, in_image (G cg) (npix n) -> disp n < Lv cg -> available cg' n -> available cg n).
Proof.
  intros Hc Hp Hj Hjw. pose proof (wf_static cg Hc) as Hs. pose proof (wfc_avail cg Hc) as Hm.
  assert (X : forall m, mem_ok cg m -> sub m (cg_avail cg) -> same_problem cg (with_avail cg m) /\
     forall n, in_image (G cg) (npix n) -> disp n < Lv cg -> available (with_avail cg m) n -> available cg n).
  { intros m Hm' Hsub. split; [apply same_with; assumption|]. intros n. apply sub_available; assumption. }
  assert (Hnone : sub (fill (len (cg_avail cg)) false) (cg_avail cg))
    by (intros i; rewrite bit_fill_false; discriminate).
  refine (conj _ (conj _ _)).
  - unfold exec. destruct (run_process cg p _ Hs Hm Hp) as [ch ->]. cbn [bind fst snd].
    exists ch, (with_avail cg (process cg p (cg_avail cg))). split; [reflexivity|].
    apply X; [apply process_ok; exact Hm|apply sub_process; assumption].
  - unfold exec. rewrite run_iteration by assumption. cbn [bind].
    eexists _, _. split; [reflexivity|].
    apply X; [apply iter_ok; exact Hm|]. unfold iter. destruct (N.leb_spec (Ht cg) job); [apply sub_refl|].
    destruct (fst (sweep cg (job_pixels cg jobs job) (cg_avail cg))); cbn [snd]; [|exact Hnone].
    apply sub_sweep; try assumption. intros q Hq. apply In_grid in Hq. destruct Hq as [Hx Hy].
    apply In_job_rows in Hy. split; lia.
  - rewrite exec_solve_csp by exact Hc. eexists _, _. split; [reflexivity|].
    apply X; [apply solved_ok; exact Hm|]. unfold solved.
    destruct (fst (sweep cg (raster cg) (cg_avail cg))); cbn [snd]; [|exact Hnone].
    apply sub_sweep; try assumption. apply raster_ok.
Qed.

Lemma solve_all_or_nothing cg b cg' : wf_cgraph cg -> exec solve_csp cg = Ok (b, cg') ->
  (b = true -> forall p, in_image (G cg) p ->
     exists n, npix n = p /\ match_exists (G cg) n /\ available cg' n) /\
  (b = false -> forall n, in_image (G cg) (npix n) -> disp n < Lv cg -> ~ available cg' n).
Proof.
  intros Hc E. pose proof (wf_static cg Hc) as Hs. pose proof (wfc_avail cg Hc) as Hm.
  rewrite exec_solve_csp in E by exact Hc. injection E as Eb Ec. subst b cg'.
  pose proof (solved_ok cg _ Hm) as Hm'. unfold solved in *.
  pose proof (sweep_true cg (raster cg) (cg_avail cg) Hs Hm (raster_ok cg) (NoDup_raster cg)) as St.
  destruct (sweep cg (raster cg) (cg_avail cg)) as [ok m]. cbn [fst snd] in *.
  destruct ok; cbn [fst snd] in *; split; try discriminate; intros _.
  - intros p Hp. specialize (St eq_refl p (proj2 (In_raster cg p) Hp)).
    apply hasb_iff in St; try assumption. destruct St as [n [M [En A]]].
    exists n. split; [exact En|]. split; [exact M|]. apply available_with; try assumption. apply match_inb; exact M.
  - intros n Hp Hd A. apply available_with in A; [|assumption|assumption|split; assumption].
    unfold avb in A. rewrite bit_fill_false in A. discriminate.
Qed.

Lemma solve_terminates cg : wf_cgraph cg ->
  exists r, forall fuel, (2 <= fuel)%nat -> exec (solve_csp_fuel fuel 1 1) cg = Ok r.
Proof. intros Hc. eexists. intros fuel Hf. apply exec_solve; assumption. Qed.

Lemma solve_monotone (HL : laws T) cg1 cg2 cg1' : wf_cgraph cg1 -> wf_cgraph cg2 ->
  cg_graph cg2 = cg_graph cg1 -> cg_lowest cg2 = cg_lowest cg1 -> fle (cg_threshold cg1) (cg_threshold cg2) = true ->
  (forall n, in_image (G cg1) (npix n) -> disp n < Lv cg1 -> available cg1 n -> available cg2 n) ->
  exec solve_csp cg1 = Ok (true, cg1') ->
  exists cg2', exec solve_csp cg2 = Ok (true, cg2') /\
    forall n, in_image (G cg1) (npix n) -> disp n < Lv cg1 -> available cg1' n -> available cg2' n.
Proof.
  intros C1 C2 Eg El Ht Ha E. pose proof (wf_static _ C1) as H1. pose proof (wf_static _ C2) as H2.
  pose proof (wfc_avail _ C1) as M1. pose proof (wfc_avail _ C2) as M2.
  assert (Wk : weaker cg1 cg2).
  { constructor; [exact Eg|]. intros e. unfold ewb. rewrite Eg, El.
    destruct (edge_penalty (G cg1) e); [|discriminate].
    destruct (lowest_neighborhood_penalty (cg_lowest cg1) e); [|discriminate].
    intros X. eapply (fle_trans T HL); eassumption. }
  assert (Hsub : sub (cg_avail cg1) (cg_avail cg2)).
  { intros i Hi. destruct (N.lt_ge_cases i (len (cg_avail cg1))) as [Hl|Hl];
      [|rewrite bit_oob in Hi by exact Hl; discriminate].
    destruct (idx_surj cg1 _ i H1 M1 Hl) as [n [Hn <-]].
    assert (Hn2 : inb cg2 n) by (unfold inb; rewrite Eg; exact Hn).
    assert (A : available cg2 n).
    { apply Ha; try apply Hn. apply available_iff; [exact C1|exact Hn|exact Hi]. }
    apply available_iff in A; try assumption. unfold avb in A. rewrite Eg in A. exact A. }
  rewrite exec_solve_csp in E by exact C1. injection E as E1 E2.
  destruct (solved_mono cg1 cg2 _ _ H1 H2 Wk M1 M2 Hsub E1) as [F S].
  rewrite exec_solve_csp by exact C2. rewrite F.
  eexists. split; [reflexivity|]. intros n Hp Hd A. subst cg1'.
  pose proof (conj Hp Hd : inb cg1 n) as Hn.
  assert (Hn2 : inb cg2 n) by (unfold inb; rewrite Eg; exact Hn).
  apply available_with in A; [|assumption|apply solved_ok; exact M1|exact Hn].
  apply available_with; [assumption|apply solved_ok; exact M2|exact Hn2|].
  eapply avb_mono; eassumption.
Qed.

(** The same for fresh graphs. *)
Lemma solve_monotone_fresh (HL : laws T) (g : dgraph T) lp t1 t2 cg1 cg1' :
  wf_graph g -> make_lowest g = Ok lp -> fle t1 t2 = true ->
  make_constraint g lp t1 = Ok cg1 -> exec solve_csp cg1 = Ok (true, cg1') ->
  exists cg2 cg2', make_constraint g lp t2 = Ok cg2 /\ exec solve_csp cg2 = Ok (true, cg2') /\
    forall n, in_image g (npix n) -> disp n < levels g -> available cg1' n -> available cg2' n.
Proof.
  intros Hw Hl Ht E1 S1. destruct (make_constraint_Ok g lp t1 cg1 Hw Hl E1) as [C1 [G1 [L1 [T1 B1]]]].
  destruct (make_constraint_spec g lp t2 Hw Hl) as [cg2 [E2 [C2 [G2 [L2 [T2 B2]]]]]].
  destruct (solve_monotone HL cg1 cg2 cg1' C1 C2) as [cg2' [S2 M]].
  - congruence.
  - congruence.
  - rewrite T1, T2. exact Ht.
  - intros n Hp Hd A. assert (N1 : inb cg1 n) by (split; assumption).
    assert (N2 : inb cg2 n) by (unfold inb; rewrite G2, <- G1; exact N1).
    apply available_iff in A; try assumption. apply available_iff; try assumption.
    apply B2; [exact N2|]. apply B1 in A; [|exact N1]. destruct A as [A1 [v [w [V [W0 X]]]]].
    split; [exact A1|]. exists v, w. split; [exact V|split; [exact W0|]].
    eapply (fle_trans T HL); eassumption.
  - exact S1.
  - exists cg2, cg2'. split; [exact E2|]. split; [exact S2|]. intros n Hp Hd. apply M; rewrite G1; assumption.
Qed.
End Graph.
