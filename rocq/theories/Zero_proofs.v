(** Graphs with a zero reparametrization: the ones the application works on. *)
From Verif Require Export Solver_proofs.
Local Open Scope N_scope.

Section Graph.
Context {T : target} (HL : laws T).
Implicit Type g : dgraph T.

Lemma feq_sym (a b : F T) : feq a b = true -> feq b a = true.
Proof. rewrite !(feq_spec T HL). tauto. Qed.
Lemma feq_trans (a b c : F T) : feq a b = true -> feq b c = true -> feq a c = true.
Proof.
  rewrite !(feq_spec T HL). intros [A B] [C D]. split; eapply (fle_trans T HL); eassumption.
Qed.
Lemma feq_refl (a : F T) : is_number a -> feq a a = true.
Proof. intros H. apply (feq_spec T HL). split; exact H. Qed.
Lemma feq_le (a b : F T) : feq a b = true -> fle a b = true.
Proof. rewrite (feq_spec T HL). tauto. Qed.
Lemma feq_ge (a b : F T) : feq a b = true -> fle b a = true.
Proof. rewrite (feq_spec T HL). tauto. Qed.

Lemma flt_not_le (a b : F T) : flt a b = true -> fle b a = false.
Proof. rewrite (flt_spec T HL). tauto. Qed.
Lemma flt_le (a b : F T) : flt a b = true -> fle a b = true.
Proof. rewrite (flt_spec T HL). tauto. Qed.
Lemma not_flt_le (a b : F T) : is_number a -> is_number b -> flt a b = false -> fle b a = true.
Proof.
  intros Na Nb H. destruct (fle b a) eqn:E; [reflexivity|].
  destruct (fle_total T HL a b Na Nb) as [X|X]; [|congruence].
  assert (flt a b = true) by (apply (flt_spec T HL); auto). congruence.
Qed.
Lemma not_le_flt (a b : F T) : is_number a -> is_number b -> fle b a = false -> flt a b = true.
Proof.
  intros Na Nb H. apply (flt_spec T HL). split; [|exact H].
  destruct (fle_total T HL a b Na Nb) as [X|X]; [exact X|congruence].
Qed.
Lemma flt_number (a b : F T) : flt a b = true -> is_number a /\ is_number b.
Proof. intros H. apply (fle_number T HL). apply flt_le; exact H. Qed.
Lemma flt_irrefl (a : F T) : flt a a = true -> False.
Proof. rewrite (flt_spec T HL). intros [A B]. congruence. Qed.
Lemma flt_le_trans (a b c : F T) : flt a b = true -> fle b c = true -> flt a c = true.
Proof.
  rewrite !(flt_spec T HL). intros [A B] C. split; [eapply (fle_trans T HL); eassumption|].
  destruct (fle c a) eqn:E; [|reflexivity].
  assert (fle b a = true) by (eapply (fle_trans T HL); eassumption). congruence.
Qed.
Lemma fle_lt_trans (a b c : F T) : fle a b = true -> flt b c = true -> flt a c = true.
Proof.
  rewrite !(flt_spec T HL). intros A [B C]. split; [eapply (fle_trans T HL); eassumption|].
  destruct (fle c a) eqn:E; [|reflexivity].
  assert (fle c b = true) by (eapply (fle_trans T HL); eassumption). congruence.
Qed.

Lemma sub_feq_r (a b c : F T) : ffin a = true -> ffin b = true -> ffin c = true ->
  feq b c = true -> feq (fsub a b) (fsub a c) = true.
Proof.
  intros Fa Fb Fc E. apply (feq_spec T HL) in E. destruct E as [E1 E2]. apply (feq_spec T HL).
  split; apply (sub_mono_r T HL); assumption.
Qed.

(** Penalties of an edge with a zero reparametrization. *)
Definition epen g (d d' : N) : F T := fmul (smoothness g) (fsqr (fsub (of_u d) (of_u d'))).

Lemma epen_fin_parts g d d' : ffin (epen g d d') = true ->
  ffin (smoothness g) = true /\ ffin (fsqr (fsub (t := T) (of_u d) (of_u d'))) = true /\
  ffin (fsub (t := T) (of_u d) (of_u d')) = true /\ ffin (of_u (t := T) d) = true /\ ffin (of_u (t := T) d') = true.
Proof.
  unfold epen. intros H. apply (fin_mul T HL) in H. destruct H as [A B].
  assert (C : ffin (fsub (t := T) (of_u d) (of_u d')) = true) by (apply (fin_mul T HL) in B; apply B).
  destruct (fin_sub T HL _ _ C) as [D E]. auto 10.
Qed.

Lemma epen_sym g d d' : ffin (epen g d d') = true -> epen g d d' = epen g d' d.
Proof.
  intros H. destruct (epen_fin_parts g d d' H) as [_ [_ [_ [A B]]]].
  unfold epen. rewrite (sqr_sub T HL) by assumption. reflexivity.
Qed.

Lemma epen_same g d : ffin (epen g d d) = true -> feq (epen g d d) fzero = true.
Proof.
  intros H. destruct (epen_fin_parts g d d H) as [A [B [C [D _]]]].
  unfold epen. apply (mul_zero T HL); [exact A|]. unfold fsqr.
  apply (mul_zero T HL); [exact C|]. apply (sub_self T HL); exact D.
Qed.

Lemma epen_nonneg g d d' : ffin (epen g d d') = true -> flt (smoothness g) fzero = false ->
  fle fzero (epen g d d') = true.
Proof.
  intros H Hs. destruct (epen_fin_parts g d d' H) as [A [B _]].
  unfold epen. apply (mul_nonneg T HL); [exact H| |apply (sqr_nonneg T HL); exact B].
  apply not_flt_le; [apply (fin_number T HL); exact A|apply (fin_number T HL), (fin_zero T HL)|exact Hs].
Qed.

Lemma epen_eq g n m : wf_graph g -> zero_reparam g ->
  in_image g (npix n) -> disp n < levels g -> in_image g (npix m) -> disp m < levels g ->
  adjacent (npix n) (npix m) ->
  edge_penalty g {| enode := n; enbr := m |} = Ok (epen g (disp n) (disp m)).
Proof. intros. apply edge_penalty_zero; assumption. Qed.

Lemma epen_fin g n m : wf_graph g -> zero_reparam g -> finite_penalties g ->
  match_exists g n -> match_exists g m -> adjacent (npix n) (npix m) ->
  ffin (epen g (disp n) (disp m)) = true.
Proof.
  intros Hw Hz [_ Hf] Hn Hm A. destruct (Hf {| enode := n; enbr := m |} Hn Hm A) as [v [Ev Fv]].
  rewrite (epen_eq g n m Hw Hz) in Ev; try assumption; try apply Hn; try apply Hm.
  injection Ev as <-. exact Fv.
Qed.

Lemma lowest_nbr_zero g p q : wf_graph g -> zero_reparam g -> finite_penalties g -> nonneg_weights g ->
  in_image g p -> in_image g q -> adjacent p q ->
  exists m, calculate_lowest_neighborhood_penalty g p q = Ok m /\ ffin m = true /\ feq m fzero = true.
Proof.
  intros Hw Hz Hf [_ Hs] Hp Hq A.
  destruct (lowest_nbr_Ok g p q Hw Hp Hq A) as [m [Em [d [d' [M1 [M2 [Ho Ed]]]]]]].
  pose proof (epen_fin g _ _ Hw Hz Hf M1 M2 A) as Fm. cbn [disp] in Fm.
  unfold pair_edge in Ed. cbn [fst snd] in Ed.
  rewrite (epen_eq g _ _ Hw Hz) in Ed; try assumption; try apply M1; try apply M2. cbn [disp] in Ed.
  injection Ed as <-. exists (epen g d d'). split; [exact Em|]. split; [exact Fm|].
  apply (feq_spec T HL). split; [|apply epen_nonneg; assumption].
  pose proof (zero_match g p Hw Hp) as Z1. pose proof (zero_match g q Hw Hq) as Z2.
  pose proof (epen_fin g _ _ Hw Hz Hf Z1 Z2 A) as F0. cbn [disp] in F0.
  eapply (fle_trans T HL); [|apply feq_le, epen_same; exact F0].
  eapply (lowest_nbr_min HL g p q _ Hw Hp Hq A); [|exact Em|exact Z1|exact Z2|right; lia|].
  - intros a a' v Ma Ma' Ev. unfold pair_edge in Ev. cbn [fst snd] in Ev.
    rewrite (epen_eq g _ _ Hw Hz) in Ev; try assumption; try apply Ma; try apply Ma'.
    injection Ev as <-. apply (fin_number T HL).
    apply (epen_fin g {| npix := p; disp := a |} {| npix := q; disp := a' |}); assumption.
  - unfold pair_edge. cbn [fst snd]. apply epen_eq; try assumption; try apply Z1; apply Z2.
Qed.

Lemma edge_excess_zero g lp n n' : wf_graph g -> make_lowest g = Ok lp ->
  zero_reparam g -> finite_penalties g -> nonneg_weights g ->
  match_exists g n -> match_exists g n' -> adjacent (npix n) (npix n') ->
  exists c, edge_excess g lp {| enode := n; enbr := n' |} c /\ feq c (epen g (disp n) (disp n')) = true.
Proof.
  intros Hw Hl Hz Hf Hs Hn Hn' A.
  destruct (lowest_nbr_zero g (npix n) (npix n') Hw Hz Hf Hs) as [m [Em [Fm Zm]]];
    try assumption; [apply Hn|apply Hn'|].
  pose proof (epen_fin g n n' Hw Hz Hf Hn Hn' A) as Fv.
  exists (fsub (epen g (disp n) (disp n')) m). split.
  - exists (epen g (disp n) (disp n')), m. split; [apply epen_eq; try assumption; try apply Hn; apply Hn'|].
    split; [|reflexivity]. rewrite lowest_nbr_value with (g := g); cbn [enode enbr]; try assumption; [apply Hn|apply Hn'].
  - rewrite <- (sub_zero T HL (epen g (disp n) (disp n'))) at 2.
    apply sub_feq_r; try assumption. apply (fin_zero T HL).
Qed.

Lemma edge_excess_fun g lp e c c' : edge_excess g lp e c -> edge_excess g lp e c' -> c = c'.
Proof. intros [v [m [V [M ->]]]] [v' [m' [V' [M' ->]]]]. congruence. Qed.
Lemma node_excess_fun g lp e c c' : node_excess g lp e c -> node_excess g lp e c' -> c = c'.
Proof. intros [v [m [V [M ->]]]] [v' [m' [V' [M' ->]]]]. congruence. Qed.

Lemma edge_within_excess g lp t e c : edge_excess g lp e c -> (edge_within g lp t e <-> fle c t = true).
Proof.
  intros [v [m [V [M ->]]]]. split.
  - intros [v' [m' [V' [M' L]]]]. congruence.
  - intros L. exists v, m. auto.
Qed.
Lemma node_within_excess g lp t n c : node_excess g lp n c -> (node_within g lp t n <-> fle c t = true).
Proof.
  intros [v [m [V [M ->]]]]. split.
  - intros [v' [m' [V' [M' L]]]]. congruence.
  - intros L. exists v, m. auto.
Qed.

Lemma feq_le_iff (a b t : F T) : feq a b = true -> (fle a t = true <-> fle b t = true).
Proof.
  intros E. split; intros H; eapply (fle_trans T HL); try exact H; [apply feq_ge|apply feq_le]; exact E.
Qed.

Lemma edge_within_zero g lp t n n' : wf_graph g -> make_lowest g = Ok lp ->
  zero_reparam g -> finite_penalties g -> nonneg_weights g ->
  match_exists g n -> match_exists g n' -> adjacent (npix n) (npix n') ->
  edge_within g lp t {| enode := n; enbr := n' |} <-> fle (epen g (disp n) (disp n')) t = true.
Proof.
  intros Hw Hl Hz Hf Hs Hn Hn' A.
  destruct (edge_excess_zero g lp n n' Hw Hl Hz Hf Hs Hn Hn' A) as [c [Ec Q]].
  rewrite (edge_within_excess g lp t _ c Ec). apply feq_le_iff; exact Q.
Qed.

Lemma edge_within_reverse g lp t n n' : wf_graph g -> make_lowest g = Ok lp ->
  zero_reparam g -> finite_penalties g -> nonneg_weights g ->
  match_exists g n -> match_exists g n' -> adjacent (npix n) (npix n') ->
  edge_within g lp t {| enode := n; enbr := n' |} <-> edge_within g lp t {| enode := n'; enbr := n |}.
Proof.
  intros Hw Hl Hz Hf Hs Hn Hn' A. rewrite !edge_within_zero; try assumption; [|apply adjacent_sym; exact A].
  rewrite (epen_sym g (disp n) (disp n')); [reflexivity|]. apply epen_fin; assumption.
Qed.

Lemma edge_available_symmetric (cg : cgraph T) e : wf_cgraph cg -> make_lowest (cg_graph cg) = Ok (cg_lowest cg) ->
  zero_reparam (cg_graph cg) -> finite_penalties (cg_graph cg) -> nonneg_weights (cg_graph cg) ->
  in_image (cg_graph cg) (npix (enode e)) -> disp (enode e) < levels (cg_graph cg) ->
  in_image (cg_graph cg) (npix (enbr e)) -> disp (enbr e) < levels (cg_graph cg) ->
  edge_available cg e <-> edge_available cg (reverse e).
Proof.
  intros Hc Hl Hz Hf Hs Hp Hd Hq Hd'.
  rewrite (proj1 (edge_availability cg e Hc Hp Hd Hq Hd')).
  rewrite (proj1 (edge_availability cg (reverse e) Hc Hq Hd' Hp Hd)).
  rewrite <- match_pair_reverse. cbn [reverse enode enbr].
  assert (X : match_pair (cg_graph cg) e ->
    (edge_within (cg_graph cg) (cg_lowest cg) (cg_threshold cg) e <->
     edge_within (cg_graph cg) (cg_lowest cg) (cg_threshold cg) (reverse e))).
  { intros [M1 [M2 [A _]]]. destruct e as [n n'].
    apply edge_within_reverse; try assumption; apply Hc. }
  unfold reverse in X. tauto.
Qed.

(** The minimum over the existing edges, for the right, upper and lower neighbor. *)
Lemma lowest_nbr_edges g lp p q : wf_graph g -> make_lowest g = Ok lp ->
  in_image g p -> in_image g q -> adjacent p q -> ~ horizontal_pair q p ->
  (forall e v, match_exists g (enode e) -> match_exists g (enbr e) ->
     adjacent (npix (enode e)) (npix (enbr e)) -> edge_penalty g e = Ok v -> is_number v) ->
  exists m, lowest_neighborhood_penalty_fast lp p q = Ok m /\
    (forall e v, match_pair g e -> npix (enode e) = p -> npix (enbr e) = q ->
       edge_penalty g e = Ok v -> fle m v = true) /\
    (exists e, match_pair g e /\ npix (enode e) = p /\ npix (enbr e) = q /\ edge_penalty g e = Ok m).
Proof.
  intros Hw Hl Hp Hq A Hnl Hnum.
  destruct (lowest_nbr_Ok g p q Hw Hp Hq A) as [m [Em [d [d' [M1 [M2 [Ho Ed]]]]]]].
  exists m. split; [rewrite (lowest_nbr_fast_value g lp p q Hw Hl Hp Hq A); exact Em|].
  assert (Hord : forall a a', px q = px p \/ a <= a' + 1 ->
    in_order {| npix := p; disp := a |} {| npix := q; disp := a' |}).
  { intros a a' H. unfold in_order, adjacent, horizontal_pair, vertical_pair in *. cbn [npix disp]. lia. }
  split.
  - intros [[p1 a] [q1 a']] v Hm Ep Eq Ev. cbn [enode enbr npix] in Ep, Eq. subst p1 q1.
    destruct Hm as [Ma [Ma' [_ O]]]. cbn [enode enbr] in *.
    eapply (lowest_nbr_min HL g p q m Hw Hp Hq A); [|exact Em|exact Ma|exact Ma'| |exact Ev].
    + intros b b' w Mb Mb' Ew. exact (Hnum (pair_edge p q (b, b')) w Mb Mb' A Ew).
    + destruct O as [O _]. cbn [npix disp] in O.
      unfold adjacent, horizontal_pair, vertical_pair in *. lia.
  - exists (pair_edge p q (d, d')). unfold pair_edge. cbn [fst snd enode enbr npix].
    split; [|split; [reflexivity|split; [reflexivity|exact Ed]]].
    split; [exact M1|]. split; [exact M2|]. split; [exact A|]. apply Hord; exact Ho.
Qed.

(** The same for every neighbor with a zero reparametrization, up to the sign of zero. *)
Lemma lowest_nbr_edges_zero g lp p q : wf_graph g -> make_lowest g = Ok lp ->
  zero_reparam g -> finite_penalties g -> nonneg_weights g ->
  in_image g p -> in_image g q -> adjacent p q ->
  exists m, lowest_neighborhood_penalty_fast lp p q = Ok m /\
    (forall e v, match_pair g e -> npix (enode e) = p -> npix (enbr e) = q ->
       edge_penalty g e = Ok v -> fle m v = true) /\
    (exists e v, match_pair g e /\ npix (enode e) = p /\ npix (enbr e) = q /\ edge_penalty g e = Ok v /\
       feq m v = true).
Proof.
  intros Hw Hl Hz Hf Hs Hp Hq A.
  destruct (lowest_nbr_zero g p q Hw Hz Hf Hs Hp Hq A) as [m [Em [Fm Zm]]].
  exists m. split; [rewrite (lowest_nbr_fast_value g lp p q Hw Hl Hp Hq A); exact Em|].
  split.
  - intros [[p1 a] [q1 a']] v Hm Ep Eq Ev. cbn [enode enbr npix] in Ep, Eq. subst p1 q1.
    destruct Hm as [Ma [Ma' _]]. cbn [enode enbr] in *.
    rewrite (epen_eq g _ _ Hw Hz) in Ev; try assumption; try apply Ma; try apply Ma'. injection Ev as <-.
    eapply (fle_trans T HL); [apply feq_le; exact Zm|].
    apply epen_nonneg; [|apply Hs]. apply (epen_fin g {| npix := p; disp := a |} {| npix := q; disp := a' |}); assumption.
  - pose proof (zero_match g p Hw Hp) as Z1. pose proof (zero_match g q Hw Hq) as Z2.
    exists (pair_edge p q (0, 0)), (epen g 0 0). unfold pair_edge. cbn [fst snd enode enbr npix].
    split.
    { split; [exact Z1|]. split; [exact Z2|]. split; [exact A|].
      unfold in_order, horizontal_pair. cbn [enode enbr npix disp]. lia. }
    split; [reflexivity|]. split; [reflexivity|]. split.
    { apply epen_eq; try assumption; try apply Z1; apply Z2. }
    eapply feq_trans; [exact Zm|]. apply feq_sym, epen_same.
    apply (epen_fin g _ _ Hw Hz Hf Z1 Z2 A).
Qed.
End Graph.
