(** Lemmas about functions of the library that the properties of the solver use only
    inside of larger ones. *)
From Verif Require Export Graph_proofs Fetch_proofs Constraint_proofs.
Local Open Scope N_scope.

Section Graph.
Context {T : target}.
Implicit Types (g : dgraph T) (cg : cgraph T).

Lemma potentials g n m k : wf_graph g -> in_image g (npix n) -> disp n < levels g -> in_image g (npix m) ->
  slot_of k (npix n) (npix m) ->
  exists v, get (reparam g) (potential_at g n k) = Ok v /\ reparametrization_value_fast g n k = Ok v /\
    reparametrization_value g n (npix m) = Ok v /\ reparametrization_value_slow g {| enode := n; enbr := m |} = Ok v.
Proof.
  intros Hw Hn Hd Hm S. destruct (reparametrization_addressing T g Hw) as [A [_ B]].
  assert (Hk : k < 4) by (eapply slot_of_lt; exact S).
  destruct (get_in_bounds _ _ (A n k Hn Hd Hk)) as [v Ev]. destruct (B n m k Hn Hm S) as [E1 E2].
  exists v. unfold reparametrization_value, reparametrization_value_slow. rewrite E1, E2.
  split; [|auto]. apply potential_spec; assumption.
Qed.

Lemma nodes_left cg : wf_cgraph cg ->
  exists b, exec check_nodes_left cg = Ok (b, cg) /\
    (b = true <-> exists n, in_image (cg_graph cg) (npix n) /\ disp n < levels (cg_graph cg) /\ available cg n).
Proof.
  intros Hw. pose proof (wf_static cg Hw) as Hs. pose proof (wfc_avail cg Hw) as Hm.
  exists (existsb (fun b => b) (cg_avail cg)). split.
  - unfold exec. rewrite (run_check_nodes cg (cg_avail cg) Hs Hm). cbn [bind fst snd]. destruct cg. reflexivity.
  - rewrite any_bit. split.
    + intros [i [Hi Ei]]. destruct (idx_surj cg (cg_avail cg) i Hs Hm Hi) as [n [Hn En]].
      exists n. destruct Hn as [H1 H2]. split; [exact H1|]. split; [exact H2|].
      apply available_iff; [exact Hw|split; assumption|]. unfold avb. rewrite En. exact Ei.
    + intros [n [H1 [H2 A]]]. exists (node_index (cg_graph cg) n).
      split; [exact (idx_lt cg _ n Hs Hm (conj H1 H2))|]. apply available_iff in A; [exact A|exact Hw|split; assumption].
Qed.
End Graph.
