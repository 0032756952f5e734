(** What propagation on a device decides, and images of one row on devices: lemmas. *)
From Coq Require Import Lia.
From Verif Require Export Row_proofs Gpu_facts Same_proofs.
Local Open Scope N_scope.

Section Graph.
Context {T : target} (HL : laws T) (HO : order_laws T).
Implicit Type cg : cgraph T.
Notation G cg := (cg_graph cg).
Notation nd p d := {| npix := p; disp := d |}.

Lemma solution_labels_ac cg k : wf_cgraph cg -> solution cg k ->
  arc_consistent cg (fun n => in_image (G cg) (npix n) /\ disp n = k (npix n)).
Proof.
  intros Hc [[K1 K2] [K3 K4]] [p d] [Hp E]. cbn [npix disp] in Hp, E. subst d.
  split; [apply K1; exact Hp|]. split; [apply K3; exact Hp|]. intros q Hq A. cbn [npix] in A.
  exists (label_node k q). split; [reflexivity|]. split; [split; [exact Hq|reflexivity]|]. split.
  - split; [apply K1; exact Hp|]. split; [apply K1; exact Hq|]. split; [exact A|]. apply K2; assumption.
  - apply (K4 p q Hp Hq A).
Qed.

(** Propagation that settles keeps exactly the labelings. *)
Lemma settling_keeps cg a kind (partition : (nat -> nat) -> Prop) m f m' f' :
  plain_problem cg -> mem_ok cg m -> propagate cg a true kind partition m f m' f' -> settled (with_avail cg m') ->
  forall k, solution (with_avail cg m') k <-> solution (with_avail cg m) k.
Proof.
  intros P Hm Pr St k. pose proof (wf_static cg (pp_wf cg P)) as Hs.
  destruct (propagate_sub cg a true kind partition Hs m f m' f' Hm Pr) as [Hm' Sub]. split; intros S.
  - exact (solution_sub cg m m' k Hs Hm Hm' Sub S).
  - pose proof S as [K1 [_ K3]]. split; [exact K1|]. split; [|exact K3]. intros p Hp.
    apply (settled_largest cg a true kind partition m f m' f' Hs Hm Pr St (label_node k p) (proj1 K1 p Hp)).
    eexists. split; [apply (solution_labels_ac (with_avail cg m) k); [apply static_wf; assumption|exact S]|].
    cbn [npix disp label_node]. auto.
Qed.

Lemma solution_everywhere cg k : solution cg k -> everywhere_available cg.
Proof. intros [[K1 _] [K2 _]] p Hp. exists (label_node k p). auto. Qed.

Lemma device_decides cg a v f m' f' : plain_problem cg -> orderly a v ->
  propagate cg a true (b_kind v) (b_partition v) (cg_avail cg) f m' f' ->
  (everywhere_available (with_avail cg m') <-> exists k, solution cg k) /\
  (forall k, solution (with_avail cg m') k <-> solution cg k).
Proof.
  intros P Or Pr. pose proof (pp_wf cg P) as Hc. pose proof (wf_static cg Hc) as Hs. pose proof (wfc_avail cg Hc) as Hm.
  fold (mem_ok cg (cg_avail cg)) in Hm.
  pose proof (settles_orderly cg a v Hs Or _ f m' f' Hm Pr) as St.
  pose proof (settling_keeps cg a _ _ _ f m' f' P Hm Pr St) as Kp. rewrite with_avail_same in Kp.
  split; [|exact Kp]. split.
  - intros Ev. destruct (propagate_sub cg a true _ _ Hs _ f m' f' Hm Pr) as [Hm' _].
    destruct (settled_solution HL HO _ (plain_with cg m' P Hm') St Ev) as [k S]. exists k. apply Kp. exact S.
  - intros [k S]. apply Kp in S. exact (solution_everywhere _ k S).
Qed.

(** *** One row *)

Lemma row_device cg a v : plain_problem cg -> height (right (G cg)) = 1 -> orderly a v ->
  forall ps m f m' f', label_device cg a true (b_kind v) (b_partition v) ps m f m' f' ->
  pixels_ok cg ps -> mem_ok cg m -> extends cg m -> (forall p, in_image (G cg) p -> hasb cg m p = true) ->
  mem_ok cg m' /\ exists k, solution (with_avail cg m') k.
Proof.
  intros P Hh Or ps m f m' f' LD. pose proof (wf_static cg (pp_wf cg P)) as Hs.
  induction LD as [m f|p ps m b m1 f m2 f2 m' f' E Pr LD IH]; intros Hps Hm Ext Has.
  - split; [exact Hm|]. specialize (Has _ (origin_in cg Hs)). apply hasb_iff in Has; [|exact Hs|apply origin_in; exact Hs].
    destruct Has as [n [M [_ A]]]. destruct (Ext n M A) as [k [S _]]. exists k. exact S.
  - assert (Hp : in_image (G cg) p) by (apply Hps; left; reflexivity).
    destruct (run_choose cg m p HL Hs Hm Hp) as [b' [m1' [E' [Hm1 [Sub1 [Oth [Eb [_ HT]]]]]]]].
    rewrite E in E'. injection E' as <- <-. rewrite (Has p Hp) in Eb. subst b.
    destruct (HT eq_refl) as [d [M [A [One _]]]].
    destruct (Ext (nd p d) M A) as [k [S Ek]]. cbn [npix disp] in Ek.
    assert (S1 : solution (with_avail cg m1) k).
    { destruct S as [K1 [K2 K3]]. split; [exact K1|]. split; [|exact K3]. intros q Hq.
      pose proof (proj1 K1 q Hq) as Mq. pose proof (match_inb cg _ Mq) as I.
      specialize (K2 q Hq). apply available_with in K2; try assumption. apply available_with; try assumption.
      destruct (pixel_dec q p) as [->|Hne].
      - unfold label_node in *. rewrite Ek in *. apply One; [exact M|reflexivity].
      - rewrite Oth; [exact K2|exact I|exact Hne]. }
    destruct (propagate_sub cg a true _ _ Hs m1 f m2 f2 Hm1 Pr) as [Hm2 _].
    pose proof (settles_orderly cg a v Hs Or m1 f m2 f2 Hm1 Pr) as St.
    apply (settling_keeps cg a _ _ m1 f m2 f2 P Hm1 Pr St) in S1.
    apply IH.
    + intros q Hq. apply Hps. right. exact Hq.
    + exact Hm2.
    + exact (settled_extends HL (with_avail cg m2) (plain_with cg m2 P Hm2) Hh St).
    + intros q Hq. apply hasb_iff; try assumption. exists (label_node k q). destruct S1 as [K1 [K2 _]].
      split; [apply K1; exact Hq|]. split; [reflexivity|].
      specialize (K2 q Hq). apply available_with in K2; try assumption. apply match_inb. apply (proj1 K1 q Hq).
Qed.

Lemma row_device_labeling cg a v m' : plain_problem cg -> height (right (G cg)) = 1 -> settled cg -> everywhere_available cg ->
  orderly a v -> csp_solution cg a true (b_kind v) (b_partition v) m' -> exists k, solution (with_avail cg m') k.
Proof.
  intros P Hh St Ev Or [f [f' [_ LD]]]. pose proof (pp_wf cg P) as Hc. pose proof (wf_static cg Hc) as Hs.
  pose proof (wfc_avail cg Hc) as Hm. fold (mem_ok cg (cg_avail cg)) in Hm.
  apply (row_device cg a v P Hh Or _ _ _ _ _ LD).
  - intros p Hp. change (device_order cg) with (all_pixels (width (right (G cg))) (height (right (G cg)))) in Hp.
    apply In_all_pixels in Hp. exact Hp.
  - exact Hm.
  - apply settled_extends; assumption.
  - intros p Hp. destruct (Ev p Hp) as [n [En [M A]]]. apply hasb_iff; try assumption. exists n.
    split; [exact M|]. split; [exact En|]. apply available_iff in A; [exact A|exact Hc|apply match_inb; exact M].
Qed.
End Graph.
