(** Command lines of different builds. *)
From Coq Require Import Lia.
From Verif Require Export Builds_args_spec.
From Verif Require Import Args_proofs Builds_proofs Console_omp_proofs.
From Verif Require Import Console_proofs.
Local Open Scope N_scope.

Lemma chosen_some b p : (exists pa, asks_for b p pa) <-> exists pa, chosen b p = Ok pa.
Proof. split; intros [pa H]; exists pa; apply chosen_asks; exact H. Qed.

Lemma finished_status w out x e : Ok e = finishes w out x -> status e = 0.
Proof.
  unfold finishes. destruct (bind x _) as [f|[y| |]]; intros E; try discriminate E; injection E as ->; reflexivity.
Qed.

Lemma as_status x srt w args e : runs_as x srt w args (Ok e) ->
  (status e = 0 \/ status e = 1) /\
  (status e = 1 <-> (~ exists s, gives args s) \/ exists s, gives args s /\
     (~ once s \/ exists l r out t, In (ForLeft, l) s /\ In (ForRight, r) s /\ In (ForOutput, out) s /\
        In (ForParallel, t) s /\ ~ built_in x t)).
Proof.
  intros [p [P R]]. pose proof (command_line args) as (C1 & C2 & C3 & _).
  destruct p as [o| |].
  - apply C1 in P as (s & G & D & H).
    assert (Z : status e = 0 -> (forall l r out, all_paths o l r out -> exists pa, chosen (build_of x) (o_parallel o) = Ok pa) ->
      (status e = 0 \/ status e = 1) /\
      (status e = 1 <-> (~ exists s, gives args s) \/ exists s, gives args s /\
         (~ once s \/ exists l r out t, In (ForLeft, l) s /\ In (ForRight, r) s /\ In (ForOutput, out) s /\
            In (ForParallel, t) s /\ ~ built_in x t))).
    { intros E A. split; [now left|]. rewrite E. split; [discriminate|].
      intros [N|(s' & G' & N)]; [elim N; now exists s|]. rewrite (gives_same _ _ _ G' G) in N. exfalso.
      destruct N as [N|(l & r & out & t & Il & Ir & Io & It & K)]; [contradiction|]. apply K.
      apply (H ForLeft) in Il. apply (H ForRight) in Ir. apply (H ForOutput) in Io. apply (H ForParallel) in It.
      destruct (A l r out (conj Il (conj Ir Io))) as [pa Ep]. cbn [value_of] in It. rewrite It in Ep. apply chosen_asks in Ep. now exists pa. }
    assert (One : forall l r out, all_paths o l r out -> chosen (build_of x) (o_parallel o) = Stop (Throw BadParallel) -> status e = 1 ->
      (status e = 0 \/ status e = 1) /\
      (status e = 1 <-> (~ exists s, gives args s) \/ exists s, gives args s /\
         (~ once s \/ exists l r out t, In (ForLeft, l) s /\ In (ForRight, r) s /\ In (ForOutput, out) s /\
            In (ForParallel, t) s /\ ~ built_in x t))).
    { intros l r out (Hl & Hr & Ho) C E. split; [now right|]. split; [|intros _; exact E]. intros _. right. exists s. split; [exact G|]. right.
      destruct (o_parallel o) as [t|] eqn:Et; [|discriminate C]. exists l, r, out, t.
      split; [now apply (H ForLeft)|]. split; [now apply (H ForRight)|]. split; [now apply (H ForOutput)|]. split; [now apply (H ForParallel)|].
      intros [pa K]. apply chosen_asks in K. congruence. }
    destruct x as [b v|v]; unfold main_with, main_omp in R; cbn [build_of] in *;
      (destruct (o_output o) as [out|] eqn:E1, (o_left o) as [lpath|] eqn:E2, (o_right o) as [rpath|] eqn:E3;
       try (apply Z; [cbn [count N.eqb orb] in R; injection R as ->; reflexivity
                     |intros l r ou (Hl & Hr & Ho); congruence])).
    + destruct (chosen_cases b (o_parallel o)) as [[pa C]|C]; rewrite C in R.
      * destruct R as [z [_ E]]. apply Z; [exact (finished_status _ _ _ _ E)|]. intros. now exists pa.
      * apply (One lpath rpath out (conj E2 (conj E3 E1)) C). injection R as ->. reflexivity.
    + pose proof (chosen_plain (o_parallel o)) as C. destruct (chosen_cases no_devices (o_parallel o)) as [[pa C']|C'];
        rewrite C' in C; destruct (check_parallel (o_parallel o)) as [u|y]; try discriminate C.
      * destruct R as [z [_ E]]. apply Z; [exact (finished_status _ _ _ _ E)|]. intros. now exists pa.
      * injection C as <-. apply (One lpath rpath out (conj E2 (conj E3 E1)) C'). injection R as ->. reflexivity.
  - assert (E : status e = 1) by (destruct x; cbn [main_with main_omp] in R; injection R as ->; reflexivity).
    split; [now right|]. split; [|intros _; exact E]. intros _. right. apply C2 in P as (s & G & D). exists s. split; [exact G|now left].
  - assert (E : status e = 1) by (destruct x; cbn [main_with main_omp] in R; injection R as ->; reflexivity).
    split; [now right|]. split; [|intros _; exact E]. intros _. left. now apply C3.
Qed.

Lemma as_no_images x srt w args s e : gives args s -> once s ->
  (forall v, ~ In (ForLeft, v) s) \/ (forall v, ~ In (ForRight, v) s) ->
  runs_as x srt w args e <-> e = Ok (ends 0 (Some NoImages) None).
Proof.
  intros G D N. destruct (proj1 (gives_options args s G) D) as (o & P & H).
  assert (E : o_left o = None \/ o_right o = None).
  { destruct N as [N|N]; [left|right].
    - destruct (o_left o) as [v|] eqn:E; [|reflexivity]. elim (N v). now apply (H ForLeft).
    - destruct (o_right o) as [v|] eqn:E; [|reflexivity]. elim (N v). now apply (H ForRight). }
  assert (M : forall e, (match x with Devices b v => main_with b v srt w (Parsed o) e | Team v => main_omp v srt w (Parsed o) e end)
    <-> e = Ok (ends 0 (Some NoImages) None)).
  { intros e'. destruct x as [b v|v]; unfold main_with, main_omp;
    destruct E as [E|E]; rewrite E; destruct (o_output o); try reflexivity; destruct (o_left o); reflexivity. }
  unfold runs_as. split.
  - intros [p [P' R]]. rewrite P in P'. injection P' as <-. now apply M.
  - intros ->. exists (Parsed o). split; [exact P|]. now apply M.
Qed.
From Coq Require Import String.
From Verif Require Import Device_witness Omp_witness Series_witness Builds_witness.
Lemma as_example : runs_as dev (@isort cpu) wg args_device (Ok (ends 0 None (Some (out_path, textg)))) /\ built_in dev (lit "CUDA") /\
  ~ built_in crew (lit "CUDA") /\ runs_as crew (@isort cpu) wg args_device (Ok (ends 1 (Some UnexpectedException) None)).
Proof.
  split; [exact run_device|]. split; [exists (On CUDA); apply chosen_asks; vm_compute; reflexivity|]. split.
  - intros [pa A]. apply chosen_asks in A. vm_compute in A. discriminate A.
  - exists (Parsed (od CUDA)). split; [vm_compute; reflexivity|]. vm_compute. reflexivity.
Qed.
Lemma help_as x srt w args e : In args [[]; [lit "-h"]; [lit "--help"]; [lit "l.pgm"; lit "r.pgm"; lit "map.pgm"]] ->
  runs_as x srt w args e <-> e = Ok (ends 0 (Some NoImages) None).
Proof.
  intros H. assert (E : exists o, parse_command_line args = Some (Parsed o) /\ o_left o = None /\ o_right o = None /\ o_output o = None).
  { cbn [In] in H. decompose [or] H; try contradiction; subst; vm_compute; eexists; repeat split; reflexivity. }
  destruct E as (o & P & E1 & E2 & E3). unfold runs_as. rewrite P. split.
  - intros [p [X R]]. injection X as <-. destruct x; cbn [main_with main_omp] in R; rewrite E3 in R; rewrite E1 in R; exact R.
  - intros ->. exists (Parsed o). split; [reflexivity|]. destruct x; cbn [main_with main_omp]; rewrite E3, E1; reflexivity.
Qed.
