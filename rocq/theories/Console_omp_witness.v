(** Examples of what the application built with OpenMP prints. *)
From Coq Require Import Lia String.
From Verif Require Export Omp_witness Console_witness Console_omp_proofs.
Local Open Scope N_scope.

Lemma omp_asks_plain : asks_for no_devices (o_parallel (og out_path)) OnCpu.
Proof. apply chosen_asks. vm_compute. reflexivity. Qed.
Lemma omp_refuses t : In t [lit "cuda"; lit "opencl"; lit "threads"] -> ~ asks_for no_devices (Some t) OnCpu.
Proof. intros H A. apply chosen_asks in A. cbn [In] in H. decompose [or] H; subst; try contradiction; vm_compute in A; discriminate. Qed.

Lemma omp_quiet : exists u, main_told_omp lib0 two_team (@isort cpu) wg (Parsed (og out_path)) (Ok u) /\ exit_status u = 0 /\
  saved u = Some (out_path, textg) /\ cerr u = [].
Proof.
  destruct (proj1 (omp_reported lib0 two_team (@isort cpu) wg (Parsed (og out_path))) _ two_run) as [[u|x] [M R]]; [|destruct R].
  exists u. split; [exact M|]. destruct R as [X [S E]]. split; [exact X|]. split; [exact S|exact E].
Qed.
Lemma omp_five v srt : main_told_omp lib0 v srt wg (Parsed o_five)
  (Ok {| exit_status := 0; cout := lit "OpenMP parallelism" ++ [newline]; cerr := text_five; saved := None |}).
Proof. apply (unsuitable_early lib0 v any_device srt wg o_five 3 gl gr 5 _ (five_unsuitable no_devices)). apply told_five. Qed.
Lemma five_refused : ~ accepted_problem wg (Parsed o_five).
Proof.
  intros (o & lp & rp & out & l & r & lev & c & s & g & X & [E1 [E2 E3]] & Hl & Hr & Nl & Nc & Ns & G). injection X as <-.
  pose proof (five_unsuitable no_devices) as [[lp' [El Hl']] [rp' [Er Hr']] _ _ [Sl Sr] Nl' (c' & s' & Nc' & Ns' & V)].
  rewrite E1 in El. injection El as <-. rewrite E2 in Er. injection Er as <-.
  destruct (held_usable _ _ _ wg_usable Hl) as [S1 _]. destruct (held_usable _ _ _ wg_usable Hr) as [S2 _].
  pose proof (held_read _ _ _ Hl) as R1. pose proof (held_read _ _ _ Hl') as R1'. pose proof (held_read _ _ _ Hr) as R2. pose proof (held_read _ _ _ Hr') as R2'.
  rewrite R1 in R1' by (unfold vector_max_size; lia). rewrite R2 in R2' by (unfold vector_max_size; lia).
  assert (l = gl) by (specialize (R1' ltac:(unfold vector_max_size; lia)); congruence).
  assert (r = gr) by (specialize (R2' ltac:(unfold vector_max_size; lia)); congruence). subst l r.
  apply number_value in Nl. apply number_value in Nl'. apply number_value in Nc. apply number_value in Nc'. apply number_value in Ns. apply number_value in Ns'.
  assert (lev = 5) by congruence. assert (c = c') by congruence. assert (s = s') by congruence. subst.
  pose proof (first_stops gl gr 5 (@of_u cpu c') (of_u s') 3 ltac:(discriminate) (held_consistent _ _ _ Hl') (held_consistent _ _ _ Hr') Sl Sr V). congruence.
Qed.

Lemma omp_unsolved : exists v srt w p e m, sorts srt /\ usable_files w /\ orderly_team v /\ main_omp v srt w p (Ok e) /\
  printed e = Some m /\ ~ can_appear m.
Proof.
  exists two_team, (@isort cpu), w76, (Parsed o76), (ends 0 (Some (LogicError CannotSolve)) None), (LogicError CannotSolve).
  split; [exact (isort_sorts cpu_laws)|]. split; [exact w76_usable|]. split; [exact two_orderly|]. split; [exact run76|].
  split; [reflexivity|]. intros [H|[H|H]]; discriminate H.
Qed.
