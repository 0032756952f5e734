(** A run of two threads on the problem with [m = 3]. *)
From Coq Require Import Lia String ZArith.
From Verif Require Import Main_witness Omp_witness Factor_omp_proofs Factor_witness Factor_run_witness Witnesses.
Local Open Scope N_scope.

Lemma omp_run3 : main_omp two_team (@isort cpu) w3 (Parsed o3) (Ok (ends 0 None (Some (out_path, text3)))).
Proof.
  eapply (order_run backwards turns); [exact may_backwards|exact may_turns|apply run_paths|apply run_technology|]. vm_compute. reflexivity.
Qed.
Lemma omp_example3 : sorts (@isort cpu) /\ usable_files w3 /\ orderly_team two_team /\ all_paths o3 (lit "l.pgm") (lit "r.pgm") out_path /\ technology_ok o3 /\
  main_omp two_team (@isort cpu) w3 (Parsed o3) (Ok (ends 0 None (Some (out_path, text3)))) /\
  file_holds w3 (lit "l.pgm") (p_left (waves 3)) /\ file_holds w3 (lit "r.pgm") (p_right (waves 3)).
Proof.
  exact (conj (isort_sorts cpu_laws) (conj w3_usable (conj two_orderly (conj (run_paths _ _ _ _) (conj (run_technology _ _ _ _) (conj omp_run3 (conj w3_left w3_right))))))).
Qed.
