(** Examples of runs one after another. *)
From Coq Require Import Lia String.
From Verif Require Export Series_proofs Args_witness.
Local Open Scope N_scope.

(** As [args1], with other paths. *)
Definition args_with (l r out : text) : list text :=
  [lit "-l"; l; lit "-r"; r; lit "-o"; out; lit "-d3"; lit "-pOMP"; lit "-c1"; lit "-s1"].
Definition settings_with (l r out : text) : list (choice * text) :=
  [(ForLeft, l); (ForRight, r); (ForOutput, out); (ForLevels, lit "3"); (ForParallel, lit "OMP");
   (ForCleanness, lit "1"); (ForSmoothness, lit "1")].
Lemma gives_with l r out : can_follow l -> can_follow r -> can_follow out -> gives (args_with l r out) (settings_with l r out).
Proof.
  intros Hl Hr Ho.
  apply (short_next 0 ForLeft); [discriminate|exact Hl|].
  apply (short_next 0 ForRight); [discriminate|exact Hr|].
  apply (short_next 0 ForOutput); [discriminate|exact Ho|].
  apply (short_here 0 ForLevels (lit "3")); [discriminate|discriminate|].
  apply (short_here 0 ForParallel (lit "OMP")); [discriminate|discriminate|].
  apply (short_here 0 ForCleanness (lit "1")); [discriminate|discriminate|].
  apply (short_here 0 ForSmoothness (lit "1")); [discriminate|discriminate|].
  exact no_words.
Qed.
Lemma reads_with l r out q : can_follow l -> can_follow r -> can_follow out ->
  reads_from (args_with l r out) q <-> q = l \/ q = r.
Proof.
  intros Hl Hr Ho. pose proof (gives_with l r out Hl Hr Ho) as G. split.
  - intros (s & G' & H). rewrite (gives_same _ _ _ G' G) in H. cbn in H. intuition (try congruence).
  - intros H. exists (settings_with l r out). split; [exact G|]. cbn. intuition (subst; auto).
Qed.
Lemma writes_with l r out q : can_follow l -> can_follow r -> can_follow out ->
  writes_to (args_with l r out) q <-> q = out.
Proof.
  intros Hl Hr Ho. pose proof (gives_with l r out Hl Hr Ho) as G. split.
  - intros (s & G' & H). rewrite (gives_same _ _ _ G' G) in H. cbn in H. intuition (try congruence).
  - intros ->. exists (settings_with l r out). split; [exact G|]. cbn. auto.
Qed.

Definition args_plain : list text := args_with (lit "l.pgm") (lit "r.pgm") out_path.
Definition args_over : list text := args_with (lit "l.pgm") (lit "r.pgm") (lit "l.pgm").
Definition args_other : list text := args_with (lit "r.pgm") (lit "r.pgm") (lit "zero.pgm").
Definition args_map : list text := args_with out_path out_path (lit "l.pgm").
Definition zero_text : text :=
  lit "P2" ++ [newline] ++ lit "4 2" ++ [newline] ++ lit "3" ++ [newline] ++ lit "0 0 0 0" ++ [newline] ++ lit "0 0 0 0" ++ [newline].

Ltac computed Hs w U := unfold run_application;
  match goal with |- context [parse_command_line ?a] => let x := eval vm_compute in (parse_command_line a) in
    replace (parse_command_line a) with x by (vm_compute; reflexivity) end;
  rewrite (main_same _ isort w _ Hs (isort_sorts cpu_laws) U); vm_compute; reflexivity.

Lemma run_plain srt : sorts srt -> run_application srt wg args_plain = Ok (ends 0 None (Some (out_path, textg))).
Proof. intros Hs. computed Hs wg wg_usable. Qed.
Lemma run_over srt : sorts srt -> run_application srt wg args_over = Ok (ends 0 None (Some (lit "l.pgm", textg))).
Proof. intros Hs. computed Hs wg wg_usable. Qed.
Lemma run_other srt : sorts srt -> run_application srt wg args_other = Ok (ends 0 None (Some (lit "zero.pgm", zero_text))).
Proof. intros Hs. computed Hs wg wg_usable. Qed.

Definition wg_over : world := world_after wg (ends 0 None (Some (lit "l.pgm", textg))).
Lemma run_over_again srt : sorts srt ->
  run_application srt wg_over args_over = Ok (ends 0 (Some (InvalidArgumentError (InvalidArgument 6))) None).
Proof.
  intros Hs. assert (U : usable_files wg_over) by exact (usable_after srt wg args_over _ Hs wg_usable (run_over srt Hs)).
  computed Hs wg_over U.
Qed.

(** Runs that replace one of their images cannot be repeated. *)
Lemma over_differs : exists w args q, usable_files w /\ writes_to args q /\ reads_from args q /\
  forall srt, sorts srt -> exists e e', run_application srt w args = Ok e /\ run_application srt (world_after w e) args = Ok e' /\
    printed e = None /\ printed e' <> None /\ files (world_after w e) q <> files w q.
Proof.
  exists wg, args_over, (lit "l.pgm"). split; [exact wg_usable|]. split; [apply writes_with; try following; reflexivity|].
  split; [apply reads_with; try following; left; reflexivity|]. intros srt Hs.
  exists (ends 0 None (Some (lit "l.pgm", textg))), (ends 0 (Some (InvalidArgumentError (InvalidArgument 6))) None).
  split; [exact (run_over srt Hs)|]. split; [exact (run_over_again srt Hs)|]. split; [reflexivity|]. split; [discriminate|].
  vm_compute. discriminate.
Qed.

(** Runs that have nothing to do with each other. *)
Lemma apart : (forall q, writes_to args_plain q -> ~ reads_from args_other q /\ ~ writes_to args_other q) /\
  (forall q, writes_to args_other q -> ~ reads_from args_plain q) /\ (forall q, writes_to args_plain q -> ~ reads_from args_plain q).
Proof.
  split; [|split]; intros q W; apply writes_with in W; try following; subst q.
  - split; intros H.
    + apply reads_with in H; try following. destruct H as [H|H]; discriminate H.
    + apply writes_with in H; try following. discriminate H.
  - intros H. apply reads_with in H; try following. destruct H as [H|H]; discriminate H.
  - intros H. apply reads_with in H; try following. destruct H as [H|H]; discriminate H.
Qed.

(** A map is used as both images of a later run, which replaces the left image of
    the first one. *)
Definition wg_map : world := world_after wg (ends 0 None (Some (out_path, textg))).
Lemma run_map srt : sorts srt -> exists w', run_series srt wg [args_plain; args_map; args_plain] =
    Ok ([ends 0 None (Some (out_path, textg)); ends 0 None (Some (lit "l.pgm", zero_text));
         ends 0 (Some (InvalidArgumentError (InvalidArgument 6))) None], w').
Proof.
  intros Hs. eexists. cbn [run_series]. rewrite (run_plain srt Hs). cbn [bind]. fold wg_map.
  assert (U : usable_files wg_map) by exact (usable_after srt wg args_plain _ Hs wg_usable (run_plain srt Hs)).
  assert (R : run_application srt wg_map args_map = Ok (ends 0 None (Some (lit "l.pgm", zero_text)))) by computed Hs wg_map U.
  rewrite R. cbn [bind].
  set (w2 := world_after wg_map (ends 0 None (Some (lit "l.pgm", zero_text)))).
  assert (U2 : usable_files w2) by exact (usable_after srt wg_map args_map _ Hs U R).
  assert (R2 : run_application srt w2 args_plain = Ok (ends 0 (Some (InvalidArgumentError (InvalidArgument 6))) None)) by computed Hs w2 U2.
  rewrite R2. cbn [bind fst snd]. reflexivity.
Qed.
