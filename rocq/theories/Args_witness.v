(** Command lines behind the examples and refutations. *)
From Coq Require Import Lia String Permutation.
From Verif Require Export Args_proofs Sources_proofs Main_witness.
Local Open Scope N_scope.

(** Two spellings and orders of the same settings. *)
Definition args1 : list text :=
  [lit "-l"; lit "l.pgm"; lit "--right-image=r.pgm"; lit "--out"; out_path; lit "-d3"; lit "-pOMP"; lit "-c"; lit "1"; lit "--smoothness"; lit "1"].
Definition args2 : list text :=
  [lit "--cleanness=1"; lit "-o"; out_path; lit "--s=1"; lit "--disparity-levels"; lit "3"; lit "-p"; lit "OMP"; lit "-ll.pgm"; lit "--r"; lit "r.pgm"].
Definition settings1 : list (choice * text) :=
  [(ForLeft, lit "l.pgm"); (ForRight, lit "r.pgm"); (ForOutput, out_path); (ForLevels, lit "3"); (ForParallel, lit "OMP");
   (ForCleanness, lit "1"); (ForSmoothness, lit "1")].
Definition settings2 : list (choice * text) :=
  [(ForCleanness, lit "1"); (ForOutput, out_path); (ForSmoothness, lit "1"); (ForLevels, lit "3"); (ForParallel, lit "OMP");
   (ForLeft, lit "l.pgm"); (ForRight, lit "r.pgm")].

Ltac calling r := left; split; [discriminate|exists (lit r); reflexivity].
Ltac following := split; [intros [] E; discriminate E|intros (? & E & _); discriminate E].
Lemma gives1 : gives args1 settings1.
Proof.
  apply (short_next 0 ForLeft); [discriminate|following|].
  apply (long_here ForRight (lit "right-image") (lit "r.pgm")); [discriminate|calling ""%string|discriminate|].
  apply (long_next ForOutput (lit "out")); [discriminate|calling "put-image"%string|following|].
  apply (short_here 0 ForLevels (lit "3")); [discriminate|discriminate|].
  apply (short_here 0 ForParallel (lit "OMP")); [discriminate|discriminate|].
  apply (short_next 0 ForCleanness); [discriminate|following|].
  apply (long_next ForSmoothness (lit "smoothness")); [discriminate|calling ""%string|following|].
  exact no_words.
Qed.
Lemma gives2 : gives args2 settings2.
Proof.
  apply (long_here ForCleanness (lit "cleanness") (lit "1")); [discriminate|calling ""%string|discriminate|].
  apply (short_next 0 ForOutput); [discriminate|following|].
  apply (long_here ForSmoothness (lit "s") (lit "1")); [discriminate|calling "moothness"%string|discriminate|].
  apply (long_next ForLevels (lit "disparity-levels")); [discriminate|calling ""%string|following|].
  apply (short_next 0 ForParallel); [discriminate|following|].
  apply (short_here 0 ForLeft (lit "l.pgm")); [discriminate|discriminate|].
  apply (long_next ForRight (lit "r")); [discriminate|calling "ight-image"%string|following|].
  exact no_words.
Qed.
Lemma once1 : once settings1.
Proof. repeat constructor; cbn; intuition discriminate. Qed.
Lemma permuted : Permutation settings1 settings2.
Proof.
  apply NoDup_Permutation.
  - apply (NoDup_map_inv fst). exact once1.
  - apply (NoDup_map_inv fst). repeat constructor; cbn; intuition discriminate.
  - intros e. cbn. tauto.
Qed.
Lemma parse1 : parse_command_line args1 = Some (Parsed (og out_path)).
Proof. vm_compute. reflexivity. Qed.
Lemma set_by1 : set_by (og out_path) settings1.
Proof.
  destruct (proj1 (gives_options _ _ gives1) once1) as (o & P & H). rewrite parse1 in P. now injection P as <-.
Qed.
Lemma run1 srt : sorts srt -> run_application srt wg args1 = Ok (ends 0 None (Some (out_path, textg))).
Proof. intros Hs. unfold run_application. rewrite parse1. exact (rung srt Hs). Qed.

(** Repeated and unknown options. *)
Lemma repeated_example : exists s, gives [lit "-hhl"; lit "a"] s /\ ~ once s.
Proof.
  exists [(ForHelp, []); (ForHelp, []); (ForLeft, lit "a")]. split.
  - apply (short_next 2 ForLeft); [discriminate|following|exact no_words].
  - intros D. inversion D as [|x l N _ E]. apply N. now left.
Qed.
Lemma rejected_example : ~ exists s, gives [lit "--left-imag=a"; lit "--lefty"; lit "b"] s.
Proof. apply (command_line _). vm_compute. reflexivity. Qed.

(** A word that is ignored. *)
Lemma word_ignored srt w :
  run_application srt w (args1 ++ [lit "weights.txt"]) = run_application srt w args1.
Proof.
  unfold run_application. replace (parse_command_line (args1 ++ [lit "weights.txt"])) with (parse_command_line args1) by (vm_compute; reflexivity).
  reflexivity.
Qed.
Lemma gives_ignored : gives (args1 ++ [lit "weights.txt"]) settings1.
Proof.
  apply (short_next 0 ForLeft); [discriminate|following|].
  apply (long_here ForRight (lit "right-image") (lit "r.pgm")); [discriminate|calling ""%string|discriminate|].
  apply (long_next ForOutput (lit "out")); [discriminate|calling "put-image"%string|following|].
  apply (short_here 0 ForLevels (lit "3")); [discriminate|discriminate|].
  apply (short_here 0 ForParallel (lit "OMP")); [discriminate|discriminate|].
  apply (short_next 0 ForCleanness); [discriminate|following|].
  apply (long_next ForSmoothness (lit "smoothness")); [discriminate|calling ""%string|following|].
  apply skips; [left; discriminate|]. exact no_words.
Qed.

(** An option that becomes the name of the output. *)
Definition args3 : list text :=
  [lit "-l"; lit "l.pgm"; lit "-r"; lit "r.pgm"; lit "-d3"; lit "-c1"; lit "-pOMP"; lit "--output-image"; lit "--smoothness=1"].
Definition args4 : list text :=
  [lit "-l"; lit "l.pgm"; lit "-r"; lit "r.pgm"; lit "-d3"; lit "-c1"; lit "-pOMP"; lit "--smoothness=1"; lit "--output-image"].
Definition o3 : options := run_options (Some (lit "--smoothness=1")) (Some (lit "3")) (Some (lit "1")) None.
Lemma run3 srt : sorts srt -> run_application srt wg args3 = Ok (ends 0 None (Some (lit "--smoothness=1", textg))).
Proof.
  intros Hs. unfold run_application. replace (parse_command_line args3) with (Some (Parsed o3)) by (vm_compute; reflexivity).
  rewrite (main_same srt isort wg _ Hs (isort_sorts cpu_laws) wg_usable). vm_compute. reflexivity.
Qed.
Lemma run4 srt w : run_application srt w args4 = Ok (ends 1 (Some UnexpectedException) None).
Proof. unfold run_application. replace (parse_command_line args4) with (Some Rejected) by (vm_compute; reflexivity). reflexivity. Qed.

Lemma calls_smoothness : calls ForSmoothness (lit "smoothness").
Proof. calling ""%string. Qed.

Lemma help_run srt w args : In args [[]; [lit "-h"]; [lit "--help"]; [lit "l.pgm"; lit "r.pgm"; lit "map.pgm"]] ->
  run_application srt w args = Ok (ends 0 (Some NoImages) None).
Proof. intros [<-|[<-|[<-|[<-|[]]]]]; reflexivity. Qed.

(** Sources. *)
Definition sources (t : text) : world := {| files := fun p => if in_dec (list_eq_dec ascii_dec) p SOURCE_FILES then Some t else None; writable := fun _ => false |}.
Definition line1 : text := lit "#endif".
Lemma line1_plain : ~ In newline line1.
Proof. cbn. intuition discriminate. Qed.
Lemma sources_complete :
  Forall2 (fun f t => files (sources (line1 ++ [newline])) f = Some t) SOURCE_FILES (repeat (line1 ++ [newline]) 8) /\
  complete (line1 ++ [newline]) /\ text_lines (line1 ++ [newline]) [line1].
Proof.
  split; [repeat constructor|]. split; [right; now exists line1|].
  apply (lines_more line1 [] []); [exact line1_plain|constructor].
Qed.
Lemma sources_missing : program_source {| files := fun _ => None; writable := fun _ => true |} = [].
Proof. reflexivity. Qed.
Lemma sources_joined : exists w ts,
  Forall2 (fun f t => files w f = Some t) SOURCE_FILES ts /\
  (forall t, In t ts -> text_lines t [lit "#endif"]) /\
  forall ls, text_lines (program_source w) ls -> ~ In (lit "#endif") ls.
Proof.
  exists (sources line1), (repeat line1 8). split; [repeat constructor|]. split.
  - intros t I. apply repeat_spec in I. subst t. apply lines_last; [discriminate|exact line1_plain].
  - assert (N : ~ In newline (program_source (sources line1))).
    { intros I. apply (in_split newline) in I as (a & b & E).
      assert (F : forallb (fun c => if ascii_dec c newline then false else true) (program_source (sources line1)) = true) by (vm_compute; reflexivity).
      rewrite E, forallb_app in F. cbn [forallb] in F. destruct (ascii_dec newline newline) as [_|X]; [|now elim X].
      rewrite andb_false_r in F. discriminate. }
    intros ls L. remember (program_source (sources line1)) as t eqn:E. destruct L as [|t _ _|l t ls I L].
    + intros [].
    + intros [H|[]]. rewrite E in H. revert H. vm_compute. discriminate.
    + elim N. apply in_or_app. right. now left.
Qed.

Lemma option_as_value : exists args args' k n v, Permutation args args' /\
  calls k n /\ In (lit "--" ++ n ++ lit "=" ++ v) args /\ forall srt, sorts srt ->
  run_application srt wg args = Ok (ends 0 None (Some (lit "--" ++ n ++ lit "=" ++ v, textg))) /\
  run_application srt wg args' = Ok (ends 1 (Some UnexpectedException) None).
Proof.
  exists args3, args4, ForSmoothness, (lit "smoothness"), (lit "1"). split.
  { unfold args3, args4. do 7 apply perm_skip. apply perm_swap. }
  split; [exact calls_smoothness|]. split; [cbn; tauto|]. intros srt Hs. exact (conj (run3 srt Hs) (run4 srt wg)).
Qed.
Lemma stray_word : exists args word, skipped word /\ forall srt, sorts srt ->
  run_application srt wg (args ++ [word]) = run_application srt wg args /\
  run_application srt wg args = Ok (ends 0 None (Some (out_path, textg))).
Proof.
  exists args1, (lit "weights.txt"). split; [left; discriminate|]. intros srt Hs. split; [apply word_ignored|exact (run1 srt Hs)].
Qed.
Lemma args_differ : args1 <> args2.
Proof. intros E. apply (f_equal (fun l => same_text (hd [] l) (lit "-l"))) in E. vm_compute in E. discriminate. Qed.
Lemma sources_left_out : exists w, (forall f, In f SOURCE_FILES -> files w f = None) /\ program_source w = [].
Proof. exists {| files := fun _ => None; writable := fun _ => true |}. split; reflexivity. Qed.
