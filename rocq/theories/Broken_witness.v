(** Files that cannot be read to their ends: examples. *)
From Coq Require Import Lia String.
From Verif Require Export Broken_proofs.
From Verif Require Import App_proofs Main_witness.
Local Open Scope N_scope.

Lemma fragile_reported srt w o out l r : usable_fragile w -> all_paths o l r out -> technology_ok o ->
  broken_at w l \/ ((exists img, read_file (sound_part w) l = Ok img) /\ broken_at w r) ->
  exists m, main_fragile srt w (Parsed o) = Ok (ends 0 (Some m) None) /\
    (m = InvalidArgumentError NotPgm \/ m = LogicError StoulRange \/ m = LogicError LengthError).
Proof.
  intros U [El [Er Eo]] Ht H. destruct (parallel_cases o) as [[_ Ep]|[N _]]; [|contradiction].
  exact (fragile_broken srt w o out l r U Eo El Er Ep H).
Qed.

(** The images of [wg], a copy of one of them that breaks after the last character,
    and a directory. *)
Definition copy_path : text := lit "copy.pgm".
Definition directory_path : text := lit "images".
Definition wb : fragile_world := {|
  fragile_files := fun path =>
    if same_text path copy_path then Some (Breaks textgr) else
    if same_text path directory_path then Some (Breaks []) else
    match files wg path with Some t => Some (Whole t) | None => None end;
  fragile_writable := writable wg
|}.
Definition ob (l r : text) : options :=
  {| o_help := false; o_parallel := None; o_left := Some l; o_right := Some r; o_output := Some out_path;
     o_levels := Some (lit "3"); o_smoothness := None; o_cleanness := None |}.

Lemma empty_usable : usable [].
Proof.
  intros ts L.
  assert (X : exists ts', laid_out ts' [] /\ ts' = []) by (eexists; split; [apply lexed|reflexivity]).
  destruct X as [ts' [L' E]]. assert (ts = []) as -> by (rewrite <- E; eapply laid_unique; eassumption).
  split.
  - intros a b m r [tw [th [tm [X _]]]]. discriminate X.
  - intros img extra [body [[tw [th [tm [X _]]]] _]]. discriminate X.
Qed.
Lemma wb_usable : usable_fragile wb.
Proof.
  intros path c. unfold wb. cbn [fragile_files]. destruct (same_text path copy_path).
  - intros E. injection E as <-. exact (wg_usable (lit "r.pgm") textgr eq_refl).
  - destruct (same_text path directory_path); [intros E; injection E as <-; exact empty_usable|].
    destruct (files wg path) as [t|] eqn:E; [|discriminate]. intros X. injection X as <-. exact (wg_usable path t E).
Qed.
Lemma sound_wg srt : sorts srt -> main_fragile srt wb (Parsed (og out_path)) = Ok (ends 0 None (Some (out_path, textg))).
Proof.
  intros Srt. rewrite <- (rung srt Srt).
  change (main_fragile srt wb (Parsed (og out_path)) = main srt wg (Parsed (og out_path))).
  rewrite fragile_sound.
  - reflexivity.
  - intros o l r E El Er. injection E as <-. cbn [og run_options o_left o_right] in El, Er.
    assert (l = lit "l.pgm") as -> by congruence. assert (r = lit "r.pgm") as -> by congruence.
    split; [|left]; intros [t X]; discriminate X.
Qed.
Lemma broken_example : usable_fragile wb /\
  (forall srt, sorts srt -> main_fragile srt wb (Parsed (og out_path)) = Ok (ends 0 None (Some (out_path, textg)))) /\
  (forall l r, technology_ok (ob l r) /\ all_paths (ob l r) l r out_path) /\
  broken_at wb copy_path /\ broken_at wb directory_path /\
  (exists img, read_file (sound_part wb) (lit "l.pgm") = Ok img) /\
  main_fragile isort wb (Parsed (ob (lit "l.pgm") copy_path)) = Ok (ends 0 (Some (InvalidArgumentError NotPgm)) None) /\
  main_fragile isort wb (Parsed (ob directory_path (lit "r.pgm"))) = Ok (ends 0 (Some (InvalidArgumentError NotPgm)) None).
Proof.
  split; [exact wb_usable|]. split; [exact sound_wg|].
  split; [intros l r; split; [intros t X; discriminate X|split; [reflexivity|split; reflexivity]]|].
  split; [exists textgr; reflexivity|]. split; [exists []; reflexivity|].
  split; [eexists; vm_compute; reflexivity|]. split; vm_compute; reflexivity.
Qed.
