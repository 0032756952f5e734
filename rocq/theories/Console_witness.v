(** Examples of what is printed. *)
From Coq Require Import Lia String.
From Verif Require Export Console_more_proofs Device_witness.
Local Open Scope N_scope.

Definition lib0 : library :=
  {| boost_what := lit "unrecognised option '--left'"; option_list := lit "Allowed options:"; length_what := lit "vector::_M_default_append";
     shown := fun _ => lit "0.000000" |}.
Lemma lib0_plain : plain_library lib0.
Proof. split; [|split; [|intros x]]; (intros H; vm_compute in H; decompose [or] H; discriminate || contradiction). Qed.

Lemma asks_omp b : asks_for b (Some (lit "OMP")) OnCpu.
Proof. apply chosen_asks. destruct b as [[|] [|]]; vm_compute; reflexivity. Qed.
Lemma asks_device a : asks_for both (o_parallel (od a)) (On a).
Proof. apply chosen_asks. destruct a; vm_compute; reflexivity. Qed.
Lemma asks_nothing : forall pa, ~ asks_for {| use_opencl := false; use_cuda := true |} (Some (lit "opencl")) pa.
Proof. intros pa A. apply chosen_asks in A. vm_compute in A. discriminate. Qed.
Lemma told_device a : exists u, main_told lib0 both good_device (@isort cpu) wg (Parsed (od a)) (Ok u) /\ saved u = Some (out_path, textg) /\
  cerr u = [].
Proof.
  destruct (proj1 (told_reported lib0 both good_device (@isort cpu) wg (Parsed (od a))) _ (device_run a)) as [[u|x] [M R]]; [|destruct R].
  exists u. split; [exact M|]. destruct R as [_ [S E]]. split; [exact S|exact E].
Qed.

(** Five levels for images with four columns. *)
Definition o_five : options := run_options (Some out_path) (Some (lit "5")) (Some (lit "1")) (Some (lit "1")).
Definition text_five : text :=
  lit "Invalid argument: Number of disparity levels should not be greater than width of the left image. Width of the left image is 4. Provided number of disparity levels is 5."
  ++ [newline].
Lemma five_unsuitable b : unsuitable b wg o_five 3 gl gr 5.
Proof.
  constructor.
  - exists (lit "l.pgm"). split; [reflexivity|exact wg_left].
  - exists (lit "r.pgm"). split; [reflexivity|exact wg_right].
  - discriminate.
  - exists OnCpu. apply asks_omp.
  - split; reflexivity.
  - apply number_value. vm_compute. reflexivity.
  - exists 1, 1. split; [apply number_value; vm_compute; reflexivity|]. split; [apply number_value; vm_compute; reflexivity|]. split.
    + vm_compute. reflexivity.
    + intros j Hj V. assert (J : j = 0 \/ j = 1 \/ j = 2) by lia. pose proof goodg as (V1 & V2 & _).
      destruct J as [->|[->| ->]]; cbn [violated] in V; [exact (V V1)|exact (V V2)|lia].
Qed.
Lemma told_five b v srt : main_told lib0 b v srt wg (Parsed o_five) (Ok {| exit_status := 0; cout := lit "OpenMP parallelism" ++ [newline]; cerr := text_five; saved := None |}).
Proof.
  cbn [main_told o_five run_options o_output o_left o_right o_parallel].
  rewrite (proj2 (chosen_asks b _ _) (asks_omp b)). eexists. split.
  - unfold map_told.
    replace (inputs_told lib0 wg o_five (lit "l.pgm") (lit "r.pgm")) with (@Ok (exn * text + _) (inr (gl, gr, 5, 1, 1))) by (vm_compute; reflexivity).
    unfold prepared. replace (make_graph gl gr 5 (@of_u cpu 1) (of_u 1)) with (@Stop (dgraph cpu) (Throw (InvalidArgument 3))).
    + reflexivity.
    + symmetry. apply first_stops; try reflexivity; try discriminate.
      pose proof (un_violated _ _ _ _ _ _ _ (five_unsuitable b)) as (c & s & Nc & Ns & V).
      apply number_value in Nc. vm_compute in Nc. injection Nc as <-. apply number_value in Ns. vm_compute in Ns. injection Ns as <-. exact V.
  - vm_compute. reflexivity.
Qed.

(** The wrong option cannot be told from the message. *)
Definition o_bad_levels : options := run_options (Some out_path) (Some (lit "many")) (Some (lit "1")) (Some (lit "1")).
Definition o_bad_smoothness : options := run_options (Some out_path) (Some (lit "3")) (Some (lit "1")) (Some (lit "much")).
Lemma bad_word t : hd_error t = Some "m"%char -> option_invalid (Some t).
Proof.
  destruct t as [|c t]; [discriminate|]. intros E. injection E as ->.
  exists ("m"%char :: t), [], ("m"%char :: t). split; [reflexivity|]. split; [reflexivity|]. split; [intros c []|]. split.
  - intros c X. injection X as <-. unfold space. vm_compute. intuition discriminate.
  - destruct (option_kinds 0 (Some ("m"%char :: t))) as [[v N]|[N|N]].
    + apply number_value in N. vm_compute in N. discriminate.
    + destruct N as (t0 & sp & tok & X & E & Hs & Hf & Nn). injection X as <-. destruct sp as [|x sp]; [cbn in E; rewrite <- E in Nn; exact Nn|].
      injection E as <- _. specialize (Hs "m"%char (or_introl eq_refl)). unfold space in Hs. vm_compute in Hs. intuition discriminate.
    + apply (option_too_large_stops 0) in N. vm_compute in N. discriminate.
Qed.
Lemma option_unnamed : exists w o o' l lpath rpath out, all_paths o lpath rpath out /\ all_paths o' lpath rpath out /\
  o_parallel o = o_parallel o' /\ file_holds w lpath l /\
  option_invalid (o_levels o) /\ ~ option_invalid (o_smoothness o) /\ option_invalid (o_smoothness o') /\ ~ option_invalid (o_levels o') /\
  forall lib b v srt s, main_told lib b v srt w (Parsed o) s <-> main_told lib b v srt w (Parsed o') s.
Proof.
  exists wg, o_bad_levels, o_bad_smoothness, gl, (lit "l.pgm"), (lit "r.pgm"), out_path.
  assert (NI : forall x v, number_or 0 x = Ok v -> ~ option_invalid x).
  { intros x v E N. rewrite (option_invalid_stops 0 x N) in E. discriminate. }
  split; [repeat split|]. split; [repeat split|]. split; [reflexivity|]. split; [exact wg_left|].
  split; [apply bad_word; reflexivity|]. split; [apply (NI _ 1); vm_compute; reflexivity|].
  split; [apply bad_word; reflexivity|]. split; [apply (NI _ 3); vm_compute; reflexivity|].
  intros lib b v srt s.
  rewrite (told_options lib b v srt wg o_bad_levels (lit "l.pgm") (lit "r.pgm") out_path (conj eq_refl (conj eq_refl eq_refl))
             OnCpu gl gr (asks_omp b) wg_left wg_right eq_refl eq_refl (or_introl (bad_word (lit "many") eq_refl)) s).
  rewrite (told_options lib b v srt wg o_bad_smoothness (lit "l.pgm") (lit "r.pgm") out_path (conj eq_refl (conj eq_refl eq_refl))
             OnCpu gl gr (asks_omp b) wg_left wg_right eq_refl eq_refl).
  - reflexivity.
  - right. split; [exists 3; apply number_value; vm_compute; reflexivity|]. right.
    split; [exists 1; apply number_value; vm_compute; reflexivity|]. apply bad_word. reflexivity.
Qed.

(** A number in a file that does not fit: the message does not name the file. *)
Definition text_huge : text := lit "P2 4 2 18446744073709551616 0 0 9 5 0 9 5 5".
Definition w_huge : world := world_of [(lit "l.pgm", text_huge); (lit "r.pgm", textgr)].
Lemma file_unnamed : exists w o lpath rpath out ts t, all_paths o lpath rpath out /\ files w lpath = Some t /\ laid_out ts t /\
  (exists tok, In tok ts /\ out_of_range tok) /\
  forall lib b v srt s, main_told lib b v srt w (Parsed o) s -> exists u, s = Ok u /\ exit_status u = 0 /\
    cerr u = lit "Logic error: stoul" ++ [newline] /\ ~ mentions lpath (cerr u).
Proof.
  assert (E : read_image (opened text_huge) None = Stop (Throw StoulRange)) by (vm_compute; reflexivity).
  destruct (read_throws text_huge None StoulRange E) as [ts [L [[_ O]|[X _]]]]; [|discriminate].
  exists w_huge, (og out_path), (lit "l.pgm"), (lit "r.pgm"), out_path, ts, text_huge.
  split; [apply og_paths|]. split; [reflexivity|]. split; [exact L|]. split; [exact O|].
  intros lib b v srt s M. 
  assert (F : inputs_told lib w_huge (og out_path) (lit "l.pgm") (lit "r.pgm") = Ok (inl (StoulRange, lit "stoul"))).
  { unfold inputs_told. replace (read_file w_huge (lit "l.pgm")) with (@Stop image (Throw StoulRange)) by (vm_compute; reflexivity). reflexivity. }
  apply (told_failed lib b v srt w_huge (og out_path) (lit "l.pgm") (lit "r.pgm") out_path (og_paths out_path) OnCpu _ _ (asks_omp b) F) in M.
  eexists. split; [exact M|]. cbn [exit_status cerr]. split; [reflexivity|]. split; [reflexivity|].
  intros [x [y X]]. assert (I : In "."%char (line (lit "Logic error: " ++ lit "stoul"))).
  { cbn [is_invalid_argument] in X. rewrite X. apply in_or_app. right. right. left. reflexivity. }
  vm_compute in I. decompose [or] I; discriminate || contradiction.
Qed.

(** A pixel without labels. *)
Definition throws_no_label {A} (x : outcome A) : bool := match x with Stop (Throw NoLabel) => true | _ => false end.
Definition no_label : cgraph cpu := with_avail scg (map (fun _ => false) (cg_avail scg)).
Lemma no_label_wf : wf_cgraph no_label.
Proof. apply static_wf; [apply wf_static, scg_wf|]. pose proof (wfc_avail scg scg_wf) as H. unfold mem_ok in *. unfold len in *. rewrite map_length. exact H. Qed.
Lemma no_label_told : explained (label_what lib0 no_label) (exec build_disparity_map no_label) =
  Ok (inl (NoLabel, lit "Cannot find label for the pixel <0, 0>.")).
Proof.
  assert (A : throws_no_label (exec build_disparity_map no_label) = true) by (vm_compute; reflexivity).
  assert (B : label_what lib0 no_label NoLabel = lit "Cannot find label for the pixel <0, 0>.") by (vm_compute; reflexivity).
  destruct (exec build_disparity_map no_label) as [x|[[]| |]]; try discriminate A. cbn [explained tells]. rewrite B. reflexivity.
Qed.
