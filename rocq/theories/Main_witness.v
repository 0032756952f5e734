(** Runs of the application behind the examples and refutations. *)
From Coq Require Import Lia String.
From Verif Require Export Greedy_proofs Witnesses.
Local Open Scope N_scope.

Definition world_of (fs : list (text * text)) : world :=
  {| files := fun p => match find (fun e => same_text (fst e) p) fs with Some e => Some (snd e) | None => None end;
     writable := fun p => negb (same_text p (lit "/root/map.pgm")) |}.
Definition run_options (out lev c s : option text) : options :=
  {| o_help := false; o_parallel := Some (lit "OMP"); o_left := Some (lit "l.pgm"); o_right := Some (lit "r.pgm");
     o_output := out; o_levels := lev; o_smoothness := s; o_cleanness := c |}.
Definition out_path : text := lit "map.pgm".

(** *** Usable files *)

Lemma all2_length {A B} (R : A -> B -> Prop) l l' : Forall2 R l l' -> List.length l = List.length l'.
Proof. induction 1; cbn [List.length]; congruence. Qed.
Lemma token_fun ts t x v v' : laid_out ts t -> In x ts -> reads_as x v -> reads_as x v' -> v = v'.
Proof.
  intros L I. apply reads_fun. apply token_skip. pose proof (laid_tokens ts t L) as F.
  rewrite Forall_forall in F. apply F. exact I.
Qed.
Lemma usable_image t ts img : laid_out ts t -> image_tokens img [] ts ->
  width img * height img < 2 ^ 32 -> 4 * (width img * width img * height img) < 2 ^ 64 -> usable t.
Proof.
  intros L [body [[tw [th [tm [E [Rw [Rh Rm]]]]]] [_ [Fb C]]]] S1 S2 ts' L'.
  assert (ts' = ts) by (eapply laid_unique; eassumption). subst ts'.
  assert (In3 : In tw ts /\ In th ts) by (rewrite E; split; cbn [In]; auto).
  assert (H : forall w h m r, header w h m r ts -> w = width img /\ h = height img /\ r = body).
  { intros w h m r [tw' [th' [tm' [E' [Rw' [Rh' _]]]]]]. rewrite E' in E. injection E as -> -> -> ->.
    rewrite app_nil_r. split; [|split; [|reflexivity]]; eapply token_fun; try exact L; try eassumption; apply In3. }
  split.
  - intros w h m r Hh. destruct (H w h m r Hh) as [-> [-> _]]. auto.
  - intros img' extra [body' [Hh [_ [Fb' C']]]]. destruct (H _ _ _ _ Hh) as [Ew [Eh Eb]].
    assert (len extra = 0).
    { apply (f_equal (@List.length text)) in Eb. rewrite app_length in Eb. unfold consistent_image, len in *.
      apply all2_length in Fb. apply all2_length in Fb'. rewrite Ew, Eh in C'. lia. }
    destruct extra as [|x e]; [|unfold len in *; cbn [List.length] in *; lia].
    intros [c [t0 [r0 [X _]]]]. discriminate.
Qed.

Ltac tokens ts0 := eexists; split; [apply lexed|]; exists ts0; split;
  [eexists _, _, _; split; [vm_compute; reflexivity|]; split; [number|split; number]|];
  split; [vm_compute; discriminate|]; split; [repeat constructor; number|reflexivity].

(** *** No labeling is found *)

Definition text51l : text := lit "P2 3 1 10 0 1 0".
Definition text51r : text := lit "P2 3 1 10 1 1 1".
Definition w51 : world := world_of [(lit "l.pgm", text51l); (lit "r.pgm", text51r)].
Definition o51 : options := run_options (Some out_path) (Some (lit "2")) None (Some (lit "2")).

Lemma tokens51l : exists ts, laid_out ts text51l /\ image_tokens (left g51) [] ts.
Proof. tokens [lit "0"; lit "1"; lit "0"]. Qed.
Lemma tokens51r : exists ts, laid_out ts text51r /\ image_tokens (right g51) [] ts.
Proof. tokens [lit "1"; lit "1"; lit "1"]. Qed.

Lemma same_text_eq a b : same_text a b = true <-> a = b.
Proof. unfold same_text. destruct (list_eq_dec ascii_dec a b); split; intros; congruence. Qed.

Lemma world_files fs path t : files (world_of fs) path = Some t -> In (path, t) fs.
Proof.
  cbn [world_of files]. destruct (find _ fs) as [[p x]|] eqn:E; [|discriminate].
  intros H. injection H as <-. apply find_some in E. destruct E as [I E]. cbn [fst] in E.
  apply same_text_eq in E. subst p. exact I.
Qed.

Lemma w51_usable : usable_files w51.
Proof.
  intros path t E. apply world_files in E. destruct E as [E|[E|[]]]; injection E as <- <-.
  - destruct tokens51l as [ts [L I]]. eapply usable_image; [exact L|exact I|vm_compute; reflexivity..].
  - destruct tokens51r as [ts [L I]]. eapply usable_image; [exact L|exact I|vm_compute; reflexivity..].
Qed.

Lemma run51_isort : main isort w51 (Parsed o51) = Ok (ends 0 (Some (LogicError CannotLabel)) None).
Proof. vm_compute. reflexivity. Qed.

Lemma o51_paths : all_paths o51 (lit "l.pgm") (lit "r.pgm") out_path.
Proof. split; [reflexivity|split; reflexivity]. Qed.
Lemma omp_known : known_technology (lit "OMP").
Proof.
  exists (lit "omp"). split; [cbn [In]; auto|]. change (lit "OMP") with ["O"; "M"; "P"]%char. change (lit "omp") with ["o"; "m"; "p"]%char.
  do 3 (apply Forall2_cons; [right; split; [reflexivity|split; discriminate]|]). apply Forall2_nil.
Qed.
Lemma run_technology out lev c s : technology_ok (run_options out lev c s).
Proof. intros t E. cbn [run_options o_parallel] in E. injection E as <-. exact omp_known. Qed.

Lemma option_plain d t v : skip_space (lit t) = lit t -> stoul (lit t) = Ok v -> option_number d (Some (lit t)) v.
Proof. intros S E. apply number_value. exact E. Qed.

Lemma good51 : good_problem (left g51) (right g51) 2 1 2.
Proof.
  assert (V : forall d, (forall v, In v d -> v <= 10) -> valid_image (pic 3 1 d)).
  { intros d H. refine (conj _ (conj _ (conj _ _))); [reflexivity..|]. exact H. }
  refine (conj (V _ _) (conj (V _ _) _)).
  - intros v [<-|[<-|[<-|[]]]]; discriminate.
  - intros v [<-|[<-|[<-|[]]]]; discriminate.
  - repeat (split; [first [reflexivity|discriminate]|]). left. reflexivity.
Qed.

Lemma map_missing : exists w o lpath rpath out l r lev c s,
  all_paths o lpath rpath out /\ technology_ok o /\ writable w out = true /\ usable_files w /\
  file_holds w lpath l /\ file_holds w rpath r /\
  option_number (width l) (o_levels o) lev /\ option_number 1 (o_cleanness o) c /\ option_number 1 (o_smoothness o) s /\
  good_problem l r lev c s /\
  forall srt, sorts srt -> main srt w (Parsed o) = Ok (ends 0 (Some (LogicError CannotLabel)) None).
Proof.
  exists w51, o51, (lit "l.pgm"), (lit "r.pgm"), out_path, (left g51), (right g51), 2, 1, 2.
  split; [exact o51_paths|]. split; [apply run_technology|]. split; [reflexivity|]. split; [exact w51_usable|].
  split; [destruct tokens51l as [ts [L I]]; exists text51l, ts; auto|].
  split; [destruct tokens51r as [ts [L I]]; exists text51r, ts; auto|].
  split; [apply number_value; reflexivity|]. split; [reflexivity|]. split; [apply number_value; reflexivity|].
  split; [exact good51|]. intros srt Hs.
  rewrite (main_same srt isort w51 (Parsed o51) Hs (isort_sorts cpu_laws) w51_usable). exact run51_isort.
Qed.

(** *** A run that succeeds *)

Definition textgl : text := lit "P2 4 2 10 0 0 9 5 0 9 5 5".
Definition textgr : text := lit "P2 4 2 10 0 9 5 5 9 5 5 5".
Definition wg : world := world_of [(lit "l.pgm", textgl); (lit "r.pgm", textgr)].
Definition og (out : text) : options := run_options (Some out) (Some (lit "3")) (Some (lit "1")) (Some (lit "1")).
Definition gl : image := pic 4 2 [0; 0; 9; 5; 0; 9; 5; 5].
Definition gr : image := pic 4 2 [0; 9; 5; 5; 9; 5; 5; 5].
Definition textg : text :=
  lit "P2" ++ [newline] ++ lit "4 2" ++ [newline] ++ lit "3" ++ [newline] ++ lit "0 1 1 0" ++ [newline] ++ lit "1 1 0 0" ++ [newline].

Lemma tokensgl : exists ts, laid_out ts textgl /\ image_tokens gl [] ts.
Proof. tokens [lit "0"; lit "0"; lit "9"; lit "5"; lit "0"; lit "9"; lit "5"; lit "5"]. Qed.
Lemma tokensgr : exists ts, laid_out ts textgr /\ image_tokens gr [] ts.
Proof. tokens [lit "0"; lit "9"; lit "5"; lit "5"; lit "9"; lit "5"; lit "5"; lit "5"]. Qed.
Lemma wg_usable : usable_files wg.
Proof.
  intros path t E. apply world_files in E. destruct E as [E|[E|[]]]; injection E as <- <-.
  - destruct tokensgl as [ts [L I]]. eapply usable_image; [exact L|exact I|vm_compute; reflexivity..].
  - destruct tokensgr as [ts [L I]]. eapply usable_image; [exact L|exact I|vm_compute; reflexivity..].
Qed.
Lemma og_paths out : all_paths (og out) (lit "l.pgm") (lit "r.pgm") out.
Proof. split; [reflexivity|split; reflexivity]. Qed.
Lemma wg_left : file_holds wg (lit "l.pgm") gl.
Proof. destruct tokensgl as [ts [L I]]. exists textgl, ts. auto. Qed.
Lemma wg_right : file_holds wg (lit "r.pgm") gr.
Proof. destruct tokensgr as [ts [L I]]. exists textgr, ts. auto. Qed.
Lemma rung srt : sorts srt -> main srt wg (Parsed (og out_path)) = Ok (ends 0 None (Some (out_path, textg))).
Proof.
  intros Hs. rewrite (main_same srt isort wg _ Hs (isort_sorts cpu_laws) wg_usable). vm_compute. reflexivity.
Qed.
Lemma rung_read_only srt : sorts srt -> main srt wg (Parsed (og (lit "/root/map.pgm"))) = Ok (ends 0 None None).
Proof.
  intros Hs. rewrite (main_same srt isort wg _ Hs (isort_sorts cpu_laws) wg_usable). vm_compute. reflexivity.
Qed.
Lemma goodg : good_problem gl gr 3 1 1.
Proof.
  assert (V : forall d, (forall v, In v d -> v <= 10) -> valid_image (pic 4 2 d)).
  { intros d H. refine (conj _ (conj _ (conj _ _))); [reflexivity..|]. exact H. }
  refine (conj (V _ _) (conj (V _ _) _)).
  - apply Forall_forall. repeat constructor; discriminate.
  - apply Forall_forall. repeat constructor; discriminate.
  - repeat (split; [first [reflexivity|discriminate]|]). left. reflexivity.
Qed.

Lemma result_not_reported : exists w o lpath rpath out img, all_paths o lpath rpath out /\ technology_ok o /\ usable_files w /\
  map_of w o lpath rpath img /\ writable w out = false /\
  forall srt, sorts srt -> main srt w (Parsed o) = Ok (ends 0 None None).
Proof.
  destruct (main_silent isort wg (Parsed (og (lit "/root/map.pgm"))) _ (isort_sorts cpu_laws) wg_usable (rung_read_only isort (isort_sorts cpu_laws)) eq_refl)
    as [o [l [r [out [img [txt [Eo [[E1 [E2 E3]] [_ [M _]]]]]]]]]].
  injection Eo as <-. injection E1 as <-. injection E2 as <-. injection E3 as <-.
  exists wg, (og (lit "/root/map.pgm")), (lit "l.pgm"), (lit "r.pgm"), (lit "/root/map.pgm"), img.
  split; [apply og_paths|]. split; [apply run_technology|]. split; [exact wg_usable|]. split; [exact M|]. split; [reflexivity|].
  exact rung_read_only.
Qed.

(** *** Undefined behaviour *)

Definition w_high : world := world_of [(lit "l.pgm", lit "P2 1 1 1 0 " ++ [ascii_of_N 200])].
Lemma run_undefined : exists w o, forall srt, main srt w (Parsed o) = Stop Undef.
Proof. exists w_high, o51. intros srt. vm_compute. reflexivity. Qed.

(** *** Help *)

Definition no_options (help : bool) : options :=
  {| o_help := help; o_parallel := None; o_left := None; o_right := None; o_output := None; o_levels := None;
     o_smoothness := None; o_cleanness := None |}.

(** *** A map that is too deep *)

Definition deep_world (txt : text) (out : text) : world :=
  {| files := fun p => if same_text p (lit "l.pgm") then Some txt else None; writable := fun p => same_text p out |}.
Definition deep_options : options :=
  {| o_help := false; o_parallel := None; o_left := Some (lit "l.pgm"); o_right := Some (lit "l.pgm");
     o_output := Some out_path; o_levels := None; o_smoothness := None; o_cleanness := None |}.

Lemma deep_map n : 65536 < n < 2 ^ 20 -> exists w o lpath rpath out l txt, all_paths o lpath rpath out /\
  file_holds w lpath l /\ file_holds w rpath l /\ good_problem l l n 1 1 /\
  (forall srt, sorts srt -> main srt w (Parsed o) = Ok (ends 0 None (Some (out, txt)))) /\
  forall w', files w' out = Some txt -> read_file w' out = Stop (Throw NotPgm).
Proof.
  intros Hn. set (l := zero_map n 1 1).
  assert (V : valid_image l).
  { refine (conj _ (conj _ (conj _ _))); cbn [l zero_map width height max_value data]; [lia..|].
    intros v Hv. apply repeat_spec in Hv. lia. }
  assert (C : consistent_image l) by (unfold consistent_image; cbn [l zero_map data width height]; apply len_fill).
  assert (S : width l * height l < 2 ^ 32) by (cbn [l zero_map width height]; lia).
  pose proof (written l V C S []) as Et. set (txt := [] ++ header_text l ++ concat (map (row_text l) (range 0 (height l)))) in Et. clearbody txt.
  set (w := deep_world txt out_path).
  assert (Hl : file_holds w (lit "l.pgm") l).
  { eapply held_written; try eassumption; [cbn [l zero_map max_value]; lia|]. reflexivity. }
  assert (Hp : all_paths deep_options (lit "l.pgm") (lit "l.pgm") out_path) by (split; [reflexivity|split; reflexivity]).
  assert (Ht : technology_ok deep_options) by (intros t X; discriminate).
  assert (G : good_problem l l n 1 1).
  { refine (conj V (conj V (conj eq_refl (conj eq_refl (conj eq_refl (conj _ (conj _ (or_introl _)))))))); cbn [l zero_map width]; lia. }
  assert (S2 : 4 * (width l * width l * height l) < 2 ^ 64).
  { cbn [l zero_map width height]. nia. }
  assert (S3 : width l * height l * 4 * n <= vector_max_size).
  { cbn [l zero_map width height]. unfold vector_max_size. nia. }
  pose proof (fun srt Hs => given_equal w deep_options (lit "l.pgm") (lit "l.pgm") out_path l n 1 1 Hp Ht Hl Hl eq_refl eq_refl eq_refl S srt Hs S2 S3 G) as E.
  destruct (E isort (isort_sorts cpu_laws)) as [Vz [tz [Ez _]]].
  exists w, deep_options, (lit "l.pgm"), (lit "l.pgm"), out_path, l, tz.
  split; [exact Hp|]. split; [exact Hl|]. split; [exact Hl|]. split; [exact G|]. split.
  - intros srt Hs. destruct (E srt Hs) as [_ [tz' [Ez' R]]]. assert (tz' = tz) by congruence. subst tz'. exact R.
  - intros w' F. eapply unread_written; [exact Vz| | |cbn [zero_map max_value]; lia|exact Ez|exact F].
    + unfold consistent_image; cbn [zero_map data width height]; apply len_fill.
    + cbn [zero_map width height]. exact S.
Qed.
Lemma deep_map_ex : exists w o lpath rpath out l txt n, all_paths o lpath rpath out /\
  file_holds w lpath l /\ file_holds w rpath l /\ good_problem l l n 1 1 /\
  (forall srt, sorts srt -> main srt w (Parsed o) = Ok (ends 0 None (Some (out, txt)))) /\
  forall w', files w' out = Some txt -> read_file w' out = Stop (Throw NotPgm).
Proof.
  assert (X : exists n, 65536 < n < 2 ^ 20) by (exists 65537; split; reflexivity). destruct X as [n Hn].
  destruct (deep_map n Hn) as [w [o [lp [rp [out [l [txt H]]]]]]]. exists w, o, lp, rp, out, l, txt, n. exact H.
Qed.

(** *** Options *)

Lemma weights_not_as_given : exists half zero minus_one : text,
  half = lit "0.5" /\ zero = lit "0" /\ minus_one = lit "-1" /\
  same_number (Some half) (Some zero) /\ forall d, option_number d (Some minus_one) 18446744073709551615.
Proof.
  eexists _, _, _. split; [reflexivity|]. split; [reflexivity|]. split; [reflexivity|]. split.
  - right. exists 0. intros d. split; apply number_value; reflexivity.
  - intros d. apply number_value. vm_compute. reflexivity.
Qed.
Lemma options_invalid : option_invalid (Some (lit "x1")) /\ option_too_large (Some (lit " 18446744073709551616")).
Proof.
  split.
  - destruct (option_kinds 0 (Some (lit "x1"))) as [[v H]|[H|H]]; [|exact H|].
    + apply number_value in H. discriminate.
    + apply (option_too_large_stops 0) in H. discriminate.
  - destruct (option_kinds 0 (Some (lit " 18446744073709551616"))) as [[v H]|[H|H]]; [| |exact H].
    + apply number_value in H. vm_compute in H. discriminate.
    + apply (option_invalid_stops 0) in H. vm_compute in H. discriminate.
Qed.

(** *** Examples *)

Lemma good_example : all_paths (og out_path) (lit "l.pgm") (lit "r.pgm") out_path /\ technology_ok (og out_path) /\
  file_holds wg (lit "l.pgm") gl /\ file_holds wg (lit "r.pgm") gr /\ good_problem gl gr 3 1 1 /\
  option_number 4 (o_levels (og out_path)) 3 /\ ~ good_problem gl gr 1 1 1.
Proof.
  refine (conj (og_paths out_path) (conj (run_technology _ _ _ _) (conj wg_left (conj wg_right (conj goodg (conj _ _)))))).
  - apply number_value. reflexivity.
  - intros [_ [_ [_ [_ [_ [H _]]]]]]. discriminate.
Qed.
Lemma equal_example : good_problem gl gl 3 1 1 /\ file_holds wg (lit "l.pgm") gl /\ width gl * height gl < 2 ^ 32 /\
  4 * (width gl * width gl * height gl) < 2 ^ 64 /\ width gl * height gl * 4 * 3 <= vector_max_size.
Proof.
  destruct goodg as [V [_ [_ [_ [_ H]]]]].
  refine (conj (conj V (conj V (conj eq_refl (conj eq_refl (conj eq_refl H))))) (conj wg_left (conj eq_refl (conj eq_refl _)))).
  vm_compute. discriminate.
Qed.
