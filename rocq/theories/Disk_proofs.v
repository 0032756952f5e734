(** Output files that take only some of the characters. *)
From Coq Require Import Lia String.
From Verif Require Export Cut_proofs Device_main_proofs.
Local Open Scope N_scope.

(** *** What arrives in a file *)

Definition arrived (room : N) (t : text) : ostream :=
  {| sent := firstn (N.to_nat room) t; badbit := room <? len t |}.

Lemma put_arrived room t a : put_text room t (arrived room a) = arrived room (a ++ t).
Proof.
  unfold put_text, arrived. cbn [sent badbit]. unfold len. rewrite app_length.
  destruct (N.ltb_spec room (N.of_nat (length a))) as [B|B].
  - f_equal.
    + rewrite firstn_app. replace (N.to_nat room - length a)%nat with 0%nat by lia. rewrite firstn_O, app_nil_r. reflexivity.
    + symmetry. apply N.ltb_lt. lia.
  - rewrite (firstn_all2 a) by lia. rewrite firstn_app, (firstn_all2 a) by lia.
    destruct (N.leb_spec (N.of_nat (length a) + N.of_nat (length t)) room) as [Q|Q].
    + rewrite firstn_all2 by lia. f_equal. symmetry. apply N.ltb_ge. lia.
    + f_equal; [f_equal; f_equal; lia|]. symmetry. apply N.ltb_lt. lia.
Qed.

Definition over {A B} (f : A -> B) (x : outcome A) : outcome B := a <- x ;; Ok (f a).
Lemma loop_over {A S S'} (f : S -> S') (l : list A) body body' :
  (forall x s, body' x (f s) = over f (body x s)) -> forall s, loop l body' (f s) = over f (loop l body s).
Proof.
  intros H. induction l as [|x l IH]; intros s; cbn [loop]; [reflexivity|]. rewrite H.
  destruct (body x s) as [s'|e]; cbn [over bind]; [apply IH|reflexivity].
Qed.

Lemma write_arrived room t io : write_to room (arrived room t) io = over (arrived room) (write_image t io).
Proof.
  destruct io as [img|]; [|reflexivity]. unfold write_to, write_image.
  destruct (image_valid cpu img) as [v|e]; cbn [bind over]; [|reflexivity].
  destruct (negb v); [reflexivity|]. cbv zeta. rewrite !put_arrived, <- !app_assoc.
  apply loop_over. intros y s.
  rewrite (loop_over (arrived room) (range 0 (width img)) (fun x out => v <- get (data img) (pixel_index cpu img {| px := x; py := y |}) ;;
                Ok (out ++ digits v ++ separator img x))).
  - destruct (loop _ _ s) as [s'|e]; cbn [over bind]; [|reflexivity]. rewrite put_arrived. reflexivity.
  - intros x s0. destruct (get _ _) as [d|e]; cbn [over bind]; [|reflexivity]. rewrite put_arrived. f_equal. unfold separator.
    destruct (_ || _), (x + 1 <? width img); rewrite ?put_arrived, <- ?app_assoc, ?app_nil_r; reflexivity.
Qed.
Lemma write_fresh room io : write_to room fresh io = over (arrived room) (write_image [] io).
Proof.
  rewrite <- write_arrived. f_equal. unfold fresh, arrived. rewrite firstn_nil. f_equal. symmetry. apply N.ltb_ge. unfold len. cbn [length]. lia.
Qed.

Lemma finishes_cut w room out x : finishes_disk w room out x = cut_file room (finishes w out x).
Proof.
  unfold finishes_disk, finishes. destruct x as [img|[y| |]]; cbn [bind]; try reflexivity.
  destruct (writable w out); [|reflexivity]. rewrite write_fresh.
  destruct (write_image [] (Some img)) as [t|[y| |]]; cbn [bind over]; reflexivity.
Qed.

Lemma main_cut b v srt w room p e : main_disk b v srt w room p e <-> exists e', main_with b v srt w p e' /\ e = cut_file room e'.
Proof.
  assert (Same : forall c, cut_file room c = c -> e = c <-> exists e', e' = c /\ e = cut_file room e').
  { intros c Hc. split; [intros ->; exists c; auto|]. intros [e' [-> ->]]. exact Hc. }
  destruct p as [o| |]; unfold main_disk, main_with; [|apply Same; reflexivity..].
  destruct (o_output o) as [out|], (o_left o), (o_right o);
    try (destruct (_ || _); [apply Same; reflexivity|]; destruct (_ =? _); apply Same; reflexivity).
  destruct (chosen b (o_parallel o)) as [pa|[y| |]]; try (apply Same; reflexivity). split.
  - intros [x [M ->]]. exists (finishes w out x). split; [exists x; auto|]. apply finishes_cut.
  - intros [e' [[x [M ->]] ->]]. exists x. split; [exact M|]. symmetry. apply finishes_cut.
Qed.

(** *** Maps end with disparity 0 *)

Lemma ends_in_zero (g : dgraph cpu) img : consistent_image img -> valid_image img ->
  width img = width (right g) -> height img = height (right g) ->
  (forall p, in_image g p -> match_exists g (label_node (map_labeling img) p)) -> exists before, data img = before ++ [0].
Proof.
  intros Ci Vi Wi Hi Lo. pose proof Vi as [P1 [P2 _]].
  destruct (exists_last (l := data img)) as [before [z Ez]].
  { intros X. unfold consistent_image in Ci. rewrite X in Ci. unfold len in Ci. cbn in Ci. nia. }
  exists before. rewrite Ez. f_equal. f_equal.
  specialize (Lo {| px := width img - 1; py := height img - 1 |}).
  assert (In0 : in_image g {| px := width img - 1; py := height img - 1 |}) by (split; cbn [px py]; lia).
  specialize (Lo In0). unfold match_exists, label_node in Lo. cbn [npix disp px py] in Lo. destruct Lo as [_ [_ Lo]].
  rewrite <- Wi in Lo. unfold map_labeling in Lo. cbn [px py] in Lo. rewrite Ez in Lo.
  unfold consistent_image, len in Ci. rewrite Ez, app_length in Ci. cbn [length] in Ci.
  replace (N.to_nat ((height img - 1) * width img + (width img - 1))) with (length before) in Lo by nia.
  rewrite nth_middle in Lo. lia.
Qed.

Lemma map_shape pa v srt w o lpath rpath x :
  sorts srt -> usable_files w ->
  (forall a l lev, pa = On a -> file_holds w lpath l -> option_number (width l) (o_levels o) lev -> lev <= width l -> addressable a l lev) ->
  map_with pa v srt w o lpath rpath x ->
  (exists y, x = Stop (Throw y)) \/
  exists img, x = Ok img /\ valid_image img /\ consistent_image img /\ width img * height img < 2 ^ 32 /\ max_value img <= width img /\
    (exists before, data img = before ++ [0]) /\ exists l, file_holds w lpath l /\ width img = width l /\ height img = height l.
Proof.
  intros Hs U Ad MW. unfold map_with in MW.
  destruct (read_total w lpath U) as [[l El]|[y Ey]]; [|rewrite Ey in MW; left; exists y; exact MW]. rewrite El in MW. cbn [bind] in MW.
  destruct (read_total w rpath U) as [[r Er]|[y Ey]]; [|rewrite Ey in MW; left; exists y; exact MW]. rewrite Er in MW. cbn [bind] in MW.
  destruct (number_total (width l) (o_levels o)) as [[lev Elev]|[y Ey]]; [|rewrite Ey in MW; left; exists y; exact MW]. rewrite Elev in MW. cbn [bind] in MW.
  destruct (number_total 1 (o_cleanness o)) as [[c Ecl]|[y Ey]]; [|rewrite Ey in MW; left; exists y; exact MW]. rewrite Ecl in MW. cbn [bind] in MW.
  destruct (number_total 1 (o_smoothness o)) as [[s Es]|[y Ey]]; [|rewrite Ey in MW; left; exists y; exact MW]. rewrite Es in MW. cbn [bind] in MW.
  apply read_held in El. apply read_held in Er. apply number_value in Elev. apply number_value in Ecl. apply number_value in Es.
  destruct (held_usable w lpath l U El) as [S1 S2]. destruct (held_usable w rpath r U Er) as [S3 _].
  pose proof (held_consistent _ _ _ El) as Cl. pose proof (held_consistent _ _ _ Er) as Cr.
  destruct (made_total l r lev (@of_u cpu c) (of_u s)) as [[g Eg]|[[k Ek]|Ek]]; try assumption; [discriminate| | |].
  2: { left. unfold solves_with, prepared in MW. rewrite Ek in MW. eexists. exact MW. }
  2: { left. unfold solves_with, prepared in MW. rewrite Ek in MW. eexists. exact MW. }
  assert (Hf : finite_penalties g).
  { eapply made_finite; try eassumption; try (eapply number_small; [|eassumption]; reflexivity).
    intros u [Hv|Hv]; [apply (proj2 (held_small _ _ _ El) u Hv)|apply (proj2 (held_small _ _ _ Er) u Hv)]. }
  destruct (make_graph_Ok l r lev _ _ g Eg) as [Vl [Vr [L1 [Lw [Ww [Wh [_ [_ [_ [_ [_ E]]]]]]]]]]].
  assert (Shape : (exists y, x = Stop (Throw y)) \/
    exists img, x = Ok img /\ width img = width r /\ height img = height r /\ max_value img = lev /\
     consistent_image img /\ valid_image img /\ labeling_ok g (map_labeling img)).
  { destruct pa as [|a].
    - apply solves_with_cpu in MW.
      destruct (solve_accepted cpu_laws srt l r lev _ _ g Hs Eg Cl Cr (problem_fits _ _ _ _ _ _ Eg S2) Hf) as [lp [_ [X|[img [X B]]]]].
      + left. eexists. rewrite MW. exact X.
      + right. exists img. rewrite MW. split; [exact X|]. destruct B as [B1 [B2 [B3 [B4 [B5 [B6 _]]]]]].
        rewrite E in B1, B2, B3. cbn [left levels] in B1, B2, B3. rewrite <- Ww, <- Wh. auto 8.
    - assert (A : addressable a r lev).
      { pose proof (Ad a l lev eq_refl El Elev Lw) as X. unfold addressable in *. rewrite <- Ww, <- Wh. exact X. }
      destruct (gpu_map a v srt l r lev _ _ g x Hs Eg Cl Cr (problem_fits _ _ _ _ _ _ Eg S2) A Hf MW) as [lp [t [_ [[Bad|G] _]]]].
      + left. eexists. exact Bad.
      + right. destruct G as [img [-> [Wi [Hi [Mi [Ci [Vi [Lo _]]]]]]]]. exists img. auto 8. }
  destruct Shape as [X|[img [-> [Wi [Hi [Mi [Ci [Vi Lo]]]]]]]]; [left; exact X|right].
  exists img. split; [reflexivity|]. split; [exact Vi|]. split; [exact Ci|]. split; [rewrite Wi, Hi; exact S3|]. split; [lia|].
  assert (Wr : width (right g) = width r /\ height (right g) = height r) by (rewrite E; auto). destruct Wr as [Wr Hr].
  split; [|exists l; split; [exact El|lia]].
  apply (ends_in_zero g img Ci Vi); [congruence|congruence|]. exact (proj1 Lo).
Qed.

Lemma zero_div k : 0 / 10 ^ k = 0.
Proof. apply N.div_0_l, N.pow_nonzero. lia. Qed.

(** What a reader makes of a map whose file takes some of its characters. *)
Lemma cut_map img txt room : valid_image img -> consistent_image img -> width img * height img < 2 ^ 32 -> max_value img <= width img ->
  (exists before, data img = before ++ [0]) -> write_image [] (Some img) = Ok txt ->
  (max_value img <= 65536 -> len txt <= room + 1 -> reads_image (firstn (N.to_nat room) txt) img) /\
  (room + 1 < len txt -> rejects (firstn (N.to_nat room) txt)).
Proof.
  intros Vi Ci Sz Mx [before Eb] Et. pose proof (sides img Vi Sz) as [W1 W2].
  set (n := N.to_nat room).
  destruct (cut_image img txt (firstn n txt) (skipn n txt) before 0 Vi Ci Sz) as [R1 R2];
    [lia|exact Et|symmetry; apply firstn_skipn|exact Eb|].
  rewrite zero_div, <- Eb in R1.
  assert (Ls : len (skipn n txt) = len txt - room) by (unfold len; rewrite skipn_length; unfold n; lia). rewrite Ls in *.
  split.
  - intros B X. specialize (R1 B ltac:(left; lia)). unfold replaced_data in R1. destruct img. exact R1.
  - intros X. apply R2. right. split; [lia|]. apply N.neq_0_lt_0, N.pow_nonzero. lia.
Qed.

Lemma disk_recognised b v srt w room o lpath rpath out pa e path t :
  sorts srt -> usable_files w -> all_paths o lpath rpath out -> chosen b (o_parallel o) = Ok pa ->
  (forall a l lev, pa = On a -> file_holds w lpath l -> option_number (width l) (o_levels o) lev -> lev <= width l -> addressable a l lev) ->
  main_disk b v srt w room (Parsed o) (Ok e) -> written_file e = Some (path, t) ->
  path = out /\ exists img txt, map_with pa v srt w o lpath rpath (Ok img) /\ write_image [] (Some img) = Ok txt /\
    t = firstn (N.to_nat (room out)) txt /\
    (max_value img <= 65536 -> len txt <= room out + 1 -> reads_image t img) /\
    (room out + 1 < len txt -> rejects t).
Proof.
  intros Hs U [E1 [E2 E3]] Ec Ad M W. unfold main_disk in M. rewrite E1, E2, E3, Ec in M. destruct M as [x [MW E]].
  rewrite finishes_cut in E. unfold finishes in E.
  destruct (map_shape pa v srt w o lpath rpath x Hs U Ad MW) as [[y ->]|[img [-> [Vi [Ci [Sz [Mx [[before Eb] _]]]]]]]].
  - cbn [bind cut_file] in E. injection E as ->. discriminate.
  - cbn [bind] in E. destruct (writable w out); [|cbn [cut_file] in E; injection E as ->; discriminate].
    pose proof (written img Vi Ci Sz []) as Et. set (txt := [] ++ header_text img ++ _) in Et. clearbody txt. rewrite Et in E.
    cbn [bind cut_file ends written_file status printed] in E. injection E as ->. cbn [written_file] in W. injection W as <- <-.
    split; [reflexivity|]. exists img, txt. split; [exact MW|]. split; [exact Et|]. split; [reflexivity|].
    exact (cut_map img txt (room out) Vi Ci Sz Mx (ex_intro _ before Eb) Et).
Qed.

(** A file that is large enough. *)
Lemma disk_room b v srt w room p e :
  (forall path t x, e = Ok x -> written_file x = Some (path, t) -> len t <= room path) ->
  main_with b v srt w p e -> main_disk b v srt w room p e.
Proof.
  intros R M. apply main_cut. exists e. split; [exact M|]. destruct e as [[st pr [[path t]|]]|]; try reflexivity.
  cbn [cut_file status printed written_file]. rewrite firstn_all2; [reflexivity|].
  specialize (R path t _ eq_refl eq_refl). unfold len in R. lia.
Qed.
