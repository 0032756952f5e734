(** Runs in which everything may fail: consequences and examples. *)
From Coq Require Import Lia String.
From Verif Require Import Fail_witness Device_witness Omp_witness.
From Verif Require Export Troubles_proofs.
From Verif Require Import Memory_proofs Memory_builds_proofs Memory_builds_witness Broken_proofs Broken_witness Disk_proofs Builds_proofs.
From Verif Require Import Fail_proofs App_proofs Memory_witness Omp_main_proofs Main_witness Pgm.
Local Open Scope N_scope.

Lemma emptied_cut room s m out : ends_with (cut_fate room (Ends (Ok (ends s m (Some (out, [])))))) s m (Some (out, [])).
Proof. unfold ends_with. cbn. rewrite firstn_nil. reflexivity. Qed.

(** *** OpenMP *)

Lemma omp_troubled v srt w room p e : sorts srt -> usable_fragile w -> team_ok v -> main_troubled_omp v srt w room p e ->
  (exists x, main_omp v srt (sound_part w) p (Ok x) /\ e = Ends (cut_file room (Ok x))) \/
  ends_with e 1 (Some UnexpectedException) None \/
  (ends_with e 1 None None /\ exists o l r out, p = Parsed o /\ all_paths o l r out /\ technology_ok o) \/
  (e = Aborts /\ (p = Repeated \/ p = Rejected)) \/
  (exists out txt, main_omp v srt (sound_part w) p (Ok (ends 0 None (Some (out, txt)))) /\
     ends_with e 1 (Some UnexpectedException) (Some (out, []))) \/
  ((long_words (sound_part w) p \/ broken_input w p) /\ blames_file e).
Proof.
  intros Srt U Tv H. destruct (by_cases _ _ room (team_quits v srt room) w p e U H) as [[e0 [H0 ->]]|[B Bl]]; [|auto 8].
  destruct (omp_short v srt _ p e0 Srt (sound_usable w U) Tv H0) as [[x [M ->]]|[Y|[[Y X]|[[-> X]|[[out [txt [M Y]]]|[L [m [Y Hm]]]]]]]];
    try unfold ends_with in Y; try subst e0.
  - left. exists x. auto.
  - right. left. reflexivity.
  - right. right. left. split; [reflexivity|exact X].
  - right. right. right. left. auto.
  - right. right. right. right. left. exists out, txt. split; [exact M|]. apply emptied_cut.
  - right. right. right. right. right. split; [left; exact L|]. exists m. split; [reflexivity|exact Hm].
Qed.
Lemma cut_back room e x path t : Ends (Ok x) = cut_fate room e -> written_file x = Some (path, t) -> t <> [] ->
  exists x0 t0, e = Ends (Ok x0) /\ written_file x0 = Some (path, t0) /\ t0 <> [] /\ Ok x = cut_file room (Ok x0) /\ t = firstn (N.to_nat (room path)) t0.
Proof.
  intros E W Ht. destruct e as [[x0|z]| |]; try discriminate E. exists x0. cbn [cut_fate] in E.
  assert (Ex : Ok x = cut_file room (Ok x0)) by congruence. pose proof Ex as E0. cbn [cut_file] in E0.
  assert (X : written_file x = match written_file x0 with Some (path, t) => Some (path, firstn (N.to_nat (room path)) t) | None => None end)
    by (apply (f_equal (fun z => match z with Ok a => written_file a | Stop _ => None end)) in E0; exact E0).
  rewrite W in X. destruct (written_file x0) as [[path0 t0]|]; [|discriminate X].
  assert (path = path0) as <- by congruence. assert (t = firstn (N.to_nat (room path)) t0) as Et by congruence.
  exists t0. split; [reflexivity|]. split; [reflexivity|]. split; [|auto]. intros ->. apply Ht. rewrite Et. apply firstn_nil.
Qed.

(** A run that writes has read both images. *)
Lemma held_sound w path img : read_file (sound_part w) path = Ok img -> ~ broken_at w path.
Proof. intros E [t B]. unfold read_file, sound_part in E. cbn [files] in E. rewrite B in E. discriminate E. Qed.
Lemma omp_wrote v srt w p x f : main_omp v srt w p (Ok x) -> written_file x = Some f ->
  exists o l r out img, p = Parsed o /\ all_paths o l r out /\ fst f = out /\ map_omp v srt w o l r (Ok img) /\
    (exists il, read_file w l = Ok il) /\ (exists ir, read_file w r = Ok ir) /\ status x = 0 /\ printed x = None.
Proof.
  intros M W. destruct p as [o| |]; try (injection M as ->; discriminate W). unfold main_omp in M.
  destruct (o_output o) as [out|] eqn:Eo, (o_left o) as [l|] eqn:El, (o_right o) as [r|] eqn:Er;
    try (revert M; destruct (_ || _); [intros M; injection M as ->; discriminate W|]; destruct (_ =? _); intros M; injection M as ->; discriminate W).
  destruct (check_parallel (o_parallel o)) as [pa|[y| |]]; try discriminate M; [|injection M as ->; discriminate W].
  destruct M as [y [Hy E]]. unfold finishes in E. destruct y as [img|[y| |]]; cbn [bind] in E; try discriminate E; [|injection E as ->; discriminate W].
  destruct (writable w out); [|injection E as ->; discriminate W].
  destruct (write_image [] (Some img)) as [txt|[y| |]] eqn:Ew; cbn [bind] in E; try discriminate E; [|exfalso; exact (write_throws _ _ _ Ew)].
  assert (x = ends 0 None (Some (out, txt))) as -> by congruence.
  exists o, l, r, out, img. split; [reflexivity|]. split; [repeat split; assumption|].
  split; [cbn [ends written_file] in W; assert (f = (out, txt)) as -> by congruence; reflexivity|]. split; [exact Hy|].
  split; [|split; [|split; reflexivity]].
  - destruct Hy as [[il [Hl _]]|[z [_ X]]]; [|discriminate X]. exists il. symmetry. exact Hl.
  - destruct Hy as [[il [_ Hy]]|[z [_ X]]]; [|discriminate X]. destruct Hy as [[ir [Hr _]]|[z [_ X]]]; [|discriminate X]. exists ir. symmetry. exact Hr.
Qed.

Lemma omp_troubled_map v srt w room p x path t : sorts srt -> usable_fragile w -> team_ok v ->
  main_troubled_omp v srt w room p (Ends (Ok x)) -> written_file x = Some (path, t) -> t <> [] ->
  status x = 0 /\ printed x = None /\
  exists o l r img txt, p = Parsed o /\ all_paths o l r path /\ ~ broken_at w l /\ ~ broken_at w r /\
    map_omp v srt (sound_part w) o l r (Ok img) /\ write_image [] (Some img) = Ok txt /\
    t = firstn (N.to_nat (room path)) txt /\
    (max_value img <= 65536 -> len txt <= room path + 1 -> reads_image t img) /\
    (room path + 1 < len txt -> rejects t).
Proof.
  intros Srt U Tv H W Ht. destruct (by_cases _ _ room (team_quits v srt room) w p _ U H) as [[e0 [H0 E]]|[_ [m [X _]]]].
  2:{ injection X as ->. discriminate W. }
  destruct (cut_back room e0 x path t E W Ht) as [x0 [t0 [-> [W0 [Ht0 [Ex _]]]]]].
  pose proof (omp_file v srt _ p x0 path t0 Srt (sound_usable w U) Tv H0 W0 Ht0) as M.
  destruct (omp_wrote v srt _ p x0 _ M W0) as [o [l [r [out [_ [-> [Pa [Eo [_ [[il Hl] [[ir Hr] [S0 P0]]]]]]]]]]]].
  cbn [fst] in Eo. subst out.
  assert (D : main_disk_omp v srt (sound_part w) room (Parsed o) (Ok x)) by (apply omp_cut; exists (Ok x0); auto).
  destruct (omp_recognised v srt _ room o l r path x path t Srt (sound_usable w U) Tv Pa D W) as [_ [img [txt R]]].
  cbn [cut_file] in Ex.
  split; [apply (f_equal (fun z => match z with Ok a => status a | _ => 0 end)) in Ex; cbn [status] in Ex; congruence|].
  split; [apply (f_equal (fun z => match z with Ok a => printed a | _ => None end)) in Ex; cbn [printed] in Ex; congruence|].
  exists o, l, r, img, txt. split; [reflexivity|]. split; [exact Pa|].
  split; [exact (held_sound w l il Hl)|]. split; [exact (held_sound w r ir Hr)|]. exact R.
Qed.

(** With a broken input nothing is written. *)
Lemma omp_troubled_broken v srt w room p e : sorts srt -> usable_fragile w -> team_ok v -> broken_input w p ->
  main_troubled_omp v srt w room p e -> exists x, e = Ends (Ok x) /\ written_file x = None.
Proof.
  intros Srt U Tv [o [path [-> [Hp B]]]] H.
  assert (No : forall x f, main_omp v srt (sound_part w) (Parsed o) (Ok x) -> written_file x = Some f -> False).
  { intros x f M W. destruct (omp_wrote v srt _ _ x _ M W) as [o' [l [r [out [_ [Eo [[El [Er _]] [_ [_ [[il Hl] [[ir Hr] _]]]]]]]]]]].
    assert (o' = o) as -> by congruence.
    destruct Hp as [Hp|Hp]; [assert (l = path) as -> by congruence; exact (held_sound w path il Hl B)|
      assert (r = path) as -> by congruence; exact (held_sound w path ir Hr B)]. }
  destruct (omp_troubled v srt w room _ e Srt U Tv H) as [[x [M ->]]|[Y|[[Y _]|[[_ [X|X]]|[[out [txt [M Y]]]|[_ [m [Y _]]]]]]]];
    try discriminate X; try unfold ends_with in Y; try subst e; try (eexists; split; reflexivity).
  - cbn [cut_file]. eexists. split; [reflexivity|]. cbn [written_file]. destruct (written_file x) as [[q u]|] eqn:W; [|reflexivity].
    exfalso. exact (No x (q, u) M W).
  - exfalso. exact (No _ (out, txt) M eq_refl).
Qed.

(** Runs with fewer troubles are among them. *)
Lemma omp_troubled_scarce v srt w room p e : ~ broken_input w p -> main_scarce_omp v srt (sound_part w) p e ->
  main_troubled_omp v srt w room p (cut_fate room e).
Proof. exact (by_possible _ _ room (team_quits v srt room) w p e). Qed.

Lemma comments_calm brk fuel : forall c s, skip_comments_troubled brk fuel c s (Gets (skip_comments_from brk fuel c s)).
Proof.
  induction fuel as [|fuel IH]; intros c s; cbn [skip_comments_troubled skip_comments_from]; [reflexivity|].
  destruct (good s && starts_comment c).
  - cbv zeta. destruct (failbit (ignore_line_from brk s)); [reflexivity|].
    left. exists (extract_from brk c (ignore_line_from brk s)). split; [left; reflexivity|].
    destruct (extract_from brk c (ignore_line_from brk s)) as [u s2]. apply IH.
  - destruct (starts_comment c); reflexivity.
Qed.
Lemma instruction_calm brk s : read_pgm_instruction_troubled brk s (Gets (read_pgm_instruction_from brk s)).
Proof.
  unfold read_pgm_instruction_troubled, read_pgm_instruction_from. destruct (failbit s); [reflexivity|].
  left. exists (extract_from brk [] s). split; [left; reflexivity|]. destruct (extract_from brk [] s) as [u s2]. apply comments_calm.
Qed.
Lemma number_calm brk s : read_number_troubled brk s (Gets (read_number_from brk s)).
Proof. unfold read_number_troubled, read_number_from. apply chain_ok; [apply instruction_calm|]. intros a _. apply may_gets. Qed.
Lemma pixels_calm brk ps : forall img s, read_pixels_troubled brk img ps s (Gets (read_pixels_from brk img ps s)).
Proof.
  induction ps as [|p ps IH]; intros img s; cbn [read_pixels_troubled read_pixels_from]; [reflexivity|].
  apply chain_ok; [apply number_calm|]. intros [v s'] _. cbn [fst snd]. destruct v as [v|]; [|reflexivity].
  apply chain_ok; [apply sure_gets|]. intros d _. apply IH.
Qed.
Lemma image_calm brk s io : read_image_troubled brk s io (Gets (read_image_from brk s io)).
Proof.
  unfold read_image_troubled, read_image_from. apply chain_ok; [apply instruction_calm|]. intros [u s1] _. cbn [fst snd].
  destruct (list_eq_dec ascii_dec u FORMAT_CODE); cbn [negb]; [|reflexivity]. apply may_first.
  apply chain_ok; [apply number_calm|]. intros [[wd|] s2] _; cbn [fst snd]; [|reflexivity].
  apply chain_ok; [apply number_calm|]. intros [[ht|] s3] _; cbn [fst snd]; [|reflexivity].
  apply chain_ok; [apply number_calm|]. intros [[mx|] s4] _; cbn [fst snd]; [|reflexivity].
  destruct (MAX_VALUE_LIMIT <? mx); [reflexivity|]. apply chain_ok; [apply may_gets|]. intros d _. cbv zeta.
  apply chain_ok; [apply pixels_calm|]. intros [[img|] s5] _; cbn [fst snd]; [|reflexivity].
  apply chain_ok; [apply sure_gets|]. intros s6 _. reflexivity.
Qed.
Lemma file_calm w path : read_troubled w path (Gets (read_fragile w path)).
Proof.
  unfold read_troubled, read_fragile. destruct (fragile_files w path) as [c|]; [|apply may_gets]. apply may_first.
  apply chain_ok; [apply image_calm|]. intros r _. apply may_gets.
Qed.
Lemma problem_calm w o l r : problem_troubled w o l r (Gets (problem_fragile w o l r)).
Proof.
  unfold problem_troubled, problem_fragile. apply chain_ok; [apply file_calm|]. intros il _.
  apply chain_ok; [apply file_calm|]. intros ir _. do 3 (apply chain_ok; [apply may_gets|]; intros ? _). apply sure_gets.
Qed.
Lemma omp_troubled_fragile v srt w room p e : main_fragile_omp v srt w p e -> main_troubled_omp v srt w room p (Ends (cut_file room e)).
Proof.
  intros H. right. destruct p as [o| |]; [|left; cbn in H; subst e; reflexivity..].
  unfold main_fragile_omp in H. cbn [main_fragile_by] in H.
  destruct (o_output o) as [out|], (o_left o) as [l|], (o_right o) as [r|];
    try (revert H; destruct (_ || _); [intros ->; reflexivity|]; destruct (_ =? _); intros ->; reflexivity).
  destruct (check_parallel (o_parallel o)) as [pa|[x| |]]; try (subst e; reflexivity).
  destruct H as [x [Hx ->]]. eexists. split; [apply problem_calm|].
  assert (Fin : forall x, finishes_troubled w room out x = Ends (cut_file room (finishes_fragile w out x))) by (intros y; apply finishes_same).
  destruct (problem_fragile w o l r) as [[[[[il ir] lev] c] s]|z].
  - right. exists (Maps x). split; [right; eauto|]. rewrite <- Fin. destruct x as [img|z]; [|reflexivity].
    unfold output_troubled. destruct (fragile_writable w out); [right|]; reflexivity.
  - subst x. rewrite <- Fin. reflexivity.
Qed.

(** *** Devices *)

Lemma with_troubled k b v srt w room p e : sorts srt -> usable_fragile w -> device_fits b (sound_part w) p -> main_troubled_with k b v srt w room p e ->
  (exists e0, main_failing k b v srt (sound_part w) p e0 /\ e = cut_fate room e0) \/
  ends_with e 1 (Some UnexpectedException) None \/
  (e = Aborts /\ (p = Repeated \/ p = Rejected)) \/
  (exists out txt, main_with b v srt (sound_part w) p (Ok (ends 0 None (Some (out, txt)))) /\
     ends_with e 1 (Some UnexpectedException) (Some (out, []))) \/
  ((long_words (sound_part w) p \/ broken_input w p) /\ blames_file e).
Proof.
  intros Srt U Ad H. destruct (by_cases _ _ room (device_quits k v srt room) w p e U H) as [[e0 [H0 ->]]|[B Bl]]; [|auto 8].
  destruct (with_short k b v srt _ p e0 Srt (sound_usable w U) Ad H0) as [M|[Y|[[-> X]|[[out [txt [M Y]]]|[L [m [Y Hm]]]]]]];
    try unfold ends_with in Y; try subst e0.
  - left. exists e0. auto.
  - right. left. reflexivity.
  - right. right. left. auto.
  - right. right. right. left. exists out, txt. split; [exact M|]. apply emptied_cut.
  - right. right. right. right. split; [left; exact L|]. exists m. split; [reflexivity|exact Hm].
Qed.
Lemma with_wrote b v srt w p x f : main_with b v srt w p (Ok x) -> written_file x = Some f ->
  exists o l r out pa, p = Parsed o /\ all_paths o l r out /\ fst f = out /\ chosen b (o_parallel o) = Ok pa /\
    (exists il, read_file w l = Ok il) /\ (exists ir, read_file w r = Ok ir) /\ status x = 0 /\ printed x = None.
Proof.
  intros M W. destruct p as [o| |]; try (injection M as ->; discriminate W). unfold main_with in M.
  destruct (o_output o) as [out|] eqn:Eo, (o_left o) as [l|] eqn:El, (o_right o) as [r|] eqn:Er;
    try (revert M; destruct (_ || _); [intros M; injection M as ->; discriminate W|]; destruct (_ =? _); intros M; injection M as ->; discriminate W).
  destruct (chosen b (o_parallel o)) as [pa|[y| |]] eqn:Ec; try discriminate M; [|injection M as ->; discriminate W].
  destruct M as [y [Hy E]]. unfold finishes in E. destruct y as [img|[y| |]]; cbn [bind] in E; try discriminate E; [|injection E as ->; discriminate W].
  destruct (writable w out); [|injection E as ->; discriminate W].
  destruct (write_image [] (Some img)) as [txt|[y| |]] eqn:Ew; cbn [bind] in E; try discriminate E; [|exfalso; exact (write_throws _ _ _ Ew)].
  assert (x = ends 0 None (Some (out, txt))) as -> by congruence.
  exists o, l, r, out, pa. split; [reflexivity|]. split; [repeat split; assumption|].
  split; [cbn [ends written_file] in W; assert (f = (out, txt)) as -> by congruence; reflexivity|]. split; [exact Ec|].
  unfold map_with in Hy. destruct (read_file w l) as [il|z]; [|discriminate Hy]. cbn [bind] in Hy.
  destruct (read_file w r) as [ir|z]; [|discriminate Hy]. eauto 6.
Qed.
Lemma with_troubled_map k b v srt w room p x path t : sorts srt -> usable_fragile w -> device_fits b (sound_part w) p ->
  main_troubled_with k b v srt w room p (Ends (Ok x)) -> written_file x = Some (path, t) -> t <> [] ->
  status x = 0 /\ printed x = None /\
  exists o l r pa img txt, p = Parsed o /\ all_paths o l r path /\ chosen b (o_parallel o) = Ok pa /\ ~ broken_at w l /\ ~ broken_at w r /\
    map_with pa v srt (sound_part w) o l r (Ok img) /\ write_image [] (Some img) = Ok txt /\
    t = firstn (N.to_nat (room path)) txt /\
    (max_value img <= 65536 -> len txt <= room path + 1 -> reads_image t img) /\
    (room path + 1 < len txt -> rejects t).
Proof.
  intros Srt U Ad H W Ht. destruct (by_cases _ _ room (device_quits k v srt room) w p _ U H) as [[e0 [H0 E]]|[_ [m [X _]]]].
  2:{ injection X as ->. discriminate W. }
  destruct (cut_back room e0 x path t E W Ht) as [x0 [t0 [-> [W0 [Ht0 [Ex _]]]]]].
  pose proof (with_file k b v srt _ p x0 path t0 Srt (sound_usable w U) Ad H0 W0 Ht0) as M.
  destruct (with_wrote b v srt _ p x0 _ M W0) as [o [l [r [out [pa [-> [Pa [Eo [Ec [[il Hl] [[ir Hr] [S0 P0]]]]]]]]]]]].
  cbn [fst] in Eo. subst out.
  assert (D : main_disk b v srt (sound_part w) room (Parsed o) (Ok x)) by (apply main_cut; exists (Ok x0); auto).
  destruct (disk_recognised b v srt _ room o l r path pa x path t Srt (sound_usable w U) Pa Ec) as [_ [img [txt R]]]; [|exact D|exact W|].
  { intros a il' lev -> Fh On Le. destruct Pa as [El _]. exact (Ad o a l il' lev eq_refl Ec El Fh On Le). }
  cbn [cut_file] in Ex.
  split; [apply (f_equal (fun z => match z with Ok a => status a | _ => 0 end)) in Ex; cbn [status] in Ex; congruence|].
  split; [apply (f_equal (fun z => match z with Ok a => printed a | _ => None end)) in Ex; cbn [printed] in Ex; congruence|].
  exists o, l, r, pa, img, txt. split; [reflexivity|]. split; [exact Pa|]. split; [exact Ec|].
  split; [exact (held_sound w l il Hl)|]. split; [exact (held_sound w r ir Hr)|]. exact R.
Qed.
Lemma with_troubled_broken k b v srt w room p x : sorts srt -> usable_fragile w -> device_fits b (sound_part w) p -> broken_input w p ->
  main_troubled_with k b v srt w room p (Ends x) -> exists y, x = Ok y /\ written_file y = None.
Proof.
  intros Srt U Ad [o [path [-> [Hp B]]]] H.
  assert (No : forall x f, main_with b v srt (sound_part w) (Parsed o) (Ok x) -> written_file x = Some f -> False).
  { intros y f M W. destruct (with_wrote b v srt _ _ y _ M W) as [o' [l [r [out [pa [Eo [[El [Er _]] [_ [_ [[il Hl] [[ir Hr] _]]]]]]]]]]].
    assert (o' = o) as -> by congruence.
    destruct Hp as [Hp|Hp]; [assert (l = path) as -> by congruence; exact (held_sound w path il Hl B)|
      assert (r = path) as -> by congruence; exact (held_sound w path ir Hr B)]. }
  destruct (with_troubled k b v srt w room _ _ Srt U Ad H) as [[e0 [M X]]|[X|[[_ [X|X]]|[[out [txt [M X]]]|[_ [m [X _]]]]]]];
    try discriminate X; try (injection X as ->; eexists; split; reflexivity).
  - destruct (contained k b v srt _ _ _ Srt (sound_usable w U) M) as [[y [-> M']]|[o' [a [_ [_ F]]]]].
    + destruct (with_total b v srt _ _ _ Srt (sound_usable w U) Ad M') as [y' ->]. cbn [cut_fate cut_file] in X.
      injection X as ->. eexists. split; [reflexivity|]. cbn [written_file].
      destruct (written_file y') as [[q u]|] eqn:W; [|reflexivity]. exfalso. exact (No y' (q, u) M' W).
    + destruct a; cbn [failed] in F; [subst e0; injection X as ->; eexists; split; reflexivity|].
      destruct F as [->|[[_ ->]|[_ ->]]]; try discriminate X; injection X as ->; eexists; split; reflexivity.
  - exfalso. exact (No _ (out, txt) M eq_refl).
Qed.
Lemma with_troubled_scarce k b v srt w room p e : ~ broken_input w p -> main_scarce_with k b v srt (sound_part w) p e ->
  main_troubled_with k b v srt w room p (cut_fate room e).
Proof. exact (by_possible _ _ room (device_quits k v srt room) w p e). Qed.

(** *** Examples *)

Lemma wb_intact o : o_left o = Some (lit "l.pgm") -> o_right o = Some (lit "r.pgm") -> ~ broken_input wb (Parsed o).
Proof.
  intros El Er [o' [path [E [Hp [t B]]]]]. assert (o' = o) as -> by congruence.
  assert (path = lit "l.pgm" \/ path = lit "r.pgm") as [-> | ->] by (destruct Hp; [left|right]; congruence); discriminate B.
Qed.
Lemma wb_omp x : main_omp two_team isort wg (Parsed (og out_path)) x -> main_omp two_team isort (sound_part wb) (Parsed (og out_path)) x.
Proof.
  unfold main_omp. cbn [og o_output o_left o_right o_parallel]. destruct (check_parallel _) as [[]|[]]; try (intros H; exact H).
Qed.
Lemma wb_with a x : main_with both good_device isort wg (Parsed (od a)) x -> main_with both good_device isort (sound_part wb) (Parsed (od a)) x.
Proof.
  unfold main_with. cbn [od og o_output o_left o_right o_parallel]. destruct (chosen both _) as [pa|[]]; try (intros H; exact H).
Qed.
(** All but [n] characters of the map. *)
Definition all_but (n : N) : text := firstn (N.to_nat (len textg - n)) textg.
Definition space_for (n : N) (_ : text) : N := len textg - n.
Lemma some_left : all_but 2 <> [] /\ len (all_but 2) + 2 = len textg. Proof. split; [vm_compute; discriminate|vm_compute; reflexivity]. Qed.

Lemma omp_troubled_example : sorts (@isort cpu) /\ usable_fragile wb /\ team_ok two_team /\
  (forall n, main_troubled_omp two_team isort wb (space_for n) (Parsed (og out_path)) (Ends (Ok (ends 0 None (Some (out_path, all_but n)))))) /\
  all_but 2 <> [] /\
  broken_input wb (Parsed (ob (lit "l.pgm") copy_path)) /\
  forall room, main_troubled_omp two_team isort wb room (Parsed (ob (lit "l.pgm") copy_path)) (Ends (Ok (ends 0 (Some (InvalidArgumentError NotPgm)) None))).
Proof.
  destruct short_example as [Srt _]. split; [exact Srt|]. split; [exact wb_usable|]. split; [exact (orderly_ok _ two_orderly)|].
  split.
  { intros n.
    pose proof (omp_troubled_scarce two_team isort wb (space_for n) (Parsed (og out_path)) (Ends (Ok (ends 0 None (Some (out_path, textg)))))) as H.
    apply H; [apply wb_intact; reflexivity|]. apply omp_enough, wb_omp, two_run. }
  split; [exact (proj1 some_left)|].
  split; [exists (ob (lit "l.pgm") copy_path), copy_path; split; [reflexivity|]; split; [right; reflexivity|exists textgr; reflexivity]|].
  intros room. apply (omp_troubled_fragile two_team isort wb room _ (Ok (ends 0 (Some (InvalidArgumentError NotPgm)) None))).
  unfold main_fragile_omp. cbn [main_fragile_by ob o_output o_left o_right o_parallel]. cbn [check_parallel].
  exists (Stop (Throw NotPgm)). split; [|reflexivity].
  replace (problem_fragile wb (ob (lit "l.pgm") copy_path) (lit "l.pgm") copy_path) with (@Stop (image * image * N * N * N) (Throw NotPgm)) by (vm_compute; reflexivity).
  reflexivity.
Qed.

Lemma with_troubled_example a : sorts (@isort cpu) /\ usable_fragile wb /\ device_fits both (sound_part wb) (Parsed (od a)) /\
  (forall n, main_troubled_with usual both good_device isort wb (space_for n) (Parsed (od a)) (Ends (Ok (ends 0 None (Some (out_path, all_but n)))))) /\
  all_but 2 <> [].
Proof.
  destruct (with_scarce_example a) as [Srt [U [Ad [_ [M _]]]]]. split; [exact Srt|]. split; [exact wb_usable|].
  assert (Fh : forall l, file_holds (sound_part wb) (lit "l.pgm") l -> file_holds wg (lit "l.pgm") l).
  { intros l [t [ts [F H]]]. exists t, ts. split; [|exact H]. rewrite <- F. reflexivity. }
  split; [|split; [|exact (proj1 some_left)]].
  { intros o a' lpath l lev E Ec El Hl. assert (o = od a) as -> by congruence.
    assert (lpath = lit "l.pgm") as -> by (apply (f_equal (fun z => match z with Some t => t | None => [] end)) in El; symmetry; exact El).
    exact (Ad (od a) a' (lit "l.pgm") l lev eq_refl Ec eq_refl (Fh l Hl)). }
  intros n.
  pose proof (with_troubled_scarce usual both good_device isort wb (space_for n) (Parsed (od a)) (Ends (Ok (ends 0 None (Some (out_path, textg)))))) as H.
  apply H; [apply wb_intact; reflexivity|]. apply with_enough. apply unfailing; [exact Srt|exact (sound_usable wb wb_usable)| |exact (wb_with a _ (device_run a))].
  intros o lpath l E Ec El Hl. assert (o = od a) as -> by congruence.
  assert (lpath = lit "l.pgm") as -> by (apply (f_equal (fun z => match z with Some t => t | None => [] end)) in El; symmetry; exact El).
  exact (usual_room l (Fh l Hl)).
Qed.

(** Not every trouble is told. *)
Lemma untold : exists w room p out txt t, usable_fragile w /\ len t < len txt /\
  main_omp two_team isort (sound_part w) p (Ok (ends 0 None (Some (out, txt)))) /\
  main_troubled_omp two_team isort w room p (Ends (Ok (ends 0 None (Some (out, t))))).
Proof.
  exists wb, (space_for 2), (Parsed (og out_path)), out_path, textg, (all_but 2). split; [exact wb_usable|].
  split; [destruct some_left as [_ E]; lia|]. split; [apply wb_omp, two_run|]. apply omp_troubled_example.
Qed.
