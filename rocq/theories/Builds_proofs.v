(** Runs of different builds one after another, and their output files. *)
From Coq Require Import Lia String.
From Verif Require Import Device_main_proofs Fail_proofs Omp_run_proofs.
From Verif Require Export Builds_spec Disk_omp Disk_spec.
From Verif Require Import App_proofs Disk_proofs Memory_builds_proofs Series_proofs.
Local Open Scope N_scope.

(** *** The output file of the build with OpenMP *)

Lemma omp_cut v srt w room p e : main_disk_omp v srt w room p e <-> exists e', main_omp v srt w p e' /\ e = cut_file room e'.
Proof.
  assert (Same : forall c, cut_file room c = c -> e = c <-> exists e', e' = c /\ e = cut_file room e').
  { intros c Hc. split; [intros ->; exists c; auto|]. intros [e' [-> ->]]. exact Hc. }
  destruct p as [o| |]; unfold main_disk_omp, main_omp; [|apply Same; reflexivity..].
  destruct (o_output o) as [out|], (o_left o), (o_right o);
    try (destruct (_ || _); [apply Same; reflexivity|]; destruct (_ =? _); apply Same; reflexivity).
  destruct (check_parallel (o_parallel o)) as [pa|[y| |]]; try (apply Same; reflexivity). split.
  - intros [x [M ->]]. exists (finishes w out x). split; [exists x; auto|]. apply finishes_cut.
  - intros [e' [[x [M ->]] ->]]. exists x. split; [exact M|]. symmetry. apply finishes_cut.
Qed.

Lemma omp_room v srt w room p e :
  (forall path t x, e = Ok x -> written_file x = Some (path, t) -> len t <= room path) ->
  main_omp v srt w p e -> main_disk_omp v srt w room p e.
Proof.
  intros R M. apply omp_cut. exists e. split; [exact M|]. destruct e as [[st pr [[path t]|]]|]; try reflexivity.
  cbn [cut_file status printed written_file]. rewrite firstn_all2; [reflexivity|].
  specialize (R path t _ eq_refl eq_refl). unfold len in R. lia.
Qed.

Lemma omp_shape v srt w o lpath rpath x : sorts srt -> usable_files w -> team_ok v -> map_omp v srt w o lpath rpath x ->
  (exists y, x = Stop (Throw y)) \/
  exists img, x = Ok img /\ valid_image img /\ consistent_image img /\ width img * height img < 2 ^ 32 /\ max_value img <= width img /\
    (exists before, data img = before ++ [0]) /\ exists l, file_holds w lpath l /\ width img = width l /\ height img = height l.
Proof.
  intros Hs U Hv M. destruct (map_omp_spec v srt w o lpath rpath x Hs U Hv M) as [[y [-> _]]|D]; [left; eauto|].
  destruct D as [l [r [lev [c [s [g [lp [t [Hl [_ [_ [_ [_ [Eg [_ [_ X]]]]]]]]]]]]]]]].
  destruct X as [->|[->|[[-> _]|[img [-> [[W [H [Mi [C [V [Lo _]]]]]] _]]]]]]; [left; eauto..|right].
  destruct (make_graph_Ok l r lev _ _ g Eg) as [_ [_ [_ [Lw [Ww [Wh [_ [_ [_ [_ [_ E]]]]]]]]]]].
  assert (El : left g = l /\ right g = r /\ levels g = lev) by (rewrite E; auto). destruct El as [El [Er Ev]].
  rewrite El in W, H. destruct (held_usable w lpath l U Hl) as [S1 _].
  exists img. split; [reflexivity|]. split; [exact V|]. split; [exact C|]. split; [rewrite W, H; exact S1|]. split; [lia|].
  split; [|exists l; auto]. apply (ends_in_zero g img C V); [rewrite Er; congruence..|exact Lo].
Qed.

Lemma omp_recognised v srt w room o lpath rpath out e path t :
  sorts srt -> usable_files w -> team_ok v -> all_paths o lpath rpath out ->
  main_disk_omp v srt w room (Parsed o) (Ok e) -> written_file e = Some (path, t) ->
  path = out /\ exists img txt, map_omp v srt w o lpath rpath (Ok img) /\ write_image [] (Some img) = Ok txt /\
    t = firstn (N.to_nat (room out)) txt /\
    (max_value img <= 65536 -> len txt <= room out + 1 -> reads_image t img) /\
    (room out + 1 < len txt -> rejects t).
Proof.
  intros Hs U Hv [E1 [E2 E3]] M W. unfold main_disk_omp in M. rewrite E1, E2, E3 in M.
  destruct (check_parallel (o_parallel o)) as [u|[y| |]]; [|injection M as ->; discriminate|discriminate..].
  destruct M as [x [MW E]]. rewrite finishes_cut in E. unfold finishes in E.
  destruct (omp_shape v srt w o lpath rpath x Hs U Hv MW) as [[y ->]|[img [-> [Vi [Ci [Sz [Mx [Eb _]]]]]]]].
  - cbn [bind cut_file] in E. injection E as ->. discriminate.
  - cbn [bind] in E. destruct (writable w out); [|cbn [cut_file] in E; injection E as ->; discriminate].
    pose proof (written img Vi Ci Sz []) as Et. set (txt := [] ++ header_text img ++ _) in Et. clearbody txt. rewrite Et in E.
    cbn [bind cut_file ends written_file status printed] in E. injection E as ->. cbn [written_file] in W. injection W as <- <-.
    split; [reflexivity|]. exists img, txt. split; [exact MW|]. split; [exact Et|]. split; [reflexivity|].
    exact (cut_map img txt (room out) Vi Ci Sz Mx Eb Et).
Qed.

(** *** Runs of all builds *)

Lemma suits_fits b v w p : usable_files w -> suits w (Devices b v) -> device_fits b w p.
Proof.
  intros U S o a l il lev -> Ec El Hh Hn Lw.
  assert (Up : width il * height il * 4 * lev <= width il * height il * 4 * width il) by (apply N.mul_le_mono_l; exact Lw).
  destruct a; unfold addressable; eapply N.le_lt_trans; try exact Up.
  - destruct (held_usable w l il U Hh) as [_ S2].
    replace (width il * height il * 4 * width il) with (4 * (width il * width il * height il)) by lia. exact S2.
  - assert (Hc : use_cuda b = true).
    { unfold chosen in Ec. destruct (o_parallel o) as [t|]; [|discriminate]. cbv zeta in Ec.
      destruct (use_opencl b && _); [discriminate|]. destruct (use_cuda b); [reflexivity|]. cbn [andb] in Ec.
      destruct (_ || _); discriminate. }
    exact (S Hc l il Hh).
Qed.

Lemma run_ok x srt w args e : sorts srt -> usable_files w -> suits w x -> runs_as x srt w args e -> exists e', e = Ok e'.
Proof.
  intros Hs U S [p [_ R]]. destruct x as [b v|v].
  - exact (with_total b v srt w p e Hs U (suits_fits b v w p U S) R).
  - exact (omp_total v srt w p e Hs U S R).
Qed.

Lemma wrote x srt w args e path t : sorts srt -> usable_files w -> suits w x -> runs_as x srt w args (Ok e) -> written_file e = Some (path, t) ->
  writes_to args path /\ writable w path = true /\ status e = 0 /\ printed e = None /\
  exists img lpath l, write_image [] (Some img) = Ok t /\ valid_image img /\ consistent_image img /\ width img * height img < 2 ^ 32 /\
    max_value img <= width img /\ reads_from args lpath /\ file_holds w lpath l /\ width img = width l /\ height img = height l.
Proof.
  intros Hs U S [p [P R]] W.
  assert (Fin : forall o lpath rpath out z, p = Parsed o -> all_paths o lpath rpath out -> Ok e = finishes w out z ->
    ((exists y, z = Stop (Throw y)) \/
     exists img, z = Ok img /\ valid_image img /\ consistent_image img /\ width img * height img < 2 ^ 32 /\ max_value img <= width img /\
       (exists before, data img = before ++ [0]) /\ exists l, file_holds w lpath l /\ width img = width l /\ height img = height l) ->
    writes_to args path /\ writable w path = true /\ status e = 0 /\ printed e = None /\
    exists img lpath l, write_image [] (Some img) = Ok t /\ valid_image img /\ consistent_image img /\ width img * height img < 2 ^ 32 /\
      max_value img <= width img /\ reads_from args lpath /\ file_holds w lpath l /\ width img = width l /\ height img = height l).
  { intros o lpath rpath out z -> [E1 [E2 E3]] E Sh. unfold finishes in E.
    destruct Sh as [[y ->]|[img [-> [Vi [Ci [Sz [Mx [_ [l [Hl [Wl Hh]]]]]]]]]]].
    - cbn [bind] in E. injection E as ->. discriminate.
    - cbn [bind] in E. destruct (writable w out) eqn:Ew; [|injection E as ->; discriminate].
      pose proof (written img Vi Ci Sz []) as Et. set (txt := [] ++ header_text img ++ _) in Et. clearbody txt. rewrite Et in E.
      cbn [bind] in E. injection E as ->. cbn [written_file ends] in W. injection W as <- <-.
      apply (command_line args) in P as (s & G & D & Sv).
      split; [exists s; split; [exact G|now apply (Sv ForOutput)]|]. split; [exact Ew|]. split; [reflexivity|]. split; [reflexivity|].
      exists img, lpath, l. repeat (split; [assumption|]). split; [exists s; split; [exact G|left; now apply (Sv ForLeft)]|]. auto. }
  destruct p as [o| |]; [|destruct x; cbn in R; injection R as ->; discriminate..].
  destruct x as [b v|v]; unfold main_with, main_omp in R;
    (destruct (o_output o) as [out|] eqn:E1, (o_left o) as [lpath|] eqn:E2, (o_right o) as [rpath|] eqn:E3;
     try (destruct (_ || _); [injection R as ->; discriminate|]; destruct (_ =? _); injection R as ->; discriminate)).
  - destruct (chosen b (o_parallel o)) as [pa|[y| |]] eqn:Ec; [|injection R as ->; discriminate|discriminate..].
    destruct R as [z [M E]]. apply (Fin o lpath rpath out z eq_refl (conj E2 (conj E3 E1)) E).
    refine (map_shape pa v srt w o lpath rpath z Hs U _ M). intros a l lev -> Hl Hn Lw.
    exact (suits_fits b v w (Parsed o) U S o a lpath l lev eq_refl Ec E2 Hl Hn Lw).
  - destruct (check_parallel (o_parallel o)) as [u|[y| |]]; [|injection R as ->; discriminate|discriminate..].
    destruct R as [z [M E]]. apply (Fin o lpath rpath out z eq_refl (conj E2 (conj E3 E1)) E).
    exact (omp_shape v srt w o lpath rpath z Hs U S M).
Qed.

Lemma wrote_usable x srt w args e path t : sorts srt -> usable_files w -> suits w x -> runs_as x srt w args (Ok e) -> written_file e = Some (path, t) ->
  usable t /\ exists img, write_image [] (Some img) = Ok t /\ valid_image img /\ (max_value img <= 65536 -> file_holds (world_after w e) path img) /\
    (forall i, file_holds (world_after w e) path i -> exists lpath l, file_holds w lpath l /\ width i = width l /\ height i = height l).
Proof.
  intros Hs U S R W. destruct (wrote x srt w args e path t Hs U S R W) as (_ & _ & _ & _ & img & lpath & l & Wi & Vi & Ci & S1 & Mx & _ & Hl & E1 & E2).
  pose proof (sides img Vi S1) as [B1 B2]. destruct (held_usable w lpath l U Hl) as [_ S2]. rewrite <- E1, <- E2 in S2.
  destruct (cut_words img t t [] Vi Ci S1 ltac:(lia) Wi) as [ts [_ [_ [L _]]]]; [rewrite app_nil_r; reflexivity|].
  split; [apply (words_usable t img L); try assumption; lia|].
  exists img. split; [exact Wi|]. split; [exact Vi|]. split.
  - intros B. exists t, (image_words img). split; [apply after_written; exact W|]. split; [exact L|].
    exists (map digits (data img)). rewrite app_nil_r. split.
    + exists (digits (width img)), (digits (height img)), (digits (max_value img)).
      split; [reflexivity|]. split; [|split]; apply digits_reads; lia.
    + split; [exact B|]. split; [|exact Ci]. destruct Vi as [_ [_ [_ V]]].
      assert (V' : forall v, In v (data img) -> v < 2 ^ 64) by (intros v Hv; specialize (V v Hv); lia). clear - V'.
      induction (data img) as [|v d IH]; cbn [map]; constructor; [apply digits_reads, V'; left; reflexivity|].
      apply IH. intros z Hx. apply V'. right. exact Hx.
  - intros i [t' [ts' [F [L' [body [Hh _]]]]]]. rewrite (after_written w e path t W) in F. injection F as <-.
    assert (ts' = image_words img) by (eapply laid_unique; eassumption). subst ts'.
    assert (In3 : In (digits (width img)) (image_words img) /\ In (digits (height img)) (image_words img))
      by (unfold image_words; split; cbn [In]; auto).
    destruct Hh as [tw [th [tm [E [Rw [Rh _]]]]]]. unfold image_words in E. injection E as X1 X2 X3 X4. subst.
    exists lpath, l. split; [exact Hl|].
    rewrite <- E1, <- E2. split; eapply token_fun; try exact L; try eassumption; try apply In3; apply digits_reads; lia.
Qed.

(** What a run leaves. *)
Lemma usable_later x srt w args e : sorts srt -> usable_files w -> suits w x -> runs_as x srt w args (Ok e) -> usable_files (world_after w e).
Proof.
  intros Hs U S R q t F. destruct (written_file e) as [[p u]|] eqn:W.
  - destruct (list_eq_dec ascii_dec q p) as [->|N].
    + rewrite (after_written w e p u W) in F. injection F as <-. exact (proj1 (wrote_usable x srt w args e p u Hs U S R W)).
    + rewrite after_other in F; [exact (U q t F)|]. intros y X. rewrite W in X. injection X as X _. auto.
  - rewrite after_other in F; [exact (U q t F)|]. intros y X. rewrite W in X. discriminate.
Qed.
Lemma suits_later x y srt w args e : sorts srt -> usable_files w -> suits w x -> runs_as x srt w args (Ok e) -> suits w y -> suits (world_after w e) y.
Proof.
  intros Hs U S R Sy. destruct y as [b v|v]; [|exact Sy]. intros Hc path i Hi. specialize (Sy Hc).
  assert (Old : files (world_after w e) path = files w path -> width i * height i * 4 * width i < 2 ^ 32).
  { intros E. apply (Sy path i). destruct Hi as [t [ts [F H]]]. exists t, ts. rewrite <- E. auto. }
  destruct (written_file e) as [[p u]|] eqn:W.
  - destruct (list_eq_dec ascii_dec path p) as [->|N].
    + destruct (wrote_usable x srt w args e p u Hs U S R W) as [_ [img [_ [_ [_ Sz]]]]].
      destruct (Sz i Hi) as [lpath [l [Hl [-> ->]]]]. exact (Sy lpath l Hl).
    + apply Old, after_other. intros z X. rewrite W in X. injection X as X _. auto.
  - apply Old, after_other. intros z X. rewrite W in X. discriminate.
Qed.

(** *** Series *)

Lemma series_keeps srt w runs es w' : sorts srt -> series srt w runs es w' -> usable_files w -> (forall x args, In (x, args) runs -> suits w x) ->
  usable_files w' /\ (forall y, suits w y -> suits w' y) /\ length es = length runs /\
  (forall q, writable w' q = writable w q) /\
  (forall q, (forall x args, In (x, args) runs -> ~ writes_to args q) -> files w' q = files w q) /\
  (forall q, files w' q = files w q \/
     exists e t img, In e es /\ written_file e = Some (q, t) /\ files w' q = Some t /\ write_image [] (Some img) = Ok t /\ valid_image img).
Proof.
  intros Hs H. induction H as [w|w x args e rest es w' R H IH]; intros U S.
  - split; [exact U|]. split; [auto|]. split; [reflexivity|]. auto.
  - pose proof (S x args (or_introl eq_refl)) as Sx.
    destruct IH as (U' & Y & L & Wr & Fr & An).
    { exact (usable_later x srt w args e Hs U Sx R). }
    { intros y a Ha. apply (suits_later x y srt w args e Hs U Sx R). exact (S y a (or_intror Ha)). }
    split; [exact U'|]. split; [intros y Hy; apply Y, (suits_later x y srt w args e Hs U Sx R Hy)|].
    split; [cbn [length]; lia|]. split; [intros q; rewrite Wr; apply after_writable|]. split.
    + intros q N. rewrite Fr by (intros y a Ha; apply (N y); right; exact Ha). apply after_other. intros t W.
      exact (N x args (or_introl eq_refl) (proj1 (wrote x srt w args e q t Hs U Sx R W))).
    + intros q. destruct (An q) as [E|(e1 & t & img & I & Q)].
      * destruct (written_file e) as [[p u]|] eqn:W.
        -- destruct (list_eq_dec ascii_dec q p) as [->|N].
           ++ right. destruct (wrote x srt w args e p u Hs U Sx R W) as (_ & _ & _ & _ & img & lpath & l & Wi & Vi & _). exists e, u, img.
              rewrite E, (after_written w e p u W). split; [left; reflexivity|]. auto.
           ++ left. rewrite E. apply after_other. intros z X. rewrite W in X. injection X as X _. auto.
        -- left. rewrite E. apply after_other. intros z X. rewrite W in X. discriminate.
      * right. exists e1, t, img. split; [right; exact I|exact Q].
Qed.

Lemma series_goes_on srt w runs es w' x args e : sorts srt -> usable_files w -> (forall y a, In (y, a) runs -> suits w y) -> suits w x ->
  series srt w runs es w' -> runs_as x srt w' args e ->
  exists e', e = Ok e' /\ series srt w (runs ++ [(x, args)]) (es ++ [e']) (world_after w' e').
Proof.
  intros Hs U S Sx H R. destruct (series_keeps srt w runs es w' Hs H U S) as (U' & Y & _).
  destruct (run_ok x srt w' args e Hs U' (Y x Sx) R) as [e' ->]. exists e'. split; [reflexivity|]. clear - H R.
  induction H as [w|w y a f rest es w' R' H IH]; cbn [app]; [apply (series_run srt w x args e' [] []); [exact R|constructor]|].
  econstructor; [exact R'|]. apply IH. exact R.
Qed.

(** *** What a run depends on *)

Lemma runs_local x srt w w' args e :
  (forall q, writable w q = writable w' q) -> (forall q, reads_from args q -> files w q = files w' q) ->
  runs_as x srt w args e -> runs_as x srt w' args e.
Proof.
  intros Hw Hf [p [P R]]. exists p. split; [exact P|].
  assert (Rd : forall o, p = Parsed o -> forall q, o_left o = Some q \/ o_right o = Some q -> read_file w q = read_file w' q).
  { intros o -> q H. unfold read_file. rewrite (Hf q); [reflexivity|].
    apply (command_line args) in P as (s & G & D & S). exists s. split; [exact G|].
    destruct H as [H|H]; [left; now apply (S ForLeft)|right; now apply (S ForRight)]. }
  destruct p as [o| |]; [|destruct x; exact R..]. specialize (Rd o eq_refl).
  assert (Fin : forall out z, finishes w out z = finishes w' out z).
  { intros out z. unfold finishes. rewrite Hw. reflexivity. }
  destruct x as [b v|v]; unfold main_with, main_omp in *;
    destruct (o_output o) as [out|] eqn:E1, (o_left o) as [l|] eqn:E2, (o_right o) as [r|] eqn:E3; try exact R.
  - destruct (chosen b (o_parallel o)) as [pa|[y| |]]; try exact R. destruct R as [z [M ->]]. exists z. split; [|apply Fin].
    unfold map_with in *. rewrite <- (Rd l (or_introl eq_refl)), <- (Rd r (or_intror eq_refl)). exact M.
  - destruct (check_parallel (o_parallel o)) as [pa|[y| |]]; try exact R. destruct R as [z [M ->]]. exists z. split; [|apply Fin].
    unfold map_omp in *. rewrite <- (Rd l (or_introl eq_refl)), <- (Rd r (or_intror eq_refl)). exact M.
Qed.

Lemma runs_output x srt w args e path t : sorts srt -> usable_files w -> suits w x -> runs_as x srt w args (Ok e) ->
  written_file e = Some (path, t) -> writes_to args path.
Proof. intros Hs U S R W. exact (proj1 (wrote x srt w args e path t Hs U S R W)). Qed.

Lemma builds_again x y srt w args args' e e' : sorts srt -> usable_files w -> suits w x -> runs_as x srt w args (Ok e) ->
  (forall q, writes_to args q -> ~ reads_from args' q) -> runs_as y srt (world_after w e) args' e' <-> runs_as y srt w args' e'.
Proof.
  intros Hs U S R D.
  assert (F : forall q, reads_from args' q -> files (world_after w e) q = files w q).
  { intros q H. apply after_other. intros t W. exact (D q (runs_output x srt w args e q t Hs U S R W) H). }
  split; apply runs_local; try (intros q; rewrite after_writable; reflexivity); intros q H; [|symmetry]; apply F, H.
Qed.

Lemma builds_order srt w x y a b ea eb w1 : sorts srt -> usable_files w -> suits w x -> suits w y ->
  (forall q, writes_to a q -> ~ reads_from b q /\ ~ writes_to b q) -> (forall q, writes_to b q -> ~ reads_from a q) ->
  series srt w [(x, a); (y, b)] [ea; eb] w1 -> exists w2, series srt w [(y, b); (x, a)] [eb; ea] w2 /\ same_files w1 w2.
Proof.
  intros Hs U Sx Sy Da Db H.
  inversion H as [|? ? ? ? ? ? ? Ra H']. subst. inversion H' as [|? ? ? ? ? ? ? Rb' H'']. subst. inversion H''. subst. clear H H' H''.
  pose proof (proj1 (builds_again x y srt w a b ea _ Hs U Sx Ra (fun q Q => proj1 (Da q Q))) Rb') as Rb.
  pose proof (proj2 (builds_again y x srt w b a eb _ Hs U Sy Rb Db) Ra) as Ra'.
  exists (world_after (world_after w eb) ea).
  split; [econstructor; [exact Rb|]; econstructor; [exact Ra'|constructor]|].
  split; [|intros q; rewrite !after_writable; reflexivity].
  intros q. destruct (written_file ea) as [[p u]|] eqn:Wa.
  - destruct (list_eq_dec ascii_dec q p) as [->|N].
    + rewrite (after_written _ ea p u Wa). rewrite after_other; [apply after_written; exact Wa|].
      intros t W. exact (proj2 (Da p (runs_output x srt w a ea p u Hs U Sx Ra Wa)) (runs_output y srt w b eb p t Hs U Sy Rb W)).
    + assert (X : forall v, files (world_after v ea) q = files v q) by (intros v; apply after_other; intros t W; rewrite Wa in W; injection W as W _; auto).
      rewrite X. unfold world_after at 1 3. destruct (written_file eb) as [[p' u']|]; cbn [files]; rewrite ?X; reflexivity.
  - assert (X : forall v, world_after v ea = v) by (intros v; unfold world_after; rewrite Wa; reflexivity). rewrite !X. split; reflexivity.
Qed.
