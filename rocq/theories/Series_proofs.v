(** Runs of the application one after another. *)
From Coq Require Import Lia String.
From Verif Require Export Series_spec Args_proofs Cut_proofs Main_witness.
Local Open Scope N_scope.

(** *** What a run depends on *)

Lemma main_local srt w w' p :
  (forall q, writable w q = writable w' q) ->
  (forall o q, p = Parsed o -> o_left o = Some q \/ o_right o = Some q -> files w q = files w' q) ->
  main srt w p = main srt w' p.
Proof.
  intros Hw Hf. destruct p as [o| |]; [|reflexivity..]. unfold main.
  destruct (o_output o) as [out|] eqn:E1, (o_left o) as [l|] eqn:E2, (o_right o) as [r|] eqn:E3; try reflexivity.
  destruct (check_parallel (o_parallel o)) as [u|[y| |]]; try reflexivity.
  unfold disparity_map_of, read_file.
  rewrite (Hf o l eq_refl (or_introl E2)), (Hf o r eq_refl (or_intror E3)), Hw. reflexivity.
Qed.

Lemma run_local srt w w' args :
  (forall q, writable w q = writable w' q) -> (forall q, reads_from args q -> files w q = files w' q) ->
  run_application srt w args = run_application srt w' args.
Proof.
  intros Hw Hf. unfold run_application. destruct (parse_command_line args) as [p|] eqn:E; [|reflexivity].
  apply main_local; [exact Hw|]. intros o q -> H. apply Hf.
  apply (command_line args) in E as (s & G & D & S). exists s. split; [exact G|].
  destruct H as [H|H]; [left; now apply (S ForLeft)|right; now apply (S ForRight)].
Qed.

Lemma run_output srt w args e path t : sorts srt -> usable_files w -> run_application srt w args = Ok e ->
  written_file e = Some (path, t) -> writes_to args path.
Proof.
  intros Hs U R W. destruct (run_written srt w args e path t Hs U R W) as (_ & _ & s & o & l & r & img & G & _ & _ & _ & _ & O & _).
  exists s. split; assumption.
Qed.

Lemma after_writable w e q : writable (world_after w e) q = writable w q.
Proof. unfold world_after. destruct (written_file e) as [[p t]|]; reflexivity. Qed.
Lemma after_other w e q : (forall t, written_file e <> Some (q, t)) -> files (world_after w e) q = files w q.
Proof.
  intros H. unfold world_after. destruct (written_file e) as [[p t]|]; [|reflexivity]. cbn [files].
  destruct (list_eq_dec ascii_dec q p) as [->|N]; [exfalso; exact (H t eq_refl)|reflexivity].
Qed.
Lemma after_written w e q t : written_file e = Some (q, t) -> files (world_after w e) q = Some t.
Proof. intros H. unfold world_after. rewrite H. cbn [files]. destruct (list_eq_dec ascii_dec q q); [reflexivity|contradiction]. Qed.

Lemma run_again srt w args e : sorts srt -> usable_files w -> run_application srt w args = Ok e ->
  (forall q, writes_to args q -> ~ reads_from args q) -> run_application srt (world_after w e) args = Ok e.
Proof.
  intros Hs U R D. rewrite <- R. apply run_local; [apply after_writable|].
  intros q H. apply after_other. intros t W. exact (D q (run_output srt w args e q t Hs U R W) H).
Qed.

(** *** Written files are usable *)

Lemma words_usable t img : laid_out (image_words img) t -> width img < 2 ^ 64 -> height img < 2 ^ 64 -> max_value img < 2 ^ 64 -> consistent_image img ->
  width img * height img < 2 ^ 32 -> 4 * (width img * width img * height img) < 2 ^ 64 -> usable t.
Proof.
  intros L B1 B2 B3 C S1 S2 ts' L'.
  assert (ts' = image_words img) by (eapply laid_unique; eassumption). subst ts'.
  assert (In3 : In (digits (width img)) (image_words img) /\ In (digits (height img)) (image_words img))
    by (unfold image_words; split; cbn [In]; auto).
  assert (H : forall w h m r, header w h m r (image_words img) -> w = width img /\ h = height img /\ r = map digits (data img)).
  { intros w h m r [tw [th [tm [E [Rw [Rh _]]]]]]. unfold image_words in E. injection E as E1 E2 E3 E4. subst.
    split; [|split; [|reflexivity]]; eapply token_fun; try exact L; try eassumption; try apply In3; apply digits_reads; assumption. }
  split.
  - intros w h m r Hh. destruct (H w h m r Hh) as [-> [-> _]]. auto.
  - intros img' extra [body' [Hh [_ [Fb' C']]]]. destruct (H _ _ _ _ Hh) as [Ew [Eh Eb]].
    assert (len extra = 0).
    { apply (f_equal (@List.length text)) in Eb. rewrite app_length, map_length in Eb. unfold consistent_image, len in *.
      apply all2_length in Fb'. rewrite Ew, Eh in C'. lia. }
    destruct extra as [|x e]; [|unfold len in *; cbn [List.length] in *; lia].
    intros [c [t0 [r0 [X _]]]]. discriminate.
Qed.

Lemma run_image srt w args e path t : sorts srt -> usable_files w -> run_application srt w args = Ok e -> written_file e = Some (path, t) ->
  exists img, write_image [] (Some img) = Ok t /\ valid_image img /\ consistent_image img /\ width img * height img < 2 ^ 32 /\
    4 * (width img * width img * height img) < 2 ^ 64 /\ max_value img <= width img.
Proof.
  intros Hs U R W.
  destruct (run_written srt w args e path t Hs U R W) as (_ & _ & s & o & l & r & img & _ & _ & _ & _ & _ & _ & _ & M & Wi).
  destruct M as (il & ir & lev & c & sm & g & lp & Hl & Hr & _ & _ & _ & Eg & El & B).
  destruct B as (B1 & B2 & B3 & Ci & Vi & _). destruct (held_usable w l il U Hl) as [S1 S2].
  assert (Eq : left g = il /\ levels g <= width il).
  { destruct (make_graph_Ok il ir lev _ _ g Eg) as [_ [_ [_ [Lw [_ [_ [_ [_ [_ [_ [_ E]]]]]]]]]]]. rewrite E. split; [reflexivity|exact Lw]. }
  destruct Eq as [Eq Lw]. rewrite Eq in B1, B2. exists img. rewrite B1, B2, B3. auto 8.
Qed.

Lemma run_words srt w args e path t : sorts srt -> usable_files w -> run_application srt w args = Ok e -> written_file e = Some (path, t) -> usable t.
Proof.
  intros Hs U R W. destruct (run_image srt w args e path t Hs U R W) as (img & Wi & Vi & Ci & S1 & S2 & Mx).
  pose proof (sides img Vi S1) as [B1 B2].
  destruct (cut_words img t t [] Vi Ci S1 ltac:(lia) Wi) as [ts [_ [_ [L _]]]]; [rewrite app_nil_r; reflexivity|].
  apply (words_usable t img L); try assumption; lia.
Qed.

Lemma usable_after srt w args e : sorts srt -> usable_files w -> run_application srt w args = Ok e -> usable_files (world_after w e).
Proof.
  intros Hs U R q t F. destruct (written_file e) as [[p u]|] eqn:W.
  - destruct (list_eq_dec ascii_dec q p) as [->|N].
    + rewrite (after_written w e p u W) in F. injection F as <-. exact (run_words srt w args e p u Hs U R W).
    + rewrite after_other in F; [exact (U q t F)|]. intros x X. rewrite W in X. injection X as X _. auto.
  - rewrite after_other in F; [exact (U q t F)|]. intros x X. rewrite W in X. discriminate.
Qed.

(** *** Series *)

Lemma series_ends srt runs : sorts srt -> forall w, usable_files w ->
  exists es w', run_series srt w runs = Ok (es, w') /\ usable_files w' /\ length es = length runs /\
    (forall q, writable w' q = writable w q) /\
    (forall q, (forall args, In args runs -> ~ writes_to args q) -> files w' q = files w q) /\
    (forall q, files w' q = files w q \/
       exists e t img, In e es /\ written_file e = Some (q, t) /\ files w' q = Some t /\ write_image [] (Some img) = Ok t /\ valid_image img).
Proof.
  intros Hs. induction runs as [|args runs IH]; intros w U; cbn [run_series].
  - exists [], w. auto 8.
  - destruct (run_total srt w args Hs U) as [e R]. rewrite R. cbn [bind].
    destruct (IH (world_after w e) (usable_after srt w args e Hs U R)) as (es & w' & Es & U' & L & Wr & Fr & An).
    rewrite Es. cbn [bind fst snd]. exists (e :: es), w'. split; [reflexivity|]. split; [exact U'|]. split; [cbn [length]; lia|].
    split; [intros q; rewrite Wr; apply after_writable|]. split.
    + intros q N. rewrite Fr by (intros a Ha; apply N; right; exact Ha). apply after_other. intros t W.
      exact (N args (or_introl eq_refl) (run_output srt w args e q t Hs U R W)).
    + intros q. destruct (An q) as [E|(e1 & t & img & I & H)].
      * destruct (written_file e) as [[p u]|] eqn:W.
        -- destruct (list_eq_dec ascii_dec q p) as [->|N].
           ++ right. destruct (run_image srt w args e p u Hs U R W) as (img & Wi & Vi & _). exists e, u, img.
              rewrite E, (after_written w e p u W). split; [left; reflexivity|]. auto.
           ++ left. rewrite E. apply after_other. intros x X. rewrite W in X. injection X as X _. auto.
        -- left. rewrite E. apply after_other. intros x X. rewrite W in X. discriminate.
      * right. exists e1, t, img. split; [right; exact I|exact H].
Qed.

Lemma series_order srt w a b ea eb : sorts srt -> usable_files w ->
  run_application srt w a = Ok ea -> run_application srt w b = Ok eb ->
  (forall q, writes_to a q -> ~ reads_from b q /\ ~ writes_to b q) -> (forall q, writes_to b q -> ~ reads_from a q) ->
  exists w1 w2, run_series srt w [a; b] = Ok ([ea; eb], w1) /\ run_series srt w [b; a] = Ok ([eb; ea], w2) /\ same_files w1 w2.
Proof.
  intros Hs U Ra Rb Da Db.
  assert (Rb' : run_application srt (world_after w ea) b = Ok eb).
  { rewrite <- Rb. apply run_local; [apply after_writable|]. intros q H. apply after_other. intros t W.
    exact (proj1 (Da q (run_output srt w a ea q t Hs U Ra W)) H). }
  assert (Ra' : run_application srt (world_after w eb) a = Ok ea).
  { rewrite <- Ra. apply run_local; [apply after_writable|]. intros q H. apply after_other. intros t W.
    exact (Db q (run_output srt w b eb q t Hs U Rb W) H). }
  exists (world_after (world_after w ea) eb), (world_after (world_after w eb) ea). cbn [run_series]. rewrite Ra, Rb. cbn [bind]. rewrite Ra', Rb'. cbn [bind fst snd].
  split; [reflexivity|]. split; [reflexivity|]. split; [|intros q; rewrite !after_writable; reflexivity].
  intros q. destruct (written_file ea) as [[p u]|] eqn:Wa.
  - destruct (list_eq_dec ascii_dec q p) as [->|N].
    + rewrite (after_written _ ea p u Wa). rewrite after_other; [apply after_written; exact Wa|].
      intros t W. exact (proj2 (Da p (run_output srt w a ea p u Hs U Ra Wa)) (run_output srt w b eb p t Hs U Rb W)).
    + assert (X : forall v, files (world_after v ea) q = files v q) by (intros v; apply after_other; intros t W; rewrite Wa in W; injection W as W _; auto).
      rewrite X. unfold world_after at 1 3. destruct (written_file eb) as [[p' u']|]; cbn [files]; rewrite ?X; reflexivity.
  - assert (X : forall v, world_after v ea = v) by (intros v; unfold world_after; rewrite Wa; reflexivity). rewrite !X. reflexivity.
Qed.

(** *** A map as an image of a later run *)

Lemma run_reread srt w args e path t : sorts srt -> usable_files w -> run_application srt w args = Ok e -> written_file e = Some (path, t) ->
  exists img, write_image [] (Some img) = Ok t /\ valid_image img /\ (max_value img <= 65536 -> file_holds (world_after w e) path img).
Proof.
  intros Hs U R W. destruct (run_image srt w args e path t Hs U R W) as (img & Wi & Vi & Ci & S1 & S2 & Mx).
  exists img. split; [exact Wi|]. split; [exact Vi|]. intros B.
  pose proof (sides img Vi S1) as [B1 B2].
  destruct (cut_words img t t [] Vi Ci S1 ltac:(lia) Wi) as [ts [_ [_ [L _]]]]; [rewrite app_nil_r; reflexivity|].
  exists t, (image_words img). split; [apply after_written; exact W|]. split; [exact L|].
  exists (map digits (data img)). rewrite app_nil_r. split.
  - exists (digits (width img)), (digits (height img)), (digits (max_value img)).
    split; [reflexivity|]. split; [|split]; apply digits_reads; lia.
  - split; [exact B|]. split; [|exact Ci]. destruct Vi as [_ [_ [_ V]]].
    assert (V' : forall v, In v (data img) -> v < 2 ^ 64) by (intros v Hv; specialize (V v Hv); lia). clear - V'.
    induction (data img) as [|v d IH]; cbn [map]; constructor; [apply digits_reads, V'; left; reflexivity|].
    apply IH. intros x Hx. apply V'. right. exact Hx.
Qed.
