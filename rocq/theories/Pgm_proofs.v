(** Plain PGM files: the statements of the properties. *)
From Coq Require Import Lia String.
From Verif Require Export Forward_proofs.
Local Open Scope N_scope.

Lemma stoul_reads t v : skip_space t = t -> stoul t = Ok v -> reads_as t v.
Proof.
  intros Hs E. destruct (stoul_cases t Hs) as [[v' H]|[H|H]].
  - rewrite (reads_stoul t v' Hs H) in E. injection E as <-. exact H.
  - rewrite (range_stoul t Hs H) in E. discriminate.
  - rewrite (invalid_stoul t Hs H) in E. discriminate.
Qed.
Lemma stoul_ranges t : skip_space t = t -> stoul t = Stop (Throw StoulRange) -> out_of_range t.
Proof.
  intros Hs E. destruct (stoul_cases t Hs) as [[v' H]|[H|H]]; [|exact H|].
  - rewrite (reads_stoul t v' Hs H) in E. discriminate.
  - rewrite (invalid_stoul t Hs H) in E. discriminate.
Qed.
Lemma stoul_invalid t : skip_space t = t -> stoul t = Stop (Throw StoulInvalid) -> not_number t.
Proof.
  intros Hs E. destruct (stoul_cases t Hs) as [[v' H]|[H|H]]; [| |exact H].
  - rewrite (reads_stoul t v' Hs H) in E. discriminate.
  - rewrite (range_stoul t Hs H) in E. discriminate.
Qed.

(** *** Writing *)

Section Valid.
Variable img : image.
Hypothesis Hv : valid_image img.
Hypothesis Hc : consistent_image img.
Hypothesis Hw : width img * height img < 2 ^ 32.

Lemma written out : write_image out (Some img) = Ok (out ++ header_text img ++ concat (map (row_text img) (range 0 (height img)))).
Proof.
  apply write_valid; [exact Hc|lia|]. destruct (image_valid_decides cpu img) as [b [E H]]; [discriminate|exact Hc|exact Hw|].
  rewrite E. f_equal. apply H. exact Hv.
Qed.
Lemma sides : width img < 2 ^ 32 /\ height img < 2 ^ 32.
Proof. destruct Hv as [H1 [H2 _]]. nia. Qed.

Lemma round_trip out : max_value img <= 65536 ->
  exists txt, write_image out (Some img) = Ok (out ++ txt) /\
    forall io, exists s, read_image (opened txt) io = Ok (s, Some img) /\ failbit s = false.
Proof.
  intros Hm. eexists. split; [apply written|]. intros io. pose proof sides as [S1 S2].
  set (txt := header_text img ++ concat (map (row_text img) (range 0 (height img)))).
  assert (L : laid_out (FORMAT_CODE :: digits (width img) :: digits (height img) :: digits (max_value img) :: map digits (data img)) txt)
    by (apply laid_text; [exact Hc|lia]).
  assert (Im : image_tokens img [] (FORMAT_CODE :: digits (width img) :: digits (height img) :: digits (max_value img) :: map digits (data img))).
  { exists (map digits (data img)). split.
    - exists (digits (width img)), (digits (height img)), (digits (max_value img)). rewrite app_nil_r.
      split; [reflexivity|]. repeat split; apply digits_reads; lia.
    - split; [exact Hm|]. split; [|exact Hc].
      destruct Hv as [_ [_ [_ Hd]]]. assert (Hd' : forall v, In v (data img) -> v < 2 ^ 64) by (intros v X; specialize (Hd v X); lia).
      revert Hd'. generalize (data img). induction l as [|v l IH]; intros H; cbn [map]; constructor.
      + apply digits_reads, H. left; reflexivity.
      + apply IH. intros x Hx. apply H. right; exact Hx. }
  destruct (read_image_tokens (opened txt) _ io img [] (opened_at _ _ L) Im) as [s1 [A1 [Af E]]].
  { unfold vector_max_size. lia. }
  destruct (check_at s1 [] A1 Af) as [s' [E' F]]. rewrite E' in E. cbn [bind] in E. exists s'. split; [exact E|exact F].
Qed.

Lemma short_lines out : max_value img <= 65536 ->
  exists txt, write_image out (Some img) = Ok (out ++ txt) /\
    (forall l, In l (lines txt) -> len l <= 70) /\
    exists ts, laid_out ts txt /\
      Forall2 numeral (skipn 1 ts) ([width img; height img; max_value img] ++ data img).
Proof.
  intros Hm. eexists. split; [apply written|]. pose proof sides as [S1 S2]. split.
  - set (txt := header_text img ++ concat (map (row_text img) (range 0 (height img)))).
    assert (F : fits 0 txt).
    { unfold txt, header_text. rewrite <- !app_assoc.
      apply fits_app; [intros [X|[X|[]]]; discriminate|]. change (len FORMAT_CODE) with 2. cbn [app].
      apply fits_newline; [lia|].
      assert (Ld : forall n, n < 2 ^ 32 -> len (digits n) <= 10).
      { intros n Hn. apply digits_length; [|lia]. apply (N.lt_trans _ _ _ Hn). reflexivity. }
      pose proof (Ld _ S1) as L1. pose proof (Ld _ S2) as L2.
      assert (L3 : len (digits (max_value img)) <= 10) by (apply Ld; lia).
      apply fits_app; [apply digits_no_newline|].
      change (blank :: digits (height img) ++ newline :: digits (max_value img) ++ newline :: concat (map (row_text img) (range 0 (height img))))
        with ([blank] ++ digits (height img) ++ newline :: digits (max_value img) ++ newline :: concat (map (row_text img) (range 0 (height img)))).
      apply fits_app; [intros [X|[]]; discriminate|]. change (len [blank]) with 1.
      apply fits_app; [apply digits_no_newline|]. apply fits_newline; [lia|].
      apply fits_app; [apply digits_no_newline|]. apply fits_newline; [lia|].
      apply fits_rows. intros v Hx. destruct Hv as [_ [_ [_ Hd]]]. specialize (Hd v Hx). lia. }
    apply fits_lines in F. intros l Hl. destruct (lines txt) as [|l0 ls]; [destruct F|]. destruct F as [F1 F2].
    destruct Hl as [<-|Hl]; [lia|apply F2; exact Hl].
  - eexists. split; [apply laid_text; [exact Hc|lia]|]. cbn [skipn app].
    constructor; [apply digits_numeral|]. constructor; [apply digits_numeral|]. constructor; [apply digits_numeral|].
    generalize (data img). induction l; cbn [map]; constructor; [apply digits_numeral|assumption].
Qed.

Lemma complete_file out :
  exists tw th tm rows, numeral tw (width img) /\ numeral th (height img) /\ numeral tm (max_value img) /\
    write_image out (Some img) =
      Ok (out ++ lit "P2" ++ [newline] ++ tw ++ [blank] ++ th ++ [newline] ++ tm ++ [newline] ++ concat rows) /\
    len rows = height img /\
    forall y, y < height img -> exists row ts vals before after,
      get rows y = Ok (row ++ [newline]) /\ laid_out ts (row ++ [newline]) /\ Forall2 numeral ts vals /\
      data img = before ++ vals ++ after /\ len before = y * width img /\ len vals = width img.
Proof.
  exists (digits (width img)), (digits (height img)), (digits (max_value img)), (map (row_text img) (range 0 (height img))).
  split; [apply digits_numeral|]. split; [apply digits_numeral|]. split; [apply digits_numeral|]. split.
  { rewrite written. unfold header_text. rewrite <- !app_assoc. reflexivity. }
  split; [rewrite len_map, len_range; lia|]. intros y Hy. pose proof sides as [S1 S2].
  assert (B : y * width img + width img <= len (data img)) by (rewrite Hc; nia).
  set (before := firstn (N.to_nat (y * width img)) (data img)).
  set (vals := firstn (N.to_nat (width img)) (skipn (N.to_nat (y * width img)) (data img))).
  set (after := skipn (N.to_nat (width img)) (skipn (N.to_nat (y * width img)) (data img))).
  assert (Ed : data img = before ++ vals ++ after) by (unfold before, vals, after; rewrite !firstn_skipn; reflexivity).
  assert (Lb : len before = y * width img) by (unfold len, before in *; rewrite firstn_length_le by lia; lia).
  assert (Lv : len vals = width img).
  { unfold len, vals in *. rewrite firstn_length_le by (rewrite skipn_length; lia). lia. }
  assert (Ev : map (fun x => intensity img x y) (range 0 (width img)) = vals).
  { rewrite <- (map_nth_range 0 vals). rewrite Lv. apply map_ext_in. intros x Hx. apply In_range in Hx. unfold intensity.
    rewrite Ed, app_nth2 by (unfold len in *; lia). rewrite app_nth1 by (unfold len in *; lia). f_equal. unfold len in *. lia. }
  exists (concat (map (fun x => digits (intensity img x y) ++ separator img x) (range 0 (width img)))), (row_tokens img y), vals, before, after.
  split; [|split; [|split; [|auto]]].
  - rewrite (get_nth _ _ []) by (rewrite len_map, len_range; lia). f_equal.
    rewrite (nth_indep _ [] (row_text img 0)) by (rewrite map_length; pose proof (len_range 0 (height img)); unfold len in *; lia).
    rewrite map_nth.
    replace (nth (N.to_nat y) (range 0 (height img)) 0) with y; [reflexivity|].
    pose proof (get_range 0 (height img) y ltac:(lia)) as G. rewrite (get_nth _ _ 0) in G by (rewrite len_range; lia). injection G as G. lia.
  - pose proof (laid_row img y [] [] 0 ltac:(lia) (laid_end [] (ending_gap [] gap_nil)) (fun _ => eq_refl)) as L.
    rewrite app_nil_r in L. exact L.
  - rewrite <- Ev. unfold row_tokens. generalize (range 0 (width img)).
    induction l; cbn [map]; constructor; [apply digits_numeral|assumption].
Qed.
End Valid.

Lemma nothing_written out io :
  (forall img, io = Some img -> consistent_image img /\ width img * height img < 2 ^ 32 /\ ~ valid_image img) ->
  write_image out io = Ok out.
Proof.
  intros H. destruct io as [img|]; [|reflexivity]. destruct (H img eq_refl) as [Hc [Hw Hn]].
  destruct (image_valid_decides cpu img) as [b [E Hb]]; [discriminate|exact Hc|exact Hw|].
  unfold write_image. rewrite E. destruct b; [|reflexivity]. destruct Hn. apply Hb. reflexivity.
Qed.

(** *** Inversions of reading *)

Lemma read_success t io s io' : read_image (opened t) io = Ok (s, io') -> failbit s = false ->
  exists img ts, io' = Some img /\ laid_out ts t /\ image_tokens img [] ts.
Proof.
  intros E F. destruct (laid_total t) as [ts L]. pose proof (reading_at io _ _ (opened_at t ts L)) as R. rewrite E in R.
  inversion R as [s' D Fs|? ?|? ? ? ? ? ?|? ? ? ? ? ?|s' img I B Fs|s' img extra I B X Fs|? ? ? ? ?]; subst; try congruence.
  exists img, ts. auto.
Qed.
Lemma read_layout ts t img io : laid_out ts t -> image_tokens img [] ts -> width img * height img <= vector_max_size ->
  exists s, read_image (opened t) io = Ok (s, Some img) /\ failbit s = false.
Proof.
  intros L Im B. destruct (read_image_tokens (opened t) _ io img [] (opened_at _ _ L) Im B) as [s1 [A1 [Af E]]].
  destruct (check_at s1 [] A1 Af) as [s' [E' F]]. rewrite E' in E. cbn [bind] in E. exists s'. split; [exact E|exact F].
Qed.
Lemma read_defective ts t io : laid_out ts t -> defect ts ->
  exists s, read_image (opened t) io = Ok (s, io) /\ failbit s = true.
Proof. intros L D. exact (read_defects _ _ _ (opened_at _ _ L) D). Qed.
Lemma read_failed t io s io' : read_image (opened t) io = Ok (s, io') -> failbit s = true ->
  io' = io \/
  exists img extra ts, io' = Some img /\ laid_out ts t /\ image_tokens img extra ts /\ extra <> [].
Proof.
  intros E F. destruct (laid_total t) as [ts L]. pose proof (reading_at io _ _ (opened_at t ts L)) as R. rewrite E in R.
  inversion R as [s' D Fs|? ?|? ? ? ? ? ?|? ? ? ? ? ?|s' img I B Fs|s' img extra I B X Fs|? ? ? ? ?]; subst; try congruence.
  - left; reflexivity.
  - right. exists img, extra, ts. auto.
Qed.
Lemma read_throws t io e : read_image (opened t) io = Stop (Throw e) ->
  exists ts, laid_out ts t /\
    (e = StoulRange /\ (exists tok, In tok ts /\ out_of_range tok) \/
     e = LengthError /\ exists w h m r, header w h m r ts /\ vector_max_size < (w * h) mod 2 ^ 64).
Proof.
  intros E. destruct (laid_total t) as [ts L]. pose proof (reading_at io _ _ (opened_at t ts L)) as R. rewrite E in R.
  exists ts. split; [exact L|].
  inversion R as [s' D Fs|tok Ht Ho|w h m r Hh Hb|? ? ? ? ? ?|s' img I B Fs|s' img extra I B X Fs|? ? ? ? ?]; subst.
  - left. split; [reflexivity|exists tok; auto].
  - right. split; [reflexivity|exists w, h, m, r; auto].
Qed.
Lemma read_safe t io :
  read_image (opened t) io <> Stop Diverge /\
  (read_image (opened t) io = Stop Undef -> exists ts, laid_out ts t /\
     ((exists w h m r, header w h m r ts /\ 2 ^ 64 <= w * h) \/
      (exists img extra, image_tokens img extra ts /\ high_byte extra))).
Proof.
  destruct (laid_total t) as [ts L]. pose proof (reading_at io _ _ (opened_at t ts L)) as R.
  split; intros E; rewrite E in R; [inversion R|]. exists ts. split; [exact L|].
  inversion R as [s' D Fs|? ?|? ? ? ? ? ?|w h m r Hh Hb|s' img I B Fs|s' img extra I B X Fs|img extra I B X]; subst.
  - left. exists w, h, m, r. auto.
  - right. exists img, extra. auto.
Qed.

(** *** Witnesses *)

Ltac number := apply stoul_reads; reflexivity.

Definition one_pixel : image := {| width := 1; height := 1; max_value := 10; data := [5] |}.
Definition one_white : image := {| width := 1; height := 1; max_value := 1; data := [5] |}.

Lemma garbage_stored io : exists s, read_image (opened (lit "P2 1 1 10 5 x")) io = Ok (s, Some one_pixel) /\ failbit s = true.
Proof. eexists. split; [vm_compute; reflexivity|reflexivity]. Qed.
Lemma large_throws io : read_image (opened (lit "P2 1 1 1 18446744073709551616")) io = Stop (Throw StoulRange).
Proof. vm_compute. reflexivity. Qed.
Lemma long_throws io : read_image (opened (lit "P2 1152921504606846976 1 1 0")) io = Stop (Throw LengthError).
Proof. vm_compute. reflexivity. Qed.
Lemma high_undefined io : read_image (opened (lit "P2 1 1 1 0 " ++ [ascii_of_N 200])) io = Stop Undef.
Proof. vm_compute. reflexivity. Qed.
Definition wrapping : text := lit "P2 4294967296 4294967296 1 0".
Lemma wrapping_header : exists ts r, laid_out ts wrapping /\ header 4294967296 4294967296 1 ([lit "0"] ++ r) ts.
Proof.
  exists (lex (length wrapping) wrapping), []. split; [apply laid_lex; exact (le_n _)|].
  exists (lit "4294967296"), (lit "4294967296"), (lit "1"). split; [vm_compute; reflexivity|].
  split; [|split]; number.
Qed.
Lemma empty_data img s t r v : data img = [] -> 0 < width img -> 0 < height img ->
  at_tokens s (t :: r) -> reads_as t v -> read_pixels img (row_order img) s = Stop Undef.
Proof.
  intros Hd Hw Hh A Hv. unfold row_order. rewrite (range_cons 0 (height img)) by exact Hh. cbn [flat_map].
  rewrite (range_cons 0 (width img)) at 1 by exact Hw. cbn [map app read_pixels].
  destruct (read_number_some s t r v A Hv) as [s' [-> _]]. cbn [bind fst]. rewrite Hd.
  unfold set. destruct (N.ltb_spec (pixel_index cpu img {| px := 0; py := 0 |}) (len (@nil N))) as [X|X]; [|reflexivity].
  change (len (@nil N)) with 0 in X. lia.
Qed.
Lemma wraps_undefined w h m t v r ts txt io : laid_out ts txt -> header w h m (t :: r) ts -> reads_as t v -> m <= 65536 ->
  0 < w -> 0 < h -> (w * h) mod 2 ^ 64 = 0 -> read_image (opened txt) io = Stop Undef.
Proof.
  intros L H Ht Hm Hw Hh Hp. destruct (read_header _ _ _ _ _ _ io (opened_at _ _ L) H) as [s [A [Af ->]]].
  destruct (N.ltb_spec MAX_VALUE_LIMIT m) as [X|_]; [unfold MAX_VALUE_LIMIT in X; lia|].
  unfold umul. cbn [wmod cpu ieee]. rewrite Hp, alloc_small by (unfold vector_max_size; lia). cbn [bind].
  rewrite (empty_data _ s t r v); [reflexivity|reflexivity|exact Hw|exact Hh|exact A|exact Ht].
Qed.
Lemma wrapping_undefined io : read_image (opened wrapping) io = Stop Undef.
Proof.
  destruct wrapping_header as [ts [r [L H]]].
  apply (wraps_undefined _ _ _ _ 0 _ _ _ io L H); [number|lia|lia|lia|reflexivity].
Qed.

Lemma above_max io : exists s, read_image (opened (lit "P2 1 1 1 5")) io = Ok (s, Some one_white) /\ failbit s = false.
Proof. eexists. split; [vm_compute; reflexivity|reflexivity]. Qed.
Lemma one_white_invalid : ~ valid_image one_white.
Proof. intros [_ [_ [_ H]]]. specialize (H 5 (or_introl eq_refl)). cbn in H. lia. Qed.

(** *** The tokens of a text are unique *)

Lemma after_line_app body r : ~ In newline body -> after_line (body ++ newline :: r) = Some r.
Proof.
  induction body as [|x b IH]; intros H; cbn [app after_line]; [rewrite Ascii.eqb_refl; reflexivity|].
  destruct (Ascii.eqb_spec x newline) as [->|_]; [destruct H; left; reflexivity|].
  apply IH. intros X. apply H. right. exact X.
Qed.
Lemma after_line_none body : ~ In newline body -> after_line body = None.
Proof.
  induction body as [|x b IH]; intros H; cbn [after_line]; [reflexivity|].
  destruct (Ascii.eqb_spec x newline) as [->|_]; [destruct H; left; reflexivity|].
  apply IH. intros X. apply H. right. exact X.
Qed.
Lemma word_token t r : (forall c, In c t -> ~ space c) -> (r = [] \/ exists c r', r = c :: r' /\ space c) ->
  word (t ++ r) = t /\ after_word (t ++ r) = r.
Proof.
  intros Ht Hr. induction t as [|c t IH]; cbn [app].
  - destruct Hr as [->|[c [r' [-> Hc]]]]; [split; reflexivity|]. apply space_iff in Hc. cbn [word after_word]. rewrite Hc. split; reflexivity.
  - assert (Hc : is_space c = false) by (apply space_false, Ht; left; reflexivity).
    cbn [word after_word]. rewrite Hc. destruct IH as [E1 E2]; [intros x Hx; apply Ht; right; exact Hx|].
    rewrite E1, E2. split; reflexivity.
Qed.
Lemma lex_gap g r : gap g -> forall n, (length (g ++ r) <= n)%nat -> exists m, (length r <= m)%nat /\ lex n (g ++ r) = lex m r.
Proof.
  induction 1 as [|c g Hc Hg IH|body g Hb Hg IH]; intros n L.
  - exists n. split; [exact L|reflexivity].
  - destruct n as [|n]; [cbn in L; lia|]. cbn [app length] in L. cbn [app lex]. apply space_iff in Hc. rewrite Hc.
    apply IH. lia.
  - destruct n as [|n]; [cbn in L; lia|]. cbn [app length] in L. cbn [app]. rewrite <- app_assoc in L |- *. cbn [app] in L |- *.
    cbn [lex]. rewrite hash_not_space, Ascii.eqb_refl, (after_line_app body (g ++ r) Hb).
    apply IH. rewrite app_length in L. cbn [length] in L. lia.
Qed.
Lemma lex_laid ts t : laid_out ts t -> forall n, (length t <= n)%nat -> lex n t = ts.
Proof.
  assert (Lt : forall tok r n, token tok -> (r = [] \/ exists c r', r = c :: r' /\ space c) -> (length (tok ++ r) <= n)%nat ->
    exists m, lex n (tok ++ r) = tok :: match r with [] => [] | _ :: r' => lex m r' end /\ (length r <= S m)%nat).
  { intros tok r n [Hn [Hs Hh]] Hr L. destruct (word_token tok r Hs Hr) as [W A].
    destruct tok as [|c tok]; [congruence|]. cbn [app] in *. destruct n as [|n]; [cbn in L; lia|].
    exists n. cbn [lex]. rewrite (proj2 (space_false c)) by (apply Hs; left; reflexivity).
    destruct (Ascii.eqb_spec c hash) as [->|_]; [destruct Hh; reflexivity|]. rewrite W, A. split; [reflexivity|].
    cbn [length] in L. rewrite app_length in L. lia. }
  induction 1 as [e He|g t Hg Ht|g t c ts r Hg Ht Hc Hr IH]; intros n L.
  - destruct He as [g Hg|g body Hg Hb].
    + rewrite <- (app_nil_r g) in L |- *. destruct (lex_gap g [] Hg n L) as [m [_ ->]]. destruct m; reflexivity.
    + destruct (lex_gap g (hash :: body) Hg n L) as [m [Lm ->]]. destruct m as [|m]; [cbn in Lm; lia|].
      cbn [lex]. rewrite hash_not_space, Ascii.eqb_refl, (after_line_none body Hb). reflexivity.
  - destruct (lex_gap g t Hg n L) as [m [Lm ->]]. destruct (Lt t [] m Ht (or_introl eq_refl)) as [k [E _]]; [rewrite app_nil_r; exact Lm|].
    rewrite app_nil_r in E. exact E.
  - destruct (lex_gap g _ Hg n L) as [m [Lm ->]].
    destruct (Lt t (c :: r) m Ht) as [k [-> Lk]]; [right; exists c, r; split; [reflexivity|exact Hc]|exact Lm|].
    f_equal. apply IH. cbn [length] in Lk. lia.
Qed.
Lemma laid_unique ts ts' t : laid_out ts t -> laid_out ts' t -> ts = ts'.
Proof. intros H H'. rewrite <- (lex_laid _ _ H (length t)), <- (lex_laid _ _ H' (length t)) by exact (le_n _). reflexivity. Qed.

(** *** Examples *)

Lemma lexed t : laid_out (lex (length t) t) t.
Proof. apply laid_lex. exact (le_n _). Qed.
Definition two_rows : image := {| width := 2; height := 2; max_value := 9; data := [1; 2; 3; 4] |}.
Definition two_rows_text : text :=
  lit "P2 # two rows" ++ [newline] ++ lit "#" ++ [newline] ++ lit "2 2" ++ [newline; blank] ++ lit "9 1 2" ++ [newline; newline]
  ++ lit "#and" ++ [newline] ++ lit "3 +4x #end".
Lemma two_rows_tokens : exists ts, laid_out ts two_rows_text /\ image_tokens two_rows [] ts.
Proof.
  exists (lex (length two_rows_text) two_rows_text). split; [apply lexed|].
  exists [lit "1"; lit "2"; lit "3"; lit "+4x"]. split.
  - exists (lit "2"), (lit "2"), (lit "9"). split; [vm_compute; reflexivity|]. split; [number|split; number].
  - split; [cbn; lia|]. split; [|reflexivity]. repeat constructor; number.
Qed.
Lemma two_rows_valid : valid_image two_rows /\ consistent_image two_rows /\ width two_rows * height two_rows < 2 ^ 32.
Proof.
  split; [|split; reflexivity]. split; [cbn; lia|]. split; [cbn; lia|]. split; [cbn; lia|].
  intros v Hv. cbn [data two_rows In] in Hv. cbn [max_value two_rows]. lia.
Qed.
Definition truncated : text := lit "P2 2 2 9 1 2 3".
Lemma truncated_defect : exists ts, laid_out ts truncated /\ defect ts.
Proof.
  exists (lex (length truncated) truncated). split; [apply lexed|].
  apply (bad_pixel 2 2 9 [lit "1"; lit "2"; lit "3"] [1; 2; 3] []); try reflexivity.
  - exists (lit "2"), (lit "2"), (lit "9"). split; [vm_compute; reflexivity|]. split; [number|split; number].
  - cbn; lia.
  - repeat constructor; number.
  - left; reflexivity.
  - vm_compute. discriminate.
  - vm_compute. discriminate.
Qed.
