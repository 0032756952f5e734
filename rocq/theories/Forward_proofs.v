(** Reading given texts and writing images: lemmas. *)
From Coq Require Import Lia.
From Verif Require Export Read_proofs Image_proofs.
Local Open Scope N_scope.

Lemma read_pixels_good good : forall img ps1 ps2 s ts vs vs0 k n,
  at_tokens s (good ++ ts) -> Forall2 reads_as good vs -> len ps1 = len good ->
  map (pixel_index cpu img) ps1 = map (fun i => i mod 2 ^ 64) (range k (k + len ps1)) ->
  data img = vs0 ++ fill (n - k) 0 -> len vs0 = k -> k + len good <= n -> n < 2 ^ 64 ->
  exists s', read_pixels img (ps1 ++ ps2) s = read_pixels (with_data img (vs0 ++ vs ++ fill (n - (k + len good)) 0)) ps2 s' /\
    at_tokens s' ts /\ (good = [] -> s' = s) /\ (good <> [] -> after_token s').
Proof.
  induction good as [|t good IH]; intros img ps1 ps2 s ts vs vs0 k n Hat F2 Lp Hi Hd Hl Hk Hn.
  - destruct ps1 as [|p ps1]; [|rewrite len_cons, len_nil in Lp; lia]. inversion F2; subst.
    exists s. split; [|split; [exact Hat|split; [reflexivity|congruence]]].
    cbn [app]. rewrite len_nil, N.add_0_r, <- Hd. destruct img; reflexivity.
  - destruct ps1 as [|p ps1]; [rewrite len_cons, len_nil in Lp; lia|]. rewrite !len_cons in *.
    inversion F2 as [|t' v good' vs' Hv F2' E1 E2]; subst t' good' vs.
    rewrite (range_cons k) in Hi by lia. cbn [map] in Hi. injection Hi as Hi0 Hi.
    destruct (read_number_some s t (good ++ ts) v Hat Hv) as [s1 [E [A1 Af1]]].
    assert (Es : set (data img) (pixel_index cpu img p) v = Ok ((vs0 ++ [v]) ++ fill (n - (k + 1)) 0)).
    { rewrite Hi0, Hd, N.mod_small by lia. apply set_append; [assumption|lia]. }
    destruct (IH (with_data img ((vs0 ++ [v]) ++ fill (n - (k + 1)) 0)) ps1 ps2 s1 ts vs' (vs0 ++ [v]) (k + 1) n)
      as [s' [Er [A' [Em Ne]]]]; try assumption; try lia.
    { replace (k + 1 + len ps1) with (k + (len ps1 + 1)) by lia. exact Hi. }
    { reflexivity. }
    { rewrite len_app, len_cons, len_nil. lia. }
    exists s'. split; [|split; [exact A'|split; [discriminate|]]].
    + cbn [app read_pixels]. rewrite E. cbn [bind fst snd]. rewrite Es. cbn [bind]. rewrite Er.
      replace (k + (len good + 1)) with (k + 1 + len good) by lia.
      unfold with_data. cbn [width height max_value]. rewrite <- app_assoc. reflexivity.
    + intros _. destruct good as [|u good]; [rewrite (Em eq_refl); exact Af1|apply Ne; discriminate].
Qed.

Lemma read_header s w h m ts all io : at_tokens s all -> header w h m ts all ->
  exists s', at_tokens s' ts /\ after_token s' /\
    read_image s io =
      (if MAX_VALUE_LIMIT <? m then Ok (set_fail s', io) else
       dat <- alloc (umul cpu w h) 0 ;;
       let img := {| width := w; height := h; max_value := m; data := dat |} in
       d <- read_pixels img (row_order img) s' ;;
       match fst d with
       | None => Ok (snd d, io)
       | Some img => s' <- check_file_end (snd d) ;; Ok (s', Some img)
       end).
Proof.
  intros Hat [tw [th [tm [-> [Hw [Hh Hm]]]]]]. unfold read_image.
  destruct (read_at s _ Hat) as [s1 [-> [A1 _]]]. cbn [bind fst snd].
  destruct (list_eq_dec ascii_dec FORMAT_CODE FORMAT_CODE) as [_|X]; [|congruence]. cbn [negb].
  destruct (read_number_some s1 tw _ w A1 Hw) as [s2 [-> [A2 _]]]. cbn [bind fst snd].
  destruct (read_number_some s2 th _ h A2 Hh) as [s3 [-> [A3 _]]]. cbn [bind fst snd].
  destruct (read_number_some s3 tm _ m A3 Hm) as [s4 [-> [A4 Af4]]]. cbn [bind fst snd].
  exists s4. split; [exact A4|]. split; [exact Af4|reflexivity].
Qed.

Lemma read_defects s ts io : at_tokens s ts -> defect ts -> exists s', read_image s io = Ok (s', io) /\ failbit s' = true.
Proof.
  intros Hat D. destruct D as [ts Hm|ts No|tw w ts Hw No|tw w th h ts Hw Hh No|w h m ts all Hd Lm|w h m gd vs ts all Hd Lm F2 Lg No Lv Lk].
  - unfold read_image. destruct ts as [|t ts].
    + destruct (read_at s [] Hat) as [s' ->]. cbn [bind fst snd].
      destruct (list_eq_dec ascii_dec [] FORMAT_CODE) as [X|_]; [discriminate|]. eexists. split; reflexivity.
    + destruct (read_at s _ Hat) as [s' [-> _]]. cbn [bind fst snd]. cbn [hd_error] in Hm.
      destruct (list_eq_dec ascii_dec t FORMAT_CODE) as [X|_]; [congruence|]. eexists. split; reflexivity.
  - unfold read_image. destruct (read_at s _ Hat) as [s1 [-> [A1 _]]]. cbn [bind fst snd].
    destruct (list_eq_dec ascii_dec FORMAT_CODE FORMAT_CODE) as [_|X]; [|congruence]. cbn [negb].
    destruct (read_number_none s1 ts A1 No) as [s' [-> F]]. eexists. split; [reflexivity|exact F].
  - unfold read_image. destruct (read_at s _ Hat) as [s1 [-> [A1 _]]]. cbn [bind fst snd].
    destruct (list_eq_dec ascii_dec FORMAT_CODE FORMAT_CODE) as [_|X]; [|congruence]. cbn [negb].
    destruct (read_number_some s1 tw _ w A1 Hw) as [s2 [-> [A2 _]]]. cbn [bind fst snd].
    destruct (read_number_none s2 ts A2 No) as [s' [-> F]]. eexists. split; [reflexivity|exact F].
  - unfold read_image. destruct (read_at s _ Hat) as [s1 [-> [A1 _]]]. cbn [bind fst snd].
    destruct (list_eq_dec ascii_dec FORMAT_CODE FORMAT_CODE) as [_|X]; [|congruence]. cbn [negb].
    destruct (read_number_some s1 tw _ w A1 Hw) as [s2 [-> [A2 _]]]. cbn [bind fst snd].
    destruct (read_number_some s2 th _ h A2 Hh) as [s3 [-> [A3 _]]]. cbn [bind fst snd].
    destruct (read_number_none s3 ts A3 No) as [s' [-> F]]. eexists. split; [reflexivity|exact F].
  - destruct (read_header s w h m ts all io Hat Hd) as [s' [_ [_ ->]]].
    destruct (N.ltb_spec MAX_VALUE_LIMIT m) as [_|L]; [eexists; split; reflexivity|unfold MAX_VALUE_LIMIT in L; lia].
  - destruct (read_header s w h m _ all io Hat Hd) as [s' [A [_ ->]]].
    destruct (N.ltb_spec MAX_VALUE_LIMIT m) as [L|_]; [unfold MAX_VALUE_LIMIT in L; lia|].
    unfold umul. cbn [wmod cpu ieee]. rewrite alloc_small by exact Lv. cbn [bind].
    set (n := (w * h) mod 2 ^ 64) in *. set (img := {| width := w; height := h; max_value := m; data := fill n 0 |}).
    assert (Ll : (length gd < length (row_order img))%nat).
    { pose proof (len_row img) as Lr. cbn [width height img] in Lr. unfold len in *. lia. }
    set (ps1 := firstn (length gd) (row_order img)). set (ps2 := skipn (length gd) (row_order img)).
    assert (Ep : row_order img = ps1 ++ ps2) by (symmetry; apply firstn_skipn).
    assert (Lp : len ps1 = len gd) by (unfold len, ps1; rewrite firstn_length_le by lia; reflexivity).
    assert (Hi : map (pixel_index cpu img) ps1 = map (fun i => i mod 2 ^ 64) (range 0 (0 + len ps1))).
    { pose proof (row_index img) as R. rewrite Ep, map_app in R. cbn [width height img] in R.
      rewrite (range_split 0 (len ps1) (w * h)) in R by (rewrite Lp; lia). rewrite map_app in R.
      apply (f_equal (firstn (length ps1))) in R. rewrite !firstn_app in R. rewrite !map_length in R.
      pose proof (len_range 0 (len ps1)) as Lr. unfold len in Lr at 1.
      replace (length (range 0 (len ps1))) with (length ps1) in R by (unfold len in *; lia).
      rewrite Nat.sub_diag, !firstn_O, !app_nil_r in R.
      rewrite !firstn_all2 in R by (rewrite map_length; unfold len in *; lia). rewrite N.add_0_l. exact R. }
    clearbody ps1 ps2. rewrite Ep.
    destruct (read_pixels_good gd img ps1 ps2 s' ts vs [] 0 n A F2 Lp Hi) as [s1 [-> [A1 _]]].
    { cbn [app]. rewrite N.sub_0_r. reflexivity. } { reflexivity. } { lia. } { apply N.mod_lt. lia. }
    destruct ps2 as [|p ps3].
    { rewrite app_nil_r in Ep. rewrite Ep in Ll. unfold len in Lp. lia. }
    cbn [read_pixels]. destruct (read_number_none s1 ts A1 No) as [s2 [-> F]]. eexists. split; [reflexivity|exact F].
Qed.

Lemma read_image_tokens s ts io img extra : at_tokens s ts -> image_tokens img extra ts -> width img * height img <= vector_max_size ->
  exists s1, at_tokens s1 extra /\ after_token s1 /\ read_image s io = (s' <- check_file_end s1 ;; Ok (s', Some img)).
Proof.
  intros Hat [gd [Hd [Lm [F2 Hc]]]] Lv. unfold consistent_image in Hc. pose proof max_small as Ms.
  destruct (read_header s _ _ _ _ ts io Hat Hd) as [s' [A [Af ->]]].
  destruct (N.ltb_spec MAX_VALUE_LIMIT (max_value img)) as [L|_]; [unfold MAX_VALUE_LIMIT in L; lia|].
  unfold umul. cbn [wmod cpu ieee]. rewrite N.mod_small by lia. rewrite alloc_small by exact Lv. cbn [bind].
  set (img0 := {| width := width img; height := height img; max_value := max_value img; data := fill (width img * height img) 0 |}).
  cbv zeta. fold img0.
  destruct (read_pixels_good gd img0 (row_order img0) [] s' extra (data img) [] 0 (width img * height img) A F2) as [s1 [E [A1 [Em Ne]]]].
  { rewrite len_row. rewrite (Forall2_len _ _ _ F2), Hc. reflexivity. }
  { rewrite row_index, len_row, N.add_0_l. reflexivity. }
  { cbn [app]. rewrite N.sub_0_r. reflexivity. } { reflexivity. }
  { rewrite (Forall2_len _ _ _ F2), Hc. lia. } { lia. }
  rewrite app_nil_r in E. rewrite E. cbn [read_pixels bind fst snd].
  exists s1. split; [exact A1|]. split; [destruct gd; [rewrite (Em eq_refl); exact Af|apply Ne; discriminate]|].
  rewrite N.add_0_l, (Forall2_len _ _ _ F2), Hc, N.sub_diag. change (fill 0 0) with (@nil N). cbn [app]. rewrite app_nil_r.
  destruct img; reflexivity.
Qed.

(** *** Writing *)

Lemma loop_append {A} (l : list A) body (txt : A -> text) s :
  (forall a out, In a l -> body a out = Ok (out ++ txt a)) -> loop l body s = Ok (s ++ concat (map txt l)).
Proof.
  revert s; induction l as [|a l IH]; intros s H; cbn [loop map concat]; [rewrite app_nil_r; reflexivity|].
  rewrite (H a s (or_introl eq_refl)). cbn [bind]. rewrite IH, <- app_assoc; [reflexivity|].
  intros b out Hb. apply H. right; exact Hb.
Qed.

(** The intensity of a pixel. *)
Definition intensity (img : image) (x y : N) : N := nth (N.to_nat (width img * y + x)) (data img) 0.
Definition row_text (img : image) (y : N) : text :=
  concat (map (fun x => digits (intensity img x y) ++ separator img x) (range 0 (width img))) ++ [newline].
Definition header_text (img : image) : text :=
  FORMAT_CODE ++ [newline] ++ digits (width img) ++ [blank] ++ digits (height img) ++ [newline]
    ++ digits (max_value img) ++ [newline].

Lemma get_nth {A} (l : list A) i d : i < len l -> get l i = Ok (nth (N.to_nat i) l d).
Proof.
  intros H. unfold get. destruct (N.ltb_spec i (len l)); [|lia].
  rewrite (nth_error_nth' l d) by (unfold len in H; lia). reflexivity.
Qed.

Lemma write_valid out img : consistent_image img -> width img * height img < 2 ^ 64 -> image_valid cpu img = Ok true ->
  write_image out (Some img) = Ok (out ++ header_text img ++ concat (map (row_text img) (range 0 (height img)))).
Proof.
  intros Hc Hw Hv. unfold write_image. rewrite Hv. cbn [bind negb].
  erewrite (loop_append _ _ (row_text img)).
  - f_equal. unfold header_text. rewrite <- !app_assoc. reflexivity.
  - intros y o Hy. apply In_range in Hy.
    erewrite (loop_append _ _ (fun x => digits (intensity img x y) ++ separator img x)).
    + cbn [bind]. unfold row_text. rewrite app_assoc. reflexivity.
    + intros x o' Hx. apply In_range in Hx.
      assert (B : width img * y + x < width img * height img) by nia.
      unfold pixel_index, uadd, umul. cbn [px py wmod cpu ieee]. rewrite (N.mod_small (width img * y)) by lia.
      rewrite N.mod_small by lia. rewrite (get_nth _ _ 0) by (rewrite Hc; exact B). reflexivity.
Qed.

Lemma laid_row img y ts r x : x <= width img -> laid_out ts r -> (x = width img -> ts = ts) ->
  laid_out (map (fun x => digits (intensity img x y)) (range x (width img)) ++ ts)
    (concat (map (fun x => digits (intensity img x y) ++ separator img x) (range x (width img))) ++ newline :: r).
Proof.
  intros Hx Hr _. remember (N.to_nat (width img - x)) as k eqn:Ek. revert x Hx Ek.
  induction k as [|k IH]; intros x Hx Ek.
  - rewrite range_nil by lia. cbn [map concat app]. apply laid_space; [exact space_newline|exact Hr].
  - rewrite range_cons by lia. cbn [map concat app]. rewrite <- !app_assoc.
    destruct (N.ltb_spec (x + 1) (width img)) as [L|L].
    + assert (S : exists c, separator img x = [c] /\ space c).
      { unfold separator. destruct (N.ltb_spec (x + 1) (width img)); [|lia].
        destruct (_ || _); eexists; (split; [reflexivity|]); [exact space_blank|exact space_newline]. }
      destruct S as [c [-> Hsp]]. cbn [app]. apply (laid_token []); [constructor|apply digits_token|exact Hsp|].
      apply IH; lia.
    + assert (S : separator img x = []).
      { unfold separator. destruct (N.ltb_spec (x + 1) (width img)); [lia|]. destruct (_ || _); reflexivity. }
      rewrite S, range_nil by lia. cbn [app map concat]. apply (laid_token []); [constructor|apply digits_token|exact space_newline|exact Hr].
Qed.

Definition row_tokens (img : image) (y : N) : list text := map (fun x => digits (intensity img x y)) (range 0 (width img)).

Lemma laid_rows img : forall ys, laid_out (concat (map (row_tokens img) ys)) (concat (map (row_text img) ys)).
Proof.
  induction ys as [|y ys IH]; cbn [map concat]; [apply laid_end, ending_gap, gap_nil|].
  unfold row_text at 1. rewrite <- app_assoc. cbn [app]. apply laid_row; [lia|exact IH|reflexivity].
Qed.

Lemma laid_header img ts r : laid_out ts r ->
  laid_out (FORMAT_CODE :: digits (width img) :: digits (height img) :: digits (max_value img) :: ts) (header_text img ++ r).
Proof.
  intros H. unfold header_text. rewrite <- !app_assoc. cbn [app].
  apply (laid_token []); [constructor| |exact space_newline|].
  { split; [discriminate|]. split; [|discriminate]. intros c Hc. apply space_false.
    destruct Hc as [<-|[<-|[]]]; reflexivity. }
  apply (laid_token []); [constructor|apply digits_token|exact space_blank|].
  apply (laid_token []); [constructor|apply digits_token|exact space_newline|].
  apply (laid_token []); [constructor|apply digits_token|exact space_newline|]. exact H.
Qed.

Lemma map_nth_range {A} (d : A) l : map (fun i => nth (N.to_nat i) l d) (range 0 (len l)) = l.
Proof.
  induction l as [|x l IH] using rev_ind; [reflexivity|]. rewrite len_app. change (len [x]) with 1.
  rewrite range_snoc, map_app by lia. cbn [map]. f_equal.
  - rewrite <- IH at 2. apply map_ext_in. intros i Hi. apply In_range in Hi. apply app_nth1. unfold len in Hi. lia.
  - rewrite app_nth2 by (unfold len; lia). unfold len. rewrite Nat2N.id, Nat.sub_diag. reflexivity.
Qed.

Lemma tokens_data img : consistent_image img -> width img * height img < 2 ^ 64 ->
  concat (map (row_tokens img) (range 0 (height img))) = map digits (data img).
Proof.
  intros Hc Hw.
  transitivity (map (fun i => digits (nth (N.to_nat (i mod 2 ^ 64)) (data img) 0)) (range 0 (width img * height img))).
  2:{ transitivity (map digits (map (fun i => nth (N.to_nat i) (data img) 0) (range 0 (len (data img))))).
      - rewrite map_map, Hc. apply map_ext_in. intros i Hi. apply In_range in Hi. rewrite N.mod_small by lia. reflexivity.
      - rewrite map_nth_range. reflexivity. }
  rewrite <- (map_map (fun i => i mod 2 ^ 64) (fun j => digits (nth (N.to_nat j) (data img) 0))), <- row_index, map_map.
  unfold row_order. rewrite flat_map_concat_map, concat_map, map_map. f_equal. apply map_ext_in. intros y Hy. apply In_range in Hy.
  unfold row_tokens. rewrite map_map. apply map_ext_in. intros x Hx. apply In_range in Hx.
  assert (B : width img * y + x < width img * height img) by nia.
  unfold intensity, pixel_index, uadd, umul. cbn [px py wmod cpu ieee]. rewrite (N.mod_small (width img * y)) by lia.
  rewrite N.mod_small by lia. reflexivity.
Qed.

Lemma laid_text img : consistent_image img -> width img * height img < 2 ^ 64 ->
  laid_out (FORMAT_CODE :: digits (width img) :: digits (height img) :: digits (max_value img) :: map digits (data img))
    (header_text img ++ concat (map (row_text img) (range 0 (height img)))).
Proof. intros Hc Hw. apply laid_header. rewrite <- tokens_data by assumption. apply laid_rows. Qed.

(** *** Lines *)

Fixpoint fits (k : N) (t : text) : Prop :=
  match t with
  | [] => k <= 70
  | c :: r => if Ascii.eqb c newline then k <= 70 /\ fits 0 r else fits (k + 1) r
  end.

Lemma lines_nonempty t : lines t <> [].
Proof. induction t as [|c t IH]; cbn [lines]; [discriminate|]. destruct (lines t); [congruence|]. destruct (Ascii.eqb c newline); discriminate. Qed.
Lemma fits_lines t : forall k, fits k t -> match lines t with
  | [] => False | l :: ls => k + len l <= 70 /\ forall l', In l' ls -> len l' <= 70 end.
Proof.
  induction t as [|c t IH]; intros k H; cbn [lines fits] in *.
  - rewrite len_nil. split; [lia|intros l' []].
  - pose proof (lines_nonempty t) as Ne. destruct (Ascii.eqb c newline).
    + destruct H as [Hk H]. specialize (IH 0 H). destruct (lines t) as [|l ls]; [congruence|]. destruct IH as [H1 H2].
      rewrite len_nil. split; [lia|]. intros l' [<-|X]; [lia|apply H2; exact X].
    + specialize (IH (k + 1) H). destruct (lines t) as [|l ls]; [congruence|]. rewrite len_cons. destruct IH as [H1 H2].
      split; [lia|exact H2].
Qed.

Lemma fits_app t r : forall k, ~ In newline t -> fits (k + len t) r -> fits k (t ++ r).
Proof.
  induction t as [|c t IH]; intros k Hn H; cbn [app fits]; [rewrite len_nil, N.add_0_r in H; exact H|].
  destruct (Ascii.eqb_spec c newline) as [->|]; [exfalso; apply Hn; left; reflexivity|].
  apply IH; [intros X; apply Hn; right; exact X|]. rewrite len_cons in H. replace (k + 1 + len t) with (k + (len t + 1)) by lia. exact H.
Qed.
Lemma fits_newline k r : k <= 70 -> fits 0 r -> fits k (newline :: r).
Proof. intros Hk H. cbn [fits]. replace (Ascii.eqb newline newline) with true by reflexivity. split; assumption. Qed.

Lemma fits_row img y r x k : (forall v, In v (data img) -> v <= 65536) -> x <= width img -> k <= 6 * (x mod 11) -> fits 0 r ->
  (x = width img -> k <= 70) ->
  fits k (concat (map (fun x => digits (intensity img x y) ++ separator img x) (range x (width img))) ++ newline :: r).
Proof.
  intros Hv Hx Hk Hr H70. remember (N.to_nat (width img - x)) as n eqn:En. revert x k Hx Hk H70 En.
  induction n as [|n IH]; intros x k Hx Hk H70 En.
  - rewrite range_nil by lia. cbn [map concat app]. apply fits_newline; [apply H70; lia|exact Hr].
  - rewrite range_cons by lia. cbn [map concat]. rewrite <- !app_assoc.
    assert (Li : len (digits (intensity img x y)) <= 5).
    { apply digits_length; [|lia]. unfold intensity.
      assert (nth (N.to_nat (width img * y + x)) (data img) 0 <= 65536).
      { destruct (nth_in_or_default (N.to_nat (width img * y + x)) (data img) 0) as [X|X]; [apply Hv; exact X|rewrite X; lia]. }
      change (10 ^ 5) with 100000. lia. }
    assert (Hm : x mod 11 < 11) by (apply N.mod_lt; lia).
    apply fits_app; [apply digits_no_newline|]. set (l := len (digits (intensity img x y))) in *.
    destruct (N.ltb_spec (x + 1) (width img)) as [L|L].
    + unfold separator. change MAX_NUMBERS_PER_ROW with 11. destruct (N.ltb_spec (x + 1) (width img)); [|lia].
      destruct ((x =? 0) || negb ((x + 1) mod 11 =? 0)) eqn:E.
      * apply fits_app; [intros [X|[]]; discriminate|]. change (len [blank]) with 1. apply IH; try lia.
      * apply fits_newline; [lia|]. apply IH; try lia.
    + assert (S : separator img x = []).
      { unfold separator. destruct (N.ltb_spec (x + 1) (width img)); [lia|]. destruct (_ || _); reflexivity. }
      rewrite S, range_nil by lia. cbn [app map concat]. apply fits_newline; [lia|exact Hr].
Qed.

Lemma fits_rows img ys : (forall v, In v (data img) -> v <= 65536) -> fits 0 (concat (map (row_text img) ys)).
Proof.
  intros Hv. induction ys as [|y ys IH]; cbn [map concat]; [cbn; lia|].
  unfold row_text at 1. rewrite <- app_assoc. cbn [app]. apply fits_row; try assumption; lia.
Qed.
