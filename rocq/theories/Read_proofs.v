(** Reading PGM images: lemmas. *)
From Coq Require Import Lia.
From Verif Require Export Number_proofs.
Local Open Scope N_scope.

Lemma laid_tokens ts t : laid_out ts t -> Forall token ts.
Proof. induction 1; [constructor|constructor; [assumption|constructor]|constructor; assumption]. Qed.
Lemma at_Forall s ts : at_tokens s ts -> Forall token ts.
Proof. intros [[t [_ H]]|[_ ->]]; [eapply laid_tokens; exact H|constructor]. Qed.

Lemma read_number_none s ts : at_tokens s ts -> no_number ts ->
  exists s', read_number s = Ok (None, s') /\ failbit s' = true.
Proof.
  intros H [->|[t [r [-> Hn]]]]; unfold read_number.
  - destruct (read_at s [] H) as [s' ->]. cbn. eauto.
  - destruct (read_at s (t :: r) H) as [s' [-> _]]. cbn [bind fst snd].
    pose proof (at_Forall _ _ H) as F. inversion F as [|a b Ht _]; subst.
    rewrite (invalid_stoul t (token_skip t Ht) Hn). cbn. eauto.
Qed.
Lemma read_number_some s t r v : at_tokens s (t :: r) -> reads_as t v ->
  exists s', read_number s = Ok (Some v, s') /\ at_tokens s' r /\ after_token s'.
Proof.
  intros H Hv. unfold read_number. destruct (read_at s (t :: r) H) as [s' [-> [A B]]]. cbn [bind fst snd].
  pose proof (at_Forall _ _ H) as F. inversion F as [|a b Ht _]; subst.
  rewrite (reads_stoul t v (token_skip t Ht) Hv). eauto.
Qed.
Lemma read_number_range s t r : at_tokens s (t :: r) -> out_of_range t -> read_number s = Stop (Throw StoulRange).
Proof.
  intros H Hv. unfold read_number. destruct (read_at s (t :: r) H) as [s' [-> [A B]]]. cbn [bind fst snd].
  pose proof (at_Forall _ _ H) as F. inversion F as [|a b Ht _]; subst.
  rewrite (range_stoul t (token_skip t Ht) Hv). reflexivity.
Qed.

Lemma next_token s ts : at_tokens s ts ->
  no_number ts \/ (exists t r v, ts = t :: r /\ reads_as t v) \/ (exists t r, ts = t :: r /\ out_of_range t).
Proof.
  intros H. destruct ts as [|t r]; [left; left; reflexivity|].
  pose proof (at_Forall _ _ H) as F. inversion F as [|a b Ht _]; subst.
  destruct (stoul_cases t (token_skip t Ht)) as [[v Hv]|[Hr|Hn]].
  - right. left. eauto.
  - right. right. eauto.
  - left. right. eauto.
Qed.

(** *** The order of the pixels *)

Lemma flat_index w h : map (pixel_index cpu {| width := w; height := 0; max_value := 0; data := [] |})
    (flat_map (fun y => map (fun x => {| px := x; py := y |}) (range 0 w)) (range 0 h))
  = map (fun i => i mod 2 ^ 64) (range 0 (w * h)).
Proof.
  induction h as [|h IH] using N.peano_ind.
  - rewrite N.mul_0_r. reflexivity.
  - rewrite <- N.add_1_r at 1. rewrite (range_snoc 0 h) by lia. rewrite flat_map_app, map_app, IH. cbn [flat_map]. rewrite app_nil_r, map_map.
    rewrite (range_split 0 (w * h) (w * N.succ h)) by (rewrite N.mul_succ_r; lia). rewrite map_app. f_equal.
    rewrite N.mul_succ_r. clear IH.
    rewrite (map_ext_in _ (fun x => (w * h + x) mod 2 ^ 64)).
    2:{ intros x _. unfold pixel_index, uadd, umul. cbn [px py width wmod cpu ieee]. apply N.add_mod_idemp_l. lia. }
    generalize (w * h). clear. intros b. induction w as [|w IHw] using N.peano_ind.
    + rewrite N.add_0_r, !range_nil by lia. reflexivity.
    + rewrite <- N.add_1_r, N.add_assoc, !range_snoc, !map_app by lia. cbn [map]. rewrite IHw. reflexivity.
Qed.
Lemma row_index img : map (pixel_index cpu img) (row_order img) = map (fun i => i mod 2 ^ 64) (range 0 (width img * height img)).
Proof. rewrite <- flat_index. reflexivity. Qed.
Lemma len_map {A B} (f : A -> B) l : len (map f l) = len l. Proof. unfold len. rewrite map_length. reflexivity. Qed.
Lemma len_row img : len (row_order img) = width img * height img.
Proof. rewrite <- (len_map (pixel_index cpu img)), row_index, len_map, len_range. lia. Qed.

Lemma Forall2_len {A B} (R : A -> B -> Prop) l l' : Forall2 R l l' -> len l = len l'.
Proof. induction 1; [reflexivity|]. rewrite !len_cons. congruence. Qed.

Lemma set_append (vs : list N) n k v : len vs = k -> k < n ->
  set (vs ++ fill (n - k) 0) k v = Ok ((vs ++ [v]) ++ fill (n - (k + 1)) 0).
Proof.
  intros L H. unfold set. rewrite len_app, len_fill, L. replace (k + (n - k)) with n by lia.
  destruct (N.ltb_spec k n); [|lia]. f_equal. unfold fill.
  replace (N.to_nat (n - k)) with (S (N.to_nat (n - (k + 1)))) by lia. cbn [repeat].
  unfold len in L. replace (N.to_nat k) with (length vs) by lia. clear. induction vs as [|x vs IH]; cbn [app length upd]; [reflexivity|].
  rewrite IH. reflexivity.
Qed.

Lemma read_pixels_run ps : forall img s ts vs k n,
  at_tokens s ts -> map (pixel_index cpu img) ps = map (fun i => i mod 2 ^ 64) (range k (k + len ps)) ->
  data img = vs ++ fill (n - k) 0 -> len vs = k -> k <= n -> n < 2 ^ 64 ->
  (exists good vs' ts' s', ts = good ++ ts' /\ Forall2 reads_as good vs' /\ len good = len ps /\ k + len ps <= n /\
     read_pixels img ps s = Ok (Some (with_data img (vs ++ vs' ++ fill (n - (k + len ps)) 0)), s') /\
     at_tokens s' ts' /\ (ps = [] -> s' = s) /\ (ps <> [] -> after_token s')) \/
  (exists good vs' ts' s', ts = good ++ ts' /\ Forall2 reads_as good vs' /\ len good < len ps /\ k + len good <= n /\
     no_number ts' /\ read_pixels img ps s = Ok (None, s') /\ failbit s' = true) \/
  ((exists t, In t ts /\ out_of_range t) /\ read_pixels img ps s = Stop (Throw StoulRange)) \/
  (n < k + len ps /\ read_pixels img ps s = Stop Undef).
Proof.
  induction ps as [|p ps IH]; intros img s ts vs k n Hat Hi Hd Hl Hk Hn.
  - left. exists [], [], ts, s. change (len (@nil pixel)) with 0. change (len (@nil text)) with 0. split; [reflexivity|]. split; [constructor|]. split; [reflexivity|].
    split; [lia|]. split; [|split; [exact Hat|split; [reflexivity|congruence]]].
    cbn [read_pixels]. do 3 f_equal. destruct img as [w h m d]. cbn [data] in Hd. unfold with_data. cbn [width height max_value].
    rewrite Hd, N.add_0_r. reflexivity.
  - rewrite !len_cons in *. rewrite (range_cons k) in Hi by lia. cbn [map] in Hi. injection Hi as Hi0 Hi.
    destruct (next_token s ts Hat) as [Hno|[[t [r [v [-> Hv]]]]|[t [r [-> Hr]]]]].
    + right. left. destruct (read_number_none s ts Hat Hno) as [s' [E F]].
      exists [], [], ts, s'. split; [reflexivity|]. split; [constructor|]. rewrite len_nil, ?len_cons. split; [lia|]. split; [lia|].
      split; [exact Hno|]. cbn [read_pixels]. rewrite E. split; [reflexivity|exact F].
    + destruct (read_number_some s t r v Hat Hv) as [s' [E [At' Af]]].
      destruct (N.lt_ge_cases k n) as [Lt|Ge].
      * assert (Es : set (data img) (pixel_index cpu img p) v = Ok ((vs ++ [v]) ++ fill (n - (k + 1)) 0)).
        { rewrite Hi0, Hd, N.mod_small by lia. apply set_append; assumption. }
        destruct (IH (with_data img ((vs ++ [v]) ++ fill (n - (k + 1)) 0)) s' r (vs ++ [v]) (k + 1) n) as [C|[C|[C|C]]];
          try assumption; try (rewrite ?len_app, ?len_cons, ?len_nil; lia).
        { replace (k + 1 + len ps) with (k + (len ps + 1)) by lia. exact Hi. }
        { reflexivity. }
        -- left. destruct C as [good [vs' [ts' [s2 [-> [F2 [Lg [Lk [Er [A2 [Em Ne]]]]]]]]]]].
           exists (t :: good), (v :: vs'), ts', s2. split; [reflexivity|]. split; [constructor; assumption|].
           rewrite ?len_cons. split; [lia|]. split; [lia|]. split.
           { cbn [read_pixels]. rewrite E. cbn [bind fst snd]. rewrite Es. cbn [bind]. rewrite Er.
             replace (k + (len ps + 1)) with (k + 1 + len ps) by lia.
             unfold with_data. cbn [width height max_value]. rewrite <- app_assoc. reflexivity. }
           split; [exact A2|]. split; [discriminate|]. intros _. destruct ps as [|q ps]; [rewrite (Em eq_refl); exact Af|apply Ne; discriminate].
        -- right. left. destruct C as [good [vs' [ts' [s2 [-> [F2 [Lg [Lk [No [Er Fs]]]]]]]]]].
           exists (t :: good), (v :: vs'), ts', s2. split; [reflexivity|]. split; [constructor; assumption|].
           rewrite ?len_cons. split; [lia|]. split; [lia|]. split; [exact No|]. split; [|exact Fs].
           cbn [read_pixels]. rewrite E. cbn [bind fst snd]. rewrite Es. exact Er.
        -- right. right. left. destruct C as [[t' [Hin Ho]] Er]. split; [exists t'; split; [right; exact Hin|exact Ho]|].
           cbn [read_pixels]. rewrite E. cbn [bind fst snd]. rewrite Es. exact Er.
        -- right. right. right. destruct C as [Ln Er]. split; [lia|].
           cbn [read_pixels]. rewrite E. cbn [bind fst snd]. rewrite Es. exact Er.
      * right. right. right. split; [lia|]. cbn [read_pixels]. rewrite E. cbn [bind fst snd].
        rewrite Hi0, Hd, N.mod_small by lia. unfold set. rewrite len_app, len_fill, Hl.
        destruct (N.ltb_spec k (k + (n - k))); [lia|reflexivity].
    + right. right. left. split; [exists t; split; [left; reflexivity|exact Hr]|].
      cbn [read_pixels]. rewrite (read_number_range s t r Hat Hr). reflexivity.
Qed.

(** *** All outcomes of reading *)

Inductive reading (io : pgm_io) (ts : list text) : outcome (istream * pgm_io) -> Prop :=
| read_defect s' : defect ts -> failbit s' = true -> reading io ts (Ok (s', io))
| read_range t : In t ts -> out_of_range t -> reading io ts (Stop (Throw StoulRange))
| read_length w h m r : header w h m r ts -> vector_max_size < (w * h) mod 2 ^ 64 -> reading io ts (Stop (Throw LengthError))
| read_overflow w h m r : header w h m r ts -> 2 ^ 64 <= w * h -> reading io ts (Stop Undef)
| read_whole s' img : image_tokens img [] ts -> width img * height img <= vector_max_size -> failbit s' = false -> reading io ts (Ok (s', Some img))
| read_garbage s' img extra : image_tokens img extra ts -> width img * height img <= vector_max_size -> extra <> [] -> failbit s' = true -> reading io ts (Ok (s', Some img))
| read_high img extra : image_tokens img extra ts -> width img * height img <= vector_max_size -> high_byte extra -> reading io ts (Stop Undef).

Lemma alloc_small {A} n (v : A) : n <= vector_max_size -> alloc n v = Ok (fill n v).
Proof. intros H. unfold alloc. destruct (N.ltb_spec vector_max_size n); [lia|reflexivity]. Qed.
Lemma alloc_large {A} n (v : A) : vector_max_size < n -> alloc n v = Stop (Throw LengthError).
Proof. intros H. unfold alloc. destruct (N.ltb_spec vector_max_size n); [reflexivity|lia]. Qed.

Lemma max_small : vector_max_size < 2 ^ 64. Proof. reflexivity. Qed.

Lemma reading_at io s ts : at_tokens s ts -> reading io ts (read_image s io).
Proof.
  intros Hat. unfold read_image.
  destruct ts as [|magic ts].
  { destruct (read_at s [] Hat) as [s' ->]. cbn [bind fst snd].
    destruct (list_eq_dec ascii_dec [] FORMAT_CODE) as [X|_]; [discriminate|]. cbn [negb].
    apply read_defect; [apply bad_magic; discriminate|reflexivity]. }
  destruct (read_at s (magic :: ts) Hat) as [s1 [-> [A1 _]]]. cbn [bind fst snd].
  destruct (list_eq_dec ascii_dec magic FORMAT_CODE) as [->|X]; cbn [negb].
  2:{ apply read_defect; [apply bad_magic; cbn [hd_error]; congruence|reflexivity]. }
  destruct (next_token s1 ts A1) as [No|[[tw [r1 [w [-> Hw]]]]|[tw [r1 [-> Ho]]]]].
  { destruct (read_number_none s1 ts A1 No) as [s' [-> F]]. cbn [bind fst snd].
    apply read_defect; [apply bad_width; exact No|exact F]. }
  2:{ rewrite (read_number_range s1 tw r1 A1 Ho). cbn [bind]. eapply (read_range _ _ tw); [right; left; reflexivity|exact Ho]. }
  destruct (read_number_some s1 tw r1 w A1 Hw) as [s2 [-> [A2 _]]]. cbn [bind fst snd].
  destruct (next_token s2 r1 A2) as [No|[[th [r2 [h [-> Hh]]]]|[th [r2 [-> Ho]]]]].
  { destruct (read_number_none s2 r1 A2 No) as [s' [-> F]]. cbn [bind fst snd].
    apply read_defect; [eapply bad_height; [exact Hw|exact No]|exact F]. }
  2:{ rewrite (read_number_range s2 th r2 A2 Ho). cbn [bind]. eapply (read_range _ _ th); [right; right; left; reflexivity|exact Ho]. }
  destruct (read_number_some s2 th r2 h A2 Hh) as [s3 [-> [A3 _]]]. cbn [bind fst snd].
  destruct (next_token s3 r2 A3) as [No|[[tm [r3 [m [-> Hm]]]]|[tm [r3 [-> Ho]]]]].
  { destruct (read_number_none s3 r2 A3 No) as [s' [-> F]]. cbn [bind fst snd].
    apply read_defect; [eapply bad_max; [exact Hw|exact Hh|exact No]|exact F]. }
  2:{ rewrite (read_number_range s3 tm r3 A3 Ho). cbn [bind]. eapply (read_range _ _ tm); [right; right; right; left; reflexivity|exact Ho]. }
  destruct (read_number_some s3 tm r3 m A3 Hm) as [s4 [-> [A4 Af4]]]. cbn [bind fst snd].
  assert (Hhead : forall ts, header w h m ts (FORMAT_CODE :: tw :: th :: tm :: ts)) by (intros ts; exists tw, th, tm; auto).
  destruct (N.ltb_spec MAX_VALUE_LIMIT m) as [Lm|Lm].
  { apply read_defect; [eapply high_max; [apply Hhead|exact Lm]|reflexivity]. }
  unfold umul. cbn [wmod cpu ieee]. set (n := (w * h) mod 2 ^ 64).
  destruct (N.lt_ge_cases vector_max_size n) as [Ln|Ln].
  { rewrite alloc_large by exact Ln. cbn [bind]. eapply read_length; [apply Hhead|exact Ln]. }
  rewrite alloc_small by exact Ln. cbn [bind].
  set (img := {| width := w; height := h; max_value := m; data := fill n 0 |}).
  assert (Hn64 : n < 2 ^ 64) by (apply N.mod_lt; lia).
  destruct (read_pixels_run (row_order img) img s4 r3 [] 0 n A4) as [C|[C|[C|C]]].
  { rewrite row_index, len_row. reflexivity. }
  { cbn [app]. rewrite N.sub_0_r. reflexivity. }
  { reflexivity. } { lia. } { exact Hn64. }
  - destruct C as [good [vs [ts' [s5 [-> [F2 [Lg [Lk [-> [A5 [Em Ne]]]]]]]]]]]. cbn [bind fst snd].
    rewrite len_row, N.add_0_l in *. cbn [width height img] in *.
    assert (Small : w * h < 2 ^ 64) by lia. assert (En : n = w * h) by (unfold n; apply N.mod_small; exact Small).
    rewrite En, N.sub_diag. cbn [app]. change (fill 0 0) with (@nil N). rewrite app_nil_r.
    assert (Lv : len vs = w * h) by (rewrite <- Lg; symmetry; eapply Forall2_len; exact F2).
    assert (Im : image_tokens (with_data img vs) ts' (FORMAT_CODE :: tw :: th :: tm :: good ++ ts')).
    { exists good. split; [apply Hhead|]. split; [exact Lm|]. split; [exact F2|]. exact Lv. }
    assert (Af5 : after_token s5).
    { destruct (row_order img) as [|p ps]; [rewrite (Em eq_refl); exact Af4|apply Ne; discriminate]. }
    assert (Wm : width (with_data img vs) * height (with_data img vs) <= vector_max_size) by (cbn [with_data img width height]; lia).
    pose proof (check_at s5 ts' A5 Af5) as Ck. destruct ts' as [|t' ts'].
    + destruct Ck as [s' [-> Fs]]. cbn [bind]. apply read_whole; assumption.
    + destruct Ck as [[Hb ->]|[s' [-> Fs]]]; cbn [bind].
      * eapply read_high; eassumption.
      * eapply read_garbage; [exact Im|exact Wm|discriminate|exact Fs].
  - destruct C as [good [vs [ts' [s5 [-> [F2 [Lg [Lk [No [-> Fs]]]]]]]]]]. cbn [bind fst snd].
    apply read_defect; [|exact Fs]. rewrite len_row, N.add_0_l in *. cbn [width height img] in *.
    eapply (bad_pixel w h m good vs ts'); try eassumption; try lia. apply Hhead.
  - destruct C as [[t [Hin Ho]] ->]. cbn [bind]. eapply (read_range _ _ t); [do 4 right; exact Hin|exact Ho].
  - destruct C as [Lt ->]. cbn [bind]. eapply read_overflow; [apply Hhead|].
    rewrite len_row, N.add_0_l in Lt. cbn [width height img] in Lt. unfold n in Lt.
    destruct (N.lt_ge_cases (w * h) (2 ^ 64)) as [L|L]; [rewrite N.mod_small in Lt by exact L; lia|exact L].
Qed.

Lemma opened_at t ts : laid_out ts t -> at_tokens (opened t) ts.
Proof. intros H. left. exists t. split; [reflexivity|exact H]. Qed.
