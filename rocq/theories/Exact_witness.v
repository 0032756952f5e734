(** Problems with exact and with rounded penalties. *)
From Coq Require Import Reals Lra Lia String.
From Flocq Require Import Core.Core IEEE754.BinarySingleNaN.
From Verif Require Export Exact_proofs Main_witness.
Local Open Scope Z_scope.

Lemma small_sample : small_penalties (2 ^ 53) sample_left sample_right 3 1 1 /\ small_penalties (2 ^ 24) sample_left sample_right 3 1 1.
Proof.
  assert (H : small_penalties (2 ^ 24) sample_left sample_right 3 1 1).
  { exists 10. split; [|lia]. intros v [H|H]; cbn in H; decompose [or] H; subst; try lia; contradiction. }
  split; [|exact H]. eapply small_weaker; [|exact H]. lia.
Qed.
Lemma one_int : is_int (cleanness sg) 1 /\ is_int (smoothness sg) 1.
Proof. split; apply (int_of_u 53 1024 hp53 he53 (2 ^ 64)%N Z.of_N (conv_id 53) 1); lia. Qed.

Lemma sample_builds : make_graph sample_left sample_right 3 (of_u 1) (of_u 1) = Ok (sample_graph opencl) /\
  make_graph sample_left sample_right 3 (of_u 1) (of_u 1) = Ok (sample_graph cuda).
Proof.
  split; unfold make_graph;
  match goal with |- context [image_valid ?t sample_left] =>
    assert (E1 : image_valid t sample_left = Ok true) by (vm_compute; reflexivity);
    assert (E2 : image_valid t sample_right = Ok true) by (vm_compute; reflexivity);
    assert (E3 : @flt t (of_u 1) fzero = false) by (vm_compute; reflexivity);
    assert (E4 : @flt t (of_u 1) feps = false) by (vm_compute; reflexivity)
  end; rewrite E1, E2, E3, E4; reflexivity.
Qed.

(** *** Penalties that differ *)

Definition black : image := {| width := 2; height := 1; max_value := 4097; data := [0; 0]%N |}.
Definition white : image := {| width := 2; height := 1; max_value := 4097; data := [4097; 4097]%N |}.
Definition contrast (T : target) : dgraph T :=
  {| left := black; right := white; levels := 2; cleanness := of_u 1; smoothness := of_u 1; reparam := fill 16 fzero |}.

Lemma contrast_made (T : target) : image_valid T black = Ok true -> image_valid T white = Ok true ->
  @flt T (of_u 1) fzero = false -> @flt T (of_u 1) feps = false -> 2 ^ 32 <= Z.of_N (wmod T) ->
  make_graph black white 2 (of_u 1) (of_u 1) = Ok (contrast T).
Proof.
  intros E1 E2 E3 E4 W. unfold make_graph. rewrite E1, E2, E3, E4.
  cbn [bind negb andb width height max_value black white]. rewrite !N.eqb_refl.
  change (2 <=? 1)%N with false. change (2 <? 2)%N with false. cbn [negb].
  unfold NEIGHBORS_COUNT. rewrite (umul_small T 2 1) by lia. rewrite (umul_small T (2 * 1) 4) by lia.
  rewrite umul_small by lia. reflexivity.
Qed.

Lemma sf_int {prec emax} (x : binary_float prec emax) m e z : B2SF x = SpecFloat.S754_finite false m e -> F2R (Float radix2 (Zpos m) e) = IZR z -> is_int x z.
Proof.
  intros E F. destruct x as [sg0|sg0| |sg0 m0 e0 B0]; try discriminate. injection E as -> -> ->. split; [reflexivity|exact F].
Qed.

Lemma rounded : exists l r lev (gc : dgraph cpu) (go : dgraph opencl) (gd : dgraph cuda) n x y v,
  make_graph l r lev (of_u 1) (of_u 1) = Ok gc /\ make_graph l r lev (of_u 1) (of_u 1) = Ok go /\
  make_graph l r lev (of_u 1) (of_u 1) = Ok gd /\ consistent_image l /\ consistent_image r /\ (max_value l <= 65536)%N /\ is_match r lev n /\
  node_penalty gc n = Ok x /\ node_penalty go n = Ok y /\ node_penalty gd n = Ok v /\
  is_int x (4097 ^ 2) /\ is_int y (4097 ^ 2 - 1) /\ is_int v (4097 ^ 2 - 1).
Proof.
  assert (Mc : make_graph black white 2 (of_u 1) (of_u 1) = Ok (contrast cpu)) by (apply contrast_made; vm_compute; (reflexivity || discriminate)).
  assert (Mo : make_graph black white 2 (of_u 1) (of_u 1) = Ok (contrast opencl)) by (apply contrast_made; vm_compute; (reflexivity || discriminate)).
  assert (Md : make_graph black white 2 (of_u 1) (of_u 1) = Ok (contrast cuda)) by (apply contrast_made; vm_compute; (reflexivity || discriminate)).
  assert (Mn : is_match white 2 (nd 0 0 0)) by (repeat split).
  assert (F1 : F2R (Float radix2 8392704 1) = IZR (4097 ^ 2 - 1)).
  { unfold F2R. cbn [Fnum Fexp]. change (bpow radix2 1) with (IZR 2). rewrite <- mult_IZR. reflexivity. }
  assert (Sm : small_penalties (2 ^ 53) black white 2 1 1).
  { exists 4097. split; [|lia]. intros v [H|H]; cbn in H; decompose [or] H; subst; try lia; contradiction. }
  destruct (small_graph 53 1024 hp53 he53 _ _ (conv_id 53) black white 2 1 1 (contrast cpu) Mc eq_refl eq_refl eq_refl Sm) as [_ [_ [_ [Hw [Hz [Ic Is]]]]]].
  destruct (small_formulas 53 1024 hp53 he53 _ _ (conv_id 53) (contrast cpu) 1 1 Hw Hz Ic Is Sm) as [NP _].
  destruct (NP (nd 0 0 0) Mn) as [x [Ex Ix]].
  assert (Vo : match node_penalty (contrast opencl) (nd 0 0 0) with Ok v => B2SF v | Stop _ => SpecFloat.S754_nan end = SpecFloat.S754_finite false 8392704 1) by (vm_compute; reflexivity).
  assert (Vd : match node_penalty (contrast cuda) (nd 0 0 0) with Ok v => B2SF v | Stop _ => SpecFloat.S754_nan end = SpecFloat.S754_finite false 8392704 1) by (vm_compute; reflexivity).
  destruct (node_penalty (contrast opencl) (nd 0 0 0)) as [y|] eqn:Eo; [|discriminate].
  destruct (node_penalty (contrast cuda) (nd 0 0 0)) as [v|] eqn:Ed; [|discriminate].
  exists black, white, 2%N, (contrast cpu), (contrast opencl), (contrast cuda), (nd 0 0 0), x, y, v.
  refine (conj Mc (conj Mo (conj Md (conj eq_refl (conj eq_refl (conj _ (conj Mn (conj Ex (conj Eo (conj Ed (conj Ix (conj _ _)))))))))))).
  - cbn. lia.
  - eapply sf_int; [exact Vo|exact F1].
  - eapply sf_int; [exact Vd|exact F1].
Qed.

(** Intensities that are negative numbers for CUDA. *)
Definition half : image := {| width := 2; height := 1; max_value := 2 ^ 31; data := [2 ^ 31 - 1; 2 ^ 31 - 1]%N |}.
Definition more : image := {| width := 2; height := 1; max_value := 2 ^ 31; data := [2 ^ 31; 2 ^ 31]%N |}.
Definition signs (T : target) : dgraph T :=
  {| left := half; right := more; levels := 2; cleanness := of_u 1; smoothness := of_u 1; reparam := fill 16 fzero |}.
Lemma signs_made (T : target) : image_valid T half = Ok true -> image_valid T more = Ok true ->
  @flt T (of_u 1) fzero = false -> @flt T (of_u 1) feps = false -> 2 ^ 32 <= Z.of_N (wmod T) ->
  make_graph half more 2 (of_u 1) (of_u 1) = Ok (signs T).
Proof.
  intros E1 E2 E3 E4 W. unfold make_graph. rewrite E1, E2, E3, E4.
  cbn [bind negb andb width height max_value half more]. rewrite !N.eqb_refl.
  change (2 <=? 1)%N with false. change (2 <? 2)%N with false. cbn [negb].
  unfold NEIGHBORS_COUNT. rewrite (umul_small T 2 1) by lia. rewrite (umul_small T (2 * 1) 4) by lia.
  rewrite umul_small by lia. reflexivity.
Qed.

Lemma sf_zero {prec emax} (x : binary_float prec emax) sg : B2SF x = SpecFloat.S754_zero sg -> is_int x 0.
Proof. intros E. destruct x as [sg0|sg0| |sg0 m0 e0 B0]; try discriminate. split; reflexivity. Qed.

Lemma finite_ok {prec emax} (o : outcome (binary_float prec emax)) f :
  match o with Ok v => B2SF v | Stop _ => SpecFloat.S754_nan end = f ->
  match f with SpecFloat.S754_nan => true | _ => false end = false -> exists v, o = Ok v /\ B2SF v = f.
Proof. destruct o as [v|]; intros E F; [exists v; split; [reflexivity|exact E]|rewrite <- E in F; discriminate]. Qed.

Lemma negative : exists l r lev (gc : dgraph cpu) (go : dgraph opencl) (gd : dgraph cuda) n x y v,
  make_graph l r lev (of_u 1) (of_u 1) = Ok gc /\ make_graph l r lev (of_u 1) (of_u 1) = Ok go /\
  make_graph l r lev (of_u 1) (of_u 1) = Ok gd /\ consistent_image l /\ consistent_image r /\ (max_value l < 2 ^ 32)%N /\ is_match r lev n /\
  node_penalty gc n = Ok x /\ node_penalty go n = Ok y /\ node_penalty gd n = Ok v /\
  is_int x 1 /\ is_int y 0 /\ is_int v (2 ^ 64).
Proof.
  assert (Mc : make_graph half more 2 (of_u 1) (of_u 1) = Ok (signs cpu)) by (apply signs_made; vm_compute; (reflexivity || discriminate)).
  assert (Mo : make_graph half more 2 (of_u 1) (of_u 1) = Ok (signs opencl)) by (apply signs_made; vm_compute; (reflexivity || discriminate)).
  assert (Md : make_graph half more 2 (of_u 1) (of_u 1) = Ok (signs cuda)) by (apply signs_made; vm_compute; (reflexivity || discriminate)).
  assert (Mn : is_match more 2 (nd 0 0 0)) by (repeat split).
  assert (F1 : F2R (Float radix2 4503599627370496 (-52)) = IZR 1).
  { unfold F2R. cbn [Fnum Fexp]. change 4503599627370496 with (Z.pow_pos radix2 52). rewrite IZR_Zpower_pos, <- bpow_powerRZ.
    rewrite <- bpow_plus. reflexivity. }
  assert (F2 : F2R (Float radix2 8388608 41) = IZR (2 ^ 64)).
  { unfold F2R. cbn [Fnum Fexp]. change (bpow radix2 41) with (IZR (2 ^ 41)). rewrite <- mult_IZR. reflexivity. }
  assert (Vc : match node_penalty (signs cpu) (nd 0 0 0) with Ok v => B2SF v | Stop _ => SpecFloat.S754_nan end = SpecFloat.S754_finite false 4503599627370496 (-52)) by (vm_compute; reflexivity).
  destruct (finite_ok (prec:=53) (emax:=1024) (node_penalty (signs cpu) (nd 0 0 0)) _ Vc eq_refl) as [x [Ec Ex]]. clear Vc.
  assert (Vo : match node_penalty (signs opencl) (nd 0 0 0) with Ok v => B2SF v | Stop _ => SpecFloat.S754_nan end = SpecFloat.S754_zero false) by (vm_compute; reflexivity).
  destruct (finite_ok (prec:=24) (emax:=128) (node_penalty (signs opencl) (nd 0 0 0)) _ Vo eq_refl) as [y [Eo Ey]]. clear Vo.
  assert (Vd : match node_penalty (signs cuda) (nd 0 0 0) with Ok v => B2SF v | Stop _ => SpecFloat.S754_nan end = SpecFloat.S754_finite false 8388608 41) by (vm_compute; reflexivity).
  destruct (finite_ok (prec:=24) (emax:=128) (node_penalty (signs cuda) (nd 0 0 0)) _ Vd eq_refl) as [v [Ed Ev]]. clear Vd.
  exists half, more, 2%N, (signs cpu), (signs opencl), (signs cuda), (nd 0 0 0), x, y, v.
  refine (conj Mc (conj Mo (conj Md (conj eq_refl (conj eq_refl (conj eq_refl (conj Mn (conj Ec (conj Eo (conj Ed (conj _ (conj _ _)))))))))))).
  - exact (sf_int x _ _ _ Ex F1).
  - exact (sf_zero y _ Ey).
  - exact (sf_int v _ _ _ Ev F2).
Qed.

(** *** A run with small penalties *)

Lemma small_run : usable_files wg /\ (exists srt, @sorts cpu srt) /\ all_paths (og out_path) (lit "l.pgm") (lit "r.pgm") out_path /\
  file_holds wg (lit "l.pgm") gl /\ file_holds wg (lit "r.pgm") gr /\
  option_number (width gl) (o_levels (og out_path)) 3 /\ option_number 1 (o_cleanness (og out_path)) 1 /\
  option_number 1 (o_smoothness (og out_path)) 1 /\ small_penalties (2 ^ 53) gl gr 3 1 1.
Proof.
  refine (conj wg_usable (conj (ex_intro _ _ (isort_sorts cpu_laws)) (conj (og_paths out_path) (conj wg_left (conj wg_right _))))).
  refine (conj _ (conj _ (conj _ _))); [apply number_value; reflexivity..|].
  exists 10. split; [|lia]. intros v [H|H]; cbn in H; decompose [or] H; subst; try lia; contradiction.
Qed.
