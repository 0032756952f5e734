(** Special problems and functions of the library: examples. *)
From Coq Require Import Lia.
From Verif Require Export Scale_witness Special_proofs Api_proofs.
Local Open Scope N_scope.

Lemma pic_valid w h d : 0 < w -> 0 < h -> Forall (fun v => v <= 10) d -> valid_image (pic w h d).
Proof. intros Hw Hh Hd. refine (conj Hw (conj Hh (conj _ _))); [reflexivity|]. apply Forall_forall. exact Hd. Qed.

Definition small_pics (w h : N) (l r : list N) (c s : N) : stereo :=
  {| p_left := pic w h l; p_right := pic w h r; p_cleanness := c; p_smoothness := s |}.

Lemma small_pics_ok w h l r c s lev : Forall (fun v => v <= 10) l -> Forall (fun v => v <= 10) r ->
  1 < lev -> lev <= w -> w <= 10 -> 0 < h -> h <= 10 -> len l = w * h -> len r = w * h -> c <= 10 -> s <= 10 -> 0 < c \/ 0 < s ->
  accepted lev (small_pics w h l r c s) /\ small_problem (2 ^ 53) lev (small_pics w h l r c s).
Proof.
  intros Hl Hr L1 L2 W H1 H2 El Er C S P.
  assert (Sm : small_problem (2 ^ 53) lev (small_pics w h l r c s)).
  { refine (conj El (conj Er (conj _ _))).
    - cbn [small_pics p_left pic width height]. nia.
    - exists 10%Z. split.
      + intros v [Hv|Hv]; [pose proof (proj1 (Forall_forall _ _) Hl v Hv)|pose proof (proj1 (Forall_forall _ _) Hr v Hv)]; cbn beta in *; lia.
      + cbn [small_pics p_cleanness p_smoothness]. assert (Z.of_N lev ^ 2 <= 100)%Z by (rewrite Z.pow_2_r; nia).
        assert (0 <= Z.of_N lev ^ 2)%Z by (apply Z.pow_nonneg; lia).
        assert (E : (10 ^ 2 = 100)%Z) by reflexivity. assert (E' : (2 ^ 53 = 9007199254740992)%Z) by reflexivity. rewrite E, E'.
        refine (conj _ (conj _ (conj _ (conj _ (conj _ _))))); nia. }
  split; [|exact Sm]. apply good_accepted; [exact Sm| | |].
  - cbn [small_pics p_left pic width height]. nia.
  - cbn [small_pics p_left pic width height]. unfold vector_max_size. nia.
  - cbn [small_pics p_left p_right p_cleanness p_smoothness].
    refine (conj (pic_valid w h l _ H1 Hl) (conj (pic_valid w h r _ H1 Hr) (conj eq_refl (conj eq_refl (conj eq_refl (conj L1 (conj L2 P))))))); lia.
Qed.

(** Closest matches in order. *)
Definition near : stereo := small_pics 3 2 [5; 1; 9; 5; 1; 9] [1; 9; 9; 1; 8; 7] 1 0.
Definition near_map : labeling := fun p => if px p =? 2 then 0 else 1.
Lemma near_ok : accepted 3 near /\ small_problem (2 ^ 53) 3 near.
Proof. apply small_pics_ok; first [reflexivity|discriminate|lia|repeat constructor; discriminate]. Qed.
Lemma six (p : pixel) (w h : N) : w = 3 -> h = 2 -> px p < w -> py p < h ->
  In p [{| px := 0; py := 0 |}; {| px := 1; py := 0 |}; {| px := 2; py := 0 |}; {| px := 0; py := 1 |}; {| px := 1; py := 1 |}; {| px := 2; py := 1 |}].
Proof.
  intros -> -> Hx Hy. destruct p as [x y]. cbn [px py] in *.
  assert (x = 0 \/ x = 1 \/ x = 2) as [->|[->| ->]] by lia; assert (y = 0 \/ y = 1) as [->| ->] by lia; cbn [In]; tauto.
Qed.
Lemma near_ordered : ordered_labeling (p_right near) 3 near_map.
Proof.
  split.
  - intros p [Hx Hy]. cbn in Hx, Hy. unfold is_match, label_node, near_map, inside. cbn [npix disp near small_pics p_right pic width height].
    destruct (N.eqb_spec (px p) 2); lia.
  - intros p q [Hp _] [Hq _] A. cbn in Hp, Hq. unfold in_order, label_node, near_map, horizontal_pair. cbn [npix disp].
    destruct (N.eqb_spec (px p) 2); destruct (N.eqb_spec (px q) 2); lia.
Qed.
Lemma near_closest : closest (p_left near) (p_right near) 3 near_map.
Proof.
  intros p d [Hx Hy] Hd Hxd. cbn in Hxd. pose proof (six p _ _ eq_refl eq_refl Hx Hy) as I. cbn [In] in I.
  assert (d = 0 \/ d = 1 \/ d = 2) as D by lia.
  repeat (destruct I as [<-|I]; [destruct D as [->|[->| ->]]; cbn [px] in Hxd; first [exfalso; lia|vm_compute; split; intros; discriminate]|]). contradiction.
Qed.

(** Rows of a single intensity on the left. *)
Definition even_rows : stereo := small_pics 3 2 [5; 5; 5; 7; 7; 7] [1; 9; 2; 8; 3; 7] 2 3.
Lemma even_rows_ok : accepted 3 even_rows /\ small_problem (2 ^ 53) 3 even_rows.
Proof. apply small_pics_ok; first [reflexivity|discriminate|lia|repeat constructor; discriminate]. Qed.
Lemma even_rows_zero p d : inside (p_right even_rows) p -> d < 3 -> px p + d < width (p_right even_rows) ->
  (mismatch (p_left even_rows) (p_right even_rows) p 0 <= mismatch (p_left even_rows) (p_right even_rows) p d)%Z.
Proof.
  intros [Hx Hy] Hd Hxd. cbn in Hxd. pose proof (six p _ _ eq_refl eq_refl Hx Hy) as I. cbn [In] in I.
  assert (d = 0 \/ d = 1 \/ d = 2) as D by lia.
  repeat (destruct I as [<-|I]; [destruct D as [->|[->| ->]]; cbn [px] in Hxd; first [exfalso; lia|vm_compute; discriminate]|]). contradiction.
Qed.
Definition no_cleanness : stereo := small_pics 3 2 [5; 1; 9; 5; 1; 9] [1; 9; 9; 1; 8; 7] 0 3.
Lemma no_cleanness_ok : accepted 3 no_cleanness /\ small_problem (2 ^ 53) 3 no_cleanness.
Proof. apply small_pics_ok; first [reflexivity|discriminate|lia|repeat constructor; discriminate]. Qed.

(** Images upside down with another map. *)
Definition upright : stereo := small_pics 3 2 [1; 4; 2; 0; 3; 1] [1; 2; 4; 1; 0; 4] 1 1.
Definition overturned : stereo := small_pics 3 2 [0; 3; 1; 1; 4; 2] [1; 0; 4; 1; 2; 4] 1 1.
Lemma upright_ok : accepted 3 upright /\ small_problem (2 ^ 53) 3 upright.
Proof. apply small_pics_ok; first [reflexivity|discriminate|lia|repeat constructor; discriminate]. Qed.
Lemma overturned_ok : accepted 3 overturned /\ small_problem (2 ^ 53) 3 overturned.
Proof. apply small_pics_ok; first [reflexivity|discriminate|lia|repeat constructor; discriminate]. Qed.
Lemma overturned_images : upside_down (p_left upright) (p_left overturned) /\ upside_down (p_right upright) (p_right overturned).
Proof.
  split; (split; [reflexivity|split; [reflexivity|]]); intros p [Hx Hy]; pose proof (six p _ _ eq_refl eq_refl Hx Hy) as I; cbn [In] in I;
    repeat (destruct I as [<-|I]; [vm_compute; reflexivity|]); contradiction.
Qed.
Definition upright_map : image := {| width := 3; height := 2; max_value := 3; data := [0; 1; 0; 0; 1; 0] |}.
Definition overturned_map : image := {| width := 3; height := 2; max_value := 3; data := [2; 1; 0; 2; 1; 0] |}.
Lemma upright_solved : solution_of isort 3 upright = Ok upright_map. Proof. vm_compute. reflexivity. Qed.
Lemma overturned_solved : solution_of isort 3 overturned = Ok overturned_map. Proof. vm_compute. reflexivity. Qed.
Lemma overturned_differs : ~ upside_down upright_map overturned_map.
Proof.
  intros [_ [_ E]]. specialize (E {| px := 0; py := 0 |} (conj eq_refl eq_refl)). vm_compute in E. discriminate E.
Qed.
Lemma flip_differs : exists srt lev a a' img img', sorts srt /\ accepted lev a /\ accepted lev a' /\
  small_problem (2 ^ 53) lev a /\ small_problem (2 ^ 53) lev a' /\
  upside_down (p_left a) (p_left a') /\ upside_down (p_right a) (p_right a') /\
  p_cleanness a' = p_cleanness a /\ p_smoothness a' = p_smoothness a /\
  solution_of srt lev a = Ok img /\ solution_of srt lev a' = Ok img' /\ ~ upside_down img img'.
Proof.
  exists isort, 3, upright, overturned, upright_map, overturned_map.
  refine (conj (isort_sorts cpu_laws) (conj (proj1 upright_ok) (conj (proj1 overturned_ok) (conj (proj2 upright_ok) (conj (proj2 overturned_ok)
    (conj (proj1 overturned_images) (conj (proj2 overturned_images) (conj eq_refl (conj eq_refl (conj upright_solved (conj overturned_solved overturned_differs))))))))))).
Qed.

(** Nodes left and no nodes left. *)
Definition nobody : cgraph cpu := with_avail scg (fill (len (cg_avail scg)) false).
Lemma nobody_wf : wf_cgraph nobody.
Proof. apply static_wf; [apply wf_static; exact scg_wf|]. unfold mem_ok. rewrite len_fill. exact (wfc_avail _ scg_wf). Qed.
Lemma some_left : exists cg, exec check_nodes_left scg = Ok (true, cg).
Proof. destruct (nodes_left scg scg_wf) as [b [E _]]. exists scg. rewrite E. f_equal. f_equal. revert E. destruct b; [reflexivity|]. intros E. exfalso.
  assert (X : match exec check_nodes_left scg with Ok (b, _) => b | _ => false end = true) by (vm_compute; reflexivity). rewrite E in X. discriminate X. Qed.
Lemma nobody_left : exists cg, exec check_nodes_left nobody = Ok (false, cg).
Proof. destruct (nodes_left nobody nobody_wf) as [b [E _]]. exists nobody. rewrite E. f_equal. f_equal. revert E. destruct b; [|reflexivity]. intros E. exfalso.
  assert (X : match exec check_nodes_left nobody with Ok (b, _) => b | _ => true end = false) by (vm_compute; reflexivity). rewrite E in X. discriminate X. Qed.
Lemma sg_pixels : in_image sg {| px := 1; py := 0 |} /\ in_image sg {| px := 2; py := 0 |} /\
  slot_of 0 {| px := 1; py := 0 |} {| px := 2; py := 0 |} /\ adjacent {| px := 1; py := 0 |} {| px := 2; py := 0 |}.
Proof.
  refine (conj (conj eq_refl eq_refl) (conj (conj eq_refl eq_refl) (conj (or_introl (conj eq_refl (conj eq_refl eq_refl))) _))).
  unfold adjacent, horizontal_pair. cbn [px py]. lia.
Qed.
