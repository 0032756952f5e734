(** More proofs about the texts of the messages. *)
From Coq Require Import Lia String.
From Verif Require Export Console_text_proofs Omp_spec Omp_main_proofs.
Local Open Scope N_scope.

(** *** The technology *)

Section Paths.
Variables (lib : library) (b : build) (v : behaviour) (srt : list (F cpu) -> list (F cpu)) (w : world)
  (o : options) (lpath rpath out : text).
Hypothesis Hp : all_paths o lpath rpath out.

Lemma technology_runs pa : asks_for b (o_parallel o) pa ->
  (forall e, main_with b v srt w (Parsed o) e <-> exists x, map_with pa v srt w o lpath rpath x /\ e = finishes w out x) /\
  (forall u, main_told lib b v srt w (Parsed o) (Ok u) -> cout u = technology_line (o_parallel o) pa).
Proof.
  intros A. apply chosen_asks in A. destruct Hp as [E1 [E2 E3]]. cbn [main_with main_told]. rewrite E1, E2, E3, A. split; [reflexivity|].
  intros u [x [_ E]]. rewrite <- announced_line. revert E. unfold finishes_told.
  destruct (tbind x _) as [[[e t]|f]|y]; intros X; try discriminate X; injection X as ->; reflexivity.
Qed.
Lemma technology_unknown : (forall pa, ~ asks_for b (o_parallel o) pa) -> exists t, o_parallel o = Some t /\
  forall s, main_told lib b v srt w (Parsed o) s <->
    s = Ok {| exit_status := 1; cout := []; saved := None;
              cerr := lit "Unexpected exception: `parallel` cannot be " ++ t ++ lit "." ++ [newline] |}.
Proof.
  intros N. destruct (o_parallel o) as [t|] eqn:Et; [|destruct (N OnCpu eq_refl)].
  exists t. split; [reflexivity|]. destruct Hp as [E1 [E2 E3]]. cbn [main_told]. rewrite E1, E2, E3, Et.
  destruct (chosen_cases b (Some t)) as [[pa C]| ->]; [apply chosen_asks in C; destruct (N pa C)|].
  intros s. unfold line. rewrite <- !app_assoc. reflexivity.
Qed.

(** *** Files and options *)

Lemma told_failed pa e t : asks_for b (o_parallel o) pa -> inputs_told lib w o lpath rpath = Ok (inl (e, t)) ->
  forall s, main_told lib b v srt w (Parsed o) s <->
    s = Ok {| exit_status := 0; cout := technology_line (o_parallel o) pa; saved := None;
              cerr := line ((if is_invalid_argument e then lit "Invalid argument: " else lit "Logic error: ") ++ t) |}.
Proof.
  intros A E. apply chosen_asks in A. destruct Hp as [E1 [E2 E3]]. intros s. cbn [main_told]. rewrite E1, E2, E3, A.
  unfold map_told. rewrite E. rewrite announced_line. split; [intros [x [-> ->]]; reflexivity|intros ->]. eexists. split; reflexivity.
Qed.

Definition invalid_line (pa : parallelism) (t : text) : session :=
  {| exit_status := 0; cout := technology_line (o_parallel o) pa; saved := None; cerr := lit "Invalid argument: " ++ t ++ [newline] |}.

Lemma told_files pa : asks_for b (o_parallel o) pa ->
  (forall path, first_input w lpath rpath path (fun path => files w path = None) ->
   forall s, main_told lib b v srt w (Parsed o) s <-> s = Ok (invalid_line pa (lit "Unable to open file `" ++ path ++ lit "`."))) /\
  (forall path, first_input w lpath rpath path (broken_file w) ->
   forall s, main_told lib b v srt w (Parsed o) s <->
     s = Ok (invalid_line pa (lit "File `" ++ path ++ lit "` is not a correct plain PGM image."))).
Proof.
  intros A.
  assert (G : forall path x, first_input w lpath rpath path (fun path => read_file w path = Stop (Throw x)) ->
    forall s, main_told lib b v srt w (Parsed o) s <-> s = Ok {| exit_status := 0; cout := technology_line (o_parallel o) pa; saved := None;
              cerr := line ((if is_invalid_argument x then lit "Invalid argument: " else lit "Logic error: ") ++ read_what lib path x) |}).
  { intros path x [[-> E]|[[l [Hl Sl]] [-> E]]]; apply (told_failed pa _ _ A); unfold inputs_told.
    - rewrite E. reflexivity.
    - rewrite (held_read w lpath l Hl) by (unfold vector_max_size; lia). cbn [explained tbind]. rewrite E. reflexivity. }
  split; intros path H.
  - intros s. rewrite (G path CannotOpen).
    + unfold invalid_line, line. cbn [is_invalid_argument read_what]. rewrite <- !app_assoc. reflexivity.
    + destruct H as [[-> H]|[Hl [-> H]]]; [left|right]; auto using read_missing.
  - intros s. rewrite (G path NotPgm).
    + unfold invalid_line, line. cbn [is_invalid_argument read_what]. rewrite <- !app_assoc. reflexivity.
    + destruct H as [[-> [t [ts [E [L D]]]]]|[Hl [-> [t [ts [E [L D]]]]]]]; [left|right]; eauto using read_broken.
Qed.
Lemma told_options pa l r : asks_for b (o_parallel o) pa -> file_holds w lpath l -> file_holds w rpath r ->
  width l * height l < 2 ^ 32 -> width r * height r < 2 ^ 32 -> first_unusable o l option_invalid ->
  forall s, main_told lib b v srt w (Parsed o) s <-> s = Ok (invalid_line pa (lit "stoul")).
Proof.
  intros A Hl Hr Sl Sr F s. rewrite (told_failed pa StoulInvalid (lit "stoul") A).
  - unfold invalid_line, line. cbn [is_invalid_argument]. rewrite <- !app_assoc. reflexivity.
  - unfold inputs_told. rewrite (held_read w lpath l Hl) by (unfold vector_max_size; lia). cbn [explained tbind].
    rewrite (held_read w rpath r Hr) by (unfold vector_max_size; lia). cbn [explained tbind].
    destruct F as [F|[[lev Nl] [F|[[c Nc] F]]]].
    + rewrite (option_invalid_stops _ _ F). reflexivity.
    + rewrite (proj2 (number_value _ _ _) Nl). cbn [explained tbind]. rewrite (option_invalid_stops _ _ F). reflexivity.
    + rewrite (proj2 (number_value _ _ _) Nl). cbn [explained tbind]. rewrite (proj2 (number_value _ _ _) Nc). cbn [explained tbind].
      rewrite (option_invalid_stops _ _ F). reflexivity.
Qed.
End Paths.

(** *** One line *)

Definition nl (t : text) : Prop := ~ In newline t.
Lemma nl_app s t : nl s -> nl t -> nl (s ++ t).
Proof. intros A B H. apply in_app_or in H. destruct H; [exact (A H)|exact (B H)]. Qed.
Lemma nl_lit t : forallb (fun c => negb (Ascii.eqb c newline)) t = true -> nl t.
Proof. intros H I. rewrite forallb_forall in H. specialize (H _ I). vm_compute in H. discriminate. Qed.
Ltac literal := apply nl_lit; vm_compute; reflexivity.
Definition clean {A} (x : told A) : Prop := forall e t, x = Ok (inl (e, t)) -> nl t.
Lemma clean_explained {A} f (x : outcome A) : (forall e, nl (f e)) -> clean (explained f x).
Proof. intros H. destruct x as [a|[e| |]]; intros e' t E; try discriminate. injection E as _ <-. apply H. Qed.
Lemma clean_tbind {A B} (x : told A) (f : A -> told B) : clean x -> (forall a, clean (f a)) -> clean (tbind x f).
Proof.
  intros Hx Hf. destruct x as [[[e t]|a]|s]; cbn [tbind]; [|apply Hf|intros e t X; discriminate].
  intros e' t' X. injection X as -> ->. exact (Hx e' t' eq_refl).
Qed.
Lemma clean_value {A} (a : A) : clean (Ok (inr a)). Proof. intros e t X; discriminate. Qed.

Section Lines.
Variable lib : library.
Hypothesis HL : plain_library lib.
Lemma nl_library e : nl (library_what lib e).
Proof. destruct HL as [_ [H _]]. destruct e; cbn [library_what]; first [exact H | literal]. Qed.
Lemma nl_read path e : nl path -> nl (read_what lib path e).
Proof.
  intros H. destruct e; cbn [read_what]; try apply nl_library; repeat (apply nl_app; [try literal; try exact H|]); try literal; exact H.
Qed.
Lemma nl_graph l r lev c s e : nl (graph_what lib l r lev c s e).
Proof.
  destruct HL as [_ [_ H]].
  destruct e as [k| | | | | | | | | | | ]; cbn [graph_what]; try apply nl_library; [|literal].
  destruct (N.lt_ge_cases k 10) as [Hk|Hk].
  - destruct (ten k Hk) as [->|[->|[->|[->|[->|[->|[->|[->|[->| ->]]]]]]]]]; try literal;
      repeat (apply nl_app; [try literal; try apply digits_no_newline; try apply H|]); try literal; try apply digits_no_newline; apply H.
  - destruct k as [|p]; [lia|]. do 4 (destruct p as [p|p|]; try lia; try (apply (nl_library (InvalidArgument 0)))).
Qed.
Lemma nl_label cg e : nl (label_what lib cg e).
Proof.
  destruct e; cbn [label_what]; try apply nl_library. destruct (missing_label cg) as [p|]; [|intros []].
  repeat (apply nl_app; [try literal; try apply digits_no_newline|]); literal.
Qed.
Lemma clean_map pa v srt w o lpath rpath x : nl lpath -> nl rpath -> map_told lib pa v srt w o lpath rpath x -> clean x.
Proof.
  intros Hl Hr. unfold map_told.
  assert (C1 : clean (inputs_told lib w o lpath rpath)).
  { unfold inputs_told. do 2 (apply clean_tbind; [apply clean_explained; intros e; apply nl_read; assumption|intros ?]).
    do 3 (apply clean_tbind; [apply clean_explained, nl_library|intros ?]). apply clean_value. }
  destruct (inputs_told lib w o lpath rpath) as [[[e t]|[[[[l r] lev] c] s]]|y].
  - intros ->. intros e' t' X. injection X as -> ->. exact (C1 e' t' eq_refl).
  - set (f := graph_what _ _ _ _ _ _).
    assert (C2 : clean (explained f (prepared srt l r lev (@of_u cpu c) (of_u s)))) by (apply clean_explained; intros e; apply nl_graph).
    destruct (explained f _) as [[[e t]|cg]|y].
    + intros ->. intros e' t' X. injection X as -> ->. exact (C2 e' t' eq_refl).
    + intros [y [_ ->]]. unfold mapped_told. apply clean_tbind; [apply clean_explained, nl_library|]. intros [k cg']. cbn [fst snd].
      destruct (negb k).
      * intros e t X. injection X as _ <-. literal.
      * apply clean_tbind; [apply clean_explained; intros e; apply nl_label|]. intros a. apply clean_value.
    + intros ->. intros e t X. discriminate.
  - intros ->. intros e t X. discriminate.
Qed.
Lemma line_one t : nl t -> one_line (line t).
Proof. intros H. exists t. split; [exact H|reflexivity]. Qed.

Lemma told_lines b v srt w p s :
  (forall o, p = Parsed o -> plain_option (o_left o) /\ plain_option (o_right o) /\ plain_option (o_parallel o)) ->
  main_told lib b v srt w p (Ok s) ->
  (cerr s = [] \/ one_line (cerr s)) /\ (cout s = [] \/ one_line (cout s)).
Proof.
  intros P. destruct HL as [HB _]. destruct p as [o| |]; cbn [main_told].
  - destruct (P o eq_refl) as [Pl [Pr Pp]]. clear P.
    destruct (o_output o) as [out|] eqn:E1, (o_left o) as [l|] eqn:E2, (o_right o) as [r|] eqn:E3;
      try (cbn [count N.eqb orb]; intros X; injection X as ->; split; [right; apply line_one; literal|left; reflexivity]).
    destruct (chosen b (o_parallel o)) as [pa|[e| |]] eqn:Ec; [| |discriminate|discriminate].
    + intros [x [M E]]. pose proof (clean_map _ _ _ _ _ _ _ _ (Pl l eq_refl) (Pr r eq_refl) M) as Cx.
      revert E. unfold finishes_told. set (m := img <+ x ;; _).
      assert (Cm : clean m).
      { apply clean_tbind; [exact Cx|]. intros img. destruct (writable w out); [|apply clean_value].
        apply clean_tbind; [apply clean_explained, nl_library|]. intros t. apply clean_value. }
      assert (Ca : announced (o_parallel o) pa = [] \/ one_line (announced (o_parallel o) pa)).
      { unfold announced. destruct (o_parallel o); [|left; reflexivity]. right. apply line_one. destruct pa as [|[|]]; literal. }
      destruct m as [[[e t]|f]|y]; intros X; try discriminate X; injection X as ->; cbn [cerr cout].
      * split; [right|exact Ca]. apply line_one. apply nl_app; [destruct (is_invalid_argument e); literal|exact (Cm e t eq_refl)].
      * split; [left; reflexivity|exact Ca].
    + intros X. apply (f_equal (fun x => match x with Ok u => u | Stop _ => s end)) in X. subst s. cbn [cerr cout].
      split; [right; apply line_one|left; reflexivity].
      apply nl_app; [literal|]. apply nl_app; [|literal]. destruct (o_parallel o) as [t|]; [exact (Pp t eq_refl)|intros []].
  - intros X. apply (f_equal (fun x => match x with Ok u => u | Stop _ => s end)) in X. subst s. cbn [cerr cout].
    split; [right; apply line_one; apply nl_app; [literal|exact HB]|left; reflexivity].
  - intros X. apply (f_equal (fun x => match x with Ok u => u | Stop _ => s end)) in X. subst s. cbn [cerr cout].
    split; [right; apply line_one; apply nl_app; [literal|exact HB]|left; reflexivity].
Qed.
End Lines.

(** *** The pixel without a label *)

Lemma sorted_later {A} (R : A -> A -> Prop) (irr : forall x, ~ R x x) (tr : forall x y z, R x y -> R y z -> R x z) l :
  (forall pre p post, l = pre ++ p :: post -> forall q, In q pre -> R q p) ->
  forall pre p post, l = pre ++ p :: post -> forall q, In q l -> R q p -> In q pre.
Proof.
  intros S pre p post E q Hq Rq. rewrite E in Hq. apply in_app_or in Hq. destruct Hq as [Hq|[->|Hq]]; [exact Hq|destruct (irr q Rq)|].
  apply in_split in Hq. destruct Hq as [m [n ->]]. exfalso. apply (irr q). apply (tr q p q Rq).
  apply (S (pre ++ p :: m) q n). { rewrite E, <- app_assoc. reflexivity. } apply in_or_app. right. left. reflexivity.
Qed.

Lemma pixel_named lib (cg : cgraph cpu) e t : wf_cgraph cg ->
  explained (label_what lib cg) (exec build_disparity_map cg) = Ok (inl (e, t)) ->
  exists p tx ty, numeral tx (px p) /\ numeral ty (py p) /\
    t = lit "Cannot find label for the pixel <" ++ tx ++ lit ", " ++ ty ++ lit ">." /\
    in_image (cg_graph cg) p /\
    (forall d, match_exists (cg_graph cg) {| npix := p; disp := d |} -> ~ available cg {| npix := p; disp := d |}) /\
    forall q, in_image (cg_graph cg) q -> earlier q p ->
      exists d, match_exists (cg_graph cg) {| npix := q; disp := d |} /\ available cg {| npix := q; disp := d |}.
Proof.
  intros Hc E. pose proof (wf_static cg Hc) as Hs. pose proof (wfc_graph cg Hc) as Hw.
  set (test := fun q => existsb (fun d => match get (cg_avail cg) (node_index (cg_graph cg) {| npix := q; disp := d |}) with
                                         | Ok a => a | Stop _ => false end) (disparities (cg_graph cg) (px q) 0)).
  assert (Av : forall n, (match get (cg_avail cg) (node_index (cg_graph cg) n) with Ok a => a | Stop _ => false end) = true <-> available cg n).
  { intros n. unfold available, exec, is_node_available. cbn [run].
    destruct (get (cg_avail cg) (node_index (cg_graph cg) n)) as [a|]; cbn [bind run fst snd]; [|split; discriminate].
    rewrite with_avail_same. split; [intros ->; reflexivity|intros X; injection X as ->; reflexivity]. }
  assert (Ts : forall q, in_image (cg_graph cg) q -> (test q = true <->
    exists d, match_exists (cg_graph cg) {| npix := q; disp := d |} /\ available cg {| npix := q; disp := d |})).
  { intros q Hq. unfold test. rewrite existsb_exists. split.
    - intros [d [I A]]. apply In_disparities in I; [|exact Hw|exact Hq]. exists d. split; [apply I|apply Av; exact A].
    - intros [d [M A]]. exists d. split; [apply In_disparities; [exact Hw|exact Hq|split; [lia|exact M]]|apply Av; exact A]. }
  assert (In_order : forall q, In q (column_order (cg_graph cg)) <-> in_image (cg_graph cg) q).
  { intros q. rewrite column_order_eq by exact Hw. apply In_all_pixels. }
  destruct (disparity_map cg Hc) as [All None].
  destruct (missing_label cg) as [p|] eqn:Em.
  - pose proof Em as Ef. unfold missing_label in Ef. cbv zeta in Ef. change (find (fun q => negb (test q)) (column_order (cg_graph cg)) = Some p) in Ef.
    apply find_split in Ef. destruct Ef as [pre [post [Eo [Tp Pre]]]].
    assert (Ip : in_image (cg_graph cg) p) by (apply In_order; rewrite Eo; apply in_or_app; right; left; reflexivity).
    assert (Np : forall d, match_exists (cg_graph cg) {| npix := p; disp := d |} -> ~ available cg {| npix := p; disp := d |}).
    { intros d M A. apply negb_true_iff in Tp. pose proof (proj2 (Ts p Ip) (ex_intro _ d (conj M A))). congruence. }
    rewrite (None p Ip Np) in E. cbn [explained tells label_what] in E. rewrite Em in E.
    apply (f_equal (fun x => match x with Ok (inl (_, t)) => t | _ => [] end)) in E.
    exists p, (digits (px p)), (digits (py p)). split; [apply digits_numeral|]. split; [apply digits_numeral|]. split; [symmetry; exact E|].
    split; [exact Ip|]. split; [exact Np|]. intros q Hq Eq. apply (Ts q Hq).
    assert (I : In q pre).
    { rewrite column_order_eq in Eo by exact Hw.
      refine (sorted_later earlier _ _ _ (all_pixels_earlier _ _) pre p post Eo q _ Eq).
      - intros x. unfold earlier. lia.
      - intros x y z. unfold earlier. lia.
      - apply In_all_pixels. exact Hq. }
    specialize (Pre q I). apply negb_false_iff in Pre. exact Pre.
  - exfalso. unfold missing_label in Em. cbv zeta in Em. change (find (fun q => negb (test q)) (column_order (cg_graph cg)) = Datatypes.None) in Em.
    destruct All as [img [X _]].
    + intros p Hp. apply (Ts p Hp). pose proof (find_none _ _ Em p (proj2 (In_order p) Hp)) as X. apply negb_false_iff in X. exact X.
    + rewrite X in E. discriminate E.
Qed.

(** *** Messages that appear *)

Lemma made_throws l r lev c s k : c < 2 ^ 64 -> s < 2 ^ 64 -> consistent_image l -> consistent_image r ->
  width l * height l < 2 ^ 32 -> width r * height r < 2 ^ 32 ->
  make_graph l r lev (@of_u cpu c) (of_u s) = Stop (Throw (InvalidArgument k)) -> k < 10 /\ k <> 7 /\ k <> 8.
Proof.
  intros Hc Hs Cl Cr Sl Sr. unfold make_graph. rewrite !of_u_nonneg by assumption.
  destruct (image_valid_decides cpu l ltac:(discriminate) Cl Sl) as [bl [-> _]].
  destruct (image_valid_decides cpu r ltac:(discriminate) Cr Sr) as [br [-> _]]. cbn [bind].
  repeat match goal with |- context [if ?b then Stop _ else _] => destruct b; [intros X; injection X as <-; lia|] end.
  unfold alloc. destruct (_ <? _); cbn [bind]; discriminate.
Qed.
Lemma read_file_throws w path e : usable_files w -> read_file w path = Stop (Throw e) -> e = CannotOpen \/ e = NotPgm \/ e = StoulRange.
Proof.
  intros U. unfold read_file. destruct (files w path) as [t|] eqn:Ft; [|intros X; injection X as <-; auto].
  destruct (read_image (opened t) None) as [[s io]|y] eqn:E; cbn [bind fst snd].
  - destruct (failbit s) eqn:F; [intros X; injection X as <-; auto|].
    destruct (read_success t None s io E F) as [img [ts [-> _]]]. discriminate.
  - intros X. injection X as ->. destruct (read_throws t None e E) as [ts [L [[-> _]|[_ [a [b [m [r [Hh Hb]]]]]]]]]; [auto|].
    exfalso. destruct (U path t Ft ts L) as [U1 _]. destruct (U1 a b m r Hh) as [B _].
    rewrite N.mod_small in Hb by lia. unfold vector_max_size in Hb. lia.
Qed.
Lemma number_throws d o e : number_or d o = Stop (Throw e) -> e = StoulInvalid \/ e = StoulRange.
Proof.
  intros E. destruct (option_kinds d o) as [[v N]|[N|N]].
  - apply number_value in N. congruence.
  - rewrite (option_invalid_stops d o N) in E. injection E as <-. auto.
  - rewrite (option_too_large_stops d o N) in E. injection E as <-. auto.
Qed.
Lemma map_throws srt w o lpath rpath e : sorts srt -> usable_files w -> disparity_map_of srt w o lpath rpath = Stop (Throw e) ->
  can_appear (report e).
Proof.
  intros Hs U. unfold disparity_map_of.
  destruct (read_file w lpath) as [l|y] eqn:El; cbn [bind];
    [|intros X; injection X as ->; destruct (read_file_throws _ _ _ U El) as [->|[->| ->]]; cbn; auto].
  destruct (read_file w rpath) as [r|y] eqn:Er; cbn [bind];
    [|intros X; injection X as ->; destruct (read_file_throws _ _ _ U Er) as [->|[->| ->]]; cbn; auto].
  destruct (number_or (width l) (o_levels o)) as [lev|y] eqn:Elev; cbn [bind];
    [|intros X; injection X as ->; destruct (number_throws _ _ _ Elev) as [->| ->]; cbn; auto].
  destruct (number_or 1 (o_cleanness o)) as [c|y] eqn:Ec; cbn [bind];
    [|intros X; injection X as ->; destruct (number_throws _ _ _ Ec) as [->| ->]; cbn; auto].
  destruct (number_or 1 (o_smoothness o)) as [s|y] eqn:Es; cbn [bind];
    [|intros X; injection X as ->; destruct (number_throws _ _ _ Es) as [->| ->]; cbn; auto].
  apply read_held in El. apply read_held in Er. apply number_value in Elev. apply number_value in Ec. apply number_value in Es.
  destruct (held_usable w lpath l U El) as [S1 S2]. destruct (held_usable w rpath r U Er) as [S3 _].
  pose proof (held_consistent _ _ _ El) as Cl. pose proof (held_consistent _ _ _ Er) as Cr.
  assert (Wc : c < 2 ^ 64) by (eapply number_small; [|exact Ec]; reflexivity).
  assert (Ws : s < 2 ^ 64) by (eapply number_small; [|exact Es]; reflexivity).
  destruct (made_total l r lev (@of_u cpu c) (of_u s)) as [[g Eg]|[[k Ek]|Ek]]; try assumption; [discriminate| | |].
  - assert (Hf : finite_penalties g).
    { eapply made_finite; try eassumption.
      intros v [Hv|Hv]; [apply (proj2 (held_small _ _ _ El) v Hv)|apply (proj2 (held_small _ _ _ Er) v Hv)]. }
    destruct (solve_accepted cpu_laws srt l r lev _ _ g Hs Eg Cl Cr (problem_fits _ _ _ _ _ _ Eg S2) Hf) as [lp [Elp [X|[img [X B]]]]];
      rewrite X; intros Y; [injection Y as <-; cbn; auto|discriminate].
  - pose proof (made_throws l r lev c s k Wc Ws Cl Cr S1 S3 Ek) as K.
    unfold solve_problem. rewrite Ek. intros X. injection X as <-. cbn. right. right. right. exists k. split; [reflexivity|exact K].
  - unfold solve_problem. rewrite Ek. intros X. injection X as <-. cbn. auto.
Qed.
Lemma messages_appear srt w p e m : sorts srt -> usable_files w -> main srt w p = Ok e -> printed e = Some m -> can_appear m.
Proof.
  intros Hs U E Pm. pose proof (main_no_help srt w p e E) as NH.
  destruct p as [o| |]; [|cbn in E; injection E as <-; cbn in Pm; injection Pm as <-; exact I..].
  destruct (options_cases o) as [H|[H|H]].
  - rewrite (main_no_image srt w o H) in E. injection E as <-. cbn in Pm. injection Pm as <-. exact I.
  - destruct H as [l [r [E1 [E2 E3]]]]. rewrite (main_no_output srt w o l r E1 E2 E3) in E. injection E as <-. cbn in Pm. injection Pm as <-. exact I.
  - destruct H as [l [r [out Hp]]]. destruct (technology_dec o) as [Ht|Ht].
    + destruct (map_cases srt w o l r Hs U) as [[img [Ed M]]|[x Ed]].
      * destruct (map_writable w o l r img U M) as [txt Et].
        rewrite (main_found srt w o l r out img txt Hp Ht Ed Et) in E. injection E as <-. discriminate Pm.
      * rewrite (main_failed srt w o l r out x Hp Ht Ed) in E. injection E as <-. cbn in Pm. injection Pm as <-.
        exact (map_throws srt w o l r x Hs U Ed).
    + rewrite (main_unknown srt w o l r out Hp Ht) in E. injection E as <-. cbn in Pm. injection Pm as <-. exact I.
Qed.
