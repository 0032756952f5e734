(** Proofs about what the application prints. *)
From Coq Require Import Lia String.
From Verif Require Export Console_spec App_proofs Device_main_proofs.
Local Open Scope N_scope.

(** *** The technology *)

Lemma more_names_lower : Forall not_upper (lit "cl") /\ Forall not_upper (lit "opencl") /\ Forall not_upper (lit "cuda").
Proof. repeat split; repeat constructor; unfold not_upper, code; cbn; lia. Qed.
Lemma same_text_true t name : same_text t name = true -> t = name.
Proof. unfold same_text. destruct (list_eq_dec ascii_dec t name); [auto|discriminate]. Qed.
Lemma lower_known pa name : In name (technology_names pa) -> Forall not_upper name.
Proof.
  destruct names_lower as [N1 [N2 N3]], more_names_lower as [N4 [N5 N6]].
  destruct pa as [|[|]]; cbn [technology_names In]; intros H; decompose [or] H; subst; try contradiction; assumption.
Qed.
Lemma named_by pa t : (exists name, In name (technology_names pa) /\ Forall2 same_letter t name) <->
  In (map lower t) (technology_names pa).
Proof.
  split.
  - intros [name [H F]]. apply lower_text in F; [|exact (lower_known pa name H)]. apply same_text_true in F. rewrite F. exact H.
  - intros H. exists (map lower t). split; [exact H|]. apply lower_text; [exact (lower_known pa _ H)|].
    unfold same_text. destruct (list_eq_dec ascii_dec (map lower t) (map lower t)); [reflexivity|congruence].
Qed.
Lemma same_text_dec t name : same_text t name = true /\ t = name \/ same_text t name = false /\ t <> name.
Proof. unfold same_text. destruct (list_eq_dec ascii_dec t name); auto. Qed.

Lemma chosen_asks b p pa : chosen b p = Ok pa <-> asks_for b p pa.
Proof.
  destruct p as [t|]; [|split; [intros X; injection X as <-; reflexivity|intros ->; reflexivity]].
  cbn [asks_for]. rewrite named_by. cbn [chosen]. cbv zeta. generalize (map lower t) as u. clear t. intros u.
  destruct (same_text_dec u (lit "cl")) as [[-> E1]|[-> N1]]; [subst u|];
    [|destruct (same_text_dec u (lit "opencl")) as [[-> E1]|[-> N2]]; [subst u|]];
    [| |destruct (same_text_dec u (lit "cuda")) as [[-> E1]|[-> N3]]; [subst u|]];
    [| | |destruct (same_text_dec u (lit "cpu")) as [[-> E1]|[-> N4]]; [subst u|]];
    [| | | |destruct (same_text_dec u (lit "openmp")) as [[-> E1]|[-> N5]]; [subst u|]];
    [| | | | |destruct (same_text_dec u (lit "omp")) as [[-> E1]|[-> N6]]; [subst u|]].
  all: destruct b as [ocl cu], ocl, cu, pa as [|[|]]; cbn; split; intros H;
    try discriminate; try match type of H with _ /\ _ => destruct H as [Hs Hn] end; try discriminate;
    repeat match goal with H : _ \/ _ |- _ => destruct H as [H|H] end; subst; try contradiction; try discriminate; try congruence;
    auto 8.
Qed.
Lemma chosen_cases b p : (exists pa, chosen b p = Ok pa) \/ chosen b p = Stop (Throw BadParallel).
Proof.
  destruct p as [t|]; [|left; eexists; reflexivity]. cbn [chosen]. cbv zeta.
  destruct (_ && _); [left; eexists; reflexivity|]. destruct (_ && _); [left; eexists; reflexivity|].
  destruct (_ || _); [left; eexists; reflexivity|right; reflexivity].
Qed.
Lemma announced_line p pa : announced p pa = technology_line p pa.
Proof. destruct p as [t|]; [|reflexivity]. destruct pa as [|[|]]; reflexivity. Qed.

(** *** Forgetting the texts *)

Definition forget {A} (x : told A) : outcome A :=
  match x with
  | Ok (inr a) => Ok a
  | Ok (inl (e, _)) => Stop (Throw e)
  | Stop s => Stop s
  end.
Definition quiet {A} (x : told A) : Prop := forall e, x <> Stop (Throw e).
Lemma forget_explained {A} f (x : outcome A) : forget (explained f x) = x.
Proof. destruct x as [a|[e| |]]; reflexivity. Qed.
Lemma quiet_explained {A} f (x : outcome A) : quiet (explained f x).
Proof. destruct x as [a|[e| |]]; intros y; discriminate. Qed.
Lemma forget_tbind {A B} (x : told A) (f : A -> told B) : forget (tbind x f) = bind (forget x) (fun a => forget (f a)).
Proof. destruct x as [[[e t]|a]|s]; reflexivity. Qed.
Lemma quiet_tbind {A B} (x : told A) (f : A -> told B) : quiet x -> (forall a, quiet (f a)) -> quiet (tbind x f).
Proof. intros Hx Hf. destruct x as [[[e t]|a]|s]; cbn [tbind]; [intros y; discriminate|apply Hf|intros y X; injection X as ->; exact (Hx y eq_refl)]. Qed.
Lemma quiet_Ok {A} (x : exn * text + A) : quiet (Ok x). Proof. intros e; discriminate. Qed.

Lemma forget_inputs lib w o lpath rpath : forget (inputs_told lib w o lpath rpath) =
  (l <- read_file w lpath ;;
   r <- read_file w rpath ;;
   lev <- number_or (width l) (o_levels o) ;;
   c <- number_or 1 (o_cleanness o) ;;
   s <- number_or 1 (o_smoothness o) ;;
   Ok (l, r, lev, c, s)).
Proof.
  unfold inputs_told. rewrite forget_tbind, forget_explained. destruct (read_file w lpath) as [l|]; [|reflexivity]. cbn [bind].
  rewrite forget_tbind, forget_explained. destruct (read_file w rpath) as [r|]; [|reflexivity]. cbn [bind].
  rewrite forget_tbind, forget_explained. destruct (number_or (width l) (o_levels o)) as [lev|]; [|reflexivity]. cbn [bind].
  rewrite forget_tbind, forget_explained. destruct (number_or 1 (o_cleanness o)) as [c|]; [|reflexivity]. cbn [bind].
  rewrite forget_tbind, forget_explained. destruct (number_or 1 (o_smoothness o)) as [s|]; reflexivity.
Qed.
Lemma quiet_inputs lib w o lpath rpath : quiet (inputs_told lib w o lpath rpath).
Proof. unfold inputs_told. repeat (apply quiet_tbind; [apply quiet_explained|intros ?]). apply quiet_Ok. Qed.
Lemma forget_mapped lib x : forget (mapped_told lib x) = mapped x.
Proof.
  unfold mapped_told, mapped. rewrite forget_tbind, forget_explained. destruct x as [[b cg]|]; [|reflexivity]. cbn [bind fst snd].
  destruct b; cbn [negb]; [|reflexivity]. rewrite forget_tbind, forget_explained. destruct (exec build_disparity_map cg) as [[i c]|]; reflexivity.
Qed.
Lemma quiet_mapped lib x : quiet (mapped_told lib x).
Proof.
  unfold mapped_told. apply quiet_tbind; [apply quiet_explained|]. intros [b cg]. cbn [fst snd].
  destruct (negb b); [apply quiet_Ok|]. apply quiet_tbind; [apply quiet_explained|]. intros a. apply quiet_Ok.
Qed.

Lemma map_told_forget lib pa v srt w o lpath rpath x : map_told lib pa v srt w o lpath rpath x ->
  quiet x /\ map_with pa v srt w o lpath rpath (forget x).
Proof.
  unfold map_told, map_with. rewrite <- (forget_inputs lib). pose proof (quiet_inputs lib w o lpath rpath) as Q.
  destruct (inputs_told lib w o lpath rpath) as [[[e t]|[[[[l r] lev] c] s]]|y]; cbn [forget].
  - intros ->. split; [apply quiet_Ok|reflexivity].
  - unfold solves_with. set (f := graph_what _ _ _ _ _ _).
    pose proof (quiet_explained f (prepared srt l r lev (@of_u cpu c) (of_u s))) as Q2.
    pose proof (forget_explained f (prepared srt l r lev (@of_u cpu c) (of_u s))) as E2. rewrite <- E2. rewrite E2 at 1.
    destruct (explained f _) as [[[e t]|cg]|y]; cbn [forget].
    + intros ->. split; [apply quiet_Ok|reflexivity].
    + intros [y [L ->]]. split; [apply quiet_mapped|]. exists y. split; [exact L|apply forget_mapped].
    + intros ->. split; [intros e X; injection X as ->; exact (Q2 e eq_refl)|reflexivity].
  - intros ->. split; [intros e X; injection X as ->; exact (Q e eq_refl)|reflexivity].
Qed.
Lemma map_told_some lib pa v srt w o lpath rpath y : map_with pa v srt w o lpath rpath y ->
  exists x, map_told lib pa v srt w o lpath rpath x /\ y = forget x.
Proof.
  unfold map_told, map_with. rewrite <- (forget_inputs lib).
  destruct (inputs_told lib w o lpath rpath) as [[[e t]|[[[[l r] lev] c] s]]|z]; cbn [forget].
  - intros ->. eexists. split; reflexivity.
  - unfold solves_with. set (f := graph_what _ _ _ _ _ _).
    rewrite <- (forget_explained f (prepared srt l r lev (@of_u cpu c) (of_u s))) at 1.
    destruct (explained f _) as [[[e t]|cg]|z]; cbn [forget].
    + intros ->. eexists. split; reflexivity.
    + intros [z [L ->]]. exists (mapped_told lib z). split; [exists z; split; [exact L|reflexivity]|symmetry; apply forget_mapped].
    + intros ->. exists (Stop z). split; reflexivity.
  - intros ->. exists (Stop z). split; reflexivity.
Qed.

Lemma begins_app t s : begins t (t ++ s). Proof. exists s. reflexivity. Qed.
Lemma begins_line t s : begins t (line (t ++ s)). Proof. exists (s ++ [newline]). unfold line. rewrite app_assoc. reflexivity. Qed.
Lemma finishes_reported lib a w out x : quiet x -> reported (finishes w out (forget x)) (finishes_told lib a w out x).
Proof.
  intros Q. unfold finishes, finishes_told.
  assert (E : (img <- forget x ;; (if writable w out then t <- write_image [] (Some img) ;; Ok (Some (out, t)) else Ok None)) =
     forget (img <+ x ;; (if writable w out then t <+ explained (library_what lib) (write_image [] (Some img)) ;; Ok (inr (Some (out, t))) else Ok (inr None)))).
  { rewrite forget_tbind. destruct (forget x) as [img|]; [|reflexivity]. cbn [bind]. destruct (writable w out); [|reflexivity].
    rewrite forget_tbind, forget_explained. destruct (write_image [] (Some img)); reflexivity. }
  rewrite E. clear E.
  set (m := img <+ x ;; _).
  assert (Qm : quiet m).
  { apply quiet_tbind; [exact Q|]. intros img. destruct (writable w out); [|apply quiet_Ok].
    apply quiet_tbind; [apply quiet_explained|]. intros t. apply quiet_Ok. }
  destruct m as [[[e t]|f]|[e| |]]; cbn [forget].
  - cbn [reported exit_status saved cerr ends status written_file printed]. split; [reflexivity|]. split; [reflexivity|].
    split; [|eexists; reflexivity]. destruct (is_invalid_argument e); apply begins_line.
  - cbn. auto.
  - destruct (Qm e eq_refl).
  - reflexivity.
  - reflexivity.
Qed.

(** The model with texts describes the same runs as the model without. *)
Lemma told_reported lib b v srt w p :
  (forall e, main_with b v srt w p e -> exists s, main_told lib b v srt w p s /\ reported e s) /\
  (forall s, main_told lib b v srt w p s -> exists e, main_with b v srt w p e /\ reported e s).
Proof.
  destruct p as [o| |]; cbn [main_with main_told].
  - destruct (o_output o) as [out|] eqn:E1, (o_left o) as [l|] eqn:E2, (o_right o) as [r|] eqn:E3;
      try (cbn [count N.eqb orb]; split; intros ? ->; eexists; (split; [reflexivity|]); cbn;
           (split; [reflexivity|]); (split; [reflexivity|]); (split; [eexists; reflexivity|]);
           match goal with |- exists t, ?x = _ => eexists (removelast x); reflexivity end).
    destruct (chosen b (o_parallel o)) as [pa|[e| |]] eqn:Ec.
    + split.
      * intros e [y [M ->]]. destruct (map_told_some lib _ _ _ _ _ _ _ _ M) as [x [T ->]].
        destruct (map_told_forget _ _ _ _ _ _ _ _ _ T) as [Q _].
        eexists. split; [exists x; split; [exact T|reflexivity]|]. apply finishes_reported. exact Q.
      * intros s [x [T ->]]. destruct (map_told_forget _ _ _ _ _ _ _ _ _ T) as [Q M].
        eexists. split; [exists (forget x); split; [exact M|reflexivity]|]. apply finishes_reported. exact Q.
    + split; intros ? ->; eexists; (split; [reflexivity|]); cbn [reported exit_status saved cerr ends status written_file printed];
        (split; [reflexivity|]); (split; [reflexivity|]);
        (split; [change (heading UnexpectedException) with (lit "Unexpected exception: ")|eexists; reflexivity]);
        unfold begins; eexists; reflexivity.
    + split; intros ? ->; eexists; split; reflexivity.
    + split; intros ? ->; eexists; split; reflexivity.
  - split; intros ? ->; eexists; (split; [reflexivity|]); cbn [reported exit_status saved cerr ends status written_file printed];
        (split; [reflexivity|]); (split; [reflexivity|]); (split; [apply begins_line|eexists; reflexivity]).
  - split; intros ? ->; eexists; (split; [reflexivity|]); cbn [reported exit_status saved cerr ends status written_file printed];
        (split; [reflexivity|]); (split; [reflexivity|]); (split; [apply begins_line|eexists; reflexivity]).
Qed.
