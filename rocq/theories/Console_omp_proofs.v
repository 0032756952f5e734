(** What the application built with OpenMP prints. *)
From Coq Require Import Lia String.
From Verif Require Import Device_main_proofs Omp_run_proofs.
From Verif Require Export Console_omp_spec.
From Verif Require Import App_proofs Console_text_proofs Console_more_proofs Console_proofs.
Local Open Scope N_scope.

(** *** The solver in two parts *)

Lemma then_assoc {A B C} (x : outcome A -> Prop) (f : A -> outcome B -> Prop) (k : B -> outcome C -> Prop) o :
  and_then (and_then x f) k o <-> and_then x (fun a => and_then (f a) k) o.
Proof.
  unfold and_then. split.
  - intros [[b [[[a [X F]]|[e [X Y]]] K]]|[e [[[a [X F]]|[e' [X Y]]] K]]].
    + left. exists a. split; [exact X|]. left. eauto.
    + discriminate.
    + left. exists a. split; [exact X|]. right. eauto.
    + right. injection Y as <-. eauto.
  - intros [[a [X [[b [F K]]|[e [F K]]]]]|[e [X K]]].
    + left. exists b. split; [|exact K]. left. eauto.
    + right. exists e. split; [|exact K]. left. eauto.
    + right. exists e. split; [|exact K]. right. eauto.
Qed.
Lemma then_iff {A B} (x : outcome A -> Prop) (f g : A -> outcome B -> Prop) o :
  (forall a o, f a o <-> g a o) -> and_then x f o <-> and_then x g o.
Proof. intros H. unfold and_then. split; (intros [[a [X F]]|E]; [left; exists a; split; [exact X|apply H; exact F]|right; exact E]). Qed.
Lemma then_does {A B} (x : outcome A) (f : A -> outcome B -> Prop) o :
  and_then (does x) f o <-> match x with Ok a => f a o | Stop e => o = Stop e end.
Proof.
  unfold and_then, does. destruct x as [a|e]; split.
  - intros [[b [X F]]|[e [X _]]]; [injection X as ->; exact F|discriminate].
  - intros F. left. eauto.
  - intros [[b [X _]]|[e' [X F]]]; [discriminate|injection X as ->; exact F].
  - intros F. right. eauto.
Qed.

Lemma finish_split v cg o :
  (r <~ find_labeling_omp v cg ;;
   if negb (fst r) then does (Stop (Throw CannotLabel)) else
   r <~ does (exec build_disparity_map (snd r)) ;; does (Ok (fst r))) o <->
  exists z, find_labeling_omp v cg z /\ o = mapped z.
Proof.
  unfold and_then at 1. split.
  - intros [[[b cg'] [X F]]|[e [X ->]]].
    + exists (Ok (b, cg')). split; [exact X|]. cbn [mapped bind fst snd]. revert F. cbn [fst snd].
      destruct (negb b); [intros F; exact F|]. rewrite then_does. destruct (exec build_disparity_map cg') as [[i c]|e]; intros F; exact F.
    + exists (Stop e). split; [exact X|reflexivity].
  - intros [[[b cg']|e] [X ->]].
    + left. exists (b, cg'). split; [exact X|]. cbn [mapped bind fst snd].
      destruct (negb b); [reflexivity|]. rewrite then_does. destruct (exec build_disparity_map cg') as [[i c]|e]; reflexivity.
    + right. exists e. split; [exact X|reflexivity].
Qed.

Lemma solve_split v srt l r lev (c s : F cpu) o : solve_problem_omp v srt l r lev c s o <->
  exists y, prepared_omp v srt l r lev c s y /\
    match y with Ok cg => exists z, find_labeling_omp v cg z /\ o = mapped z | Stop e => o = Stop e end.
Proof.
  transitivity (and_then (prepared_omp v srt l r lev c s) (fun cg o => exists z, find_labeling_omp v cg z /\ o = mapped z) o).
  2: { unfold and_then. split.
    - intros [[cg [X F]]|[e [X F]]]; eexists; (split; [exact X|exact F]).
    - intros [[cg|e] [X F]]; [left|right]; eexists; (split; [exact X|exact F]). }
  unfold solve_problem_omp, prepared_omp.
  rewrite then_assoc. apply then_iff. intros g o1. rewrite then_assoc. apply then_iff. intros lp o2.
  rewrite then_assoc. apply then_iff. intros cands o3. rewrite then_assoc. apply then_iff. intros t o4.
  rewrite then_assoc. apply then_iff. intros cg o5. rewrite then_assoc. apply then_iff. intros [b cg'] o6. cbn [fst snd].
  destruct (negb b); rewrite then_does; [reflexivity|]. apply finish_split.
Qed.

Lemma map_omp_iff v srt w o lpath rpath x : map_omp v srt w o lpath rpath x <->
  match
    l <- read_file w lpath ;;
    r <- read_file w rpath ;;
    lev <- number_or (width l) (o_levels o) ;;
    c <- number_or 1 (o_cleanness o) ;;
    s <- number_or 1 (o_smoothness o) ;;
    Ok (l, r, lev, c, s)
  with
  | Stop e => x = Stop e
  | Ok (l, r, lev, c, s) => solve_problem_omp v srt l r lev (of_u c) (of_u s) x
  end.
Proof.
  unfold map_omp. rewrite then_does. destruct (read_file w lpath) as [l|e]; [|reflexivity]. cbn [bind].
  rewrite then_does. destruct (read_file w rpath) as [r|e]; [|reflexivity]. cbn [bind].
  rewrite then_does. destruct (number_or (width l) (o_levels o)) as [lev|e]; [|reflexivity]. cbn [bind].
  rewrite then_does. destruct (number_or 1 (o_cleanness o)) as [c|e]; [|reflexivity]. cbn [bind].
  rewrite then_does. destruct (number_or 1 (o_smoothness o)) as [s|e]; reflexivity.
Qed.

(** *** Forgetting the texts *)

Lemma omp_told_forget lib v srt w o lpath rpath x : map_told_omp lib v srt w o lpath rpath x ->
  quiet x /\ map_omp v srt w o lpath rpath (forget x).
Proof.
  rewrite map_omp_iff. unfold map_told_omp. rewrite <- (forget_inputs lib). pose proof (quiet_inputs lib w o lpath rpath) as Q.
  destruct (inputs_told lib w o lpath rpath) as [[[e t]|[[[[l r] lev] c] s]]|y]; cbn [forget].
  - intros ->. split; [apply quiet_Ok|reflexivity].
  - intros [y [P H]]. rewrite solve_split. revert H. set (f := graph_what _ _ _ _ _ _).
    pose proof (quiet_explained f y) as Q2. destruct y as [cg|[e| |]]; cbn [explained] in *.
    + intros [z [L ->]]. split; [apply quiet_mapped|]. exists (Ok cg). split; [exact P|]. exists z. split; [exact L|apply forget_mapped].
    + intros ->. split; [apply quiet_Ok|]. exists (Stop (Throw e)). split; [exact P|reflexivity].
    + intros ->. split; [intros e; discriminate|]. eexists. split; [exact P|reflexivity].
    + intros ->. split; [intros e; discriminate|]. eexists. split; [exact P|reflexivity].
  - intros ->. split; [intros e X; injection X as ->; exact (Q e eq_refl)|reflexivity].
Qed.
Lemma omp_told_some lib v srt w o lpath rpath y : map_omp v srt w o lpath rpath y ->
  exists x, map_told_omp lib v srt w o lpath rpath x /\ y = forget x.
Proof.
  rewrite map_omp_iff. unfold map_told_omp. rewrite <- (forget_inputs lib).
  destruct (inputs_told lib w o lpath rpath) as [[[e t]|[[[[l r] lev] c] s]]|z]; cbn [forget].
  - intros ->. eexists. split; reflexivity.
  - rewrite solve_split. set (f := graph_what _ _ _ _ _ _). intros [u [P H]]. destruct u as [cg|[e| |]].
    + destruct H as [z [L ->]]. exists (mapped_told lib z). split; [|symmetry; apply forget_mapped].
      exists (Ok cg). split; [exact P|]. cbn [explained]. exists z. split; [exact L|reflexivity].
    + subst y. exists (Ok (inl (e, f e))). split; [|reflexivity]. eexists. split; [exact P|reflexivity].
    + subst y. exists (Stop Undef). split; [|reflexivity]. eexists. split; [exact P|reflexivity].
    + subst y. exists (Stop Diverge). split; [|reflexivity]. eexists. split; [exact P|reflexivity].
  - intros ->. exists (Stop z). split; reflexivity.
Qed.

Lemma omp_reported lib v srt w p :
  (forall e, main_omp v srt w p e -> exists s, main_told_omp lib v srt w p s /\ reported e s) /\
  (forall s, main_told_omp lib v srt w p s -> exists e, main_omp v srt w p e /\ reported e s).
Proof.
  destruct p as [o| |]; cbn [main_omp main_told_omp].
  - destruct (o_output o) as [out|] eqn:E1, (o_left o) as [l|] eqn:E2, (o_right o) as [r|] eqn:E3;
      try (cbn [count N.eqb orb]; split; intros ? ->; eexists; (split; [reflexivity|]); cbn;
           (split; [reflexivity|]); (split; [reflexivity|]); (split; [eexists; reflexivity|]);
           match goal with |- exists t, ?x = _ => eexists (removelast x); reflexivity end).
    destruct (check_parallel (o_parallel o)) as [pa|[e| |]] eqn:Ec.
    + split.
      * intros e [y [M ->]]. destruct (omp_told_some lib _ _ _ _ _ _ _ M) as [x [T ->]].
        destruct (omp_told_forget _ _ _ _ _ _ _ _ T) as [Q _].
        eexists. split; [exists x; split; [exact T|reflexivity]|]. apply finishes_reported. exact Q.
      * intros s [x [T ->]]. destruct (omp_told_forget _ _ _ _ _ _ _ _ T) as [Q M].
        eexists. split; [exists (forget x); split; [exact M|reflexivity]|]. apply finishes_reported. exact Q.
    + split; intros ? ->; eexists; (split; [reflexivity|]); cbn [reported exit_status saved cerr ends status written_file printed];
        (split; [reflexivity|]); (split; [reflexivity|]);
        (split; [change (heading UnexpectedException) with (lit "Unexpected exception: ")|eexists; reflexivity]);
        unfold begins; eexists; reflexivity.
    + split; intros ? ->; eexists; split; reflexivity.
    + split; intros ? ->; eexists; split; reflexivity.
  - split; intros ? ->; eexists; (split; [reflexivity|]); cbn [reported exit_status saved cerr ends status written_file printed];
        (split; [reflexivity|]); (split; [reflexivity|]); (split; [apply begins_line|eexists; reflexivity]).
  - split; intros ? ->; eexists; (split; [reflexivity|]); cbn [reported exit_status saved cerr ends status written_file printed];
        (split; [reflexivity|]); (split; [reflexivity|]); (split; [apply begins_line|eexists; reflexivity]).
Qed.

(** *** Without an accepted problem *)

Lemma chosen_plain t : chosen no_devices t = match check_parallel t with Ok _ => Ok OnCpu | Stop x => Stop x end.
Proof. unfold chosen, check_parallel. destruct t as [t|]; [|reflexivity]. cbn [use_opencl use_cuda andb no_devices]. destruct (_ || _); reflexivity. Qed.

Lemma early_gen lib v d srt w p s :
  (forall o lpath rpath out l r lev c sm g, p = Parsed o -> all_paths o lpath rpath out ->
     inputs_told lib w o lpath rpath = Ok (inr (l, r, lev, c, sm)) -> make_graph l r lev (@of_u cpu c) (of_u sm) <> Ok g) ->
  main_told_omp lib v srt w p s <-> main_told lib no_devices d srt w p s.
Proof.
  intros N. destruct p as [o| |]; [|reflexivity..]. unfold main_told_omp, main_told. cbv zeta.
  destruct (o_output o) as [out|] eqn:E1, (o_left o) as [lpath|] eqn:E2, (o_right o) as [rpath|] eqn:E3; try reflexivity.
  rewrite chosen_plain. destruct (check_parallel (o_parallel o)) as [u|[y| |]]; try reflexivity.
  specialize (N o lpath rpath out).
  assert (M : forall x, map_told_omp lib v srt w o lpath rpath x <-> map_told lib OnCpu d srt w o lpath rpath x).
  { intros x. unfold map_told_omp, map_told.
    destruct (inputs_told lib w o lpath rpath) as [[[e t]|[[[[l r] lev] c] sm]]|y]; try reflexivity.
    destruct (make_graph l r lev (@of_u cpu c) (of_u sm)) as [g|e] eqn:Eg.
    - exfalso. exact (N l r lev c sm g eq_refl (conj E2 (conj E3 E1)) eq_refl Eg).
    - unfold prepared. rewrite Eg. cbn [bind]. unfold prepared_omp. split.
      + intros [y [P H]]. apply then_does in P. rewrite Eg in P. subst y. destruct e; exact H.
      + intros H. exists (Stop e). split; [apply then_does; rewrite Eg; reflexivity|destruct e; exact H]. }
  split; intros [x [H ->]]; exists x; (split; [apply M; exact H|reflexivity]).
Qed.
Lemma told_early lib v d srt w p s : ~ accepted_problem w p -> main_told_omp lib v srt w p s <-> main_told lib no_devices d srt w p s.
Proof.
  intros N. apply early_gen. intros o lpath rpath out l r lev c sm g -> Hp I Eg. apply N.
  pose proof (forget_inputs lib w o lpath rpath) as F. rewrite I in F. cbn [forget] in F. symmetry in F.
  destruct (read_file w lpath) as [il|] eqn:El; cbn [bind] in F; [|discriminate].
  destruct (read_file w rpath) as [ir|] eqn:Er; cbn [bind] in F; [|discriminate].
  destruct (number_or (width il) (o_levels o)) as [lv|] eqn:Elev; cbn [bind] in F; [|discriminate].
  destruct (number_or 1 (o_cleanness o)) as [cc|] eqn:Ec; cbn [bind] in F; [|discriminate].
  destruct (number_or 1 (o_smoothness o)) as [ss|] eqn:Es; cbn [bind] in F; [|discriminate].
  injection F as -> -> -> -> ->.
  apply read_held in El. apply read_held in Er. apply number_value in Elev. apply number_value in Ec. apply number_value in Es.
  exists o, lpath, rpath, out, l, r, lev, c, sm, g. auto 12.
Qed.

Lemma paths_same o l r out l' r' out' : all_paths o l r out -> all_paths o l' r' out' -> l = l' /\ r = r' /\ out = out'.
Proof. intros [A [B C]] [A' [B' C']]. repeat split; congruence. Qed.
Lemma asks_plain b t : asks_for b t OnCpu -> asks_for no_devices t OnCpu.
Proof. destruct t as [t|]; [|auto]. cbn [asks_for supported]. auto. Qed.

Lemma omp_files lib v srt w o lpath rpath out : all_paths o lpath rpath out -> asks_for no_devices (o_parallel o) OnCpu ->
  (forall path, first_input w lpath rpath path (fun path => files w path = None) ->
   forall s, main_told_omp lib v srt w (Parsed o) s <->
     s = Ok {| exit_status := 0; cout := technology_line (o_parallel o) OnCpu; saved := None;
               cerr := lit "Invalid argument: " ++ (lit "Unable to open file `" ++ path ++ lit "`.") ++ [newline] |}) /\
  (forall path, first_input w lpath rpath path (broken_file w) ->
   forall s, main_told_omp lib v srt w (Parsed o) s <->
     s = Ok {| exit_status := 0; cout := technology_line (o_parallel o) OnCpu; saved := None;
               cerr := lit "Invalid argument: " ++ (lit "File `" ++ path ++ lit "` is not a correct plain PGM image.") ++ [newline] |}).
Proof.
  intros Hp A. set (d := {| b_sc := true; b_kind := Strict; b_partition := fun _ => True |}).
  destruct (told_files lib no_devices d srt w o lpath rpath out Hp OnCpu A) as [T1 T2].
  assert (G : forall path x, first_input w lpath rpath path (fun path => read_file w path = Stop (Throw x)) ->
    forall s, main_told_omp lib v srt w (Parsed o) s <-> main_told lib no_devices d srt w (Parsed o) s).
  { intros path x H s. apply early_gen. intros o' l' r' out' l r lev c sm g X Hp' I. injection X as <-.
    destruct (paths_same _ _ _ _ _ _ _ Hp Hp') as [<- [<- <-]]. exfalso. revert I. unfold inputs_told.
    destruct H as [[_ E]|[[il [Hl Sl]] [-> E]]].
    - destruct Hp as [_ _]. rewrite E. discriminate.
    - rewrite (held_read w lpath il Hl) by (unfold vector_max_size; lia). cbn [explained tbind]. rewrite E. discriminate. }
  split; intros path H s.
  - rewrite (G path CannotOpen); [exact (T1 path H s)|]. destruct H as [[-> H]|[Hl [-> H]]]; [left|right]; auto using read_missing.
  - rewrite (G path NotPgm); [exact (T2 path H s)|].
    destruct H as [[-> [t [ts [E [L D]]]]]|[Hl [-> [t [ts [E [L D]]]]]]]; [left|right]; eauto using read_broken.
Qed.

Lemma unsuitable_early lib v d srt w o k l r lev s : unsuitable no_devices w o k l r lev ->
  main_told_omp lib v srt w (Parsed o) s <-> main_told lib no_devices d srt w (Parsed o) s.
Proof.
  intros [[lpath [El Hl]] [rpath [Er Hr]] Eo [pa A] [Sl Sr] Nl [c [sm [Nc [Ns V]]]]].
  apply early_gen. intros o' l' r' out' il ir lv c' s' g X [E1 [E2 E3]] I G. injection X as <-.
  assert (l' = lpath) by congruence. assert (r' = rpath) by congruence. subst l' r'.
  revert I. unfold inputs_told.
  rewrite (held_read w lpath l Hl) by (unfold vector_max_size; lia). cbn [explained tbind].
  rewrite (held_read w rpath r Hr) by (unfold vector_max_size; lia). cbn [explained tbind].
  rewrite (proj2 (number_value _ _ _) Nl). cbn [explained tbind]. rewrite (proj2 (number_value _ _ _) Nc). cbn [explained tbind].
  rewrite (proj2 (number_value _ _ _) Ns). cbn [explained tbind]. intros I. injection I as <- <- <- <- <-.
  pose proof (first_stops l r lev (@of_u cpu c) (of_u sm) k ltac:(discriminate) (held_consistent _ _ _ Hl) (held_consistent _ _ _ Hr) Sl Sr V). congruence.
Qed.
Definition any_device : behaviour := {| b_sc := true; b_kind := Strict; b_partition := fun _ => True |}.
Lemma omp_requirement lib v srt w o k l r lev s : unsuitable no_devices w o k l r lev -> main_told_omp lib v srt w (Parsed o) s ->
  exists u, s = Ok u /\ exit_status u = 0 /\ cout u = technology_line (o_parallel o) OnCpu /\ saved u = None /\
    begins (lit "Invalid argument: ") (cerr u) /\
    mentions (subject k) (cerr u) /\ (k < 7 -> shows (figures k l r lev) (cerr u)).
Proof.
  intros U M. apply (unsuitable_early lib v any_device srt w o k l r lev s U) in M.
  destruct (requirement_told lib no_devices any_device srt w o k l r lev s U M) as [pa [u [A H]]].
  assert (pa = OnCpu). { destruct pa as [|a]; [reflexivity|]. destruct (o_parallel o); [destruct A as [A _]; destruct a; discriminate|exact A]. }
  subst pa. exists u. exact H.
Qed.
Lemma omp_identified lib v srt w o k l r lev s v' srt' w' o' k' l' r' lev' s' :
  unsuitable no_devices w o k l r lev -> main_told_omp lib v srt w (Parsed o) (Ok s) ->
  unsuitable no_devices w' o' k' l' r' lev' -> main_told_omp lib v' srt' w' (Parsed o') (Ok s') ->
  cerr s = cerr s' -> k = k' /\ figures k l r lev = figures k' l' r' lev'.
Proof.
  intros U M U' M'. apply (unsuitable_early lib v any_device srt w o k l r lev _ U) in M.
  apply (unsuitable_early lib v' any_device srt' w' o' k' l' r' lev' _ U') in M'.
  exact (requirement_identified lib _ _ _ _ _ _ _ _ _ _ _ _ _ _ _ _ _ _ _ _ U M U' M').
Qed.

(** *** The technology *)

Lemma omp_technology lib v srt w o lpath rpath out :
  all_paths o lpath rpath out -> asks_for no_devices (o_parallel o) OnCpu ->
  (forall e, main_omp v srt w (Parsed o) e <-> exists x, map_omp v srt w o lpath rpath x /\ e = finishes w out x) /\
  (forall u, main_told_omp lib v srt w (Parsed o) (Ok u) -> cout u = technology_line (o_parallel o) OnCpu).
Proof.
  intros [E1 [E2 E3]] A. apply chosen_asks in A. rewrite chosen_plain in A. cbn [main_omp main_told_omp]. rewrite E1, E2, E3.
  destruct (check_parallel (o_parallel o)) as [u|x]; [|discriminate]. split; [reflexivity|].
  intros y [x [_ E]]. rewrite <- announced_line. revert E. unfold finishes_told.
  destruct (tbind x _) as [[[e t]|f]|z]; intros X; try discriminate X; injection X as ->; reflexivity.
Qed.
Lemma omp_unknown lib v srt w o lpath rpath out :
  all_paths o lpath rpath out -> ~ asks_for no_devices (o_parallel o) OnCpu -> exists t, o_parallel o = Some t /\
  forall s, main_told_omp lib v srt w (Parsed o) s <->
    s = Ok {| exit_status := 1; cout := []; saved := None;
              cerr := lit "Unexpected exception: `parallel` cannot be " ++ t ++ lit "." ++ [newline] |}.
Proof.
  intros [E1 [E2 E3]] N. destruct (o_parallel o) as [t|] eqn:Et; [|destruct (N eq_refl)].
  exists t. split; [reflexivity|]. cbn [main_told_omp]. rewrite E1, E2, E3, Et.
  destruct (chosen_cases no_devices (Some t)) as [[pa C]|C].
  - exfalso. rewrite chosen_plain in C. apply N. apply chosen_asks. rewrite chosen_plain. destruct (check_parallel (Some t)); [reflexivity|discriminate].
  - rewrite chosen_plain in C. destruct (check_parallel (Some t)) as [u|x]; [discriminate|]. injection C as ->.
    intros s. unfold line. rewrite <- !app_assoc. reflexivity.
Qed.

(** *** Lines *)

Section Lines.
Variable lib : library.
Hypothesis HL : plain_library lib.

Lemma clean_omp v srt w o lpath rpath x : nl lpath -> nl rpath -> map_told_omp lib v srt w o lpath rpath x -> clean x.
Proof.
  intros Hl Hr. unfold map_told_omp.
  assert (C1 : clean (inputs_told lib w o lpath rpath)).
  { unfold inputs_told. do 2 (apply clean_tbind; [apply clean_explained; intros e; apply nl_read; assumption|intros ?]).
    do 3 (apply clean_tbind; [apply clean_explained, nl_library; exact HL|intros ?]). apply clean_value. }
  destruct (inputs_told lib w o lpath rpath) as [[[e t]|[[[[l r] lev] c] s]]|y].
  - intros ->. intros e' t' X. injection X as -> ->. exact (C1 e' t' eq_refl).
  - set (f := graph_what _ _ _ _ _ _). intros [y [_ H]]. revert H.
    assert (C2 : clean (explained f y)) by (apply clean_explained; intros e; apply nl_graph; exact HL).
    destruct (explained f _) as [[[e t]|cg]|z].
    + intros ->. intros e' t' X. injection X as -> ->. exact (C2 e' t' eq_refl).
    + intros [z [_ ->]]. unfold mapped_told. apply clean_tbind; [apply clean_explained, nl_library; exact HL|]. intros [k cg']. cbn [fst snd].
      destruct (negb k).
      * intros e t X. injection X as _ <-. literal.
      * apply clean_tbind; [apply clean_explained; intros e; apply nl_label; exact HL|]. intros a. apply clean_value.
    + intros ->. intros e t X. discriminate.
  - intros ->. intros e t X. discriminate.
Qed.

Lemma omp_lines v srt w p s :
  (forall o, p = Parsed o -> plain_option (o_left o) /\ plain_option (o_right o) /\ plain_option (o_parallel o)) ->
  main_told_omp lib v srt w p (Ok s) ->
  (cerr s = [] \/ one_line (cerr s)) /\ (cout s = [] \/ one_line (cout s)).
Proof.
  intros P. pose proof HL as [HB _]. destruct p as [o| |]; cbn [main_told_omp].
  - destruct (P o eq_refl) as [Pl [Pr Pp]]. clear P.
    destruct (o_output o) as [out|] eqn:E1, (o_left o) as [l|] eqn:E2, (o_right o) as [r|] eqn:E3;
      try (cbn [count N.eqb orb]; intros X; injection X as ->; split; [right; apply line_one; literal|left; reflexivity]).
    destruct (check_parallel (o_parallel o)) as [pa|[e| |]] eqn:Ec; [| |discriminate|discriminate].
    + intros [x [M E]]. pose proof (clean_omp _ _ _ _ _ _ _ (Pl l eq_refl) (Pr r eq_refl) M) as Cx.
      revert E. unfold finishes_told. set (m := img <+ x ;; _).
      assert (Cm : clean m).
      { apply clean_tbind; [exact Cx|]. intros img. destruct (writable w out); [|apply clean_value].
        apply clean_tbind; [apply clean_explained, nl_library; exact HL|]. intros t. apply clean_value. }
      assert (Ca : announced (o_parallel o) OnCpu = [] \/ one_line (announced (o_parallel o) OnCpu)).
      { unfold announced. destruct (o_parallel o); [|left; reflexivity]. right. apply line_one. literal. }
      destruct m as [[[e t]|f]|y]; intros X; try discriminate X; injection X as ->; cbn [cerr cout].
      * split; [right|exact Ca]. apply line_one. apply nl_app; [destruct (is_invalid_argument e); literal|exact (Cm e t eq_refl)].
      * split; [left; reflexivity|exact Ca].
    + intros X. apply (f_equal (fun x => match x with Ok u => u | Stop _ => s end)) in X. subst s. cbn [cerr cout].
      split; [right; apply line_one|left; reflexivity].
      apply nl_app; [literal|]. apply nl_app; [|literal]. destruct (o_parallel o) as [t|]; [exact (Pp t eq_refl)|intros []].
  - intros X. apply (f_equal (fun x => match x with Ok u => u | Stop _ => s end)) in X. subst s. cbn [cerr cout].
    split; [right; apply line_one; apply nl_app; [literal|exact HB]|left; reflexivity].
  - intros X. apply (f_equal (fun x => match x with Ok u => u | Stop _ => s end)) in X. subst s. cbn [cerr cout].
    split; [right; apply line_one; apply nl_app; [literal|exact HB]|left; reflexivity].
Qed.
End Lines.

(** *** Which messages appear *)

Lemma omp_appear v srt w p e m : sorts srt -> usable_files w -> team_ok v -> main_omp v srt w p (Ok e) -> printed e = Some m -> may_appear m.
Proof.
  intros Hs U Hv R Pm.
  assert (Other : Ok e = main srt w p -> may_appear m).
  { intros E. left. exact (messages_appear srt w p e m Hs U (eq_sym E) Pm). }
  destruct p as [o| |]; [|apply Other; exact R..].
  destruct (options_cases o) as [H|[H|H]].
  - apply Other. apply (main_omp_other v srt w (Parsed o)); [|exact R]. intros o' l r out X Hp. injection X as <-.
    destruct Hp as [E1 [E2 E3]]. exfalso. destruct H; congruence.
  - apply Other. apply (main_omp_other v srt w (Parsed o)); [|exact R]. intros o' l r out X Hp. injection X as <-.
    destruct Hp as [E1 [E2 E3]]. destruct H as [a [b [_ [_ H]]]]. congruence.
  - destruct H as [l [r [out Hp]]]. destruct (technology_dec o) as [Ht|Ht].
    + destruct (omp_reports v srt w o l r out (Ok e) Hs U Hv Hp Ht R) as [[y [E D]]|[img [txt [_ [_ E]]]]]; [|injection E as ->; discriminate Pm].
      injection E as ->. cbn [ends printed] in Pm. injection Pm as <-.
      destruct D as [M|[->|[->|[-> _]]]]; [left|right; left; reflexivity|left; cbn; auto|right; right; reflexivity].
      exact (messages_appear srt w (Parsed o) _ _ Hs U M eq_refl).
    + apply Other. apply (main_omp_other v srt w (Parsed o)); [|exact R]. intros o' l' r' out' X _. injection X as <-. exact Ht.
Qed.
