(** Runs of the OpenMP build behind the examples and refutations. *)
From Coq Require Import String Lia.
From Verif Require Export Omp_run_proofs Schedule Main_witness.
Local Open Scope N_scope.

(** *** Runs that can be computed: [first] solves while the threshold is searched,
    [later] afterwards *)

Section Order.
Context {T : target} (first later : cgraph T -> outcome (bool * cgraph T)).

Fixpoint search_order (g : dgraph T) (lp : lowest T) (l : list (F T)) (fuel : nat) (start stop : N) : outcome (F T) :=
  match fuel with
  | O => Stop Diverge
  | S f =>
      let current := uadd T start stop / 2 in
      if start <? stop then
        t <- get l current ;;
        cg <- make_constraint g lp t ;;
        r <- first cg ;;
        if fst r then search_order g lp l f start current else search_order g lp l f (uadd T current 1) stop
      else get l current
  end.
Fixpoint label_order (l : list pixel) (cg : cgraph T) : outcome (bool * cgraph T) :=
  match l with
  | [] => Ok (true, cg)
  | p :: r =>
      x <- exec (fun cg => choose_best_node cg p) cg ;;
      if negb (fst x) then Ok (false, snd x) else
      y <- later (snd x) ;;
      if negb (fst y) then Ok (false, snd y) else label_order r (snd y)
  end.
Definition solve_order (srt : list (F T) -> list (F T)) (l r : image) (lev : N) (c s : F T) : outcome image :=
  g <- make_graph l r lev c s ;;
  lp <- make_lowest g ;;
  cands <- fetch_available_penalties srt lp ;;
  t <- search_order g lp cands (S (List.length cands)) 0 (usub T (len cands) 1) ;;
  cg <- make_constraint g lp t ;;
  r <- later cg ;;
  if negb (fst r) then Stop (Throw CannotSolve) else
  r <- label_order (column_order (cg_graph (snd r))) (snd r) ;;
  if negb (fst r) then Stop (Throw CannotLabel) else
  r <- exec build_disparity_map (snd r) ;;
  Ok (fst r).

(** A run is computed, or the computation gave up. *)
Definition may {A} (x : outcome A -> Prop) (y : outcome A) : Prop := y = Stop Diverge \/ x y.

Lemma may_does {A} (y : outcome A) : may (does y) y.
Proof. right. reflexivity. Qed.
Lemma may_then {A B} (x : outcome A -> Prop) y (f : A -> outcome B -> Prop) h : may x y ->
  (forall a, may (f a) (h a)) -> may (and_then x f) (bind y h).
Proof.
  intros [->|X] H; [left; reflexivity|]. destruct y as [a|e]; cbn [bind].
  - destruct (H a) as [E|E]; [left; exact E|right]. left. exists a. auto.
  - right. right. exists e. auto.
Qed.

Context (v : team).
Hypotheses (Hfirst : forall cg, may (csp_omp v cg) (first cg)) (Hlater : forall cg, may (csp_omp v cg) (later cg)).

Lemma may_search g lp l fuel : forall start stop, may (search_omp v g lp l fuel start stop) (search_order g lp l fuel start stop).
Proof.
  induction fuel as [|f IH]; intros start stop; cbn [search_omp search_order]; [apply may_does|].
  destruct (start <? stop); [|apply may_does]. apply may_then; [apply may_does|]. intros t.
  apply may_then; [apply may_does|]. intros cg. apply may_then; [apply Hfirst|]. intros r. destruct (fst r); apply IH.
Qed.
Lemma may_label l : forall cg, may (label_omp v l cg) (label_order l cg).
Proof.
  induction l as [|p l IH]; intros cg; cbn [label_omp label_order]; [apply may_does|].
  apply may_then; [apply may_does|]. intros x. destruct (negb (fst x)); [apply may_does|].
  apply may_then; [apply Hlater|]. intros y. destruct (negb (fst y)); [apply may_does|apply IH].
Qed.
Lemma may_solve srt l r lev c s : may (solve_problem_omp v srt l r lev c s) (solve_order srt l r lev c s).
Proof.
  unfold solve_problem_omp, solve_order. apply may_then; [apply may_does|]. intros g. apply may_then; [apply may_does|]. intros lp.
  apply may_then; [apply may_does|]. intros cands. apply may_then; [apply may_search|]. intros t.
  apply may_then; [apply may_does|]. intros cg. apply may_then; [apply Hlater|]. intros x. destruct (negb (fst x)); [apply may_does|].
  apply may_then; [apply may_label|]. intros y. destruct (negb (fst y)); [apply may_does|].
  apply may_then; [apply may_does|]. intros z. apply may_does.
Qed.
End Order.

Section App.
Context (first later : cgraph cpu -> outcome (bool * cgraph cpu)).
Definition map_order (srt : list (F cpu) -> list (F cpu)) (w : world) (o : options) (left_path right_path : text) : outcome image :=
  l <- read_file w left_path ;;
  r <- read_file w right_path ;;
  lev <- number_or (width l) (o_levels o) ;;
  c <- number_or 1 (o_cleanness o) ;;
  s <- number_or 1 (o_smoothness o) ;;
  solve_order first later srt l r lev (of_u c) (of_u s).

Context (v : team).
Hypotheses (Hfirst : forall cg, may (csp_omp v cg) (first cg)) (Hlater : forall cg, may (csp_omp v cg) (later cg)).
Lemma may_map srt w o l r : may (map_omp v srt w o l r) (map_order srt w o l r).
Proof.
  unfold map_omp, map_order. do 5 (apply may_then; [apply may_does|]; intros ?). apply may_solve; assumption.
Qed.
Lemma order_run srt w o l r out e : all_paths o l r out -> technology_ok o ->
  finishes w out (map_order srt w o l r) = Ok e -> main_omp v srt w (Parsed o) (Ok e).
Proof.
  intros [E1 [E2 E3]] Ht E. unfold main_omp. rewrite E1, E2, E3.
  destruct (parallel_cases o) as [[_ Ep]|[X _]]; [|contradiction]. rewrite Ep.
  exists (map_order srt w o l r). split; [|symmetry; exact E].
  destruct (may_map srt w o l r) as [X|X]; [|exact X]. rewrite X in E. discriminate.
Qed.
End App.

(** Jobs one after another. *)
Section Schedules.
Context {T : target} (bound jobs : N).
Definition in_turn (rounds : nat) (cg : cgraph T) : outcome (bool * cgraph T) :=
  match exec (solve_csp_fuel rounds bound jobs) cg with Ok r => Ok r | Stop _ => Stop Diverge end.
Lemma may_in_turn v rounds cg : t_size v bound jobs -> may (csp_omp v cg) (in_turn rounds cg).
Proof.
  intros B. unfold in_turn. destruct (exec (solve_csp_fuel rounds bound jobs) cg) as [r|] eqn:E; [|left; reflexivity].
  right. eapply csp_possible; eassumption.
Qed.

(** A schedule for every round. *)
Fixpoint rounds_by (wb : N) (sch : list nat) (rounds : nat) (cg : cgraph T) (m : mem) : option mem :=
  match rounds with
  | O => None
  | S f => match round_by cg wb bound jobs sch m with
           | Some (true, m1) => rounds_by wb sch f cg m1
           | Some (false, m1) => Some m1
           | None => None
           end
  end.
Definition by_schedule (wb : N) (sch : list nat) (rounds : nat) (cg : cgraph T) : outcome (bool * cgraph T) :=
  match rounds_by wb sch rounds cg (cg_avail cg) with
  | Some m => exec check_nodes_left (with_avail cg m)
  | None => Stop Diverge
  end.
Lemma may_by_schedule v wb sch rounds cg : t_sc v = true -> t_word v = wb -> t_size v bound jobs ->
  may (csp_omp v cg) (by_schedule wb sch rounds cg).
Proof.
  intros Es Ew B. unfold by_schedule. destruct (rounds_by wb sch rounds cg (cg_avail cg)) as [m|] eqn:E; [|left; reflexivity].
  right. left. exists m. split; [|reflexivity]. revert E. generalize (cg_avail cg). induction rounds as [|f IH]; intros m0; cbn [rounds_by]; [discriminate|].
  destruct (round_by cg wb bound jobs sch m0) as [[[|] m1]|] eqn:R; [| |discriminate]; apply round_by_round in R.
  - intros E. eapply omp_more; [exact B|rewrite Es, Ew; exact R|]. apply IH. exact E.
  - intros E. injection E as <-. eapply omp_last; [exact B|rewrite Es, Ew; exact R].
Qed.
End Schedules.

(** *** Two threads, the loop bound taken from a team of one *)

Definition gcc_team : team := {| t_sc := true; t_word := 1; t_size := fun bound jobs => bound = 1 /\ jobs = 2 |}.
Definition two_team : team := {| t_sc := true; t_word := 64; t_size := fun bound jobs => bound = 2 /\ jobs = 2 |}.
Lemma gcc_ok : team_ok gcc_team. Proof. intros bound jobs [_ ->]. lia. Qed.
Lemma two_orderly : orderly_team two_team. Proof. split; [reflexivity|]. intros bound jobs [-> ->]. lia. Qed.

Definition reversed : list nat := first_then 1 0.

Definition text77l : text := lit "P2 3 2 10 0 0 0 0 7 5".
Definition text77r : text := lit "P2 3 2 10 0 0 0 5 7 9".
Definition w77 : world := world_of [(lit "l.pgm", text77l); (lit "r.pgm", text77r)].
Definition o77 : options := run_options (Some out_path) (Some (lit "3")) (Some (lit "1")) (Some (lit "0")).
Definition map77 : image := {| width := 3; height := 2; max_value := 3; data := [0; 0; 0; 2; 0; 0] |}.
Definition written77 : text := lit "P2" ++ [newline] ++ lit "3 2" ++ [newline] ++ lit "3" ++ [newline] ++ lit "0 0 0" ++ [newline] ++ lit "2 0 0" ++ [newline].
Definition g77 : dgraph cpu := problem 3 2 3 [0; 0; 0; 0; 7; 5] [0; 0; 0; 5; 7; 9] 1 0.

Lemma tokens77l : exists ts, laid_out ts text77l /\ image_tokens (left g77) [] ts.
Proof. tokens [lit "0"; lit "0"; lit "0"; lit "0"; lit "7"; lit "5"]. Qed.
Lemma tokens77r : exists ts, laid_out ts text77r /\ image_tokens (right g77) [] ts.
Proof. tokens [lit "0"; lit "0"; lit "0"; lit "5"; lit "7"; lit "9"]. Qed.
Lemma w77_usable : usable_files w77.
Proof.
  intros path t E. apply world_files in E. destruct E as [E|[E|[]]]; injection E as <- <-.
  - destruct tokens77l as [ts [L I]]. eapply usable_image; [exact L|exact I|vm_compute; reflexivity..].
  - destruct tokens77r as [ts [L I]]. eapply usable_image; [exact L|exact I|vm_compute; reflexivity..].
Qed.
Lemma w77_left : file_holds w77 (lit "l.pgm") (left g77).
Proof. destruct tokens77l as [ts [L I]]. exists text77l, ts. auto. Qed.
Lemma w77_right : file_holds w77 (lit "r.pgm") (right g77).
Proof. destruct tokens77r as [ts [L I]]. exists text77r, ts. auto. Qed.
Lemma run_paths out lev c s : all_paths (run_options (Some out) lev c s) (lit "l.pgm") (lit "r.pgm") out.
Proof. split; [reflexivity|split; reflexivity]. Qed.

Lemma gcc_run : main_omp gcc_team (@isort cpu) w77 (Parsed o77) (Ok (ends 0 None (Some (out_path, written77)))).
Proof.
  eapply (order_run (in_turn 1 2 10) (in_turn 1 2 10)); [intros cg; apply may_in_turn; split; reflexivity..|apply run_paths|apply run_technology|].
  vm_compute. reflexivity.
Qed.

Lemma disordered_map : exists v srt w o lpath rpath out l r lev c s g img txt,
  team_ok v /\ t_sc v = true /\ (forall bound jobs, t_size v bound jobs <-> bound = 1 /\ jobs = 2) /\
  sorts srt /\ usable_files w /\ all_paths o lpath rpath out /\ technology_ok o /\
  file_holds w lpath l /\ file_holds w rpath r /\
  option_number (width l) (o_levels o) lev /\ option_number 1 (o_cleanness o) c /\ option_number 1 (o_smoothness o) s /\
  make_graph l r lev (of_u (t := cpu) c) (of_u s) = Ok g /\ write_image [] (Some img) = Ok txt /\
  main_omp v srt w (Parsed o) (Ok (ends 0 None (Some (out, txt)))) /\ ~ labeling_ok g (map_labeling img) /\
  main srt w (Parsed o) <> Ok (ends 0 None (Some (out, txt))).
Proof.
  exists gcc_team, (@isort cpu), w77, o77, (lit "l.pgm"), (lit "r.pgm"), out_path, (left g77), (right g77), 3, 1, 0, g77, map77, written77.
  refine (conj gcc_ok (conj eq_refl (conj (fun _ _ => iff_refl _) (conj (isort_sorts cpu_laws) (conj w77_usable (conj (run_paths _ _ _ _) (conj (run_technology _ _ _ _) _))))))).
  refine (conj w77_left (conj w77_right (conj _ (conj _ (conj _ (conj _ (conj _ (conj gcc_run (conj _ _))))))))).
  - apply number_value. reflexivity.
  - apply number_value. reflexivity.
  - apply number_value. reflexivity.
  - made.
  - vm_compute. reflexivity.
  - intros [_ H]. specialize (H {| px := 0; py := 1 |} {| px := 1; py := 1 |}).
    assert (X : in_order (label_node (map_labeling map77) {| px := 0; py := 1 |}) (label_node (map_labeling map77) {| px := 1; py := 1 |})).
    { apply H.
      - split; reflexivity.
      - split; reflexivity.
        - left. split; reflexivity. }
    destruct X as [X _]. specialize (X (conj eq_refl eq_refl)). revert X. vm_compute. intros X. apply X. reflexivity.
  - intros E. assert (N' : match main (@isort cpu) w77 (Parsed o77) with Ok e => match written_file e with Some f => same_text (snd f) written77 | None => false end | Stop _ => false end = false) by (vm_compute; reflexivity).
    rewrite E in N'. vm_compute in N'. discriminate.
Qed.

(** *** The schedule decides whether a map is found *)

Definition text79l : text := lit "P2 4 2 3 0 3 0 2 3 0 2 1".
Definition text79r : text := lit "P2 4 2 3 3 3 0 3 2 0 2 2".
Definition w79 : world := world_of [(lit "l.pgm", text79l); (lit "r.pgm", text79r)].
Definition o79 : options := run_options (Some out_path) (Some (lit "4")) (Some (lit "1")) (Some (lit "1")).
Definition g79 : dgraph cpu := problem 4 2 4 [0; 3; 0; 2; 3; 0; 2; 1] [3; 3; 0; 3; 2; 0; 2; 2] 1 1.
Definition written79 : text := lit "P2" ++ [newline] ++ lit "4 2" ++ [newline] ++ lit "4" ++ [newline] ++ lit "1 0 0 0" ++ [newline] ++ lit "0 0 0 0" ++ [newline].
Lemma w79_usable : usable_files w79.
Proof.
  intros path t E. apply world_files in E. destruct E as [E|[E|[]]]; injection E as <- <-.
  - assert (H : exists ts, laid_out ts text79l /\ image_tokens {| width := 4; height := 2; max_value := 3; data := [0; 3; 0; 2; 3; 0; 2; 1] |} [] ts)
      by tokens [lit "0"; lit "3"; lit "0"; lit "2"; lit "3"; lit "0"; lit "2"; lit "1"].
    destruct H as [ts [L I]]. eapply usable_image; [exact L|exact I|vm_compute; reflexivity..].
  - assert (H : exists ts, laid_out ts text79r /\ image_tokens {| width := 4; height := 2; max_value := 3; data := [3; 3; 0; 3; 2; 0; 2; 2] |} [] ts)
      by tokens [lit "3"; lit "3"; lit "0"; lit "3"; lit "2"; lit "0"; lit "2"; lit "2"].
    destruct H as [ts [L I]]. eapply usable_image; [exact L|exact I|vm_compute; reflexivity..].
Qed.
Definition turns : cgraph cpu -> outcome (bool * cgraph cpu) := in_turn 2 2 10.
Definition backwards : cgraph cpu -> outcome (bool * cgraph cpu) := by_schedule 2 2 64 reversed 10.
Lemma may_turns cg : may (csp_omp two_team cg) (turns cg).
Proof. apply may_in_turn. split; reflexivity. Qed.
Lemma may_backwards cg : may (csp_omp two_team cg) (backwards cg).
Proof. apply may_by_schedule; [reflexivity..|split; reflexivity]. Qed.

Lemma run79 : main_omp two_team (@isort cpu) w79 (Parsed o79) (Ok (ends 0 None (Some (out_path, written79)))).
Proof.
  eapply (order_run turns turns); [exact may_turns..|apply run_paths|apply run_technology|]. vm_compute. reflexivity.
Qed.
Lemma run79' : main_omp two_team (@isort cpu) w79 (Parsed o79) (Ok (ends 0 (Some (LogicError CannotLabel)) None)).
Proof.
  eapply (order_run backwards backwards); [exact may_backwards..|apply run_paths|apply run_technology|]. vm_compute. reflexivity.
Qed.

(** *** Maps where the sequential program finds none *)

Definition text78l : text := lit "P2 3 2 3 2 1 2 0 0 2".
Definition text78r : text := lit "P2 3 2 3 1 2 1 0 0 0".
Definition w78 : world := world_of [(lit "l.pgm", text78l); (lit "r.pgm", text78r)].
Definition o78 : options := run_options (Some out_path) (Some (lit "2")) (Some (lit "1")) (Some (lit "2")).
Definition written78 : text := lit "P2" ++ [newline] ++ lit "3 2" ++ [newline] ++ lit "2" ++ [newline] ++ lit "0 0 0" ++ [newline] ++ lit "0 0 0" ++ [newline].
Lemma w78_usable : usable_files w78.
Proof.
  intros path t E. apply world_files in E. destruct E as [E|[E|[]]]; injection E as <- <-.
  - assert (H : exists ts, laid_out ts text78l /\ image_tokens {| width := 3; height := 2; max_value := 3; data := [2; 1; 2; 0; 0; 2] |} [] ts)
      by tokens [lit "2"; lit "1"; lit "2"; lit "0"; lit "0"; lit "2"].
    destruct H as [ts [L I]]. eapply usable_image; [exact L|exact I|vm_compute; reflexivity..].
  - assert (H : exists ts, laid_out ts text78r /\ image_tokens {| width := 3; height := 2; max_value := 3; data := [1; 2; 1; 0; 0; 0] |} [] ts)
      by tokens [lit "1"; lit "2"; lit "1"; lit "0"; lit "0"; lit "0"].
    destruct H as [ts [L I]]. eapply usable_image; [exact L|exact I|vm_compute; reflexivity..].
Qed.
Lemma run78 : main_omp two_team (@isort cpu) w78 (Parsed o78) (Ok (ends 0 None (Some (out_path, written78)))).
Proof.
  eapply (order_run backwards backwards); [exact may_backwards..|apply run_paths|apply run_technology|]. vm_compute. reflexivity.
Qed.
Lemma main78 : main (@isort cpu) w78 (Parsed o78) = Ok (ends 0 (Some (LogicError CannotLabel)) None).
Proof. vm_compute. reflexivity. Qed.

(** *** The threshold of the search is rejected afterwards *)

Definition text76l : text := lit "P2 4 2 3 0 2 2 0 0 2 3 1".
Definition text76r : text := lit "P2 4 2 3 0 1 3 3 0 0 2 3".
Definition w76 : world := world_of [(lit "l.pgm", text76l); (lit "r.pgm", text76r)].
Definition o76 : options := run_options (Some out_path) (Some (lit "4")) (Some (lit "2")) (Some (lit "3")).
Lemma w76_usable : usable_files w76.
Proof.
  intros path t E. apply world_files in E. destruct E as [E|[E|[]]]; injection E as <- <-.
  - assert (H : exists ts, laid_out ts text76l /\ image_tokens {| width := 4; height := 2; max_value := 3; data := [0; 2; 2; 0; 0; 2; 3; 1] |} [] ts)
      by tokens [lit "0"; lit "2"; lit "2"; lit "0"; lit "0"; lit "2"; lit "3"; lit "1"].
    destruct H as [ts [L I]]. eapply usable_image; [exact L|exact I|vm_compute; reflexivity..].
  - assert (H : exists ts, laid_out ts text76r /\ image_tokens {| width := 4; height := 2; max_value := 3; data := [0; 1; 3; 3; 0; 0; 2; 3] |} [] ts)
      by tokens [lit "0"; lit "1"; lit "3"; lit "3"; lit "0"; lit "0"; lit "2"; lit "3"].
    destruct H as [ts [L I]]. eapply usable_image; [exact L|exact I|vm_compute; reflexivity..].
Qed.
Lemma run76 : main_omp two_team (@isort cpu) w76 (Parsed o76) (Ok (ends 0 (Some (LogicError CannotSolve)) None)).
Proof.
  eapply (order_run turns backwards); [exact may_turns|exact may_backwards|apply run_paths|apply run_technology|]. vm_compute. reflexivity.
Qed.

Lemma schedule_decides :
  (exists v srt w o path txt, orderly_team v /\ sorts srt /\ usable_files w /\
     main_omp v srt w (Parsed o) (Ok (ends 0 None (Some (path, txt)))) /\
     main_omp v srt w (Parsed o) (Ok (ends 0 (Some (LogicError CannotLabel)) None))) /\
  (exists v srt w o path txt, orderly_team v /\ sorts srt /\ usable_files w /\
     main_omp v srt w (Parsed o) (Ok (ends 0 None (Some (path, txt)))) /\
     main srt w (Parsed o) = Ok (ends 0 (Some (LogicError CannotLabel)) None)) /\
  (exists v srt w o, orderly_team v /\ sorts srt /\ usable_files w /\
     main_omp v srt w (Parsed o) (Ok (ends 0 (Some (LogicError CannotSolve)) None))).
Proof.
  split; [|split].
  - exists two_team, (@isort cpu), w79, o79, out_path, written79. refine (conj two_orderly (conj (isort_sorts cpu_laws) (conj w79_usable (conj run79 run79')))).
  - exists two_team, (@isort cpu), w78, o78, out_path, written78. refine (conj two_orderly (conj (isort_sorts cpu_laws) (conj w78_usable (conj run78 main78)))).
  - exists two_team, (@isort cpu), w76, o76. refine (conj two_orderly (conj (isort_sorts cpu_laws) (conj w76_usable run76))).
Qed.

(** *** A run of two threads that writes what the sequential program writes *)

Lemma two_run : main_omp two_team (@isort cpu) wg (Parsed (og out_path)) (Ok (ends 0 None (Some (out_path, textg)))).
Proof.
  eapply (order_run backwards turns); [exact may_backwards|exact may_turns|apply run_paths|apply run_technology|]. vm_compute. reflexivity.
Qed.
