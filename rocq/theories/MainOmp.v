(** The application (lib/main.cpp) built with OpenMP (option WITH_OPENMP of
    lib/CMakeLists.txt 22-29, 141-146).  What a run does depends on the schedule,
    therefore runs are a relation. *)
From Coq Require Import String.
From Verif Require Export MainGpu Concur.
Local Open Scope N_scope.

(** How the threads of a team behave, see Concur.v: whether loads see the latest
    store, the number of elements in a memory word, and the numbers a round may have:
    of jobs started, and of jobs each of them assumes (THREADS_NUMBER in the bound
    and in the body of the loop). *)
Record team : Type := {
  t_sc : bool;
  t_word : N;
  t_size : N -> N -> Prop
}.

(** Sequencing of computations with several possible outcomes. *)
Definition does {A} (x : outcome A) : outcome A -> Prop := fun o => o = x.
Definition and_then {A B} (x : outcome A -> Prop) (f : A -> outcome B -> Prop) (o : outcome B) : Prop :=
  (exists a, x (Ok a) /\ f a o) \/ (exists e, x (Stop e) /\ o = Stop e).
Notation "x <~ e ;; k" := (and_then e (fun x => k)) (at level 60, e at next level, right associativity).

Section Graph.
Context {T : target} (v : team).
Implicit Type cg : cgraph T.

(** The loop [while (changed)] of [solve_csp], lib/constraint_graph.cpp 362-372; the
    size of the team may change from round to round. *)
Inductive omp_rounds cg : mem -> mem -> Prop :=
| omp_last m m' bound jobs : t_size v bound jobs ->
    round cg (t_sc v) (t_word v) bound jobs m false m' -> omp_rounds cg m m'
| omp_more m m1 m' bound jobs : t_size v bound jobs ->
    round cg (t_sc v) (t_word v) bound jobs m true m1 -> omp_rounds cg m1 m' -> omp_rounds cg m m'.

(** Some thread runs into a fault. *)
Inductive omp_faults cg : mem -> Prop :=
| fault_now m bound jobs n s t : t_size v bound jobs ->
    psteps (t_sc v) (t_word v) n (round_start cg bound jobs m) s ->
    In t (threads s) -> faulty (current (history s)) t -> omp_faults cg m
| fault_later m m1 bound jobs : t_size v bound jobs ->
    round cg (t_sc v) (t_word v) bound jobs m true m1 -> omp_faults cg m1 -> omp_faults cg m.

(** [solve_csp], lib/constraint_graph.cpp 356-374. *)
Definition csp_omp cg (o : outcome (bool * cgraph T)) : Prop :=
  (exists m, omp_rounds cg (cg_avail cg) m /\ o = exec check_nodes_left (with_avail cg m)) \/
  (omp_faults cg (cg_avail cg) /\ o = Stop Undef).

(** The loop of [calculate_minimal_consistent_threshold],
    lib/labeling_finder.cpp 233-256. *)
Fixpoint search_omp (g : dgraph T) (lp : lowest T) (l : list (F T)) (fuel : nat) (start stop : N)
  : outcome (F T) -> Prop :=
  match fuel with
  | O => does (Stop Diverge)
  | S f =>
      let current := uadd T start stop / 2 in
      if start <? stop then
        t <~ does (get l current) ;;
        cg <~ does (make_constraint g lp t) ;;
        r <~ csp_omp cg ;;
        if fst r then search_omp g lp l f start current
        else search_omp g lp l f (uadd T current 1) stop
      else does (get l current)
  end.

(** [calculate_minimal_consistent_threshold], lib/labeling_finder.cpp 227-257. *)
Definition threshold_omp (lp : lowest T) (g : dgraph T) (l : list (F T)) : outcome (F T) -> Prop :=
  search_omp g lp l (S (length l)) 0 (usub T (len l) 1).

(** [find_labeling], lib/labeling_finder.cpp 349-368. *)
Fixpoint label_omp (l : list pixel) cg : outcome (bool * cgraph T) -> Prop :=
  match l with
  | [] => does (Ok (true, cg))
  | p :: r =>
      x <~ does (exec (fun cg => choose_best_node cg p) cg) ;;
      if negb (fst x) then does (Ok (false, snd x)) else
      y <~ csp_omp (snd x) ;;
      if negb (fst y) then does (Ok (false, snd y)) else label_omp r (snd y)
  end.
Definition find_labeling_omp cg : outcome (bool * cgraph T) -> Prop :=
  label_omp (column_order (cg_graph cg)) cg.

(** From the two images to the disparity map, lib/main.cpp 163-239. *)
Definition solve_problem_omp (srt : list (F T) -> list (F T)) (l r : image) (lev : N) (c s : F T)
  : outcome image -> Prop :=
  g <~ does (make_graph l r lev c s) ;;
  lp <~ does (make_lowest g) ;;
  cands <~ does (fetch_available_penalties srt lp) ;;
  t <~ threshold_omp lp g cands ;;
  cg <~ does (make_constraint g lp t) ;;
  r <~ csp_omp cg ;;
  if negb (fst r) then does (Stop (Throw CannotSolve)) else
  r <~ find_labeling_omp (snd r) ;;
  if negb (fst r) then does (Stop (Throw CannotLabel)) else
  r <~ does (exec build_disparity_map (snd r)) ;;
  does (Ok (fst r)).
End Graph.

(** The [try] block, lib/main.cpp 131-243, up to the opening of the output file. *)
Definition map_omp (v : team) (srt : list (F cpu) -> list (F cpu)) (w : world)
  (o : options) (left_path right_path : text) : outcome image -> Prop :=
  l <~ does (read_file w left_path) ;;
  r <~ does (read_file w right_path) ;;
  lev <~ does (number_or (width l) (o_levels o)) ;;
  c <~ does (number_or 1 (o_cleanness o)) ;;
  s <~ does (number_or 1 (o_smoothness o)) ;;
  solve_problem_omp v srt l r lev (of_u c) (of_u s).

(** [main], lib/main.cpp 33-279, without OpenCL and CUDA.  The line about the chosen
    technology is left out. *)
Definition main_omp (v : team) (srt : list (F cpu) -> list (F cpu)) (w : world) (p : parsed)
  (e : outcome effects) : Prop :=
  match p with
  | Repeated => e = Ok (ends 1 (Some UsageError) None)
  | Rejected => e = Ok (ends 1 (Some UnexpectedException) None)
  | Parsed o =>
      match o_output o, o_left o, o_right o with
      | Some out, Some l, Some r =>
          match check_parallel (o_parallel o) with
          | Stop (Throw _) => e = Ok (ends 1 (Some UnexpectedException) None)
          | Stop x => e = Stop x
          | Ok _ => exists x, map_omp v srt w o l r x /\ e = finishes w out x
          end
      | _, _, _ =>
          if (count (o_left o) =? 0) || (count (o_right o) =? 0)
          then e = Ok (ends 0 (Some NoImages) None)
          else if count (o_output o) =? 0 then e = Ok (ends 0 (Some NoOutput) None)
          else e = Ok (ends 1 (Some Help) None)
      end
  end.
