(** The application (lib/main.cpp) built with OpenMP, OpenCL or CUDA when memory is
    scarce.  Memory.v is about the build without them. *)
From Coq Require Import String.
From Verif Require Export Memory MainOmp.
Local Open Scope N_scope.

(** The images and the numbers of the options, lib/main.cpp 132-162. *)
Definition problem_scarce (w : world) (o : options) (left_path right_path : text)
  : result (image * image * N * N * N) -> Prop :=
  l <+ read_file_scarce w left_path ;;
  r <+ read_file_scarce w right_path ;;
  lev <+ may (number_or (width l) (o_levels o)) ;;
  c <+ may (number_or 1 (o_cleanness o)) ;;
  s <+ may (number_or 1 (o_smoothness o)) ;;
  sure (Ok (l, r, lev, c, s)).

(** How the solution of a problem ends, unless memory is lacking: lib/main.cpp 240 is
    reached with a map, an exception of the program is thrown, or the process is
    ended by a library. *)
Inductive conclusion : Type := Maps (x : outcome image) | Quits (e : fate).

(** lib/main.cpp 163-239, built with OpenCL and CUDA, as in MainFail.v. *)
Definition solves_failing (k : conditions) (v : behaviour) (srt : list (F cpu) -> list (F cpu))
  (pa : parallelism) (l r : image) (lev : N) (c s : F cpu) (y : conclusion) : Prop :=
  match prepared srt l r lev c s with
  | Stop x => y = Maps (Stop x)
  | Ok cg =>
      match pa with
      | OnCpu => exists x, labels OnCpu v cg x /\ y = Maps (mapped x)
      | On OpenCL => y = Quits thrown \/ exists x, labels (On OpenCL) v cg x /\ y = Maps (mapped x)
      | On CUDA =>
          exists z, labels_cuda k v cg z /\
            y = match z with
                | Goes cg' => Maps (mapped (Ok (true, cg')))
                | Leaves => Quits Exits
                | Dies => Quits Aborts
                end
      end
  end.

(** libgomp calls [exit(1)] if it has no memory for a team or cannot start its
    threads (lib/constraint_graph.cpp 360, 366); its message is left out.  No file has
    been opened for writing by then. *)
Definition no_team : fate := Ends (Ok (ends 1 None None)).

(** lib/main.cpp 163-239, built with OpenMP. *)
Definition solves_team (v : team) (srt : list (F cpu) -> list (F cpu)) (_ : unit)
  (l r : image) (lev : N) (c s : F cpu) (y : conclusion) : Prop :=
  y = Quits no_team \/ exists x, solve_problem_omp v srt l r lev c s x /\ y = Maps x.

(** [main], lib/main.cpp 33-279, with the choice of the technology (85-130) and the
    solution of the problem (163-239) left open; compare [main_scarce] of Memory.v. *)
Definition main_scarce_by {A} (choose : option text -> outcome A)
  (solves : A -> image -> image -> N -> F cpu -> F cpu -> conclusion -> Prop)
  (w : world) (p : parsed) (e : fate) : Prop :=
  e = no_memory None \/ (* the parser *)
  match p with
  | Repeated => e = Ends (Ok (ends 1 (Some UsageError) None)) \/ e = Aborts
  | Rejected => e = Ends (Ok (ends 1 (Some UnexpectedException) None)) \/ e = Aborts
  | Parsed o =>
      match o_output o, o_left o, o_right o with
      | Some out, Some l, Some r =>
          match choose (o_parallel o) with
          | Stop (Throw _) => e = Ends (Ok (ends 1 (Some UnexpectedException) None))
          | Stop x => e = Ends (Stop x)
          | Ok pa =>
              exists x, problem_scarce w o l r x /\
                match x with
                | NoMemory => e = no_memory None
                | Gets (Stop x) => e = Ends (finishes w out (Stop x))
                | Gets (Ok (l, r, lev, c, s)) =>
                    e = no_memory None \/
                    exists y, solves pa l r lev (of_u c) (of_u s) y /\
                      match y with
                      | Quits e' => e = e'
                      | Maps (Stop x) => e = Ends (finishes w out (Stop x))
                      | Maps (Ok img) => output_scarce w out img e
                      end
                end
          end
      | _, _, _ =>
          if (count (o_left o) =? 0) || (count (o_right o) =? 0)
          then e = Ends (Ok (ends 0 (Some NoImages) None))
          else if count (o_output o) =? 0 then e = Ends (Ok (ends 0 (Some NoOutput) None))
          else e = Ends (Ok (ends 1 (Some Help) None))
      end
  end.

(** Built with OpenCL, CUDA or both, and with OpenMP. *)
Definition main_scarce_with (k : conditions) (b : build) (v : behaviour) (srt : list (F cpu) -> list (F cpu)) :=
  main_scarce_by (chosen b) (solves_failing k v srt).
Definition main_scarce_omp (v : team) (srt : list (F cpu) -> list (F cpu)) :=
  main_scarce_by check_parallel (solves_team v srt).
