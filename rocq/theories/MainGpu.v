(** The application (lib/main.cpp) built with OpenCL, CUDA or both.  What a run does
    depends on the device, therefore runs are a relation. *)
From Coq Require Import String.
From Verif Require Export MainProg Gpu.
Local Open Scope N_scope.

(** The options USE_OPENCL and USE_CUDA, lib/CMakeLists.txt 155-181 and 214-232. *)
Record build : Type := { use_opencl : bool; use_cuda : bool }.

Inductive parallelism : Type := OnCpu | On (a : api).

(** The choice of the technology, lib/main.cpp 85-130. *)
Definition chosen (b : build) (p : option text) : outcome parallelism :=
  match p with
  | None => Ok OnCpu
  | Some t =>
      let t := map lower t in
      if use_opencl b && (same_text t (lit "cl") || same_text t (lit "opencl")) then Ok (On OpenCL)
      else if use_cuda b && same_text t (lit "cuda") then Ok (On CUDA)
      else if same_text t (lit "cpu") || same_text t (lit "openmp") || same_text t (lit "omp")
      then Ok OnCpu else Stop (Throw BadParallel)
  end.

(** How a device behaves, see Gpu.v. *)
Record behaviour : Type := {
  b_sc : bool;
  b_kind : barrier_kind;
  b_partition : (nat -> nat) -> Prop
}.

(** The labeling, lib/main.cpp 198-223: whether the pointer returned is not null, and
    the graph afterwards. *)
Definition labels (pa : parallelism) (v : behaviour) (cg : cgraph cpu)
  (o : outcome (bool * cgraph cpu)) : Prop :=
  match pa with
  | OnCpu => o = exec find_labeling cg
  | On OpenCL => exists cg', find_labeling_cl (b_sc v) (b_kind v) (b_partition v) cg cg' /\ o = Ok (true, cg')
  | On CUDA => exists cg', find_labeling_cuda (b_sc v) (b_kind v) (b_partition v) cg cg' /\ o = Ok (true, cg')
  end.

(** From the two images to the graph to label, lib/main.cpp 163-196. *)
Definition prepared {T : target} (srt : list (F T) -> list (F T))
  (l r : image) (lev : N) (c s : F T) : outcome (cgraph T) :=
  g <- make_graph l r lev c s ;;
  lp <- make_lowest g ;;
  cands <- fetch_available_penalties srt lp ;;
  t <- calculate_minimal_consistent_threshold lp g cands ;;
  cg <- make_constraint g lp t ;;
  r <- exec solve_csp cg ;;
  if negb (fst r) then Stop (Throw CannotSolve) else Ok (snd r).

(** From the labeling to the disparity map, lib/main.cpp 224-239. *)
Definition mapped (x : outcome (bool * cgraph cpu)) : outcome image :=
  r <- x ;;
  if negb (fst r) then Stop (Throw CannotLabel) else
  r <- exec build_disparity_map (snd r) ;;
  Ok (fst r).

(** From the two images to the disparity map, lib/main.cpp 163-239. *)
Definition solves_with (pa : parallelism) (v : behaviour) (srt : list (F cpu) -> list (F cpu))
  (l r : image) (lev : N) (c s : F cpu) (o : outcome image) : Prop :=
  match prepared srt l r lev c s with
  | Stop e => o = Stop e
  | Ok cg => exists x, labels pa v cg x /\ o = mapped x
  end.

(** The [try] block, lib/main.cpp 131-243, up to the opening of the output file. *)
Definition map_with (pa : parallelism) (v : behaviour) (srt : list (F cpu) -> list (F cpu)) (w : world)
  (o : options) (left_path right_path : text) (x : outcome image) : Prop :=
  match
    l <- read_file w left_path ;;
    r <- read_file w right_path ;;
    lev <- number_or (width l) (o_levels o) ;;
    c <- number_or 1 (o_cleanness o) ;;
    s <- number_or 1 (o_smoothness o) ;;
    Ok (l, r, lev, c, s)
  with
  | Stop e => x = Stop e
  | Ok (l, r, lev, c, s) => solves_with pa v srt l r lev (of_u c) (of_u s) x
  end.

(** The output file and the handlers, lib/main.cpp 240-254. *)
Definition finishes (w : world) (out : text) (x : outcome image) : outcome effects :=
  match
    img <- x ;;
    if writable w out
    then t <- write_image [] (Some img) ;; Ok (Some (out, t))
    else Ok None
  with
  | Stop (Throw e) =>
      Ok (ends 0 (Some (if is_invalid_argument e then InvalidArgumentError e
                        else LogicError e)) None)
  | Stop e => Stop e
  | Ok f => Ok (ends 0 None f)
  end.

(** [main], lib/main.cpp 33-279.  The line about the chosen technology is left out. *)
Definition main_with (b : build) (v : behaviour) (srt : list (F cpu) -> list (F cpu))
  (w : world) (p : parsed) (e : outcome effects) : Prop :=
  match p with
  | Repeated => e = Ok (ends 1 (Some UsageError) None)
  | Rejected => e = Ok (ends 1 (Some UnexpectedException) None)
  | Parsed o =>
      match o_output o, o_left o, o_right o with
      | Some out, Some l, Some r =>
          match chosen b (o_parallel o) with
          | Stop (Throw _) => e = Ok (ends 1 (Some UnexpectedException) None)
          | Stop x => e = Stop x
          | Ok pa => exists x, map_with pa v srt w o l r x /\ e = finishes w out x
          end
      | _, _, _ =>
          if (count (o_left o) =? 0) || (count (o_right o) =? 0)
          then e = Ok (ends 0 (Some NoImages) None)
          else if count (o_output o) =? 0 then e = Ok (ends 0 (Some NoOutput) None)
          else e = Ok (ends 1 (Some Help) None)
      end
  end.
