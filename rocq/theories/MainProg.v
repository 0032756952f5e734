(** The application (lib/main.cpp), built without OpenCL and CUDA and run by one
    thread. *)
From Coq Require Import String.
From Verif Require Export Labeling Pgm.
Local Open Scope N_scope.

(** *** The problem *)

(** From the two images to the disparity map, lib/main.cpp 163-239. *)
Definition solve_problem {T : target} (srt : list (F T) -> list (F T))
  (l r : image) (lev : N) (c s : F T) : outcome image :=
  g <- make_graph l r lev c s ;;
  lp <- make_lowest g ;;
  cands <- fetch_available_penalties srt lp ;;
  t <- calculate_minimal_consistent_threshold lp g cands ;;
  cg <- make_constraint g lp t ;;
  r <- exec solve_csp cg ;;
  if negb (fst r) then Stop (Throw CannotSolve) else
  r <- exec find_labeling (snd r) ;;
  if negb (fst r) then Stop (Throw CannotLabel) else
  r <- exec build_disparity_map (snd r) ;;
  Ok (fst r).

(** *** Options *)

(** What [variables_map] holds after [store] and [notify], lib/main.cpp 35-77.  An
    option given has one value; the parser is in Args.v. *)
Record options : Type := {
  o_help : bool;
  o_parallel : option text;
  o_left : option text;
  o_right : option text;
  o_output : option text;
  o_levels : option text;
  o_smoothness : option text;
  o_cleanness : option text
}.
(** The result of the parser: [Repeated] is the exception [multiple_occurrences],
    [Rejected] any other one (all derive from [std::exception]). *)
Inductive parsed : Type := Parsed (o : options) | Repeated | Rejected.

(** [std::tolower] in the "C" locale. *)
Definition lower (c : ascii) : ascii :=
  if (65 <=? code c) && (code c <=? 90) then ascii_of_N (code c + 32) else c.
Definition same_text (a b : text) : bool := if list_eq_dec ascii_dec a b then true else false.

(** The choice of the technology, lib/main.cpp 85-130: without OpenCL and CUDA only
    the CPU can be chosen. *)
Definition check_parallel (p : option text) : outcome unit :=
  match p with
  | None => Ok tt
  | Some t =>
      let t := map lower t in
      if same_text t (lit "cpu") || same_text t (lit "openmp") || same_text t (lit "omp")
      then Ok tt else Stop (Throw BadParallel)
  end.

(** *** Files *)

(** The contents of the files that can be opened, and the paths that can be opened
    for writing.  Reading errors and directories are in Broken.v,
    writing errors in Disk.v. *)
Record world : Type := {
  files : text -> option text;
  writable : text -> bool
}.

(** [read_image], lib/main.cpp 281-309. *)
Definition read_file (w : world) (path : text) : outcome image :=
  match files w path with
  | None => Stop (Throw CannotOpen)
  | Some t =>
      r <- read_image (opened t) None ;;
      if failbit (fst r) then Stop (Throw NotPgm) else
      match snd r with
      | None => Stop (Throw NotRead)
      | Some img => Ok img
      end
  end.

(** An option parsed by [std::stoul], lib/main.cpp 140-162. *)
Definition number_or (v : N) (o : option text) : outcome N :=
  match o with None => Ok v | Some t => stoul t end.

(** The [try] block, lib/main.cpp 131-243, up to the opening of the output file. *)
Definition disparity_map_of (srt : list (F cpu) -> list (F cpu)) (w : world)
  (o : options) (left_path right_path : text) : outcome image :=
  l <- read_file w left_path ;;
  r <- read_file w right_path ;;
  lev <- number_or (width l) (o_levels o) ;;
  c <- number_or 1 (o_cleanness o) ;;
  s <- number_or 1 (o_smoothness o) ;;
  solve_problem srt l r lev (of_u c) (of_u s).

(** *** The program *)

(** What is printed.  [UsageError] stands for "You should specify each parameter
    only once", [NoImages] for "You should specify both left and right image",
    [NoOutput] for "You should specify the output image path"; [Help] is the list
    of options. *)
Inductive message : Type :=
| UsageError | InvalidArgumentError (e : exn) | LogicError (e : exn)
| UnexpectedException | NoImages | NoOutput | Help.

(** The exit status, the message printed if any, and the path and contents of the
    file written, if any. *)
Record effects : Type := {
  status : N;
  printed : option message;
  written_file : option (text * text)
}.
Definition ends (s : N) (m : option message) (f : option (text * text)) : effects :=
  {| status := s; printed := m; written_file := f |}.

(** The exceptions derived from [std::invalid_argument]; all others of [exn] derive
    from [std::logic_error]. *)
Definition is_invalid_argument (e : exn) : bool :=
  match e with
  | InvalidArgument _ | StoulInvalid | CannotOpen | NotPgm | BadParallel => true
  | _ => false
  end.

(** [vm.count(…)] *)
Definition count (o : option text) : N := match o with Some _ => 1 | None => 0 end.

(** [main], lib/main.cpp 33-279.  The line about the chosen technology
    ("OpenMP parallelism") is left out. *)
Definition main (srt : list (F cpu) -> list (F cpu)) (w : world) (p : parsed) : outcome effects :=
  match p with
  | Repeated => Ok (ends 1 (Some UsageError) None)
  | Rejected => Ok (ends 1 (Some UnexpectedException) None)
  | Parsed o =>
      match o_output o, o_left o, o_right o with
      | Some out, Some l, Some r =>
          match check_parallel (o_parallel o) with
          | Stop (Throw _) => Ok (ends 1 (Some UnexpectedException) None)
          | Stop e => Stop e
          | Ok _ =>
              match
                img <- disparity_map_of srt w o l r ;;
                if writable w out
                then t <- write_image [] (Some img) ;; Ok (Some (out, t))
                else Ok None
              with
              | Stop (Throw e) =>
                  Ok (ends 0 (Some (if is_invalid_argument e then InvalidArgumentError e
                                    else LogicError e)) None)
              | Stop e => Stop e
              | Ok f => Ok (ends 0 None f)
              end
          end
      | _, _, _ =>
          if (count (o_left o) =? 0) || (count (o_right o) =? 0)
          then Ok (ends 0 (Some NoImages) None)
          else if count (o_output o) =? 0 then Ok (ends 0 (Some NoOutput) None)
          else Ok (ends 1 (Some Help) None)
      end
  end.
