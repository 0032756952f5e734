(** What the application prints (lib/main.cpp): MainGpu.v with the texts of the
    messages instead of their kinds. *)
From Coq Require Import String.
From Verif Require Export MainGpu.
Local Open Scope N_scope.

(** Texts that are not fixed by the code: the description of the error found by
    Boost.Program_options, the list of options as printed by it, the text of
    [std::length_error], and [std::to_string] of a floating point number. *)
Record library : Type := {
  boost_what : text;
  option_list : text;
  length_what : text;
  shown : F cpu -> text
}.

(** An exception and its text, or a value. *)
Definition told (A : Type) : Type := outcome (exn * text + A).
Definition tells {A} (e : exn) (t : text) : told A := Ok (inl (e, t)).
Definition explained {A} (f : exn -> text) (x : outcome A) : told A :=
  match x with
  | Ok a => Ok (inr a)
  | Stop (Throw e) => tells e (f e)
  | Stop s => Stop s
  end.
Definition tbind {A B} (x : told A) (f : A -> told B) : told B :=
  match x with
  | Ok (inr a) => f a
  | Ok (inl c) => Ok (inl c)
  | Stop s => Stop s
  end.
Notation "x <+ m ;; k" := (tbind m (fun x => k))
  (at level 61, m at next level, right associativity).

(** Exceptions of the standard library: the texts of the functions [std::stoul]
    (libstdc++) and of containers.  Others are not thrown where this is used. *)
Definition library_what (lib : library) (e : exn) : text :=
  match e with
  | StoulInvalid | StoulRange => lit "stoul"
  | LengthError => length_what lib
  | _ => []
  end.

(** [read_image], lib/main.cpp 284-306. *)
Definition read_what (lib : library) (path : text) (e : exn) : text :=
  match e with
  | CannotOpen => lit "Unable to open file `" ++ path ++ lit "`."
  | NotPgm => lit "File `" ++ path ++ lit "` is not a correct plain PGM image."
  | NotRead => lit "Image `" ++ path ++ lit "` is valid, but it wasn't read for some reason. Please, report the issue to developers."
  | _ => library_what lib e
  end.

(** The exceptions of the constructor of [DisparityGraph], lib/disparity_graph.cpp
    77-168, and the one of lib/main.cpp 190-194. *)
Definition graph_what (lib : library) (l r : image) (lev : N) (c s : F cpu) (e : exn) : text :=
  match e with
  | InvalidArgument 0 => lit "Left image is invalid."
  | InvalidArgument 1 => lit "Right image is invalid."
  | InvalidArgument 2 => lit "Number of disparity levels should be greater than one."
  | InvalidArgument 3 =>
      lit "Number of disparity levels should not be greater than width of the left image. Width of the left image is "
      ++ digits (width l) ++ lit ". Provided number of disparity levels is " ++ digits lev ++ lit "."
  | InvalidArgument 4 =>
      lit "Number of columns of the images should be equal. Current left and right images have "
      ++ digits (width l) ++ lit " and " ++ digits (width r) ++ lit " columns respectively."
  | InvalidArgument 5 =>
      lit "Number of rows of the images should be equal. Current left and right images have "
      ++ digits (height l) ++ lit " and " ++ digits (height r) ++ lit " rows respectively."
  | InvalidArgument 6 =>
      lit "Maximal intensity of the images should be the same. Maximal intensity of provided left and right images "
      ++ digits (max_value l) ++ lit " and " ++ digits (max_value r) ++ lit "respectively."
  | InvalidArgument 7 => lit "Cleanness weight should not be negative. Actual value is " ++ shown lib c ++ lit "."
  | InvalidArgument 8 => lit "Smoothness weight should not be negative. Actual value is " ++ shown lib s ++ lit "."
  | InvalidArgument 9 =>
      lit "Either cleanness or smoothness, or both, should be creater than zero. You've provided smoothness "
      ++ shown lib s ++ lit " and cleanness " ++ shown lib c ++ lit "."
  | CannotSolve => lit "Cannot solve CSP problem. This should not ever happen. Refer to the developers."
  | _ => library_what lib e
  end.

(** lib/main.cpp 228-232. *)
Definition cannot_label : text := lit "Cannot find labeling. This should not ever happen. Refer to the developers.".

(** The pixel at which [build_disparity_map] stops because none of its nodes is
    available: the loops of lib/labeling_finder.cpp 390-437. *)
Definition missing_label (cg : cgraph cpu) : option pixel :=
  let g := cg_graph cg in
  find (fun p => negb (existsb (fun d => match get (cg_avail cg) (node_index g {| npix := p; disp := d |}) with
                                         | Ok a => a | Stop _ => false end)
                               (disparities g (px p) 0)))
       (column_order g).
(** The exceptions of [build_disparity_map], lib/labeling_finder.cpp 428-434.  The
    one of lines 412-418 is never thrown, see C48. *)
Definition label_what (lib : library) (cg : cgraph cpu) (e : exn) : text :=
  match e with
  | NoLabel =>
      match missing_label cg with
      | Some p => lit "Cannot find label for the pixel <" ++ digits (px p) ++ lit ", " ++ digits (py p) ++ lit ">."
      | None => []
      end
  | _ => library_what lib e
  end.

(** From the labeling to the disparity map, lib/main.cpp 226-239. *)
Definition mapped_told (lib : library) (x : outcome (bool * cgraph cpu)) : told image :=
  r <+ explained (library_what lib) x ;;
  if negb (fst r) then tells CannotLabel cannot_label else
  r <+ explained (label_what lib (snd r)) (exec build_disparity_map (snd r)) ;;
  Ok (inr (fst r)).

(** The files and the options, lib/main.cpp 133-163. *)
Definition inputs_told (lib : library) (w : world) (o : options) (left_path right_path : text)
  : told (image * image * N * N * N) :=
  l <+ explained (read_what lib left_path) (read_file w left_path) ;;
  r <+ explained (read_what lib right_path) (read_file w right_path) ;;
  lev <+ explained (library_what lib) (number_or (width l) (o_levels o)) ;;
  c <+ explained (library_what lib) (number_or 1 (o_cleanness o)) ;;
  s <+ explained (library_what lib) (number_or 1 (o_smoothness o)) ;;
  Ok (inr (l, r, lev, c, s)).

(** The [try] block, lib/main.cpp 131-239. *)
Definition map_told (lib : library) (pa : parallelism) (v : behaviour) (srt : list (F cpu) -> list (F cpu))
  (w : world) (o : options) (left_path right_path : text) (x : told image) : Prop :=
  match inputs_told lib w o left_path right_path with
  | Ok (inr (l, r, lev, c, s)) =>
      match explained (graph_what lib l r lev (of_u c) (of_u s)) (prepared srt l r lev (of_u c) (of_u s)) with
      | Ok (inr cg) => exists y, labels pa v cg y /\ x = mapped_told lib y
      | Ok (inl c) => x = Ok (inl c)
      | Stop s => x = Stop s
      end
  | Ok (inl c) => x = Ok (inl c)
  | Stop s => x = Stop s
  end.

(** The exit status, the texts sent to [std::cout] and [std::cerr], and the path and
    contents of the file written, if any. *)
Record session : Type := {
  exit_status : N;
  cout : text;
  cerr : text;
  saved : option (text * text)
}.
(** [<< std::endl] *)
Definition line (t : text) : text := t ++ [newline].

(** The output file and the handlers, lib/main.cpp 240-254. *)
Definition finishes_told (lib : library) (out : text) (w : world) (path : text) (x : told image) : outcome session :=
  match
    img <+ x ;;
    if writable w path
    then t <+ explained (library_what lib) (write_image [] (Some img)) ;; Ok (inr (Some (path, t)))
    else Ok (inr None)
  with
  | Ok (inr f) => Ok {| exit_status := 0; cout := out; cerr := []; saved := f |}
  | Ok (inl (e, t)) =>
      Ok {| exit_status := 0; cout := out; saved := None;
            cerr := line ((if is_invalid_argument e then lit "Invalid argument: " else lit "Logic error: ") ++ t) |}
  | Stop s => Stop s
  end.

(** What is printed about the technology, lib/main.cpp 86-130. *)
Definition announced (p : option text) (pa : parallelism) : text :=
  match p with
  | None => []
  | Some _ => line (match pa with
                    | OnCpu => lit "OpenMP parallelism"
                    | On OpenCL => lit "OpenCL parallelism"
                    | On CUDA => lit "CUDA parallelism"
                    end)
  end.

(** [main], lib/main.cpp 33-279. *)
Definition main_told (lib : library) (b : build) (v : behaviour) (srt : list (F cpu) -> list (F cpu))
  (w : world) (p : parsed) (s : outcome session) : Prop :=
  let complains code t := Ok {| exit_status := code; cout := []; cerr := line t; saved := None |} in
  match p with
  | Repeated => s = complains 1 (lit "You should specify each parameter only once: " ++ boost_what lib)
  | Rejected => s = complains 1 (lit "Unexpected exception: " ++ boost_what lib)
  | Parsed o =>
      match o_output o, o_left o, o_right o with
      | Some out, Some l, Some r =>
          match chosen b (o_parallel o) with
          | Stop (Throw _) =>
              s = complains 1 (lit "Unexpected exception: `parallel` cannot be "
                               ++ match o_parallel o with Some t => t | None => [] end ++ lit ".")
          | Stop x => s = Stop x
          | Ok pa => exists x, map_told lib pa v srt w o l r x /\
                       s = finishes_told lib (announced (o_parallel o) pa) w out x
          end
      | _, _, _ =>
          if (count (o_left o) =? 0) || (count (o_right o) =? 0)
          then s = complains 0 (lit "You should specify both left and right image.")
          else if count (o_output o) =? 0 then s = complains 0 (lit "You should specify the output image path.")
          else s = Ok {| exit_status := 1; cout := option_list lib; cerr := []; saved := None |}
      end
  end.
