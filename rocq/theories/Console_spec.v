(** Vocabulary for the properties of what the application prints. *)
From Coq Require Import String.
From Verif Require Export Main_spec Gpu_spec Console.
Local Open Scope N_scope.

(** The names of the technologies of a build; the case does not matter. *)
Definition technology_names (pa : parallelism) : list text :=
  match pa with
  | OnCpu => [lit "cpu"; lit "openmp"; lit "omp"]
  | On OpenCL => [lit "cl"; lit "opencl"]
  | On CUDA => [lit "cuda"]
  end.
Definition supported (b : build) (pa : parallelism) : Prop :=
  match pa with
  | OnCpu => True
  | On OpenCL => use_opencl b = true
  | On CUDA => use_cuda b = true
  end.
(** The technology asked for: the processor if none is named. *)
Definition asks_for (b : build) (p : option text) (pa : parallelism) : Prop :=
  match p with
  | None => pa = OnCpu
  | Some t => supported b pa /\ exists name, In name (technology_names pa) /\ Forall2 same_letter t name
  end.
(** The line about it. *)
Definition technology_line (p : option text) (pa : parallelism) : text :=
  match p with
  | None => []
  | Some _ => lit match pa with
                  | OnCpu => "OpenMP parallelism"
                  | On OpenCL => "OpenCL parallelism"
                  | On CUDA => "CUDA parallelism"
                  end ++ [newline]
  end.

(** How messages begin. *)
Definition heading (m : message) : text :=
  lit match m with
      | UsageError => "You should specify each parameter only once: "
      | InvalidArgumentError _ => "Invalid argument: "
      | LogicError _ => "Logic error: "
      | UnexpectedException => "Unexpected exception: "
      | NoImages => "You should specify both left and right image."
      | NoOutput => "You should specify the output image path."
      | Help => ""
      end.
Definition begins (t s : text) : Prop := exists rest, s = t ++ rest.
Definition mentions (t s : text) : Prop := exists a b, s = a ++ t ++ b.
(** Exactly one line. *)
Definition one_line (s : text) : Prop := exists t, ~ In newline t /\ s = t ++ [newline].

(** A run with these effects has left these texts on the console. *)
Definition reported (e : outcome effects) (s : outcome session) : Prop :=
  match e, s with
  | Ok e, Ok s =>
      exit_status s = status e /\ saved s = written_file e /\
      match printed e with
      | None => cerr s = []
      | Some m => begins (heading m) (cerr s) /\ exists t, cerr s = t ++ [newline]
      end
  | Stop x, Stop y => x = y
  | _, _ => False
  end.

(** The file is the first one of the two that does not hold an image, and is bad. *)
Definition first_input (w : world) (lpath rpath path : text) (bad : text -> Prop) : Prop :=
  path = lpath /\ bad lpath \/
  (exists l, file_holds w lpath l /\ width l * height l < 2 ^ 32) /\ path = rpath /\ bad rpath.

(** The texts of other libraries do not contain a newline. *)
Definition plain_library (lib : library) : Prop :=
  ~ In newline (boost_what lib) /\ ~ In newline (length_what lib) /\ forall x, ~ In newline (shown lib x).
(** Neither does the option. *)
Definition plain_option (o : option text) : Prop := forall t, o = Some t -> ~ In newline t.

(** The numbers a user has to know to find out which requirement of the problem is
    violated. *)
Definition figures (k : N) (l r : image) (lev : N) : list N :=
  match k with
  | 3 => [width l; lev]
  | 4 => [width l; width r]
  | 5 => [height l; height r]
  | 6 => [max_value l; max_value r]
  | _ => []
  end.

(** What each requirement is about. *)
Definition subject (k : N) : text :=
  lit match k with
      | 0 => "Left image"
      | 1 => "Right image"
      | 2 => "disparity levels should be greater than one"
      | 3 => "disparity levels should not be greater than width of the left image"
      | 4 => "columns"
      | 5 => "rows"
      | 6 => "Maximal intensity"
      | 7 => "Cleanness"
      | 8 => "Smoothness"
      | _ => "cleanness or smoothness, or both"
      end.
(** A text with exactly these numbers in this order. *)
Definition no_digits (t : text) : Prop := forall d, d < 10 -> ~ In (digit_sign d) t.
Inductive shows : list N -> text -> Prop :=
| shows_none t : no_digits t -> shows [] t
| shows_number a t n c r ns : no_digits a -> numeral t n -> no_digits [c] -> shows ns (c :: r) -> shows (n :: ns) (a ++ t ++ c :: r).

(** All inputs can be read, but violate a requirement, [k] is the first one. *)
Record unsuitable (b : build) (w : world) (o : options) (k : N) (l r : image) (lev : N) : Prop := {
  un_left : exists path, o_left o = Some path /\ file_holds w path l;
  un_right : exists path, o_right o = Some path /\ file_holds w path r;
  un_output : o_output o <> None;
  un_technology : exists pa, asks_for b (o_parallel o) pa;
  un_sizes : width l * height l < 2 ^ 32 /\ width r * height r < 2 ^ 32;
  un_levels : option_number (width l) (o_levels o) lev;
  un_violated : exists c s, option_number 1 (o_cleanness o) c /\ option_number 1 (o_smoothness o) s /\
    first_violated l r lev (@of_u cpu c) (of_u s) k
}.

(** The messages of a build without GPUs that can appear.  The help, and the texts
    about negative weights, images not read, unsolvable problems and pixels without or
    with two labels cannot. *)
Definition can_appear (m : message) : Prop :=
  match m with
  | InvalidArgumentError x =>
      x = CannotOpen \/ x = NotPgm \/ x = StoulInvalid \/ exists k, x = InvalidArgument k /\ k < 10 /\ k <> 7 /\ k <> 8
  | LogicError x => x = StoulRange \/ x = LengthError \/ x = CannotLabel
  | Help => False
  | _ => True
  end.
