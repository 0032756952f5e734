(** Vocabulary for the properties of the command line. *)
From Coq Require Import String.
From Verif Require Export Main_spec Args Sources.
Local Open Scope N_scope.

(** The options a user can give. *)
Inductive choice : Type :=
| ForHelp | ForParallel | ForLeft | ForRight | ForOutput | ForLevels | ForSmoothness | ForCleanness.
Definition word_of (k : choice) : text :=
  lit match k with
      | ForHelp => "help" | ForParallel => "parallel" | ForLeft => "left-image"
      | ForRight => "right-image" | ForOutput => "output-image"
      | ForLevels => "disparity-levels" | ForSmoothness => "smoothness" | ForCleanness => "cleanness"
      end.
Definition letter_of (k : choice) : ascii :=
  match k with
  | ForHelp => "h" | ForParallel => "p" | ForLeft => "l" | ForRight => "r" | ForOutput => "o"
  | ForLevels => "d" | ForSmoothness => "s" | ForCleanness => "c"
  end%char.

(** What may follow two dashes: the word or its beginning (or a dash and the letter). *)
Definition calls (k : choice) (n : text) : Prop :=
  n <> [] /\ (exists rest, word_of k = n ++ rest) \/ n = ["-"%char; letter_of k].
(** Words taken as the value of the option before them: all but a dash and the letter
    of an option, and two dashes with an equals sign at the end only. *)
Definition can_follow (v : text) : Prop :=
  (forall k, v <> ["-"%char; letter_of k]) /\
  ~ exists n, v = lit "--" ++ n ++ lit "=" /\ ~ In "="%char n.
(** Words that are skipped: all without a dash in front, a single dash, and a value
    without a name. *)
Definition skipped (w : text) : Prop :=
  hd_error w <> Some "-"%char \/ w = lit "-" \/ exists v, v <> [] /\ w = lit "--=" ++ v.

(** The settings a command line gives, in their order.  Letters of help can be put
    in front of another letter. *)
Definition helps (n : nat) : list (choice * text) := repeat (ForHelp, []) n.
Definition letters (n : nat) : text := lit "-" ++ repeat (letter_of ForHelp) n.
Inductive gives : list text -> list (choice * text) -> Prop :=
| no_words : gives [] []
| after_dashes ws : gives (lit "--" :: ws) []
| skips w ws s : skipped w -> gives ws s -> gives (w :: ws) s
| long_help n ws s : calls ForHelp n -> gives ws s -> gives ((lit "--" ++ n) :: ws) ((ForHelp, []) :: s)
| long_here k n v ws s : k <> ForHelp -> calls k n -> v <> [] -> gives ws s ->
    gives ((lit "--" ++ n ++ lit "=" ++ v) :: ws) ((k, v) :: s)
| long_next k n v ws s : k <> ForHelp -> calls k n -> can_follow v -> gives ws s ->
    gives ((lit "--" ++ n) :: v :: ws) ((k, v) :: s)
| short_help n ws s : gives ws s -> gives (letters (S n) :: ws) (helps (S n) ++ s)
| short_here n k v ws s : k <> ForHelp -> v <> [] -> gives ws s ->
    gives ((letters n ++ letter_of k :: v) :: ws) (helps n ++ (k, v) :: s)
| short_next n k v ws s : k <> ForHelp -> can_follow v -> gives ws s ->
    gives ((letters n ++ [letter_of k]) :: v :: ws) (helps n ++ (k, v) :: s).

(** Every option is given at most once. *)
Definition once (s : list (choice * text)) : Prop := NoDup (map fst s).

(** The value of an option for the application. *)
Definition value_of (o : options) (k : choice) : option text :=
  match k with
  | ForHelp => if o_help o then Some [] else None
  | ForParallel => o_parallel o
  | ForLeft => o_left o
  | ForRight => o_right o
  | ForOutput => o_output o
  | ForLevels => o_levels o
  | ForSmoothness => o_smoothness o
  | ForCleanness => o_cleanness o
  end.
(** The options are those settings. *)
Definition set_by (o : options) (s : list (choice * text)) : Prop :=
  forall k v, value_of o k = Some v <-> In (k, v) s.

(** The files the OpenCL program consists of: the functions shared with the CPU
    and the kernels. *)
Definition program_files : list text :=
  map lit ["lib/constraint_graph.cpp"; "lib/lowest_penalties.cpp"; "lib/labeling_finder.cpp"; "lib/disparity_graph.cpp";
           "lib/image.cpp"; "lib/indexing_checks.cpp"; "lib/indexing.cpp"; "lib/solve_csp.cl"]%string.

(** The lines of a text: each ends with a newline, except perhaps the last one. *)
Inductive text_lines : text -> list text -> Prop :=
| lines_none : text_lines [] []
| lines_last t : t <> [] -> ~ In newline t -> text_lines t [t]
| lines_more l t ls : ~ In newline l -> text_lines t ls -> text_lines (l ++ newline :: t) (l :: ls).
(** Every line ends with a newline. *)
Definition complete (t : text) : Prop := t = [] \/ exists s, t = s ++ [newline].
