(** The command line of the application: the options declared by lib/main.cpp 35-60
    and the parser called in 62-77.

    The parser is Boost.Program_options with its default style (long options,
    short options, values in the same or in the next word, grouped short options,
    guessing of abbreviated names).  Boost is not part of /repo; this is a model of
    its sources [cmdline.cpp], [options_description.cpp], [variables_map.cpp] and
    [value_semantic.cpp] (releases 1.60 to 1.74), restricted to this style, to
    options with no value or with one string, without positional options. *)
From Coq Require Import String.
From Verif Require Export MainProg.
Local Open Scope N_scope.

(** *** The options of the application *)

(** A call of [desc.add_options()(…)]: the long name, the letter, and whether a
    value belongs to the option. *)
Record declared : Type := { long : text; letter : ascii; valued : bool }.
Definition declares (l : string) (c : ascii) (v : bool) : declared :=
  {| long := lit l; letter := c; valued := v |}.

(** lib/main.cpp 36-60. *)
Definition declarations : list declared := [
  declares "help" "h" false;
  declares "parallel" "p" true;
  declares "left-image" "l" true;
  declares "right-image" "r" true;
  declares "output-image" "o" true;
  declares "disparity-levels" "d" true;
  declares "smoothness" "s" true;
  declares "cleanness" "c" true ].

(** *** Looking up an option *)

(** [option_description::match]; [short_name()] includes the dash. *)
Inductive match_result : Type := NoMatch | Approximate | Full.
Fixpoint starts_with (p t : text) : bool :=
  match p, t with
  | [], _ => true
  | c :: p, d :: t => if ascii_dec c d then starts_with p t else false
  | _, [] => false
  end.
Definition short_name (d : declared) : text := ["-"%char; letter d].
Definition matches (d : declared) (approx : bool) (name : text) : match_result :=
  if same_text (long d) name then Full else
  if same_text (short_name d) name then Full else
  if approx && starts_with name (long d) then Approximate else NoMatch.

(** The result of a part of the parser: a value, an exception (none of those thrown
    while parsing is a [multiple_occurrences]), or no end. *)
Inductive parsing (A : Type) : Type := Done (a : A) | Raised | Endless.
Arguments Done {A} a.
Arguments Raised {A}.
Arguments Endless {A}.
Definition then_ {A B} (x : parsing A) (f : A -> parsing B) : parsing B :=
  match x with Done a => f a | Raised => Raised | Endless => Endless end.

(** [options_description::find_nothrow]; the exception is [ambiguous_option]. *)
Definition is_full (r : match_result) : bool := match r with Full => true | _ => false end.
Definition is_approximate (r : match_result) : bool := match r with Approximate => true | _ => false end.
Definition find_option (approx : bool) (name : text) : parsing (option declared) :=
  match filter (fun d => is_full (matches d approx name)) declarations with
  | [d] => Done (Some d)
  | _ :: _ :: _ => Raised
  | [] =>
      match filter (fun d => is_approximate (matches d approx name)) declarations with
      | [] => Done None
      | [d] => Done (Some d)
      | _ :: _ :: _ => Raised
      end
  end.

(** *** Words *)

(** An option met by the parser ([boost::program_options::option]): its name, empty
    for a word that is no option, and its values. *)
Record met : Type := { name : text; values : list text }.

(** The parts before and after the first ["="]. *)
Fixpoint split_equals (t : text) : option (text * text) :=
  match t with
  | [] => None
  | c :: t =>
      if ascii_dec c "=" then Some ([], t)
      else match split_equals t with None => None | Some (a, b) => Some (c :: a, b) end
  end.

(** [cmdline::parse_long_option] for a word: [None] if it is not of this form. *)
Definition long_option (w : text) : parsing (option (list met)) :=
  match w with
  | "-"%char :: "-"%char :: c :: t =>
      match split_equals (c :: t) with
      | Some (_, []) => Raised
      | Some (n, v) => Done (Some [{| name := n; values := [v] |}])
      | None => Done (Some [{| name := c :: t; values := [] |}])
      end
  | _ => Done None
  end.

(** The loop of [cmdline::parse_short_option] over the letters of a word: an option
    without a value may be followed by further letters. *)
Fixpoint short_options (c : ascii) (adjacent : text) : parsing (list met) :=
  let alone := {| name := ["-"%char; c]; values := match adjacent with [] => [] | _ => [adjacent] end |} in
  match adjacent with
  | [] => Done [alone]
  | c' :: rest =>
      then_ (find_option false ["-"%char; c]) (fun d =>
      match d with
      | Some d =>
          if valued d then Done [alone]
          else then_ (short_options c' rest) (fun l =>
               Done ({| name := ["-"%char; c]; values := [] |} :: l))
      | None => Done [alone]
      end)
  end.
(** [cmdline::parse_short_option] for a word. *)
Definition short_option (w : text) : parsing (option (list met)) :=
  match w with
  | "-"%char :: c :: rest =>
      if ascii_dec c "-" then Done None
      else then_ (short_options c rest) (fun l => Done (Some l))
  | _ => Done None
  end.
(** The two parsers of options in their order. *)
Definition option_word (w : text) : parsing (option (list met)) :=
  then_ (long_option w) (fun r => match r with Some l => Done (Some l) | None => short_option w end).

(** *** Values *)

(** [cmdline::finish_option]: checks that the option exists, completes its name and
    takes its value from the words that follow.  A following word is refused only if
    it has the form of an option and, dashes included, is found as a name. *)
Definition finish_option (m : met) (rest : list text) : parsing (met * list text) :=
  match name m with
  | [] => Done (m, rest)
  | _ =>
      then_ (find_option true (name m)) (fun d =>
      match d with
      | None => Raised
      | Some d =>
          if valued d then
            match values m, rest with
            | [], [] => Raised
            | [], w :: rest =>
                then_ (option_word w) (fun r =>
                then_ (match r with Some _ => find_option true w | None => Done None end) (fun known =>
                match known with
                | Some _ => Raised
                | None => Done ({| name := long d; values := [w] |}, rest)
                end))
            | vs, _ => Done ({| name := long d; values := vs |}, rest)
            end
          else
            match values m with
            | [] => Done ({| name := long d; values := [] |}, rest)
            | _ => Raised
            end
      end)
  end.
(** The options of one word: only the last one can take a value from the next words,
    [cmdline::run]. *)
Fixpoint finish_options (l : list met) (rest : list text) : parsing (list met * list text) :=
  match l with
  | [] => Done ([], rest)
  | [m] => then_ (finish_option m rest) (fun r => Done ([fst r], snd r))
  | m :: l =>
      then_ (finish_option m []) (fun r =>
      then_ (finish_options l rest) (fun r' => Done (fst r :: fst r', snd r')))
  end.

(** [cmdline::run]: all words; [fuel] bounds the number of iterations.  Options of
    this application never take more than one value, so the second loop of [run],
    which hands out the remaining words, has no effect. *)
Definition stray (w : text) : met := {| name := []; values := [w] |}.
Fixpoint parse_words (fuel : nat) (args : list text) : parsing (list met) :=
  match args with
  | [] => Done []
  | w :: rest =>
      match fuel with
      | O => Endless
      | S fuel =>
          then_ (option_word w) (fun r =>
          match r with
          | Some l =>
              then_ (finish_options l rest) (fun r =>
              then_ (parse_words fuel (snd r)) (fun l => Done (fst r ++ l)))
          | None =>
              if same_text w (lit "--") then Done (map stray rest)
              else then_ (parse_words fuel rest) (fun l => Done (stray w :: l))
          end)
      end
  end.

(** *** Storing *)

(** The map filled by [store]: the value of every option by its long name ([""] for
    --help). *)
Definition store_option (m : list (text * text)) (n : text) : option text :=
  match find (fun e => same_text (fst e) n) m with Some e => Some (snd e) | None => None end.
(** [store] and [validate]: words without a name are skipped; a second value of an
    option is a [multiple_occurrences]. *)
Fixpoint store (m : list (text * text)) (l : list met) : option (list (text * text)) :=
  match l with
  | [] => Some m
  | o :: l =>
      match name o with
      | [] => store m l
      | n =>
          match store_option m n with
          | Some _ => None
          | None => store ((n, match values o with v :: _ => v | [] => [] end) :: m) l
          end
      end
  end.

(** [parse_command_line] and [store], lib/main.cpp 62-77, for the words after the
    name of the program.  A run of the parser without end would be [None]. *)
Definition parse_command_line (args : list text) : option parsed :=
  match parse_words (List.length args) args with
  | Endless => None
  | Raised => Some Rejected
  | Done l =>
      match store [] l with
      | None => Some Repeated
      | Some m => Some (Parsed {|
          o_help := match store_option m (lit "help") with Some _ => true | None => false end;
          o_parallel := store_option m (lit "parallel");
          o_left := store_option m (lit "left-image");
          o_right := store_option m (lit "right-image");
          o_output := store_option m (lit "output-image");
          o_levels := store_option m (lit "disparity-levels");
          o_smoothness := store_option m (lit "smoothness");
          o_cleanness := store_option m (lit "cleanness") |})
      end
  end.

(** The application run with these words, lib/main.cpp 33-279. *)
Definition run_application (srt : list (F cpu) -> list (F cpu)) (w : world) (args : list text)
  : outcome effects :=
  match parse_command_line args with
  | None => Stop Diverge
  | Some p => main srt w p
  end.
