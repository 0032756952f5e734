(** Vocabulary for runs with scarce memory. *)
From Verif Require Export Memory Main_spec.
Local Open Scope N_scope.

(** The text has more than fifteen characters without white space in between. *)
Definition long_word (t : text) : Prop :=
  exists a v b, t = a ++ v ++ b /\ 15 < len v /\ forall c, In c v -> ~ space c.

(** One of the images is read from a file with such a word. *)
Definition long_words (w : world) (p : parsed) : Prop :=
  exists o path t, p = Parsed o /\ (o_left o = Some path \/ o_right o = Some path) /\
    files w path = Some t /\ long_word t.

(** The run ends with this. *)
Definition ends_with (e : fate) (s : N) (m : option message) (f : option (text * text)) : Prop :=
  e = Ends (Ok (ends s m f)).
