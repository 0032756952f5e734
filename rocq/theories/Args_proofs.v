(** Lemmas about the command line. *)
From Coq Require Import String Lia Permutation.
From Verif Require Export Args_spec App_proofs.
Local Open Scope N_scope.

(** *** Names *)

Lemma same_text_true a b : same_text a b = true <-> a = b.
Proof. unfold same_text. destruct (list_eq_dec ascii_dec a b); split; congruence. Qed.
Lemma same_text_refl a : same_text a a = true.
Proof. now apply same_text_true. Qed.
Lemma same_text_false a b : a <> b -> same_text a b = false.
Proof. intros H. destruct (same_text a b) eqn:E; [apply same_text_true in E; contradiction|reflexivity]. Qed.

Lemma starts_with_true p t : starts_with p t = true <-> exists rest, t = p ++ rest.
Proof.
  revert t. induction p as [|c p IH]; intros t; cbn [starts_with].
  - split; [intros _; now exists t|reflexivity].
  - destruct t as [|d t].
    + split; [discriminate|]. intros [rest H]. discriminate H.
    + destruct (ascii_dec c d) as [->|N].
      * rewrite IH. split; intros [rest H].
        -- exists rest. now rewrite H.
        -- exists rest. now injection H.
      * split; [discriminate|]. intros [rest H]. injection H as E _. congruence.
Qed.

Definition decl (k : choice) : declared :=
  {| long := word_of k; letter := letter_of k; valued := match k with ForHelp => false | _ => true end |}.
Definition choices : list choice :=
  [ForHelp; ForParallel; ForLeft; ForRight; ForOutput; ForLevels; ForSmoothness; ForCleanness].
Lemma in_choices k : In k choices.
Proof. destruct k; cbn; tauto. Qed.
Lemma declarations_eq : declarations = map decl choices.
Proof. reflexivity. Qed.

Lemma choice_dec (a b : choice) : {a = b} + {a <> b}.
Proof. decide equality. Qed.
Lemma letter_inj a b : letter_of a = letter_of b -> a = b.
Proof. destruct a, b; (reflexivity || discriminate). Qed.
Lemma word_inj a b : word_of a = word_of b -> a = b.
Proof. destruct a, b; (reflexivity || discriminate). Qed.
Lemma word_nonempty k : word_of k <> [].
Proof. destruct k; discriminate. Qed.

(** All beginnings of a text. *)
Fixpoint beginnings (t : text) : list text :=
  [] :: match t with [] => [] | c :: t => map (cons c) (beginnings t) end.
Lemma in_beginnings p rest : In p (beginnings (p ++ rest)).
Proof.
  induction p as [|c p IH]; cbn [app beginnings].
  - destruct rest; now left.
  - right. now apply in_map.
Qed.
Definition names (k : choice) : list text :=
  ["-"%char; letter_of k] :: filter (fun n => match n with [] => false | _ => true end) (beginnings (word_of k)).
Lemma calls_in k n : calls k n -> In n (names k).
Proof.
  intros [[N [rest E]]| ->]; [|now left]. right. apply filter_In. split.
  - rewrite E. apply in_beginnings.
  - destruct n; congruence.
Qed.
Definition finds (k : choice) (n : text) : bool :=
  match find_option true n with
  | Done (Some d) => same_text (long d) (word_of k) && Bool.eqb (valued d) (valued (decl k)) &&
      (if ascii_dec (letter d) (letter_of k) then true else false)
  | _ => false
  end.
Lemma finds_true k n : finds k n = true -> find_option true n = Done (Some (decl k)).
Proof.
  unfold finds. destruct (find_option true n) as [[d|]| |]; try discriminate.
  rewrite !andb_true_iff, same_text_true, Bool.eqb_true_iff. destruct d as [dl dc dv]. cbn [long letter valued].
  intros [[-> ->] E]. destruct (ascii_dec dc (letter_of k)) as [->|]; [reflexivity|discriminate].
Qed.
Lemma all_finds : forallb (fun k => forallb (finds k) (names k)) choices = true.
Proof. vm_compute. reflexivity. Qed.
Lemma calls_found k n : calls k n -> find_option true n = Done (Some (decl k)).
Proof.
  intros H. apply finds_true. pose proof all_finds as A. rewrite forallb_forall in A.
  specialize (A k (in_choices k)). cbn beta in A. rewrite forallb_forall in A. apply A. now apply calls_in.
Qed.
Lemma calls_same k k' n : calls k n -> calls k' n -> k = k'.
Proof.
  intros H H'. apply calls_found in H. apply calls_found in H'. rewrite H in H'. injection H' as E.
  now apply word_inj.
Qed.
Lemma match_calls k n : n <> [] -> matches (decl k) true n <> NoMatch -> calls k n.
Proof.
  intros N. unfold matches. cbn [long short_name letter decl andb].
  destruct (same_text (word_of k) n) eqn:E.
  { intros _. left. split; [exact N|]. apply same_text_true in E. exists []. rewrite app_nil_r. exact E. }
  destruct (same_text (short_name (decl k)) n) eqn:E'.
  { intros _. right. apply same_text_true in E'. now symmetry. }
  destruct (starts_with n (word_of k)) eqn:S; [|intros H; now elim H]. intros _. left. split; [exact N|].
  now apply starts_with_true.
Qed.
Lemma filter_nil {A} (f : A -> bool) l : (forall x, In x l -> f x = false) -> filter f l = [].
Proof.
  induction l as [|a l IH]; [reflexivity|]. intros H. cbn [filter]. rewrite (H a (or_introl eq_refl)).
  apply IH. intros x Hx. apply H. now right.
Qed.
Lemma uncalled n : n <> [] -> (forall k, ~ calls k n) -> find_option true n = Done None.
Proof.
  intros N H. unfold find_option. rewrite !filter_nil; [reflexivity| |];
    intros d Hd; rewrite declarations_eq in Hd; apply in_map_iff in Hd as (k & <- & _);
    destruct (matches (decl k) true n) eqn:E; try reflexivity;
    (exfalso; apply (H k); apply match_calls; [exact N|rewrite E; discriminate]).
Qed.
Lemma calls_dec n : {k | calls k n} + {forall k, ~ calls k n}.
Proof.
  destruct n as [|c n].
  { right. intros k [[N _]|E]; [now apply N|discriminate]. }
  assert (D : forall k, {calls k (c :: n)} + {~ calls k (c :: n)}).
  { intros k. destruct (matches (decl k) true (c :: n)) eqn:E.
    - right. intros H. revert E. destruct H as [[_ [rest E]]|E]; unfold matches; cbn [long short_name letter decl andb].
      + destruct (same_text (word_of k) (c :: n)); [discriminate|]. destruct (same_text (short_name (decl k)) (c :: n)); [discriminate|].
        rewrite (proj2 (starts_with_true (c :: n) (word_of k))) by (exists rest; exact E). discriminate.
      + rewrite E. destruct (same_text (word_of k) _); [discriminate|]. unfold short_name. cbn [letter decl].
        rewrite same_text_refl. discriminate.
    - left. apply match_calls; [discriminate|rewrite E; discriminate].
    - left. apply match_calls; [discriminate|rewrite E; discriminate]. }
  destruct (D ForHelp) as [H|H0]; [left; eexists; exact H|]. destruct (D ForParallel) as [H|H1]; [left; eexists; exact H|].
  destruct (D ForLeft) as [H|H2]; [left; eexists; exact H|]. destruct (D ForRight) as [H|H3]; [left; eexists; exact H|].
  destruct (D ForOutput) as [H|H4]; [left; eexists; exact H|]. destruct (D ForLevels) as [H|H5]; [left; eexists; exact H|].
  destruct (D ForSmoothness) as [H|H6]; [left; eexists; exact H|]. destruct (D ForCleanness) as [H|H7]; [left; eexists; exact H|].
  right. intros k. destruct k; assumption.
Qed.

(** Letters. *)
Lemma letter_found k : find_option false ["-"%char; letter_of k] = Done (Some (decl k)).
Proof. destruct k; vm_compute; reflexivity. Qed.
Lemma letter_unknown c : (forall k, c <> letter_of k) -> find_option false ["-"%char; c] = Done None.
Proof.
  intros H. unfold find_option. rewrite !filter_nil; [reflexivity| |];
    intros d Hd; rewrite declarations_eq in Hd; apply in_map_iff in Hd as (k & <- & _);
    unfold matches; cbn [long short_name letter decl andb];
    rewrite (same_text_false (word_of k)) by (destruct k; discriminate); unfold short_name; cbn [letter decl];
    rewrite same_text_false by (intros E; injection E as E; exact (H k (eq_sym E))); reflexivity.
Qed.
Lemma letter_dec c : {k | c = letter_of k} + {forall k, c <> letter_of k}.
Proof.
  destruct (ascii_dec c "h") as [->|H0]; [left; now exists ForHelp|].
  destruct (ascii_dec c "p") as [->|H1]; [left; now exists ForParallel|].
  destruct (ascii_dec c "l") as [->|H2]; [left; now exists ForLeft|].
  destruct (ascii_dec c "r") as [->|H3]; [left; now exists ForRight|].
  destruct (ascii_dec c "o") as [->|H4]; [left; now exists ForOutput|].
  destruct (ascii_dec c "d") as [->|H5]; [left; now exists ForLevels|].
  destruct (ascii_dec c "s") as [->|H6]; [left; now exists ForSmoothness|].
  destruct (ascii_dec c "c") as [->|H7]; [left; now exists ForCleanness|].
  right. intros k. destruct k; assumption.
Qed.
Lemma dash_letter_calls k c : calls k ["-"%char; c] <-> c = letter_of k.
Proof.
  split.
  - intros [[_ [rest E]]|E]; [destruct k; discriminate|now injection E].
  - intros ->. now right.
Qed.
Lemma calls_no_equals k n : calls k n -> ~ In "="%char n.
Proof.
  intros [[_ [rest E]]| ->] I.
  - assert (J : In "="%char (word_of k)) by (rewrite E; apply in_or_app; now left). revert J.
    destruct k; cbn; intuition discriminate.
  - destruct k; cbn in I; intuition discriminate.
Qed.

(** *** Words *)

Lemma split_some t a b : split_equals t = Some (a, b) <-> t = a ++ "="%char :: b /\ ~ In "="%char a.
Proof.
  revert a b. induction t as [|c t IH]; intros a b; cbn [split_equals].
  - split; [discriminate|]. intros [E _]. destruct a; discriminate E.
  - destruct (ascii_dec c "=") as [->|N].
    + split.
      * intros E. injection E as <- <-. split; [reflexivity|now intros []].
      * intros [E H]. destruct a as [|d a]; [now injection E as ->|]. exfalso. injection E as E _. apply H. now left.
    + destruct (split_equals t) as [[a' b']|] eqn:S.
      * split.
        -- intros E. injection E as <- <-. destruct (proj1 (IH a' b') eq_refl) as [-> H]. split; [reflexivity|].
           intros [E|I]; [now apply N|now apply H].
        -- intros [E H]. destruct a as [|d a]; [injection E as E _; contradiction|]. injection E as <- E.
           assert (S' : Some (a', b') = Some (a, b)).
           { apply IH. split; [exact E|]. intros I. apply H. now right. }
           injection S' as -> ->. reflexivity.
      * split; [discriminate|]. intros [E H]. destruct a as [|d a]; [injection E as E _; contradiction|]. injection E as <- E.
        assert (S' : None = Some (a, b)) by (apply IH; split; [exact E|intros I; apply H; now right]). discriminate S'.
Qed.
Lemma split_none t : split_equals t = None <-> ~ In "="%char t.
Proof.
  induction t as [|c t IH]; cbn [split_equals].
  - split; [now intros _ []|reflexivity].
  - destruct (ascii_dec c "=") as [->|N].
    + split; [discriminate|]. intros H. exfalso. apply H. now left.
    + destruct (split_equals t) as [[a b]|].
      * split; [discriminate|]. intros H. enough (Some (a, b) = None) by discriminate. apply IH. intros I. apply H. now right.
      * split; [|reflexivity]. intros _ [E|I]; [now apply N|]. now apply IH in I.
Qed.

(** The forms of words. *)
Inductive form : text -> Type :=
| form_plain w : hd_error w <> Some "-"%char -> form w
| form_dash : form (lit "-")
| form_dashes : form (lit "--")
| form_long n : n <> [] -> form (lit "--" ++ n)
| form_short c rest : c <> "-"%char -> form ("-"%char :: c :: rest).
Lemma form_of w : form w.
Proof.
  destruct w as [|a w]; [now apply form_plain|].
  destruct (ascii_dec a "-") as [->|N]; [|apply form_plain; cbn; congruence].
  destruct w as [|b w]; [exact form_dash|].
  destruct (ascii_dec b "-") as [->|N]; [|now apply form_short].
  destruct w as [|c w]; [exact form_dashes|]. now apply (form_long (c :: w)).
Qed.
Lemma word_plain w : hd_error w <> Some "-"%char -> option_word w = Done None.
Proof.
  intros H. destruct w as [|a w]; [reflexivity|].
  assert (N : a <> "-"%char) by (intros ->; now apply H).
  unfold option_word, long_option, short_option.
  destruct a as [b0 b1 b2 b3 b4 b5 b6 b7]. destruct b0, b1, b2, b3, b4, b5, b6, b7; try reflexivity.
  now elim N.
Qed.
Lemma word_long n : n <> [] -> option_word (lit "--" ++ n) =
  match split_equals n with
  | Some (_, []) => Raised
  | Some (m, v) => Done (Some [{| name := m; values := [v] |}])
  | None => Done (Some [{| name := n; values := [] |}])
  end.
Proof.
  destruct n as [|c n]; [congruence|]. intros _. unfold option_word, long_option.
  change (lit "--" ++ c :: n) with ("-"%char :: "-"%char :: c :: n). cbv beta iota.
  destruct (split_equals (c :: n)) as [[a [|b v]]|]; reflexivity.
Qed.
Lemma word_short c rest : c <> "-"%char ->
  option_word ("-"%char :: c :: rest) = then_ (short_options c rest) (fun l => Done (Some l)).
Proof.
  intros N. unfold option_word, long_option, short_option.
  destruct (ascii_dec c "-") as [E|_]; [contradiction|].
  destruct c as [b0 b1 b2 b3 b4 b5 b6 b7]. destruct b0, b1, b2, b3, b4, b5, b6, b7; try reflexivity.
  now elim N.
Qed.

(** An option as met in a letter. *)
Definition dashed (c : ascii) (v : text) : met :=
  {| name := ["-"%char; c]; values := match v with [] => [] | _ => [v] end |}.
Lemma short_options_help c rest : short_options "h" (c :: rest) =
  then_ (short_options c rest) (fun l => Done (dashed "h" [] :: l)).
Proof. cbn [short_options]. pose proof (letter_found ForHelp) as L. cbn [letter_of] in L. rewrite L. reflexivity. Qed.
Lemma short_options_other c rest : c <> "h"%char -> short_options c rest = Done [dashed c rest].
Proof.
  intros N. destruct rest as [|d rest]; [reflexivity|]. cbn [short_options].
  destruct (letter_dec c) as [[k ->]|U].
  - rewrite letter_found. destruct k; try reflexivity. now elim N.
  - rewrite (letter_unknown _ U). reflexivity.
Qed.
Lemma short_options_end c : short_options c [] = Done [dashed c []].
Proof. reflexivity. Qed.
(** Letters of help, then another letter or none. *)
Lemma short_options_all c rest : 
  (exists n, c :: rest = repeat "h"%char (S n) /\ short_options c rest = Done (repeat (dashed "h" []) (S n))) \/
  exists n d v, d <> "h"%char /\ c :: rest = repeat "h"%char n ++ d :: v /\
    short_options c rest = Done (repeat (dashed "h" []) n ++ [dashed d v]).
Proof.
  revert c. induction rest as [|c' rest IH]; intros c.
  - destruct (ascii_dec c "h") as [->|N].
    + left. now exists O.
    + right. exists O, c, []. split; [exact N|]. split; reflexivity.
  - destruct (ascii_dec c "h") as [->|N].
    + rewrite short_options_help. destruct (IH c') as [(n & E & ->)|(n & d & v & Nd & E & ->)].
      * left. exists (S n). split; [|reflexivity]. rewrite E. reflexivity.
      * right. exists (S n), d, v. split; [exact Nd|]. split; [|reflexivity]. rewrite E. reflexivity.
    + right. exists O, c, (c' :: rest). split; [exact N|]. split; [reflexivity|]. now apply short_options_other.
Qed.
Lemma short_options_helps n c v : c <> "h"%char ->
  match repeat "h"%char n ++ c :: v with d :: rest => short_options d rest | [] => Raised end =
  Done (repeat (dashed "h" []) n ++ [dashed c v]).
Proof.
  intros N. induction n as [|n IH]; cbn [repeat app].
  - now apply short_options_other.
  - destruct (repeat "h"%char n ++ c :: v) as [|d rest] eqn:E; [destruct n; discriminate E|].
    rewrite short_options_help, IH. reflexivity.
Qed.
Lemma short_options_only n : short_options "h" (repeat "h"%char n) = Done (repeat (dashed "h" []) (S n)).
Proof.
  induction n as [|n IH]; [reflexivity|]. cbn [repeat]. rewrite short_options_help, IH. reflexivity.
Qed.

(** *** Values *)

Lemma follows_found v : can_follow v ->
  exists r, option_word v = Done r /\ (match r with Some _ => find_option true v | None => Done None end) = Done None.
Proof.
  intros [L E]. destruct (form_of v) as [v P| | |n Hn|c rest Hc].
  - exists None. split; [now apply word_plain|reflexivity].
  - exists None. split; reflexivity.
  - exists None. split; reflexivity.
  - assert (U : find_option true (lit "--" ++ n) = Done None).
    { apply uncalled; [discriminate|]. intros k [[_ [rest H]]|H]; [destruct k; discriminate H|].
      destruct k; discriminate H. }
    rewrite (word_long _ Hn). destruct (split_equals n) as [[a [|b w]]|] eqn:S.
    + exfalso. apply E. apply split_some in S as [-> S]. exists a. split; [reflexivity|exact S].
    + eexists. split; [reflexivity|exact U].
    + eexists. split; [reflexivity|exact U].
  - rewrite (word_short _ _ Hc).
    assert (U : find_option true ("-"%char :: c :: rest) = Done None).
    { apply uncalled; [discriminate|]. intros k [[_ [r H]]|H]; [destruct k; discriminate H|]. now apply (L k). }
    destruct (short_options_all c rest) as [(n & _ & ->)|(n & d & w & _ & _ & ->)]; (eexists; split; [reflexivity|exact U]).
Qed.
Lemma follows_only v r : option_word v = Done r ->
  (match r with Some _ => find_option true v | None => Done None end) = Done None -> can_follow v.
Proof.
  intros W F. split.
  - intros k ->. rewrite word_short in W by (destruct k; discriminate).
    rewrite short_options_end in W. cbn [then_] in W. injection W as <-.
    rewrite (calls_found k) in F by now right. discriminate.
  - intros (n & -> & H). rewrite word_long in W by now destruct n.
    rewrite (proj2 (split_some (n ++ lit "=") n [])) in W by (split; [reflexivity|exact H]). discriminate.
Qed.

Definition item (e : choice * text) : met :=
  {| name := word_of (fst e); values := match fst e with ForHelp => [] | _ => [snd e] end |}.

Lemma finish_unknown m rest : name m <> [] -> (forall k, ~ calls k (name m)) -> finish_option m rest = Raised.
Proof.
  intros N H. unfold finish_option. rewrite (uncalled _ N H). destruct (name m); [congruence|reflexivity].
Qed.
Lemma finish_help m rest : calls ForHelp (name m) -> values m = [] -> finish_option m rest = Done (item (ForHelp, []), rest).
Proof.
  intros C V. unfold finish_option. rewrite (calls_found _ _ C), V. destruct (name m) as [|c n]; [|reflexivity].
  destruct C as [[N _]|E]; [now elim N|discriminate].
Qed.
Lemma finish_here k m v rest : k <> ForHelp -> calls k (name m) -> values m = [v] ->
  finish_option m rest = Done (item (k, v), rest).
Proof.
  intros NH C V. unfold finish_option. rewrite (calls_found _ _ C), V. destruct (name m) as [|c n].
  - destruct C as [[N _]|E]; [now elim N|discriminate].
  - destruct k; [now elim NH|reflexivity..].
Qed.
Lemma finish_next k m v rest : k <> ForHelp -> calls k (name m) -> values m = [] -> can_follow v ->
  finish_option m (v :: rest) = Done (item (k, v), rest).
Proof.
  intros NH C V L. unfold finish_option. rewrite (calls_found _ _ C), V. destruct (follows_found v L) as (r & -> & E).
  cbn [then_]. rewrite E. destruct (name m) as [|c n].
  - destruct C as [[N _]|E']; [now elim N|discriminate].
  - destruct k; [now elim NH|reflexivity..].
Qed.
(** What a finished option was. *)
Lemma finish_inv m rest x : name m <> [] -> finish_option m rest = Done x ->
  (calls ForHelp (name m) /\ values m = [] /\ x = (item (ForHelp, []), rest)) \/
  (exists k v l, k <> ForHelp /\ calls k (name m) /\ values m = v :: l /\ x = ({| name := word_of k; values := v :: l |}, rest)) \/
  (exists k v rest', k <> ForHelp /\ calls k (name m) /\ values m = [] /\ rest = v :: rest' /\ can_follow v /\ x = (item (k, v), rest')).
Proof.
  intros N H. destruct (calls_dec (name m)) as [[k C]|U]; [|rewrite finish_unknown in H by assumption; discriminate].
  assert (V : valued (decl k) = match k with ForHelp => false | _ => true end) by reflexivity.
  unfold finish_option in H. rewrite (calls_found _ _ C) in H. cbn [then_] in H. destruct (name m) as [|c n] eqn:En; [congruence|].
  rewrite <- En in *. destruct (choice_dec k ForHelp) as [->|NH].
  - left. cbn [valued decl] in H. destruct (values m) as [|v l] eqn:Ev; [|discriminate]. injection H as <-. auto.
  - right. replace (valued (decl k)) with true in H by (rewrite V; destruct k; congruence).
    destruct (values m) as [|v l] eqn:Ev.
    + right. destruct rest as [|v rest']; [discriminate|]. exists k, v, rest'.
      destruct (option_word v) as [r| |] eqn:W; cbn [then_] in H; try discriminate.
      destruct (match r with Some _ => find_option true v | None => Done None end) as [[d|]| |] eqn:F; cbn [then_] in H; try discriminate.
      injection H as <-. repeat split; try assumption.
      * apply (follows_only v r W F).
      * apply (follows_only v r W F).
      * unfold item. cbn [fst snd]. cbn [long decl]. destruct k; [now elim NH|reflexivity..].
    + left. exists k, v, l. injection H as <-. auto.
Qed.

(** *** All words *)

Lemma finish_options_last n m rest : finish_options (repeat (dashed "h" []) n ++ [m]) rest =
  then_ (finish_option m rest) (fun r => Done (repeat (item (ForHelp, [])) n ++ [fst r], snd r)).
Proof.
  induction n as [|n IH]; [reflexivity|]. cbn [repeat app finish_options].
  destruct (repeat (dashed "h" []) n ++ [m]) as [|a l] eqn:E; [destruct n; discriminate|]. rewrite <- E in *.
  rewrite IH. rewrite (finish_help (dashed "h" []) []) by (try reflexivity; now right). cbn [then_].
  destruct (finish_option m rest) as [[x y]| |]; reflexivity.
Qed.
Lemma repeat_snoc {A} (a : A) n : repeat a (S n) = repeat a n ++ [a].
Proof. induction n as [|n IH]; [reflexivity|]. cbn [repeat app]. f_equal. exact IH. Qed.
Lemma finish_options_helps n rest : finish_options (repeat (dashed "h" []) (S n)) rest =
  Done (repeat (item (ForHelp, [])) (S n), rest).
Proof.
  rewrite !repeat_snoc, finish_options_last.
  rewrite (finish_help (dashed "h" []) rest) by (try reflexivity; now right). reflexivity.
Qed.

Definition keep (l : list met) : list met := filter (fun m => match name m with [] => false | _ => true end) l.
Lemma keep_app a b : keep (a ++ b) = keep a ++ keep b.
Proof. apply filter_app. Qed.
Lemma keep_item e l : keep (item e :: l) = item e :: keep l.
Proof. destruct e as [k v]. destruct k; reflexivity. Qed.
Lemma keep_items s : keep (map item s) = map item s.
Proof. induction s as [|e s IH]; [reflexivity|]. cbn [map]. rewrite keep_item, IH. reflexivity. Qed.
Lemma keep_strays l : keep (map stray l) = [].
Proof. induction l as [|a l IH]; [reflexivity|exact IH]. Qed.
Lemma map_helps n : map item (helps n) = repeat (item (ForHelp, [])) n.
Proof. induction n as [|n IH]; [reflexivity|]. cbn [helps repeat map]. f_equal. exact IH. Qed.

Definition proceed (fuel : nat) (r : parsing (option (list met))) (w : text) (rest : list text) : parsing (list met) :=
  then_ r (fun r =>
  match r with
  | Some l =>
      then_ (finish_options l rest) (fun r =>
      then_ (parse_words fuel (snd r)) (fun l => Done (fst r ++ l)))
  | None =>
      if same_text w (lit "--") then Done (map stray rest)
      else then_ (parse_words fuel rest) (fun l => Done (stray w :: l))
  end).
Lemma parse_step fuel w rest : parse_words (S fuel) (w :: rest) = proceed fuel (option_word w) w rest.
Proof. reflexivity. Qed.
Lemma proceed_one fuel l w rest s rest' e : finish_options l rest = Done (map item e, rest') ->
  (exists l', parse_words fuel rest' = Done l' /\ keep l' = map item s) ->
  exists l', proceed fuel (Done (Some l)) w rest = Done l' /\ keep l' = map item (e ++ s).
Proof.
  intros F (l' & P & K). unfold proceed. cbn [then_]. rewrite F. cbn [then_ fst snd]. rewrite P.
  eexists. split; [reflexivity|]. rewrite keep_app, keep_items, K, map_app. reflexivity.
Qed.
Lemma letters_form n c v : letters n ++ c :: v = "-"%char :: repeat "h"%char n ++ c :: v.
Proof. reflexivity. Qed.

Lemma gives_parsed args s : gives args s -> forall fuel, (List.length args <= fuel)%nat ->
  exists l, parse_words fuel args = Done l /\ keep l = map item s.
Proof.
  induction 1 as [|ws|w ws s Sk H IH|n ws s C H IH|k n v ws s NH C V H IH|k n v ws s NH C L H IH
                  |n ws s H IH|n k v ws s NH V H IH|n k v ws s NH L H IH]; intros fuel Hf.
  - exists []. split; [destruct fuel; reflexivity|reflexivity].
  - destruct fuel as [|fuel]; [cbn in Hf; lia|]. exists (map stray ws). split; [reflexivity|apply keep_strays].
  - destruct fuel as [|fuel]; [cbn in Hf; lia|]. destruct (IH fuel) as (l & P & K); [cbn in Hf; lia|].
    rewrite parse_step. destruct Sk as [Sk|[->|(v & V & ->)]].
    + rewrite (word_plain _ Sk). unfold proceed. cbn [then_]. rewrite same_text_false by (intros ->; now apply Sk).
      rewrite P. eexists. split; [reflexivity|exact K].
    + unfold proceed. change (option_word (lit "-")) with (@Done (option (list met)) None). cbn [then_].
      rewrite same_text_false by discriminate. rewrite P. eexists. split; [reflexivity|exact K].
    + change (lit "--=" ++ v) with (lit "--" ++ ("="%char :: v)). rewrite word_long by discriminate.
      cbn [split_equals]. destruct (ascii_dec "=" "=") as [_|N]; [|now elim N]. destruct v as [|b v]; [congruence|].
      unfold proceed. cbn [then_ finish_options finish_option name fst snd]. rewrite P. eexists. split; [reflexivity|exact K].
  - destruct fuel as [|fuel]; [cbn in Hf; lia|]. rewrite parse_step.
    rewrite word_long by (destruct C as [[N _]| ->]; [exact N|discriminate]).
    rewrite (proj2 (split_none n)) by now apply (calls_no_equals ForHelp).
    apply (proceed_one fuel _ _ _ s ws [(ForHelp, [])]).
    + cbn [finish_options]. rewrite finish_help by (reflexivity || exact C). reflexivity.
    + apply IH. cbn in Hf. lia.
  - destruct fuel as [|fuel]; [cbn in Hf; lia|]. rewrite parse_step.
    rewrite word_long by (destruct n; discriminate).
    rewrite (proj2 (split_some (n ++ lit "=" ++ v) n v)) by (split; [reflexivity|now apply (calls_no_equals k)]).
    destruct v as [|b v]; [congruence|].
    apply (proceed_one fuel _ _ _ s ws [(k, b :: v)]).
    + cbn [finish_options]. rewrite (finish_here k _ (b :: v)) by (reflexivity || assumption). reflexivity.
    + apply IH. cbn in Hf. lia.
  - destruct fuel as [|fuel]; [cbn in Hf; lia|]. rewrite parse_step.
    rewrite word_long by (destruct C as [[N _]| ->]; [exact N|discriminate]).
    rewrite (proj2 (split_none n)) by now apply (calls_no_equals k).
    apply (proceed_one fuel _ _ _ s ws [(k, v)]).
    + cbn [finish_options]. rewrite (finish_next k _ v) by (reflexivity || assumption). reflexivity.
    + apply IH. cbn in Hf. lia.
  - destruct fuel as [|fuel]; [cbn in Hf; lia|]. rewrite parse_step.
    change (letters (S n)) with ("-"%char :: "h"%char :: repeat "h"%char n). rewrite word_short by discriminate.
    rewrite short_options_only. cbn [then_].
    apply (proceed_one fuel _ _ _ s ws (helps (S n))).
    + rewrite finish_options_helps, map_helps. reflexivity.
    + apply IH. cbn in Hf. lia.
  - destruct fuel as [|fuel]; [cbn in Hf; lia|]. rewrite parse_step. rewrite letters_form.
    pose proof (short_options_helps n (letter_of k) v) as S.
    assert (NL : letter_of k <> "h"%char) by (destruct k; (discriminate || congruence)). specialize (S NL).
    destruct (repeat "h"%char n ++ letter_of k :: v) as [|d rest] eqn:E; [destruct n; discriminate|].
    assert (ND : d <> "-"%char).
    { destruct n; cbn [repeat app] in E; injection E as <- _; [destruct k|]; discriminate. }
    rewrite word_short by exact ND. rewrite S. cbn [then_].
    replace (helps n ++ (k, v) :: s) with ((helps n ++ [(k, v)]) ++ s) by (rewrite <- app_assoc; reflexivity).
    apply (proceed_one fuel _ _ _ s ws (helps n ++ [(k, v)])).
    + rewrite finish_options_last. rewrite (finish_here k _ v).
      * cbn [then_ fst snd]. rewrite map_app, map_helps. reflexivity.
      * exact NH.
      * now right.
      * destruct v; [congruence|reflexivity].
    + apply IH. cbn in Hf. lia.
  - destruct fuel as [|fuel]; [cbn in Hf; lia|]. rewrite parse_step. rewrite letters_form.
    pose proof (short_options_helps n (letter_of k) []) as S.
    assert (NL : letter_of k <> "h"%char) by (destruct k; (discriminate || congruence)). specialize (S NL).
    destruct (repeat "h"%char n ++ [letter_of k]) as [|d rest] eqn:E; [destruct n; discriminate|].
    assert (ND : d <> "-"%char).
    { destruct n; cbn [repeat app] in E; injection E as <- _; [destruct k|]; discriminate. }
    rewrite word_short by exact ND. rewrite S. cbn [then_].
    replace (helps n ++ (k, v) :: s) with ((helps n ++ [(k, v)]) ++ s) by (rewrite <- app_assoc; reflexivity).
    apply (proceed_one fuel _ _ _ s ws (helps n ++ [(k, v)])).
    + rewrite finish_options_last. rewrite (finish_next k _ v).
      * cbn [then_ fst snd]. rewrite map_app, map_helps. reflexivity.
      * exact NH.
      * now right.
      * reflexivity.
      * exact L.
    + apply IH. cbn in Hf. lia.
Qed.

Lemma parsed_gives fuel : forall args l, parse_words fuel args = Done l -> exists s, gives args s.
Proof.
  induction fuel as [|fuel IH]; intros args l H.
  { destruct args as [|w args]; [exists []; constructor|discriminate]. }
  destruct args as [|w rest]; [exists []; constructor|].
  rewrite parse_step in H. destruct (form_of w) as [w P| | |n Hn|c v Hc].
  - rewrite (word_plain _ P) in H. unfold proceed in H. cbn [then_] in H.
    destruct (same_text w (lit "--")) eqn:E.
    { apply same_text_true in E. subst w. now elim P. }
    destruct (parse_words fuel rest) as [l'| |] eqn:R; try discriminate. apply IH in R as [s G].
    exists s. apply skips; [now left|exact G].
  - unfold proceed in H. change (option_word (lit "-")) with (@Done (option (list met)) None) in H. cbn [then_] in H.
    rewrite same_text_false in H by discriminate.
    destruct (parse_words fuel rest) as [l'| |] eqn:R; try discriminate. apply IH in R as [s G].
    exists s. apply skips; [now right; left|exact G].
  - exists []. apply after_dashes.
  - rewrite (word_long _ Hn) in H. destruct (split_equals n) as [[m [|b v]]|] eqn:S; [discriminate| |].
    + apply split_some in S as [-> S]. unfold proceed in H. cbn [then_ finish_options] in H.
      destruct m as [|c m].
      * cbn [finish_option name then_ fst snd] in H.
        destruct (parse_words fuel rest) as [l'| |] eqn:R; try discriminate. apply IH in R as [s G].
        exists s. apply skips; [right; right; exists (b :: v); split; [discriminate|reflexivity]|exact G].
      * destruct (finish_option {| name := c :: m; values := [b :: v] |} rest) as [x| |] eqn:F; try discriminate.
        cbn [then_ fst snd] in H. destruct (parse_words fuel (snd x)) as [l'| |] eqn:R; try discriminate. apply IH in R as [s G].
        apply finish_inv in F; [|discriminate]. cbn [name values] in F.
        destruct F as [(_ & F & _)|[(k & v' & t & NH & C & F & ->)|(k & v' & t & _ & _ & F & _)]]; try discriminate.
        injection F as <- <-. cbn [snd] in G. exists ((k, b :: v) :: s).
        exact (long_here k (c :: m) (b :: v) rest s NH C ltac:(discriminate) G).
    + unfold proceed in H. cbn [then_ finish_options] in H.
      destruct (finish_option {| name := n; values := [] |} rest) as [x| |] eqn:F; try discriminate.
      cbn [then_ fst snd] in H. destruct (parse_words fuel (snd x)) as [l'| |] eqn:R; try discriminate. apply IH in R as [s G].
      apply finish_inv in F; [|exact Hn]. cbn [name values] in F.
      destruct F as [(C & _ & ->)|[(k & v' & t & NH & C & F & ->)|(k & v' & t & NH & C & _ & -> & L & ->)]]; try discriminate.
      * exists ((ForHelp, []) :: s). now apply long_help.
      * exists ((k, v') :: s). now apply long_next.
  - rewrite (word_short _ _ Hc) in H.
    destruct (short_options_all c v) as [(n & E & Sh)|(n & d & v' & Nd & E & Sh)]; rewrite Sh in H; cbn [then_] in H;
      unfold proceed in H; cbn [then_] in H.
    + rewrite finish_options_helps in H. cbn [then_ fst snd] in H.
      destruct (parse_words fuel rest) as [l'| |] eqn:R; try discriminate. apply IH in R as [s G].
      exists (helps (S n) ++ s). rewrite E. exact (short_help n rest s G).
    + rewrite finish_options_last in H.
      destruct (finish_option (dashed d v') rest) as [x| |] eqn:F; try discriminate.
      cbn [then_ fst snd] in H. destruct (parse_words fuel (snd x)) as [l'| |] eqn:R; try discriminate. apply IH in R as [s G].
      apply finish_inv in F; [|discriminate]. cbn [name values dashed] in F. rewrite E, <- letters_form.
      destruct F as [(C & _ & _)|[(k & v'' & t & NH & C & F & ->)|(k & v'' & t & NH & C & F & -> & L & ->)]].
      * apply dash_letter_calls in C. now elim Nd.
      * apply dash_letter_calls in C. subst d. destruct v' as [|b v']; [discriminate|].
        exists (helps n ++ (k, b :: v') :: s). apply short_here; [exact NH|discriminate|exact G].
      * apply dash_letter_calls in C. subst d. destruct v' as [|b v']; [|discriminate].
        exists (helps n ++ (k, v'') :: s). now apply short_next.
Qed.

(** The parser comes to an end. *)
Lemma find_option_ends a n : find_option a n <> Endless.
Proof.
  unfold find_option. destruct (filter _ declarations) as [|x [|y l]]; [|discriminate..].
  destruct (filter _ declarations) as [|x [|y l]]; discriminate.
Qed.
Lemma option_word_ends w : option_word w <> Endless.
Proof.
  destruct (form_of w) as [w P| | |n Hn|c v Hc].
  - rewrite (word_plain _ P). discriminate.
  - discriminate.
  - discriminate.
  - rewrite (word_long _ Hn). destruct (split_equals n) as [[m [|b v]]|]; discriminate.
  - rewrite (word_short _ _ Hc). destruct (short_options_all c v) as [(n & _ & ->)|(n & d & w & _ & _ & ->)]; discriminate.
Qed.
Lemma finish_option_ends m rest : finish_option m rest <> Endless.
Proof.
  unfold finish_option. destruct (name m) as [|c n] eqn:E; [discriminate|]. rewrite <- E.
  pose proof (find_option_ends true (name m)) as F. destruct (find_option true (name m)) as [[d|]| |]; cbn [then_]; try discriminate; [|now elim F].
  destruct (valued d).
  - destruct (values m); [|discriminate]. destruct rest as [|w rest]; [discriminate|].
    pose proof (option_word_ends w) as W. destruct (option_word w) as [[r|]| |]; cbn [then_]; try discriminate; [|now elim W].
    pose proof (find_option_ends true w) as F'. destruct (find_option true w) as [[d'|]| |]; cbn [then_]; try discriminate; now elim F'.
  - destruct (values m); discriminate.
Qed.
Lemma finish_option_rest m rest x : finish_option m rest = Done x -> (List.length (snd x) <= List.length rest)%nat.
Proof.
  destruct (name m) as [|c n] eqn:E.
  - unfold finish_option. rewrite E. intros H. injection H as <-. apply le_n.
  - intros F. apply finish_inv in F; [|rewrite E; discriminate].
    destruct F as [(_ & _ & ->)|[(k & v & l & _ & _ & _ & ->)|(k & v & t & _ & _ & _ & -> & _ & ->)]]; cbn [snd List.length]; lia.
Qed.
Lemma finish_options_ends l rest : finish_options l rest <> Endless.
Proof.
  induction l as [|m l IH]; [discriminate|]. cbn [finish_options]. destruct l as [|m' l].
  - pose proof (finish_option_ends m rest) as F. destruct (finish_option m rest); [discriminate..|now elim F].
  - pose proof (finish_option_ends m []) as F. destruct (finish_option m []); [|discriminate|now elim F]. cbn [then_].
    destruct (finish_options (m' :: l) rest); [discriminate..|now elim IH].
Qed.
Lemma finish_options_rest l rest x : finish_options l rest = Done x -> (List.length (snd x) <= List.length rest)%nat.
Proof.
  revert x. induction l as [|m l IH]; intros x H.
  - injection H as <-. apply le_n.
  - cbn [finish_options] in H. destruct l as [|m' l].
    + destruct (finish_option m rest) as [y| |] eqn:F; try discriminate. injection H as <-. now apply finish_option_rest in F.
    + destruct (finish_option m []) as [y| |]; try discriminate. cbn [then_] in H.
      destruct (finish_options (m' :: l) rest) as [z| |]; try discriminate. injection H as <-. exact (IH z eq_refl).
Qed.
Lemma parse_words_ends fuel : forall args, (List.length args <= fuel)%nat -> parse_words fuel args <> Endless.
Proof.
  induction fuel as [|fuel IH]; intros args Hf.
  { destruct args; [discriminate|cbn in Hf; lia]. }
  destruct args as [|w rest]; [discriminate|]. cbn [List.length] in Hf.
  rewrite parse_step. unfold proceed. pose proof (option_word_ends w) as W.
  destruct (option_word w) as [[l|]| |]; cbn [then_]; [| |discriminate|now elim W].
  - pose proof (finish_options_ends l rest) as F. destruct (finish_options l rest) as [x| |] eqn:E; cbn [then_]; [|discriminate|now elim F].
    apply finish_options_rest in E. specialize (IH (snd x)). destruct (parse_words fuel (snd x)); [discriminate..|].
    intros _. apply IH; [lia|reflexivity].
  - destruct (same_text w (lit "--")); [discriminate|]. specialize (IH rest). destruct (parse_words fuel rest); [discriminate..|].
    intros _. apply IH; [lia|reflexivity].
Qed.

(** *** Storing *)

Lemma store_keep m l : store m l = store m (keep l).
Proof.
  revert m. induction l as [|o l IH]; intros m; [reflexivity|]. cbn [store]. unfold keep. cbn [filter].
  destruct (name o) as [|c n] eqn:E; [apply IH|]. cbn [store]. rewrite E. destruct (store_option m (c :: n)); [reflexivity|]. apply IH.
Qed.
Definition entry (e : choice * text) : text * text :=
  (word_of (fst e), match fst e with ForHelp => [] | _ => snd e end).
Lemma store_step m e l : store m (item e :: l) =
  match store_option m (word_of (fst e)) with Some _ => None | None => store (entry e :: m) l end.
Proof. destruct e as [k v]. destruct k; reflexivity. Qed.
Lemma store_option_some m k v : store_option (map entry m) (word_of k) = Some v ->
  exists u, In (k, u) m /\ v = match k with ForHelp => [] | _ => u end.
Proof.
  unfold store_option. destruct (find _ _) as [[n u]|] eqn:F; [|discriminate]. intros H. injection H as <-.
  apply find_some in F as [I E]. cbn [fst] in E. apply same_text_true in E. subst n.
  apply in_map_iff in I as ([k' u'] & E & I). unfold entry in E. cbn [fst snd] in E. injection E as E U.
  apply word_inj in E. subst k'. exists u'. split; [exact I|now symmetry].
Qed.
Lemma store_option_none m k : store_option (map entry m) (word_of k) = None <-> ~ In k (map fst m).
Proof.
  unfold store_option. split.
  - destruct (find _ _) eqn:F; [discriminate|]. intros _ I. apply in_map_iff in I as ([k' v] & <- & I).
    apply (in_map entry) in I. apply (find_none _ _ F) in I. cbn [fst entry] in I. rewrite same_text_refl in I. discriminate.
  - intros N. destruct (find _ _) as [[n u]|] eqn:F; [|reflexivity]. exfalso. apply N.
    apply find_some in F as [I E]. cbn [fst] in E. apply same_text_true in E. subst n.
    apply in_map_iff in I as ([k' u'] & E & I). unfold entry in E. cbn [fst snd] in E. injection E as E _.
    apply word_inj in E. subst k'. apply in_map_iff. now exists (k, u').
Qed.
Lemma store_items s : forall m, NoDup (map fst m) ->
  (NoDup (map fst (rev s ++ m)) /\ store (map entry m) (map item s) = Some (map entry (rev s ++ m))) \/
  (~ NoDup (map fst (rev s ++ m)) /\ store (map entry m) (map item s) = None).
Proof.
  induction s as [|e s IH]; intros m D.
  - left. split; [exact D|reflexivity].
  - cbn [map rev]. rewrite store_step, <- app_assoc. cbn [app].
    destruct (store_option (map entry m) (word_of (fst e))) as [v|] eqn:O.
    + right. split; [|reflexivity]. intros N.
      assert (I : In (fst e) (map fst m)).
      { apply store_option_some in O as (u & I & _). apply in_map_iff. now exists (fst e, u). }
      rewrite map_app in N. cbn [map] in N. apply NoDup_remove_2 in N. apply N. apply in_or_app. now right.
    + apply store_option_none in O. apply (IH (e :: m)). cbn [map]. now constructor.
Qed.

(** *** Command lines *)

Lemma gives_help args s v : gives args s -> In (ForHelp, v) s -> v = [].
Proof.
  assert (R : forall n, In (ForHelp, v) (helps n) -> v = []).
  { intros n I. apply repeat_spec in I. now injection I. }
  induction 1 as [|ws|w ws s Sk H IH|n ws s C H IH|k n u ws s NH C V H IH|k n u ws s NH C L H IH
                  |n ws s H IH|n k u ws s NH V H IH|n k u ws s NH L H IH]; intros I.
  - destruct I.
  - destruct I.
  - now apply IH.
  - destruct I as [E|I]; [now injection E|now apply IH].
  - destruct I as [E|I]; [now injection E as ->|now apply IH].
  - destruct I as [E|I]; [now injection E as ->|now apply IH].
  - apply in_app_or in I as [I|I]; [now apply R in I|now apply IH].
  - apply in_app_or in I as [I|[E|I]]; [now apply R in I|now injection E as ->|now apply IH].
  - apply in_app_or in I as [I|[E|I]]; [now apply R in I|now injection E as ->|now apply IH].
Qed.

Definition read_options (m : list (text * text)) : options := {|
  o_help := match store_option m (lit "help") with Some _ => true | None => false end;
  o_parallel := store_option m (lit "parallel");
  o_left := store_option m (lit "left-image");
  o_right := store_option m (lit "right-image");
  o_output := store_option m (lit "output-image");
  o_levels := store_option m (lit "disparity-levels");
  o_smoothness := store_option m (lit "smoothness");
  o_cleanness := store_option m (lit "cleanness") |}.
Lemma read_value m k : (forall v, store_option m (word_of ForHelp) = Some v -> v = []) ->
  value_of (read_options m) k = store_option m (word_of k).
Proof.
  intros H. destruct k; try reflexivity. unfold value_of. cbn [o_help read_options].
  change (lit "help") with (word_of ForHelp) in *. destruct (store_option m (word_of ForHelp)) as [v|]; [|reflexivity].
  now rewrite (H v).
Qed.
Lemma stored_value s k v : NoDup (map fst s) -> (forall u, In (ForHelp, u) s -> u = []) ->
  store_option (map entry s) (word_of k) = Some v <-> In (k, v) s.
Proof.
  intros D Hh. split.
  - intros O. apply store_option_some in O as (u & I & ->). destruct (choice_dec k ForHelp) as [->|N].
    + now rewrite <- (Hh u I).
    + destruct k; try exact I. now elim N.
  - intros I. destruct (store_option (map entry s) (word_of k)) as [u|] eqn:O.
    + apply store_option_some in O as (u' & I' & ->).
      assert (E : u' = v).
      { clear Hh. induction s as [|[k0 v0] s IH]; [destruct I|]. cbn [map fst] in D. inversion D as [|x l N D' Ex]. subst.
        destruct I as [E|I], I' as [E'|I'].
        - congruence.
        - injection E as -> ->. elim N. apply in_map_iff. now exists (k, u').
        - injection E' as -> ->. elim N. apply in_map_iff. now exists (k, v).
        - now apply IH. }
      subst u'. destruct (choice_dec k ForHelp) as [->|N]; [now rewrite (Hh v I)|]. destruct k; try reflexivity. now elim N.
    + apply store_option_none in O. elim O. apply in_map_iff. now exists (k, v).
Qed.

Lemma gives_options args s : gives args s ->
  (once s -> exists o, parse_command_line args = Some (Parsed o) /\ set_by o s) /\
  (~ once s -> parse_command_line args = Some Repeated).
Proof.
  intros G. destruct (gives_parsed args s G (List.length args) (le_n _)) as (l & P & K).
  pose proof (store_items s [] (NoDup_nil _)) as S. cbn [map] in S. rewrite app_nil_r, map_rev in S.
  assert (E : parse_command_line args = match store [] (map item s) with
              | None => Some Repeated | Some m => Some (Parsed (read_options m)) end).
  { unfold parse_command_line. rewrite P, store_keep, K. reflexivity. }
  assert (R : once s <-> NoDup (rev (map fst s))).
  { split; [apply NoDup_rev|]. intros D. apply NoDup_rev in D. now rewrite rev_involutive in D. }
  destruct S as [[D S]|[D S]]; rewrite S in E; split; intros O.
  - eexists. split; [exact E|]. intros k v. rewrite <- map_rev in D.
    assert (Hh : forall u, In (ForHelp, u) (rev s) -> u = []).
    { intros u I. apply in_rev in I. exact (gives_help args s u G I). }
    rewrite read_value.
    + rewrite stored_value by assumption. symmetry. apply in_rev.
    + intros u. rewrite stored_value by assumption. apply Hh.
  - apply R in D. contradiction.
  - apply R in O. contradiction.
  - exact E.
Qed.
Lemma parse_cases args : (exists s, gives args s) \/ parse_command_line args = Some Rejected /\ forall s, ~ gives args s.
Proof.
  destruct (parse_words (List.length args) args) as [l| |] eqn:P.
  - left. exact (parsed_gives _ _ _ P).
  - right. split; [unfold parse_command_line; now rewrite P|].
    intros s G. destruct (gives_parsed args s G (List.length args) (le_n _)) as (l & P' & _). rewrite P in P'. discriminate.
  - exfalso. exact (parse_words_ends _ args (le_n _) P).
Qed.
Lemma gives_same args s s' : gives args s -> gives args s' -> s = s'.
Proof.
  intros G G'. destruct (gives_parsed args s G (List.length args) (le_n _)) as (l & P & K).
  destruct (gives_parsed args s' G' (List.length args) (le_n _)) as (l' & P' & K').
  rewrite P in P'. injection P' as <-. rewrite K in K'.
  assert (I : forall a b, (fst a = ForHelp -> snd a = []) -> (fst b = ForHelp -> snd b = []) -> item a = item b -> a = b).
  { intros [k v] [k' v'] H H' E. cbn [fst snd] in H, H'. unfold item in E. cbn [fst snd] in E. injection E as Ek Ev. apply word_inj in Ek. subst k'.
    destruct k; try (injection Ev as ->; reflexivity). now rewrite H, H'. }
  assert (Hs : forall e, In e s -> fst e = ForHelp -> snd e = []).
  { intros [k v] Ie Ek. cbn [fst snd] in *. subst k. exact (gives_help args s v G Ie). }
  assert (Hs' : forall e, In e s' -> fst e = ForHelp -> snd e = []).
  { intros [k v] Ie Ek. cbn [fst snd] in *. subst k. exact (gives_help args s' v G' Ie). }
  clear - K' I Hs Hs'. revert s' K' Hs'. induction s as [|a s IH]; intros [|b s'] K Hs'; try discriminate; [reflexivity|].
  cbn [map] in K. injection K as Kn Kv K. f_equal.
  - apply I; [apply Hs; now left|apply Hs'; now left|]. destruct a, b. unfold item. cbn [fst snd] in *. congruence.
  - apply IH; [intros e Ie; apply Hs; now right|exact K|intros e Ie; apply Hs'; now right].
Qed.
Lemma set_by_same o o' s s' : (forall e, In e s <-> In e s') -> set_by o s -> set_by o' s' -> o = o'.
Proof.
  intros P H H'.
  assert (E : forall k, value_of o k = value_of o' k).
  { intros k. destruct (value_of o k) as [v|] eqn:V.
    - symmetry. apply H', P, H. exact V.
    - destruct (value_of o' k) as [v|] eqn:V'; [|reflexivity]. apply H', P, H in V'. congruence. }
  pose proof (E ForHelp) as E0. pose proof (E ForParallel) as E1. pose proof (E ForLeft) as E2. pose proof (E ForRight) as E3.
  pose proof (E ForOutput) as E4. pose proof (E ForLevels) as E5. pose proof (E ForSmoothness) as E6. pose proof (E ForCleanness) as E7.
  destruct o as [a0 a1 a2 a3 a4 a5 a6 a7], o' as [b0 b1 b2 b3 b4 b5 b6 b7]. cbn in *.
  destruct a0, b0; try discriminate; congruence.
Qed.

Lemma once_dec s : once s \/ ~ once s.
Proof.
  unfold once. induction (map fst s) as [|k l IH]; [left; constructor|].
  destruct (in_dec choice_dec k l) as [I|N].
  - right. intros D. inversion D. contradiction.
  - destruct IH as [D|D]; [left; now constructor|right]. intros D'. apply D. now inversion D'.
Qed.

Lemma command_line args :
  (forall o, parse_command_line args = Some (Parsed o) <-> exists s, gives args s /\ once s /\ set_by o s) /\
  (parse_command_line args = Some Repeated <-> exists s, gives args s /\ ~ once s) /\
  (parse_command_line args = Some Rejected <-> ~ exists s, gives args s) /\
  parse_command_line args <> None.
Proof.
  destruct (parse_cases args) as [[s G]|[R N]].
  - pose proof (gives_options args s G) as [O1 O2]. destruct (once_dec s) as [D|D].
    + destruct (O1 D) as (o & P & H). rewrite P. repeat split; try discriminate.
      * intros E. injection E as <-. now exists s.
      * intros (s' & G' & _ & H'). rewrite (gives_same _ _ _ G' G) in H'. f_equal. f_equal.
        exact (set_by_same o o0 s s (fun e => iff_refl _) H H').
      * intros (s' & G' & D'). rewrite (gives_same _ _ _ G' G) in D'. contradiction.
      * intros H'. elim H'. now exists s.
    + rewrite (O2 D). repeat split; try discriminate.
      * intros (s' & G' & D' & _). rewrite (gives_same _ _ _ G' G) in D'. contradiction.
      * now exists s.
      * intros H'. elim H'. now exists s.
  - rewrite R. repeat split; try discriminate.
    + intros (s & G & _). elim (N s G).
    + intros (s & G & _). elim (N s G).
    + intros _ [s G]. elim (N s G).
Qed.

Lemma any_order args args' s s' : gives args s -> gives args' s' -> Permutation s s' ->
  parse_command_line args = parse_command_line args'.
Proof.
  intros G G' P. pose proof (gives_options args s G) as [O1 O2]. pose proof (gives_options args' s' G') as [O1' O2'].
  assert (D : once s <-> once s').
  { unfold once. pose proof (Permutation_map fst P) as Pm. split; apply Permutation_NoDup; [exact Pm|now symmetry]. }
  destruct (once_dec s) as [Y|N].
  - destruct (O1 Y) as (o & E & H). destruct (O1' (proj1 D Y)) as (o' & E' & H'). rewrite E, E'. do 2 f_equal.
    apply (set_by_same o o' s s'); [|exact H|exact H'].
    intros e. split; apply Permutation_in; [exact P|now symmetry].
  - rewrite (O2 N), O2'; [reflexivity|]. intros Y. apply N. now apply D.
Qed.
Lemma run_any_order srt w args args' s s' : gives args s -> gives args' s' -> Permutation s s' ->
  run_application srt w args = run_application srt w args'.
Proof. intros G G' P. unfold run_application. now rewrite (any_order args args' s s' G G' P). Qed.

(** *** Runs *)

Lemma run_total srt w args : sorts srt -> usable_files w -> exists e, run_application srt w args = Ok e.
Proof.
  intros Hs Hw. unfold run_application. destruct (parse_command_line args) as [p|] eqn:P.
  - exact (main_total srt w p Hs Hw).
  - now apply (command_line args) in P.
Qed.
Lemma run_main srt w args e : run_application srt w args = Ok e ->
  exists p, parse_command_line args = Some p /\ main srt w p = Ok e.
Proof.
  unfold run_application. destruct (parse_command_line args) as [p|]; [|discriminate]. intros H. now exists p.
Qed.
Lemma set_by_path o s k v : set_by o s -> value_of o k = Some v -> In (k, v) s.
Proof. intros H. apply H. Qed.
Lemma set_by_technology o s : set_by o s ->
  technology_ok o <-> forall t, In (ForParallel, t) s -> known_technology t.
Proof.
  intros H. unfold technology_ok. split; intros T t I; apply T.
  - now apply (H ForParallel).
  - now apply (H ForParallel).
Qed.
Lemma run_status srt w args e : sorts srt -> usable_files w -> run_application srt w args = Ok e ->
  (status e = 0 \/ status e = 1) /\
  (status e = 1 <-> (~ exists s, gives args s) \/ exists s, gives args s /\
     (~ once s \/ exists l r out t, In (ForLeft, l) s /\ In (ForRight, r) s /\ In (ForOutput, out) s /\
        In (ForParallel, t) s /\ ~ known_technology t)).
Proof.
  intros Hs Hw R. apply run_main in R as (p & P & M).
  destruct (main_status srt w p e Hs Hw M) as [S E]. split; [exact S|]. rewrite E. clear S E M.
  pose proof (command_line args) as (C1 & C2 & C3 & _). split.
  - intros [->|[->|(o & l & r & out & -> & (Hl & Hr & Ho) & T)]].
    + right. apply C2 in P as (s & G & D). exists s. split; [exact G|now left].
    + left. now apply C3.
    + right. apply C1 in P as (s & G & D & H). exists s. split; [exact G|]. right. exists l, r, out.
      destruct (o_parallel o) as [t|] eqn:Et.
      * exists t. split; [now apply (H ForLeft)|]. split; [now apply (H ForRight)|]. split; [now apply (H ForOutput)|].
        split; [now apply (H ForParallel)|]. intros K. apply T. intros t' E. rewrite Et in E. injection E as <-. exact K.
      * elim T. intros t' E. rewrite Et in E. discriminate.
  - intros [N|(s & G & [N|(l & r & out & t & Il & Ir & Io & It & K)])].
    + right. left. apply C3 in N. rewrite P in N. now injection N.
    + left. assert (N' : parse_command_line args = Some Repeated) by (apply C2; now exists s).
      rewrite P in N'. now injection N'.
    + destruct p as [o| |].
      * right. right. apply C1 in P as (s' & G' & D & H). rewrite (gives_same _ _ _ G' G) in H.
        exists o, l, r, out. split; [reflexivity|]. split.
        -- split; [now apply (H ForLeft)|]. split; [now apply (H ForRight)|now apply (H ForOutput)].
        -- intros T. apply K. apply T. now apply (H ForParallel).
      * now left.
      * now right; left.
Qed.
Lemma run_written srt w args e path txt : sorts srt -> usable_files w -> run_application srt w args = Ok e ->
  written_file e = Some (path, txt) ->
  status e = 0 /\ printed e = None /\ exists s o l r img, gives args s /\ once s /\ set_by o s /\
    In (ForLeft, l) s /\ In (ForRight, r) s /\ In (ForOutput, path) s /\
    (forall t, In (ForParallel, t) s -> known_technology t) /\
    map_of w o l r img /\ write_image [] (Some img) = Ok txt.
Proof.
  intros Hs Hw R W. apply run_main in R as (p & P & M).
  destruct (main_written srt w p e path txt Hs Hw M W) as (S & Pr & _ & o & l & r & img & -> & (Hl & Hr & Ho) & T & Mo & Wi).
  split; [exact S|]. split; [exact Pr|]. apply (command_line args) in P as (s & G & D & H).
  exists s, o, l, r, img. split; [exact G|]. split; [exact D|]. split; [exact H|].
  split; [now apply (H ForLeft)|]. split; [now apply (H ForRight)|]. split; [now apply (H ForOutput)|].
  split; [now apply (set_by_technology o s H)|]. now split.
Qed.
(** A value of the settings as an option. *)
Lemma run_parsed srt w args s : gives args s -> once s ->
  exists o, set_by o s /\ run_application srt w args = main srt w (Parsed o).
Proof.
  intros G D. destruct (proj1 (gives_options args s G) D) as (o & P & H). exists o. split; [exact H|].
  unfold run_application. now rewrite P.
Qed.
Lemma run_no_images srt w args s : gives args s -> once s ->
  (forall v, ~ In (ForLeft, v) s) \/ (forall v, ~ In (ForRight, v) s) ->
  run_application srt w args = Ok (ends 0 (Some NoImages) None).
Proof.
  intros G D N. destruct (run_parsed srt w args s G D) as (o & H & ->). unfold main.
  assert (E : o_left o = None \/ o_right o = None).
  { destruct N as [N|N]; [left|right].
    - destruct (o_left o) as [v|] eqn:E; [|reflexivity]. elim (N v). now apply (H ForLeft).
    - destruct (o_right o) as [v|] eqn:E; [|reflexivity]. elim (N v). now apply (H ForRight). }
  destruct E as [E|E]; rewrite E; destruct (o_output o); try reflexivity; destruct (o_left o); reflexivity.
Qed.
