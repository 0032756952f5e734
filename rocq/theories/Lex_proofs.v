(** Tokens, comments and numbers: lemmas. *)
From Coq Require Import Lia.
From Verif Require Export Base_proofs Pgm_spec.
Local Open Scope N_scope.

Lemma space_iff c : is_space c = true <-> space c.
Proof.
  unfold is_space, space. cbn [In]. rewrite orb_true_iff, andb_true_iff, N.eqb_eq, !N.leb_le. lia.
Qed.
Lemma space_false c : is_space c = false <-> ~ space c.
Proof. rewrite <- space_iff. destruct (is_space c); split; intros H; congruence. Qed.
Lemma space_newline : space newline. Proof. apply space_iff. reflexivity. Qed.
Lemma space_blank : space blank. Proof. apply space_iff. reflexivity. Qed.
Lemma hash_not_space : is_space hash = false. Proof. reflexivity. Qed.

(** *** Every text is made of tokens *)

Lemma laid_space c ts r : space c -> laid_out ts r -> laid_out ts (c :: r).
Proof.
  intros Hc H. inversion H as [e He|g t Hg Ht|g t c' ts' r' Hg Ht Hc' Hr]; subst.
  - apply laid_end. inversion He as [g Hg|g body Hg Hb]; subst.
    + apply ending_gap. constructor; assumption.
    + rewrite app_comm_cons. apply ending_comment; [constructor; assumption|assumption].
  - rewrite app_comm_cons. apply laid_last; [constructor; assumption|assumption].
  - rewrite app_comm_cons. apply laid_token; try assumption. constructor; assumption.
Qed.
Lemma laid_comment body ts r : ~ In newline body -> laid_out ts r -> laid_out ts (hash :: body ++ newline :: r).
Proof.
  intros Hb H. inversion H as [e He|g t Hg Ht|g t c' ts' r' Hg Ht Hc' Hr]; subst.
  - apply laid_end. inversion He as [g Hg|g body' Hg Hb']; subst.
    + apply ending_gap. constructor; assumption.
    + replace (hash :: body ++ newline :: g ++ hash :: body') with ((hash :: body ++ newline :: g) ++ hash :: body')
        by (cbn [app]; rewrite <- app_assoc; reflexivity).
      apply ending_comment; [constructor; assumption|assumption].
  - replace (hash :: body ++ newline :: g ++ t) with ((hash :: body ++ newline :: g) ++ t)
      by (cbn [app]; rewrite <- app_assoc; reflexivity).
    apply laid_last; [constructor; assumption|assumption].
  - replace (hash :: body ++ newline :: g ++ t ++ c' :: r') with ((hash :: body ++ newline :: g) ++ t ++ c' :: r')
      by (cbn [app]; rewrite <- app_assoc; reflexivity).
    apply laid_token; try assumption. constructor; assumption.
Qed.

Lemma word_split l : l = word l ++ after_word l.
Proof. induction l as [|c r IH]; cbn [word after_word]; [reflexivity|]. destruct (is_space c); cbn [app]; congruence. Qed.
Lemma word_no_space l c : In c (word l) -> is_space c = false.
Proof.
  induction l as [|x r IH]; cbn [word]; [intros []|]. destruct (is_space x) eqn:E; [intros []|].
  intros [<-|H]; [exact E|apply IH; exact H].
Qed.
Lemma after_word_space l c r : after_word l = c :: r -> is_space c = true.
Proof.
  induction l as [|x l IH]; cbn [after_word]; [discriminate|]. destruct (is_space x) eqn:E; [|exact IH].
  intros X; injection X as -> _. exact E.
Qed.
Lemma after_line_Some l r : after_line l = Some r -> exists body, l = body ++ newline :: r /\ ~ In newline body.
Proof.
  induction l as [|x l IH]; cbn [after_line]; [discriminate|].
  destruct (Ascii.eqb_spec x newline) as [->|Hne].
  - intros X; injection X as ->. exists []. split; [reflexivity|intros []].
  - intros X. destruct (IH X) as [body [-> Hb]]. exists (x :: body). split; [reflexivity|].
    intros [H|H]; [congruence|exact (Hb H)].
Qed.
Lemma after_line_None l : after_line l = None -> ~ In newline l.
Proof.
  induction l as [|x l IH]; cbn [after_line]; [intros _ []|].
  destruct (Ascii.eqb_spec x newline) as [->|Hne]; [discriminate|]. intros X [H|H]; [congruence|exact (IH X H)].
Qed.

(** The tokens of a text. *)
Fixpoint lex (fuel : nat) (t : text) : list text :=
  match fuel with
  | O => []
  | S f =>
      match t with
      | [] => []
      | c :: r =>
          if is_space c then lex f r else
          if Ascii.eqb c hash then match after_line r with Some r' => lex f r' | None => [] end else
          word t :: match after_word t with [] => [] | _ :: r' => lex f r' end
      end
  end.

Lemma laid_lex n : forall t, (length t <= n)%nat -> laid_out (lex n t) t.
Proof.
  induction n as [|n IH]; intros [|c r] L; cbn [length] in L.
  - apply laid_end, ending_gap, gap_nil.
  - lia.
  - apply laid_end, ending_gap, gap_nil.
  - cbn [lex]. destruct (is_space c) eqn:Ec.
    { apply laid_space; [apply space_iff; exact Ec|]. apply IH. lia. }
    destruct (Ascii.eqb_spec c hash) as [->|Hh].
    { destruct (after_line r) as [r'|] eqn:El.
      - destruct (after_line_Some _ _ El) as [body [-> Hb]]. rewrite app_length in L. cbn [length] in L.
        apply laid_comment; [exact Hb|]. apply IH. lia.
      - apply laid_end. apply (ending_comment []); [constructor|apply after_line_None; exact El]. }
    assert (Tk : token (word (c :: r))).
    { split; [cbn [word]; rewrite Ec; discriminate|]. split.
      - intros x Hx. apply space_false. eapply word_no_space; exact Hx.
      - cbn [word]. rewrite Ec. cbn [hd_error]. congruence. }
    destruct (after_word (c :: r)) as [|c' r'] eqn:Ea.
    + rewrite (word_split (c :: r)) at 2. rewrite Ea, app_nil_r.
      apply (laid_last []); [constructor|exact Tk].
    + rewrite (word_split (c :: r)) at 2. rewrite Ea.
      apply (laid_token []); try assumption; [constructor|apply space_iff; eapply after_word_space; exact Ea|].
      apply IH. pose proof (word_split (c :: r)) as W. rewrite Ea in W. apply (f_equal (@length ascii)) in W.
      rewrite app_length in W. cbn [length word] in W. rewrite Ec in W. cbn [length] in W. lia.
Qed.
Lemma laid_total t : exists ts, laid_out ts t.
Proof. exists (lex (length t) t). apply laid_lex. exact (le_n _). Qed.

(** *** Reading tokens *)

Definition ready (t : text) : istream := {| rest := t; eofbit := false; failbit := false |}.

Lemma token_word t r : token t -> (r = [] \/ exists c r', r = c :: r' /\ space c) ->
  skip_space (t ++ r) = t ++ r /\ word (t ++ r) = t /\ after_word (t ++ r) = r /\ starts_comment t = false.
Proof.
  intros [Hn [Hs Hh]] Hr. assert (W : word (t ++ r) = t /\ after_word (t ++ r) = r).
  { clear Hn Hh. induction t as [|c t IH]; cbn [app word after_word].
    - destruct Hr as [->|[c [r' [-> Hc]]]]; [split; reflexivity|].
      apply space_iff in Hc. cbn [word after_word]. rewrite Hc. split; reflexivity.
    - pose proof (proj2 (space_false c) (Hs c (or_introl eq_refl))) as E. rewrite E.
      destruct IH as [-> ->]; [intros x Hx; apply Hs; right; exact Hx|]. split; reflexivity. }
  destruct t as [|c t]; [congruence|]. cbn [app skip_space starts_comment].
  rewrite (proj2 (space_false c) (Hs c (or_introl eq_refl))).
  split; [reflexivity|]. split; [apply W|]. split; [apply W|].
  cbn [hd_error] in Hh. destruct (Ascii.eqb_spec c hash); [congruence|reflexivity].
Qed.

Lemma extract_space str c r : space c -> extract str (ready (c :: r)) = extract str (ready r).
Proof. intros Hc. unfold extract. cbn [ready good eofbit failbit negb andb rest skip_space]. apply space_iff in Hc. rewrite Hc. reflexivity. Qed.

Lemma after_comment body r : ~ In newline body -> after_line (after_word (body ++ newline :: r)) = Some r /\
  after_word (body ++ newline :: r) <> [].
Proof.
  induction body as [|c b IH]; intros Hb; cbn [app after_word].
  - cbn. split; [reflexivity|discriminate].
  - destruct (is_space c) eqn:E.
    + split; [|discriminate]. clear IH E. change (c :: b ++ newline :: r) with ((c :: b) ++ newline :: r).
      revert Hb. generalize (c :: b). intros l. induction l as [|x l IHl]; intros Hb; cbn [app after_line]; [reflexivity|].
      destruct (Ascii.eqb_spec x newline) as [->|]; [exfalso; apply Hb; left; reflexivity|].
      apply IHl. intros H. apply Hb. right; exact H.
    + apply IH. intros H. apply Hb. right; exact H.
Qed.

Lemma ignore_some l r : after_line l = Some r -> ignore_line (ready l) = ready r.
Proof. intros E. unfold ignore_line. cbn [ready good eofbit failbit negb andb rest]. rewrite E. reflexivity. Qed.
Lemma ignore_none l : after_line l = None -> ignore_line (ready l) = {| rest := []; eofbit := true; failbit := false |}.
Proof. intros E. unfold ignore_line. cbn [ready good eofbit failbit negb andb rest]. rewrite E. reflexivity. Qed.

Definition started (str : text) : Prop := str = [] \/ starts_comment str = true.

Definition go fuel str (s : istream) : outcome (text * istream) :=
  skip_comments fuel (fst (extract str s)) (snd (extract str s)).

Lemma go_gap g : gap g -> forall tail str fuel, started str -> (length (g ++ tail) < fuel)%nat ->
  exists str' fuel', started str' /\ (length tail < fuel')%nat /\ go fuel str (ready (g ++ tail)) = go fuel' str' (ready tail).
Proof.
  induction 1 as [|c g Hc Hg IH|body g Hb Hg IH]; intros tail str fuel St L.
  - exists str, fuel. split; [exact St|]. split; [exact L|reflexivity].
  - cbn [app length] in L. cbn [app].
    destruct (IH tail str fuel St ltac:(lia)) as [str' [fuel' [S' [L' E]]]].
    exists str', fuel'. split; [exact S'|]. split; [exact L'|]. unfold go in *. rewrite extract_space by exact Hc. exact E.
  - cbn [app] in *. rewrite <- app_assoc in *. cbn [app] in *. cbn [length] in L. rewrite app_length in L. cbn [length] in L.
    destruct fuel as [|fuel]; [lia|].
    destruct (after_comment body (g ++ tail) Hb) as [A1 A2].
    destruct (IH tail (hash :: word (body ++ newline :: g ++ tail)) fuel) as [str' [fuel' [S' [L' E]]]].
    { right. reflexivity. }
    { lia. }
    exists str', fuel'. split; [exact S'|]. split; [exact L'|]. rewrite <- E. unfold go.
    unfold extract at 1 2. cbn [ready good eofbit failbit negb andb rest skip_space].
    rewrite hash_not_space. cbn [fst snd word after_word]. rewrite hash_not_space.
    cbn [skip_comments]. try unfold good at 1. cbn [eofbit failbit starts_comment].
    replace (is_empty (after_word (body ++ newline :: g ++ tail))) with false
      by (destruct (after_word (body ++ newline :: g ++ tail)); [congruence|reflexivity]).
    replace (Ascii.eqb hash hash) with true by reflexivity. cbn [negb andb].
    fold (ready (after_word (body ++ newline :: g ++ tail))). rewrite (ignore_some _ _ A1). cbn [ready failbit].
    fold (ready (g ++ tail)). destruct (extract (hash :: word (body ++ newline :: g ++ tail)) (ready (g ++ tail))). reflexivity.
Qed.

(** What is left of the file are the tokens [ts]. *)
Definition at_tokens (s : istream) (ts : list text) : Prop :=
  (exists t, s = ready t /\ laid_out ts t) \/ (s = {| rest := []; eofbit := true; failbit := false |} /\ ts = []).

Lemma go_none fuel str : started str -> (0 < fuel)%nat -> exists s', go fuel str (ready []) = Ok ([], s').
Proof.
  intros St L. destruct fuel as [|fuel]; [lia|]. unfold go, extract. cbn [ready good eofbit failbit negb andb rest skip_space fst snd skip_comments].
  try unfold good at 1. cbn [eofbit failbit negb andb]. destruct St as [->|E]; [|rewrite E]; eexists; reflexivity.
Qed.
Lemma go_open fuel str body : started str -> ~ In newline body -> (1 < fuel)%nat ->
  exists s', go fuel str (ready (hash :: body)) = Ok ([], s').
Proof.
  intros St Hb L. destruct fuel as [|[|fuel]]; [lia|lia|]. unfold go, extract.
  cbn [ready good eofbit failbit negb andb rest skip_space]. rewrite hash_not_space. cbn [fst snd word after_word].
  rewrite hash_not_space. cbn [skip_comments]. try unfold good at 1. cbn [eofbit failbit negb andb starts_comment].
  replace (Ascii.eqb hash hash) with true by reflexivity. cbn [andb].
  destruct (after_word body) as [|c r] eqn:Ea; cbn [is_empty negb andb].
  - eauto.
  - assert (Hn : after_line (c :: r) = None).
    { destruct (after_line (c :: r)) as [r'|] eqn:E; [|reflexivity]. exfalso. apply Hb.
      destruct (after_line_Some _ _ E) as [b [E' _]]. rewrite (word_split body), Ea, E'.
      apply in_or_app. right. apply in_or_app. right. left. reflexivity. }
    fold (ready (c :: r)). rewrite (ignore_none _ Hn). cbn [failbit].
    unfold extract. try unfold good at 1. cbn [eofbit failbit negb andb]. cbn [skip_comments]. try unfold good at 1.
    cbn [set_fail eofbit failbit negb andb starts_comment]. replace (Ascii.eqb hash hash) with true by reflexivity. eauto.
Qed.
Lemma go_token fuel str t r : token t -> (0 < fuel)%nat -> (r = [] \/ exists c r', r = c :: r' /\ space c) ->
  go fuel str (ready (t ++ r)) = Ok (t, {| rest := r; eofbit := is_empty r; failbit := false |}).
Proof.
  intros Ht L Hr. destruct (token_word t r Ht Hr) as [E1 [E2 [E3 E4]]]. destruct fuel as [|fuel]; [lia|].
  unfold go, extract. cbn [ready good eofbit failbit negb andb rest]. rewrite E1.
  assert (exists c l, t ++ r = c :: l) as [c [l El]] by (destruct Ht as [Hn _]; destruct t; [congruence|cbn [app]; eauto]).
  rewrite El. rewrite <- El, E2, E3. cbn [fst snd skip_comments]. rewrite E4, andb_false_r. reflexivity.
Qed.

(** After a token the stream is at its end or at a white space. *)
Definition after_token (s : istream) : Prop :=
  eofbit s = true \/ exists c r, rest s = c :: r /\ space c.

Lemma read_at s ts : at_tokens s ts ->
  match ts with
  | [] => exists s', read_pgm_instruction s = Ok ([], s')
  | t :: r => exists s', read_pgm_instruction s = Ok (t, s') /\ at_tokens s' r /\ after_token s'
  end.
Proof.
  intros [[t [-> H]]|[-> ->]].
  2:{ unfold read_pgm_instruction, extract. cbn. eauto. }
  unfold read_pgm_instruction. cbn [ready failbit rest]. fold (ready t).
  replace (let '(current_input, s') := extract [] (ready t) in skip_comments (S (length t)) current_input s')
    with (go (S (length t)) [] (ready t)) by (unfold go; destruct (extract [] (ready t)); reflexivity).
  inversion H as [e He|g t' Hg Ht|g t' c ts' r Hg Ht Hc Hr]; subst.
  - inversion He as [g Hg|g body Hg Hb]; subst.
    + rewrite <- (app_nil_r t). destruct (go_gap t Hg [] [] _ (or_introl eq_refl) (le_n (S (length (t ++ []))))) as [str [fuel [St [L ->]]]].
      apply go_none; assumption.
    + destruct (go_gap g Hg (hash :: body) [] _ (or_introl eq_refl) (le_n (S (length (g ++ hash :: body))))) as [str [fuel [St [L ->]]]].
      apply go_open; try assumption. cbn [length] in L. lia.
  - destruct (go_gap g Hg t' [] _ (or_introl eq_refl) (le_n (S (length (g ++ t'))))) as [str [fuel [St [L ->]]]].
    rewrite <- (app_nil_r t'), go_token; try assumption; [|lia|left; reflexivity].
    rewrite app_nil_r. eexists. split; [reflexivity|]. split; [right; split; reflexivity|left; reflexivity].
  - destruct (go_gap g Hg (t' ++ c :: r) [] _ (or_introl eq_refl) (le_n (S (length (g ++ t' ++ c :: r))))) as [str [fuel [St [L ->]]]].
    rewrite go_token; try assumption; [|lia|right; eauto].
    eexists. split; [reflexivity|]. split; [left; exists (c :: r); split; [reflexivity|]; apply laid_space; assumption|].
    right. exists c, r. split; [reflexivity|exact Hc].
Qed.

(** *** The end of the file *)

Lemma ready_good t : good (ready t) && negb (eofbit (ready t)) = true. Proof. reflexivity. Qed.

Definition settle (s : istream) : istream :=
  if eofbit s then {| rest := rest s; eofbit := true; failbit := false |} else s.

Definition checked fuel c (s : istream) : outcome istream := s' <- check_loop fuel c s ;; Ok (settle s').

Lemma get_ready c x r : get_char c (ready (x :: r)) = (Some x, ready r). Proof. reflexivity. Qed.
Lemma isspace_space c : space c -> isspace c = Ok true.
Proof.
  intros H. unfold isspace. pose proof (proj2 (space_iff c) H) as E. rewrite E.
  unfold space in H. cbn [In] in H. destruct (N.leb_spec 128 (code c)); [|reflexivity]. lia.
Qed.
Lemma space_not_hash c : space c -> Ascii.eqb c hash = false.
Proof. intros H. destruct (Ascii.eqb_spec c hash) as [->|]; [|reflexivity]. apply space_iff in H. discriminate. Qed.

Lemma check_gap g : gap g -> forall tail c fuel, (S (length (g ++ tail)) < fuel)%nat -> (c = None -> g = [] -> tail <> []) ->
  exists c' fuel', (S (length tail) < fuel')%nat /\ (c' = None -> tail <> []) /\ 
    (forall x, c' = Some x -> c = Some x \/ space x \/ x = hash) /\
    checked fuel c (ready (g ++ tail)) = checked fuel' c' (ready tail).
Proof.
  induction 1 as [|x g Hx Hg IH|body g Hb Hg IH]; intros tail c fuel L Hc.
  - exists c, fuel. split; [exact L|]. split; [intros X; apply Hc; [exact X|reflexivity]|]. split; [auto|reflexivity].
  - cbn [app length] in L. destruct fuel as [|fuel]; [lia|].
    destruct (IH tail (Some x) fuel ltac:(lia) ltac:(discriminate)) as [c' [fuel' [L' [Hc' [Hx' E]]]]].
    exists c', fuel'. split; [exact L'|]. split; [exact Hc'|]. split.
    { intros y Hy. destruct (Hx' y Hy) as [X|X]; [injection X as <-; right; left; exact Hx|right; exact X]. }
    rewrite <- E. unfold checked. cbn [app check_loop]. rewrite ready_good, get_ready, space_not_hash, isspace_space by exact Hx.
    reflexivity.
  - cbn [app] in *. rewrite <- app_assoc in *. cbn [app length] in *. rewrite app_length in L. cbn [length] in L.
    destruct fuel as [|fuel]; [lia|].
    destruct (IH tail (Some hash) fuel ltac:(lia) ltac:(discriminate)) as [c' [fuel' [L' [Hc' [Hx' E]]]]].
    exists c', fuel'. split; [exact L'|]. split; [exact Hc'|]. split.
    { intros y Hy. destruct (Hx' y Hy) as [X|X]; [injection X as <-; right; right; reflexivity|right; exact X]. }
    rewrite <- E. unfold checked. cbn [check_loop]. rewrite ready_good, get_ready.
    replace (Ascii.eqb hash hash) with true by reflexivity.
    replace (ignore_line (ready (body ++ newline :: g ++ tail))) with (ready (g ++ tail)); [reflexivity|].
    unfold ignore_line. cbn [ready good eofbit failbit negb andb rest].
    replace (after_line (body ++ newline :: g ++ tail)) with (Some (g ++ tail)); [reflexivity|].
    clear E L IH Hc. induction body as [|y b IHb]; cbn [app after_line]; [reflexivity|].
    destruct (Ascii.eqb_spec y newline) as [->|]; [exfalso; apply Hb; left; reflexivity|].
    apply IHb. intros H. apply Hb. right; exact H.
Qed.

Lemma check_end_none c fuel : c <> None -> (forall x, c = Some x -> space x \/ x = hash) -> (1 < fuel)%nat ->
  exists s', checked fuel c (ready []) = Ok s' /\ failbit s' = false.
Proof.
  intros Hc Hx L. destruct fuel as [|[|fuel]]; [lia|lia|]. destruct c as [x|]; [|congruence].
  unfold checked. cbn [check_loop]. rewrite ready_good. unfold get_char. cbn [ready good eofbit failbit negb andb rest].
  destruct (Hx x eq_refl) as [H| ->].
  - rewrite space_not_hash, isspace_space by exact H. cbn [bind check_loop]. unfold good. cbn. eauto.
  - replace (Ascii.eqb hash hash) with true by reflexivity. cbn. eauto.
Qed.
Lemma check_end_open c fuel body : ~ In newline body -> (2 < fuel)%nat ->
  exists s', checked fuel c (ready (hash :: body)) = Ok s' /\ failbit s' = false.
Proof.
  intros Hb L. destruct fuel as [|[|[|fuel]]]; [lia|lia|lia|]. unfold checked. cbn [check_loop]. rewrite ready_good, get_ready.
  replace (Ascii.eqb hash hash) with true by reflexivity. unfold ignore_line. cbn [ready good eofbit failbit negb andb rest].
  destruct (after_line body) as [r|] eqn:E.
  - destruct (after_line_Some _ _ E) as [b [-> _]]. exfalso. apply Hb. apply in_or_app. right. left. reflexivity.
  - cbn. eauto.
Qed.

Lemma check_end_token c fuel t r : token t -> (1 < fuel)%nat ->
  (high_byte [t] /\ checked fuel c (ready (t ++ r)) = Stop Undef) \/
  (exists s', checked fuel c (ready (t ++ r)) = Ok s' /\ failbit s' = true).
Proof.
  intros [Hn [Hs Hh]] L. destruct t as [|x t]; [congruence|]. destruct fuel as [|[|fuel]]; [lia|lia|].
  unfold checked. cbn [app check_loop]. rewrite ready_good, get_ready. cbn [hd_error] in Hh.
  destruct (Ascii.eqb_spec x hash) as [->|]; [congruence|]. unfold isspace.
  destruct ((128 <=? code x) && (code x <=? 254)) eqn:E.
  - left. apply andb_prop in E as [E1 E2]. apply N.leb_le in E1, E2. split; [exists x, t, []; auto|reflexivity].
  - right. rewrite (proj2 (space_false x) (Hs x (or_introl eq_refl))). cbn. eauto.
Qed.

Lemma check_unfold s : check_file_end s = checked (S (S (length (rest s)))) None s.
Proof. reflexivity. Qed.

Lemma check_at s ts : at_tokens s ts -> after_token s ->
  match ts with
  | [] => exists s', check_file_end s = Ok s' /\ failbit s' = false
  | _ => (high_byte ts /\ check_file_end s = Stop Undef) \/
         (exists s', check_file_end s = Ok s' /\ failbit s' = true)
  end.
Proof.
  intros [[t [-> H]]|[-> ->]] A.
  2:{ exists {| rest := []; eofbit := true; failbit := false |}. split; reflexivity. }
  rewrite check_unfold. cbn [ready rest]. fold (ready t).
  destruct A as [A|[c0 [r0 [A Hc0]]]]; [discriminate|]. cbn [ready rest] in A. subst t.
  assert (NT : forall g t' r', token t' -> c0 :: r0 = g ++ t' ++ r' -> g <> []).
  { intros g t' r' [Hn [Hs _]] E ->. cbn [app] in E. destruct t' as [|x t']; [congruence|].
    injection E as -> _. apply (Hs x (or_introl eq_refl)). exact Hc0. }
  inversion H as [e He|g t' Hg Ht|g t' c ts' r Hg Ht Hc Hr]; subst.
  - inversion He as [g Hg Eg|g body Hg Hb Eg]; subst.
    + destruct (check_gap (c0 :: r0) Hg [] None (S (S (length (c0 :: r0))))) as [c' [fuel' [L' [Hc' [Hx' E]]]]].
      { rewrite app_nil_r. lia. } { discriminate. }
      rewrite app_nil_r in E. rewrite E. apply check_end_none; [intros X; apply (Hc' X); reflexivity| |lia].
      intros x X. destruct (Hx' x X) as [Y|Y]; [discriminate|exact Y].
    + destruct (check_gap g Hg (hash :: body) None (S (S (length (g ++ hash :: body))))) as [c' [fuel' [L' [Hc' [Hx' E]]]]].
      { lia. } { discriminate. }
      change (ascii_of_pos 35) with hash. rewrite E. cbn [length] in L'. apply check_end_open; [exact Hb|lia].
  - destruct (check_gap g Hg t' None (S (S (length (g ++ t'))))) as [c' [fuel' [L' [Hc' [Hx' E]]]]].
    { lia. } { intros _ X. exfalso. eapply (NT g t' []); [exact Ht|rewrite app_nil_r; congruence|exact X]. }
    rewrite E. replace (ready t') with (ready (t' ++ [])) by (rewrite app_nil_r; reflexivity).
    destruct (check_end_token c' fuel' t' [] Ht) as [[Hh X]|X]; [lia|left|right; exact X]. split; assumption.
  - destruct (check_gap g Hg (t' ++ c :: r) None (S (S (length (g ++ t' ++ c :: r))))) as [c' [fuel' [L' [Hc' [Hx' E]]]]].
    { lia. } { intros _ X. exfalso. eapply (NT g t' (c :: r)); [exact Ht|congruence|exact X]. }
    rewrite E. destruct (check_end_token c' fuel' t' (c :: r) Ht) as [[Hh X]|X]; [lia|left|right; exact X].
    split; [|exact X]. destruct Hh as [y [u [v [Eh Hh]]]]. injection Eh as -> _. exists y, u, ts'. split; [reflexivity|exact Hh].
Qed.
