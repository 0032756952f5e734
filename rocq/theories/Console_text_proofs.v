(** Proofs about the texts of the messages. *)
From Coq Require Import Lia String.
From Verif Require Export Console_proofs.
Local Open Scope N_scope.

(** *** Requirements violated *)

Lemma violated_below {T : target} l r lev (c s : F T) k : violated l r lev c s k -> k < 10.
Proof.
  intros V. destruct (N.lt_ge_cases k 10) as [H|H]; [exact H|]. exfalso.
  destruct k as [|p]; [lia|]. do 4 (destruct p as [p|p|]; try lia; try exact V).
Qed.
Lemma first_stops {T : target} l r lev (c s : F T) k : 2 ^ 32 <= wmod T -> consistent_image l -> consistent_image r ->
  width l * height l < 2 ^ 32 -> width r * height r < 2 ^ 32 ->
  first_violated l r lev c s k -> make_graph l r lev c s = Stop (Throw (InvalidArgument k)).
Proof.
  intros Hw Cl Cr Sl Sr [V Fv].
  destruct (image_valid_decides T l Hw Cl Sl) as [bl [El Vl]].
  destruct (image_valid_decides T r Hw Cr Sr) as [br [Er Vr]].
  unfold make_graph. rewrite El, Er. cbn [bind].
  assert (St : forall i, i <= k -> violated l r lev c s i -> @Stop (dgraph T) (Throw (InvalidArgument i)) = Stop (Throw (InvalidArgument k))).
  { intros i Hi Vi. destruct (N.eq_dec i k) as [->|Ne]; [reflexivity|]. destruct (Fv i ltac:(lia) Vi). }
  assert (Nx : forall i, i <= k -> ~ violated l r lev c s i -> i + 1 <= k).
  { intros i Hi Ni. destruct (N.eq_dec i k) as [->|Ne]; [contradiction|lia]. }
  assert (H0 : 0 <= k) by lia.
  destruct bl; cbn [negb]; [|apply (St 0 H0); cbn [violated]; intuition congruence].
  assert (H1 : 1 <= k) by (apply (Nx 0 H0); cbn [violated]; intuition congruence).
  destruct br; cbn [negb]; [|apply (St 1 H1); cbn [violated]; intuition congruence].
  assert (H2 : 2 <= k) by (apply (Nx 1 H1); cbn [violated]; intuition congruence).
  destruct (N.leb_spec lev 1) as [X|X]; [apply (St 2 H2); cbn [violated]; lia|].
  assert (H3 : 3 <= k) by (apply (Nx 2 H2); cbn [violated]; lia). clear X.
  destruct (N.ltb_spec (width l) lev) as [X|X]; [apply (St 3 H3); cbn [violated]; lia|].
  assert (H4 : 4 <= k) by (apply (Nx 3 H3); cbn [violated]; lia). clear X.
  destruct (N.eqb_spec (width l) (width r)) as [X|X]; cbn [negb]; [|apply (St 4 H4); cbn [violated]; lia].
  assert (H5 : 5 <= k) by (apply (Nx 4 H4); cbn [violated]; lia). clear X.
  destruct (N.eqb_spec (height l) (height r)) as [X|X]; cbn [negb]; [|apply (St 5 H5); cbn [violated]; lia].
  assert (H6 : 6 <= k) by (apply (Nx 5 H5); cbn [violated]; lia). clear X.
  destruct (N.eqb_spec (max_value l) (max_value r)) as [X|X]; cbn [negb]; [|apply (St 6 H6); cbn [violated]; lia].
  assert (H7 : 7 <= k) by (apply (Nx 6 H6); cbn [violated]; lia). clear X.
  destruct (flt c fzero) eqn:E7; [apply (St 7 H7); exact E7|].
  assert (H8 : 8 <= k) by (apply (Nx 7 H7); cbn [violated]; congruence).
  destruct (flt s fzero) eqn:E8; [apply (St 8 H8); exact E8|].
  assert (H9 : 9 <= k) by (apply (Nx 8 H8); cbn [violated]; congruence).
  destruct (flt c feps) eqn:Ec, (flt s feps) eqn:Es; cbn [andb];
    [apply (St 9 H9); split; assumption|..];
    (exfalso; assert (H10 : 10 <= k) by (apply (Nx 9 H9); cbn [violated]; intuition congruence);
     pose proof (violated_below _ _ _ _ _ _ V); lia).
Qed.

(** The text printed for a problem that violates requirement [k]. *)
Lemma unsuitable_run lib b v srt w o k l r lev s : unsuitable b w o k l r lev -> main_told lib b v srt w (Parsed o) s ->
  exists pa c sm, asks_for b (o_parallel o) pa /\ k < 10 /\
    (forall c' s', option_number 1 (o_cleanness o) c' -> option_number 1 (o_smoothness o) s' -> c' = c /\ s' = sm) /\
    s = Ok {| exit_status := 0; cout := technology_line (o_parallel o) pa; saved := None;
              cerr := line (lit "Invalid argument: " ++ graph_what lib l r lev (of_u c) (of_u sm) (InvalidArgument k)) |}.
Proof.
  intros [[lpath [El Hl]] [rpath [Er Hr]] Eo [pa A] [Sl Sr] Nl [c [sm [Nc [Ns V]]]]].
  destruct (o_output o) as [out|] eqn:Eout; [|congruence]. cbn [main_told]. rewrite Eout, El, Er.
  apply chosen_asks in A. rewrite A. apply chosen_asks in A. intros [x [M ->]].
  exists pa, c, sm. split; [exact A|]. split; [exact (violated_below _ _ _ _ _ _ (proj1 V))|].
  pose proof (proj2 (number_value _ _ _) Nc) as Ec. pose proof (proj2 (number_value _ _ _) Ns) as Es.
  split. { intros c' s' N1 N2. apply number_value in N1. apply number_value in N2. split; congruence. }
  revert M. unfold map_told, inputs_told.
  rewrite (held_read w lpath l Hl) by (unfold vector_max_size; lia). cbn [explained tbind].
  rewrite (held_read w rpath r Hr) by (unfold vector_max_size; lia). cbn [explained tbind].
  rewrite (proj2 (number_value _ _ _) Nl). cbn [explained tbind]. rewrite Ec. cbn [explained tbind]. rewrite Es. cbn [explained tbind].
  pose proof (first_stops l r lev (@of_u cpu c) (of_u sm) k ltac:(discriminate) (held_consistent _ _ _ Hl) (held_consistent _ _ _ Hr) Sl Sr V) as G.
  unfold prepared. rewrite G. cbn [bind explained]. intros ->. unfold finishes_told. cbn [tells tbind].
  rewrite announced_line. reflexivity.
Qed.

(** *** What messages tell *)

Lemma app_front {A} (t a b : list A) : t ++ a = t ++ b -> a = b.
Proof. apply app_inv_head. Qed.
Lemma digits_digit n x : In x (digits n) -> is_digit x = true.
Proof. apply (numeral_decimal (digits n) n (digits_numeral n)). Qed.
Lemma digits_same n m a b x y : is_digit x = false -> is_digit y = false ->
  digits n ++ x :: a = digits m ++ y :: b -> n = m /\ x :: a = y :: b.
Proof.
  intros Hx Hy E.
  assert (G : forall s t, (forall z, In z s -> is_digit z = true) -> (forall z, In z t -> is_digit z = true) ->
            s ++ x :: a = t ++ y :: b -> s = t /\ x :: a = y :: b).
  { induction s as [|z s IH]; intros [|u t] Ds Dt F; cbn [app] in F.
    - auto.
    - injection F as -> _. rewrite (Dt u (or_introl eq_refl)) in Hx. discriminate.
    - injection F as <- _. rewrite (Ds z (or_introl eq_refl)) in Hy. discriminate.
    - injection F as <- F. destruct (IH t) as [-> G]; [firstorder|firstorder|exact F|]. auto. }
  destruct (G _ _ (digits_digit n) (digits_digit m) E) as [F Eab]. split; [|exact Eab].
  pose proof (numeral_decimal _ _ (digits_numeral n)) as [_ [_ <-]]. pose proof (numeral_decimal _ _ (digits_numeral m)) as [_ [_ <-]].
  rewrite F. reflexivity.
Qed.
(** Two numbers between fixed texts. *)
Lemma two_numbers n m n' m' x (a : text) y (b : text) : is_digit x = false -> is_digit y = false ->
  digits n ++ (x :: a) ++ digits m ++ (y :: b) = digits n' ++ (x :: a) ++ digits m' ++ (y :: b) -> n = n' /\ m = m'.
Proof.
  intros Hx Hy E. cbn [app] in E. apply digits_same in E; [|assumption|assumption]. destruct E as [-> E]. injection E as E. apply app_front in E.
  apply digits_same in E; [|assumption|assumption]. tauto.
Qed.

(** The first words of the messages differ. *)
Definition first_words (k : N) : text :=
  lit match k with
      | 0 => "Left image" | 1 => "Right image" | 2 => "Number of disparity levels should be greater than one"
      | 3 => "Number of disparity levels should not be greater than width of the left image"
      | 4 => "Number of columns" | 5 => "Number of rows" | 6 => "Maximal intensity" | 7 => "Cleanness" | 8 => "Smoothness"
      | _ => "Either cleanness or smoothness, or both" end.
Fixpoint apart (s t : text) : bool :=
  match s, t with
  | x :: s, y :: t => if ascii_dec x y then apart s t else true
  | _, _ => false
  end.
Lemma apart_differ s : forall t a b, apart s t = true -> s ++ a <> t ++ b.
Proof.
  induction s as [|x s IH]; intros [|y t] a b H; cbn [apart] in H; try discriminate.
  cbn [app]. intros E. injection E as -> E. destruct (ascii_dec y y); [|congruence]. exact (IH t a b H E).
Qed.
Lemma words_apart k k' : k < 10 -> k' < 10 -> k <> k' -> apart (first_words k) (first_words k') = true.
Proof.
  intros H H' Ne.
  assert (C : forall k, k < 10 -> k = 0 \/ k = 1 \/ k = 2 \/ k = 3 \/ k = 4 \/ k = 5 \/ k = 6 \/ k = 7 \/ k = 8 \/ k = 9) by lia.
  destruct (C k H) as [->|[->|[->|[->|[->|[->|[->|[->|[->| ->]]]]]]]]];
  destruct (C k' H') as [->|[->|[->|[->|[->|[->|[->|[->|[->| ->]]]]]]]]]; try congruence; vm_compute; reflexivity.
Qed.
Lemma ten k : k < 10 -> k = 0 \/ k = 1 \/ k = 2 \/ k = 3 \/ k = 4 \/ k = 5 \/ k = 6 \/ k = 7 \/ k = 8 \/ k = 9.
Proof. lia. Qed.
Lemma graph_words lib l r lev c s k : k < 10 -> exists rest, graph_what lib l r lev c s (InvalidArgument k) = first_words k ++ rest.
Proof.
  intros H. destruct (ten k H) as [->|[->|[->|[->|[->|[->|[->|[->|[->| ->]]]]]]]]]; eexists; unfold graph_what, first_words, lit;
    cbn [list_ascii_of_string app]; reflexivity.
Qed.
Lemma graph_tells lib l r lev c s k l' r' lev' c' s' k' : k < 10 -> k' < 10 ->
  graph_what lib l r lev c s (InvalidArgument k) = graph_what lib l' r' lev' c' s' (InvalidArgument k') ->
  k = k' /\ figures k l r lev = figures k' l' r' lev'.
Proof.
  intros H H' E. destruct (N.eq_dec k k') as [<-|Ne].
  - split; [reflexivity|]. clear H'.
    destruct (ten k H) as [->|[->|[->|[->|[->|[->|[->|[->|[->| ->]]]]]]]]]; cbn [figures]; try reflexivity;
      unfold graph_what in E; apply app_front in E; unfold lit in E; cbn [list_ascii_of_string] in E;
      apply two_numbers in E; try reflexivity; destruct E as [-> ->]; reflexivity.
  - exfalso. destruct (graph_words lib l r lev c s k H) as [u Eu], (graph_words lib l' r' lev' c' s' k' H') as [u' Eu'].
    rewrite Eu, Eu' in E. exact (apart_differ _ _ _ _ (words_apart k k' H H' Ne) E).
Qed.
Definition plainb (t : text) : bool := forallb (fun c => negb (is_digit c)) t.
Lemma plain_digits t : plainb t = true -> no_digits t.
Proof.
  intros H d Hd I. unfold plainb in H. rewrite forallb_forall in H. specialize (H _ I).
  change (is_digit (digit_sign d)) with (is_digit (ascii_of_N (48 + d))) in H. rewrite (digit_is d Hd) in H. discriminate.
Qed.
Lemma shows_two n m a b c x y : plainb a = true -> plainb (x :: b) = true -> plainb (y :: c) = true ->
  shows [n; m] (a ++ digits n ++ (x :: b) ++ digits m ++ y :: c).
Proof.
  intros A B C. cbn [app]. assert (X : plainb [x] = true) by (cbn [plainb forallb] in *; apply andb_true_iff in B; apply andb_true_iff; split; [apply B|reflexivity]).
  assert (Y : plainb [y] = true) by (cbn [plainb forallb] in *; apply andb_true_iff in C; apply andb_true_iff; split; [apply C|reflexivity]).
  apply shows_number; [apply plain_digits; exact A|apply digits_numeral|apply plain_digits; exact X|].
  apply (shows_number (x :: b)); [apply plain_digits; exact B|apply digits_numeral|apply plain_digits; exact Y|].
  apply shows_none. apply plain_digits. exact C.
Qed.
Lemma graph_figures lib l r lev c s k : k < 7 ->
  shows (figures k l r lev) (line (lit "Invalid argument: " ++ graph_what lib l r lev c s (InvalidArgument k))).
Proof.
  intros H. assert (C : k = 0 \/ k = 1 \/ k = 2 \/ k = 3 \/ k = 4 \/ k = 5 \/ k = 6) by lia.
  destruct C as [->|[->|[->|[->|[->|[->| ->]]]]]]; cbn [figures]; unfold graph_what, line;
    try (apply shows_none; apply plain_digits; vm_compute; reflexivity);
    rewrite <- !app_assoc; rewrite app_assoc; apply shows_two; vm_compute; reflexivity.
Qed.

Fixpoint strip (p t : text) : option text :=
  match p, t with
  | [], _ => Some t
  | c :: p, d :: t => if Ascii.eqb c d then strip p t else None
  | _, [] => None
  end.
Lemma strip_ok p t r : strip p t = Some r -> t = p ++ r.
Proof.
  revert t. induction p as [|c p IH]; intros t; cbn [strip app]; [intros H; injection H as ->; reflexivity|].
  destruct t as [|d t]; [discriminate|]. destruct (Ascii.eqb_spec c d) as [->|]; [|discriminate]. intros H. rewrite (IH t H) at 1. reflexivity.
Qed.
Fixpoint within (p t : text) : bool :=
  match strip p t with
  | Some _ => true
  | None => match t with [] => false | _ :: t => within p t end
  end.
Lemma within_ok p t u : within p t = true -> mentions p (t ++ u).
Proof.
  induction t as [|c t IH]; cbn [within]; destruct (strip p _) as [r|] eqn:E; intros H; try discriminate.
  - apply strip_ok in E. exists [], (r ++ u). cbn [app]. rewrite app_assoc, <- E. reflexivity.
  - apply strip_ok in E. exists [], (r ++ u). cbn [app]. rewrite app_assoc, <- E. reflexivity.
  - destruct (IH H) as [a [b X]]. exists (c :: a), b. cbn [app]. rewrite <- X. reflexivity.
Qed.
Lemma words_subject k : k < 10 -> within (subject k) (first_words k) = true.
Proof. intros H. destruct (ten k H) as [->|[->|[->|[->|[->|[->|[->|[->|[->| ->]]]]]]]]]; vm_compute; reflexivity. Qed.
Lemma graph_subject lib l r lev c s k a : k < 10 -> mentions (subject k) (line (a ++ graph_what lib l r lev c s (InvalidArgument k))).
Proof.
  intros H. destruct (graph_words lib l r lev c s k H) as [rest ->]. unfold line.
  destruct (within_ok (subject k) (first_words k) (rest ++ [newline]) (words_subject k H)) as [x [y E]].
  exists (a ++ x), y. rewrite <- !app_assoc. rewrite E. reflexivity.
Qed.

Lemma requirement_told lib b v srt w o k l r lev s : unsuitable b w o k l r lev -> main_told lib b v srt w (Parsed o) s ->
  exists pa u, asks_for b (o_parallel o) pa /\ s = Ok u /\ exit_status u = 0 /\ cout u = technology_line (o_parallel o) pa /\ saved u = None /\
    begins (lit "Invalid argument: ") (cerr u) /\
    mentions (subject k) (cerr u) /\ (k < 7 -> shows (figures k l r lev) (cerr u)).
Proof.
  intros U M. destruct (unsuitable_run _ _ _ _ _ _ _ _ _ _ _ U M) as (pa & c & sm & A & Hk & _ & ->).
  exists pa. eexists. split; [exact A|]. split; [reflexivity|]. cbn [exit_status cout saved cerr]. split; [reflexivity|]. split; [reflexivity|].
  split; [reflexivity|]. split; [apply begins_line|]. split; [apply graph_subject; exact Hk|apply graph_figures].
Qed.
Lemma requirement_identified lib b v srt w o k l r lev s b' v' srt' w' o' k' l' r' lev' s' :
  unsuitable b w o k l r lev -> main_told lib b v srt w (Parsed o) (Ok s) ->
  unsuitable b' w' o' k' l' r' lev' -> main_told lib b' v' srt' w' (Parsed o') (Ok s') ->
  cerr s = cerr s' -> k = k' /\ figures k l r lev = figures k' l' r' lev'.
Proof.
  intros U M U' M' E.
  destruct (unsuitable_run _ _ _ _ _ _ _ _ _ _ _ U M) as (pa & c & sm & A & Hk & _ & Es).
  destruct (unsuitable_run _ _ _ _ _ _ _ _ _ _ _ U' M') as (pa' & c' & sm' & A' & Hk' & _ & Es').
  pose proof (f_equal (fun x => match x with Ok u => cerr u | Stop _ => [] end) Es) as F. cbv beta iota in F. cbn [cerr] in F.
  pose proof (f_equal (fun x => match x with Ok u => cerr u | Stop _ => [] end) Es') as F'. cbv beta iota in F'. cbn [cerr] in F'.
  rewrite E, F' in F. unfold line in F. apply app_inv_tail in F. apply app_inv_head in F.
  destruct (graph_tells _ _ _ _ _ _ _ _ _ _ _ _ _ Hk' Hk F). auto.
Qed.
