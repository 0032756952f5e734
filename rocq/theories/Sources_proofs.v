(** Lemmas about the source of the OpenCL program. *)
From Coq Require Import String Lia.
From Verif Require Export Args_spec.
Local Open Scope N_scope.

Lemma complete_tail l t : complete (l ++ newline :: t) -> complete t.
Proof.
  intros [E|[s E]]; [destruct l; discriminate|]. destruct t as [|c t] using rev_ind; [now left|]. right. exists t.
  rewrite app_comm_cons, app_assoc in E. apply app_inj_tail in E as [_ ->]. reflexivity.
Qed.
Lemma lines_app t ls t' ls' : complete t -> text_lines t ls -> text_lines t' ls' -> text_lines (t ++ t') (ls ++ ls').
Proof.
  intros C L L'. induction L as [|t N I|l t ls I L IH].
  - exact L'.
  - destruct C as [->|[s ->]]; [congruence|]. exfalso. apply I. apply in_or_app. right. now left.
  - rewrite <- app_assoc. cbn [app]. apply lines_more; [exact I|]. apply IH. exact (complete_tail _ _ C).
Qed.
Lemma concatenated w names ts : Forall2 (fun f t => files w f = Some t) names ts ->
  concatenate_files w names = concat ts.
Proof.
  induction 1 as [|f t names ts E F IH]; [reflexivity|]. cbn [concatenate_files concat]. now rewrite E, IH.
Qed.
Lemma concat_lines ts : (forall t, In t ts -> complete t) -> forall ls, Forall2 text_lines ts ls -> text_lines (concat ts) (concat ls).
Proof.
  intros C ls F. induction F as [|t l ts ls L F IH]; [constructor|]. cbn [concat]. apply lines_app.
  - apply C. now left.
  - exact L.
  - apply IH. intros u I. apply C. now right.
Qed.
Lemma source_lines w ts ls : Forall2 (fun f t => files w f = Some t) SOURCE_FILES ts ->
  (forall t, In t ts -> complete t) -> Forall2 text_lines ts ls -> text_lines (program_source w) (concat ls).
Proof. intros F C L. unfold program_source. rewrite (concatenated _ _ _ F). now apply concat_lines. Qed.
Lemma lines_newlines t ls : text_lines t ls -> complete t -> t = concat (map (fun l => l ++ [newline]) ls).
Proof.
  induction 1 as [|t N I|l t ls I L IH]; intros C.
  - reflexivity.
  - destruct C as [->|[s ->]]; [congruence|]. exfalso. apply I. apply in_or_app. right. now left.
  - cbn [map concat]. rewrite <- IH by exact (complete_tail _ _ C). rewrite <- app_assoc. reflexivity.
Qed.
