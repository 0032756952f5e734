(** Problems with proportional penalties: examples. *)
From Coq Require Import String Lia.
From Verif Require Export Main_witness Same_witness Scale_proofs.
Local Open Scope N_scope.

Definition pg : stereo := {| p_left := gl; p_right := gr; p_cleanness := 1; p_smoothness := 1 |}.
Definition changed (f : N -> N) (maxv c s : N) (a : stereo) : stereo :=
  {| p_left := recolor f maxv (p_left a); p_right := recolor f maxv (p_right a); p_cleanness := c; p_smoothness := s |}.
Definition brighter (v : N) : N := v + 3.
Definition inverted (v : N) : N := 10 - v.
Definition stretched (v : N) : N := 2 * v + 1.

Lemma pg_values v : In v (data (p_left pg)) \/ In v (data (p_right pg)) -> v <= 9.
Proof.
  intros [H|H]; revert v H; apply Forall_forall; cbn [pg p_left p_right gl gr pic data]; repeat constructor; discriminate.
Qed.
Lemma pg_good : good_problem (p_left pg) (p_right pg) 3 (p_cleanness pg) (p_smoothness pg).
Proof. exact goodg. Qed.
Lemma pg_small b : (1024 <= b)%Z -> small_problem b 3 pg.
Proof.
  intros Hb. refine (conj _ (conj _ (conj _ _))); [reflexivity..|]. exists 9%Z. split; [intros v H; apply pg_values in H; lia|].
  cbn [pg p_cleanness p_smoothness]. lia.
Qed.
Lemma changed_small b f maxv c s m : (forall v, v <= 9 -> f v <= m) -> c <= 8 -> s <= 8 -> m <= 20 -> (4096 <= b)%Z -> small_problem b 3 (changed f maxv c s pg).
Proof.
  intros Hf Hc Hs Hm Hb. refine (conj _ (conj _ (conj _ _))); [reflexivity..|]. exists (Z.of_N m). split.
  - intros v H. assert (X : exists u, u <= 9 /\ f u = v).
    { destruct H as [H|H]; apply in_map_iff in H; destruct H as [u [<- Hu]]; exists u; (split; [|reflexivity]); apply pg_values; auto. }
    destruct X as [u [Hu <-]]. specialize (Hf u Hu). lia.
  - cbn [changed p_cleanness p_smoothness]. assert (Z.of_N m ^ 2 <= 400)%Z by (rewrite Z.pow_2_r; nia).
    assert (0 <= Z.of_N m ^ 2)%Z by (apply Z.pow_nonneg; lia). repeat split; try lia; nia.
Qed.
Lemma pg_accepted : accepted 3 pg.
Proof. apply good_accepted; [apply pg_small; lia|reflexivity|discriminate|exact pg_good]. Qed.

(** The map exists, so equal outcomes are equal maps. *)
Lemma pg_solved : exists img, solution_of isort 3 pg = Ok img /\ data img = [0; 1; 1; 0; 1; 1; 0; 0].
Proof. eexists. split; [vm_compute; reflexivity|reflexivity]. Qed.

(** Twice the contrast and four times the smoothness. *)
Lemma stretched_proportional : proportional 3 4 1 pg (changed stretched 21 1 4 pg).
Proof.
  apply (recolored 3 4 1 pg stretched 21 1 4 2 1); try reflexivity.
  intros v _. unfold stretched. lia.
Qed.
Lemma stretched_small b : (4096 <= b)%Z -> small_problem b 3 (changed stretched 21 1 4 pg).
Proof. apply (changed_small b stretched 21 1 4 19); [unfold stretched; lia|lia..]. Qed.
Lemma stretched_accepted : accepted 3 (changed stretched 21 1 4 pg).
Proof.
  apply good_accepted; [apply stretched_small; lia|reflexivity|discriminate|].
  apply (recolored_good stretched 21 gl gr 3 1 1 1 4 goodg); [reflexivity| |left; reflexivity].
  intros v H. apply pg_values in H. unfold stretched. lia.
Qed.

(** Rounding: the cleanness 2^53 and the smoothness 2^53 + 1 are equal after the
    conversion, three times as much are not. *)
Definition big_left : image := pic 3 1 [6; 5; 5].
Definition big_right : image := pic 3 1 [5; 5; 5].
Definition big (k : N) : stereo :=
  {| p_left := big_left; p_right := big_right; p_cleanness := k * 2 ^ 53; p_smoothness := k * (2 ^ 53 + 1) |}.

Lemma big_proportional : proportional 2 3 1 (big 1) (big 3).
Proof.
  unfold proportional. cbn [big p_left p_right p_cleanness p_smoothness].
  refine (conj eq_refl (conj eq_refl (conj eq_refl (conj eq_refl (conj _ eq_refl))))).
  intros n _. unfold node_cost. rewrite !N2Z.inj_mul. change (Z.of_N 3) with 3%Z. change (Z.of_N 1) with 1%Z. ring.
Qed.
Lemma big_good k : 0 < k -> good_problem big_left big_right 2 (p_cleanness (big k)) (p_smoothness (big k)).
Proof.
  intros Hk. assert (V : forall d, (forall v, In v d -> v <= 10) -> valid_image (pic 3 1 d)).
  { intros d H. refine (conj _ (conj _ (conj _ _))); [reflexivity..|]. exact H. }
  refine (conj (V _ _) (conj (V _ _) _)).
  - apply Forall_forall. repeat constructor; discriminate.
  - apply Forall_forall. repeat constructor; discriminate.
  - repeat (split; [first [reflexivity|discriminate]|]). left. cbn [big p_cleanness]. lia.
Qed.
Lemma big_accepted k : 0 < k -> k <= 3 -> accepted 2 (big k).
Proof.
  intros Hk Hk'. destruct (make_graph_accepts big_left big_right 2 (@of_u cpu (p_cleanness (big k))) (of_u (p_smoothness (big k)))) as [Acc _];
    try reflexivity; try discriminate.
  eexists. apply Acc. split; [|reflexivity]. apply good_iff; try reflexivity; try (cbn [big p_cleanness p_smoothness]; lia). apply big_good. exact Hk.
Qed.
Lemma big_solved : (exists img, solution_of isort 2 (big 1) = Ok img) /\ solution_of isort 2 (big 3) = Stop (Throw CannotLabel).
Proof. split; [eexists|]; vm_compute; reflexivity. Qed.
Lemma big_differs : exists srt lev j k a a' img, sorts srt /\ accepted lev a /\ accepted lev a' /\
  consistent_image (p_left a) /\ consistent_image (p_right a) /\ proportional lev j k a a' /\
  solution_of srt lev a = Ok img /\ solution_of srt lev a' = Stop (Throw CannotLabel).
Proof.
  destruct big_solved as [[i E] E']. exists isort, 2, 3%Z, 1%Z, (big 1), (big 3), i.
  refine (conj (isort_sorts cpu_laws) (conj (big_accepted 1 eq_refl _) (conj (big_accepted 3 eq_refl _) (conj eq_refl (conj eq_refl (conj big_proportional (conj E E'))))))); discriminate.
Qed.

(** A device finds a map for the first problem. *)
Lemma pg_addressable a : addressable a (p_right pg) 3.
Proof. destruct a; reflexivity. Qed.

(** Files with the brighter pictures, other names and other weights. *)
Definition textbl : text := lit "P2 4 2 12 3 3 12 8 3 12 8 8".
Definition textbr : text := lit "P2 4 2 12 3 12 8 8 12 8 8 8".
Definition wb : world := world_of [(lit "a.pgm", textbl); (lit "b.pgm", textbr)].
Definition ob : options :=
  let o := run_options (Some out_path) (Some (lit "3")) (Some (lit "5")) (Some (lit "5")) in
  {| o_help := o_help o; o_parallel := o_parallel o; o_left := Some (lit "a.pgm"); o_right := Some (lit "b.pgm"); o_output := o_output o;
     o_levels := o_levels o; o_smoothness := o_smoothness o; o_cleanness := o_cleanness o |}.
Lemma tokensbl : exists ts, laid_out ts textbl /\ image_tokens (recolor brighter 12 gl) [] ts.
Proof. tokens [lit "3"; lit "3"; lit "12"; lit "8"; lit "3"; lit "12"; lit "8"; lit "8"]. Qed.
Lemma tokensbr : exists ts, laid_out ts textbr /\ image_tokens (recolor brighter 12 gr) [] ts.
Proof. tokens [lit "3"; lit "12"; lit "8"; lit "8"; lit "12"; lit "8"; lit "8"; lit "8"]. Qed.
Definition pb : stereo := changed brighter 12 5 5 pg.
Lemma pb_proportional : proportional 3 5 1 pg pb.
Proof. apply (recolored 3 5 1 pg brighter 12 5 5 1 3); try reflexivity. intros v _. unfold brighter. lia. Qed.
Lemma pb_small b : (4096 <= b)%Z -> small_problem b 3 pb.
Proof. apply (changed_small b brighter 12 5 5 12); [unfold brighter; lia|lia..]. Qed.
Lemma pb_good : good_problem (p_left pb) (p_right pb) 3 (p_cleanness pb) (p_smoothness pb).
Proof.
  apply (recolored_good brighter 12 gl gr 3 1 1 5 5 goodg); [reflexivity| |left; reflexivity].
  intros v H. apply pg_values in H. unfold brighter. lia.
Qed.
Lemma wb_left : file_holds wb (lit "a.pgm") (p_left pb).
Proof. destruct tokensbl as [ts [L I]]. exists textbl, ts. auto. Qed.
Lemma wb_right : file_holds wb (lit "b.pgm") (p_right pb).
Proof. destruct tokensbr as [ts [L I]]. exists textbr, ts. auto. Qed.

(** Runs of devices for both. *)
Definition preps : outcome (cgraph cpu) :=
  prepared (@isort cpu) (recolor stretched 21 gl) (recolor stretched 21 gr) 3 (of_u 1) (of_u 4).
Definition cgs : cgraph cpu := match preps with Ok cg => cg | Stop _ => cg58 end.
Lemma preps_ok : preps = Ok cgs.
Proof. unfold cgs. assert (X : ok preps = true) by (vm_compute; reflexivity). destruct preps as [cg|]; [reflexivity|discriminate]. Qed.
Lemma pg_device a : device_solution_of a good_device isort 3 pg (Ok mapg).
Proof. exact (solvesg a). Qed.
Lemma stretched_device a : device_solution_of a good_device isort 3 (changed stretched 21 1 4 pg) (Ok mapg).
Proof.
  apply (solves_by a _ _ _ _ _ _ cgs memg mapg 6 8 4); [exact preps_ok|destruct a; vm_compute; reflexivity|vm_compute; reflexivity].
Qed.

Lemma changes_example : sorts (@isort cpu) /\ good_problem (p_left pg) (p_right pg) 3 (p_cleanness pg) (p_smoothness pg) /\
  width (p_left pg) * height (p_left pg) < 2 ^ 32 /\ width (p_left pg) * height (p_left pg) * 4 * 3 <= vector_max_size /\
  small_problem (2 ^ 53) 3 pg /\
  (forall v, In v (data (p_left pg)) \/ In v (data (p_right pg)) ->
     stretched v <= 21 /\ (Z.of_N (stretched v) = 2 * Z.of_N v + 1)%Z /\ v + 3 <= 12) /\
  small_problem (2 ^ 53) 3 (changed stretched 21 1 4 pg) /\ small_problem (2 ^ 53) 3 (changed brighter 12 1 1 pg) /\
  small_problem (2 ^ 53) 3 (changed inverted 10 1 1 pg) /\
  small_problem (2 ^ 53) 3 {| p_left := gl; p_right := gr; p_cleanness := 5 * 1; p_smoothness := 5 * 1 |} /\
  exists img, solution_of isort 3 pg = Ok img /\ data img = [0; 1; 1; 0; 1; 1; 0; 0].
Proof.
  refine (conj (isort_sorts cpu_laws) (conj pg_good (conj eq_refl (conj _ (conj (pg_small _ _) (conj _ (conj (stretched_small _ _) (conj _ (conj _ (conj _ pg_solved)))))))))).
  - discriminate.
  - lia.
  - intros v H. apply pg_values in H. unfold stretched. lia.
  - lia.
  - apply (changed_small _ brighter 12 1 1 12); [unfold brighter; lia|lia..].
  - apply (changed_small _ inverted 10 1 1 10); [unfold inverted; lia|lia..].
  - refine (conj _ (conj _ (conj _ _))); [reflexivity..|]. exists 9%Z. split; [intros v H; apply pg_values in H; lia|].
    cbn [p_cleanness p_smoothness]. lia.
Qed.
Lemma ob_technology : technology_ok ob.
Proof. intros t E. cbn [ob run_options o_parallel] in E. injection E as <-. exact omp_known. Qed.
Lemma files_example : sorts (@isort cpu) /\ proportional 3 5 1 pg pb /\ small_problem (2 ^ 53) 3 pg /\ small_problem (2 ^ 53) 3 pb /\
  good_problem (p_left pg) (p_right pg) 3 (p_cleanness pg) (p_smoothness pg) /\
  good_problem (p_left pb) (p_right pb) 3 (p_cleanness pb) (p_smoothness pb) /\
  width (p_left pg) * height (p_left pg) < 2 ^ 32 /\ width (p_left pg) * height (p_left pg) * 4 * 3 <= vector_max_size /\
  all_paths (og out_path) (lit "l.pgm") (lit "r.pgm") out_path /\ all_paths ob (lit "a.pgm") (lit "b.pgm") out_path /\
  technology_ok (og out_path) /\ technology_ok ob /\
  file_holds wg (lit "l.pgm") (p_left pg) /\ file_holds wg (lit "r.pgm") (p_right pg) /\
  file_holds wb (lit "a.pgm") (p_left pb) /\ file_holds wb (lit "b.pgm") (p_right pb) /\
  option_number (width (p_left pg)) (o_levels (og out_path)) 3 /\ option_number (width (p_left pb)) (o_levels ob) 3 /\
  option_number 1 (o_cleanness (og out_path)) (p_cleanness pg) /\ option_number 1 (o_cleanness ob) (p_cleanness pb) /\
  option_number 1 (o_smoothness (og out_path)) (p_smoothness pg) /\ option_number 1 (o_smoothness ob) (p_smoothness pb) /\
  writable wg out_path = writable wb out_path /\
  main (@isort cpu) wg (Parsed (og out_path)) = Ok (ends 0 None (Some (out_path, textg))).
Proof.
  refine (conj (isort_sorts cpu_laws) (conj pb_proportional (conj (pg_small _ _) (conj (pb_small _ _) (conj pg_good (conj pb_good (conj eq_refl (conj _
    (conj (og_paths out_path) (conj _ (conj (run_technology _ _ _ _) (conj ob_technology (conj wg_left (conj wg_right (conj wb_left (conj wb_right
    (conj _ (conj _ (conj _ (conj _ (conj _ (conj _ (conj eq_refl (rung _ (isort_sorts cpu_laws)))))))))))))))))))))))));
    try lia; try discriminate; try (apply number_value; reflexivity).
  split; [reflexivity|split; reflexivity].
Qed.
