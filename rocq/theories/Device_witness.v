(** Executions of the labeling on a device, and concrete ones. *)
From Coq Require Import Lia String.
From Verif Require Export Gpu_schedule Device_main_proofs Exact_witness.
Local Open Scope N_scope.

(** *** Following a schedule *)

Definition is_cl (a : api) : bool := match a with OpenCL => true | CUDA => false end.

Section Device.
Context {T : target} (cg : cgraph T) (a : api) (kind : barrier_kind) (group : nat -> nat) (es : list event).

Fixpoint propagate_by (fuel : nat) (m : mem) (f : flags) : option (mem * flags) :=
  match fuel with
  | O => None
  | S fuel =>
      let s := launch_by cg a kind group es m f in
      if all_done s then
        if is_cl a && any_flag (kflags s) then propagate_by fuel (current (khistory s)) (kflags s)
        else Some (current (khistory s), kflags s)
      else None
  end.
Fixpoint label_by (fuel : nat) (ps : list pixel) (m : mem) (f : flags) : option (mem * flags) :=
  match ps with
  | [] => Some (m, f)
  | p :: ps =>
      match run (choose_best_node cg p) m with
      | Ok (_, m1) => match propagate_by fuel m1 f with Some (m2, f2) => label_by fuel ps m2 f2 | None => None end
      | Stop _ => None
      end
  end.

Lemma propagate_by_ok partition fuel : (partition group : Prop) -> forall m f m' f', propagate_by fuel m f = Some (m', f') ->
  propagate cg a true kind partition m f m' f'.
Proof.
  intros P. induction fuel as [|fuel IH]; intros m f m' f'; cbn [propagate_by]; [discriminate|]. cbv zeta.
  destruct (all_done (launch_by cg a kind group es m f)) eqn:D; [|discriminate].
  apply launch_by_launch in D. destruct (is_cl a && any_flag (kflags (launch_by cg a kind group es m f))) eqn:A; intros E.
  - apply andb_true_iff in A. destruct A as [A B]. apply IH in E.
    eapply propagate_again; [destruct a; [reflexivity|discriminate]| |exact B|exact E]. exists group. split; [exact P|exact D].
  - injection E as <- <-. apply propagate_once; [exists group; split; [exact P|exact D]|]. intros ->. exact A.
Qed.
Lemma label_by_ok partition fuel : (partition group : Prop) -> forall ps m f m' f', label_by fuel ps m f = Some (m', f') ->
  label_device cg a true kind partition ps m f m' f'.
Proof.
  intros P. induction ps as [|p ps IH]; intros m f m' f'; cbn [label_by]; [intros E; injection E as <- <-; constructor|].
  destruct (run (choose_best_node cg p) m) as [[b m1]|] eqn:C; [|discriminate].
  destruct (propagate_by fuel m1 f) as [[m2 f2]|] eqn:Q; [|discriminate]. intros E.
  econstructor; [exact C| |apply IH; exact E]. exact (propagate_by_ok partition fuel P _ _ _ _ Q).
Qed.
End Device.

(** Everybody waits for everybody. *)
Definition all_items (n : nat) : list nat := seq 0 n.
Definition round (n : nat) : list event :=
  [Together false (all_items n)] ++ map (fun i => Move i 2000) (all_items n) ++ [Together true (all_items n)] ++
  map (fun i => Move i 1) (all_items n) ++ map (fun i => Move i 1) (all_items n).
Definition rounds (n k : nat) : list event := map (fun i => Move i 3) (all_items n) ++ flat_map (fun _ => round n) (seq 0 k).

(** A device as the kernels expect it: one group, sequentially consistent. *)
Definition good_device : behaviour := {| b_sc := true; b_kind := Strict; b_partition := one_group |}.

(** *** Penalties that single precision rounds *)

Definition g72 : dgraph cpu := problem 4 1 3 [0; 1; 1; 0] [0; 0; 0; 0] (2 ^ 26) (2 ^ 24 + 1).
Lemma g72_made : make_graph (left g72) (right g72) 3 (of_u (2 ^ 26)) (of_u (2 ^ 24 + 1)) = Ok g72.
Proof. made. Qed.
Definition prep72 : outcome (cgraph cpu) := prepared (@isort cpu) (left g72) (right g72) 3 (of_u (2 ^ 26)) (of_u (2 ^ 24 + 1)).
Definition cg72 : cgraph cpu := match prep72 with Ok cg => cg | Stop _ => cg58 end.
Lemma prep72_ok : prep72 = Ok cg72.
Proof. unfold cg72. assert (X : ok prep72 = true) by (vm_compute; reflexivity). destruct prep72 as [cg|]; [reflexivity|discriminate]. Qed.
Definition mem72 : mem := [true; false; false; false; false; true; false; true; false; true; false; false].
Definition map72 : image := {| width := 4; height := 1; max_value := 3; data := [0; 2; 1; 0] |}.

Definition ends_with (o : option (mem * flags)) (m : mem) : Prop := match o with Some (m', _) => m' = m | None => False end.
Lemma cl72 : ends_with (label_by (opencl_problem cg72) OpenCL Strict same_group (rounds 4 6) 4 (device_order (opencl_problem cg72)) (cg_avail (opencl_problem cg72)) no_flags) mem72.
Proof. vm_compute. reflexivity. Qed.
Lemma cuda72 : ends_with (label_by (cuda_problem cg72) CUDA Strict same_group (rounds 4 6) 4 (device_order (cuda_problem cg72)) (cg_avail (cuda_problem cg72)) no_flags) mem72.
Proof. vm_compute. reflexivity. Qed.
Lemma mapped72 : mapped (Ok (true, with_avail cg72 mem72)) = Ok map72.
Proof. vm_compute. reflexivity. Qed.

Lemma solves_by a srt l r lev (c s : F cpu) cg m img k n fuel :
  prepared srt l r lev c s = Ok cg ->
  match a with
  | OpenCL => ends_with (label_by (opencl_problem cg) OpenCL Strict same_group (rounds n k) fuel (device_order (opencl_problem cg)) (cg_avail (opencl_problem cg)) no_flags) m
  | CUDA => ends_with (label_by (cuda_problem cg) CUDA Strict same_group (rounds n k) fuel (device_order (cuda_problem cg)) (cg_avail (cuda_problem cg)) no_flags) m
  end ->
  mapped (Ok (true, with_avail cg m)) = Ok img ->
  solves_with (On a) good_device srt l r lev c s (Ok img).
Proof.
  intros P E M. unfold solves_with. rewrite P. exists (Ok (true, with_avail cg m)). split; [|symmetry; exact M].
  destruct a; exists (with_avail cg m); (split; [|reflexivity]); exists m; (split; [|reflexivity]).
  - destruct (label_by _ _ _ _ _ _ _ _ _) as [[m1 f]|] eqn:L in E; [|contradiction]. cbn [ends_with] in E. subst m1.
    exists no_flags, f. split; [reflexivity|]. eapply label_by_ok; [exact same_group_one|exact L].
  - destruct (label_by _ _ _ _ _ _ _ _ _) as [[m1 f]|] eqn:L in E; [|contradiction]. cbn [ends_with] in E. subst m1.
    exists no_flags, f. split; [discriminate|]. eapply label_by_ok; [exact same_group_one|exact L].
Qed.
Lemma solves72 a : solves_with (On a) good_device (@isort cpu) (left g72) (right g72) 3 (of_u (2 ^ 26)) (of_u (2 ^ 24 + 1)) (Ok map72).
Proof.
  apply (solves_by a _ _ _ _ _ _ cg72 mem72 map72 6 4 4); [exact prep72_ok| |exact mapped72].
  destruct a; [exact cl72|exact cuda72].
Qed.

Lemma not_optimal72 : ~ optimal_map (left g72) (right g72) 3 (2 ^ 26) (2 ^ 24 + 1) map72.
Proof.
  intros [_ [_ [_ [_ [_ [_ Best]]]]]].
  destruct (Best (fun _ => 0) (2 ^ 26)%Z) as [_ W].
  - split.
    + intros p [Hx Hy]. repeat split; cbn [label_node npix disp]; try assumption; try reflexivity. lia.
    + intros p q _ _ A. unfold in_order, label_node, horizontal_pair. cbn [npix disp]. lia.
  - split.
    + intros p m Hp [[n [_ [Mn En]]] _].
      assert (B : forall img q, (forall v, In v (data img) -> v <= 1) -> (0 <= brightness img q <= 1)%Z).
      { intros img q H. unfold brightness. destruct (nth_in_or_default (N.to_nat (py q * width img + px q)) (data img) 0) as [Y|Y];
          [specialize (H _ Y)|rewrite Y]; lia. }
      assert (N0 : forall k, (0 <= node_cost (left g72) (right g72) (2 ^ 26) k <= 2 ^ 26)%Z).
      { intros k. unfold node_cost.
        assert (Br : (0 <= brightness (right g72) (npix k) <= 1)%Z) by (apply B; intros v [<-|[<-|[<-|[<-|[]]]]]; lia).
        assert (Bl : (0 <= brightness (left g72) {| px := px (npix k) + disp k; py := py (npix k) |} <= 1)%Z)
          by (apply B; intros v [<-|[<-|[<-|[<-|[]]]]]; lia).
        set (x := brightness _ _) in *. set (y := brightness _ _) in *. rewrite Z.pow_2_r. nia. }
      pose proof (N0 n). pose proof (N0 (label_node (fun _ => 0) p)). lia.
    + intros p q _ _ _. unfold edge_cost. rewrite Z.pow_2_r. lia.
  - assert (X : (edge_cost (2 ^ 24 + 1) 0 2 <= 2 ^ 26)%Z); [|vm_compute in X; apply X; reflexivity].
    apply (W {| px := 0; py := 0 |} {| px := 1; py := 0 |}); [split; reflexivity..|]. left. split; reflexivity.
Qed.

Lemma penalties72 : small_penalties (2 ^ 53) (left g72) (right g72) 3 (2 ^ 26) (2 ^ 24 + 1).
Proof. exists 1%Z. split; [|lia]. intros v [H|H]; cbn in H; decompose [or] H; subst; try lia; contradiction. Qed.

Lemma rounded_map a : exists srt l r lev c s (g : dgraph cpu) img,
  sorts srt /\ make_graph l r lev (of_u c) (of_u s) = Ok g /\ consistent_image l /\ consistent_image r /\ addressable a r lev /\
  small_penalties (2 ^ 53) l r lev (Z.of_N c) (Z.of_N s) /\
  solves_with (On a) good_device srt l r lev (of_u c) (of_u s) (Ok img) /\ ~ optimal_map l r lev (Z.of_N c) (Z.of_N s) img.
Proof.
  exists (@isort cpu), (left g72), (right g72), 3, (2 ^ 26), (2 ^ 24 + 1), g72, map72.
  refine (conj (isort_sorts cpu_laws) (conj g72_made (conj eq_refl (conj eq_refl (conj _ (conj penalties72 (conj (solves72 a) not_optimal72))))))).
  destruct a; reflexivity.
Qed.

(** *** A launch of the application that hangs: equal images *)

Definition g59 : dgraph cpu := problem 4 1 2 [0; 0; 0; 0] [0; 0; 0; 0] 1 1.
Lemma g59_made : make_graph (left g59) (right g59) 2 (of_u 1) (of_u 1) = Ok g59. Proof. made. Qed.
Definition prep59 : outcome (cgraph cpu) := prepared (@isort cpu) (left g59) (right g59) 2 (of_u 1) (of_u 1).
Definition cg59 : cgraph cpu := match prep59 with Ok cg => cg | Stop _ => cg58 end.
Lemma prep59_ok : prep59 = Ok cg59.
Proof. unfold cg59. assert (X : ok prep59 = true) by (vm_compute; reflexivity). destruct prep59 as [cg|]; [reflexivity|discriminate]. Qed.

Lemma removable_hangs {T : target} (cg : cgraph T) a m n : lp_graph (cg_lowest cg) = cg_graph cg -> cgb (with_avail cg m) = true ->
  match_exists (cg_graph cg) n -> removable cg m n = true -> may_hang (with_avail cg m) a.
Proof.
  intros E C M R group f Hg. assert (Hc : wf_cgraph (with_avail cg m)) by (apply cgb_ok; assumption).
  destruct (hang_iff (with_avail cg m) a group f Hc Hg) as [_ H]. specialize (H n M).
  destruct H as [s [P [D Q]]]; [|exists s; auto].
  unfold exec. cbn [with_avail cg_avail]. change (should_remove_node (with_avail cg m) n) with (should_remove_node cg n).
  unfold removable in R. pose proof (run_should_remove (with_avail cg m) m n (wf_static _ Hc) (wfc_avail _ Hc) (match_inb (with_avail cg m) n M)) as X.
  change (should_remove_node (with_avail cg m) n) with (should_remove_node cg n) in X.
  rewrite X in R |- *. cbn [bind fst snd]. rewrite R. reflexivity.
Qed.

Definition chosen59 {T : target} (cg : cgraph T) : mem := match run (choose_best_node cg px0) (cg_avail cg) with Ok (_, m) => m | Stop _ => [] end.
Definition chose59 {T : target} (cg : cgraph T) : bool := match run (choose_best_node cg px0) (cg_avail cg) with Ok (b, _) => b | Stop _ => false end.
Lemma chosen59_ok {T : target} (cg : cgraph T) : chose59 cg = true -> exec (fun cg => choose_best_node cg px0) cg = Ok (true, with_avail cg (chosen59 cg)).
Proof.
  unfold chose59, chosen59, exec. destruct (run (choose_best_node cg px0) (cg_avail cg)) as [[b m]|]; [|discriminate].
  intros ->. reflexivity.
Qed.

Lemma equal_images_hang : exists srt img lev (g : dgraph cpu) cg m m', sorts srt /\ make_graph img img lev (of_u 1) (of_u 1) = Ok g /\
  prepared srt img img lev (of_u 1) (of_u 1) = Ok cg /\
  exec (fun cg => choose_best_node cg px0) (opencl_problem cg) = Ok (true, m) /\
  may_hang m OpenCL /\
  exec (fun cg => choose_best_node cg px0) (cuda_problem cg) = Ok (true, m') /\
  may_hang m' CUDA.
Proof.
  exists (@isort cpu), (left g59), 2, g59, cg59, (with_avail (opencl_problem cg59) (chosen59 (opencl_problem cg59))), (with_avail (cuda_problem cg59) (chosen59 (cuda_problem cg59))).
  refine (conj (isort_sorts cpu_laws) (conj g59_made (conj prep59_ok (conj _ (conj _ (conj _ _)))))).
  - apply chosen59_ok. vm_compute. reflexivity.
  - apply (removable_hangs _ _ _ (nd 1 0 1)); [reflexivity|vm_compute; reflexivity| |vm_compute; reflexivity].
    split; [|split]; vm_compute; try reflexivity. split; reflexivity.
  - apply chosen59_ok. vm_compute. reflexivity.
  - apply (removable_hangs _ _ _ (nd 1 0 1)); [reflexivity|vm_compute; reflexivity| |vm_compute; reflexivity].
    split; [|split]; vm_compute; try reflexivity. split; reflexivity.
Qed.

(** *** A run of the application on a device *)

Definition on_device (t : text) (o : options) : options :=
  {| o_help := o_help o; o_parallel := Some t; o_left := o_left o; o_right := o_right o; o_output := o_output o;
     o_levels := o_levels o; o_smoothness := o_smoothness o; o_cleanness := o_cleanness o |}.
Definition both : build := {| use_opencl := true; use_cuda := true |}.
Definition device_name (a : api) : text := match a with OpenCL => lit "OpenCL" | CUDA => lit "CUDA" end.
Definition od (a : api) : options := on_device (device_name a) (og out_path).

Definition prepg : outcome (cgraph cpu) := prepared (@isort cpu) gl gr 3 (of_u 1) (of_u 1).
Definition cgg : cgraph cpu := match prepg with Ok cg => cg | Stop _ => cg58 end.
Lemma prepg_ok : prepg = Ok cgg.
Proof. unfold cgg. assert (X : ok prepg = true) by (vm_compute; reflexivity). destruct prepg as [cg|]; [reflexivity|discriminate]. Qed.
Definition memg : mem :=
  [true; false; false; false; true; false; false; true; false; false; true; false;
   false; true; false; true; false; false; true; false; false; true; false; false].
Definition mapg : image := {| width := 4; height := 2; max_value := 3; data := [0; 1; 1; 0; 1; 1; 0; 0] |}.
Lemma solvesg a : solves_with (On a) good_device (@isort cpu) gl gr 3 (of_u 1) (of_u 1) (Ok mapg).
Proof.
  apply (solves_by a _ _ _ _ _ _ cgg memg mapg 6 8 4); [exact prepg_ok|destruct a; vm_compute; reflexivity|vm_compute; reflexivity].
Qed.

Lemma device_run a : main_with both good_device (@isort cpu) wg (Parsed (od a)) (Ok (ends 0 None (Some (out_path, textg)))).
Proof.
  assert (Cg : chosen both (o_parallel (od a)) = Ok (On a)) by (destruct a; vm_compute; reflexivity).
  unfold main_with. change (o_output (od a)) with (Some out_path). change (o_left (od a)) with (Some (lit "l.pgm")).
  change (o_right (od a)) with (Some (lit "r.pgm")). rewrite Cg. exists (Ok mapg). split; [|vm_compute; reflexivity].
  unfold map_with.
  assert (El : read_file wg (lit "l.pgm") = Ok gl) by (vm_compute; reflexivity).
  assert (Er : read_file wg (lit "r.pgm") = Ok gr) by (vm_compute; reflexivity).
  assert (E1 : number_or (width gl) (o_levels (od a)) = Ok 3) by (destruct a; vm_compute; reflexivity).
  assert (E2 : number_or 1 (o_cleanness (od a)) = Ok 1) by (destruct a; vm_compute; reflexivity).
  assert (E3 : number_or 1 (o_smoothness (od a)) = Ok 1) by (destruct a; vm_compute; reflexivity).
  rewrite El, Er. cbn [bind]. rewrite E1, E2, E3. cbn [bind]. apply solvesg.
Qed.

Lemma wg_addressable a l lev : file_holds wg (lit "l.pgm") l -> option_number (width l) (o_levels (od a)) lev ->
  lev <= width l -> addressable a l lev.
Proof.
  intros H _ L. destruct (held_usable _ _ _ wg_usable H) as [S _]. pose proof (held_read _ _ _ H) as R.
  assert (V : width l * height l <= vector_max_size) by (assert (2 ^ 32 <= vector_max_size) by (vm_compute; discriminate); lia).
  specialize (R V). clear H. rename R into H. assert (X : read_file wg (lit "l.pgm") = Ok gl) by (vm_compute; reflexivity).
  rewrite X in H. injection H as <-. unfold addressable. cbn [gl pic width height] in *. destruct a; lia.
Qed.
