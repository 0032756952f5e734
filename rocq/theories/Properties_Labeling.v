(** Properties C45 - C48: choosing a node, finding a labeling and the disparity
    map. *)
From Verif Require Import Graph_proofs Witnesses.
Local Open Scope N_scope.

(** C45 *)
Theorem C45_choose_best_node (T : target) (HL : laws T) (cg : cgraph T) p :
  wf_cgraph cg -> in_image (cg_graph cg) p ->
  exists b cg', exec (fun cg => choose_best_node cg p) cg = Ok (b, cg') /\
    wf_cgraph cg' /\ same_problem cg cg' /\
    (forall n, in_image (cg_graph cg) (npix n) -> disp n < levels (cg_graph cg) -> npix n <> p ->
       (available cg' n <-> available cg n)) /\
    ((forall d, match_exists (cg_graph cg) {| npix := p; disp := d |} -> ~ available cg {| npix := p; disp := d |}) ->
       b = false /\ cg' = cg) /\
    (forall d0, match_exists (cg_graph cg) {| npix := p; disp := d0 |} -> available cg {| npix := p; disp := d0 |} ->
       b = true /\
       exists d, match_exists (cg_graph cg) {| npix := p; disp := d |} /\ available cg {| npix := p; disp := d |} /\
         (forall d', match_exists (cg_graph cg) {| npix := p; disp := d' |} ->
            (available cg' {| npix := p; disp := d' |} <-> d' = d)) /\
         ((forall d' v', match_exists (cg_graph cg) {| npix := p; disp := d' |} ->
             available cg {| npix := p; disp := d' |} ->
             node_penalty (cg_graph cg) {| npix := p; disp := d' |} = Ok v' -> fle fzero v' = true) ->
          forall d' v v', match_exists (cg_graph cg) {| npix := p; disp := d' |} ->
            available cg {| npix := p; disp := d' |} ->
            node_penalty (cg_graph cg) {| npix := p; disp := d |} = Ok v ->
            node_penalty (cg_graph cg) {| npix := p; disp := d' |} = Ok v' ->
            fle v v' = true /\ (fle v' v = true -> d <= d'))).
Proof. exact (choose_best HL cg p). Qed.
Print Assumptions C45_choose_best_node.

Example C45_hypotheses : laws cpu /\ wf_cgraph scg /\ in_image (cg_graph scg) px0 /\
  match_exists (cg_graph scg) {| npix := px0; disp := k2 px0 |} /\ available scg {| npix := px0; disp := k2 px0 |}.
Proof.
  pose proof k2_solution as [[A _] [B _]].
  refine (conj cpu_laws (conj scg_wf _)). rewrite scg_graph in *.
  assert (I : in_image sg px0) by (split; reflexivity).
  exact (conj I (conj (A _ I) (B _ I))).
Qed.

(** C46 is violated: with a reparametrization a node of a higher penalty is left. *)
Theorem C46_negative_penalties_refuted :
  exists (g : dgraph cpu) lp t cg cg' p d d' v v',
  wf_graph g /\ finite_penalties g /\ make_lowest g = Ok lp /\ make_constraint g lp t = Ok cg /\
  exec (fun cg => choose_best_node cg p) cg = Ok (true, cg') /\
  match_exists g {| npix := p; disp := d |} /\ available cg' {| npix := p; disp := d |} /\
  match_exists g {| npix := p; disp := d' |} /\ available cg {| npix := p; disp := d' |} /\
  node_penalty g {| npix := p; disp := d |} = Ok v /\ node_penalty g {| npix := p; disp := d' |} = Ok v' /\
  flt v' v = true.
Proof. exact negative_not_lowest. Qed.
Print Assumptions C46_negative_penalties_refuted.

(** C47 *)
Theorem C47_found_labeling (T : target) (HL : laws T) (cg : cgraph T) :
  wf_cgraph cg ->
  exists b cg', exec find_labeling cg = Ok (b, cg') /\ wf_cgraph cg' /\ same_problem cg cg' /\
    (forall n, in_image (cg_graph cg) (npix n) -> disp n < levels (cg_graph cg) -> available cg' n -> available cg n) /\
    (b = true -> exists k, solution cg' k /\
       forall n, match_exists (cg_graph cg) n -> (available cg' n <-> disp n = k (npix n))).
Proof. exact (found_labeling HL cg). Qed.
Print Assumptions C47_found_labeling.

Example C47_hypotheses : laws cpu /\ wf_cgraph scg /\ answers find_labeling scg true = true.
Proof. refine (conj cpu_laws (conj scg_wf _)). vm_compute. reflexivity. Qed.

(** C48 *)
Theorem C48_disparity_map (T : target) (cg : cgraph T) :
  wf_cgraph cg ->
  ((forall p, in_image (cg_graph cg) p -> exists d,
      match_exists (cg_graph cg) {| npix := p; disp := d |} /\ available cg {| npix := p; disp := d |}) ->
   exists img, exec build_disparity_map cg = Ok (img, cg) /\
     width img = width (right (cg_graph cg)) /\ height img = height (right (cg_graph cg)) /\
     max_value img = levels (cg_graph cg) /\
     len (data img) = width (right (cg_graph cg)) * height (right (cg_graph cg)) /\
     valid_image img /\
     forall p, in_image (cg_graph cg) p -> exists d,
       get (data img) (py p * width (right (cg_graph cg)) + px p) = Ok d /\
       match_exists (cg_graph cg) {| npix := p; disp := d |} /\ available cg {| npix := p; disp := d |} /\
       forall d', match_exists (cg_graph cg) {| npix := p; disp := d' |} ->
         available cg {| npix := p; disp := d' |} -> d <= d') /\
  (forall p, in_image (cg_graph cg) p ->
     (forall d, match_exists (cg_graph cg) {| npix := p; disp := d |} -> ~ available cg {| npix := p; disp := d |}) ->
   exec build_disparity_map cg = Stop (Throw NoLabel)).
Proof. exact (disparity_map cg). Qed.
Print Assumptions C48_disparity_map.

Example C48_hypotheses : wf_cgraph scg /\
  forall p, in_image (cg_graph scg) p -> exists d,
    match_exists (cg_graph scg) {| npix := p; disp := d |} /\ available scg {| npix := p; disp := d |}.
Proof.
  pose proof k2_solution as [[A _] [B _]]. refine (conj scg_wf _). rewrite scg_graph in *.
  intros p I. exists (k2 p). exact (conj (A p I) (B p I)).
Qed.
