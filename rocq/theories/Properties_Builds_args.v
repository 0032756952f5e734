(** Command lines of all builds (C96). *)
From Coq Require Import String.
From Verif Require Import Device_witness Omp_witness Series_witness Builds_witness Builds_args_proofs.
Local Open Scope N_scope.

(** C96: whatever the files, threads and devices, the status of a run that ends is 1
    exactly for command lines without a meaning and for technologies that are not part
    of the build. *)
Theorem C96_builds_status x srt w args e : runs_as x srt w args (Ok e) ->
  (status e = 0 \/ status e = 1) /\
  (status e = 1 <-> (~ exists s, gives args s) \/ exists s, gives args s /\
     (~ once s \/ exists l r out t, In (ForLeft, l) s /\ In (ForRight, r) s /\ In (ForOutput, out) s /\
        In (ForParallel, t) s /\ ~ built_in x t)).
Proof. exact (as_status x srt w args e). Qed.
Print Assumptions C96_builds_status.

Example C96_builds_hypotheses :
  runs_as dev (@isort cpu) wg args_device (Ok (ends 0 None (Some (out_path, textg)))) /\ built_in dev (lit "CUDA") /\
  ~ built_in crew (lit "CUDA") /\ runs_as crew (@isort cpu) wg args_device (Ok (ends 1 (Some UnexpectedException) None)).
Proof. exact as_example. Qed.

(** Without images nothing is done in any build. *)
Theorem C96_builds_no_images x srt w args s e : gives args s -> once s ->
  (forall v, ~ In (ForLeft, v) s) \/ (forall v, ~ In (ForRight, v) s) ->
  runs_as x srt w args e <-> e = Ok (ends 0 (Some NoImages) None).
Proof. exact (as_no_images x srt w args s e). Qed.
Print Assumptions C96_builds_no_images.

Example C96_builds_help x srt w args e :
  In args [[]; [lit "-h"]; [lit "--help"]; [lit "l.pgm"; lit "r.pgm"; lit "map.pgm"]] ->
  runs_as x srt w args e <-> e = Ok (ends 0 (Some NoImages) None).
Proof. exact (help_as x srt w args e). Qed.
