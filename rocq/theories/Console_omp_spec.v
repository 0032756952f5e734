(** Vocabulary for the properties of what the application built with OpenMP prints. *)
From Verif Require Export Console_spec Console_omp Omp_spec.
Local Open Scope N_scope.

(** The build without OpenCL and CUDA. *)
Definition no_devices : build := {| use_opencl := false; use_cuda := false |}.

(** The images and options give a problem that the library accepts. *)
Definition accepted_problem (w : world) (p : parsed) : Prop :=
  exists o lpath rpath out l r lev c s g, p = Parsed o /\ all_paths o lpath rpath out /\
    file_holds w lpath l /\ file_holds w rpath r /\ option_number (width l) (o_levels o) lev /\
    option_number 1 (o_cleanness o) c /\ option_number 1 (o_smoothness o) s /\
    make_graph l r lev (@of_u cpu c) (of_u s) = Ok g.

(** The messages of the build with OpenMP. *)
Definition may_appear (m : message) : Prop := can_appear m \/ m = LogicError CannotSolve \/ m = LogicError NoLabel.
