(** Vocabulary for runs of the other builds with scarce memory. *)
From Verif Require Export Memory_builds Memory_spec Gpu_spec Fail_spec Omp_spec.
Local Open Scope N_scope.

(** The device, if one is asked for, can address the problem. *)
Definition device_fits (b : build) (w : world) (p : parsed) : Prop :=
  forall o a lpath l lev, p = Parsed o -> chosen b (o_parallel o) = Ok (On a) -> o_left o = Some lpath ->
    file_holds w lpath l -> option_number (width l) (o_levels o) lev -> lev <= width l -> addressable a l lev.

(** The run complains about a file although it can be read. *)
Definition blames_file (e : fate) : Prop :=
  exists m, ends_with e 0 (Some m) None /\
    (m = InvalidArgumentError NotPgm \/ m = LogicError StoulRange \/ m = LogicError LengthError).

(** The process ends with the status 1. *)
Definition ends_one (e : fate) : Prop := exists m f, ends_with e 1 m f.
