(** The source of the OpenCL program: lib/compile_cl.cpp and the list of files in
    include/gpu_csp.hpp.  The compiler is not modelled. *)
From Coq Require Import String.
From Verif Require Export MainProg.
Local Open Scope N_scope.

(** [concatenate_files], lib/compile_cl.cpp 37-49.  Iterators over a file that could
    not be opened are at its end. *)
Fixpoint concatenate_files (w : world) (filenames : list text) : text :=
  match filenames with
  | [] => []
  | f :: l => match files w f with Some t => t | None => [] end ++ concatenate_files w l
  end.

(** [SOURCE_FILES], include/gpu_csp.hpp 22-31. *)
Definition SOURCE_FILES : list text :=
  [ lit "lib/constraint_graph.cpp"; lit "lib/lowest_penalties.cpp"; lit "lib/labeling_finder.cpp";
    lit "lib/disparity_graph.cpp"; lit "lib/image.cpp"; lit "lib/indexing_checks.cpp";
    lit "lib/indexing.cpp"; lit "lib/solve_csp.cl" ].

(** [create_program] and [build_csp_program], lib/compile_cl.cpp 22-35 and
    lib/gpu_csp.cpp 21-28: the text handed to the compiler. *)
Definition program_source (w : world) : text := concatenate_files w SOURCE_FILES.
