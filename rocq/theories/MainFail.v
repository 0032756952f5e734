(** The application (lib/main.cpp) when calls of the OpenCL and CUDA libraries fail.
    MainGpu.v is about runs without such failures. *)
From Coq Require Import String.
From Verif Require Export MainGpu.
Local Open Scope N_scope.

(** How the process ends: from [main], by [exit(0)] in [cudaCheckError]
    (lib/cuda_csp.cu 42-48), or by [assert(0)] in [cdpAssert] (lib/cuda_csp.cu 33-40).
    The texts printed by the last two are left out. *)
Inductive fate : Type := Ends (e : outcome effects) | Exits | Aborts.

(** Whether [NDEBUG] is defined, so that [assert] does nothing, and the largest
    number of threads of a block and of blocks of a grid which the device accepts. *)
Record conditions : Type := { ndebug : bool; max_threads : N; max_blocks : N }.

(** *** CUDA, lib/cuda_csp.cu *)

(** The availability array and the flags on the device, whether [cudaGetLastError]
    has an error to report, and whether a kernel has failed while running: from then on
    every call returns an error.  The other arrays are written once, by
    [prepare_problem], and a failure there is pending when the first kernel would be
    launched; therefore only [cg_avail] is kept. *)
Record cuda_state : Type := {
  c_mem : mem; c_flags : flags; c_error : bool; c_lost : bool
}.
Definition with_error (c : cuda_state) (lost : bool) : cuda_state :=
  {| c_mem := c_mem c; c_flags := c_flags c; c_error := true; c_lost := lost |}.
Definition with_mem (c : cuda_state) (m : mem) : cuda_state :=
  {| c_mem := m; c_flags := c_flags c; c_error := c_error c; c_lost := c_lost c |}.

(** What is reached: the next statement, [exit(0)] or [assert(0)]. *)
Inductive way_on (A : Type) : Type := Goes (a : A) | Leaves | Dies.
Arguments Goes {A} a.
Arguments Leaves {A}.
Arguments Dies {A}.
Definition afterwards {A B : Type} (R : A -> way_on B -> Prop) (x : way_on A) (y : way_on B) : Prop :=
  match x with Goes a => R a y | Leaves => y = Leaves | Dies => y = Dies end.

(** A call of the library, and whether it succeeds. *)
Inductive library_call : cuda_state -> bool -> cuda_state -> Prop :=
| call_succeeds c : c_lost c = false -> library_call c true c
| call_fails c lost : (c_lost c = true -> lost = true) -> library_call c false (with_error c lost).

Section Cuda.
Context (k : conditions).

(** [cdpErrchk], lib/cuda_csp.cu 32-40. *)
Inductive errchk (c : cuda_state) : way_on (bool * cuda_state) -> Prop :=
| errchk_success c' : library_call c true c' -> errchk c (Goes (true, c'))
| errchk_ignored c' : library_call c false c' -> ndebug k = true -> errchk c (Goes (false, c'))
| errchk_asserts c' : library_call c false c' -> ndebug k = false -> errchk c Dies.

(** Several checked calls whose results are not needed here. *)
Fixpoint errchks (n : nat) (c : cuda_state) (y : way_on cuda_state) : Prop :=
  match n with
  | O => y = Goes c
  | S n => exists x, errchk c x /\ afterwards (fun r => errchks n (snd r)) x y
  end.

(** [cudaCheckError], lib/cuda_csp.cu 42-48.  A failure of a kernel may be reported
    here or later. *)
Inductive check_error (c : cuda_state) : way_on cuda_state -> Prop :=
| check_passes : c_error c = false -> check_error c (Goes c)
| check_exits : c_error c || c_lost c = true -> check_error c Leaves.

(** The launch of a kernel: it runs, it is refused, or it fails while running. *)
Inductive launches (fits : bool) (effect : mem -> flags -> mem -> flags -> Prop) (c : cuda_state) :
  cuda_state -> Prop :=
| launch_runs m f :
    fits = true -> c_lost c = false -> effect (c_mem c) (c_flags c) m f ->
    launches fits effect c {| c_mem := m; c_flags := f; c_error := c_error c; c_lost := false |}
| launch_refused : launches fits effect c (with_error c (c_lost c))
| launch_fails m f :
    fits = true -> c_lost c = false ->
    launches fits effect c {| c_mem := m; c_flags := f; c_error := c_error c; c_lost := true |}.

(** The copy of the availability to the device, lib/cuda_csp.cu 129-134. *)
Inductive upload (avail : mem) (c : cuda_state) : way_on cuda_state -> Prop :=
| upload_done c' : errchk c (Goes (true, c')) -> upload avail c (Goes (with_mem c' avail))
| upload_failed c' m : errchk c (Goes (false, c')) -> upload avail c (Goes (with_mem c' m))
| upload_dies : errchk c Dies -> upload avail c Dies.

(** [prepare_problem], lib/cuda_csp.cu 54-147: seven allocations and three copies, the
    copy of the availability, two more copies. *)
Definition prepare_problem (avail : mem) (c : cuda_state) (y : way_on cuda_state) : Prop :=
  exists x1 x2, errchks 10 c x1 /\ afterwards (upload avail) x1 x2 /\ afterwards (errchks 2) x2 y.

(** [choose_best_node_gpu<<<1, 1>>>], lib/cuda_csp.cu 188-208. *)
Definition choosing {T : target} (cg : cgraph T) (p : pixel) (m : mem) (f : flags) (m' : mem) (f' : flags) : Prop :=
  (exists b, run (choose_best_node cg p) m = Ok (b, m')) /\ f' = f.

(** Whether [csp_iteration_cuda<<<width, height>>>] is accepted, lib/cuda_csp.cu 210-213;
    the members of [dim3] have 32 bits. *)
Definition launchable (r : image) : bool :=
  let blocks := width r mod 2 ^ 32 in
  let threads := height r mod 2 ^ 32 in
  (0 <? blocks) && (blocks <=? max_blocks k) && (0 <? threads) && (threads <=? max_threads k).

Context (v : behaviour).

(** The loops of lib/cuda_csp.cu 182-233. *)
Inductive cuda_loop (cg : cgraph cuda) : list pixel -> cuda_state -> way_on cuda_state -> Prop :=
| loop_none c : cuda_loop cg [] c (Goes c)
| loop_exits p ps c : check_error c Leaves -> cuda_loop cg (p :: ps) c Leaves
| loop_pixel p ps c c0 c1 c2 y :
    check_error c (Goes c0) ->
    launches true (choosing cg p) c0 c1 ->
    launches (launchable (right (cg_graph cg)))
      (propagate cg CUDA (b_sc v) (b_kind v) (b_partition v)) c1 c2 ->
    cuda_loop cg ps c2 y -> cuda_loop cg (p :: ps) c y.

(** [csp_solution_cuda], lib/cuda_csp.cu 177-236. *)
Definition csp_solution_cuda (cg : cgraph cuda) (c : cuda_state) (y : way_on cuda_state) : Prop :=
  exists x1 x2, cuda_loop cg (device_order cg) c x1 /\ afterwards check_error x1 x2 /\
    afterwards (errchks 1) x2 y.

(** [free_problem], lib/cuda_csp.cu 149-175: the availability of the host afterwards.
    A failed copy leaves the zeros of line 151. *)
Inductive download (size : N) (c : cuda_state) : way_on (mem * cuda_state) -> Prop :=
| download_done c' : errchk c (Goes (true, c')) -> download size c (Goes (c_mem c', c'))
| download_failed c' : errchk c (Goes (false, c')) -> download size c (Goes (fill size false, c'))
| download_dies : errchk c Dies -> download size c Dies.
Definition free_problem (size : N) (c : cuda_state) (y : way_on mem) : Prop :=
  exists x, download size c x /\
    afterwards (fun r y => exists z, errchks 9 (snd r) z /\ afterwards (fun _ y => y = Goes (fst r)) z y) x y.

(** [find_labeling_cuda], lib/labeling_finder.cpp 337-347.  The device memory and the
    flags are not initialised at first. *)
Definition labels_cuda (cg : cgraph cpu) (y : way_on (cgraph cpu)) : Prop :=
  exists m f x1 x2 x3,
    prepare_problem (cg_avail cg) {| c_mem := m; c_flags := f; c_error := false; c_lost := false |} x1 /\
    afterwards (csp_solution_cuda (cuda_problem cg)) x1 x2 /\
    afterwards (free_problem (len (cg_avail cg))) x2 x3 /\
    afterwards (fun m y => y = Goes (with_avail cg m)) x3 y.
End Cuda.

(** *** The program *)

(** Boost.Compute throws when a call of the OpenCL library reports a failure; the
    exceptions derive from [std::exception] and neither from [std::invalid_argument] nor
    from [std::logic_error], so that the handlers of lib/main.cpp 244-251 let them pass
    to the one of lines 272-275. *)
Definition thrown : fate := Ends (Ok (ends 1 (Some UnexpectedException) None)).

(** From the graph to label to the end, lib/main.cpp 198-254.  A call of the OpenCL
    library may fail at any time; nothing has been written by then.  A kernel that fails
    without any call reporting it is not modelled for OpenCL. *)
Definition concludes (k : conditions) (pa : parallelism) (v : behaviour) (w : world) (out : text)
  (cg : cgraph cpu) (e : fate) : Prop :=
  match pa with
  | OnCpu => exists x, labels OnCpu v cg x /\ e = Ends (finishes w out (mapped x))
  | On OpenCL =>
      e = thrown \/ exists x, labels (On OpenCL) v cg x /\ e = Ends (finishes w out (mapped x))
  | On CUDA =>
      exists y, labels_cuda k v cg y /\
        e = match y with
            | Goes cg' => Ends (finishes w out (mapped (Ok (true, cg'))))
            | Leaves => Exits
            | Dies => Aborts
            end
  end.

(** The [try] block and its handlers, lib/main.cpp 131-254. *)
Definition block_with (k : conditions) (pa : parallelism) (v : behaviour) (srt : list (F cpu) -> list (F cpu))
  (w : world) (o : options) (left_path right_path out : text) (e : fate) : Prop :=
  match
    l <- read_file w left_path ;;
    r <- read_file w right_path ;;
    lev <- number_or (width l) (o_levels o) ;;
    c <- number_or 1 (o_cleanness o) ;;
    s <- number_or 1 (o_smoothness o) ;;
    prepared srt l r lev (of_u c) (of_u s)
  with
  | Stop x => e = Ends (finishes w out (Stop x))
  | Ok cg => concludes k pa v w out cg e
  end.

(** [main], lib/main.cpp 33-279. *)
Definition main_failing (k : conditions) (b : build) (v : behaviour) (srt : list (F cpu) -> list (F cpu))
  (w : world) (p : parsed) (e : fate) : Prop :=
  match p with
  | Repeated => e = Ends (Ok (ends 1 (Some UsageError) None))
  | Rejected => e = Ends (Ok (ends 1 (Some UnexpectedException) None))
  | Parsed o =>
      match o_output o, o_left o, o_right o with
      | Some out, Some l, Some r =>
          match chosen b (o_parallel o) with
          | Stop (Throw _) => e = Ends (Ok (ends 1 (Some UnexpectedException) None))
          | Stop x => e = Ends (Stop x)
          | Ok pa => block_with k pa v srt w o l r out e
          end
      | _, _, _ =>
          if (count (o_left o) =? 0) || (count (o_right o) =? 0)
          then e = Ends (Ok (ends 0 (Some NoImages) None))
          else if count (o_output o) =? 0 then e = Ends (Ok (ends 0 (Some NoOutput) None))
          else e = Ends (Ok (ends 1 (Some Help) None))
      end
  end.
