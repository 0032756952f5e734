(** The GPU builds: the kernels (lib/solve_csp.cl, lib/solve_csp.cu) and the host
    functions that start them (lib/gpu_csp.cpp, lib/cuda_csp.cu).

    The work-items of a launch interleave as in Concur.v; the arrays of the devices
    hold one [int] per node, so that elements are stored one by one.  Failures of
    the OpenCL and CUDA libraries (memory, compilation, launch configuration) are
    not modelled. *)
From Flocq Require Import Core.Core IEEE754.BinarySingleNaN.
From Verif Require Export Concur Labeling.
Local Open Scope N_scope.

Inductive api : Type := OpenCL | CUDA.

(** *** The copy of the problem on the device *)

(** Conversion of double to float, as the IEEE 754 hardware does it. *)
Definition to_single (x : F cpu) : binary_float 24 128 :=
  match x with
  | B754_zero s => B754_zero s
  | B754_infinity s => B754_infinity s
  | B754_nan => B754_nan
  | B754_finite s m e _ =>
      binary_normalize 24 128 hp24 he24 mode_NE (cond_Zopp s (Zpos m)) e s
  end.

Section Device.
Context {T : target} (narrow : F cpu -> F T) (word : N -> N).

(** The images: [prepare_problem], lib/gpu_csp.cpp 32-41, lib/cuda_csp.cu 57-60 and
    77-80, and [populate_structures_gpu], lib/solve_csp.cl 29-37, lib/solve_csp.cu
    71-79 (all dimensions are those of the right image). *)
Definition device_image (r : image) (pixels : list N) : image :=
  {| width := word (width r); height := word (height r); max_value := word (max_value r);
     data := map word pixels |}.

(** lib/solve_csp.cl 29-42, lib/solve_csp.cu 71-84, with the arguments of
    lib/gpu_csp.cpp 83-89 and lib/cuda_csp.cu 224-230. *)
Definition device_graph (g : dgraph cpu) : dgraph T :=
  {| left := device_image (right g) (data (left g));
     right := device_image (right g) (data (right g));
     levels := word (levels g);
     cleanness := narrow (cleanness g);
     smoothness := narrow (smoothness g);
     reparam := map narrow (reparam g) |}.

(** lib/solve_csp.cl 44-51, lib/solve_csp.cu 86-93; the tables are those computed
    on the host (lib/gpu_csp.cpp 42-51, lib/cuda_csp.cu 61-68). *)
Definition device_problem (cg : cgraph cpu) : cgraph T :=
  {| cg_graph := device_graph (cg_graph cg);
     cg_lowest := {| lp_graph := device_graph (cg_graph cg);
                     lp_pixels := map narrow (lp_pixels (cg_lowest cg));
                     lp_neighborhoods := map narrow (lp_neighborhoods (cg_lowest cg)) |};
     cg_threshold := narrow (cg_threshold cg);
     cg_avail := cg_avail cg |}.
End Device.

(** [ulong] holds all values of the host, [unsigned] the lower 32 bits. *)
Definition opencl_problem : cgraph cpu -> cgraph opencl :=
  device_problem (T := opencl) to_single (fun n => n).
Definition cuda_problem : cgraph cpu -> cgraph cuda :=
  device_problem (T := cuda) to_single (fun n => n mod 2 ^ 32).

(** *** One launch of the kernel [csp_iteration] *)

(** Where a work-item is. *)
Inductive phase : Type :=
| Enter         (* lib/solve_csp.cl 116 *)
| Enter2        (* lib/solve_csp.cl 117 *)
| Reset         (* lib/solve_csp.cl 63, lib/solve_csp.cu 106 *)
| First         (* waits, lib/solve_csp.cl 64, lib/solve_csp.cu 107 *)
| Work (t : thread bool)  (* lib/solve_csp.cl 65, lib/solve_csp.cu 108 *)
| MarkStep      (* lib/solve_csp.cl 67, lib/solve_csp.cu 110 *)
| MarkAny       (* lib/solve_csp.cl 68 *)
| Second        (* waits, lib/solve_csp.cl 70, lib/solve_csp.cu 112 *)
| Test          (* lib/solve_csp.cl 71, lib/solve_csp.cu 113 *)
| Done.

(** [changed[0]] and [changed[1]], as truth values; CUDA has only the first. *)
Record flags : Type := { step_flag : bool; any_flag : bool }.

(** Work-items with their pixels, the contents of the availability array since the
    launch (the current ones first), the flags. *)
Record kernel_state : Type := {
  items : list (pixel * phase);
  khistory : list mem;
  kflags : flags
}.

(** What happens if some work-items of a group wait at a barrier that others will
    never reach is undefined in OpenCL and CUDA.  [Strict]: they wait for ever;
    [SkipDone]: finished work-items are not waited for; [Absent]: barriers do not
    wait at all. *)
Inductive barrier_kind : Type := Strict | SkipDone | Absent.

Section Launch.
Context {T : target} (cg : cgraph T).
(** [sc] as in Concur.v; without it also the test of the flag may see an old value. *)
Context (a : api) (sc : bool) (kind : barrier_kind) (group : nat -> nat).

(** The steps of a work-item between the barriers: lib/solve_csp.cl 54-72 and
    116-117, lib/solve_csp.cu 97-114. *)
Inductive item_step : phase -> list mem -> flags -> phase -> list mem -> flags -> Prop :=
| item_enter h f : item_step Enter h f Enter2 h {| step_flag := false; any_flag := any_flag f |}
| item_enter2 h f : item_step Enter2 h f Reset h {| step_flag := step_flag f; any_flag := false |}
| item_reset h f : item_step Reset h f First h {| step_flag := false; any_flag := any_flag f |}
| item_work t t' h h' f : tstep sc 1 t h t' h' -> item_step (Work t) h f (Work t') h' f
| item_result (r : bool) h f :
    item_step (Work (Run (Ret r))) h f (if r then MarkStep else Second) h f
| item_mark h f :
    item_step MarkStep h f (match a with OpenCL => MarkAny | CUDA => Second end) h
      {| step_flag := true; any_flag := any_flag f |}
| item_mark_any h f :
    item_step MarkAny h f Second h {| step_flag := step_flag f; any_flag := true |}
| item_test (b : bool) h f : (sc = true -> b = step_flag f) ->
    item_step Test h f (if b then Reset else Done) h f.

(** Behind a barrier. *)
Definition behind (p : pixel) (ph : phase) : phase :=
  match ph with
  | First => Work (Run (csp_process_pixel cg p))
  | Second => Test
  | _ => ph
  end.
Fixpoint pass (who : nat -> bool) (i : nat) (l : list (pixel * phase)) : list (pixel * phase) :=
  match l with
  | [] => []
  | (p, ph) :: r => (p, if who i then behind p ph else ph) :: pass who (S i) r
  end.

(** The work-items [who], at least one, may pass the barrier [b] together. *)
Definition may_pass (b : phase) (who : nat -> bool) (l : list (pixel * phase)) : Prop :=
  (exists i x, nth_error l i = Some x /\ who i = true) /\
  (forall i p ph, nth_error l i = Some (p, ph) -> who i = true -> ph = b) /\
  (forall i j p ph p' ph', nth_error l i = Some (p, ph) -> who i = true ->
     nth_error l j = Some (p', ph') -> group j = group i ->
     match kind with
     | Strict => who j = true
     | SkipDone => who j = true \/ ph' = Done
     | Absent => True
     end).

Inductive kernel_step : kernel_state -> kernel_state -> Prop :=
| kernel_item i p ph ph' l h h' f f' :
    nth_error l i = Some (p, ph) -> item_step ph h f ph' h' f' ->
    kernel_step {| items := l; khistory := h; kflags := f |}
                {| items := upd l i (p, ph'); khistory := h'; kflags := f' |}
| kernel_barrier b who l h f :
    b = First \/ b = Second -> may_pass b who l ->
    kernel_step {| items := l; khistory := h; kflags := f |}
                {| items := pass who 0 l; khistory := h; kflags := f |}.

Inductive kernel_steps : kernel_state -> kernel_state -> Prop :=
| kernel_steps_none s : kernel_steps s s
| kernel_steps_more s s' s'' : kernel_step s s' -> kernel_steps s' s'' -> kernel_steps s s''.

(** The pixels of the work-items: lib/solve_csp.cl 91 and 119-121 with the global
    size of lib/gpu_csp.cpp 130; lib/solve_csp.cu 156-158 with the launch
    configuration of lib/cuda_csp.cu 210-213. *)
Definition item_pixels : list pixel :=
  let r := right (cg_graph cg) in
  match a with
  | OpenCL => map (fun id => {| px := id mod width r; py := id / width r |})
                  (range 0 (len (data r)))
  | CUDA => flat_map (fun x => map (fun y => {| px := x; py := y |}) (range 0 (height r)))
                     (range 0 (width r))
  end.

Definition launch_start (m : mem) (f : flags) : kernel_state :=
  {| items := map (fun p => (p, match a with OpenCL => Enter | CUDA => Reset end)) item_pixels;
     khistory := [m]; kflags := f |}.

(** All work-items have left the kernel. *)
Definition finished (s : kernel_state) : Prop := forall p ph, In (p, ph) (items s) -> ph = Done.

Definition launch (m : mem) (f : flags) (m' : mem) (f' : flags) : Prop :=
  exists s, kernel_steps (launch_start m f) s /\ finished s /\
    m' = current (khistory s) /\ f' = kflags s.
End Launch.

(** *** The host *)

Section Host.
Context {T : target} (cg : cgraph T).
Context (a : api) (sc : bool) (kind : barrier_kind).
(** Which partitions of the work-items into groups may be used: the third argument 0
    of lib/gpu_csp.cpp 127-132 leaves the choice to the implementation; with CUDA the
    whole grid is one group (lib/solve_csp.cu 103). *)
Context (partition : (nat -> nat) -> Prop).

Definition some_launch (m : mem) (f : flags) (m' : mem) (f' : flags) : Prop :=
  exists group, partition group /\ launch cg a sc kind group m f m' f'.

(** The propagation after a choice: the loop of lib/gpu_csp.cpp 125-135, the single
    launch of lib/cuda_csp.cu 210-231. *)
Inductive propagate : mem -> flags -> mem -> flags -> Prop :=
| propagate_once m f m' f' :
    some_launch m f m' f' -> (a = OpenCL -> any_flag f' = false) -> propagate m f m' f'
| propagate_again m f m1 f1 m' f' :
    a = OpenCL -> some_launch m f m1 f1 -> any_flag f1 = true ->
    propagate m1 f1 m' f' -> propagate m f m' f'.

(** The loops of lib/gpu_csp.cpp 116-137 and lib/cuda_csp.cu 182-233; the kernel
    [choose_best_node_gpu] (lib/solve_csp.cl 131-176, lib/solve_csp.cu 167-212) is run
    by one work-item and its result is dropped. *)
Inductive label_device : list pixel -> mem -> flags -> mem -> flags -> Prop :=
| label_none m f : label_device [] m f m f
| label_pixel p ps m b m1 f m2 f2 m' f' :
    run (choose_best_node cg p) m = Ok (b, m1) -> propagate m1 f m2 f2 ->
    label_device ps m2 f2 m' f' -> label_device (p :: ps) m f m' f'.

(** The order of the pixels, lib/gpu_csp.cpp 116-118 and lib/cuda_csp.cu 182-184. *)
Definition device_order : list pixel :=
  let r := right (cg_graph cg) in
  flat_map (fun x => map (fun y => {| px := x; py := y |}) (range 0 (height r)))
           (range 0 (width r)).

(** [csp_solution_cl], lib/gpu_csp.cpp 59-144, [csp_solution_cuda], lib/cuda_csp.cu
    177-236: the availability array afterwards.  The flags are 0 at first for OpenCL
    and not initialised for CUDA. *)
Definition csp_solution (m' : mem) : Prop :=
  exists f f', (a = OpenCL -> f = {| step_flag := false; any_flag := false |}) /\
    label_device device_order (cg_avail cg) f m' f'.
End Host.

(** [find_labeling_cl], [find_labeling_cuda], lib/labeling_finder.cpp 323-347, with
    [free_problem], lib/cuda_csp.cu 149-175, and lib/gpu_csp.cpp 139-142: the graph
    is returned in any case. *)
Definition find_labeling_cl sc kind partition (cg cg' : cgraph cpu) : Prop :=
  exists m, csp_solution (opencl_problem cg) OpenCL sc kind partition m /\ cg' = with_avail cg m.
Definition find_labeling_cuda sc kind partition (cg cg' : cgraph cpu) : Prop :=
  exists m, csp_solution (cuda_problem cg) CUDA sc kind partition m /\ cg' = with_avail cg m.
