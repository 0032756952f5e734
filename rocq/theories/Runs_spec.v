(** What the claims about launches and complete runs on devices say. *)
From Verif Require Export Gpu_spec MainGpu.
Local Open Scope N_scope.

(** The number of available matches. *)
Definition available_count (m : mem) : nat := length (filter (fun b : bool => b) m).

Section Count.
Context {T : target} (cg : cgraph T) (sc : bool) (kind : barrier_kind) (partition : (nat -> nat) -> Prop).

(** [n] launches one after the other which all ask for another one: what may happen
    before the loop of lib/gpu_csp.cpp 125-135 ends, if it does. *)
Inductive relaunched : nat -> mem -> flags -> mem -> flags -> Prop :=
| relaunched_none m f : relaunched 0 m f m f
| relaunched_more n m f m1 f1 m' f' :
    some_launch cg OpenCL sc kind partition m f m1 f1 -> any_flag f1 = true ->
    relaunched n m1 f1 m' f' -> relaunched (S n) m f m' f'.

(** A labeling with [n] launches, complete or cut off between two launches. *)
Inductive labeling_launches : nat -> list pixel -> mem -> flags -> mem -> flags -> Prop :=
| launches_none ps m f : labeling_launches 0 ps m f m f
| launches_cut p ps n m b m1 f m' f' :
    run (choose_best_node cg p) m = Ok (b, m1) -> relaunched n m1 f m' f' ->
    labeling_launches n (p :: ps) m f m' f'
| launches_pixel p ps n n' m b m1 f m2 f2 m3 f3 m' f' :
    run (choose_best_node cg p) m = Ok (b, m1) -> relaunched n m1 f m2 f2 ->
    some_launch cg OpenCL sc kind partition m2 f2 m3 f3 -> any_flag f3 = false ->
    labeling_launches n' ps m3 f3 m' f' -> labeling_launches (n + S n') (p :: ps) m f m' f'.
End Count.
