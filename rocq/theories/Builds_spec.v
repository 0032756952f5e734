(** What the claims about runs of different builds say. *)
From Verif Require Export Series_spec MainOmp MainGpu Omp_spec.
Local Open Scope N_scope.

(** The builds of the application: with or without OpenCL and CUDA, and with OpenMP. *)
Inductive variant : Type :=
| Devices (b : build) (v : behaviour)
| Team (v : team).

(** The outcomes of a command line. *)
Definition runs_as (x : variant) (srt : list (F cpu) -> list (F cpu)) (w : world) (args : list text)
  (e : outcome effects) : Prop :=
  exists p, parse_command_line args = Some p /\
    match x with
    | Devices b v => main_with b v srt w p e
    | Team v => main_omp v srt w p e
    end.

(** Runs one after another, each one with its own build: their effects and the files
    at the end. *)
Inductive series (srt : list (F cpu) -> list (F cpu)) : world -> list (variant * list text) -> list effects -> world -> Prop :=
| series_end w : series srt w [] [] w
| series_run w x args e rest es w' : runs_as x srt w args (Ok e) -> series srt (world_after w e) rest es w' ->
    series srt w ((x, args) :: rest) (e :: es) w'.

(** A team of threads has a size, and CUDA can address the tables of every image. *)
Definition suits (w : world) (x : variant) : Prop :=
  match x with
  | Team v => team_ok v
  | Devices b _ => use_cuda b = true -> forall path l, file_holds w path l -> width l * height l * 4 * width l < 2 ^ 32
  end.
