(** Output files that take only some of the characters in the build with OpenMP:
    [main] of lib/main.cpp. *)
From Verif Require Export Disk MainOmp.
Local Open Scope N_scope.

(** [main], lib/main.cpp 33-279, without OpenCL and CUDA. *)
Definition main_disk_omp (v : team) (srt : list (F cpu) -> list (F cpu))
  (w : world) (room : text -> N) (p : parsed) (e : outcome effects) : Prop :=
  match p with
  | Repeated => e = Ok (ends 1 (Some UsageError) None)
  | Rejected => e = Ok (ends 1 (Some UnexpectedException) None)
  | Parsed o =>
      match o_output o, o_left o, o_right o with
      | Some out, Some l, Some r =>
          match check_parallel (o_parallel o) with
          | Stop (Throw _) => e = Ok (ends 1 (Some UnexpectedException) None)
          | Stop x => e = Stop x
          | Ok _ => exists x, map_omp v srt w o l r x /\ e = finishes_disk w room out x
          end
      | _, _, _ =>
          if (count (o_left o) =? 0) || (count (o_right o) =? 0)
          then e = Ok (ends 0 (Some NoImages) None)
          else if count (o_output o) =? 0 then e = Ok (ends 0 (Some NoOutput) None)
          else e = Ok (ends 1 (Some Help) None)
      end
  end.
