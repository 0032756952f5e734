(** What the application built with OpenMP prints (lib/main.cpp): MainOmp.v with the
    texts of the messages instead of their kinds. *)
From Coq Require Import String.
From Verif Require Export Console MainOmp.
Local Open Scope N_scope.

(** From the two images to the constraint graph, lib/main.cpp 163-197. *)
Definition prepared_omp (v : team) (srt : list (F cpu) -> list (F cpu)) (l r : image) (lev : N) (c s : F cpu)
  : outcome (cgraph cpu) -> Prop :=
  g <~ does (make_graph l r lev c s) ;;
  lp <~ does (make_lowest g) ;;
  cands <~ does (fetch_available_penalties srt lp) ;;
  t <~ threshold_omp v lp g cands ;;
  cg <~ does (make_constraint g lp t) ;;
  r <~ csp_omp v cg ;;
  if negb (fst r) then does (Stop (Throw CannotSolve)) else does (Ok (snd r)).

(** The [try] block, lib/main.cpp 131-239. *)
Definition map_told_omp (lib : library) (v : team) (srt : list (F cpu) -> list (F cpu))
  (w : world) (o : options) (left_path right_path : text) (x : told image) : Prop :=
  match inputs_told lib w o left_path right_path with
  | Ok (inr (l, r, lev, c, s)) =>
      exists y, prepared_omp v srt l r lev (of_u c) (of_u s) y /\
      match explained (graph_what lib l r lev (of_u c) (of_u s)) y with
      | Ok (inr cg) => exists z, find_labeling_omp v cg z /\ x = mapped_told lib z
      | Ok (inl c) => x = Ok (inl c)
      | Stop s => x = Stop s
      end
  | Ok (inl c) => x = Ok (inl c)
  | Stop s => x = Stop s
  end.

(** [main], lib/main.cpp 33-279, without OpenCL and CUDA. *)
Definition main_told_omp (lib : library) (v : team) (srt : list (F cpu) -> list (F cpu))
  (w : world) (p : parsed) (s : outcome session) : Prop :=
  let complains code t := Ok {| exit_status := code; cout := []; cerr := line t; saved := None |} in
  match p with
  | Repeated => s = complains 1 (lit "You should specify each parameter only once: " ++ boost_what lib)
  | Rejected => s = complains 1 (lit "Unexpected exception: " ++ boost_what lib)
  | Parsed o =>
      match o_output o, o_left o, o_right o with
      | Some out, Some l, Some r =>
          match check_parallel (o_parallel o) with
          | Stop (Throw _) =>
              s = complains 1 (lit "Unexpected exception: `parallel` cannot be "
                               ++ match o_parallel o with Some t => t | None => [] end ++ lit ".")
          | Stop x => s = Stop x
          | Ok _ => exists x, map_told_omp lib v srt w o l r x /\
                      s = finishes_told lib (announced (o_parallel o) OnCpu) w out x
          end
      | _, _, _ =>
          if (count (o_left o) =? 0) || (count (o_right o) =? 0)
          then s = complains 0 (lit "You should specify both left and right image.")
          else if count (o_output o) =? 0 then s = complains 0 (lit "You should specify the output image path.")
          else s = Ok {| exit_status := 1; cout := option_list lib; cerr := []; saved := None |}
      end
  end.
