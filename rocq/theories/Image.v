(** Images and their validation (include/image.hpp 46-84, lib/image.cpp). *)
From Verif Require Export Target.
Local Open Scope N_scope.

(** struct Image, include/image.hpp 46-84. *)
Record image : Type := {
  width : N;
  height : N;
  max_value : N;
  data : list N
}.

(** The loop of [image_valid], lib/image.cpp 39-45.  The counter is a 32-bit
    [unsigned]; the bound [width * height] is a ULONG product.  [fuel] bounds the
    number of iterations; running out of it is [Diverge]. *)
Fixpoint image_valid_loop (T : target) (img : image) (fuel : nat) (i : N)
  : outcome bool :=
  match fuel with
  | O => Stop Diverge
  | S f =>
      if i <? umul T (width img) (height img)
      then v <- get (data img) i ;;
           if max_value img <? v then Ok false
           else image_valid_loop T img f ((i + 1) mod 2 ^ 32)
      else Ok true
  end.

(** [image_valid] with an explicit bound on the number of iterations,
    lib/image.cpp 33-47. *)
Definition image_valid_fuel (T : target) (fuel : nat) (img : image) : outcome bool :=
  if (max_value img =? 0) || (width img =? 0) || (height img =? 0)
  then Ok false
  else image_valid_loop T img fuel 0.

(** [image_valid], lib/image.cpp 33-47.  One iteration per pixel plus the final
    test is enough fuel whenever the function returns (theorem
    [image_valid_fuel_enough] of Image_proofs.v), so [Diverge] means that the
    loop does not end. *)
Definition image_valid (T : target) (img : image) : outcome bool :=
  image_valid_fuel T (S (N.to_nat (umul T (width img) (height img)))) img.
