(** Number types of the builds (include/types.hpp 53-109). *)
From Coq Require Import Reals.
From Flocq Require Import Core.Core IEEE754.BinarySingleNaN.
From Verif Require Export Base.
Local Open Scope N_scope.

(** A build: floating-point type [F] (the FLOAT of types.hpp) with the
    operations the code uses, and the modulus [wmod] of its index type ULONG.
    - [of_u]: TO_FLOAT of lib/disparity_graph.cpp 32, 36, 40;
    - [fle], [flt], [feq]: the C++ comparisons on FLOAT;
    - [fzero], [fneg1]: the literals 0 and -1;
    - [feps]: [std::numeric_limits<FLOAT>::epsilon()];
    - [ffin]: finiteness, used in specifications only. *)
Record target : Type := {
  F : Type;
  wmod : N;
  of_u : N -> F;
  fadd : F -> F -> F;
  fsub : F -> F -> F;
  fmul : F -> F -> F;
  fle : F -> F -> bool;
  flt : F -> F -> bool;
  feq : F -> F -> bool;
  fzero : F;
  fneg1 : F;
  feps : F;
  ffin : F -> bool
}.
Arguments of_u {t}. Arguments fadd {t}. Arguments fsub {t}. Arguments fmul {t}.
Arguments fle {t}. Arguments flt {t}. Arguments feq {t}. Arguments fzero {t}.
Arguments fneg1 {t}. Arguments feps {t}. Arguments ffin {t}.

(** Index arithmetic of ULONG, with wrap-around. *)
Definition uadd (T : target) (a b : N) : N := (a + b) mod wmod T.
Definition umul (T : target) (a b : N) : N := (a * b) mod wmod T.
(** [a - b] for operands below the modulus *)
Definition usub (T : target) (a b : N) : N := (a + (wmod T - b)) mod wmod T.

(** SQR of lib/disparity_graph.cpp 44. *)
Definition fsqr {T : target} (x : F T) : F T := fmul x x.
(** MIN of include/lowest_penalties.hpp 30: [x <= y ? x : y]. *)
Definition fmin {T : target} (x y : F T) : F T := if fle x y then x else y.

(** *** IEEE 754 builds, rounding to nearest even *)

Section Ieee.
Context (prec emax : Z) (Hp : Prec_gt_0 prec) (He : Prec_lt_emax prec emax).

Definition ieee_of_Z (z : Z) : binary_float prec emax :=
  binary_normalize prec emax Hp He mode_NE z 0 false.

Definition ieee (w : N) (conv : N -> Z) : target := {|
  F := binary_float prec emax;
  wmod := w;
  of_u := fun n => ieee_of_Z (conv n);
  fadd := Bplus mode_NE;
  fsub := Bminus mode_NE;
  fmul := Bmult mode_NE;
  fle := Bleb;
  flt := Bltb;
  feq := Beqb;
  fzero := B754_zero false;
  fneg1 := ieee_of_Z (-1);
  feps := binary_normalize prec emax Hp He mode_NE 1 (1 - prec) false;
  ffin := is_finite
|}.
End Ieee.

Definition hp53 : Prec_gt_0 53 := eq_refl.
Definition he53 : Prec_lt_emax 53 1024 := eq_refl.
Definition hp24 : Prec_gt_0 24 := eq_refl.
Definition he24 : Prec_lt_emax 24 128 := eq_refl.

(** Host build: FLOAT = double, ULONG = unsigned long (types.hpp 53-82). *)
Definition cpu : target := ieee 53 1024 hp53 he53 (2 ^ 64) Z.of_N.

(** OpenCL build: FLOAT = float, ULONG = ulong (types.hpp 89-97),
    TO_FLOAT = convert_float. *)
Definition opencl : target := ieee 24 128 hp24 he24 (2 ^ 64) Z.of_N.

(** CUDA build: FLOAT = float, ULONG = unsigned (types.hpp 101-109); TO_FLOAT is
    [__int2float_rn], whose parameter is a signed [int]. *)
Definition int_of_unsigned (n : N) : Z :=
  if n <? 2 ^ 31 then Z.of_N n else (Z.of_N n - 2 ^ 32)%Z.
Definition cuda : target := ieee 24 128 hp24 he24 (2 ^ 32) int_of_unsigned.

(** *** Reference build with real numbers instead of floating point.  It is not a
    build of the code; it serves the statements about exact arithmetic. *)
Definition exact : target := {|
  F := R;
  wmod := 2 ^ 64;
  of_u := fun n => IZR (Z.of_N n);
  fadd := Rplus;
  fsub := Rminus;
  fmul := Rmult;
  fle := Rle_bool;
  flt := Rlt_bool;
  feq := Req_bool;
  fzero := 0%R;
  fneg1 := (-1)%R;
  feps := bpow radix2 (-52);
  ffin := fun _ => true
|}.
