(** The laws of floating-point numbers the theorems rely on.  They are proved for
    every IEEE 754 format (Target_proofs.v), in particular for the three builds
    of the code, and for the reference build with real numbers. *)
From Verif Require Export Target.

(** Not NaN. *)
Definition is_number {T : target} (x : F T) : Prop := fle x x = true.

Record laws (T : target) : Prop := {
  (* order on numbers; comparisons with NaN are false *)
  fle_number : forall a b : F T, fle a b = true -> is_number a /\ is_number b;
  fle_trans : forall a b c : F T, fle a b = true -> fle b c = true -> fle a c = true;
  fle_total : forall a b : F T, is_number a -> is_number b -> fle a b = true \/ fle b a = true;
  flt_spec : forall a b : F T, flt a b = true <-> fle a b = true /\ fle b a = false;
  feq_spec : forall a b : F T, feq a b = true <-> fle a b = true /\ fle b a = true;
  (* finite numbers *)
  fin_number : forall a : F T, ffin a = true -> is_number a;
  fin_zero : @ffin T fzero = true;
  fin_neg1 : @ffin T fneg1 = true;
  neg1_lt : @flt T fneg1 fzero = true;
  fin_add : forall a b : F T, ffin (fadd a b) = true -> ffin a = true /\ ffin b = true;
  fin_sub : forall a b : F T, ffin (fsub a b) = true -> ffin a = true /\ ffin b = true;
  fin_mul : forall a b : F T, ffin (fmul a b) = true -> ffin a = true /\ ffin b = true;
  (* a difference of finite numbers may overflow but is a number *)
  sub_number : forall a b : F T, ffin a = true -> ffin b = true -> is_number (fsub a b);
  sub_mono_l : forall a b c : F T, ffin a = true -> ffin b = true -> ffin c = true ->
    fle a b = true -> fle (fsub a c) (fsub b c) = true;
  sub_mono_r : forall a b c : F T, ffin a = true -> ffin b = true -> ffin c = true ->
    fle b c = true -> fle (fsub a c) (fsub a b) = true;
  sub_self : forall a : F T, ffin a = true -> feq (fsub a a) fzero = true;
  sub_zero : forall a : F T, fsub a fzero = a;
  add_zero : forall a : F T, ffin a = true -> feq (fadd a fzero) a = true;
  fin_add_zero : forall a : F T, ffin a = true -> ffin (fadd a fzero) = true;
  sqr_sub : forall a b : F T, ffin a = true -> ffin b = true ->
    fsqr (fsub a b) = fsqr (fsub b a);
  sqr_nonneg : forall a : F T, ffin (fsqr a) = true -> fle fzero (fsqr a) = true;
  mul_nonneg : forall a b : F T, ffin (fmul a b) = true ->
    fle fzero a = true -> fle fzero b = true -> fle fzero (fmul a b) = true;
  mul_zero : forall a b : F T, ffin a = true -> feq b fzero = true -> feq (fmul a b) fzero = true
}.
