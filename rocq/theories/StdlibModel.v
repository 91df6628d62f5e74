(** Model of the numerical helpers of src/interflop-stdlib/interflop_stdlib.c and common/float_utils.h.
    Generic in the format; the float and double versions in C differ only in constants unless noted. *)
From Coq Require Import ZArith Bool.
From Verif Require Import Common Bits.
Open Scope Z_scope.
Open Scope outcome_scope.

Definition in_int (x : Z) : bool := (- 2 ^ 31 <=? x) && (x <? 2 ^ 31).
(** result of a signed int computation: overflow is undefined *)
Definition int_op (x : Z) : outcome Z := if in_int x then Ok x else UB.

(** fpow2i L174-194 (f = binary32), pow2i L197-217 (f = binary64).
    [i + …_EXP_COMP] is an int addition in both. The shift counts in the last two branches are in range by the
    preceding tests, and exp << PMAN_SIZE does not overflow as exp < EXP_INF. *)
Definition pow2i (f : fmt) (i : Z) : outcome Z :=
  let* exp := int_op (i + bias f) in
  Ok (if exp <=? - mw f then 0
      else if expmax f <=? exp then inf_code f
      else if exp <=? 0 then 2 ^ (mw f - 1 + exp)
      else exp * 2 ^ mw f).

(** interflop_fpclassify_e L131-137 *)
Inductive ifp := IFP_NAN | IFP_INFINITE | IFP_ZERO | IFP_SUBNORMAL | IFS_NORMAL.

(** FLOAT_EXP_MAX, float_const.h: used by both functions below *)
Definition FLOAT_EXP_MAX : Z := 128.

(** interflop_fpclassifyf L139-154, interflop_fpclassifyd L156-171; [exp] is the masked field in place, not shifted *)
Definition interflop_fpclassify (f : fmt) (x : Z) : ifp :=
  let exp := Z.land x (expmax f * 2 ^ mw f) in
  let mant := Z.land x (2 ^ mw f - 1) in
  if (exp =? 0) && (mant =? 0) then IFP_ZERO
  else if (exp =? FLOAT_EXP_MAX) && (mant =? 0) then IFP_INFINITE
  else if (exp =? FLOAT_EXP_MAX) && negb (mant =? 0) then IFP_NAN
  else if (exp =? 0) && negb (mant =? 0) then IFP_SUBNORMAL
  else IFS_NORMAL.

(** interflop_isnanf/isnand L219-221, interflop_isinff/isinfd L223-229 *)
Definition interflop_isnan (f : fmt) (x : Z) : bool :=
  match interflop_fpclassify f x with IFP_NAN => true | _ => false end.
Definition interflop_isinf (f : fmt) (x : Z) : bool :=
  match interflop_fpclassify f x with IFP_INFINITE => true | _ => false end.

(** fpf / fpd / fpq, float_utils.h L49-99 *)
Inductive fpclass := FP_NAN | FP_INFINITE | FP_ZERO | FP_SUBNORMAL | FP_NORMAL.
Definition fpclassify (f : fmt) (x : Z) : fpclass :=
  if (expf f x =? expmax f) && (man f x =? 0) then FP_INFINITE
  else if (expf f x =? expmax f) && negb (man f x =? 0) then FP_NAN
  else if (expf f x =? 0) && (man f x =? 0) then FP_ZERO
  else if (expf f x =? 0) && negb (man f x =? 0) then FP_SUBNORMAL
  else FP_NORMAL.

(** DAZ / FTZ macros, float_utils.h L118, L122: the literal 0 converts to +0 *)
Definition daz_ftz (f : fmt) (x : Z) : Z :=
  match fpclassify f x with FP_SUBNORMAL => 0 | _ => x end.

(** __builtin_ctz on a positive number: exponent of the largest power of two dividing it *)
Definition ctz (m : Z) : Z := Z.log2 (Z.land m (- m)).

(** _is_representable_binary32/64/128, float_utils.h L126-177. The comparison is unsigned of width w (32, 64, 64):
    [virtual_precision + trailing_0] wraps. *)
Definition is_representable (w : Z) (f : fmt) (x vprec : Z) : bool :=
  if man f x =? 0 then true
  else mw f <? (vprec + ctz (man f x)) mod 2 ^ w.

(** _get_exponent_*, float_utils.h L187-205 *)
Definition get_exponent (f : fmt) (x : Z) : Z := expf f x - bias f.

(** _fast_pow2_*, float_utils.h L209-229: bit-field write *)
Definition fast_pow2 (f : fmt) (e : Z) : Z := make f 0 (e + bias f) 0.
