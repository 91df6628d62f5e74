(** Model of the VPREC backend's rounding core:
    src/backends/interflop-backend-vprec/common/vprec_tools.c and interflop_vprec.c.
    The binary32 and binary64 versions in C are textually parallel and differ in the constants of the format and in
    the width of integer types; they are modelled once, generically in the format [f].
    Logging is not modelled. Compiler evaluation of + on float/double/_Float128 is IEEE (FLT_EVAL_METHOD = 0). *)
From Coq Require Import ZArith Bool.
From Verif Require Import Common Bits StdlibModel.
Open Scope Z_scope.
Open Scope outcome_scope.

Section vprec.
  Context (sem : shift_sem).

  (** width of the unsigned word holding a pattern (uint32_t, uint64_t, __uint128_t) *)
  Definition wbits (f : fmt) : Z := mw f + ew f + 1.
  (** width of the type of [one]/[1] in the subnormal half ulp: int (L90), int64_t (L150) *)
  Definition onebits (f : fmt) : Z := wbits f.

  (** C comparison x < 0 for a non-NaN pattern *)
  Definition is_neg (f : fmt) (x : Z) : Z := if (sgn f x =? 1) && negb (is_zero f x) then 1 else 0.

  (** check_if_binary32/64/128_needs_rounding, vprec_tools.c L39-60, L102-123, L167-190 *)
  Definition needs_rounding (f : fmt) (x precision : Z) : outcome bool :=
    let w := wbits f in
    let* m1 := shl sem w 1 (mw f - precision) in
    let trailing := Z.land (man f x) ((m1 - 1) mod 2 ^ w) in
    let* hi := shr sem w (man f x) (mw f - precision) in
    let bit_to_round := Z.land hi 1 in
    let* halfway := shl sem w 1 (mw f - precision - 1) in
    Ok ((halfway <? trailing) || ((trailing =? halfway) && (bit_to_round =? 1))).

  (** round_binary32_normal L71-100, round_binary64_normal L134-165 *)
  Definition round_normal (f : fmt) (x precision : Z) : outcome Z :=
    let w := wbits f in
    let* mask := shl sem w (2 ^ w - 1) (mw f - precision) in
    let exp_hulp := expf f x - precision - 1 in
    let* half_ulp :=
      if exp_hulp <? 1 then
        let* m := shl sem (onebits f) 1 (mw f - 1 + exp_hulp) in Ok (make f (is_neg f x) 0 m)
      else Ok (make f (is_neg f x) exp_hulp 0) in
    let* nr := needs_rounding f x precision in
    let y := if nr : bool then fadd f x half_ulp else x in
    Ok (make f (sgn f y) (expf f y) (Z.land (man f y) mask)).

  (** round_binary128_underflow, vprec_tools.c L195-215 *)
  Definition round_binary128_underflow (x emin precision : Z) : Z :=
    let h := make binary128 (sgn binary128 x) (bias binary128 + (emin - precision) - 1) 0 in
    if expf binary128 h <=? expf binary128 x then
      let y := fadd binary128 x h in
      make binary128 (sgn binary128 y) (expf binary128 y) 0
    else 0.

  (** round_binary_denormal, vprec_tools.c L217-262; x is a double *)
  Definition round_binary_denormal (x emin precision : Z) : outcome Z :=
    let b := fconv binary64 binary128 x in
    let half := make binary128 (is_neg binary64 x) (bias binary128 + (emin - precision) - 1) 0 in
    let loss := emin - (expf binary128 b - bias binary128) in
    if precision <=? loss then Ok (fconv binary128 binary64 (round_binary128_underflow b emin precision))
    else
      let* nr := needs_rounding binary128 b (precision - loss) in
      let b1 := if nr : bool then fadd binary128 b half else b in
      let* mask := shl sem 128 (2 ^ 128 - 1) (mw binary128 - precision + loss) in
      let b2 := make binary128 (sgn binary128 b1) (expf binary128 b1) (Z.land (man binary128 b1) mask) in
      let b3 := if expf binary128 b2 <=? expf binary128 half + 1
                then round_binary128_underflow b2 emin precision else b2 in
      Ok (fconv binary128 binary64 b3).

  (** has_underflow_binary32/64, L264-267, L309-312 *)
  Definition has_underflow (f : fmt) (x emin precision : Z) : bool :=
    expf f x - bias f <? emin - precision.

  (** round_binary32/64_underflow, L272-292, L317-337 *)
  Definition round_underflow (f : fmt) (x emin precision : Z) : Z :=
    let h := make f 0 (bias f + (emin - precision) - 1) 0 in
    if expf f h <=? expf f x then make f (sgn f x) (expf f h + 1) 0 else 0.

  (** handle_binary32/64_denormal, L294-307, L339-352. The float version converts to double for the call of
      round_binary_denormal and back; for f = binary64 the two conversions are the identity. *)
  Definition handle_denormal (f : fmt) (x emin precision : Z) : outcome Z :=
    if has_underflow f x emin precision then Ok (round_underflow f x emin precision)
    else if precision <=? mw f then
      let* r := round_binary_denormal (fconv f binary64 x) emin precision in
      Ok (fconv binary64 f r)
    else Ok x.

  (** vprec_mode, interflop_vprec.h *)
  Inductive vmode := mode_ieee | mode_full | mode_ib | mode_ob.

  (** vprec_context_t, interflop_vprec.h L128-142 (the arithmetic fields) *)
  Record vctx := mk_vctx {
    prec32 : Z; range32 : Z; prec64 : Z; range64 : Z;
    abs_exp : Z; vmode_of : vmode; rel_err : bool; abs_err : bool; daz : bool; ftz : bool }.

  (** C abs(): undefined on INT_MIN *)
  Definition c_abs (x : Z) : outcome Z := if x =? - 2 ^ 31 then UB else Ok (Z.abs x).

  (** compute_absErr_vprec_binary32/64, interflop_vprec.c L253-280, L284-313 *)
  Definition compute_abserr (f : fmt) (is_denormal : bool) (ctx : vctx) (exp_diff precision : Z) : outcome Z :=
    if is_denormal then
      if rel_err ctx then
        let* a := c_abs (abs_exp ctx) in
        Ok (if a <? precision then abs_exp ctx else precision)
      else Ok (abs_exp ctx)
    else if rel_err ctx then Ok (if exp_diff <? precision then exp_diff else precision)
    else Ok (if exp_diff <? mw f then exp_diff else mw f).

  (** copysign(x, a) *)
  Definition copysign (f : fmt) (x a : Z) : Z := sgn f a * sbit f + code f x.

  (** handle_binary32/64_normal_absErr, L318-342, L347-371. The subtraction is an int subtraction for binary32 and an
      int64_t one, truncated to int for the call, for binary64. *)
  Definition handle_normal_abserr (f : fmt) (a aexp precision : Z) (ctx : vctx) : outcome Z :=
    let* exp_diff := (if ew f =? 8 then int_op (aexp - abs_exp ctx) else Ok (aexp - abs_exp ctx)) in
    if exp_diff <? -1 then Ok 0
    else if exp_diff =? -1 then
      let* p := pow2i f (abs_exp ctx) in Ok (copysign f p a)
    else
      let* adj := compute_abserr f false ctx
                    (if ew f =? 8 then exp_diff else (exp_diff + 2 ^ 31) mod 2 ^ 32 - 2 ^ 31) precision in
      round_normal f a adj.

  (** a * INFINITY and a * 0 for a finite a (L446, L460, L521, L535) *)
  Definition mul_inf (f : fmt) (a : Z) : Z := if is_zero f a then qnan f else inf f (sgn f a).
  Definition mul_zero (f : fmt) (a : Z) : Z := zero f (sgn f a).

  (** _vprec_round_binary32 L419-489, _vprec_round_binary64 L492-564 *)
  Definition vprec_round (f : fmt) (a : Z) (is_input : bool) (ctx : vctx) (range precision : Z) : outcome Z :=
    if negb (is_finite f a) then Ok a
    else
      let* sh := shl sem 32 1 (range - 1) in
      let emax := sh - 1 in
      let emin := 1 - emax in
      let aexp := expf f a - bias f in
      let* overflow :=
        if emax <=? aexp then
          if aexp =? emax then
            let* b := round_normal f a precision in
            Ok (emax <? expf f b - bias f)
          else Ok true
        else Ok false in
      if overflow : bool then Ok (mul_inf f a)
      else if aexp <? emin then
        if (daz ctx && is_input) || (ftz ctx && negb is_input) then Ok (mul_zero f a)
        else match fpclassify f a with
             | FP_ZERO => Ok a
             | _ =>
                 if abs_err ctx then
                   let* adj := compute_abserr f true ctx 0 precision in handle_denormal f a emin adj
                 else handle_denormal f a emin precision
             end
      else if abs_err ctx then handle_normal_abserr f a aexp precision ctx
      else round_normal f a precision.

  (** range and precision the operations use for a format *)
  Definition ctx_range (f : fmt) (ctx : vctx) : Z := if ew f =? 8 then range32 ctx else range64 ctx.
  Definition ctx_prec (f : fmt) (ctx : vctx) : Z := if ew f =? 8 then prec32 ctx else prec64 ctx.

  Definition rounds_inputs (m : vmode) : bool := match m with mode_full | mode_ib => true | _ => false end.
  Definition rounds_output (m : vmode) : bool := match m with mode_full | mode_ob => true | _ => false end.

  Definition round_in (f : fmt) (ctx : vctx) (a : Z) : outcome Z :=
    if rounds_inputs (vmode_of ctx) then vprec_round f a true ctx (ctx_range f ctx) (ctx_prec f ctx) else Ok a.
  Definition round_out (f : fmt) (ctx : vctx) (a : Z) : outcome Z :=
    if rounds_output (vmode_of ctx) then vprec_round f a false ctx (ctx_range f ctx) (ctx_prec f ctx) else Ok a.

  (** _vprec_binary32/64_binary_op L566-619; [op] is the native IEEE operation selected by perform_binary_op L389 *)
  Definition vprec_binary_op (f : fmt) (op : Z -> Z -> Z) (ctx : vctx) (a b : Z) : outcome Z :=
    let* a' := round_in f ctx a in
    let* b' := round_in f ctx b in
    round_out f ctx (op a' b').

  (** _vprec_binary32/64_ternary_op L621-668; [fma] is interflop_fma_binary32/64 *)
  Definition vprec_ternary_op (f : fmt) (fma : Z -> Z -> Z -> Z) (ctx : vctx) (a b c : Z) : outcome Z :=
    let* a' := round_in f ctx a in
    let* b' := round_in f ctx b in
    let* c' := round_in f ctx c in
    round_out f ctx (fma a' b' c').

  (** cast_double_to_float L729-759 *)
  Definition vprec_cast (ctx : vctx) (a : Z) : outcome Z :=
    match vmode_of ctx with
    | mode_ieee => Ok (fconv binary64 binary32 a)
    | mode_ob | mode_full =>
        let* r := vprec_round binary64 a false ctx (range32 ctx) (prec32 ctx) in
        Ok (fconv binary64 binary32 r)
    | mode_ib =>
        let* r := vprec_round binary64 a true ctx (Z.min (range64 ctx) 8) (Z.min (prec64 ctx) 23) in
        Ok (fconv binary64 binary32 r)
    end.
End vprec.
