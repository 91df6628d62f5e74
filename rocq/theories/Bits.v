(** IEEE-754 interchange formats as bit patterns.
    Models the unions binary32/binary64/binary128 of src/interflop-stdlib/common/float_struct.h L25-183 and the
    constants of float_const.h: a floating-point datum is its bit pattern, a [Z]; bit-field reads are div/mod, bit-field
    writes truncate to the width of the field. IEEE addition and format conversion (round to nearest, ties to even) are
    defined on bit patterns from their integer significands; that is what the C operators + and casts do in the
    default rounding mode (NaN payloads are not modelled: a NaN result is the canonical quiet NaN). *)
From Coq Require Import ZArith Bool Lia.
From Verif Require Import Common.
Open Scope Z_scope.

(** [mw]: width of the trailing significand field (…_PMAN_SIZE); [ew]: width of the exponent field (…_EXP_SIZE). *)
Record fmt := mk_fmt { mw : Z; ew : Z }.
Definition binary32 : fmt := mk_fmt 23 8.     (* float_const.h L93-95 *)
Definition binary64 : fmt := mk_fmt 52 11.    (* float_const.h L56-58 *)
Definition binary128 : fmt := mk_fmt 112 15.  (* float_const.h L16-18 *)

Definition fmt_ok (f : fmt) : Prop := 2 <= mw f /\ 2 <= ew f.

Definition sbit (f : fmt) : Z := 2 ^ (mw f + ew f).
Definition is_bits (f : fmt) (b : Z) : Prop := 0 <= b < 2 * sbit f.
Definition bias (f : fmt) : Z := 2 ^ (ew f - 1) - 1.   (* …_EXP_COMP *)
Definition expmax (f : fmt) : Z := 2 ^ ew f - 1.       (* …_EXP_INF *)

(** bit-field reads *)
Definition sgn (f : fmt) (b : Z) : Z := (b / sbit f) mod 2.
Definition expf (f : fmt) (b : Z) : Z := (b / 2 ^ mw f) mod 2 ^ ew f.
Definition man (f : fmt) (b : Z) : Z := b mod 2 ^ mw f.
(** magnitude: everything but the sign *)
Definition code (f : fmt) (b : Z) : Z := b mod sbit f.

(** a pattern from its three fields (each truncated to its width, as a bit-field write) *)
Definition make (f : fmt) (s e m : Z) : Z :=
  (s mod 2) * sbit f + (e mod 2 ^ ew f) * 2 ^ mw f + m mod 2 ^ mw f.

Definition inf_code (f : fmt) : Z := expmax f * 2 ^ mw f.
Definition zero (f : fmt) (s : Z) : Z := s * sbit f.
Definition inf (f : fmt) (s : Z) : Z := s * sbit f + inf_code f.
Definition qnan (f : fmt) : Z := inf_code f + 2 ^ (mw f - 1).

Definition is_finite (f : fmt) (b : Z) : bool := negb (expf f b =? expmax f).
Definition is_nan (f : fmt) (b : Z) : bool := (expf f b =? expmax f) && negb (man f b =? 0).
Definition is_inf (f : fmt) (b : Z) : bool := (expf f b =? expmax f) && (man f b =? 0).
Definition is_zero (f : fmt) (b : Z) : bool := code f b =? 0.
Definition is_subnormal (f : fmt) (b : Z) : bool := (expf f b =? 0) && negb (man f b =? 0).

(** integer significand and its exponent: |b| = sig * 2^sexp *)
Definition sig (f : fmt) (b : Z) : Z := if expf f b =? 0 then man f b else 2 ^ mw f + man f b.
Definition emin_ulp (f : fmt) : Z := 1 - bias f - mw f.
Definition sexp (f : fmt) (b : Z) : Z := (if expf f b =? 0 then 1 else expf f b) - bias f - mw f.
Definition ssig (f : fmt) (b : Z) : Z := if sgn f b =? 1 then - sig f b else sig f b.

(** nearest integer to m / 2^k, ties to even (m * 2^-k when k <= 0) *)
Definition rne (m k : Z) : Z :=
  if k <=? 0 then m * 2 ^ (- k)
  else
    let q := m / 2 ^ k in
    let r := m mod 2 ^ k in
    if (2 ^ k <? 2 * r) || ((2 * r =? 2 ^ k) && Z.odd q) then q + 1 else q.

(** correctly rounded pattern of (-1)^s * m * 2^e, for m >= 0 *)
Definition round_pack (f : fmt) (s m e : Z) : Z :=
  if m =? 0 then zero f s
  else
    let t := Z.max (Z.log2 m + 1 + e - (mw f + 1)) (emin_ulp f) in
    zero f s + Z.min ((t - emin_ulp f) * 2 ^ mw f + rne m (t - e)) (inf_code f).

(** IEEE addition *)
Definition fadd (f : fmt) (a b : Z) : Z :=
  if is_nan f a || is_nan f b then qnan f
  else if is_inf f a then
    if is_inf f b && negb (sgn f a =? sgn f b) then qnan f else a
  else if is_inf f b then b
  else
    let e := Z.min (sexp f a) (sexp f b) in
    let s := ssig f a * 2 ^ (sexp f a - e) + ssig f b * 2 ^ (sexp f b - e) in
    if s =? 0 then zero f (if (sgn f a =? 1) && (sgn f b =? 1) then 1 else 0)
    else round_pack f (if s <? 0 then 1 else 0) (Z.abs s) e.

(** format conversion (C cast between floating types) *)
Definition fconv (f g : fmt) (b : Z) : Z :=
  if is_nan f b then qnan g
  else if is_inf f b then inf g (sgn f b)
  else round_pack g (sgn f b) (sig f b) (sexp f b).

(** C shifts. [Strict]: a count outside [0, w) is undefined behaviour (C11 6.5.7p3).
    [Masked]: what x86 shift instructions do (the count is taken modulo the width). *)
Inductive shift_sem := Strict | Masked.
Definition shift_count (sem : shift_sem) (w n : Z) : outcome Z :=
  match sem with
  | Strict => if (0 <=? n) && (n <? w) then Ok n else UB
  | Masked => Ok (n mod w)
  end.
Definition shl (sem : shift_sem) (w x n : Z) : outcome Z :=
  bind (shift_count sem w n) (fun c => Ok ((x * 2 ^ c) mod 2 ^ w)).
Definition shr (sem : shift_sem) (w x n : Z) : outcome Z :=
  bind (shift_count sem w n) (fun c => Ok (x / 2 ^ c)).
