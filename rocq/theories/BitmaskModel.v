(** Model of src/backends/interflop-backend-bitmask/interflop_bitmask.c.
    The two file-scope masks binary32_bitmask / binary64_bitmask (L110-111) are fields of the context record: the library
    has one context. Native + - * / and fma are fields of an arbitrary [arith] record. Logging is not modelled.
    Everything is written once for the format f of the C type (float: binary32, double: binary64). *)
From Coq Require Import ZArith Bool.
From Verif Require Import Common Bits FloatOps StdlibModel RngModel McaModel.
Open Scope Z_scope.
Open Scope outcome_scope.

(** bitmask_mode and bitmask_operator, interflop_bitmask.h; [bop_end] is the sentinel _bitmask_operator_end_, which
    _set_bitmask_operator (L135-144) lets through *)
Inductive bmode := bm_ieee | bm_full | bm_ib | bm_ob.
Inductive boper := bop_zero | bop_one | bop_rand | bop_end.

(** bitmask_context_t, plus the two static masks *)
Record bctx := mk_bctx {
  b_mode : bmode; b_op : boper; b_p32 : Z; b_p64 : Z; b_daz : bool; b_ftz : bool; b_choose : bool; b_seed : Z;
  b_mask32 : Z; b_mask64 : Z }.

(** FLOAT_MASK_ONE / DOUBLE_MASK_ONE, float_const.h L88, L121 *)
Definition mask_one (f : fmt) : Z := 2 ^ (mw f + ew f + 1) - 1.
(** GET_BITMASK L113-118, GET_BINARYN_T L92-93 *)
Definition bmask (f : fmt) (c : bctx) : Z := if mw f =? 23 then b_mask32 c else b_mask64 c.
Definition bprec (f : fmt) (c : bctx) : Z := if mw f =? 23 then b_p32 c else b_p64 c.

(** _bitmask_init_context L657-666 with the static initialisers L110-111: precision 23 / 52, masks of ones *)
Definition bitmask_defaults : bctx :=
  mk_bctx bm_ob bop_zero 23 52 false false false 0 (mask_one binary32) (mask_one binary64).

(** _set_bitmask_precision L146-154; GET_PREC is 24 / 53 *)
Definition precision_mask (f : fmt) (p : Z) : Z :=
  if p <=? mw f + 1 then (mask_one f * 2 ^ (mw f + 1 - p)) mod 2 ^ (mw f + ew f + 1) else mask_one f.
(** _set_bitmask_precision_binary32 / _binary64 L156-171; the bounds check is _set_precision (options.h L47-65) *)
Definition set_prec32 (c : bctx) (p : Z) : outcome bctx :=
  if p <? 1 then Exit
  else Ok (mk_bctx (b_mode c) (b_op c) p (b_p64 c) (b_daz c) (b_ftz c) (b_choose c) (b_seed c) (precision_mask binary32 p) (b_mask64 c)).
Definition set_prec64 (c : bctx) (p : Z) : outcome bctx :=
  if p <? 1 then Exit
  else Ok (mk_bctx (b_mode c) (b_op c) (b_p32 c) p (b_daz c) (b_ftz c) (b_choose c) (b_seed c) (b_mask32 c) (precision_mask binary64 p)).
(** the other setters, L125-144 and L173-183 *)
Definition set_mode (c : bctx) (m : bmode) : bctx :=
  mk_bctx m (b_op c) (b_p32 c) (b_p64 c) (b_daz c) (b_ftz c) (b_choose c) (b_seed c) (b_mask32 c) (b_mask64 c).
Definition set_oper (c : bctx) (o : boper) : bctx :=
  mk_bctx (b_mode c) o (b_p32 c) (b_p64 c) (b_daz c) (b_ftz c) (b_choose c) (b_seed c) (b_mask32 c) (b_mask64 c).
Definition set_flush (c : bctx) (daz ftz : bool) : bctx :=
  mk_bctx (b_mode c) (b_op c) (b_p32 c) (b_p64 c) daz ftz (b_choose c) (b_seed c) (b_mask32 c) (b_mask64 c).
Definition set_bseed (c : bctx) (s : Z) : bctx :=
  mk_bctx (b_mode c) (b_op c) (b_p32 c) (b_p64 c) (b_daz c) (b_ftz c) true s (b_mask32 c) (b_mask64 c).

(** interflop_bitmask_configure L693-703 *)
Definition configure (c : bctx) (s p32 p64 : Z) (m : bmode) (o : boper) (daz ftz : bool) : outcome bctx :=
  let* c := set_prec32 (set_bseed c s) p32 in
  let* c := set_prec64 c p64 in
  Ok (set_flush (set_oper (set_mode c m) o) daz ftz).

(** __builtin_clz on a positive word of width w *)
Definition clz (w m : Z) : Z := w - 1 - Z.log2 m.

Section backend.
  Context (n : arith) (clk : Z).

  (** _MUST_NOT_BE_NOISED L284-291 *)
  Definition must_not (f : fmt) (x : Z) (c : bctx) : bool :=
    match b_mode c with bm_ieee => true | _ => false end ||
    match fpclassify f x with FP_NORMAL | FP_SUBNORMAL => false | _ => true end ||
    (match b_mode c with bm_ob => true | _ => false end && is_representable (mw f + ew f + 1) f x (bprec f c)).

  (** the mask used for x: first half of _INEXACT, L304-314 *)
  Definition mask_for (f : fmt) (c : bctx) (x : Z) : Z :=
    match fpclassify f x with
    | FP_SUBNORMAL =>
        let w := mw f + ew f + 1 in
        let leading_0 := clz w (man f x) - (1 + ew f) in
        if mw f <? leading_0 + bprec f c then mask_one f
        else Z.lor (bmask f c) ((mask_one f * 2 ^ (mw f - (leading_0 + bprec f c))) mod 2 ^ w)
    | _ => bmask f c
    end.

  (** _INEXACT L293-326 with the guard of _inexact_binary32 / _inexact_binary64 L328-344. get_random_binary32_mask takes
      the low word (little endian), get_random_binary64_mask the whole draw, L208-223 *)
  Definition binexact (f : fmt) (c : bctx) (x : Z) (st : rst) : outcome (Z * rst) :=
    if must_not f x c then Ok (x, st)
    else
      let st := (init_rng_state_struct (fst st) (b_choose c) (b_seed c) false, snd st) in
      let mask := mask_for f c x in
      let nmask := mask_one f - mask in
      match b_op c with
      | bop_rand =>
          let '(u, st) := uint64_rand clk st in
          let rand_mask := u mod 2 ^ (mw f + ew f + 1) in
          Ok (make f (sgn f x) (expf f x) (Z.lxor (man f x) (Z.land nmask rand_mask)), st)
      | bop_one => Ok (Z.lor x nmask, st)
      | bop_zero => Ok (Z.land x mask, st)
      | bop_end => UB
      end.

  Definition bnoises_in (m : bmode) : bool := match m with bm_ib | bm_full => true | _ => false end.
  Definition bnoises_out (m : bmode) : bool := match m with bm_ob | bm_full => true | _ => false end.
  Definition binexact_if (b : bool) (f : fmt) (c : bctx) (x : Z) (st : rst) : outcome (Z * rst) :=
    if b then binexact f c x st else Ok (x, st).
  Definition bdaz (f : fmt) (c : bctx) (a : Z) : Z := if b_daz c then daz_ftz f a else a.
  Definition bftz (f : fmt) (c : bctx) (a : Z) : Z := if b_ftz c then daz_ftz f a else a.

  (** _BITMASK_BINARY_OP L371-393 *)
  Definition bitmask_binary_op (f : fmt) (c : bctx) (o : binop) (a b : Z) (st : rst) : outcome (Z * rst) :=
    let* '(a, st) := binexact_if (bnoises_in (b_mode c)) f c (bdaz f c a) st in
    let* '(b, st) := binexact_if (bnoises_in (b_mode c)) f c (bdaz f c b) st in
    let* '(x, st) := binexact_if (bnoises_out (b_mode c)) f c (perform n o f a b) st in
    Ok (bftz f c x, st).

  (** _BITMASK_TERNARY_OP L395-419 *)
  Definition bitmask_ternary_op (f : fmt) (c : bctx) (a b d : Z) (st : rst) : outcome (Z * rst) :=
    let* '(a, st) := binexact_if (bnoises_in (b_mode c)) f c (bdaz f c a) st in
    let* '(b, st) := binexact_if (bnoises_in (b_mode c)) f c (bdaz f c b) st in
    let* '(d, st) := binexact_if (bnoises_in (b_mode c)) f c (bdaz f c d) st in
    let* '(x, st) := binexact_if (bnoises_out (b_mode c)) f c (n_fma n f a b d) st in
    Ok (bftz f c x, st).

  (** _BITMASK_UNARY_OP L349-369 with the cast, as called by cast_double_to_float L515-518: everything is done on doubles *)
  Definition bitmask_cast (c : bctx) (a : Z) (st : rst) : outcome (Z * rst) :=
    let f := binary64 in
    let* '(a, st) := binexact_if (bnoises_in (b_mode c)) f c (bdaz f c a) st in
    let* '(x, st) := binexact_if (bnoises_out (b_mode c)) f c (fconv binary32 f (fconv f binary32 a)) st in
    Ok (fconv f binary32 (bftz f c x), st).
End backend.
