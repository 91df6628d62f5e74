(** Model of the Monte Carlo arithmetic backends:
    - src/backends/interflop-backend-mcaquad/interflop_mca.c ([Quad]: the noise is a floating-point number that is added),
    - src/backends/interflop-backend-mcaint/interflop_mca_int.c ([Int]: the noise is an integer added to the bit pattern).
    The two files are parallel. Both compute in the format twice as wide: float in double, double in _Float128.
    Native + - * / and fma are fields of an arbitrary [arith] record. Logging is not modelled. *)
From Coq Require Import ZArith Bool.
From Verif Require Import Common Bits FloatOps StdlibModel RngModel.
Open Scope Z_scope.
Open Scope outcome_scope.

(** C relational operators on floating-point values: the signed magnitude orders all values but NaNs *)
Definition fkey (f : fmt) (b : Z) : Z := if sgn f b =? 1 then - code f b else code f b.
Definition fgt (f : fmt) (a b : Z) : bool := negb (is_nan f a) && negb (is_nan f b) && (fkey f b <? fkey f a).
Definition fge (f : fmt) (a b : Z) : bool := negb (is_nan f a) && negb (is_nan f b) && (fkey f b <=? fkey f a).

(** mcaquad_mode / mcaint_mode *)
Inductive mcamode := mca_ieee | mca_mca | mca_pb | mca_rr.

(** mcaquad_context_t / mcaint_context_t; the sparsity is a float pattern *)
Record mctx := mk_mctx {
  m_mode : mcamode; m_p32 : Z; m_p64 : Z; m_rel : bool; m_abs : bool; m_absexp : Z; m_daz : bool; m_ftz : bool;
  m_choose : bool; m_seed : Z; m_sparsity : Z }.

(** the thread's generator and the global thread counter *)
Definition rst : Type := rng * Z.

Inductive mkind := Quad | Int (sem : shift_sem).

(** the computation format of a user format: PREC of the operation macros, mcaquad L528-583 *)
Definition wide (f : fmt) : fmt := if mw f =? 23 then binary64 else binary128.
(** precision used by _mcaquad_inexact_binary64 L366-369 and _mcaquad_inexact_binary128 L372-376 *)
Definition vprecision (g : fmt) (c : mctx) : Z := if mw g =? 52 then m_p32 c else m_p64 c.

(** 1.0f and -0.5 *)
Definition one32 : Z := 0x3F800000.
Definition minus_half (g : fmt) : Z := make g 1 (bias g - 1) 0.

Section backend.
  Context (n : arith) (k : mkind) (clk : Z).

  Definition double01 (st : rst) : Z * rst :=
    let '(y, r, t) := get_rand_double01 (fst st) (snd st) clk in (y, (r, t)).
  Definition uint64_rand (st : rst) : Z * rst :=
    let '(y, r, t) := draw64 (fst st) (snd st) clk in (y, (r, t)).

  (** _noise_binary64 L275-280, _noise_binary128 L288-295 (mcaquad): draw - 0.5 with its exponent field increased.
      The draw is a double; the conversion is the identity for g = binary64. *)
  Definition noise_quad (g : fmt) (e : Z) (st : rst) : outcome (Z * rst) :=
    let '(d, st) := double01 st in
    let r := n_add n g (fconv binary64 g d) (minus_half g) in
    let* e' := int_op (expf g r + e) in
    Ok (make g (sgn g r) e' (man g r), st).

  (** signed reading of a w-bit word *)
  Definition signed (w x : Z) : Z := if x <? 2 ^ (w - 1) then x else x - 2 ^ w.
  (** _noise_binary64 L230-248, _noise_binary128 L256-277 (mcaint): x with the noise added to its pattern. The shift count
      is unsigned; the signed addition must not overflow. *)
  Definition noise_int (sem : shift_sem) (g : fmt) (x e : Z) (st : rst) : outcome (Z * rst) :=
    let w := mw g + ew g + 1 in
    let* s := int_op (1 + ew g - e) in
    let '(u, st) := uint64_rand st in
    let u := u * 2 ^ (w - 64) in
    let* c := shift_count sem w (wrap32 s) in
    let noise := Z.shiftr (signed w u) c in
    let sum := signed w x + noise in
    if (- 2 ^ (w - 1) <=? sum) && (sum <? 2 ^ (w - 1)) then Ok (sum mod 2 ^ w, st) else UB.

  (** _MUST_NOT_BE_NOISED, mcaquad L306-313, mcaint L280-287 *)
  Definition must_not_be_noised (g : fmt) (x t : Z) (c : mctx) : bool :=
    match m_mode c with mca_ieee => true | _ => false end ||
    match fpclassify g x with FP_NORMAL | FP_SUBNORMAL => false | _ => true end ||
    (match m_mode c with mca_rr => true | _ => false end && is_representable 64 g x t).

  (** _mca_skip_eval, options.h L73-81: sparsity is promoted to double for the second comparison *)
  Definition skip_eval (c : mctx) (st : rst) : bool * rst :=
    if fge binary32 (m_sparsity c) one32 then (false, st)
    else let '(d, st) := double01 st in (fgt binary64 d (fconv binary32 binary64 (m_sparsity c)), st).

  (** _init_rng_state_struct as called by _INEXACT *)
  Definition init_state (c : mctx) (st : rst) : rst := (init_rng_state_struct (fst st) (m_choose c) (m_seed c) false, snd st).

  (** _INEXACT, mcaquad L339-362, mcaint L296-309 *)
  Definition inexact (g : fmt) (c : mctx) (x : Z) (st : rst) : outcome (Z * rst) :=
    let t := vprecision g c in
    let st := init_state c st in
    if must_not_be_noised g x t c then Ok (x, st)
    else
      let '(skip, st) := skip_eval c st in
      if skip : bool then Ok (x, st)
      else
        match k with
        | Quad =>
            let* '(x, st) :=
              if m_rel c then
                let* e := int_op (get_exponent g x - (t - 1)) in
                let* '(nz, st) := noise_quad g e st in Ok (n_add n g x nz, st)
              else Ok (x, st) in
            if m_abs c then
              let* '(nz, st) := noise_quad g (m_absexp c) st in Ok (n_add n g x nz, st)
            else Ok (x, st)
        | Int sem =>
            let* e := int_op (- (t - 1)) in noise_int sem g x e st
        end.

  (** DAZ of an operand and conversion to the computation format (the two statements initialising _A) *)
  Definition promote (f g : fmt) (c : mctx) (a : Z) : Z := fconv f g (if m_daz c then daz_ftz f a else a).
  Definition noises_in (m : mcamode) : bool := match m with mca_pb | mca_mca => true | _ => false end.
  Definition noises_out (m : mcamode) : bool := match m with mca_rr | mca_mca => true | _ => false end.
  Definition inexact_if (b : bool) (g : fmt) (c : mctx) (x : Z) (st : rst) : outcome (Z * rst) :=
    if b then inexact g c x st else Ok (x, st).
  (** the end of the operation macros: FTZ applied to the narrow result, then conversion *)
  Definition demote (g f : fmt) (c : mctx) (x : Z) : Z :=
    if m_ftz c then fconv g f (fconv f g (daz_ftz f (fconv g f x))) else fconv g f x.

  Inductive binop := OpAdd | OpSub | OpMul | OpDiv.
  (** PERFORM_BIN_OP L416-433 *)
  Definition perform (o : binop) (g : fmt) (a b : Z) : Z :=
    match o with OpAdd => n_add n g a b | OpSub => n_sub n g a b | OpMul => n_mul n g a b | OpDiv => n_div n g a b end.

  (** _MCAQUAD_BINARY_OP L470-494 / _MCAINT_BINARY_OP *)
  Definition mca_binary_op (f : fmt) (c : mctx) (o : binop) (a b : Z) (st : rst) : outcome (Z * rst) :=
    let g := wide f in
    let* '(a, st) := inexact_if (noises_in (m_mode c)) g c (promote f g c a) st in
    let* '(b, st) := inexact_if (noises_in (m_mode c)) g c (promote f g c b) st in
    let* '(x, st) := inexact_if (noises_out (m_mode c)) g c (perform o g a b) st in
    Ok (demote g f c x, st).

  (** _MCAQUAD_TERNARY_OP L498-524 / _MCAINT_TERNARY_OP *)
  Definition mca_ternary_op (f : fmt) (c : mctx) (a b d : Z) (st : rst) : outcome (Z * rst) :=
    let g := wide f in
    let* '(a, st) := inexact_if (noises_in (m_mode c)) g c (promote f g c a) st in
    let* '(b, st) := inexact_if (noises_in (m_mode c)) g c (promote f g c b) st in
    let* '(d, st) := inexact_if (noises_in (m_mode c)) g c (promote f g c d) st in
    let* '(x, st) := inexact_if (noises_out (m_mode c)) g c (n_fma n g a b d) st in
    Ok (demote g f c x, st).

  (** _MCAQUAD_UNARY_OP L444-466 with the cast, called with a double by cast_double_to_float L643-646: the cast to float
      happens inside, the result goes back to double and then to the float result *)
  Definition mca_cast (c : mctx) (a : Z) (st : rst) : outcome (Z * rst) :=
    let f := binary64 in let g := binary128 in
    let* '(a, st) := inexact_if (noises_in (m_mode c)) g c (promote f g c a) st in
    let* '(x, st) := inexact_if (noises_out (m_mode c)) g c (fconv binary32 g (fconv g binary32 a)) st in
    Ok (fconv f binary32 (demote g f c x), st).

  (** _FAST_INEXACT L323-335 (mcaquad) *)
  Definition fast_inexact (g : fmt) (c : mctx) (t x : Z) (st : rst) : outcome (Z * rst) :=
    if match m_mode c with mca_ieee => true | _ => false end ||
       match fpclassify g x with FP_NORMAL | FP_SUBNORMAL => false | _ => true end
    then Ok (x, st)
    else
      let st := init_state c st in
      let* e := int_op (get_exponent g x - (t - 1)) in
      let* '(nz, st) := noise_quad g e st in Ok (n_add n g x nz, st).

  (** _interflop_usercall_inexact L648-682 for FFLOAT (f = binary32) and FDOUBLE (f = binary64). The early return inside
      the macro leaves the user's variable untouched. *)
  Definition usercall_inexact (f : fmt) (c : mctx) (precision a : Z) (st : rst) : outcome (Z * rst) :=
    let g := wide f in
    let* t := if precision <=? 0 then int_op (vprecision g c + precision) else Ok precision in
    let x := fconv f g a in
    if match m_mode c with mca_ieee => true | _ => false end ||
       match fpclassify g x with FP_NORMAL | FP_SUBNORMAL => false | _ => true end
    then Ok (a, st)
    else let* '(x, st) := fast_inexact g c t x st in Ok (fconv g f x, st).
End backend.

(** _set_precision, options.h L47-65, with the bounds of the two backends: below the minimum the program ends, above the
    maximum a warning is printed and the value is installed all the same *)
Definition set_precision32 (c : mctx) (p : Z) : outcome mctx :=
  if p <? 1 then Exit
  else Ok (mk_mctx (m_mode c) p (m_p64 c) (m_rel c) (m_abs c) (m_absexp c) (m_daz c) (m_ftz c) (m_choose c) (m_seed c) (m_sparsity c)).
Definition set_precision64 (c : mctx) (p : Z) : outcome mctx :=
  if p <? 1 then Exit
  else Ok (mk_mctx (m_mode c) (m_p32 c) p (m_rel c) (m_abs c) (m_absexp c) (m_daz c) (m_ftz c) (m_choose c) (m_seed c) (m_sparsity c)).

(** _mcaquad_init_context L724-736: the defaults *)
Definition mca_defaults : mctx := mk_mctx mca_mca 24 53 true false 112 false false false 0 one32.
