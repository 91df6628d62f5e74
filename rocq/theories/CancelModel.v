(** Model of src/backends/interflop-backend-cancellation/interflop_cancellation.c.
    Native + - * / and fma are fields of an arbitrary [arith] record. The warning is not modelled. *)
From Coq Require Import ZArith Bool.
From Verif Require Import Common Bits FloatOps StdlibModel RngModel McaModel.
Open Scope Z_scope.
Open Scope outcome_scope.

(** cancellation_context_t *)
Record cctx := mk_cctx { c_tolerance : Z; c_choose : bool; c_seed : Z }.
(** _cancellation_init_context L283-288 *)
Definition cancel_defaults : cctx := mk_cctx 1 false 0.

Section backend.
  Context (n : arith) (clk : Z).

  (** cancell L122-141, with _noise_binary64 L112-117 (the same function as in the mcaquad backend: draw - 0.5 with its
      exponent field increased). [*Z += noise] is computed in double and converted back to the type of *Z. *)
  Definition cancell (f : fmt) (c : cctx) (x y z : Z) (st : rst) : outcome (Z * rst) :=
    let e_z := get_exponent f z in
    let cancellation := Z.max (get_exponent f x) (get_exponent f y) - e_z in
    if c_tolerance c <=? cancellation then
      let e_n := e_z - (cancellation - 1) in
      let st := (init_rng_state_struct (fst st) (c_choose c) (c_seed c) false, snd st) in
      let* '(nz, st) := noise_quad n clk binary64 e_n st in
      Ok (fconv binary64 f (n_add n binary64 (fconv f binary64 z) nz), st)
    else Ok (z, st).

  (** the hooks, L146-201 *)
  Definition cancel_binary_op (f : fmt) (c : cctx) (o : binop) (a b : Z) (st : rst) : outcome (Z * rst) :=
    match o with
    | OpAdd | OpSub => cancell f c a b (perform n o f a b) st
    | OpMul | OpDiv => Ok (perform n o f a b, st)
    end.
  Definition cancel_fma (f : fmt) (c : cctx) (a b d : Z) (st : rst) : outcome (Z * rst) := Ok (n_fma n f a b d, st).
  Definition cancel_cast (c : cctx) (a : Z) (st : rst) : outcome (Z * rst) := Ok (fconv binary64 binary32 a, st).
End backend.

(** parse_opt L213-245: the tolerance is strtol's long converted to int; negative values end the program *)
Definition set_tolerance (c : cctx) (v : Z) : outcome cctx :=
  let t := int_wrap v in
  if t <? 0 then Exit else Ok (mk_cctx t (c_choose c) (c_seed c)).
