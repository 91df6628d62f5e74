(** C01-C12, C53: the VPREC backend.
    Conventions: [f] is binary32 or binary64; [fval f x] is the real number denoted by the bit pattern x;
    [vemin r = 2 - 2^(r-1)], [vemax r = 2^(r-1) - 1] are the exponent bounds of a format with r exponent bits;
    [rnd emin p X] is Flocq's round-to-nearest-even of X to p fraction bits with smallest normal exponent emin;
    [sem] says what an out-of-range shift does: Strict = undefined behaviour (C standard), Masked = modulo the
    width (x86-64, AArch64). *)
From Coq Require Import String ZArith Reals Bool List Lia Lra.
From Flocq Require Import Core.
From Verif Require Import Common Bits BitsFacts FloatReal FloatValue StdlibModel VprecModel VprecRound VprecValue VprecDenormal VprecMain VprecProps VprecConfig VprecOps VprecAbs.
Import ListNotations.
Open Scope Z_scope.

(** the configurations the rounding theorems cover *)
Definition legal (sem : shift_sem) (f : fmt) (r p : Z) : Prop :=
  (f = binary32 \/ f = binary64) /\ 2 <= r <= ew f /\ 1 <= p <= mw f /\ (sem = Strict -> p <= mw f - 1).

(** used by the examples: an exponent strictly inside the emulated range meets the hypotheses of C01 *)
Lemma normal_case f r p x : f = binary32 \/ f = binary64 -> 2 <= r <= ew f -> 1 <= p <= mw f -> 1 <= expf f x ->
  vemin r <= expf f x - bias f < vemax r ->
  (b2 (vemin r) <= Rabs (fval f x))%R /\ (Rabs (rnd (vemin r) p (fval f x)) < b2 (vemax r + 1))%R.
Proof.
  intros Hcf Hr Hp He H. pose proof (cfmt_ok f Hcf) as Hf. pose proof (mval_normal f Hf x He) as Hb.
  rewrite (mval_abs f Hf). split; [eapply Rle_trans; [|apply Hb]; apply bpow_le; lia|].
  assert (Hle : (rnd (vemin r) p (mval f x) <= b2 (vemax r))%R).
  { apply rnd_le_pow; [lia|lia|]. eapply Rle_trans; [apply Rlt_le, Hb|]. apply bpow_le. lia. }
  assert (Hge : (b2 (vemin r) <= rnd (vemin r) p (mval f x))%R).
  { apply rnd_ge_pow; [lia|lia|]. eapply Rle_trans; [|apply Hb]. apply bpow_le. lia. }
  assert (b2 (vemax r) < b2 (vemax r + 1))%R by (apply bpow_lt; lia). pose proof (bpow_gt_0 radix2 (vemin r)).
  rewrite (fval_mval f Hf), rnd_signR. unfold signR. destruct (_ =? 1); rewrite ?Rabs_Ropp, Rabs_pos_eq; lra.
Qed.

(** C01: in the normal range of the emulated format the result is the correct rounding, ties to even. *)
Theorem C01_vprec_rne_normal :
  forall sem f r p ctx inp x, legal sem f r p -> abs_err ctx = false -> is_bits f x -> is_finite f x = true ->
  (b2 (vemin r) <= Rabs (fval f x))%R -> (Rabs (rnd (vemin r) p (fval f x)) < b2 (vemax r + 1))%R ->
  exists y, vprec_round sem f x inp ctx r p = Ok y /\ is_bits f y /\ is_finite f y = true /\ sgn f y = sgn f x /\
    fval f y = rnd (vemin r) p (fval f x).
Proof. intros sem f r p ctx inp x (Hf & Hr & Hp & Hs) Ha. exact (vround_normal sem f Hf r p Hr (conj Hp Hs) ctx Ha inp x). Qed.
Print Assumptions C01_vprec_rne_normal.

(** pi as a float, rounded to a binary16-like format *)
Example C01_nonvacuous :
  legal Strict binary32 5 10 /\ abs_err vctx_init = false /\ is_bits binary32 1078530011 /\ is_finite binary32 1078530011 = true /\
  (b2 (vemin 5) <= Rabs (fval binary32 1078530011))%R /\ (Rabs (rnd (vemin 5) 10 (fval binary32 1078530011)) < b2 (vemax 5 + 1))%R /\
  vprec_round Strict binary32 1078530011 false vctx_init 5 10 = Ok 1078525952.
Proof.
  split; [unfold legal; cbn; repeat split; auto; lia|]. split; [reflexivity|]. split; [unfold is_bits; cbn; lia|]. split; [reflexivity|].
  destruct (normal_case binary32 5 10 1078530011) as [A B]; [auto|cbn; lia|cbn; lia|vm_compute; discriminate|vm_compute; split; congruence|].
  split; [exact A|]. split; [exact B|]. vm_compute. reflexivity.
Qed.

(** C02: below the normal range the result is the correct rounding on the subnormal grid, except at the midpoint
    between zero and the smallest subnormal, where the code goes up although ties-to-even goes to zero. *)
Theorem C02_subnormal_rne_partial :
  forall sem f r p ctx inp x, legal sem f r p -> abs_err ctx = false -> is_bits f x -> is_finite f x = true ->
  (if inp : bool then daz ctx else ftz ctx) = false -> (Rabs (fval f x) < b2 (vemin r))%R ->
  exists y, vprec_round sem f x inp ctx r p = Ok y /\ is_bits f y /\ is_finite f y = true /\
    (Rabs (fval f x) <> b2 (vemin r - p - 1) -> fval f y = rnd (vemin r) p (fval f x)) /\
    (Rabs (fval f x) = b2 (vemin r - p - 1) -> fval f y = signR (sgn f x) (b2 (vemin r - p))) /\
    (fval f y <> 0%R -> sgn f y = sgn f x).
Proof.
  intros sem f r p ctx inp x (Hf & Hr & Hp & Hs) Ha Bx Fx Hfl.
  apply (vround_subnormal sem f Hf r p Hr (conj Hp Hs) ctx Ha inp x Bx Fx).
  unfold flush. destruct inp; rewrite Hfl; rewrite ?andb_false_r; reflexivity.
Qed.
Print Assumptions C02_subnormal_rne_partial.

Example C02_nonvacuous :   (* 1.5 * 2^-20 in a binary16-like format *)
  legal Strict binary32 5 10 /\ is_finite binary32 901775360 = true /\ (Rabs (fval binary32 901775360) < b2 (vemin 5))%R /\
  vprec_round Strict binary32 901775360 false vctx_init 5 10 = Ok 901775360 /\
  vprec_round Strict binary32 (901775360 + 300000) false vctx_init 5 10 = Ok 902299648.
Proof.
  split; [unfold legal; cbn; repeat split; auto; lia|]. split; [reflexivity|]. split; [|split; vm_compute; reflexivity].
  rewrite (mval_abs binary32 ok32). apply (mval_lt_pow binary32 ok32); vm_compute; congruence.
Qed.

Theorem C02_subnormal_tie_refuted :
  exists x y, is_bits binary32 x /\ is_finite binary32 x = true /\
    vprec_round Strict binary32 x false vctx_init 5 10 = Ok y /\
    rnd (vemin 5) 10 (fval binary32 x) = 0%R /\ fval binary32 y = b2 (-24).
Proof.
  exists 855638016, 864026624. split; [unfold is_bits; cbn; lia|]. split; [reflexivity|]. split; [vm_compute; reflexivity|].
  assert (E1 : fval binary32 855638016 = (b2 (vemin 5 - 10) / 2)%R).
  { rewrite (fval_mval binary32 ok32).
    destruct (denotes_pow2 binary32 0 102 ok32 ltac:(auto) ltac:(cbn; lia)) as (_ & _ & _ & E).
    change (make binary32 0 102 0) with 855638016 in E. change (sgn binary32 855638016) with 0. unfold signR. cbn [Z.eqb]. rewrite E.
    change (102 - bias binary32) with (-25). change (vemin 5 - 10) with (-24). replace (-24) with (-25 + 1) by lia. rewrite bpow_plus. change (b2 1) with 2%R. lra. }
  split; [rewrite E1; apply rnd_sub_tie; cbn; lia|].
  rewrite (fval_mval binary32 ok32).
  destruct (denotes_pow2 binary32 0 103 ok32 ltac:(auto) ltac:(cbn; lia)) as (_ & _ & _ & E).
  change (make binary32 0 103 0) with 864026624 in E. change (sgn binary32 864026624) with 0. unfold signR. cbn [Z.eqb]. rewrite E. reflexivity.
Qed.
Print Assumptions C02_subnormal_tie_refuted.

(** C03: overflow to infinity happens exactly when the rounded magnitude leaves the emulated range. *)
Theorem C03_overflow_iff :
  forall sem f r p ctx inp x, legal sem f r p -> abs_err ctx = false -> is_bits f x -> is_finite f x = true ->
  exists y, vprec_round sem f x inp ctx r p = Ok y /\
    (is_finite f y = false <-> (b2 (vemax r + 1) <= Rabs (rnd (vemin r) p (fval f x)))%R) /\
    (is_finite f y = false -> y = inf f (sgn f x)).
Proof. intros sem f r p ctx inp x (Hf & Hr & Hp & Hs) Ha. exact (vround_overflow sem f Hf r p Hr (conj Hp Hs) ctx Ha inp x). Qed.
Print Assumptions C03_overflow_iff.

(** NaN and infinities pass through *)
Theorem C03_specials_unchanged :
  forall sem f r p ctx inp x, is_finite f x = false -> vprec_round sem f x inp ctx r p = Ok x.
Proof. intros. apply vprec_round_special. assumption. Qed.
Print Assumptions C03_specials_unchanged.

Example C03_nonvacuous :   (* 65519 and 65520 straddle the binary16 overflow threshold *)
  legal Strict binary32 5 10 /\ is_finite binary32 1199566592 = true /\
  vprec_round Strict binary32 1199566592 false vctx_init 5 10 = Ok 1199562752 /\
  vprec_round Strict binary32 1199566848 false vctx_init 5 10 = Ok (inf binary32 0).
Proof. split; [unfold legal; cbn; repeat split; auto; lia|]. vm_compute. auto. Qed.

(** C04: results are members of the emulated format, members are fixed points, rounding is idempotent. *)
Theorem C04_representable :
  forall sem f r p ctx inp x y, legal sem f r p -> abs_err ctx = false -> is_bits f x -> is_finite f x = true ->
  vprec_round sem f x inp ctx r p = Ok y -> is_finite f y = true ->
  generic_format radix2 (FLT_exp (vemin r - p) (p + 1)) (fval f y) /\ (Rabs (fval f y) < b2 (vemax r + 1))%R.
Proof.
  intros sem f r p ctx inp x y (Hf & Hr & Hp & Hs) Ha Bx Fx Hy Fy.
  destruct (vround_representable sem f Hf r p Hr (conj Hp Hs) ctx Ha inp x y Bx Fx Hy Fy) as (A & B & _). auto.
Qed.
Print Assumptions C04_representable.

Theorem C04_members_fixed :
  forall sem f r p ctx inp y, legal sem f r p -> abs_err ctx = false -> is_bits f y -> is_finite f y = true ->
  generic_format radix2 (FLT_exp (vemin r - p) (p + 1)) (fval f y) -> (Rabs (fval f y) < b2 (vemax r + 1))%R ->
  ((if inp : bool then daz ctx else ftz ctx) = true -> fval f y = 0%R \/ (b2 (vemin r) <= Rabs (fval f y))%R) ->
  vprec_round sem f y inp ctx r p = Ok y.
Proof.
  intros sem f r p ctx inp y (Hf & Hr & Hp & Hs) Ha By Fy G M H.
  apply (vround_fixed sem f Hf r p Hr (conj Hp Hs) ctx Ha inp y By Fy G M).
  intros E. apply H. unfold flush in E. destruct inp, (daz ctx), (ftz ctx); cbn in *; congruence.
Qed.
Print Assumptions C04_members_fixed.

Theorem C04_idempotent :
  forall sem f r p ctx inp x y, legal sem f r p -> abs_err ctx = false -> is_bits f x ->
  vprec_round sem f x inp ctx r p = Ok y -> vprec_round sem f y inp ctx r p = Ok y.
Proof. intros sem f r p ctx inp x y (Hf & Hr & Hp & Hs) Ha. exact (vround_idempotent sem f Hf r p Hr (conj Hp Hs) ctx Ha inp x y). Qed.
Print Assumptions C04_idempotent.

Example C04_nonvacuous :
  legal Strict binary64 8 20 /\ is_bits binary64 4614256656552045848 /\
  vprec_round Strict binary64 4614256656552045848 true vctx_init 8 20 = Ok 4614256655138291712 /\
  is_finite binary64 4614256655138291712 = true.
Proof. split; [unfold legal; cbn; repeat split; auto; lia|]. split; [unfold is_bits; cbn; lia|]. vm_compute. auto. Qed.

(** C05: rounding is monotone (infinities included in the order). *)
Theorem C05_monotone :
  forall sem f r p ctx inp x x' y y', legal sem f r p -> abs_err ctx = false ->
  is_bits f x -> is_bits f x' -> is_finite f x = true -> is_finite f x' = true -> (fval f x <= fval f x')%R ->
  vprec_round sem f x inp ctx r p = Ok y -> vprec_round sem f x' inp ctx r p = Ok y' -> ext_le f y y'.
Proof. intros sem f r p ctx inp x x' y y' (Hf & Hr & Hp & Hs) Ha. exact (vround_monotone sem f Hf r p Hr (conj Hp Hs) ctx Ha inp x x' y y'). Qed.
Print Assumptions C05_monotone.

(** the order is not degenerate: finite patterns are compared by value, and +inf is not below a finite number *)
Example C05_order_meaning :
  (forall f a b, is_finite f a = true -> is_finite f b = true -> ext_le f a b -> (fval f a <= fval f b)%R) /\
  ~ ext_le binary32 (inf binary32 0) 0.
Proof.
  split.
  - intros f a b Fa Fb [[H _]|[[H _]|(_ & _ & H)]]; [| |exact H]; unfold is_finite, is_inf in *;
      apply andb_prop in H as [H _]; rewrite H in *; discriminate.
  - intros [[_ H]|[[H _]|(H & _)]]; vm_compute in H; discriminate.
Qed.

Example C05_nonvacuous :
  legal Strict binary32 5 10 /\ is_finite binary32 1199566592 = true /\ is_finite binary32 1199566848 = true /\
  (fval binary32 1199566592 <= fval binary32 1199566848)%R.
Proof.
  split; [unfold legal; cbn; repeat split; auto; lia|]. split; [reflexivity|]. split; [reflexivity|].
  rewrite !(fval_mval binary32 ok32). change (sgn binary32 1199566592) with 0. change (sgn binary32 1199566848) with 0. unfold signR. cbn [Z.eqb].
  apply (mval_le binary32 ok32). vm_compute. discriminate.
Qed.

(** C06: rounding the negation gives the negated rounding, up to the sign of a zero. *)
Theorem C06_sign_symmetry_partial :
  forall sem f r p ctx inp x y, legal sem f r p -> abs_err ctx = false -> is_bits f x -> is_finite f x = true ->
  vprec_round sem f x inp ctx r p = Ok y ->
  exists y', vprec_round sem f (fneg f x) inp ctx r p = Ok y' /\
    (y' = fneg f y \/ (fval f y = 0%R /\ fval f y' = 0%R)).
Proof. intros sem f r p ctx inp x y (Hf & Hr & Hp & Hs) Ha. exact (vround_symmetric sem f Hf r p Hr (conj Hp Hs) ctx Ha inp x y). Qed.
Print Assumptions C06_sign_symmetry_partial.

Example C06_nonvacuous :
  legal Strict binary32 5 10 /\ fneg binary32 1078530011 = 3226013659 /\
  vprec_round Strict binary32 1078530011 false vctx_init 5 10 = Ok 1078525952 /\
  vprec_round Strict binary32 3226013659 false vctx_init 5 10 = Ok (fneg binary32 1078525952).
Proof. split; [unfold legal; cbn; repeat split; auto; lia|]. vm_compute. auto. Qed.

(** the sign of zero is lost: a negative number that underflows becomes +0, not -0 *)
Theorem C06_negative_underflow_sign_refuted :
  exists x, is_bits binary32 x /\ is_finite binary32 x = true /\ sgn binary32 x = 1 /\
    vprec_round Strict binary32 x false vctx_init 8 10 = Ok (zero binary32 0) /\
    vprec_round Strict binary32 (fneg binary32 x) false vctx_init 8 10 = Ok (zero binary32 0).
Proof. exists 2147484160. vm_compute. repeat split; congruence. Qed.
Print Assumptions C06_negative_underflow_sign_refuted.

(** C07: the mode decides which values are rounded, after every configuration history.
    [op_in]/[op_out]: the image of an operand/result. *)
Theorem C07_binary_op_modes :
  forall strtol qs ctx sem f op a b,
  vrun strtol qs = Ok ctx -> f = binary32 \/ f = binary64 -> (sem = Strict -> ctx_prec f ctx < mw f) -> abs_err ctx = false ->
  (forall u v, is_bits f u -> is_bits f v -> is_bits f (op u v)) -> is_bits f a -> is_bits f b ->
  exists a' b' y, vprec_binary_op sem f op ctx a b = Ok y /\
    match vmode_of ctx with
    | mode_ieee => a' = a /\ b' = b /\ y = op a b
    | mode_ib => vspec f (ctx_range f ctx) (ctx_prec f ctx) (daz ctx) a a' /\
                 vspec f (ctx_range f ctx) (ctx_prec f ctx) (daz ctx) b b' /\ y = op a' b'
    | mode_ob => a' = a /\ b' = b /\ vspec f (ctx_range f ctx) (ctx_prec f ctx) (ftz ctx) (op a b) y
    | mode_full => vspec f (ctx_range f ctx) (ctx_prec f ctx) (daz ctx) a a' /\
                   vspec f (ctx_range f ctx) (ctx_prec f ctx) (daz ctx) b b' /\
                   vspec f (ctx_range f ctx) (ctx_prec f ctx) (ftz ctx) (op a' b') y
    end.
Proof.
  intros strtol qs ctx sem f op a b Hq Hf Hs Ha Hop Ba Bb.
  destruct (binary_op_modes strtol qs ctx sem f op a b Hq Hf Hs Ha Hop Ba Bb) as (a' & b' & y & E & A & B & C).
  exists a', b', y. split; [exact E|]. unfold op_in, op_out in *. destruct (vmode_of ctx); cbn in *; subst; auto.
Qed.
Print Assumptions C07_binary_op_modes.

Theorem C07_fma_modes :
  forall strtol qs ctx sem f fma a b c,
  vrun strtol qs = Ok ctx -> f = binary32 \/ f = binary64 -> (sem = Strict -> ctx_prec f ctx < mw f) -> abs_err ctx = false ->
  (forall u v w, is_bits f u -> is_bits f v -> is_bits f w -> is_bits f (fma u v w)) -> is_bits f a -> is_bits f b -> is_bits f c ->
  exists a' b' c' y, vprec_ternary_op sem f fma ctx a b c = Ok y /\
    match vmode_of ctx with
    | mode_ieee => a' = a /\ b' = b /\ c' = c /\ y = fma a b c
    | mode_ib => vspec f (ctx_range f ctx) (ctx_prec f ctx) (daz ctx) a a' /\
                 vspec f (ctx_range f ctx) (ctx_prec f ctx) (daz ctx) b b' /\
                 vspec f (ctx_range f ctx) (ctx_prec f ctx) (daz ctx) c c' /\ y = fma a' b' c'
    | mode_ob => a' = a /\ b' = b /\ c' = c /\ vspec f (ctx_range f ctx) (ctx_prec f ctx) (ftz ctx) (fma a b c) y
    | mode_full => vspec f (ctx_range f ctx) (ctx_prec f ctx) (daz ctx) a a' /\
                   vspec f (ctx_range f ctx) (ctx_prec f ctx) (daz ctx) b b' /\
                   vspec f (ctx_range f ctx) (ctx_prec f ctx) (daz ctx) c c' /\
                   vspec f (ctx_range f ctx) (ctx_prec f ctx) (ftz ctx) (fma a' b' c') y
    end.
Proof.
  intros strtol qs ctx sem f fma a b c Hq Hf Hs Ha Hop Ba Bb Bc.
  destruct (ternary_op_modes strtol qs ctx sem f fma a b c Hq Hf Hs Ha Hop Ba Bb Bc) as (a' & b' & c' & y & E & A & B & C & D).
  exists a', b', c', y. split; [exact E|]. unfold op_in, op_out in *. destruct (vmode_of ctx); cbn in *; subst; auto.
Qed.
Print Assumptions C07_fma_modes.

(** the specification is a function of the value and of (range, precision, flush flag): nothing else can matter *)
Theorem C07_image_unique :
  forall f r p fl x y y', f = binary32 \/ f = binary64 -> 2 <= r -> 1 <= p ->
  vspec f r p fl x y -> vspec f r p fl x y' -> y = y'.
Proof. intros f r p fl x y y' Hf. exact (vspec_unique f r p fl x y y' (cfmt_ok f Hf)). Qed.
Print Assumptions C07_image_unique.

Example C07_nonvacuous :
  exists ctx, vrun (fun _ => (0, true)) [ROpt (OptMode "FULL"); RCall (CallPrec32 10); RCall (CallRange32 5)] = Ok ctx /\
    vmode_of ctx = mode_full /\ abs_err ctx = false /\ ctx_prec binary32 ctx < mw binary32 /\
    vprec_binary_op Strict binary32 (fadd binary32) ctx 1078530011 855638016 = Ok 1078525952.
Proof. eexists. split; [vm_compute; reflexivity|]. vm_compute. auto. Qed.

(** C08: after every history of options, user calls and configure calls the parameters are within their bounds ... *)
Theorem C08_config_bounds :
  forall strtol qs ctx, vrun strtol qs = Ok ctx ->
  1 <= prec32 ctx <= 23 /\ 2 <= range32 ctx <= 8 /\ 1 <= prec64 ctx <= 52 /\ 2 <= range64 ctx <= 11.
Proof. exact vrun_bounds. Qed.
Print Assumptions C08_config_bounds.

(** ... each request either exits with an error or has exactly the effect listed in [effect] *)
Theorem C08_config_effect :
  forall strtol ctx q,
  vstep strtol ctx q = Exit \/ exists ctx', vstep strtol ctx q = Ok ctx' /\ effect strtol q ctx ctx'.
Proof.
  intros strtol ctx q. destruct (vstep_total strtol ctx q) as [[c H]|H]; [right|auto].
  exists c. split; [exact H|]. exact (vstep_effect strtol ctx q c H).
Qed.
Print Assumptions C08_config_effect.

Example C08_nonvacuous :
  let qs := [ROpt (OptPreset "fp24"); ROpt (OptPrec64 "40"); RCall (CallRange64 9); ROpt OptDaz; ROpt (OptErrMode "ABS"); ROpt (OptErrExp "-7");
             RConf (mk_vconf 3 4 5 6 0 (2 ^ 32 - 1) 2 (2 ^ 32 - 1) 0 1)] in
  let strtol := fun s => (if str_eq s "40" then 40 else -7, false) in
  vrun strtol (firstn 6 qs) = Ok (mk_vctx 16 7 40 9 (-7) mode_ob false true true false) /\
  vrun strtol qs = Ok (mk_vctx 3 4 5 6 (-7) mode_ieee true true true true) /\
  vrun strtol (qs ++ [RCall (CallPrec32 24)]) = Exit.
Proof. vm_compute. auto. Qed.

(** the requests that are accepted: everything the documentation allows, and nothing else *)
Theorem C08_config_accepted :
  forall strtol ctx q,
  (exists ctx', vstep strtol ctx q = Ok ctx') <->
  match q with
  | ROpt (OptPrec32 a) => snd (strtol a) = false /\ 1 <= to_int (fst (strtol a)) <= 23
  | ROpt (OptPrec64 a) => snd (strtol a) = false /\ 1 <= to_int (fst (strtol a)) <= 52
  | ROpt (OptRange32 a) => snd (strtol a) = false /\ 2 <= to_int (fst (strtol a)) <= 8
  | ROpt (OptRange64 a) => snd (strtol a) = false /\ 2 <= to_int (fst (strtol a)) <= 11
  | ROpt (OptMode a) => In (lower a) ["ieee"; "full"; "ib"; "ob"]%string
  | ROpt (OptErrMode a) => In (lower a) ["rel"; "abs"; "all"]%string
  | ROpt (OptErrExp a) => snd (strtol a) = false
  | ROpt (OptPreset a) => In a ["binary16"; "binary32"; "bfloat16"; "tensorfloat"; "fp24"; "PXR24"]%string
  | ROpt OptDaz | ROpt OptFtz | ROpt OptUnknown | RCall CallOther => True
  | RCall (CallPrec32 v) => 1 <= v <= 23
  | RCall (CallPrec64 v) => 1 <= v <= 52
  | RCall (CallRange32 v) => 2 <= v <= 8
  | RCall (CallRange64 v) => 2 <= v <= 11
  | RConf k =>
      (if cf_preset k =? 2 ^ 32 - 1 then
         1 <= to_int (cf_prec32 k) <= 23 /\ 1 <= to_int (cf_prec64 k) <= 52 /\
         2 <= to_int (cf_range32 k) <= 8 /\ 2 <= to_int (cf_range64 k) <= 11
       else In (cf_preset k) [0; 1; 2; 3; 4; 5]) /\
      In (cf_mode k) [0; 1; 2; 3] /\ In (cf_err_mode k) [0; 1; 2]
  end.
Proof. intros. apply vstep_accepted. Qed.
Print Assumptions C08_config_accepted.

Example C08_accepted_nonvacuous : let strtol := fun s => (if str_eq s "40" then 40 else 0, str_eq s "ten") in
  vstep strtol vctx_init (ROpt (OptPrec64 "40")) = Ok (mk_vctx 23 8 40 11 (-1022) mode_ob true false false false) /\
  vstep strtol vctx_init (ROpt (OptPrec32 "40")) = Exit /\ vstep strtol vctx_init (ROpt (OptErrExp "ten")) = Exit /\
  vstep strtol vctx_init (ROpt (OptMode "IEEE")) = Ok (mk_vctx 23 8 52 11 (-1022) mode_ieee true false false false).
Proof. vm_compute. auto. Qed.

(** C53: a numeric option whose text denotes an int is accepted exactly when it is in range ... *)
Theorem C53_option_values_partial :
  forall strtol ctx arg v, strtol arg = (v, false) -> - 2 ^ 31 <= v < 2 ^ 31 ->
  (vstep strtol ctx (ROpt (OptPrec32 arg)) <> Exit <-> 1 <= v <= 23) /\
  (vstep strtol ctx (ROpt (OptRange32 arg)) <> Exit <-> 2 <= v <= 8) /\
  (vstep strtol ctx (ROpt (OptPrec64 arg)) <> Exit <-> 1 <= v <= 52) /\
  (vstep strtol ctx (ROpt (OptRange64 arg)) <> Exit <-> 2 <= v <= 11) /\
  (* a text that is not a number is refused *)
  (forall word w, strtol word = (w, true) ->
     vstep strtol ctx (ROpt (OptPrec32 word)) = Exit /\ vstep strtol ctx (ROpt (OptRange32 word)) = Exit /\
     vstep strtol ctx (ROpt (OptPrec64 word)) = Exit /\ vstep strtol ctx (ROpt (OptRange64 word)) = Exit).
Proof.
  intros strtol ctx arg v H Hv.
  assert (M : forall word w, strtol word = (w, true) ->
     vstep strtol ctx (ROpt (OptPrec32 word)) = Exit /\ vstep strtol ctx (ROpt (OptRange32 word)) = Exit /\
     vstep strtol ctx (ROpt (OptPrec64 word)) = Exit /\ vstep strtol ctx (ROpt (OptRange64 word)) = Exit).
  { intros word w E. cbn [vstep parse_opt]. unfold opt_num. rewrite E. repeat split. }
  cut (forall P Q R S T : Prop, T -> (P /\ Q /\ R /\ S) -> P /\ Q /\ R /\ S /\ T); [intros Cut; apply Cut; [exact M|]; clear M Cut|tauto].
  cbn [vstep parse_opt]. unfold opt_num. rewrite H.
  assert (E : to_int v = v) by (unfold to_int; rewrite Z.mod_small by lia; lia). rewrite E. cbn [orb].
  unfold set_prec32, set_range32, set_prec64, set_range64, bounded.
  repeat split; intros; repeat match goal with |- context [?a <? ?b] => destruct (Z.ltb_spec a b) | K : context [?a <? ?b] |- _ => destruct (Z.ltb_spec a b) in K end;
    try lia; try congruence.
Qed.
Print Assumptions C53_option_values_partial.

(** ... but the comparison is made after truncation to 32 bits: 4294967306 is accepted as precision 10 *)
Theorem C53_option_wraps_refuted :
  forall strtol arg, strtol arg = (4294967306, false) ->
  exists ctx, vstep strtol vctx_init (ROpt (OptPrec32 arg)) = Ok ctx /\ prec32 ctx = 10.
Proof. intros strtol arg H. cbn [vstep parse_opt]. unfold opt_num. rewrite H. vm_compute. eauto. Qed.
Print Assumptions C53_option_wraps_refuted.

Example C53_nonvacuous : exists strtol : string -> Z * bool, strtol "4294967306"%string = (4294967306, false) /\ strtol "7"%string = (7, false).
Proof. exists (fun s => if str_eq s "7" then (7, false) else (4294967306, false)). vm_compute. auto. Qed.

(** C09: where shifts are taken modulo the width the default configuration is transparent for every operation. *)
Theorem C09_default_transparent_partial :
  forall f op fma a b c, f = binary32 \/ f = binary64 -> is_bits f (op a b) -> is_bits f (fma a b c) ->
  vprec_binary_op Masked f op vctx_init a b = Ok (op a b) /\ vprec_ternary_op Masked f fma vctx_init a b c = Ok (fma a b c).
Proof. intros f op fma a b c Hf H1 H2. split; [exact (default_binary_op f op a b Hf H1)|exact (default_ternary_op f fma a b c Hf H2)]. Qed.
Print Assumptions C09_default_transparent_partial.

(** By the letter of the C standard every operation with a result in the normal range executes an undefined shift
    (1 << -1) in the default configuration. *)
Theorem C09_default_no_ub_refuted :
  forall f op a b, f = binary32 \/ f = binary64 -> is_bits f (op a b) -> is_finite f (op a b) = true -> 1 <= expf f (op a b) ->
  vprec_binary_op Strict f op vctx_init a b = UB.
Proof. intros f op a b Hf. exact (default_binary_op_ub f op a b Hf). Qed.
Print Assumptions C09_default_no_ub_refuted.

Example C09_nonvacuous :   (* 1.0f + 1.0f *)
  is_bits binary32 (fadd binary32 1065353216 1065353216) /\ is_finite binary32 (fadd binary32 1065353216 1065353216) = true /\
  1 <= expf binary32 (fadd binary32 1065353216 1065353216).
Proof. unfold is_bits. vm_compute. repeat split; congruence. Qed.

(** C10: a flag flushes exactly the emulated subnormals of its side, keeping the sign ... *)
Theorem C10_flush_keeps_sign :
  forall sem f r p ctx inp x, legal sem f r p -> abs_err ctx = false -> is_bits f x -> is_finite f x = true ->
  (Rabs (fval f x) < b2 (vemin r))%R -> (if inp : bool then daz ctx else ftz ctx) = true ->
  vprec_round sem f x inp ctx r p = Ok (zero f (sgn f x)).
Proof. intros sem f r p ctx inp x (Hf & Hr & Hp & Hs). exact (vround_flush sem f r p ctx inp x Hf Hr (conj Hp Hs)). Qed.
Print Assumptions C10_flush_keeps_sign.

(** ... and in every other case both flags are irrelevant (any error mode, any shift semantics). *)
Theorem C10_flags_otherwise_irrelevant :
  forall sem f r p ctx inp x, f = binary32 \/ f = binary64 -> 2 <= r <= ew f ->
  (is_finite f x = false \/ (b2 (vemin r) <= Rabs (fval f x))%R \/ (if inp : bool then daz ctx else ftz ctx) = false) ->
  vprec_round sem f x inp ctx r p = vprec_round sem f x inp (upd_daz (upd_ftz ctx false) false) r p.
Proof. intros sem f r p ctx inp x Hf. exact (vround_unflushed sem f r p ctx inp x Hf). Qed.
Print Assumptions C10_flags_otherwise_irrelevant.

Example C10_nonvacuous :   (* -1.5 * 2^-20, binary16-like: flushed as a result with ftz, not with daz *)
  let x := 901775360 + 2 ^ 31 in
  (Rabs (fval binary32 x) < b2 (vemin 5))%R /\
  vprec_round Strict binary32 x false (upd_ftz vctx_init true) 5 10 = Ok (zero binary32 1) /\
  vprec_round Strict binary32 x false (upd_daz vctx_init true) 5 10 = Ok x /\
  vprec_round Strict binary32 x true (upd_daz vctx_init true) 5 10 = Ok (zero binary32 1).
Proof.
  cbv zeta. split; [|vm_compute; auto]. rewrite (mval_abs binary32 ok32). apply (mval_lt_pow binary32 ok32); vm_compute; congruence.
Qed.

(** C11: the double to float cast rounds once, for every configuration history. [vspec_cast r p fl x y]: y is the float
    whose value is the rounding of the double x to r exponent bits and p fraction bits (infinity beyond the range). *)
Theorem C11_cast_single_rounding :
  forall strtol qs ctx sem x, vrun strtol qs = Ok ctx -> abs_err ctx = false -> is_bits binary64 x ->
  exists y, vprec_cast sem ctx x = Ok y /\
    match vmode_of ctx with
    | mode_ieee => y = fconv binary64 binary32 x
    | mode_ob | mode_full => vspec_cast (range32 ctx) (prec32 ctx) (ftz ctx) x y
    | mode_ib => vspec_cast (Z.min (range64 ctx) 8) (Z.min (prec64 ctx) 23) (daz ctx) x y
    end.
Proof. exact cast_spec. Qed.
Print Assumptions C11_cast_single_rounding.

(** a double just above a midpoint of the 10-bit grid whose binary32 rounding is the midpoint: rounding via binary32
    would go down (to 1.0), the cast goes up *)
Example C11_nonvacuous :
  let ctx := mk_vctx 10 5 52 11 (-1022) mode_ob true false false false in
  let x := 4607182418800017408 + 2 ^ 41 + 1 in
  vrun (fun _ => (0, true)) [RCall (CallPrec32 10); RCall (CallRange32 5)] = Ok ctx /\
  vprec_cast Strict ctx x = Ok (1065353216 + 2 ^ 13) /\
  vprec_round Strict binary32 (fconv binary64 binary32 x) false ctx 5 10 = Ok 1065353216.
Proof. vm_compute. auto. Qed.

(** C12: with absolute errors enabled, a number of the normal range that stays in range under the relative precision is
    rounded to a multiple of 2^U within half of it, U being the error exponent E (mode abs) or the coarser of E and the
    relative ulp (mode all). Missing: numbers below the normal range (refuted next), results that become infinite, and
    in the strict reading of shifts the inputs already coarser than 2^E. *)
Theorem C12_abs_error_bound_partial :
  forall sem f r p ctx inp x, legal sem f r p -> abs_err ctx = true -> - 2 ^ 30 <= abs_exp ctx <= 2 ^ 30 ->
  is_bits f x -> is_finite f x = true ->
  (b2 (vemin r) <= Rabs (fval f x))%R -> (Rabs (rnd (vemin r) p (fval f x)) < b2 (vemax r + 1))%R ->
  (rel_err ctx = false -> sem = Strict -> expf f x - bias f - abs_exp ctx < mw f) ->
  let U := if rel_err ctx then Z.max (abs_exp ctx) (expf f x - bias f - p) else abs_exp ctx in
  exists y, vprec_round sem f x inp ctx r p = Ok y /\
    (is_finite f y = true ->
       (Rabs (fval f y - fval f x) <= b2 (U - 1))%R /\ (y = x \/ exists n, fval f y = (IZR n * b2 U)%R)).
Proof.
  intros sem f r p ctx inp x (Hf & Hr & Hp & Hs) Ha HE Bx Fx H1 H2 H3.
  exact (vround_abs sem f Hf r p Hr (conj Hp Hs) ctx Ha inp HE x Bx Fx H1 H2 H3).
Qed.
Print Assumptions C12_abs_error_bound_partial.

Example C12_nonvacuous :   (* pi rounded to multiples of 2^-3 : 3.125 *)
  let ctx := mk_vctx 10 5 52 11 (-3) mode_ob false true false false in
  legal Strict binary32 5 10 /\ abs_err ctx = true /\
  (b2 (vemin 5) <= Rabs (fval binary32 1078530011))%R /\ (Rabs (rnd (vemin 5) 10 (fval binary32 1078530011)) < b2 (vemax 5 + 1))%R /\
  expf binary32 1078530011 - bias binary32 - abs_exp ctx < mw binary32 /\
  vprec_round Strict binary32 1078530011 false ctx 5 10 = Ok 1078460416.
Proof.
  cbv zeta. split; [unfold legal; cbn; repeat split; auto; lia|]. split; [reflexivity|].
  destruct (normal_case binary32 5 10 1078530011) as [A B]; [auto|cbn; lia|cbn; lia|vm_compute; discriminate|vm_compute; split; congruence|].
  split; [exact A|]. split; [exact B|]. vm_compute. auto.
Qed.

(** below the normal range the error exponent is used as if it were a precision: 0.25 with error exponent -20 becomes 0 *)
Theorem C12_subnormal_abs_error_refuted :
  let ctx := mk_vctx 23 2 52 2 (-20) mode_ob false true false false in
  exists x, fval binary32 x = b2 (-2) /\ vprec_round Strict binary32 x false ctx 2 22 = Ok 0 /\
    (b2 (-20 - 1) < Rabs (fval binary32 0 - fval binary32 x))%R.
Proof.
  cbv zeta. exists 1048576000.
  assert (E0 : fval binary32 1048576000 = b2 (-2)).
  { rewrite (fval_mval binary32 ok32). destruct (denotes_pow2 binary32 0 125 ok32 ltac:(auto) ltac:(cbn; lia)) as (_ & _ & _ & E).
    change (make binary32 0 125 0) with 1048576000 in E. change (sgn binary32 1048576000) with 0. unfold signR. cbn [Z.eqb]. rewrite E. reflexivity. }
  split; [exact E0|]. split; [vm_compute; reflexivity|]. rewrite E0.
  assert (E1 : fval binary32 0 = 0%R) by (change 0 with (zero binary32 0) at 1; apply (denotes_fval binary32 _ 0 0%R ok32), denotes_zero; [exact ok32|auto]).
  rewrite E1. rewrite Rminus_0_l, Rabs_Ropp, Rabs_pos_eq by apply bpow_ge_0. apply bpow_lt. lia.
Qed.
Print Assumptions C12_subnormal_abs_error_refuted.

(** the emulated range is not enforced after the absolute rounding: 3.75 becomes the finite number 4 = 2^(emax+1) *)
Theorem C12_abs_range_refuted :
  let ctx := mk_vctx 23 2 52 2 2 mode_ob false true false false in
  exists x y, vprec_round Strict binary32 x false ctx 2 22 = Ok y /\ is_finite binary32 y = true /\
    fval binary32 y = b2 (vemax 2 + 1).
Proof.
  cbv zeta. exists 1081081856, 1082130432. split; [vm_compute; reflexivity|]. split; [reflexivity|].
  rewrite (fval_mval binary32 ok32). destruct (denotes_pow2 binary32 0 129 ok32 ltac:(auto) ltac:(cbn; lia)) as (_ & _ & _ & E).
  change (make binary32 0 129 0) with 1082130432 in E. change (sgn binary32 1082130432) with 0. unfold signR. cbn [Z.eqb]. rewrite E. reflexivity.
Qed.
Print Assumptions C12_abs_range_refuted.
