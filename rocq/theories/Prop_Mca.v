(** C19-C22, C55, C56: the Monte Carlo arithmetic backends (mcaquad: kind [Quad], mcaint: kind [Int]). *)
From Coq Require Import ZArith Reals List Bool Lia Lra.
From Flocq Require Import Core.
From Verif Require Import Common Bits BitsFacts FloatReal FloatValue FloatOps DoubleRound StdlibModel StdlibProofs RngModel RngProofs McaModel McaProofs McaOps.
Import ListNotations.
Open Scope Z_scope.

(** Reading guide. [dec f b] is the value of a pattern; [dop o] the exact operation on values (infinities, NaN and signed
    zeros included); [encodes f v y]: y is v rounded to nearest-even in f; [flush_v f on v]: subnormal values become +0 when
    the option is on. [ieee_arith n]: the machine's arithmetic is correctly rounded in every format. *)

(** C19, mode ieee: + - * / of both backends, for every operand pattern, option and generator state: the result is the
    correctly rounded one (with DAZ and FTZ applied when asked for), and no random number is drawn. *)
Theorem C19_ieee_mode_exact :
  forall n k clk f c o a b st, ieee_arith n -> f = binary32 \/ f = binary64 -> m_mode c = mca_ieee -> is_bits f a -> is_bits f b ->
  exists y r, encodes f (dop o (flush_v f (m_daz c) (dec f a)) (flush_v f (m_daz c) (dec f b))) y /\
  mca_binary_op n k clk f c o a b st = Ok (r, st) /\ dec f r = flush_v f (m_ftz c) (dec f y) /\ (m_ftz c = false -> r = y).
Proof.
  intros n k clk f c o a b st Hn Hf Hm Ha Hb. pose proof (narrow_ok f Hf) as Of.
  destruct (ieee_binary n k clk f c o a b st Hn Hf Hm Ha Hb) as (y & EY & EO). rewrite !dec_flushed in EY by assumption.
  exists y, (flush_out f c y). split; [exact EY|]. split; [exact EO|]. split; [apply dec_flush_out; [exact Of|apply EY]|].
  intros H. unfold flush_out. rewrite H. reflexivity.
Qed.
Print Assumptions C19_ieee_mode_exact.
Example C19_ieee_nonvacuous :
  mca_binary_op soft Quad 0 binary32 (mk_mctx mca_ieee 24 53 true false 112 true true true 7 one32) OpDiv 0x3F800000 0x40400000 (rng0, 0) = Ok (0x3EAAAAAB, (rng0, 0)).
Proof. vm_compute. reflexivity. Qed.

(** the cast of a double to a float *)
Theorem C19_ieee_cast :
  forall n k clk c a st, m_mode c = mca_ieee -> m_ftz c = false -> is_bits binary64 a ->
  exists y, mca_cast n k clk c a st = Ok (y, st) /\ encodes binary32 (flush_v binary64 (m_daz c) (dec binary64 a)) y.
Proof.
  intros n k clk c a st Hm Hft Ha. exists (fconv binary64 binary32 (flushed binary64 c a)). split; [apply ieee_cast; assumption|].
  rewrite <- dec_flushed by (assumption || apply ok64). apply fconv_encodes; [apply ok64|apply ok32].
Qed.
Print Assumptions C19_ieee_cast.
Example C19_ieee_cast_nonvacuous :
  mca_cast soft Quad 0 (mk_mctx mca_ieee 24 53 true false 112 false false true 7 one32) 0x3FF0000010000001 (rng0, 0) = Ok (0x3F800001, (rng0, 0)).
Proof. vm_compute. reflexivity. Qed.

(** the fused multiply-add of mode ieee is not correctly rounded: the fma is evaluated in the wider format and rounded a
    second time. (1 + 2^-12)^2 + 2^-100 is just above a midpoint of binary32. *)
Theorem C19_ieee_fma_refuted :
  ~ (forall n k clk c a b d st, ieee_arith n -> m_mode c = mca_ieee -> m_daz c = false -> m_ftz c = false ->
     is_bits binary32 a -> is_bits binary32 b -> is_bits binary32 d ->
     exists y, mca_ternary_op n k clk binary32 c a b d st = Ok (y, st) /\ encodes binary32 (dfma (dec binary32 a) (dec binary32 b) (dec binary32 d)) y).
Proof.
  intros H. set (a := make binary32 0 127 2048). set (d := make binary32 0 27 0).
  assert (Ba : is_bits binary32 a) by (vm_compute; split; congruence). assert (Bd : is_bits binary32 d) by (vm_compute; split; congruence).
  destruct (H soft Quad 0 (mk_mctx mca_ieee 24 53 true false 112 false false true 7 one32) a a d (rng0, 0) soft_ieee eq_refl eq_refl eq_refl Ba Ba Bd) as (y & EY & ENC).
  assert (Ey : y = 1065357312) by (vm_compute in EY; congruence). clear EY.
  pose proof (ffma_encodes binary32 a a d ok32 Ba Ba Bd) as E2.
  assert (Ez : ffma binary32 a a d = 1065357313) by (vm_compute; reflexivity). rewrite Ez in E2.
  assert (Hu : y = 1065357313); [|lia].
  apply (encodes_unique binary32 (dfma (dec binary32 a) (dec binary32 a) (dec binary32 d))); try assumption; [apply ok32|].
  assert (Fa : is_finite binary32 a = true) by reflexivity. assert (Fd : is_finite binary32 d = true) by reflexivity.
  rewrite (dec_finite _ _ Fa), (dec_finite _ _ Fd). discriminate.
Qed.
Print Assumptions C19_ieee_fma_refuted.

(** NaNs, infinities and zeros go through the perturbation function of both backends unchanged, in every mode, format,
    precision, sparsity and generator state, without a draw. *)
Theorem C19_special_values_unperturbed :
  forall n k clk g c x st, fmt_ok g -> is_nan g x = true \/ is_inf g x = true \/ (is_finite g x = true /\ fval g x = 0%R) ->
  inexact n k clk g c x st = Ok (x, init_state c st).
Proof.
  intros n k clk g c x st Hg H. apply inexact_special; [exact Hg|]. destruct H as [H|[H|[_ H]]]; [left|left|right; exact H];
    destruct (is_finite g x) eqn:F; try reflexivity; destruct (finite_not_nan g x F); congruence.
Qed.
Print Assumptions C19_special_values_unperturbed.
Example C19_special_values_nonvacuous :
  is_nan binary64 0x7FF0000000000001 = true /\ is_inf binary64 0xFFF0000000000000 = true /\
  inexact soft Quad 0 binary64 mca_defaults 0x7FF0000000000001 (rng0, 0) = Ok (0x7FF0000000000001, (rng0, 0)).
Proof. vm_compute. auto. Qed.

(** operations with an infinite or NaN operand and divisions by zero: in every mode the result is the IEEE one, whatever
    the noise on the other operand. The precision must lie in the documented range and, for mcaquad, none of the next six
    draws may be exactly 1/2 (see C21_half_draw_refuted). *)
Theorem C19_special_operands_partial :
  forall n k clk f c o a b st, ieee_arith n -> f = binary32 \/ f = binary64 -> settings k c -> luck clk k 6 c st ->
  1 <= vprecision (wide f) c <= mw (wide f) -> is_bits f a -> is_bits f b ->
  special_case o (flush_v f (m_daz c) (dec f a)) (flush_v f (m_daz c) (dec f b)) ->
  exists y r st', encodes f (dop o (flush_v f (m_daz c) (dec f a)) (flush_v f (m_daz c) (dec f b))) y /\
  mca_binary_op n k clk f c o a b st = Ok (r, st') /\ dec f r = flush_v f (m_ftz c) (dec f y).
Proof.
  intros n k clk f c o a b st Hn Hf Hset Hl Ht Ha Hb HS. pose proof (narrow_ok f Hf) as Of. pose proof (big_ok _ (wide_big f Hf)) as Og.
  destruct (binary_op_spec n Hn clk k f c o a b st Hf Hset Hl Ht Ha Hb) as (y & st' & va & vb & z & vz & EO & PA & PB & EZ & PZ & EY).
  rewrite !dec_flushed in PA, PB by assumption. destruct (dop_special _ _ _ _ _ _ _ _ _ _ PA PB HS) as [ED HC]. rewrite ED in EZ.
  pose proof (dec_of_encodes (wide f) _ z Og EZ HC) as DZ. rewrite DZ in PZ.
  assert (EV : vz = dop o (flush_v f (m_daz c) (dec f a)) (flush_v f (m_daz c) (dec f b))).
  { unfold dpert_if in PZ. destruct (noises_out (m_mode c)); [|exact PZ]. destruct HC as [HC|[[s HC]|[s HC]]]; rewrite HC in PZ |- *; [exact PZ|exact PZ|].
    destruct PZ as (Y & -> & _ & [[_ ->]|HY]); [reflexivity|lra]. }
  rewrite EV in EY. exists y, (flush_out f c y), st'. split; [exact EY|]. split; [exact EO|]. apply dec_flush_out; [exact Of|apply EY].
Qed.
Print Assumptions C19_special_operands_partial.
Example C19_special_operands_nonvacuous :
  let c := mk_mctx mca_mca 24 53 true false 112 false false true 1 one32 in
  luck 0 Quad 6 c (rng0, 0) /\ fst_ok (mca_binary_op soft Quad 0 binary32 c OpMul 0x7F800000 0xC0400000 (rng0, 0)) = Some 0xFF800000 /\
  fst_ok (mca_binary_op soft Quad 0 binary32 c OpDiv 0xC0400000 0 (rng0, 0)) = Some 0xFF800000.
Proof. split; [intros _; vm_compute; intuition congruence|vm_compute; auto]. Qed.

(** C20: in mode rr, when the exact result of the operation has at most t significant bits, the result is the correctly
    rounded one and no random number is drawn: for every operand pair, backend, option, sparsity and generator state. *)
Theorem C20_rr_exact_results :
  forall n k clk f c o a b st s1 A s2 B, ieee_arith n -> f = binary32 \/ f = binary64 -> m_mode c = mca_rr ->
  1 <= vprecision (wide f) c <= mw (wide f) -> is_bits f a -> is_bits f b ->
  flush_v f (m_daz c) (dec f a) = DFin s1 A -> flush_v f (m_daz c) (dec f b) = DFin s2 B -> (o = OpDiv -> B <> 0%R) ->
  fits (vprecision (wide f) c) (rop o A B) ->
  exists y r, encodes f (dop o (DFin s1 A) (DFin s2 B)) y /\
  mca_binary_op n k clk f c o a b st = Ok (r, init_state c st) /\ dec f r = flush_v f (m_ftz c) (dec f y).
Proof.
  intros n k clk f c o a b st s1 A s2 B Hn Hf Hm Ht Ha Hb DA DB Hdiv Hfit. pose proof (narrow_ok f Hf) as Of.
  rewrite <- dec_flushed in DA, DB by assumption.
  assert (FA : is_finite f (flushed f c a) = true) by (destruct (is_finite f (flushed f c a)) eqn:F; [reflexivity|]; destruct (dec_special _ _ F) as [E|[s E]]; rewrite E in DA; discriminate).
  assert (FB : is_finite f (flushed f c b) = true) by (destruct (is_finite f (flushed f c b)) eqn:F; [reflexivity|]; destruct (dec_special _ _ F) as [E|[s E]]; rewrite E in DB; discriminate).
  pose proof DA as DA'. pose proof DB as DB'. rewrite (dec_finite _ _ FA) in DA'. rewrite (dec_finite _ _ FB) in DB'. injection DA' as _ VA. injection DB' as _ VB.
  destruct (rr_exact n Hn clk k f c o a b st Hf Hm Ht Ha Hb FA FB) as (y & EY & EO); [rewrite VB; exact Hdiv|rewrite VA, VB; exact Hfit|].
  rewrite DA, DB in EY. exists y, (flush_out f c y). split; [exact EY|]. split; [exact EO|]. apply dec_flush_out; [exact Of|apply EY].
Qed.
Print Assumptions C20_rr_exact_results.
Example C20_nonvacuous :
  let c := mk_mctx mca_rr 5 53 true false 112 false false true 1 one32 in
  fits 5 (rop OpMul 3 7) /\ mca_binary_op soft Quad 0 binary32 c OpMul 0x40400000 0x40E00000 (rng0, 0) = Ok (0x41A80000, init_state c (rng0, 0)) /\
  mca_binary_op soft Quad 0 binary32 c OpMul 0x40E00000 0x40E00000 (rng0, 0) <> Ok (0x42440000, init_state c (rng0, 0)).
Proof.
  split; [exists 21, 0; split; [vm_compute; reflexivity|cbn; lra]|]. split; [vm_compute; reflexivity|]. vm_compute. congruence.
Qed.

(** which values the modes perturb (doc/02-backends.md) *)
Definition operands_perturbed (m : mcamode) : bool := match m with mca_ieee => false | mca_mca => true | mca_pb => true | mca_rr => false end.
Definition result_perturbed (m : mcamode) : bool := match m with mca_ieee => false | mca_mca => true | mca_pb => false | mca_rr => true end.
(** C21: what every operation computes. Operands are perturbed in modes pb and mca, the result in modes rr and mca, in the
    computation format g (twice as wide); signs are never changed. [pert] is the perturbation: for mcaquad
    Y = rnd_g (X + xi * 2^(e_X - t)) with -1/2 <= xi < 1/2 and 2^(e_X - 1) <= |X| < 2^e_X; for mcaint |Y - X| is at most half
    a unit in the t-th digit of the larger of the two; values with t digits are left alone in mode rr; with a sparsity
    below 1 the value may be left alone. The restriction: for mcaquad none of the draws is exactly 1/2, relative error
    mode. *)
Theorem C21_operation_partial :
  forall n k clk f c o a b st, ieee_arith n -> f = binary32 \/ f = binary64 -> settings k c -> luck clk k 6 c st ->
  1 <= vprecision (wide f) c <= mw (wide f) -> is_bits f a -> is_bits f b ->
  exists y r st' va vb z vz, mca_binary_op n k clk f c o a b st = Ok (r, st') /\ dec f r = flush_v f (m_ftz c) (dec f y) /\
  dpert_if (operands_perturbed (m_mode c)) k c (wide f) (flush_v f (m_daz c) (dec f a)) va /\
  dpert_if (operands_perturbed (m_mode c)) k c (wide f) (flush_v f (m_daz c) (dec f b)) vb /\
  encodes (wide f) (dop o va vb) z /\ dpert_if (result_perturbed (m_mode c)) k c (wide f) (dec (wide f) z) vz /\ encodes f vz y.
Proof.
  intros n k clk f c o a b st Hn Hf Hset Hl Ht Ha Hb. pose proof (narrow_ok f Hf) as Of.
  destruct (binary_op_spec n Hn clk k f c o a b st Hf Hset Hl Ht Ha Hb) as (y & st' & va & vb & z & vz & EO & PA & PB & EZ & PZ & EY).
  rewrite !dec_flushed in PA, PB by assumption. exists y, (flush_out f c y), st', va, vb, z, vz.
  split; [exact EO|]. split; [apply dec_flush_out; [exact Of|apply EY]|]. auto.
Qed.
Print Assumptions C21_operation_partial.
Theorem C21_fma_partial :
  forall n k clk f c a b d st, ieee_arith n -> f = binary32 \/ f = binary64 -> settings k c -> luck clk k 8 c st ->
  1 <= vprecision (wide f) c <= mw (wide f) -> is_bits f a -> is_bits f b -> is_bits f d ->
  exists y r st' va vb vd z vz, mca_ternary_op n k clk f c a b d st = Ok (r, st') /\ dec f r = flush_v f (m_ftz c) (dec f y) /\
  dpert_if (operands_perturbed (m_mode c)) k c (wide f) (flush_v f (m_daz c) (dec f a)) va /\
  dpert_if (operands_perturbed (m_mode c)) k c (wide f) (flush_v f (m_daz c) (dec f b)) vb /\
  dpert_if (operands_perturbed (m_mode c)) k c (wide f) (flush_v f (m_daz c) (dec f d)) vd /\
  encodes (wide f) (dfma va vb vd) z /\ dpert_if (result_perturbed (m_mode c)) k c (wide f) (dec (wide f) z) vz /\ encodes f vz y.
Proof.
  intros n k clk f c a b d st Hn Hf Hset Hl Ht Ha Hb Hd. pose proof (narrow_ok f Hf) as Of.
  destruct (ternary_op_spec n Hn clk k f c a b d st Hf Hset Hl Ht Ha Hb Hd) as (y & st' & va & vb & vd & z & vz & EO & PA & PB & PD & EZ & PZ & EY).
  rewrite !dec_flushed in PA, PB, PD by assumption. exists y, (flush_out f c y), st', va, vb, vd, z, vz.
  split; [exact EO|]. split; [apply dec_flush_out; [exact Of|apply EY]|]. repeat (split; [assumption|]). assumption.
Qed.
Print Assumptions C21_fma_partial.
Theorem C21_cast_partial :
  forall n k clk c a st, ieee_arith n -> settings k c -> luck clk k 4 c st -> 1 <= m_p64 c <= 112 -> is_bits binary64 a ->
  exists y0 y r st' va x vz, mca_cast n k clk c a st = Ok (r, st') /\
  dpert_if (operands_perturbed (m_mode c)) k c binary128 (flush_v binary64 (m_daz c) (dec binary64 a)) va /\ encodes binary32 va x /\
  dpert_if (result_perturbed (m_mode c)) k c binary128 (dec binary32 x) vz /\ encodes binary64 vz y0 /\
  dec binary64 y = flush_v binary64 (m_ftz c) (dec binary64 y0) /\ encodes binary32 (dec binary64 y) r.
Proof.
  intros n k clk c a st Hn Hset Hl Ht Ha.
  destruct (cast_spec n Hn clk k c a st Hset Hl Ht Ha) as (y0 & r & st' & va & x & vz & EO & PA & EX & PZ & EY & ER).
  rewrite dec_flushed in PA by (assumption || apply ok64). exists y0, (flush_out binary64 c y0), r, st', va, x, vz.
  split; [exact EO|]. split; [exact PA|]. split; [exact EX|]. split; [exact PZ|]. split; [exact EY|]. split; [apply dec_flush_out; [apply ok64|apply EY]|exact ER].
Qed.
Print Assumptions C21_cast_partial.
Example C21_nonvacuous :
  let c := mk_mctx mca_mca 10 53 true false 112 false false true 1 one32 in
  settings Quad c /\ luck 0 Quad 8 c (rng0, 0) /\ 1 <= vprecision (wide binary32) c <= mw (wide binary32) /\
  fst_ok (mca_binary_op soft Quad 0 binary32 c OpAdd 0x3F800000 0x3F800000 (rng0, 0)) = Some 1073733501 /\
  fst_ok (mca_ternary_op soft (Int Strict) 0 binary32 c 0x3F800000 0x3F800000 0x3F800000 (rng0, 0)) = Some 1073740175.
Proof. split; [intros _; auto|]. split; [intros _; vm_compute; intuition congruence|]. vm_compute. intuition congruence. Qed.

(** the size of a perturbation: at most 2^(e-t) for mcaquad, up to the rounding of the computation format, where
    2^e <= |X| < 2^(e+1); for mcaint e is the larger exponent of X and Y *)
Theorem C21_noise_bound :
  forall k g t X Y, fmt_ok g -> X <> 0%R -> (b2 (2 - bias g) <= Rabs X)%R -> 1 <= t -> noised k g t X Y ->
  let e := mag radix2 X - 1 in let e' := mag radix2 Y - 1 in
  (Rabs (Y - X) <= match k with Quad => b2 (e - t) + b2 (e - mw g) | Int _ => b2 (Z.max e e' - t) end)%R.
Proof.
  intros k g t X Y Hg HX HL Ht HN. cbn zeta. destruct k.
  - apply noised_quad_bound; assumption.
  - destruct HN as [_ HN]. replace (Z.max (mag radix2 X - 1) (mag radix2 Y - 1) - t) with (Z.max (mag radix2 X) (mag radix2 Y) - 1 - t) by lia. exact HN.
Qed.
Print Assumptions C21_noise_bound.

(** the draw 1/2 makes the noise of mcaquad 0 - its exponent field is adjusted all the same and wraps around: with the
    documented options (mode rr, precision 24, seed 0x2fedf1efce1d5544) 1 + 2^-30 is +infinity. *)
Theorem C21_half_draw_refuted :
  ~ (forall n clk c a b st s X, ieee_arith n -> m_mode c = mca_rr -> m_rel c = true -> m_abs c = false -> 1 <= m_p32 c <= 52 ->
     is_bits binary32 a -> is_bits binary32 b -> dadd (dec binary32 a) (dec binary32 b) = DFin s X -> (Rabs X <= 2)%R ->
     exists y st', mca_binary_op n Quad clk binary32 c OpAdd a b st = Ok (y, st') /\ is_finite binary32 y = true).
Proof.
  intros H. set (b := make binary32 0 97 0).
  destruct (H soft 0 (mk_mctx mca_rr 24 53 true false 112 false false true 0x2fedf1efce1d5544 one32) one32 b (rng0, 0) 0 (fval binary32 one32 + fval binary32 b)%R)
    as (y & st' & EY & FY); try reflexivity; try apply soft_ieee; try (vm_compute; split; congruence); try (cbn; lia).
  - replace (fval binary32 one32) with (IZR 8388608 * b2 (-23))%R by (rewrite (fval_mval binary32 ok32); reflexivity).
    replace (fval binary32 b) with (IZR 8388608 * b2 (-53))%R by (rewrite (fval_mval binary32 ok32); reflexivity).
    change (b2 (-23)) with (/ 8388608)%R. change (b2 (-53)) with (/ 9007199254740992)%R. rewrite Rabs_pos_eq; lra.
  - vm_compute in EY. injection EY as EY _. rewrite <- EY in FY. vm_compute in FY. discriminate.
Qed.
Print Assumptions C21_half_draw_refuted.

(** mcaint: near the top of a binade the noise exceeds 2^(e_X - t): 2 - 2^-23 at precision 5, mode pb, seed 2, becomes
    2 + 230643 * 2^-22 = 2.0549..., while 2^(0-5) = 0.03125 *)
Theorem C21_int_exponent_of_operand_refuted :
  ~ (forall n sem clk c a b st y st', ieee_arith n -> m_mode c = mca_pb -> m_daz c = false -> m_ftz c = false -> 1 <= m_p32 c <= 24 ->
     is_bits binary32 a -> is_finite binary32 a = true -> fval binary32 b = 0%R -> fval binary32 a <> 0%R ->
     mca_binary_op n (Int sem) clk binary32 c OpAdd a b st = Ok (y, st') ->
     (Rabs (fval binary32 y - fval binary32 a) <= b2 (mag radix2 (fval binary32 a) - 1 - m_p32 c) + b2 (mag radix2 (fval binary32 a) - 24))%R).
Proof.
  intros H. set (a := 0x3FFFFFFF). set (c := mk_mctx mca_pb 5 53 true false 112 false false true 2 one32).
  destruct (mca_binary_op soft (Int Strict) 0 binary32 c OpAdd a 0 (rng0, 0)) as [[y st']| | |] eqn:E; try (vm_compute in E; discriminate).
  assert (VA : fval binary32 a = (IZR 16777215 * b2 (-23))%R) by (rewrite (fval_mval binary32 ok32); reflexivity).
  assert (VB : fval binary32 0 = 0%R) by (rewrite (fval_mval binary32 ok32); unfold mval; change (sig binary32 0) with 0; change (sgn binary32 0) with 0; change (signR 0 ?X) with X; ring).
  assert (NA : fval binary32 a <> 0%R) by (rewrite VA; apply Rmult_integral_contrapositive; split; [lra|apply Rgt_not_eq, bpow_gt_0]).
  specialize (H soft Strict 0 c a 0 (rng0, 0) y st' soft_ieee eq_refl eq_refl eq_refl).
  assert (Ey : y = 1073972467) by (vm_compute in E; congruence). subst y.
  assert (VY : fval binary32 1073972467 = (IZR 8619251 * b2 (-22))%R) by (rewrite (fval_mval binary32 ok32); reflexivity).
  assert (M : mag radix2 (fval binary32 a) = 1%Z :> Z).
  { apply mag_unique. rewrite VA, Rabs_pos_eq by (apply Rmult_le_pos; [lra|apply bpow_ge_0]). change (b2 (-23)) with (/ 8388608)%R. change (b2 (1 - 1)) with 1%R. change (b2 1) with 2%R. lra. }
  rewrite M in H. change (1 - 1 - m_p32 c) with (-5) in H. change (1 - 24) with (-23) in H.
  assert (K : (Rabs (fval binary32 1073972467 - fval binary32 a) <= b2 (-5) + b2 (-23))%R).
  { apply H; try assumption; try reflexivity; try (vm_compute; split; congruence). }
  rewrite VA, VY in K. change (b2 (-5)) with (/ 32)%R in K. change (b2 (-22)) with (/ 4194304)%R in K. change (b2 (-23)) with (/ 8388608)%R in K.
  rewrite Rabs_pos_eq in K by lra. lra.
Qed.
Print Assumptions C21_int_exponent_of_operand_refuted.

(** C22: one application of the perturbation to a value that is to be perturbed (finite, nonzero, not in mode ieee, not
    representable at precision t in mode rr): with a sparsity >= 1 it is perturbed and exactly one number is drawn; with a
    sparsity S < 1 a number d is drawn first: d > S leaves the value alone, d <= S perturbs it with a second number. *)
Theorem C22_each_value :
  forall n k clk f c a st, ieee_arith n -> f = binary32 \/ f = binary64 -> settings k c ->
  1 <= vprecision (wide f) c <= mw (wide f) -> is_bits f a -> is_finite f a = true -> m_daz c = false ->
  is_finite binary32 (m_sparsity c) = true -> is_bits binary32 (m_sparsity c) -> noisable c (wide f) (fval f a) ->
  let st0 := init_state c st in let S := fval binary32 (m_sparsity c) in let x := promote f (wide f) c a in
  ((1 <= S)%R -> (k = Quad -> kdraw clk st0 <> 2 ^ 51) ->
     exists y, inexact n k clk (wide f) c x st = Ok (y, after clk st0) /\ noised k (wide f) (vprecision (wide f) c) (fval f a) (fval (wide f) y)) /\
  ((S < 1)%R -> (S < drawn clk st0)%R -> inexact n k clk (wide f) c x st = Ok (x, after clk st0)) /\
  ((S < 1)%R -> (drawn clk st0 <= S)%R -> (k = Quad -> kdraw clk (after clk st0) <> 2 ^ 51) ->
     exists y, inexact n k clk (wide f) c x st = Ok (y, after clk (after clk st0)) /\ noised k (wide f) (vprecision (wide f) c) (fval f a) (fval (wide f) y)).
Proof.
  intros n k clk f c a st Hn Hf Hset Ht Ha Fa Hd FS BS HN. cbn zeta.
  assert (Fl : flushed f c a = a) by (unfold flushed; rewrite Hd; reflexivity).
  destruct (promote_good f c a Hf Ha) as [GX VX]; [rewrite Fl; exact Fa|]. rewrite Fl in VX.
  destruct (op_bounds f Hf _ Ht) as (B1 & B2 & B3 & _).
  destruct (inexact_sparse n Hn clk k (wide f) c _ _ (promote f (wide f) c a) st (wide_big f Hf) Hset Ht B1 B2 B3 GX FS BS) as (H1 & H2 & H3); [rewrite VX; exact HN|].
  rewrite VX in H1, H3. split; [|split].
  - intros K1 K2. destruct (H1 K1 K2) as (y & E & _ & P). eauto.
  - exact H2.
  - intros K1 K2 K3. destruct (H3 K1 K2 K3) as (y & E & _ & P). eauto.
Qed.
Print Assumptions C22_each_value.

(** in mode rr an operation makes one decision: the skipped operation returns the IEEE result *)
Theorem C22_rr_operation_partial :
  forall n k clk f c o a b st, ieee_arith n -> f = binary32 \/ f = binary64 -> m_mode c = mca_rr -> m_daz c = false -> m_ftz c = false -> settings k c ->
  1 <= vprecision (wide f) c <= mw (wide f) -> is_bits f a -> is_bits f b -> is_finite f a = true -> is_finite f b = true -> (o = OpDiv -> fval f b <> 0%R) ->
  is_finite binary32 (m_sparsity c) = true -> is_bits binary32 (m_sparsity c) -> (fval binary32 (m_sparsity c) < 1)%R ->
  let st0 := init_state c st in let S := fval binary32 (m_sparsity c) in
  let Z := rnd (femin (wide f)) (mw (wide f)) (rop o (fval f a) (fval f b)) in Z <> 0%R -> ~ fits (vprecision (wide f) c) Z ->
  ((S < drawn clk st0)%R -> exists y, encodes f (dop o (dec f a) (dec f b)) y /\ mca_binary_op n k clk f c o a b st = Ok (y, after clk st0)) /\
  ((drawn clk st0 <= S)%R -> (k = Quad -> kdraw clk (after clk st0) <> 2 ^ 51) -> exists y Z' s, encodes f (DFin s Z') y /\
     noised k (wide f) (vprecision (wide f) c) Z Z' /\ mca_binary_op n k clk f c o a b st = Ok (y, after clk (after clk st0))).
Proof.
  intros n k clk f c o a b st Hn Hf Hm Hd Hft Hset Ht Ha Hb Fa Fb Hdiv FS BS HS. cbn zeta. intros HZ HF.
  assert (Fl : forall x, flushed f c x = x) by (intros x; unfold flushed; rewrite Hd; reflexivity).
  assert (Fo : forall x, flush_out f c x = x) by (intros x; unfold flush_out; rewrite Hft; reflexivity).
  destruct (rr_sparse n Hn clk k f c o a b st Hf Hm Hset Ht Ha Hb) as [H1 H2]; rewrite ?Fl; try assumption.
  rewrite !Fl in H1, H2. split.
  - intros K. destruct (H1 K) as (y & E & O). rewrite Fo in O. eauto.
  - intros K1 K2. destruct (H2 K1 K2) as (y & Z' & s & E & P & O). rewrite Fo in O. exists y, Z', s. auto.
Qed.
Print Assumptions C22_rr_operation_partial.
Example C22_nonvacuous :
  let c := mk_mctx mca_rr 10 53 true false 112 false false true 8 0x3F000000 in
  let r := mca_binary_op soft Quad 0 binary32 c OpDiv 0x3F800000 0x40400000 (rng0, 0) in
  kdraw 0 (init_state c (rng0, 0)) > 2 ^ 51 /\ r = Ok (0x3EAAAAAB, after 0 (init_state c (rng0, 0))) /\
  (let c := mk_mctx mca_rr 10 53 true false 112 false false true 2 0x3F000000 in
   kdraw 0 (init_state c (rng0, 0)) < 2 ^ 51 /\ fst_ok (mca_binary_op soft Quad 0 binary32 c OpDiv 0x3F800000 0x40400000 (rng0, 0)) <> Some 0x3EAAAAAB).
Proof. vm_compute. intuition congruence. Qed.

(** in mode mca an operation makes three independent decisions: its first draw may exceed the sparsity and the result still
    be perturbed. 1 + 1 with sparsity 0.5 and seed 8 is 1.99999988. *)
Theorem C22_operation_skipped_refuted :
  ~ (forall n clk c a b st, ieee_arith n -> m_mode c = mca_mca -> m_rel c = true -> m_abs c = false -> m_daz c = false -> m_ftz c = false ->
     1 <= m_p32 c <= 52 -> is_bits binary32 a -> is_bits binary32 b -> m_sparsity c = 0x3F000000 -> kdraw clk (init_state c st) > 2 ^ 51 ->
     exists y st', mca_binary_op n Quad clk binary32 c OpAdd a b st = Ok (y, st') /\ encodes binary32 (dadd (dec binary32 a) (dec binary32 b)) y).
Proof.
  intros H. set (c := mk_mctx mca_mca 24 53 true false 112 false false true 8 0x3F000000).
  assert (B1 : is_bits binary32 one32) by (vm_compute; split; congruence).
  destruct (H soft 0 c one32 one32 (rng0, 0) soft_ieee) as (y & st' & EY & ENC); try reflexivity; try assumption; try (cbn; lia).
  assert (Ey : y = 1073741823) by (vm_compute in EY; congruence).
  pose proof (soft_ieee binary32 ok32 one32 one32 B1 B1) as (E2 & _). change (n_add soft binary32 one32 one32) with (fadd binary32 one32 one32) in E2.
  assert (Ez : fadd binary32 one32 one32 = 1073741824) by (vm_compute; reflexivity). rewrite Ez in E2.
  assert (Hu : y = 1073741824); [|lia].
  apply (encodes_unique binary32 (dadd (dec binary32 one32) (dec binary32 one32))); try assumption; [apply ok32|].
  assert (Fa : is_finite binary32 one32 = true) by reflexivity. rewrite (dec_finite _ _ Fa). discriminate.
Qed.
Print Assumptions C22_operation_skipped_refuted.

(** C55: "precision too high, no noise will be added" (the warning of options.h). mcaquad: with a precision at least three
    digits above the significand of the computation format, and not above 480 (float) or 13000 (double), every operation is
    the IEEE one, in every mode (again no draw equal to 1/2). *)
Theorem C55_high_precision_no_noise_partial :
  forall n clk f c o a b st, ieee_arith n -> f = binary32 \/ f = binary64 -> settings Quad c -> luck clk Quad 6 c st ->
  mw (wide f) + 3 <= vprecision (wide f) c <= t_limit f -> is_bits f a -> is_bits f b ->
  exists y r st', encodes f (dop o (flush_v f (m_daz c) (dec f a)) (flush_v f (m_daz c) (dec f b))) y /\
  mca_binary_op n Quad clk f c o a b st = Ok (r, st') /\ dec f r = flush_v f (m_ftz c) (dec f y).
Proof.
  intros n clk f c o a b st Hn Hf Hset Hl Ht Ha Hb. pose proof (narrow_ok f Hf) as Of.
  destruct (high_precision_ieee n Hn clk f c o a b st Hf Hset Hl Ht Ha Hb) as (y & st' & EY & EO). rewrite !dec_flushed in EY by assumption.
  exists y, (flush_out f c y), st'. split; [exact EY|]. split; [exact EO|]. apply dec_flush_out; [exact Of|apply EY].
Qed.
Print Assumptions C55_high_precision_no_noise_partial.
Example C55_nonvacuous :
  let c := mk_mctx mca_mca 60 53 true false 112 false false true 1 one32 in
  luck 0 Quad 6 c (rng0, 0) /\ fst_ok (mca_binary_op soft Quad 0 binary32 c OpAdd 0x3F800000 0x3F800000 (rng0, 0)) = Some 0x40000000.
Proof. split; [intros _; vm_compute; intuition congruence|vm_compute; reflexivity]. Qed.

(** in general the claim of the warning is false: at precision 1100 mcaquad turns 1 + 1 into -infinity *)
Theorem C55_quad_refuted :
  ~ (forall n clk c p c' st, ieee_arith n -> m_mode c = mca_mca -> m_rel c = true -> m_abs c = false -> m_daz c = false -> m_ftz c = false -> p > 52 ->
     set_precision32 c p = Ok c' -> exists st', mca_binary_op n Quad clk binary32 c' OpAdd 0x3F800000 0x3F800000 st = Ok (0x40000000, st')).
Proof.
  intros H. destruct (H soft 0 (mk_mctx mca_mca 24 53 true false 112 false false true 1 one32) 1100 _ (rng0, 0) soft_ieee eq_refl eq_refl eq_refl eq_refl eq_refl ltac:(lia) eq_refl) as (st' & E).
  vm_compute in E. discriminate.
Qed.
Print Assumptions C55_quad_refuted.
(** mcaint: one digit above the documented maximum is undefined behaviour, also on machines whose shifts are taken modulo
    the word size (signed overflow) *)
Theorem C55_int_undefined_refuted :
  ~ (forall n sem clk c p c' st, ieee_arith n -> m_mode c = mca_mca -> m_rel c = true -> m_abs c = false -> m_daz c = false -> m_ftz c = false -> p > 52 ->
     set_precision32 c p = Ok c' -> mca_binary_op n (Int sem) clk binary32 c' OpAdd 0x3F800000 0x3F800000 st <> UB).
Proof.
  intros H. apply (H soft Masked 0 (mk_mctx mca_mca 24 53 true false 112 false false true 1 one32) 53 _ (rng0, 0) soft_ieee eq_refl eq_refl eq_refl eq_refl eq_refl ltac:(lia) eq_refl).
  vm_compute. reflexivity.
Qed.
Print Assumptions C55_int_undefined_refuted.

(** C56: the user call INTERFLOP_INEXACT_ID of mcaquad: a finite nonzero value receives a noise at the given precision (a
    non-positive argument is relative to the backend's precision), in every mode but ieee, whatever the sparsity, with one
    draw; other values, and mode ieee, leave the variable as it is. *)
Theorem C56_user_inexact_partial :
  forall n clk f c p a st, ieee_arith n -> f = binary32 \/ f = binary64 -> m_mode c <> mca_ieee -> kdraw clk (init_state c st) <> 2 ^ 51 ->
  let t := if p <=? 0 then vprecision (wide f) c + p else p in
  1 <= t <= t_limit f -> is_bits f a -> is_finite f a = true -> fval f a <> 0%R ->
  exists y Z s, usercall_inexact n clk f c p a st = Ok (y, after clk (init_state c st)) /\ noised_quad (wide f) t (fval f a) Z /\ encodes f (DFin s Z) y.
Proof. intros n clk f c p a st Hn Hf Hm Hk t Ht Ha Fa Z0. apply usercall_spec; assumption. Qed.
Print Assumptions C56_user_inexact_partial.
Theorem C56_untouched :
  forall n clk f c p a st, f = binary32 \/ f = binary64 -> is_bits f a -> m_mode c = mca_ieee \/ is_finite f a = false \/ fval f a = 0%R ->
  - 2 ^ 31 <= vprecision (wide f) c + p < 2 ^ 31 -> usercall_inexact n clk f c p a st = Ok (a, st).
Proof. intros n clk f c p a st Hf Ha H Hp. apply usercall_untouched; assumption. Qed.
Print Assumptions C56_untouched.
Example C56_nonvacuous :
  fst_ok (usercall_inexact soft 0 binary32 (mk_mctx mca_pb 24 53 true false 112 false false true 1 one32) (-14) 0x3F800000 (rng0, 0)) = Some 1065353410 /\
  usercall_inexact soft 0 binary64 (mk_mctx mca_pb 24 53 true false 112 false false true 1 one32) 0 0x7FF0000000000000 (rng0, 0) = Ok (0x7FF0000000000000, (rng0, 0)).
Proof. vm_compute. auto. Qed.
