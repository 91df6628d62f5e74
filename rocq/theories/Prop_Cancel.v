(** C25: the cancellation backend. *)
From Coq Require Import ZArith Reals List Bool Lia Lra.
From Flocq Require Import Core.
From Verif Require Import Common Bits BitsFacts FloatReal FloatValue FloatOps DoubleRound StdlibModel StdlibProofs RngModel RngProofs
  McaModel McaProofs McaOps BitmaskModel BitmaskProofs CancelModel CancelProofs.
Import ListNotations.
Open Scope Z_scope.
Open Scope outcome_scope.

(** C25: multiplication, division, fma and cast return the IEEE result and draw no random number. *)
Theorem C25_other_operations_ieee :
  forall n clk f c a b d st, ieee_arith n -> f = binary32 \/ f = binary64 -> is_bits f a -> is_bits f b -> is_bits f d ->
  (exists y, cancel_binary_op n clk f c OpMul a b st = Ok (y, st) /\ encodes f (dmul (dec f a) (dec f b)) y) /\
  (exists y, cancel_binary_op n clk f c OpDiv a b st = Ok (y, st) /\ encodes f (ddiv (dec f a) (dec f b)) y) /\
  (exists y, cancel_fma n f c a b d st = Ok (y, st) /\ encodes f (dfma (dec f a) (dec f b) (dec f d)) y) /\
  (f = binary64 -> exists y, cancel_cast c a st = Ok (y, st) /\ encodes binary32 (dec binary64 a) y).
Proof.
  intros n clk f c a b d st Hn Hf Ha Hb Hd. pose proof (narrow_ok f Hf) as Ok. destruct (Hn f Ok a b Ha Hb) as (_ & _ & HM & HD & HF).
  split; [|split; [|split]].
  - eexists. split; [reflexivity|exact HM].
  - eexists. split; [reflexivity|exact HD].
  - eexists. split; [reflexivity|apply HF; assumption].
  - intros ->. eexists. split; [reflexivity|]. apply fconv_encodes; [apply ok64|apply ok32].
Qed.
Print Assumptions C25_other_operations_ieee.
Example C25_other_nonvacuous :
  fst_ok (cancel_binary_op soft 0 binary64 cancel_defaults OpDiv 0x3FF0000000000000 0x4008000000000000 (rng0, 0)) = Some 0x3FD5555555555555 /\
  fst_ok (cancel_cast cancel_defaults 0x3FB999999999999A (rng0, 0)) = Some 0x3DCCCCCD.
Proof. vm_compute. auto. Qed.

Definition dsum (o : binop) : bool := match o with OpAdd | OpSub => true | _ => false end.

(** C25: an addition or subtraction returns the IEEE result z and draws nothing if z is infinite or NaN, or if z is nonzero
    and fewer than [tolerance] leading bits were lost: 2 max(|a|,|b|) <= |z| 2^tolerance. Any tolerance from 1. *)
Theorem C25_no_cancellation_ieee :
  forall n clk f c o a b st, ieee_arith n -> f = binary32 \/ f = binary64 -> is_bits f a -> is_bits f b -> 1 <= c_tolerance c ->
  exists z, encodes f (dop o (dec f a) (dec f b)) z /\
  (is_finite f z = false \/ (fval f z <> 0 /\ 2 * Rmax (Rabs (fval f a)) (Rabs (fval f b)) <= Rabs (fval f z) * b2 (c_tolerance c))%R ->
   cancel_binary_op n clk f c o a b st = Ok (z, st)).
Proof.
  intros n clk f c o a b st Hn Hf Ha Hb Ht. pose proof (narrow_ok f Hf) as Ok. exists (perform n o f a b).
  split; [apply perform_encodes; assumption|]. rewrite !(mval_abs f Ok). intros H. unfold cancel_binary_op.
  destruct o; try reflexivity; apply no_cancel; assumption.
Qed.
Print Assumptions C25_no_cancellation_ieee.
(** 1.75 - 0.75 loses no bit and 1.5 - 1 one bit: with tolerance 2 both are exact *)
Example C25_no_cancellation_nonvacuous :
  fst_ok (cancel_binary_op soft 0 binary32 cancel_defaults OpSub 0x3FE00000 0x3F400000 (rng0, 0)) = Some 0x3F800000 /\
  fst_ok (cancel_binary_op soft 0 binary32 (mk_cctx 2 false 0) OpSub 0x3FC00000 0x3F800000 (rng0, 0)) = Some 0x3F000000.
Proof. vm_compute. auto. Qed.

(** C25: what a cancellation does. z normal, the larger operand normal, drop = number of leading bits lost (difference of the
    exponents), drop >= tolerance: the result is z plus a noise of magnitude at most 2^(exponent of z - drop), rounded to
    nearest in double and then to the operand format; if at least half of the significand was lost that is at most one unit
    in the last place of the larger operand, as claimed. Missing: a draw of exactly 1/2, and noise exponents below -970, where
    the exponent field wraps (refuted below); a smaller loss (refuted below). *)
Theorem C25_cancellation_noise_partial :
  forall n clk f c o a b st z, ieee_arith n -> f = binary32 \/ f = binary64 -> is_bits f a -> is_bits f b -> dsum o = true ->
  encodes f (dop o (dec f a) (dec f b)) z -> is_finite f z = true -> (b2 (1 - bias f) <= Rabs (fval f z))%R ->
  let larger := Rmax (Rabs (fval f a)) (Rabs (fval f b)) in (b2 (1 - bias f) <= larger)%R ->
  let drop := mag radix2 larger - mag radix2 (fval f z) in c_tolerance c <= drop -> -970 <= mag radix2 (fval f z) - drop <= 1024 ->
  let st0 := (init_rng_state_struct (fst st) (c_choose c) (c_seed c) false, snd st) in kdraw clk st0 <> 2 ^ 51 ->
  exists noise s w y, cancel_binary_op n clk f c o a b st = Ok (y, after clk st0) /\
    encodes binary64 (DFin s (fval f z + noise)) w /\ encodes f (dec binary64 w) y /\
    noise = ((IZR (kdraw clk st0) * b2 (-52) - 1/2) * b2 (mag radix2 (fval f z) - drop))%R /\
    (Rabs noise <= b2 (mag radix2 (fval f z) - 1 - drop))%R /\
    (mw f <= 2 * drop -> (Rabs noise <= b2 (mag radix2 larger - 1 - mw f))%R).
Proof.
  intros n clk f c o a b st z Hn Hf Ha Hb Ho Hz Fz Nz larger Nl drop Ht He st0 Hk. pose proof (narrow_ok f Hf) as Ok.
  assert (Ez : perform n o f a b = z).
  { apply (encodes_unique f (dop o (dec f a) (dec f b))); [assumption| |apply perform_encodes; assumption|assumption].
    intros E. rewrite E in Hz. destruct Hz as [_ Hz]. apply (finite_not_nan f) in Fz. destruct Fz. congruence. }
  assert (Bz : is_bits f z) by (destruct Hz; assumption).
  unfold drop, larger in *. clear drop larger. rewrite !(mval_abs f Ok) in *.
  set (drop := mag radix2 (Rmax (mval f a) (mval f b)) - mag radix2 (fval f z)) in *.
  destruct (cancel_noise f Ok n clk c a b z st Hn Hf Bz Fz Nz Nl Ht He Hk) as (w & r & E & (s & Ew) & Er). fold drop in Ew. fold st0 in E, Ew.
  exists ((IZR (kdraw clk st0) * b2 (-52) - 1/2) * b2 (mag radix2 (fval f z) - drop))%R, s, w, r.
  assert (B : (Rabs ((IZR (kdraw clk st0) * b2 (-52) - 1 / 2) * b2 (mag radix2 (fval f z) - drop)) <= b2 (mag radix2 (fval f z) - 1 - drop))%R).
  { rewrite Rabs_mult, (Rabs_pos_eq (b2 _)) by apply bpow_ge_0.
    replace (b2 (mag radix2 (fval f z) - 1 - drop)) with (/2 * b2 (mag radix2 (fval f z) - drop))%R.
    2:{ change (/2)%R with (b2 (-1)). rewrite <- bpow_plus. f_equal. lia. }
    apply Rmult_le_compat_r; [apply bpow_ge_0|]. pose proof (drawn_range clk st0) as [L U]. unfold drawn in *. apply Rabs_le. lra. }
  split. { unfold cancel_binary_op. destruct o; try discriminate; rewrite Ez; exact E. }
  split; [exact Ew|]. split; [exact Er|]. split; [reflexivity|]. split; [exact B|].
  intros Hd. eapply Rle_trans; [exact B|]. apply bpow_le. unfold drop in *. lia.
Qed.
Print Assumptions C25_cancellation_noise_partial.

(** (1 + 2^-12) - 1 in binary32 loses 12 bits, more than half: tolerance 1, seed 7 *)
Example C25_cancellation_nonvacuous :
  is_bits binary32 0x3F800800 /\ is_bits binary32 0x3F800000 /\ n_sub soft binary32 0x3F800800 0x3F800000 = 0x39800000 /\
  fst_ok (cancel_binary_op soft 0 binary32 (mk_cctx 1 true 7) OpSub 0x3F800800 0x3F800000 (rng0, 0)) <> Some 0x39800000%Z.
Proof. split; [split; vm_compute; congruence|]. split; [split; vm_compute; congruence|]. split; [vm_compute; reflexivity|]. vm_compute. congruence. Qed.

(** The claimed bound: the distance to the IEEE result is at most one unit in the last place of the larger operand. *)
Definition within_last_bit (P : R -> R -> R -> Prop) : Prop :=
  forall n clk c a b st y st' z, ieee_arith n -> 1 <= c_tolerance c -> is_bits binary64 a -> is_bits binary64 b ->
  is_finite binary64 a = true -> is_finite binary64 b = true ->
  encodes binary64 (dop OpSub (dec binary64 a) (dec binary64 b)) z -> is_finite binary64 z = true ->
  cancel_binary_op n clk binary64 c OpSub a b st = Ok (y, st') -> P (fval binary64 a) (fval binary64 b) (fval binary64 z) ->
  (Rabs (fval binary64 y - fval binary64 z) <= b2 (mag radix2 (Rmax (Rabs (fval binary64 a)) (Rabs (fval binary64 b))) - 53))%R.

Lemma b2_m52 : (0 < b2 (-52) < 1/1000000)%R.
Proof.
  split; [apply bpow_gt_0|]. apply Rlt_le_trans with (b2 (-20)); [apply bpow_lt; lia|]. cbn. lra.
Qed.

(** C25 is false as stated. *)
(** (1) 1 - 1: the exact zero result is treated as a number of exponent -1023; the exponent field of the noise wraps around and
    the "noise" replaces 0 by about -1.35. *)
Theorem C25_exact_zero_refuted : ~ within_last_bit (fun a b z => a = 1%R /\ b = 1%R /\ z = 0%R).
Proof.
  intros H. assert (R : exists y st', cancel_binary_op soft 0 binary64 (mk_cctx 1 true 7) OpSub 0x3FF0000000000000 0x3FF0000000000000 (rng0, 0) = Ok (y, st') /\ y = make binary64 1 1023 1577048429103000).
  { eexists _, _. split; [vm_compute; reflexivity|vm_compute; reflexivity]. }
  destruct R as (y & st' & E & Ey).
  assert (V1 : fval binary64 0x3FF0000000000000 = 1%R).
  { rewrite (fval_mval _ ok64). change (signR (sgn binary64 0x3FF0000000000000) (mval binary64 0x3FF0000000000000)) with (IZR (2 ^ 52) * b2 (-52))%R.
    rewrite IZR_pow2 by lia. rewrite <- bpow_plus. reflexivity. }
  assert (B1 : is_bits binary64 0x3FF0000000000000) by (split; vm_compute; congruence).
  assert (HZ := perform_encodes soft OpSub binary64 _ _ soft_ieee ok64 B1 B1).
  replace (perform soft OpSub binary64 0x3FF0000000000000 0x3FF0000000000000) with 0 in HZ by (vm_compute; reflexivity).
  assert (V0 : fval binary64 0 = 0%R) by (rewrite (fval_mval _ ok64); change (signR (sgn binary64 0) (mval binary64 0)) with (0 * b2 (-1074))%R; ring).
  specialize (H soft 0 (mk_cctx 1 true 7) _ _ (rng0, 0) y st' 0 soft_ieee ltac:(cbn; lia) B1 B1 eq_refl eq_refl HZ eq_refl E).
  rewrite V1, V0 in H. specialize (H (conj eq_refl (conj eq_refl eq_refl))).
  assert (M : mag radix2 (Rmax (Rabs 1) (Rabs 1)) = 1 :> Z).
  { rewrite Rabs_pos_eq, Rmax_left by lra. apply (mag_unique radix2). rewrite Rabs_pos_eq by lra. cbn. lra. }
  rewrite M in H. change (1 - 53) with (-52) in H. rewrite Ey, (fval_mval _ ok64) in H.
  change (signR (sgn binary64 (make binary64 1 1023 1577048429103000)) (mval binary64 (make binary64 1 1023 1577048429103000)))
    with (- (IZR (2 ^ 52 + 1577048429103000) * b2 (-52)))%R in H.
  rewrite Rminus_0_r, Rabs_Ropp, Rabs_pos_eq in H by (apply Rmult_le_pos; [apply IZR_le; lia|apply bpow_ge_0]).
  pose proof b2_m52. assert (2 <= IZR (2 ^ 52 + 1577048429103000))%R by (apply IZR_le; lia). nra.
Qed.
Print Assumptions C25_exact_zero_refuted.

(** (2) 1.5 - 1 with the default tolerance 1: the one lost bit makes the backend change the result, 0.5, by about 0.085,
    although both operands and the result are exact. *)
Theorem C25_small_cancellation_refuted : ~ within_last_bit (fun a b z => (a = 3/2 /\ b = 1 /\ z = 1/2)%R).
Proof.
  intros H. assert (R : exists y st', cancel_binary_op soft 0 binary64 (mk_cctx 1 true 7) OpSub 0x3FF8000000000000 0x3FF0000000000000 (rng0, 0) = Ok (y, st') /\ y = make binary64 0 1021 2983437613252122).
  { eexists _, _. split; [vm_compute; reflexivity|vm_compute; reflexivity]. }
  destruct R as (y & st' & E & Ey).
  assert (P52 : (IZR (2 ^ 52) * b2 (-52) = 1)%R) by (rewrite IZR_pow2, <- bpow_plus by lia; reflexivity).
  assert (V1 : fval binary64 0x3FF0000000000000 = 1%R).
  { rewrite (fval_mval _ ok64). change (signR (sgn binary64 0x3FF0000000000000) (mval binary64 0x3FF0000000000000)) with (IZR (2 ^ 52) * b2 (-52))%R. exact P52. }
  assert (V2 : fval binary64 0x3FF8000000000000 = (3/2)%R).
  { rewrite (fval_mval _ ok64). change (signR (sgn binary64 0x3FF8000000000000) (mval binary64 0x3FF8000000000000)) with (IZR (2 ^ 52 + 2 ^ 51) * b2 (-52))%R.
    rewrite plus_IZR. replace (IZR (2 ^ 52)) with (2 * IZR (2 ^ 51))%R in * by (rewrite <- mult_IZR; reflexivity). nra. }
  assert (V3 : fval binary64 0x3FE0000000000000 = (1/2)%R).
  { rewrite (fval_mval _ ok64). change (signR (sgn binary64 0x3FE0000000000000) (mval binary64 0x3FE0000000000000)) with (IZR (2 ^ 52) * b2 (-53))%R.
    rewrite IZR_pow2, <- bpow_plus by lia. cbn. lra. }
  assert (B1 : is_bits binary64 0x3FF0000000000000) by (split; vm_compute; congruence).
  assert (B2 : is_bits binary64 0x3FF8000000000000) by (split; vm_compute; congruence).
  assert (HZ := perform_encodes soft OpSub binary64 _ _ soft_ieee ok64 B2 B1).
  replace (perform soft OpSub binary64 0x3FF8000000000000 0x3FF0000000000000) with 0x3FE0000000000000 in HZ by (vm_compute; reflexivity).
  specialize (H soft 0 (mk_cctx 1 true 7) _ _ (rng0, 0) y st' _ soft_ieee ltac:(cbn; lia) B2 B1 eq_refl eq_refl HZ eq_refl E).
  rewrite V1, V2, V3 in H. specialize (H (conj eq_refl (conj eq_refl eq_refl))).
  assert (M : mag radix2 (Rmax (Rabs (3/2)) (Rabs 1)) = 1 :> Z).
  { rewrite !Rabs_pos_eq, Rmax_left by lra. apply (mag_unique radix2). rewrite Rabs_pos_eq by lra. cbn. lra. }
  rewrite M in H. change (1 - 53) with (-52) in H. rewrite Ey, (fval_mval _ ok64) in H.
  change (signR (sgn binary64 (make binary64 0 1021 2983437613252122)) (mval binary64 (make binary64 0 1021 2983437613252122)))
    with (IZR (2 ^ 52 + 2983437613252122) * b2 (-54))%R in H.
  pose proof b2_m52 as L. replace (b2 (-54)) with (b2 (-52) / 4)%R in H.
  2:{ change (-54) with (-52 + -2). rewrite bpow_plus. cbn. lra. }
  assert (Q : (IZR (2 ^ 52 + 2983437613252122) * b2 (-52) <= 17/10)%R).
  { replace (17/10)%R with (17/10 * (IZR (2 ^ 52) * b2 (-52)))%R by (rewrite P52; ring). rewrite <- Rmult_assoc. apply Rmult_le_compat_r; [lra|].
    apply (Rmult_le_reg_l 10); [lra|]. replace (10 * (17 / 10 * IZR (2 ^ 52)))%R with (IZR (17 * 2 ^ 52)) by (rewrite mult_IZR; field).
    rewrite <- mult_IZR. apply IZR_le. vm_compute. discriminate. }
  revert H. unfold Rabs. destruct (Rcase_abs _); lra.
Qed.
Print Assumptions C25_small_cancellation_refuted.

(** (3) 2^-1010 (1 + 2^-10) - 2^-1010: result 2^-1020, normal. The exponent field of the noise wraps around and the result
    becomes about -2^1016. *)
Theorem C25_near_underflow_refuted : ~ within_last_bit (fun a b z => (0 < a < 1 /\ 0 < b < 1 /\ b2 (-1022) <= z < 1)%R).
Proof.
  intros H. set (a := make binary64 0 13 (2 ^ 42)). set (b := make binary64 0 13 0). set (z := make binary64 0 3 0).
  assert (R : exists y st', cancel_binary_op soft 0 binary64 (mk_cctx 1 true 7) OpSub a b (rng0, 0) = Ok (y, st') /\ y = make binary64 1 2039 1577048429103000).
  { eexists _, _. split; [vm_compute; reflexivity|vm_compute; reflexivity]. }
  destruct R as (y & st' & E & Ey).
  assert (S : forall x m e, 0 < m < 2 ^ 53 -> -1074 <= e <= -60 -> fval binary64 x = (IZR m * b2 e)%R -> (0 < fval binary64 x < 1)%R).
  { intros x m e Hm He V. rewrite V. split; [apply Rmult_lt_0_compat; [apply IZR_lt; lia|apply bpow_gt_0]|].
    apply Rlt_le_trans with (b2 53 * b2 e)%R; [apply Rmult_lt_compat_r; [apply bpow_gt_0|rewrite <- IZR_pow2 by lia; apply IZR_lt; lia]|].
    rewrite <- bpow_plus. change 1%R with (b2 0). apply bpow_le. lia. }
  assert (Va : (0 < fval binary64 a < 1)%R).
  { apply (S a (2 ^ 52 + 2 ^ 42) (-1062)); [lia|lia|]. rewrite (fval_mval _ ok64). reflexivity. }
  assert (Vb : (0 < fval binary64 b < 1)%R).
  { apply (S b (2 ^ 52) (-1062)); [lia|lia|]. rewrite (fval_mval _ ok64). reflexivity. }
  assert (Ez : fval binary64 z = (IZR (2 ^ 52) * b2 (-1072))%R) by (rewrite (fval_mval _ ok64); reflexivity).
  assert (Vz : (0 < fval binary64 z < 1)%R) by (apply (S z (2 ^ 52) (-1072)); [lia|lia|exact Ez]).
  assert (Ba : is_bits binary64 a) by (split; vm_compute; congruence).
  assert (Bb : is_bits binary64 b) by (split; vm_compute; congruence).
  assert (HZ := perform_encodes soft OpSub binary64 _ _ soft_ieee ok64 Ba Bb).
  replace (perform soft OpSub binary64 a b) with z in HZ by (vm_compute; reflexivity).
  specialize (H soft 0 (mk_cctx 1 true 7) _ _ (rng0, 0) y st' _ soft_ieee ltac:(cbn; lia) Ba Bb eq_refl eq_refl HZ eq_refl E).
  assert (Lz : (b2 (-1022) <= fval binary64 z)%R). { rewrite Ez, IZR_pow2, <- bpow_plus by lia. apply bpow_le. lia. }
  specialize (H ltac:(lra)).
  assert (M : mag radix2 (Rmax (Rabs (fval binary64 a)) (Rabs (fval binary64 b))) <= 0).
  { rewrite (Rabs_pos_eq (fval binary64 a)), (Rabs_pos_eq (fval binary64 b)) by lra.
    assert (X : (0 < Rmax (fval binary64 a) (fval binary64 b) < 1)%R) by (apply Rmax_case; assumption).
    revert X. generalize (Rmax (fval binary64 a) (fval binary64 b)). intros X HX. apply mag_le_bpow; [lra|]. rewrite Rabs_pos_eq by lra. change (b2 0) with 1%R. lra. }
  assert (N : (b2 (mag radix2 (Rmax (Rabs (fval binary64 a)) (Rabs (fval binary64 b))) - 53) <= 1)%R) by (change 1%R with (b2 0); apply bpow_le; lia).
  assert (Vy : fval binary64 y = (- (IZR (2 ^ 52 + 1577048429103000) * b2 964))%R) by (rewrite Ey, (fval_mval _ ok64); reflexivity).
  rewrite Vy in H. assert (2 <= IZR (2 ^ 52 + 1577048429103000))%R by (apply IZR_le; lia).
  assert (1 <= b2 964)%R by (change 1%R with (b2 0); apply bpow_le; lia).
  revert H. unfold Rabs at 1. destruct (Rcase_abs _); nra.
Qed.
Print Assumptions C25_near_underflow_refuted.
