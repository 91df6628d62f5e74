(** C49-C51: numerical helpers of the interflop standard library. *)
From Coq Require Import ZArith Reals Bool Lia Lra.
From Flocq Require Import Core.
From Verif Require Import Common Bits BitsFacts FloatReal FloatValue StdlibModel VprecDenormal VprecAbs StdlibProofs.
Open Scope Z_scope.

(** C49: fpow2i / pow2i return +0, exactly 2^i or +infinity for every int whose sum with the bias is an int. *)
Theorem C49_pow2i_exact_partial :
  forall f i, f = binary32 \/ f = binary64 -> - 2 ^ 31 <= i -> i + bias f < 2 ^ 31 ->
  (i < emin_ulp f -> pow2i f i = Ok (zero f 0)) /\
  (emin_ulp f <= i <= bias f -> exists y, pow2i f i = Ok y /\ is_bits f y /\ is_finite f y = true /\ fval f y = b2 i) /\
  (bias f < i -> pow2i f i = Ok (inf f 0)).
Proof.
  intros f i Hcf H1 H2. pose proof (cfmt_ok f Hcf) as Hf.
  assert (Hb : mw f <= bias f) by (destruct Hcf as [-> | ->]; vm_compute; discriminate).
  destruct (pow2i_spec f i Hf Hb H1 H2) as (A & B & C). split; [exact A|]. split; [|exact C].
  intros H. destruct (B H) as (y & E & D). exists y. split; [exact E|]. pose proof (denotes_fval f y 0 _ Hf D) as V.
  destruct D as (D1 & D2 & _). auto.
Qed.
Print Assumptions C49_pow2i_exact_partial.

Example C49_nonvacuous :   (* smallest subnormal, smallest normal, largest power *)
  pow2i binary64 (-1074) = Ok 1 /\ pow2i binary64 (-1075) = Ok 0 /\ pow2i binary32 (-126) = Ok 8388608 /\
  pow2i binary32 127 = Ok 2130706432 /\ pow2i binary32 128 = Ok (inf binary32 0).
Proof. vm_compute. auto. Qed.

(** the addition of the bias overflows int for the largest arguments *)
Theorem C49_pow2i_overflow_refuted :
  forall f i, f = binary32 \/ f = binary64 -> i < 2 ^ 31 -> 2 ^ 31 <= i + bias f -> pow2i f i = UB.
Proof.
  intros f i Hcf H1 H2. unfold pow2i, int_op, in_int. replace (i + bias f <? 2 ^ 31) with false by (symmetry; apply Z.ltb_ge; lia).
  rewrite andb_false_r. reflexivity.
Qed.
Print Assumptions C49_pow2i_overflow_refuted.
Example C49_overflow_nonvacuous : 2 ^ 31 - 1 < 2 ^ 31 /\ 2 ^ 31 <= (2 ^ 31 - 1) + bias binary32.
Proof. vm_compute. split; congruence. Qed.

(** C50: the library's isnan/isinf answer false on every pattern, NaN and infinity included. *)
Theorem C50_isnan_isinf_refuted :
  forall f x, f = binary32 \/ f = binary64 -> is_bits f x -> interflop_isnan f x = false /\ interflop_isinf f x = false.
Proof.
  intros f x Hcf [Hx _]. apply ifp_no_special; [destruct Hcf as [-> | ->]; cbn; lia|apply cfmt_ok; assumption|exact Hx].
Qed.
Print Assumptions C50_isnan_isinf_refuted.
Example C50_refuted_nonvacuous : is_inf binary64 (inf binary64 0) = true /\ is_nan binary32 (qnan binary32) = true /\
  is_bits binary64 (inf binary64 0) /\ is_bits binary32 (qnan binary32).
Proof. unfold is_bits. vm_compute. repeat split; congruence. Qed.

(** the other classifier of the library (the FPCLASSIFY macro used by every backend) is right on every pattern *)
Theorem C50_fpclassify_partial :
  forall f x, f = binary32 \/ f = binary64 \/ f = binary128 ->
  (fpclassify f x = FP_NAN <-> is_nan f x = true) /\ (fpclassify f x = FP_INFINITE <-> is_inf f x = true) /\
  (fpclassify f x = FP_ZERO <-> is_finite f x = true /\ fval f x = 0%R) /\
  (fpclassify f x = FP_SUBNORMAL <-> is_finite f x = true /\ (0 < Rabs (fval f x) < bpow radix2 (1 - bias f))%R) /\
  (fpclassify f x = FP_NORMAL <-> is_finite f x = true /\ (bpow radix2 (1 - bias f) <= Rabs (fval f x))%R).
Proof. intros f x H. apply fpclassify_correct. destruct H as [-> | [-> | ->]]; [exact ok32|exact ok64|exact ok128]. Qed.
Print Assumptions C50_fpclassify_partial.
Example C50_nonvacuous : fpclassify binary32 1 = FP_SUBNORMAL /\ fpclassify binary64 (inf binary64 1) = FP_INFINITE /\
  fpclassify binary128 (qnan binary128) = FP_NAN /\ fpclassify binary32 (zero binary32 1) = FP_ZERO.
Proof. vm_compute. auto. Qed.

(** C51: exact on normal numbers ([fits q X]: X = m 2^e for an integer |m| < 2^q), w the width of the sum. *)
Theorem C51_representable_normal_partial :
  forall w f x vp, f = binary32 \/ f = binary64 \/ f = binary128 -> 1 <= vp -> vp + mw f < 2 ^ w -> 1 <= expf f x ->
  (is_representable w f x vp = true <-> fits vp (fval f x)).
Proof.
  intros w f x vp H Hv Hw He. apply representable_normal; try assumption; [|lia].
  destruct H as [-> | [-> | ->]]; [exact ok32|exact ok64|exact ok128].
Qed.
Print Assumptions C51_representable_normal_partial.

(** a positive answer is always right, for every finite pattern *)
Theorem C51_representable_sound :
  forall w f x vp, f = binary32 \/ f = binary64 \/ f = binary128 -> 1 <= vp -> vp + mw f < 2 ^ w ->
  is_representable w f x vp = true -> fits vp (fval f x).
Proof.
  intros w f x vp H Hv Hw. apply representable_sound; try assumption; [|lia].
  destruct H as [-> | [-> | ->]]; [exact ok32|exact ok64|exact ok128].
Qed.
Print Assumptions C51_representable_sound.
Example C51_nonvacuous : 10 + mw binary32 < 2 ^ 32 /\ 1 <= expf binary32 1065361408 /\
  is_representable 32 binary32 1065361408 11 = true /\ is_representable 32 binary32 1065361408 10 = false.
Proof. vm_compute. repeat split; congruence. Qed.

(** a negative answer can be wrong: the smallest subnormal is a power of two but is declared not representable *)
Theorem C51_representable_subnormal_refuted :
  is_representable 32 binary32 1 10 = false /\ fits 10 (fval binary32 1).
Proof.
  split; [vm_compute; reflexivity|]. exists 1, (sexp binary32 1). split; [reflexivity|].
  unfold fval. change (ssig binary32 1) with 1. reflexivity.
Qed.
Print Assumptions C51_representable_subnormal_refuted.
