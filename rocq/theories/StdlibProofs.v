(** Proofs about the numerical helpers of the interflop standard library. *)
From Coq Require Import ZArith Reals Bool Lia Lra.
From Flocq Require Import Core.
From Verif Require Import Common Bits BitsFacts FloatReal FloatValue StdlibModel VprecRound.
Open Scope Z_scope.

(** ** count of trailing zeros *)
Lemma odd_part m : 0 < m -> exists j k, 0 <= j /\ 0 <= k /\ m = (2 * j + 1) * 2 ^ k.
Proof.
  intros Hm. remember (Z.to_nat m) as n eqn:En. revert m Hm En.
  induction n as [n IH] using lt_wf_ind. intros m Hm En.
  destruct (Z.Even_or_Odd m) as [[h Hh]|[h Hh]].
  - destruct (IH (Z.to_nat h) ltac:(lia) h ltac:(lia) eq_refl) as (j & k & Hj & Hk & E).
    exists j, (k + 1). repeat split; [lia|lia|]. rewrite pow2_S by lia. rewrite Hh, E. ring.
  - exists h, 0. repeat split; lia.
Qed.

Lemma land_opp j k : 0 <= k -> Z.land ((2 * j + 1) * 2 ^ k) (- ((2 * j + 1) * 2 ^ k)) = 2 ^ k.
Proof.
  intros Hk. replace (- ((2 * j + 1) * 2 ^ k)) with ((2 * Z.lnot j + 1) * 2 ^ k) by ((pose proof (Z.add_lnot_diag j); nia)).
  rewrite <- !Z.shiftl_mul_pow2 by assumption. rewrite <- Z.shiftl_land.
  replace (Z.land (2 * j + 1) (2 * Z.lnot j + 1)) with 1; [rewrite Z.shiftl_mul_pow2 by assumption; lia|].
  symmetry. apply Z.bits_inj'. intros n Hn. rewrite Z.land_spec. destruct (Z.eq_dec n 0) as [->|Hn0].
  - rewrite !Z.testbit_odd_0. reflexivity.
  - replace n with (Z.succ (n - 1)) by lia. rewrite !Z.testbit_odd_succ by lia. rewrite Z.lnot_spec by lia.
    replace (Z.testbit 1 (Z.succ (n - 1))) with false.
    + destruct (Z.testbit j (n - 1)); reflexivity.
    + symmetry. apply Z.bits_above_log2; [lia|]. change (Z.log2 1) with 0. lia.
Qed.

Lemma ctz_spec m : 0 < m -> exists j, 0 <= j /\ 0 <= ctz m /\ m = (2 * j + 1) * 2 ^ ctz m.
Proof.
  intros Hm. destruct (odd_part m Hm) as (j & k & Hj & Hk & E). exists j. unfold ctz. rewrite E, land_opp by assumption.
  rewrite Z.log2_pow2 by assumption. auto.
Qed.

(** a value held by a significand of q bits *)
Definition fits (q : Z) (X : R) : Prop := exists m e : Z, Z.abs m < 2 ^ q /\ X = (IZR m * bpow radix2 e)%R.

Lemma odd_fits j k q : 0 <= j -> 0 <= q -> (fits q (IZR (2 * j + 1) * bpow radix2 k)%R <-> 2 * j + 1 < 2 ^ q).
Proof.
  intros Hj Hq. split; [|intros H; exists (2 * j + 1), k; split; [lia|reflexivity]].
  intros (m & e & Hm & E). destruct (Z.leb_spec e k) as [L|L].
  - assert (Hmm : m = (2 * j + 1) * 2 ^ (k - e)).
    { apply eq_IZR. rewrite mult_IZR, IZR_pow2 by lia. apply (Rmult_eq_reg_r (bpow radix2 e)); [|apply Rgt_not_eq, bpow_gt_0].
      rewrite <- E, Rmult_assoc, <- bpow_plus. do 2 f_equal. lia. }
    assert (0 < 2 ^ (k - e)) by (apply pow2_pos; lia). nia.
  - exfalso. assert (Hmm : 2 * j + 1 = m * 2 ^ (e - k)).
    { apply eq_IZR. rewrite mult_IZR, IZR_pow2 by lia. apply (Rmult_eq_reg_r (bpow radix2 k)); [|apply Rgt_not_eq, bpow_gt_0].
      rewrite E, Rmult_assoc, <- bpow_plus. do 2 f_equal. lia. }
    rewrite (pow2_P (e - k)) in Hmm by lia. lia.
Qed.

Lemma fits_signR q s X : fits q (signR s X) <-> fits q X.
Proof.
  unfold signR. destruct (s =? 1); [|reflexivity]. split; intros (m & e & Hm & E); exists (- m), e; (split; [lia|]); rewrite opp_IZR; lra.
Qed.

Section rep.
  Context (w : Z) (f : fmt) (Hf : fmt_ok f) (x vp : Z) (Hvp : 0 <= vp) (Hw : vp + mw f < 2 ^ w).

  Lemma ctz_man : man f x <> 0 -> 0 <= ctz (man f x) < mw f /\ exists j, 0 <= j /\ man f x = (2 * j + 1) * 2 ^ ctz (man f x).
  Proof.
    intros Hm. pose proof (man_range f Hf x) as Hr. destruct (ctz_spec (man f x) ltac:(lia)) as (j & Hj & Hc & E).
    split; [|eauto]. split; [exact Hc|]. destruct (Z.ltb_spec (ctz (man f x)) (mw f)) as [L|L]; [exact L|].
    assert (2 ^ mw f <= 2 ^ ctz (man f x)) by (apply pow2_le; destruct Hf; lia). nia.
  Qed.

  Lemma representable_normal : 1 <= expf f x -> 1 <= vp -> (is_representable w f x vp = true <-> fits vp (fval f x)).
  Proof.
    intros He Hv. rewrite (fval_mval f Hf x), fits_signR. unfold is_representable, mval, sig.
    replace (expf f x =? 0) with false by (symmetry; apply Z.eqb_neq; lia).
    assert (Hmw : 2 <= mw f) by (destruct Hf; assumption).
    destruct (Z.eqb_spec (man f x) 0) as [E0|E0].
    - split; [|reflexivity]. intros _. rewrite E0, Z.add_0_r. exists 1, (mw f + sexp f x). split.
      + change (2 ^ 0 < 2 ^ vp). apply pow2_lt. lia.
      + rewrite IZR_pow2 by lia. rewrite <- bpow_plus. ring.
    - destruct (ctz_man E0) as (Hc & j & Hj & E). set (k := ctz (man f x)) in *.
      rewrite Z.mod_small by lia. rewrite Z.ltb_lt.
      set (J := j + 2 ^ (mw f - k - 1)).
      assert (HJ : 2 ^ mw f + man f x = (2 * J + 1) * 2 ^ k).
      { unfold J. rewrite E. replace (2 ^ mw f) with (2 * 2 ^ (mw f - k - 1) * 2 ^ k); [ring|].
        rewrite <- pow2_P by lia. rewrite <- pow2_split by lia. f_equal. lia. }
      rewrite HJ, mult_IZR, IZR_pow2 by lia. rewrite Rmult_assoc, <- bpow_plus.
      assert (Hp1 : 0 < 2 ^ (mw f - k - 1)) by (apply pow2_pos; lia).
      rewrite odd_fits by (unfold J; lia).
      pose proof (man_range f Hf x) as Hr.
      assert (Hb : 2 ^ (mw f - k) <= 2 * J + 1 < 2 ^ (mw f - k + 1)).
      { assert (0 < 2 ^ k) by (apply pow2_pos; lia).
        assert (2 ^ (mw f - k) * 2 ^ k = 2 ^ mw f) by (rewrite <- pow2_split by lia; f_equal; lia).
        rewrite (pow2_S (mw f - k)) by lia. split; nia. }
      split; intros H.
      + eapply Z.lt_le_trans; [apply Hb|]. apply pow2_le. lia.
      + destruct (Z.ltb_spec (mw f) (vp + k)) as [L|L]; [exact L|]. exfalso.
        assert (2 ^ vp <= 2 ^ (mw f - k)) by (apply pow2_le; lia). lia.
  Qed.

  Lemma representable_sound : 1 <= vp -> is_representable w f x vp = true -> fits vp (fval f x).
  Proof.
    intros Hv H. destruct (Z.eq_dec (expf f x) 0) as [He|He].
    2:{ apply representable_normal; try assumption. pose proof (expf_range f Hf x). lia. }
    rewrite (fval_mval f Hf x), fits_signR. unfold is_representable in H. unfold mval, sig. rewrite He in *. cbn [Z.eqb] in *.
    destruct (Z.eqb_spec (man f x) 0) as [E0|E0].
    - rewrite E0. exists 0, 0. split; [apply pow2_pos; lia|]. cbn [IZR]. ring.
    - destruct (ctz_man E0) as (Hc & j & Hj & E). set (k := ctz (man f x)) in *. assert (Hmw : 2 <= mw f) by (destruct Hf; assumption).
      rewrite Z.mod_small in H by lia. apply Z.ltb_lt in H. rewrite E, mult_IZR, IZR_pow2 by lia. rewrite Rmult_assoc, <- bpow_plus.
      apply odd_fits; [assumption|lia|]. pose proof (man_range f Hf x) as Hr.
      assert (0 < 2 ^ k) by (apply pow2_pos; lia).
      assert (2 ^ (mw f - k) * 2 ^ k = 2 ^ mw f) by (rewrite <- pow2_split by lia; f_equal; lia).
      assert (2 ^ (mw f - k) <= 2 ^ vp) by (apply pow2_le; lia). nia.
  Qed.
End rep.

(** ** classification *)
Ltac fin := repeat split; intros; repeat match goal with K : _ /\ _ |- _ => destruct K end; first [discriminate | congruence | reflexivity | lra].
Lemma fpclassify_correct f x : fmt_ok f ->
  (fpclassify f x = FP_NAN <-> is_nan f x = true) /\ (fpclassify f x = FP_INFINITE <-> is_inf f x = true) /\
  (fpclassify f x = FP_ZERO <-> is_finite f x = true /\ fval f x = 0%R) /\
  (fpclassify f x = FP_SUBNORMAL <-> is_finite f x = true /\ (0 < Rabs (fval f x) < bpow radix2 (1 - bias f))%R) /\
  (fpclassify f x = FP_NORMAL <-> is_finite f x = true /\ (bpow radix2 (1 - bias f) <= Rabs (fval f x))%R).
Proof.
  intros Hf. rewrite (mval_abs f Hf). unfold fpclassify, is_nan, is_inf, is_finite.
  assert (Hz : fval f x = 0%R <-> mval f x = 0%R).
  { rewrite (fval_mval f Hf). unfold signR. destruct (_ =? 1); lra. }
  rewrite Hz. rewrite <- (mval_zero f Hf). unfold is_zero. rewrite (code_split f Hf). pose proof (expf_range f Hf x) as He.
  pose proof (man_range f Hf x) as Hm. pose proof (mw_pos f Hf) as Hp. pose proof (ew_4 f Hf) as He4. pose proof (mval_nonneg f Hf x) as Hn.
  pose proof (bpow_gt_0 radix2 (1 - bias f)) as Hb. unfold expmax.
  destruct (Z.eqb_spec (expf f x) (2 ^ ew f - 1)) as [E|E]; cbn [andb negb].
  - destruct (Z.eqb_spec (man f x) 0); cbn [andb negb]; fin.
  - destruct (Z.eqb_spec (expf f x) 0) as [E0|E0]; cbn [andb].
    + pose proof (mval_subnormal f Hf x E0) as Hs. rewrite E0. destruct (Z.eqb_spec (man f x) 0) as [M|M]; cbn [negb].
      * assert (Hv : mval f x = 0%R) by (apply mval_zero; [assumption|]; unfold is_zero; rewrite (code_split f Hf), E0, M; reflexivity).
        rewrite M, Hv. cbn [Z.mul Z.add Z.eqb]. fin.
      * assert (Hv : (0 < mval f x)%R).
        { destruct Hn as [Hn|Hn]; [assumption|]. exfalso. symmetry in Hn. apply (mval_zero f Hf) in Hn. unfold is_zero in Hn.
          rewrite (code_split f Hf), E0 in Hn. apply Z.eqb_eq in Hn. lia. }
        assert (Hq : (0 * 2 ^ mw f + man f x =? 0) = false) by (apply Z.eqb_neq; lia). rewrite Hq.
        fin.
    + pose proof (mval_normal f Hf x ltac:(lia)) as Hs.
      assert (bpow radix2 (1 - bias f) <= bpow radix2 (expf f x - bias f))%R by (apply bpow_le; lia).
      assert (Hq : (expf f x * 2 ^ mw f + man f x =? 0) = false) by (apply Z.eqb_neq; nia). rewrite Hq.
      fin.
Qed.

(** interflop_fpclassify never answers "NaN" or "infinite" *)
Lemma ifp_no_special f x : 8 <= mw f -> fmt_ok f -> 0 <= x -> interflop_isnan f x = false /\ interflop_isinf f x = false.
Proof.
  intros Hm Hf Hx. unfold interflop_isnan, interflop_isinf, interflop_fpclassify, FLOAT_EXP_MAX.
  assert (He : forall e, Z.land x (e * 2 ^ mw f) <> 128).
  { intros e H. apply (f_equal (fun z => Z.testbit z 7)) in H. rewrite Z.land_spec in H. rewrite Z.mul_pow2_bits_low in H by lia.
    rewrite andb_false_r in H. discriminate. }
  replace (Z.land x (expmax f * 2 ^ mw f) =? 128) with false by (symmetry; apply Z.eqb_neq, He). cbn [andb].
  split; repeat match goal with |- context [if ?b then _ else _] => destruct b end; reflexivity.
Qed.
