(** Value computed by the VPREC rounding core, against Flocq's rounding to nearest even on the target format. *)
From Coq Require Import ZArith Reals Bool Lia Lra.
From Flocq Require Import Core.
From Verif Require Import Common Bits BitsFacts FloatReal FloatValue StdlibModel VprecModel VprecRound.
Open Scope Z_scope.
Open Scope outcome_scope.

(** precisions for which the shifts are in range, or are taken modulo the width *)
Definition adm (sem : shift_sem) (f : fmt) (p : Z) : Prop := 1 <= p <= mw f /\ (sem = Strict -> p <= mw f - 1).

Lemma round_normal_adm f sem x p : fmt_ok f -> adm sem f p -> is_bits f x -> is_finite f x = true -> 1 <= expf f x ->
  round_normal sem f x p = Ok (pack f (sgn f x) (rne (code f x) (mw f - p) * 2 ^ (mw f - p))).
Proof.
  intros Hf [Hp Hsem] Hx Fx HE. destruct (Z.eq_dec p (mw f)) as [->|Hne].
  - destruct sem; [specialize (Hsem eq_refl); lia|]. rewrite round_normal_full_masked by assumption.
    rewrite Z.sub_diag, rne_nonpos by lia. rewrite !Z.mul_1_r. f_equal. apply pack_self; assumption.
  - apply round_normal_code; (assumption || lia).
Qed.

Lemma mag_bracket X e : (b2 e <= X < b2 (e + 1))%R -> mag radix2 X = e + 1 :> Z.
Proof. intros H. apply mag_unique_pos. replace (e + 1 - 1) with e by lia. assumption. Qed.

(** in a given binade, rounding is to a fixed granularity *)
Lemma rnd_binade emin p X e : (b2 e <= X < b2 (e + 1))%R ->
  rnd emin p X = (IZR (ZnearestE (X * b2 (- Z.max (e - p) (emin - p)))) * b2 (Z.max (e - p) (emin - p)))%R.
Proof.
  intros H. unfold rnd, round, F2R, scaled_mantissa, cexp. cbn [Fnum Fexp]. rewrite (mag_bracket X e H).
  unfold FLT_exp. replace (e + 1 - (p + 1)) with (e - p) by lia. reflexivity.
Qed.

Lemma rnd_ge_pow emin p X e : 0 <= p -> emin - p <= e -> (b2 e <= X)%R -> (b2 e <= rnd emin p X)%R.
Proof.
  intros Hp He H. unfold rnd. apply round_ge_generic; [apply FLT_exp_valid; unfold Prec_gt_0; lia|apply valid_rnd_N| |assumption].
  apply generic_format_bpow. unfold FLT_exp. lia.
Qed.
Lemma rnd_le_pow emin p X e : 0 <= p -> emin - p <= e -> (X <= b2 e)%R -> (rnd emin p X <= b2 e)%R.
Proof.
  intros Hp He H. unfold rnd. apply round_le_generic; [apply FLT_exp_valid; unfold Prec_gt_0; lia|apply valid_rnd_N| |assumption].
  apply generic_format_bpow. unfold FLT_exp. lia.
Qed.
Lemma rnd_generic emin p X : 0 <= p -> generic_format radix2 (FLT_exp (emin - p) (p + 1)) (rnd emin p X).
Proof. intros Hp. apply generic_format_round; [apply FLT_exp_valid; unfold Prec_gt_0; lia|apply valid_rnd_N]. Qed.
Lemma rnd_0 emin p : rnd emin p 0 = 0%R.
Proof. apply round_0. apply valid_rnd_N. Qed.

Section value.
  Context (f : fmt) (Hf : fmt_ok f).
  Let Hmw : 2 <= mw f := proj1 Hf.
  Let Hew : 2 <= ew f := proj2 Hf.

  Lemma rounded_code_bound x p : is_finite f x = true -> 1 <= p <= mw f ->
    0 <= rne (code f x) (mw f - p) * 2 ^ (mw f - p) <= inf_code f.
  Proof.
    intros Fx Hp. apply (finite_code f Hf) in Fx. pose proof (code_range f Hf x).
    set (k := mw f - p). pose proof (pow2_pos k ltac:(lia)).
    assert (Hinf : inf_code f = expmax f * 2 ^ p * 2 ^ k).
    { unfold inf_code. replace (mw f) with (p + k) by lia. rewrite pow2_split by lia. ring. }
    destruct (Z.eq_dec k 0) as [E|E].
    - rewrite E, rne_nonpos by lia. rewrite !Z.mul_1_r. lia.
    - assert (0 <= rne (code f x) k) by (apply rne_lower; lia).
      assert (rne (code f x) k <= expmax f * 2 ^ p) by (apply rne_upper; [lia|]; rewrite <- Hinf; lia). nia.
  Qed.

  (** the magnitude pattern of a rounded normal number is the one of the rounded magnitude *)
  Lemma rounded_code_value x p emin : is_finite f x = true -> 1 <= expf f x -> 1 <= p <= mw f -> emin <= expf f x - bias f ->
    (IZR (cval f (rne (code f x) (mw f - p) * 2 ^ (mw f - p))) * b2 (emin_ulp f) = rnd emin p (mval f x))%R.
  Proof.
    intros Fx HE Hp He. set (k := mw f - p). pose proof (pow2_pos k ltac:(lia)) as Hk.
    pose proof (mval_normal f Hf x HE) as Hb. rewrite (rnd_binade _ _ _ _ Hb). rewrite Z.max_l by lia.
    set (e := expf f x - bias f) in *. pose proof (man_range f Hf x) as Hm. pose proof (mw_pos f Hf) as Hmp.
    set (S := 2 ^ mw f + man f x).
    assert (HX : mval f x = (IZR S * b2 (e - mw f))%R).
    { unfold mval, sig, sexp. replace (expf f x =? 0) with false by (symmetry; apply Z.eqb_neq; lia). reflexivity. }
    assert (HZ : ZnearestE (mval f x * b2 (- (e - p))) = rne S k).
    { rewrite HX, Rmult_assoc, <- bpow_plus. replace (e - mw f + - (e - p)) with (- k) by lia. apply ZnearestE_rne'. }
    rewrite HZ.
    assert (Hc : rne (code f x) k * 2 ^ k = (expf f x - 1) * 2 ^ mw f + rne S k * 2 ^ k).
    { destruct (Z.eq_dec k 0) as [E|E].
      - rewrite E, !rne_nonpos by lia. rewrite !Z.mul_1_r. rewrite (code_split f Hf). unfold S. ring.
      - replace (code f x) with (S + 2 * ((expf f x - 1) * 2 ^ (p - 1)) * 2 ^ k).
        + rewrite rne_add_even by lia. replace (2 ^ mw f) with (2 * 2 ^ (p - 1) * 2 ^ k); [ring|].
          rewrite <- pow2_P by lia. rewrite <- pow2_split by lia. f_equal. lia.
        + rewrite (code_split f Hf). unfold S. replace (2 ^ mw f) with (2 * 2 ^ (p - 1) * 2 ^ k); [ring|].
          rewrite <- pow2_P by lia. rewrite <- pow2_split by lia. f_equal. lia. }
    assert (HS : 2 ^ mw f <= rne S k * 2 ^ k <= 2 ^ (mw f + 1)).
    { destruct (Z.eq_dec k 0) as [E|E].
      - rewrite E, rne_nonpos by lia. rewrite !Z.mul_1_r. rewrite pow2_S by lia. unfold S. lia.
      - assert (Hs1 : 2 ^ p <= rne S k).
        { apply rne_lower; [lia|]. rewrite <- pow2_split by lia. replace (p + k) with (mw f) by lia. unfold S. lia. }
        assert (Hs2 : rne S k <= 2 ^ (p + 1)).
        { apply rne_upper; [lia|]. rewrite <- pow2_split by lia. replace (p + 1 + k) with (mw f + 1) by lia. rewrite pow2_S by lia. unfold S. lia. }
        replace (2 ^ mw f) with (2 ^ p * 2 ^ k) by (rewrite <- pow2_split by lia; f_equal; lia).
        replace (2 ^ (mw f + 1)) with (2 ^ (p + 1) * 2 ^ k) by (rewrite <- pow2_split by lia; f_equal; lia).
        split; apply Z.mul_le_mono_nonneg_r; lia. }
    rewrite Hc, (cval_add f Hf) by (lia || (right; assumption)).
    rewrite !mult_IZR, !IZR_pow2 by lia. rewrite !Rmult_assoc, <- !bpow_plus. do 2 f_equal. unfold emin_ulp. lia.
  Qed.

  Lemma round_normal_value sem x p emin : adm sem f p -> is_bits f x -> is_finite f x = true ->
    1 <= expf f x -> emin <= expf f x - bias f ->
    exists y, round_normal sem f x p = Ok y /\ is_bits f y /\ sgn f y = sgn f x /\
      mval f y = rnd emin p (mval f x) /\ (is_finite f y = true <-> (rnd emin p (mval f x) < b2 (bias f + 1))%R).
  Proof.
    intros Hadm Hx Fx HE He. rewrite round_normal_adm by assumption.
    pose proof (rounded_code_bound x p Fx (proj1 Hadm)) as Hb. pose proof (rounded_code_value x p emin Fx HE (proj1 Hadm) He) as Hv.
    set (c := rne _ _ * _) in *. pose proof (inf_code_eq f Hf). pose proof (mw_pos f Hf). assert (Hc : 0 <= c < sbit f) by lia.
    assert (Hmv : mval f (pack f (sgn f x) c) = rnd emin p (mval f x)) by (rewrite mval_pack by assumption; exact Hv).
    eexists. split; [reflexivity|]. split; [apply pack_bits; auto using sgn_01|].
    split; [apply pack_sgn; auto using sgn_01|]. split; [exact Hmv|].
    rewrite <- Hmv. rewrite (mval_lt_pow f Hf) by (destruct (bias_bounds f Hf); lia).
    rewrite (finite_expf f Hf). destruct (bias_bounds f Hf). unfold expmax. lia.
  Qed.
End value.

(** ** The subnormal range of the target *)
Section sub.
  Context (emin p : Z) (Hp : 1 <= p).
  Let m := b2 (emin - p).

  Lemma half_m : b2 (emin - p - 1) = (m / 2)%R.
  Proof. unfold m. replace (emin - p) with (emin - p - 1 + 1) at 2 by lia. rewrite bpow_plus. cbn. lra. Qed.

  Lemma m_pos : (0 < m)%R. Proof. apply bpow_gt_0. Qed.

  Lemma rnd_sub X : (0 < X < b2 emin)%R -> rnd emin p X = (IZR (ZnearestE (X / m)) * m)%R.
  Proof.
    intros HX. destruct (mag radix2 X) as (e, He).
    specialize (He ltac:(lra)). rewrite Rabs_pos_eq in He by lra.
    assert (Hlt : e - 1 < emin) by (apply (lt_bpow radix2); lra).
    rewrite (rnd_binade emin p X (e - 1)) by (replace (e - 1 + 1) with e by lia; assumption).
    rewrite Z.max_r by lia. rewrite bpow_opp. reflexivity.
  Qed.

  Lemma rnd_sub_small X : (0 < X < m / 2)%R -> rnd emin p X = 0%R.
  Proof.
    intros HX. pose proof m_pos. rewrite rnd_sub.
    - rewrite (Znearest_imp _ _ 0); [lra|]. replace (X / m - 0)%R with (X / m)%R by lra.
      rewrite Rabs_pos_eq by (apply Rlt_le, Rdiv_lt_0_compat; lra).
      apply Rmult_lt_reg_r with m; [assumption|]. unfold Rdiv. rewrite Rmult_assoc, Rinv_l; lra.
    - split; [lra|]. apply Rlt_trans with m; [lra|]. apply bpow_lt. lia.
  Qed.
  Lemma rnd_sub_up X : (m / 2 < X < m)%R -> rnd emin p X = m.
  Proof.
    intros HX. pose proof m_pos. rewrite rnd_sub.
    - rewrite (Znearest_imp _ _ 1); [lra|]. apply Rabs_lt.
      assert (X = X / m * m)%R by (unfold Rdiv; rewrite Rmult_assoc, Rinv_l; lra).
      split; apply Rmult_lt_reg_r with m; try assumption; rewrite ?Rmult_minus_distr_r; lra.
    - split; [lra|]. apply Rlt_trans with m; [lra|]. apply bpow_lt. lia.
  Qed.
  (** the tie between 0 and the smallest subnormal goes to 0 in IEEE arithmetic *)
  Lemma rnd_sub_tie : rnd emin p (m / 2) = 0%R.
  Proof.
    pose proof m_pos. rewrite rnd_sub.
    - replace (m / 2 / m)%R with (IZR 1 * b2 (- (1)))%R by (cbn; field; lra). rewrite ZnearestE_rne'. cbn. lra.
    - split; [lra|]. apply Rlt_trans with m; [lra|]. apply bpow_lt. lia.
  Qed.
  Lemma rnd_sub_one X : 2 <= p -> (m <= X < 3 / 2 * m)%R -> rnd emin p X = m.
  Proof.
    intros Hp2 HX. pose proof m_pos. rewrite rnd_sub.
    - rewrite (Znearest_imp _ _ 1); [lra|]. apply Rabs_lt.
      assert (X = X / m * m)%R by (unfold Rdiv; rewrite Rmult_assoc, Rinv_l; lra).
      split; apply Rmult_lt_reg_r with m; try assumption; rewrite ?Rmult_minus_distr_r; lra.
    - split; [lra|]. apply Rlt_le_trans with (b2 (emin - p + 1)).
      + rewrite bpow_plus. fold m. change (b2 1) with 2%R. lra.
      + apply bpow_le. lia.
  Qed.
  Lemma rnd_sub_two X : (3 / 2 * m <= X < 2 * m)%R -> (X < b2 emin)%R -> rnd emin p X = (2 * m)%R.
  Proof.
    intros HX HXe. pose proof m_pos. assert (HXm : (X = X / m * m)%R) by (unfold Rdiv; rewrite Rmult_assoc, Rinv_l; lra).
    rewrite rnd_sub by lra. destruct (Req_dec X (3 / 2 * m)) as [E|E].
    - rewrite E. replace (3 / 2 * m / m)%R with (IZR 3 * b2 (- (1)))%R by (cbn; field; lra). rewrite ZnearestE_rne'. cbn. lra.
    - rewrite (Znearest_imp _ _ 2); [lra|]. apply Rabs_lt.
      split; apply Rmult_lt_reg_r with m; try assumption; rewrite ?Rmult_minus_distr_r; lra.
  Qed.
  Lemma rnd_sub_one' X : (m <= X < 3 / 2 * m)%R -> (X < b2 emin)%R -> rnd emin p X = m.
  Proof.
    intros HX HXe. pose proof m_pos. rewrite rnd_sub by lra.
    rewrite (Znearest_imp _ _ 1); [lra|]. apply Rabs_lt.
    assert (X = X / m * m)%R by (unfold Rdiv; rewrite Rmult_assoc, Rinv_l; lra).
    split; apply Rmult_lt_reg_r with m; try assumption; rewrite ?Rmult_minus_distr_r; lra.
  Qed.

  (** what the backend computes instead: the tie goes to the smallest subnormal *)
  Definition sub_round (X : R) : R := if Req_EM_T X (m / 2) then m else rnd emin p X.
End sub.

(** power of two with a given exponent field *)
Lemma denotes_pow2 f s E : fmt_ok f -> (s = 0 \/ s = 1) -> 1 <= E < expmax f -> denotes f (make f s E 0) s (b2 (E - bias f)).
Proof.
  intros Hf Hs HE. unfold expmax in HE. pose proof (mw_pos f Hf). split; [apply make_bits; assumption|]. split; [|split].
  - apply finite_expf; [assumption|]. rewrite make_expf by assumption. rewrite Z.mod_small by lia. unfold expmax. lia.
  - rewrite make_sgn by assumption. apply Z.mod_small. lia.
  - unfold mval, sig, sexp. rewrite make_expf, make_man by assumption. rewrite Z.mod_small by lia. rewrite (Z.mod_small 0) by lia.
    replace (E =? 0) with false by (symmetry; apply Z.eqb_neq; lia). rewrite Z.add_0_r.
    assert (2 <= mw f) by (destruct Hf; assumption).
    rewrite IZR_pow2 by lia. rewrite <- bpow_plus. f_equal. lia.
Qed.

(** exponent after adding up to one ulp of the leading bit *)
Lemma fadd_exponent f x h n : fmt_ok f -> is_bits f x -> is_finite f x = true -> is_finite f h = true ->
  1 <= expf f x -> expf f x + 1 < expmax f -> sgn f h = sgn f x -> 0 < n <= 2 ^ mw f -> sexp f h <= sexp f x ->
  sig f h = n * 2 ^ (sexp f x - sexp f h) ->
  sgn f (fadd f x h) = sgn f x /\
  expf f (fadd f x h) = expf f x + (if 2 ^ mw f <=? man f x + n then 1 else 0).
Proof.
  intros Hf Hx Fx Fh HE HE2 Hs Hn He Hsig.
  rewrite (fadd_same f Hf x h n) by (assumption || lia).
  pose proof (man_range f Hf x) as Hm. pose proof (mw_pos f Hf) as Hmp. assert (Hmw : 2 <= mw f) by (destruct Hf; assumption).
  pose proof (inf_code_eq f Hf) as Hinf. pose proof (sbit_eq f Hf) as Hsb. unfold expmax in HE2.
  assert (HmwS : 2 ^ (mw f + 1) = 2 * 2 ^ mw f) by (apply pow2_S; lia).
  assert (HmwS2 : 2 ^ (mw f + 2) = 4 * 2 ^ mw f) by (replace (mw f + 2) with (mw f + 1 + 1) by lia; rewrite pow2_S by lia; lia).
  assert (Hse : sexp f x - emin_ulp f = expf f x - 1).
  { unfold sexp, emin_ulp. replace (expf f x =? 0) with false by (symmetry; apply Z.eqb_neq; lia). lia. }
  destruct (Z.leb_spec (2 ^ mw f) (man f x + n)) as [Hc|Hc].
  - rewrite round_pack_carry by (try apply sexp_ge; (assumption || lia)).
    set (M := 2 ^ mw f + man f x + n) in *.
    replace (sexp f x + 1 - emin_ulp f) with (expf f x) by lia.
    assert (HM : 2 ^ mw f <= rne M 1 < 2 * 2 ^ mw f).
    { split; [apply rne_lower; [lia|]; change (2 ^ 1) with 2; lia|].
      assert (rne M 1 <= 2 * 2 ^ mw f - 1); [|lia].
      apply rne_upper; [lia|]. change (2 ^ 1) with 2. unfold M. lia. }
    rewrite Z.min_l by (rewrite Hinf, Hsb; clear - HM HE2 Hmp; nia).
    set (c := expf f x * 2 ^ mw f + rne M 1).
    assert (Hcr : 0 <= c < sbit f) by (unfold c; rewrite Hsb; clear - HM HE HE2 Hmp; nia).
    rewrite pack_sgn, pack_expf by (auto using sgn_01). split; [reflexivity|].
    unfold c. replace (expf f x * 2 ^ mw f + rne M 1) with ((expf f x + 1) * 2 ^ mw f + (rne M 1 - 2 ^ mw f)) by ring.
    apply div_mul_add; lia.
  - rewrite round_pack_exact by (try apply sexp_ge; try (right; lia); (assumption || lia || (rewrite Hse, Hinf, Hsb; clear - HE HE2 Hm Hn Hc Hmp; nia))).
    rewrite Hse. set (c := _ + _).
    assert (Hce : c = expf f x * 2 ^ mw f + (man f x + n)) by (unfold c; ring).
    assert (Hcr : 0 <= c < sbit f) by (rewrite Hce, Hsb; clear - HE HE2 Hm Hn Hc Hmp; nia).
    rewrite pack_sgn, pack_expf by (auto using sgn_01). split; [reflexivity|].
    rewrite Hce, div_mul_add by lia. lia.
Qed.
