(** Computing in a wider format and converting back: innocuous for + - * / (Figueroa; Flocq's Double_rounding). *)
From Coq Require Import ZArith Reals Bool Lia Lra.
From Flocq Require Import Core Double_rounding.
From Verif Require Import Common Bits BitsFacts FloatReal FloatValue FloatOps.
Open Scope Z_scope.

(** g has room for the exact or doubly rounded results of f *)
Definition roomy (f g : fmt) : Prop :=
  2 * (mw f + 1) + 1 <= mw g + 1 /\ emin_ulp g <= 2 * emin_ulp f - 2 * (mw f + 1) - 4 /\
  2 * (bias f + 1) - 2 * emin_ulp f + 2 <= bias g.

Lemma roomy_32_64 : roomy binary32 binary64.
Proof. unfold roomy. vm_compute. repeat split; congruence. Qed.
Lemma roomy_64_128 : roomy binary64 binary128.
Proof. unfold roomy. vm_compute. repeat split; congruence. Qed.

Section roomy.
  Context (f g : fmt) (Hf : fmt_ok f) (Hg : fmt_ok g) (Hr : roomy f g).

  Lemma emin_neg : emin_ulp f < 0.
  Proof. unfold emin_ulp. destruct (bias_bounds f Hf), Hf. lia. Qed.

  Lemma roomy_wider : wider f g.
  Proof. pose proof emin_neg. destruct Hr as (A & B & C), Hf. destruct (bias_bounds f Hf). unfold wider. lia. Qed.

  Lemma dec_widen a : is_bits f a -> dec g (fconv f g a) = dec f a.
  Proof.
    intros Ha. unfold dec at 2. unfold fconv. destruct (is_nan f a) eqn:N.
    { unfold dec. destruct (qnan_bits g Hg) as [_ ->]. reflexivity. }
    destruct (is_inf f a) eqn:I; [apply dec_inf; [assumption|apply sgn_01]|].
    pose proof (not_special_finite f a N I) as F. pose proof (fconv_widen f g a Hf Hg roomy_wider Ha F) as D.
    rewrite fconv_finite in D by assumption. pose proof (denotes_fval _ _ _ _ Hg D) as V. destruct D as (_ & D2 & D3 & _).
    rewrite dec_finite by assumption. rewrite D3, V, <- (fval_mval f Hf). reflexivity.
  Qed.
  Lemma widen_bits a : is_bits f a -> is_bits g (fconv f g a).
  Proof. intros _. apply (fconv_encodes f g a Hf Hg). Qed.

  Lemma flt_format a : FLT_format radix2 (emin_ulp f) (mw f + 1) (fval f a).
  Proof. apply FLT_format_generic; [unfold Prec_gt_0; destruct Hf; lia|]. apply generic_fval. assumption. Qed.

  Let Pf : Prec_gt_0 (mw f + 1). Proof. unfold Prec_gt_0. destruct Hf; lia. Qed.
  Let Pg : Prec_gt_0 (mw g + 1). Proof. unfold Prec_gt_0. destruct Hg; lia. Qed.

  Lemma rnd2_plus a b : rnd (femin f) (mw f) (rnd (femin g) (mw g) (fval f a + fval f b)) = rnd (femin f) (mw f) (fval f a + fval f b).
  Proof.
    apply (@round_round_plus_FLT radix2 (emin_ulp f) (mw f + 1) (emin_ulp g) (mw g + 1) Pf Pg);
      [pose proof emin_neg; destruct Hr as (A & B & C), Hf; lia|apply Hr|apply flt_format|apply flt_format].
  Qed.
  Lemma rnd2_mult a b : rnd (femin f) (mw f) (rnd (femin g) (mw g) (fval f a * fval f b)) = rnd (femin f) (mw f) (fval f a * fval f b).
  Proof.
    apply (round_round_mult_FLT radix2 ZnearestE (emin_ulp f) (mw f + 1) (emin_ulp g) (mw g + 1));
      [destruct Hr as (A & B & C), Hf; lia|destruct Hr; lia|apply flt_format|apply flt_format].
  Qed.
  Lemma rnd2_div a b : fval f b <> 0%R ->
    rnd (femin f) (mw f) (rnd (femin g) (mw g) (fval f a / fval f b)) = rnd (femin f) (mw f) (fval f a / fval f b).
  Proof.
    intros Hb. apply (@round_round_div_FLT radix2 (emin_ulp f) (mw f + 1) (emin_ulp g) (mw g + 1) Pf Pg);
      [exists 1; reflexivity|pose proof emin_neg; destruct Hr as (A & B & C), Hf; lia|destruct Hr; lia|assumption|apply flt_format|apply flt_format].
  Qed.

  (** two rounding steps of a real whose double rounding is innocuous and which does not overflow g *)
  Lemma encodes_conv s X y : s = 0 \/ s = 1 -> (Rabs X < b2 (bias g))%R ->
    rnd (femin f) (mw f) (rnd (femin g) (mw g) X) = rnd (femin f) (mw f) X ->
    encodes g (DFin s X) y -> encodes f (DFin s X) (fconv g f y).
  Proof.
    intros Hs HX H2 [By Hy]. cbn zeta in Hy. destruct Hy as [Hy _].
    assert (Vg : Valid_exp (FLT_exp (femin g - mw g) (mw g + 1))) by (apply FLT_exp_valid; exact Pg).
    destruct (bias_bounds g Hg) as [Bg _].
    assert (Hle : (Rabs (rnd (femin g) (mw g) X) <= b2 (bias g))%R).
    { apply (abs_round_le_generic radix2 (FLT_exp (femin g - mw g) (mw g + 1)) ZnearestE);
        [|lra]. apply generic_format_bpow. unfold FLT_exp, femin. destruct Hg; lia. }
    destruct Hy as (F & V & S).
    { eapply Rle_lt_trans; [exact Hle|]. apply bpow_lt. lia. }
    pose proof (fconv_encodes g f y Hg Hf) as E. rewrite (dec_finite g y F), V, S in E.
    destruct E as [B E]. split; [exact B|]. cbn zeta in *. rewrite H2 in E.
    replace (rsign (rsign s X) (rnd (femin g) (mw g) X)) with (rsign s X) in E; [exact E|].
    unfold rsign at 2. destruct (Req_bool_spec (rnd (femin g) (mw g) X) 0) as [E0|E0]; [reflexivity|].
    unfold rsign. assert (HX0 : X <> 0%R) by (intros ->; apply E0; apply round_0; apply valid_rnd_N).
    rewrite (Req_bool_false X 0) by assumption.
    destruct (Rlt_bool_spec X 0) as [L|L].
    - rewrite Rlt_bool_true; [reflexivity|]. assert (rnd (femin g) (mw g) X <= 0)%R; [|lra].
      rewrite <- (round_0 radix2 (FLT_exp (femin g - mw g) (mw g + 1)) ZnearestE). apply round_le; [exact Vg|apply valid_rnd_N|lra].
    - rewrite Rlt_bool_false; [reflexivity|].
      rewrite <- (round_0 radix2 (FLT_exp (femin g - mw g) (mw g + 1)) ZnearestE). apply round_le; [exact Vg|apply valid_rnd_N|lra].
  Qed.
  (** infinities and NaNs pass through *)
  Lemma encodes_conv_special v y : (forall s X, v <> DFin s X) -> (forall s, v = DInf s -> s = 0 \/ s = 1) ->
    encodes g v y -> encodes f v (fconv g f y).
  Proof.
    intros H Hs [B E]. pose proof (fconv_encodes g f y Hg Hf) as K. destruct v as [|s|s X]; [| |congruence].
    - unfold dec in K. rewrite E in K. exact K.
    - rewrite E in *. rewrite dec_inf in K by auto. exact K.
  Qed.

  Lemma finite_small a : is_finite f a = true -> (Rabs (fval f a) < b2 (bias f + 1))%R.
  Proof. intros F. rewrite (mval_abs f Hf). apply mval_finite; assumption. Qed.
  Lemma nonzero_large a : fval f a <> 0%R -> (b2 (emin_ulp f) <= Rabs (fval f a))%R.
  Proof.
    intros H. rewrite (mval_abs f Hf). unfold mval. pose proof (sig_nonneg f Hf a) as S0. pose proof (sexp_ge f Hf a) as E.
    assert (1 <= sig f a) by (pose proof (proj1 (sig_zero f a Hf)); destruct (Z.eq_dec (sig f a) 0); [tauto|lia]).
    rewrite <- (Rmult_1_l (b2 (emin_ulp f))). apply Rmult_le_compat; [lra|apply bpow_ge_0|apply IZR_le; lia|apply bpow_le; lia].
  Qed.

  Lemma bound_mul a b : is_finite f a = true -> is_finite f b = true -> (Rabs (fval f a * fval f b) < b2 (2 * (bias f + 1)))%R.
  Proof.
    intros Fa Fb. rewrite Rabs_mult. replace (2 * (bias f + 1)) with (bias f + 1 + (bias f + 1)) by lia. rewrite bpow_plus.
    apply Rmult_le_0_lt_compat; [apply Rabs_pos|apply Rabs_pos|apply finite_small; assumption|apply finite_small; assumption].
  Qed.
  Lemma bound_add a b : is_finite f a = true -> is_finite f b = true -> (Rabs (fval f a + fval f b) < b2 (bias f + 2))%R.
  Proof.
    intros Fa Fb. eapply Rle_lt_trans; [apply Rabs_triang|]. pose proof (finite_small a Fa). pose proof (finite_small b Fb).
    replace (bias f + 2) with (bias f + 1 + 1) by lia. rewrite bpow_plus. change (b2 1) with 2%R. lra.
  Qed.
  Lemma bound_div a b : is_finite f a = true -> fval f b <> 0%R -> (Rabs (fval f a / fval f b) < b2 (bias f + 1 - emin_ulp f))%R.
  Proof.
    intros Fa Hb. unfold Rdiv. rewrite Rabs_mult, Rabs_inv. unfold Zminus. rewrite bpow_plus. rewrite bpow_opp.
    pose proof (finite_small a Fa) as A. pose proof (nonzero_large b Hb) as B. pose proof (bpow_gt_0 radix2 (emin_ulp f)) as P.
    apply Rle_lt_trans with (Rabs (fval f a) * / b2 (emin_ulp f))%R.
    - apply Rmult_le_compat_l; [apply Rabs_pos|]. apply Rinv_le; assumption.
    - apply Rmult_lt_compat_r; [apply Rinv_0_lt_compat; assumption|exact A].
  Qed.

  (** * The four operations *)
  Lemma conv_add a b y : is_bits f a -> is_bits f b ->
    encodes g (dadd (dec f a) (dec f b)) y -> encodes f (dadd (dec f a) (dec f b)) (fconv g f y).
  Proof.
    intros Ha Hb. pose proof emin_neg as En. destruct Hr as (R1 & R2 & R3). destruct (bias_bounds f Hf) as [Bf _].
    unfold dec. destruct (is_nan f a) eqn:Na; cbn [dadd]. { apply encodes_conv_special; congruence. }
    destruct (is_nan f b) eqn:Nb. { destruct (is_inf f a); cbn [dadd]; apply encodes_conv_special; congruence. }
    assert (SI : forall c s, DInf (sgn f c) = DInf s -> s = 0 \/ s = 1) by (intros c s [= <-]; apply sgn_01).
    destruct (is_inf f a) eqn:Ia, (is_inf f b) eqn:Ib; cbn [dadd].
    - destruct (sgn f a =? sgn f b); apply encodes_conv_special; (congruence || apply SI).
    - apply encodes_conv_special; [congruence|apply SI].
    - apply encodes_conv_special; [congruence|apply SI].
    - apply encodes_conv; [destruct ((sgn f a =? 1) && (sgn f b =? 1)); auto| |apply rnd2_plus].
      eapply Rlt_le_trans; [apply bound_add; apply not_special_finite; assumption|]. apply bpow_le. lia.
  Qed.
  Lemma conv_mul a b y : is_bits f a -> is_bits f b ->
    encodes g (dmul (dec f a) (dec f b)) y -> encodes f (dmul (dec f a) (dec f b)) (fconv g f y).
  Proof.
    intros Ha Hb. pose proof emin_neg as En. destruct Hr as (R1 & R2 & R3). destruct (bias_bounds f Hf) as [Bf _].
    unfold dec. destruct (is_nan f a) eqn:Na; cbn [dmul]. { apply encodes_conv_special; congruence. }
    destruct (is_nan f b) eqn:Nb. { destruct (is_inf f a); cbn [dmul]; apply encodes_conv_special; congruence. }
    assert (SI : forall c d s, DInf (sxor c d) = DInf s -> s = 0 \/ s = 1) by (intros c d s [= <-]; apply sxor_01).
    destruct (is_inf f a) eqn:Ia, (is_inf f b) eqn:Ib; cbn [dmul].
    - apply encodes_conv_special; (congruence || apply SI).
    - destruct (Req_bool (fval f b) 0); apply encodes_conv_special; (congruence || apply SI).
    - destruct (Req_bool (fval f a) 0); apply encodes_conv_special; (congruence || apply SI).
    - apply encodes_conv; [apply sxor_01| |apply rnd2_mult].
      eapply Rlt_le_trans; [apply bound_mul; apply not_special_finite; assumption|]. apply bpow_le. lia.
  Qed.
  Lemma conv_div a b y : is_bits f a -> is_bits f b ->
    encodes g (ddiv (dec f a) (dec f b)) y -> encodes f (ddiv (dec f a) (dec f b)) (fconv g f y).
  Proof.
    intros Ha Hb. pose proof emin_neg as En. destruct Hr as (R1 & R2 & R3). destruct (bias_bounds f Hf) as [Bf _].
    unfold dec. destruct (is_nan f a) eqn:Na; cbn [ddiv]. { apply encodes_conv_special; congruence. }
    destruct (is_nan f b) eqn:Nb. { destruct (is_inf f a); cbn [ddiv]; apply encodes_conv_special; congruence. }
    assert (SI : forall c d s, DInf (sxor c d) = DInf s -> s = 0 \/ s = 1) by (intros c d s [= <-]; apply sxor_01).
    destruct (is_inf f a) eqn:Ia, (is_inf f b) eqn:Ib; cbn [ddiv].
    - apply encodes_conv_special; (congruence || apply SI).
    - apply encodes_conv_special; (congruence || apply SI).
    - apply encodes_conv; [apply sxor_01|rewrite Rabs_R0; apply bpow_gt_0|].
      assert (Z0 : forall e p, rnd e p 0 = 0%R) by (intros; apply round_0; apply valid_rnd_N). rewrite !Z0. reflexivity.
    - destruct (Req_bool_spec (fval f b) 0) as [E|E].
      { destruct (Req_bool (fval f a) 0); apply encodes_conv_special; (congruence || apply SI). }
      apply encodes_conv; [apply sxor_01| |apply rnd2_div; assumption].
      eapply Rlt_le_trans; [apply bound_div; [apply not_special_finite; assumption|assumption]|]. apply bpow_le. lia.
  Qed.
  Lemma conv_sub a b y : is_bits f a -> is_bits f b ->
    encodes g (dsub (dec f a) (dec f b)) y -> encodes f (dsub (dec f a) (dec f b)) (fconv g f y).
  Proof.
    intros Ha Hb. destruct (fneg_dec f b Hf) as [Nb1 Nb2]. unfold dsub. rewrite <- Nb2. apply conv_add; assumption.
  Qed.
End roomy.
