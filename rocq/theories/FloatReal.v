(** Real value of a bit pattern; correctness of the packing, addition and conversion of [Bits] with respect to
    Flocq's rounding function. *)
From Coq Require Import ZArith Reals Bool Lia Lra.
From Flocq Require Import Core.
From Verif Require Import Common Bits BitsFacts.
Open Scope Z_scope.

(** value of a finite pattern *)
Definition fval (f : fmt) (b : Z) : R := (IZR (ssig f b) * bpow radix2 (sexp f b))%R.

(** round-to-nearest-even on the format with [p+1] significant bits and smallest normal exponent [emin] *)
Definition rnd (emin p : Z) (x : R) : R := round radix2 (FLT_exp (emin - p) (p + 1)) ZnearestE x.

Lemma IZR_pow2 k : 0 <= k -> IZR (2 ^ k) = bpow radix2 k.
Proof. intros. rewrite <- IZR_Zpower by lia. reflexivity. Qed.

Lemma fval_uval f b : fmt_ok f -> fval f b = (IZR (uval f b) * bpow radix2 (emin_ulp f))%R.
Proof.
  intros Hf. unfold fval. rewrite uval_ssig by assumption. rewrite mult_IZR, IZR_pow2 by (pose proof (sexp_ge f Hf b); lia).
  rewrite Rmult_assoc, <- bpow_plus. do 2 f_equal. lia.
Qed.

Lemma ZnearestE_rne m k : 0 <= k -> ZnearestE (IZR m * bpow radix2 (- k)) = rne m k.
Proof.
  intros Hk. destruct (Z.eq_dec k 0) as [->|Hk0].
  { cbn [bpow Z.opp]. rewrite Rmult_1_r. rewrite rne_nonpos by lia. change (- 0) with 0. rewrite Z.mul_1_r. apply (Znearest_imp). 
    rewrite Rminus_eq_0, Rabs_R0. lra. }
  rewrite rne_pos by lia. pose proof (pow2_pos k Hk) as Hp.
  assert (Hx : (IZR m * bpow radix2 (- k) = IZR m / IZR (2 ^ k))%R).
  { rewrite bpow_opp, <- IZR_pow2 by lia. reflexivity. }
  rewrite Hx. assert (Hp' : (0 < IZR (2 ^ k))%R) by (apply IZR_lt; lia).
  assert (Hfl : Zfloor (IZR m / IZR (2 ^ k)) = m / 2 ^ k) by (apply Zfloor_div; lia).
  unfold Znearest. rewrite Hfl.
  pose proof (Z.div_mod m (2 ^ k) ltac:(lia)) as Hd. pose proof (Z.mod_pos_bound m (2 ^ k) Hp) as Hr.
  set (q := m / 2 ^ k) in *. set (r := m mod 2 ^ k) in *.
  assert (Hdiff : (IZR m / IZR (2 ^ k) - IZR q = IZR r / IZR (2 ^ k))%R).
  { rewrite Hd at 1. rewrite plus_IZR, mult_IZR. field. lra. }
  rewrite Hdiff.
  assert (Hceil : 0 < r -> Zceil (IZR m / IZR (2 ^ k)) = q + 1).
  { intros Hr0. rewrite Zceil_floor_neq; [rewrite Hfl; reflexivity|]. rewrite Hfl. intros E.
    rewrite <- E in Hdiff. assert (Hz : (IZR r / IZR (2 ^ k) = 0)%R) by lra.
    assert ((0 < IZR r / IZR (2 ^ k))%R); [|lra]. apply Rdiv_lt_0_compat; [apply IZR_lt; lia|assumption]. }
  assert (Hcmp : Rcompare (IZR r / IZR (2 ^ k)) (/ 2) = Z.compare (2 * r) (2 ^ k)).
  { rewrite <- Rcompare_IZR. rewrite mult_IZR.
    rewrite <- (Rcompare_mult_r (2 * IZR (2 ^ k)) (IZR r / IZR (2 ^ k))) by lra.
    f_equal; field; lra. }
  rewrite Hcmp. destruct (Z.compare_spec (2 * r) (2 ^ k)) as [E|E|E].
  - destruct (Z.ltb_spec (2 ^ k) (2 * r)); [lia|]. destruct (Z.eqb_spec (2 * r) (2 ^ k)); [|lia]. cbn [orb andb].
    rewrite <- Z.negb_even. destruct (negb (Z.even q)); [apply Hceil; lia|lia].
  - destruct (Z.ltb_spec (2 ^ k) (2 * r)); [lia|]. destruct (Z.eqb_spec (2 * r) (2 ^ k)); [lia|]. cbn. lia.
  - destruct (Z.ltb_spec (2 ^ k) (2 * r)); [|lia]. cbn. apply Hceil. lia.
Qed.

Lemma ZnearestE_rne' m k : ZnearestE (IZR m * bpow radix2 (- k)) = rne m k.
Proof.
  destruct (Z.leb_spec 0 k); [apply ZnearestE_rne; assumption|].
  rewrite rne_nonpos by lia. rewrite <- IZR_pow2, <- mult_IZR by lia. apply (Znearest_imp).
  rewrite Rminus_eq_0, Rabs_R0. lra.
Qed.

(** magnitude of an integer multiple of a power of two *)
Lemma mag_int m e : 0 < m -> mag radix2 (IZR m * bpow radix2 e) = Z.log2 m + 1 + e :> Z.
Proof.
  intros Hm. rewrite mag_mult_bpow by (apply IZR_neq; lia). f_equal.
  apply mag_unique_pos. destruct (Z.log2_spec m Hm) as [H1 H2]. pose proof (Z.log2_nonneg m).
  replace (Z.log2 m + 1 - 1) with (Z.log2 m) by lia. unfold Z.succ in H2.
  rewrite <- !IZR_pow2 by lia. split; [apply IZR_le; assumption|apply IZR_lt; assumption].
Qed.

Lemma round_int fexp m e : 0 < m ->
  round radix2 fexp ZnearestE (IZR m * bpow radix2 e) =
    (IZR (rne m (fexp (Z.log2 m + 1 + e)%Z - e)) * bpow radix2 (fexp (Z.log2 m + 1 + e)%Z))%R.
Proof.
  intros Hm. unfold round, F2R, scaled_mantissa, cexp. cbn [Fnum Fexp]. rewrite mag_int by assumption.
  rewrite Rmult_assoc, <- bpow_plus. set (t := fexp _). f_equal. f_equal.
  replace (e + - t) with (- (t - e)) by lia. apply ZnearestE_rne'.
Qed.

Definition signR (s : Z) (x : R) : R := if s =? 1 then (- x)%R else x.

Lemma fval_pack f s c : fmt_ok f -> (s = 0 \/ s = 1) -> 0 <= c < sbit f ->
  fval f (pack f s c) = signR s (IZR (cval f c) * bpow radix2 (emin_ulp f)).
Proof.
  intros Hf Hs Hc. rewrite fval_uval by assumption. rewrite uval_pack by assumption. unfold signR.
  destruct (s =? 1); [rewrite opp_IZR; ring|reflexivity].
Qed.

Lemma rnd_opp emin p x : rnd emin p (- x) = (- rnd emin p x)%R.
Proof. unfold rnd. apply round_NE_opp. Qed.
Lemma rnd_signR emin p s x : rnd emin p (signR s x) = signR s (rnd emin p x).
Proof. unfold signR. destruct (s =? 1); [apply rnd_opp|reflexivity]. Qed.

Lemma fval_abs f b : fmt_ok f -> fval f b = signR (sgn f b) (IZR (sig f b) * bpow radix2 (sexp f b)).
Proof. intros Hf. unfold fval, ssig, signR. destruct (_ =? _); [rewrite opp_IZR; ring|reflexivity]. Qed.

(** the format's own smallest normal exponent *)
Definition femin (f : fmt) : Z := 1 - bias f.

(** [round_pack] is correct rounding, with overflow to infinity *)
Lemma round_pack_correct f s m e : fmt_ok f -> (s = 0 \/ s = 1) -> 0 < m ->
  let r := rnd (femin f) (mw f) (IZR m * bpow radix2 e) in
  (exists c, round_pack f s m e = pack f s c /\ 0 <= c < inf_code f /\
     (IZR (cval f c) * bpow radix2 (emin_ulp f) = r)%R /\ fval f (round_pack f s m e) = signR s r) \/
  (round_pack f s m e = inf f s /\ (bpow radix2 (bias f + 1) <= r)%R).
Proof.
  intros Hf Hs Hm r. pose proof (mw_pos f Hf) as Hp. assert (Hmw : 0 <= mw f) by (destruct Hf; lia).
  unfold round_pack. destruct (Z.eqb_spec m 0); [lia|]. cbn zeta.
  set (t := Z.max (Z.log2 m + 1 + e - (mw f + 1)) (emin_ulp f)).
  assert (Hr : r = (IZR (rne m (t - e)) * bpow radix2 t)%R).
  { unfold r, rnd. rewrite round_int by assumption.
    replace (FLT_exp (femin f - mw f) (mw f + 1) (Z.log2 m + 1 + e)) with t; [reflexivity|].
    unfold FLT_exp, t, femin, emin_ulp. reflexivity. }
  set (M := rne m (t - e)) in *.
  assert (HM : 0 <= M <= 2 ^ (mw f + 1) /\ (t = emin_ulp f \/ 2 ^ mw f <= M)).
  { destruct (Z.log2_spec m Hm) as [H1 H2]. unfold Z.succ in H2. pose proof (Z.log2_nonneg m) as Hl.
    destruct (Z.leb_spec (t - e) 0) as [Hk|Hk].
    - unfold M. rewrite rne_nonpos by lia. pose proof (pow2_pos (- (t - e)) ltac:(lia)).
      assert (Hb : m * 2 ^ (- (t - e)) < 2 ^ (mw f + 1)).
      { replace (mw f + 1) with (mw f + 1 + (t - e) + - (t - e)) by lia.
        rewrite pow2_split by lia. apply Z.mul_lt_mono_pos_r; [assumption|].
        eapply Z.lt_le_trans; [exact H2|]. apply pow2_le. lia. }
      split; [nia|]. destruct (Z.eq_dec t (emin_ulp f)) as [E|E]; [left; exact E|right].
      assert (Et : t = Z.log2 m + 1 + e - (mw f + 1)) by lia.
      replace (mw f) with (Z.log2 m + - (t - e)) at 1 by lia. rewrite pow2_split by lia.
      apply Z.mul_le_mono_nonneg_r; lia.
    - split.
      + split; [apply rne_lower; lia|]. apply rne_upper; [assumption|].
        rewrite <- pow2_split by lia. apply Z.lt_le_incl. eapply Z.lt_le_trans; [exact H2|]. apply pow2_le. lia.
      + destruct (Z.eq_dec t (emin_ulp f)) as [E|E]; [left; exact E|right].
        apply rne_lower; [assumption|]. rewrite <- pow2_split by lia.
        replace (mw f + (t - e)) with (Z.log2 m) by lia. assumption. }
  destruct HM as [HM Hc]. assert (Ht : emin_ulp f <= t) by lia.
  set (c := (t - emin_ulp f) * 2 ^ mw f + M).
  assert (Hcv : cval f c = M * 2 ^ (t - emin_ulp f)).
  { apply cval_add; [assumption|lia|]. destruct Hc as [E|E]; [left|right]; lia. }
  assert (Hrv : r = (IZR (cval f c) * bpow radix2 (emin_ulp f))%R).
  { rewrite Hcv, Hr, mult_IZR, IZR_pow2 by lia. rewrite Rmult_assoc, <- bpow_plus. do 2 f_equal. lia. }
  assert (Hc0 : 0 <= c) by (unfold c; nia).
  pose proof (inf_code_eq f Hf) as Hinf. pose proof (sbit_pos f Hf) as Hsb.
  destruct (Z.ltb_spec c (inf_code f)) as [Hlt|Hge].
  - left. exists c. rewrite Z.min_l by lia. split; [reflexivity|]. split; [lia|]. split; [symmetry; assumption|].
    change (zero f s + c) with (pack f s c). rewrite fval_pack by (auto; lia). rewrite Hrv. reflexivity.
  - right. rewrite Z.min_r by lia. split; [reflexivity|]. rewrite Hrv.
    assert (Hv : cval f (inf_code f) = 2 ^ mw f * 2 ^ (expmax f - 1)).
    { pose proof (ew_4 f Hf). replace (inf_code f) with ((expmax f - 1) * 2 ^ mw f + 2 ^ mw f) by (unfold inf_code; lia).
      rewrite cval_add; [reflexivity|assumption|unfold expmax; lia|]. right. rewrite pow2_S by lia. lia. }
    apply Rle_trans with (IZR (cval f (inf_code f)) * bpow radix2 (emin_ulp f))%R.
    + rewrite Hv. destruct (bias_bounds f Hf). unfold expmax.
      rewrite mult_IZR, !IZR_pow2 by lia. rewrite <- !bpow_plus. apply bpow_le. unfold emin_ulp. lia.
    + apply Rmult_le_compat_r; [apply bpow_ge_0|]. apply IZR_le. apply cval_le; [assumption|].
      pose proof (inf_code_pos f Hf). lia.
Qed.

(** conversion of a finite pattern *)
Lemma fconv_finite f g b : is_finite f b = true ->
  fconv f g b = round_pack g (sgn f b) (sig f b) (sexp f b).
Proof.
  intros H. unfold fconv. destruct (finite_not_nan f b H) as [-> ->]. reflexivity.
Qed.

(** addition of finite patterns *)
Lemma fadd_finite f a b : is_finite f a = true -> is_finite f b = true ->
  fadd f a b =
    let e := Z.min (sexp f a) (sexp f b) in
    let s := ssig f a * 2 ^ (sexp f a - e) + ssig f b * 2 ^ (sexp f b - e) in
    if s =? 0 then zero f (if (sgn f a =? 1) && (sgn f b =? 1) then 1 else 0)
    else round_pack f (if s <? 0 then 1 else 0) (Z.abs s) e.
Proof.
  intros Ha Hb. unfold fadd. destruct (finite_not_nan f a Ha) as [-> ->], (finite_not_nan f b Hb) as [-> ->]. reflexivity.
Qed.

(** correctness of the addition: the exact sum, rounded once *)
Lemma fadd_correct f a b : fmt_ok f -> is_finite f a = true -> is_finite f b = true ->
  let r := rnd (femin f) (mw f) (fval f a + fval f b) in
  (Rabs r < bpow radix2 (bias f + 1))%R -> fval f (fadd f a b) = r.
Proof.
  intros Hf Ha Hb r Hov. rewrite fadd_finite by assumption. cbn zeta.
  set (e := Z.min (sexp f a) (sexp f b)).
  set (s := ssig f a * 2 ^ (sexp f a - e) + ssig f b * 2 ^ (sexp f b - e)).
  assert (Hsum : (fval f a + fval f b = IZR s * bpow radix2 e)%R).
  { unfold s. rewrite plus_IZR, !mult_IZR, !IZR_pow2 by lia. unfold fval.
    rewrite Rmult_plus_distr_r, !Rmult_assoc, <- !bpow_plus. do 3 f_equal; lia. }
  destruct (Z.eqb_spec s 0) as [E|E].
  - replace r with 0%R.
    + destruct ((sgn f a =? 1) && (sgn f b =? 1)).
      * change (zero f 1) with (1 * sbit f). replace (1 * sbit f) with (pack f 1 0) by (unfold pack; lia).
        rewrite fval_pack by (auto; pose proof (sbit_pos f Hf); lia). rewrite cval_0 by assumption. cbn. lra.
      * change (zero f 0) with (pack f 0 0). rewrite fval_pack by (auto; pose proof (sbit_pos f Hf); lia).
        rewrite cval_0 by assumption. cbn. lra.
    + unfold r, rnd. rewrite Hsum, E, Rmult_0_l. symmetry. apply round_0. apply valid_rnd_N.
  - set (sg := if s <? 0 then 1 else 0).
    assert (Hsg : sg = 0 \/ sg = 1) by (unfold sg; destruct (s <? 0); auto).
    assert (Hrs : r = signR sg (rnd (femin f) (mw f) (IZR (Z.abs s) * bpow radix2 e))).
    { unfold r. rewrite Hsum, <- rnd_signR. f_equal. unfold signR, sg.
      destruct (Z.ltb_spec s 0); cbn; [rewrite Z.abs_neq, opp_IZR by lia; ring|rewrite Z.abs_eq by lia; reflexivity]. }
    destruct (round_pack_correct f sg (Z.abs s) e Hf Hsg ltac:(lia)) as [(c & _ & _ & _ & H)|[_ H]].
    + rewrite H, Hrs. reflexivity.
    + exfalso. apply (Rlt_not_le _ _ Hov). eapply Rle_trans; [exact H|]. rewrite Hrs. unfold signR.
      destruct (sg =? 1); rewrite ?Rabs_Ropp; apply Rle_abs.
Qed.

Lemma fconv_correct f g b : fmt_ok f -> fmt_ok g -> is_finite f b = true ->
  let r := rnd (femin g) (mw g) (fval f b) in
  (Rabs r < bpow radix2 (bias g + 1))%R -> fval g (fconv f g b) = r.
Proof.
  intros Hf Hg Hb r Hov. rewrite fconv_finite by assumption.
  assert (Hrs : r = signR (sgn f b) (rnd (femin g) (mw g) (IZR (sig f b) * bpow radix2 (sexp f b)))).
  { unfold r. rewrite (fval_abs f b Hf), rnd_signR. reflexivity. }
  pose proof (sig_nonneg f Hf b) as H0.
  destruct (Z.eq_dec (sig f b) 0) as [E|E].
  - rewrite E in *. rewrite round_pack_zero. rewrite fval_pack by (auto using sgn_01; pose proof (sbit_pos g Hg); lia).
    rewrite cval_0 by assumption. rewrite Hrs. f_equal. rewrite !Rmult_0_l. symmetry. apply round_0. apply valid_rnd_N.
  - destruct (round_pack_correct g (sgn f b) (sig f b) (sexp f b) Hg (sgn_01 f b) ltac:(lia)) as [(c & _ & _ & _ & H)|[_ H]].
    + rewrite H, Hrs. reflexivity.
    + exfalso. apply (Rlt_not_le _ _ Hov). eapply Rle_trans; [exact H|]. rewrite Hrs. unfold signR.
      destruct (sgn f b =? 1); rewrite ?Rabs_Ropp; apply Rle_abs.
Qed.
