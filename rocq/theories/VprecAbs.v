(** Absolute-error mode of the VPREC backend; powers of two (pow2i). *)
From Coq Require Import ZArith Reals Bool Lia Lra.
From Flocq Require Import Core.
From Verif Require Import Common Bits BitsFacts FloatReal FloatValue StdlibModel VprecModel VprecRound VprecValue VprecDenormal VprecMain.
Open Scope Z_scope.
Open Scope outcome_scope.

(** C49: pow2i is exact *)
Lemma pow2i_spec f i : fmt_ok f -> mw f <= bias f -> - 2 ^ 31 <= i -> i + bias f < 2 ^ 31 ->
  (i < emin_ulp f -> pow2i f i = Ok (zero f 0)) /\
  (emin_ulp f <= i <= bias f -> exists y, pow2i f i = Ok y /\ denotes f y 0 (b2 i)) /\
  (bias f < i -> pow2i f i = Ok (inf f 0)).
Proof.
  intros Hf Hmb Hi1 Hi2. destruct (bias_bounds f Hf) as [Hb1 Hb2]. pose proof (mw_pos f Hf) as Hmp.
  assert (Hmw : 2 <= mw f) by (destruct Hf; assumption).
  unfold pow2i, int_op, in_int. replace (- 2 ^ 31 <=? i + bias f) with true by (symmetry; apply Z.leb_le; lia).
  replace (i + bias f <? 2 ^ 31) with true by (symmetry; apply Z.ltb_lt; lia). cbn [andb bind].
  unfold emin_ulp, expmax. split; [|split]; intros Hi.
  - replace (i + bias f <=? - mw f) with true by (symmetry; apply Z.leb_le; lia). reflexivity.
  - replace (i + bias f <=? - mw f) with false by (symmetry; apply Z.leb_gt; lia).
    replace (2 ^ ew f - 1 <=? i + bias f) with false by (symmetry; apply Z.leb_gt; lia).
    destruct (Z.leb_spec (i + bias f) 0) as [H|H].
    + exists (2 ^ (mw f - 1 + (i + bias f))). split; [reflexivity|].
      set (c := 2 ^ (mw f - 1 + (i + bias f))). assert (Hc : 0 < c < 2 ^ mw f) by (split; [apply pow2_pos; lia|apply pow2_lt; lia]).
      assert (Hi' : inf_code f = (2 ^ ew f - 1) * 2 ^ mw f) by reflexivity. pose proof (ew_4 f Hf).
      change c with (pack f 0 c) at 1.
      replace (b2 i) with (IZR (cval f c) * b2 (emin_ulp f))%R; [apply denotes_pack; [assumption|auto|nia]|].
      unfold cval. rewrite Z.div_small, Z.mod_small by lia. cbn [Z.eqb]. unfold c. rewrite IZR_pow2 by lia.
      rewrite <- bpow_plus. f_equal. unfold emin_ulp. lia.
    + exists ((i + bias f) * 2 ^ mw f). split; [reflexivity|].
      replace ((i + bias f) * 2 ^ mw f) with (make f 0 (i + bias f) 0).
      * replace i with (i + bias f - bias f) at 2 by lia. apply denotes_pow2; [assumption|auto|unfold expmax; lia].
      * unfold make. rewrite (Z.mod_small (i + bias f)) by lia. rewrite (Z.mod_small 0 (2 ^ mw f)) by lia. change (0 mod 2) with 0. lia.
  - replace (i + bias f <=? - mw f) with false by (symmetry; apply Z.leb_gt; lia).
    replace (2 ^ ew f - 1 <=? i + bias f) with true by (symmetry; apply Z.leb_le; lia). reflexivity.
Qed.

Lemma nearest_error X E : (Rabs (IZR (ZnearestE (X * b2 (- E))) * b2 E - X) <= b2 (E - 1))%R.
Proof.
  pose proof (Znearest_half (fun x => negb (Z.even x)) (X * b2 (- E))) as H.
  replace (IZR (ZnearestE (X * b2 (- E))) * b2 E - X)%R with (- ((X * b2 (- E) - IZR (ZnearestE (X * b2 (- E)))) * b2 E))%R.
  2:{ rewrite Rmult_minus_distr_r. rewrite Rmult_assoc, <- bpow_plus. replace (- E + E) with 0 by lia. cbn [bpow]. ring. }
  rewrite Rabs_Ropp, Rabs_mult, (Rabs_pos_eq (b2 E)) by apply bpow_ge_0.
  replace (b2 (E - 1)) with (/ 2 * b2 E)%R.
  - apply Rmult_le_compat_r; [apply bpow_ge_0|exact H].
  - replace E with (E - 1 + 1) at 1 by lia. rewrite bpow_plus. change (b2 1) with 2%R. lra.
Qed.

Section absmode.
  Context (sem : shift_sem) (f : fmt) (Hcf : cfmt f) (r p : Z) (Hr : 2 <= r <= ew f) (Hadm : adm sem f p).
  Context (ctx : vctx) (Habs : abs_err ctx = true) (inp : bool).
  Let Hf : fmt_ok f := cfmt_ok f Hcf.
  Let E := abs_exp ctx.
  Context (HE : - 2 ^ 30 <= E <= 2 ^ 30).

  Lemma mw_bias : mw f <= bias f.
  Proof. destruct Hcf as [-> | ->]; vm_compute; discriminate. Qed.

  (** rounding with precision 0: to the nearer of 2^e and 2^(e+1), the tie going down *)
  Lemma round_normal_zero x : is_bits f x -> is_finite f x = true -> 1 <= expf f x ->
    exists y, round_normal sem f x 0 = Ok y /\ is_bits f y /\
      (is_finite f y = true -> sgn f y = sgn f x /\
         exists n, (n = 1 \/ n = 2) /\ mval f y = (IZR n * b2 (expf f x - bias f))%R /\
           (Rabs (mval f y - mval f x) <= b2 (expf f x - bias f - 1))%R).
  Proof.
    intros Hx Fx HEx. assert (Hmw : 2 <= mw f) by (destruct Hf; assumption). pose proof (mw_pos f Hf) as Hmp.
    rewrite (round_normal_bits f Hf) by (assumption || lia). rewrite Z.sub_0_r.
    pose proof (man_range f Hf x) as Hm. rewrite <- (expf_code f Hf).
    set (u := if round_up f x 0 then 1 else 0). assert (Hu : u = 0 \/ u = 1) by (unfold u; destruct (round_up f x 0); auto).
    apply (finite_expf f Hf) in Fx. unfold expmax in Fx. pose proof (sbit_eq f Hf) as Hsb.
    assert (Hc : 0 <= (expf f x + u) * 2 ^ mw f < sbit f) by (rewrite Hsb; clear - Hu HEx Fx Hmp; nia).
    eexists. split; [reflexivity|]. split; [apply pack_bits; auto using sgn_01|]. intros Fy.
    split; [apply pack_sgn; auto using sgn_01|].
    set (e := expf f x - bias f).
    assert (Hmv : mval f (pack f (sgn f x) ((expf f x + u) * 2 ^ mw f)) = b2 (e + u)).
    { apply (finite_expf f Hf) in Fy. unfold expmax in Fy. rewrite (pack_expf f Hf), Z.div_mul in Fy by lia.
      replace (pack f (sgn f x) ((expf f x + u) * 2 ^ mw f)) with (make f (sgn f x) (expf f x + u) 0).
      - destruct (denotes_pow2 f (sgn f x) (expf f x + u) Hf (sgn_01 f x) ltac:(unfold expmax; lia)) as (_ & _ & _ & ->). f_equal. unfold e. lia.
      - unfold make, pack. rewrite (Z.mod_small (expf f x + u)) by lia. rewrite (Z.mod_small 0 (2 ^ mw f)) by lia.
        rewrite (Z.mod_small (sgn f x)) by (pose proof (sgn_01 f x); lia). ring. }
    exists (2 ^ u). split; [destruct Hu as [-> | ->]; auto|]. split.
    { rewrite Hmv, IZR_pow2, <- bpow_plus by lia. f_equal. lia. }
    rewrite Hmv.
    assert (HX : mval f x = (b2 e + b2 e * (IZR (man f x) * b2 (- mw f)))%R).
    { unfold mval, sig, sexp. replace (expf f x =? 0) with false by (symmetry; apply Z.eqb_neq; lia). fold e.
      rewrite plus_IZR, IZR_pow2 by lia. rewrite Rmult_plus_distr_r, <- bpow_plus. f_equal.
      - f_equal. lia.
      - unfold Z.sub at 1. rewrite bpow_plus. ring. }
    replace (b2 (e - 1)) with (b2 e / 2)%R by (replace e with (e - 1 + 1) at 1 by lia; rewrite bpow_plus; change (b2 1) with 2%R; lra).
    set (t := (IZR (man f x) * b2 (- mw f))%R) in *. pose proof (bpow_gt_0 radix2 e) as Hbe.
    assert (Ht : (t * b2 (mw f) = IZR (man f x))%R).
    { unfold t. rewrite Rmult_assoc, <- bpow_plus. replace (- mw f + mw f) with 0 by lia. cbn [bpow]. ring. }
    pose proof (bpow_gt_0 radix2 (mw f)) as Hbm.
    assert (Hcond : (u = 0 /\ 2 * man f x <= 2 ^ mw f) \/ (u = 1 /\ 2 ^ mw f < 2 * man f x)).
    { unfold u, round_up. cbn zeta. rewrite Z.sub_0_r, Z.mod_small, Z.div_small by lia. cbn [Z.odd]. rewrite andb_false_r, orb_false_r.
      destruct (Z.ltb_spec (2 ^ mw f) (2 * man f x)); [right|left]; lia. }
    assert (Ht1 : (0 <= t < 1)%R).
    { split; apply Rmult_le_reg_r with (b2 (mw f)) || apply Rmult_lt_reg_r with (b2 (mw f)); try assumption; rewrite Ht.
      - rewrite Rmult_0_l. apply IZR_le. lia.
      - rewrite Rmult_1_l, <- IZR_pow2 by lia. apply IZR_lt. lia. }
    destruct Hcond as [[-> Hc2]|[-> Hc2]].
    - assert (t <= / 2)%R.
      { apply Rmult_le_reg_r with (b2 (mw f)); [assumption|]. rewrite Ht. apply IZR_le in Hc2. rewrite mult_IZR, IZR_pow2 in Hc2 by lia. lra. }
      rewrite Z.add_0_r, HX. replace (b2 e - (b2 e + b2 e * t))%R with (- (b2 e * t))%R by ring. rewrite Rabs_Ropp, Rabs_pos_eq by nra. nra.
    - assert (/ 2 < t)%R.
      { apply Rmult_lt_reg_r with (b2 (mw f)); [assumption|]. rewrite Ht. apply IZR_lt in Hc2. rewrite mult_IZR, IZR_pow2 in Hc2 by lia. lra. }
      rewrite bpow_plus, HX. change (b2 1) with 2%R. replace (b2 e * 2 - (b2 e + b2 e * t))%R with (b2 e * (1 - t))%R by ring.
      rewrite Rabs_pos_eq by nra. nra.
  Qed.

  (** unit the result is a multiple of *)
  Definition abs_unit (x : Z) : Z := if rel_err ctx then Z.max E (expf f x - bias f - p) else E.

  Lemma abs_normal x :
    is_bits f x -> is_finite f x = true -> 1 <= expf f x ->
    (rel_err ctx = false -> sem = Strict -> expf f x - bias f - E < mw f) ->
    exists y, handle_normal_abserr sem f x (expf f x - bias f) p ctx = Ok y /\
      (is_finite f y = true ->
         (Rabs (fval f y - fval f x) <= b2 (abs_unit x - 1))%R /\
         (y = x \/ exists n, fval f y = (IZR n * b2 (abs_unit x))%R)).
  Proof.
    intros Hx Fx HEx Hstr. set (e := expf f x - bias f). pose proof (proj1 (finite_expf f Hf x) Fx) as Fx'. unfold expmax in Fx'.
    destruct (bias_bounds f Hf) as [Hb1 Hb2]. pose proof mw_bias as Hmb. pose proof (proj1 Hadm) as Hp.
    assert (Hbb : bias f <= 1023) by (destruct Hcf as [-> | ->]; vm_compute; discriminate).
    assert (Hmw : 2 <= mw f) by (destruct Hf; assumption).
    pose proof (mval_normal f Hf x HEx) as Hbr. fold e in Hbr.
    unfold handle_normal_abserr. fold E.
    assert (Hd : (if ew f =? 8 then int_op (e - E) else Ok (e - E)) = Ok (e - E)).
    { destruct (ew f =? 8); [|reflexivity]. unfold int_op, in_int.
      replace (- 2 ^ 31 <=? e - E) with true by (symmetry; apply Z.leb_le; unfold e; lia).
      replace (e - E <? 2 ^ 31) with true by (symmetry; apply Z.ltb_lt; unfold e; lia). reflexivity. }
    rewrite Hd. cbn [bind].
    assert (Htr : (if ew f =? 8 then e - E else (e - E + 2 ^ 31) mod 2 ^ 32 - 2 ^ 31) = e - E).
    { destruct (ew f =? 8); [reflexivity|]. rewrite Z.mod_small by (unfold e; lia). lia. }
    rewrite Htr.
    assert (HfX : forall y, sgn f y = sgn f x -> Rabs (fval f y - fval f x) = Rabs (mval f y - mval f x)).
    { intros y Hs. rewrite (fval_mval f Hf y), (fval_mval f Hf x), Hs. unfold signR. destruct (_ =? 1); [|reflexivity].
      rewrite <- Rabs_Ropp. f_equal. ring. }
    assert (HfN : forall y n u, mval f y = (IZR n * b2 u)%R -> exists n', fval f y = (IZR n' * b2 u)%R).
    { intros y n u Hy. rewrite (fval_mval f Hf y), Hy. unfold signR. destruct (_ =? 1); [|eauto].
      exists (- n). rewrite opp_IZR. ring. }
    destruct (Z.ltb_spec (e - E) (-1)) as [H1|H1].
    { (* far below the threshold: zero *)
      exists 0. split; [reflexivity|]. intros _.
      assert (HU : abs_unit x = E) by (unfold abs_unit; destruct (rel_err ctx); [|reflexivity]; fold e; lia).
      rewrite HU. assert (H0 : fval f 0 = 0%R) by (change 0 with (zero f 0) at 1; apply (denotes_fval f _ 0 0%R Hf), denotes_zero; auto).
      rewrite H0. split.
      - rewrite Rminus_0_l, Rabs_Ropp, (mval_abs f Hf). eapply Rle_trans; [apply Rlt_le, Hbr|]. apply bpow_le. lia.
      - right. exists 0. cbn [IZR]. ring. }
    destruct (Z.eqb_spec (e - E) (-1)) as [H2|H2].
    { (* just below: one unit *)
      assert (HU : abs_unit x = E) by (unfold abs_unit; destruct (rel_err ctx); [|reflexivity]; fold e; lia).
      destruct (pow2i_spec f E Hf Hmb ltac:(lia) ltac:(lia)) as (_ & P2 & P3).
      destruct (Z.leb_spec E (bias f)) as [HEb|HEb].
      - destruct (P2 ltac:(unfold emin_ulp, e in *; lia)) as (y & -> & By & Fy & Sy & My). cbn [bind].
        assert (HD : denotes f (copysign f y x) (sgn f x) (b2 E)).
        { change (copysign f y x) with (pack f (sgn f x) (code f y)). rewrite <- My, (mval_cval f Hf).
          apply denotes_pack; [assumption|apply sgn_01|]. split; [apply code_range; assumption|]. apply finite_code; assumption. }
        eexists. split; [reflexivity|]. intros _. rewrite HU. destruct HD as (_ & _ & HS & HM). split.
        + rewrite HfX, HM by assumption. replace E with (e + 1) by lia. replace (e + 1 - 1) with e by lia.
          apply Rabs_le. rewrite bpow_plus. change (b2 1) with 2%R. replace (b2 (e + 1)) with (b2 e * 2)%R in Hbr by (rewrite bpow_plus; reflexivity). lra.
        + right. apply (HfN _ 1). rewrite HM. cbn [IZR]. lra.
      - rewrite (P3 ltac:(lia)). cbn [bind]. eexists. split; [reflexivity|]. intros Fy. exfalso.
        unfold copysign in Fy. change (is_finite f (pack f (sgn f x) (code f (pack f 0 (inf_code f)))) = true) in Fy.
        pose proof (inf_code_eq f Hf). pose proof (inf_code_pos f Hf). pose proof (mw_pos f Hf).
        rewrite (pack_code f) in Fy by lia. apply (finite_code f Hf) in Fy. rewrite (pack_code f) in Fy by lia. lia. }
    assert (Hde : 0 <= e - E) by lia.
    (* general case *)
    assert (Hround : forall q, 1 <= q -> adm sem f q ->
      exists y, round_normal sem f x q = Ok y /\ (is_finite f y = true ->
         (Rabs (fval f y - fval f x) <= b2 (e - q - 1))%R /\ exists n, fval f y = (IZR n * b2 (e - q))%R)).
    { intros q Hq Hqa. destruct (round_normal_value f Hf sem x q e Hqa Hx Fx HEx ltac:(unfold e; lia)) as (y & Hy & By & Sy & My & Fy).
      exists y. split; [exact Hy|]. intros _. rewrite (rnd_binade e q _ e Hbr), Z.max_id in My. split.
      - rewrite HfX, My by assumption. apply nearest_error.
      - apply (HfN _ _ _ My). }
    assert (Hzero : e - E = 0 -> exists y, round_normal sem f x 0 = Ok y /\ (is_finite f y = true ->
         (Rabs (fval f y - fval f x) <= b2 (E - 1))%R /\ exists n, fval f y = (IZR n * b2 E)%R)).
    { intros H0. destruct (round_normal_zero x Hx Fx HEx) as (y & Hy & By & Hfy). exists y. split; [exact Hy|]. intros Fy.
      destruct (Hfy Fy) as (Sy & n & Hn & My & Ey). fold e in My, Ey. replace E with e by lia. split; [rewrite HfX by assumption; exact Ey|].
      apply (HfN _ _ _ My). }
    unfold compute_abserr, abs_unit. fold e. destruct (rel_err ctx) eqn:Hre; cbn [bind].
    - (* both: precision min(d, p) *)
      destruct (Z.ltb_spec (e - E) p) as [H3|H3]; cbn [bind].
      + rewrite Z.max_l by lia. destruct (Z.eq_dec (e - E) 0) as [H0|H0].
        * rewrite H0. destruct (Hzero H0) as (y & Hy & Hc). exists y. split; [exact Hy|]. intros Fy. destruct (Hc Fy). auto.
        * destruct (Hround (e - E) ltac:(lia)) as (y & Hy & Hc).
          { destruct Hadm as [Ha1 Ha2]. split; [lia|]. intros Hs. specialize (Ha2 Hs). lia. }
          replace (e - (e - E)) with E in Hc by lia. exists y. split; [exact Hy|]. intros Fy. destruct (Hc Fy). auto.
      + rewrite Z.max_r by lia. destruct (Hround p ltac:(lia) Hadm) as (y & Hy & Hc). exists y. split; [exact Hy|]. intros Fy. destruct (Hc Fy). auto.
    - destruct (Z.ltb_spec (e - E) (mw f)) as [H3|H3]; cbn [bind].
      + destruct (Z.eq_dec (e - E) 0) as [H0|H0].
        * rewrite H0. destruct (Hzero H0) as (y & Hy & Hc). exists y. split; [exact Hy|]. intros Fy. destruct (Hc Fy). auto.
        * destruct (Hround (e - E) ltac:(lia)) as (y & Hy & Hc).
          { split; [lia|]. intros Hs. lia. }
          replace (e - (e - E)) with E in Hc by lia. exists y. split; [exact Hy|]. intros Fy. destruct (Hc Fy). auto.
      + destruct sem; [specialize (Hstr eq_refl eq_refl); fold e in Hstr; lia|].
        exists x. split; [apply round_normal_full_masked; assumption|]. intros _. split; [|auto].
        rewrite Rminus_eq_0, Rabs_R0. apply bpow_ge_0.
  Qed.

  Lemma vround_abs x : is_bits f x -> is_finite f x = true ->
    (b2 (vemin r) <= Rabs (fval f x))%R -> (Rabs (rnd (vemin r) p (fval f x)) < b2 (vemax r + 1))%R ->
    (rel_err ctx = false -> sem = Strict -> expf f x - bias f - E < mw f) ->
    exists y, vprec_round sem f x inp ctx r p = Ok y /\
      (is_finite f y = true ->
         (Rabs (fval f y - fval f x) <= b2 (abs_unit x - 1))%R /\
         (y = x \/ exists n, fval f y = (IZR n * b2 (abs_unit x))%R)).
  Proof.
    intros Hx Fx HX HY Hstr. rewrite (mval_abs f Hf) in HX. pose proof (proj1 Hadm) as Hp.
    destruct (vemax_vemin r ltac:(lia)) as [Hmax1 Hmin]. pose proof (vemax_le f r Hcf Hr) as Hmaxb.
    pose proof (emin_range f Hcf r p Hr Hp) as Hrg.
    assert (HYp : (0 <= rnd (vemin r) p (mval f x))%R).
    { eapply Rle_trans; [apply bpow_ge_0|]. apply rnd_ge_pow; [lia| |exact HX]. lia. }
    assert (HY' : (rnd (vemin r) p (mval f x) < b2 (vemax r + 1))%R).
    { rewrite (fval_mval f Hf x), rnd_signR in HY. unfold signR in HY. destruct (_ =? 1); rewrite ?Rabs_Ropp, Rabs_pos_eq in HY; assumption. }
    assert (HE' : vemin r <= expf f x - bias f).
    { destruct (Z.leb_spec (vemin r) (expf f x - bias f)) as [H|H]; [assumption|]. apply (mval_lt_pow f Hf) in H; [lra|lia]. }
    assert (Hew11 : ew f <= 11) by (destruct Hcf as [-> | ->]; cbn; lia).
    unfold vprec_round. rewrite Fx. cbn [negb]. rewrite shl1_ok by lia. cbn [bind]. fold (vemax r). rewrite <- Hmin.
    assert (Hov : (if vemax r <=? expf f x - bias f then
          if expf f x - bias f =? vemax r then let* b := round_normal sem f x p in Ok (vemax r <? expf f b - bias f) else Ok true
        else Ok false) = Ok false).
    { destruct (Z.leb_spec (vemax r) (expf f x - bias f)) as [Hle|Hlt]; [|reflexivity].
      destruct (Z.eqb_spec (expf f x - bias f) (vemax r)) as [Heq|Hne].
      - destruct (round_normal_value f Hf sem x p (vemin r) Hadm Hx Fx ltac:(lia) HE') as (y & Hy & By & Sy & My & Fy).
        rewrite Hy. cbn [bind]. f_equal. apply Z.ltb_ge. rewrite <- My in HY'. apply (mval_lt_pow f Hf) in HY'; lia.
      - exfalso. assert (H : (b2 (vemax r + 1) <= mval f x)%R).
        { eapply Rle_trans; [|apply mval_normal; [assumption|lia]]. apply bpow_le. lia. }
        apply (rnd_ge_pow (vemin r) p) in H; [lra|lia|lia]. }
    rewrite Hov. cbn [bind]. replace (expf f x - bias f <? vemin r) with false by (symmetry; apply Z.ltb_ge; lia).
    rewrite Habs. apply abs_normal; try assumption. lia.
  Qed.
End absmode.
