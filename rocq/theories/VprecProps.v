(** Consequences of [vprec_round_rel]: the statements behind the VPREC properties. *)
From Coq Require Import ZArith Reals Bool Lia Lra.
From Flocq Require Import Core.
From Verif Require Import Common Bits BitsFacts FloatReal FloatValue StdlibModel VprecModel VprecRound VprecValue VprecDenormal VprecMain.
Open Scope Z_scope.
Open Scope outcome_scope.

(** numerical order on non-NaN patterns, infinities included *)
Definition ext_le (f : fmt) (a b : Z) : Prop :=
  (is_inf f a = true /\ sgn f a = 1) \/ (is_inf f b = true /\ sgn f b = 0) \/
  (is_finite f a = true /\ is_finite f b = true /\ (fval f a <= fval f b)%R).

(** flipping the sign bit *)
Definition fneg (f : fmt) (x : Z) : Z := (1 - sgn f x) * sbit f + code f x.

(** Independent description of the rounding a VPREC context asks for, relative-error mode:
    [vspec f r p fl x y]: y is the image of x in the format with r exponent bits and p fraction bits; fl: subnormals
    are flushed. It records the two deviations from IEEE found in the code: see [sub_round] and [zsign]. *)
Definition vspec (f : fmt) (r p : Z) (fl : bool) (x y : Z) : Prop :=
  let X := Rabs (fval f x) in
  let Y := rnd (vemin r) p X in
  (is_finite f x = false /\ y = x) \/
  (is_finite f x = true /\ (b2 (vemax r + 1) <= Y)%R /\ y = inf f (sgn f x)) \/
  (is_finite f x = true /\ (Y < b2 (vemax r + 1))%R /\ (b2 (vemin r) <= X)%R /\ denotes f y (sgn f x) Y) \/
  (is_finite f x = true /\ (X < b2 (vemin r))%R /\ fl = true /\ y = zero f (sgn f x)) \/
  (X = 0%R /\ fl = false /\ y = x) \/
  (is_finite f x = true /\ (0 < X < b2 (vemin r))%R /\ fl = false /\
     denotes f y (zsign (sgn f x) (sub_round (vemin r) p X)) (sub_round (vemin r) p X)).

Section vp.
  Context (sem : shift_sem) (f : fmt) (Hcf : cfmt f) (r p : Z) (Hr : 2 <= r <= ew f) (Hadm : adm sem f p).
  Context (ctx : vctx) (Hrel : abs_err ctx = false) (inp : bool).
  Let Hf : fmt_ok f := cfmt_ok f Hcf.
  Notation round := (fun x => vprec_round sem f x inp ctx r p).
  Notation fl := (flush ctx inp).
  Let Hp : 1 <= p <= mw f := proj1 Hadm.

  Lemma rnd_lt_max X : (X < b2 (vemin r))%R -> (rnd (vemin r) p X < b2 (vemax r + 1))%R.
  Proof.
    intros H. eapply Rle_lt_trans; [apply (rnd_le_pow _ _ _ (vemin r)); [lia|lia|apply Rlt_le, H]|]. apply bpow_lt.
    destruct (vemax_vemin r ltac:(lia)). lia.
  Qed.

  Lemma vround_spec x : is_bits f x -> exists y, round x = Ok y /\ is_bits f y /\ vspec f r p fl x y.
  Proof.
    intros Hx. destruct (is_finite f x) eqn:Fx.
    2:{ exists x. split; [apply vprec_round_special; assumption|]. split; [assumption|]. left. split; [assumption|reflexivity]. }
    destruct (vprec_round_rel sem f Hcf r p Hr Hadm ctx Hrel inp x Hx Fx) as (y & Hy & By & H1 & H2 & H3 & H4).
    exists y. split; [exact Hy|]. split; [exact By|]. unfold vspec. rewrite (mval_abs f Hf). cbn zeta. right.
    destruct (Rlt_le_dec (rnd (vemin r) p (mval f x)) (b2 (vemax r + 1))) as [HY|HY]; [right|left; auto].
    destruct (Rlt_le_dec (mval f x) (b2 (vemin r))) as [HX|HX]; [right|left; auto].
    destruct fl eqn:Hfl; [left; auto|right]. destruct (H4 HX eq_refl) as [Ha Hb].
    destruct (mval_nonneg f Hf x) as [H0|H0]; [right|left]; auto 10.
  Qed.

  Lemma vspec_sub X x y : vspec f r p fl x y -> X = Rabs (fval f x) -> is_finite f x = true -> (X < b2 (vemin r))%R -> fl = false ->
    (X = 0%R -> y = x) /\ ((0 < X)%R -> denotes f y (zsign (sgn f x) (sub_round (vemin r) p X)) (sub_round (vemin r) p X)).
  Proof.
    intros H -> Fx HX Hfl. pose proof (rnd_lt_max _ HX).
    destruct H as [[Q _]|[(_ & Q & _)|[(_ & _ & Q & _)|[(_ & _ & Q & _)|[(Q1 & Q2 & Q3)|(Q1 & Q2 & Q3 & Q4)]]]]]; try congruence; try lra.
    - split; [intros; assumption|intros; lra].
    - split; [intros; lra|intros; assumption].
  Qed.

  (** C01 *)
  Lemma vround_normal x : is_bits f x -> is_finite f x = true ->
    (b2 (vemin r) <= Rabs (fval f x))%R -> (Rabs (rnd (vemin r) p (fval f x)) < b2 (vemax r + 1))%R ->
    exists y, round x = Ok y /\ is_bits f y /\ is_finite f y = true /\ sgn f y = sgn f x /\
      fval f y = rnd (vemin r) p (fval f x).
  Proof.
    intros Hx Fx HX HY. rewrite (mval_abs f Hf) in HX.
    rewrite (fval_mval f Hf x), rnd_signR in *.
    assert (HYp : (0 <= rnd (vemin r) p (mval f x))%R).
    { eapply Rle_trans; [apply bpow_ge_0|]. apply rnd_ge_pow; [lia| |exact HX]. lia. }
    assert (HY' : (rnd (vemin r) p (mval f x) < b2 (vemax r + 1))%R).
    { unfold signR in HY. destruct (_ =? 1); rewrite ?Rabs_Ropp, Rabs_pos_eq in HY; assumption. }
    destruct (vprec_round_rel sem f Hcf r p Hr Hadm ctx Hrel inp x Hx Fx) as (y & Hy & By & _ & H2 & _).
    specialize (H2 HY' HX). exists y. split; [exact Hy|]. destruct H2 as (A & B & C & D). repeat (split; [assumption|]).
    rewrite (fval_mval f Hf y), C, D. reflexivity.
  Qed.

  (** C02 *)
  Lemma vround_subnormal x : is_bits f x -> is_finite f x = true -> fl = false ->
    (Rabs (fval f x) < b2 (vemin r))%R ->
    exists y, round x = Ok y /\ is_bits f y /\ is_finite f y = true /\
      (Rabs (fval f x) <> b2 (vemin r - p - 1) -> fval f y = rnd (vemin r) p (fval f x)) /\
      (Rabs (fval f x) = b2 (vemin r - p - 1) -> fval f y = signR (sgn f x) (b2 (vemin r - p))) /\
      (fval f y <> 0%R -> sgn f y = sgn f x).
  Proof.
    intros Hx Fx Hfl HX. rewrite (mval_abs f Hf) in *.
    destruct (vprec_round_rel sem f Hcf r p Hr Hadm ctx Hrel inp x Hx Fx) as (y & Hy & By & _ & _ & _ & H4).
    destruct (H4 HX Hfl) as [Hz Hs]. exists y. split; [exact Hy|]. split; [exact By|].
    rewrite (half_m (vemin r) p). pose proof (m_pos (vemin r) p) as Hm.
    destruct (mval_nonneg f Hf x) as [H0|H0].
    - specialize (Hs H0). destruct Hs as (A & B & C & D).
      assert (Hfy : fval f y = signR (sgn f x) (sub_round (vemin r) p (mval f x))).
      { rewrite (fval_mval f Hf y), C, D. unfold zsign. destruct (Req_EM_T _ 0) as [E|E]; [|reflexivity].
        rewrite E. unfold signR. destruct (sgn f x =? 1); cbn; lra. }
      split; [exact B|]. split; [|split].
      + intros Hne. rewrite Hfy, (fval_mval f Hf x), rnd_signR. unfold sub_round. destruct (Req_EM_T _ _); [contradiction|reflexivity].
      + intros He. rewrite Hfy. unfold sub_round. destruct (Req_EM_T _ _); [reflexivity|contradiction].
      + intros Hnz. rewrite C. unfold zsign. destruct (Req_EM_T _ 0) as [E|E]; [|reflexivity].
        exfalso. apply Hnz. rewrite Hfy, E. unfold signR. destruct (_ =? 1); lra.
    - symmetry in H0. rewrite (Hz H0). split; [assumption|].
      assert (Hx0 : fval f x = 0%R) by (rewrite (fval_mval f Hf x), H0; unfold signR; destruct (_ =? 1); lra).
      rewrite H0. split; [|split].
      + intros _. rewrite Hx0, rnd_0. reflexivity.
      + intros. lra.
      + reflexivity.
  Qed.

  (** C03 *)
  Lemma is_inf_inf s : (s = 0 \/ s = 1) -> is_inf f (inf f s) = true /\ is_finite f (inf f s) = false /\ sgn f (inf f s) = s.
  Proof.
    intros Hs. pose proof (inf_code_eq f Hf). pose proof (inf_code_pos f Hf). pose proof (mw_pos f Hf).
    assert (Hc : 0 <= inf_code f < sbit f) by lia.
    change (inf f s) with (pack f s (inf_code f)). unfold is_inf, is_finite. rewrite pack_expf, pack_man, pack_sgn by assumption.
    unfold inf_code at 1 2 3. rewrite Z.div_mul, Z.mod_mul by lia. rewrite !Z.eqb_refl. auto.
  Qed.

  Lemma vround_overflow x : is_bits f x -> is_finite f x = true ->
    exists y, round x = Ok y /\
      (is_finite f y = false <-> (b2 (vemax r + 1) <= Rabs (rnd (vemin r) p (fval f x)))%R) /\
      (is_finite f y = false -> y = inf f (sgn f x)).
  Proof.
    intros Hx Fx. destruct (vprec_round_rel sem f Hcf r p Hr Hadm ctx Hrel inp x Hx Fx) as (y & Hy & By & H1 & H2 & H3 & H4).
    exists y. split; [exact Hy|].
    assert (HYe : Rabs (rnd (vemin r) p (fval f x)) = rnd (vemin r) p (mval f x)).
    { assert (HYp : (0 <= rnd (vemin r) p (mval f x))%R).
      { unfold rnd. apply round_ge_generic; [apply FLT_exp_valid; unfold Prec_gt_0; lia|apply valid_rnd_N|apply generic_format_0|apply mval_nonneg; assumption]. }
      rewrite (fval_mval f Hf x), rnd_signR. unfold signR. destruct (_ =? 1); rewrite ?Rabs_Ropp; apply Rabs_pos_eq; assumption. }
    rewrite HYe. destruct (Rlt_le_dec (rnd (vemin r) p (mval f x)) (b2 (vemax r + 1))) as [HY|HY].
    - assert (Hyf : is_finite f y = true).
      { destruct (Rlt_le_dec (mval f x) (b2 (vemin r))) as [HX|HX].
        - destruct fl eqn:Hfl.
          + rewrite (H3 HX eq_refl). apply denotes_zero; auto using sgn_01.
          + destruct (H4 HX eq_refl) as [Hz Hs]. destruct (mval_nonneg f Hf x) as [H0|H0].
            * apply Hs. assumption.
            * rewrite Hz by (symmetry; assumption). assumption.
        - apply H2; assumption. }
      split; [|congruence]. split; [congruence|]. intros; lra.
    - specialize (H1 HY). subst y. split; [|auto]. split; [auto|]. intros _.
      apply is_inf_inf, sgn_01.
  Qed.

  (** C04 *)
  Lemma vround_representable x y : is_bits f x -> is_finite f x = true -> round x = Ok y -> is_finite f y = true ->
    generic_format radix2 (FLT_exp (vemin r - p) (p + 1)) (fval f y) /\ (Rabs (fval f y) < b2 (vemax r + 1))%R /\
    is_bits f y /\
    (fl = true -> fval f y = 0%R \/ (b2 (vemin r) <= Rabs (fval f y))%R).
  Proof.
    intros Hx Fx Hy Fy. destruct (vprec_round_rel sem f Hcf r p Hr Hadm ctx Hrel inp x Hx Fx) as (y' & Hy' & By & H1 & H2 & H3 & H4).
    rewrite Hy in Hy'. apply Ok_inj in Hy'. subst y'.
    assert (HGs : forall s X, generic_format radix2 (FLT_exp (vemin r - p) (p + 1)) X -> generic_format radix2 (FLT_exp (vemin r - p) (p + 1)) (signR s X)).
    { intros s X HX. unfold signR. destruct (s =? 1); [apply generic_format_opp|]; assumption. }
    rewrite (mval_abs f Hf y). rewrite (fval_mval f Hf y).
    assert (Hz0 : forall s, signR s 0 = 0%R) by (intros s; unfold signR; destruct (s =? 1); lra).
    destruct (vemax_vemin r ltac:(lia)) as [Hm1 Hm2].
    destruct (Rlt_le_dec (rnd (vemin r) p (mval f x)) (b2 (vemax r + 1))) as [HY|HY].
    2:{ exfalso. specialize (H1 HY). subst y. destruct (is_inf_inf (sgn f x) (sgn_01 f x)) as (_ & Q & _). congruence. }
    destruct (Rlt_le_dec (mval f x) (b2 (vemin r))) as [HX|HX].
    - destruct fl eqn:Hfl.
      + specialize (H3 HX eq_refl). assert (M0 : mval f y = 0%R) by (subst y; apply denotes_zero; auto using sgn_01).
        rewrite M0, Hz0. split; [apply generic_format_0|]. split; [apply bpow_gt_0|]. split; [assumption|auto].
      + destruct (H4 HX eq_refl) as [Hz Hs]. destruct (mval_nonneg f Hf x) as [H0|H0].
        * destruct (Hs H0) as (_ & _ & C & D). rewrite D. split; [|split; [|split; [assumption|discriminate]]].
          -- apply HGs. apply (sub_round_generic f r p Hp).
          -- eapply Rle_lt_trans; [apply (sub_round_le f r p Hp); assumption|]. apply bpow_lt. lia.
        * symmetry in H0. rewrite (Hz H0), H0, Hz0. split; [apply generic_format_0|]. split; [apply bpow_gt_0|]. split; [assumption|discriminate].
    - destruct (H2 HY HX) as (_ & _ & C & D). rewrite D. split; [|split; [|split; [assumption|]]].
      + apply HGs, rnd_generic. lia.
      + assumption.
      + intros _. right. apply rnd_ge_pow; [lia|lia|assumption].
  Qed.

  Lemma vround_fixed y : is_bits f y -> is_finite f y = true ->
    generic_format radix2 (FLT_exp (vemin r - p) (p + 1)) (fval f y) -> (Rabs (fval f y) < b2 (vemax r + 1))%R ->
    (fl = true -> fval f y = 0%R \/ (b2 (vemin r) <= Rabs (fval f y))%R) ->
    round y = Ok y.
  Proof.
    intros By Fy HG HM Hflu. destruct (vprec_round_rel sem f Hcf r p Hr Hadm ctx Hrel inp y By Fy) as (z & Hz & Bz & H1 & H2 & H3 & H4).
    rewrite Hz. f_equal. rewrite (mval_abs f Hf) in *.
    assert (HGm : generic_format radix2 (FLT_exp (vemin r - p) (p + 1)) (mval f y)).
    { rewrite <- (mval_abs f Hf). apply generic_format_abs. assumption. }
    assert (Hrm : rnd (vemin r) p (mval f y) = mval f y).
    { unfold rnd. apply round_generic; [apply valid_rnd_N|assumption]. }
    rewrite Hrm in *. destruct (Rlt_le_dec (mval f y) (b2 (vemin r))) as [HX|HX].
    - destruct fl eqn:Hfl.
      + destruct (Hflu eq_refl) as [Hz0|Hz0]; [|lra].
        assert (M0 : mval f y = 0%R) by (rewrite <- (mval_abs f Hf), Hz0; apply Rabs_R0).
        specialize (H3 HX eq_refl). subst z. apply (denotes_unique f _ _ (sgn f y) 0%R Hf).
        * apply denotes_zero; auto using sgn_01.
        * rewrite <- M0. apply denotes_self; assumption.
      + destruct (H4 HX eq_refl) as [Hz1 Hz2]. destruct (mval_nonneg f Hf y) as [H0|H0].
        * specialize (Hz2 H0).
          assert (Hsr : sub_round (vemin r) p (mval f y) = mval f y).
          { unfold sub_round. destruct (Req_EM_T _ _) as [E|_]; [|assumption]. exfalso.
            rewrite E in Hrm. rewrite rnd_sub_tie in Hrm by lia. pose proof (bpow_gt_0 radix2 (vemin r - p)). lra. }
          rewrite Hsr in Hz2. unfold zsign in Hz2. destruct (Req_EM_T _ 0) as [E|E]; [lra|].
          apply (denotes_unique f _ _ (sgn f y) (mval f y) Hf); [assumption|apply denotes_self; assumption].
        * apply Hz1. symmetry. assumption.
    - apply (denotes_unique f _ _ (sgn f y) (mval f y) Hf); [apply H2; assumption|apply denotes_self; assumption].
  Qed.

  Lemma vround_idempotent x y : is_bits f x -> round x = Ok y -> round y = Ok y.
  Proof.
    intros Hx Hy. destruct (is_finite f y) eqn:Fy; [|apply vprec_round_special; assumption].
    destruct (is_finite f x) eqn:Fx.
    - destruct (vround_representable x y Hx Fx Hy Fy) as (A & B & C & D). apply vround_fixed; assumption.
    - cbv beta in Hy. rewrite vprec_round_special in Hy by assumption. apply Ok_inj in Hy. congruence.
  Qed.

  (** C05 *)
  Definition gmag (X : R) : R :=
    if Rlt_dec X (b2 (vemin r)) then
      (if fl then 0%R else if Req_EM_T X 0 then 0%R else sub_round (vemin r) p X)
    else rnd (vemin r) p X.

  Lemma rnd_mono X X' : (X <= X')%R -> (rnd (vemin r) p X <= rnd (vemin r) p X')%R.
  Proof. intros H. apply round_le; [apply FLT_exp_valid; unfold Prec_gt_0; lia|apply valid_rnd_N|exact H]. Qed.

  Lemma sub_round_mono X X' : (0 < X <= X')%R -> (sub_round (vemin r) p X <= sub_round (vemin r) p X')%R.
  Proof.
    intros [H0 H]. pose proof (m_pos (vemin r) p) as Hm. unfold sub_round.
    destruct (Req_EM_T X _) as [E|E], (Req_EM_T X' _) as [E'|E']; [lra| | |apply rnd_mono; assumption].
    - destruct (Rlt_le_dec X' (b2 (vemin r - p))) as [L|L].
      + rewrite (rnd_sub_up (vemin r) p ltac:(lia) X'); lra.
      + apply rnd_ge_pow; [lia|lia|assumption].
    - rewrite rnd_sub_small by (lia || lra). lra.
  Qed.

  Lemma gmag_nonneg X : (0 <= X)%R -> (0 <= gmag X)%R.
  Proof.
    intros HX. unfold gmag. destruct (Rlt_dec _ _).
    - destruct fl; [lra|]. destruct (Req_EM_T _ _); [lra|]. apply (sub_round_nonneg f r p Hp). assumption.
    - rewrite <- (rnd_0 (vemin r) p). apply rnd_mono. assumption.
  Qed.

  Lemma gmag_mono X X' : (0 <= X <= X')%R -> (gmag X <= gmag X')%R.
  Proof.
    intros [H0 H]. pose proof (gmag_nonneg X' ltac:(lra)) as HN. unfold gmag in *.
    destruct (Rlt_dec X (b2 (vemin r))) as [L|L], (Rlt_dec X' (b2 (vemin r))) as [L'|L']; [| |lra|apply rnd_mono; assumption].
    - destruct fl; [lra|]. destruct (Req_EM_T X 0) as [E|E], (Req_EM_T X' 0) as [E'|E']; try lra. apply sub_round_mono. lra.
    - destruct fl; [lra|]. destruct (Req_EM_T X 0) as [E|E]; [lra|].
      eapply Rle_trans; [apply (sub_round_le f r p Hp); assumption|]. apply rnd_ge_pow; [lia|lia|lra].
  Qed.

  Lemma vround_gmag x : is_bits f x -> is_finite f x = true ->
    exists y, round x = Ok y /\
      ((b2 (vemax r + 1) <= rnd (vemin r) p (mval f x))%R -> y = inf f (sgn f x)) /\
      ((rnd (vemin r) p (mval f x) < b2 (vemax r + 1))%R -> is_finite f y = true /\ fval f y = signR (sgn f x) (gmag (mval f x))).
  Proof.
    intros Hx Fx. destruct (vprec_round_rel sem f Hcf r p Hr Hadm ctx Hrel inp x Hx Fx) as (y & Hy & By & H1 & H2 & H3 & H4).
    exists y. split; [exact Hy|]. split; [exact H1|]. intros HY. unfold gmag. destruct (Rlt_dec _ _) as [L|L].
    - destruct fl eqn:Hfl.
      + rewrite (H3 L eq_refl). pose proof (denotes_zero f (sgn f x) Hf (sgn_01 f x)) as D. split; [apply D|apply denotes_fval; assumption].
      + destruct (H4 L eq_refl) as [Hz Hs]. destruct (Req_EM_T _ _) as [E|E].
        * rewrite (Hz E). split; [assumption|]. rewrite (fval_mval f Hf), E. reflexivity.
        * specialize (Hs ltac:(pose proof (mval_nonneg f Hf x); lra)). split; [apply Hs|].
          rewrite (denotes_fval f _ _ _ Hf Hs). unfold zsign. destruct (Req_EM_T _ 0) as [Q|Q]; [|reflexivity].
          rewrite Q. unfold signR. cbn. destruct (_ =? 1); lra.
    - assert (HX : (b2 (vemin r) <= mval f x)%R) by lra. specialize (H2 HY HX). split; [apply H2|].
      apply denotes_fval; assumption.
  Qed.

  Lemma vround_monotone x x' y y' : is_bits f x -> is_bits f x' -> is_finite f x = true -> is_finite f x' = true ->
    (fval f x <= fval f x')%R -> round x = Ok y -> round x' = Ok y' -> ext_le f y y'.
  Proof.
    intros Hx Hx' Fx Fx' Hle Hy Hy'.
    destruct (vround_gmag x Hx Fx) as (z & Hz & I1 & V1). rewrite Hy in Hz. apply Ok_inj in Hz. subst z.
    destruct (vround_gmag x' Hx' Fx') as (z & Hz & I2 & V2). rewrite Hy' in Hz. apply Ok_inj in Hz. subst z.
    rewrite (fval_mval f Hf x), (fval_mval f Hf x') in Hle.
    pose proof (mval_nonneg f Hf x) as N. pose proof (mval_nonneg f Hf x') as N'.
    pose proof (gmag_nonneg _ N) as G. pose proof (gmag_nonneg _ N') as G'.
    set (X := mval f x) in *. set (X' := mval f x') in *. unfold ext_le.
    destruct (is_inf_inf (sgn f x) (sgn_01 f x)) as (J1 & J2 & J3). destruct (is_inf_inf (sgn f x') (sgn_01 f x')) as (J1' & J2' & J3').
    pose proof (bpow_gt_0 radix2 (vemax r + 1)) as Bp.
    destruct (Rlt_le_dec (rnd (vemin r) p X) (b2 (vemax r + 1))) as [C|C], (Rlt_le_dec (rnd (vemin r) p X') (b2 (vemax r + 1))) as [C'|C'].
    - right; right. destruct (V1 C) as [F1 E1], (V2 C') as [F2 E2]. split; [assumption|]. split; [assumption|]. rewrite E1, E2.
      unfold signR in *. destruct (sgn_01 f x) as [Q|Q], (sgn_01 f x') as [Q'|Q']; rewrite Q, Q' in *; cbn in *.
      + apply gmag_mono. lra.
      + replace X with 0%R in * by lra. replace X' with 0%R in * by lra.
        assert (gmag 0 = 0%R); [|lra]. unfold gmag. destruct (Rlt_dec _ _) as [L|L]; [|pose proof (bpow_gt_0 radix2 (vemin r)); lra].
        destruct fl; [reflexivity|]. destruct (Req_EM_T 0 0); [reflexivity|lra].
      + lra.
      + apply Ropp_le_contravar. apply gmag_mono. lra.
    - specialize (I2 C'). subst y'. destruct (sgn_01 f x') as [Q'|Q']; [right; left; rewrite J3'; auto|exfalso].
      rewrite Q' in Hle. unfold signR in Hle. destruct (sgn_01 f x) as [Q|Q]; rewrite Q in Hle; cbn in Hle.
      + replace X' with 0%R in C' by lra. rewrite rnd_0 in C'. lra.
      + assert (H : (X' <= X)%R) by lra. apply rnd_mono in H. lra.
    - specialize (I1 C). subst y. destruct (sgn_01 f x) as [Q|Q]; [exfalso|left; rewrite J3; auto].
      rewrite Q in Hle. unfold signR in Hle. destruct (sgn_01 f x') as [Q'|Q']; rewrite Q' in Hle; cbn in Hle.
      + assert (H : (X <= X')%R) by lra. apply rnd_mono in H. lra.
      + replace X with 0%R in C by lra. rewrite rnd_0 in C. lra.
    - specialize (I1 C). specialize (I2 C'). subst y y'.
      destruct (sgn_01 f x) as [Q|Q]; [|left; rewrite J3; auto].
      destruct (sgn_01 f x') as [Q'|Q']; [right; left; rewrite J3'; auto|exfalso].
      rewrite Q, Q' in Hle. unfold signR in Hle. cbn in Hle. replace X with 0%R in C by lra. rewrite rnd_0 in C. lra.
  Qed.

  (** C06 *)
  Lemma fneg_props x : is_bits f x -> is_bits f (fneg f x) /\ sgn f (fneg f x) = 1 - sgn f x /\ mval f (fneg f x) = mval f x /\
    is_finite f (fneg f x) = is_finite f x.
  Proof.
    intros Hx. change (fneg f x) with (pack f (1 - sgn f x) (code f x)). pose proof (code_range f Hf x) as Hc.
    assert (Hs : 1 - sgn f x = 0 \/ 1 - sgn f x = 1) by (destruct (sgn_01 f x) as [-> | ->]; auto).
    split; [apply pack_bits; assumption|]. split; [apply pack_sgn; assumption|].
    split; [rewrite mval_pack by assumption; symmetry; apply mval_cval; assumption|].
    unfold is_finite. rewrite pack_expf by assumption. rewrite <- (expf_code f Hf). reflexivity.
  Qed.

  Lemma vround_symmetric x y : is_bits f x -> is_finite f x = true -> round x = Ok y ->
    exists y', round (fneg f x) = Ok y' /\
      (y' = fneg f y \/ (fval f y = 0%R /\ fval f y' = 0%R)).
  Proof.
    intros Hx Fx Hy. destruct (fneg_props x Hx) as (Bn & Sn & Mn & Fn). rewrite Fx in Fn.
    destruct (vprec_round_rel sem f Hcf r p Hr Hadm ctx Hrel inp x Hx Fx) as (z & Hz & By & H1 & H2 & H3 & H4).
    rewrite Hy in Hz. apply Ok_inj in Hz. subst z.
    destruct (vprec_round_rel sem f Hcf r p Hr Hadm ctx Hrel inp (fneg f x) Bn Fn) as (y' & Hy' & By' & H1' & H2' & H3' & H4').
    exists y'. split; [exact Hy'|]. rewrite Mn, Sn in *. set (X := mval f x) in *.
    destruct (fneg_props y By) as (Bny & Sny & Mny & Fny).
    assert (Heq : forall s M, denotes f y s M -> denotes f y' (1 - s) M -> y' = fneg f y).
    { intros s M (_ & F & S & D) D'. apply (denotes_unique f _ _ (1 - s) M Hf D'). rewrite F, S, D in *.
      split; [assumption|split; [assumption|split; assumption]]. }
    assert (Hzero : forall b, mval f b = 0%R -> fval f b = 0%R) by (intros b Hb; rewrite (fval_mval f Hf), Hb; unfold signR; destruct (_ =? 1); lra).
    assert (Hs01 : 1 - sgn f x = 0 \/ 1 - sgn f x = 1) by (destruct (sgn_01 f x) as [-> | ->]; auto).
    destruct (Rlt_le_dec (rnd (vemin r) p X) (b2 (vemax r + 1))) as [HY|HY].
    - destruct (Rlt_le_dec X (b2 (vemin r))) as [HX|HX].
      + destruct fl eqn:Hfl.
        * right. rewrite (H3 HX eq_refl), (H3' HX eq_refl). split; apply Hzero; apply denotes_zero; auto using sgn_01.
        * destruct (H4 HX eq_refl) as [Hz0 Hs], (H4' HX eq_refl) as [Hz0' Hs'].
          destruct (mval_nonneg f Hf x) as [H0|H0].
          -- specialize (Hs H0). specialize (Hs' H0). unfold zsign in *. fold X in Hs. destruct (Req_EM_T _ 0) as [E|E].
             ++ right. split; apply Hzero; [rewrite <- E; apply Hs|rewrite <- E; apply Hs'].
             ++ left. apply (Heq _ _ Hs Hs').
          -- symmetry in H0. right. rewrite (Hz0 H0), (Hz0' H0). split; apply Hzero; [assumption|rewrite Mn; assumption].
      + left. apply (Heq _ _ (H2 HY HX) (H2' HY HX)).
    - left. rewrite (H1 HY), (H1' HY).
      pose proof (inf_code_eq f Hf). pose proof (inf_code_pos f Hf). pose proof (mw_pos f Hf).
      change (inf f (sgn f x)) with (pack f (sgn f x) (inf_code f)). unfold fneg.
      rewrite pack_sgn, pack_code by (auto using sgn_01; lia). reflexivity.
  Qed.
End vp.

(** C09: the widest format is the native one; where shifts are taken modulo the width rounding is the identity *)
Lemma vround_default f ctx inp x : cfmt f -> abs_err ctx = false -> daz ctx = false -> ftz ctx = false -> is_bits f x ->
  vprec_round Masked f x inp ctx (ew f) (mw f) = Ok x.
Proof.
  intros Hcf Hrel Hd Ht Hx. pose proof (cfmt_ok f Hcf) as Hf. destruct (is_finite f x) eqn:Fx; [|apply vprec_round_special; assumption].
  assert (He : vemin (ew f) - mw f = emin_ulp f) by (unfold vemin, emin_ulp, bias; lia).
  apply (vround_fixed Masked f Hcf (ew f) (mw f)); try assumption.
  - destruct Hf; lia.
  - split; [destruct Hf; lia|discriminate].
  - rewrite He, (fval_mval f Hf). unfold signR. destruct (_ =? 1); [apply generic_format_opp|]; apply mval_generic; assumption.
  - rewrite (mval_abs f Hf). replace (vemax (ew f) + 1) with (bias f + 1) by (unfold vemax, bias; lia). apply mval_finite; assumption.
  - unfold flush. rewrite Hd, Ht. discriminate.
Qed.

(** ... and undefined behaviour by the letter of the C standard on every number of the normal range *)
Lemma vround_default_ub f ctx inp x : cfmt f -> abs_err ctx = false ->
  is_bits f x -> is_finite f x = true -> 1 <= expf f x ->
  vprec_round Strict f x inp ctx (ew f) (mw f) = UB.
Proof.
  intros Hcf Hrel Hx Fx HE. pose proof (cfmt_ok f Hcf) as Hf. unfold vprec_round. rewrite Fx. cbn [negb].
  assert (ew f <= 11) by (destruct Hcf as [-> | ->]; cbn; lia).
  assert (2 <= ew f) by (destruct Hf; assumption).
  rewrite shl1_ok by lia. cbn [bind]. fold (vemax (ew f)).
  assert (Hb : vemax (ew f) = bias f) by reflexivity. rewrite Hb.
  rewrite (round_normal_full_strict f Hf). cbn [bind]. apply (finite_expf f Hf) in Fx. destruct (bias_bounds f Hf). unfold expmax in Fx.
  destruct (Z.leb_spec (bias f) (expf f x - bias f)); [destruct (Z.eqb_spec (expf f x - bias f) (bias f)); [reflexivity|lia]|].
  cbn [bind]. replace (expf f x - bias f <? 1 - bias f) with false by (symmetry; apply Z.ltb_ge; lia).
  rewrite Hrel. reflexivity.
Qed.

(** C11 *)
Lemma fconv_inf f g s : fmt_ok f -> (s = 0 \/ s = 1) -> fconv f g (inf f s) = inf g s.
Proof.
  intros Hf Hs. unfold fconv. pose proof (inf_code_eq f Hf). pose proof (inf_code_pos f Hf). pose proof (mw_pos f Hf).
  assert (Hc : 0 <= inf_code f < sbit f) by lia.
  change (inf f s) with (pack f s (inf_code f)). unfold is_nan, is_inf. rewrite pack_expf, pack_man, pack_sgn by assumption.
  unfold inf_code at 1 2 3 4. rewrite Z.div_mul, Z.mod_mul by lia. rewrite !Z.eqb_refl. reflexivity.
Qed.

Lemma target_in_binary32 r p Y : 2 <= r <= 8 -> 1 <= p <= 23 ->
  generic_format radix2 (FLT_exp (vemin r - p) (p + 1)) Y -> (Y < b2 (vemax r + 1))%R ->
  generic_format radix2 (FLT_exp (emin_ulp binary32) (mw binary32 + 1)) Y /\ (Y < b2 (bias binary32 + 1))%R.
Proof.
  intros Hr Hp HG HY. assert (2 ^ (r - 1) <= 2 ^ 7) by (apply pow2_le; lia). split.
  - eapply generic_FLT_inclusion; [| | |exact HG]; [lia| |cbn; lia]. unfold vemin. change (emin_ulp binary32) with (-149). lia.
  - eapply Rlt_le_trans; [exact HY|]. apply bpow_le. unfold vemax. change (bias binary32) with 127. lia.
Qed.

(** specification of the double to float cast: as [vspec], the result being a float *)
Definition vspec_cast (r p : Z) (fl : bool) (x y : Z) : Prop :=
  let X := Rabs (fval binary64 x) in
  let Y := rnd (vemin r) p X in
  is_finite binary64 x = true ->
  ((b2 (vemax r + 1) <= Y)%R -> y = inf binary32 (sgn binary64 x)) /\
  ((Y < b2 (vemax r + 1))%R -> (b2 (vemin r) <= X)%R -> denotes binary32 y (sgn binary64 x) Y) /\
  ((X < b2 (vemin r))%R -> fl = true -> y = zero binary32 (sgn binary64 x)) /\
  ((X < b2 (vemin r))%R -> fl = false ->
     (X = 0%R -> y = zero binary32 (sgn binary64 x)) /\
     ((0 < X)%R -> denotes binary32 y (zsign (sgn binary64 x) (sub_round (vemin r) p X)) (sub_round (vemin r) p X))).

Lemma vcast_round sem ctx inp r p x : 2 <= r <= 8 -> 1 <= p <= 23 -> abs_err ctx = false -> is_bits binary64 x ->
  exists y, vprec_round sem binary64 x inp ctx r p = Ok y /\ vspec_cast r p (flush ctx inp) x (fconv binary64 binary32 y).
Proof.
  intros Hr Hp Hrel Hx. assert (Hcf : cfmt binary64) by (right; reflexivity).
  assert (Hadm : adm sem binary64 p) by (split; cbn; lia). assert (Hr' : 2 <= r <= ew binary64) by (cbn; lia).
  destruct (is_finite binary64 x) eqn:Fx.
  2:{ exists x. split; [apply vprec_round_special; assumption|]. intros H. congruence. }
  destruct (vprec_round_rel sem binary64 Hcf r p Hr' Hadm ctx Hrel inp x Hx Fx) as (y & Hy & By & H1 & H2 & H3 & H4).
  exists y. split; [exact Hy|]. intros _. rewrite (mval_abs binary64 ok64). set (X := mval binary64 x) in *.
  assert (Hzero : fconv binary64 binary32 (zero binary64 (sgn binary64 x)) = zero binary32 (sgn binary64 x)).
  { apply (denotes_unique binary32 _ _ (sgn binary64 x) 0%R ok32); [|apply denotes_zero; [exact ok32|apply sgn_01]].
    apply (fconv_exact binary64 binary32); [exact ok64|exact ok32|apply denotes_zero; [exact ok64|apply sgn_01]|apply generic_format_0|apply bpow_gt_0]. }
  split; [|split; [|split]].
  - intros HY. rewrite (H1 HY). apply fconv_inf; [exact ok64|apply sgn_01].
  - intros HY HX. destruct (target_in_binary32 r p (rnd (vemin r) p X) Hr Hp) as [T1 T2]; [apply rnd_generic; lia|exact HY|].
    apply (fconv_exact binary64 binary32); [exact ok64|exact ok32|apply H2; assumption|assumption|assumption].
  - intros HX Hfl. rewrite (H3 HX Hfl). exact Hzero.
  - intros HX Hfl. destruct (H4 HX Hfl) as [Hz Hs]. split.
    + intros H0. rewrite (Hz H0). rewrite <- Hzero. f_equal. apply (denotes_unique binary64 _ _ (sgn binary64 x) 0%R ok64).
      * rewrite <- H0. apply denotes_self; assumption.
      * apply denotes_zero; [exact ok64|apply sgn_01].
    + intros H0. specialize (Hs H0). destruct (vemax_vemin r ltac:(lia)).
      destruct (target_in_binary32 r p (sub_round (vemin r) p X) Hr Hp) as [T1 T2].
      * apply (sub_round_generic binary64 r p). cbn; lia.
      * eapply Rle_lt_trans; [apply (sub_round_le binary64 r p); [cbn; lia|assumption]|]. apply bpow_lt. lia.
      * apply (fconv_exact binary64 binary32); [exact ok64|exact ok32|exact Hs|assumption|assumption].
Qed.
