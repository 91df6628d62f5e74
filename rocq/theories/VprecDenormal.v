(** The subnormal path of the VPREC backend: value of [handle_denormal]. *)
From Coq Require Import ZArith Reals Bool Lia Lra.
From Flocq Require Import Core.
From Verif Require Import Common Bits BitsFacts FloatReal FloatValue StdlibModel VprecModel VprecRound VprecValue.
Open Scope Z_scope.
Open Scope outcome_scope.

Lemma Ok_inj {A} (a b : A) : Ok a = Ok b -> a = b.
Proof. intros H. injection H. auto. Qed.

(** the two formats the backend handles *)
Definition cfmt (f : fmt) : Prop := f = binary32 \/ f = binary64.
Lemma cfmt_ok f : cfmt f -> fmt_ok f.
Proof. intros [->| ->]; [exact ok32|exact ok64]. Qed.
Lemma cfmt_wider f : cfmt f -> wider f binary64.
Proof. intros [->| ->]; unfold wider, emin_ulp, bias; cbn; lia. Qed.

(** [emin]: smallest normal exponent of a target with r exponent bits *)
Definition vemin (r : Z) : Z := 2 - 2 ^ (r - 1).
Definition vemax (r : Z) : Z := 2 ^ (r - 1) - 1.

Lemma vemin_cases f r : cfmt f -> 2 <= r <= ew f ->
  vemin r <= 0 /\ (vemin r = 1 - bias f \/ 3 - bias f <= vemin r - mw f).
Proof.
  intros Hf Hr. unfold vemin. assert (2 ^ 1 <= 2 ^ (r - 1)) by (apply pow2_le; lia). split; [lia|].
  destruct (Z.eq_dec r (ew f)) as [->|E]; [left; unfold bias; lia|right].
  assert (2 ^ (r - 1) <= 2 ^ (ew f - 2)) by (apply pow2_le; lia).
  assert (2 ^ (ew f - 2) + mw f + 1 <= bias f) by (destruct Hf as [-> | ->]; vm_compute; discriminate). lia.
Qed.

Section den.
  Context (f : fmt) (Hcf : cfmt f) (r p : Z) (Hr : 2 <= r <= ew f) (Hp : 1 <= p <= mw f).
  Let Hf : fmt_ok f := cfmt_ok f Hcf.
  Let emin := vemin r.
  Let Hemin := vemin_cases f r Hcf Hr.
  Let m := b2 (emin - p).

  Lemma emin_range : 1 - bias f <= emin <= 0.
  Proof. destruct Hemin as [H1 [H2|H2]]; fold emin in H1, H2; [lia|]. destruct Hf. lia. Qed.

  Lemma bias_32_64 : bias f = 127 /\ mw f = 23 \/ bias f = 1023 /\ mw f = 52.
  Proof. destruct Hcf as [-> | ->]; cbn; auto. Qed.

  Definition zsign (s : Z) (Y : R) : Z := if Req_EM_T Y 0 then 0 else s.

  Lemma m_gt : (0 < m)%R. Proof. apply bpow_gt_0. Qed.

  (** format-level underflow routine *)
  Lemma underflow_value x : is_bits f x -> is_finite f x = true -> (0 < mval f x)%R -> has_underflow f x emin p = true ->
    denotes f (round_underflow f x emin p) (zsign (sgn f x) (sub_round emin p (mval f x))) (sub_round emin p (mval f x)).
  Proof.
    intros Hx Fx H0 Hu. unfold has_underflow in Hu. apply Z.ltb_lt in Hu. pose proof emin_range as Hrg.
    pose proof (expf_range f Hf x) as Hex. pose proof (proj1 (finite_expf f Hf x) Fx) as Fx'. destruct (bias_bounds f Hf) as [Hb1 Hb2].
    set (E := bias f + (emin - p) - 1).
    assert (HE : 1 <= E).
    { unfold E. destruct (Z.eq_dec (expf f x) 0) as [E0|E0]; [|lia]. destruct Hemin as [_ [H2|H2]]; fold emin in H2; lia. }
    assert (HE2 : E < expmax f - 1) by (unfold E, expmax; lia).
    unfold round_underflow. fold E.
    rewrite make_expf by assumption. rewrite (Z.mod_small E) by (unfold expmax in HE2; lia).
    pose proof m_gt as Hm. assert (Hhm : b2 (E - bias f) = (m / 2)%R).
    { unfold m. rewrite <- (half_m emin p). f_equal. unfold E. lia. }
    unfold sub_round. destruct (Z.leb_spec E (expf f x)) as [Hle|Hlt].
    - assert (Eeq : expf f x = E) by lia. pose proof (mval_normal f Hf x ltac:(lia)) as [Hn1 Hn2].
      rewrite Eeq in Hn1, Hn2. rewrite Hhm in Hn1.
      replace (b2 (E - bias f + 1)) with m in Hn2 by (unfold m, E; f_equal; lia).
      assert (Hv : (if Req_EM_T (mval f x) (b2 (emin - p) / 2) then b2 (emin - p) else rnd emin p (mval f x)) = m).
      { destruct (Req_EM_T _ _) as [_|Hne]; [reflexivity|]. fold m in Hne |- *. apply rnd_sub_up; [lia|fold m; lra]. }
      rewrite Hv. unfold zsign. destruct (Req_EM_T m 0) as [Hz|_]; [lra|].
      unfold m. replace (emin - p) with (E + 1 - bias f) by (unfold E; lia).
      apply denotes_pow2; [assumption|apply sgn_01|lia].
    - assert (Hlt2 : (mval f x < m / 2)%R).
      { rewrite <- Hhm. apply mval_lt_pow; [assumption|lia|lia]. }
      assert (Hv : (if Req_EM_T (mval f x) (b2 (emin - p) / 2) then b2 (emin - p) else rnd emin p (mval f x)) = 0%R).
      { destruct (Req_EM_T _ _) as [Heq|_]; [fold m in Heq; lra|]. apply rnd_sub_small; [lia|fold m; lra]. }
      rewrite Hv. unfold zsign. destruct (Req_EM_T 0 0) as [_|Hz]; [|lra].
      change 0 with (zero f 0) at 1. apply denotes_zero; auto.
  Qed.

  (** quad-precision underflow routine *)
  Lemma underflow128_value b : is_bits binary128 b -> is_finite binary128 b = true -> 1 <= expf binary128 b ->
    (mval binary128 b < 2 * m)%R -> (mval binary128 b < b2 emin)%R ->
    let X := mval binary128 b in
    denotes binary128 (round_binary128_underflow b emin p) (zsign (sgn binary128 b) (sub_round emin p X)) (sub_round emin p X).
  Proof.
    intros Hb Fb HE Hlt Hlte X. fold X in Hlt, Hlte. unfold round_binary128_underflow.
    pose proof emin_range as Hrg. pose proof ok128 as Hq. pose proof bias_32_64 as Hbw.
    set (E := bias binary128 + (emin - p) - 1).
    assert (HEr : 1 <= E < 20000) by (unfold E; change (bias binary128) with 16383; lia).
    rewrite make_expf by assumption. rewrite (Z.mod_small E) by (cbn; lia).
    pose proof m_gt as Hm. assert (Hhm : b2 (E - bias binary128) = (m / 2)%R).
    { unfold m. rewrite <- (half_m emin p). f_equal. unfold E. lia. }
    pose proof (mval_normal binary128 Hq b HE) as [Hn1 Hn2]. fold X in Hn1, Hn2.
    set (h := make binary128 (sgn binary128 b) E 0).
    assert (Hh : denotes binary128 h (sgn binary128 b) (m / 2)).
    { rewrite <- Hhm. apply denotes_pow2; [assumption|apply sgn_01|cbn; lia]. }
    assert (HX0 : (0 < X)%R) by (eapply Rlt_le_trans; [apply bpow_gt_0|exact Hn1]).
    unfold sub_round. fold m. destruct (Z.leb_spec E (expf binary128 b)) as [Hle|Hgt].
    - assert (Hup : expf binary128 b <= E + 1).
      { assert (expf binary128 b - bias binary128 < emin - p + 1); [|unfold E; lia].
        apply (lt_bpow radix2). eapply Rle_lt_trans; [exact Hn1|]. eapply Rlt_le_trans; [exact Hlt|].
        rewrite bpow_plus. fold m. change (b2 1) with 2%R. lra. }
      assert (Hsh : sexp binary128 h = E - bias binary128 - 112).
      { unfold sexp, h. rewrite make_expf by assumption. rewrite Z.mod_small by (cbn; lia).
        replace (E =? 0) with false by (symmetry; apply Z.eqb_neq; lia). reflexivity. }
      assert (Hsb : sexp binary128 b = expf binary128 b - bias binary128 - 112).
      { unfold sexp. replace (expf binary128 b =? 0) with false by (symmetry; apply Z.eqb_neq; lia). reflexivity. }
      assert (Hsig : sig binary128 h = 2 ^ 112).
      { unfold sig, h. rewrite make_expf, make_man by assumption. rewrite Z.mod_small by (cbn; lia).
        replace (E =? 0) with false by (symmetry; apply Z.eqb_neq; lia). reflexivity. }
      set (n := 2 ^ (112 - (expf binary128 b - E))).
      destruct (fadd_exponent binary128 b h n) as [HyS HyE]; try assumption.
      + apply Hh.
      + cbn; lia.
      + apply Hh.
      + unfold n. split; [apply pow2_pos; lia|apply pow2_le; change (mw binary128) with 112; lia].
      + rewrite Hsh, Hsb. lia.
      + rewrite Hsig, Hsh, Hsb. unfold n. rewrite <- pow2_split by lia. f_equal. lia.
      + fold h. set (y := fadd binary128 b h) in *.
        assert (Hres : forall Y, (0 < Y)%R -> b2 (expf binary128 y - bias binary128) = Y ->
           denotes binary128 (make binary128 (sgn binary128 y) (expf binary128 y) 0) (zsign (sgn binary128 b) Y) Y).
        { intros Y HY <-. unfold zsign. destruct (Req_EM_T _ 0) as [Hz|_]; [lra|]. rewrite HyS.
          apply denotes_pow2; [assumption|apply sgn_01|]. rewrite HyE. cbn [expmax]. destruct (_ <=? _); cbn; lia. }
        pose proof (man_range binary128 Hq b) as Hmr. change (mw binary128) with 112 in *.
        assert (HXs : X = (IZR (2 ^ 112 + man binary128 b) * b2 (expf binary128 b - bias binary128 - 112))%R).
        { unfold X, mval. rewrite Hsb. unfold sig. replace (expf binary128 b =? 0) with false by (symmetry; apply Z.eqb_neq; lia). reflexivity. }
        assert (Hcase : expf binary128 b = E \/ expf binary128 b = E + 1) by lia. destruct Hcase as [Ec|Ec].
        * (* m/2 <= X < m *)
          assert (Hn : n = 2 ^ 112) by (unfold n; f_equal; lia). rewrite Hn in HyE.
          replace (2 ^ 112 <=? man binary128 b + 2 ^ 112) with true in HyE by (symmetry; apply Z.leb_le; lia).
          assert (Hy : b2 (expf binary128 y - bias binary128) = m) by (rewrite HyE, Ec; unfold m, E; f_equal; lia).
          rewrite Ec, Hhm in Hn1. replace (b2 (expf binary128 b - bias binary128 + 1)) with m in Hn2 by (rewrite Ec; unfold m, E; f_equal; lia).
          replace (if Req_EM_T X (m / 2) then m else rnd emin p X) with m; [apply Hres; assumption|].
          destruct (Req_EM_T _ _) as [_|Hne]; [reflexivity|]. symmetry. apply rnd_sub_up; [lia|fold m; lra].
        * (* m <= X < 2m *)
          assert (Hn : n = 2 ^ 111) by (unfold n; f_equal; lia). rewrite Hn in HyE.
          assert (He : expf binary128 b - bias binary128 = emin - p) by (unfold E in Ec; lia).
          rewrite He in HXs, Hn1. fold m in Hn1.
          replace (b2 (emin - p - 112)) with (m * / IZR (2 ^ 112))%R in HXs by (unfold m; rewrite IZR_pow2, <- bpow_opp, <- bpow_plus by lia; f_equal; lia).
          assert (HX2 : X = (m + m * (IZR (man binary128 b) / IZR (2 ^ 112)))%R).
          { rewrite HXs, plus_IZR. field. apply IZR_neq. lia. }
          replace (if Req_EM_T X (m / 2) then m else rnd emin p X) with (rnd emin p X) by (destruct (Req_EM_T _ _); [lra|reflexivity]).
          assert (H112 : (0 < IZR (2 ^ 112))%R) by (apply IZR_lt; lia).
          destruct (Z.leb_spec (2 ^ 112) (man binary128 b + 2 ^ 111)) as [Hc|Hc].
          -- assert (Hfr : (1 / 2 <= IZR (man binary128 b) / IZR (2 ^ 112))%R).
             { apply Rmult_le_reg_r with (IZR (2 ^ 112)); [assumption|]. unfold Rdiv at 2. rewrite Rmult_assoc, Rinv_l, Rmult_1_r by lra.
               apply Rmult_le_reg_l with 2%R; [lra|]. replace (2 * (1 / 2 * IZR (2 ^ 112)))%R with (IZR (2 ^ 112)) by lra.
               rewrite <- mult_IZR. apply IZR_le. pose proof (pow2_P 112 ltac:(lia)) as Q112. change (112 - 1) with 111 in Q112. lia. }
             assert (Hrv : rnd emin p X = (2 * m)%R).
             { apply rnd_sub_two; [|assumption]. fold m. split; [|assumption]. rewrite HX2. nra. }
             rewrite Hrv. apply Hres; [lra|]. rewrite HyE, Ec. replace (E + 1 + 1 - bias binary128) with (emin - p + 1) by (unfold E; lia).
             rewrite bpow_plus. fold m. change (b2 1) with 2%R. lra.
          -- assert (Hfr : (IZR (man binary128 b) / IZR (2 ^ 112) < 1 / 2)%R).
             { apply Rmult_lt_reg_r with (IZR (2 ^ 112)); [assumption|]. unfold Rdiv at 1. rewrite Rmult_assoc, Rinv_l, Rmult_1_r by lra.
               apply Rmult_lt_reg_l with 2%R; [lra|]. replace (2 * (1 / 2 * IZR (2 ^ 112)))%R with (IZR (2 ^ 112)) by lra.
               rewrite <- mult_IZR. apply IZR_lt. pose proof (pow2_P 112 ltac:(lia)) as Q112. change (112 - 1) with 111 in Q112. lia. }
             assert (Hrv : rnd emin p X = m).
             { apply rnd_sub_one'; [|assumption]. fold m. split; [assumption|]. rewrite HX2. nra. }
             rewrite Hrv. apply Hres; [lra|]. rewrite HyE, Ec. unfold m. f_equal. unfold E. lia.
    - assert (Hlt2 : (X < m / 2)%R).
      { rewrite <- Hhm. apply mval_lt_pow; [assumption| |lia]. unfold E. change (bias binary128) with 16383. lia. }
      assert (Hv : (if Req_EM_T X (m / 2) then m else rnd emin p X) = 0%R).
      { destruct (Req_EM_T _ _) as [Heq|_]; [lra|]. apply rnd_sub_small; [lia|fold m; lra]. }
      rewrite Hv. unfold zsign. destruct (Req_EM_T 0 0) as [_|Hz]; [|lra].
      change 0 with (zero binary128 0) at 1. apply denotes_zero; auto.
  Qed.

  Lemma sub_round_generic X : generic_format radix2 (FLT_exp (emin - p) (p + 1)) (sub_round emin p X).
  Proof.
    unfold sub_round. destruct (Req_EM_T _ _); [|apply rnd_generic; lia].
    apply generic_format_bpow. unfold FLT_exp. lia.
  Qed.
  Lemma sub_round_nonneg X : (0 <= X)%R -> (0 <= sub_round emin p X)%R.
  Proof.
    intros HX. unfold sub_round. destruct (Req_EM_T _ _); [apply bpow_ge_0|]. unfold rnd. apply round_ge_generic; [apply FLT_exp_valid; unfold Prec_gt_0; lia|apply valid_rnd_N|apply generic_format_0|assumption].
  Qed.
  Lemma sub_round_le X : (X < b2 emin)%R -> (sub_round emin p X <= b2 emin)%R.
  Proof.
    intros HX. unfold sub_round. destruct (Req_EM_T _ _); [apply bpow_le; lia|]. apply rnd_le_pow; [lia|lia|lra].
  Qed.

  Lemma conv_back v s X : denotes binary128 v s (sub_round emin p X) -> (0 <= X < b2 emin)%R ->
    denotes f (fconv binary64 f (fconv binary128 binary64 v)) s (sub_round emin p X).
  Proof.
    intros Hv HX. pose proof emin_range as Hrg. destruct (cfmt_wider f Hcf) as (W1 & W2 & W3).
    pose proof (sub_round_generic X) as HG. pose proof (sub_round_le X (proj2 HX)) as HL.
    assert (Hub : (sub_round emin p X < b2 (bias f + 1))%R).
    { eapply Rle_lt_trans; [exact HL|]. apply bpow_lt. destruct (bias_bounds f Hf). lia. }
    assert (He : emin_ulp f <= emin - p) by (unfold emin_ulp; lia).
    apply (fconv_exact binary64 f); [exact ok64|assumption| | |assumption].
    - apply (fconv_exact binary128 binary64); [exact ok128|exact ok64|assumption| |].
      + eapply generic_FLT_inclusion; [| | |exact HG]; lia.
      + eapply Rlt_le_trans; [exact Hub|]. apply bpow_le. lia.
    - eapply generic_FLT_inclusion; [| | |exact HG]; lia.
  Qed.

  Lemma denormal_value sem x : is_bits f x -> is_finite f x = true -> (0 < mval f x)%R -> expf f x - bias f < emin ->
    exists y, handle_denormal sem f x emin p = Ok y /\
      denotes f y (zsign (sgn f x) (sub_round emin p (mval f x))) (sub_round emin p (mval f x)).
  Proof.
    intros Hx Fx H0 Hsub. unfold handle_denormal. pose proof emin_range as Hrg.
    destruct (has_underflow f x emin p) eqn:Hu.
    { eexists. split; [reflexivity|]. apply underflow_value; assumption. }
    replace (p <=? mw f) with true by (symmetry; apply Z.leb_le; lia).
    unfold has_underflow in Hu. apply Z.ltb_ge in Hu.
    set (X := mval f x) in *. set (s := sgn f x).
    assert (HXlt : (X < b2 emin)%R) by (apply mval_lt_pow; [assumption|lia|assumption]).
    pose proof (fconv_widen f binary64 x Hf ok64 (cfmt_wider f Hcf) Hx Fx) as D64. fold X s in D64.
    set (x64 := fconv f binary64 x) in *.
    assert (W128 : wider binary64 binary128) by (unfold wider, emin_ulp, bias; cbn; lia).
    pose proof (fconv_widen binary64 binary128 x64 ok64 ok128 W128 (proj1 D64) (proj1 (proj2 D64))) as D128.
    destruct D64 as (B64 & F64 & S64 & M64). rewrite S64, M64 in D128. 
    unfold round_binary_denormal. set (b := fconv binary64 binary128 x64) in *.
    destruct D128 as (B & F & S & M).
    assert (HE : 1 <= expf binary128 b).
    { pose proof (expf_range binary128 ok128 b). destruct (Z.eq_dec (expf binary128 b) 0) as [E|E]; [exfalso|lia].
      pose proof (mval_subnormal binary128 ok128 b E) as Hs. rewrite M in Hs.
      assert (HXm : (b2 (emin_ulp f) <= X)%R).
      { unfold X. rewrite (mval_cval f Hf). rewrite <- (Rmult_1_l (b2 (emin_ulp f))) at 1. apply Rmult_le_compat_r; [apply bpow_ge_0|].
        apply IZR_le. assert (cval f (code f x) <> 0); [|pose proof (cval_nonneg f Hf (code f x)); pose proof (code_range f Hf x); lia].
        intros Hz. unfold X in H0. rewrite (mval_cval f Hf), Hz in H0. lra. }
      assert (Hlt : (b2 (emin_ulp f) < b2 (1 - bias binary128))%R) by lra. apply lt_bpow in Hlt.
      destruct (cfmt_wider f Hcf) as (_ & W2 & _). change (1 - bias binary128) with (-16382) in Hlt.
      change (emin_ulp binary64) with (-1074) in W2. lia. }
    pose proof (mval_normal binary128 ok128 b HE) as Hbr. rewrite M in Hbr.
    set (e := expf binary128 b - bias binary128) in *.
    assert (Hee : e < emin) by (apply (lt_bpow radix2); lra).
    assert (HN : is_neg binary64 x64 = s).
    { unfold is_neg. replace (is_zero binary64 x64) with false.
      - rewrite S64. unfold s. destruct (sgn_01 f x) as [Q|Q]; rewrite Q; reflexivity.
      - symmetry. apply not_true_iff_false. rewrite (mval_zero binary64 ok64), M64. lra. }
    rewrite HN. fold e. cbn zeta.
    destruct (Z.leb_spec p (emin - e)) as [Hloss|Hloss].
    - (* e <= emin - p *)
      cbn [bind]. eexists. split; [reflexivity|].
      apply conv_back; [|lra]. rewrite <- S, <- M. apply underflow128_value; try assumption; rewrite M; [|assumption].
      eapply Rlt_le_trans; [apply Hbr|]. replace (2 * m)%R with (b2 (emin - p + 1)).
      + apply bpow_le. lia.
      + rewrite bpow_plus. fold m. change (b2 1) with 2%R. lra.
    - (* generic case: round_normal in quad precision *)
      pose proof bias_32_64 as Hbw.
      set (q := p - (emin - e)). assert (Hq : 1 <= q <= 51) by (unfold q; lia).
      assert (Hexp_small : expf binary128 b < 16384) by (unfold e in *; change (bias binary128) with 16383 in *; lia).
      assert (Hadm : adm sem binary128 q) by (split; cbn; lia).
      destruct (round_normal_value binary128 ok128 sem b q e Hadm B F HE ltac:(unfold e; lia)) as (y & Hy & By & Sy & My & Fy).
      rewrite M in My, Fy. 
      assert (Hre : rnd e q X = rnd emin p X).
      { rewrite (rnd_binade e q X e Hbr), (rnd_binade emin p X e Hbr). rewrite Z.max_id, Z.max_r by lia.
        replace (e - q) with (emin - p) by (unfold q; lia). reflexivity. }
      rewrite Hre in My, Fy.
      assert (Hrle : (rnd emin p X <= b2 emin)%R) by (apply rnd_le_pow; [lia|lia|lra]).
      assert (Hyf : is_finite binary128 y = true).
      { apply Fy. eapply Rle_lt_trans; [exact Hrle|]. apply bpow_lt. change (bias binary128) with 16383. lia. }
      (* the branch computes round_normal *)
      unfold round_normal in Hy. cbn zeta in Hy. unfold wbits, onebits, wbits in Hy. change (mw binary128 + ew binary128 + 1) with 128 in Hy.
      rewrite shl_ok in Hy by (change (mw binary128) with 112; lia). cbn [bind] in Hy.
      rewrite (needs_rounding_ok binary128 ok128 sem b q) in * by (change (mw binary128) with 112; lia).
      assert (Hnb : is_neg binary128 b = s).
      { rewrite is_neg_normal by (exact ok128 || assumption). exact S. }
      rewrite Hnb in Hy. 
      assert (Heh : expf binary128 b - q - 1 = bias binary128 + (emin - p) - 1) by (unfold q, e; lia).
      rewrite Heh in Hy. replace (bias binary128 + (emin - p) - 1 <? 1) with false in Hy.
      2:{ symmetry. apply Z.ltb_ge. change (bias binary128) with 16383. lia. }
      cbn [bind] in Hy. cbn [bind]. rewrite shl_ok by (change (mw binary128) with 112; lia). cbn [bind].
      replace (mw binary128 - p + (emin - e)) with (mw binary128 - q) by (unfold q; lia).
      set (half := make binary128 s (bias binary128 + (emin - p) - 1) 0) in *.
      apply Ok_inj in Hy. rewrite Hy. 
      (* the last test never fires *)
      assert (Hhe : expf binary128 half = bias binary128 + (emin - p) - 1).
      { unfold half. rewrite make_expf by exact ok128. apply Z.mod_small. change (bias binary128) with 16383; change (2 ^ ew binary128) with 32768; lia. }
      rewrite Hhe. replace (expf binary128 y <=? _) with false.
      2:{ symmetry. apply Z.leb_gt. assert (e <= expf binary128 y - bias binary128); [|unfold q in Hq; lia].
          destruct (Z.leb_spec e (expf binary128 y - bias binary128)) as [Q|Q]; [assumption|exfalso].
          assert (Hlt : (mval binary128 y < b2 e)%R) by (apply mval_lt_pow; [exact ok128|unfold e; change (bias binary128) with 16383; lia|assumption]).
          rewrite My in Hlt. pose proof (rnd_ge_pow emin p X e ltac:(lia) ltac:(lia) (proj1 Hbr)). lra. }
      eexists. split; [reflexivity|].
      assert (Hsr : sub_round emin p X = rnd emin p X).
      { unfold sub_round. destruct (Req_EM_T _ _) as [Heq|_]; [exfalso|reflexivity].
        rewrite <- (half_m emin p) in Heq. assert ((b2 e <= b2 (emin - p - 1))%R) by lra. apply le_bpow in H. lia. }
      assert (Hnz : rnd emin p X <> 0%R).
      { pose proof (rnd_ge_pow emin p X e ltac:(lia) ltac:(lia) (proj1 Hbr)). pose proof (bpow_gt_0 radix2 e). lra. }
      unfold zsign. destruct (Req_EM_T _ _) as [Q|_]; [rewrite Hsr in Q; contradiction|].
      apply conv_back; [|lra]. rewrite Hsr. split; [assumption|]. split; [assumption|]. split; [|assumption].
      rewrite Sy. assumption.
  Qed.
End den.
