(** Value of [vprec_round] in relative-error mode, and its consequences. *)
From Coq Require Import ZArith Reals Bool Lia Lra.
From Flocq Require Import Core.
From Verif Require Import Common Bits BitsFacts FloatReal FloatValue StdlibModel VprecModel VprecRound VprecValue VprecDenormal.
Open Scope Z_scope.
Open Scope outcome_scope.

Lemma vemax_vemin r : 2 <= r -> 1 <= vemax r /\ vemin r = 1 - vemax r.
Proof. intros Hr. unfold vemin, vemax. assert (2 ^ 1 <= 2 ^ (r - 1)) by (apply pow2_le; lia). lia. Qed.

Lemma vemax_le f r : cfmt f -> 2 <= r <= ew f -> vemax r <= bias f.
Proof. intros Hf Hr. unfold vemax, bias. assert (2 ^ (r - 1) <= 2 ^ (ew f - 1)) by (apply pow2_le; lia). lia. Qed.

Lemma fpclass_zero f x : fmt_ok f -> is_finite f x = true ->
  (fpclassify f x = FP_ZERO /\ is_zero f x = true) \/ (fpclassify f x <> FP_ZERO /\ is_zero f x = false).
Proof.
  intros Hf Fx. unfold fpclassify, is_zero, is_finite in *. apply negb_true_iff in Fx. rewrite Fx. cbn [andb].
  rewrite (code_split f Hf). pose proof (man_range f Hf x). pose proof (expf_range f Hf x). pose proof (mw_pos f Hf).
  destruct (Z.eqb_spec (expf f x) 0) as [E|E], (Z.eqb_spec (man f x) 0) as [M|M]; cbn [andb negb]; [left|right..];
    (split; [try discriminate; reflexivity|]); rewrite ?E, ?M.
  - reflexivity.
  - apply Z.eqb_neq. lia.
  - apply Z.eqb_neq. nia.
  - apply Z.eqb_neq. nia.
Qed.

Section main.
  Context (sem : shift_sem) (f : fmt) (Hcf : cfmt f) (r p : Z) (Hr : 2 <= r <= ew f) (Hadm : adm sem f p).
  Context (ctx : vctx) (Hrel : abs_err ctx = false) (inp : bool).
  Let Hf : fmt_ok f := cfmt_ok f Hcf.

  Definition flush : bool := (daz ctx && inp) || (ftz ctx && negb inp).

  Lemma vprec_round_rel x : is_bits f x -> is_finite f x = true ->
    let X := mval f x in
    let Y := rnd (vemin r) p X in
    let S := sub_round (vemin r) p X in
    exists y, vprec_round sem f x inp ctx r p = Ok y /\ is_bits f y /\
      ((b2 (vemax r + 1) <= Y)%R -> y = inf f (sgn f x)) /\
      ((Y < b2 (vemax r + 1))%R -> (b2 (vemin r) <= X)%R -> denotes f y (sgn f x) Y) /\
      ((X < b2 (vemin r))%R -> flush = true -> y = zero f (sgn f x)) /\
      ((X < b2 (vemin r))%R -> flush = false ->
         (X = 0%R -> y = x) /\ ((0 < X)%R -> denotes f y (zsign (sgn f x) S) S)).
  Proof.
    intros Hx Fx X Y S. assert (Hp : 1 <= p <= mw f) by apply Hadm.
    destruct (vemax_vemin r ltac:(lia)) as [Hmax1 Hmin]. pose proof (vemax_le f r Hcf Hr) as Hmaxb.
    pose proof (emin_range f Hcf r p Hr Hp) as Hrg. pose proof (mval_nonneg f Hf x) as HX0. fold X in HX0.
    pose proof (sgn_01 f x) as Hs01.
    assert (Hew11 : ew f <= 11) by (destruct Hcf as [-> | ->]; cbn; lia).
    unfold vprec_round. rewrite Fx. cbn [negb]. rewrite shl1_ok by lia. cbn [bind].
    fold (vemax r). rewrite <- Hmin.
    set (aexp := expf f x - bias f).
    assert (Hzero_bits : is_bits f (zero f (sgn f x))) by (apply denotes_zero; assumption).
    (* characterisation of the overflow test *)
    assert (Hov : exists ov, (if vemax r <=? aexp then
          if aexp =? vemax r then let* b := round_normal sem f x p in Ok (vemax r <? expf f b - bias f) else Ok true
        else Ok false) = Ok ov /\ (ov = true <-> (b2 (vemax r + 1) <= Y)%R) /\ (ov = true -> vemax r <= aexp)).
    { destruct (Z.leb_spec (vemax r) aexp) as [Hle|Hlt].
      - destruct (Z.eqb_spec aexp (vemax r)) as [Heq|Hne].
        + destruct (round_normal_value f Hf sem x p (vemin r) Hadm Hx Fx) as (y & Hy & By & Sy & My & Fy).
          { unfold aexp in Heq. lia. } { fold aexp. lia. }
          rewrite Hy. cbn [bind]. eexists. split; [reflexivity|]. split; [|lia]. rewrite Z.ltb_lt.
          fold X in My. fold Y in My. rewrite <- My.
          pose proof (mval_lt_pow f Hf y (vemax r + 1) ltac:(lia)) as Hiff. split; intros H.
          * apply Rnot_lt_le. intros Hc. apply Hiff in Hc. lia.
          * destruct (Z.ltb_spec (vemax r) (expf f y - bias f)); [assumption|]. assert (Hc : (mval f y < b2 (vemax r + 1))%R) by (apply Hiff; lia). lra.
        + exists true. split; [reflexivity|]. split; [|lia]. split; [|reflexivity]. intros _.
          apply rnd_ge_pow; [lia|lia|]. pose proof (mval_normal f Hf x ltac:(unfold aexp in *; lia)) as [Hn _]. fold X aexp in Hn.
          eapply Rle_trans; [|exact Hn]. apply bpow_le. lia.
      - exists false. split; [reflexivity|]. split; [|discriminate]. split; [discriminate|]. intros H. exfalso.
        assert (HXl : (X < b2 (vemax r))%R) by (apply mval_lt_pow; [assumption|lia|exact Hlt]).
        assert (HYl : (Y <= b2 (vemax r))%R) by (apply rnd_le_pow; [lia|lia|lra]).
        assert ((b2 (vemax r) < b2 (vemax r + 1))%R) by (apply bpow_lt; lia). lra. }
    destruct Hov as (ov & -> & Hov & Hova). cbn [bind].
    assert (HXsub : (X < b2 (vemin r))%R <-> aexp < vemin r) by (apply mval_lt_pow; [assumption|unfold aexp in *; lia]).
    destruct ov.
    - (* overflow *)
      specialize (Hova eq_refl). pose proof (proj1 Hov eq_refl) as HY.
      unfold mul_inf. replace (is_zero f x) with false.
      2:{ symmetry. apply not_true_iff_false. rewrite (mval_zero f Hf). fold X. intros Hz.
          assert (HXlt : (X < b2 (vemin r))%R) by (rewrite Hz; apply bpow_gt_0). apply HXsub in HXlt. lia. }
      eexists. split; [reflexivity|]. split; [|split; [|split; [|split]]].
      + change (inf f (sgn f x)) with (pack f (sgn f x) (inf_code f)). apply pack_bits; try assumption.
        pose proof (inf_code_eq f Hf). pose proof (inf_code_pos f Hf). pose proof (mw_pos f Hf). lia.
      + reflexivity.
      + intros H. lra.
      + intros H. apply HXsub in H. lia.
      + intros H. apply HXsub in H. lia.
    - assert (HYlt : (Y < b2 (vemax r + 1))%R).
      { apply Rnot_le_lt. intros H. apply Hov in H. discriminate. }
      destruct (Z.ltb_spec aexp (vemin r)) as [Hsub|Hnorm].
      + (* below the normal range *)
        assert (HXl : (X < b2 (vemin r))%R) by (apply HXsub; assumption).
        fold flush. destruct flush.
        { unfold mul_zero. eexists. split; [reflexivity|]. split; [assumption|]. split; [intros; lra|]. split; [intros; lra|].
          split; [reflexivity|discriminate]. }
        destruct (fpclass_zero f x Hf Fx) as [[Hz1 Hz2]|[Hz1 Hz2]].
        * rewrite Hz1. exists x. split; [reflexivity|]. split; [assumption|]. split; [intros; lra|]. split; [intros; lra|].
          split; [discriminate|]. intros _ _. split; [reflexivity|]. apply (mval_zero f Hf) in Hz2. fold X in Hz2. intros; lra.
        * assert (HXp : (0 < X)%R).
          { destruct HX0 as [H|H]; [assumption|]. symmetry in H. apply (mval_zero f Hf) in H. congruence. }
          rewrite Hrel.
          destruct (denormal_value f Hcf r p Hr Hp sem x Hx Fx HXp Hsub) as (y & Hy & Dy).
          exists y. split.
          { destruct (fpclassify f x); first [contradiction Hz1; reflexivity|exact Hy]. }
          split; [apply Dy|]. split; [intros; lra|]. split; [intros; lra|]. split; [discriminate|].
          intros _ _. split; [intros; lra|]. intros _. exact Dy.
      + (* normal range *)
        rewrite Hrel. assert (HXg : ~ (X < b2 (vemin r))%R) by (intros H; apply HXsub in H; lia).
        destruct (round_normal_value f Hf sem x p (vemin r) Hadm Hx Fx) as (y & Hy & By & Sy & My & Fy).
        { unfold aexp in Hnorm. lia. } { exact Hnorm. }
        exists y. split; [exact Hy|]. split; [assumption|]. split; [intros; lra|]. split; [|split; [intros; lra|intros; lra]].
        intros _ _. split; [assumption|]. split; [|split; [assumption|exact My]]. apply Fy. fold X Y.
        eapply Rlt_le_trans; [exact HYlt|]. apply bpow_le. lia.
  Qed.

  (** infinities and NaN pass unchanged *)
  Lemma vprec_round_special x : is_finite f x = false -> vprec_round sem f x inp ctx r p = Ok x.
  Proof. intros H. unfold vprec_round. rewrite H. reflexivity. Qed.
End main.
