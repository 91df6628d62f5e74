(** Proofs about the cancellation backend. *)
From Coq Require Import ZArith Reals Bool Lia Lra.
From Flocq Require Import Core.
From Verif Require Import Common Bits BitsFacts FloatReal FloatValue FloatOps DoubleRound StdlibModel StdlibProofs RngModel RngProofs
  McaModel McaProofs McaOps BitmaskModel BitmaskProofs CancelModel.
Open Scope Z_scope.
Open Scope outcome_scope.

Section cancel.
  Context (f : fmt) (Hf : fmt_ok f).

  (** exponent field and magnitude *)
  Lemma exponent_le x e : 1 - bias f <= e -> (mval f x < b2 e)%R -> get_exponent f x < e.
  Proof. intros He H. unfold get_exponent. apply (mval_lt_pow f Hf) in H; assumption. Qed.
  Lemma exponent_normal x : (b2 (1 - bias f) <= mval f x)%R -> get_exponent f x = mag radix2 (fval f x) - 1.
  Proof.
    intros H. unfold get_exponent. assert (N : fval f x <> 0%R).
    { intros E. apply (f_equal Rabs) in E. rewrite (mval_abs f Hf), Rabs_R0 in E. pose proof (bpow_gt_0 radix2 (1 - bias f)). lra. }
    pose proof (bpow_mag_le radix2 _ N) as L. pose proof (bpow_mag_gt radix2 (fval f x)) as U. rewrite (mval_abs f Hf) in L, U.
    set (M := mag radix2 (fval f x) : Z) in *.
    assert (1 - bias f <= M - 1). { assert (1 - bias f < M); [|lia]. apply (lt_bpow radix2). lra. }
    rewrite (expf_of_mval f Hf x (M - 1)); [lia|assumption|]. split; [assumption|]. replace (M - 1 + 1) with M by lia. assumption.
  Qed.
  Lemma exponent_low x : (mval f x < b2 (1 - bias f))%R -> get_exponent f x = - bias f.
  Proof. intros H. pose proof (exponent_le x _ (Z.le_refl _) H). pose proof (expf_range f Hf x). unfold get_exponent in *. lia. Qed.
  Lemma exponent_mono x y : (mval f x <= mval f y)%R -> get_exponent f x <= get_exponent f y.
  Proof.
    intros H. unfold get_exponent. assert (code f x <= code f y) by (apply (mval_le f Hf); assumption).
    rewrite !(expf_code f Hf). pose proof (Z.div_le_mono (code f x) (code f y) (2 ^ mw f) (mw_pos f Hf) H0). lia.
  Qed.
  Lemma max_exponent x y : exists m, (m = x \/ m = y) /\ Z.max (get_exponent f x) (get_exponent f y) = get_exponent f m /\ mval f m = Rmax (mval f x) (mval f y).
  Proof.
    destruct (Rle_lt_dec (mval f x) (mval f y)) as [L|L].
    - exists y. split; [tauto|]. pose proof (exponent_mono _ _ L). split; [lia|]. rewrite Rmax_right by assumption. reflexivity.
    - exists x. split; [tauto|]. pose proof (exponent_mono y x ltac:(lra)). split; [lia|]. rewrite Rmax_left by lra. reflexivity.
  Qed.

  Lemma cancell_none n clk c x y z st : Z.max (get_exponent f x) (get_exponent f y) - get_exponent f z < c_tolerance c ->
    cancell n clk f c x y z st = Ok (z, st).
  Proof. intros H. unfold cancell. destruct (Z.leb_spec (c_tolerance c) (Z.max (get_exponent f x) (get_exponent f y) - get_exponent f z)); [lia|reflexivity]. Qed.

  Lemma no_cancel n clk c x y z st : 1 <= c_tolerance c ->
    is_finite f z = false \/ (fval f z <> 0 /\ 2 * Rmax (mval f x) (mval f y) <= mval f z * b2 (c_tolerance c))%R ->
    cancell n clk f c x y z st = Ok (z, st).
  Proof.
    intros Ht H. apply cancell_none. destruct (max_exponent x y) as (m & _ & -> & Vm). set (t := c_tolerance c) in *. destruct H as [H|[Nz H]].
    - assert (expf f z = expmax f) by (unfold is_finite in H; apply negb_false_iff, Z.eqb_eq in H; exact H).
      unfold get_exponent. rewrite H0. pose proof (expf_range f Hf m). unfold expmax. lia.
    - rewrite <- Vm in H. destruct (Rlt_le_dec (mval f m) (b2 (1 - bias f))) as [L|L].
      + rewrite (exponent_low m L). pose proof (expf_range f Hf z). unfold get_exponent. lia.
      + pose proof (exponent_normal m L) as Em. set (M := mag radix2 (fval f m) : Z) in *.
        assert (Nm : fval f m <> 0%R).
        { intros E. apply (f_equal Rabs) in E. rewrite (mval_abs f Hf), Rabs_R0 in E. pose proof (bpow_gt_0 radix2 (1 - bias f)). lra. }
        pose proof (bpow_mag_le radix2 _ Nm) as Lm. rewrite (mval_abs f Hf) in Lm. fold M in Lm.
        assert (HM : 1 - bias f <= M - 1). { pose proof (bpow_mag_gt radix2 (fval f m)) as U. rewrite (mval_abs f Hf) in U. fold M in U.
          assert (1 - bias f < M); [|lia]. apply (lt_bpow radix2). lra. }
        (* 2^M <= |z| 2^t *)
        assert (Q : (b2 (M - t) <= mval f z)%R).
        { apply (Rmult_le_reg_r (b2 t)); [apply bpow_gt_0|]. rewrite <- bpow_plus. replace (M - t + t) with M by lia.
          replace (b2 M) with (2 * b2 (M - 1))%R; [lra|]. change 2%R with (b2 1). rewrite <- bpow_plus. f_equal. lia. }
        rewrite Em. destruct (Z.le_gt_cases (1 - bias f) (M - t)) as [K|K].
        * assert (~ get_exponent f z < M - t); [|lia]. intros E. unfold get_exponent in E. apply (mval_lt_pow f Hf) in E; [lra|assumption].
        * pose proof (expf_range f Hf z). unfold get_exponent. lia.
  Qed.

  (** a cancellation seen by the backend *)
  Lemma cancel_noise n clk c x y z st : ieee_arith n -> f = binary32 \/ f = binary64 -> is_bits f z -> is_finite f z = true ->
    (b2 (1 - bias f) <= mval f z)%R -> (b2 (1 - bias f) <= Rmax (mval f x) (mval f y))%R ->
    let drop := mag radix2 (Rmax (mval f x) (mval f y)) - mag radix2 (fval f z) in
    c_tolerance c <= drop ->
    let e := mag radix2 (fval f z) - drop in -970 <= e <= 1024 ->
    let st0 := (init_rng_state_struct (fst st) (c_choose c) (c_seed c) false, snd st) in
    kdraw clk st0 <> 2 ^ 51 ->
    exists w r, cancell n clk f c x y z st = Ok (r, after clk st0) /\
      (exists s, encodes binary64 (DFin s (fval f z + (IZR (kdraw clk st0) * b2 (-52) - 1/2) * b2 e)) w) /\ encodes f (dec binary64 w) r.
  Proof.
    intros Hn Hnar Bz Fz Nz Nx drop Hd e He st0 Hk. unfold cancell. destruct (max_exponent x y) as (m & _ & E & Vm).
    assert (Em : get_exponent f m = mag radix2 (Rmax (mval f x) (mval f y)) - 1).
    { rewrite exponent_normal by (rewrite Vm; assumption). f_equal. rewrite <- Vm, <- (mval_abs f Hf), mag_abs. reflexivity. }
    rewrite E, Em, (exponent_normal z Nz). replace (_ - 1 - (_ - 1)) with drop by (unfold drop; lia).
    destruct (Z.leb_spec (c_tolerance c) drop) as [_|L]; [|lia].
    replace (mag radix2 (fval f z) - 1 - (drop - 1)) with e by (unfold e; lia). fold st0.
    assert (big64 : big binary64) by (apply (wide_big binary32); left; reflexivity).
    destruct (noise_quad_value n Hn clk binary64 e st0 big64 Hk) as (nz & EN & BN & FN & VN); [exact He|].
    rewrite EN. cbn [bind]. set (zz := fconv f binary64 z).
    assert (Bzz : is_bits binary64 zz) by (apply fconv_encodes; [assumption|apply ok64]).
    assert (Dzz : dec binary64 zz = dec f z).
    { unfold zz. destruct Hnar as [E0|E0].
      - clear - Bz E0 Hf. revert Bz. rewrite E0. intros Bz. apply dec_widen; [apply ok32|apply ok64|apply roomy_32_64|assumption].
      - assert (E1 : fconv f binary64 z = z); [|rewrite E1, E0; reflexivity].
        apply (encodes_unique binary64 (dec f z)); [apply ok64| |apply fconv_encodes; [assumption|apply ok64]|].
        + rewrite (dec_finite _ _ Fz). discriminate.
        + rewrite E0 in *. apply encodes_dec; [apply ok64|assumption]. }
    destruct (Hn binary64 ok64 zz nz Bzz BN) as (HA & _). rewrite Dzz, (dec_finite _ _ FN), (dec_finite _ _ Fz), VN in HA. cbn [dadd] in HA.
    exists (n_add n binary64 zz nz), (fconv binary64 f (n_add n binary64 zz nz)). split; [reflexivity|]. split; [eauto|].
    apply fconv_encodes; [apply ok64|assumption].
  Qed.
End cancel.
