(** Magnitudes of patterns as reals: exponent brackets, representability, exact conversions. *)
From Coq Require Import ZArith Reals Bool Lia Lra.
From Flocq Require Import Core.
From Verif Require Import Common Bits BitsFacts FloatReal.
Open Scope Z_scope.

Notation b2 := (bpow radix2).

(** |fval| *)
Definition mval (f : fmt) (b : Z) : R := (IZR (sig f b) * b2 (sexp f b))%R.

Section value.
  Context (f : fmt) (Hf : fmt_ok f).
  Let Hmw : 2 <= mw f := proj1 Hf.
  Let Hew : 2 <= ew f := proj2 Hf.

  Lemma fval_mval b : fval f b = signR (sgn f b) (mval f b).
  Proof. apply fval_abs. assumption. Qed.
  Lemma mval_nonneg b : (0 <= mval f b)%R.
  Proof. unfold mval. apply Rmult_le_pos; [apply IZR_le, sig_nonneg; assumption|apply bpow_ge_0]. Qed.
  Lemma mval_abs b : Rabs (fval f b) = mval f b.
  Proof.
    rewrite fval_mval. unfold signR. destruct (sgn f b =? 1); rewrite ?Rabs_Ropp; apply Rabs_pos_eq, mval_nonneg.
  Qed.
  Lemma mval_cval b : mval f b = (IZR (cval f (code f b)) * b2 (emin_ulp f))%R.
  Proof.
    rewrite (cval_sig f Hf). pose proof (sexp_ge f Hf b). rewrite mult_IZR, IZR_pow2 by lia.
    rewrite Rmult_assoc, <- bpow_plus. unfold mval. do 2 f_equal. lia.
  Qed.
  Lemma mval_pack s c : 0 <= c < sbit f -> mval f (pack f s c) = (IZR (cval f c) * b2 (emin_ulp f))%R.
  Proof. intros. rewrite mval_cval, pack_code by assumption. reflexivity. Qed.
  Lemma mval_zero b : is_zero f b = true <-> mval f b = 0%R.
  Proof.
    rewrite mval_cval. unfold is_zero. rewrite Z.eqb_eq. split.
    - intros ->. rewrite cval_0 by assumption. lra.
    - intros H. apply Rmult_integral in H. destruct H as [H|H]; [|pose proof (bpow_gt_0 radix2 (emin_ulp f)); lra].
      apply eq_IZR in H. apply (cval_inj f Hf); [apply code_range; assumption|lia|]. rewrite cval_0 by assumption. assumption.
  Qed.
  Lemma mval_inj a b : mval f a = mval f b -> code f a = code f b.
  Proof.
    rewrite !mval_cval. intros H. apply Rmult_eq_reg_r in H; [|apply Rgt_not_eq, bpow_gt_0].
    apply eq_IZR in H. apply (cval_inj f Hf); [apply code_range; assumption| |assumption]. apply code_range; assumption.
  Qed.
  Lemma mval_le a b : code f a <= code f b <-> (mval f a <= mval f b)%R.
  Proof.
    rewrite !mval_cval. pose proof (code_range f Hf a). pose proof (code_range f Hf b). split; intros H1.
    - apply Rmult_le_compat_r; [apply bpow_ge_0|]. apply IZR_le, cval_le; [assumption|lia].
    - destruct (Z.leb_spec (code f a) (code f b)) as [L|L]; [assumption|exfalso].
      apply Rmult_le_reg_r in H1; [|apply bpow_gt_0]. apply le_IZR in H1.
      pose proof (cval_lt f Hf (code f b) (code f a)). lia.
  Qed.
  Lemma bits_ext a b : is_bits f a -> is_bits f b -> sgn f a = sgn f b -> mval f a = mval f b -> a = b.
  Proof.
    intros Ha Hb Hs Hm. rewrite (pack_self f Hf a Ha), (pack_self f Hf b Hb), Hs, (mval_inj _ _ Hm). reflexivity.
  Qed.

  Lemma mval_normal b : 1 <= expf f b -> (b2 (expf f b - bias f) <= mval f b < b2 (expf f b - bias f + 1))%R.
  Proof.
    intros HE. unfold mval, sig, sexp. replace (expf f b =? 0) with false by (symmetry; apply Z.eqb_neq; lia).
    pose proof (man_range f Hf b). set (e := expf f b - bias f).
    replace (b2 e) with (b2 (mw f) * b2 (e - mw f))%R by (rewrite <- bpow_plus; f_equal; lia).
    replace (b2 (e + 1)) with (b2 (mw f + 1) * b2 (e - mw f))%R by (rewrite <- bpow_plus; f_equal; lia).
    rewrite <- (IZR_pow2 (mw f)), <- (IZR_pow2 (mw f + 1)) by lia. split.
    - apply Rmult_le_compat_r; [apply bpow_ge_0|]. apply IZR_le. lia.
    - apply Rmult_lt_compat_r; [apply bpow_gt_0|]. apply IZR_lt. rewrite pow2_S by lia. lia.
  Qed.
  Lemma mval_subnormal b : expf f b = 0 -> (mval f b < b2 (1 - bias f))%R.
  Proof.
    intros HE. unfold mval, sig, sexp. rewrite HE. cbn [Z.eqb]. pose proof (man_range f Hf b).
    replace (b2 (1 - bias f)) with (b2 (mw f) * b2 (1 - bias f - mw f))%R by (rewrite <- bpow_plus; f_equal; lia).
    rewrite <- (IZR_pow2 (mw f)) by lia. apply Rmult_lt_compat_r; [apply bpow_gt_0|]. apply IZR_lt. lia.
  Qed.
  Lemma mval_lt_pow b e : 1 - bias f <= e -> ((mval f b < b2 e)%R <-> expf f b - bias f < e).
  Proof.
    intros He. pose proof (expf_range f Hf b). split; intros Hlt.
    - destruct (Z.eq_dec (expf f b) 0); [lia|]. pose proof (mval_normal b ltac:(lia)) as [Hn _].
      apply (lt_bpow radix2). lra.
    - destruct (Z.eq_dec (expf f b) 0) as [E|E].
      + eapply Rlt_le_trans; [apply mval_subnormal; assumption|]. apply bpow_le. lia.
      + eapply Rlt_le_trans; [apply mval_normal; lia|]. apply bpow_le. lia.
  Qed.
  Lemma mval_finite b : is_finite f b = true -> (mval f b < b2 (bias f + 1))%R.
  Proof.
    intros H. apply (finite_expf f Hf) in H. unfold expmax in H. destruct (bias_bounds f Hf).
    apply mval_lt_pow; lia.
  Qed.
  Lemma expf_of_mval b e : 1 - bias f <= e -> (b2 e <= mval f b < b2 (e + 1))%R -> expf f b = e + bias f.
  Proof.
    intros He [H1 H2]. apply mval_lt_pow in H2; [|lia].
    assert (~ expf f b - bias f < e) by (intros H; apply mval_lt_pow in H; [lra|assumption]). lia.
  Qed.

  Lemma mval_generic b : generic_format radix2 (FLT_exp (emin_ulp f) (mw f + 1)) (mval f b).
  Proof.
    apply generic_format_FLT. exists (Float radix2 (sig f b) (sexp f b)).
    - reflexivity.
    - cbn [Fnum]. change (radix_val radix2) with 2. pose proof (sig_nonneg f Hf b). pose proof (sig_lt f Hf b). rewrite Z.abs_eq by assumption. lia.
    - cbn [Fexp]. apply sexp_ge. assumption.
  Qed.
End value.

(** y is the finite pattern with sign s and magnitude X *)
Definition denotes (f : fmt) (y s : Z) (X : R) : Prop :=
  is_bits f y /\ is_finite f y = true /\ sgn f y = s /\ mval f y = X.

Lemma denotes_unique f y y' s X : fmt_ok f -> denotes f y s X -> denotes f y' s X -> y = y'.
Proof. intros Hf (A & B & C & D) (A' & B' & C' & D'). apply (bits_ext f Hf); congruence. Qed.

Lemma denotes_self f x : is_bits f x -> is_finite f x = true -> denotes f x (sgn f x) (mval f x).
Proof. intros. split; [assumption|split; [assumption|split; reflexivity]]. Qed.

Lemma denotes_fval f y s X : fmt_ok f -> denotes f y s X -> fval f y = signR s X.
Proof. intros Hf (_ & _ & <- & <-). apply fval_mval. assumption. Qed.

Lemma denotes_pack f s c : fmt_ok f -> (s = 0 \/ s = 1) -> 0 <= c < inf_code f ->
  denotes f (pack f s c) s (IZR (cval f c) * b2 (emin_ulp f))%R.
Proof.
  intros Hf Hs Hc. pose proof (inf_code_eq f Hf). pose proof (mw_pos f Hf). assert (0 <= c < sbit f) by lia.
  split; [|split; [|split]].
  - apply pack_bits; assumption.
  - apply finite_code; [assumption|]. rewrite pack_code by assumption. lia.
  - apply pack_sgn; assumption.
  - apply mval_pack; assumption.
Qed.

Lemma denotes_zero f s : fmt_ok f -> (s = 0 \/ s = 1) -> denotes f (zero f s) s 0%R.
Proof.
  intros Hf Hs. replace (zero f s) with (pack f s 0) by (unfold pack, zero; lia).
  replace 0%R with (IZR (cval f 0) * b2 (emin_ulp f))%R by (rewrite cval_0 by assumption; lra).
  apply denotes_pack; [assumption|assumption|]. pose proof (inf_code_pos f Hf). lia.
Qed.

(** a representable magnitude below the overflow threshold converts exactly *)
Lemma fconv_exact f g b s X : fmt_ok f -> fmt_ok g -> denotes f b s X ->
  generic_format radix2 (FLT_exp (emin_ulp g) (mw g + 1)) X -> (X < b2 (bias g + 1))%R ->
  denotes g (fconv f g b) s X.
Proof.
  intros Hf Hg (Hb & Fb & Hs & HX) HG Hlt. rewrite fconv_finite by assumption.
  pose proof (sig_nonneg f Hf b) as H0. pose proof (sgn_01 f b) as Hs01. rewrite Hs in *.
  destruct (Z.eq_dec (sig f b) 0) as [E|E].
  - rewrite E, round_pack_zero. replace X with 0%R by (rewrite <- HX; unfold mval; rewrite E; lra).
    replace (pack g s 0) with (zero g s) by (unfold pack, zero; lia). apply denotes_zero; assumption.
  - destruct (round_pack_correct g s (sig f b) (sexp f b) Hg Hs01 ltac:(lia)) as [(c & H1 & H2 & H3 & H4)|[_ H]];
      fold (mval f b) in *; rewrite HX in *.
    + replace (rnd (femin g) (mw g) X) with X in H3.
      2:{ unfold rnd. rewrite round_generic; [reflexivity|apply valid_rnd_N|exact HG]. }
      rewrite H1, <- H3. apply denotes_pack; assumption.
    + exfalso. replace (rnd (femin g) (mw g) X) with X in H; [lra|].
      unfold rnd. rewrite round_generic; [reflexivity|apply valid_rnd_N|exact HG].
Qed.

Lemma generic_FLT_inclusion e p e' p' x : 0 < p -> e' <= e -> p <= p' ->
  generic_format radix2 (FLT_exp e p) x -> generic_format radix2 (FLT_exp e' p') x.
Proof.
  intros Hp He Hpp HG. apply FLT_format_generic in HG; [|exact Hp]. destruct HG as [fl H1 H2 H3].
  apply generic_format_FLT. exists fl; [assumption| |lia].
  eapply Z.lt_le_trans; [exact H2|]. change (radix_val radix2) with 2. apply Z.pow_le_mono_r; lia.
Qed.

(** widening conversion *)
Definition wider (f g : fmt) : Prop := mw f <= mw g /\ emin_ulp g <= emin_ulp f /\ bias f <= bias g.

Lemma fconv_widen f g b : fmt_ok f -> fmt_ok g -> wider f g -> is_bits f b -> is_finite f b = true ->
  denotes g (fconv f g b) (sgn f b) (mval f b).
Proof.
  intros Hf Hg (W1 & W2 & W3) Hb Fb. apply (fconv_exact f g); try assumption.
  - apply denotes_self; assumption.
  - eapply generic_FLT_inclusion; [| | |apply mval_generic; assumption]; destruct Hf; lia.
  - eapply Rlt_le_trans; [apply mval_finite; assumption|]. apply bpow_le. lia.
Qed.

Lemma ok32 : fmt_ok binary32. Proof. split; cbn; lia. Qed.
Lemma ok64 : fmt_ok binary64. Proof. split; cbn; lia. Qed.
Lemma ok128 : fmt_ok binary128. Proof. split; cbn; lia. Qed.
