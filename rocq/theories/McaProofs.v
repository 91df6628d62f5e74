(** Proofs about the Monte Carlo arithmetic backends. *)
From Coq Require Import ZArith Reals Bool Lia Lra List.
From Flocq Require Import Core.
From Verif Require Import Common Bits BitsFacts FloatReal FloatValue FloatOps DoubleRound StdlibModel StdlibProofs RngModel RngProofs McaModel.
Open Scope Z_scope.
Open Scope outcome_scope.

(** * Comparisons *)
Lemma fkey_uval f a b : fmt_ok f -> (fkey f a < fkey f b <-> (fval f a < fval f b)%R).
Proof.
  intros Hf. rewrite !(fval_uval f) by assumption.
  assert (M : uval f a < uval f b <-> (IZR (uval f a) * bpow radix2 (emin_ulp f) < IZR (uval f b) * bpow radix2 (emin_ulp f))%R).
  { split; intros H.
    - apply Rmult_lt_compat_r; [apply bpow_gt_0|apply IZR_lt; exact H].
    - apply Rmult_lt_reg_r in H; [apply lt_IZR; exact H|apply bpow_gt_0]. }
  rewrite <- M. unfold fkey, uval. pose proof (code_range f Hf a) as Ca. pose proof (code_range f Hf b) as Cb.
  assert (L : forall c d, 0 <= c -> 0 <= d -> (c < d <-> cval f c < cval f d)).
  { intros c d Hc Hd. split; intros H; [apply cval_lt; [assumption|lia]|].
    destruct (Z.lt_ge_cases c d) as [?|G]; [assumption|]. pose proof (cval_le f Hf d c ltac:(lia)). lia. }
  pose proof (cval_nonneg f Hf (code f a) ltac:(lia)). pose proof (cval_nonneg f Hf (code f b) ltac:(lia)).
  pose proof (L 0 (code f a) ltac:(lia) ltac:(lia)) as La. pose proof (L 0 (code f b) ltac:(lia) ltac:(lia)) as Lb.
  rewrite (cval_0 f Hf) in La, Lb. pose proof (L (code f a) (code f b) ltac:(lia) ltac:(lia)). pose proof (L (code f b) (code f a) ltac:(lia) ltac:(lia)).
  destruct (sgn f a =? 1), (sgn f b =? 1); lia.
Qed.
Lemma fgt_spec f a b : fmt_ok f -> is_nan f a = false -> is_nan f b = false -> (fgt f a b = true <-> (fval f b < fval f a)%R).
Proof. intros Hf Na Nb. unfold fgt. rewrite Na, Nb. cbn [negb andb]. rewrite Z.ltb_lt. apply fkey_uval. assumption. Qed.
Lemma fge_spec f a b : fmt_ok f -> is_nan f a = false -> is_nan f b = false -> (fge f a b = true <-> (fval f b <= fval f a)%R).
Proof.
  intros Hf Na Nb. unfold fge. rewrite Na, Nb. cbn [negb andb]. rewrite Z.leb_le. pose proof (fkey_uval f a b Hf) as K. split; intros H.
  - destruct (Rle_or_lt (fval f b) (fval f a)) as [?|L]; [assumption|]. apply K in L. lia.
  - destruct (Z.le_gt_cases (fkey f b) (fkey f a)) as [?|L]; [assumption|]. assert (fkey f a < fkey f b) as L' by lia. apply K in L'. lra.
Qed.

(** * The two computation formats *)
Definition narrow (f : fmt) : Prop := f = binary32 \/ f = binary64.
Definition big (g : fmt) : Prop := fmt_ok g /\ 52 <= mw g <= 1024 /\ 1023 <= bias g <= 2 ^ 20 /\ emin_ulp g <= -1074.
Lemma narrow_ok f : narrow f -> fmt_ok f.
Proof. intros [-> | ->]; [apply ok32|apply ok64]. Qed.
Lemma wide_big f : narrow f -> big (wide f).
Proof.
  intros [-> | ->]; unfold big; [change (wide binary32) with binary64|change (wide binary64) with binary128].
  - split; [apply ok64|]. vm_compute. repeat split; congruence.
  - split; [apply ok128|]. vm_compute. repeat split; congruence.
Qed.
Lemma wide_roomy f : narrow f -> roomy f (wide f).
Proof. intros [-> | ->]; [apply roomy_32_64|apply roomy_64_128]. Qed.
Lemma big_ok g : big g -> fmt_ok g. Proof. intros H. apply H. Qed.

Definition dop (o : binop) : dval -> dval -> dval :=
  match o with OpAdd => dadd | OpSub => dsub | OpMul => dmul | OpDiv => ddiv end.
Lemma perform_encodes n o g a b : ieee_arith n -> fmt_ok g -> is_bits g a -> is_bits g b ->
  encodes g (dop o (dec g a) (dec g b)) (perform n o g a b).
Proof. intros Hn Hg Ha Hb. destruct (Hn g Hg a b Ha Hb) as (H1 & H2 & H3 & H4 & _). destruct o; assumption. Qed.

Lemma conv_op f g o a b y : fmt_ok f -> fmt_ok g -> roomy f g -> is_bits f a -> is_bits f b ->
  encodes g (dop o (dec f a) (dec f b)) y -> encodes f (dop o (dec f a) (dec f b)) (fconv g f y).
Proof. intros Hf Hg Hr Ha Hb. destruct o; [apply conv_add|apply conv_sub|apply conv_mul|apply conv_div]; assumption. Qed.

(** narrowing a widened pattern gives it back (NaNs become the canonical one) *)
Lemma fconv_nan f g b : fmt_ok f -> fmt_ok g -> is_nan g (fconv f g b) = true -> fconv f g b = qnan g.
Proof.
  intros Hf Hg. unfold fconv. destruct (is_nan f b); [reflexivity|]. destruct (is_inf f b).
  - intros H. destruct (inf_is_inf g (sgn f b) Hg (sgn_01 _ _)) as (_ & E & _). congruence.
  - intros H. exfalso. pose proof (sig_nonneg f Hf b) as Hm. pose proof (sgn_01 f b) as Hs. revert H.
    destruct (Z.eq_dec (sig f b) 0) as [->|M0].
    + unfold round_pack. cbn [Z.eqb]. intros K. destruct (denotes_zero g (sgn f b) Hg Hs) as (_ & F & _). destruct (finite_not_nan g _ F). congruence.
    + destruct (round_pack_correct g (sgn f b) (sig f b) (sexp f b) Hg Hs ltac:(lia)) as [(c & H1 & H2 & _)|[H1 _]].
      * rewrite H1. intros K. destruct (denotes_pack g (sgn f b) c Hg Hs H2) as (_ & F & _). destruct (finite_not_nan g _ F). congruence.
      * rewrite H1. destruct (inf_is_inf g (sgn f b) Hg Hs) as (_ & E & _). congruence.
Qed.
Lemma narrow_widen f g z : fmt_ok f -> fmt_ok g -> roomy f g -> is_bits f z -> (is_nan f z = true -> z = qnan f) ->
  fconv g f (fconv f g z) = z.
Proof.
  intros Hf Hg Hr Hz Hn. destruct (is_nan f z) eqn:N.
  - rewrite Hn by reflexivity. destruct (qnan_bits f Hf) as [_ Nf]. destruct (qnan_bits g Hg) as [_ Ng].
    unfold fconv. rewrite Nf, Ng. reflexivity.
  - apply (encodes_unique f (dec f z)); [assumption| | |apply encodes_dec; assumption].
    + unfold dec. rewrite N. destruct (is_inf f z); discriminate.
    + rewrite <- (dec_widen f g Hf Hg Hr z Hz). apply fconv_encodes; assumption.
Qed.
Lemma daz_ftz_bits f z : fmt_ok f -> is_bits f z -> is_bits f (daz_ftz f z).
Proof. intros Hf Hz. unfold daz_ftz. destruct (fpclassify f z); try assumption. pose proof (sbit_pos f Hf). unfold is_bits. lia. Qed.
Lemma demote_eq f g c x : fmt_ok f -> fmt_ok g -> roomy f g ->
  demote g f c x = if m_ftz c then daz_ftz f (fconv g f x) else fconv g f x.
Proof.
  intros Hf Hg Hr. unfold demote. destruct (m_ftz c); [|reflexivity].
  pose proof (proj1 (fconv_encodes g f x Hg Hf)) as B. apply narrow_widen; try assumption; [apply daz_ftz_bits; assumption|].
  unfold daz_ftz. destruct (fpclassify f (fconv g f x)) eqn:C; try (intros N; apply fconv_nan; assumption).
  intros N. exfalso. destruct (denotes_zero f 0 Hf (or_introl eq_refl)) as (_ & F & _). destruct (finite_not_nan f _ F) as [E _].
  unfold zero in E. rewrite Z.mul_0_l in E. congruence.
Qed.

(** operand as the operation sees it *)
Definition flushed (f : fmt) (c : mctx) (a : Z) : Z := if m_daz c then daz_ftz f a else a.
Lemma flushed_bits f c a : fmt_ok f -> is_bits f a -> is_bits f (flushed f c a).
Proof. intros Hf Ha. unfold flushed. destruct (m_daz c); [apply daz_ftz_bits|]; assumption. Qed.

(** * ieee mode *)
Lemma ieee_binary n k clk f c o a b st : ieee_arith n -> narrow f -> m_mode c = mca_ieee -> is_bits f a -> is_bits f b ->
  exists y, encodes f (dop o (dec f (flushed f c a)) (dec f (flushed f c b))) y /\
  mca_binary_op n k clk f c o a b st = Ok (if m_ftz c then daz_ftz f y else y, st).
Proof.
  intros Hn Hf Hm Ha Hb. pose proof (narrow_ok f Hf) as Of. pose proof (big_ok _ (wide_big f Hf)) as Og. pose proof (wide_roomy f Hf) as Hr.
  pose proof (flushed_bits f c a Of Ha) as Fa. pose proof (flushed_bits f c b Of Hb) as Fb.
  unfold mca_binary_op. rewrite Hm. cbn [noises_in noises_out inexact_if bind].
  set (x := perform n o (wide f) _ _). rewrite demote_eq by assumption. exists (fconv (wide f) f x). split; [|destruct (m_ftz c); reflexivity].
  apply (conv_op f (wide f)); try assumption. unfold x, promote.
  rewrite <- (dec_widen f (wide f) Of Og Hr _ Fa), <- (dec_widen f (wide f) Of Og Hr _ Fb).
  apply perform_encodes; try assumption; apply widen_bits; assumption.
Qed.
Lemma ieee_cast n k clk c a st : m_mode c = mca_ieee -> is_bits binary64 a -> m_ftz c = false ->
  mca_cast n k clk c a st = Ok (fconv binary64 binary32 (flushed binary64 c a), st).
Proof.
  intros Hm Ha Hft. unfold mca_cast. rewrite Hm. cbn [noises_in noises_out inexact_if bind]. f_equal. f_equal.
  rewrite (demote_eq binary64 binary128 c _ ok64 ok128 roomy_64_128), Hft. unfold promote. fold (flushed binary64 c a).
  pose proof (flushed_bits binary64 c a ok64 Ha) as Fa. set (z := flushed binary64 c a) in *.
  set (w := fconv binary128 binary32 (fconv binary64 binary128 z)).
  assert (Bw : is_bits binary32 w) by (apply fconv_encodes; [apply ok128|apply ok32]).
  assert (Ew : w = fconv binary64 binary32 z).
  { destruct (is_nan binary64 z) eqn:N.
    - unfold w, fconv. rewrite N. destruct (qnan_bits binary128 ok128) as [_ ->]. reflexivity.
    - apply (encodes_unique binary32 (dec binary64 z)); [apply ok32| | |apply fconv_encodes; [apply ok64|apply ok32]].
      + unfold dec. rewrite N. destruct (is_inf binary64 z); discriminate.
      + unfold w. rewrite <- (dec_widen binary64 binary128 ok64 ok128 roomy_64_128 z Fa). apply fconv_encodes; [apply ok128|apply ok32]. }
  (* widening w to quad, then narrowing to double and to float *)
  assert (R3 : roomy binary32 binary128) by (vm_compute; repeat split; congruence).
  assert (E1 : fconv binary128 binary64 (fconv binary32 binary128 w) = fconv binary32 binary64 w).
  { destruct (is_nan binary32 w) eqn:N.
    - unfold fconv. rewrite N. destruct (qnan_bits binary128 ok128) as [_ ->]. reflexivity.
    - apply (encodes_unique binary64 (dec binary32 w)); [apply ok64| | |apply fconv_encodes; [apply ok32|apply ok64]].
      + unfold dec. rewrite N. destruct (is_inf binary32 w); discriminate.
      + rewrite <- (dec_widen binary32 binary128 ok32 ok128 R3 w Bw) at 1. apply fconv_encodes; [apply ok128|apply ok64]. }
  rewrite E1, narrow_widen; [exact Ew|apply ok32|apply ok64|apply roomy_32_64|assumption|].
  intros N. apply fconv_nan; [apply ok128|apply ok32|exact N].
Qed.

(** * Noise *)
Section noise.
  Context (n : arith) (Hn : ieee_arith n) (clk : Z).

  (** the 52 bits of the next draw *)
  Definition kdraw (st : rst) : Z := fst (fst (draw64 (fst st) (snd st) clk)) / 2 ^ 12.
  Definition after (st : rst) : rst := snd (uint64_rand clk st).
  Lemma kdraw_range st : 0 <= kdraw st < 2 ^ 52.
  Proof.
    unfold kdraw, draw64. destruct (init_random_state (fst st) (snd st) clk) as [r t]. cbn [fst snd]. pose proof (xresult_u64 (words r)) as H.
    unfold is_u64 in H. split; [apply Z.div_pos; lia|apply Z.div_lt_upper_bound; lia].
  Qed.
  Lemma double01_spec st : snd (double01 clk st) = after st /\
    is_finite binary64 (fst (double01 clk st)) = true /\ fval binary64 (fst (double01 clk st)) = (IZR (kdraw st) * b2 (-52))%R.
  Proof.
    unfold double01, after, uint64_rand, kdraw, get_rand_double01, draw64. destruct (init_random_state (fst st) (snd st) clk) as [r t].
    cbn [fst snd]. split; [reflexivity|]. apply to_double_value, xresult_u64.
  Qed.

  Lemma small_generic g m e : Z.abs m < 2 ^ (mw g + 1) -> emin_ulp g <= e ->
    generic_format radix2 (FLT_exp (emin_ulp g) (mw g + 1)) (IZR m * b2 e).
  Proof. intros Hm He. apply generic_format_FLT. exists (Float radix2 m e); [reflexivity|exact Hm|exact He]. Qed.
  Lemma encodes_exact g s X y : fmt_ok g -> generic_format radix2 (FLT_exp (emin_ulp g) (mw g + 1)) X -> (Rabs X < b2 (bias g + 1))%R ->
    encodes g (DFin s X) y -> is_bits g y /\ is_finite g y = true /\ fval g y = X /\ sgn g y = rsign s X.
  Proof.
    intros Hg G L [B E]. cbn zeta in E. rewrite (rnd_generic g X G) in E. destruct E as [E _]. split; [exact B|]. apply E. exact L.
  Qed.

  Lemma minus_half_spec g : big g -> is_bits g (minus_half g) /\ is_finite g (minus_half g) = true /\ fval g (minus_half g) = (-1/2)%R.
  Proof.
    intros (Hg & Hm & Hb & He). unfold minus_half. split; [apply make_bits; assumption|].
    destruct (bias_bounds g Hg) as [_ Hbb].
    assert (E : expf g (make g 1 (bias g - 1) 0) = bias g - 1) by (rewrite make_expf by assumption; apply Z.mod_small; lia).
    assert (M : man g (make g 1 (bias g - 1) 0) = 0) by (rewrite make_man by assumption; apply Z.mod_0_l; pose proof (mw_pos g Hg); lia).
    split; [apply (finite_expf g); [assumption|rewrite E; unfold expmax; lia]|].
    unfold fval, ssig, sig, sexp. rewrite E, M, make_sgn by assumption. change (1 mod 2) with 1. change (1 =? 1) with true. cbv iota.
    destruct (Z.eqb_spec (bias g - 1) 0); [lia|]. rewrite Z.add_0_r, opp_IZR, IZR_pow2 by lia.
    rewrite Ropp_mult_distr_l_reverse, <- bpow_plus. replace (mw g + (bias g - 1 - bias g - mw g)) with (-1) by lia. change (b2 (-1)) with (/2)%R. lra.
  Qed.

  (** increasing the exponent field multiplies by a power of two *)
  Lemma scale_exp g r e : fmt_ok g -> is_finite g r = true -> 1 <= expf g r -> 1 <= expf g r + e <= expmax g - 1 ->
    let y := make g (sgn g r) (expf g r + e) (man g r) in
    is_bits g y /\ is_finite g y = true /\ fval g y = (fval g r * b2 e)%R.
  Proof.
    intros Hg Fr E1 E2. cbn zeta. set (y := make _ _ _ _). pose proof (expf_range g Hg r) as Er. pose proof (man_range g Hg r) as Mr.
    assert (Ey : expf g y = expf g r + e) by (unfold y; rewrite make_expf by assumption; apply Z.mod_small; unfold expmax in E2; lia).
    assert (My : man g y = man g r) by (unfold y; rewrite make_man by assumption; apply Z.mod_small; exact Mr).
    assert (Sy : sgn g y = sgn g r) by (unfold y; rewrite make_sgn by assumption; destruct (sgn_01 g r) as [-> | ->]; reflexivity).
    split; [apply make_bits; assumption|]. split; [apply (finite_expf g); [assumption|lia]|].
    unfold fval, ssig, sig, sexp. rewrite Ey, My, Sy. destruct (Z.eqb_spec (expf g r) 0); [lia|]. destruct (Z.eqb_spec (expf g r + e) 0); [lia|].
    rewrite Rmult_assoc, <- bpow_plus. do 2 f_equal. lia.
  Qed.

  Lemma noise_quad_value g e st : big g -> kdraw st <> 2 ^ 51 -> 53 - bias g <= e <= bias g + 1 ->
    exists z, noise_quad n clk g e st = Ok (z, after st) /\ is_bits g z /\ is_finite g z = true /\
    fval g z = ((IZR (kdraw st) * b2 (-52) - 1/2) * b2 e)%R.
  Proof.
    intros Hbig Hk He. pose proof Hbig as (Hg & Hm & Hb & Hem). unfold noise_quad. destruct (double01_spec st) as (D1 & D2 & D3).
    destruct (double01 clk st) as [d st'] eqn:ED. cbn [fst snd] in D1, D2, D3. subst st'. pose proof (kdraw_range st) as Kr. set (k := kdraw st) in *.
    destruct (bias_bounds g Hg) as [_ Hbb].
    assert (P52 : (2 ^ 52 = 4503599627370496)%Z) by reflexivity.
    assert (W : 2 ^ 53 <= 2 ^ (mw g + 1)) by (apply pow2_le; lia). assert (P53 : (2 ^ 53 = 2 * 2 ^ 52)%Z) by reflexivity.
    (* the draw in format g *)
    assert (Gd : is_bits g (fconv binary64 g d) /\ is_finite g (fconv binary64 g d) = true /\ fval g (fconv binary64 g d) = (IZR k * b2 (-52))%R).
    { pose proof (fconv_encodes binary64 g d ok64 Hg) as E. rewrite (dec_finite _ _ D2), D3 in E. apply encodes_exact in E; [tauto|assumption| |].
      - apply small_generic; lia.
      - rewrite Rabs_pos_eq by (apply Rmult_le_pos; [apply IZR_le; lia|apply bpow_ge_0]).
        apply Rlt_le_trans with (b2 52 * b2 (-52))%R; [apply Rmult_lt_compat_r; [apply bpow_gt_0|rewrite <- IZR_pow2 by lia; apply IZR_lt; lia]|].
        rewrite <- bpow_plus. apply bpow_le. lia. }
    destruct Gd as (Bd & Fd & Vd). destruct (minus_half_spec g Hbig) as (Bh & Fh & Vh).
    destruct (Hn g Hg _ _ Bd Bh) as (HA & _). rewrite (dec_finite _ _ Fd), (dec_finite _ _ Fh), Vd, Vh in HA. cbn [dadd] in HA.
    replace (IZR k * b2 (-52) + -1/2)%R with (IZR (k - 2 ^ 51) * b2 (-52))%R in HA.
    2:{ rewrite minus_IZR, IZR_pow2 by lia. rewrite Rmult_minus_distr_r, <- bpow_plus. change (b2 (51 + -52)) with (/2)%R. lra. }
    assert (P51 : (2 ^ 52 = 2 * 2 ^ 51)%Z) by reflexivity.
    assert (Labs : (Rabs (IZR (k - 2 ^ 51) * b2 (-52)) <= b2 (-1))%R).
    { rewrite Rabs_mult, <- abs_IZR, (Rabs_pos_eq (b2 _)) by apply bpow_ge_0.
      apply Rle_trans with (b2 51 * b2 (-52))%R; [apply Rmult_le_compat_r; [apply bpow_ge_0|rewrite <- IZR_pow2 by lia; apply IZR_le; lia]|].
      rewrite <- bpow_plus. right. reflexivity. }
    assert (Uabs : (b2 (-52) <= Rabs (IZR (k - 2 ^ 51) * b2 (-52)))%R).
    { rewrite Rabs_mult, <- abs_IZR, (Rabs_pos_eq (b2 _)) by apply bpow_ge_0. rewrite <- (Rmult_1_l (b2 (-52))) at 1.
      apply Rmult_le_compat_r; [apply bpow_ge_0|apply IZR_le; lia]. }
    apply encodes_exact in HA; [|assumption|apply small_generic; lia|eapply Rle_lt_trans; [exact Labs|apply bpow_lt; lia]].
    destruct HA as (Br & Fr & Vr & _). set (r := n_add n g (fconv binary64 g d) (minus_half g)) in *.
    rewrite <- Vr, (mval_abs g Hg) in Labs, Uabs.
    assert (E1 : bias g - 52 <= expf g r).
    { destruct (Z.le_gt_cases (bias g - 52) (expf g r)) as [?|L]; [assumption|]. assert (expf g r - bias g < -52) as L' by lia.
      apply (mval_lt_pow g Hg) in L'; [lra|lia]. }
    assert (E2 : expf g r < bias g).
    { assert (expf g r - bias g < 0); [|lia]. apply (mval_lt_pow g Hg); [lia|]. eapply Rle_lt_trans; [exact Labs|]. apply bpow_lt. lia. }
    unfold int_op. assert (EI : in_int (expf g r + e) = true).
    { unfold in_int. apply andb_true_iff. rewrite Z.leb_le, Z.ltb_lt. change (2 ^ 20) with 1048576 in Hb. change (2 ^ 31) with 2147483648. lia. }
    rewrite EI. cbn [bind]. eexists. split; [reflexivity|].
    destruct (scale_exp g r e Hg Fr) as (B & F & V); [lia|unfold expmax; lia|]. split; [exact B|]. split; [exact F|]. rewrite V, Vr.
    f_equal. rewrite minus_IZR, IZR_pow2 by lia. rewrite Rmult_minus_distr_r, <- bpow_plus. change (b2 (51 + -52)) with (/2)%R. lra.
  Qed.
End noise.

(** spacing of the patterns around a binade *)
Lemma cval_succ f c : fmt_ok f -> 0 <= c -> cval f (c + 1) = cval f c + 2 ^ (Z.max 1 (c / 2 ^ mw f) - 1).
Proof.
  intros Hf Hc. pose proof (mw_pos f Hf) as Hp. assert (Hmw : 0 <= mw f) by (destruct Hf; lia).
  pose proof (Z.div_mod c (2 ^ mw f) ltac:(lia)) as Hd. pose proof (Z.mod_pos_bound c (2 ^ mw f) Hp) as Hm.
  assert (Hq : 0 <= c / 2 ^ mw f) by (apply Z.div_pos; lia).
  set (q := c / 2 ^ mw f) in *. set (m := c mod 2 ^ mw f) in *.
  destruct (Z.eq_dec q 0) as [E|E].
  - rewrite E. replace c with (0 * 2 ^ mw f + m) by lia. rewrite (cval_add f Hf) by (rewrite ?pow2_S; lia).
    replace (0 * 2 ^ mw f + m + 1) with (0 * 2 ^ mw f + (m + 1)) by lia.
    rewrite (cval_add f Hf) by (rewrite ?pow2_S; lia). change (2 ^ 0) with 1. change (2 ^ (Z.max 1 0 - 1)) with 1. lia.
  - replace c with ((q - 1) * 2 ^ mw f + (2 ^ mw f + m)) by lia. rewrite (cval_add f Hf) by (rewrite ?pow2_S; lia).
    replace ((q - 1) * 2 ^ mw f + (2 ^ mw f + m) + 1) with ((q - 1) * 2 ^ mw f + (2 ^ mw f + m + 1)) by lia.
    rewrite (cval_add f Hf) by (rewrite ?pow2_S; lia). rewrite Z.max_r by lia. lia.
Qed.
Lemma cval_diff f c d : fmt_ok f -> 0 <= c -> 0 <= d -> cval f (c + d) - cval f c <= d * 2 ^ (Z.max 1 ((c + d) / 2 ^ mw f) - 1).
Proof.
  intros Hf Hc Hd. rewrite <- (Z2Nat.id d) by assumption. induction (Z.to_nat d) as [|n IH].
  - rewrite Z.add_0_r. lia.
  - rewrite Nat2Z.inj_succ. unfold Z.succ. rewrite Z.add_assoc. rewrite cval_succ by (assumption || lia).
    pose proof (mw_pos f Hf) as Hp. set (d' := c + Z.of_nat n) in *.
    assert (H1 : d' / 2 ^ mw f <= (d' + 1) / 2 ^ mw f) by (apply Z.div_le_mono; lia).
    assert (H2 : 2 ^ (Z.max 1 (d' / 2 ^ mw f) - 1) <= 2 ^ (Z.max 1 ((d' + 1) / 2 ^ mw f) - 1)) by (apply pow2_le; lia).
    assert (H3 : 0 < 2 ^ (Z.max 1 (d' / 2 ^ mw f) - 1)) by (apply pow2_pos; lia). nia.
Qed.

(** * The perturbation relations *)
(** mcaquad: X + xi * 2^(e_X - t), with X = m * 2^e_X, 1/2 <= |m| < 1, rounded to the computation format *)
Definition noised_quad (g : fmt) (t : Z) (X Y : R) : Prop :=
  exists xi : R, (-1/2 <= xi < 1/2)%R /\ Y = rnd (femin g) (mw g) (X + xi * b2 (mag radix2 X - t)).
(** mcaint: same sign, and distance at most half a unit in the t-th digit of the larger *)
Definition noised_int (t : Z) (X Y : R) : Prop :=
  (0 < X * Y)%R /\ (Rabs (Y - X) <= b2 (Z.max (mag radix2 X) (mag radix2 Y) - 1 - t))%R.
Definition noised (k : mkind) (g : fmt) (t : Z) (X Y : R) : Prop :=
  match k with Quad => noised_quad g t X Y | Int _ => noised_int t X Y end.
(** one application of the inexact function *)
Definition perturbed (k : mkind) (m : mcamode) (g : fmt) (t : Z) (X Y : R) : Prop :=
  (X = 0%R /\ Y = 0%R) \/ (X <> 0%R /\ m = mca_rr /\ fits t X /\ Y = X) \/
  (X <> 0%R /\ ~ (m = mca_rr /\ fits t X) /\ noised k g t X Y).

(** finite, and zero or of magnitude between two powers of two *)
Definition good (g : fmt) (lo hi : Z) (x : Z) : Prop :=
  is_bits g x /\ is_finite g x = true /\ (fval g x = 0%R \/ (b2 lo <= Rabs (fval g x) <= b2 hi)%R).

Lemma good_normal g lo hi x : fmt_ok g -> 1 - bias g <= lo -> good g lo hi x -> fval g x <> 0%R ->
  1 <= expf g x /\ lo <= expf g x - bias g <= hi /\ mag radix2 (fval g x) = expf g x - bias g + 1 :> Z.
Proof.
  intros Hg Hlo (B & F & [Z0|[L U]]) Hne; [congruence|]. rewrite (mval_abs g Hg) in L, U.
  assert (El : lo <= expf g x - bias g).
  { destruct (Z.le_gt_cases lo (expf g x - bias g)) as [?|K]; [assumption|]. assert (expf g x - bias g < lo) as K' by lia.
    apply (mval_lt_pow g Hg) in K'; [lra|lia]. }
  assert (E1 : 1 <= expf g x) by lia. destruct (mval_normal g Hg x E1) as [N1 N2].
  split; [exact E1|]. split; [split; [exact El|]|].
  - apply (le_bpow radix2). lra.
  - apply mag_unique. rewrite (mval_abs g Hg). replace (expf g x - bias g + 1 - 1) with (expf g x - bias g) by lia. lra.
Qed.
Lemma bpow_generic g e : fmt_ok g -> 1 - bias g <= e -> generic_format radix2 (FLT_exp (emin_ulp g) (mw g + 1)) (b2 e).
Proof. intros Hg He. apply generic_format_bpow. unfold FLT_exp, emin_ulp. destruct Hg. lia. Qed.
Lemma rnd_between g lo hi X : fmt_ok g -> 1 - bias g <= lo <= hi -> (b2 lo <= Rabs X <= b2 hi)%R ->
  (b2 lo <= Rabs (rnd (femin g) (mw g) X) <= b2 hi)%R.
Proof.
  intros Hg Hlo [L U]. assert (Pv : Prec_gt_0 (mw g + 1)) by (unfold Prec_gt_0; destruct Hg; lia).
  assert (V : Valid_exp (FLT_exp (femin g - mw g) (mw g + 1))) by (apply FLT_exp_valid; exact Pv). unfold rnd. split.
  - apply abs_round_ge_generic; [exact V|apply valid_rnd_N|apply (bpow_generic g); [assumption|lia]|exact L].
  - apply abs_round_le_generic; [exact V|apply valid_rnd_N|apply (bpow_generic g); [assumption|lia]|exact U].
Qed.
(** an encoding of a real between two powers of two *)
Lemma encodes_good g lo hi s X y : fmt_ok g -> 1 - bias g <= lo <= hi -> hi <= bias g -> (b2 lo <= Rabs X <= b2 hi)%R ->
  encodes g (DFin s X) y -> good g lo hi y /\ fval g y = rnd (femin g) (mw g) X.
Proof.
  intros Hg Hlo Hhi HX [B [E _]]. pose proof (rnd_between g lo hi X Hg Hlo HX) as HR. cbn zeta in E.
  destruct E as (F & V & _); [eapply Rle_lt_trans; [apply HR|apply bpow_lt; lia]|]. split; [|exact V].
  split; [exact B|]. split; [exact F|]. right. rewrite V. exact HR.
Qed.
Lemma encodes_good_zero g lo hi s y : fmt_ok g -> encodes g (DFin s 0) y -> good g lo hi y /\ fval g y = 0%R.
Proof.
  intros Hg [B [E _]]. cbn zeta in E. assert (R0 : rnd (femin g) (mw g) 0 = 0%R) by (apply round_0; apply valid_rnd_N). rewrite R0 in E.
  destruct E as (F & V & _); [rewrite Rabs_R0; apply bpow_gt_0|]. split; [split; [exact B|split; [exact F|left; exact V]]|exact V].
Qed.

Section inexact.
  Context (n : arith) (Hn : ieee_arith n) (clk : Z).

  (** a value with a floating-point noise added *)
  Lemma add_noise_quad g lo hi x t st :
    big g -> 1 <= t -> 1 - bias g < lo -> 53 - bias g <= lo - t + 1 -> hi <= bias g - 2 -> good g lo hi x -> fval g x <> 0%R -> kdraw clk st <> 2 ^ 51 ->
    exists y, (let* e := int_op (get_exponent g x - (t - 1)) in let* '(nz, st) := noise_quad n clk g e st in Ok (n_add n g x nz, st)) = Ok (y, after clk st)
    /\ good g (lo - 1) (hi + 2) y /\ fval g y = rnd (femin g) (mw g) (fval g x + (IZR (kdraw clk st) * b2 (-52) - 1/2) * b2 (mag radix2 (fval g x) - t)).
  Proof.
    intros Hbig Ht Hlo Hlt Hhi Hx Hne Hk. pose proof Hbig as (Hg & Hm & Hb & Hem). change (2 ^ 20) with 1048576 in Hb.
    destruct (good_normal g lo hi x Hg ltac:(lia) Hx Hne) as (E1 & E2 & E3). pose proof Hx as (Bx & Fx & [Z0|HX]); [congruence|].
    unfold get_exponent. set (e := expf g x - bias g) in *.
    assert (EI : int_op (e - (t - 1)) = Ok (e - (t - 1))).
    { unfold int_op. replace (in_int _) with true; [reflexivity|]. symmetry. unfold in_int. apply andb_true_iff. rewrite Z.leb_le, Z.ltb_lt.
      change (2 ^ 31) with 2147483648. lia. }
    rewrite EI. cbn [bind]. destruct (noise_quad_value n Hn clk g (e - (t - 1)) st Hbig Hk ltac:(lia)) as (z & EZ & Bz & Fz & Vz).
    rewrite EZ. cbn [bind]. eexists. split; [reflexivity|].
    destruct (Hn g Hg _ _ Bx Bz) as (HA & _). rewrite (dec_finite _ _ Fx), (dec_finite _ _ Fz) in HA. cbn [dadd] in HA.
    rewrite Vz in HA. rewrite E3. replace (e + 1 - t) with (e - (t - 1)) by lia.
    set (N := ((IZR (kdraw clk st) * b2 (-52) - 1 / 2) * b2 (e - (t - 1)))%R) in *.
    pose proof (kdraw_range clk st) as Kr.
    assert (HN : (Rabs N <= Rabs (fval g x) / 2)%R).
    { unfold N. rewrite Rabs_mult, (Rabs_pos_eq (b2 _)) by apply bpow_ge_0.
      assert (H1 : (0 <= IZR (kdraw clk st) * b2 (-52) <= 1)%R).
      { split; [apply Rmult_le_pos; [apply IZR_le; lia|apply bpow_ge_0]|].
        apply Rle_trans with (b2 52 * b2 (-52))%R; [apply Rmult_le_compat_r; [apply bpow_ge_0|rewrite <- IZR_pow2 by lia; apply IZR_le; lia]|].
        rewrite <- bpow_plus. right. reflexivity. }
      assert (H2 : (Rabs (IZR (kdraw clk st) * b2 (-52) - 1 / 2) <= 1/2)%R) by (apply Rabs_le; lra).
      assert (H3 : (b2 (e - (t - 1)) <= b2 e)%R) by (apply bpow_le; lia).
      assert (H4 : (b2 e <= Rabs (fval g x))%R) by (rewrite (mval_abs g Hg); apply (mval_normal g Hg x E1)).
      assert (H5 : (0 <= b2 (e - (t - 1)))%R) by apply bpow_ge_0.
      apply Rle_trans with (1/2 * b2 (e - (t - 1)))%R; [apply Rmult_le_compat_r; assumption|lra]. }
    assert (HB : (b2 (lo - 1) <= Rabs (fval g x + N) <= b2 (hi + 2))%R).
    { replace lo with (lo - 1 + 1) in HX by lia. rewrite bpow_plus in HX. rewrite bpow_plus. change (b2 1) with 2%R in HX. change (b2 2) with 4%R.
      pose proof (Rabs_triang (fval g x) N) as T. pose proof (Rabs_triang_inv (fval g x) (- N)) as T'. rewrite Rabs_Ropp in T'.
      replace (fval g x - - N)%R with (fval g x + N)%R in T' by ring. lra. }
    apply encodes_good with (lo := lo - 1) (hi := hi + 2) in HA; [|assumption|lia|lia|exact HB]. exact HA.
  Qed.

  (** a value with an integer noise added to its pattern *)
  (** what is added to the pattern, for the draw u *)
  Definition int_noise (g : fmt) (t u : Z) : Z := Z.shiftr (signed (mw g + ew g + 1) (u * 2 ^ (mw g + ew g + 1 - 64))) (ew g + t).
  Lemma add_noise_int_code sem g lo hi x t st :
    big g -> 1 <= t <= mw g -> 1 - bias g < lo -> hi <= bias g - 2 -> good g lo hi x -> fval g x <> 0%R ->
    exists y, (let* e := int_op (- (t - 1)) in noise_int clk sem g x e st) = Ok (y, after clk st)
    /\ (sgn g y = sgn g x /\ code g y = code g x + int_noise g t (fst (fst (draw64 (fst st) (snd st) clk))))
    /\ good g (lo - 1) (hi + 2) y /\ noised_int t (fval g x) (fval g y).
  Proof.
    unfold int_noise.
    intros Hbig Ht Hlo Hhi Hx Hne. pose proof Hbig as (Hg & Hm & Hb & Hem). change (2 ^ 20) with 1048576 in Hb.
    destruct (good_normal g lo hi x Hg ltac:(lia) Hx Hne) as (E1 & E2 & E3). pose proof Hx as (Bx & Fx & [Z0|HX]); [congruence|].
    destruct (bias_bounds g Hg) as [_ Hbb].
    assert (Hew : 11 <= ew g <= 21).
    { split.
      - destruct (Z.le_gt_cases 11 (ew g)) as [?|K]; [assumption|]. assert (2 ^ ew g <= 2 ^ 10) by (apply pow2_le; destruct Hg; lia).
        change (2 ^ 10) with 1024 in *. lia.
      - destruct (Z.le_gt_cases (ew g) 21) as [?|K]; [assumption|]. assert (2 ^ 22 <= 2 ^ ew g) by (apply pow2_le; lia).
        change (2 ^ 22) with 4194304 in *. lia. }
    assert (II : forall v, -5000 <= v <= 5000 -> int_op v = Ok v).
    { intros v Hv. unfold int_op. replace (in_int v) with true; [reflexivity|]. symmetry. unfold in_int. apply andb_true_iff. rewrite Z.leb_le, Z.ltb_lt.
      change (2 ^ 31) with 2147483648. lia. }
    rewrite II by lia. cbn [bind]. unfold noise_int. rewrite II by lia. cbn [bind].
    unfold uint64_rand, after, uint64_rand. set (D := draw64 (fst st) (snd st) clk).
    assert (HU : 0 <= fst (fst D) < 2 ^ 64).
    { unfold D, draw64. destruct (init_random_state (fst st) (snd st) clk) as [r q]. apply xresult_u64. }
    destruct D as [[u r] q]. cbn [fst snd] in HU |- *.
    set (w := mw g + ew g + 1). set (U := u * 2 ^ (w - 64)).
    assert (Hs : 1 + ew g - - (t - 1) = ew g + t) by lia. rewrite Hs.
    assert (Hw32 : wrap32 (ew g + t) = ew g + t) by (unfold wrap32; apply Z.mod_small; change (2 ^ 32) with 4294967296; lia). rewrite Hw32.
    assert (HC : shift_count sem w (ew g + t) = Ok (ew g + t)).
    { unfold shift_count. destruct sem; [|f_equal; apply Z.mod_small; unfold w; lia].
      replace (_ && _) with true; [reflexivity|]. symmetry. apply andb_true_iff. rewrite Z.leb_le, Z.ltb_lt. unfold w. lia. }
    rewrite HC. cbn [bind]. 
    assert (Hw : 2 ^ w = 2 * sbit g) by (unfold w, sbit; apply pow2_S; destruct Hg; lia).
    assert (Hw1 : 2 ^ (w - 1) = sbit g) by (unfold w, sbit; f_equal; lia).
    assert (HUr : 0 <= U < 2 ^ w).
    { unfold U. assert (0 < 2 ^ (w - 64)) by (apply pow2_pos; unfold w; lia).
      assert (2 ^ w = 2 ^ 64 * 2 ^ (w - 64)) by (rewrite <- pow2_split by (unfold w; lia); f_equal; lia). nia. }
    assert (HSr : - sbit g <= signed w U < sbit g) by (unfold signed; rewrite Hw1; destruct (Z.ltb_spec U (sbit g)); lia).
    set (d := Z.shiftr (signed w U) (ew g + t)).
    assert (Hd : - 2 ^ (mw g - t) <= d < 2 ^ (mw g - t)).
    { unfold d. rewrite Z.shiftr_div_pow2 by lia.
      assert (HP : sbit g = 2 ^ (mw g - t) * 2 ^ (ew g + t)) by (unfold sbit; rewrite <- pow2_split by lia; f_equal; lia).
      assert (HP0 : 0 < 2 ^ (ew g + t)) by (apply pow2_pos; lia). split.
      - apply Z.div_le_lower_bound; nia.
      - apply Z.div_lt_upper_bound; nia. }
    assert (Hdm : Z.abs d <= 2 ^ (mw g - t)) by lia.
    assert (Hm1 : 2 ^ (mw g - t) <= 2 ^ (mw g - 1)) by (apply pow2_le; lia).
    assert (Hm2 : 2 ^ mw g = 2 * 2 ^ (mw g - 1)) by (apply pow2_P; lia).
    assert (Hmp : 0 < 2 ^ (mw g - 1)) by (apply pow2_pos; lia).
    pose proof (code_split g Hg x) as Cx. pose proof (man_range g Hg x) as Mx. pose proof (code_range g Hg x) as Cr.
    assert (Ex : expf g x <= 2 * bias g - 2) by lia.
    pose proof (inf_code_eq g Hg) as IC. unfold inf_code, expmax in IC.
    assert (Hc' : 2 ^ (mw g - 1) <= code g x + d < (2 * bias g + 1) * 2 ^ mw g) by (clear - Cx Mx Hdm Hm1 Hm2 Hmp Ex E1; nia).
    assert (Hcs : 0 <= code g x + d < inf_code g).
    { unfold inf_code, expmax. replace (2 ^ ew g - 1) with (2 * bias g + 1) by lia. lia. }
    assert (Hcs' : 0 <= code g x + d < sbit g) by (pose proof (inf_code_eq g Hg); lia).
    assert (Sx : signed w x = code g x - sgn g x * sbit g).
    { rewrite (bits_split g Hg x Bx) at 1. unfold signed. rewrite Hw1, Hw. destruct (sgn_01 g x) as [-> | ->].
      - destruct (Z.ltb_spec (0 * sbit g + code g x) (sbit g)); lia.
      - destruct (Z.ltb_spec (1 * sbit g + code g x) (sbit g)); lia. }
    rewrite Sx, Hw1. replace (code g x - sgn g x * sbit g + d) with (code g x + d - sgn g x * sbit g) by lia.
    set (cc := code g x + d) in *.
    assert (Hcheck : (- sbit g <=? cc - sgn g x * sbit g) && (cc - sgn g x * sbit g <? sbit g) = true).
    { apply andb_true_iff. rewrite Z.leb_le, Z.ltb_lt. destruct (sgn_01 g x) as [-> | ->]; lia. }
    rewrite Hcheck.
    assert (Hy : (cc - sgn g x * sbit g) mod 2 ^ w = pack g (sgn g x) cc).
    { rewrite Hw. unfold pack. destruct (sgn_01 g x) as [-> | ->].
      - rewrite Z.mul_0_l, Z.sub_0_r, Z.add_0_l. apply Z.mod_small. lia.
      - rewrite <- (Z.mod_small (1 * sbit g + cc) (2 * sbit g)) by lia. rewrite <- (Z.mod_add (cc - 1 * sbit g) 1 (2 * sbit g)) by lia. f_equal. lia. }
    rewrite Hy. eexists. split; [reflexivity|]. set (y := pack g (sgn g x) cc).
    destruct (denotes_pack g (sgn g x) cc Hg (sgn_01 g x) Hcs) as (By & Fy & Sy & Vy). fold y in By, Fy, Sy, Vy.
    assert (Ey : expf g y = cc / 2 ^ mw g) by (unfold y; apply (pack_expf g Hg); assumption).
    assert (Cy : code g y = cc) by (unfold y; apply pack_code; assumption).
    pose proof (mw_pos g Hg) as Hmw.
    assert (Ey1 : expf g x - 1 <= expf g y <= expf g x + 1).
    { rewrite Ey. unfold cc. rewrite Cx. clear - Hmw Hdm Hm1 Hm2 Mx Hmp. split.
      - apply Z.div_le_lower_bound; [lia|]. rewrite Z.mul_sub_distr_l. lia.
      - apply Z.lt_succ_r. apply Z.div_lt_upper_bound; [lia|]. unfold Z.succ. rewrite !Z.mul_add_distr_l. lia. }
    assert (Ey0 : 1 <= expf g y) by lia. destruct (mval_normal g Hg y Ey0) as [N1 N2]. destruct (mval_normal g Hg x E1) as [M1 M2].
    assert (My : mag radix2 (fval g y) = expf g y - bias g + 1 :> Z).
    { apply mag_unique. rewrite (mval_abs g Hg). replace (expf g y - bias g + 1 - 1) with (expf g y - bias g) by lia. lra. }
    split; [split; [exact Sy|exact Cy]|]. split.
    - split; [exact By|]. split; [exact Fy|]. right. rewrite (mval_abs g Hg). split.
      + eapply Rle_trans; [|exact N1]. apply bpow_le. lia.
      + eapply Rle_trans; [apply Rlt_le, N2|]. apply bpow_le. lia.
    - split.
      + rewrite !(fval_mval g Hg), Sy. pose proof (bpow_gt_0 radix2 (expf g y - bias g)). pose proof (bpow_gt_0 radix2 (expf g x - bias g)).
        destruct (sgn_01 g x) as [-> | ->].
        * change (signR 0 (mval g x)) with (mval g x). change (signR 0 (mval g y)) with (mval g y). apply Rmult_lt_0_compat; lra.
        * change (signR 1 (mval g x)) with (- mval g x)%R. change (signR 1 (mval g y)) with (- mval g y)%R.
          rewrite Rmult_opp_opp. apply Rmult_lt_0_compat; lra.
      + assert (HA : (Rabs (fval g y - fval g x) = Rabs (mval g y - mval g x))%R).
        { rewrite !(fval_mval g Hg), Sy. destruct (sgn_01 g x) as [-> | ->].
          - change (signR 0 (mval g x)) with (mval g x). change (signR 0 (mval g y)) with (mval g y). reflexivity.
          - change (signR 1 (mval g x)) with (- mval g x)%R. change (signR 1 (mval g y)) with (- mval g y)%R.
            rewrite <- Rabs_Ropp. f_equal. ring. }
        rewrite HA, My, E3, !(mval_cval g Hg), Cy.
        assert (EXc : expf g x = code g x / 2 ^ mw g) by (apply expf_code; assumption).
        set (EM := Z.max (expf g x) (expf g y)).
        assert (HD : Z.abs (cval g cc - cval g (code g x)) <= Z.abs d * 2 ^ (EM - 1)).
        { destruct (Z.le_gt_cases 0 d) as [Pd|Pd].
          - pose proof (cval_diff g (code g x) d Hg ltac:(lia) Pd) as K. pose proof (cval_le g Hg (code g x) cc ltac:(unfold cc; lia)) as K'.
            fold cc in K. rewrite <- Ey in K. rewrite !Z.abs_eq by lia. eapply Z.le_trans; [exact K|].
            apply Z.mul_le_mono_nonneg_l; [assumption|]. apply pow2_le. unfold EM. lia.
          - pose proof (cval_diff g cc (- d) Hg ltac:(lia) ltac:(lia)) as K. pose proof (cval_le g Hg cc (code g x) ltac:(unfold cc; lia)) as K'.
            replace (cc + - d) with (code g x) in K by (unfold cc; lia). rewrite <- EXc in K. rewrite !Z.abs_neq by lia.
            replace (- (cval g cc - cval g (code g x))) with (cval g (code g x) - cval g cc) by lia. eapply Z.le_trans; [exact K|].
            apply Z.mul_le_mono_nonneg_l; [lia|]. apply pow2_le. unfold EM. lia. }
        assert (HD2 : Z.abs (cval g cc - cval g (code g x)) <= 2 ^ (mw g - t + (EM - 1))).
        { eapply Z.le_trans; [exact HD|]. rewrite pow2_split by (unfold EM; lia). apply Z.mul_le_mono_nonneg_r; [apply Z.pow_nonneg; lia|exact Hdm]. }
        rewrite <- Rmult_minus_distr_r, <- minus_IZR, Rabs_mult, <- abs_IZR, (Rabs_pos_eq (b2 _)) by apply bpow_ge_0.
        eapply Rle_trans; [apply Rmult_le_compat_r; [apply bpow_ge_0|apply IZR_le; exact HD2]|].
        rewrite IZR_pow2 by (unfold EM; lia). rewrite <- bpow_plus. apply bpow_le. unfold emin_ulp, EM. lia.
  Qed.
  Lemma add_noise_int sem g lo hi x t st :
    big g -> 1 <= t <= mw g -> 1 - bias g < lo -> hi <= bias g - 2 -> good g lo hi x -> fval g x <> 0%R ->
    exists y, (let* e := int_op (- (t - 1)) in noise_int clk sem g x e st) = Ok (y, after clk st)
    /\ good g (lo - 1) (hi + 2) y /\ noised_int t (fval g x) (fval g y).
  Proof. intros H1 H2 H3 H4 H5 H6. destruct (add_noise_int_code sem g lo hi x t st H1 H2 H3 H4 H5 H6) as (y & A & _ & B). eauto. Qed.
End inexact.
