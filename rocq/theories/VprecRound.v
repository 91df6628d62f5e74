(** [round_normal] is rounding to nearest, ties to even, of the magnitude pattern at granularity 2^(mw - precision). *)
From Coq Require Import ZArith Bool Lia.
From Verif Require Import Common Bits BitsFacts StdlibModel VprecModel.
From Verif Require FloatReal.
Open Scope Z_scope.
Open Scope outcome_scope.

Lemma shl_ok sem w x n : 0 <= n < w -> shl sem w x n = Ok ((x * 2 ^ n) mod 2 ^ w).
Proof.
  intros H. unfold shl, shift_count. destruct sem.
  - replace (0 <=? n) with true by (symmetry; apply Z.leb_le; lia).
    replace (n <? w) with true by (symmetry; apply Z.ltb_lt; lia). reflexivity.
  - rewrite (Z.mod_small n w) by lia. reflexivity.
Qed.
Lemma shl1_ok sem w n : 0 <= n < w -> shl sem w 1 n = Ok (2 ^ n).
Proof.
  intros H. rewrite shl_ok by assumption. f_equal. rewrite Z.mul_1_l. apply Z.mod_small.
  split; [apply Z.pow_nonneg; lia|apply pow2_lt; lia].
Qed.
Lemma shr_ok sem w x n : 0 <= n < w -> shr sem w x n = Ok (x / 2 ^ n).
Proof.
  intros H. unfold shr, shift_count. destruct sem.
  - replace (0 <=? n) with true by (symmetry; apply Z.leb_le; lia).
    replace (n <? w) with true by (symmetry; apply Z.ltb_lt; lia). reflexivity.
  - rewrite (Z.mod_small n w) by lia. reflexivity.
Qed.

Lemma land_low m k : 0 <= k -> Z.land m (2 ^ k - 1) = m mod 2 ^ k.
Proof. intros. rewrite Z.sub_1_r, <- Z.ones_equiv, Z.land_ones by assumption. reflexivity. Qed.

(** the mask 2^w - 1 << k keeps the bits from k on of a word *)
Lemma land_high m k w : 0 <= k < w -> 0 <= m < 2 ^ w ->
  Z.land m (((2 ^ w - 1) * 2 ^ k) mod 2 ^ w) = m / 2 ^ k * 2 ^ k.
Proof.
  intros Hk Hm. apply Z.bits_inj'. intros i Hi.
  rewrite Z.land_spec. rewrite <- Z.ones_equiv || replace (2 ^ w - 1) with (Z.ones w) by (rewrite Z.ones_equiv; lia).
  rewrite <- (Z.shiftl_mul_pow2 _ k) by lia.
  rewrite <- (Z.shiftl_mul_pow2 (m / 2 ^ k) k), <- Z.shiftr_div_pow2 by lia.
  rewrite <- (Z.land_ones _ w) by lia. rewrite Z.land_spec, !Z.shiftl_spec by assumption.
  destruct (Z.ltb_spec i k) as [Hik|Hik].
  { rewrite !(Z.testbit_neg_r _ (i - k)) by lia. rewrite andb_false_l, andb_false_r. reflexivity. }
  rewrite Z.shiftr_spec by lia. replace (i - k + k) with i by lia.
  destruct (Z.ltb_spec i w) as [Hiw|Hiw].
  - rewrite !Z.ones_spec_low by lia. rewrite andb_true_r. reflexivity.
  - destruct (Z.eq_dec m 0) as [->|Hm0]; [rewrite Z.bits_0; reflexivity|].
    assert (Hl : Z.log2 m < i).
    { apply Z.log2_lt_pow2; [lia|]. eapply Z.lt_le_trans; [apply Hm|apply pow2_le; lia]. }
    rewrite (Z.bits_above_log2 m i) by (lia || assumption). reflexivity.
Qed.

Lemma div_mul_add q r k : 0 <= k -> 0 <= r < 2 ^ k -> (q * 2 ^ k + r) / 2 ^ k = q.
Proof. intros. rewrite Z.add_comm, Z.div_add by (pose proof (pow2_pos k); lia). rewrite Z.div_small by assumption. lia. Qed.
Lemma mod_mul_add q r k : 0 <= k -> 0 <= r < 2 ^ k -> (q * 2 ^ k + r) mod 2 ^ k = r.
Proof. intros. rewrite Z.add_comm, Z.mod_add by (pose proof (pow2_pos k); lia). apply Z.mod_small; assumption. Qed.

Section normal.
  Context (f : fmt) (Hf : fmt_ok f).
  Let Hmw : 2 <= mw f := proj1 Hf.
  Let Hew : 2 <= ew f := proj2 Hf.

  Lemma code_div b k : 0 <= k <= mw f -> code f b / 2 ^ k = expf f b * 2 ^ (mw f - k) + man f b / 2 ^ k.
  Proof.
    intros Hk. rewrite (code_split f Hf). replace (2 ^ mw f) with (2 ^ (mw f - k) * 2 ^ k) by (rewrite <- pow2_split by lia; f_equal; lia).
    rewrite Z.mul_assoc, (Z.add_comm (_ * 2 ^ k)), Z.div_add by (pose proof (pow2_pos k); lia). lia.
  Qed.
  Lemma code_mod b k : 0 <= k <= mw f -> code f b mod 2 ^ k = man f b mod 2 ^ k.
  Proof.
    intros Hk. rewrite (code_split f Hf). replace (2 ^ mw f) with (2 ^ (mw f - k) * 2 ^ k) by (rewrite <- pow2_split by lia; f_equal; lia).
    rewrite Z.mul_assoc, (Z.add_comm (_ * 2 ^ k)), Z.mod_add by (pose proof (pow2_pos k); lia). reflexivity.
  Qed.

  (** the test of the code, as a condition on the magnitude; for precision 0 the parity bit it reads is the (absent)
      bit mw of the fraction field, that is 0 *)
  Definition round_up (x p : Z) : bool :=
    let k := mw f - p in
    (2 ^ k <? 2 * (man f x mod 2 ^ k)) || ((2 * (man f x mod 2 ^ k) =? 2 ^ k) && Z.odd (man f x / 2 ^ k)).

  Lemma needs_rounding_ok sem x p : 0 <= p <= mw f - 1 -> needs_rounding sem f x p = Ok (round_up x p).
  Proof.
    intros Hp. unfold needs_rounding, wbits, round_up. cbn zeta. set (k := mw f - p).
    pose proof (pow2_pos k ltac:(lia)) as Hk0. pose proof (pow2_P k ltac:(lia)) as HkP.
    pose proof (pow2_pos (k - 1) ltac:(lia)) as Hk1.
    rewrite shl1_ok by lia. cbn [bind]. rewrite shr_ok by lia. cbn [bind].
    replace (mw f - p - 1) with (k - 1) by lia. rewrite shl1_ok by lia. cbn [bind]. f_equal.
    rewrite (Z.mod_small (2 ^ k - 1)) by (pose proof (pow2_lt k (mw f + ew f + 1)); lia).
    rewrite land_low by lia. set (r := man f x mod 2 ^ k). set (q := man f x / 2 ^ k).
    assert (Hodd : (Z.land q 1 =? 1) = Z.odd q).
    { change 1 with (Z.ones 1) at 1. rewrite Z.land_ones by lia. change (2 ^ 1) with 2. rewrite Zmod_odd.
      destruct (Z.odd q); reflexivity. }
    rewrite Hodd. f_equal.
    - apply eq_true_iff_eq. rewrite !Z.ltb_lt. lia.
    - f_equal. apply eq_true_iff_eq. rewrite !Z.eqb_eq. lia.
  Qed.

  Lemma round_up_rne x p : 1 <= p <= mw f - 1 ->
    rne (code f x) (mw f - p) = code f x / 2 ^ (mw f - p) + (if round_up x p then 1 else 0).
  Proof.
    intros Hp. rewrite rne_pos by lia. rewrite code_mod by lia. f_equal. unfold round_up. cbn zeta.
    rewrite code_div by lia. replace (mw f - (mw f - p)) with p by lia.
    rewrite Z.odd_add, Z.odd_mul. replace (Z.odd (2 ^ p)) with false by (symmetry; rewrite Z.odd_pow by lia; reflexivity).
    rewrite andb_false_r, xorb_false_l. reflexivity.
  Qed.

  Lemma round_pack_carry s M t : emin_ulp f <= t -> 2 ^ (mw f + 1) <= M < 2 ^ (mw f + 2) ->
    round_pack f s M t = pack f s (Z.min ((t + 1 - emin_ulp f) * 2 ^ mw f + rne M 1) (inf_code f)).
  Proof.
    intros Ht HM. unfold round_pack. pose proof (pow2_pos (mw f + 1) ltac:(lia)).
    replace (M =? 0) with false by (symmetry; apply Z.eqb_neq; lia).
    assert (HL : Z.log2 M = mw f + 1) by (apply Z.log2_unique; [lia|unfold Z.succ; replace (mw f + 1 + 1) with (mw f + 2) by lia; lia]).
    rewrite HL. replace (Z.max _ _) with (t + 1) by lia. replace (t + 1 - t) with 1 by lia. reflexivity.
  Qed.

  (** half an ulp of precision p for a normal number *)
  Definition half_at (s E p : Z) : Z :=
    if E - p - 1 <? 1 then make f s 0 (2 ^ (mw f - 1 + (E - p - 1))) else make f s (E - p - 1) 0.

  Lemma half_at_spec s E p : (s = 0 \/ s = 1) -> 1 <= E < expmax f -> 0 <= p <= mw f - 1 ->
    let h := half_at s E p in
    sgn f h = s /\ is_finite f h = true /\ sexp f h <= E - bias f - mw f /\
    sig f h = 2 ^ (mw f - p - 1) * 2 ^ (E - bias f - mw f - sexp f h).
  Proof.
    intros Hs HE Hp h. unfold expmax in HE. pose proof (ew_4 f Hf) as H4. pose proof (mw_4 f Hf) as H4'.
    assert (Hmods : s mod 2 = s) by (apply Z.mod_small; lia).
    unfold h, half_at. destruct (Z.ltb_spec (E - p - 1) 1) as [Hh|Hh].
    - set (m := 2 ^ _). assert (Hm : 0 < m < 2 ^ mw f) by (subst m; split; [apply pow2_pos; lia|apply pow2_lt; lia]).
      rewrite make_sgn by assumption. split; [assumption|].
      split. { apply finite_expf; [assumption|]. rewrite make_expf by assumption. unfold expmax. rewrite Z.mod_small; lia. }
      unfold sexp, sig. rewrite make_expf, make_man by assumption. rewrite (Z.mod_small 0) by lia. rewrite Z.eqb_refl.
      split; [lia|]. rewrite Z.mod_small by lia. unfold m. rewrite <- pow2_split by lia. f_equal. lia.
    - rewrite make_sgn by assumption. split; [assumption|].
      split. { apply finite_expf; [assumption|]. rewrite make_expf by assumption. unfold expmax. rewrite Z.mod_small; lia. }
      unfold sexp, sig. rewrite make_expf, make_man by assumption. rewrite (Z.mod_small (E - p - 1)) by lia.
      rewrite (Z.mod_small 0) by lia. replace (E - p - 1 =? 0) with false by (symmetry; apply Z.eqb_neq; lia).
      split; [lia|]. rewrite <- pow2_split by lia. rewrite Z.add_0_r. f_equal. lia.
  Qed.

  (** adding a positive number of ulps of the same sign *)
  Lemma fadd_same x h n : is_bits f x -> is_finite f x = true -> is_finite f h = true ->
    1 <= expf f x -> sgn f h = sgn f x -> 0 < n -> sexp f h <= sexp f x ->
    sig f h = n * 2 ^ (sexp f x - sexp f h) ->
    fadd f x h = round_pack f (sgn f x) (2 ^ mw f + man f x + n) (sexp f x).
  Proof.
    intros Hx Fx Fh HE Hs Hn He Hsig. rewrite FloatReal.fadd_finite by assumption. cbn zeta.
    rewrite Z.min_r by assumption. rewrite Z.sub_diag, Z.pow_0_r, Z.mul_1_r.
    set (j := sexp f x - sexp f h) in *. pose proof (pow2_pos j ltac:(lia)) as Hj.
    assert (Hsx : sig f x = 2 ^ mw f + man f x).
    { unfold sig. replace (expf f x =? 0) with false by (symmetry; apply Z.eqb_neq; lia). reflexivity. }
    pose proof (mw_pos f Hf). pose proof (man_range f Hf x).
    set (M := 2 ^ mw f + man f x + n). assert (HM : 0 < M) by lia. assert (0 < M * 2 ^ j) by nia.
    replace (sexp f x) with (sexp f h + j) at 1 by lia. rewrite <- round_pack_scale by (assumption || lia).
    unfold ssig. rewrite Hs, Hsig, Hsx. destruct (sgn_01 f x) as [E|E]; rewrite E; cbn [Z.eqb].
    - replace ((2 ^ mw f + man f x) * 2 ^ j + n * 2 ^ j) with (M * 2 ^ j) by (unfold M; ring).
      replace (M * 2 ^ j =? 0) with false by (symmetry; apply Z.eqb_neq; lia).
      replace (M * 2 ^ j <? 0) with false by (symmetry; apply Z.ltb_ge; lia). rewrite Z.abs_eq by lia. reflexivity.
    - cbn [Pos.eqb]. replace (- (2 ^ mw f + man f x) * 2 ^ j + - (n * 2 ^ j)) with (- (M * 2 ^ j)) by (unfold M; ring).
      replace (- (M * 2 ^ j) =? 0) with false by (symmetry; apply Z.eqb_neq; lia).
      replace (- (M * 2 ^ j) <? 0) with true by (symmetry; apply Z.ltb_lt; lia). rewrite Z.abs_opp, Z.abs_eq by lia. reflexivity.
  Qed.

  (** adding half an ulp, then clearing the low bits, increments the kept part when the low part is at least half *)
  Lemma add_half_clear x h p : is_bits f x -> is_finite f x = true -> 1 <= expf f x -> 0 <= p <= mw f - 1 ->
    is_finite f h = true -> sgn f h = sgn f x -> sexp f h <= sexp f x ->
    sig f h = 2 ^ (mw f - p - 1) * 2 ^ (sexp f x - sexp f h) ->
    2 ^ (mw f - p) <= 2 * (man f x mod 2 ^ (mw f - p)) ->
    let k := mw f - p in
    let y := fadd f x h in
    sgn f y = sgn f x /\ expf f y * 2 ^ mw f + man f y / 2 ^ k * 2 ^ k = (code f x / 2 ^ k + 1) * 2 ^ k /\
    is_bits f y.
  Proof.
    intros Hx Fx HE Hp Fh Hsh Heh Hsig Hr k y.
    pose proof (pow2_pos k ltac:(lia)) as Hk0. pose proof (pow2_P k ltac:(lia)) as HkP.
    pose proof (pow2_pos (k - 1) ltac:(lia)) as Hk1. pose proof (mw_pos f Hf) as Hmp.
    replace (mw f - p - 1) with (k - 1) in Hsig by lia.
    assert (Hy : y = round_pack f (sgn f x) (2 ^ mw f + man f x + 2 ^ (k - 1)) (sexp f x)) by (apply fadd_same; assumption).
    pose proof (man_range f Hf x) as Hm. pose proof (sgn_01 f x) as Hs01.
    assert (HmwS : 2 ^ (mw f + 1) = 2 * 2 ^ mw f) by (apply pow2_S; lia).
    assert (HmwS2 : 2 ^ (mw f + 2) = 4 * 2 ^ mw f) by (replace (mw f + 2) with (mw f + 1 + 1) by lia; rewrite pow2_S by lia; lia).
    assert (Hsplit : 2 ^ mw f = 2 ^ p * 2 ^ k) by (rewrite <- pow2_split by lia; f_equal; lia).
    pose proof (pow2_pos p ltac:(lia)) as Hp0.
    assert (Hse : sexp f x - emin_ulp f = expf f x - 1).
    { unfold sexp, emin_ulp. replace (expf f x =? 0) with false by (symmetry; apply Z.eqb_neq; lia). lia. }
    apply (finite_expf f Hf) in Fx. unfold expmax in Fx. pose proof (inf_code_eq f Hf) as Hinf. pose proof (sbit_eq f Hf) as Hsb.
    set (q := man f x / 2 ^ k). set (r := man f x mod 2 ^ k).
    assert (Hman : man f x = q * 2 ^ k + r) by (unfold q, r; pose proof (Z.div_mod (man f x) (2 ^ k)); lia).
    assert (Hrr : 0 <= r < 2 ^ k) by (apply Z.mod_pos_bound; lia).
    fold k in Hr. fold r in Hr. assert (Hr' : 2 ^ (k - 1) <= r) by lia.
    assert (Hq : 0 <= q < 2 ^ p) by nia.
    rewrite code_div by lia. replace (mw f - k) with p by lia. fold q.
    destruct (Z.ltb_spec (q + 1) (2 ^ p)) as [Hc|Hc].
    - (* no carry *)
      assert (Hy' : y = pack f (sgn f x) (code f x + 2 ^ (k - 1))).
      { rewrite Hy. rewrite round_pack_exact.
        - f_equal. rewrite Hse, (code_split f Hf). nia.
        - assumption.
        - lia.
        - apply sexp_ge; assumption.
        - right. nia.
        - rewrite Hse, Hinf, Hsb. nia. }
      assert (Hcy : code f x + 2 ^ (k - 1) = expf f x * 2 ^ mw f + ((q + 1) * 2 ^ k + (r + 2 ^ (k - 1) - 2 ^ k))).
      { rewrite (code_split f Hf). nia. }
      assert (Hrange : 0 <= code f x + 2 ^ (k - 1) < sbit f) by (rewrite Hcy, Hsb; nia).
      rewrite Hy'. rewrite pack_sgn, pack_expf, pack_man by assumption.
      split; [reflexivity|]. split; [|apply pack_bits; assumption].
      assert (Hlow : 0 <= (q + 1) * 2 ^ k + (r + 2 ^ (k - 1) - 2 ^ k) < 2 ^ mw f) by (rewrite Hsplit; clear - Hc Hq Hrr Hr' HkP Hk0; nia).
      rewrite Hcy. rewrite div_mul_add, mod_mul_add by (lia || assumption). rewrite div_mul_add by lia. nia.
    - (* carry to the next binade *)
      assert (Hqe : q = 2 ^ p - 1) by lia.
      set (M := 2 ^ mw f + man f x + 2 ^ (k - 1)) in *.
      assert (HM : M = 2 ^ (mw f + 1) + (r - 2 ^ (k - 1))).
      { unfold M. rewrite HmwS, Hman, Hqe. nia. }
      set (d := r - 2 ^ (k - 1)) in *. assert (Hd : 0 <= d < 2 ^ (k - 1)) by lia.
      assert (Hk2 : 2 ^ k <= 2 ^ mw f) by (apply pow2_le; lia).
      assert (HrneM : rne M 1 = 2 ^ mw f + rne d 1).
      { rewrite HM. replace (2 ^ (mw f + 1) + d) with (d + 2 * 2 ^ (mw f - 1) * 2 ^ 1).
        - rewrite rne_add_even by lia. rewrite (pow2_P (mw f)) by lia. lia.
        - rewrite HmwS, (pow2_P (mw f)) by lia. ring. }
      assert (Hdr : 0 <= rne d 1 /\ 2 * rne d 1 < 2 ^ k).
      { split; [apply (rne_lower d 1 0); lia|]. pose proof (rne_error d 1 ltac:(lia)) as He. change (2 ^ 1) with 2 in He. lia. }
      assert (Hy' : y = pack f (sgn f x) (Z.min ((expf f x + 1) * 2 ^ mw f + rne d 1) (inf_code f))).
      { rewrite Hy, round_pack_carry by (try apply sexp_ge; assumption || (rewrite HM; lia)).
        replace (sexp f x + 1 - emin_ulp f) with (expf f x) by lia. rewrite HrneM. do 2 f_equal. ring. }
      rewrite Hy'. set (c := Z.min _ _).
      assert (Hc2 : exists r', c = (expf f x + 1) * 2 ^ mw f + r' /\ 0 <= r' < 2 ^ k).
      { unfold c. destruct (Z.leb_spec ((expf f x + 1) * 2 ^ mw f + rne d 1) (inf_code f)).
        - rewrite Z.min_l by assumption. exists (rne d 1). lia.
        - rewrite Z.min_r by lia. exists 0. assert (expf f x + 1 = 2 ^ ew f - 1) by (clear - H Fx Hinf Hsb Hdr Hk2 Hmp; nia). rewrite H0, Hinf, Hsb. lia. }
      destruct Hc2 as (r' & Hcr & Hr2).
      assert (Hrange : 0 <= c < sbit f).
      { split; [rewrite Hcr; clear - HE Hmp Hr2; nia|]. unfold c. rewrite Hinf. lia. }
      rewrite pack_sgn, pack_expf, pack_man by assumption.
      split; [reflexivity|]. split; [|apply pack_bits; assumption].
      rewrite Hcr. rewrite div_mul_add, mod_mul_add by lia. rewrite (Z.div_small r') by lia. rewrite Hqe, Hsplit. ring.
  Qed.

  Lemma is_neg_normal x : 1 <= expf f x -> is_neg f x = sgn f x.
  Proof.
    intros HE. unfold is_neg, is_zero. pose proof (man_range f Hf x). pose proof (mw_pos f Hf). pose proof (sgn_01 f x).
    replace (code f x =? 0) with false. 2:{ symmetry. apply Z.eqb_neq. rewrite (code_split f Hf). nia. }
    rewrite andb_true_r. destruct (Z.eqb_spec (sgn f x) 1); lia.
  Qed.

  (** result of [round_normal] in terms of the bits of x *)
  Lemma round_normal_bits sem x p : is_bits f x -> is_finite f x = true -> 1 <= expf f x -> 0 <= p <= mw f - 1 ->
    round_normal sem f x p =
      Ok (pack f (sgn f x) ((code f x / 2 ^ (mw f - p) + (if round_up x p then 1 else 0)) * 2 ^ (mw f - p))).
  Proof.
    intros Hx Fx HE Hp. unfold round_normal. cbn zeta. unfold wbits, onebits, wbits.
    pose proof (mw_pos f Hf) as Hmp. pose proof (man_range f Hf x) as Hm.
    pose proof (proj1 (finite_expf f Hf x) Fx) as Fx'. unfold expmax in Fx'.
    rewrite shl_ok by lia. cbn [bind]. rewrite is_neg_normal by assumption.
    assert (Hhalf : (if expf f x - p - 1 <? 1 then
        let* m := shl sem (mw f + ew f + 1) 1 (mw f - 1 + (expf f x - p - 1)) in Ok (make f (sgn f x) 0 m)
      else Ok (make f (sgn f x) (expf f x - p - 1) 0)) = Ok (half_at (sgn f x) (expf f x) p)).
    { unfold half_at. destruct (Z.ltb_spec (expf f x - p - 1) 1); [|reflexivity]. rewrite shl1_ok by lia. reflexivity. }
    rewrite Hhalf. cbn [bind]. rewrite needs_rounding_ok by assumption. cbn [bind]. f_equal.
    set (k := mw f - p). pose proof (pow2_pos k ltac:(lia)) as Hk.
    destruct (half_at_spec (sgn f x) (expf f x) p (sgn_01 f x) ltac:(unfold expmax; lia) Hp) as (Hh1 & Hh2 & Hh3 & Hh4).
    set (h := half_at _ _ _) in *.
    assert (Hsx : sexp f x = expf f x - bias f - mw f).
    { unfold sexp. replace (expf f x =? 0) with false by (symmetry; apply Z.eqb_neq; lia). reflexivity. }
    assert (Hland : forall m, 0 <= m < 2 ^ mw f ->
        Z.land m (((2 ^ (mw f + ew f + 1) - 1) * 2 ^ k) mod 2 ^ (mw f + ew f + 1)) = m / 2 ^ k * 2 ^ k).
    { intros m Hm'. apply land_high; [lia|]. pose proof (pow2_lt (mw f) (mw f + ew f + 1) ltac:(lia)). lia. }
    assert (Hfld : forall m, 0 <= m < 2 ^ mw f -> 0 <= m / 2 ^ k * 2 ^ k < 2 ^ mw f).
    { intros m Hm'. pose proof (Z.div_mod m (2 ^ k) ltac:(lia)). pose proof (Z.mod_pos_bound m (2 ^ k) ltac:(lia)).
      pose proof (Z.div_pos m (2 ^ k) ltac:(lia) ltac:(lia)). nia. }
    assert (Hfin : forall y, is_bits f y -> sgn f y = sgn f x ->
        forall c, expf f y * 2 ^ mw f + man f y / 2 ^ k * 2 ^ k = c ->
        make f (sgn f y) (expf f y) (Z.land (man f y) (((2 ^ (mw f + ew f + 1) - 1) * 2 ^ k) mod 2 ^ (mw f + ew f + 1))) = pack f (sgn f x) c).
    { intros y Hy Hsy c Hc. rewrite make_pack. rewrite Hland by (apply man_range; assumption).
      rewrite (Z.mod_small (man f y / 2 ^ k * 2 ^ k)) by (apply Hfld, man_range; assumption).
      rewrite (Z.mod_small (expf f y)) by (apply expf_range; assumption). rewrite Hc.
      rewrite Hsy. rewrite Z.mod_small by (pose proof (sgn_01 f x); lia). reflexivity. }
    destruct (round_up x p) eqn:Hnr.
    - assert (Hr : 2 ^ k <= 2 * (man f x mod 2 ^ k)).
      { unfold round_up in Hnr. cbn zeta in Hnr. fold k in Hnr. apply orb_true_iff in Hnr.
        destruct Hnr as [H|H]; [apply Z.ltb_lt in H|apply andb_true_iff in H; destruct H as [H _]; apply Z.eqb_eq in H]; lia. }
      destruct (add_half_clear x h p) as (H1 & H2 & H3); try assumption.
      + rewrite Hsx. assumption.
      + rewrite Hsx. assumption.
      + fold k in H2. apply Hfin; assumption.
    - apply Hfin; [assumption|reflexivity|]. rewrite Z.add_0_r. rewrite code_div by lia.
      replace (2 ^ mw f) with (2 ^ (mw f - k) * 2 ^ k) by (rewrite <- pow2_split by lia; f_equal; lia). ring.
  Qed.

  (** for a precision of at least one bit: RNE of the magnitude pattern *)
  Lemma round_normal_code sem x p : is_bits f x -> is_finite f x = true -> 1 <= expf f x -> 1 <= p <= mw f - 1 ->
    round_normal sem f x p = Ok (pack f (sgn f x) (rne (code f x) (mw f - p) * 2 ^ (mw f - p))).
  Proof. intros. rewrite round_normal_bits, round_up_rne by (assumption || lia). reflexivity. Qed.

  (** full precision: undefined by the C standard ... *)
  Lemma round_normal_full_strict x : round_normal Strict f x (mw f) = UB.
  Proof.
    unfold round_normal, wbits, onebits, wbits. cbn zeta. rewrite Z.sub_diag. rewrite shl_ok by lia. cbn [bind].
    assert (Hn : needs_rounding Strict f x (mw f) = UB).
    { unfold needs_rounding, wbits. cbn zeta. rewrite Z.sub_diag. rewrite shl1_ok by lia. cbn [bind].
      rewrite shr_ok by lia. cbn [bind]. unfold shl, shift_count.
      replace (0 <=? 0 - 1) with false by reflexivity. reflexivity. }
    rewrite Hn.
    destruct (expf f x - mw f - 1 <? 1).
    - destruct (shl Strict (mw f + ew f + 1) 1 (mw f - 1 + (expf f x - mw f - 1))) eqn:E; cbn [bind]; try reflexivity.
      all: unfold shl, shift_count in E; destruct (_ && _) in E; discriminate.
    - reflexivity.
  Qed.

  (** ... and the identity where shift counts are taken modulo the width *)
  Lemma round_normal_full_masked x : is_bits f x -> round_normal Masked f x (mw f) = Ok x.
  Proof.
    intros Hx. unfold round_normal, wbits, onebits, wbits. cbn zeta. rewrite Z.sub_diag.
    pose proof (mw_pos f Hf) as Hmp. pose proof (man_range f Hf x) as Hm.
    rewrite shl_ok by lia. cbn [bind].
    assert (Hn : needs_rounding Masked f x (mw f) = Ok false).
    { unfold needs_rounding, wbits. cbn zeta. rewrite Z.sub_diag. rewrite shl1_ok by lia. cbn [bind].
      rewrite shr_ok by lia. cbn [bind]. unfold shl, shift_count. cbn [bind].
      change (2 ^ 0 - 1) with 0. rewrite Z.mod_0_l by (pose proof (pow2_pos (mw f + ew f + 1)); lia). rewrite Z.land_0_r.
      replace ((0 - 1) mod (mw f + ew f + 1)) with (mw f + ew f).
      2:{ apply Z.mod_unique with (-1); lia. }
      rewrite Z.mul_1_l. rewrite (Z.mod_small (2 ^ (mw f + ew f))) by (split; [apply Z.pow_nonneg; lia|apply pow2_lt; lia]).
      pose proof (pow2_pos (mw f + ew f) ltac:(lia)).
      replace (2 ^ (mw f + ew f) <? 0) with false by (symmetry; apply Z.ltb_ge; lia).
      replace (0 =? 2 ^ (mw f + ew f)) with false by (symmetry; apply Z.eqb_neq; lia). reflexivity. }
    rewrite Hn.
    assert (He : forall (h : outcome Z), (exists v, h = Ok v) -> forall (g : Z -> outcome Z) v, (forall u, g u = Ok v) -> bind h g = Ok v).
    { intros h [u ->] g v Hg. apply Hg. }
    apply He.
    - destruct (expf f x - mw f - 1 <? 1); [|eauto]. unfold shl, shift_count. cbn [bind]. eauto.
    - intros u. cbn [bind]. f_equal. rewrite make_pack. rewrite Z.pow_0_r, Z.mul_1_r.
      rewrite (Z.mod_small (2 ^ (mw f + ew f + 1) - 1)) by (pose proof (pow2_pos (mw f + ew f + 1)); lia).
      rewrite land_low by lia. rewrite (Z.mod_small (man f x) (2 ^ (_ + _))).
      2:{ pose proof (pow2_lt (mw f) (mw f + ew f + 1) ltac:(lia)); lia. }
      rewrite !Z.mod_small.
      + rewrite <- (code_split f Hf). symmetry. apply pack_self; assumption.
      + assumption.
      + apply expf_range; assumption.
      + pose proof (sgn_01 f x); lia.
  Qed.
End normal.
