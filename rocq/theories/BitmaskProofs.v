(** Proofs about the bitmask backend. *)
From Coq Require Import ZArith Reals Bool Lia Lra.
From Flocq Require Import Core.
From Verif Require Import Common Bits BitsFacts FloatReal FloatValue FloatOps DoubleRound StdlibModel StdlibProofs RngModel RngProofs
  McaModel McaProofs McaOps BitmaskModel.
Open Scope Z_scope.
Open Scope outcome_scope.

(** ** words whose k low bits are cleared *)
Definition high_mask (w k : Z) : Z := 2 ^ w - 2 ^ k.

Lemma ones_bit k i : 0 <= k -> 0 <= i -> Z.testbit (2 ^ k - 1) i = (i <? k).
Proof.
  intros Hk Hi. rewrite Z.sub_1_r, <- Z.ones_equiv. destruct (Z.ltb_spec i k).
  - apply Z.ones_spec_low. lia.
  - apply Z.ones_spec_high. lia.
Qed.
Lemma high_mask_bit w k i : 0 <= k <= w -> 0 <= i -> Z.testbit (high_mask w k) i = (k <=? i) && (i <? w).
Proof.
  intros Hk Hi. unfold high_mask.
  replace (2 ^ w - 2 ^ k) with ((2 ^ (w - k) - 1) * 2 ^ k).
  2:{ rewrite Z.mul_sub_distr_r, <- pow2_split by lia. rewrite Z.mul_1_l. f_equal. f_equal. lia. }
  rewrite <- Z.shiftl_mul_pow2 by lia. rewrite Z.shiftl_spec by assumption. destruct (Z.leb_spec k i) as [L|L]; cbn [andb].
  - rewrite ones_bit by lia. destruct (Z.ltb_spec (i - k) (w - k)), (Z.ltb_spec i w); lia || reflexivity.
  - apply Z.testbit_neg_r. lia.
Qed.
Lemma high_mask_range w k : 0 <= k <= w -> 0 <= high_mask w k < 2 ^ w.
Proof. intros H. unfold high_mask. pose proof (pow2_le k w H). pose proof (pow2_pos k (proj1 H)). lia. Qed.
Lemma high_mask_or w j k : 0 <= j <= w -> 0 <= k <= w -> Z.lor (high_mask w j) (high_mask w k) = high_mask w (Z.min j k).
Proof.
  intros Hj Hk. apply Z.bits_inj'. intros i Hi. rewrite Z.lor_spec, !high_mask_bit by lia.
  destruct (Z.leb_spec j i), (Z.leb_spec k i), (Z.leb_spec (Z.min j k) i), (Z.ltb_spec i w); cbn; reflexivity || lia.
Qed.
Lemma mask_shift w k : 0 <= k < w -> ((2 ^ w - 1) * 2 ^ k) mod 2 ^ w = high_mask w k.
Proof.
  intros H. pose proof (high_mask_range w k ltac:(lia)). symmetry.
  apply (Z.mod_unique_pos _ _ (2 ^ k - 1)); [assumption|]. unfold high_mask. ring.
Qed.

(** ** x with its k low bits replaced by those of r *)
Lemma land_high w k x : 0 <= k <= w -> 0 <= x < 2 ^ w -> Z.land x (high_mask w k) = x / 2 ^ k * 2 ^ k.
Proof.
  intros Hk Hx. rewrite <- Z.shiftr_div_pow2, <- Z.shiftl_mul_pow2 by lia. rewrite <- Z.ldiff_ones_r by lia.
  apply Z.bits_inj'. intros i Hi. rewrite Z.land_spec, Z.ldiff_spec, high_mask_bit, Z.testbit_ones_nonneg by lia.
  destruct (Z.ltb_spec i w) as [L|L].
  - destruct (Z.leb_spec k i), (Z.ltb_spec i k); try lia; reflexivity.
  - rewrite (bit_above x w i) by lia. reflexivity.
Qed.
Lemma lor_low w k x : 0 <= k <= w -> 0 <= x < 2 ^ w -> Z.lor x (2 ^ k - 1) = x / 2 ^ k * 2 ^ k + (2 ^ k - 1).
Proof.
  intros Hk Hx.
  rewrite <- add_lor.
  - apply Z.bits_inj'. intros i Hi. rewrite !Z.lor_spec, ones_bit by lia. destruct (Z.ltb_spec i k) as [L|L]; [rewrite !orb_true_r; reflexivity|].
    rewrite !orb_false_r. rewrite Z.mul_pow2_bits by lia. rewrite Z.div_pow2_bits by lia. f_equal. lia.
  - apply Z.bits_inj'. intros i Hi. rewrite Z.land_spec, ones_bit, Z.bits_0 by lia. destruct (Z.ltb_spec i k) as [L|L]; [|apply andb_false_r].
    rewrite Z.mul_pow2_bits_low by lia. reflexivity.
Qed.
Lemma xor_low k m r : 0 <= k -> 0 <= m ->
  Z.lxor m (Z.land (2 ^ k - 1) r) = m / 2 ^ k * 2 ^ k + Z.lxor (m mod 2 ^ k) (r mod 2 ^ k).
Proof.
  intros Hk Hm. pose proof (pow2_pos k Hk).
  assert (Hland : Z.land (2 ^ k - 1) r = r mod 2 ^ k).
  { rewrite Z.sub_1_r, <- Z.ones_equiv, Z.land_comm. apply Z.land_ones. assumption. }
  rewrite Hland.
  assert (Hr : forall z, 0 <= z mod 2 ^ k < 2 ^ k) by (intros; apply Z.mod_pos_bound; lia).
  rewrite <- add_lor.
  - apply Z.bits_inj'. intros i Hi. rewrite Z.lor_spec, !Z.lxor_spec. destruct (Z.ltb_spec i k) as [L|L].
    + rewrite Z.mul_pow2_bits_low by lia. rewrite !Z.mod_pow2_bits_low by lia. reflexivity.
    + rewrite !Z.mod_pow2_bits_high by lia. rewrite Z.mul_pow2_bits, Z.div_pow2_bits by lia. rewrite !xorb_false_r, orb_false_r. f_equal. lia.
  - apply Z.bits_inj'. intros i Hi. rewrite Z.land_spec, Z.bits_0, Z.lxor_spec. destruct (Z.ltb_spec i k) as [L|L].
    + rewrite Z.mul_pow2_bits_low by lia. reflexivity.
    + rewrite !Z.mod_pow2_bits_high by lia. apply andb_false_r.
Qed.
Lemma xor_range k m r : 0 <= k -> 0 <= Z.lxor (m mod 2 ^ k) (r mod 2 ^ k) < 2 ^ k.
Proof.
  intros Hk. pose proof (pow2_pos k Hk).
  assert (Hr : forall z, 0 <= z mod 2 ^ k < 2 ^ k) by (intros; apply Z.mod_pos_bound; lia).
  replace (Z.lxor (m mod 2 ^ k) (r mod 2 ^ k)) with (Z.lxor (m mod 2 ^ k) (r mod 2 ^ k) mod 2 ^ k); [apply Hr|].
  apply Z.bits_inj'. intros i Hi. destruct (Z.ltb_spec i k) as [L|L].
  - rewrite Z.mod_pow2_bits_low by lia. reflexivity.
  - rewrite Z.mod_pow2_bits_high by lia. rewrite Z.lxor_spec, !Z.mod_pow2_bits_high by lia. reflexivity.
Qed.

(** ** what a perturbation does to the pattern *)
(** the context after _set_bitmask_precision_binaryN was called with p for the format f *)
Definition configured (f : fmt) (c : bctx) (p : Z) : Prop := 1 <= p /\ bprec f c = p /\ bmask f c = precision_mask f p.
(** the low bits that may change: everything below the p leading significant bits *)
Definition free_bits (f : fmt) (p x : Z) : Z := Z.max 0 (Z.log2 (sig f x) + 1 - p).

Section bits.
  Context (f : fmt) (Hf : fmt_ok f).
  Let w := mw f + ew f + 1.
  Let Hmw : 2 <= mw f := proj1 Hf.
  Let Hew : 2 <= ew f := proj2 Hf.

  Lemma mask_one_eq : mask_one f = high_mask w 0.
  Proof. reflexivity. Qed.
  Lemma precision_mask_eq p : 1 <= p -> precision_mask f p = high_mask w (Z.max 0 (mw f + 1 - p)).
  Proof.
    intros Hp. unfold precision_mask. destruct (Z.leb_spec p (mw f + 1)) as [L|L].
    - unfold mask_one. rewrite mask_shift by (unfold w; lia). fold w. rewrite Z.max_r by lia. reflexivity.
    - rewrite Z.max_l by lia. apply mask_one_eq.
  Qed.
  Lemma normal_log2 x : 1 <= expf f x -> Z.log2 (sig f x) = mw f.
  Proof.
    intros H. unfold sig. replace (expf f x =? 0) with false by (symmetry; apply Z.eqb_neq; lia).
    pose proof (man_range f Hf x). apply Z.log2_unique; [lia|]. change (Z.succ (mw f)) with (mw f + 1). rewrite pow2_S by lia. lia.
  Qed.
  Lemma free_range p x : 1 <= p -> 0 <= free_bits f p x <= mw f.
  Proof.
    intros Hp. unfold free_bits. pose proof (sig_lt f Hf x) as H. pose proof (sig_nonneg f Hf x).
    destruct (Z.eq_dec (sig f x) 0) as [E|E]; [rewrite E; change (Z.log2 0) with 0; lia|].
    assert (Z.log2 (sig f x) < mw f + 1); [|lia]. apply Z.log2_lt_pow2; lia.
  Qed.
  Lemma mask_for_eq c p x : configured f c p -> fpclassify f x = FP_NORMAL \/ fpclassify f x = FP_SUBNORMAL ->
    mask_for f c x = high_mask w (free_bits f p x).
  Proof.
    intros (Hp & Ep & Em) Hc. unfold mask_for. rewrite Em, Ep, precision_mask_eq by assumption.
    pose proof (expf_range f Hf x) as He. pose proof (man_range f Hf x) as Hm. pose proof (ew_4 f Hf).
    unfold fpclassify in *. revert Hc.
    destruct (Z.eqb_spec (expf f x) (expmax f)) as [E|E]; cbn [andb negb].
    { destruct (Z.eqb_spec (man f x) 0); cbn [andb negb]; intros [K|K]; discriminate. }
    destruct (Z.eqb_spec (expf f x) 0) as [E0|E0]; cbn [andb].
    - destruct (Z.eqb_spec (man f x) 0) as [M|M]; cbn [negb]; [intros [K|K]; discriminate|]. intros _.
      assert (Hs : sig f x = man f x) by (unfold sig; rewrite E0; reflexivity).
      assert (0 <= Z.log2 (man f x) < mw f) by (split; [apply Z.log2_nonneg|apply Z.log2_lt_pow2; lia]).
      unfold clz. fold w. replace (w - 1 - Z.log2 (man f x) - (1 + ew f)) with (mw f - 1 - Z.log2 (man f x)) by (unfold w; lia).
      unfold free_bits. rewrite Hs.
      destruct (Z.ltb_spec (mw f) (mw f - 1 - Z.log2 (man f x) + p)) as [L|L].
      + rewrite Z.max_l by lia. apply mask_one_eq.
      + unfold mask_one. fold w. rewrite mask_shift by (unfold w; lia). rewrite high_mask_or by (unfold w; lia). f_equal. lia.
    - intros _. unfold free_bits. rewrite normal_log2 by lia. reflexivity.
  Qed.

  Lemma low_change x y k : is_bits f x -> 0 <= k <= mw f -> y / 2 ^ k = x / 2 ^ k ->
    is_bits f y /\ sgn f y = sgn f x /\ expf f y = expf f x /\ man f y / 2 ^ k = man f x / 2 ^ k.
  Proof.
    intros Hx Hk E. pose proof (pow2_pos k ltac:(lia)) as Hpk.
    assert (D : forall j, k <= j -> y / 2 ^ j = x / 2 ^ j).
    { intros j Hj. replace (2 ^ j) with (2 ^ k * 2 ^ (j - k)) by (rewrite <- pow2_split by lia; f_equal; lia).
      rewrite <- !Z.div_div by (try apply pow2_pos; lia). rewrite E. reflexivity. }
    assert (By : is_bits f y).
    { unfold is_bits in *. pose proof (D w ltac:(unfold w; lia)) as Dw. replace (2 * sbit f) with (2 ^ w) in * by (unfold sbit, w; rewrite pow2_S by lia; reflexivity).
      rewrite (Z.div_small x) in Dw by assumption. apply Z.div_small_iff in Dw; [|pose proof (pow2_pos w ltac:(unfold w; lia)); lia].
      pose proof (pow2_pos w ltac:(unfold w; lia)). lia. }
    repeat split; try apply By.
    - unfold sgn, sbit. rewrite (D (mw f + ew f)) by lia. reflexivity.
    - unfold expf. rewrite (D (mw f)) by lia. reflexivity.
    - unfold man.
      replace (2 ^ mw f) with (2 ^ k * 2 ^ (mw f - k)) by (rewrite <- pow2_split by lia; f_equal; lia).
      pose proof (pow2_pos (mw f - k) ltac:(lia)).
      rewrite !Z.rem_mul_r by lia. rewrite !(Z.mul_comm (2 ^ k)), !Z.div_add by lia.
      rewrite !(Z.div_small (_ mod 2 ^ k)) by (apply Z.mod_pos_bound; lia). rewrite E. reflexivity.
  Qed.
  Lemma low_sig x y k : expf f y = expf f x -> man f y / 2 ^ k = man f x / 2 ^ k -> 0 <= k <= mw f ->
    sexp f y = sexp f x /\ sig f y / 2 ^ k = sig f x / 2 ^ k /\ sig f y - sig f x = man f y - man f x.
  Proof.
    intros E M Hk. unfold sexp, sig. rewrite E. split; [reflexivity|]. destruct (expf f x =? 0); [split; [assumption|reflexivity]|].
    split; [|lia]. replace (2 ^ mw f) with (2 ^ (mw f - k) * 2 ^ k) by (rewrite <- pow2_split by lia; f_equal; lia).
    pose proof (pow2_pos k ltac:(lia)). rewrite !Z.div_add_l by lia. rewrite M. reflexivity.
  Qed.

  (** the effect of each operator *)
  Definition op_effect (o : boper) (k x y : Z) : Prop :=
    match o with
    | bop_zero => y = x / 2 ^ k * 2 ^ k
    | bop_one => y = x / 2 ^ k * 2 ^ k + (2 ^ k - 1)
    | _ => y / 2 ^ k = x / 2 ^ k
    end.
  Lemma op_effect_div o k x y : 0 <= k -> op_effect o k x y -> y / 2 ^ k = x / 2 ^ k.
  Proof.
    intros Hk. pose proof (pow2_pos k Hk). destruct o; cbn [op_effect]; try (intros; assumption); intros ->.
    - rewrite Z.div_mul by lia. reflexivity.
    - rewrite Z.div_add_l by lia. rewrite (Z.div_small (2 ^ k - 1)) by lia. lia.
  Qed.
  Lemma op_effect_zero o x y : op_effect o 0 x y -> y = x.
  Proof. destruct o; cbn [op_effect]; change (2 ^ 0) with 1; rewrite ?Z.div_1_r, ?Z.mul_1_r; lia. Qed.

  Lemma is_bits_w x : is_bits f x <-> 0 <= x < 2 ^ w.
  Proof. unfold is_bits, sbit, w. rewrite pow2_S by lia. reflexivity. Qed.

  Lemma must_not_cases c x : must_not f x c = true ->
    b_mode c = bm_ieee \/ (fpclassify f x <> FP_NORMAL /\ fpclassify f x <> FP_SUBNORMAL) \/
    (b_mode c = bm_ob /\ is_representable w f x (bprec f c) = true).
  Proof.
    unfold must_not. intros H. apply orb_true_iff in H. destruct H as [H|H]; [apply orb_true_iff in H; destruct H as [H|H]|].
    - left. destruct (b_mode c); congruence.
    - right; left. destruct (fpclassify f x); split; congruence.
    - right; right. apply andb_true_iff in H. destruct H. split; [destruct (b_mode c); congruence|assumption].
  Qed.
  Lemma must_not_false c x : must_not f x c = false ->
    b_mode c <> bm_ieee /\ (fpclassify f x = FP_NORMAL \/ fpclassify f x = FP_SUBNORMAL) /\
    (b_mode c = bm_ob -> is_representable w f x (bprec f c) = false).
  Proof.
    unfold must_not. intros H. apply orb_false_iff in H. destruct H as [H H3]. apply orb_false_iff in H. destruct H as [H1 H2].
    split; [|split].
    - destruct (b_mode c); congruence.
    - destruct (fpclassify f x); try discriminate; tauto.
    - intros E. rewrite E in H3. exact H3.
  Qed.

  (** the generator states [binexact] can return: unchanged, or initialised and possibly stepped *)
  Lemma binexact_bits clk c p x st : configured f c p -> is_bits f x -> b_op c <> bop_end -> must_not f x c = false ->
    exists y st', binexact clk f c x st = Ok (y, st') /\ op_effect (b_op c) (free_bits f p x) x y.
  Proof.
    intros Hc Hx Ho HN. unfold binexact. rewrite HN. destruct (must_not_false c x HN) as (_ & Hcl & _).
    rewrite (mask_for_eq c p x Hc Hcl).
    assert (Hp : 1 <= p) by apply Hc. pose proof (free_range p x Hp) as Hk. set (k := free_bits f p x) in *.
    pose proof (proj1 (is_bits_w x) Hx) as Hw.
    replace (mask_one f - high_mask w k) with (2 ^ k - 1) by (unfold mask_one, high_mask; fold w; lia).
    destruct (b_op c) eqn:Eo; [| | |congruence].
    - eexists _, _. split; [reflexivity|]. cbn [op_effect]. apply land_high; [unfold w; lia|assumption].
    - eexists _, _. split; [reflexivity|]. cbn [op_effect]. apply (lor_low w); [unfold w; lia|assumption].
    - destruct (uint64_rand clk _) as [u st']. eexists _, _. split; [reflexivity|]. cbn [op_effect].
      pose proof (man_range f Hf x) as Hm. rewrite xor_low by lia.
      set (r := Z.lxor _ _). pose proof (xor_range k (man f x) (u mod 2 ^ (mw f + ew f + 1)) ltac:(lia)) as Hr. fold r in Hr.
      pose proof (pow2_pos k ltac:(lia)) as Hpk. pose proof (mw_pos f Hf) as Hpm.
      assert (Hq : 0 <= man f x / 2 ^ k * 2 ^ k + r < 2 ^ mw f).
      { pose proof (Z.div_pos (man f x) (2 ^ k) ltac:(lia) Hpk). split; [nia|].
        assert (Hd : man f x / 2 ^ k < 2 ^ (mw f - k)).
        { apply Z.div_lt_upper_bound; [lia|]. rewrite <- pow2_split by lia. replace (k + (mw f - k)) with (mw f) by lia. lia. }
        replace (2 ^ mw f) with (2 ^ (mw f - k) * 2 ^ k) by (rewrite <- pow2_split by lia; f_equal; lia). nia. }
      unfold make. rewrite (Z.mod_small (man f x / 2 ^ k * 2 ^ k + r)) by assumption.
      rewrite (Z.mod_small (expf f x)) by (apply expf_range; assumption). rewrite (Z.mod_small (sgn f x)) by (apply sgn_range).
      rewrite (bits_split3 f Hf x Hx) at 4.
      assert (Es : sbit f = 2 ^ (mw f + ew f - k) * 2 ^ k) by (unfold sbit; rewrite <- pow2_split by lia; f_equal; lia).
      assert (Em : 2 ^ mw f = 2 ^ (mw f - k) * 2 ^ k) by (rewrite <- pow2_split by lia; f_equal; lia).
      rewrite Es, Em. rewrite !Z.mul_assoc. rewrite <- !Z.mul_add_distr_r. rewrite Z.add_assoc.
      rewrite <- Z.mul_add_distr_r. rewrite !Z.div_add_l by lia. rewrite (Z.div_small r) by assumption. lia.
  Qed.
End bits.

(** ** the same in terms of real numbers *)
(** one unit in the last place of a p-bit significand of X *)
Definition unit_at (p : Z) (X : R) : R := b2 (mag radix2 X - p).
(** X and Y have the same sign and the same p leading significant bits *)
Definition same_leading (p : Z) (X Y : R) : Prop :=
  (0 < X * Y)%R /\ Zfloor (Rabs Y / unit_at p X) = Zfloor (Rabs X / unit_at p X).

Lemma unit_pos p X : (0 < unit_at p X)%R. Proof. apply bpow_gt_0. Qed.
Lemma same_leading_refl p X : X <> 0%R -> same_leading p X X.
Proof. intros H. split; [|reflexivity]. destruct (Rtotal_order X 0) as [K|[K|K]]; nra || (exfalso; auto). Qed.
Lemma same_leading_error p X Y : same_leading p X Y -> (Rabs (Y - X) < unit_at p X)%R.
Proof.
  intros [Hs Hfl]. pose proof (unit_pos p X) as Hu. set (u := unit_at p X) in *.
  pose proof (Zfloor_lb (Rabs Y / u)). pose proof (Zfloor_ub (Rabs Y / u)). pose proof (Zfloor_lb (Rabs X / u)). pose proof (Zfloor_ub (Rabs X / u)).
  rewrite Hfl in *. set (q := IZR (Zfloor (Rabs X / u))) in *.
  assert (E : (Rabs (Y - X) = Rabs (Rabs Y / u - Rabs X / u) * u)%R).
  { rewrite <- (Rabs_pos_eq u) at 3 by lra. rewrite <- Rabs_mult.
    replace ((Rabs Y / u - Rabs X / u) * u)%R with (Rabs Y - Rabs X)%R by (field; lra).
    destruct (Rle_lt_dec 0 X) as [L|L].
    - rewrite (Rabs_pos_eq X), (Rabs_pos_eq Y) by nra. reflexivity.
    - rewrite (Rabs_left X), (Rabs_left Y) by nra. rewrite <- (Rabs_Ropp (Y - X)). f_equal. ring. }
  rewrite E. assert (Rabs (Rabs Y / u - Rabs X / u) < 1)%R by (apply Rabs_def1; lra). nra.
Qed.

Lemma floor_scaled t s e p : 0 < s -> let j := Z.log2 s + 1 - p in
  Zfloor (IZR t * b2 e / b2 (mag radix2 (IZR s * b2 e) - p)) = if j <=? 0 then t * 2 ^ (- j) else t / 2 ^ j.
Proof.
  intros Hs j. rewrite mag_int by assumption.
  assert (E : (IZR t * b2 e / b2 (Z.log2 s + 1 + e - p) = IZR t * b2 (- j))%R).
  { unfold Rdiv. rewrite <- bpow_opp, Rmult_assoc, <- bpow_plus. do 2 f_equal. unfold j. lia. }
  rewrite E. destruct (Z.leb_spec j 0) as [L|L].
  - rewrite <- IZR_pow2 by lia. rewrite <- mult_IZR. apply Zfloor_IZR.
  - rewrite bpow_opp, <- IZR_pow2 by lia. apply Zfloor_div. pose proof (pow2_pos j ltac:(lia)). lia.
Qed.

Section real.
  Context (f : fmt) (Hf : fmt_ok f).
  Let Hmw : 2 <= mw f := proj1 Hf.
  Let Hew : 2 <= ew f := proj2 Hf.

  Lemma sig_pos x : fval f x <> 0%R -> 0 < sig f x.
  Proof. intros H. pose proof (sig_nonneg f Hf x). pose proof (proj1 (sig_zero f x Hf)). destruct (Z.eq_dec (sig f x) 0); [tauto|lia]. Qed.
  Lemma mag_fval x : mag radix2 (fval f x) = mag radix2 (IZR (sig f x) * b2 (sexp f x)) :> Z.
  Proof. rewrite (fval_mval f Hf). unfold signR. destruct (_ =? 1); [rewrite mag_opp|]; reflexivity. Qed.
  Lemma unit_fval p x : unit_at p (fval f x) = b2 (mag radix2 (IZR (sig f x) * b2 (sexp f x)) - p).
  Proof. unfold unit_at. rewrite mag_fval. reflexivity. Qed.
  Lemma floor_fval p x y : 1 <= p -> fval f x <> 0%R -> sexp f y = sexp f x ->
    Zfloor (Rabs (fval f y) / unit_at p (fval f x)) = let j := Z.log2 (sig f x) + 1 - p in if j <=? 0 then sig f y * 2 ^ (- j) else sig f y / 2 ^ j.
  Proof.
    intros Hp Hx Ee. rewrite (mval_abs f Hf), unit_fval. unfold mval. rewrite Ee. apply floor_scaled. apply sig_pos; assumption.
  Qed.
  Lemma sign_product x y : fval f x <> 0%R -> sgn f y = sgn f x -> 0 < sig f y -> (0 < fval f x * fval f y)%R.
  Proof.
    intros Hx Hs Hy. rewrite !(fval_mval f Hf), Hs. unfold signR, mval. pose proof (sig_pos x Hx) as Hp. apply IZR_lt in Hp, Hy.
    pose proof (bpow_gt_0 radix2 (sexp f x)) as B1. pose proof (bpow_gt_0 radix2 (sexp f y)) as B2.
    assert (0 < IZR (sig f x) * b2 (sexp f x))%R by (apply Rmult_lt_0_compat; assumption).
    assert (0 < IZR (sig f y) * b2 (sexp f y))%R by (apply Rmult_lt_0_compat; assumption).
    destruct (_ =? 1); nra.
  Qed.

  (** patterns that agree above the free bits are the finite values with the same leading bits *)
  Lemma agree_leading p x y : 1 <= p -> is_bits f x -> fval f x <> 0%R -> y / 2 ^ free_bits f p x = x / 2 ^ free_bits f p x ->
    same_leading p (fval f x) (fval f y).
  Proof.
    intros Hp Hx Hn E. pose proof (free_range f Hf p x Hp) as Hk. destruct (low_change f Hf x y _ Hx Hk E) as (By & Es & Ee & Em).
    destruct (low_sig f x y _ Ee Em Hk) as (Ex & Eg & _). pose proof (sig_pos x Hn) as Hsx.
    pose proof (sig_nonneg f Hf y) as Hsy.
    assert (Hy : 0 < sig f y).
    { destruct (Z.eq_dec (sig f y) 0) as [Z0|]; [|lia]. exfalso. rewrite Z0, Z.div_0_l in Eg by (pose proof (pow2_pos (free_bits f p x)); lia).
      symmetry in Eg. apply Z.div_small_iff in Eg; [|pose proof (pow2_pos (free_bits f p x)); lia].
      unfold free_bits in Eg. pose proof (Z.log2_spec (sig f x) Hsx) as [L _].
      destruct (Z.max_spec 0 (Z.log2 (sig f x) + 1 - p)) as [[A B]|[A B]]; rewrite B in Eg.
      - assert (2 ^ (Z.log2 (sig f x) + 1 - p) <= 2 ^ Z.log2 (sig f x)) by (apply pow2_le; lia). lia.
      - change (2 ^ 0) with 1 in Eg. lia. }
    split; [apply sign_product; assumption|].
    rewrite (floor_fval p x y), (floor_fval p x x) by auto. cbv zeta. unfold free_bits in Eg.
    destruct (Z.leb_spec (Z.log2 (sig f x) + 1 - p) 0) as [L|L].
    - rewrite Z.max_l in Eg by lia. change (2 ^ 0) with 1 in Eg. rewrite !Z.div_1_r in Eg. rewrite Eg. reflexivity.
    - rewrite Z.max_r in Eg by lia. exact Eg.
  Qed.
  Lemma leading_agree p x y : 1 <= p -> is_bits f x -> is_bits f y -> is_finite f x = true -> is_finite f y = true -> fval f x <> 0%R ->
    same_leading p (fval f x) (fval f y) -> y / 2 ^ free_bits f p x = x / 2 ^ free_bits f p x.
  Proof.
    intros Hp Hx Hy Fx Fy Hn [Hsp Hfl]. pose proof (free_range f Hf p x Hp) as Hk. pose proof (sig_pos x Hn) as Hsx.
    assert (Hny : fval f y <> 0%R) by (intros K; rewrite K in Hsp; lra). pose proof (sig_pos y Hny) as Hsy.
    assert (Es : sgn f y = sgn f x).
    { rewrite !(fval_mval f Hf) in Hsp. pose proof (mval_nonneg f Hf x). pose proof (mval_nonneg f Hf y). unfold signR in Hsp.
      destruct (sgn_01 f x) as [A|A], (sgn_01 f y) as [B|B]; rewrite A, B in *; try reflexivity; exfalso;
        change (0 =? 1) with false in Hsp; change (1 =? 1) with true in Hsp; cbv iota in Hsp; nra. }
    (* both magnitudes lie in the same binade *)
    assert (Hmag : mag radix2 (fval f y) = mag radix2 (fval f x) :> Z).
    { set (u := unit_at p (fval f x)) in *. pose proof (unit_pos p (fval f x)) as Hu. fold u in Hu.
      pose proof (bpow_mag_le radix2 (fval f x) Hn) as Hlo. pose proof (bpow_mag_gt radix2 (fval f x)) as Hhi.
      set (M := mag radix2 (fval f x) : Z) in *.
      assert (U1 : (b2 (M - 1) / u = b2 (p - 1))%R).
      { unfold u, unit_at, Rdiv. rewrite <- bpow_opp, <- bpow_plus. f_equal. fold M. lia. }
      assert (U2 : (b2 M / u = b2 p)%R).
      { unfold u, unit_at, Rdiv. rewrite <- bpow_opp, <- bpow_plus. f_equal. fold M. lia. }
      assert (Q1 : 2 ^ (p - 1) <= Zfloor (Rabs (fval f x) / u)).
      { apply Zfloor_lub. rewrite IZR_pow2 by lia. rewrite <- U1. apply Rmult_le_compat_r; [left; apply Rinv_0_lt_compat; assumption|exact Hlo]. }
      assert (Q2 : Zfloor (Rabs (fval f x) / u) < 2 ^ p).
      { apply lt_IZR. rewrite IZR_pow2 by lia. eapply Rle_lt_trans; [apply Zfloor_lb|]. rewrite <- U2.
        apply Rmult_lt_compat_r; [apply Rinv_0_lt_compat; assumption|exact Hhi]. }
      rewrite <- Hfl in Q1, Q2. apply mag_unique. fold M. split.
      - apply (Rmult_le_reg_r (/ u)); [apply Rinv_0_lt_compat; assumption|]. change (b2 (M - 1) * / u)%R with (b2 (M - 1) / u)%R. rewrite U1.
        rewrite <- IZR_pow2 by lia. apply Rle_trans with (IZR (Zfloor (Rabs (fval f y) / u))); [apply IZR_le; assumption|apply Zfloor_lb].
      - apply (Rmult_lt_reg_r (/ u)); [apply Rinv_0_lt_compat; assumption|]. change (b2 M * / u)%R with (b2 M / u)%R. rewrite U2.
        apply Rlt_le_trans with (IZR (Zfloor (Rabs (fval f y) / u)) + 1)%R; [apply Zfloor_ub|].
        rewrite <- IZR_pow2 by lia. rewrite <- plus_IZR. apply IZR_le. lia. }
    assert (Ee : expf f y = expf f x).
    { pose proof (mval_abs f Hf x) as Ax. pose proof (mval_abs f Hf y) as Ay.
      pose proof (bpow_mag_le radix2 (fval f x) Hn) as Lx. pose proof (bpow_mag_gt radix2 (fval f x)) as Gx.
      pose proof (bpow_mag_le radix2 (fval f y) Hny) as Ly. pose proof (bpow_mag_gt radix2 (fval f y)) as Gy.
      rewrite Hmag in Ly, Gy. rewrite Ax in Lx, Gx. rewrite Ay in Ly, Gy. set (M := mag radix2 (fval f x) : Z) in *.
      destruct (Z.le_gt_cases (1 - bias f) (M - 1)) as [L|L].
      - rewrite (expf_of_mval f Hf x (M - 1)), (expf_of_mval f Hf y (M - 1)); try assumption; try reflexivity;
          (split; [assumption|]; replace (M - 1 + 1) with M by lia; assumption).
      - assert (A : (mval f x < b2 (1 - bias f))%R) by (eapply Rlt_le_trans; [exact Gx|apply bpow_le; lia]).
        assert (B : (mval f y < b2 (1 - bias f))%R) by (eapply Rlt_le_trans; [exact Gy|apply bpow_le; lia]).
        apply (mval_lt_pow f Hf) in A, B; try lia. pose proof (expf_range f Hf x). pose proof (expf_range f Hf y). lia. }
    assert (Ex : sexp f y = sexp f x) by (unfold sexp; rewrite Ee; reflexivity).
    rewrite (floor_fval p x y), (floor_fval p x x) in Hfl by auto. cbv zeta in Hfl.
    assert (Eg : sig f y / 2 ^ free_bits f p x = sig f x / 2 ^ free_bits f p x).
    { unfold free_bits. destruct (Z.leb_spec (Z.log2 (sig f x) + 1 - p) 0) as [L|L].
      - pose proof (pow2_pos (- (Z.log2 (sig f x) + 1 - p)) ltac:(lia)). apply Z.mul_reg_r in Hfl; [|lia]. rewrite Hfl. reflexivity.
      - rewrite Z.max_r by lia. exact Hfl. }
    set (k := free_bits f p x) in *. pose proof (pow2_pos k ltac:(lia)) as Hpk.
    assert (Emn : man f y / 2 ^ k = man f x / 2 ^ k).
    { unfold sig in Eg. rewrite Ee in Eg. destruct (expf f x =? 0); [assumption|].
      replace (2 ^ mw f) with (2 ^ (mw f - k) * 2 ^ k) in Eg by (rewrite <- pow2_split by lia; f_equal; lia).
      rewrite !Z.div_add_l in Eg by lia. lia. }
    rewrite (bits_split3 f Hf x Hx), (bits_split3 f Hf y Hy), Es, Ee.
    assert (E1 : sbit f = 2 ^ (mw f + ew f - k) * 2 ^ k) by (unfold sbit; rewrite <- pow2_split by lia; f_equal; lia).
    assert (E2 : 2 ^ mw f = 2 ^ (mw f - k) * 2 ^ k) by (rewrite <- pow2_split by lia; f_equal; lia).
    rewrite E1, E2. rewrite !Z.mul_assoc. rewrite <- !Z.mul_add_distr_r. rewrite !Z.div_add_l by lia. lia.
  Qed.

  (** clearing the free bits is rounding toward zero to p significant bits *)
  Lemma clear_trunc p x y : 1 <= p -> is_bits f x -> fval f x <> 0%R -> op_effect bop_zero (free_bits f p x) x y ->
    fval f y = round radix2 (FLX_exp p) Ztrunc (fval f x).
  Proof.
    intros Hp Hx Hn Hy. pose proof (free_range f Hf p x Hp) as Hk. pose proof (op_effect_div f _ _ _ _ (proj1 Hk) Hy) as E.
    destruct (low_change f Hf x y _ Hx Hk E) as (By & Es & Ee & Em).
    destruct (low_sig f x y _ Ee Em Hk) as (Ex & Eg & Ed). pose proof (sig_pos x Hn) as Hsx.
    set (k := free_bits f p x) in *. pose proof (pow2_pos k ltac:(lia)) as Hpk.
    assert (Esig : sig f y = sig f x / 2 ^ k * 2 ^ k).
    { (* the cleared pattern has a cleared significand *)
      cbn [op_effect] in Hy. assert (Hmy : man f y mod 2 ^ k = 0).
      { unfold man. rewrite Hy. replace (2 ^ mw f) with (2 ^ k * 2 ^ (mw f - k)) by (rewrite <- pow2_split by lia; f_equal; lia).
        pose proof (pow2_pos (mw f - k) ltac:(lia)). rewrite Z.rem_mul_r by lia. rewrite (Z.mul_comm (2 ^ k)), Z.mod_add by lia.
        rewrite Z.mod_mod by lia. apply Z.mod_mul. lia. }
      assert (sig f y mod 2 ^ k = 0).
      { unfold sig. destruct (expf f y =? 0); [assumption|].
        replace (2 ^ mw f) with (2 ^ (mw f - k) * 2 ^ k) by (rewrite <- pow2_split by lia; f_equal; lia).
        rewrite Z.add_comm, Z.mod_add by lia. assumption. }
      pose proof (Z.div_mod (sig f y) (2 ^ k) ltac:(lia)). rewrite Eg in *. lia. }
    assert (Hpos : (round radix2 (FLX_exp p) Ztrunc (mval f x) = mval f y)%R).
    { unfold mval. rewrite Ex, Esig. unfold round, scaled_mantissa, cexp, FLX_exp, F2R. cbn [Fnum Fexp].
      rewrite mag_int by assumption. set (j := Z.log2 (sig f x) + 1 - p).
      replace (Z.log2 (sig f x) + 1 + sexp f x - p) with (j + sexp f x) by (unfold j; lia).
      rewrite Rmult_assoc, <- bpow_plus. replace (sexp f x + - (j + sexp f x)) with (- j) by lia.
      assert (Hk' : k = Z.max 0 j) by reflexivity. rewrite bpow_plus.
      destruct (Z.leb_spec j 0) as [L|L].
      - rewrite Hk', Z.max_l by lia. change (2 ^ 0) with 1. rewrite Z.div_1_r, Z.mul_1_r.
        rewrite <- IZR_pow2 by lia. rewrite <- mult_IZR, Ztrunc_IZR, mult_IZR, IZR_pow2 by lia.
        rewrite <- Rmult_assoc, (Rmult_assoc (IZR (sig f x))), <- bpow_plus. replace (- j + j) with 0 by lia. cbn [bpow]. ring.
      - rewrite Hk', Z.max_r by lia. rewrite bpow_opp, <- IZR_pow2 by lia. rewrite Ztrunc_floor.
        2:{ apply Rmult_le_pos; [apply IZR_le; lia|]. left. apply Rinv_0_lt_compat. apply IZR_lt. apply pow2_pos. lia. }
        change (IZR (sig f x) * / IZR (2 ^ j))%R with (IZR (sig f x) / IZR (2 ^ j))%R.
        rewrite Zfloor_div by (pose proof (pow2_pos j ltac:(lia)); lia). rewrite mult_IZR. ring. }
    rewrite !(fval_mval f Hf), Es. unfold signR. destruct (sgn f x =? 1); [|symmetry; exact Hpos].
    rewrite <- Hpos. rewrite (round_opp radix2 (FLX_exp p)). f_equal.
    unfold Zrnd_opp. apply round_ext. intros z. rewrite Ztrunc_opp. lia.
  Qed.
End real.

(** ** specification of one perturbation *)
(** the next draw of the generator, after the lazy initialisation that [binexact] performs *)
Definition next_draw (clk : Z) (c : bctx) (st : rst) : Z :=
  fst (uint64_rand clk (init_rng_state_struct (fst st) (b_choose c) (b_seed c) false, snd st)).

Section spec.
  Context (f : fmt) (Hf : fmt_ok f).
  Let Hmw : 2 <= mw f := proj1 Hf.
  Let Hew : 2 <= ew f := proj2 Hf.
  Let w := mw f + ew f + 1.

  Lemma class_regular x : is_finite f x = true -> fval f x <> 0%R <-> fpclassify f x = FP_NORMAL \/ fpclassify f x = FP_SUBNORMAL.
  Proof.
    intros F. destruct (fpclassify_correct f x Hf) as (C1 & C2 & C3 & C4 & C5). split.
    - intros N. destruct (fpclassify f x) eqn:E; try tauto.
      + pose proof (proj1 C1 eq_refl). destruct (finite_not_nan f x F). congruence.
      + pose proof (proj1 C2 eq_refl) as I. unfold is_inf, is_finite in *. destruct (expf f x =? expmax f); discriminate.
    - intros [E|E]; [apply C5 in E|apply C4 in E].
      + destruct E as [_ E]. intros Z0. rewrite Z0, Rabs_R0 in E. pose proof (bpow_gt_0 radix2 (1 - bias f)). lra.
      + destruct E as [_ E]. intros Z0. rewrite Z0, Rabs_R0 in E. lra.
  Qed.
  Lemma class_special x : is_finite f x = false \/ fval f x = 0%R -> fpclassify f x <> FP_NORMAL /\ fpclassify f x <> FP_SUBNORMAL.
  Proof.
    intros H. destruct (fpclassify_correct f x Hf) as (C1 & C2 & C3 & C4 & C5).
    split; intros E; [apply C5 in E|apply C4 in E]; destruct E as [E1 E2]; destruct H as [H|H]; try congruence;
      rewrite H, Rabs_R0 in E2; pose proof (bpow_gt_0 radix2 (1 - bias f)); lra.
  Qed.

  Lemma binexact_special clk c x st : b_mode c = bm_ieee \/ is_finite f x = false \/ fval f x = 0%R -> binexact clk f c x st = Ok (x, st).
  Proof.
    intros H. unfold binexact. replace (must_not f x c) with true; [reflexivity|symmetry]. unfold must_not.
    destruct H as [->|H]; [reflexivity|]. destruct (class_special x H) as [A B].
    destruct (fpclassify f x); try congruence; rewrite orb_true_r; reflexivity.
  Qed.
  Lemma op_effect_refl o k x : 0 <= k -> (k = 0 \/ o = bop_rand \/ o = bop_end) -> op_effect o k x x.
  Proof. intros Hk [->|[->| ->]]; try reflexivity. destruct o; cbn [op_effect]; change (2 ^ 0) with 1; rewrite ?Z.div_1_r; lia. Qed.

  Lemma binexact_spec clk c p x st : configured f c p -> is_bits f x -> b_op c <> bop_end ->
    exists y st', binexact clk f c x st = Ok (y, st') /\ is_bits f y /\ sgn f y = sgn f x /\ expf f y = expf f x /\
      (is_finite f x = true -> fval f x <> 0%R -> same_leading p (fval f x) (fval f y)) /\
      (must_not f x c = true -> y = x) /\
      (must_not f x c = false -> op_effect (b_op c) (free_bits f p x) x y).
  Proof.
    intros Hc Hx Ho. assert (Hp : 1 <= p) by apply Hc. destruct (must_not f x c) eqn:HN.
    - exists x, st. unfold binexact. rewrite HN. split; [reflexivity|]. split; [exact Hx|]. split; [reflexivity|]. split; [reflexivity|].
      split; [intros; apply same_leading_refl; assumption|]. split; [reflexivity|discriminate].
    - destruct (binexact_bits f Hf clk c p x st Hc Hx Ho HN) as (y & st' & E & Hy). exists y, st'.
      pose proof (free_range f Hf p x Hp) as Hk. pose proof (op_effect_div f _ _ _ _ (proj1 Hk) Hy) as D.
      destruct (low_change f Hf x y _ Hx Hk D) as (By & Es & Ee & Em).
      split; [exact E|]. split; [exact By|]. split; [exact Es|]. split; [exact Ee|].
      split; [intros _ N; apply (agree_leading f Hf p x y Hp Hx N D)|]. split; [discriminate|intros _; exact Hy].
  Qed.

  (** operator one gives the largest magnitude with the given leading bits *)
  Lemma one_maximal p x y z : 1 <= p -> is_bits f x -> op_effect bop_one (free_bits f p x) x y ->
    z / 2 ^ free_bits f p x = x / 2 ^ free_bits f p x -> (mval f z <= mval f y)%R.
  Proof.
    intros Hp Hx Hy Dz. pose proof (free_range f Hf p x Hp) as Hk. set (k := free_bits f p x) in *.
    pose proof (op_effect_div f _ _ _ _ (proj1 Hk) Hy) as Dy. pose proof (pow2_pos k ltac:(lia)) as Hpk.
    destruct (low_change f Hf x y k Hx Hk Dy) as (By & Sy & _). destruct (low_change f Hf x z k Hx Hk Dz) as (Bz & Sz & _).
    apply (mval_le f Hf). cbn [op_effect] in Hy.
    assert (z <= y).
    { rewrite Hy, <- Dz. pose proof (Z.div_mod z (2 ^ k) ltac:(lia)). pose proof (Z.mod_pos_bound z (2 ^ k) Hpk). lia. }
    rewrite (bits_split f Hf y By), (bits_split f Hf z Bz), Sy, Sz in H. lia.
  Qed.
  Lemma zero_minimal p x y : 1 <= p -> is_bits f x -> op_effect bop_zero (free_bits f p x) x y -> (mval f y <= mval f x)%R.
  Proof.
    intros Hp Hx Hy. pose proof (free_range f Hf p x Hp) as Hk. set (k := free_bits f p x) in *.
    pose proof (op_effect_div f _ _ _ _ (proj1 Hk) Hy) as Dy. pose proof (pow2_pos k ltac:(lia)) as Hpk.
    destruct (low_change f Hf x y k Hx Hk Dy) as (By & Sy & _). apply (mval_le f Hf). cbn [op_effect] in Hy.
    assert (y <= x).
    { rewrite Hy. pose proof (Z.div_mod x (2 ^ k) ltac:(lia)). pose proof (Z.mod_pos_bound x (2 ^ k) Hpk). lia. }
    rewrite (bits_split f Hf y By), (bits_split f Hf x Hx), Sy in H. lia.
  Qed.

  (** operator rand: every value with the given leading bits is the result of some draw *)
  Lemma rand_surjective clk c p x z : configured f c p -> is_bits f x -> b_op c = bop_rand -> must_not f x c = false ->
    z / 2 ^ free_bits f p x = x / 2 ^ free_bits f p x ->
    exists u, 0 <= u < 2 ^ mw f /\ forall st, next_draw clk c st = u -> exists st', binexact clk f c x st = Ok (z, st').
  Proof.
    intros Hc Hx Ho HN Dz. assert (Hp : 1 <= p) by apply Hc. pose proof (free_range f Hf p x Hp) as Hk.
    destruct (must_not_false f c x HN) as (_ & Hcl & _). pose proof (mask_for_eq f Hf c p x Hc Hcl) as EM.
    set (k := free_bits f p x) in *. pose proof (pow2_pos k ltac:(lia)) as Hpk.
    destruct (low_change f Hf x z k Hx Hk Dz) as (Bz & Sz & Ez & Mz).
    set (u := Z.lxor (man f x mod 2 ^ k) (man f z mod 2 ^ k)).
    pose proof (xor_range k (man f x) (man f z) ltac:(lia)) as Hu. fold u in Hu.
    pose proof (pow2_le k (mw f) Hk) as Hkm. exists u. split; [lia|]. intros st Hst.
    unfold binexact. rewrite HN, Ho, EM.
    replace (mask_one f - high_mask (mw f + ew f + 1) k) with (2 ^ k - 1) by (unfold mask_one, high_mask; lia).
    unfold next_draw in Hst. destruct (uint64_rand clk _) as [u' st'] eqn:ED. cbn [fst] in Hst. subst u'. exists st'. f_equal. f_equal.
    assert (2 ^ mw f <= 2 ^ (mw f + ew f + 1)) by (apply pow2_le; lia).
    rewrite (Z.mod_small u (2 ^ (mw f + ew f + 1))) by lia. pose proof (man_range f Hf x) as Hm. rewrite xor_low by lia.
    rewrite (Z.mod_small u) by lia. unfold u. rewrite <- Z.lxor_assoc, Z.lxor_nilpotent, Z.lxor_0_l. rewrite <- Mz.
    rewrite (Z.mul_comm _ (2 ^ k)), <- Z.div_mod by lia. rewrite <- Sz, <- Ez. symmetry.
    rewrite (bits_split3 f Hf z Bz) at 1. unfold make. rewrite (Z.mod_small (man f z)) by (apply man_range; assumption).
    rewrite (Z.mod_small (expf f z)) by (apply expf_range; assumption). rewrite (Z.mod_small (sgn f z)) by (apply sgn_range). reflexivity.
  Qed.

  (** the precision never matters for the default context: its masks are all ones *)
  Lemma default_mask c x : bmask f c = mask_one f -> bprec f c = mw f -> mask_for f c x = mask_one f.
  Proof.
    intros E1 E2. unfold mask_for. rewrite E1, E2. destruct (fpclassify f x) eqn:E; try reflexivity.
    unfold fpclassify in E. pose proof (man_range f Hf x) as Hm.
    destruct ((expf f x =? expmax f) && (man f x =? 0)); [discriminate|].
    destruct ((expf f x =? expmax f) && negb (man f x =? 0)); [discriminate|].
    destruct (Z.eqb_spec (man f x) 0) as [M|M]; [rewrite !andb_false_r in E; destruct ((expf f x =? 0) && true); discriminate|].
    assert (0 <= Z.log2 (man f x) < mw f) by (split; [apply Z.log2_nonneg|apply Z.log2_lt_pow2; lia]).
    destruct (Z.ltb_spec (mw f) (clz (mw f + ew f + 1) (man f x) - (1 + ew f) + mw f)) as [L|L]; [reflexivity|].
    unfold clz in *. replace (mw f - _) with 0 by lia. change (2 ^ 0) with 1. rewrite Z.mul_1_r.
    assert (Hone : mask_one f mod 2 ^ (mw f + ew f + 1) = mask_one f).
    { unfold mask_one. pose proof (pow2_pos (mw f + ew f + 1) ltac:(lia)). apply Z.mod_small. lia. }
    rewrite Hone. apply Z.lor_diag.
  Qed.
  Lemma default_binexact clk c x st : bmask f c = mask_one f -> bprec f c = mw f -> is_bits f x -> b_op c <> bop_end ->
    exists st', binexact clk f c x st = Ok (x, st').
  Proof.
    intros E1 E2 Hx Ho. unfold binexact. destruct (must_not f x c); [eauto|]. rewrite (default_mask c x E1 E2), Z.sub_diag.
    pose proof (proj1 (is_bits_w f Hf x) Hx) as Hw. destruct (b_op c).
    - eexists. f_equal. f_equal. change (mask_one f) with (high_mask w 0). unfold w. rewrite land_high by lia.
      change (2 ^ 0) with 1. rewrite Z.div_1_r. lia.
    - eexists. rewrite Z.lor_0_r. reflexivity.
    - destruct (uint64_rand clk _) as [u st']. eexists. rewrite Z.land_0_l, Z.lxor_0_r. f_equal. f_equal.
      rewrite (bits_split3 f Hf x Hx) at 4. unfold make. rewrite (Z.mod_small (man f x)) by (apply man_range; assumption).
      rewrite (Z.mod_small (expf f x)) by (apply expf_range; assumption). rewrite (Z.mod_small (sgn f x)) by (apply sgn_range). reflexivity.
    - congruence.
  Qed.
End spec.

(** ** operations *)
(** what a perturbation may turn the pattern x into *)
Definition bpert (on : bool) (f : fmt) (p x y : Z) : Prop :=
  is_bits f y /\ sgn f y = sgn f x /\ expf f y = expf f x /\
  (is_finite f x = false \/ fval f x = 0%R \/ on = false -> y = x) /\
  (is_finite f x = true -> fval f x <> 0%R -> same_leading p (fval f x) (fval f y)).

Lemma bpert_if clk on f c p x st : fmt_ok f -> configured f c p -> is_bits f x -> b_op c <> bop_end ->
  exists y st', binexact_if clk on f c x st = Ok (y, st') /\ bpert on f p x y.
Proof.
  intros Hf Hc Hx Ho. unfold binexact_if. destruct on.
  - destruct (binexact_spec f Hf clk c p x st Hc Hx Ho) as (y & st' & E & By & Es & Ee & L & M & _). exists y, st'. split; [exact E|].
    split; [exact By|]. split; [exact Es|]. split; [exact Ee|]. split; [|exact L]. intros H. apply M. 
    unfold must_not. assert (HS : is_finite f x = false \/ fval f x = 0%R) by (destruct H as [H|[H|H]]; [left|right|discriminate]; assumption).
    destruct (class_special f Hf x HS) as [A B]. destruct (fpclassify f x); try congruence; rewrite orb_true_r; reflexivity.
  - exists x, st. split; [reflexivity|]. split; [exact Hx|]. split; [reflexivity|]. split; [reflexivity|]. split; [reflexivity|].
    intros. apply same_leading_refl. assumption.
Qed.
Lemma bdaz_bits f c a : fmt_ok f -> is_bits f a -> is_bits f (bdaz f c a).
Proof. intros Hf Ha. unfold bdaz. destruct (b_daz c); [apply daz_ftz_bits|]; assumption. Qed.

Lemma bitmask_binary_spec n clk f c p o a b st : ieee_arith n -> fmt_ok f -> configured f c p -> b_op c <> bop_end -> is_bits f a -> is_bits f b ->
  exists a' b' z y st', bitmask_binary_op n clk f c o a b st = Ok (bftz f c y, st') /\
    bpert (bnoises_in (b_mode c)) f p (bdaz f c a) a' /\ bpert (bnoises_in (b_mode c)) f p (bdaz f c b) b' /\
    encodes f (dop o (dec f a') (dec f b')) z /\ bpert (bnoises_out (b_mode c)) f p z y.
Proof.
  intros Hn Hf Hc Ho Ha Hb. unfold bitmask_binary_op.
  destruct (bpert_if clk (bnoises_in (b_mode c)) f c p (bdaz f c a) st Hf Hc (bdaz_bits f c a Hf Ha) Ho) as (a' & s1 & E1 & P1).
  rewrite E1. cbn [bind].
  destruct (bpert_if clk (bnoises_in (b_mode c)) f c p (bdaz f c b) s1 Hf Hc (bdaz_bits f c b Hf Hb) Ho) as (b' & s2 & E2 & P2).
  rewrite E2. cbn [bind].
  pose proof (perform_encodes n o f a' b' Hn Hf (proj1 P1) (proj1 P2)) as Ez. pose proof (proj1 Ez) as Bz.
  destruct (bpert_if clk (bnoises_out (b_mode c)) f c p (perform n o f a' b') s2 Hf Hc Bz Ho) as (y & s3 & E3 & P3).
  rewrite E3. cbn [bind]. exists a', b', (perform n o f a' b'), y, s3. auto.
Qed.

Lemma bitmask_ternary_spec n clk f c p a b d st : ieee_arith n -> fmt_ok f -> configured f c p -> b_op c <> bop_end ->
  is_bits f a -> is_bits f b -> is_bits f d ->
  exists a' b' d' z y st', bitmask_ternary_op n clk f c a b d st = Ok (bftz f c y, st') /\
    bpert (bnoises_in (b_mode c)) f p (bdaz f c a) a' /\ bpert (bnoises_in (b_mode c)) f p (bdaz f c b) b' /\
    bpert (bnoises_in (b_mode c)) f p (bdaz f c d) d' /\
    encodes f (dfma (dec f a') (dec f b') (dec f d')) z /\ bpert (bnoises_out (b_mode c)) f p z y.
Proof.
  intros Hn Hf Hc Ho Ha Hb Hd. unfold bitmask_ternary_op.
  destruct (bpert_if clk (bnoises_in (b_mode c)) f c p (bdaz f c a) st Hf Hc (bdaz_bits f c a Hf Ha) Ho) as (a' & s1 & E1 & P1).
  rewrite E1. cbn [bind].
  destruct (bpert_if clk (bnoises_in (b_mode c)) f c p (bdaz f c b) s1 Hf Hc (bdaz_bits f c b Hf Hb) Ho) as (b' & s2 & E2 & P2).
  rewrite E2. cbn [bind].
  destruct (bpert_if clk (bnoises_in (b_mode c)) f c p (bdaz f c d) s2 Hf Hc (bdaz_bits f c d Hf Hd) Ho) as (d' & s3 & E3 & P3).
  rewrite E3. cbn [bind].
  destruct (Hn f Hf a' b' (proj1 P1) (proj1 P2)) as (_ & _ & _ & _ & Hfma). pose proof (Hfma d' (proj1 P3)) as Ez. pose proof (proj1 Ez) as Bz.
  destruct (bpert_if clk (bnoises_out (b_mode c)) f c p (n_fma n f a' b' d') s3 Hf Hc Bz Ho) as (y & s4 & E4 & P4).
  rewrite E4. cbn [bind]. exists a', b', d', (n_fma n f a' b' d'), y, s4. repeat (split; [first [reflexivity|assumption]|]). exact P4.
Qed.
Lemma bitmask_cast_spec clk c p a st : configured binary64 c p -> b_op c <> bop_end -> is_bits binary64 a ->
  exists a' z y st', bitmask_cast clk c a st = Ok (fconv binary64 binary32 (bftz binary64 c y), st') /\
    bpert (bnoises_in (b_mode c)) binary64 p (bdaz binary64 c a) a' /\
    encodes binary32 (dec binary64 a') z /\ bpert (bnoises_out (b_mode c)) binary64 p (fconv binary32 binary64 z) y.
Proof.
  intros Hc Ho Ha. unfold bitmask_cast.
  destruct (bpert_if clk (bnoises_in (b_mode c)) binary64 c p (bdaz binary64 c a) st ok64 Hc (bdaz_bits binary64 c a ok64 Ha) Ho) as (a' & s1 & E1 & P1).
  rewrite E1. cbn [bind].
  pose proof (fconv_encodes binary64 binary32 a' ok64 ok32) as Ez.
  pose proof (proj1 (fconv_encodes binary32 binary64 (fconv binary64 binary32 a') ok32 ok64)) as Bw.
  destruct (bpert_if clk (bnoises_out (b_mode c)) binary64 c p _ s1 ok64 Hc Bw Ho) as (y & s2 & E2 & P2).
  rewrite E2. cbn [bind]. exists a', (fconv binary64 binary32 a'), y, s2. auto.
Qed.
