(** Facts about bit patterns: fields, integer values, exact packing. *)
From Coq Require Import ZArith Bool Lia.
From Verif Require Import Common Bits.
Open Scope Z_scope.
Ltac Zify.zify_post_hook ::= idtac.

(** ** Powers of two *)
Lemma pow2_pos n : 0 <= n -> 0 < 2 ^ n.
Proof. intros. apply Z.pow_pos_nonneg; lia. Qed.
Lemma pow2_split a b : 0 <= a -> 0 <= b -> 2 ^ (a + b) = 2 ^ a * 2 ^ b.
Proof. intros. apply Z.pow_add_r; assumption. Qed.
Lemma pow2_S n : 0 <= n -> 2 ^ (n + 1) = 2 * 2 ^ n.
Proof. intros. rewrite Z.pow_add_r by lia. lia. Qed.
Lemma pow2_P n : 1 <= n -> 2 ^ n = 2 * 2 ^ (n - 1).
Proof. intros. rewrite <- pow2_S by lia. f_equal. lia. Qed.
Lemma pow2_le a b : 0 <= a <= b -> 2 ^ a <= 2 ^ b.
Proof. intros. apply Z.pow_le_mono_r; lia. Qed.
Lemma pow2_lt a b : 0 <= a < b -> 2 ^ a < 2 ^ b.
Proof. intros. apply Z.pow_lt_mono_r; lia. Qed.

(** ** Fields *)
Section fields.
  Context (f : fmt) (Hf : fmt_ok f).

  Lemma mw_pos : 0 < 2 ^ mw f. Proof. apply pow2_pos. destruct Hf; lia. Qed.
  Lemma ew_pos : 0 < 2 ^ ew f. Proof. apply pow2_pos. destruct Hf; lia. Qed.
  Lemma sbit_eq : sbit f = 2 ^ ew f * 2 ^ mw f.
  Proof. unfold sbit. rewrite pow2_split by (destruct Hf; lia). lia. Qed.
  Lemma sbit_pos : 0 < sbit f.
  Proof. rewrite sbit_eq. pose proof mw_pos. pose proof ew_pos. nia. Qed.
  Lemma ew_4 : 4 <= 2 ^ ew f.
  Proof. change 4 with (2 ^ 2). apply pow2_le. destruct Hf; lia. Qed.
  Lemma mw_4 : 4 <= 2 ^ mw f.
  Proof. change 4 with (2 ^ 2). apply pow2_le. destruct Hf; lia. Qed.
  Lemma inf_code_eq : inf_code f = sbit f - 2 ^ mw f.
  Proof. unfold inf_code, expmax. rewrite sbit_eq. lia. Qed.
  Lemma inf_code_pos : 0 < inf_code f.
  Proof. unfold inf_code, expmax. pose proof mw_pos. pose proof ew_4. nia. Qed.
  Lemma bias_bounds : 1 <= bias f /\ 2 * bias f + 2 = 2 ^ ew f.
  Proof.
    unfold bias. destruct Hf as [_ H]. rewrite (pow2_P (ew f)) by lia.
    assert (2 ^ 1 <= 2 ^ (ew f - 1)) by (apply pow2_le; lia). change (2 ^ 1) with 2 in *. lia.
  Qed.

  Lemma man_range b : 0 <= man f b < 2 ^ mw f.
  Proof. apply Z.mod_pos_bound. exact mw_pos. Qed.
  Lemma expf_range b : 0 <= expf f b < 2 ^ ew f.
  Proof. apply Z.mod_pos_bound. exact ew_pos. Qed.
  Lemma sgn_range b : 0 <= sgn f b < 2.
  Proof. apply Z.mod_pos_bound. lia. Qed.
  Lemma sgn_01 b : sgn f b = 0 \/ sgn f b = 1.
  Proof. pose proof (sgn_range b). lia. Qed.
  Lemma code_range b : 0 <= code f b < sbit f.
  Proof. apply Z.mod_pos_bound. exact sbit_pos. Qed.

  Lemma code_split b : code f b = expf f b * 2 ^ mw f + man f b.
  Proof.
    unfold code, expf, man. rewrite sbit_eq. rewrite (Z.mul_comm (2 ^ ew f)).
    rewrite Z.rem_mul_r; [lia| pose proof mw_pos; lia|exact ew_pos].
  Qed.

  Lemma bits_split b : is_bits f b -> b = sgn f b * sbit f + code f b.
  Proof.
    intros Hb. unfold is_bits in Hb. unfold sgn, code. pose proof sbit_pos as Hs.
    pose proof (Z.div_mod b (sbit f) ltac:(lia)) as Hd.
    assert (0 <= b / sbit f < 2).
    { split; [apply Z.div_pos; lia|apply Z.div_lt_upper_bound; lia]. }
    rewrite (Z.mod_small (b / sbit f) 2) by lia. lia.
  Qed.

  Lemma bits_split3 b : is_bits f b -> b = sgn f b * sbit f + expf f b * 2 ^ mw f + man f b.
  Proof. intros Hb. rewrite (bits_split b Hb) at 1. rewrite code_split. lia. Qed.

  (** a pattern from sign and code *)
  Definition pack (s c : Z) : Z := s * sbit f + c.

  Lemma pack_bits s c : (s = 0 \/ s = 1) -> 0 <= c < sbit f -> is_bits f (pack s c).
  Proof. unfold is_bits, pack. intros [E|E]; subst s; lia. Qed.

  Lemma pack_sgn s c : (s = 0 \/ s = 1) -> 0 <= c < sbit f -> sgn f (pack s c) = s.
  Proof.
    intros Hs Hc. unfold sgn, pack. rewrite Z.div_add_l by lia. rewrite (Z.div_small c) by lia.
    rewrite Z.add_0_r. apply Z.mod_small. lia.
  Qed.

  Lemma pack_code s c : 0 <= c < sbit f -> code f (pack s c) = c.
  Proof.
    intros Hc. unfold code, pack. rewrite Z.add_comm, Z.mod_add by lia. apply Z.mod_small. lia.
  Qed.

  Lemma pack_self b : is_bits f b -> b = pack (sgn f b) (code f b).
  Proof. apply bits_split. Qed.

  Lemma expf_code b : expf f b = code f b / 2 ^ mw f.
  Proof.
    rewrite code_split. rewrite Z.div_add_l by (pose proof mw_pos; lia).
    rewrite (Z.div_small (man f b)) by apply man_range. lia.
  Qed.
  Lemma man_code b : man f b = code f b mod 2 ^ mw f.
  Proof.
    rewrite code_split. rewrite Z.add_comm, Z.mod_add by (pose proof mw_pos; lia).
    symmetry. apply Z.mod_small. apply man_range.
  Qed.
  Lemma pack_expf s c : 0 <= c < sbit f -> expf f (pack s c) = c / 2 ^ mw f.
  Proof. intros. rewrite expf_code, pack_code by assumption. reflexivity. Qed.
  Lemma pack_man s c : 0 <= c < sbit f -> man f (pack s c) = c mod 2 ^ mw f.
  Proof. intros. rewrite man_code, pack_code by assumption. reflexivity. Qed.

  Lemma make_pack s e m : make f s e m = pack (s mod 2) ((e mod 2 ^ ew f) * 2 ^ mw f + m mod 2 ^ mw f).
  Proof. unfold make, pack. lia. Qed.

  Lemma fields_code e m : 0 <= e < 2 ^ ew f -> 0 <= m < 2 ^ mw f -> 0 <= e * 2 ^ mw f + m < sbit f.
  Proof. intros. rewrite sbit_eq. nia. Qed.

  Lemma make_sgn s e m : sgn f (make f s e m) = s mod 2.
  Proof.
    rewrite make_pack. apply pack_sgn.
    - pose proof (Z.mod_pos_bound s 2 ltac:(lia)). lia.
    - apply fields_code; apply Z.mod_pos_bound; [exact ew_pos|exact mw_pos].
  Qed.
  Lemma make_code s e m : code f (make f s e m) = (e mod 2 ^ ew f) * 2 ^ mw f + m mod 2 ^ mw f.
  Proof. rewrite make_pack. apply pack_code. apply fields_code; apply Z.mod_pos_bound; [exact ew_pos|exact mw_pos]. Qed.
  Lemma make_expf s e m : expf f (make f s e m) = e mod 2 ^ ew f.
  Proof.
    rewrite expf_code, make_code, Z.div_add_l by (pose proof mw_pos; lia).
    rewrite (Z.div_small (m mod _)) by (apply Z.mod_pos_bound; exact mw_pos). lia.
  Qed.
  Lemma make_man s e m : man f (make f s e m) = m mod 2 ^ mw f.
  Proof.
    rewrite man_code, make_code, Z.add_comm, Z.mod_add by (pose proof mw_pos; lia).
    apply Z.mod_mod. pose proof mw_pos; lia.
  Qed.
  Lemma make_bits s e m : is_bits f (make f s e m).
  Proof.
    rewrite make_pack. apply pack_bits.
    - pose proof (Z.mod_pos_bound s 2 ltac:(lia)). lia.
    - apply fields_code; apply Z.mod_pos_bound; [exact ew_pos|exact mw_pos].
  Qed.

  (** ** Classification through the code *)
  Lemma finite_code b : is_finite f b = true <-> code f b < inf_code f.
  Proof.
    unfold is_finite. rewrite negb_true_iff, Z.eqb_neq, inf_code_eq, sbit_eq, code_split. unfold expmax.
    pose proof (expf_range b). pose proof (man_range b). split; intros; [|intros E; rewrite E in *]; nia.
  Qed.
  Lemma finite_expf b : is_finite f b = true <-> expf f b <= expmax f - 1.
  Proof.
    unfold is_finite. rewrite negb_true_iff, Z.eqb_neq. unfold expmax. pose proof (expf_range b). lia.
  Qed.
  Lemma nan_or_inf b : is_finite f b = false -> is_nan f b = true \/ is_inf f b = true.
  Proof.
    unfold is_finite, is_nan, is_inf. intros H. apply negb_false_iff in H. rewrite H. cbn.
    destruct (man f b =? 0); auto.
  Qed.
  Lemma finite_not_nan b : is_finite f b = true -> is_nan f b = false /\ is_inf f b = false.
  Proof.
    unfold is_finite, is_nan, is_inf. intros H. apply negb_true_iff in H. rewrite H. auto.
  Qed.

  (** ** Value in units of the smallest subnormal *)
  Definition cval (c : Z) : Z :=
    if c / 2 ^ mw f =? 0 then c mod 2 ^ mw f
    else (2 ^ mw f + c mod 2 ^ mw f) * 2 ^ (c / 2 ^ mw f - 1).

  Lemma sig_nonneg b : 0 <= sig f b.
  Proof. unfold sig. pose proof (man_range b). pose proof mw_pos. destruct (_ =? _); lia. Qed.
  Lemma sig_lt b : sig f b < 2 ^ (mw f + 1).
  Proof.
    unfold sig. pose proof (man_range b). rewrite pow2_S by (destruct Hf; lia). pose proof mw_pos.
    destruct (_ =? _); lia.
  Qed.
  Lemma sexp_ge b : emin_ulp f <= sexp f b.
  Proof. unfold sexp, emin_ulp. pose proof (expf_range b). destruct (Z.eqb_spec (expf f b) 0); lia. Qed.

  Lemma cval_sig b : cval (code f b) = sig f b * 2 ^ (sexp f b - emin_ulp f).
  Proof.
    unfold cval, sig, sexp, emin_ulp. rewrite <- expf_code, <- man_code.
    destruct (Z.eqb_spec (expf f b) 0).
    - replace (1 - bias f - mw f - (1 - bias f - mw f)) with 0 by lia. rewrite Z.pow_0_r. lia.
    - f_equal. f_equal. lia.
  Qed.

  (** additive encoding *)
  Lemma cval_add t M : 0 <= t ->
    (t = 0 /\ 0 <= M <= 2 ^ (mw f + 1)) \/ (2 ^ mw f <= M <= 2 ^ (mw f + 1)) ->
    cval (t * 2 ^ mw f + M) = M * 2 ^ t.
  Proof.
    intros Ht HM. pose proof mw_pos as Hp. assert (Hmw : 0 <= mw f) by (destruct Hf; lia).
    rewrite pow2_S in HM by lia. unfold cval.
    assert (Hc : (0 <= M < 2 ^ mw f /\ t = 0) \/ (2 ^ mw f <= M < 2 * 2 ^ mw f) \/ M = 2 * 2 ^ mw f) by lia.
    destruct Hc as [[HM' E]|[HM'|E]].
    - subst t. rewrite Z.mul_0_l, Z.add_0_l. rewrite Z.div_small, Z.mod_small by lia. cbn. lia.
    - replace (t * 2 ^ mw f + M) with ((t + 1) * 2 ^ mw f + (M - 2 ^ mw f)) by lia.
      rewrite Z.div_add_l by lia. rewrite (Z.div_small (M - _)) by lia.
      rewrite (Z.add_comm (_ * _)), Z.mod_add, Z.mod_small by lia.
      destruct (Z.eqb_spec (t + 1 + 0) 0); [lia|]. replace (t + 1 + 0 - 1) with t by lia. f_equal. lia.
    - subst M. replace (t * 2 ^ mw f + 2 * 2 ^ mw f) with ((t + 2) * 2 ^ mw f + 0) by lia.
      rewrite Z.div_add_l by lia. rewrite (Z.div_small 0) by lia.
      rewrite (Z.add_comm (_ * _)), Z.mod_add, Z.mod_small by lia.
      destruct (Z.eqb_spec (t + 2 + 0) 0); [lia|]. replace (t + 2 + 0 - 1) with (t + 1) by lia.
      rewrite pow2_S by lia. lia.
  Qed.

  Lemma cval_nonneg c : 0 <= c -> 0 <= cval c.
  Proof.
    intros. unfold cval. pose proof mw_pos. pose proof (Z.mod_pos_bound c (2 ^ mw f) ltac:(lia)).
    assert (0 <= c / 2 ^ mw f) by (apply Z.div_pos; lia).
    destruct (Z.eqb_spec (c / 2 ^ mw f) 0); [lia|]. pose proof (pow2_pos (c / 2 ^ mw f - 1) ltac:(lia)). nia.
  Qed.

  Lemma cval_step c : 0 <= c -> cval c < cval (c + 1).
  Proof.
    intros Hc. pose proof mw_pos as Hp. assert (Hmw : 0 <= mw f) by (destruct Hf; lia).
    pose proof (Z.div_mod c (2 ^ mw f) ltac:(lia)) as Hd.
    pose proof (Z.mod_pos_bound c (2 ^ mw f) Hp) as Hm.
    assert (Hq : 0 <= c / 2 ^ mw f) by (apply Z.div_pos; lia).
    set (q := c / 2 ^ mw f) in *. set (m := c mod 2 ^ mw f) in *.
    destruct (Z.eq_dec q 0) as [E|E].
    - replace c with (0 * 2 ^ mw f + m) by lia. rewrite cval_add by (rewrite ?pow2_S; lia).
      replace (0 * 2 ^ mw f + m + 1) with (0 * 2 ^ mw f + (m + 1)) by lia.
      rewrite cval_add by (rewrite ?pow2_S; lia). change (2 ^ 0) with 1. lia.
    - replace c with ((q - 1) * 2 ^ mw f + (2 ^ mw f + m)) by lia. rewrite cval_add by (rewrite ?pow2_S; lia).
      replace ((q - 1) * 2 ^ mw f + (2 ^ mw f + m) + 1) with ((q - 1) * 2 ^ mw f + (2 ^ mw f + m + 1)) by lia.
      rewrite cval_add by (rewrite ?pow2_S; lia). pose proof (pow2_pos (q - 1) ltac:(lia)). nia.
  Qed.

  Lemma cval_lt c d : 0 <= c < d -> cval c < cval d.
  Proof.
    intros [Hc Hd]. replace d with (c + Z.of_nat (Z.to_nat (d - c - 1)) + 1) by lia.
    induction (Z.to_nat (d - c - 1)) as [|n IH].
    - rewrite Z.add_0_r. apply cval_step. lia.
    - eapply Z.lt_trans; [exact IH|]. rewrite Nat2Z.inj_succ.
      replace (c + Z.succ (Z.of_nat n) + 1) with (c + Z.of_nat n + 1 + 1) by lia. apply cval_step. lia.
  Qed.
  Lemma cval_le c d : 0 <= c <= d -> cval c <= cval d.
  Proof. intros. destruct (Z.eq_dec c d) as [->|]; [lia|]. pose proof (cval_lt c d). lia. Qed.
  Lemma cval_inj c d : 0 <= c -> 0 <= d -> cval c = cval d -> c = d.
  Proof.
    intros. destruct (Z.lt_trichotomy c d) as [Hl|[|Hl]]; auto; [pose proof (cval_lt c d)|pose proof (cval_lt d c)]; lia.
  Qed.
  Lemma cval_0 : cval 0 = 0.
  Proof. unfold cval. rewrite Z.div_0_l, Z.mod_0_l by (pose proof mw_pos; lia). reflexivity. Qed.

  (** signed value in units of 2^emin_ulp *)
  Definition uval (b : Z) : Z := if sgn f b =? 1 then - cval (code f b) else cval (code f b).
  Lemma uval_ssig b : uval b = ssig f b * 2 ^ (sexp f b - emin_ulp f).
  Proof. unfold uval, ssig. rewrite cval_sig. destruct (_ =? _); lia. Qed.
  Lemma uval_pack s c : (s = 0 \/ s = 1) -> 0 <= c < sbit f -> uval (pack s c) = if s =? 1 then - cval c else cval c.
  Proof. intros Hs Hc. unfold uval. rewrite pack_sgn, pack_code by assumption. reflexivity. Qed.
End fields.

(** ** Integer rounding *)
Lemma rne_nonpos m k : k <= 0 -> rne m k = m * 2 ^ (- k).
Proof. intros. unfold rne. destruct (Z.leb_spec k 0); [reflexivity|lia]. Qed.

Lemma rne_pos m k : 0 < k ->
  rne m k = m / 2 ^ k + (if (2 ^ k <? 2 * (m mod 2 ^ k)) || ((2 * (m mod 2 ^ k) =? 2 ^ k) && Z.odd (m / 2 ^ k)) then 1 else 0).
Proof. intros. unfold rne. destruct (Z.leb_spec k 0); [lia|]. destruct (_ || _); lia. Qed.

Lemma rne_scale m j k : 0 <= j -> rne (m * 2 ^ j) k = rne m (k - j).
Proof.
  intros Hj. destruct (Z.leb_spec k 0) as [Hk|Hk].
  - rewrite !rne_nonpos by lia. rewrite <- Z.mul_assoc, <- pow2_split by lia. f_equal. f_equal. lia.
  - destruct (Z.leb_spec k j) as [Hkj|Hkj].
    + rewrite (rne_nonpos m) by lia. rewrite rne_pos by lia.
      replace (2 ^ j) with (2 ^ (- (k - j)) * 2 ^ k) by (rewrite <- pow2_split by lia; f_equal; lia).
      pose proof (pow2_pos k ltac:(lia)).
      rewrite Z.mul_assoc, Z.div_mul, Z.mod_mul by lia.
      destruct (Z.ltb_spec (2 ^ k) (2 * 0)); [lia|]. destruct (Z.eqb_spec (2 * 0) (2 ^ k)); [lia|]. cbn. lia.
    + rewrite !rne_pos by lia.
      pose proof (pow2_pos j ltac:(lia)) as H1. pose proof (pow2_pos (k - j) ltac:(lia)) as H2.
      replace (2 ^ k) with (2 ^ (k - j) * 2 ^ j) by (rewrite <- pow2_split by lia; f_equal; lia).
      rewrite Z.div_mul_cancel_r by lia. rewrite Z.mul_mod_distr_r by lia.
      set (r := m mod 2 ^ (k - j)). set (q := m / 2 ^ (k - j)).
      replace (2 ^ (k - j) * 2 ^ j <? 2 * (r * 2 ^ j)) with (2 ^ (k - j) <? 2 * r).
      2:{ destruct (Z.ltb_spec (2 ^ (k - j)) (2 * r)), (Z.ltb_spec (2 ^ (k - j) * 2 ^ j) (2 * (r * 2 ^ j))); auto; nia. }
      replace (2 * (r * 2 ^ j) =? 2 ^ (k - j) * 2 ^ j) with (2 * r =? 2 ^ (k - j)).
      2:{ destruct (Z.eqb_spec (2 * r) (2 ^ (k - j))), (Z.eqb_spec (2 * (r * 2 ^ j)) (2 ^ (k - j) * 2 ^ j)); auto; nia. }
      reflexivity.
Qed.

Lemma rne_exact m k : 0 <= k -> rne (m * 2 ^ k) k = m.
Proof. intros. rewrite rne_scale by lia. rewrite rne_nonpos by lia. replace (- (k - k)) with 0 by lia. lia. Qed.

Lemma rne_floor_ceil m k : 0 < k -> m / 2 ^ k <= rne m k <= m / 2 ^ k + 1.
Proof. intros. rewrite rne_pos by lia. destruct (_ || _); lia. Qed.

Lemma rne_lower m k B : 0 < k -> B * 2 ^ k <= m -> B <= rne m k.
Proof.
  intros Hk H. pose proof (rne_floor_ceil m k Hk). pose proof (pow2_pos k ltac:(lia)).
  assert (B <= m / 2 ^ k) by (apply Z.div_le_lower_bound; lia). lia.
Qed.
Lemma rne_upper m k B : 0 < k -> m <= B * 2 ^ k -> rne m k <= B.
Proof.
  intros Hk H. pose proof (pow2_pos k ltac:(lia)) as Hp. destruct (Z.eq_dec m (B * 2 ^ k)) as [->|Hne].
  - rewrite rne_exact by lia. lia.
  - pose proof (rne_floor_ceil m k Hk). assert (m / 2 ^ k < B) by (apply Z.div_lt_upper_bound; lia). lia.
Qed.

Lemma rne_add_even m k q : 0 < k -> rne (m + 2 * q * 2 ^ k) k = rne m k + 2 * q.
Proof.
  intros Hk. pose proof (pow2_pos k ltac:(lia)). rewrite !rne_pos by lia.
  rewrite Z.div_add, Z.mod_add by lia. rewrite Z.odd_add_mul_2. lia.
Qed.

Lemma rne_mono m m' k : m <= m' -> rne m k <= rne m' k.
Proof.
  intros H. destruct (Z.leb_spec k 0) as [Hk|Hk].
  { rewrite !rne_nonpos by lia. pose proof (pow2_pos (- k) ltac:(lia)). nia. }
  pose proof (pow2_pos k ltac:(lia)) as Hp.
  pose proof (rne_floor_ceil m k Hk). pose proof (rne_floor_ceil m' k Hk).
  assert (Hd : m / 2 ^ k <= m' / 2 ^ k) by (apply Z.div_le_mono; lia).
  destruct (Z.eq_dec (m / 2 ^ k) (m' / 2 ^ k)) as [E|E]; [|lia].
  rewrite !rne_pos by lia. rewrite <- E.
  pose proof (Z.div_mod m (2 ^ k) ltac:(lia)). pose proof (Z.div_mod m' (2 ^ k) ltac:(lia)). rewrite <- E in *.
  assert (Hr : m mod 2 ^ k <= m' mod 2 ^ k) by lia.
  destruct (Z.ltb_spec (2 ^ k) (2 * (m mod 2 ^ k))), (Z.ltb_spec (2 ^ k) (2 * (m' mod 2 ^ k)));
    destruct (Z.eqb_spec (2 * (m mod 2 ^ k)) (2 ^ k)), (Z.eqb_spec (2 * (m' mod 2 ^ k)) (2 ^ k)); cbn [orb andb];
    destruct (Z.odd (m / 2 ^ k)); cbn; lia.
Qed.

(** distance of rounding: |m - rne * 2^k| <= 2^(k-1) *)
Lemma rne_error m k : 0 < k -> 2 * Z.abs (m - rne m k * 2 ^ k) <= 2 ^ k.
Proof.
  intros Hk. pose proof (pow2_pos k ltac:(lia)) as Hp. rewrite rne_pos by lia.
  pose proof (Z.div_mod m (2 ^ k) ltac:(lia)). pose proof (Z.mod_pos_bound m (2 ^ k) Hp).
  destruct (Z.ltb_spec (2 ^ k) (2 * (m mod 2 ^ k))); cbn [orb].
  - lia.
  - destruct (Z.eqb_spec (2 * (m mod 2 ^ k)) (2 ^ k)); cbn [andb]; [destruct (Z.odd (m / 2 ^ k)); lia|lia].
Qed.

(** ** Packing *)
Section packing.
  Context (f : fmt) (Hf : fmt_ok f).

  Lemma log2_scale m j : 0 < m -> 0 <= j -> Z.log2 (m * 2 ^ j) = Z.log2 m + j.
  Proof. intros. rewrite Z.log2_mul_pow2 by lia. lia. Qed.

  Lemma round_pack_scale s m j e : 0 < m -> 0 <= j -> round_pack f s (m * 2 ^ j) e = round_pack f s m (e + j).
  Proof.
    intros Hm Hj. unfold round_pack. pose proof (pow2_pos j Hj).
    destruct (Z.eqb_spec m 0); [lia|]. destruct (Z.eqb_spec (m * 2 ^ j) 0); [nia|].
    rewrite log2_scale by lia. replace (Z.log2 m + j + 1 + e) with (Z.log2 m + 1 + (e + j)) by lia.
    set (t := Z.max _ _). rewrite rne_scale by lia. replace (t - e - j) with (t - (e + j)) by lia. reflexivity.
  Qed.

  (** exact packing of a value already on the grid of the format *)
  Lemma round_pack_exact s M t :
    0 < M -> emin_ulp f <= t ->
    (t = emin_ulp f /\ M < 2 ^ (mw f + 1)) \/ (2 ^ mw f <= M < 2 ^ (mw f + 1)) ->
    (t - emin_ulp f) * 2 ^ mw f + M <= inf_code f ->
    round_pack f s M t = pack f s ((t - emin_ulp f) * 2 ^ mw f + M).
  Proof.
    intros HM Ht HM2 Hinf. unfold round_pack. destruct (Z.eqb_spec M 0); [lia|].
    assert (Hl : Z.log2 M + 1 + t - (mw f + 1) <= t).
    { assert (Z.log2 M < mw f + 1) by (apply Z.log2_lt_pow2; lia). lia. }
    assert (Hmax : Z.max (Z.log2 M + 1 + t - (mw f + 1)) (emin_ulp f) = t).
    { destruct HM2 as [[E HM2]|HM2]; [lia|].
      assert (Z.log2 M = mw f); [|lia]. apply Z.log2_unique; [destruct Hf; lia|]. unfold Z.succ. lia. }
    rewrite Hmax. rewrite rne_nonpos by lia. replace (- (t - t)) with 0 by lia. rewrite Z.pow_0_r, Z.mul_1_r.
    unfold pack, zero. lia.
  Qed.

  Lemma round_pack_zero s e : round_pack f s 0 e = pack f s 0.
  Proof. unfold round_pack, pack, zero. cbn. lia. Qed.
End packing.
