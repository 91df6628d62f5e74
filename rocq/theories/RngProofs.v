(** Injectivity of seeding and stepping, range of the draws, independence of the threads' streams. *)
From Coq Require Import ZArith Reals List Bool Lia Lra.
From Flocq Require Import Core.
From Verif Require Import Common Bits BitsFacts FloatReal FloatValue FloatOps RngModel.
Import ListNotations.
Open Scope Z_scope.

Lemma wrap64_range x : 0 <= wrap64 x < 2 ^ 64.
Proof. unfold wrap64. apply Z.mod_pos_bound. lia. Qed.
Lemma wrap64_id x : is_u64 x -> wrap64 x = x.
Proof. intros H. unfold wrap64. apply Z.mod_small. exact H. Qed.

Lemma lxor_u64 x y : is_u64 x -> is_u64 y -> is_u64 (Z.lxor x y).
Proof.
  unfold is_u64. intros Hx Hy. split; [apply Z.lxor_nonneg; lia|].
  destruct (Z.eq_dec (Z.lxor x y) 0) as [->|E]; [lia|].
  assert (0 < Z.lxor x y) by (assert (0 <= Z.lxor x y) by (apply Z.lxor_nonneg; lia); lia).
  apply Z.log2_lt_pow2; [assumption|]. eapply Z.le_lt_trans; [apply Z.log2_lxor; lia|].
  assert (Hb : forall z, 0 <= z < 2 ^ 64 -> Z.log2 z < 64).
  { intros z Hz. destruct (Z.eq_dec z 0) as [->|]; [cbn; lia|]. apply Z.log2_lt_pow2; lia. }
  apply Z.max_lub_lt; apply Hb; assumption.
Qed.
Lemma shiftr_u64 x k : 0 <= k -> is_u64 x -> is_u64 (Z.shiftr x k).
Proof.
  unfold is_u64. intros Hk Hx. rewrite Z.shiftr_div_pow2 by assumption. pose proof (pow2_pos k Hk).
  split; [apply Z.div_pos; lia|]. apply Z.div_lt_upper_bound; [assumption|]. nia.
Qed.

(** x ^ (x >> k) is injective for k >= 1 *)
Lemma xorshift_inj k x y : 1 <= k -> 0 <= x -> 0 <= y ->
  Z.lxor x (Z.shiftr x k) = Z.lxor y (Z.shiftr y k) -> x = y.
Proof.
  intros Hk Hx Hy H. set (d := Z.lxor x y).
  assert (Hd : d = Z.shiftr d k).
  { unfold d. rewrite Z.shiftr_lxor. apply Z.bits_inj'. intros n Hn.
    apply (f_equal (fun z => Z.testbit z n)) in H. rewrite !Z.lxor_spec in *.
    destruct (Z.testbit x n), (Z.testbit y n), (Z.testbit (Z.shiftr x k) n), (Z.testbit (Z.shiftr y k) n); cbn in *; congruence. }
  assert (H0 : 0 <= d) by (unfold d; apply Z.lxor_nonneg; lia).
  rewrite Z.shiftr_div_pow2 in Hd by lia.
  assert (d = 0).
  { destruct (Z.eq_dec d 0) as [E|E]; [exact E|]. exfalso. pose proof (Z.div_lt d (2 ^ k) ltac:(lia)) as H1.
    assert (2 ^ 1 <= 2 ^ k) by (apply pow2_le; lia). lia. }
  apply Z.lxor_eq. assumption.
Qed.

Lemma wrap_add_inj c x y : is_u64 x -> is_u64 y -> wrap64 (x + c) = wrap64 (y + c) -> x = y.
Proof.
  unfold is_u64, wrap64. intros Hx Hy H.
  assert (E : (x + c - (y + c)) mod 2 ^ 64 = 0) by (rewrite Zminus_mod, H, Z.sub_diag; reflexivity).
  replace (x + c - (y + c)) with (x - y) in E by lia.
  apply Z.mod_divide in E; [|lia]. destruct E as [q E]. lia.
Qed.
(** multiplication by a constant with an inverse modulo 2^64 *)
Lemma wrap_mul_inj c i x y : (c * i) mod 2 ^ 64 = 1 -> is_u64 x -> is_u64 y -> wrap64 (x * c) = wrap64 (y * c) -> x = y.
Proof.
  unfold is_u64, wrap64. intros Hi Hx Hy H.
  assert (K : forall z, 0 <= z < 2 ^ 64 -> z = ((z * c) mod 2 ^ 64 * i) mod 2 ^ 64).
  { intros z Hz. rewrite Z.mul_mod_idemp_l by lia. rewrite <- Z.mul_assoc, Z.mul_mod by lia. rewrite Hi, Z.mul_1_r.
    rewrite Z.mod_mod by lia. symmetry. apply Z.mod_small. assumption. }
  rewrite (K x Hx), (K y Hy), H. reflexivity.
Qed.

Lemma next_seed_u64 s : is_u64 (next_seed s).
Proof. unfold next_seed. cbn zeta. apply lxor_u64; [apply wrap64_range|]. apply shiftr_u64; [lia|apply wrap64_range]. Qed.

Lemma next_seed_inj x y : is_u64 x -> is_u64 y -> next_seed x = next_seed y -> x = y.
Proof.
  intros Hx Hy. unfold next_seed. cbn zeta. intros H.
  apply xorshift_inj in H; [|lia|apply wrap64_range|apply wrap64_range].
  apply (wrap_mul_inj _ 0x319642B2D24D8EC3) in H;
    [|vm_compute; reflexivity| |]; [|apply lxor_u64; [apply wrap64_range|apply shiftr_u64; [lia|apply wrap64_range]] ..].
  apply xorshift_inj in H; [|lia|apply wrap64_range|apply wrap64_range].
  apply (wrap_mul_inj _ 0x96DE1B173F119089) in H;
    [|vm_compute; reflexivity| |]; [|apply lxor_u64; [apply wrap64_range|apply shiftr_u64; [lia|apply wrap64_range]] ..].
  apply xorshift_inj in H; [|lia|apply wrap64_range|apply wrap64_range].
  apply wrap_add_inj in H; assumption.
Qed.

(** the one seed that produces the zero word *)
Definition zero_seed : Z := 0x61C8864680B583EB.
Lemma next_seed_zero x : is_u64 x -> (next_seed x = 0 <-> x = zero_seed).
Proof.
  intros Hx. split.
  - intros H. apply next_seed_inj; [assumption|unfold is_u64, zero_seed; lia|]. rewrite H. vm_compute. reflexivity.
  - intros ->. vm_compute. reflexivity.
Qed.

Lemma bit_above b k n : 0 <= b < 2 ^ k -> 0 <= k <= n -> Z.testbit b n = false.
Proof.
  intros Hb Hk. destruct (Z.eq_dec b 0) as [->|]; [apply Z.bits_0|]. apply Z.bits_above_log2; [lia|].
  assert (Z.log2 b < k) by (apply Z.log2_lt_pow2; lia). lia.
Qed.

Lemma add_lor a b : Z.land a b = 0 -> Z.lor a b = a + b.
Proof. intros H. rewrite <- Z.lxor_lor by assumption. symmetry. apply Z.add_nocarry_lxor. assumption. Qed.

(** rotations *)
Lemma rotl_arith x k : is_u64 x -> 0 <= k <= 64 -> rotl x k = (x mod 2 ^ (64 - k)) * 2 ^ k + x / 2 ^ (64 - k).
Proof.
  unfold is_u64. intros Hx Hk. unfold rotl, wrap64. rewrite Z.shiftl_mul_pow2, Z.shiftr_div_pow2 by lia.
  pose proof (pow2_pos k ltac:(lia)) as P1. pose proof (pow2_pos (64 - k) ltac:(lia)) as P2.
  replace (2 ^ 64) with (2 ^ (64 - k) * 2 ^ k) in * by (rewrite <- pow2_split by lia; f_equal; lia).
  rewrite Zmult_mod_distr_r. set (a := x mod 2 ^ (64 - k)). set (b := x / 2 ^ (64 - k)).
  assert (Hb : 0 <= b < 2 ^ k) by (unfold b; split; [apply Z.div_pos; lia|apply Z.div_lt_upper_bound; lia]).
  assert (Hl : Z.land (a * 2 ^ k) b = 0).
  { apply Z.bits_inj'. intros n Hn. rewrite Z.land_spec, Z.bits_0, <- Z.shiftl_mul_pow2 by lia.
    destruct (Z.ltb_spec n k) as [L|L]; [rewrite Z.shiftl_spec_low by lia; reflexivity|].
    rewrite (bit_above b k n) by lia. apply andb_false_r. }
  apply add_lor. exact Hl.
Qed.
Lemma rotl_u64 x k : is_u64 x -> 0 <= k <= 64 -> is_u64 (rotl x k).
Proof.
  intros Hx Hk. rewrite rotl_arith by assumption. unfold is_u64 in *.
  pose proof (pow2_pos k ltac:(lia)) as P1. pose proof (pow2_pos (64 - k) ltac:(lia)) as P2.
  assert (E : 2 ^ 64 = 2 ^ (64 - k) * 2 ^ k) by (rewrite <- pow2_split by lia; f_equal; lia).
  pose proof (Z.mod_pos_bound x (2 ^ (64 - k)) P2).
  assert (0 <= x / 2 ^ (64 - k) < 2 ^ k) by (split; [apply Z.div_pos; lia|apply Z.div_lt_upper_bound; lia]). rewrite E in *. nia.
Qed.
Lemma rotl_inj k x y : 0 <= k <= 64 -> is_u64 x -> is_u64 y -> rotl x k = rotl y k -> x = y.
Proof.
  intros Hk Hx Hy H. rewrite !rotl_arith in H by assumption. unfold is_u64 in *.
  pose proof (pow2_pos k ltac:(lia)) as P1. pose proof (pow2_pos (64 - k) ltac:(lia)) as P2.
  assert (E : 2 ^ 64 = 2 ^ (64 - k) * 2 ^ k) by (rewrite <- pow2_split by lia; f_equal; lia).
  pose proof (Z.div_mod x (2 ^ (64 - k)) ltac:(lia)) as D1. pose proof (Z.div_mod y (2 ^ (64 - k)) ltac:(lia)) as D2.
  assert (B1 : 0 <= x / 2 ^ (64 - k) < 2 ^ k) by (split; [apply Z.div_pos; lia|apply Z.div_lt_upper_bound; lia]).
  assert (B2 : 0 <= y / 2 ^ (64 - k) < 2 ^ k) by (split; [apply Z.div_pos; lia|apply Z.div_lt_upper_bound; lia]).
  set (a := x / 2 ^ (64 - k)) in *. set (b := y / 2 ^ (64 - k)) in *.
  set (c := x mod 2 ^ (64 - k)) in *. set (d := y mod 2 ^ (64 - k)) in *.
  assert (c = d) by nia. nia.
Qed.

(** the state transition of xoroshiro128+ is injective and keeps 64-bit words *)
Definition is_state (s : xstate) : Prop := is_u64 (fst s) /\ is_u64 (snd s).
Lemma xstep_state s : is_state s -> is_state (xstep s).
Proof.
  intros [H0 H1]. pose proof (lxor_u64 _ _ H1 H0). split; cbn [xstep fst snd].
  - apply lxor_u64; [apply lxor_u64; [apply rotl_u64; [assumption|lia]|assumption]|apply wrap64_range].
  - apply rotl_u64; [assumption|lia].
Qed.
Lemma xstep_inj s t : is_state s -> is_state t -> xstep s = xstep t -> s = t.
Proof.
  intros [H0 H1] [K0 K1] H. destruct s as [s0 s1], t as [t0 t1]. cbn [fst snd] in *. unfold xstep in H. cbn [fst snd] in H.
  injection H as HA HB. apply rotl_inj in HB; [|lia|apply lxor_u64; assumption|apply lxor_u64; assumption].
  rewrite HB in HA.
  assert (HC : rotl s0 49 = rotl t0 49).
  { set (u := Z.lxor t1 t0) in *. set (v := wrap64 (Z.shiftl u 21)) in *.
    apply (f_equal (fun z => Z.lxor (Z.lxor z v) u)) in HA. rewrite !(Z.lxor_assoc _ v v), Z.lxor_nilpotent, !Z.lxor_0_r in HA.
    rewrite !(Z.lxor_assoc _ u u), Z.lxor_nilpotent, !Z.lxor_0_r in HA. exact HA. }
  apply rotl_inj in HC; [|lia|assumption|assumption]. subst t0. f_equal.
  apply (f_equal (fun z => Z.lxor z s0)) in HB. rewrite !Z.lxor_assoc, Z.lxor_nilpotent, !Z.lxor_0_r in HB. exact HB.
Qed.
Lemma iter_S n s : Nat.iter (S n) xstep s = xstep (Nat.iter n xstep s).
Proof. reflexivity. Qed.
Lemma xstep_iter_state n s : is_state s -> is_state (Nat.iter n xstep s).
Proof. intros H. induction n; rewrite ?iter_S; [assumption|]. apply xstep_state. assumption. Qed.
Lemma xstep_iter_inj n s t : is_state s -> is_state t -> Nat.iter n xstep s = Nat.iter n xstep t -> s = t.
Proof.
  intros Hs Ht. induction n as [|n IH]; rewrite ?iter_S; [auto|]. intros H. apply IH.
  apply xstep_inj; [apply xstep_iter_state; assumption|apply xstep_iter_state; assumption|exact H].
Qed.
Lemma xstep_zero n : Nat.iter n xstep (0, 0) = (0, 0).
Proof. induction n as [|n IH]; rewrite ?iter_S; [reflexivity|]. rewrite IH. reflexivity. Qed.
Lemma xstep_nonzero n s : is_state s -> s <> (0, 0) -> Nat.iter n xstep s <> (0, 0).
Proof.
  intros Hs Hn E. apply Hn. apply (xstep_iter_inj n); [assumption|split; unfold is_u64; cbn; lia|]. rewrite xstep_zero. exact E.
Qed.
Lemma xresult_u64 s : is_u64 (xresult s).
Proof. apply wrap64_range. Qed.

(** the value of a draw *)
Lemma double_bits x : is_u64 x ->
  Z.lor (Z.shiftl 0x3FF 52) (Z.shiftr x 12) = make binary64 0 0x3FF (x / 2 ^ 12).
Proof.
  intros Hx. unfold is_u64 in Hx. rewrite Z.shiftr_div_pow2 by lia. set (k := x / 2 ^ 12).
  assert (Hk : 0 <= k < 2 ^ 52) by (unfold k; split; [apply Z.div_pos; lia|apply Z.div_lt_upper_bound; lia]).
  assert (Hl : Z.land (Z.shiftl 0x3FF 52) k = 0).
  { apply Z.bits_inj'. intros n Hn. rewrite Z.land_spec, Z.bits_0.
    destruct (Z.ltb_spec n 52) as [L|L]; [rewrite Z.shiftl_spec_low by lia; reflexivity|].
    rewrite (bit_above k 52 n) by lia. apply andb_false_r. }
  pose proof (add_lor (Z.shiftl 0x3FF 52) k Hl) as H.
  unfold make. cbn [mw ew binary64]. rewrite (Z.mod_small k) by assumption.
  rewrite H. change (0x3FF mod 2 ^ 11) with 0x3FF. change (0 mod 2) with 0. rewrite Z.shiftl_mul_pow2 by lia. lia.
Qed.

Lemma man_value m : 0 <= m < 2 ^ 52 -> fval binary64 (make binary64 0 0x3FF m) = (1 + IZR m * b2 (-52))%R.
Proof.
  intros Hm. unfold fval, ssig, sig, sexp. rewrite make_sgn, make_expf, make_man by exact ok64. cbn [mw ew binary64].
  change (0x3FF mod 2 ^ 11) with 0x3FF. change (0 mod 2 =? 1) with false. change (0x3FF =? 0) with false. cbv iota.
  rewrite Z.mod_small by assumption. change (0x3FF - bias binary64 - 52) with (-52).
  rewrite plus_IZR, IZR_pow2 by lia. rewrite Rmult_plus_distr_r, <- bpow_plus. reflexivity.
Qed.

Lemma minus_one_value : fval binary64 minus_one64 = (-1)%R.
Proof.
  unfold fval. replace (ssig binary64 minus_one64) with (- 2 ^ 52) by (vm_compute; reflexivity).
  replace (sexp binary64 minus_one64) with (-52) by (vm_compute; reflexivity).
  rewrite opp_IZR, IZR_pow2 by lia. rewrite Ropp_mult_distr_l_reverse, <- bpow_plus. cbn. lra.
Qed.

(** k / 2^52 is a binary64 number *)
Lemma dyadic_generic k e : Z.abs k <= 2 ^ 53 -> -1074 <= e -> generic_format radix2 (FLT_exp (-1074) 53) (IZR k * b2 e).
Proof.
  intros Hk He. destruct (Z.eq_dec (Z.abs k) (2 ^ 53)) as [E|E].
  - assert (K : k = 2 ^ 53 \/ k = - 2 ^ 53) by lia.
    assert (G : generic_format radix2 (FLT_exp (-1074) 53) (IZR (2 ^ 53) * b2 e)).
    { rewrite IZR_pow2 by lia. rewrite <- bpow_plus. apply generic_format_bpow. unfold FLT_exp. lia. }
    destruct K as [-> | ->]; [exact G|]. rewrite opp_IZR, Ropp_mult_distr_l_reverse. apply generic_format_opp. exact G.
  - apply generic_format_FLT. exists (Float radix2 k e); cbn [Fnum Fexp]; [reflexivity| |assumption].
    change (radix_val radix2) with 2. lia.
Qed.

Lemma to_double_value x : is_u64 x ->
  is_finite binary64 (to_double x) = true /\ fval binary64 (to_double x) = (IZR (x / 2 ^ 12) * b2 (-52))%R.
Proof.
  intros Hx. set (k := x / 2 ^ 12).
  assert (Hk : 0 <= k < 2 ^ 52) by (unfold is_u64 in Hx; unfold k; split; [apply Z.div_pos; lia|apply Z.div_lt_upper_bound; lia]).
  unfold to_double. rewrite double_bits by assumption. fold k. set (a := make binary64 0 0x3FF k).
  assert (Fa : is_finite binary64 a = true).
  { unfold is_finite, a. rewrite make_expf by exact ok64. reflexivity. }
  assert (Hr : rnd (femin binary64) (mw binary64) (fval binary64 a + fval binary64 minus_one64) = (IZR k * b2 (-52))%R).
  { unfold a. rewrite man_value by assumption. rewrite minus_one_value.
    replace (1 + IZR k * b2 (-52) + -1)%R with (IZR k * b2 (-52))%R by ring.
    unfold rnd. apply round_generic; [apply valid_rnd_N|].
    change (femin binary64 - mw binary64) with (-1074). change (mw binary64 + 1) with 53. apply dyadic_generic; lia. }
  assert (Hlt : (Rabs (IZR k * b2 (-52)) < b2 (bias binary64 + 1))%R).
  { rewrite Rabs_pos_eq by (apply Rmult_le_pos; [apply IZR_le; lia|apply bpow_ge_0]).
    apply Rlt_trans with (b2 52 * b2 (-52))%R.
    - apply Rmult_lt_compat_r; [apply bpow_gt_0|]. rewrite <- IZR_pow2 by lia. apply IZR_lt. lia.
    - rewrite <- bpow_plus. apply bpow_lt. vm_compute. reflexivity. }
  assert (Ba : is_bits binary64 a) by (apply make_bits; exact ok64).
  pose proof (fadd_encodes binary64 a minus_one64 ok64 Ba ltac:(unfold is_bits; vm_compute; intuition congruence)) as [_ H].
  rewrite (dec_finite binary64 a Fa), (dec_finite binary64 minus_one64) in H by reflexivity. cbn [dadd] in H. cbn zeta in H.
  rewrite Hr in H. destruct H as [H _]. destruct (H Hlt) as (H1 & H2 & _). split; assumption.
Qed.

(** * Threads *)
(** the first n numbers produced from a generator state *)
Fixpoint stream (w : xstate) (n : nat) : list Z :=
  match n with O => [] | S n => xresult w :: stream (xstep w) n end.
Lemma stream_nth w n k : (k < n)%nat -> nth k (stream w n) 0 = xresult (Nat.iter k xstep w).
Proof.
  revert w k. induction n as [|n IH]; intros w k Hk; [lia|]. destruct k as [|k]; [reflexivity|].
  cbn [stream nth]. rewrite IH by lia. f_equal. clear. induction k as [|k IH]; [reflexivity|]. rewrite !iter_S, IH. reflexivity.
Qed.
Lemma stream_length w n : length (stream w n) = n.
Proof. revert w. induction n as [|n IH]; intros w; cbn; [reflexivity|]. rewrite IH. reflexivity. Qed.
Lemma stream_u64 w n : Forall is_u64 (stream w n).
Proof. revert w. induction n as [|n IH]; intros w; cbn; constructor; [apply xresult_u64|apply IH]. Qed.

(** threads in the order of their first draw *)
Fixpoint firsts (sch : list nat) : list nat :=
  match sch with [] => [] | i :: sch' => i :: remove Nat.eq_dec i (firsts sch') end.
(** the numbers obtained by one thread, in order *)
Definition draws_of (i : nat) (l : list (nat * Z)) : list Z := map snd (filter (fun p => Nat.eqb (fst p) i) l).

Definition pending (m : rngs) (l : list nat) : list nat := filter (fun j => negb (valid (tls m j))) l.

Definition seeded (s t : Z) : xstate := let w := next_seed (Z.lxor s (wrap64 t)) in (w, w).

Lemma thread_draw_valid c s clk m i : valid (tls m i) = true ->
  thread_draw c s clk m i = (xresult (words (tls m i)),
    mk_rngs (tls_set (tls m) i (mk_rng (choose (tls m i)) (seed (tls m i)) true (xstep (words (tls m i))))) (gtid m)).
Proof. intros H. unfold thread_draw, init_rng_state_struct, draw64, init_random_state. rewrite H. rewrite H. rewrite H. reflexivity. Qed.
Lemma thread_draw_fresh s clk m i : valid (tls m i) = false ->
  thread_draw true s clk m i = (xresult (seeded s (int_wrap (gtid m + 1))),
    mk_rngs (tls_set (tls m) i (mk_rng true (Z.lxor s (wrap64 (int_wrap (gtid m + 1)))) true (xstep (seeded s (int_wrap (gtid m + 1))))))
      (int_wrap (gtid m + 1))).
Proof. intros H. unfold thread_draw, init_rng_state_struct, draw64, init_random_state. rewrite H. reflexivity. Qed.

Lemma tls_set_eq m i r : tls_set m i r i = r.
Proof. unfold tls_set. rewrite Nat.eqb_refl. reflexivity. Qed.
Lemma tls_set_neq m i j r : i <> j -> tls_set m i r j = m j.
Proof. unfold tls_set. intros H. apply Nat.eqb_neq in H. rewrite H. reflexivity. Qed.

Lemma run_cons c s clock m i sch :
  run_draws c s clock m (i :: sch) =
  ((i, fst (thread_draw c s (clock i) m i)) :: fst (run_draws c s clock (snd (thread_draw c s (clock i) m i)) sch),
   snd (run_draws c s clock (snd (thread_draw c s (clock i) m i)) sch)).
Proof.
  cbn [run_draws]. destruct (thread_draw c s (clock i) m i) as [u m']. cbn [fst snd].
  destruct (run_draws c s clock m' sch) as [l m'']. reflexivity.
Qed.

(** other threads do not disturb a running generator *)
Lemma run_valid c s clock sch : forall m i, valid (tls m i) = true ->
  draws_of i (fst (run_draws c s clock m sch)) = stream (words (tls m i)) (count_occ Nat.eq_dec sch i).
Proof.
  induction sch as [|j sch IH]; intros m i Hv; [reflexivity|]. rewrite run_cons. cbn [fst].
  unfold draws_of. cbn [filter fst]. destruct (Nat.eqb_spec j i) as [E|E].
  - subst j. rewrite thread_draw_valid by assumption. cbn [fst snd map count_occ].
    destruct (Nat.eq_dec i i) as [_|]; [|congruence]. cbn [stream]. f_equal.
    change (draws_of i (fst (run_draws c s clock
      (mk_rngs (tls_set (tls m) i (mk_rng (choose (tls m i)) (seed (tls m i)) true (xstep (words (tls m i))))) (gtid m)) sch)) =
      stream (xstep (words (tls m i))) (count_occ Nat.eq_dec sch i)).
    rewrite IH; cbn [tls]; rewrite tls_set_eq; reflexivity.
  - cbn [count_occ]. destruct (Nat.eq_dec j i) as [|_]; [congruence|].
    assert (K : tls (snd (thread_draw c s (clock j) m j)) i = tls m i).
    { unfold thread_draw, draw64.
      destruct (init_random_state (init_rng_state_struct (tls m j) c s false) (gtid m) (clock j)) as [r g]. cbn [snd tls].
      apply tls_set_neq. exact E. }
    change (draws_of i (fst (run_draws c s clock (snd (thread_draw c s (clock j) m j)) sch)) = stream (words (tls m i)) (count_occ Nat.eq_dec sch i)).
    rewrite IH; rewrite K; [reflexivity|assumption].
Qed.

Lemma pending_remove m m' i l : valid (tls m i) = true ->
  (forall j, j <> i -> valid (tls m' j) = valid (tls m j)) -> valid (tls m' i) = true ->
  pending m' l = pending m (remove Nat.eq_dec i l).
Proof.
  intros Hi Ho Hi'. induction l as [|j l IH]; [reflexivity|]. cbn [remove]. destruct (Nat.eq_dec i j) as [<-|E].
  - unfold pending in *. cbn [filter]. rewrite Hi'. cbn [negb]. exact IH.
  - unfold pending in *. cbn [filter]. rewrite Ho by congruence. rewrite IH. reflexivity.
Qed.
Lemma pending_remove_fresh m m' i l : 
  (forall j, j <> i -> valid (tls m' j) = valid (tls m j)) -> valid (tls m' i) = true ->
  pending m' l = pending m (remove Nat.eq_dec i l).
Proof.
  intros Ho Hi'. induction l as [|j l IH]; [reflexivity|]. cbn [remove]. destruct (Nat.eq_dec i j) as [<-|E].
  - unfold pending in *. cbn [filter]. rewrite Hi'. cbn [negb]. exact IH.
  - unfold pending in *. cbn [filter]. rewrite Ho by congruence. rewrite IH. reflexivity.
Qed.
Lemma pending_skip m i l : valid (tls m i) = true -> pending m l = pending m (remove Nat.eq_dec i l).
Proof. intros H. apply pending_remove; auto. Qed.

Lemma int_wrap_id x : - 2 ^ 31 <= x < 2 ^ 31 -> int_wrap x = x.
Proof. intros H. unfold int_wrap. rewrite Z.mod_small by lia. lia. Qed.

(** a thread that has not drawn yet gets the next free number of its turn *)
Lemma run_fresh s clock sch : forall m i p, valid (tls m i) = false -> 0 <= gtid m -> gtid m + Z.of_nat (length sch) < 2 ^ 31 ->
  nth_error (pending m (firsts sch)) p = Some i ->
  draws_of i (fst (run_draws true s clock m sch)) = stream (seeded s (gtid m + 1 + Z.of_nat p)) (count_occ Nat.eq_dec sch i).
Proof.
  induction sch as [|j sch IH]; intros m i p Hv Hg Hlen Hp.
  { cbn in Hp. destruct p; discriminate. }
  cbn [length] in Hlen. cbn [firsts] in Hp. rewrite run_cons. cbn [fst]. unfold draws_of. cbn [filter fst].
  destruct (Nat.eqb_spec j i) as [E|E].
  - subst j. assert (Ep : p = O).
    { unfold pending in Hp. cbn [filter] in Hp. rewrite Hv in Hp. cbn [negb] in Hp. destruct p as [|p]; [reflexivity|exfalso].
      cbn [nth_error] in Hp. apply nth_error_In in Hp. apply filter_In in Hp. destruct Hp as [Hp _]. apply in_remove in Hp. tauto. }
    subst p. change (Z.of_nat 0) with 0. rewrite Z.add_0_r.
    rewrite thread_draw_fresh by assumption. rewrite int_wrap_id by lia. cbn [fst snd map count_occ].
    destruct (Nat.eq_dec i i) as [_|]; [|congruence]. cbn [stream]. f_equal.
    match goal with |- map snd (filter _ (fst (run_draws _ _ _ ?m' _))) = _ => set (mm := m') end.
    change (draws_of i (fst (run_draws true s clock mm sch)) = stream (xstep (seeded s (gtid m + 1))) (count_occ Nat.eq_dec sch i)).
    rewrite run_valid; unfold mm; cbn [tls]; rewrite tls_set_eq; reflexivity.
  - cbn [count_occ]. destruct (Nat.eq_dec j i) as [|_]; [congruence|].
    destruct (valid (tls m j)) eqn:Hj.
    + rewrite thread_draw_valid by assumption. cbn [fst snd].
      match goal with |- map snd (filter _ (fst (run_draws _ _ _ ?m' _))) = _ => set (mm := m') end.
      change (draws_of i (fst (run_draws true s clock mm sch)) = stream (seeded s (gtid m + 1 + Z.of_nat p)) (count_occ Nat.eq_dec sch i)).
      change (gtid m) with (gtid mm). apply IH; [|cbn; lia|cbn; lia|].
      * unfold mm; cbn [tls]. rewrite tls_set_neq by assumption. exact Hv.
      * rewrite (pending_remove m mm j (firsts sch) Hj).
        -- unfold pending in Hp at 1. cbn [filter] in Hp. rewrite Hj in Hp. exact Hp.
        -- intros k Hk. unfold mm; cbn [tls]. rewrite tls_set_neq by congruence. reflexivity.
        -- unfold mm; cbn [tls]. rewrite tls_set_eq. reflexivity.
    + rewrite thread_draw_fresh by assumption. rewrite int_wrap_id by lia. cbn [fst snd].
      match goal with |- map snd (filter _ (fst (run_draws _ _ _ ?m' _))) = _ => set (mm := m') end.
      change (draws_of i (fst (run_draws true s clock mm sch)) = stream (seeded s (gtid m + 1 + Z.of_nat p)) (count_occ Nat.eq_dec sch i)).
      unfold pending in Hp. cbn [filter] in Hp. rewrite Hj in Hp. cbn [negb] in Hp.
      destruct p as [|p]; [cbn in Hp; congruence|]. cbn [nth_error] in Hp.
      replace (gtid m + 1 + Z.of_nat (S p)) with (gtid mm + 1 + Z.of_nat p) by (unfold mm; cbn [gtid]; lia).
      apply IH; [|cbn; lia|cbn; lia|].
      * unfold mm; cbn [tls]. rewrite tls_set_neq by assumption. exact Hv.
      * rewrite (pending_remove_fresh m mm j (firsts sch)); [exact Hp| |].
        -- intros k Hk. unfold mm; cbn [tls]. rewrite tls_set_neq by congruence. reflexivity.
        -- unfold mm; cbn [tls]. rewrite tls_set_eq. reflexivity.
Qed.

Lemma pending_all l : pending rngs0 l = l.
Proof. unfold pending. induction l as [|j l IH]; [reflexivity|]. simpl. f_equal. exact IH. Qed.

Lemma run_from_start s clock sch i p : Z.of_nat (length sch) < 2 ^ 31 -> nth_error (firsts sch) p = Some i ->
  draws_of i (fst (run_draws true s clock rngs0 sch)) = stream (seeded s (1 + Z.of_nat p)) (count_occ Nat.eq_dec sch i).
Proof.
  intros Hl Hp. rewrite (run_fresh s clock sch rngs0 i p); [reflexivity|reflexivity|cbn; lia|cbn [gtid rngs0]; lia|].
  rewrite pending_all. exact Hp.
Qed.

Lemma stream_firstn w n k : (n <= k)%nat -> firstn n (stream w k) = stream w n.
Proof.
  revert w k. induction n as [|n IH]; intros w k H; [reflexivity|]. destruct k as [|k]; [lia|]. cbn [stream firstn].
  rewrite IH by lia. reflexivity.
Qed.

(** generator states at the end of a schedule *)
Lemma iter_comm n w : Nat.iter n xstep (xstep w) = xstep (Nat.iter n xstep w).
Proof. induction n as [|n IH]; [reflexivity|]. rewrite !iter_S, IH. reflexivity. Qed.

Lemma draw_other c s clk m i j : j <> i -> tls (snd (thread_draw c s clk m j)) i = tls m i.
Proof.
  intros E. unfold thread_draw, draw64.
  destruct (init_random_state (init_rng_state_struct (tls m j) c s false) (gtid m) clk) as [r g]. cbn [snd tls].
  apply tls_set_neq. exact E.
Qed.

Lemma end_valid c s clock sch : forall m i, valid (tls m i) = true ->
  words (tls (snd (run_draws c s clock m sch)) i) = Nat.iter (count_occ Nat.eq_dec sch i) xstep (words (tls m i)).
Proof.
  induction sch as [|j sch IH]; intros m i Hv; [reflexivity|]. rewrite run_cons. cbn [snd count_occ].
  destruct (Nat.eq_dec j i) as [E|E].
  - subst j. rewrite thread_draw_valid by assumption. cbn [snd]. rewrite IH; cbn [tls]; rewrite tls_set_eq; [|reflexivity].
    cbn [words]. rewrite iter_S. apply iter_comm.
  - rewrite IH; rewrite draw_other by assumption; [reflexivity|assumption].
Qed.
Lemma end_fresh s clock sch : forall m i p, valid (tls m i) = false -> 0 <= gtid m -> gtid m + Z.of_nat (length sch) < 2 ^ 31 ->
  nth_error (pending m (firsts sch)) p = Some i ->
  words (tls (snd (run_draws true s clock m sch)) i) =
    Nat.iter (count_occ Nat.eq_dec sch i) xstep (seeded s (gtid m + 1 + Z.of_nat p)).
Proof.
  induction sch as [|j sch IH]; intros m i p Hv Hg Hlen Hp.
  { cbn in Hp. destruct p; discriminate. }
  cbn [length] in Hlen. cbn [firsts] in Hp. rewrite run_cons. cbn [snd count_occ].
  destruct (Nat.eq_dec j i) as [E|E].
  - subst j. assert (Ep : p = O).
    { unfold pending in Hp. cbn [filter] in Hp. rewrite Hv in Hp. cbn [negb] in Hp. destruct p as [|p]; [reflexivity|exfalso].
      cbn [nth_error] in Hp. apply nth_error_In in Hp. apply filter_In in Hp. destruct Hp as [Hp _]. apply in_remove in Hp. tauto. }
    subst p. change (Z.of_nat 0) with 0. rewrite Z.add_0_r.
    rewrite thread_draw_fresh by assumption. rewrite int_wrap_id by lia. cbn [snd].
    rewrite end_valid; cbn [tls]; rewrite tls_set_eq; [|reflexivity]. cbn [words]. rewrite iter_S. apply iter_comm.
  - destruct (valid (tls m j)) eqn:Hj.
    + rewrite thread_draw_valid by assumption. cbn [snd].
      match goal with |- words (tls (snd (run_draws _ _ _ ?m' _)) _) = _ => set (mm := m') end.
      change (gtid m) with (gtid mm). apply IH; [|cbn; lia|cbn; lia|].
      * unfold mm; cbn [tls]. rewrite tls_set_neq by assumption. exact Hv.
      * rewrite (pending_remove m mm j (firsts sch) Hj).
        -- unfold pending in Hp at 1. cbn [filter] in Hp. rewrite Hj in Hp. exact Hp.
        -- intros k Hk. unfold mm; cbn [tls]. rewrite tls_set_neq by congruence. reflexivity.
        -- unfold mm; cbn [tls]. rewrite tls_set_eq. reflexivity.
    + rewrite thread_draw_fresh by assumption. rewrite int_wrap_id by lia. cbn [snd].
      match goal with |- words (tls (snd (run_draws _ _ _ ?m' _)) _) = _ => set (mm := m') end.
      unfold pending in Hp. cbn [filter] in Hp. rewrite Hj in Hp. cbn [negb] in Hp.
      destruct p as [|p]; [cbn in Hp; congruence|]. cbn [nth_error] in Hp.
      replace (gtid m + 1 + Z.of_nat (S p)) with (gtid mm + 1 + Z.of_nat p) by (unfold mm; cbn [gtid]; lia).
      apply IH; [|cbn; lia|cbn; lia|].
      * unfold mm; cbn [tls]. rewrite tls_set_neq by assumption. exact Hv.
      * rewrite (pending_remove_fresh m mm j (firsts sch)); [exact Hp| |].
        -- intros k Hk. unfold mm; cbn [tls]. rewrite tls_set_neq by congruence. reflexivity.
        -- unfold mm; cbn [tls]. rewrite tls_set_eq. reflexivity.
Qed.
Lemma end_from_start s clock sch i p : Z.of_nat (length sch) < 2 ^ 31 -> nth_error (firsts sch) p = Some i ->
  words (tls (snd (run_draws true s clock rngs0 sch)) i) = Nat.iter (count_occ Nat.eq_dec sch i) xstep (seeded s (1 + Z.of_nat p)).
Proof.
  intros Hl Hp. rewrite (end_fresh s clock sch rngs0 i p); [reflexivity|reflexivity|cbn; lia|cbn [gtid rngs0]; lia|].
  rewrite pending_all. exact Hp.
Qed.

Lemma firsts_in sch i : In i (firsts sch) <-> In i sch.
Proof.
  induction sch as [|j sch IH]; [reflexivity|]. cbn [firsts In]. split.
  - intros [E|H]; [left; exact E|]. right. apply IH. apply in_remove in H. tauto.
  - intros [E|H]; [left; exact E|]. destruct (Nat.eq_dec j i) as [E|E]; [left; exact E|]. right. apply in_in_remove; [congruence|]. apply IH. exact H.
Qed.
Lemma firsts_length sch : (length (firsts sch) <= length sch)%nat.
Proof.
  induction sch as [|j sch IH]; [reflexivity|]. cbn [firsts length]. pose proof (remove_length_le Nat.eq_dec (firsts sch) j). lia.
Qed.

Lemma seeded_inj s t s' t' : is_u64 s -> is_u64 s' -> seeded s t = seeded s' t' ->
  Z.lxor s (wrap64 t) = Z.lxor s' (wrap64 t').
Proof.
  intros Hs Hs' H. unfold seeded in H. injection H as H _. apply next_seed_inj in H; [exact H| |];
    apply lxor_u64; (assumption || apply wrap64_range).
Qed.
Lemma seeded_state s t : is_u64 s -> is_state (seeded s t).
Proof. intros Hs. split; apply next_seed_u64. Qed.
