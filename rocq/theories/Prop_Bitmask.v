(** C23, C24, C57-C59: the bitmask backend. *)
From Coq Require Import ZArith Reals List Bool Lia Lra.
From Flocq Require Import Core.
From Verif Require Import Common Bits BitsFacts FloatReal FloatValue FloatOps DoubleRound StdlibModel StdlibProofs RngModel RngProofs
  McaModel McaProofs McaOps BitmaskModel BitmaskProofs.
Import ListNotations.
Open Scope Z_scope.
Open Scope outcome_scope.

(** Reading guide. [unit_at p X] = 2^(mag X - p): one unit in the last place of a p-bit significand of X ([mag] is Flocq's:
    2^(mag X - 1) <= |X| < 2^(mag X)). [same_leading p X Y]: X and Y are nonzero, have the same sign, and |X| and |Y| have the
    same integer part in that unit, that is the same p leading significant bits. [configured f c p]: the context after the
    precision p was installed for f; the next theorem says every way of installing it gives that, whatever is set before or
    after. *)
Theorem C23_configuration :
  (forall c p c', set_prec32 c p = Ok c' -> configured binary32 c' p) /\
  (forall c p c', set_prec64 c p = Ok c' -> configured binary64 c' p) /\
  (forall c s p32 p64 m o d t c', configure c s p32 p64 m o d t = Ok c' ->
     configured binary32 c' p32 /\ configured binary64 c' p64 /\ b_mode c' = m /\ b_op c' = o /\ b_daz c' = d /\ b_ftz c' = t) /\
  (forall f c p m o d t s q c', f = binary32 \/ f = binary64 -> configured f c p ->
     configured f (set_mode c m) p /\ configured f (set_oper c o) p /\ configured f (set_flush c d t) p /\ configured f (set_bseed c s) p /\
     ((if mw f =? 23 then set_prec64 c q else set_prec32 c q) = Ok c' -> configured f c' p)).
Proof.
  assert (A : forall c p c', set_prec32 c p = Ok c' -> configured binary32 c' p).
  { intros c p c'. unfold set_prec32. destruct (Z.ltb_spec p 1); [discriminate|]. intros [= <-]. split; [assumption|split; reflexivity]. }
  assert (B : forall c p c', set_prec64 c p = Ok c' -> configured binary64 c' p).
  { intros c p c'. unfold set_prec64. destruct (Z.ltb_spec p 1); [discriminate|]. intros [= <-]. split; [assumption|split; reflexivity]. }
  split; [exact A|]. split; [exact B|]. split.
  - intros c s p32 p64 m o d t c'. unfold configure. destruct (set_prec32 (set_bseed c s) p32) as [c1| | |] eqn:E1; try discriminate.
    cbn [bind]. destruct (set_prec64 c1 p64) as [c2| | |] eqn:E2; try discriminate. cbn [bind]. intros [= <-].
    pose proof (A _ _ _ E1) as H1. pose proof (B _ _ _ E2) as H2. unfold set_prec64 in E2. destruct (p64 <? 1); [discriminate|].
    injection E2 as E2. subst c2. split; [exact H1|]. split; [exact H2|]. repeat split.
  - intros f c p m o d t s q c' Hf H. split; [exact H|]. split; [exact H|]. split; [exact H|]. split; [exact H|].
    unfold set_prec32, set_prec64. destruct Hf as [E|E]; subst f; (change (mw binary32 =? 23) with true || change (mw binary64 =? 23) with false);
      cbv iota; destruct (q <? 1); try discriminate; intros [= <-]; exact H.
Qed.
Print Assumptions C23_configuration.

(** C23: a perturbation terminates without undefined behaviour, keeps sign and exponent fields, and keeps the p leading
    significant bits of every finite nonzero value (normal or subnormal), for every operator, mode and generator state. *)
Theorem C23_leading_bits :
  forall clk f c p x st, f = binary32 \/ f = binary64 -> configured f c p -> b_op c <> bop_end -> is_bits f x ->
  exists y st', binexact clk f c x st = Ok (y, st') /\ is_bits f y /\ sgn f y = sgn f x /\ expf f y = expf f x /\
  (is_finite f x = true -> fval f x <> 0%R -> same_leading p (fval f x) (fval f y)).
Proof.
  intros clk f c p x st Hf Hc Ho Hx. destruct (binexact_spec f (narrow_ok f Hf) clk c p x st Hc Hx Ho) as (y & st' & A & B & C & D & E & _).
  exists y, st'. auto.
Qed.
Print Assumptions C23_leading_bits.
(** NaNs, infinities and zeros, and everything in mode ieee, are returned bit for bit and no random number is drawn. *)
Theorem C23_specials_unchanged :
  forall clk f c x st, f = binary32 \/ f = binary64 -> b_mode c = bm_ieee \/ is_finite f x = false \/ fval f x = 0%R ->
  binexact clk f c x st = Ok (x, st).
Proof. intros clk f c x st Hf H. apply binexact_special; [apply narrow_ok; assumption|assumption]. Qed.
Print Assumptions C23_specials_unchanged.
(** mode ob: a normal value that fits in p bits is returned bit for bit (missing: subnormal values, see below). *)
Theorem C23_representable_unchanged_partial :
  forall clk f c p x st, f = binary32 \/ f = binary64 -> configured f c p -> p < 2 ^ 31 -> b_mode c = bm_ob ->
  is_finite f x = true -> (b2 (1 - bias f) <= Rabs (fval f x))%R -> fits p (fval f x) -> binexact clk f c x st = Ok (x, st).
Proof.
  intros clk f c p x st Hf (Hp & Ep & _) Hb Hm Fx Nx Hx. pose proof (narrow_ok f Hf) as Of. unfold binexact, must_not. rewrite Hm, Ep.
  replace (is_representable _ f x p) with true; [rewrite !orb_true_r; reflexivity|]. symmetry. apply representable_normal; try assumption.
  - lia.
  - destruct Hf as [E|E]; subst f; cbn [mw ew binary32 binary64]; [change (2 ^ (23 + 8 + 1)) with (2 * 2 ^ 31); lia|].
    change (2 ^ (52 + 11 + 1)) with (2 ^ 33 * 2 ^ 31). lia.
  - rewrite (mval_abs f Of) in Nx. pose proof (expf_range f Of x). destruct (Z.eq_dec (expf f x) 0) as [E0|]; [|lia].
    pose proof (mval_subnormal f Of x E0). lra.
Qed.
Print Assumptions C23_representable_unchanged_partial.
(** for subnormal values the claim is false: 4 * 2^-149 has one significant bit, and at precision 1 operator one turns it into
    7 * 2^-149 *)
Theorem C23_subnormal_representable_refuted :
  ~ (forall clk f c p x st, f = binary32 \/ f = binary64 -> configured f c p -> p < 2 ^ 31 -> b_mode c = bm_ob -> b_op c <> bop_end ->
     is_bits f x -> is_finite f x = true -> fits p (fval f x) -> exists st', binexact clk f c x st = Ok (x, st')).
Proof.
  intros H.
  set (c := mk_bctx bm_ob bop_one 1 52 false false false 0 (precision_mask binary32 1) (mask_one binary64)).
  destruct (H 0 binary32 c 1 4 (rng0, 0)) as [st' E].
  - left; reflexivity.
  - split; [lia|split; reflexivity].
  - lia.
  - reflexivity.
  - discriminate.
  - split; vm_compute; congruence.
  - reflexivity.
  - exists 1, (-147). split; [lia|]. rewrite (fval_mval binary32 ok32). change (signR (sgn binary32 4) (mval binary32 4)) with (4 * b2 (-149))%R.
    replace (b2 (-147)) with (b2 2 * b2 (-149))%R by (rewrite <- bpow_plus; reflexivity). change (b2 2) with 4%R. ring.
  - vm_compute in E. discriminate.
Qed.
Print Assumptions C23_subnormal_representable_refuted.
Example C23_nonvacuous :
  fst_ok (binexact 0 binary32 (mk_bctx bm_ob bop_zero 10 52 false false false 0 (precision_mask binary32 10) (mask_one binary64)) 0x3F9D70A4 (rng0, 0)) = Some 0x3F9D4000 /\
  fst_ok (binexact 0 binary32 (mk_bctx bm_ob bop_one 10 52 false false false 0 (precision_mask binary32 10) (mask_one binary64)) 0x0000D0A4 (rng0, 0)) = Some 0x0000D0BF /\
  fst_ok (binexact 0 binary64 (mk_bctx bm_full bop_rand 10 7 false false true 5 (precision_mask binary32 10) (precision_mask binary64 7)) 0x3FF3333333333333 (rng0, 0)) = Some 0x3FF31F723E6E77AA.
Proof. vm_compute. auto. Qed.

(** which values the modes perturb, and the effect of --daz and --ftz (doc/02-backends.md) *)
Definition operands_perturbed (m : bmode) : bool := match m with bm_ieee => false | bm_full => true | bm_ib => true | bm_ob => false end.
Definition result_perturbed (m : bmode) : bool := match m with bm_ieee => false | bm_full => true | bm_ib => false | bm_ob => true end.
Definition flushed (on : bool) (f : fmt) (x : Z) : Z := if on then daz_ftz f x else x.

(** C23 for whole operations. [bpert on f p x y]: y is a possible perturbation of x: bit for bit x when the perturbation is
    off or x is special, else same sign, exponent and p leading bits. *)
Theorem C23_operation :
  forall n clk f c p o a b st, ieee_arith n -> f = binary32 \/ f = binary64 -> configured f c p -> b_op c <> bop_end -> is_bits f a -> is_bits f b ->
  exists a' b' z y st', bitmask_binary_op n clk f c o a b st = Ok (flushed (b_ftz c) f y, st') /\
    bpert (operands_perturbed (b_mode c)) f p (flushed (b_daz c) f a) a' /\ bpert (operands_perturbed (b_mode c)) f p (flushed (b_daz c) f b) b' /\
    encodes f (dop o (dec f a') (dec f b')) z /\ bpert (result_perturbed (b_mode c)) f p z y.
Proof. intros n clk f c p o a b st Hn Hf. intros. apply bitmask_binary_spec; try assumption. apply narrow_ok. assumption. Qed.
Print Assumptions C23_operation.
Theorem C23_fma :
  forall n clk f c p a b d st, ieee_arith n -> f = binary32 \/ f = binary64 -> configured f c p -> b_op c <> bop_end ->
  is_bits f a -> is_bits f b -> is_bits f d ->
  exists a' b' d' z y st', bitmask_ternary_op n clk f c a b d st = Ok (flushed (b_ftz c) f y, st') /\
    bpert (operands_perturbed (b_mode c)) f p (flushed (b_daz c) f a) a' /\ bpert (operands_perturbed (b_mode c)) f p (flushed (b_daz c) f b) b' /\
    bpert (operands_perturbed (b_mode c)) f p (flushed (b_daz c) f d) d' /\
    encodes f (dfma (dec f a') (dec f b') (dec f d')) z /\ bpert (result_perturbed (b_mode c)) f p z y.
Proof. intros n clk f c p a b d st Hn Hf. intros. apply bitmask_ternary_spec; try assumption. apply narrow_ok. assumption. Qed.
Print Assumptions C23_fma.
(** the cast works on doubles with the binary64 precision, before and after the narrowing *)
Theorem C23_cast :
  forall clk c p a st, configured binary64 c p -> b_op c <> bop_end -> is_bits binary64 a ->
  exists a' z y st', bitmask_cast clk c a st = Ok (fconv binary64 binary32 (flushed (b_ftz c) binary64 y), st') /\
    bpert (operands_perturbed (b_mode c)) binary64 p (flushed (b_daz c) binary64 a) a' /\
    encodes binary32 (dec binary64 a') z /\ bpert (result_perturbed (b_mode c)) binary64 p (fconv binary32 binary64 z) y.
Proof. intros. apply bitmask_cast_spec; assumption. Qed.
Print Assumptions C23_cast.
Example C23_operation_nonvacuous :
  fst_ok (bitmask_binary_op soft 0 binary32 (mk_bctx bm_full bop_one 5 52 false false false 0 (precision_mask binary32 5) (mask_one binary64)) OpMul 0x3F800000 0x3F800000 (rng0, 0)) = Some 0x3F97FFFF /\
  fst_ok (bitmask_cast 0 (mk_bctx bm_ob bop_zero 5 4 false false false 0 (precision_mask binary32 5) (precision_mask binary64 4)) 0x3FF3333333333333 (rng0, 0)) = Some 0x3F900000.
Proof. vm_compute. auto. Qed.

(** C24: the error of a perturbation is below one unit at precision p, and the value stays finite and nonzero. *)
Theorem C24_error_bound :
  forall clk f c p x st y st', f = binary32 \/ f = binary64 -> configured f c p -> b_op c <> bop_end -> is_bits f x ->
  is_finite f x = true -> fval f x <> 0%R -> binexact clk f c x st = Ok (y, st') ->
  is_finite f y = true /\ (0 < fval f x * fval f y)%R /\ (Rabs (fval f y - fval f x) < unit_at p (fval f x))%R.
Proof.
  intros clk f c p x st y st' Hf Hc Ho Hx Fx Nx E.
  destruct (binexact_spec f (narrow_ok f Hf) clk c p x st Hc Hx Ho) as (y' & st2 & A & B & C & D & L & _).
  rewrite A in E. injection E as E1 E2. subst. specialize (L Fx Nx). split; [|split; [apply L|apply same_leading_error; exact L]].
  unfold is_finite in *. rewrite D. exact Fx.
Qed.
Print Assumptions C24_error_bound.
(** operator zero rounds toward zero to p significant bits, in every mode but ieee *)
Theorem C24_zero_truncates :
  forall clk f c p x st, f = binary32 \/ f = binary64 -> configured f c p -> p < 2 ^ 31 -> b_op c = bop_zero -> b_mode c <> bm_ieee -> is_bits f x ->
  is_finite f x = true -> fval f x <> 0%R ->
  exists y st', binexact clk f c x st = Ok (y, st') /\ fval f y = round radix2 (FLX_exp p) Ztrunc (fval f x) /\ (Rabs (fval f y) <= Rabs (fval f x))%R.
Proof.
  intros clk f c p x st Hf Hc Hb Ho Hm Hx Fx Nx. pose proof (narrow_ok f Hf) as Of. assert (Hp : 1 <= p) by apply Hc.
  destruct (binexact_spec f Of clk c p x st Hc Hx ltac:(congruence)) as (y & st' & A & B & C & D & L & M & N).
  exists y, st'. split; [exact A|]. destruct (must_not f x c) eqn:E.
  - specialize (M eq_refl). subst y. split; [|lra]. symmetry.
    destruct (must_not_cases f c x E) as [K|[K|[K1 K2]]]; [contradiction| |].
    + exfalso. pose proof (proj1 (class_regular f Of x Fx) Nx). tauto.
    + assert (Fit : fits p (fval f x)).
      { apply (representable_sound (mw f + ew f + 1)); [assumption|lia| |assumption|].
        - destruct Hf as [H|H]; subst f; cbn [mw ew binary32 binary64]; [change (2 ^ (23 + 8 + 1)) with (2 * 2 ^ 31); lia|].
          change (2 ^ (52 + 11 + 1)) with (2 ^ 33 * 2 ^ 31). lia.
        - replace p with (bprec f c) by apply Hc. exact K2. }
      destruct Fit as (m & e & H1 & H2). apply round_generic; [apply valid_rnd_ZR|]. apply generic_format_FLX.
      exists (Float radix2 m e); [exact H2|exact H1].
  - specialize (N eq_refl). rewrite Ho in N. split; [apply (clear_trunc f Of); assumption|].
    rewrite !(mval_abs f Of). apply (zero_minimal f Of p); assumption.
Qed.
Print Assumptions C24_zero_truncates.
(** operator one: unless the value is left alone, the result is the largest value of the format with the same leading bits *)
Theorem C24_one_largest :
  forall clk f c p x st y st', f = binary32 \/ f = binary64 -> configured f c p -> b_op c = bop_one -> is_bits f x -> is_finite f x = true -> fval f x <> 0%R ->
  binexact clk f c x st = Ok (y, st') -> y <> x ->
  forall z, is_bits f z -> is_finite f z = true -> same_leading p (fval f x) (fval f z) -> (Rabs (fval f z) <= Rabs (fval f y))%R.
Proof.
  intros clk f c p x st y st' Hf Hc Ho Hx Fx Nx E Hne z Bz Fz Lz. pose proof (narrow_ok f Hf) as Of. assert (Hp : 1 <= p) by apply Hc.
  destruct (binexact_spec f Of clk c p x st Hc Hx ltac:(congruence)) as (y' & st2 & A & _ & _ & _ & _ & M & N).
  rewrite A in E. injection E as E1 E2. subst y' st2. destruct (must_not f x c); [contradiction (Hne (M eq_refl))|].
  specialize (N eq_refl). rewrite Ho in N. rewrite !(mval_abs f Of). apply (one_maximal f Of p x y z); try assumption.
  apply leading_agree; assumption.
Qed.
Print Assumptions C24_one_largest.
(** operator rand reaches every value with the same leading bits: each is the result of some draw (modes full and ib; in
    mode ob representable values are left alone) *)
Theorem C24_rand_reaches_all :
  forall clk f c p x z, f = binary32 \/ f = binary64 -> configured f c p -> b_op c = bop_rand -> b_mode c = bm_full \/ b_mode c = bm_ib ->
  is_bits f x -> is_finite f x = true -> fval f x <> 0%R -> is_bits f z -> is_finite f z = true -> same_leading p (fval f x) (fval f z) ->
  exists u, 0 <= u < 2 ^ mw f /\ forall st, next_draw clk c st = u -> exists st', binexact clk f c x st = Ok (z, st').
Proof.
  intros clk f c p x z Hf Hc Ho Hm Hx Fx Nx Bz Fz L. pose proof (narrow_ok f Hf) as Of. assert (Hp : 1 <= p) by apply Hc.
  apply (rand_surjective f Of clk c p x z); try assumption.
  - unfold must_not. destruct (proj1 (class_regular f Of x Fx) Nx) as [-> | ->]; destruct Hm as [-> | ->]; reflexivity.
  - apply leading_agree; assumption.
Qed.
Print Assumptions C24_rand_reaches_all.
Example C24_nonvacuous :
  let c := mk_bctx bm_full bop_rand 22 52 false false true 5 (precision_mask binary32 22) (mask_one binary64) in
  next_draw 0 c (rng0, 0) mod 4 = 1 /\ fst_ok (binexact 0 binary32 c 0x3F800001 (rng0, 0)) = Some 0x3F800000.
Proof. vm_compute. auto. Qed.

(** C57: with no precision option the backend perturbs nothing: every operation is the IEEE one, in every mode and with
    every operator. *)
Theorem C57_defaults_ieee :
  forall n clk f c m o op d t s a b st, ieee_arith n -> f = binary32 \/ f = binary64 -> o <> bop_end ->
  c = set_flush (set_oper (set_mode (set_bseed bitmask_defaults s) m) o) d t \/ c = set_flush (set_oper (set_mode bitmask_defaults m) o) d t ->
  is_bits f a -> is_bits f b ->
  exists y st', encodes f (dop op (flush_v f d (dec f a)) (flush_v f d (dec f b))) y /\
  bitmask_binary_op n clk f c op a b st = Ok (if t then daz_ftz f y else y, st').
Proof.
  intros n clk f c m o op d t s a b st Hn Hf Ho Hc Ha Hb. pose proof (narrow_ok f Hf) as Of.
  assert (M : bmask f c = mask_one f /\ bprec f c = mw f /\ b_op c = o /\ b_daz c = d /\ b_ftz c = t) by (destruct Hc as [-> | ->], Hf as [-> | ->]; repeat split).
  destruct M as (M1 & M2 & M3 & M4 & M5).
  assert (Hif : forall on x s0, is_bits f x -> exists s1, binexact_if clk on f c x s0 = Ok (x, s1)).
  { intros on x s0 Bx. unfold binexact_if. destruct on; [|eauto]. apply default_binexact; try assumption. congruence. }
  unfold bitmask_binary_op. set (a0 := bdaz f c a). set (b0 := bdaz f c b).
  assert (Ba : is_bits f a0) by (apply bdaz_bits; assumption). assert (Bb : is_bits f b0) by (apply bdaz_bits; assumption).
  destruct (Hif (bnoises_in (b_mode c)) a0 st Ba) as [s1 E1]. rewrite E1. cbn [bind].
  destruct (Hif (bnoises_in (b_mode c)) b0 s1 Bb) as [s2 E2]. rewrite E2. cbn [bind].
  pose proof (perform_encodes n op f a0 b0 Hn Of Ba Bb) as EZ.
  destruct (Hif (bnoises_out (b_mode c)) (perform n op f a0 b0) s2 (proj1 EZ)) as [s3 E3]. rewrite E3. cbn [bind].
  exists (perform n op f a0 b0), s3. split; [|unfold bftz; rewrite M5; destruct t; reflexivity].
  assert (D : forall x, is_bits f x -> dec f (bdaz f c x) = flush_v f d (dec f x)).
  { intros x Bx. unfold bdaz. rewrite M4. destruct d; [apply dec_daz; assumption|rewrite flush_off; reflexivity]. }
  rewrite <- !D by assumption. exact EZ.
Qed.
Print Assumptions C57_defaults_ieee.
Example C57_nonvacuous :
  fst_ok (bitmask_binary_op soft 0 binary32 (set_oper (set_mode bitmask_defaults bm_full) bop_rand) OpDiv 0x3F800000 0x40400000 (rng0, 0)) = Some 0x3EAAAAAB.
Proof. vm_compute. reflexivity. Qed.
(** asking for the default precision (the value printed at load time, 23 for binary32) is not the same as not asking: one bit
    is lost *)
Theorem C57_explicit_default_refuted :
  ~ (forall n clk c o a b st, ieee_arith n -> set_prec32 bitmask_defaults (b_p32 bitmask_defaults) = Ok c ->
     bitmask_binary_op n clk binary32 c o a b st = bitmask_binary_op n clk binary32 bitmask_defaults o a b st).
Proof. intros H. specialize (H soft 0 _ OpAdd 0x3F800001 0 (rng0, 0) soft_ieee eq_refl). vm_compute in H. discriminate. Qed.
Print Assumptions C57_explicit_default_refuted.

(** C58: DAZ and FTZ replace exactly the subnormal values, by zero. *)
Theorem C58_flush_exactly_subnormals :
  forall f x, f = binary32 \/ f = binary64 -> is_bits f x ->
  (is_finite f x = true /\ (0 < Rabs (fval f x) < b2 (1 - bias f))%R -> daz_ftz f x = 0) /\
  (~ (is_finite f x = true /\ (0 < Rabs (fval f x) < b2 (1 - bias f))%R) -> daz_ftz f x = x).
Proof.
  intros f x Hf Hx. destruct (fpclassify_correct f x (narrow_ok f Hf)) as (_ & _ & _ & C4 & _). unfold daz_ftz. split; intros H.
  - apply C4 in H. rewrite H. reflexivity.
  - destruct (fpclassify f x) eqn:E; try reflexivity. contradiction H. apply C4. reflexivity.
Qed.
Print Assumptions C58_flush_exactly_subnormals.
Example C58_nonvacuous : daz_ftz binary32 0x007FFFFF = 0 /\ daz_ftz binary32 0x00800000 = 0x00800000 /\ daz_ftz binary64 0x8000000000000000 = 0x8000000000000000.
Proof. vm_compute. auto. Qed.
(** the options: with --ftz no operation returns a subnormal value, with --daz a subnormal operand counts as +0; for every
    mode, precision and generator state of mca, mcaint and bitmask *)
Definition subnormal (f : fmt) (x : Z) : Prop := is_finite f x = true /\ (0 < Rabs (fval f x) < b2 (1 - bias f))%R.
Lemma flush_regular f x : f = binary32 \/ f = binary64 -> ~ subnormal f (daz_ftz f x).
Proof.
  intros Hf [F H]. destruct (fpclassify_correct f x (narrow_ok f Hf)) as (_ & _ & _ & C4 & _). unfold daz_ftz in *. destruct (fpclassify f x) eqn:E; try (assert (X := proj2 C4 (conj F H)); discriminate).
  destruct (denotes_zero f 0 (narrow_ok f Hf) (or_introl eq_refl)) as (_ & _ & S0 & V0). unfold zero in *. rewrite Z.mul_0_l in *. rewrite (mval_abs f (narrow_ok f Hf)), V0 in H. lra.
Qed.
Theorem C58_ftz_no_subnormal_result :
  forall n k clk f, f = binary32 \/ f = binary64 ->
  (forall c o a b st y st', b_ftz c = true -> bitmask_binary_op n clk f c o a b st = Ok (y, st') -> ~ subnormal f y) /\
  (forall c a b d st y st', b_ftz c = true -> bitmask_ternary_op n clk f c a b d st = Ok (y, st') -> ~ subnormal f y) /\
  (forall c o a b st y st', m_ftz c = true -> mca_binary_op n k clk f c o a b st = Ok (y, st') -> ~ subnormal f y) /\
  (forall c a b d st y st', m_ftz c = true -> mca_ternary_op n k clk f c a b d st = Ok (y, st') -> ~ subnormal f y).
Proof.
  intros n k clk f Hf. pose proof (narrow_ok f Hf) as Of. pose proof (big_ok _ (wide_big f Hf)) as Og.
  assert (D : forall c x, m_ftz c = true -> ~ subnormal f (demote (wide f) f c x)) by (intros c x Hc; rewrite demote_eq, Hc by (assumption || apply wide_roomy; assumption); apply flush_regular; exact Hf).
  assert (B : forall c x, b_ftz c = true -> ~ subnormal f (bftz f c x)) by (intros c x Hc; unfold bftz; rewrite Hc; apply flush_regular; exact Hf).
  repeat split; intros c; intros; [unfold bitmask_binary_op in *|unfold bitmask_ternary_op in *|unfold mca_binary_op in *|unfold mca_ternary_op in *];
    repeat match goal with H : bind ?m _ = Ok _ |- _ => destruct m as [[? ?]| | |]; try discriminate; cbn [bind] in H end;
    match goal with H : Ok _ = Ok _ |- _ => injection H as <- _ end; auto.
Qed.
Print Assumptions C58_ftz_no_subnormal_result.
Theorem C58_daz_operands_zero :
  forall n k clk f a, f = binary32 \/ f = binary64 -> subnormal f a ->
  (forall c o b st, b_daz c = true -> bitmask_binary_op n clk f c o a b st = bitmask_binary_op n clk f c o 0 b st /\ bitmask_binary_op n clk f c o b a st = bitmask_binary_op n clk f c o b 0 st) /\
  (forall c b d st, b_daz c = true -> bitmask_ternary_op n clk f c a b d st = bitmask_ternary_op n clk f c 0 b d st /\ bitmask_ternary_op n clk f c b a d st = bitmask_ternary_op n clk f c b 0 d st /\
     bitmask_ternary_op n clk f c b d a st = bitmask_ternary_op n clk f c b d 0 st) /\
  (forall c o b st, m_daz c = true -> mca_binary_op n k clk f c o a b st = mca_binary_op n k clk f c o 0 b st /\ mca_binary_op n k clk f c o b a st = mca_binary_op n k clk f c o b 0 st) /\
  (forall c b d st, m_daz c = true -> mca_ternary_op n k clk f c a b d st = mca_ternary_op n k clk f c 0 b d st /\ mca_ternary_op n k clk f c b a d st = mca_ternary_op n k clk f c b 0 d st /\
     mca_ternary_op n k clk f c b d a st = mca_ternary_op n k clk f c b d 0 st).
Proof.
  intros n k clk f a Hf Ha. destruct (fpclassify_correct f a (narrow_ok f Hf)) as (_ & _ & _ & C4 & _).
  assert (E : daz_ftz f a = daz_ftz f 0) by (unfold daz_ftz; rewrite (proj2 C4 Ha); destruct Hf as [-> | ->]; reflexivity).
  repeat split; [unfold bitmask_binary_op, bdaz|unfold bitmask_binary_op, bdaz|unfold bitmask_ternary_op, bdaz|unfold bitmask_ternary_op, bdaz|unfold bitmask_ternary_op, bdaz
    |unfold mca_binary_op, promote|unfold mca_binary_op, promote|unfold mca_ternary_op, promote|unfold mca_ternary_op, promote|unfold mca_ternary_op, promote];
    match goal with H : _ = true |- _ => rewrite H, E; reflexivity end.
Qed.
Print Assumptions C58_daz_operands_zero.
(** the cast of a double to a float flushes as a double, so with --ftz it still returns subnormal floats *)
Theorem C58_cast_ftz_refuted :
  ~ (forall clk c a st y st', b_ftz c = true -> is_bits binary64 a -> bitmask_cast clk c a st = Ok (y, st') -> ~ subnormal binary32 y) /\
  ~ (forall n k clk c a st y st', ieee_arith n -> m_ftz c = true -> is_bits binary64 a -> mca_cast n k clk c a st = Ok (y, st') -> ~ subnormal binary32 y).
Proof.
  assert (B1 : is_bits binary64 0x3800000000000000) by (split; vm_compute; congruence).
  assert (S1 : subnormal binary32 0x00400000) by (apply (fpclassify_correct binary32 0x00400000 ok32); reflexivity).
  split; intros H.
  - refine (H 0 (set_flush (set_mode bitmask_defaults bm_ieee) true true) 0x3800000000000000 (rng0, 0) 0x00400000 _ eq_refl B1 _ S1). vm_compute. reflexivity.
  - refine (H soft Quad 0 (mk_mctx mca_ieee 24 53 true false 112 true true false 0 one32) 0x3800000000000000 (rng0, 0) 0x00400000 _ soft_ieee eq_refl B1 _ S1). vm_compute. reflexivity.
Qed.
Print Assumptions C58_cast_ftz_refuted.
Example C58_options_nonvacuous :
  fst_ok (bitmask_binary_op soft 0 binary32 (set_flush bitmask_defaults false true) OpMul 0x00800000 0x3F000000 (rng0, 0)) = Some 0 /\
  fst_ok (bitmask_binary_op soft 0 binary32 (set_flush bitmask_defaults false false) OpMul 0x00800000 0x3F000000 (rng0, 0)) = Some 0x00400000 /\
  fst_ok (bitmask_binary_op soft 0 binary32 (set_flush bitmask_defaults true false) OpAdd 0x00400000 0x00400000 (rng0, 0)) = Some 0 /\
  subnormal binary32 0x00400000.
Proof. repeat split; try (vm_compute; reflexivity); apply (fpclassify_correct binary32 0x00400000 ok32); reflexivity. Qed.
(** but the sign is lost in the mca and bitmask backends: with --daz, 1 / (-2^-149) is +infinity, not -infinity *)
Theorem C58_flush_keeps_sign_refuted :
  ~ (forall n clk c a b st y st', ieee_arith n -> b_mode c = bm_ieee -> b_daz c = true -> is_bits binary32 a -> is_bits binary32 b ->
     is_finite binary32 a = true -> is_finite binary32 b = true -> sgn binary32 a = 0 -> sgn binary32 b = 1 ->
     bitmask_binary_op n clk binary32 c OpDiv a b st = Ok (y, st') -> sgn binary32 y = 1) /\
  ~ (forall n k clk c a b st y st', ieee_arith n -> m_mode c = mca_ieee -> m_daz c = true -> is_bits binary32 a -> is_bits binary32 b ->
     is_finite binary32 a = true -> is_finite binary32 b = true -> sgn binary32 a = 0 -> sgn binary32 b = 1 ->
     mca_binary_op n k clk binary32 c OpDiv a b st = Ok (y, st') -> sgn binary32 y = 1).
Proof.
  assert (B1 : is_bits binary32 0x3F800000) by (split; vm_compute; congruence). assert (B2 : is_bits binary32 0x80000001) by (split; vm_compute; congruence).
  split; intros H.
  - set (c := set_flush (set_mode bitmask_defaults bm_ieee) true false).
    assert (E : exists y st', bitmask_binary_op soft 0 binary32 c OpDiv 0x3F800000 0x80000001 (rng0, 0) = Ok (y, st') /\ sgn binary32 y = 0)
      by (eexists _, _; split; [vm_compute; reflexivity|reflexivity]).
    destruct E as (y & st' & E & S). specialize (H soft 0 c 0x3F800000 0x80000001 (rng0, 0) y st' soft_ieee eq_refl eq_refl B1 B2 eq_refl eq_refl eq_refl eq_refl E).
    congruence.
  - set (c := mk_mctx mca_ieee 24 53 true false 112 true false false 0 one32).
    assert (E : exists y st', mca_binary_op soft Quad 0 binary32 c OpDiv 0x3F800000 0x80000001 (rng0, 0) = Ok (y, st') /\ sgn binary32 y = 0)
      by (eexists _, _; split; [vm_compute; reflexivity|reflexivity]).
    destruct E as (y & st' & E & S). specialize (H soft Quad 0 c 0x3F800000 0x80000001 (rng0, 0) y st' soft_ieee eq_refl eq_refl B1 B2 eq_refl eq_refl eq_refl eq_refl E).
    congruence.
Qed.
Print Assumptions C58_flush_keeps_sign_refuted.

(** C59: a configuration accepted by interflop_bitmask_configure may still lead to undefined behaviour (the operator
    sentinel passes the bounds check) *)
Theorem C59_accepted_configuration_refuted :
  ~ (forall n clk s p32 p64 m o d t c op a b st, ieee_arith n -> configure bitmask_defaults s p32 p64 m o d t = Ok c ->
     is_bits binary32 a -> is_bits binary32 b -> bitmask_binary_op n clk binary32 c op a b st <> UB).
Proof.
  intros H. apply (H soft 0 0 10 10 bm_full bop_end false false _ OpAdd 0x3F800000 0x3F800000 (rng0, 0) soft_ieee eq_refl);
    [split; vm_compute; congruence..|]. vm_compute. reflexivity.
Qed.
Print Assumptions C59_accepted_configuration_refuted.
(** every other accepted configuration is safe *)
Theorem C59_valid_operator_safe :
  forall n clk f s p32 p64 m o d t c op a b st, ieee_arith n -> f = binary32 \/ f = binary64 -> o <> bop_end ->
  configure bitmask_defaults s p32 p64 m o d t = Ok c -> is_bits f a -> is_bits f b ->
  exists y st', bitmask_binary_op n clk f c op a b st = Ok (y, st').
Proof.
  intros n clk f s p32 p64 m o d t c op a b st Hn Hf Ho E Ha Hb. destruct C23_configuration as (_ & _ & C & _).
  destruct (C _ _ _ _ _ _ _ _ _ E) as (C1 & C2 & _ & Eo & _).
  assert (exists p, configured f c p) as [p Hp] by (destruct Hf as [-> | ->]; eauto).
  destruct (bitmask_binary_spec n clk f c p op a b st Hn (narrow_ok f Hf) Hp ltac:(congruence) Ha Hb) as (a' & b' & z & y & st' & R & _). eauto.
Qed.
Print Assumptions C59_valid_operator_safe.
