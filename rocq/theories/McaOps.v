(** The operations of the Monte Carlo backends as perturbed real arithmetic. *)
From Coq Require Import ZArith Reals Bool Lia Lra List.
From Flocq Require Import Core.
From Verif Require Import Common Bits BitsFacts FloatReal FloatValue FloatOps DoubleRound StdlibModel StdlibProofs RngModel RngProofs McaModel McaProofs.
Open Scope Z_scope.
Open Scope outcome_scope.

Section ops.
  Context (n : arith) (Hn : ieee_arith n) (clk : Z).

  (** successive generator states *)
  Lemma init_after c st : init_state c (after clk st) = after clk st.
  Proof.
    unfold init_state, after, uint64_rand, draw64. destruct (init_random_state (fst st) (snd st) clk) as [r t] eqn:E.
    assert (V : valid r = true).
    { unfold init_random_state in E. destruct (valid (fst st)) eqn:W; [injection E as <- _; assumption|].
      destruct (choose (fst st)); injection E as <- _; reflexivity. }
    cbn [fst snd]. unfold init_rng_state_struct. cbn [valid]. rewrite V. reflexivity.
  Qed.
  Lemma init_init c st : init_state c (init_state c st) = init_state c st.
  Proof. unfold init_state, init_rng_state_struct. cbn [fst snd]. destruct (valid (fst st)) eqn:E; [rewrite E; reflexivity|reflexivity]. Qed.

  (** none of the next j draws is exactly one half *)
  Fixpoint lucky (j : nat) (st : rst) : Prop := match j with O => True | S j' => kdraw clk st <> 2 ^ 51 /\ lucky j' (after clk st) end.
  Lemma lucky_S j st : lucky (S j) st -> lucky j st.
  Proof. revert st. induction j as [|j IH]; intros st; [constructor|]. intros [H1 H2]. split; [exact H1|]. apply IH. exact H2. Qed.

  (** every operation is perturbed *)
  Definition dense (c : mctx) : Prop := fge binary32 (m_sparsity c) one32 = true.
  Fixpoint after_n (j : nat) (st : rst) : rst := match j with O => st | S j' => after_n j' (after clk st) end.
  Lemma init_after_n c j st : init_state c (after_n j (init_state c st)) = after_n j (init_state c st).
  Proof.
    destruct j as [|j]; [apply init_init|]. enough (H : forall j s, exists s', after_n (S j) s = after clk s') by (destruct (H j (init_state c st)) as [s' ->]; apply init_after).
    clear. induction j as [|j IH]; intros s; [exists s; reflexivity|]. cbn [after_n] in *. apply IH.
  Qed.
  Lemma lucky_after i j st : lucky (i + j) st -> lucky j (after_n i st).
  Proof. revert st. induction i as [|i IH]; intros st H; [exact H|]. cbn [after_n]. apply IH. apply H. Qed.
  Lemma lucky_le i j st : (i <= j)%nat -> lucky j st -> lucky i st.
  Proof. induction 1; [auto|]. intros H'. apply IHle. apply lucky_S. exact H'. Qed.

  (** a perturbed value, or one that sparsity left alone *)
  Definition pert (k : mkind) (c : mctx) (g : fmt) (X Y : R) : Prop :=
    perturbed k (m_mode c) g (vprecision g c) X Y \/ (~ dense c /\ Y = X).

  Definition settings (k : mkind) (c : mctx) : Prop := k = Quad -> m_rel c = true /\ m_abs c = false.
  Definition luck (k : mkind) (j : nat) (c : mctx) (st : rst) : Prop := k = Quad -> lucky j (init_state c st).
  Definition class_free (g : fmt) (x : Z) : Prop := is_finite g x = false \/ fval g x = 0%R.

  (** NaNs, infinities and zeros *)
  Lemma inexact_special k g c x st : fmt_ok g -> class_free g x -> inexact n k clk g c x st = Ok (x, init_state c st).
  Proof.
    intros Hg Hx. destruct (fpclassify_correct g x Hg) as (C1 & C2 & C3 & C4 & C5).
    unfold inexact, must_not_be_noised.
    assert (E : match fpclassify g x with FP_NORMAL | FP_SUBNORMAL => false | _ => true end = true).
    { destruct Hx as [Hf|Hz].
      - destruct (nan_or_inf g x Hf) as [H|H]; [apply C1 in H|apply C2 in H]; rewrite H; reflexivity.
      - destruct (is_finite g x) eqn:Hf.
        + assert (H : fpclassify g x = FP_ZERO) by (apply C3; auto). rewrite H. reflexivity.
        + destruct (nan_or_inf g x Hf) as [H|H]; [apply C1 in H|apply C2 in H]; rewrite H; reflexivity. }
    rewrite E, orb_true_r. reflexivity.
  Qed.

  Lemma inexact_class g lo hi x : fmt_ok g -> 1 - bias g <= lo -> good g lo hi x -> fval g x <> 0%R -> fpclassify g x = FP_NORMAL.
  Proof.
    intros Hg Hlo (Bx & Fx & HX) Z0. destruct (fpclassify_correct g x Hg) as (C1 & C2 & C3 & C4 & C5).
    apply C5. split; [exact Fx|]. destruct HX as [?|[L _]]; [congruence|]. eapply Rle_trans; [|exact L]. apply bpow_le. lia.
  Qed.
  Lemma must_not_iff g c lo hi x : big g -> 1 <= vprecision g c <= mw g -> 1 - bias g <= lo -> good g lo hi x -> fval g x <> 0%R -> m_mode c <> mca_ieee ->
    must_not_be_noised g x (vprecision g c) c = true <-> m_mode c = mca_rr /\ fits (vprecision g c) (fval g x).
  Proof.
    intros Hbig Ht Hlo Hx Z0 Hm. pose proof Hbig as (Hg & Hmw & Hb & Hem). pose proof Hx as (Bx & Fx & HX).
    unfold must_not_be_noised. rewrite (inexact_class g lo hi x Hg Hlo Hx Z0).
    assert (Ex : 1 <= expf g x) by (apply (good_normal g lo hi x Hg Hlo Hx Z0)).
    assert (HR : is_representable 64 g x (vprecision g c) = true <-> fits (vprecision g c) (fval g x)).
    { apply representable_normal; try assumption; try lia. }
    rewrite <- HR. destruct (m_mode c); cbn [orb andb]; intuition congruence.
  Qed.

  (** the part of _INEXACT that adds the noise *)
  Definition add_noise (k : mkind) (g : fmt) (c : mctx) (x : Z) (st : rst) : outcome (Z * rst) :=
    match k with
    | Quad => let* '(x, st) := (if m_rel c then let* e := int_op (get_exponent g x - (vprecision g c - 1)) in let* '(nz, st) := noise_quad n clk g e st in Ok (n_add n g x nz, st) else Ok (x, st)) in
        if m_abs c then let* '(nz, st) := noise_quad n clk g (m_absexp c) st in Ok (n_add n g x nz, st) else Ok (x, st)
    | Int sem => let* e := int_op (- (vprecision g c - 1)) in noise_int clk sem g x e st
    end.
  Lemma inexact_eq k g c x st : inexact n k clk g c x st =
    if must_not_be_noised g x (vprecision g c) c then Ok (x, init_state c st)
    else let '(skip, st) := skip_eval clk c (init_state c st) in if skip : bool then Ok (x, st) else add_noise k g c x st.
  Proof. reflexivity. Qed.
  Lemma drawn_range st : (0 <= IZR (kdraw clk st) * b2 (-52) < 1)%R.
  Proof.
    pose proof (kdraw_range clk st) as Kr. split; [apply Rmult_le_pos; [apply IZR_le; lia|apply bpow_ge_0]|].
    apply Rlt_le_trans with (b2 52 * b2 (-52))%R; [apply Rmult_lt_compat_r; [apply bpow_gt_0|rewrite <- IZR_pow2 by lia; apply IZR_lt; lia]|].
    rewrite <- bpow_plus. right. reflexivity.
  Qed.
  Lemma add_noise_ok k g c lo hi x st (t := vprecision g c) :
    big g -> settings k c -> (k = Quad -> kdraw clk st <> 2 ^ 51) ->
    1 <= t <= mw g -> 1 - bias g < lo -> 53 - bias g <= lo - t + 1 -> hi <= bias g - 2 -> good g lo hi x -> fval g x <> 0%R ->
    exists y, add_noise k g c x st = Ok (y, after clk st) /\ good g (lo - 1) (hi + 2) y /\ noised k g t (fval g x) (fval g y).
  Proof.
    intros Hbig Hset Hk Ht Hlo Hlt Hhi Hx Z0. unfold add_noise. fold t. destruct k as [|sem].
    - destruct (Hset eq_refl) as (Hrel & Habs). rewrite Hrel, Habs.
      destruct (add_noise_quad n Hn clk g lo hi x t st) as (y & EY & GY & VY); try assumption; try lia. { auto. }
      exists y. rewrite EY. cbn [bind]. split; [reflexivity|]. split; [exact GY|].
      exists (IZR (kdraw clk st) * b2 (-52) - 1/2)%R. split; [|exact VY]. pose proof (drawn_range st). lra.
    - destruct (add_noise_int clk sem g lo hi x t st) as (y & EY & GY & VY); try assumption; try lia.
      exists y. rewrite EY. split; [reflexivity|]. split; [exact GY|exact VY].
  Qed.

  (** noise does not change the sign *)
  Lemma noised_sign k g t lo X Y : fmt_ok g -> 1 <= t -> 1 - bias g < lo -> (b2 lo <= Rabs X)%R -> noised k g t X Y -> (0 < X * Y)%R.
  Proof.
    intros Hg Ht Hlo HX HN. destruct k; [|apply HN]. destruct HN as (xi & Hxi & ->).
    assert (Hne : X <> 0%R) by (intros E; rewrite E, Rabs_R0 in HX; pose proof (bpow_gt_0 radix2 lo); lra).
    assert (PV : Prec_gt_0 (mw g + 1)) by (unfold Prec_gt_0; destruct Hg; lia).
    set (N := (xi * b2 (mag radix2 X - t))%R).
    assert (HN : (Rabs N <= Rabs X / 2)%R).
    { unfold N. rewrite Rabs_mult, (Rabs_pos_eq (b2 _)) by apply bpow_ge_0. assert (Rabs xi <= 1/2)%R by (apply Rabs_le; lra).
      assert (b2 (mag radix2 X - t) <= Rabs X)%R by (eapply Rle_trans; [|apply (bpow_mag_le radix2 X Hne)]; apply bpow_le; lia).
      pose proof (bpow_ge_0 radix2 (mag radix2 X - t)).
      apply Rle_trans with (1/2 * b2 (mag radix2 X - t))%R; [apply Rmult_le_compat_r; assumption|lra]. }
    assert (HL : (b2 lo = 2 * b2 (lo - 1))%R) by (replace lo with (lo - 1 + 1) at 1 by lia; rewrite bpow_plus; change (b2 1) with 2%R; ring).
    assert (GB : generic_format radix2 (FLT_exp (emin_ulp g) (mw g + 1)) (b2 (lo - 1))) by (apply (bpow_generic g); [assumption|lia]).
    pose proof (bpow_gt_0 radix2 (lo - 1)) as P0.
    destruct (Rdichotomy _ _ Hne) as [L|L].
    - rewrite (Rabs_left X) in HX, HN by exact L. apply Rabs_le_inv in HN.
      assert (R : (rnd (femin g) (mw g) (X + N) <= - b2 (lo - 1))%R).
      { unfold rnd. apply round_le_generic; [apply FLT_exp_valid; exact PV|apply valid_rnd_N|apply generic_format_opp; exact GB|lra]. }
      rewrite <- Rmult_opp_opp. apply Rmult_lt_0_compat; lra.
    - rewrite (Rabs_right X) in HX, HN by lra. apply Rabs_le_inv in HN.
      assert (R : (b2 (lo - 1) <= rnd (femin g) (mw g) (X + N))%R).
      { unfold rnd. apply round_ge_generic; [apply FLT_exp_valid; exact PV|apply valid_rnd_N|exact GB|lra]. }
      apply Rmult_lt_0_compat; lra.
  Qed.
  Lemma sign_same g x y : fmt_ok g -> (0 < fval g x * fval g y)%R -> sgn g y = sgn g x.
  Proof.
    intros Hg H. rewrite (fval_mval g Hg x), (fval_mval g Hg y) in H. pose proof (mval_nonneg g Hg y) as P1. pose proof (mval_nonneg g Hg x) as P2. unfold signR in H.
    assert (0 <= mval g x * mval g y)%R by (apply Rmult_le_pos; assumption).
    destruct (sgn_01 g x) as [E|E], (sgn_01 g y) as [E'|E']; rewrite E, E' in H |- *; change (0 =? 1) with false in H; change (1 =? 1) with true in H; try reflexivity; exfalso.
    - replace (mval g x * - mval g y)%R with (- (mval g x * mval g y))%R in H by ring. lra.
    - replace (- mval g x * mval g y)%R with (- (mval g x * mval g y))%R in H by ring. lra.
  Qed.

  (** one application of _INEXACT to a finite value *)
  Lemma inexact_good k g c lo hi x st (t := vprecision g c) j :
    big g -> m_mode c <> mca_ieee -> settings k c -> luck k (2 + j) c st ->
    1 <= t <= mw g -> 1 - bias g < lo -> 53 - bias g <= lo - t + 1 -> hi <= bias g - 2 -> good g lo hi x ->
    exists y st', inexact n k clk g c x st = Ok (y, st') /\ good g (lo - 1) (hi + 2) y /\
    pert k c g (fval g x) (fval g y) /\ (y = x \/ (0 < fval g x * fval g y)%R) /\ luck k j c st'.
  Proof.
    intros Hbig Hm Hset Hluck Ht Hlo Hlt Hhi Hx. pose proof Hbig as (Hg & Hmw & Hb & Hem). pose proof Hx as (Bx & Fx & HX).
    assert (LK : forall i, (i <= 2)%nat -> luck k j c (after_n i (init_state c st))).
    { intros i Hi E. rewrite init_after_n. apply lucky_after. apply lucky_le with (2 + j)%nat; [lia|]. apply Hluck. exact E. }
    destruct (Req_dec (fval g x) 0) as [Z0|Z0].
    { rewrite inexact_special by (auto || (right; assumption)). exists x, (init_state c st). split; [reflexivity|].
      split; [split; [exact Bx|split; [exact Fx|left; exact Z0]]|]. split; [left; left; auto|]. split; [auto|]. apply (LK 0%nat). lia. }
    assert (Hgood : good g (lo - 1) (hi + 2) x).
    { split; [exact Bx|]. split; [exact Fx|]. destruct HX as [?|[L U]]; [congruence|]. right. split.
      - eapply Rle_trans; [|exact L]. apply bpow_le. lia.
      - eapply Rle_trans; [exact U|]. apply bpow_le. lia. }
    pose proof (must_not_iff g c lo hi x Hbig Ht ltac:(lia) Hx Z0 Hm) as HMN.
    rewrite inexact_eq. fold t. fold t in HMN. set (st1 := init_state c st) in *.
    destruct (must_not_be_noised g x t c) eqn:EM.
    { destruct (proj1 HMN eq_refl) as [ER EF]. exists x, st1. split; [reflexivity|]. split; [exact Hgood|].
      split; [|split; [auto|apply (LK 0%nat); lia]]. left. right. left. auto. }
    assert (Hnf : ~ (m_mode c = mca_rr /\ fits t (fval g x))) by (intros H; apply HMN in H; discriminate).
    assert (NOISE : forall i, (i <= 1)%nat -> exists y, add_noise k g c x (after_n i st1) = Ok (y, after clk (after_n i st1)) /\
        good g (lo - 1) (hi + 2) y /\ perturbed k (m_mode c) g t (fval g x) (fval g y) /\ (0 < fval g x * fval g y)%R).
    { assert (LX : (b2 lo <= Rabs (fval g x))%R) by (destruct HX as [?|[? ?]]; [congruence|assumption]). intros i Hi. destruct (add_noise_ok k g c lo hi x (after_n i st1)) as (y & EY & GY & PY); try assumption.
      - intros E. specialize (Hluck E). fold st1 in Hluck. apply (lucky_after i 1 st1). apply lucky_le with (2 + j)%nat; [lia|exact Hluck].
      - exists y. split; [exact EY|]. split; [exact GY|]. split; [right; right; auto|]. apply (noised_sign k g t lo); try assumption. lia. }
    unfold skip_eval. destruct (fge binary32 (m_sparsity c) one32) eqn:ED.
    - destruct (NOISE 0%nat ltac:(lia)) as (y & EY & GY & PY & SY). exists y, (after clk st1). split; [exact EY|]. split; [exact GY|].
      split; [left; exact PY|]. split; [auto|]. apply (LK 1%nat). lia.
    - pose proof (proj1 (double01_spec clk st1)) as ES. destruct (double01 clk st1) as [d st2]. cbn [snd] in ES. subst st2.
      destruct (fgt _ _ _).
      + exists x, (after clk st1). split; [reflexivity|]. split; [exact Hgood|]. split; [right; split; [unfold dense; congruence|reflexivity]|].
        split; [auto|]. apply (LK 1%nat). lia.
      + destruct (NOISE 1%nat ltac:(lia)) as (y & EY & GY & PY & SY). exists y, (after clk (after clk st1)). split; [exact EY|]. split; [exact GY|].
        split; [left; exact PY|]. split; [auto|]. apply (LK 2%nat). lia.
  Qed.

  (** the exact operations on reals *)
  Definition rop (o : binop) (A B : R) : R := match o with OpAdd => A + B | OpSub => A - B | OpMul => A * B | OpDiv => A / B end%R.

  Lemma multiple g lo X : fmt_ok g -> 1 - bias g <= lo -> generic_format radix2 (FLT_exp (emin_ulp g) (mw g + 1)) X ->
    (X = 0 \/ b2 lo <= Rabs X)%R -> exists m, X = (IZR m * b2 (lo - mw g))%R.
  Proof.
    intros Hg Hlo GX [->|HX]; [exists 0; ring|]. rewrite GX. unfold F2R. cbn [Fnum Fexp].
    set (m := Ztrunc _). set (ex := cexp _ _ _).
    assert (He : lo - mw g <= ex).
    { unfold ex, cexp, FLT_exp. assert (lo + 1 <= mag radix2 X); [|lia]. apply mag_ge_bpow. replace (lo + 1 - 1) with lo by lia. exact HX. }
    exists (m * 2 ^ (ex - (lo - mw g))). rewrite mult_IZR, IZR_pow2 by lia. rewrite Rmult_assoc, <- bpow_plus. do 2 f_equal. lia.
  Qed.
  Lemma multiple_lower m e : (IZR m * b2 e <> 0)%R -> (b2 e <= Rabs (IZR m * b2 e))%R.
  Proof.
    intros Hne. rewrite Rabs_mult, (Rabs_pos_eq (b2 _)) by apply bpow_ge_0. rewrite <- (Rmult_1_l (b2 e)) at 1.
    apply Rmult_le_compat_r; [apply bpow_ge_0|]. rewrite <- abs_IZR. apply IZR_le.
    assert (m <> 0) by (intros E; apply Hne; rewrite E; ring). lia.
  Qed.
  Lemma sum_lower g lo A B : fmt_ok g -> 1 - bias g <= lo ->
    generic_format radix2 (FLT_exp (emin_ulp g) (mw g + 1)) A -> generic_format radix2 (FLT_exp (emin_ulp g) (mw g + 1)) B ->
    (A = 0 \/ b2 lo <= Rabs A)%R -> (B = 0 \/ b2 lo <= Rabs B)%R -> (A + B <> 0)%R -> (b2 (lo - mw g) <= Rabs (A + B))%R.
  Proof.
    intros Hg Hlo GA GB HA HB Hne. destruct (multiple g lo A Hg Hlo GA HA) as [a EA]. destruct (multiple g lo B Hg Hlo GB HB) as [b EB].
    rewrite EA, EB in *. rewrite <- Rmult_plus_distr_r, <- plus_IZR in *. apply multiple_lower. exact Hne.
  Qed.
  Lemma fma_lower g lo A B D : fmt_ok g -> 1 - bias g <= lo -> lo < 0 ->
    generic_format radix2 (FLT_exp (emin_ulp g) (mw g + 1)) A -> generic_format radix2 (FLT_exp (emin_ulp g) (mw g + 1)) B ->
    generic_format radix2 (FLT_exp (emin_ulp g) (mw g + 1)) D ->
    (A = 0 \/ b2 lo <= Rabs A)%R -> (B = 0 \/ b2 lo <= Rabs B)%R -> (D = 0 \/ b2 lo <= Rabs D)%R ->
    (A * B + D <> 0)%R -> (b2 (2 * (lo - mw g)) <= Rabs (A * B + D))%R.
  Proof.
    intros Hg Hlo Hneg GA GB GD HA HB HD Hne. destruct (multiple g lo A Hg Hlo GA HA) as [a EA]. destruct (multiple g lo B Hg Hlo GB HB) as [b EB].
    destruct (multiple g lo D Hg Hlo GD HD) as [d ED].
    assert (E : (A * B + D = IZR (a * b + d * 2 ^ (mw g - lo)) * b2 (2 * (lo - mw g)))%R).
    { rewrite plus_IZR, !mult_IZR, IZR_pow2 by (destruct Hg; lia). rewrite EA, EB, ED.
      replace (b2 (lo - mw g)) with (b2 (mw g - lo) * b2 (2 * (lo - mw g)))%R at 3 by (rewrite <- bpow_plus; f_equal; lia).
      replace (2 * (lo - mw g)) with ((lo - mw g) + (lo - mw g)) by lia. rewrite bpow_plus. ring. }
    rewrite E in *. apply multiple_lower. exact Hne.
  Qed.

  (** the native operation on two good operands *)
  Lemma perform_good o g lo hi a b : fmt_ok g -> lo < 0 -> 0 < hi -> 1 - bias g <= 2 * lo - hi - mw g -> 2 * hi - lo + 1 <= bias g ->
    good g lo hi a -> good g lo hi b -> (o = OpDiv -> fval g b <> 0%R) ->
    good g (2 * lo - hi - mw g) (2 * hi - lo + 1) (perform n o g a b) /\
    fval g (perform n o g a b) = rnd (femin g) (mw g) (rop o (fval g a) (fval g b)).
  Proof.
    intros Hg Hl0 Hh0 Hlo Hhi Ga Gb Hdiv. pose proof Ga as (Ba & Fa & HA). pose proof Gb as (Bb & Fb & HB).
    pose proof (perform_encodes n o g a b Hn Hg Ba Bb) as E. rewrite (dec_finite _ _ Fa), (dec_finite _ _ Fb) in E.
    set (A := fval g a) in *. set (B := fval g b) in *. set (LO := 2 * lo - hi - mw g) in *. set (HI := 2 * hi - lo + 1) in *.
    assert (Hmw : 2 <= mw g) by (destruct Hg; assumption).
    assert (HE : exists s, encodes g (DFin s (rop o A B)) (perform n o g a b)).
    { destruct o; cbn [dop dadd dsub dneg dmul ddiv rop] in *; [eexists; exact E| | eexists; exact E|].
      - unfold Rminus. eexists. exact E.
      - rewrite Req_bool_false in E by (apply Hdiv; reflexivity). eexists. exact E. }
    destruct HE as [s HE].
    assert (Z0 : rnd (femin g) (mw g) 0 = 0%R) by (apply round_0; apply valid_rnd_N).
    destruct (Req_dec (rop o A B) 0) as [R0|R0].
    { rewrite R0 in HE. apply (encodes_good_zero g LO HI) in HE; [|assumption]. destruct HE as [G V]. split; [exact G|]. rewrite V, R0, Z0. reflexivity. }
    apply (encodes_good g LO HI) in HE; [exact HE|assumption|unfold LO, HI; lia|exact Hhi|].
    assert (GA : generic_format radix2 (FLT_exp (emin_ulp g) (mw g + 1)) A) by (apply generic_fval; assumption).
    assert (GB : generic_format radix2 (FLT_exp (emin_ulp g) (mw g + 1)) B) by (apply generic_fval; assumption).
    assert (LA : (A = 0 \/ b2 lo <= Rabs A)%R) by (destruct HA as [?|[? ?]]; auto).
    assert (LB : (B = 0 \/ b2 lo <= Rabs B)%R) by (destruct HB as [?|[? ?]]; auto).
    assert (UA : (Rabs A <= b2 hi)%R) by (destruct HA as [->|[? ?]]; [rewrite Rabs_R0; apply bpow_ge_0|assumption]).
    assert (UB : (Rabs B <= b2 hi)%R) by (destruct HB as [->|[? ?]]; [rewrite Rabs_R0; apply bpow_ge_0|assumption]).
    assert (Pl : forall e, (0 < b2 e)%R) by (intros; apply bpow_gt_0).
    assert (H1 : (b2 LO <= b2 (lo - mw g))%R) by (apply bpow_le; unfold LO; lia).
    assert (H2 : (b2 hi + b2 hi <= b2 HI)%R).
    { apply Rle_trans with (b2 (hi + 1)); [rewrite bpow_plus; change (b2 1) with 2%R; lra|apply bpow_le; unfold HI; lia]. }
    destruct o; cbn [rop] in *.
    - split; [|eapply Rle_trans; [apply Rabs_triang|lra]].
      eapply Rle_trans; [exact H1|]. apply sum_lower; try assumption. lia.
    - split; [|unfold Rminus; eapply Rle_trans; [apply Rabs_triang|rewrite Rabs_Ropp; lra]].
      eapply Rle_trans; [exact H1|]. unfold Rminus. apply sum_lower; try assumption; [lia|apply generic_format_opp; assumption|].
      destruct LB as [->|?]; [left; ring|right; rewrite Rabs_Ropp; assumption].
    - assert (NA : A <> 0%R) by (intros E0; apply R0; rewrite E0; ring). assert (NB : B <> 0%R) by (intros E0; apply R0; rewrite E0; ring).
      destruct LA as [?|LA]; [congruence|]. destruct LB as [?|LB]; [congruence|]. rewrite Rabs_mult. split.
      + apply Rle_trans with (b2 lo * b2 lo)%R; [rewrite <- bpow_plus; apply bpow_le; unfold LO; lia|].
        apply Rmult_le_compat; try assumption; apply Rlt_le, Pl.
      + apply Rle_trans with (b2 hi * b2 hi)%R; [|rewrite <- bpow_plus; apply bpow_le; unfold HI; lia].
        apply Rmult_le_compat; try assumption; apply Rabs_pos.
    - assert (NB : B <> 0%R) by (apply Hdiv; reflexivity).
      assert (NA : A <> 0%R) by (intros E0; apply R0; rewrite E0; unfold Rdiv; ring).
      destruct LA as [?|LA]; [congruence|]. destruct LB as [?|LB]; [congruence|]. unfold Rdiv. rewrite Rabs_mult, Rabs_inv.
      assert (I1 : (b2 (- hi) <= / Rabs B)%R) by (rewrite bpow_opp; apply Rinv_le; [apply Rabs_pos_lt; assumption|assumption]).
      assert (I2 : (/ Rabs B <= b2 (- lo))%R) by (rewrite bpow_opp; apply Rinv_le; [apply Pl|assumption]). split.
      + apply Rle_trans with (b2 lo * b2 (- hi))%R; [rewrite <- bpow_plus; apply bpow_le; unfold LO; lia|].
        apply Rmult_le_compat; try assumption; apply Rlt_le, Pl.
      + apply Rle_trans with (b2 hi * b2 (- lo))%R; [|rewrite <- bpow_plus; apply bpow_le; unfold HI; lia].
        apply Rmult_le_compat; try assumption; [apply Rabs_pos|]. apply Rlt_le, Rinv_0_lt_compat, Rabs_pos_lt. assumption.
  Qed.

  (** a converted operand *)
  Lemma promote_good f c a : narrow f -> is_bits f a -> is_finite f (flushed f c a) = true ->
    good (wide f) (emin_ulp f) (bias f + 1) (promote f (wide f) c a) /\ fval (wide f) (promote f (wide f) c a) = fval f (flushed f c a).
  Proof.
    intros Hf Ha Fa. pose proof (narrow_ok f Hf) as Of. pose proof (big_ok _ (wide_big f Hf)) as Og. pose proof (wide_roomy f Hf) as Hr.
    pose proof (flushed_bits f c a Of Ha) as Ba. unfold promote. fold (flushed f c a). set (z := flushed f c a) in *.
    pose proof (fconv_widen f (wide f) z Of Og (roomy_wider f (wide f) Of Hr) Ba Fa) as D.
    pose proof (denotes_fval _ _ _ _ Og D) as V. rewrite <- (fval_mval f Of) in V. destruct D as (D1 & D2 & _). split; [|exact V].
    split; [exact D1|]. split; [exact D2|]. rewrite V. destruct (Req_dec (fval f z) 0) as [E|E]; [left; exact E|right]. split.
    - apply nonzero_large; assumption.
    - apply Rlt_le, finite_small; assumption.
  Qed.

  (** bounds used for the operands and the result of an operation in format f *)
  Definition op_lo (f : fmt) : Z := emin_ulp f - 1.
  Definition op_hi (f : fmt) : Z := bias f + 3.
  Lemma op_bounds f : narrow f -> forall t, 1 <= t <= mw (wide f) ->
    let g := wide f in let lo := emin_ulp f in let hi := bias f + 1 in
    1 - bias g < lo /\ 53 - bias g <= lo - t + 1 /\ hi <= bias g - 2 /\ op_lo f < 0 /\ 0 < op_hi f /\
    1 - bias g < 2 * op_lo f - op_hi f - mw g /\ 53 - bias g <= (2 * op_lo f - op_hi f - mw g) - t + 1 /\ 2 * op_hi f - op_lo f + 1 <= bias g - 2 /\
    1 - bias g < 2 * (op_lo f - mw g) /\ 53 - bias g <= 2 * (op_lo f - mw g) - t + 1 /\ 2 * op_hi f + 1 <= bias g - 2.
  Proof.
    intros [-> | ->] t Ht; cbn zeta; unfold op_lo, op_hi.
    - change (wide binary32) with binary64 in *. change (mw binary64) with 52 in *. change (bias binary64) with 1023.
      change (emin_ulp binary32) with (-149). change (bias binary32) with 127. lia.
    - change (wide binary64) with binary128 in *. change (mw binary128) with 112 in *. change (bias binary128) with 16383.
      change (emin_ulp binary64) with (-1074). change (bias binary64) with 1023. lia.
  Qed.

  (** a pattern whose value, when finite, is zero or within bounds *)
  Definition okv (g : fmt) (lo hi : Z) (x : Z) : Prop := is_bits g x /\ (is_finite g x = true -> good g lo hi x).
  (** the effect of _INEXACT on values: NaN, infinities and signed zeros are left alone, signs are kept *)
  Definition dpert (k : mkind) (c : mctx) (g : fmt) (v w : dval) : Prop :=
    match v with DFin s X => exists Y, w = DFin s Y /\ pert k c g X Y /\ ((X = 0 /\ Y = 0) \/ 0 < X * Y)%R | _ => w = v end.
  Definition dpert_if (b : bool) (k : mkind) (c : mctx) (g : fmt) (v w : dval) : Prop := if b then dpert k c g v w else w = v.

  Lemma okv_weaken g lo hi lo' hi' x : lo' <= lo -> hi <= hi' -> okv g lo hi x -> okv g lo' hi' x.
  Proof.
    intros H1 H2 [Bx Hx]. split; [exact Bx|]. intros Fx. destruct (Hx Fx) as (_ & _ & HX). split; [exact Bx|]. split; [exact Fx|].
    destruct HX as [?|[L U]]; [auto|right]. split.
    - eapply Rle_trans; [|exact L]. apply bpow_le. lia.
    - eapply Rle_trans; [exact U|]. apply bpow_le. lia.
  Qed.
  Lemma dec_special g x : is_finite g x = false -> (dec g x = DNaN) \/ (exists s, dec g x = DInf s).
  Proof.
    intros H. unfold dec. destruct (is_nan g x) eqn:E; [auto|]. destruct (is_inf g x) eqn:E2; [right; eauto|].
    destruct (nan_or_inf g x H); congruence.
  Qed.

  Lemma inexact_if_ok b k g c lo hi x st (t := vprecision g c) j :
    big g -> (b = true -> m_mode c <> mca_ieee) -> settings k c -> luck k (2 + j) c st ->
    1 <= t <= mw g -> 1 - bias g < lo -> 53 - bias g <= lo - t + 1 -> hi <= bias g - 2 -> okv g lo hi x ->
    exists y st', inexact_if n k clk b g c x st = Ok (y, st') /\ okv g (lo - 1) (hi + 2) y /\
    dpert_if b k c g (dec g x) (dec g y) /\ luck k j c st'.
  Proof.
    intros Hbig Hb Hset Hluck Ht Hlo Hlt Hhi Hx. unfold inexact_if, dpert_if. pose proof (big_ok g Hbig) as Hg. destruct b.
    - destruct (is_finite g x) eqn:Fx.
      + destruct (inexact_good k g c lo hi x st j) as (y & st' & EI & GY & PY & SY & HS); try assumption; [auto|apply Hx; exact Fx|].
        exists y, st'. split; [exact EI|]. split; [split; [apply GY|intros _; exact GY]|]. split; [|exact HS].
        rewrite (dec_finite _ _ Fx). cbn [dpert]. exists (fval g y).
        assert (SS : sgn g y = sgn g x) by (destruct SY as [->|SY]; [reflexivity|apply sign_same; assumption]).
        split; [rewrite <- SS; apply dec_finite; apply GY|]. split; [exact PY|].
        destruct SY as [->|SY]; [|right; exact SY]. destruct (Req_dec (fval g x) 0) as [?|NZ]; [left; auto|right].
        destruct (Rdichotomy _ _ NZ) as [L|L]; [rewrite <- Rmult_opp_opp; apply Rmult_lt_0_compat; lra|apply Rmult_lt_0_compat; lra].
      + rewrite inexact_special by (auto || (left; assumption)). exists x, (init_state c st). split; [reflexivity|].
        split; [apply (okv_weaken g lo hi); [lia|lia|exact Hx]|]. split; [|intros E; rewrite init_init; apply lucky_le with (2 + j)%nat; [lia|auto]].
        unfold dpert. destruct (dec_special g x Fx) as [E|[s E]]; rewrite E; reflexivity.
    - exists x, st. split; [reflexivity|]. split; [apply (okv_weaken g lo hi); [lia|lia|exact Hx]|]. split; [reflexivity|].
      intros E. apply lucky_le with (2 + j)%nat; [lia|auto].
  Qed.

  Lemma encodes_okv_special g lo hi v y : fmt_ok g -> encodes g v y -> (v = DNaN \/ (exists s, v = DInf s) \/ (exists s, v = DFin s 0%R)) -> okv g lo hi y.
  Proof.
    intros Hg E [-> | [[s ->]|[s ->]]].
    - destruct E as [B E]. split; [exact B|]. intros F. destruct (finite_not_nan g y F) as [N _]. congruence.
    - destruct E as [B E]. split; [exact B|]. intros F. destruct (finite_not_nan g y F) as [_ N].
      assert (Hs : s = 0 \/ s = 1).
      { rewrite E in B. unfold is_bits, inf, pack in B. pose proof (inf_code_eq g Hg). pose proof (inf_code_pos g Hg). assert (0 < 2 ^ mw g) by (apply pow2_pos; destruct Hg; lia). clear - B H H0 H1. nia. }
      destruct (inf_is_inf g s Hg Hs) as (I & _ & _). congruence.
    - apply (encodes_good_zero g lo hi) in E; [|exact Hg]. destruct E as [G _]. split; [apply G|auto].
  Qed.

  Lemma good_ok g lo hi x : good g lo hi x -> okv g lo hi x.
  Proof. intros G. split; [apply G|auto]. Qed.
  Lemma perform_ok o g lo hi a b : fmt_ok g -> lo < 0 -> 0 < hi -> 1 - bias g <= 2 * lo - hi - mw g -> 2 * hi - lo + 1 <= bias g ->
    okv g lo hi a -> okv g lo hi b -> okv g (2 * lo - hi - mw g) (2 * hi - lo + 1) (perform n o g a b).
  Proof.
    intros Hg Hl0 Hh0 Hlo Hhi Ha Hb. pose proof (perform_encodes n o g a b Hn Hg (proj1 Ha) (proj1 Hb)) as E.
    destruct (is_finite g a) eqn:Fa; destruct (is_finite g b) eqn:Fb.
    - destruct (Req_dec (fval g b) 0) as [Z0|Z0].
      + destruct o.
        1-3: apply good_ok, perform_good; [assumption..|apply Ha; exact Fa|apply Hb; exact Fb|discriminate].
        apply (encodes_okv_special g _ _ _ _ Hg E). rewrite (dec_finite _ _ Fa), (dec_finite _ _ Fb). cbn [dop ddiv].
        rewrite (Req_bool_true _ _ Z0). destruct (Req_bool _ _); eauto.
      + apply good_ok, perform_good; [assumption..|apply Ha; exact Fa|apply Hb; exact Fb|intros _; exact Z0].
    - apply (encodes_okv_special g _ _ _ _ Hg E). rewrite (dec_finite _ _ Fa).
      destruct (dec_special g b Fb) as [E'|[s E']]; rewrite E'; destruct o; cbn [dop dadd dsub dneg dmul ddiv]; try destruct (Req_bool _ _); eauto.
    - apply (encodes_okv_special g _ _ _ _ Hg E). rewrite (dec_finite _ _ Fb).
      destruct (dec_special g a Fa) as [E'|[s E']]; rewrite E'; destruct o; cbn [dop dadd dsub dneg dmul ddiv]; try destruct (Req_bool _ _); eauto.
    - apply (encodes_okv_special g _ _ _ _ Hg E).
      destruct (dec_special g a Fa) as [E'|[s E']]; rewrite E'; destruct (dec_special g b Fb) as [E2|[s2 E2]]; rewrite E2; destruct o; cbn [dop dadd dsub dneg dmul ddiv]; try destruct (Z.eqb _ _); eauto.
  Qed.

  Lemma fma_ok g lo hi a b d : fmt_ok g -> lo < 0 -> 0 < hi -> 1 - bias g <= 2 * (lo - mw g) -> 2 * hi + 1 <= bias g ->
    okv g lo hi a -> okv g lo hi b -> okv g lo hi d -> okv g (2 * (lo - mw g)) (2 * hi + 1) (n_fma n g a b d).
  Proof.
    intros Hg Hl0 Hh0 Hlo Hhi Ha Hb Hd. destruct (Hn g Hg a b (proj1 Ha) (proj1 Hb)) as (_ & _ & _ & _ & E). specialize (E d (proj1 Hd)). unfold dfma in E.
    assert (Hmw : 2 <= mw g) by (destruct Hg; assumption).
    destruct (is_finite g a) eqn:Fa; destruct (is_finite g b) eqn:Fb; destruct (is_finite g d) eqn:Fd.
    - destruct Ha as [Ba Ha]. destruct (Ha Fa) as (_ & _ & HA). destruct Hb as [Bb Hb]. destruct (Hb Fb) as (_ & _ & HB). destruct Hd as [Bd Hd]. destruct (Hd Fd) as (_ & _ & HD).
      rewrite (dec_finite _ _ Fa), (dec_finite _ _ Fb), (dec_finite _ _ Fd) in E. cbn [dmul dadd] in E.
      set (A := fval g a) in *. set (B := fval g b) in *. set (D := fval g d) in *.
      destruct (Req_dec (A * B + D) 0) as [R0|R0]. { rewrite R0 in E. eapply encodes_okv_special; [exact Hg|exact E|eauto]. }
      apply good_ok. apply (encodes_good g (2 * (lo - mw g)) (2 * hi + 1)) in E; [apply E|assumption|lia|exact Hhi|].
      assert (UA : (Rabs A <= b2 hi)%R) by (destruct HA as [->|[? ?]]; [rewrite Rabs_R0; apply bpow_ge_0|assumption]).
      assert (UB : (Rabs B <= b2 hi)%R) by (destruct HB as [->|[? ?]]; [rewrite Rabs_R0; apply bpow_ge_0|assumption]).
      assert (UD : (Rabs D <= b2 hi)%R) by (destruct HD as [->|[? ?]]; [rewrite Rabs_R0; apply bpow_ge_0|assumption]). split.
      + apply fma_lower; try assumption; try lia; try (apply generic_fval; assumption).
        * destruct HA as [?|[? ?]]; auto.
        * destruct HB as [?|[? ?]]; auto.
        * destruct HD as [?|[? ?]]; auto.
      + eapply Rle_trans; [apply Rabs_triang|]. rewrite Rabs_mult.
        assert (HP : (Rabs A * Rabs B <= b2 (2 * hi))%R).
        { replace (2 * hi) with (hi + hi) by lia. rewrite bpow_plus. apply Rmult_le_compat; try assumption; apply Rabs_pos. }
        assert (HQ : (b2 hi <= b2 (2 * hi))%R) by (apply bpow_le; lia). rewrite bpow_plus. change (b2 1) with 2%R. lra.
    - apply (encodes_okv_special g _ _ _ _ Hg E). rewrite (dec_finite _ _ Fa), (dec_finite _ _ Fb).
      destruct (dec_special g d Fd) as [E'|[s E']]; rewrite E'; cbn [dmul dadd]; eauto.
    - apply (encodes_okv_special g _ _ _ _ Hg E). rewrite (dec_finite _ _ Fa), (dec_finite _ _ Fd).
      destruct (dec_special g b Fb) as [E'|[s E']]; rewrite E'; cbn [dmul]; try destruct (Req_bool _ _); cbn [dadd]; eauto.
    - apply (encodes_okv_special g _ _ _ _ Hg E). rewrite (dec_finite _ _ Fa).
      destruct (dec_special g b Fb) as [E'|[s E']]; rewrite E'; destruct (dec_special g d Fd) as [E2|[s2 E2]]; rewrite E2; cbn [dmul]; try destruct (Req_bool _ _); cbn [dadd]; try destruct (Z.eqb _ _); eauto.
    - apply (encodes_okv_special g _ _ _ _ Hg E). rewrite (dec_finite _ _ Fb), (dec_finite _ _ Fd).
      destruct (dec_special g a Fa) as [E'|[s E']]; rewrite E'; cbn [dmul]; try destruct (Req_bool _ _); cbn [dadd]; eauto.
    - apply (encodes_okv_special g _ _ _ _ Hg E). rewrite (dec_finite _ _ Fb).
      destruct (dec_special g a Fa) as [E'|[s E']]; rewrite E'; destruct (dec_special g d Fd) as [E2|[s2 E2]]; rewrite E2; cbn [dmul]; try destruct (Req_bool _ _); cbn [dadd]; try destruct (Z.eqb _ _); eauto.
    - apply (encodes_okv_special g _ _ _ _ Hg E). rewrite (dec_finite _ _ Fd).
      destruct (dec_special g a Fa) as [E'|[s E']]; rewrite E'; destruct (dec_special g b Fb) as [E2|[s2 E2]]; rewrite E2; cbn [dmul dadd]; eauto.
    - apply (encodes_okv_special g _ _ _ _ Hg E).
      destruct (dec_special g a Fa) as [E'|[s E']]; rewrite E'; destruct (dec_special g b Fb) as [E2|[s2 E2]]; rewrite E2; destruct (dec_special g d Fd) as [E3|[s3 E3]]; rewrite E3; cbn [dmul dadd]; try destruct (Z.eqb _ _); eauto.
  Qed.

  Lemma promote_ok f c a : narrow f -> is_bits f a ->
    okv (wide f) (emin_ulp f) (bias f + 1) (promote f (wide f) c a) /\ dec (wide f) (promote f (wide f) c a) = dec f (flushed f c a).
  Proof.
    intros Hf Ha. pose proof (narrow_ok f Hf) as Of. pose proof (big_ok _ (wide_big f Hf)) as Og. pose proof (wide_roomy f Hf) as Hr.
    pose proof (flushed_bits f c a Of Ha) as Ba.
    assert (ED : dec (wide f) (promote f (wide f) c a) = dec f (flushed f c a)) by (unfold promote; fold (flushed f c a); apply dec_widen; assumption).
    split; [|exact ED]. destruct (is_finite f (flushed f c a)) eqn:Fa.
    - destruct (promote_good f c a Hf Ha Fa) as [G _]. split; [apply G|auto].
    - split; [unfold promote; fold (flushed f c a); apply widen_bits; assumption|]. intros F. rewrite (dec_finite _ _ F) in ED.
      destruct (dec_special f _ Fa) as [E|[s E]]; rewrite E in ED; discriminate.
  Qed.

  (** * Operations *)
  Lemma mode_in c : noises_in (m_mode c) = true -> m_mode c <> mca_ieee.
  Proof. intros H E. rewrite E in H. discriminate. Qed.
  Lemma mode_out c : noises_out (m_mode c) = true -> m_mode c <> mca_ieee.
  Proof. intros H E. rewrite E in H. discriminate. Qed.

  (** flush of the result *)
  Definition flush_out (f : fmt) (c : mctx) (y : Z) : Z := if m_ftz c then daz_ftz f y else y.
  Lemma demote_spec f c x : narrow f -> is_bits (wide f) x -> exists y, encodes f (dec (wide f) x) y /\ demote (wide f) f c x = flush_out f c y.
  Proof.
    intros Hf Hx. pose proof (narrow_ok f Hf) as Of. pose proof (big_ok _ (wide_big f Hf)) as Og.
    exists (fconv (wide f) f x). split; [apply fconv_encodes; assumption|]. unfold flush_out. apply demote_eq; [assumption|assumption|apply wide_roomy; assumption].
  Qed.

  Lemma binary_op_spec k f c o a b st (g := wide f) (t := vprecision (wide f) c) :
    narrow f -> settings k c -> luck k 6 c st -> 1 <= t <= mw g -> is_bits f a -> is_bits f b ->
    exists y st' va vb z vz, mca_binary_op n k clk f c o a b st = Ok (flush_out f c y, st') /\
    dpert_if (noises_in (m_mode c)) k c g (dec f (flushed f c a)) va /\
    dpert_if (noises_in (m_mode c)) k c g (dec f (flushed f c b)) vb /\
    encodes g (dop o va vb) z /\ dpert_if (noises_out (m_mode c)) k c g (dec g z) vz /\ encodes f vz y.
  Proof.
    intros Hf Hset Hk Ht Ha Hb. pose proof (narrow_ok f Hf) as Of. pose proof (wide_big f Hf) as Hbig. pose proof (big_ok _ Hbig) as Og.
    destruct (op_bounds f Hf t Ht) as (B1 & B2 & B3 & B4 & B5 & B6 & B7 & B8 & _). fold g in B1, B2, B3, B6, B7, B8.
    destruct (promote_ok f c a Hf Ha) as [GA VA]. destruct (promote_ok f c b Hf Hb) as [GB VB]. fold g in GA, VA, GB, VB.
    unfold mca_binary_op. fold g.
    destruct (inexact_if_ok (noises_in (m_mode c)) k g c _ _ (promote f g c a) st 4 Hbig (mode_in c) Hset Hk Ht B1 B2 B3 GA) as (xa & st1 & E1 & G1 & P1 & K1).
    rewrite E1. cbn [bind].
    destruct (inexact_if_ok (noises_in (m_mode c)) k g c _ _ (promote f g c b) st1 2 Hbig (mode_in c) Hset K1 Ht B1 B2 B3 GB) as (xb & st2 & E2 & G2 & P2 & K2).
    rewrite E2. cbn [bind]. rewrite VA in P1. rewrite VB in P2.
    replace (emin_ulp f - 1) with (op_lo f) in G1, G2 by reflexivity. replace (bias f + 1 + 2) with (op_hi f) in G1, G2 by (unfold op_hi; lia).
    pose proof (perform_ok o g (op_lo f) (op_hi f) xa xb Og B4 B5 ltac:(lia) ltac:(lia) G1 G2) as GP.
    destruct (inexact_if_ok (noises_out (m_mode c)) k g c _ _ (perform n o g xa xb) st2 0 Hbig (mode_out c) Hset K2 Ht B6 B7 B8 GP) as (xz & st3 & E3 & G3 & P3 & K3).
    rewrite E3. cbn [bind]. destruct (demote_spec f c xz Hf (proj1 G3)) as (y & EY & ED).
    exists y, st3, (dec g xa), (dec g xb), (perform n o g xa xb), (dec g xz).
    split; [fold g in ED; rewrite ED; reflexivity|]. split; [exact P1|]. split; [exact P2|].
    split; [exact (perform_encodes n o g xa xb Hn Og (proj1 G1) (proj1 G2))|]. split; [exact P3|exact EY].
  Qed.

  Lemma ternary_op_spec k f c a b d st (g := wide f) (t := vprecision (wide f) c) :
    narrow f -> settings k c -> luck k 8 c st -> 1 <= t <= mw g -> is_bits f a -> is_bits f b -> is_bits f d ->
    exists y st' va vb vd z vz, mca_ternary_op n k clk f c a b d st = Ok (flush_out f c y, st') /\
    dpert_if (noises_in (m_mode c)) k c g (dec f (flushed f c a)) va /\
    dpert_if (noises_in (m_mode c)) k c g (dec f (flushed f c b)) vb /\
    dpert_if (noises_in (m_mode c)) k c g (dec f (flushed f c d)) vd /\
    encodes g (dfma va vb vd) z /\ dpert_if (noises_out (m_mode c)) k c g (dec g z) vz /\ encodes f vz y.
  Proof.
    intros Hf Hset Hk Ht Ha Hb Hd. pose proof (narrow_ok f Hf) as Of. pose proof (wide_big f Hf) as Hbig. pose proof (big_ok _ Hbig) as Og.
    destruct (op_bounds f Hf t Ht) as (B1 & B2 & B3 & B4 & B5 & _ & _ & _ & B6 & B7 & B8). fold g in B1, B2, B3, B6, B7, B8.
    destruct (promote_ok f c a Hf Ha) as [GA VA]. destruct (promote_ok f c b Hf Hb) as [GB VB]. destruct (promote_ok f c d Hf Hd) as [GD VD].
    fold g in GA, VA, GB, VB, GD, VD. unfold mca_ternary_op. fold g.
    destruct (inexact_if_ok (noises_in (m_mode c)) k g c _ _ (promote f g c a) st 6 Hbig (mode_in c) Hset Hk Ht B1 B2 B3 GA) as (xa & st1 & E1 & G1 & P1 & K1).
    rewrite E1. cbn [bind].
    destruct (inexact_if_ok (noises_in (m_mode c)) k g c _ _ (promote f g c b) st1 4 Hbig (mode_in c) Hset K1 Ht B1 B2 B3 GB) as (xb & st2 & E2 & G2 & P2 & K2).
    rewrite E2. cbn [bind].
    destruct (inexact_if_ok (noises_in (m_mode c)) k g c _ _ (promote f g c d) st2 2 Hbig (mode_in c) Hset K2 Ht B1 B2 B3 GD) as (xd & st3 & E3 & G3 & P3 & K3).
    rewrite E3. cbn [bind]. rewrite VA in P1. rewrite VB in P2. rewrite VD in P3.
    replace (emin_ulp f - 1) with (op_lo f) in G1, G2, G3 by reflexivity. replace (bias f + 1 + 2) with (op_hi f) in G1, G2, G3 by (unfold op_hi; lia).
    pose proof (fma_ok g (op_lo f) (op_hi f) xa xb xd Og B4 B5 ltac:(lia) ltac:(lia) G1 G2 G3) as GP.
    destruct (inexact_if_ok (noises_out (m_mode c)) k g c _ _ (n_fma n g xa xb xd) st3 0 Hbig (mode_out c) Hset K3 Ht B6 B7 B8 GP) as (xz & st4 & E4 & G4 & P4 & K4).
    rewrite E4. cbn [bind]. destruct (demote_spec f c xz Hf (proj1 G4)) as (y & EY & ED).
    exists y, st4, (dec g xa), (dec g xb), (dec g xd), (n_fma n g xa xb xd), (dec g xz).
    split; [fold g in ED; rewrite ED; reflexivity|]. split; [exact P1|]. split; [exact P2|]. split; [exact P3|].
    split; [destruct (Hn g Og xa xb (proj1 G1) (proj1 G2)) as (_ & _ & _ & _ & HF); exact (HF xd (proj1 G3))|]. split; [exact P4|exact EY].
  Qed.

  (** cast_double_to_float: noise before and after the conversion *)
  Lemma cast_spec k c a st (t := m_p64 c) : settings k c -> luck k 4 c st -> 1 <= t <= 112 -> is_bits binary64 a ->
    exists y0 y st' va x vz, mca_cast n k clk c a st = Ok (y, st') /\
    dpert_if (noises_in (m_mode c)) k c binary128 (dec binary64 (flushed binary64 c a)) va /\ encodes binary32 va x /\
    dpert_if (noises_out (m_mode c)) k c binary128 (dec binary32 x) vz /\ encodes binary64 vz y0 /\
    encodes binary32 (dec binary64 (flush_out binary64 c y0)) y.
  Proof.
    intros Hset Hk Ht Ha. set (g := binary128). assert (Hf : narrow binary64) by (right; reflexivity).
    change g with (wide binary64). pose proof (wide_big binary64 Hf) as Hbig. pose proof (big_ok _ Hbig) as Og.
    assert (Ht' : 1 <= vprecision (wide binary64) c <= mw (wide binary64)) by exact Ht.
    destruct (op_bounds binary64 Hf _ Ht') as (B1 & B2 & B3 & _).
    destruct (promote_ok binary64 c a Hf Ha) as [GA VA]. unfold mca_cast. change binary128 with (wide binary64) in *. set (G := wide binary64) in *.
    destruct (inexact_if_ok (noises_in (m_mode c)) k G c _ _ (promote binary64 G c a) st 2 Hbig (mode_in c) Hset Hk Ht' B1 B2 B3 GA) as (xa & st1 & E1 & G1 & P1 & K1).
    rewrite E1. cbn [bind]. rewrite VA in P1.
    set (x := fconv G binary32 xa). assert (HX : encodes binary32 (dec G xa) x) by (apply fconv_encodes; [exact Og|apply ok32]).
    assert (R3 : roomy binary32 binary128) by (vm_compute; repeat split; congruence).
    assert (VW : dec G (fconv binary32 G x) = dec binary32 x) by (apply dec_widen; [apply ok32|exact Og|exact R3|apply HX]).
    assert (OW : okv G (emin_ulp binary64) (bias binary64 + 1) (fconv binary32 G x)).
    { split; [apply fconv_encodes; [apply ok32|exact Og]|]. intros F. split; [apply fconv_encodes; [apply ok32|exact Og]|].
      split; [exact F|]. rewrite (dec_finite _ _ F) in VW.
      assert (Fx : is_finite binary32 x = true).
      { destruct (is_finite binary32 x) eqn:Fx; [reflexivity|]. destruct (dec_special _ _ Fx) as [E|[s E]]; rewrite E in VW; discriminate. }
      rewrite (dec_finite _ _ Fx) in VW. injection VW as _ EV. rewrite EV.
      destruct (Req_dec (fval binary32 x) 0) as [?|Z0]; [auto|right]. split.
      - eapply Rle_trans; [|apply (nonzero_large binary32 ok32 x Z0)]. apply bpow_le. vm_compute. congruence.
      - apply Rlt_le. eapply Rlt_le_trans; [apply (finite_small binary32 ok32 x Fx)|]. apply bpow_le. vm_compute. congruence. }
    destruct (inexact_if_ok (noises_out (m_mode c)) k G c _ _ (fconv binary32 G x) st1 0 Hbig (mode_out c) Hset K1 Ht' B1 B2 B3 OW) as (xz & st2 & E2 & G2 & P2 & K2).
    rewrite E2. cbn [bind]. rewrite VW in P2. destruct (demote_spec binary64 c xz Hf (proj1 G2)) as (y0 & EY & ED). fold G in ED, EY.
    exists y0, (fconv binary64 binary32 (demote G binary64 c xz)), st2, (dec G xa), x, (dec G xz).
    split; [reflexivity|]. split; [exact P1|]. split; [exact HX|]. split; [exact P2|]. split; [exact EY|].
    rewrite ED. apply fconv_encodes; [apply ok64|apply ok32].
  Qed.

  (** * Random rounding of results that need no rounding *)
  Lemma fits_generic g t X : fmt_ok g -> t <= mw g + 1 -> fits t X -> (X = 0 \/ b2 (1 - bias g) <= Rabs X)%R ->
    generic_format radix2 (FLT_exp (emin_ulp g) (mw g + 1)) X.
  Proof.
    intros Hg Ht (m & e & Hm & E) HX. destruct HX as [->|HX]; [apply generic_format_0|].
    assert (PT : 0 <= t) by (destruct (Z.le_gt_cases 0 t) as [?|Hn0]; [assumption|rewrite (Z.pow_neg_r 2 t) in Hm by lia; lia]).
    assert (PV : Prec_gt_0 (mw g + 1)) by (unfold Prec_gt_0; destruct Hg; lia).
    destruct (Req_dec X 0) as [->|Hne]; [apply generic_format_0|].
    apply generic_format_FLT. 
    assert (M : (1 - bias g) + 1 <= mag radix2 X) by (apply mag_ge_bpow; replace (1 - bias g + 1 - 1) with (1 - bias g) by lia; exact HX).
    assert (G : generic_format radix2 (FLX_exp (mw g + 1)) X).
    { apply generic_format_FLX. exists (Float radix2 m e); [exact E|]. cbn [Fnum]. eapply Z.lt_le_trans; [exact Hm|].
      change (radix_val radix2) with 2. apply pow2_le. lia. }
    apply FLT_format_generic; [exact PV|]. apply generic_format_FLT_FLX; [|exact G].
    unfold emin_ulp. eapply Rle_trans; [|exact HX]. apply bpow_le. lia.
  Qed.

  Lemma rr_exact k f c o a b st (t := vprecision (wide f) c) :
    narrow f -> m_mode c = mca_rr -> 1 <= t <= mw (wide f) -> is_bits f a -> is_bits f b ->
    is_finite f (flushed f c a) = true -> is_finite f (flushed f c b) = true ->
    (o = OpDiv -> fval f (flushed f c b) <> 0%R) -> fits t (rop o (fval f (flushed f c a)) (fval f (flushed f c b))) ->
    exists y, encodes f (dop o (dec f (flushed f c a)) (dec f (flushed f c b))) y /\
    mca_binary_op n k clk f c o a b st = Ok (flush_out f c y, init_state c st).
  Proof.
    intros Hf Hm Ht Ha Hb Fa Fb Hdiv Hfit. pose proof (narrow_ok f Hf) as Of. pose proof (wide_big f Hf) as Hbig. pose proof (big_ok _ Hbig) as Og.
    destruct (op_bounds f Hf t Ht) as (B1 & B2 & B3 & B4 & B5 & B6 & B7 & B8 & _). set (g := wide f) in *.
    destruct (promote_good f c a Hf Ha Fa) as [GA VA]. destruct (promote_good f c b Hf Hb Fb) as [GB VB].
    destruct (promote_ok f c a Hf Ha) as [OA DA]. destruct (promote_ok f c b Hf Hb) as [OB DB]. fold g in GA, VA, GB, VB, OA, DA, OB, DB.
    unfold mca_binary_op. rewrite Hm. cbn [noises_in noises_out inexact_if bind]. fold g.
    set (pa := promote f g c a) in *. set (pb := promote f g c b) in *. set (z := perform n o g pa pb).
    assert (WA : good g (op_lo f) (op_hi f) pa) by (apply (okv_weaken g (emin_ulp f) (bias f + 1) (op_lo f) (op_hi f) pa ltac:(unfold op_lo; lia) ltac:(unfold op_hi; lia) OA); apply GA).
    assert (WB : good g (op_lo f) (op_hi f) pb) by (apply (okv_weaken g (emin_ulp f) (bias f + 1) (op_lo f) (op_hi f) pb ltac:(unfold op_lo; lia) ltac:(unfold op_hi; lia) OB); apply GB).
    rewrite <- VA, <- VB in Hfit. rewrite <- VB in Hdiv.
    destruct (perform_good o g (op_lo f) (op_hi f) pa pb Og B4 B5 ltac:(lia) ltac:(lia) WA WB Hdiv) as [GP VP]. fold z in GP, VP.
    assert (EZ : encodes f (dop o (dec f (flushed f c a)) (dec f (flushed f c b))) (fconv g f z)).
    { apply conv_op; try assumption; [apply wide_roomy; assumption|apply flushed_bits; assumption|apply flushed_bits; assumption|].
      fold g. rewrite <- DA, <- DB. apply perform_encodes; [exact Hn|exact Og|apply GA|apply GB]. }
    assert (EI : inexact n k clk g c z st = Ok (z, init_state c st)).
    { destruct (Req_dec (fval g z) 0) as [Z0|Z0]; [apply inexact_special; [exact Og|right; exact Z0]|].
      unfold inexact. fold t.
      assert (EM : must_not_be_noised g z t c = true); [|rewrite EM; reflexivity].
      eapply must_not_iff; [exact Hbig|exact Ht| |exact GP|exact Z0|congruence|]; [lia|]. split; [exact Hm|].
      fold t. rewrite VP. set (X := rop o (fval g pa) (fval g pb)) in *.
      assert (EX : rnd (femin g) (mw g) X = X); [|rewrite EX; exact Hfit].
      unfold rnd. apply round_generic; [apply valid_rnd_N|]. replace (femin g - mw g) with (emin_ulp g) by reflexivity.
      apply (fits_generic g t); [exact Og|lia|exact Hfit|].
      destruct (Req_dec X 0) as [?|X0]; [auto|right].
      (* a nonzero exact result at least as large as the smallest normal *)
      destruct (Rle_or_lt (b2 (1 - bias g)) (Rabs X)) as [?|XS]; [assumption|exfalso].
      assert (K : (Rabs (rnd (femin g) (mw g) X) <= b2 (1 - bias g))%R).
      { unfold rnd. apply abs_round_le_generic; [apply FLT_exp_valid; unfold Prec_gt_0; destruct Og; lia|apply valid_rnd_N| |lra].
        apply (bpow_generic g); [assumption|lia]. }
      rewrite <- VP in K. destruct GP as (_ & _ & [?|[L _]]); [congruence|].
      assert (b2 (1 - bias g) < b2 (2 * op_lo f - op_hi f - mw g))%R by (apply bpow_lt; lia). lra. }
    rewrite EI. cbn [bind]. exists (fconv g f z). split; [exact EZ|]. rewrite demote_eq; [|assumption|assumption|apply wide_roomy; assumption]. reflexivity.
  Qed.

  (** * Sparsity: one application, and operations in rr mode *)
  Definition drawn (st : rst) : R := (IZR (kdraw clk st) * b2 (-52))%R.
  Lemma dense_spec c : is_nan binary32 (m_sparsity c) = false -> (dense c <-> (1 <= fval binary32 (m_sparsity c))%R).
  Proof.
    intros HN. unfold dense. rewrite (fge_spec binary32 (m_sparsity c) one32 ok32 HN eq_refl).
    replace (fval binary32 one32) with 1%R; [reflexivity|]. symmetry. change one32 with (make binary32 0 127 0).
    rewrite (fval_mval binary32 ok32). change (sgn binary32 (make binary32 0 127 0)) with 0. change (signR 0 ?X) with X.
    unfold mval. change (sig binary32 (make binary32 0 127 0)) with (2 ^ 23). change (sexp binary32 (make binary32 0 127 0)) with (-23).
    rewrite IZR_pow2 by lia. rewrite <- bpow_plus. reflexivity.
  Qed.
  Lemma skip_spec c st : is_finite binary32 (m_sparsity c) = true -> is_bits binary32 (m_sparsity c) -> ~ dense c ->
    skip_eval clk c st = (Rlt_bool (fval binary32 (m_sparsity c)) (drawn st), after clk st).
  Proof.
    intros HF HB HD. unfold skip_eval. unfold dense in HD. destruct (fge _ _ _); [congruence|]. destruct (double01_spec clk st) as (ES & EF & ED).
    destruct (double01 clk st) as [d st']. cbn [fst snd] in *. subst st'. f_equal. set (s := m_sparsity c) in *.
    pose proof (fconv_widen binary32 binary64 s ok32 ok64 (roomy_wider _ _ ok32 roomy_32_64) HB HF) as D.
    pose proof (denotes_fval _ _ _ _ ok64 D) as V. rewrite <- (fval_mval binary32 ok32) in V. destruct D as (D1 & D2 & _).
    pose proof (fgt_spec binary64 d (fconv binary32 binary64 s) ok64 (proj1 (finite_not_nan _ _ EF)) (proj1 (finite_not_nan _ _ D2))) as G.
    rewrite V, ED in G. fold (drawn st) in G. destruct (fgt _ _ _).
    - symmetry. apply Rlt_bool_true. apply G. reflexivity.
    - symmetry. apply Rlt_bool_false. apply Rnot_lt_le. intros H. apply G in H. discriminate.
  Qed.

  (** the value would be perturbed, were it not for sparsity *)
  Definition noisable (c : mctx) (g : fmt) (X : R) : Prop := m_mode c <> mca_ieee /\ X <> 0%R /\ ~ (m_mode c = mca_rr /\ fits (vprecision g c) X).

  Lemma inexact_sparse k g c lo hi x st (t := vprecision g c) (st0 := init_state c st) :
    big g -> settings k c -> 1 <= t <= mw g -> 1 - bias g < lo -> 53 - bias g <= lo - t + 1 -> hi <= bias g - 2 -> good g lo hi x ->
    is_finite binary32 (m_sparsity c) = true -> is_bits binary32 (m_sparsity c) -> noisable c g (fval g x) ->
    ((1 <= fval binary32 (m_sparsity c))%R -> (k = Quad -> kdraw clk st0 <> 2 ^ 51) ->
       exists y, inexact n k clk g c x st = Ok (y, after clk st0) /\ good g (lo - 1) (hi + 2) y /\ noised k g t (fval g x) (fval g y)) /\
    ((fval binary32 (m_sparsity c) < 1)%R -> (fval binary32 (m_sparsity c) < drawn st0)%R -> inexact n k clk g c x st = Ok (x, after clk st0)) /\
    ((fval binary32 (m_sparsity c) < 1)%R -> (drawn st0 <= fval binary32 (m_sparsity c))%R -> (k = Quad -> kdraw clk (after clk st0) <> 2 ^ 51) ->
       exists y, inexact n k clk g c x st = Ok (y, after clk (after clk st0)) /\ good g (lo - 1) (hi + 2) y /\ noised k g t (fval g x) (fval g y)).
  Proof.
    intros Hbig Hset Ht Hlo Hlt Hhi Hx FS BS (Hm & Z0 & Hnf).
    pose proof (must_not_iff g c lo hi x Hbig Ht ltac:(lia) Hx Z0 Hm) as HMN. fold t in HMN.
    rewrite inexact_eq. fold t. destruct (must_not_be_noised g x t c) eqn:EM; [exfalso; apply Hnf, HMN; reflexivity|]. fold st0.
    pose proof (dense_spec c (proj1 (finite_not_nan _ _ FS))) as DS.
    split; [|split].
    - intros H1 Hk. apply DS in H1. unfold skip_eval. rewrite H1.
      destruct (add_noise_ok k g c lo hi x st0 Hbig Hset Hk Ht Hlo Hlt Hhi Hx Z0) as (y & EY & GY & PY). eauto.
    - intros H1 H2. rewrite skip_spec; [|assumption|assumption|intros H; apply DS in H; lra]. rewrite Rlt_bool_true by exact H2. reflexivity.
    - intros H1 H2 Hk. rewrite skip_spec; [|assumption|assumption|intros H; apply DS in H; lra]. rewrite Rlt_bool_false by exact H2.
      destruct (add_noise_ok k g c lo hi x (after clk st0) Hbig Hset Hk Ht Hlo Hlt Hhi Hx Z0) as (y & EY & GY & PY). eauto.
  Qed.

  (** operations in rr mode: one decision *)
  Lemma rr_sparse k f c o a b st (g := wide f) (t := vprecision (wide f) c) (st0 := init_state c st) (S := fval binary32 (m_sparsity c)) :
    narrow f -> m_mode c = mca_rr -> settings k c -> 1 <= t <= mw g -> is_bits f a -> is_bits f b ->
    is_finite f (flushed f c a) = true -> is_finite f (flushed f c b) = true -> (o = OpDiv -> fval f (flushed f c b) <> 0%R) ->
    is_finite binary32 (m_sparsity c) = true -> is_bits binary32 (m_sparsity c) -> (S < 1)%R ->
    let Z := rnd (femin g) (mw g) (rop o (fval f (flushed f c a)) (fval f (flushed f c b))) in
    Z <> 0%R -> ~ fits t Z ->
    ((S < drawn st0)%R -> exists y, encodes f (dop o (dec f (flushed f c a)) (dec f (flushed f c b))) y /\
       mca_binary_op n k clk f c o a b st = Ok (flush_out f c y, after clk st0)) /\
    ((drawn st0 <= S)%R -> (k = Quad -> kdraw clk (after clk st0) <> 2 ^ 51) -> exists y Z' s, encodes f (DFin s Z') y /\
       noised k g t Z Z' /\ mca_binary_op n k clk f c o a b st = Ok (flush_out f c y, after clk (after clk st0))).
  Proof.
    intros Hf Hm Hset Ht Ha Hb Fa Fb Hdiv FS BS HS Z Hz Hnf.
    pose proof (narrow_ok f Hf) as Of. pose proof (wide_big f Hf) as Hbig. pose proof (big_ok _ Hbig) as Og.
    destruct (op_bounds f Hf t Ht) as (B1 & B2 & B3 & B4 & B5 & B6 & B7 & B8 & _). fold g in B1, B2, B3, B6, B7, B8.
    destruct (promote_good f c a Hf Ha Fa) as [GA VA]. destruct (promote_good f c b Hf Hb Fb) as [GB VB].
    destruct (promote_ok f c a Hf Ha) as [OA DA]. destruct (promote_ok f c b Hf Hb) as [OB DB]. fold g in GA, VA, GB, VB, OA, DA, OB, DB.
    unfold mca_binary_op. rewrite Hm. cbn [noises_in noises_out inexact_if bind]. fold g.
    set (pa := promote f g c a) in *. set (pb := promote f g c b) in *. set (z := perform n o g pa pb).
    assert (WA : good g (op_lo f) (op_hi f) pa) by (apply (okv_weaken g (emin_ulp f) (bias f + 1) (op_lo f) (op_hi f) pa ltac:(unfold op_lo; lia) ltac:(unfold op_hi; lia) OA); apply GA).
    assert (WB : good g (op_lo f) (op_hi f) pb) by (apply (okv_weaken g (emin_ulp f) (bias f + 1) (op_lo f) (op_hi f) pb ltac:(unfold op_lo; lia) ltac:(unfold op_hi; lia) OB); apply GB).
    rewrite <- VB in Hdiv. unfold Z in Hz, Hnf |- *. rewrite <- VA, <- VB in Hz, Hnf |- *. clear Z.
    destruct (perform_good o g (op_lo f) (op_hi f) pa pb Og B4 B5 ltac:(lia) ltac:(lia) WA WB Hdiv) as [GP VP]. fold z in GP, VP.
    rewrite <- VP in Hz, Hnf |- *.
    destruct (inexact_sparse k g c _ _ z st Hbig Hset Ht B6 B7 B8 GP FS BS) as (_ & H2 & H3).
    { split; [congruence|]. split; [exact Hz|]. intros [_ K]. exact (Hnf K). }
    fold st0 in H2, H3. fold S in H2, H3. split.
    - intros HD. rewrite (H2 HS HD). cbn [bind]. exists (fconv g f z). split.
      + apply conv_op; try assumption; [apply wide_roomy; assumption|apply flushed_bits; assumption|apply flushed_bits; assumption|].
        fold g. rewrite <- DA, <- DB. apply perform_encodes; [exact Hn|exact Og|apply GA|apply GB].
      + rewrite demote_eq; [|assumption|assumption|apply wide_roomy; assumption]. reflexivity.
    - intros HD Hk. destruct (H3 HS HD Hk) as (x & EX & GX & PX). rewrite EX. cbn [bind].
      destruct (demote_spec f c x Hf (proj1 GX)) as (y & EY & ED). fold g in EY, ED. exists y, (fval g x), (sgn g x).
      split; [rewrite <- (dec_finite g x) by apply GX; exact EY|]. split; [exact PX|]. rewrite ED. reflexivity.
  Qed.

  (** * Precisions above the maximum *)
  Lemma rnd_absorb g X N : fmt_ok g -> generic_format radix2 (FLT_exp (emin_ulp g) (mw g + 1)) X -> (b2 (2 - bias g) <= Rabs X)%R ->
    (Rabs N < b2 (mag radix2 X - mw g - 3))%R -> rnd (femin g) (mw g) (X + N) = X.
  Proof.
    intros Hg GX HX HN. assert (PV : Prec_gt_0 (mw g + 1)) by (unfold Prec_gt_0; destruct Hg; lia).
    assert (Hne : X <> 0%R) by (intros E; rewrite E, Rabs_R0 in HX; pose proof (bpow_gt_0 radix2 (2 - bias g)); lra).
    assert (M : 3 - bias g <= mag radix2 X) by (apply mag_ge_bpow; replace (3 - bias g - 1) with (2 - bias g) by lia; exact HX).
    set (e := mag radix2 X - mw g - 2). set (fexp := FLT_exp (emin_ulp g) (mw g + 1)).
    assert (VE : Valid_exp fexp) by (apply FLT_exp_valid; exact PV).
    assert (HE : fexp (mag radix2 X - 1) = e) by (unfold fexp, FLT_exp, emin_ulp, e; lia).
    assert (HE' : fexp (mag radix2 X) = e + 1) by (unfold fexp, FLT_exp, emin_ulp, e; lia).
    (* the neighbours of X are at distance at least 2^e *)
    assert (GAP : forall Y, generic_format radix2 fexp Y -> Y <> X -> (b2 e <= Rabs (Y - X))%R).
    { intros Y GY HY.
      assert (MX : exists m, X = (IZR m * b2 (e + 1))%R).
      { exists (Ztrunc (scaled_mantissa radix2 fexp X)). rewrite GX at 1. unfold F2R. cbn [Fnum Fexp]. unfold cexp. fold fexp. rewrite HE'. reflexivity. }
      destruct (Rle_or_lt (b2 (mag radix2 X - 2)) (Rabs Y)) as [LY|LY].
      - destruct MX as [m EX].
        assert (MY : exists m', Y = (IZR m' * b2 e)%R).
        { assert (L2 : mag radix2 X - 1 <= mag radix2 Y) by (apply mag_ge_bpow; replace (mag radix2 X - 1 - 1) with (mag radix2 X - 2) by lia; exact LY).
          assert (CE : e <= cexp radix2 fexp Y) by (unfold cexp; rewrite <- HE; unfold fexp, FLT_exp; lia).
          exists (Ztrunc (scaled_mantissa radix2 fexp Y) * 2 ^ (cexp radix2 fexp Y - e)). rewrite GY at 1. unfold F2R. cbn [Fnum Fexp].
          rewrite mult_IZR, IZR_pow2 by lia. rewrite Rmult_assoc, <- bpow_plus. do 2 f_equal. lia. }
        destruct MY as [m' EY]. replace (Y - X)%R with (IZR (m' - 2 * m) * b2 e)%R.
        + apply multiple_lower. intros E0. apply HY. rewrite EX, EY. apply Rminus_diag_uniq. rewrite <- E0, minus_IZR, mult_IZR, bpow_plus. change (b2 1) with 2%R. ring.
        + rewrite EX, EY, minus_IZR, mult_IZR, bpow_plus. change (b2 1) with 2%R. ring.
      - pose proof (bpow_mag_le radix2 X Hne) as LX. pose proof (Rabs_triang_inv X Y) as T. rewrite (Rabs_minus_sym X Y) in T.
        replace (mag radix2 X - 1) with (mag radix2 X - 2 + 1) in LX by lia. rewrite bpow_plus in LX. change (b2 1) with 2%R in LX.
        assert (b2 e <= b2 (mag radix2 X - 2))%R by (apply bpow_le; unfold e; destruct Hg; lia). lra. }
    unfold rnd. replace (femin g - mw g) with (emin_ulp g) by reflexivity. fold fexp.
    pose proof (round_N_pt radix2 fexp (fun x => negb (Z.even x)) (X + N)) as [RF RN].
    destruct (Req_dec (round radix2 fexp ZnearestE (X + N)) X) as [?|Hd]; [assumption|exfalso].
    set (Y := round radix2 fexp ZnearestE (X + N)) in *. specialize (RN X GX). pose proof (GAP Y RF Hd) as GY.
    replace (X - (X + N))%R with (- N)%R in RN by ring. rewrite Rabs_Ropp in RN.
    pose proof (Rabs_triang (Y - (X + N)) N) as T. replace (Y - (X + N) + N)%R with (Y - X)%R in T by ring.
    replace e with (mag radix2 X - mw g - 3 + 1) in GY by (unfold e; lia). rewrite bpow_plus in GY. change (b2 1) with 2%R in GY. lra.
  Qed.

  Lemma inexact_absorbed g c lo hi x st (t := vprecision g c) j :
    big g -> m_mode c <> mca_ieee -> settings Quad c -> luck Quad (2 + j) c st ->
    mw g + 3 <= t -> 2 - bias g <= lo -> 53 - bias g <= lo - t + 1 -> hi <= bias g - 2 -> good g lo hi x ->
    exists y st', inexact n Quad clk g c x st = Ok (y, st') /\ good g lo hi y /\ dec g y = dec g x /\ luck Quad j c st'.
  Proof.
    intros Hbig Hm Hset Hluck Ht Hlo Hlt Hhi Hx. pose proof Hbig as (Hg & Hmw & Hb & Hem). pose proof Hx as (Bx & Fx & HX).
    assert (LK : forall i, (i <= 2)%nat -> luck Quad j c (after_n i (init_state c st))).
    { intros i Hi E. rewrite init_after_n. apply lucky_after. apply lucky_le with (2 + j)%nat; [lia|]. apply Hluck. exact E. }
    destruct (Req_dec (fval g x) 0) as [Z0|Z0].
    { rewrite inexact_special by (auto || (right; assumption)). exists x, (init_state c st). split; [reflexivity|]. split; [exact Hx|]. split; [reflexivity|]. apply (LK 0%nat). lia. }
    destruct (Hset eq_refl) as (Hrel & Habs). specialize (Hluck eq_refl).
    rewrite inexact_eq. fold t. set (st1 := init_state c st) in *.
    destruct (must_not_be_noised g x t c). { exists x, st1. split; [reflexivity|]. split; [exact Hx|]. split; [reflexivity|]. apply (LK 0%nat). lia. }
    assert (NOISE : forall i, (i <= 1)%nat -> exists y, add_noise Quad g c x (after_n i st1) = Ok (y, after clk (after_n i st1)) /\ good g lo hi y /\ dec g y = dec g x).
    { intros i Hi. assert (K : kdraw clk (after_n i st1) <> 2 ^ 51) by (apply (lucky_after i 1 st1); apply lucky_le with (2 + j)%nat; [lia|exact Hluck]).
      unfold add_noise. fold t. rewrite Hrel, Habs.
      destruct (add_noise_quad n Hn clk g lo hi x t (after_n i st1)) as (y & EY & GY & VY); try assumption; try lia.
      exists y. rewrite EY. cbn [bind]. split; [reflexivity|].
      assert (GX : generic_format radix2 (FLT_exp (emin_ulp g) (mw g + 1)) (fval g x)) by (apply generic_fval; assumption).
      rewrite rnd_absorb in VY; [|exact Hg|exact GX| |].
      - assert (DY : dec g y = dec g x).
        { destruct GY as (By & Fy & _). rewrite (dec_finite _ _ Fx), (dec_finite _ _ Fy), VY. f_equal.
          rewrite (fval_mval g Hg) in VY, Z0. rewrite (fval_mval g Hg x) in VY. clear - VY Z0 Hg.
          pose proof (mval_nonneg g Hg y) as P1. pose proof (mval_nonneg g Hg x) as P2. unfold signR in *.
          destruct (sgn_01 g x) as [E|E], (sgn_01 g y) as [E'|E']; rewrite E in Z0; rewrite E, E' in VY |- *; change (0 =? 1) with false in *; change (1 =? 1) with true in *; try reflexivity; exfalso; apply Z0; lra. }
        split; [|exact DY]. destruct GY as (By & Fy & _). split; [exact By|]. split; [exact Fy|]. rewrite VY. exact HX.
      - destruct HX as [?|[L _]]; [congruence|]. eapply Rle_trans; [|exact L]. apply bpow_le. lia.
      - rewrite Rabs_mult, (Rabs_pos_eq (b2 _)) by apply bpow_ge_0. pose proof (drawn_range (after_n i st1)) as DR.
        apply Rle_lt_trans with (1/2 * b2 (mag radix2 (fval g x) - t))%R; [apply Rmult_le_compat_r; [apply bpow_ge_0|apply Rabs_le; lra]|].
        apply Rlt_le_trans with (b2 (mag radix2 (fval g x) - t)); [pose proof (bpow_gt_0 radix2 (mag radix2 (fval g x) - t)); lra|]. apply bpow_le. lia. }
    unfold skip_eval. destruct (fge binary32 (m_sparsity c) one32) eqn:ED.
    - destruct (NOISE 0%nat ltac:(lia)) as (y & EY & GY & PY). exists y, (after clk st1). split; [exact EY|]. split; [exact GY|]. split; [exact PY|]. apply (LK 1%nat). lia.
    - pose proof (proj1 (double01_spec clk st1)) as ES. destruct (double01 clk st1) as [d st2]. cbn [snd] in ES. subst st2.
      destruct (fgt _ _ _).
      + exists x, (after clk st1). split; [reflexivity|]. split; [exact Hx|]. split; [reflexivity|]. apply (LK 1%nat). lia.
      + destruct (NOISE 1%nat ltac:(lia)) as (y & EY & GY & PY). exists y, (after clk (after clk st1)). split; [exact EY|]. split; [exact GY|]. split; [exact PY|]. apply (LK 2%nat). lia.
  Qed.
  Lemma inexact_if_absorbed b g c lo hi x st (t := vprecision g c) j :
    big g -> (b = true -> m_mode c <> mca_ieee) -> settings Quad c -> luck Quad (2 + j) c st ->
    mw g + 3 <= t -> 2 - bias g <= lo -> 53 - bias g <= lo - t + 1 -> hi <= bias g - 2 -> okv g lo hi x ->
    exists y st', inexact_if n Quad clk b g c x st = Ok (y, st') /\ okv g lo hi y /\ dec g y = dec g x /\ luck Quad j c st'.
  Proof.
    intros Hbig Hb Hset Hluck Ht Hlo Hlt Hhi Hx. unfold inexact_if. pose proof (big_ok g Hbig) as Hg.
    assert (LW : luck Quad j c st) by (intros E; apply lucky_le with (2 + j)%nat; [lia|auto]).
    destruct b; [|exists x, st; auto]. destruct (is_finite g x) eqn:Fx.
    - destruct (inexact_absorbed g c lo hi x st j) as (y & st' & EI & GY & PY & HS); try assumption; [auto|apply Hx; exact Fx|].
      exists y, st'. split; [exact EI|]. split; [apply good_ok; exact GY|]. auto.
    - rewrite inexact_special by (auto || (left; assumption)). exists x, (init_state c st). split; [reflexivity|]. split; [exact Hx|]. split; [reflexivity|].
      intros E. rewrite init_init. apply LW. exact E.
  Qed.

  (** above this precision the exponent of the noise may leave the range of the computation format *)
  Definition t_limit (f : fmt) : Z := if mw f =? 23 then 480 else 13000.
  Lemma limit_bounds f t : narrow f -> mw (wide f) + 3 <= t <= t_limit f -> let g := wide f in
    2 - bias g <= emin_ulp f /\ 53 - bias g <= emin_ulp f - t + 1 /\ bias f + 1 <= bias g - 2 /\
    2 - bias g <= 2 * op_lo f - op_hi f - mw g /\ 53 - bias g <= (2 * op_lo f - op_hi f - mw g) - t + 1 /\ 2 * op_hi f - op_lo f + 1 <= bias g - 2.
  Proof.
    intros [-> | ->] Ht; cbn zeta; unfold op_lo, op_hi.
    - change (t_limit binary32) with 480 in Ht. change (wide binary32) with binary64 in *. change (mw binary64) with 52 in *. change (bias binary64) with 1023.
      change (emin_ulp binary32) with (-149). change (bias binary32) with 127. lia.
    - change (t_limit binary64) with 13000 in Ht. change (wide binary64) with binary128 in *. change (mw binary128) with 112 in *. change (bias binary128) with 16383.
      change (emin_ulp binary64) with (-1074). change (bias binary64) with 1023. lia.
  Qed.

  Lemma high_precision_ieee f c o a b st (t := vprecision (wide f) c) :
    narrow f -> settings Quad c -> luck Quad 6 c st -> mw (wide f) + 3 <= t <= t_limit f -> is_bits f a -> is_bits f b ->
    exists y st', encodes f (dop o (dec f (flushed f c a)) (dec f (flushed f c b))) y /\ mca_binary_op n Quad clk f c o a b st = Ok (flush_out f c y, st').
  Proof.
    intros Hf Hset Hk Ht Ha Hb. pose proof (narrow_ok f Hf) as Of. pose proof (wide_big f Hf) as Hbig. pose proof (big_ok _ Hbig) as Og.
    destruct (limit_bounds f t Hf Ht) as (B1 & B2 & B3 & B6 & B7 & B8). assert (B45 : op_lo f < 0 /\ 0 < op_hi f).
    { destruct Hf as [-> | ->]; split; reflexivity. }
    destruct (promote_ok f c a Hf Ha) as [GA VA]. destruct (promote_ok f c b Hf Hb) as [GB VB]. unfold mca_binary_op. set (g := wide f) in *.
    destruct (inexact_if_absorbed (noises_in (m_mode c)) g c _ _ (promote f g c a) st 4 Hbig (mode_in c) Hset Hk (proj1 Ht) B1 B2 B3 GA) as (xa & st1 & E1 & G1 & P1 & K1).
    rewrite E1. cbn [bind].
    destruct (inexact_if_absorbed (noises_in (m_mode c)) g c _ _ (promote f g c b) st1 2 Hbig (mode_in c) Hset K1 (proj1 Ht) B1 B2 B3 GB) as (xb & st2 & E2 & G2 & P2 & K2).
    rewrite E2. cbn [bind].
    apply (okv_weaken g _ _ (op_lo f) (op_hi f)) in G1; [|unfold op_lo; lia|unfold op_hi; lia].
    apply (okv_weaken g _ _ (op_lo f) (op_hi f)) in G2; [|unfold op_lo; lia|unfold op_hi; lia].
    pose proof (perform_ok o g (op_lo f) (op_hi f) xa xb Og (proj1 B45) (proj2 B45) ltac:(lia) ltac:(lia) G1 G2) as GP.
    destruct (inexact_if_absorbed (noises_out (m_mode c)) g c _ _ (perform n o g xa xb) st2 0 Hbig (mode_out c) Hset K2 (proj1 Ht) B6 B7 B8 GP) as (xz & st3 & E3 & G3 & P3 & K3).
    rewrite E3. cbn [bind]. rewrite demote_eq; [|assumption|assumption|apply wide_roomy; assumption].
    exists (fconv g f xz), st3. split; [|unfold flush_out; reflexivity].
    assert (EP : encodes f (dec g (perform n o g xa xb)) (fconv g f xz)) by (rewrite <- P3; apply fconv_encodes; assumption).
    set (z := perform n o g xa xb) in *.
    assert (EZ : encodes f (dop o (dec f (flushed f c a)) (dec f (flushed f c b))) (fconv g f z)).
    { apply conv_op; try assumption; [apply wide_roomy; assumption|apply flushed_bits; assumption|apply flushed_bits; assumption|].
      fold g. rewrite <- VA, <- VB, <- P1, <- P2. exact (perform_encodes n o g xa xb Hn Og (proj1 G1) (proj1 G2)). }
    assert (EZ2 : encodes f (dec g z) (fconv g f z)) by (apply fconv_encodes; assumption).
    destruct (is_nan g z) eqn:NZ.
    - assert (DN : dec g z = DNaN) by (unfold dec; rewrite NZ; reflexivity). rewrite DN in EP, EZ2.
      assert (NY : fconv g f z = qnan f) by (apply fconv_nan; [assumption|assumption|apply EZ2]).
      assert (NY2 : fconv g f xz = qnan f) by (apply fconv_nan; [assumption|assumption|apply EP]). rewrite NY2, <- NY. exact EZ.
    - rewrite (encodes_unique f (dec g z) (fconv g f xz) (fconv g f z)); try assumption. unfold dec. rewrite NZ. destruct (is_inf g z); discriminate.
  Qed.

  (** * The user call inexact *)
  Lemma usercall_spec f c p a st (t := if p <=? 0 then vprecision (wide f) c + p else p) :
    narrow f -> m_mode c <> mca_ieee -> kdraw clk (init_state c st) <> 2 ^ 51 -> 1 <= t <= t_limit f -> is_bits f a -> is_finite f a = true -> fval f a <> 0%R ->
    exists y Z s, usercall_inexact n clk f c p a st = Ok (y, after clk (init_state c st)) /\ noised_quad (wide f) t (fval f a) Z /\ encodes f (DFin s Z) y.
  Proof.
    intros Hf Hm Hk Ht Ha Fa Z0. pose proof (narrow_ok f Hf) as Of. pose proof (wide_big f Hf) as Hbig. pose proof (big_ok _ Hbig) as Og.
    pose (c0 := mk_mctx (m_mode c) (m_p32 c) (m_p64 c) (m_rel c) (m_abs c) (m_absexp c) false false (m_choose c) (m_seed c) (m_sparsity c)).
    destruct (promote_good f c0 a Hf Ha Fa) as [GX VX]. change (promote f (wide f) c0 a) with (fconv f (wide f) a) in GX, VX. change (flushed f c0 a) with a in VX.
    unfold usercall_inexact. set (g := wide f) in *. set (x := fconv f g a) in *.
    assert (TL : t_limit f <= 13000) by (unfold t_limit; destruct (mw f =? 23); lia).
    assert (ET : (if p <=? 0 then int_op (vprecision g c + p) else Ok p) = Ok t).
    { assert (Et : t = if p <=? 0 then vprecision g c + p else p) by reflexivity. clearbody t. destruct (p <=? 0); [|rewrite Et; reflexivity]. rewrite <- Et. unfold int_op. replace (in_int _) with true; [reflexivity|]. symmetry.
      unfold in_int. apply andb_true_iff. rewrite Z.leb_le, Z.ltb_lt. change (2 ^ 31) with 2147483648. lia. }
    rewrite ET. cbn [bind].
    assert (BND : 1 - bias g < emin_ulp f /\ 53 - bias g <= emin_ulp f - t + 1 /\ bias f + 1 <= bias g - 2).
    { clear - Hf Ht. unfold g. destruct Hf as [-> | ->].
      - change (t_limit binary32) with 480 in Ht. change (wide binary32) with binary64 in *. change (bias binary64) with 1023. change (emin_ulp binary32) with (-149). change (bias binary32) with 127. lia.
      - change (t_limit binary64) with 13000 in Ht. change (wide binary64) with binary128 in *. change (bias binary128) with 16383. change (emin_ulp binary64) with (-1074). change (bias binary64) with 1023. lia. }
    destruct BND as (B1 & B2 & B3).
    assert (CX : fpclassify g x = FP_NORMAL) by (apply (inexact_class g (emin_ulp f) (bias f + 1)); [exact Og|lia|exact GX|congruence]).
    unfold fast_inexact. rewrite CX. replace (match m_mode c with mca_ieee => true | _ => false end) with false by (destruct (m_mode c); congruence).
    cbn [orb].
    destruct (add_noise_quad n Hn clk g (emin_ulp f) (bias f + 1) x t (init_state c st)) as (y & EY & GY & VY); try assumption; try lia; [congruence|].
    rewrite EY. cbn [bind]. exists (fconv g f y), (fval g y), (sgn g y). split; [reflexivity|]. split.
    - exists (IZR (kdraw clk (init_state c st)) * b2 (-52) - 1/2)%R. split; [pose proof (drawn_range (init_state c st)); lra|]. rewrite <- VX. exact VY.
    - rewrite <- (dec_finite g y) by apply GY. apply fconv_encodes; assumption.
  Qed.
  Lemma usercall_untouched f c p a st : narrow f -> is_bits f a -> m_mode c = mca_ieee \/ is_finite f a = false \/ fval f a = 0%R ->
    -2 ^ 31 <= vprecision (wide f) c + p < 2 ^ 31 -> usercall_inexact n clk f c p a st = Ok (a, st).
  Proof.
    intros Hf Ha H Hp. pose proof (narrow_ok f Hf) as Of. pose proof (wide_big f Hf) as Hbig. pose proof (big_ok _ Hbig) as Og.
    unfold usercall_inexact.
    assert (ET : exists t, (if p <=? 0 then int_op (vprecision (wide f) c + p) else Ok p) = Ok t).
    { destruct (p <=? 0); [|eauto]. exists (vprecision (wide f) c + p). unfold int_op. replace (in_int _) with true; [reflexivity|]. symmetry.
      unfold in_int. apply andb_true_iff. rewrite Z.leb_le, Z.ltb_lt. exact Hp. }
    destruct ET as [t ->]. cbn [bind]. set (g := wide f) in *. set (x := fconv f g a).
    assert (E : match m_mode c with mca_ieee => true | _ => false end || match fpclassify g x with FP_NORMAL | FP_SUBNORMAL => false | _ => true end = true); [|rewrite E; reflexivity].
    apply orb_true_iff. destruct H as [->|H]; [left; reflexivity|right].
    assert (HC : class_free g x).
    { pose proof (dec_widen f g Of Og (wide_roomy f Hf) a Ha) as D. fold x in D. unfold class_free. destruct (is_finite g x) eqn:Fx; [right|auto].
      rewrite (dec_finite _ _ Fx) in D. destruct (is_finite f a) eqn:Fa; [|destruct (dec_special f a Fa) as [E|[s E]]; rewrite E in D; discriminate].
      rewrite (dec_finite _ _ Fa) in D. injection D as _ D. destruct H as [H|H]; [discriminate|congruence]. }
    destruct (fpclassify_correct g x Og) as (C1 & C2 & C3 & C4 & C5). destruct HC as [Hx|Hz].
    - destruct (nan_or_inf g x Hx) as [H'|H']; [apply C1 in H'|apply C2 in H']; rewrite H'; reflexivity.
    - destruct (is_finite g x) eqn:Hx.
      + assert (H' : fpclassify g x = FP_ZERO) by (apply C3; auto). rewrite H'. reflexivity.
      + destruct (nan_or_inf g x Hx) as [H'|H']; [apply C1 in H'|apply C2 in H']; rewrite H'; reflexivity.
  Qed.
End ops.

(** * Values seen through DAZ and FTZ *)
Definition flush_v (f : fmt) (on : bool) (v : dval) : dval :=
  match v with
  | DFin s X => if on && negb (Req_bool X 0) && Rlt_bool (Rabs X) (b2 (1 - bias f)) then DFin 0 0 else v
  | _ => v
  end.
Lemma dec_daz f x (Hf : fmt_ok f) : is_bits f x -> dec f (daz_ftz f x) = flush_v f true (dec f x).
Proof.
  intros Bx. destruct (fpclassify_correct f x Hf) as (C1 & C2 & C3 & C4 & C5). unfold daz_ftz, flush_v. cbn [andb].
  destruct (fpclassify f x) eqn:E.
  - apply proj1 in C1. specialize (C1 eq_refl). unfold dec. rewrite C1. reflexivity.
  - apply proj1 in C2. specialize (C2 eq_refl). unfold dec. rewrite C2. destruct (is_nan f x); reflexivity.
  - destruct (proj1 C3 eq_refl) as [F Z0]. rewrite (dec_finite _ _ F), Z0, Req_bool_true by reflexivity. reflexivity.
  - destruct (proj1 C4 eq_refl) as [F [L U]]. rewrite (dec_finite _ _ F).
    assert (fval f x <> 0%R) by (intros E0; rewrite E0, Rabs_R0 in L; lra).
    rewrite Req_bool_false, Rlt_bool_true by assumption. cbn [negb andb].
    destruct (denotes_zero f 0 Hf (or_introl eq_refl)) as (B & Fz & Sz & Vz). unfold zero in *. rewrite Z.mul_0_l in *.
    rewrite (dec_finite _ _ Fz), Sz. f_equal. rewrite (fval_mval f Hf), Vz, Sz. reflexivity.
  - destruct (proj1 C5 eq_refl) as [F L]. rewrite (dec_finite _ _ F). rewrite (Rlt_bool_false _ _ L), andb_false_r. reflexivity.
Qed.
Lemma flush_off f v : flush_v f false v = v.
Proof. destruct v; reflexivity. Qed.
Lemma dec_flushed f c x : fmt_ok f -> is_bits f x -> dec f (flushed f c x) = flush_v f (m_daz c) (dec f x).
Proof. intros Hf Hx. unfold flushed. destruct (m_daz c); [apply dec_daz; assumption|rewrite flush_off; reflexivity]. Qed.
Lemma dec_flush_out f c x : fmt_ok f -> is_bits f x -> dec f (flush_out f c x) = flush_v f (m_ftz c) (dec f x).
Proof. intros Hf Hx. unfold flush_out. destruct (m_ftz c); [apply dec_daz; assumption|rewrite flush_off; reflexivity]. Qed.

(** * Operations with a special operand *)
Definition special_case (o : binop) (v w : dval) : Prop :=
  (forall s X, v <> DFin s X) \/ (forall s X, w <> DFin s X) \/ (o = OpDiv /\ exists s, w = DFin s 0%R).
Lemma dec_of_encodes g v z : fmt_ok g -> encodes g v z -> (v = DNaN \/ (exists s, v = DInf s) \/ (exists s, v = DFin s 0%R)) -> dec g z = v.
Proof.
  intros Hg E [-> | [[s ->]|[s ->]]].
  - unfold dec. destruct E as [_ ->]. reflexivity.
  - destruct E as [B E]. assert (Hs : s = 0 \/ s = 1).
    { rewrite E in B. unfold is_bits, inf in B. pose proof (inf_code_eq g Hg). pose proof (inf_code_pos g Hg).
      assert (0 < 2 ^ mw g) by (apply pow2_pos; destruct Hg; lia). clear - B H H0 H1. nia. }
    rewrite E. apply dec_inf; assumption.
  - destruct E as [B [E _]]. cbn zeta in E. assert (R0 : rnd (femin g) (mw g) 0 = 0%R) by (apply round_0; apply valid_rnd_N). rewrite R0 in E.
    destruct E as (F & V & S); [rewrite Rabs_R0; apply bpow_gt_0|]. rewrite (dec_finite _ _ F), V, S. unfold rsign. rewrite Req_bool_true by reflexivity. reflexivity.
Qed.
Lemma pert_zero_iff X Y : ((X = 0 /\ Y = 0) \/ 0 < X * Y)%R -> Req_bool Y 0 = Req_bool X 0.
Proof.
  intros [[-> ->]|H]; [reflexivity|]. rewrite !Req_bool_false; [reflexivity| |]; intros E; rewrite E in H; lra.
Qed.
Lemma dop_special o b b' k c g v w va vb : dpert_if b k c g v va -> dpert_if b' k c g w vb -> special_case o v w ->
  dop o va vb = dop o v w /\ (dop o v w = DNaN \/ (exists s, dop o v w = DInf s) \/ (exists s, dop o v w = DFin s 0%R)).
Proof.
  intros HA HB HS.
  assert (PA : dpert k c g v va \/ va = v) by (unfold dpert_if in HA; destruct b; auto). clear HA.
  assert (PB : dpert k c g w vb \/ vb = w) by (unfold dpert_if in HB; destruct b'; auto). clear HB.
  assert (QA : match v with DFin s X => exists Y, va = DFin s Y /\ Req_bool Y 0 = Req_bool X 0 | _ => va = v end).
  { destruct PA as [PA| ->]; destruct v; try exact PA; try reflexivity; [|eauto]. destruct PA as (Y & -> & _ & HY). exists Y. split; [reflexivity|apply pert_zero_iff; exact HY]. }
  assert (QB : match w with DFin s X => exists Y, vb = DFin s Y /\ Req_bool Y 0 = Req_bool X 0 | _ => vb = w end).
  { destruct PB as [PB| ->]; destruct w; try exact PB; try reflexivity; [|eauto]. destruct PB as (Y & -> & _ & HY). exists Y. split; [reflexivity|apply pert_zero_iff; exact HY]. }
  destruct v as [|s|s X], w as [|s'|s' X'].
  9: { destruct HS as [H|[H|[-> [s2 E]]]]; [congruence|congruence|]. injection E as -> ->. destruct QA as (Y & -> & EY), QB as (Y' & -> & EY').
       cbn [dop ddiv]. rewrite EY, EY', !Req_bool_true by reflexivity. destruct (Req_bool X 0); eauto. }
  all: repeat match goal with H : exists _, _ /\ _ |- _ => destruct H as (? & -> & ?) end; try subst;
    destruct o; cbn [dop dadd dsub dneg dmul ddiv]; repeat match goal with H : Req_bool ?Y 0 = _ |- context [Req_bool ?Y 0] => rewrite H end;
    try (match goal with |- context [Req_bool ?Y 0] => destruct (Req_bool Y 0) end); try (match goal with |- context [Z.eqb ?a ?b] => destruct (Z.eqb a b) end); eauto.
Qed.

(** * Size of the noise of mcaquad *)
Lemma noised_quad_bound g t X Y : fmt_ok g -> X <> 0%R -> (b2 (2 - bias g) <= Rabs X)%R -> 1 <= t -> noised_quad g t X Y ->
  (Rabs (Y - X) <= b2 (mag radix2 X - 1 - t) + b2 (mag radix2 X - 1 - mw g))%R.
Proof.
  intros Hg HX HL Ht (xi & Hxi & ->). assert (PV : Prec_gt_0 (mw g + 1)) by (unfold Prec_gt_0; destruct Hg; lia).
  set (fexp := FLT_exp (emin_ulp g) (mw g + 1)). assert (VE : Valid_exp fexp) by (apply FLT_exp_valid; exact PV).
  set (N := (xi * b2 (mag radix2 X - t))%R).
  assert (HN : (Rabs N <= b2 (mag radix2 X - 1 - t))%R).
  { unfold N. rewrite Rabs_mult, (Rabs_pos_eq (b2 _)) by apply bpow_ge_0. assert (Rabs xi <= 1/2)%R by (apply Rabs_le; lra).
    replace (mag radix2 X - t) with (mag radix2 X - 1 - t + 1) by lia. rewrite bpow_plus. change (b2 1) with 2%R.
    pose proof (bpow_ge_0 radix2 (mag radix2 X - 1 - t)). nra. }
  assert (M : 3 - bias g <= mag radix2 X) by (apply mag_ge_bpow; replace (3 - bias g - 1) with (2 - bias g) by lia; exact HL).
  assert (HR : (Rabs (rnd (femin g) (mw g) (X + N) - (X + N)) <= b2 (mag radix2 X - 1 - mw g))%R).
  { unfold rnd. replace (femin g - mw g) with (emin_ulp g) by reflexivity. fold fexp.
    eapply Rle_trans; [apply error_le_half_ulp; exact VE|].
    assert (MX : (X + N)%R <> 0%R -> mag radix2 (X + N) <= mag radix2 X + 1).
    { intros NZ. apply mag_le_bpow; [exact NZ|]. eapply Rle_lt_trans; [apply Rabs_triang|]. pose proof (bpow_mag_gt radix2 X) as U.
      assert (b2 (mag radix2 X - 1 - t) <= b2 (mag radix2 X))%R by (apply bpow_le; lia). rewrite bpow_plus. change (b2 1) with 2%R. lra. }
    assert (HU : (ulp radix2 fexp (X + N) <= b2 (mag radix2 X - mw g))%R).
    { destruct (Req_dec (X + N) 0) as [->|NZ].
      - unfold ulp. rewrite Req_bool_true by reflexivity. destruct (negligible_exp_FLT (emin_ulp g) (mw g + 1)) as (m & E & Hm). unfold fexp. rewrite E. apply bpow_le. unfold FLT_exp, emin_ulp in *. destruct Hg. lia.
      - specialize (MX NZ). rewrite ulp_neq_0 by exact NZ. apply bpow_le. unfold cexp, fexp, FLT_exp, emin_ulp. lia. }
    replace (mag radix2 X - mw g) with (mag radix2 X - 1 - mw g + 1) in HU by lia. rewrite bpow_plus in HU. change (b2 1) with 2%R in HU. lra. }
  replace (rnd (femin g) (mw g) (X + N) - X)%R with (rnd (femin g) (mw g) (X + N) - (X + N) + N)%R by ring.
  eapply Rle_trans; [apply Rabs_triang|]. lra.
Qed.

(** * For computed examples *)
Definition fst_ok {A B : Type} (o : outcome (A * B)) : option A := match o with Ok (a, _) => Some a | _ => None end.
