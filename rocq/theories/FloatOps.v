(** IEEE-754 arithmetic: a format-independent specification on decoded values, and correctly rounded operations on bit
    patterns meeting it. *)
From Coq Require Import ZArith Reals Bool Lia Lra.
From Flocq Require Import Core.
From Verif Require Import Common Bits BitsFacts FloatReal FloatValue.
Open Scope Z_scope.

(** Exact meaning of a datum: not-a-number, signed infinity, or a real with a sign bit (the sign bit matters for zero). *)
Inductive dval := DNaN | DInf (s : Z) | DFin (s : Z) (X : R).

Definition dec (f : fmt) (b : Z) : dval :=
  if is_nan f b then DNaN else if is_inf f b then DInf (sgn f b) else DFin (sgn f b) (fval f b).

(** sign bit of the real X, with s deciding for zero *)
Definition rsign (s : Z) (X : R) : Z := if Req_bool X 0 then s else if Rlt_bool X 0 then 1 else 0.

(** y is the correctly rounded (nearest, ties to even) pattern of an exact result *)
Definition encodes (f : fmt) (v : dval) (y : Z) : Prop :=
  is_bits f y /\
  match v with
  | DNaN => is_nan f y = true
  | DInf s => y = inf f s
  | DFin s X =>
      let r := rnd (femin f) (mw f) X in
      ((Rabs r < b2 (bias f + 1))%R -> is_finite f y = true /\ fval f y = r /\ sgn f y = rsign s X) /\
      ((b2 (bias f + 1) <= Rabs r)%R -> y = inf f (rsign s X))
  end.

(** * The operations on exact values (IEEE 754-2008, 6.1-6.3 and 7.2) *)
Definition sxor (s t : Z) : Z := (s + t) mod 2.
Definition dneg (v : dval) : dval := match v with DNaN => DNaN | DInf s => DInf (1 - s) | DFin s X => DFin (1 - s) (- X) end.
Definition dadd (v w : dval) : dval :=
  match v, w with
  | DNaN, _ | _, DNaN => DNaN
  | DInf s, DInf t => if s =? t then DInf s else DNaN
  | DInf s, DFin _ _ => DInf s
  | DFin _ _, DInf t => DInf t
  | DFin s X, DFin t Y => DFin (if (s =? 1) && (t =? 1) then 1 else 0) (X + Y)
  end.
Definition dsub (v w : dval) : dval := dadd v (dneg w).
Definition dmul (v w : dval) : dval :=
  match v, w with
  | DNaN, _ | _, DNaN => DNaN
  | DInf s, DInf t => DInf (sxor s t)
  | DInf s, DFin t Y => if Req_bool Y 0 then DNaN else DInf (sxor s t)
  | DFin s X, DInf t => if Req_bool X 0 then DNaN else DInf (sxor s t)
  | DFin s X, DFin t Y => DFin (sxor s t) (X * Y)
  end.
Definition ddiv (v w : dval) : dval :=
  match v, w with
  | DNaN, _ | _, DNaN => DNaN
  | DInf _, DInf _ => DNaN
  | DInf s, DFin t _ => DInf (sxor s t)
  | DFin s _, DInf t => DFin (sxor s t) 0
  | DFin s X, DFin t Y =>
      if Req_bool Y 0 then if Req_bool X 0 then DNaN else DInf (sxor s t) else DFin (sxor s t) (X / Y)
  end.
Definition dfma (v w u : dval) : dval := dadd (dmul v w) u.

(** a machine's arithmetic: + - * / and fma on patterns of each format *)
Record arith := mk_arith {
  n_add : fmt -> Z -> Z -> Z; n_sub : fmt -> Z -> Z -> Z; n_mul : fmt -> Z -> Z -> Z; n_div : fmt -> Z -> Z -> Z;
  n_fma : fmt -> Z -> Z -> Z -> Z }.
Definition ieee_arith (n : arith) : Prop :=
  forall f, fmt_ok f -> forall a b, is_bits f a -> is_bits f b ->
    encodes f (dadd (dec f a) (dec f b)) (n_add n f a b) /\
    encodes f (dsub (dec f a) (dec f b)) (n_sub n f a b) /\
    encodes f (dmul (dec f a) (dec f b)) (n_mul n f a b) /\
    encodes f (ddiv (dec f a) (dec f b)) (n_div n f a b) /\
    forall c, is_bits f c -> encodes f (dfma (dec f a) (dec f b) (dec f c)) (n_fma n f a b c).

(** * Facts about encodings *)
Lemma rsign_01 s X : s = 0 \/ s = 1 -> rsign s X = 0 \/ rsign s X = 1.
Proof. intros H. unfold rsign. destruct (Req_bool X 0); [exact H|]. destruct (Rlt_bool X 0); auto. Qed.

Lemma Rabs_signR s X : Rabs (signR s X) = Rabs X.
Proof. unfold signR. destruct (s =? 1); [apply Rabs_Ropp|reflexivity]. Qed.

Lemma rsign_signR s t X : t = 0 \/ t = 1 -> (0 < X)%R -> rsign s (signR t X) = t.
Proof.
  intros Ht HX. unfold rsign. destruct Ht as [-> | ->].
  - change (signR 0 X) with X. rewrite Req_bool_false by lra. rewrite Rlt_bool_false by lra. reflexivity.
  - change (signR 1 X) with (- X)%R. rewrite Req_bool_false by lra. rewrite Rlt_bool_true by lra. reflexivity.
Qed.

Lemma rsign_fval f b : fmt_ok f -> rsign (sgn f b) (fval f b) = sgn f b.
Proof.
  intros Hf. rewrite (fval_mval f Hf). pose proof (mval_nonneg f Hf b) as H.
  destruct (Req_dec (mval f b) 0) as [E|E].
  - rewrite E. unfold rsign. rewrite Req_bool_true; [reflexivity|]. unfold signR. destruct (sgn f b =? 1); lra.
  - apply rsign_signR; [apply sgn_01|lra].
Qed.

Lemma inf_bits f s : fmt_ok f -> s = 0 \/ s = 1 -> is_bits f (inf f s).
Proof.
  intros Hf Hs. unfold inf. change (is_bits f (pack f s (inf_code f))). pose proof (inf_code_eq f Hf). pose proof (mw_pos f Hf). pose proof (inf_code_pos f Hf).
  apply pack_bits; [assumption|lia].
Qed.
Lemma zero_bits f s : fmt_ok f -> s = 0 \/ s = 1 -> is_bits f (zero f s).
Proof. intros Hf Hs. apply (denotes_zero f s Hf Hs). Qed.
Lemma qnan_bits f : fmt_ok f -> is_bits f (qnan f) /\ is_nan f (qnan f) = true.
Proof.
  intros Hf. pose proof (inf_code_eq f Hf) as HE. pose proof (mw_pos f Hf) as HM. pose proof (inf_code_pos f Hf) as HI.
  assert (HP : 2 ^ mw f = 2 * 2 ^ (mw f - 1)) by (apply pow2_P; destruct Hf; lia).
  assert (HR : 0 <= inf_code f + 2 ^ (mw f - 1) < sbit f) by lia.
  assert (EQ : qnan f = pack f 0 (inf_code f + 2 ^ (mw f - 1))) by (unfold qnan, pack; lia).
  rewrite EQ. split; [apply pack_bits; auto|].
  unfold is_nan. rewrite (pack_expf f Hf), (pack_man f Hf) by assumption.
  unfold inf_code. rewrite Z.div_add_l by lia. rewrite Z.div_small by lia. rewrite Z.add_0_r, Z.eqb_refl. cbn [andb].
  rewrite Z.add_comm, Z.mod_add by lia. rewrite Z.mod_small by lia.
  destruct (Z.eqb_spec (2 ^ (mw f - 1)) 0); [lia|reflexivity].
Qed.
Lemma inf_is_inf f s : fmt_ok f -> s = 0 \/ s = 1 -> is_inf f (inf f s) = true /\ is_nan f (inf f s) = false /\ sgn f (inf f s) = s.
Proof.
  intros Hf Hs. pose proof (inf_code_eq f Hf) as HE. pose proof (mw_pos f Hf) as HM. pose proof (inf_code_pos f Hf) as HI.
  change (inf f s) with (pack f s (inf_code f)). assert (HR : 0 <= inf_code f < sbit f) by lia.
  unfold is_inf, is_nan. rewrite (pack_expf f Hf), (pack_man f Hf) by assumption. rewrite (pack_sgn f) by assumption.
  unfold inf_code. rewrite Z.div_mul, Z.mod_mul by lia. rewrite !Z.eqb_refl. auto.
Qed.
Lemma inf_inv f b : fmt_ok f -> is_bits f b -> is_inf f b = true -> b = inf f (sgn f b).
Proof.
  intros Hf Hb H. unfold is_inf in H. apply andb_true_iff in H. destruct H as [H1 H2]. apply Z.eqb_eq in H1, H2.
  rewrite (bits_split3 f Hf b Hb) at 1. rewrite H1, H2. unfold inf, inf_code. lia.
Qed.

Lemma dec_finite f b : is_finite f b = true -> dec f b = DFin (sgn f b) (fval f b).
Proof. intros H. unfold dec. destruct (finite_not_nan f b H) as [-> ->]. reflexivity. Qed.

Lemma encodes_unique f v y y' : fmt_ok f -> v <> DNaN -> encodes f v y -> encodes f v y' -> y = y'.
Proof.
  intros Hf Hv [B H] [B' H']. destruct v as [|s|s X]; [congruence|congruence|].
  destruct H as [H1 H2], H' as [H1' H2']. destruct (Rlt_or_le (Rabs (rnd (femin f) (mw f) X)) (b2 (bias f + 1))) as [L|L].
  - destruct (H1 L) as (F & V & S), (H1' L) as (F' & V' & S'). apply (bits_ext f Hf); [assumption|assumption|congruence|].
    rewrite <- !(mval_abs f Hf). congruence.
  - rewrite (H2 L), (H2' L). reflexivity.
Qed.

Lemma generic_fval f b : fmt_ok f -> generic_format radix2 (FLT_exp (emin_ulp f) (mw f + 1)) (fval f b).
Proof.
  intros Hf. rewrite (fval_mval f Hf). unfold signR. destruct (sgn f b =? 1); [apply generic_format_opp|]; apply mval_generic; assumption.
Qed.
Lemma rnd_generic f X : generic_format radix2 (FLT_exp (emin_ulp f) (mw f + 1)) X -> rnd (femin f) (mw f) X = X.
Proof. intros H. unfold rnd. apply round_generic; [apply valid_rnd_N|]. exact H. Qed.
Lemma rnd_fval f b : fmt_ok f -> rnd (femin f) (mw f) (fval f b) = fval f b.
Proof. intros Hf. apply rnd_generic, generic_fval, Hf. Qed.

(** what a pattern denotes, it encodes *)
Lemma encodes_dec f b : fmt_ok f -> is_bits f b -> encodes f (dec f b) b.
Proof.
  intros Hf Hb. split; [exact Hb|]. unfold dec. destruct (is_nan f b) eqn:N; [reflexivity|].
  destruct (is_inf f b) eqn:I; [apply inf_inv; assumption|]. cbn zeta. rewrite rnd_fval by assumption.
  assert (F : is_finite f b = true).
  { destruct (is_finite f b) eqn:F; [reflexivity|]. destruct (nan_or_inf f b F); congruence. }
  split; intros H.
  - rewrite rsign_fval by assumption. auto.
  - exfalso. rewrite (mval_abs f Hf) in H. pose proof (mval_finite f Hf b F). lra.
Qed.

(** decoding an encoding of a non-finite value *)
Lemma dec_inf f s : fmt_ok f -> s = 0 \/ s = 1 -> dec f (inf f s) = DInf s.
Proof. intros Hf Hs. unfold dec. destruct (inf_is_inf f s Hf Hs) as (-> & -> & ->). reflexivity. Qed.

(** [round_pack] encodes *)
Lemma round_pack_encodes f s t m e : fmt_ok f -> (s = 0 \/ s = 1) -> 0 < m ->
  encodes f (DFin t (signR s (IZR m * b2 e))) (round_pack f s m e).
Proof.
  intros Hf Hs Hm. assert (Hp : (0 < IZR m * b2 e)%R) by (apply Rmult_lt_0_compat; [apply IZR_lt; lia|apply bpow_gt_0]).
  unfold encodes. cbn zeta. rewrite rnd_signR, Rabs_signR, rsign_signR by assumption.
  assert (Hr0 : (0 <= rnd (femin f) (mw f) (IZR m * b2 e))%R).
  { unfold rnd. assert (Pv : Prec_gt_0 (mw f + 1)) by (unfold Prec_gt_0; destruct Hf; lia).
    rewrite <- (round_0 radix2 (FLT_exp (femin f - mw f) (mw f + 1)) ZnearestE). apply round_le; [apply FLT_exp_valid; exact Pv|apply valid_rnd_N|lra]. }
  rewrite (Rabs_pos_eq _ Hr0).
  destruct (round_pack_correct f s m e Hf Hs Hm) as [(c & H1 & H2 & H3 & H4)|[H1 H2]].
  - pose proof (inf_code_eq f Hf). pose proof (mw_pos f Hf). assert (Hc : 0 <= c < sbit f) by lia.
    pose proof (denotes_pack f s c Hf Hs H2) as (D1 & D2 & D3 & D4). split; [rewrite H1; exact D1|]. split.
    + intros _. split; [rewrite H1; exact D2|]. split; [exact H4|rewrite H1; exact D3].
    + intros HO. exfalso. rewrite <- H3 in HO. rewrite <- D4 in HO. pose proof (mval_finite f Hf _ D2). lra.
  - split; [rewrite H1; apply inf_bits; assumption|]. split; [intros; lra|]. intros _. exact H1.
Qed.

Lemma zero_encodes f s : fmt_ok f -> s = 0 \/ s = 1 -> encodes f (DFin s 0) (zero f s).
Proof.
  intros Hf Hs. destruct (denotes_zero f s Hf Hs) as (D1 & D2 & D3 & D4). split; [exact D1|]. cbn zeta.
  assert (R0 : rnd (femin f) (mw f) 0 = 0%R) by (apply round_0; apply valid_rnd_N). rewrite R0, Rabs_R0. split.
  - intros _. split; [exact D2|]. split; [rewrite (fval_mval f Hf), D4, D3; unfold signR; destruct (s =? 1); lra|].
    rewrite D3. unfold rsign. rewrite Req_bool_true by reflexivity. reflexivity.
  - intros H. exfalso. pose proof (bpow_gt_0 radix2 (bias f + 1)). lra.
Qed.

(** conversions encode *)
Lemma fconv_encodes f g b : fmt_ok f -> fmt_ok g -> encodes g (dec f b) (fconv f g b).
Proof.
  intros Hf Hg. unfold fconv, dec. destruct (is_nan f b); [apply qnan_bits; assumption|].
  destruct (is_inf f b). { split; [apply inf_bits; [assumption|apply sgn_01]|reflexivity]. }
  pose proof (sig_nonneg f Hf b). rewrite (fval_abs f b Hf). destruct (Z.eq_dec (sig f b) 0) as [E|E].
  - rewrite E. unfold round_pack. cbn [Z.eqb]. replace (signR (sgn f b) (0 * b2 (sexp f b))) with 0%R by (unfold signR; destruct (sgn f b =? 1); lra).
    apply zero_encodes; [assumption|apply sgn_01].
  - apply round_pack_encodes; [assumption|apply sgn_01|lia].
Qed.

Lemma signR_IZR s e : signR (if s <? 0 then 1 else 0) (IZR (Z.abs s) * b2 e) = (IZR s * b2 e)%R.
Proof.
  destruct (Z.ltb_spec s 0).
  - change (signR 1 (IZR (Z.abs s) * b2 e)) with (- (IZR (Z.abs s) * b2 e))%R. rewrite Z.abs_neq, opp_IZR by lia. ring.
  - change (signR 0 (IZR (Z.abs s) * b2 e)) with (IZR (Z.abs s) * b2 e)%R. rewrite Z.abs_eq by lia. reflexivity.
Qed.

(** a signed integer multiple of a power of two *)
Definition pack_signed (f : fmt) (z m e : Z) : Z :=
  if m =? 0 then zero f z else round_pack f (if m <? 0 then 1 else 0) (Z.abs m) e.
Lemma pack_signed_encodes f z m e : fmt_ok f -> z = 0 \/ z = 1 -> encodes f (DFin z (IZR m * b2 e)) (pack_signed f z m e).
Proof.
  intros Hf Hz. unfold pack_signed. destruct (Z.eqb_spec m 0) as [E|E].
  - subst m. rewrite Rmult_0_l. apply zero_encodes; assumption.
  - rewrite <- signR_IZR. apply round_pack_encodes; [assumption| |lia]. destruct (m <? 0); auto.
Qed.

Lemma inf_not_nan f b : is_inf f b = true -> is_nan f b = false.
Proof. unfold is_inf, is_nan. intros H. apply andb_true_iff in H. destruct H as [-> ->]. reflexivity. Qed.
Lemma not_special_finite f b : is_nan f b = false -> is_inf f b = false -> is_finite f b = true.
Proof. intros N I. destruct (is_finite f b) eqn:F; [reflexivity|]. destruct (nan_or_inf f b F); congruence. Qed.

Lemma sum_exact f a b (e := Z.min (sexp f a) (sexp f b)) :
  (IZR (ssig f a * 2 ^ (sexp f a - e) + ssig f b * 2 ^ (sexp f b - e)) * b2 e = fval f a + fval f b)%R.
Proof.
  rewrite plus_IZR, !mult_IZR, !IZR_pow2 by lia. unfold fval.
  rewrite Rmult_plus_distr_r, !Rmult_assoc, <- !bpow_plus. do 3 f_equal; lia.
Qed.

Lemma fadd_encodes f a b : fmt_ok f -> is_bits f a -> is_bits f b -> encodes f (dadd (dec f a) (dec f b)) (fadd f a b).
Proof.
  intros Hf Ha Hb. unfold fadd, dec. destruct (is_nan f a) eqn:Na; cbn [orb]. { apply qnan_bits; assumption. }
  destruct (is_nan f b) eqn:Nb; cbn [orb]. { destruct (is_inf f a); apply qnan_bits; assumption. }
  destruct (is_inf f a) eqn:Ia.
  - destruct (is_inf f b) eqn:Ib; cbn [andb dadd].
    + destruct (sgn f a =? sgn f b); cbn [negb]; [split; [assumption|apply inf_inv; assumption]|apply qnan_bits; assumption].
    + split; [assumption|apply inf_inv; assumption].
  - destruct (is_inf f b) eqn:Ib; cbn [dadd]. { split; [assumption|apply inf_inv; assumption]. }
    cbn zeta. rewrite <- sum_exact. apply (pack_signed_encodes f); [assumption|]. destruct ((sgn f a =? 1) && (sgn f b =? 1)); auto.
Qed.

(** sign flip *)
Definition fneg (f : fmt) (b : Z) : Z := pack f (1 - sgn f b) (code f b).
Lemma fneg_dec f b : fmt_ok f -> is_bits f (fneg f b) /\ dec f (fneg f b) = dneg (dec f b).
Proof.
  intros Hf. pose proof (code_range f Hf b) as Hc. assert (Hs : 1 - sgn f b = 0 \/ 1 - sgn f b = 1) by (destruct (sgn_01 f b); lia).
  assert (E1 : expf f (fneg f b) = expf f b) by (unfold fneg; rewrite (pack_expf f Hf) by assumption; symmetry; apply expf_code; assumption).
  assert (E2 : man f (fneg f b) = man f b) by (unfold fneg; rewrite (pack_man f Hf) by assumption; symmetry; apply man_code; assumption).
  assert (E3 : sgn f (fneg f b) = 1 - sgn f b) by (unfold fneg; apply pack_sgn; assumption).
  split; [apply pack_bits; assumption|]. unfold dec, is_nan, is_inf. rewrite E1, E2, E3.
  destruct ((expf f b =? expmax f) && negb (man f b =? 0)); [reflexivity|].
  destruct ((expf f b =? expmax f) && (man f b =? 0)); [reflexivity|]. cbn [dneg]. f_equal.
  rewrite !fval_abs by assumption. unfold sig, sexp. rewrite E1, E2, E3.
  generalize (IZR (if expf f b =? 0 then man f b else 2 ^ mw f + man f b) * b2 ((if expf f b =? 0 then 1 else expf f b) - bias f - mw f))%R.
  intros r. destruct (sgn_01 f b) as [-> | ->].
  - change (signR (1 - 0) r) with (- r)%R. reflexivity.
  - change (signR (1 - 1) r) with r. change (signR 1 r) with (- r)%R. ring.
Qed.
Definition fsub (f : fmt) (a b : Z) : Z := fadd f a (fneg f b).
Lemma fsub_encodes f a b : fmt_ok f -> is_bits f a -> is_bits f b -> encodes f (dsub (dec f a) (dec f b)) (fsub f a b).
Proof.
  intros Hf Ha Hb. destruct (fneg_dec f b Hf) as [H1 H2]. unfold dsub, fsub. rewrite <- H2. apply fadd_encodes; assumption.
Qed.

(** multiplication *)
Definition fmul (f : fmt) (a b : Z) : Z :=
  let s := sxor (sgn f a) (sgn f b) in
  if is_nan f a || is_nan f b then qnan f
  else if is_inf f a then if is_zero f b then qnan f else inf f s
  else if is_inf f b then if is_zero f a then qnan f else inf f s
  else round_pack f s (sig f a * sig f b) (sexp f a + sexp f b).

Lemma sxor_01 s t : sxor s t = 0 \/ sxor s t = 1.
Proof. unfold sxor. pose proof (Z.mod_pos_bound (s + t) 2 ltac:(lia)). lia. Qed.
Lemma signR_mul s t X Y : s = 0 \/ s = 1 -> t = 0 \/ t = 1 -> (signR s X * signR t Y = signR (sxor s t) (X * Y))%R.
Proof.
  intros Hs Ht. unfold sxor.
  destruct Hs as [-> | ->], Ht as [-> | ->];
    [change (X * Y = X * Y)%R|change (X * - Y = - (X * Y))%R|change (- X * Y = - (X * Y))%R|change (- X * - Y = X * Y)%R]; ring.
Qed.
Lemma zero_fval f b : fmt_ok f -> is_zero f b = Req_bool (fval f b) 0.
Proof.
  intros Hf. destruct (is_zero f b) eqn:Z0.
  - rewrite Req_bool_true; [reflexivity|]. apply (mval_zero f Hf) in Z0. rewrite (fval_mval f Hf), Z0. unfold signR. destruct (sgn f b =? 1); lra.
  - rewrite Req_bool_false; [reflexivity|]. intros E. assert (M : mval f b = 0%R) by (rewrite <- (mval_abs f Hf), E; apply Rabs_R0).
    apply (mval_zero f Hf) in M. congruence.
Qed.
Lemma sig_zero f b : fmt_ok f -> sig f b = 0 <-> fval f b = 0%R.
Proof.
  intros Hf. rewrite (fval_abs f b Hf). pose proof (bpow_gt_0 radix2 (sexp f b)) as P. split.
  - intros ->. unfold signR. destruct (sgn f b =? 1); lra.
  - unfold signR. intros H. apply eq_IZR. destruct (sgn f b =? 1).
    + assert (IZR (sig f b) * b2 (sexp f b) = 0)%R by lra. apply Rmult_integral in H0. lra.
    + apply Rmult_integral in H. lra.
Qed.

Lemma prod_exact f a b : fmt_ok f ->
  (fval f a * fval f b = signR (sxor (sgn f a) (sgn f b)) (IZR (sig f a * sig f b) * b2 (sexp f a + sexp f b)))%R.
Proof.
  intros Hf. rewrite !fval_abs by assumption. rewrite signR_mul by apply sgn_01. f_equal. rewrite mult_IZR, bpow_plus. ring.
Qed.

Lemma pack_unsigned_encodes f s m e : fmt_ok f -> s = 0 \/ s = 1 -> 0 <= m ->
  encodes f (DFin s (signR s (IZR m * b2 e))) (round_pack f s m e).
Proof.
  intros Hf Hs Hm. destruct (Z.eq_dec m 0) as [E|E].
  - subst m. unfold round_pack. cbn [Z.eqb]. replace (signR s (0 * b2 e)) with 0%R by (unfold signR; destruct (s =? 1); lra).
    apply zero_encodes; assumption.
  - apply round_pack_encodes; [assumption|assumption|lia].
Qed.

Lemma fmul_encodes f a b : fmt_ok f -> is_bits f a -> is_bits f b -> encodes f (dmul (dec f a) (dec f b)) (fmul f a b).
Proof.
  intros Hf Ha Hb. pose proof (sxor_01 (sgn f a) (sgn f b)) as Hx. unfold fmul, dec. cbn zeta.
  destruct (is_nan f a) eqn:Na; cbn [orb]. { apply qnan_bits; assumption. }
  destruct (is_nan f b) eqn:Nb; cbn [orb]. { destruct (is_inf f a); apply qnan_bits; assumption. }
  destruct (is_inf f a) eqn:Ia; destruct (is_inf f b) eqn:Ib; cbn [dmul].
  - assert (Zb : is_zero f b = false).
    { unfold is_zero. apply Z.eqb_neq. rewrite (inf_inv f b Hf Hb Ib). change (inf f (sgn f b)) with (pack f (sgn f b) (inf_code f)).
      pose proof (inf_code_eq f Hf). pose proof (mw_pos f Hf). pose proof (inf_code_pos f Hf). rewrite (pack_code f) by lia. lia. }
    rewrite Zb. split; [apply inf_bits; assumption|reflexivity].
  - rewrite (zero_fval f b Hf). destruct (Req_bool (fval f b) 0); [apply qnan_bits; assumption|]. split; [apply inf_bits; assumption|reflexivity].
  - rewrite (zero_fval f a Hf). destruct (Req_bool (fval f a) 0); [apply qnan_bits; assumption|]. split; [apply inf_bits; assumption|reflexivity].
  - rewrite prod_exact by assumption. apply pack_unsigned_encodes; [assumption|assumption|].
    apply Z.mul_nonneg_nonneg; apply sig_nonneg; assumption.
Qed.

(** fused multiply-add: the exact product plus the third operand, rounded once *)
Definition ffma (f : fmt) (a b c : Z) : Z :=
  let s := sxor (sgn f a) (sgn f b) in
  if is_nan f a || is_nan f b || is_nan f c then qnan f
  else if is_inf f a || is_inf f b then
    if is_zero f a || is_zero f b then qnan f
    else if is_inf f c && negb (s =? sgn f c) then qnan f else inf f s
  else if is_inf f c then c
  else
    let ep := sexp f a + sexp f b in
    let e := Z.min ep (sexp f c) in
    let m := (if s =? 1 then -1 else 1) * (sig f a * sig f b) * 2 ^ (ep - e) + ssig f c * 2 ^ (sexp f c - e) in
    pack_signed f (if (s =? 1) && (sgn f c =? 1) then 1 else 0) m e.

Lemma inf_not_zero f b : fmt_ok f -> is_bits f b -> is_inf f b = true -> is_zero f b = false.
Proof.
  intros Hf Hb Ib. unfold is_zero. apply Z.eqb_neq. rewrite (inf_inv f b Hf Hb Ib). change (inf f (sgn f b)) with (pack f (sgn f b) (inf_code f)).
  pose proof (inf_code_eq f Hf). pose proof (mw_pos f Hf). pose proof (inf_code_pos f Hf). rewrite (pack_code f) by lia. lia.
Qed.

Lemma ffma_encodes f a b c : fmt_ok f -> is_bits f a -> is_bits f b -> is_bits f c ->
  encodes f (dfma (dec f a) (dec f b) (dec f c)) (ffma f a b c).
Proof.
  intros Hf Ha Hb Hc. pose proof (sxor_01 (sgn f a) (sgn f b)) as Hx. unfold ffma, dfma, dec. cbn zeta.
  destruct (is_nan f a) eqn:Na; cbn [orb]. { apply qnan_bits; assumption. }
  destruct (is_nan f b) eqn:Nb; cbn [orb]. { destruct (is_inf f a); apply qnan_bits; assumption. }
  destruct (is_nan f c) eqn:Nc; cbn [orb].
  { destruct (is_inf f a), (is_inf f b); cbn [dmul];
      repeat match goal with |- context [Req_bool ?x 0] => destruct (Req_bool x 0) end; cbn [dadd]; apply qnan_bits; assumption. }
  assert (Hinf : forall s, s = 0 \/ s = 1 ->
    encodes f (dadd (DInf s) (if is_inf f c then DInf (sgn f c) else DFin (sgn f c) (fval f c)))
      (if is_inf f c && negb (s =? sgn f c) then qnan f else inf f s)).
  { intros s Hs. destruct (is_inf f c); cbn [dadd andb].
    - destruct (s =? sgn f c); cbn [negb]; [split; [apply inf_bits; assumption|reflexivity]|apply qnan_bits; assumption].
    - split; [apply inf_bits; assumption|reflexivity]. }
  destruct (is_inf f a) eqn:Ia; destruct (is_inf f b) eqn:Ib; cbn [dmul orb].
  - rewrite (inf_not_zero f a), (inf_not_zero f b) by assumption. cbn [orb]. apply Hinf. assumption.
  - rewrite (inf_not_zero f a) by assumption. cbn [orb]. rewrite (zero_fval f b Hf). destruct (Req_bool (fval f b) 0).
    + cbn [dadd]. apply qnan_bits; assumption.
    + apply Hinf. assumption.
  - rewrite (inf_not_zero f b) by assumption. rewrite orb_false_r. rewrite (zero_fval f a Hf). destruct (Req_bool (fval f a) 0).
    + cbn [dadd]. apply qnan_bits; assumption.
    + apply Hinf. assumption.
  - destruct (is_inf f c) eqn:Ic; cbn [dadd]. { split; [assumption|apply inf_inv; assumption]. }
    rewrite prod_exact by assumption. set (s := sxor (sgn f a) (sgn f b)) in *.
    set (ep := sexp f a + sexp f b). set (e := Z.min ep (sexp f c)).
    assert (E : (signR s (IZR (sig f a * sig f b) * b2 ep) + fval f c =
      IZR ((if s =? 1 then -1 else 1) * (sig f a * sig f b) * 2 ^ (ep - e) + ssig f c * 2 ^ (sexp f c - e)) * b2 e)%R).
    { rewrite plus_IZR, !mult_IZR, !IZR_pow2 by lia. unfold fval. rewrite Rmult_plus_distr_r, !Rmult_assoc, <- !bpow_plus.
      replace (ep - e + e) with ep by lia. replace (sexp f c - e + e) with (sexp f c) by lia. f_equal.
      unfold signR. destruct (s =? 1); ring. }
    rewrite E. apply pack_signed_encodes; [assumption|]. destruct ((s =? 1) && (sgn f c =? 1)); auto.
Qed.

(** division: nearest integer (ties to even) to a rational, at the exponent of the quotient *)
Definition rneq (a b : Z) : Z :=
  let q := a / b in
  let r := a mod b in
  if (b <? 2 * r) || ((2 * r =? b) && Z.odd q) then q + 1 else q.
Definition quot_mag (m n : Z) : Z :=   (* magnitude of m / n *)
  let l := Z.log2 m - Z.log2 n in
  if n * 2 ^ Z.max 0 l <=? m * 2 ^ Z.max 0 (- l) then l + 1 else l.
Definition fdiv (f : fmt) (a b : Z) : Z :=
  let s := sxor (sgn f a) (sgn f b) in
  if is_nan f a || is_nan f b then qnan f
  else if is_inf f a then if is_inf f b then qnan f else inf f s
  else if is_inf f b then zero f s
  else if is_zero f b then if is_zero f a then qnan f else inf f s
  else if is_zero f a then zero f s
  else
    let e := sexp f a - sexp f b in
    let t := Z.max (quot_mag (sig f a) (sig f b) + e - (mw f + 1)) (emin_ulp f) in
    round_pack f s (rneq (sig f a * 2 ^ Z.max 0 (e - t)) (sig f b * 2 ^ Z.max 0 (t - e))) t.

Lemma rneq_nearest a b : 0 < b -> ZnearestE (IZR a / IZR b) = rneq a b.
Proof.
  intros Hb. assert (Pb : (0 < IZR b)%R) by (apply IZR_lt; lia).
  pose proof (Z.div_mod a b ltac:(lia)) as D. pose proof (Z.mod_pos_bound a b Hb) as M.
  assert (HQ : (IZR a / IZR b = IZR (a / b) + IZR (a mod b) / IZR b)%R).
  { apply (f_equal IZR) in D. rewrite plus_IZR, mult_IZR in D. rewrite D at 1. field. lra. }
  assert (HF : Zfloor (IZR a / IZR b) = a / b).
  { apply Zfloor_imp. rewrite HQ, plus_IZR. assert (0 <= IZR (a mod b) / IZR b < 1)%R; [|lra]. split.
    - apply Rmult_le_pos; [apply IZR_le; lia|left; apply Rinv_0_lt_compat; assumption].
    - apply Rmult_lt_reg_r with (IZR b); [assumption|]. unfold Rdiv. rewrite Rmult_assoc, Rinv_l, Rmult_1_r, Rmult_1_l by lra. apply IZR_lt. lia. }
  unfold Znearest. rewrite HF. replace (IZR a / IZR b - IZR (a / b))%R with (IZR (a mod b) / IZR b)%R by lra.
  assert (HC : Rcompare (IZR (a mod b) / IZR b) (/ 2) = Z.compare (2 * (a mod b)) b).
  { rewrite <- Rcompare_IZR. rewrite <- (Rcompare_mult_r (2 * IZR b) (IZR (a mod b) / IZR b) (/ 2)) by lra.
    f_equal; rewrite ?mult_IZR; field; lra. }
  rewrite HC. unfold rneq. rewrite Z.ltb_compare, Z.eqb_compare, (Z.compare_antisym (2 * (a mod b)) b).
  destruct (2 * (a mod b) ?= b) eqn:EC; cbn [CompOpp orb andb].
  - apply Z.compare_eq in EC. assert (HCe : Zceil (IZR a / IZR b) = a / b + 1).
    { apply Zceil_imp. rewrite HQ. replace (a / b + 1 - 1) with (a / b) by lia. rewrite plus_IZR.
      assert (IZR (a mod b) / IZR b = / 2)%R; [|lra]. replace (IZR b) with (2 * IZR (a mod b))%R by (apply (f_equal IZR) in EC; rewrite mult_IZR in EC; exact EC).
      field. intros H0. apply eq_IZR in H0. lia. }
    rewrite HCe. rewrite <- Z.negb_even. destruct (Z.even (a / b)); reflexivity.
  - reflexivity.
  - assert (HCe : Zceil (IZR a / IZR b) = a / b + 1).
    { apply Zceil_imp. rewrite HQ. replace (a / b + 1 - 1) with (a / b) by lia. rewrite plus_IZR.
      assert (0 < IZR (a mod b) / IZR b <= 1)%R; [|lra]. apply Z.compare_gt_iff in EC. split.
      - apply Rmult_lt_0_compat; [apply IZR_lt; lia|apply Rinv_0_lt_compat; assumption].
      - apply Rmult_le_reg_r with (IZR b); [assumption|]. unfold Rdiv. rewrite Rmult_assoc, Rinv_l, Rmult_1_r, Rmult_1_l by lra. apply IZR_le. lia. }
    exact HCe.
Qed.

Lemma pow_max z : (IZR (2 ^ Z.max 0 z) = b2 z * IZR (2 ^ Z.max 0 (- z)))%R.
Proof. rewrite !IZR_pow2 by lia. rewrite <- bpow_plus. f_equal. lia. Qed.

Lemma quot_mag_spec m n e : 0 < m -> 0 < n -> mag radix2 (IZR m / IZR n * b2 e) = quot_mag m n + e :> Z.
Proof.
  intros Hm Hn. assert (Pm : (0 < IZR m)%R) by (apply IZR_lt; lia). assert (Pn : (0 < IZR n)%R) by (apply IZR_lt; lia).
  assert (PQ : (0 < IZR m / IZR n)%R) by (apply Rmult_lt_0_compat; [lra|apply Rinv_0_lt_compat; lra]).
  rewrite mag_mult_bpow by lra. f_equal. apply mag_unique_pos.
  assert (L : forall z, 0 < z -> (b2 (Z.log2 z) <= IZR z < b2 (Z.log2 z + 1))%R).
  { intros z Hz. pose proof (Z.log2_spec z Hz) as [A B]. pose proof (Z.log2_nonneg z). unfold Z.succ in B.
    rewrite <- !IZR_pow2 by lia. split; [apply IZR_le|apply IZR_lt]; lia. }
  pose proof (L m Hm) as [M1 M2]. pose proof (L n Hn) as [N1 N2]. unfold quot_mag. cbn zeta. set (l := Z.log2 m - Z.log2 n).
  assert (Hdiv_le : forall z, (IZR n * b2 z <= IZR m)%R -> (b2 z <= IZR m / IZR n)%R).
  { intros z H. apply Rmult_le_reg_r with (IZR n); [lra|]. unfold Rdiv. rewrite Rmult_assoc, Rinv_l by lra. lra. }
  assert (Hdiv_lt : forall z, (IZR m < IZR n * b2 z)%R -> (IZR m / IZR n < b2 z)%R).
  { intros z H. apply Rmult_lt_reg_r with (IZR n); [lra|]. unfold Rdiv. rewrite Rmult_assoc, Rinv_l by lra. lra. }
  assert (Hcmp : (IZR (n * 2 ^ Z.max 0 l) = IZR n * b2 l * IZR (2 ^ Z.max 0 (- l)))%R) by (rewrite mult_IZR, (pow_max l); ring).
  assert (P2 : (0 < IZR (2 ^ Z.max 0 (- l)))%R) by (apply IZR_lt, pow2_pos; lia).
  destruct (Z.leb_spec (n * 2 ^ Z.max 0 l) (m * 2 ^ Z.max 0 (- l))) as [C|C].
  - replace (l + 1 - 1) with l by lia. split.
    + apply Hdiv_le. apply IZR_le in C. rewrite Hcmp, mult_IZR in C. apply Rmult_le_reg_r in C; assumption.
    + apply Hdiv_lt. eapply Rlt_le_trans; [exact M2|]. replace (b2 (Z.log2 m + 1)) with (b2 (Z.log2 n) * b2 (l + 1))%R by (rewrite <- bpow_plus; f_equal; unfold l; lia).
      apply Rmult_le_compat_r; [apply bpow_ge_0|exact N1].
  - split.
    + apply Hdiv_le. eapply Rle_trans; [|exact M1]. replace (b2 (Z.log2 m)) with (b2 (Z.log2 n + 1) * b2 (l - 1))%R by (rewrite <- bpow_plus; f_equal; unfold l; lia).
      apply Rmult_le_compat_r; [apply bpow_ge_0|lra].
    + apply Hdiv_lt. apply IZR_lt in C. rewrite Hcmp, mult_IZR in C. apply Rmult_lt_reg_r in C; assumption.
Qed.

(** a pattern of the rounded value is a pattern of the value *)
Lemma encodes_rnd f s s' X y : fmt_ok f -> s = rsign s' X ->
  encodes f (DFin s (rnd (femin f) (mw f) X)) y -> encodes f (DFin s' X) y.
Proof.
  intros Hf Hs [B H]. split; [exact B|]. cbn zeta in *.
  assert (Pv : Prec_gt_0 (mw f + 1)) by (unfold Prec_gt_0; destruct Hf; lia).
  assert (Vx : Valid_exp (FLT_exp (femin f - mw f) (mw f + 1))) by (apply FLT_exp_valid; exact Pv).
  assert (G : rnd (femin f) (mw f) (rnd (femin f) (mw f) X) = rnd (femin f) (mw f) X).
  { unfold rnd. apply round_generic; [apply valid_rnd_N|]. apply generic_format_round; [exact Vx|apply valid_rnd_N]. }
  rewrite G in H.
  assert (S : rsign s (rnd (femin f) (mw f) X) = rsign s' X).
  { unfold rsign at 1. destruct (Req_bool_spec (rnd (femin f) (mw f) X) 0) as [E|E]; [exact Hs|].
    unfold rsign. assert (HX : X <> 0%R).
    { intros ->. apply E. apply round_0. apply valid_rnd_N. }
    rewrite (Req_bool_false X 0) by assumption.
    destruct (Rlt_bool_spec X 0) as [L|L].
    - rewrite Rlt_bool_true; [reflexivity|]. assert (rnd (femin f) (mw f) X <= 0)%R; [|lra].
      rewrite <- (round_0 radix2 (FLT_exp (femin f - mw f) (mw f + 1)) ZnearestE). apply round_le; [exact Vx|apply valid_rnd_N|lra].
    - rewrite Rlt_bool_false; [reflexivity|].
      rewrite <- (round_0 radix2 (FLT_exp (femin f - mw f) (mw f + 1)) ZnearestE). apply round_le; [exact Vx|apply valid_rnd_N|lra]. }
  rewrite S in H. exact H.
Qed.

Lemma fdiv_encodes f a b : fmt_ok f -> is_bits f a -> is_bits f b -> encodes f (ddiv (dec f a) (dec f b)) (fdiv f a b).
Proof.
  intros Hf Ha Hb. pose proof (sxor_01 (sgn f a) (sgn f b)) as Hx. unfold fdiv, dec. cbn zeta.
  destruct (is_nan f a) eqn:Na; cbn [orb]. { apply qnan_bits; assumption. }
  destruct (is_nan f b) eqn:Nb; cbn [orb]. { destruct (is_inf f a); apply qnan_bits; assumption. }
  destruct (is_inf f a) eqn:Ia; destruct (is_inf f b) eqn:Ib; cbn [ddiv].
  - apply qnan_bits; assumption.
  - split; [apply inf_bits; assumption|reflexivity].
  - apply zero_encodes; assumption.
  - rewrite !(zero_fval f) by assumption. destruct (Req_bool_spec (fval f b) 0) as [E|E].
    { destruct (Req_bool (fval f a) 0); [apply qnan_bits; assumption|]. split; [apply inf_bits; assumption|reflexivity]. }
    destruct (Req_bool_spec (fval f a) 0) as [E'|E'].
    { replace (fval f a / fval f b)%R with 0%R by (rewrite E'; unfold Rdiv; ring). apply zero_encodes; assumption. }
    assert (Sb : 0 < sig f b) by (pose proof (sig_nonneg f Hf b); pose proof (proj1 (sig_zero f b Hf)); destruct (Z.eq_dec (sig f b) 0); [tauto|lia]).
    assert (Sa : 0 < sig f a) by (pose proof (sig_nonneg f Hf a); pose proof (proj1 (sig_zero f a Hf)); destruct (Z.eq_dec (sig f a) 0); [tauto|lia]).
    set (s := sxor (sgn f a) (sgn f b)) in *. set (e := sexp f a - sexp f b).
    set (Q := (IZR (sig f a) / IZR (sig f b) * b2 e)%R).
    assert (Pa : (0 < IZR (sig f a))%R) by (apply IZR_lt; lia). assert (Pb : (0 < IZR (sig f b))%R) by (apply IZR_lt; lia).
    assert (HQ : (fval f a / fval f b = signR s Q)%R).
    { rewrite !fval_abs by assumption. pose proof (bpow_gt_0 radix2 (sexp f a)) as Pea. pose proof (bpow_gt_0 radix2 (sexp f b)) as Peb.
      unfold Q. replace (b2 e) with (b2 (sexp f a) / b2 (sexp f b))%R.
      2:{ unfold e, Zminus. rewrite bpow_plus, bpow_opp. reflexivity. }
      unfold s, sxor. destruct (sgn_01 f a) as [-> | ->], (sgn_01 f b) as [-> | ->];
        [change ((IZR (sig f a) * b2 (sexp f a)) / (IZR (sig f b) * b2 (sexp f b)) = (IZR (sig f a) / IZR (sig f b) * (b2 (sexp f a) / b2 (sexp f b))))%R
        |change ((IZR (sig f a) * b2 (sexp f a)) / - (IZR (sig f b) * b2 (sexp f b)) = - (IZR (sig f a) / IZR (sig f b) * (b2 (sexp f a) / b2 (sexp f b))))%R
        |change (- (IZR (sig f a) * b2 (sexp f a)) / (IZR (sig f b) * b2 (sexp f b)) = - (IZR (sig f a) / IZR (sig f b) * (b2 (sexp f a) / b2 (sexp f b))))%R
        |change (- (IZR (sig f a) * b2 (sexp f a)) / - (IZR (sig f b) * b2 (sexp f b)) = (IZR (sig f a) / IZR (sig f b) * (b2 (sexp f a) / b2 (sexp f b))))%R];
        field; lra. }
    assert (PQ : (0 < Q)%R).
    { unfold Q. apply Rmult_lt_0_compat; [|apply bpow_gt_0]. apply Rmult_lt_0_compat; [lra|apply Rinv_0_lt_compat; lra]. }
    set (t := Z.max (quot_mag (sig f a) (sig f b) + e - (mw f + 1)) (emin_ulp f)).
    set (n := rneq (sig f a * 2 ^ Z.max 0 (e - t)) (sig f b * 2 ^ Z.max 0 (t - e))).
    assert (HR : rnd (femin f) (mw f) Q = (IZR n * b2 t)%R).
    { unfold rnd, round, F2R. cbn [Fnum Fexp]. unfold scaled_mantissa, cexp.
      replace (FLT_exp (femin f - mw f) (mw f + 1) (mag radix2 Q)) with t.
      2:{ unfold Q. rewrite quot_mag_spec by assumption. unfold FLT_exp, t, femin, emin_ulp. reflexivity. }
      f_equal. f_equal. unfold n. rewrite <- rneq_nearest.
      2:{ apply Z.mul_pos_pos; [assumption|apply pow2_pos; lia]. }
      f_equal. rewrite !mult_IZR. replace (t - e) with (- (e - t)) by lia. rewrite (pow_max (e - t)).
      assert (P2 : (0 < IZR (2 ^ Z.max 0 (- (e - t))))%R) by (apply IZR_lt, pow2_pos; lia).
      unfold Q. replace (b2 (e - t)) with (b2 e * b2 (- t))%R by (rewrite <- bpow_plus; reflexivity). field. lra. }
    assert (Hn : 0 <= n).
    { unfold n, rneq. match goal with |- context [if ?c then _ else _] => destruct c end;
        match goal with |- context [?x / ?y] => assert (0 <= x / y) by (apply Z.div_pos; [apply Z.mul_nonneg_nonneg; [lia|apply Z.pow_nonneg; lia]|apply Z.mul_pos_pos; [lia|apply pow2_pos; lia]]) end; lia. }
    rewrite HQ. apply (encodes_rnd f s); [assumption|symmetry; apply rsign_signR; assumption|]. rewrite rnd_signR, HR.
    apply pack_unsigned_encodes; assumption.
Qed.

(** the software arithmetic above is an IEEE arithmetic *)
Definition soft : arith := mk_arith fadd fsub fmul fdiv ffma.
Theorem soft_ieee : ieee_arith soft.
Proof.
  intros f Hf a b Ha Hb. split; [apply fadd_encodes; assumption|]. split; [apply fsub_encodes; assumption|].
  split; [apply fmul_encodes; assumption|]. split; [apply fdiv_encodes; assumption|].
  intros c Hc. apply ffma_encodes; assumption.
Qed.
