(** C95: mode rr of mcaquad and mcaint at the precision of the format (24 for float, 53 for double) is stochastic rounding. *)
From Coq Require Import ZArith Reals List Bool Lia Lra Permutation.
From Flocq Require Import Core.
From Verif Require Import Common Bits BitsFacts FloatReal FloatValue FloatOps DoubleRound StdlibModel StdlibProofs RngModel RngProofs McaModel McaProofs McaOps StochRound.
Import ListNotations.
Open Scope Z_scope.

(** Reading guide. [below f E] and [above f E]: the neighbours of a real number in format f, E itself when f has it.
    [kdraw clk st] is the draw, an integer in [0, 2^52), of the noise: xi = kdraw / 2^52 - 1/2. *)
Definition below (f : fmt) (E : R) : R := round radix2 (FLT_exp (emin_ulp f) (mw f + 1)) Zfloor E.
Definition above (f : fmt) (E : R) : R := round radix2 (FLT_exp (emin_ulp f) (mw f + 1)) Zceil E.
(** the place of E between its neighbours *)
Definition place (f : fmt) (E : R) : R := ((E - below f E) / (above f E - below f E))%R.
(** half the width of the band of draws that the roundings of the computation format may affect: 2^-29 and 2^-60 *)
Definition band (f : fmt) : R := b2 (mw f - mw (wide f)).
(** a result that has to be rounded: not a number of the format; normal; neither neighbour overflows; the neighbour nearer
    to zero is not a power of two *)
Definition needs_rounding (f : fmt) (E : R) : Prop :=
  (below f E < E < above f E)%R /\ (b2 (1 - bias f) <= Rabs E)%R /\
  (Rabs (below f E) < b2 (bias f + 1))%R /\ (Rabs (above f E) < b2 (bias f + 1))%R /\
  (forall j, (Rmin (Rabs (below f E)) (Rabs (above f E)) <> b2 j)%R).

Lemma needs_exponent f E : fmt_ok f -> needs_rounding f E ->
  let e := mag radix2 E - 1 in
  1 - bias f <= e /\ (b2 e <= Rabs E < b2 (e + 1))%R /\ ~ generic_format radix2 (FLT_exp (emin_ulp f) (mw f + 1)) E /\
  (b2 e < Rabs (round radix2 (FLT_exp (emin_ulp f) (mw f + 1)) Ztrunc E))%R.
Proof.
  intros Hf (HB & HN & _ & _ & HP) e. set (F := FLT_exp (emin_ulp f) (mw f + 1)) in *.
  assert (Hmw : 2 <= mw f) by (destruct Hf; assumption).
  assert (VF : Valid_exp F) by (apply FLT_exp_valid; unfold Prec_gt_0; lia).
  assert (E0 : E <> 0%R) by (intros ->; rewrite Rabs_R0 in HN; pose proof (bpow_gt_0 radix2 (1 - bias f)); lra).
  assert (BE : (b2 e <= Rabs E < b2 (e + 1))%R).
  { unfold e. destruct (mag radix2 E) as [v Hv]. cbn [mag_val]. replace (v - 1 + 1) with v by lia. apply Hv. exact E0. }
  assert (He : 1 - bias f <= e).
  { assert (1 - bias f < e + 1); [|lia]. apply (lt_bpow radix2). lra. }
  split; [exact He|]. split; [exact BE|]. split.
  - intros K. unfold below in HB. fold F in HB. rewrite round_generic in HB; [lra|apply valid_rnd_DN|exact K].
  - assert (GE : generic_format radix2 F (b2 e)) by (apply (bpow_generic f); assumption).
    assert (G0 : generic_format radix2 F 0) by apply generic_format_0.
    destruct (Rle_lt_dec 0 E) as [S|S].
    + rewrite round_ZR_DN by exact S. rewrite Rabs_pos_eq in BE by exact S.
      assert (L : (b2 e <= below f E)%R) by (apply round_ge_generic; [exact VF|apply valid_rnd_DN|exact GE|lra]).
      pose proof (bpow_gt_0 radix2 e) as P. unfold below, above in *. fold F in HB, HP, L |- *.
      rewrite Rabs_pos_eq by lra. specialize (HP e). rewrite !Rabs_pos_eq, Rmin_left in HP by lra. lra.
    + rewrite round_ZR_UP by lra. rewrite Rabs_left in BE by exact S.
      assert (L : (above f E <= - b2 e)%R).
      { apply round_le_generic; [exact VF|apply valid_rnd_UP|apply generic_format_opp; exact GE|lra]. }
      pose proof (bpow_gt_0 radix2 e) as P. unfold below, above in *. fold F in HB, HP, L |- *.
      rewrite Rabs_left by lra. specialize (HP e). rewrite !Rabs_left, Rmin_right in HP by lra. lra.
Qed.

(** the conclusion common to the operations *)
Definition stochastic (f : fmt) (k : Z) (E : R) (r : Z) : Prop :=
  is_finite f r = true /\ (fval f r = below f E \/ fval f r = above f E) /\
  ((1 - place f E + band f < IZR k / 2 ^ 52)%R -> fval f r = above f E) /\
  ((IZR k / 2 ^ 52 < 1 - place f E - band f)%R -> fval f r = below f E).
Lemma stochastic_of f k E r : fmt_ok f ->
  is_finite f r = true -> rr_result (emin_ulp f) (mw f + 1) (mw (wide f) + 1) (mag radix2 E - 1) E ((IZR k * b2 (-52) - 1 / 2) * b2 (mag radix2 E - 1 - mw f)) (fval f r) ->
  stochastic f k E r.
Proof.
  intros Hf FR (H1 & H2 & H3 & H4 & H5). set (e := mag radix2 E - 1) in *. split; [exact FR|]. split; [exact H3|].
  fold (below f E) (above f E) in *.
  replace (e + 1 - (mw f + 1)) with (e - mw f) in H2, H4, H5 by lia. set (u := b2 (e - mw f)) in *.
  assert (Pu : (0 < u)%R) by apply bpow_gt_0.
  assert (EW : b2 (e + 1 - (mw (wide f) + 1)) = (band f * u)%R) by (unfold band, u; rewrite <- bpow_plus; f_equal; lia).
  rewrite EW in H4, H5.
  assert (EP : (E = below f E + place f E * u)%R) by (unfold place; rewrite H2; field; lra).
  assert (EK : (IZR k / 2 ^ 52 = IZR k * b2 (-52))%R) by (change (b2 (-52)) with (/ 4503599627370496)%R; change (2 ^ 52)%R with (2 ^ 52)%R; replace (2 ^ 52)%R with 4503599627370496%R by (cbn; ring); reflexivity).
  rewrite EK. set (kap := (IZR k * b2 (-52))%R) in *. split; intros H.
  - apply H4. rewrite EP at 2. nra.
  - apply H5. rewrite EP at 1. nra.
Qed.

(** C95: + - * / in mode rr, relative error mode, no sparsity, precision of the format, for every operand pair whose exact
    result E needs rounding and every generator state (but the draw 1/2, see C21_half_draw_refuted): the result is one of the
    two neighbours of E, which one depends on the draw alone: the upper one when kdraw/2^52 > 1 - place + band, the lower one
    when kdraw/2^52 < 1 - place - band. *)
Theorem C95_stochastic_rounding_partial :
  forall n clk f c o a b st s1 A s2 B, ieee_arith n -> f = binary32 \/ f = binary64 ->
  m_mode c = mca_rr -> m_rel c = true -> m_abs c = false -> fge binary32 (m_sparsity c) one32 = true ->
  m_p32 c = 24 -> m_p64 c = 53 -> is_bits f a -> is_bits f b ->
  flush_v f (m_daz c) (dec f a) = DFin s1 A -> flush_v f (m_daz c) (dec f b) = DFin s2 B -> (o = OpDiv -> B <> 0%R) ->
  needs_rounding f (rop o A B) -> kdraw clk (init_state c st) <> 2 ^ 51 ->
  exists r st', mca_binary_op n Quad clk f c o a b st = Ok (r, st') /\ stochastic f (kdraw clk (init_state c st)) (rop o A B) r.
Proof.
  intros n clk f c o a b st s1 A s2 B Hn Hf Hm Hr Hab Hd P32 P64 Ha Hb DA DB Hdiv HN Hk. pose proof (narrow_ok f Hf) as Of.
  rewrite <- dec_flushed in DA, DB by assumption.
  assert (FA : is_finite f (flushed f c a) = true) by (destruct (is_finite f (flushed f c a)) eqn:F; [reflexivity|]; destruct (dec_special _ _ F) as [E|[s E]]; rewrite E in DA; discriminate).
  assert (FB : is_finite f (flushed f c b) = true) by (destruct (is_finite f (flushed f c b)) eqn:F; [reflexivity|]; destruct (dec_special _ _ F) as [E|[s E]]; rewrite E in DB; discriminate).
  rewrite (dec_finite _ _ FA) in DA. rewrite (dec_finite _ _ FB) in DB. injection DA as _ VA. injection DB as _ VB.
  destruct (needs_exponent f _ Of HN) as (He & BE & GE & TE). destruct HN as (HN1 & HN2 & HN3 & HN4 & HN5).
  assert (HV : vprecision (wide f) c = mw f + 1) by (destruct Hf as [-> | ->]; assumption).
  rewrite <- VA, <- VB in *.
  destruct (rr_stochastic n Hn clk f c o a b st (mag radix2 (rop o (fval f (flushed f c a)) (fval f (flushed f c b))) - 1)) as (r & st' & ER & FR & RR); try assumption.
  { intros _. auto. }
  exists r, st'. split; [exact ER|]. apply stochastic_of; assumption.
Qed.
Print Assumptions C95_stochastic_rounding_partial.

(** the same for the fused multiply-add *)
Theorem C95_fma_partial :
  forall n clk f c a b d st s1 A s2 B s3 D, ieee_arith n -> f = binary32 \/ f = binary64 ->
  m_mode c = mca_rr -> m_rel c = true -> m_abs c = false -> fge binary32 (m_sparsity c) one32 = true ->
  m_p32 c = 24 -> m_p64 c = 53 -> is_bits f a -> is_bits f b -> is_bits f d ->
  flush_v f (m_daz c) (dec f a) = DFin s1 A -> flush_v f (m_daz c) (dec f b) = DFin s2 B -> flush_v f (m_daz c) (dec f d) = DFin s3 D ->
  needs_rounding f (A * B + D) -> kdraw clk (init_state c st) <> 2 ^ 51 ->
  exists r st', mca_ternary_op n Quad clk f c a b d st = Ok (r, st') /\ stochastic f (kdraw clk (init_state c st)) (A * B + D) r.
Proof.
  intros n clk f c a b d st s1 A s2 B s3 D Hn Hf Hm Hr Hab Hd P32 P64 Ha Hb Hdd DA DB DD HN Hk. pose proof (narrow_ok f Hf) as Of.
  rewrite <- dec_flushed in DA, DB, DD by assumption.
  assert (FA : is_finite f (flushed f c a) = true) by (destruct (is_finite f (flushed f c a)) eqn:F; [reflexivity|]; destruct (dec_special _ _ F) as [E|[s E]]; rewrite E in DA; discriminate).
  assert (FB : is_finite f (flushed f c b) = true) by (destruct (is_finite f (flushed f c b)) eqn:F; [reflexivity|]; destruct (dec_special _ _ F) as [E|[s E]]; rewrite E in DB; discriminate).
  assert (FD : is_finite f (flushed f c d) = true) by (destruct (is_finite f (flushed f c d)) eqn:F; [reflexivity|]; destruct (dec_special _ _ F) as [E|[s E]]; rewrite E in DD; discriminate).
  rewrite (dec_finite _ _ FA) in DA. rewrite (dec_finite _ _ FB) in DB. rewrite (dec_finite _ _ FD) in DD. injection DA as _ VA. injection DB as _ VB. injection DD as _ VD.
  destruct (needs_exponent f _ Of HN) as (He & BE & GE & TE). destruct HN as (HN1 & HN2 & HN3 & HN4 & HN5).
  assert (HV : vprecision (wide f) c = mw f + 1) by (destruct Hf as [-> | ->]; assumption).
  rewrite <- VA, <- VB, <- VD in *.
  destruct (rr_stochastic_fma n Hn clk f c a b d st (mag radix2 (fval f (flushed f c a) * fval f (flushed f c b) + fval f (flushed f c d)) - 1)) as (r & st' & ER & FR & RR); try assumption.
  { intros _. auto. }
  exists r, st'. split; [exact ER|]. apply stochastic_of; assumption.
Qed.
Print Assumptions C95_fma_partial.

(** * How many of the 2^52 draws round up *)
(** the list of the draws *)
Definition all_upto (M : Z) (l : list Z) : Prop := NoDup l /\ forall k, In k l <-> 0 <= k < M.
Definition all_draws (l : list Z) : Prop := all_upto (2 ^ 52) l.
Definition count (P : Z -> bool) (l : list Z) : Z := Z.of_nat (length (filter P l)).
Lemma count_upto (P : Z -> bool) (h : Z) (T1 T2 : R) m :
  (forall k, 0 <= k < Z.of_nat m -> k <> h -> (IZR k < T1)%R -> P k = false) ->
  (forall k, 0 <= k < Z.of_nat m -> k <> h -> (T2 < IZR k)%R -> P k = true) ->
  let x := if (0 <=? h) && (h <? Z.of_nat m) then 1%R else 0%R in
  (IZR (Z.of_nat m) - 1 - T2 - x <= IZR (count P (map Z.of_nat (seq 0 m))) <= Rmax 0 (IZR (Z.of_nat m) - T1) + x)%R \/ (T2 < -1)%R.
Proof.
  intros H1 H2. destruct (Rlt_le_dec T2 (-1)) as [?|HT]; [auto|left]. induction m as [|m IH].
  - cbn [seq map]. unfold count. cbn [filter length]. change (Z.of_nat 0) with 0 in *. destruct ((0 <=? h) && (h <? 0)); pose proof (Rmax_l 0 (0 - T1)); lra.
  - cbn zeta. assert (IH' := IH ltac:(intros; apply H1; lia || assumption) ltac:(intros; apply H2; lia || assumption)). clear IH. cbn zeta in IH'.
    rewrite seq_S, map_app. unfold count in *. rewrite filter_app, app_length, Nat2Z.inj_add, plus_IZR. cbn [map filter plus].
    rewrite Nat2Z.inj_succ, succ_IZR. set (C := IZR (Z.of_nat (length _))) in *. set (M := Z.of_nat m) in *.
    assert (C0 : (0 <= C)%R) by (apply IZR_le; lia).
    assert (XX : (if (0 <=? h) && (h <? Z.succ M) then 1 else 0)%R = ((if (0 <=? h) && (h <? M) then 1 else 0) + (if h =? M then 1 else 0))%R).
    { unfold M. destruct (Z.leb_spec 0 h), (Z.ltb_spec h (Z.of_nat m)), (Z.ltb_spec h (Z.succ (Z.of_nat m))), (Z.eqb_spec h (Z.of_nat m)); cbn [andb]; try lia; lra. }
    rewrite XX. set (x := (if (0 <=? h) && (h <? M) then 1 else 0)%R) in *.
    assert (x0 : (0 <= x)%R) by (unfold x; destruct (_ && _); lra).
    assert (MX : (Rmax 0 (IZR M - T1) <= Rmax 0 (IZR M + 1 - T1))%R) by (apply Rle_max_compat_l; lra).
    pose proof (Rmax_l 0 (IZR M + 1 - T1)) as ML. pose proof (Rmax_r 0 (IZR M + 1 - T1)) as MR.
    destruct (Z.eqb_spec h M) as [E|E].
    + destruct (P M); cbn [length]; change (IZR (Z.of_nat 1)) with 1%R; change (IZR (Z.of_nat 0)) with 0%R; lra.
    + destruct (P M) eqn:PM; cbn [length]; change (IZR (Z.of_nat 1)) with 1%R; change (IZR (Z.of_nat 0)) with 0%R.
      * split; [lra|]. assert (T1 <= IZR M)%R.
        { destruct (Rlt_le_dec (IZR M) T1) as [K|K]; [|exact K]. rewrite H1 in PM; [discriminate|unfold M; lia|congruence|exact K]. }
        rewrite (Rmax_right 0 (IZR M - T1)) in IH' by lra. lra.
      * split; [|lra]. assert (IZR M <= T2)%R.
        { destruct (Rlt_le_dec T2 (IZR M)) as [K|K]; [|exact K]. rewrite H2 in PM; [discriminate|unfold M; lia|congruence|exact K]. }
        lra.
Qed.

Lemma seq_draws M m : Z.of_nat m = M -> all_upto M (map Z.of_nat (seq 0 m)).
Proof.
  intros Hm. split.
  - apply FinFun.Injective_map_NoDup; [intros x y H; lia|apply seq_NoDup].
  - intros k. rewrite in_map_iff. split.
    + intros (i & <- & Hi). apply in_seq in Hi. lia.
    + intros Hk. exists (Z.to_nat k). split; [lia|]. apply in_seq. lia.
Qed.
Lemma draws_seq M l : 0 <= M -> all_upto M l -> exists m, Z.of_nat m = M /\ Permutation l (map Z.of_nat (seq 0 m)).
Proof.
  intros HM [N1 H1]. destruct (Z_of_nat_complete M) as [m Hm]; [exact HM|]. exists m. split; [symmetry; exact Hm|].
  destruct (seq_draws M m (eq_sym Hm)) as [N2 H2]. apply NoDup_Permutation; [exact N1|exact N2|]. intros k. rewrite H1, H2. reflexivity.
Qed.
Lemma count_permutation P l l' : Permutation l l' -> count P l = count P l'.
Proof.
  unfold count. induction 1 as [|x l l' _ IH|x y l|l l' l'' _ IH1 _ IH2]; [reflexivity| | |congruence].
  - cbn [filter]. destruct (P x); cbn [length]; lia.
  - cbn [filter]. destruct (P x), (P y); cbn [length]; reflexivity.
Qed.

Theorem C95_probability_partial :
  forall n clk f c o a b s1 A s2 B (sts : Z -> rst) l, ieee_arith n -> f = binary32 \/ f = binary64 ->
  m_mode c = mca_rr -> m_rel c = true -> m_abs c = false -> fge binary32 (m_sparsity c) one32 = true ->
  m_p32 c = 24 -> m_p64 c = 53 -> is_bits f a -> is_bits f b ->
  flush_v f (m_daz c) (dec f a) = DFin s1 A -> flush_v f (m_daz c) (dec f b) = DFin s2 B -> (o = OpDiv -> B <> 0%R) ->
  needs_rounding f (rop o A B) -> all_draws l -> (forall k, 0 <= k < 2 ^ 52 -> kdraw clk (init_state c (sts k)) = k) ->
  let up k := match mca_binary_op n Quad clk f c o a b (sts k) with Ok (r, _) => Req_bool (fval f r) (above f (rop o A B)) | _ => false end in
  (Rabs (IZR (count up l) / 2 ^ 52 - place f (rop o A B)) <= band f + / 2 ^ 51)%R.
Proof.
  intros n clk f c o a b s1 A s2 B sts l Hn Hf Hm Hr Hab Hd P32 P64 Ha Hb DA DB Hdiv HN HL HS up. set (E := rop o A B) in *.
  assert (HSt : forall k, 0 <= k < 2 ^ 52 -> k <> 2 ^ 51 -> exists r st', mca_binary_op n Quad clk f c o a b (sts k) = Ok (r, st') /\ stochastic f k E r).
  { intros k Hk Hk2. destruct (C95_stochastic_rounding_partial n clk f c o a b (sts k) s1 A s2 B) as (r & st' & ER & SR); try assumption; [rewrite HS by exact Hk; exact Hk2|].
    rewrite HS in SR by exact Hk. eauto. }
  pose proof HN as (HB & _). assert (HP : (0 < place f E < 1)%R).
  { unfold place. assert (0 < above f E - below f E)%R by lra. split; [apply Rdiv_lt_0_compat; lra|]. apply Rmult_lt_reg_r with (above f E - below f E)%R; [lra|]. unfold Rdiv. rewrite Rmult_assoc, Rinv_l by lra. lra. }
  assert (BP : (0 < band f)%R) by apply bpow_gt_0.
  assert (W : (0 < 2 ^ 52)%R) by (apply pow_lt; lra). assert (W2 : (/ 2 ^ 51 = 2 / 2 ^ 52)%R) by (field; lra).
  assert (WI : IZR (2 ^ 52) = (2 ^ 52)%R) by (rewrite <- pow_IZR with (n := 52%nat); reflexivity).
  destruct (draws_seq (2 ^ 52) l ltac:(discriminate) HL) as (m & Hm2 & HPm). rewrite (count_permutation up l _ HPm).
  destruct (count_upto up (2 ^ 51) ((1 - place f E - band f) * 2 ^ 52) ((1 - place f E + band f) * 2 ^ 52) m) as [K|K].
  - intros k Hk Hk2 HT. rewrite Hm2 in Hk. destruct (HSt k Hk Hk2) as (r & st' & ER & _ & _ & _ & SR). unfold up. rewrite ER.
    apply Req_bool_false. rewrite SR; [lra|]. apply Rmult_lt_reg_r with (2 ^ 52)%R; [exact W|]. unfold Rdiv. rewrite Rmult_assoc, Rinv_l by lra. lra.
  - intros k Hk Hk2 HT. rewrite Hm2 in Hk. destruct (HSt k Hk Hk2) as (r & st' & ER & _ & _ & SR & _). unfold up. rewrite ER.
    apply Req_bool_true. apply SR. apply Rmult_lt_reg_r with (2 ^ 52)%R; [exact W|]. unfold Rdiv. rewrite Rmult_assoc, Rinv_l by lra. lra.
  - cbn zeta in K. rewrite Hm2 in K. change ((0 <=? 2 ^ 51) && (2 ^ 51 <? 2 ^ 52)) with true in K. cbn iota in K. rewrite WI in K.
    set (C := IZR (count up _)) in *. rewrite Rmax_right in K by nra. apply Rabs_le. rewrite W2.
    assert (EC : (C = (C / 2 ^ 52) * 2 ^ 52)%R) by (field; lra). set (D := (C / 2 ^ 52)%R) in *. rewrite EC in K.
    assert (E2 : (2 = (2 / 2 ^ 52) * 2 ^ 52)%R) by (field; lra). set (t := (2 / 2 ^ 52)%R) in *. set (w := (2 ^ 52)%R) in *. clearbody D t w.
    split; apply Rmult_le_reg_r with (1 := W); nra.
  - exfalso. nra.
Qed.
Print Assumptions C95_probability_partial.

(** * mcaint *)
(** The noise of mcaint is added to the representation, so it moves the magnitude: for a negative result a large draw rounds
    down. [idraw] is the 64-bit draw read as a signed integer, plus 2^63: a number in [0, 2^64). *)
Definition idraw (clk : Z) (st : rst) : Z := signed 64 (fst (fst (draw64 (fst st) (snd st) clk))) + 2 ^ 63.
Lemma idraw_mod clk st : idraw clk st = (udraw clk st + 2 ^ 63) mod 2 ^ 64.
Proof.
  pose proof (udraw_range clk st) as U. unfold idraw. fold (udraw clk st). set (u := udraw clk st) in *. clearbody u. unfold signed. change (2 ^ (64 - 1)) with (2 ^ 63).
  assert (P : 2 ^ 64 = 2 * 2 ^ 63) by reflexivity. destruct (Z.ltb_spec u (2 ^ 63)).
  - rewrite Z.mod_small by lia. reflexivity.
  - replace (u + 2 ^ 63) with (u - 2 ^ 63 + 1 * 2 ^ 64) by lia. rewrite Z.mod_add, Z.mod_small by lia. lia.
Qed.
Definition stochastic_magnitude (f : fmt) (v : Z) (E : R) (r : Z) : Prop :=
  is_finite f r = true /\ (0 < E * fval f r)%R /\ (Rabs (fval f r) = below f (Rabs E) \/ Rabs (fval f r) = above f (Rabs E)) /\
  ((1 - place f (Rabs E) + 2 * band f < IZR v / 2 ^ 64)%R -> Rabs (fval f r) = above f (Rabs E)) /\
  ((IZR v / 2 ^ 64 < 1 - place f (Rabs E) - band f)%R -> Rabs (fval f r) = below f (Rabs E)).
Lemma stochastic_magnitude_of f clk st E r (e := mag radix2 (Rabs E) - 1) : f = binary32 \/ f = binary64 ->
  is_finite f r = true -> (0 < E * fval f r)%R ->
  rr_result (emin_ulp f) (mw f + 1) (mw (wide f) + 1) e (Rabs E) (IZR (int_noise (wide f) (mw f + 1) (udraw clk st)) * b2 (e - mw (wide f))) (Rabs (fval f r)) ->
  stochastic_magnitude f (idraw clk st) E r.
Proof.
  intros Hf FR SR (H1 & H2 & H3 & H4 & H5). split; [exact FR|]. split; [exact SR|]. split; [exact H3|].
  rewrite idraw_mod. pose proof (udraw_range clk st) as U.
  assert (IN : int_noise (wide f) (mw f + 1) (udraw clk st) = (udraw clk st + 2 ^ 63) mod 2 ^ 64 / 2 ^ (63 + (mw f + 1) - mw (wide f)) - 2 ^ (mw (wide f) - (mw f + 1))).
  { apply int_noise_range; [..|exact U]; destruct Hf as [-> | ->]; vm_compute; intuition discriminate. }
  rewrite IN in H4, H5. clear IN.
  set (v := (udraw clk st + 2 ^ 63) mod 2 ^ 64) in *. clearbody v.
  set (M := Rabs E) in *. fold (below f M) (above f M) in *.
  replace (e + 1 - (mw f + 1)) with (e - mw f) in H2, H4, H5 by lia. set (u := b2 (e - mw f)) in *.
  assert (Pu : (0 < u)%R) by apply bpow_gt_0.
  assert (EW : b2 (e + 1 - (mw (wide f) + 1)) = (band f * u)%R) by (unfold band, u; rewrite <- bpow_plus; f_equal; lia).
  assert (EW' : b2 (e - mw (wide f)) = (band f * u)%R) by (rewrite <- EW; f_equal; lia).
  rewrite EW, EW' in H4, H5.
  set (s := 63 + (mw f + 1) - mw (wide f)) in *. set (h := mw (wide f) - (mw f + 1)) in *.
  assert (Hs : 0 <= s) by (unfold s; destruct Hf as [-> | ->]; vm_compute; discriminate).
  assert (Hh : 0 <= h) by (unfold h; destruct Hf as [-> | ->]; vm_compute; discriminate).
  assert (BH : (band f * IZR (2 ^ h) = / 2)%R).
  { rewrite IZR_pow2 by exact Hh. unfold band. rewrite <- bpow_plus. replace (mw f - mw (wide f) + h) with (-1) by (unfold h; lia). reflexivity. }
  assert (PB : (0 < band f)%R) by apply bpow_gt_0.
  assert (EK : (IZR v / 2 ^ 64 = IZR v * b2 (- s) * band f)%R).
  { replace (2 ^ 64)%R with (b2 64) by (rewrite bpow_powerRZ; reflexivity). unfold Rdiv. rewrite <- bpow_opp. rewrite Rmult_assoc. f_equal. unfold band. rewrite <- bpow_plus. f_equal. unfold s. lia. }
  assert (Q : (IZR v * b2 (- s) - 1 < IZR (v / 2 ^ s) <= IZR v * b2 (- s))%R).
  { assert (P2 : 0 < 2 ^ s) by (apply pow2_pos; exact Hs). pose proof (Z.div_mod v (2 ^ s) ltac:(lia)) as DM. pose proof (Z.mod_pos_bound v (2 ^ s) P2) as MB.
    assert (L : (IZR (v / 2 ^ s) * IZR (2 ^ s) <= IZR v < (IZR (v / 2 ^ s) + 1) * IZR (2 ^ s))%R) by (rewrite <- plus_IZR, <- !mult_IZR; split; [apply IZR_le|apply IZR_lt]; lia).
    rewrite IZR_pow2 in L by exact Hs. rewrite bpow_opp. pose proof (bpow_gt_0 radix2 s) as P3. set (B := b2 s) in *. clearbody B.
    assert (EV : (IZR v = (IZR v * / B) * B)%R) by (field; lra). set (y := (IZR v * / B)%R) in *. rewrite EV in L. split; apply Rnot_le_lt || apply Rnot_lt_le; intros K; nra. }
  rewrite minus_IZR in H4, H5. set (d := IZR (v / 2 ^ s)) in *. set (y := (IZR v * b2 (- s))%R) in *. clearbody d y.
  assert (EP : (M = below f M + place f M * u)%R) by (unfold place; rewrite H2; field; lra).
  assert (EN : ((d - IZR (2 ^ h)) * (band f * u) = (d * band f - / 2) * u)%R) by (rewrite <- BH; ring).
  rewrite EN in H4, H5. rewrite EK. set (B := band f) in *. set (P := place f M) in *. clearbody B P.
  assert (Q' : (y * B - B < d * B <= y * B)%R) by nra. set (t := (d * B)%R) in *. clearbody t. split; intros H.
  - apply H4. rewrite EP at 2. nra.
  - apply H5. rewrite EP at 1. nra.
Qed.

(** C95 for mcaint: + - * / in mode rr, relative error mode, no sparsity, precision of the format, for every operand pair
    whose exact result E needs rounding, both readings of C shifts and every generator state: the result has the sign of E,
    its magnitude is one of the two neighbours of |E|, which one depends on the draw alone. *)
Theorem C95_int_partial :
  forall n clk sem f c o a b st s1 A s2 B, ieee_arith n -> f = binary32 \/ f = binary64 ->
  m_mode c = mca_rr -> fge binary32 (m_sparsity c) one32 = true ->
  m_p32 c = 24 -> m_p64 c = 53 -> is_bits f a -> is_bits f b ->
  flush_v f (m_daz c) (dec f a) = DFin s1 A -> flush_v f (m_daz c) (dec f b) = DFin s2 B -> (o = OpDiv -> B <> 0%R) ->
  needs_rounding f (Rabs (rop o A B)) ->
  exists r st', mca_binary_op n (Int sem) clk f c o a b st = Ok (r, st') /\ stochastic_magnitude f (idraw clk (init_state c st)) (rop o A B) r.
Proof.
  intros n clk sem f c o a b st s1 A s2 B Hn Hf Hm Hd P32 P64 Ha Hb DA DB Hdiv HN. pose proof (narrow_ok f Hf) as Of.
  rewrite <- dec_flushed in DA, DB by assumption.
  assert (FA : is_finite f (flushed f c a) = true) by (destruct (is_finite f (flushed f c a)) eqn:F; [reflexivity|]; destruct (dec_special _ _ F) as [E|[s E]]; rewrite E in DA; discriminate).
  assert (FB : is_finite f (flushed f c b) = true) by (destruct (is_finite f (flushed f c b)) eqn:F; [reflexivity|]; destruct (dec_special _ _ F) as [E|[s E]]; rewrite E in DB; discriminate).
  rewrite (dec_finite _ _ FA) in DA. rewrite (dec_finite _ _ FB) in DB. injection DA as _ VA. injection DB as _ VB.
  destruct (needs_exponent f _ Of HN) as (He & BE & GE & TE). destruct HN as (HN1 & HN2 & HN3 & HN4 & HN5).
  assert (HV : vprecision (wide f) c = mw f + 1) by (destruct Hf as [-> | ->]; assumption).
  rewrite <- VA, <- VB in *. set (E := rop o (fval f (flushed f c a)) (fval f (flushed f c b))) in *.
  rewrite Rabs_Rabsolu in BE. rewrite round_ZR_DN in TE by apply Rabs_pos.
  assert (VF : Valid_exp (FLT_exp (emin_ulp f) (mw f + 1))) by (apply FLT_exp_valid; unfold Prec_gt_0; destruct Of; lia).
  assert (L0 : (0 <= below f (Rabs E))%R) by (apply round_ge_generic; [exact VF|apply valid_rnd_DN|apply generic_format_0|apply Rabs_pos]).
  rewrite (Rabs_pos_eq (above f _)) in HN4 by lra. unfold below in L0. rewrite (Rabs_pos_eq (round _ _ _ _)) in TE by exact L0.
  destruct (rr_stochastic_int n Hn clk sem f c o a b st (mag radix2 (Rabs E) - 1)) as (r & st' & ER & FR & SR & RR); try assumption.
  exists r, st'. split; [exact ER|]. apply stochastic_magnitude_of; assumption.
Qed.
Print Assumptions C95_int_partial.

(** the same for the fused multiply-add *)
Theorem C95_int_fma_partial :
  forall n clk sem f c a b d st s1 A s2 B s3 D, ieee_arith n -> f = binary32 \/ f = binary64 ->
  m_mode c = mca_rr -> fge binary32 (m_sparsity c) one32 = true ->
  m_p32 c = 24 -> m_p64 c = 53 -> is_bits f a -> is_bits f b -> is_bits f d ->
  flush_v f (m_daz c) (dec f a) = DFin s1 A -> flush_v f (m_daz c) (dec f b) = DFin s2 B -> flush_v f (m_daz c) (dec f d) = DFin s3 D ->
  needs_rounding f (Rabs (A * B + D)) ->
  exists r st', mca_ternary_op n (Int sem) clk f c a b d st = Ok (r, st') /\ stochastic_magnitude f (idraw clk (init_state c st)) (A * B + D) r.
Proof.
  intros n clk sem f c a b d st s1 A s2 B s3 D Hn Hf Hm Hd P32 P64 Ha Hb Hdd DA DB DD HN. pose proof (narrow_ok f Hf) as Of.
  rewrite <- dec_flushed in DA, DB, DD by assumption.
  assert (FA : is_finite f (flushed f c a) = true) by (destruct (is_finite f (flushed f c a)) eqn:F; [reflexivity|]; destruct (dec_special _ _ F) as [E|[s E]]; rewrite E in DA; discriminate).
  assert (FB : is_finite f (flushed f c b) = true) by (destruct (is_finite f (flushed f c b)) eqn:F; [reflexivity|]; destruct (dec_special _ _ F) as [E|[s E]]; rewrite E in DB; discriminate).
  assert (FD : is_finite f (flushed f c d) = true) by (destruct (is_finite f (flushed f c d)) eqn:F; [reflexivity|]; destruct (dec_special _ _ F) as [E|[s E]]; rewrite E in DD; discriminate).
  rewrite (dec_finite _ _ FA) in DA. rewrite (dec_finite _ _ FB) in DB. rewrite (dec_finite _ _ FD) in DD. injection DA as _ VA. injection DB as _ VB. injection DD as _ VD.
  destruct (needs_exponent f _ Of HN) as (He & BE & GE & TE). destruct HN as (HN1 & HN2 & HN3 & HN4 & HN5).
  assert (HV : vprecision (wide f) c = mw f + 1) by (destruct Hf as [-> | ->]; assumption).
  rewrite <- VA, <- VB, <- VD in *. set (E := (fval f (flushed f c a) * fval f (flushed f c b) + fval f (flushed f c d))%R) in *.
  rewrite Rabs_Rabsolu in BE. rewrite round_ZR_DN in TE by apply Rabs_pos.
  assert (VF : Valid_exp (FLT_exp (emin_ulp f) (mw f + 1))) by (apply FLT_exp_valid; unfold Prec_gt_0; destruct Of; lia).
  assert (L0 : (0 <= below f (Rabs E))%R) by (apply round_ge_generic; [exact VF|apply valid_rnd_DN|apply generic_format_0|apply Rabs_pos]).
  rewrite (Rabs_pos_eq (above f _)) in HN4 by lra. unfold below in L0. rewrite (Rabs_pos_eq (round _ _ _ _)) in TE by exact L0.
  destruct (rr_stochastic_fma_int n Hn clk sem f c a b d st (mag radix2 (Rabs E) - 1)) as (r & st' & ER & FR & SR & RR); try assumption.
  exists r, st'. split; [exact ER|]. apply stochastic_magnitude_of; assumption.
Qed.
Print Assumptions C95_int_fma_partial.

Theorem C95_int_probability_partial :
  forall n clk sem f c o a b s1 A s2 B (sts : Z -> rst) l, ieee_arith n -> f = binary32 \/ f = binary64 ->
  m_mode c = mca_rr -> fge binary32 (m_sparsity c) one32 = true ->
  m_p32 c = 24 -> m_p64 c = 53 -> is_bits f a -> is_bits f b ->
  flush_v f (m_daz c) (dec f a) = DFin s1 A -> flush_v f (m_daz c) (dec f b) = DFin s2 B -> (o = OpDiv -> B <> 0%R) ->
  needs_rounding f (Rabs (rop o A B)) -> all_upto (2 ^ 64) l -> (forall v, 0 <= v < 2 ^ 64 -> idraw clk (init_state c (sts v)) = v) ->
  let away v := match mca_binary_op n (Int sem) clk f c o a b (sts v) with Ok (r, _) => Req_bool (Rabs (fval f r)) (above f (Rabs (rop o A B))) | _ => false end in
  (Rabs (IZR (count away l) / 2 ^ 64 - place f (Rabs (rop o A B))) <= 2 * band f + / 2 ^ 64)%R.
Proof.
  intros n clk sem f c o a b s1 A s2 B sts l Hn Hf Hm Hd P32 P64 Ha Hb DA DB Hdiv HN HL HS up. set (E := rop o A B) in *.
  assert (HSt : forall k, 0 <= k < 2 ^ 64 -> exists r st', mca_binary_op n (Int sem) clk f c o a b (sts k) = Ok (r, st') /\ stochastic_magnitude f k E r).
  { intros k Hk. destruct (C95_int_partial n clk sem f c o a b (sts k) s1 A s2 B) as (r & st' & ER & SR); try assumption.
    rewrite HS in SR by exact Hk. eauto. }
  pose proof HN as (HB & _). assert (HP : (0 < place f (Rabs E) < 1)%R).
  { unfold place. assert (0 < above f (Rabs E) - below f (Rabs E))%R by lra. split; [apply Rdiv_lt_0_compat; lra|]. apply Rmult_lt_reg_r with (above f (Rabs E) - below f (Rabs E))%R; [lra|]. unfold Rdiv. rewrite Rmult_assoc, Rinv_l by lra. lra. }
  assert (BP : (0 < band f)%R) by apply bpow_gt_0.
  assert (W : (0 < 2 ^ 64)%R) by (apply pow_lt; lra). assert (W2 : (/ 2 ^ 64 = 1 / 2 ^ 64)%R) by (field; lra).
  assert (WI : IZR (2 ^ 64) = (2 ^ 64)%R) by (rewrite <- pow_IZR with (n := 64%nat); reflexivity).
  destruct (draws_seq (2 ^ 64) l ltac:(discriminate) HL) as (m & Hm2 & HPm). rewrite (count_permutation up l _ HPm).
  destruct (count_upto up (-1) ((1 - place f (Rabs E) - band f) * 2 ^ 64) ((1 - place f (Rabs E) + 2 * band f) * 2 ^ 64) m) as [K|K].
  - intros k Hk Hk2 HT. rewrite Hm2 in Hk. destruct (HSt k Hk) as (r & st' & ER & _ & _ & _ & _ & SR). unfold up. rewrite ER.
    apply Req_bool_false. rewrite SR; [lra|]. apply Rmult_lt_reg_r with (2 ^ 64)%R; [exact W|]. unfold Rdiv. rewrite Rmult_assoc, Rinv_l by lra. lra.
  - intros k Hk Hk2 HT. rewrite Hm2 in Hk. destruct (HSt k Hk) as (r & st' & ER & _ & _ & _ & SR & _). unfold up. rewrite ER.
    apply Req_bool_true. apply SR. apply Rmult_lt_reg_r with (2 ^ 64)%R; [exact W|]. unfold Rdiv. rewrite Rmult_assoc, Rinv_l by lra. lra.
  - cbn zeta in K. rewrite Hm2 in K. change ((0 <=? -1) && (-1 <? 2 ^ 64)) with false in K. cbn iota in K. rewrite WI in K.
    set (C := IZR (count up _)) in *. rewrite Rmax_right in K by nra. apply Rabs_le. rewrite W2.
    assert (EC : (C = (C / 2 ^ 64) * 2 ^ 64)%R) by (field; lra). set (D := (C / 2 ^ 64)%R) in *. rewrite EC in K.
    assert (E2 : (1 = (1 / 2 ^ 64) * 2 ^ 64)%R) by (field; lra). set (t := (1 / 2 ^ 64)%R) in *. set (w := (2 ^ 64)%R) in *. set (P := place f (Rabs E)) in *. clearbody D t w P.
    split; apply Rmult_le_reg_r with (1 := W); nra.
  - exfalso. nra.
Qed.
Print Assumptions C95_int_probability_partial.

(** * Cases *)
(** a state of the generator for every draw *)
Definition state_with (k : Z) : rst := (mk_rng true 0 true (k * 2 ^ 12, wrap64 (- (k * 2 ^ 12))), 0).
Lemma state_with_draw clk c k : 0 <= k < 2 ^ 52 -> kdraw clk (init_state c (state_with k)) = k.
Proof.
  intros Hk. unfold kdraw, init_state, state_with. cbn [fst snd]. unfold init_rng_state_struct, draw64, init_random_state. cbn [valid words fst snd].
  unfold xresult. cbn [fst snd]. unfold wrap64. rewrite Z.add_mod_idemp_r, Z.add_opp_diag_r by discriminate.
  change (rotl (0 mod 2 ^ 64) 17) with 0. rewrite Z.add_0_l. rewrite Z.mod_small by (change (2 ^ 64) with (2 ^ 52 * 2 ^ 12); change (2 ^ 12) with 4096; lia).
  apply Z.div_mul. discriminate.
Qed.
Lemma neighbours_eq f e m E : fmt_ok f -> 1 - bias f <= e -> 2 ^ mw f <= m < 2 ^ (mw f + 1) -> (IZR m * b2 (e - mw f) < E < IZR (m + 1) * b2 (e - mw f))%R ->
  below f E = (IZR m * b2 (e - mw f))%R /\ above f E = (IZR (m + 1) * b2 (e - mw f))%R.
Proof.
  intros Hf He Hm HE. assert (Hmw : 2 <= mw f) by (destruct Hf; assumption). set (p := mw f + 1).
  assert (VF : Valid_exp (FLT_exp (emin_ulp f) p)) by (apply FLT_exp_valid; unfold Prec_gt_0, p; lia).
  replace (e - mw f) with (e + 1 - p) in * by (unfold p; lia).
  assert (Hm' : 2 ^ (p - 1) <= m < 2 ^ p) by (replace (p - 1) with (mw f) by (unfold p; lia); exact Hm).
  assert (0 < 2 ^ mw f) by (apply pow2_pos; lia).
  assert (He' : emin_ulp f <= e + 1 - p) by (unfold emin_ulp, p; lia).
  unfold below, above. fold p. split.
  - apply round_DN_eq; [exact VF|apply gen_flt; unfold p in *; lia|]. rewrite succ_in by (unfold p in *; lia). lra.
  - apply round_UP_eq; [exact VF|apply gen_flt; unfold p in *; lia|]. rewrite pred_in by (unfold p in *; lia). lra.
Qed.
Lemma between_powers j x : (b2 j < x < b2 (j + 1))%R -> forall i, x <> b2 i.
Proof. intros H i ->. assert (j < i) by (apply (lt_bpow radix2); lra). assert (i < j + 1) by (apply (lt_bpow radix2); lra). lia. Qed.
Definition c95_ctx : mctx := mk_mctx mca_rr 24 53 true false 112 false false true 1 one32.
Lemma third_between : below binary32 (1 / 3) = (11184810 * b2 (-25))%R /\ above binary32 (1 / 3) = (11184811 * b2 (-25))%R.
Proof.
  apply (neighbours_eq binary32 (-2) 11184810); [apply ok32|vm_compute; discriminate|vm_compute; split; [discriminate|reflexivity]|].
  change (b2 (-2 - mw binary32)) with (/ 33554432)%R. change (11184810 + 1) with 11184811. lra.
Qed.
Example C95_nonvacuous :
  needs_rounding binary32 (rop OpDiv 1 3) /\ place binary32 (rop OpDiv 1 3) = (2 / 3)%R /\
  dec binary32 0x3F800000 = DFin 0 1 /\ dec binary32 0x40400000 = DFin 0 3 /\
  fst_ok (mca_binary_op soft Quad 0 binary32 c95_ctx OpDiv 0x3F800000 0x40400000 (state_with (2 ^ 50))) = Some 0x3EAAAAAA /\
  fst_ok (mca_binary_op soft Quad 0 binary32 c95_ctx OpDiv 0x3F800000 0x40400000 (state_with (2 ^ 51 - 1))) = Some 0x3EAAAAAB /\
  exists l, all_draws l.
Proof.
  destruct third_between as [HB HA]. change (rop OpDiv 1 3) with (1 / 3)%R. change (b2 (-25)) with (/ 33554432)%R in HB, HA.
  split; [|split; [unfold place; rewrite HB, HA; lra|split; [|split; [|split; [vm_compute; reflexivity|split; [vm_compute; reflexivity|]]]]]].
  - unfold needs_rounding. rewrite HB, HA. rewrite !Rabs_pos_eq by lra. rewrite Rmin_left by lra.
    change (b2 (bias binary32 + 1)) with (b2 128). assert (1 < b2 128)%R by (apply (bpow_lt radix2 0); reflexivity).
    assert (b2 (1 - bias binary32) < b2 (-2))%R by (apply (bpow_lt radix2); reflexivity). change (b2 (-2)) with (/ 4)%R in *.
    split; [lra|]. split; [lra|]. split; [lra|]. split; [lra|]. apply (between_powers (-2)). change (b2 (-2)) with (/ 4)%R. change (b2 (-2 + 1)) with (/ 2)%R. lra.
  - rewrite (dec_finite binary32 0x3F800000 eq_refl). f_equal. rewrite (fval_mval binary32 ok32). change (sgn binary32 0x3F800000) with 0. change (signR 0 ?X) with X.
    unfold mval. change (sig binary32 0x3F800000) with 8388608. change (sexp binary32 0x3F800000) with (-23). change (b2 (-23)) with (/ 8388608)%R. lra.
  - rewrite (dec_finite binary32 0x40400000 eq_refl). f_equal. rewrite (fval_mval binary32 ok32). change (sgn binary32 0x40400000) with 0. change (signR 0 ?X) with X.
    unfold mval. change (sig binary32 0x40400000) with 12582912. change (sexp binary32 0x40400000) with (-22). change (b2 (-22)) with (/ 4194304)%R. lra.
  - destruct (Z_of_nat_complete (2 ^ 52)) as [m Hm]; [discriminate|]. exists (map Z.of_nat (seq 0 m)). apply (seq_draws (2 ^ 52)). symmetry. exact Hm.
Qed.

(** When the neighbour nearer to zero is a power of two the result may lie outside the two neighbours: the noise is half a
    spacing of the binade of E, and the numbers below the power of two are twice as dense. 1 + 2^-30 becomes 1 - 2^-24. *)
Theorem C95_power_of_two_refuted :
  ~ (forall n clk c a b st s1 A s2 B, ieee_arith n -> m_mode c = mca_rr -> m_rel c = true -> m_abs c = false -> m_daz c = false -> m_ftz c = false ->
     fge binary32 (m_sparsity c) one32 = true -> m_p32 c = 24 -> is_bits binary32 a -> is_bits binary32 b ->
     dec binary32 a = DFin s1 A -> dec binary32 b = DFin s2 B -> (below binary32 (A + B) < A + B < above binary32 (A + B))%R ->
     (1 <= Rabs (A + B) <= 2)%R -> kdraw clk (init_state c st) <> 2 ^ 51 ->
     exists r st', mca_binary_op n Quad clk binary32 c OpAdd a b st = Ok (r, st') /\ (below binary32 (A + B) <= fval binary32 r <= above binary32 (A + B))%R).
Proof.
  intros H. set (b := make binary32 0 97 0).
  assert (V1 : fval binary32 one32 = 1%R).
  { rewrite (fval_mval binary32 ok32). change (sgn binary32 one32) with 0. change (signR 0 ?X) with X. unfold mval. change (sig binary32 one32) with 8388608. change (sexp binary32 one32) with (-23). change (b2 (-23)) with (/ 8388608)%R. lra. }
  assert (V2 : fval binary32 b = (/ 1073741824)%R).
  { rewrite (fval_mval binary32 ok32). change (sgn binary32 b) with 0. change (signR 0 ?X) with X. unfold mval. change (sig binary32 b) with 8388608. change (sexp binary32 b) with (-53). change (b2 (-53)) with (/ 9007199254740992)%R. lra. }
  destruct (neighbours_eq binary32 0 8388608 (1 + / 1073741824) ok32) as [HB HA].
  { vm_compute. discriminate. } { vm_compute. split; [discriminate|reflexivity]. } { change (b2 (0 - mw binary32)) with (/ 8388608)%R. change (8388608 + 1) with 8388609. lra. }
  change (b2 (0 - mw binary32)) with (/ 8388608)%R in HB, HA. change (8388608 + 1) with 8388609 in HA.
  destruct (H soft 0 c95_ctx one32 b (state_with 0) 0 1%R 0 (/ 1073741824)%R soft_ieee eq_refl eq_refl eq_refl eq_refl eq_refl eq_refl eq_refl) as (r & st' & ER & LR & _).
  - vm_compute. split; congruence.
  - vm_compute. split; congruence.
  - rewrite (dec_finite binary32 one32 eq_refl), V1. reflexivity.
  - rewrite (dec_finite binary32 b eq_refl), V2. reflexivity.
  - rewrite HB, HA. lra.
  - rewrite Rabs_pos_eq by lra. lra.
  - rewrite state_with_draw by (vm_compute; split; [discriminate|reflexivity]). discriminate.
  - assert (Er : r = 0x3F7FFFFF) by (vm_compute in ER; congruence). subst r.
    assert (VR : fval binary32 0x3F7FFFFF = (16777215 * / 16777216)%R).
    { rewrite (fval_mval binary32 ok32). change (sgn binary32 0x3F7FFFFF) with 0. change (signR 0 ?X) with X. unfold mval. change (sig binary32 0x3F7FFFFF) with 16777215. change (sexp binary32 0x3F7FFFFF) with (-24). change (b2 (-24)) with (/ 16777216)%R. lra. }
    rewrite VR, HB in LR. lra.
Qed.
Print Assumptions C95_power_of_two_refuted.

(** In the subnormal range of the format the noise is smaller than the spacing and the upper neighbour of 3.25 * 2^-149 is
    never chosen: the result is 3 * 2^-149 with the largest draw too. *)
Lemma sub_neighbours : below binary32 (13 / 4 * b2 (-149)) = (3 * b2 (-149))%R /\ above binary32 (13 / 4 * b2 (-149)) = (4 * b2 (-149))%R.
Proof.
  assert (C : forall x, (0 < x < b2 (-146))%R -> cexp radix2 (FLT_exp (emin_ulp binary32) (mw binary32 + 1)) x = -149).
  { intros x Hx. unfold cexp, FLT_exp. change (emin_ulp binary32) with (-149). change (mw binary32 + 1) with 24. rewrite Z.max_r; [reflexivity|].
    assert (mag radix2 x <= -146); [|lia]. apply mag_le_bpow; [lra|]. rewrite Rabs_pos_eq by lra. lra. }
  pose proof (bpow_gt_0 radix2 (-149)) as P. assert (EB : b2 (-146) = (8 * b2 (-149))%R) by (change (-146) with (3 + -149); rewrite bpow_plus; reflexivity).
  assert (SM : scaled_mantissa radix2 (FLT_exp (emin_ulp binary32) (mw binary32 + 1)) (13 / 4 * b2 (-149)) = (13 / 4)%R).
  { unfold scaled_mantissa. rewrite C by lra. rewrite Rmult_assoc, <- bpow_plus. change (b2 (-149 + - -149)) with 1%R. lra. }
  assert (ZF : Zfloor (13 / 4) = 3) by (apply Zfloor_imp; change (3 + 1) with 4; lra).
  unfold below, above, round. rewrite SM, C by lra. rewrite Zceil_floor_neq by (rewrite ZF; lra). rewrite ZF. unfold F2R. cbn [Fnum Fexp]. change (3 + 1) with 4. split; reflexivity.
Qed.
Theorem C95_subnormal_refuted :
  ~ (forall n clk c a b st s1 A s2 B, ieee_arith n -> m_mode c = mca_rr -> m_rel c = true -> m_abs c = false -> m_daz c = false -> m_ftz c = false ->
     fge binary32 (m_sparsity c) one32 = true -> m_p32 c = 24 -> is_bits binary32 a -> is_bits binary32 b ->
     dec binary32 a = DFin s1 A -> dec binary32 b = DFin s2 B -> (below binary32 (A * B) < A * B < above binary32 (A * B))%R ->
     (forall j, (Rmin (Rabs (below binary32 (A * B))) (Rabs (above binary32 (A * B))) <> b2 j)%R) -> (Rabs (A * B) <= 1)%R -> kdraw clk (init_state c st) <> 2 ^ 51 ->
     exists r st', mca_binary_op n Quad clk binary32 c OpMul a b st = Ok (r, st') /\
     ((1 - place binary32 (A * B) + band binary32 < IZR (kdraw clk (init_state c st)) / 2 ^ 52)%R -> fval binary32 r = above binary32 (A * B))).
Proof.
  intros H. set (a := make binary32 0 27 0). set (b := make binary32 0 79 0x500000).
  assert (V1 : fval binary32 a = b2 (-100)).
  { rewrite (fval_mval binary32 ok32). change (sgn binary32 a) with 0. change (signR 0 ?X) with X. unfold mval. change (sig binary32 a) with (2 ^ 23). change (sexp binary32 a) with (-123). rewrite IZR_pow2 by lia. rewrite <- bpow_plus. reflexivity. }
  assert (V2 : fval binary32 b = (13 / 4 * b2 (-49))%R).
  { rewrite (fval_mval binary32 ok32). change (sgn binary32 b) with 0. change (signR 0 ?X) with X. unfold mval. change (sig binary32 b) with 13631488. change (sexp binary32 b) with (-71).
    change (-49) with (22 + -71). rewrite bpow_plus. change (b2 22) with 4194304%R. lra. }
  assert (VM : (b2 (-100) * (13 / 4 * b2 (-49)) = 13 / 4 * b2 (-149))%R).
  { change (-149) with (-100 + -49). rewrite bpow_plus. ring. }
  destruct sub_neighbours as [HB HA]. pose proof (bpow_gt_0 radix2 (-149)) as P.
  destruct (H soft 0 c95_ctx a b (state_with (2 ^ 52 - 1)) 0 (b2 (-100)) 0 (13 / 4 * b2 (-49))%R soft_ieee eq_refl eq_refl eq_refl eq_refl eq_refl eq_refl eq_refl) as (r & st' & ER & HR).
  - vm_compute. split; congruence.
  - vm_compute. split; congruence.
  - rewrite (dec_finite binary32 a eq_refl), V1. reflexivity.
  - rewrite (dec_finite binary32 b eq_refl), V2. reflexivity.
  - rewrite VM, HB, HA. lra.
  - rewrite VM, HB, HA. rewrite !Rabs_pos_eq, Rmin_left by lra. apply (between_powers (-148)). change (-148 + 1) with (2 + -149). change (-148) with (1 + -149). rewrite !bpow_plus. change (b2 1) with 2%R. change (b2 2) with 4%R. lra.
  - rewrite VM, Rabs_pos_eq by lra. assert (b2 (-149) < b2 (-2))%R by (apply (bpow_lt radix2); reflexivity). change (b2 (-2)) with (/ 4)%R in *. lra.
  - rewrite state_with_draw by (vm_compute; split; [discriminate|reflexivity]). discriminate.
  - rewrite state_with_draw in HR by (vm_compute; split; [discriminate|reflexivity]). rewrite VM in HR.
    assert (Er : r = 3) by (vm_compute in ER; congruence). subst r.
    assert (VR : fval binary32 3 = (3 * b2 (-149))%R).
    { rewrite (fval_mval binary32 ok32). change (sgn binary32 3) with 0. change (signR 0 ?X) with X. unfold mval. change (sig binary32 3) with 3. change (sexp binary32 3) with (-149). reflexivity. }
    assert (PL : place binary32 (13 / 4 * b2 (-149)) = (1 / 4)%R) by (unfold place; rewrite HB, HA; field; lra).
    rewrite PL, VR, HA in HR. change (band binary32) with (/ 536870912)%R in HR. change (2 ^ 52 - 1) with 4503599627370495 in HR.
    replace (2 ^ 52)%R with 4503599627370496%R in HR by (cbn; ring). assert (3 * b2 (-149) = 4 * b2 (-149))%R by (apply HR; lra). lra.
Qed.
Print Assumptions C95_subnormal_refuted.

(** The cast of a double to a float is not among them: in mode rr, with a precision of at least 24 for doubles, the cast of
    both backends is the IEEE one for every value, option and state, and draws nothing (the conversion happens inside the
    operation and its result needs no rounding). *)
Theorem C95_cast_deterministic :
  forall n k clk c a st, m_mode c = mca_rr -> 24 <= m_p64 c <= 112 -> is_bits binary64 a ->
  exists y r, encodes binary32 (flush_v binary64 (m_daz c) (dec binary64 a)) y /\
  mca_cast n k clk c a st = Ok (r, init_state c st) /\ dec binary32 r = dec binary32 y.
Proof.
  intros n k clk c a st Hm Ht Ha. destruct (rr_cast n clk k c a st Hm Ht Ha) as (y & r & EY & ER & DR). rewrite dec_flushed in EY by (assumption || apply ok64). eauto.
Qed.
Print Assumptions C95_cast_deterministic.
Example C95_cast_nonvacuous :
  mca_cast soft Quad 0 c95_ctx 0x3FD5555555555555 (state_with 0) = Ok (0x3EAAAAAB, state_with 0) /\
  mca_cast soft (Int Strict) 0 c95_ctx 0x3FD5555555555555 (state_with (2 ^ 52 - 1)) = Ok (0x3EAAAAAB, state_with (2 ^ 52 - 1)).
Proof. vm_compute. auto. Qed.
(** mcaint: every value of the draw is met, and the result of 1/3 and -1/3 changes with it, away from zero for the large ones *)
Definition istate_with (v : Z) : rst := (mk_rng true 0 true ((v + 2 ^ 63) mod 2 ^ 64, wrap64 (- ((v + 2 ^ 63) mod 2 ^ 64))), 0).
Lemma istate_with_draw clk c v : 0 <= v < 2 ^ 64 -> idraw clk (init_state c (istate_with v)) = v.
Proof.
  intros Hv. rewrite idraw_mod. unfold udraw, init_state, istate_with. set (w := (v + 2 ^ 63) mod 2 ^ 64). assert (W : 0 <= w < 2 ^ 64) by (apply Z.mod_pos_bound; reflexivity). cbn [fst snd]. unfold init_rng_state_struct, draw64, init_random_state. cbn [valid words fst snd].
  unfold xresult. cbn [fst snd]. unfold wrap64. rewrite Z.add_mod_idemp_r, Z.add_opp_diag_r by discriminate.
  change (rotl (0 mod 2 ^ 64) 17) with 0. rewrite Z.add_0_l. rewrite (Z.mod_small w) by exact W. unfold w. rewrite Z.add_mod_idemp_l by discriminate.
  replace (v + 2 ^ 63 + 2 ^ 63) with (v + 1 * 2 ^ 64) by (change (2 ^ 64) with (2 * 2 ^ 63); lia). rewrite Z.mod_add by discriminate. apply Z.mod_small. exact Hv.
Qed.
Example C95_int_nonvacuous :
  needs_rounding binary32 (Rabs (rop OpDiv (-1) 3)) /\
  fst_ok (mca_binary_op soft (Int Strict) 0 binary32 c95_ctx OpDiv 0x3F800000 0x40400000 (istate_with (2 ^ 62))) = Some 0x3EAAAAAA /\
  fst_ok (mca_binary_op soft (Int Strict) 0 binary32 c95_ctx OpDiv 0x3F800000 0x40400000 (istate_with (2 ^ 63))) = Some 0x3EAAAAAB /\
  fst_ok (mca_binary_op soft (Int Strict) 0 binary32 c95_ctx OpDiv 0xBF800000 0x40400000 (istate_with (2 ^ 62))) = Some 0xBEAAAAAA /\
  fst_ok (mca_binary_op soft (Int Strict) 0 binary32 c95_ctx OpDiv 0xBF800000 0x40400000 (istate_with (2 ^ 63))) = Some 0xBEAAAAAB /\
  exists l, all_upto (2 ^ 64) l.
Proof.
  split; [|split; [vm_compute; reflexivity|split; [vm_compute; reflexivity|split; [vm_compute; reflexivity|split; [vm_compute; reflexivity|]]]]].
  - replace (Rabs (rop OpDiv (-1) 3)) with (rop OpDiv 1 3); [apply C95_nonvacuous|]. cbn [rop]. rewrite Rabs_left by lra. lra.
  - destruct (Z_of_nat_complete (2 ^ 64)) as [m Hm]; [discriminate|]. exists (map Z.of_nat (seq 0 m)). apply (seq_draws (2 ^ 64)). symmetry. exact Hm.
Qed.
