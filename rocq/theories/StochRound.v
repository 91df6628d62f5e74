(** Random rounding at the native precision as stochastic rounding: the real-number part and the operation. *)
From Coq Require Import ZArith Reals Bool Lia Lra List.
From Flocq Require Import Core.
From Verif Require Import Common Bits BitsFacts FloatReal FloatValue FloatOps DoubleRound StdlibModel StdlibProofs RngModel RngProofs McaModel McaProofs McaOps.
Open Scope Z_scope.
Open Scope outcome_scope.

Lemma gen_flt em p j k : 0 < p -> Z.abs j <= 2 ^ p -> em <= k -> generic_format radix2 (FLT_exp em p) (IZR j * b2 k)%R.
Proof.
  intros Hp Hj Hk. assert (V : Prec_gt_0 p) by (unfold Prec_gt_0; lia).
  destruct (Z.eq_dec (Z.abs j) (2 ^ p)) as [E|E].
  - assert (G : generic_format radix2 (FLT_exp em p) (b2 (p + k))).
    { apply generic_format_bpow. unfold FLT_exp. lia. }
    assert (Q : (b2 (p + k) = IZR (2 ^ p) * b2 k)%R) by (rewrite bpow_plus, IZR_pow2 by lia; reflexivity). rewrite Q, <- E in G.
    destruct (Z.abs_eq_or_opp j) as [A|A]; rewrite A in G; [exact G|]. rewrite opp_IZR in G.
    replace (IZR j * b2 k)%R with (- (- IZR j * b2 k))%R by ring. apply generic_format_opp. exact G.
  - apply generic_format_FLT. exists (Float radix2 j k); cbn [Fnum Fexp]; [reflexivity|change (radix2 ^ p) with (2 ^ p); lia|exact Hk].
Qed.
(** the spacing of the format inside a binade *)
Lemma cexp_in em p e x : (b2 e <= Rabs x < b2 (e + 1))%R -> em <= e + 1 - p -> cexp radix2 (FLT_exp em p) x = e + 1 - p.
Proof.
  intros Hx He. unfold cexp. replace (mag radix2 x : Z) with (e + 1); [unfold FLT_exp; lia|].
  symmetry. apply mag_unique. replace (e + 1 - 1) with e by lia. exact Hx.
Qed.
Lemma binade p e j : 0 < p -> 2 ^ (p - 1) <= j < 2 ^ p -> (b2 e <= IZR j * b2 (e + 1 - p) < b2 (e + 1))%R.
Proof.
  intros Hp [L U]. split.
  - replace (b2 e) with (b2 ((p - 1) + (e + 1 - p))) by (f_equal; lia). rewrite bpow_plus, <- (IZR_pow2 (p - 1)) by lia. apply Rmult_le_compat_r; [apply bpow_ge_0|apply IZR_le; exact L].
  - replace (b2 (e + 1)) with (b2 (p + (e + 1 - p))) by (f_equal; lia). rewrite bpow_plus, <- (IZR_pow2 p) by lia. apply Rmult_lt_compat_r; [apply bpow_gt_0|apply IZR_lt; exact U].
Qed.
Lemma succ_in em p e j : 0 < p -> em <= e + 1 - p -> 2 ^ (p - 1) <= j < 2 ^ p ->
  succ radix2 (FLT_exp em p) (IZR j * b2 (e + 1 - p)) = (IZR (j + 1) * b2 (e + 1 - p))%R.
Proof.
  intros Hp He Hj. pose proof (binade p e j Hp Hj) as B. pose proof (bpow_gt_0 radix2 e) as P.
  assert (V : Prec_gt_0 p) by (unfold Prec_gt_0; lia). rewrite succ_eq_pos by lra. rewrite ulp_neq_0 by lra.
  rewrite (cexp_in em p e); [rewrite plus_IZR; ring|rewrite Rabs_pos_eq by lra; exact B|exact He].
Qed.
Lemma pred_in em p e j : 0 < p -> em <= e + 1 - p -> 2 ^ (p - 1) <= j < 2 ^ p ->
  pred radix2 (FLT_exp em p) (IZR (j + 1) * b2 (e + 1 - p)) = (IZR j * b2 (e + 1 - p))%R.
Proof.
  intros Hp He Hj. assert (V : Prec_gt_0 p) by (unfold Prec_gt_0; lia).
  rewrite <- (succ_in em p e j) by assumption. apply pred_succ; [apply FLT_exp_valid; exact V|].
  apply gen_flt; [exact Hp| |exact He]. assert (0 < 2 ^ (p - 1)) by (apply pow2_pos; lia). lia.
Qed.

(** the integer behind a number of the format *)
Lemma gen_int em p e x : 0 < p -> em <= e + 1 - p -> (b2 e <= x < b2 (e + 1))%R -> generic_format radix2 (FLT_exp em p) x ->
  exists i, x = (IZR i * b2 (e + 1 - p))%R /\ 2 ^ (p - 1) <= i < 2 ^ p.
Proof.
  intros Hp He Hx HG. pose proof (bpow_gt_0 radix2 e) as P.
  assert (C : cexp radix2 (FLT_exp em p) x = e + 1 - p) by (apply cexp_in; [rewrite Rabs_pos_eq by lra; exact Hx|exact He]).
  unfold generic_format in HG. rewrite C in HG. unfold F2R in HG. cbn [Fnum Fexp] in HG. set (i := Ztrunc _) in HG. exists i. split; [exact HG|].
  rewrite HG in Hx. pose proof (bpow_gt_0 radix2 (e + 1 - p)) as P2. destruct Hx as [L U]. split.
  - apply le_IZR. rewrite IZR_pow2 by lia. apply Rmult_le_reg_r with (1 := P2). rewrite <- bpow_plus. replace (p - 1 + (e + 1 - p)) with e by lia. exact L.
  - apply lt_IZR. rewrite IZR_pow2 by lia. apply Rmult_lt_reg_r with (1 := P2). rewrite <- bpow_plus. replace (p + (e + 1 - p)) with (e + 1) by lia. exact U.
Qed.

(** the two neighbours in the format of a number that is not in it *)
Lemma neighbours em p e x : 0 < p -> em <= e + 1 - p -> (b2 e <= x < b2 (e + 1))%R -> ~ generic_format radix2 (FLT_exp em p) x ->
  exists m, 2 ^ (p - 1) <= m < 2 ^ p /\ round radix2 (FLT_exp em p) Zfloor x = (IZR m * b2 (e + 1 - p))%R /\
  round radix2 (FLT_exp em p) Zceil x = (IZR (m + 1) * b2 (e + 1 - p))%R /\ (IZR m * b2 (e + 1 - p) < x < IZR (m + 1) * b2 (e + 1 - p))%R.
Proof.
  intros Hp He Hx HG. pose proof (bpow_gt_0 radix2 e) as P. pose proof (bpow_gt_0 radix2 (e + 1 - p)) as Pu.
  assert (V : Prec_gt_0 p) by (unfold Prec_gt_0; lia).
  assert (C : cexp radix2 (FLT_exp em p) x = e + 1 - p) by (apply cexp_in; [rewrite Rabs_pos_eq by lra; exact Hx|exact He]).
  exists (Zfloor (x * b2 (- (e + 1 - p)))). set (s := (x * b2 (- (e + 1 - p)))%R).
  assert (HS : x = (s * b2 (e + 1 - p))%R).
  { unfold s. rewrite Rmult_assoc, <- bpow_plus. replace (- (e + 1 - p) + (e + 1 - p)) with 0 by lia. change (b2 0) with 1%R. ring. }
  assert (SM : scaled_mantissa radix2 (FLT_exp em p) x = s) by (unfold scaled_mantissa; rewrite C; reflexivity).
  assert (HF : s <> IZR (Zfloor s)).
  { intros E. apply HG. rewrite HS, E. apply gen_flt; [exact Hp| |exact He]. rewrite E in HS. rewrite HS in Hx. destruct Hx as [L U].
    assert (0 < Zfloor s).
    { apply lt_IZR. apply Rmult_lt_reg_r with (1 := Pu). rewrite Rmult_0_l. lra. }
    rewrite Z.abs_eq by lia. apply Z.lt_le_incl, lt_IZR. rewrite IZR_pow2 by lia. apply Rmult_lt_reg_r with (1 := Pu). rewrite <- bpow_plus.
    replace (p + (e + 1 - p)) with (e + 1) by lia. exact U. }
  pose proof (Zfloor_lb s) as FL. pose proof (Zfloor_ub s) as FU.
  assert (B : 2 ^ (p - 1) <= Zfloor s < 2 ^ p).
  { rewrite HS in Hx. destruct Hx as [L U]. split.
    - apply Zfloor_lub. rewrite IZR_pow2 by lia. apply Rmult_le_reg_r with (1 := Pu). rewrite <- bpow_plus. replace (p - 1 + (e + 1 - p)) with e by lia. exact L.
    - apply lt_IZR. rewrite IZR_pow2 by lia. apply Rmult_lt_reg_r with (1 := Pu). rewrite <- bpow_plus. replace (p + (e + 1 - p)) with (e + 1) by lia.
      eapply Rle_lt_trans; [apply Rmult_le_compat_r; [lra|exact FL]|exact U]. }
  split; [exact B|]. unfold round. rewrite SM, C. unfold F2R. cbn [Fnum Fexp]. split; [reflexivity|].
  split; [rewrite Zceil_floor_neq by congruence; reflexivity|]. clearbody s. subst x. split; apply Rmult_lt_compat_r; try exact Pu.
  - lra.
  - rewrite plus_IZR. lra.
Qed.

Section reals.
  Context (ef p eg q e : Z) (Hp : 1 < p) (Hq : p + 2 <= q) (Hef : ef <= e + 1 - p) (Heg : eg <= e + 1 - q).
  Notation F := (FLT_exp ef p). Notation G := (FLT_exp eg q).
  Let u := b2 (e + 1 - p). Let w := b2 (e + 1 - q).
  Lemma u_w : u = (IZR (2 ^ (q - p)) * w)%R.
  Proof. unfold u, w. rewrite IZR_pow2 by lia. rewrite <- bpow_plus. f_equal. lia. Qed.
  Lemma u_half : (u / 2 = IZR (2 ^ (q - p - 1)) * w)%R.
  Proof. rewrite u_w. replace (2 ^ (q - p)) with (2 * 2 ^ (q - p - 1)) by (rewrite <- pow2_S by lia; f_equal; lia). rewrite mult_IZR. lra. Qed.

  (** X positive, N at most half a spacing, the lower neighbour not the power of two *)
  Lemma stoch_pos X N m : (b2 e <= X < b2 (e + 1))%R -> generic_format radix2 G X -> 2 ^ (p - 1) < m < 2 ^ p ->
    (IZR m * u < X < IZR (m + 1) * u)%R -> (- (u / 2) <= N <= u / 2)%R ->
    let Z := round radix2 F ZnearestE (round radix2 G ZnearestE (X + N)) in
    (Z = IZR m * u \/ Z = IZR (m + 1) * u)%R /\
    ((IZR m * u + u / 2 + w / 2 < X + N)%R -> Z = (IZR (m + 1) * u)%R) /\
    ((X + N < IZR m * u + u / 2 - w / 2)%R -> Z = (IZR m * u)%R).
  Proof.
    intros HX GX Hm Hl HN Z. set (Y := round radix2 G ZnearestE (X + N)) in *.
    assert (VP : Prec_gt_0 p) by (unfold Prec_gt_0; lia). assert (VQ : Prec_gt_0 q) by (unfold Prec_gt_0; lia).
    assert (VF : Valid_exp F) by (apply FLT_exp_valid; exact VP). assert (VG : Valid_exp G) by (apply FLT_exp_valid; exact VQ).
    pose proof (bpow_gt_0 radix2 (e + 1 - p)) as Pu. fold u in Pu. pose proof (bpow_gt_0 radix2 (e + 1 - q)) as Pw. fold w in Pw.
    assert (Pp : 0 < 2 ^ (p - 1)) by (apply pow2_pos; lia). assert (P2 : 2 ^ p = 2 * 2 ^ (p - 1)) by (rewrite <- pow2_S by lia; f_equal; lia).
    assert (Pr : 0 < 2 ^ (q - p - 1)) by (apply pow2_pos; lia).
    assert (Q1 : 2 ^ (q - 1) = 2 ^ (p - 1) * (2 * 2 ^ (q - p - 1))) by (rewrite <- pow2_S by lia; rewrite <- pow2_split by lia; f_equal; lia).
    assert (Q2 : 2 ^ q = 2 ^ p * (2 * 2 ^ (q - p - 1))) by (rewrite <- pow2_S by lia; rewrite <- pow2_split by lia; f_equal; lia).
    destruct (gen_int eg q e X ltac:(lia) Heg HX GX) as (i & EX & Hi). fold w in EX.
    pose proof u_half as UH. pose proof u_w as UW.
    assert (GL : generic_format radix2 F (IZR m * u)) by (apply gen_flt; lia).
    assert (GH : generic_format radix2 F (IZR (m + 1) * u)) by (apply gen_flt; lia).
    (* the integer of the lower end *)
    assert (ML : (IZR m * u = IZR (m * (2 * 2 ^ (q - p - 1))) * w)%R).
    { rewrite !mult_IZR. replace u with (2 * (u / 2))%R by lra. rewrite UH. ring. }
    assert (Il : m * (2 * 2 ^ (q - p - 1)) < i).
    { apply lt_IZR. apply Rmult_lt_reg_r with (1 := Pw). rewrite <- ML, <- EX. apply Hl. }
    assert (Iu : i < (m + 1) * (2 * 2 ^ (q - p - 1))).
    { apply lt_IZR. apply Rmult_lt_reg_r with (1 := Pw). rewrite <- EX. eapply Rlt_le_trans; [apply Hl|]. right.
      rewrite !mult_IZR. replace u with (2 * (u / 2))%R at 1 by lra. rewrite UH. ring. }
    (* Z >= lo *)
    assert (ZL : (IZR m * u <= Z)%R).
    { unfold Z. apply round_N_ge_midp; [exact VF|exact GL|]. replace m with (m - 1 + 1) at 2 by lia. unfold u. rewrite pred_in by lia. fold u.
      apply Rlt_le_trans with (X - u / 2)%R; [rewrite minus_IZR; lra|].
      unfold Y. apply round_ge_generic; [exact VG|apply valid_rnd_N| |lra].
      replace (X - u / 2)%R with (IZR (i - 2 ^ (q - p - 1)) * w)%R by (rewrite minus_IZR, EX, UH; ring). apply gen_flt; [lia| |exact Heg]. nia. }
    (* Z <= hi *)
    assert (ZH : (Z <= IZR (m + 1) * u)%R).
    { destruct (Z.eq_dec (m + 1) (2 ^ p)) as [E|E].
      - assert (EH : (IZR (m + 1) * u = b2 (e + 1))%R).
        { rewrite E, IZR_pow2 by lia. unfold u. rewrite <- bpow_plus. f_equal. lia. }
        unfold Z. apply round_N_le_midp; [exact VF|exact GH|].
        assert (ES : (succ radix2 F (IZR (m + 1) * u) = IZR (m + 1) * u + 2 * u)%R).
        { rewrite EH. pose proof (bpow_gt_0 radix2 (e + 1)). rewrite succ_eq_pos by lra. rewrite ulp_bpow. f_equal.
          replace (F (e + 1 + 1)) with (1 + (e + 1 - p)) by (unfold FLT_exp; lia). rewrite bpow_plus. reflexivity. }
        rewrite ES. apply Rle_lt_trans with (IZR (m + 1) * u + u / 2)%R; [|lra].
        unfold Y. apply round_le_generic; [exact VG|apply valid_rnd_N| |lra].
        replace (IZR (m + 1) * u + u / 2)%R with (IZR (2 * m + 3) * b2 (e - p))%R.
        2:{ replace u with (2 * b2 (e - p))%R; [rewrite !plus_IZR, mult_IZR; lra|]. unfold u. replace (e + 1 - p) with (1 + (e - p)) by lia. rewrite bpow_plus. reflexivity. }
        apply gen_flt; [lia| |lia]. assert (2 <= 2 ^ (q - p - 1)) by (change 2 with (2 ^ 1) at 1; apply pow2_le; lia). nia.
      - unfold Z. apply round_N_le_midp; [exact VF|exact GH|]. unfold u at 2. rewrite succ_in by lia. fold u.
        apply Rle_lt_trans with (X + u / 2)%R; [|rewrite !plus_IZR in *; lra].
        unfold Y. apply round_le_generic; [exact VG|apply valid_rnd_N| |lra].
        replace (X + u / 2)%R with (IZR (i + 2 ^ (q - p - 1)) * w)%R by (rewrite plus_IZR, EX, UH; ring). apply gen_flt; [lia| |exact Heg]. nia. }
    (* the midpoint *)
    set (j := (2 * m + 1) * 2 ^ (q - p - 1)).
    assert (EM : (IZR m * u + u / 2 = IZR j * w)%R).
    { rewrite ML, UH. unfold j. rewrite !mult_IZR, plus_IZR, mult_IZR. ring. }
    assert (Hj : 2 ^ (q - 1) < j /\ j + 1 < 2 ^ q) by (unfold j; assert (1 < 2 ^ (q - p - 1)) by (change 1 with (2 ^ 0) at 1; apply Z.pow_lt_mono_r; lia); nia).
    assert (UP : (IZR j * w + w / 2 < X + N)%R -> (IZR (m + 1) * u <= Z)%R).
    { intros H. unfold Z. apply round_N_ge_midp; [exact VF|exact GH|]. unfold u at 2. rewrite pred_in by lia. fold u.
      assert (K : (IZR (j + 1) * w <= Y)%R).
      { unfold Y. apply round_N_ge_midp; [exact VG|apply gen_flt; lia|]. unfold w at 2. rewrite pred_in by lia. fold w. rewrite plus_IZR. lra. }
      rewrite plus_IZR in *. lra. }
    assert (DN : (X + N < IZR j * w - w / 2)%R -> (Z <= IZR m * u)%R).
    { intros H. unfold Z. apply round_N_le_midp; [exact VF|exact GL|]. unfold u at 2. rewrite succ_in by lia. fold u.
      assert (K : (Y <= IZR (j - 1) * w)%R).
      { unfold Y. apply round_N_le_midp; [exact VG|apply gen_flt; lia|]. unfold w at 2. rewrite succ_in by lia. fold w. rewrite plus_IZR, minus_IZR. lra. }
      rewrite plus_IZR, minus_IZR in *. lra. }
    rewrite EM. split; [|split; [intros H; apply Rle_antisym; auto|intros H; apply Rle_antisym; auto]].
    (* nothing lies between *)
    assert (GZ : generic_format radix2 F Z) by (apply generic_format_round; [exact VF|apply valid_rnd_N]).
    destruct (Rle_lt_dec Z (IZR m * u)) as [?|K]; [left; lra|right]. apply Rle_antisym; [exact ZH|].
    unfold u. rewrite <- (succ_in ef p e m) by lia. fold u. apply succ_le_lt; assumption.
  Qed.

  (** an operation with exact result E rounds E to the wide format and, unless the narrow format has that number X, adds the
      noise N, rounds the sum to the wide format, and then to the narrow one *)
  Definition rr_result (E N Z : R) : Prop :=
    let lo := round radix2 F Zfloor E in let hi := round radix2 F Zceil E in
    (lo < E < hi)%R /\ (hi - lo = u)%R /\ (Z = lo \/ Z = hi) /\
    ((lo + u / 2 + w < E + N)%R -> Z = hi) /\ ((E + N < lo + u / 2 - w)%R -> Z = lo).
  Lemma rr_pos E N Z : (b2 e <= E < b2 (e + 1))%R -> ~ generic_format radix2 F E -> (b2 e < round radix2 F Zfloor E)%R -> (- (u / 2) <= N <= u / 2)%R ->
    let X := round radix2 G ZnearestE E in
    (generic_format radix2 F X -> Z = X -> rr_result E N Z) /\
    (~ generic_format radix2 F X -> (b2 e <= X < b2 (e + 1))%R /\ (Z = round radix2 F ZnearestE (round radix2 G ZnearestE (X + N)) -> rr_result E N Z)).
  Proof.
    intros HE GE HL HN X.
    assert (VP : Prec_gt_0 p) by (unfold Prec_gt_0; lia). assert (VQ : Prec_gt_0 q) by (unfold Prec_gt_0; lia).
    assert (VF : Valid_exp F) by (apply FLT_exp_valid; exact VP). assert (VG : Valid_exp G) by (apply FLT_exp_valid; exact VQ).
    pose proof (bpow_gt_0 radix2 (e + 1 - p)) as Pu. fold u in Pu. pose proof (bpow_gt_0 radix2 (e + 1 - q)) as Pw. fold w in Pw.
    pose proof (bpow_gt_0 radix2 e) as Pe.
    assert (Pp : 0 < 2 ^ (p - 1)) by (apply pow2_pos; lia). assert (P2 : 2 ^ p = 2 * 2 ^ (p - 1)) by (rewrite <- pow2_S by lia; f_equal; lia).
    destruct (neighbours ef p e E ltac:(lia) Hef HE GE) as (m & Hm & DL & DH & Hl). fold u in DL, DH, Hl. unfold rr_result. rewrite DL, DH. rewrite DL in HL.
    assert (Hm' : 2 ^ (p - 1) < m).
    { destruct (Z.eq_dec m (2 ^ (p - 1))) as [K|K]; [exfalso|lia]. rewrite K, IZR_pow2 in HL by lia. unfold u in HL. rewrite <- bpow_plus in HL.
      replace (p - 1 + (e + 1 - p)) with e in HL by lia. lra. }
    assert (HU : (IZR (m + 1) * u <= b2 (e + 1))%R).
    { replace (b2 (e + 1)) with (IZR (2 ^ p) * u)%R; [apply Rmult_le_compat_r; [lra|apply IZR_le; lia]|]. rewrite IZR_pow2 by lia. unfold u. rewrite <- bpow_plus. f_equal. lia. }
    assert (GLg : generic_format radix2 G (IZR m * u)).
    { assert (2 ^ p <= 2 ^ q) by (apply pow2_le; lia). apply gen_flt; lia. }
    assert (GHg : generic_format radix2 G (IZR (m + 1) * u)).
    { assert (2 ^ p <= 2 ^ q) by (apply pow2_le; lia). apply gen_flt; lia. }
    assert (GL : generic_format radix2 F (IZR m * u)) by (apply gen_flt; lia).
    assert (XL : (IZR m * u <= X)%R) by (apply round_ge_generic; [exact VG|apply valid_rnd_N|exact GLg|lra]).
    assert (XH : (X <= IZR (m + 1) * u)%R) by (apply round_le_generic; [exact VG|apply valid_rnd_N|exact GHg|lra]).
    assert (XE : (Rabs (X - E) <= w / 2)%R).
    { pose proof (error_le_half_ulp radix2 G (fun x => negb (Z.even x)) E) as K. rewrite ulp_neq_0 in K by lra.
      rewrite (cexp_in eg q e) in K; [fold w X in K; lra|rewrite Rabs_pos_eq by lra; exact HE|exact Heg]. }
    apply Rabs_le_inv in XE. rewrite plus_IZR in *. split.
    - intros GX ->. split; [lra|]. split; [lra|].
      assert (EX : (X = IZR m * u \/ X = (IZR m + 1) * u)%R).
      { destruct (Rle_lt_dec X (IZR m * u)) as [?|K]; [left; lra|right]. apply Rle_antisym; [exact XH|].
        replace ((IZR m + 1) * u)%R with (succ radix2 F (IZR m * u)); [apply succ_le_lt; assumption|]. unfold u. rewrite succ_in by lia. rewrite plus_IZR. reflexivity. }
      split; [exact EX|]. destruct EX as [EX|EX]; rewrite EX in *; split; intros; lra.
    - intros GX.
      assert (NL : X <> (IZR m * u)%R) by (intros K; apply GX; rewrite K; exact GL).
      assert (NH : X <> ((IZR m + 1) * u)%R) by (intros K; apply GX; rewrite K; rewrite <- plus_IZR; apply gen_flt; lia).
      assert (BX : (b2 e <= X < b2 (e + 1))%R) by lra. split; [exact BX|]. intros EZ.
      destruct (stoch_pos X N m BX) as (S1 & S2 & S3); [apply generic_format_round; [exact VG|apply valid_rnd_N]|lia|rewrite plus_IZR; lra|exact HN|].
      rewrite <- EZ in S1, S2, S3. rewrite plus_IZR in *. split; [lra|]. split; [lra|]. split; [exact S1|]. split; intros; [apply S2; lra|apply S3; lra].
  Qed.
  Lemma rr_signed E N : (b2 e <= Rabs E < b2 (e + 1))%R -> ~ generic_format radix2 F E -> (b2 e < Rabs (round radix2 F Ztrunc E))%R -> (- (u / 2) <= N <= u / 2)%R ->
    let X := round radix2 G ZnearestE E in
    (generic_format radix2 F X -> rr_result E N X) /\
    (~ generic_format radix2 F X -> (b2 e <= Rabs X < b2 (e + 1))%R /\ rr_result E N (round radix2 F ZnearestE (round radix2 G ZnearestE (X + N)))).
  Proof.
    intros HE GE HL HN X. pose proof (bpow_gt_0 radix2 e) as Pe.
    assert (VP : Prec_gt_0 p) by (unfold Prec_gt_0; lia). assert (VF : Valid_exp F) by (apply FLT_exp_valid; exact VP).
    destruct (Rle_lt_dec 0 E) as [S|S].
    - rewrite (Rabs_pos_eq E) in HE by exact S. rewrite round_ZR_DN in HL by exact S.
      assert (L0 : (0 <= round radix2 F Zfloor E)%R) by (apply round_ge_generic; [exact VF|apply valid_rnd_DN|apply generic_format_0|exact S]).
      rewrite (Rabs_pos_eq (round _ _ _ _)) in HL by exact L0.
      pose proof (fun Z => rr_pos E N Z HE GE HL HN) as H. cbn zeta in H. fold X in H. split.
      + intros GX. apply (proj1 (H X)); [exact GX|reflexivity].
      + intros GX. destruct (proj2 (H (round radix2 F ZnearestE (round radix2 G ZnearestE (X + N)))) GX) as [B R]. split; [rewrite Rabs_pos_eq by lra; exact B|apply R; reflexivity].
    - rewrite (Rabs_left E) in HE by exact S. rewrite round_ZR_UP in HL by lra.
      assert (L0 : (round radix2 F Zceil E <= 0)%R) by (apply round_le_generic; [exact VF|apply valid_rnd_UP|apply generic_format_0|lra]).
      rewrite (Rabs_left1 (round _ _ _ _)) in HL by exact L0. rewrite <- round_DN_opp in HL.
      assert (GE' : ~ generic_format radix2 F (- E)) by (intros K; apply GE; rewrite <- (Ropp_involutive E); apply generic_format_opp; exact K).
      assert (HN' : (- (u / 2) <= - N <= u / 2)%R) by lra.
      pose proof (fun Z => rr_pos (- E) (- N) Z HE GE' HL HN') as H. cbn zeta in H. rewrite round_NE_opp in H. fold X in H.
      assert (OPP : forall Z, rr_result (- E) (- N) (- Z) -> rr_result E N Z).
      { intros Z. unfold rr_result. cbn zeta. rewrite round_DN_opp, round_UP_opp. intros (A1 & A2 & A3 & A4 & A5). split; [lra|]. split; [lra|]. split; [destruct A3; [right|left]; lra|].
        split; intros K.
        - assert (- Z = - round radix2 F Zceil E)%R by (apply A5; lra). lra.
        - assert (- Z = - round radix2 F Zfloor E)%R by (apply A4; lra). lra. }
      split.
      + intros GX. apply OPP. apply (proj1 (H (- X)%R)); [apply generic_format_opp; exact GX|reflexivity].
      + intros GX. assert (GX' : ~ generic_format radix2 F (- X)) by (intros K; apply GX; rewrite <- (Ropp_involutive X); apply generic_format_opp; exact K).
        set (Z := round radix2 F ZnearestE (round radix2 G ZnearestE (X + N))).
        destruct (proj2 (H (- Z)%R) GX') as [B R]. split; [rewrite <- Rabs_Ropp, Rabs_pos_eq by lra; exact B|]. apply OPP, R.
        unfold Z. replace (- X + - N)%R with (- (X + N))%R by ring. rewrite !round_NE_opp. reflexivity.
  Qed.

  (** mcaint: the noise is added to the pattern of X; above the next power of two one unit is twice as large *)
  Definition int_sum (X N : R) : R := if Rle_bool (X + N) (b2 (e + 1)) then (X + N)%R else (2 * (X + N) - b2 (e + 1))%R.
  Lemma int_pos X N m : (b2 e <= X < b2 (e + 1))%R -> 2 ^ (p - 1) < m < 2 ^ p ->
    (IZR m * u < X < IZR (m + 1) * u)%R -> (- (u / 2) <= N <= u / 2)%R ->
    let Z := round radix2 F ZnearestE (int_sum X N) in
    (Z = IZR m * u \/ Z = IZR (m + 1) * u)%R /\
    ((IZR m * u + u / 2 < X + N)%R -> Z = (IZR (m + 1) * u)%R) /\ ((X + N < IZR m * u + u / 2)%R -> Z = (IZR m * u)%R).
  Proof.
    intros HX Hm Hl HN Z. set (Y := int_sum X N) in *.
    assert (VP : Prec_gt_0 p) by (unfold Prec_gt_0; lia). assert (VF : Valid_exp F) by (apply FLT_exp_valid; exact VP).
    pose proof (bpow_gt_0 radix2 (e + 1 - p)) as Pu. fold u in Pu.
    assert (Pp : 0 < 2 ^ (p - 1)) by (apply pow2_pos; lia). assert (P2 : 2 ^ p = 2 * 2 ^ (p - 1)) by (rewrite <- pow2_S by lia; f_equal; lia).
    assert (GL : generic_format radix2 F (IZR m * u)) by (apply gen_flt; lia).
    assert (GH : generic_format radix2 F (IZR (m + 1) * u)) by (apply gen_flt; lia).
    assert (EB : (b2 (e + 1) = IZR (2 ^ p) * u)%R) by (rewrite IZR_pow2 by lia; unfold u; rewrite <- bpow_plus; f_equal; lia).
    assert (HB : (IZR (m + 1) * u <= b2 (e + 1))%R) by (rewrite EB; apply Rmult_le_compat_r; [lra|apply IZR_le; lia]).
    assert (YL : (X + N <= Y)%R) by (unfold Y, int_sum; destruct (Rle_bool_spec (X + N) (b2 (e + 1))); lra).
    assert (YU : (X + N <= b2 (e + 1))%R -> Y = (X + N)%R) by (intros K; unfold Y, int_sum; rewrite Rle_bool_true by exact K; reflexivity).
    assert (YH : (Y <= b2 (e + 1) \/ Y = 2 * (X + N) - b2 (e + 1))%R) by (unfold Y, int_sum; destruct (Rle_bool_spec (X + N) (b2 (e + 1))); [left; lra|right; reflexivity]).
    assert (ZL : (IZR m * u <= Z)%R).
    { unfold Z. apply round_N_ge_midp; [exact VF|exact GL|]. replace m with (m - 1 + 1) at 2 by lia. unfold u. rewrite pred_in by lia. fold u. rewrite minus_IZR. lra. }
    assert (ZH : (Z <= IZR (m + 1) * u)%R).
    { unfold Z. apply round_N_le_midp; [exact VF|exact GH|]. destruct (Z.eq_dec (m + 1) (2 ^ p)) as [E|E].
      - assert (EH : (IZR (m + 1) * u = b2 (e + 1))%R) by (rewrite E, EB; reflexivity).
        assert (ES : (succ radix2 F (IZR (m + 1) * u) = IZR (m + 1) * u + 2 * u)%R).
        { rewrite EH. pose proof (bpow_gt_0 radix2 (e + 1)). rewrite succ_eq_pos by lra. rewrite ulp_bpow. f_equal.
          replace (F (e + 1 + 1)) with (1 + (e + 1 - p)) by (unfold FLT_exp; lia). rewrite bpow_plus. reflexivity. }
        rewrite ES. lra.
      - unfold u at 2. rewrite succ_in by lia. fold u.
        assert (K : (IZR (m + 1) * u + u <= b2 (e + 1))%R).
        { rewrite EB. apply Rle_trans with (IZR (m + 1 + 1) * u)%R; [rewrite (plus_IZR (m + 1)); lra|]. apply Rmult_le_compat_r; [lra|apply IZR_le; lia]. }
        rewrite YU by lra. rewrite (plus_IZR (m + 1)). lra. }
    assert (HM : (IZR m * u + u / 2 < b2 (e + 1))%R) by (rewrite plus_IZR in HB; lra).
    assert (UP : (IZR m * u + u / 2 < X + N)%R -> (IZR (m + 1) * u <= Z)%R).
    { intros H. unfold Z. apply round_N_ge_midp; [exact VF|exact GH|]. unfold u at 2. rewrite pred_in by lia. fold u. rewrite plus_IZR. lra. }
    assert (DN : (X + N < IZR m * u + u / 2)%R -> (Z <= IZR m * u)%R).
    { intros H. unfold Z. apply round_N_le_midp; [exact VF|exact GL|]. unfold u at 2. rewrite succ_in by lia. fold u. rewrite YU by lra. rewrite plus_IZR. lra. }
    split; [|split; [intros H; apply Rle_antisym; auto|intros H; apply Rle_antisym; auto]].
    assert (GZ : generic_format radix2 F Z) by (apply generic_format_round; [exact VF|apply valid_rnd_N]).
    destruct (Rle_lt_dec Z (IZR m * u)) as [?|K]; [left; lra|right]. apply Rle_antisym; [exact ZH|].
    unfold u. rewrite <- (succ_in ef p e m) by lia. fold u. apply succ_le_lt; assumption.
  Qed.
  Lemma rr_int E N : (b2 e <= E < b2 (e + 1))%R -> ~ generic_format radix2 F E -> (b2 e < round radix2 F Zfloor E)%R -> (- (u / 2) <= N <= u / 2)%R ->
    let X := round radix2 G ZnearestE E in
    (generic_format radix2 F X -> rr_result E N X) /\
    (~ generic_format radix2 F X -> (b2 e + u <= X < b2 (e + 1))%R /\ rr_result E N (round radix2 F ZnearestE (int_sum X N))).
  Proof.
    intros HE GE HL HN X. pose proof (fun Z => rr_pos E N Z HE GE HL HN) as H. cbn zeta in H. fold X in H.
    split; [intros GX; apply (proj1 (H X)); [exact GX|reflexivity]|]. intros GX.
    destruct (proj2 (H (round radix2 F ZnearestE (round radix2 G ZnearestE (X + N)))) GX) as [BX RR].
    specialize (RR eq_refl). destruct RR as (R1 & R2 & _).
    assert (VP : Prec_gt_0 p) by (unfold Prec_gt_0; lia). assert (VQ : Prec_gt_0 q) by (unfold Prec_gt_0; lia).
    assert (VF : Valid_exp F) by (apply FLT_exp_valid; exact VP). assert (VG : Valid_exp G) by (apply FLT_exp_valid; exact VQ).
    pose proof (bpow_gt_0 radix2 (e + 1 - p)) as Pu. fold u in Pu. pose proof (bpow_gt_0 radix2 (e + 1 - q)) as Pw. fold w in Pw. pose proof (bpow_gt_0 radix2 e) as Pe.
    assert (Pp : 0 < 2 ^ (p - 1)) by (apply pow2_pos; lia). assert (P2 : 2 ^ p = 2 * 2 ^ (p - 1)) by (rewrite <- pow2_S by lia; f_equal; lia).
    destruct (neighbours ef p e E ltac:(lia) Hef HE GE) as (m & Hm & DL & DH & Hl). fold u in DL, DH, Hl. rewrite DL in HL.
    assert (EE : (b2 e = IZR (2 ^ (p - 1)) * u)%R) by (rewrite IZR_pow2 by lia; unfold u; rewrite <- bpow_plus; f_equal; lia).
    assert (Hm' : 2 ^ (p - 1) < m).
    { apply lt_IZR. apply Rmult_lt_reg_r with (1 := Pu). rewrite <- EE. exact HL. }
    assert (GLg : generic_format radix2 G (IZR m * u)) by (assert (2 ^ p <= 2 ^ q) by (apply pow2_le; lia); apply gen_flt; lia).
    assert (GHg : generic_format radix2 G (IZR (m + 1) * u)) by (assert (2 ^ p <= 2 ^ q) by (apply pow2_le; lia); apply gen_flt; lia).
    assert (XL : (IZR m * u <= X)%R) by (apply round_ge_generic; [exact VG|apply valid_rnd_N|exact GLg|lra]).
    assert (XH : (X <= IZR (m + 1) * u)%R) by (apply round_le_generic; [exact VG|apply valid_rnd_N|exact GHg|lra]).
    assert (NL : X <> (IZR m * u)%R) by (intros K; apply GX; rewrite K; apply gen_flt; lia).
    assert (NH : X <> (IZR (m + 1) * u)%R) by (intros K; apply GX; rewrite K; apply gen_flt; lia).
    assert (XE : (Rabs (X - E) <= w / 2)%R).
    { pose proof (error_le_half_ulp radix2 G (fun x => negb (Z.even x)) E) as K. rewrite ulp_neq_0 in K by lra.
      rewrite (cexp_in eg q e) in K; [fold w X in K; lra|rewrite Rabs_pos_eq by lra; exact HE|exact Heg]. }
    apply Rabs_le_inv in XE. destruct (int_pos X N m BX ltac:(lia) ltac:(lra) HN) as (S1 & S2 & S3).
    split.
    - split; [|apply BX]. apply Rle_trans with (IZR m * u)%R; [|exact XL]. rewrite EE. apply Rle_trans with (IZR (2 ^ (p - 1) + 1) * u)%R; [rewrite plus_IZR; lra|].
      apply Rmult_le_compat_r; [lra|apply IZR_le; lia].
    - unfold rr_result. rewrite DL, DH. split; [lra|]. split; [rewrite plus_IZR; lra|]. split; [exact S1|]. split; intros; [apply S2; lra|apply S3; lra].
  Qed.
End reals.

Section operation.
  Context (n : arith) (Hn : ieee_arith n) (clk : Z).
  Notation ffmt f := (FLT_exp (emin_ulp f) (mw f + 1)).

  Lemma generic_fits f X : fmt_ok f -> generic_format radix2 (ffmt f) X -> fits (mw f + 1) X.
  Proof.
    intros Hf HG. assert (V : Prec_gt_0 (mw f + 1)) by (unfold Prec_gt_0; destruct Hf; lia).
    apply FLT_format_generic in HG; [|exact V]. destruct HG as [[m k] E1 E2 E3]. cbn [Fnum Fexp] in *. exists m, k. split; [exact E2|exact E1].
  Qed.

  (** a rounded result in the normal range is not affected by FTZ *)
  Lemma out_normal f c s W y : fmt_ok f -> encodes f (DFin s W) y -> (b2 (1 - bias f) <= Rabs (rnd (femin f) (mw f) W) < b2 (bias f + 1))%R ->
    is_finite f (flush_out f c y) = true /\ fval f (flush_out f c y) = rnd (femin f) (mw f) W.
  Proof.
    intros Of [BY [EY _]] [QL QB]. cbn zeta in EY. set (Q := rnd (femin f) (mw f) W) in *. destruct (EY QB) as (FY & VY & _).
    assert (DQ : dec f (flush_out f c y) = DFin (sgn f y) Q).
    { rewrite dec_flush_out by assumption. rewrite (dec_finite _ _ FY), VY. unfold flush_v. rewrite Rlt_bool_false by exact QL. rewrite andb_false_r. reflexivity. }
    destruct (is_finite f (flush_out f c y)) eqn:FF.
    - split; [reflexivity|]. rewrite (dec_finite _ _ FF) in DQ. injection DQ as _ DQ. exact DQ.
    - destruct (dec_special _ _ FF) as [K|[s' K]]; rewrite K in DQ; discriminate.
  Qed.
  (** the magnitude of a pattern with d added to it *)
  Lemma code_sum g e x y d : fmt_ok g -> 1 - bias g <= e -> (b2 e <= Rabs (fval g x) < b2 (e + 1))%R -> code g y = code g x + d ->
    (b2 e <= Rabs (fval g x) + IZR d * b2 (e - mw g) <= b2 (e + 2) - b2 e)%R ->
    Rabs (fval g y) = int_sum e (Rabs (fval g x)) (IZR d * b2 (e - mw g)).
  Proof.
    intros Hg He HX HC HD. rewrite !(mval_abs g Hg) in *. rewrite !(mval_cval g Hg) in *. rewrite HC. clear HC.
    assert (Hmw : 2 <= mw g) by (destruct Hg; assumption). pose proof (mw_pos g Hg) as Pm.
    pose proof (code_split g Hg x) as Cx. pose proof (man_range g Hg x) as Mx. pose proof (expf_range g Hg x) as Ex.
    set (E := expf g x) in *. set (i := 2 ^ mw g + man g x).
    assert (P1 : 2 ^ (mw g + 1) = 2 * 2 ^ mw g) by (apply pow2_S; lia).
    pose proof (bpow_gt_0 radix2 (emin_ulp g)) as Pu.
    assert (E1 : 1 <= E).
    { destruct (Z.eq_dec E 0) as [K|K]; [exfalso|lia]. rewrite K, Z.mul_0_l, Z.add_0_l in Cx. rewrite Cx in HX.
      replace (man g x) with (0 * 2 ^ mw g + man g x) in HX by lia. rewrite (cval_add g Hg) in HX by lia. rewrite Z.pow_0_r, Z.mul_1_r in HX.
      assert (IZR (man g x) * b2 (emin_ulp g) < b2 (1 - bias g))%R; [|assert (b2 (1 - bias g) <= b2 e)%R by (apply bpow_le; lia); lra].
      replace (1 - bias g) with (mw g + emin_ulp g) by (unfold emin_ulp; lia). rewrite bpow_plus, <- (IZR_pow2 (mw g)) by lia. apply Rmult_lt_compat_r; [exact Pu|apply IZR_lt; lia]. }
    assert (Cx' : code g x = (E - 1) * 2 ^ mw g + i) by (unfold i; lia).
    assert (CV : cval g (code g x) = i * 2 ^ (E - 1)) by (rewrite Cx'; apply (cval_add g Hg); unfold i; lia).
    assert (VX : (IZR (cval g (code g x)) * b2 (emin_ulp g) = IZR i * b2 (E - 1 + emin_ulp g))%R) by (rewrite CV, mult_IZR, IZR_pow2 by lia; rewrite bpow_plus; ring).
    assert (EE : e = E - bias g).
    { assert (B : (b2 (E - bias g) <= IZR i * b2 (E - 1 + emin_ulp g) < b2 (E - bias g + 1))%R).
      { replace (E - 1 + emin_ulp g) with (E - bias g + 1 - (mw g + 1)) by (unfold emin_ulp; lia). apply binade; [lia|]. replace (mw g + 1 - 1) with (mw g) by lia. unfold i. lia. }
      rewrite VX in HX. assert (e < E - bias g + 1) by (apply (lt_bpow radix2); lra). assert (E - bias g < e + 1) by (apply (lt_bpow radix2); lra). lia. }
    replace (E - 1 + emin_ulp g) with (e - mw g) in VX by (unfold emin_ulp; lia). rewrite VX in HD |- *.
    pose proof (bpow_gt_0 radix2 (e - mw g)) as Pw.
    assert (B0 : (b2 e = IZR (2 ^ mw g) * b2 (e - mw g))%R) by (rewrite IZR_pow2 by lia; rewrite <- bpow_plus; f_equal; lia).
    assert (B1 : (b2 (e + 1) = IZR (2 * 2 ^ mw g) * b2 (e - mw g))%R) by (rewrite <- P1, IZR_pow2 by lia; rewrite <- bpow_plus; f_equal; lia).
    assert (B2 : (b2 (e + 2) = IZR (4 * 2 ^ mw g) * b2 (e - mw g))%R) by (replace (4 * 2 ^ mw g) with (2 ^ (mw g + 2)) by (rewrite pow2_split by lia; change (2 ^ 2) with 4; lia); rewrite IZR_pow2 by lia; rewrite <- bpow_plus; f_equal; lia).
    rewrite <- Rmult_plus_distr_r, <- plus_IZR, B0, B2, <- Rmult_minus_distr_r, <- minus_IZR in HD. destruct HD as [D1 D2].
    apply Rmult_le_reg_r in D1; [|exact Pw]. apply Rmult_le_reg_r in D2; [|exact Pw]. apply le_IZR in D1, D2.
    assert (EU : forall v : Z, (0 <= v)%Z -> (IZR (v * 2 ^ (E - 1)) * b2 (emin_ulp g) = IZR v * b2 (e - mw g))%R).
    { intros v Hv. rewrite mult_IZR, IZR_pow2 by lia. rewrite Rmult_assoc, <- bpow_plus. do 2 f_equal. unfold emin_ulp. lia. }
    unfold int_sum. rewrite <- Rmult_plus_distr_r, <- plus_IZR, B1.
    destruct (Z.le_gt_cases (i + d) (2 * 2 ^ mw g)) as [K|K].
    - rewrite Rle_bool_true by (apply Rmult_le_compat_r; [lra|apply IZR_le; exact K]). rewrite Cx'.
      replace ((E - 1) * 2 ^ mw g + i + d) with ((E - 1) * 2 ^ mw g + (i + d)) by lia. rewrite (cval_add g Hg) by lia. apply EU. lia.
    - rewrite Rle_bool_false by (apply Rmult_lt_compat_r; [exact Pw|apply IZR_lt; lia]). rewrite Cx'.
      replace ((E - 1) * 2 ^ mw g + i + d) with (E * 2 ^ mw g + (i + d - 2 ^ mw g)) by lia. rewrite (cval_add g Hg) by lia.
      replace ((i + d - 2 ^ mw g) * 2 ^ E) with ((2 * (i + d) - 2 * 2 ^ mw g) * 2 ^ (E - 1)) by (replace (2 ^ E) with (2 * 2 ^ (E - 1)) by (rewrite <- pow2_S by lia; f_equal; lia); ring).
      rewrite EU by lia. rewrite minus_IZR, (mult_IZR 2 (i + d)), (mult_IZR 2 (2 ^ mw g)). lra.
  Qed.

  (** the end of an operation: a result in the computation format that is the exact result E rounded *)
  Lemma rr_out f c z st e E LO HI (g := wide f) :
    narrow f -> m_mode c = mca_rr -> settings Quad c -> dense c -> vprecision g c = mw f + 1 ->
    1 - bias g < LO -> 53 - bias g <= LO - vprecision g c + 1 -> HI <= bias g - 2 -> good g LO HI z -> fval g z = rnd (femin g) (mw g) E ->
    1 - bias f <= e -> (b2 e <= Rabs E < b2 (e + 1))%R -> ~ generic_format radix2 (ffmt f) E ->
    (b2 e < Rabs (round radix2 (ffmt f) Ztrunc E))%R ->
    (Rabs (round radix2 (ffmt f) Zfloor E) < b2 (bias f + 1))%R -> (Rabs (round radix2 (ffmt f) Zceil E) < b2 (bias f + 1))%R ->
    kdraw clk (init_state c st) <> 2 ^ 51 ->
    exists r st', (let* '(x, st) := inexact n Quad clk g c z st in Ok (demote g f c x, st)) = Ok (r, st') /\ is_finite f r = true /\
    rr_result (emin_ulp f) (mw f + 1) (mw g + 1) e E ((drawn clk (init_state c st) - 1 / 2) * b2 (e - mw f)) (fval f r).
  Proof.
    intros Hf Hm Hset Hdense Ht HLo HLt HHi GP VP He HE GE HT HOl HOh Hk.
    pose proof (narrow_ok f Hf) as Of. pose proof (wide_big f Hf) as Hbig. pose proof (big_ok _ Hbig) as Og. pose proof (wide_roomy f Hf) as (R1 & R2 & R3).
    assert (Ht' : 1 <= vprecision (wide f) c <= mw (wide f)) by (fold g; rewrite Ht; unfold g; destruct Of; lia).
    fold g in R1, R2, R3, Hbig, Og, Ht'.
    pose proof (drawn_range clk (init_state c st)) as DR. fold (drawn clk (init_state c st)) in DR.
    set (kap := drawn clk (init_state c st)) in *. set (N := ((kap - 1 / 2) * b2 (e - mw f))%R).
    pose proof (bpow_gt_0 radix2 (e - mw f)) as Pu.
    assert (HU : b2 (e + 1 - (mw f + 1)) = b2 (e - mw f)) by (f_equal; lia).
    assert (HN : (- (b2 (e + 1 - (mw f + 1)) / 2) <= N <= b2 (e + 1 - (mw f + 1)) / 2)%R).
    { rewrite HU. unfold N. split; nra. }
    destruct Of as [Of1 Of2]. pose proof (conj Of1 Of2 : fmt_ok f) as Of.
    assert (Hgm : mw f + 1 + 2 <= mw g + 1) by lia.
    assert (He1 : emin_ulp f <= e + 1 - (mw f + 1)) by (unfold emin_ulp; lia).
    assert (He2 : emin_ulp g <= e + 1 - (mw g + 1)).
    { assert (bias f + mw g <= bias g); [|unfold emin_ulp; lia]. unfold g. destruct Hf as [-> | ->]; vm_compute; discriminate. }
    destruct (rr_signed (emin_ulp f) (mw f + 1) (emin_ulp g) (mw g + 1) e ltac:(lia) Hgm He1 He2 E N HE GE HT HN) as [K1 K2].
    set (X := round radix2 (ffmt g) ZnearestE E) in *.
    assert (EX : fval g z = X) by exact VP.
    (* a result that is one of the neighbours is finite and not affected by FTZ *)
    assert (FIN : forall s W y, encodes f (DFin s W) y -> rr_result (emin_ulp f) (mw f + 1) (mw g + 1) e E N (rnd (femin f) (mw f) W) ->
      is_finite f (flush_out f c y) = true /\ fval f (flush_out f c y) = rnd (femin f) (mw f) W).
    { intros s W y [BY [EY _]] HR. cbn zeta in EY. set (Q := rnd (femin f) (mw f) W) in *.
      assert (QB : (Rabs Q < b2 (bias f + 1))%R) by (destruct HR as (_ & _ & [-> | ->] & _); assumption).
      destruct (EY QB) as (FY & VY & _).
      assert (QL : (b2 (1 - bias f) <= Rabs Q)%R).
      { apply Rle_trans with (b2 e); [apply bpow_le; lia|]. assert (VF : Valid_exp (ffmt f)) by (apply FLT_exp_valid; unfold Prec_gt_0; lia).
        assert (GB2 : generic_format radix2 (ffmt f) (b2 e)) by (apply (bpow_generic f); [exact Of|lia]).
        destruct HR as (_ & _ & [-> | ->] & _).
        - apply abs_round_ge_generic; [exact VF|apply valid_rnd_DN|exact GB2|lra].
        - apply abs_round_ge_generic; [exact VF|apply valid_rnd_UP|exact GB2|lra]. }
      assert (DQ : dec f (flush_out f c y) = DFin (sgn f y) Q).
      { rewrite dec_flush_out by assumption. rewrite (dec_finite _ _ FY), VY. unfold flush_v. rewrite Rlt_bool_false by exact QL. rewrite andb_false_r. reflexivity. }
      destruct (is_finite f (flush_out f c y)) eqn:FF.
      - split; [reflexivity|]. rewrite (dec_finite _ _ FF) in DQ. injection DQ as _ DQ. exact DQ.
      - destruct (dec_special _ _ FF) as [K|[s' K]]; rewrite K in DQ; discriminate. }
    assert (VFf : Valid_exp (ffmt f)) by (apply FLT_exp_valid; unfold Prec_gt_0; lia).
    assert (X0 : X <> 0%R).
    { intros K. assert (KA : (b2 e <= Rabs X)%R).
      { apply abs_round_ge_generic; [apply FLT_exp_valid; unfold Prec_gt_0; lia|apply valid_rnd_N|apply (bpow_generic g); [exact Og|unfold emin_ulp in He2; lia]|lra]. }
      rewrite K, Rabs_R0 in KA. pose proof (bpow_gt_0 radix2 e). lra. }
    assert (XL : (b2 (1 - bias f) <= Rabs X)%R).
    { apply Rle_trans with (b2 e); [apply bpow_le; lia|].
      apply abs_round_ge_generic; [apply FLT_exp_valid; unfold Prec_gt_0; lia|apply valid_rnd_N|apply (bpow_generic g); [exact Og|unfold emin_ulp in He2; lia]|lra]. }
    pose proof (must_not_iff g c LO HI z Hbig Ht' ltac:(lia) GP ltac:(rewrite EX; exact X0) ltac:(congruence)) as HMN.
    rewrite inexact_eq. destruct (must_not_be_noised g z (vprecision g c) c) eqn:EM.
    - destruct (proj1 HMN eq_refl) as [_ FT]. rewrite Ht, EX in FT.
      assert (GX : generic_format radix2 (ffmt f) X) by (apply (fits_generic f (mw f + 1)); [exact Of|lia|exact FT|right; exact XL]).
      specialize (K1 GX). cbn [bind]. destruct (demote_spec f c z Hf (proj1 GP)) as (y & EY & ED). fold g in EY, ED. rewrite ED.
      rewrite (dec_finite g z) in EY by apply GP. rewrite EX in EY.
      assert (RX : rnd (femin f) (mw f) X = X) by (apply round_generic; [apply valid_rnd_N|exact GX]). rewrite <- RX in K1.
      destruct (FIN _ _ _ EY K1) as [F1 F2]. eexists _, _. split; [reflexivity|]. split; [exact F1|]. rewrite F2. exact K1.
    - assert (GX : ~ generic_format radix2 (ffmt f) X).
      { intros GX. apply generic_fits in GX; [|exact Of]. assert (false = true); [|discriminate]. apply HMN. split; [exact Hm|]. rewrite Ht, EX. exact GX. }
      destruct (K2 GX) as [BX RR]. unfold skip_eval. unfold dense in Hdense. rewrite Hdense.
      unfold add_noise. destruct (Hset eq_refl) as (Hrel & Habs). rewrite Hrel, Habs.
      destruct (add_noise_quad n Hn clk g LO HI z (vprecision g c) (init_state c st) Hbig ltac:(lia) ltac:(lia) HLt HHi GP ltac:(rewrite EX; exact X0) Hk) as (y & EY & GY & VY).
      rewrite EY. cbn [bind]. destruct (demote_spec f c y Hf (proj1 GY)) as (r & ER & ED). fold g in ER, ED. rewrite ED.
      rewrite (dec_finite g y) in ER by apply GY.
      assert (MX : (mag radix2 X : Z) = e + 1) by (apply mag_unique; replace (e + 1 - 1) with e by lia; exact BX).
      rewrite EX, MX, Ht in VY. replace (e + 1 - (mw f + 1)) with (e - mw f) in VY by lia. fold (drawn clk (init_state c st)) in VY. fold kap in VY. fold N in VY.
      assert (RY : rr_result (emin_ulp f) (mw f + 1) (mw g + 1) e E N (rnd (femin f) (mw f) (fval g y))) by (rewrite VY; exact RR).
      destruct (FIN _ _ _ ER RY) as [F1 F2]. eexists _, _. split; [reflexivity|]. split; [exact F1|]. rewrite F2. exact RY.
  Qed.

  Lemma rr_stochastic f c o a b st e (g := wide f) (E := rop o (fval f (flushed f c a)) (fval f (flushed f c b))) :
    narrow f -> m_mode c = mca_rr -> settings Quad c -> dense c -> vprecision g c = mw f + 1 -> is_bits f a -> is_bits f b ->
    is_finite f (flushed f c a) = true -> is_finite f (flushed f c b) = true -> (o = OpDiv -> fval f (flushed f c b) <> 0%R) ->
    1 - bias f <= e -> (b2 e <= Rabs E < b2 (e + 1))%R -> ~ generic_format radix2 (ffmt f) E ->
    (b2 e < Rabs (round radix2 (ffmt f) Ztrunc E))%R ->
    (Rabs (round radix2 (ffmt f) Zfloor E) < b2 (bias f + 1))%R -> (Rabs (round radix2 (ffmt f) Zceil E) < b2 (bias f + 1))%R ->
    kdraw clk (init_state c st) <> 2 ^ 51 ->
    exists r st', mca_binary_op n Quad clk f c o a b st = Ok (r, st') /\ is_finite f r = true /\
    rr_result (emin_ulp f) (mw f + 1) (mw g + 1) e E ((drawn clk (init_state c st) - 1 / 2) * b2 (e - mw f)) (fval f r).
  Proof.
    intros Hf Hm Hset Hdense Ht Ha Hb Fa Fb Hdiv He HE GE HT HOl HOh Hk.
    pose proof (narrow_ok f Hf) as Of. pose proof (wide_big f Hf) as Hbig. pose proof (big_ok _ Hbig) as Og. pose proof (wide_roomy f Hf) as (R1 & R2 & R3).
    assert (Ht' : 1 <= vprecision (wide f) c <= mw (wide f)) by (fold g; rewrite Ht; unfold g; destruct Of; lia).
    destruct (op_bounds f Hf _ Ht') as (B1 & B2 & B3 & B4 & B5 & B6 & B7 & B8 & _). fold g in B1, B2, B3, B6, B7, B8.
    destruct (promote_good f c a Hf Ha Fa) as [GA VA]. destruct (promote_good f c b Hf Hb Fb) as [GB VB].
    destruct (promote_ok f c a Hf Ha) as [OA DA]. destruct (promote_ok f c b Hf Hb) as [OB DB]. fold g in GA, VA, GB, VB, OA, DA, OB, DB.
    unfold mca_binary_op. rewrite Hm. cbn [noises_in noises_out inexact_if bind]. fold g.
    set (pa := promote f g c a) in *. set (pb := promote f g c b) in *.
    assert (WA : good g (op_lo f) (op_hi f) pa) by (apply (okv_weaken g (emin_ulp f) (bias f + 1) (op_lo f) (op_hi f) pa ltac:(unfold op_lo; lia) ltac:(unfold op_hi; lia) OA); apply GA).
    assert (WB : good g (op_lo f) (op_hi f) pb) by (apply (okv_weaken g (emin_ulp f) (bias f + 1) (op_lo f) (op_hi f) pb ltac:(unfold op_lo; lia) ltac:(unfold op_hi; lia) OB); apply GB).
    rewrite <- VB in Hdiv.
    destruct (perform_good n Hn o g (op_lo f) (op_hi f) pa pb Og B4 B5 ltac:(lia) ltac:(lia) WA WB Hdiv) as [GP VP].
    rewrite VA, VB in VP. fold E in VP. eapply rr_out; eassumption.
  Qed.

  Lemma rr_stochastic_fma f c a b d st e (g := wide f) (E := (fval f (flushed f c a) * fval f (flushed f c b) + fval f (flushed f c d))%R) :
    narrow f -> m_mode c = mca_rr -> settings Quad c -> dense c -> vprecision g c = mw f + 1 -> is_bits f a -> is_bits f b -> is_bits f d ->
    is_finite f (flushed f c a) = true -> is_finite f (flushed f c b) = true -> is_finite f (flushed f c d) = true ->
    1 - bias f <= e -> (b2 e <= Rabs E < b2 (e + 1))%R -> ~ generic_format radix2 (ffmt f) E ->
    (b2 e < Rabs (round radix2 (ffmt f) Ztrunc E))%R ->
    (Rabs (round radix2 (ffmt f) Zfloor E) < b2 (bias f + 1))%R -> (Rabs (round radix2 (ffmt f) Zceil E) < b2 (bias f + 1))%R ->
    kdraw clk (init_state c st) <> 2 ^ 51 ->
    exists r st', mca_ternary_op n Quad clk f c a b d st = Ok (r, st') /\ is_finite f r = true /\
    rr_result (emin_ulp f) (mw f + 1) (mw g + 1) e E ((drawn clk (init_state c st) - 1 / 2) * b2 (e - mw f)) (fval f r).
  Proof.
    intros Hf Hm Hset Hdense Ht Ha Hb Hd Fa Fb Fd He HE GE HT HOl HOh Hk.
    pose proof (narrow_ok f Hf) as Of. pose proof (wide_big f Hf) as Hbig. pose proof (big_ok _ Hbig) as Og. pose proof (wide_roomy f Hf) as (R1 & R2 & R3).
    assert (Ht' : 1 <= vprecision (wide f) c <= mw (wide f)) by (fold g; rewrite Ht; unfold g; destruct Of; lia).
    destruct (op_bounds f Hf _ Ht') as (B1 & B2 & B3 & B4 & B5 & _ & _ & _ & B6 & B7 & B8). fold g in B1, B2, B3, B6, B7, B8, Og, Hbig.
    pose proof (bias_bounds f Of) as [Hbf _]. assert (Hmf : 2 <= mw f) by (destruct Of; assumption). assert (Hmg : 2 <= mw g) by (destruct Og; assumption).
    destruct (promote_good f c a Hf Ha Fa) as [GA VA]. destruct (promote_good f c b Hf Hb Fb) as [GB VB]. destruct (promote_good f c d Hf Hd Fd) as [GD VD].
    destruct (promote_ok f c a Hf Ha) as [OA _]. destruct (promote_ok f c b Hf Hb) as [OB _]. destruct (promote_ok f c d Hf Hd) as [OD _]. fold g in GA, VA, GB, VB, GD, VD, OA, OB, OD.
    unfold mca_ternary_op. rewrite Hm. cbn [noises_in noises_out inexact_if bind]. fold g.
    set (pa := promote f g c a) in *. set (pb := promote f g c b) in *. set (pd := promote f g c d) in *.
    assert (WK : forall x, okv g (emin_ulp f) (bias f + 1) x -> okv g (op_lo f) (op_hi f) x).
    { intros x O. apply (okv_weaken g (emin_ulp f) (bias f + 1) (op_lo f) (op_hi f) x ltac:(unfold op_lo; lia) ltac:(unfold op_hi; lia) O). }
    pose proof (fma_ok n Hn g (op_lo f) (op_hi f) pa pb pd Og B4 B5 ltac:(lia) ltac:(lia) (WK _ OA) (WK _ OB) (WK _ OD)) as [BP GP].
    destruct (Hn g Og pa pb (proj1 GA) (proj1 GB)) as (_ & _ & _ & _ & HF). specialize (HF pd (proj1 GD)).
    rewrite (dec_finite g pa), (dec_finite g pb), (dec_finite g pd) in HF by (apply GA || apply GB || apply GD). rewrite VA, VB, VD in HF.
    cbn [dfma dmul dadd] in HF. fold E in HF. destruct HF as [_ [HF _]]. cbn zeta in HF.
    assert (SM : (Rabs (rnd (femin g) (mw g) E) < b2 (bias g + 1))%R).
    { apply Rle_lt_trans with (b2 (bias f + 1)); [|apply bpow_lt; lia].
      assert (VG : Valid_exp (ffmt g)) by (apply FLT_exp_valid; unfold Prec_gt_0; lia).
      unfold rnd. apply abs_round_le_generic; [exact VG|apply valid_rnd_N|apply (bpow_generic g); [exact Og|lia]|].
      apply Rlt_le, Rlt_le_trans with (b2 (e + 1)); [apply HE|]. apply bpow_le.
      destruct (Z.le_gt_cases (e + 1) (bias f + 1)) as [?|K]; [assumption|exfalso].
      assert (VF : Valid_exp (ffmt f)) by (apply FLT_exp_valid; unfold Prec_gt_0; lia).
      assert (KK : (b2 (bias f + 1) <= Rabs (round radix2 (ffmt f) Zfloor E))%R).
      { apply abs_round_ge_generic; [exact VF|apply valid_rnd_DN|apply (bpow_generic f); [exact Of|lia]|]. eapply Rle_trans; [|apply HE]. apply bpow_le. lia. }
      lra. }
    destruct (HF SM) as (FP & VP & _). eapply rr_out; try eassumption. apply GP. exact FP.
  Qed.

  (** the cast of a double to a float in mode rr: the float has at most 24 digits and is not perturbed *)
  Lemma encodes_same f x y : fmt_ok f -> is_bits f x -> encodes f (dec f x) y -> dec f y = dec f x.
  Proof.
    intros Hf Hx HE. destruct (dec f x) as [|s|s X] eqn:D.
    - apply dec_of_encodes; [exact Hf|exact HE|auto].
    - apply dec_of_encodes; [exact Hf|exact HE|eauto].
    - rewrite <- D in HE |- *. f_equal. apply (encodes_unique f (dec f x)); [exact Hf|congruence|exact HE|apply encodes_dec; assumption].
  Qed.
  Lemma encodes_widen f g x y : fmt_ok f -> fmt_ok g -> roomy f g -> is_bits f x -> encodes g (dec f x) y -> dec g y = dec f x.
  Proof.
    intros Hf Hg Hr Hx HE. rewrite <- (dec_widen f g Hf Hg Hr x Hx) in HE |- *. apply encodes_same; [exact Hg|apply fconv_encodes; assumption|exact HE].
  Qed.
  Lemma rr_cast k c a st : m_mode c = mca_rr -> 24 <= m_p64 c <= 112 -> is_bits binary64 a ->
    exists y r, encodes binary32 (dec binary64 (flushed binary64 c a)) y /\ mca_cast n k clk c a st = Ok (r, init_state c st) /\ dec binary32 r = dec binary32 y.
  Proof.
    intros Hm Ht Ha. assert (Hf : narrow binary64) by (right; reflexivity).
    pose proof (wide_big binary64 Hf) as Hbig. pose proof (big_ok _ Hbig) as Og.
    destruct (promote_ok binary64 c a Hf Ha) as [GA VA]. unfold mca_cast. rewrite Hm. cbn [noises_in noises_out inexact_if bind].
    change binary128 with (wide binary64) in *. set (G := wide binary64) in *. set (xa := promote binary64 G c a) in *.
    set (x := fconv G binary32 xa). assert (HX : encodes binary32 (dec G xa) x) by (apply fconv_encodes; [exact Og|apply ok32]). rewrite VA in HX.
    assert (R3 : roomy binary32 binary128) by (vm_compute; repeat split; congruence). change binary128 with G in R3.
    pose proof (dec_widen binary32 G ok32 Og R3 x (proj1 HX)) as VW. set (z := fconv binary32 G x) in *.
    assert (Bz : is_bits G z) by (apply fconv_encodes; [apply ok32|exact Og]).
    assert (EI : inexact n k clk G c z st = Ok (z, init_state c st)).
    { destruct (is_finite G z) eqn:FZ; [|apply inexact_special; [exact Og|left; exact FZ]].
      destruct (Req_dec (fval G z) 0) as [Z0|Z0]; [apply inexact_special; [exact Og|right; exact Z0]|].
      rewrite (dec_finite _ _ FZ) in VW.
      assert (Fx : is_finite binary32 x = true).
      { destruct (is_finite binary32 x) eqn:Fx; [reflexivity|]. destruct (dec_special _ _ Fx) as [E|[s E]]; rewrite E in VW; discriminate. }
      rewrite (dec_finite _ _ Fx) in VW. injection VW as _ EV.
      assert (GZ : good G (emin_ulp binary32) (bias binary32 + 1) z).
      { split; [exact Bz|]. split; [exact FZ|]. right. rewrite EV. split; [apply (nonzero_large binary32 ok32 x); congruence|apply Rlt_le, (finite_small binary32 ok32 x Fx)]. }
      rewrite inexact_eq. change (vprecision G c) with (m_p64 c).
      assert (EM : must_not_be_noised G z (m_p64 c) c = true); [|rewrite EM; reflexivity].
      change (m_p64 c) with (vprecision G c). eapply must_not_iff; [exact Hbig|change (vprecision G c) with (m_p64 c); change (mw G) with 112; lia| |exact GZ|exact Z0|congruence|].
      { vm_compute. discriminate. }
      split; [exact Hm|]. change (vprecision G c) with (m_p64 c). rewrite EV.
      assert (FT : fits (mw binary32 + 1) (fval binary32 x)).
      { apply generic_fits; [apply ok32|]. apply (generic_fval binary32 x ok32). }
      destruct FT as (m & q & B & E). exists m, q. split; [|exact E]. eapply Z.lt_le_trans; [exact B|]. apply pow2_le. change (mw binary32) with 23. lia. }
    rewrite EI. cbn [bind]. destruct (demote_spec binary64 c z Hf Bz) as (y0 & EY & ED). fold G in EY, ED. rewrite ED, VW in *.
    pose proof (encodes_widen binary32 binary64 x y0 ok32 ok64 roomy_32_64 (proj1 HX) EY) as DY.
    eexists x, _. split; [exact HX|]. split; [reflexivity|].
    pose proof (fconv_encodes binary64 binary32 (flush_out binary64 c y0) ok64 ok32) as EF.
    rewrite dec_flush_out in EF by (apply ok64 || apply EY). rewrite DY in EF.
    assert (NF : flush_v binary64 (m_ftz c) (dec binary32 x) = dec binary32 x).
    { destruct (is_finite binary32 x) eqn:Fx.
      - rewrite (dec_finite _ _ Fx). unfold flush_v. destruct (Req_dec (fval binary32 x) 0) as [Z0|Z0].
        + rewrite Req_bool_true by exact Z0. rewrite andb_false_r. reflexivity.
        + rewrite Rlt_bool_false; [rewrite andb_false_r; reflexivity|]. eapply Rle_trans; [|apply (nonzero_large binary32 ok32 x Z0)]. apply bpow_le. vm_compute. discriminate.
      - destruct (dec_special _ _ Fx) as [E|[s E]]; rewrite E; reflexivity. }
    rewrite NF in EF. apply encodes_same; [apply ok32|apply HX|exact EF].
  Qed.

  (** mcaint: the end of an operation *)
  Definition udraw (st : rst) : Z := fst (fst (draw64 (fst st) (snd st) clk)).
  Lemma udraw_range st : 0 <= udraw st < 2 ^ 64.
  Proof. unfold udraw, draw64. destruct (init_random_state (fst st) (snd st) clk) as [r q]. apply xresult_u64. Qed.
  Lemma int_noise_range g t u : 63 + t - mw g >= 0 -> 1 <= t <= mw g -> 0 <= ew g -> 63 <= mw g + ew g -> 0 <= u < 2 ^ 64 ->
    int_noise g t u = (u + 2 ^ 63) mod 2 ^ 64 / 2 ^ (63 + t - mw g) - 2 ^ (mw g - t).
  Proof.
    intros Hs Ht He Hw Hu. unfold int_noise. set (w := mw g + ew g + 1). set (v := (u + 2 ^ 63) mod 2 ^ 64).
    assert (P63 : 2 ^ 64 = 2 * 2 ^ 63) by reflexivity.
    assert (HS : signed w (u * 2 ^ (w - 64)) = (v - 2 ^ 63) * 2 ^ (w - 64)).
    { assert (0 < 2 ^ (w - 64)) by (apply pow2_pos; unfold w; lia).
      assert (W1 : 2 ^ (w - 1) = 2 ^ 63 * 2 ^ (w - 64)) by (rewrite <- pow2_split by (unfold w; lia); f_equal; lia).
      assert (W0 : 2 ^ w = 2 ^ 64 * 2 ^ (w - 64)) by (rewrite <- pow2_split by (unfold w; lia); f_equal; lia).
      unfold signed. rewrite W1, W0. unfold v. destruct (Z.ltb_spec (u * 2 ^ (w - 64)) (2 ^ 63 * 2 ^ (w - 64))) as [L|L].
      - assert (u < 2 ^ 63) by nia. rewrite Z.mod_small by lia. ring.
      - assert (2 ^ 63 <= u) by nia. replace (u + 2 ^ 63) with (u - 2 ^ 63 + 1 * 2 ^ 64) by lia. rewrite Z.mod_add, Z.mod_small by lia. rewrite P63. ring. }
    rewrite HS, Z.shiftr_div_pow2 by lia.
    replace (2 ^ (ew g + t)) with (2 ^ (63 + t - mw g) * 2 ^ (w - 64)) by (rewrite <- pow2_split by (unfold w; lia); f_equal; unfold w; lia).
    rewrite Z.div_mul_cancel_r by (apply Z.pow_nonzero; unfold w; lia).
    replace (v - 2 ^ 63) with (v + - 2 ^ (mw g - t) * 2 ^ (63 + t - mw g)).
    2:{ rewrite Z.mul_opp_l, <- pow2_split by lia. replace (mw g - t + (63 + t - mw g)) with 63 by lia. lia. }
    rewrite Z.div_add by (apply Z.pow_nonzero; lia). lia.
  Qed.
  Lemma rr_out_int sem f c z st e E LO HI (g := wide f) :
    narrow f -> m_mode c = mca_rr -> dense c -> vprecision g c = mw f + 1 ->
    1 - bias g < LO -> HI <= bias g - 2 -> good g LO HI z -> fval g z = rnd (femin g) (mw g) E ->
    1 - bias f <= e -> (b2 e <= Rabs E < b2 (e + 1))%R -> ~ generic_format radix2 (ffmt f) (Rabs E) ->
    (b2 e < round radix2 (ffmt f) Zfloor (Rabs E))%R -> (round radix2 (ffmt f) Zceil (Rabs E) < b2 (bias f + 1))%R ->
    exists r st', (let* '(x, st) := inexact n (Int sem) clk g c z st in Ok (demote g f c x, st)) = Ok (r, st') /\ is_finite f r = true /\ (0 < E * fval f r)%R /\
    rr_result (emin_ulp f) (mw f + 1) (mw g + 1) e (Rabs E) (IZR (int_noise g (mw f + 1) (udraw (init_state c st))) * b2 (e - mw g)) (Rabs (fval f r)).
  Proof.
    intros Hf Hm Hdense Ht HLo HHi GP VP He HE GE HT HO.
    pose proof (narrow_ok f Hf) as Of. pose proof (wide_big f Hf) as Hbig. pose proof (big_ok _ Hbig) as Og. pose proof (wide_roomy f Hf) as (R1 & R2 & R3).
    assert (Hmf : 2 <= mw f) by (destruct Of; assumption). fold g in R1, R2, R3, Hbig, Og.
    assert (Ht' : 1 <= vprecision g c <= mw g) by (rewrite Ht; lia).
    set (d := int_noise g (mw f + 1) (udraw (init_state c st))). set (N := (IZR d * b2 (e - mw g))%R).
    pose proof (bpow_gt_0 radix2 (e - mw g)) as Pw. pose proof (bpow_gt_0 radix2 e) as Pe.
    assert (Hd : - 2 ^ (mw g - mw f - 1) <= d < 2 ^ (mw g - mw f - 1)).
    { unfold d. pose proof (udraw_range (init_state c st)) as U. rewrite int_noise_range; [|unfold g; destruct Hf as [-> | ->]; vm_compute; intuition discriminate..|exact U].
      replace (mw g - (mw f + 1)) with (mw g - mw f - 1) by lia. set (v := (_ + _) mod 2 ^ 64).
      assert (V : 0 <= v < 2 ^ 64) by (apply Z.mod_pos_bound; reflexivity). clearbody v.
      assert (HS : 2 ^ 64 = 2 ^ (63 + (mw f + 1) - mw g) * (2 * 2 ^ (mw g - mw f - 1))).
      { rewrite <- pow2_S by lia. rewrite <- pow2_split; [f_equal; lia| |lia]. unfold g. destruct Hf as [-> | ->]; vm_compute; discriminate. }
      assert (HQ : 0 < 2 ^ (63 + (mw f + 1) - mw g)) by (apply pow2_pos; unfold g; destruct Hf as [-> | ->]; vm_compute; discriminate).
      assert (0 <= v / 2 ^ (63 + (mw f + 1) - mw g) < 2 * 2 ^ (mw g - mw f - 1)); [|lia]. split; [apply Z.div_pos; lia|apply Z.div_lt_upper_bound; lia]. }
    assert (HU : (b2 (e + 1 - (mw f + 1)) / 2 = IZR (2 ^ (mw g - mw f - 1)) * b2 (e - mw g))%R).
    { rewrite IZR_pow2 by lia. rewrite <- bpow_plus. replace (e + 1 - (mw f + 1)) with (1 + (mw g - mw f - 1 + (e - mw g))) by lia. rewrite bpow_plus. change (b2 1) with 2%R. lra. }
    assert (HN : (- (b2 (e + 1 - (mw f + 1)) / 2) <= N <= b2 (e + 1 - (mw f + 1)) / 2)%R).
    { rewrite HU. unfold N. rewrite Ropp_mult_distr_l, <- opp_IZR. split; (apply Rmult_le_compat_r; [lra|apply IZR_le; lia]). }
    assert (He1 : emin_ulp f <= e + 1 - (mw f + 1)) by (unfold emin_ulp; lia).
    assert (Hbg : bias f + mw g <= bias g) by (unfold g; destruct Hf as [-> | ->]; vm_compute; discriminate).
    assert (He2 : emin_ulp g <= e + 1 - (mw g + 1)) by (unfold emin_ulp; lia).
    destruct (rr_int (emin_ulp f) (mw f + 1) (emin_ulp g) (mw g + 1) e ltac:(lia) ltac:(lia) He1 He2 (Rabs E) N HE GE HT HN) as [K1 K2].
    set (X := round radix2 (ffmt g) ZnearestE (Rabs E)) in *.
    assert (EX : Rabs (fval g z) = X).
    { rewrite VP. unfold X. rewrite round_NE_abs; [reflexivity|apply FLT_exp_valid; unfold Prec_gt_0; lia]. }
    assert (VFf : Valid_exp (ffmt f)) by (apply FLT_exp_valid; unfold Prec_gt_0; lia). assert (VFg : Valid_exp (ffmt g)) by (apply FLT_exp_valid; unfold Prec_gt_0; lia).
    assert (XL : (b2 e <= X)%R) by (apply round_ge_generic; [exact VFg|apply valid_rnd_N|apply (bpow_generic g); [exact Og|lia]|lra]).
    assert (Z0 : fval g z <> 0%R) by (intros K; rewrite K, Rabs_R0 in EX; lra).
    assert (SG : (0 < E * fval g z)%R).
    { rewrite VP. unfold rnd. destruct (Rle_lt_dec 0 E) as [S|S].
      - rewrite (Rabs_pos_eq E) in HE by exact S. assert (b2 e <= round radix2 (ffmt g) ZnearestE E)%R by (apply round_ge_generic; [exact VFg|apply valid_rnd_N|apply (bpow_generic g); [exact Og|lia]|lra]).
        apply Rmult_lt_0_compat; [lra|]. change (femin g - mw g) with (emin_ulp g). lra.
      - rewrite (Rabs_left E) in HE by exact S. assert (round radix2 (ffmt g) ZnearestE E <= - b2 e)%R by (apply round_le_generic; [exact VFg|apply valid_rnd_N|apply generic_format_opp, (bpow_generic g); [exact Og|lia]|lra]).
        change (femin g - mw g) with (emin_ulp g). nra. }
    (* the final rounding, from a value with the sign of E *)
    assert (FIN : forall x y, is_finite g x = true -> (0 < E * fval g x)%R -> encodes f (dec g x) y ->
      rr_result (emin_ulp f) (mw f + 1) (mw g + 1) e (Rabs E) N (round radix2 (ffmt f) ZnearestE (Rabs (fval g x))) ->
      is_finite f (flush_out f c y) = true /\ (0 < E * fval f (flush_out f c y))%R /\ Rabs (fval f (flush_out f c y)) = round radix2 (ffmt f) ZnearestE (Rabs (fval g x))).
    { intros x y FX SX EY HR. rewrite (dec_finite g x FX) in EY.
      assert (RA : Rabs (rnd (femin f) (mw f) (fval g x)) = round radix2 (ffmt f) ZnearestE (Rabs (fval g x))) by (symmetry; apply round_NE_abs; exact VFf).
      rewrite <- RA in HR |- *. set (Q := rnd (femin f) (mw f) (fval g x)) in *.
      assert (QB : (b2 (1 - bias f) <= Rabs Q < b2 (bias f + 1))%R).
      { assert (B1' : (b2 (1 - bias f) <= b2 e)%R) by (apply bpow_le; lia). destruct HR as ((A1 & A2) & A3 & A4 & _).
        pose proof (bpow_gt_0 radix2 (e + 1 - (mw f + 1))). destruct A4 as [-> | ->]; lra. }
      destruct (out_normal f c _ _ _ Of EY QB) as [F1 F2]. split; [exact F1|]. rewrite F2. fold Q. split; [|reflexivity].
      pose proof (bpow_gt_0 radix2 (1 - bias f)) as P0.
      destruct (Rle_lt_dec 0 (fval g x)) as [S|S].
      - assert (Q0 : (0 <= Q)%R) by (apply round_ge_generic; [exact VFf|apply valid_rnd_N|apply generic_format_0|exact S]). rewrite Rabs_pos_eq in QB by exact Q0. assert (0 < E)%R by nra. nra.
      - assert (Q0 : (Q <= 0)%R) by (apply round_le_generic; [exact VFf|apply valid_rnd_N|apply generic_format_0|lra]). rewrite Rabs_left1 in QB by exact Q0. assert (E < 0)%R by nra. nra. }
    pose proof (must_not_iff g c LO HI z Hbig Ht' ltac:(lia) GP Z0 ltac:(congruence)) as HMN.
    assert (FA : forall q x, fits q (Rabs x) <-> fits q x).
    { intros q x. unfold Rabs. destruct (Rcase_abs x); [|reflexivity]. split; intros (m & k & B & EQ); exists (- m), k; (split; [lia|]); rewrite opp_IZR; lra. }
    rewrite inexact_eq. destruct (must_not_be_noised g z (vprecision g c) c) eqn:EM.
    - destruct (proj1 HMN eq_refl) as [_ FT]. rewrite Ht in FT. rewrite <- FA, EX in FT.
      assert (GX : generic_format radix2 (ffmt f) X).
      { apply (fits_generic f (mw f + 1)); [exact Of|lia|exact FT|right]. rewrite Rabs_pos_eq by lra. eapply Rle_trans; [|exact XL]. apply bpow_le. lia. }
      specialize (K1 GX). cbn [bind]. destruct (demote_spec f c z Hf (proj1 GP)) as (y & EY & ED). fold g in EY, ED. rewrite ED.
      assert (RX : round radix2 (ffmt f) ZnearestE (Rabs (fval g z)) = X) by (rewrite EX; apply round_generic; [apply valid_rnd_N|exact GX]).
      rewrite <- RX in K1. destruct (FIN z y ltac:(apply GP) SG EY K1) as (F1 & F2 & F3). eexists _, _. split; [reflexivity|]. split; [exact F1|]. split; [exact F2|]. rewrite F3. exact K1.
    - assert (GX : ~ generic_format radix2 (ffmt f) X).
      { intros GX. apply generic_fits in GX; [|exact Of]. assert (false = true); [|discriminate]. apply HMN. split; [exact Hm|]. rewrite Ht, <- FA, EX. exact GX. }
      destruct (K2 GX) as [BX RR]. unfold skip_eval. unfold dense in Hdense. rewrite Hdense. unfold add_noise.
      destruct (add_noise_int_code clk sem g LO HI z (vprecision g c) (init_state c st) Hbig Ht' HLo HHi GP Z0) as (y & EY & (SY & CY) & GY & NY).
      rewrite EY. cbn [bind]. destruct (demote_spec f c y Hf (proj1 GY)) as (r & ER & ED). fold g in ER, ED. rewrite ED.
      rewrite Ht in CY. fold (udraw (init_state c st)) in CY. fold d in CY.
      assert (EYm : Rabs (fval g y) = int_sum e X N).
      { rewrite <- EX. unfold N. apply code_sum; [exact Og|lia|rewrite EX; split; [lra|apply BX]|exact CY|]. rewrite EX. fold N.
        pose proof (bpow_gt_0 radix2 (e + 1 - (mw f + 1))) as P3. split; [lra|]. replace (e + 2) with (1 + (e + 1)) by lia. rewrite (bpow_plus radix2 1). change (b2 1) with 2%R.
        assert (b2 (e + 1 - (mw f + 1)) <= b2 e)%R by (apply bpow_le; lia). assert (b2 (e + 1) = 2 * b2 e)%R by (replace (e + 1) with (1 + e) by lia; rewrite bpow_plus; reflexivity). lra. }
      rewrite <- EYm in RR.
      assert (SYE : (0 < E * fval g y)%R).
      { destruct NY as [NY _]. destruct (Rle_lt_dec 0 E) as [S|S].
        - assert (0 < E)%R by nra. assert (0 < fval g z)%R by nra. assert (0 < fval g y)%R by nra. nra.
        - assert (fval g z < 0)%R by nra. assert (fval g y < 0)%R by nra. nra. }
      destruct (FIN y r ltac:(apply GY) SYE ER RR) as (F1 & F2 & F3). eexists _, _. split; [reflexivity|]. split; [exact F1|]. split; [exact F2|]. rewrite F3. exact RR.
  Qed.
  Lemma rr_stochastic_int sem f c o a b st e (g := wide f) (E := rop o (fval f (flushed f c a)) (fval f (flushed f c b))) :
    narrow f -> m_mode c = mca_rr -> dense c -> vprecision g c = mw f + 1 -> is_bits f a -> is_bits f b ->
    is_finite f (flushed f c a) = true -> is_finite f (flushed f c b) = true -> (o = OpDiv -> fval f (flushed f c b) <> 0%R) ->
    1 - bias f <= e -> (b2 e <= Rabs E < b2 (e + 1))%R -> ~ generic_format radix2 (ffmt f) (Rabs E) ->
    (b2 e < round radix2 (ffmt f) Zfloor (Rabs E))%R -> (round radix2 (ffmt f) Zceil (Rabs E) < b2 (bias f + 1))%R ->
    exists r st', mca_binary_op n (Int sem) clk f c o a b st = Ok (r, st') /\ is_finite f r = true /\ (0 < E * fval f r)%R /\
    rr_result (emin_ulp f) (mw f + 1) (mw g + 1) e (Rabs E) (IZR (int_noise g (mw f + 1) (udraw (init_state c st))) * b2 (e - mw g)) (Rabs (fval f r)).
  Proof.
    intros Hf Hm Hdense Ht Ha Hb Fa Fb Hdiv He HE GE HT HO.
    pose proof (narrow_ok f Hf) as Of. pose proof (wide_big f Hf) as Hbig. pose proof (big_ok _ Hbig) as Og. pose proof (wide_roomy f Hf) as (R1 & R2 & R3).
    assert (Ht' : 1 <= vprecision (wide f) c <= mw (wide f)) by (fold g; rewrite Ht; unfold g; destruct Of; lia).
    destruct (op_bounds f Hf _ Ht') as (B1 & B2 & B3 & B4 & B5 & B6 & B7 & B8 & _). fold g in B1, B2, B3, B6, B7, B8.
    destruct (promote_good f c a Hf Ha Fa) as [GA VA]. destruct (promote_good f c b Hf Hb Fb) as [GB VB].
    destruct (promote_ok f c a Hf Ha) as [OA DA]. destruct (promote_ok f c b Hf Hb) as [OB DB]. fold g in GA, VA, GB, VB, OA, DA, OB, DB.
    unfold mca_binary_op. rewrite Hm. cbn [noises_in noises_out inexact_if bind]. fold g.
    set (pa := promote f g c a) in *. set (pb := promote f g c b) in *.
    assert (WA : good g (op_lo f) (op_hi f) pa) by (apply (okv_weaken g (emin_ulp f) (bias f + 1) (op_lo f) (op_hi f) pa ltac:(unfold op_lo; lia) ltac:(unfold op_hi; lia) OA); apply GA).
    assert (WB : good g (op_lo f) (op_hi f) pb) by (apply (okv_weaken g (emin_ulp f) (bias f + 1) (op_lo f) (op_hi f) pb ltac:(unfold op_lo; lia) ltac:(unfold op_hi; lia) OB); apply GB).
    rewrite <- VB in Hdiv.
    destruct (perform_good n Hn o g (op_lo f) (op_hi f) pa pb Og B4 B5 ltac:(lia) ltac:(lia) WA WB Hdiv) as [GP VP].
    rewrite VA, VB in VP. fold E in VP. eapply rr_out_int; eassumption.
  Qed.
  Lemma rr_stochastic_fma_int sem f c a b d st e (g := wide f) (E := (fval f (flushed f c a) * fval f (flushed f c b) + fval f (flushed f c d))%R) :
    narrow f -> m_mode c = mca_rr -> dense c -> vprecision g c = mw f + 1 -> is_bits f a -> is_bits f b -> is_bits f d ->
    is_finite f (flushed f c a) = true -> is_finite f (flushed f c b) = true -> is_finite f (flushed f c d) = true ->
    1 - bias f <= e -> (b2 e <= Rabs E < b2 (e + 1))%R -> ~ generic_format radix2 (ffmt f) (Rabs E) ->
    (b2 e < round radix2 (ffmt f) Zfloor (Rabs E))%R -> (round radix2 (ffmt f) Zceil (Rabs E) < b2 (bias f + 1))%R ->
    exists r st', mca_ternary_op n (Int sem) clk f c a b d st = Ok (r, st') /\ is_finite f r = true /\ (0 < E * fval f r)%R /\
    rr_result (emin_ulp f) (mw f + 1) (mw g + 1) e (Rabs E) (IZR (int_noise g (mw f + 1) (udraw (init_state c st))) * b2 (e - mw g)) (Rabs (fval f r)).
  Proof.
    intros Hf Hm Hdense Ht Ha Hb Hd Fa Fb Fd He HE GE HT HO.
    pose proof (narrow_ok f Hf) as Of. pose proof (wide_big f Hf) as Hbig. pose proof (big_ok _ Hbig) as Og. pose proof (wide_roomy f Hf) as (R1 & R2 & R3).
    assert (Ht' : 1 <= vprecision (wide f) c <= mw (wide f)) by (fold g; rewrite Ht; unfold g; destruct Of; lia).
    destruct (op_bounds f Hf _ Ht') as (B1 & B2 & B3 & B4 & B5 & _ & _ & _ & B6 & B7 & B8). fold g in B1, B2, B3, B6, B7, B8, Og, Hbig.
    pose proof (bias_bounds f Of) as [Hbf _]. assert (Hmf : 2 <= mw f) by (destruct Of; assumption). assert (Hmg : 2 <= mw g) by (destruct Og; assumption).
    destruct (promote_good f c a Hf Ha Fa) as [GA VA]. destruct (promote_good f c b Hf Hb Fb) as [GB VB]. destruct (promote_good f c d Hf Hd Fd) as [GD VD].
    destruct (promote_ok f c a Hf Ha) as [OA _]. destruct (promote_ok f c b Hf Hb) as [OB _]. destruct (promote_ok f c d Hf Hd) as [OD _]. fold g in GA, VA, GB, VB, GD, VD, OA, OB, OD.
    unfold mca_ternary_op. rewrite Hm. cbn [noises_in noises_out inexact_if bind]. fold g.
    set (pa := promote f g c a) in *. set (pb := promote f g c b) in *. set (pd := promote f g c d) in *.
    assert (WK : forall x, okv g (emin_ulp f) (bias f + 1) x -> okv g (op_lo f) (op_hi f) x).
    { intros x O. apply (okv_weaken g (emin_ulp f) (bias f + 1) (op_lo f) (op_hi f) x ltac:(unfold op_lo; lia) ltac:(unfold op_hi; lia) O). }
    pose proof (fma_ok n Hn g (op_lo f) (op_hi f) pa pb pd Og B4 B5 ltac:(lia) ltac:(lia) (WK _ OA) (WK _ OB) (WK _ OD)) as [BP GP].
    destruct (Hn g Og pa pb (proj1 GA) (proj1 GB)) as (_ & _ & _ & _ & HF). specialize (HF pd (proj1 GD)).
    rewrite (dec_finite g pa), (dec_finite g pb), (dec_finite g pd) in HF by (apply GA || apply GB || apply GD). rewrite VA, VB, VD in HF.
    cbn [dfma dmul dadd] in HF. fold E in HF. destruct HF as [_ [HF _]]. cbn zeta in HF.
    assert (SM : (Rabs (rnd (femin g) (mw g) E) < b2 (bias g + 1))%R).
    { apply Rle_lt_trans with (b2 (bias f + 1)); [|apply bpow_lt; lia].
      assert (VG : Valid_exp (ffmt g)) by (apply FLT_exp_valid; unfold Prec_gt_0; lia).
      unfold rnd. apply abs_round_le_generic; [exact VG|apply valid_rnd_N|apply (bpow_generic g); [exact Og|lia]|].
      apply Rlt_le, Rlt_le_trans with (b2 (e + 1)); [apply HE|]. apply bpow_le.
      destruct (Z.le_gt_cases (e + 1) (bias f + 1)) as [?|K]; [assumption|exfalso].
      assert (VF : Valid_exp (ffmt f)) by (apply FLT_exp_valid; unfold Prec_gt_0; lia).
      assert (KK : (b2 (bias f + 1) <= round radix2 (ffmt f) Zceil (Rabs E))%R).
      { apply round_ge_generic; [exact VF|apply valid_rnd_UP|apply (bpow_generic f); [exact Of|lia]|]. eapply Rle_trans; [|apply HE]. apply bpow_le. lia. }
      lra. }
    destruct (HF SM) as (FP & VP & _). eapply rr_out_int; try eassumption. apply GP. exact FP.
  Qed.
End operation.
