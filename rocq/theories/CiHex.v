(** Proofs: a double printed with %a is read back by float.fromhex. *)
From Coq Require Import String ZArith List Bool Lia.
From Flocq Require Raux.
From Verif Require Import Common Text Bits BitsFacts FloatReal FloatValue FloatOps VfiModel VfiFile DDModel ProbesModel CiModel.
Import ListNotations.
Open Scope Z_scope.
Open Scope py_scope.

(** ** Hexadecimal digits *)
Definition hexd (c : Z) : Prop := 48 <= c <= 57 \/ 97 <= c <= 102.
Lemma hexdigit_hexd d : 0 <= d < 16 -> hexd (hexdigit d).
Proof. intros H. unfold hexd, hexdigit. destruct (Z.ltb_spec d 10); lia. Qed.
Lemma hexval_hexdigit d : 0 <= d < 16 -> hexval (hexdigit d) = Some d.
Proof.
  intros H. unfold hexdigit, hexval, lower. destruct (Z.ltb_spec d 10).
  - destruct (Z.leb_spec 48 (48 + d)), (Z.leb_spec (48 + d) 57); try lia. cbn [andb]. f_equal. lia.
  - destruct (Z.leb_spec 48 (87 + d)), (Z.leb_spec (87 + d) 57); try lia. cbn [andb].
    destruct (Z.leb_spec 65 (87 + d)), (Z.leb_spec (87 + d) 90); try lia. cbn [andb].
    destruct (Z.leb_spec 97 (87 + d)), (Z.leb_spec (87 + d) 102); try lia. cbn [andb]. f_equal. lia.
Qed.
Lemma hexdigits_hexd n : forall v, Forall hexd (hexdigits n v).
Proof.
  induction n as [|n IH]; intros v; cbn [hexdigits]; [constructor|]. apply Forall_app. split; [apply IH|].
  constructor; [apply hexdigit_hexd; apply Z.mod_pos_bound; lia|constructor].
Qed.
Lemma hexdigits_length n : forall v, length (hexdigits n v) = n.
Proof. induction n as [|n IH]; intros v; cbn [hexdigits]; [reflexivity|]. rewrite app_length, IH. cbn. lia. Qed.

(** value of a digit string appended to [acc] *)
Definition hexnum (l : list Z) (acc : Z) : Z := fold_left (fun a c => a * 16 + match hexval c with Some d => d | None => 0 end) l acc.
Lemma hexval_hexd c : hexd c -> exists d, hexval c = Some d.
Proof.
  intros H. unfold hexval, lower. destruct (Z.leb_spec 48 c), (Z.leb_spec c 57); cbn [andb]; eauto; unfold hexd in H; try lia.
  destruct (Z.leb_spec 65 c), (Z.leb_spec c 90); try lia; cbn [andb].
  destruct (Z.leb_spec 97 c), (Z.leb_spec c 102); try lia; cbn [andb]; eauto.
Qed.
Lemma hexrun_app l : Forall hexd l -> forall acc n r, hexrun (l ++ r) acc n = hexrun r (hexnum l acc) (n + Z.of_nat (length l)).
Proof.
  induction 1 as [|c l Hc Hl IH]; intros acc n r; cbn [app hexrun].
  - cbn. rewrite Z.add_0_r. reflexivity.
  - destruct (hexval_hexd c Hc) as [d Hd]. rewrite Hd, IH. unfold hexnum. cbn [fold_left length]. rewrite Hd. f_equal. lia.
Qed.
Lemma hexrun_stop c r acc n : hexval c = None -> hexrun (c :: r) acc n = (acc, n, c :: r).
Proof. intros H. cbn [hexrun]. rewrite H. reflexivity. Qed.
Lemma hexnum_app a b acc : hexnum (a ++ b) acc = hexnum b (hexnum a acc).
Proof. apply fold_left_app. Qed.
Lemma hexnum_zeros j : forall acc, hexnum (repeat 48 j) acc = acc * 16 ^ Z.of_nat j.
Proof.
  induction j as [|j IH]; intros acc; [cbn; lia|]. cbn [repeat hexnum fold_left].
  change (hexnum (repeat 48 j) (acc * 16 + 0) = acc * 16 ^ Z.of_nat (S j)). rewrite IH, Nat2Z.inj_succ, Z.pow_succ_r by lia. lia.
Qed.
Lemma hexnum_hexdigits n : forall v acc, 0 <= v < 16 ^ Z.of_nat n -> hexnum (hexdigits n v) acc = acc * 16 ^ Z.of_nat n + v.
Proof.
  induction n as [|n IH]; intros v acc Hv; cbn [hexdigits]; [cbn in *; lia|].
  rewrite Nat2Z.inj_succ, Z.pow_succ_r in * by lia. rewrite hexnum_app, IH.
  - cbn [hexnum fold_left]. rewrite hexval_hexdigit by (apply Z.mod_pos_bound; lia). pose proof (Z.div_mod v 16 ltac:(lia)). lia.
  - split; [apply Z.div_pos; lia|apply Z.div_lt_upper_bound; lia].
Qed.
Lemma strip0_spec l : exists j, l = strip0 l ++ repeat 48 j.
Proof.
  induction l as [|c l [j IH]]; [exists O; reflexivity|]. cbn [strip0]. destruct (strip0 l) as [|x y] eqn:E.
  - destruct (Z.eqb_spec c 48) as [->|].
    + exists (S j). cbn in *. congruence.
    + exists j. cbn in *. congruence.
  - exists j. cbn in *. congruence.
Qed.

(** the exponent *)
Lemma decrun_app l : Forall (fun c => 48 <= c <= 57) l -> forall acc n r,
  decrun (l ++ r) acc n = decrun r (fold_left (fun a c => a * 10 + (c - 48)) l acc) (n + Z.of_nat (length l)).
Proof.
  induction 1 as [|c l Hc Hl IH]; intros acc n r; cbn [app decrun].
  - cbn. rewrite Z.add_0_r. reflexivity.
  - destruct (Z.leb_spec 48 c), (Z.leb_spec c 57); try lia. cbn [andb]. rewrite IH. cbn [fold_left length]. f_equal. lia.
Qed.
Lemma fold_udec n : forall k, (0 < n)%nat -> 0 <= k < 10 ^ Z.of_nat n -> fold_left (fun a c => a * 10 + (c - 48)) (udec n k) 0 = k.
Proof.
  induction n as [|n IH]; intros k Hn Hk; [lia|]. cbn [udec]. destruct (Z.ltb_spec k 10); [cbn; lia|].
  rewrite Nat2Z.inj_succ, Z.pow_succ_r in Hk by lia.
  assert (B : 0 <= k / 10 < 10 ^ Z.of_nat n) by (split; [apply Z.div_pos; lia|apply Z.div_lt_upper_bound; lia]).
  destruct n as [|n]; [cbn in Hk; lia|].
  rewrite fold_left_app, IH by (try lia; exact B). cbn [fold_left]. pose proof (Z.div_mod k 10). lia.
Qed.
Lemma decrun_udec k : 0 <= k < 10 ^ 5 -> exists n, n <> 0 /\ decrun (udec 5 k) 0 0 = (k, n, []).
Proof.
  intros Hk. rewrite <- (app_nil_r (udec 5 k)), decrun_app by (apply udec_digits; exact Hk). cbn [decrun].
  rewrite fold_udec by (try lia; exact Hk). exists (0 + Z.of_nat (length (udec 5 k))). split; [|reflexivity].
  pose proof (udec_nonnil 4 k) as N. destruct (udec 5 k); [congruence|]. cbn [length]. lia.
Qed.
Lemma parse_fmt_exp e : - 10 ^ 5 < e < 10 ^ 5 -> parse_exp (112 :: fmt_exp e) = Ret (e, []).
Proof.
  intros H. unfold parse_exp. change (lower 112 =? 112) with true. cbn beta iota zeta. unfold fmt_exp. destruct (Z.ltb_spec e 0).
  - change (take_sign (45 :: udec 5 (- e))) with (1, udec 5 (- e)). cbv beta iota zeta.
    destruct (decrun_udec (- e)) as (n & Hn & ->); [lia|]. destruct (Z.eqb_spec n 0); [lia|]. change (1 =? 1) with true. cbv iota. do 2 f_equal. lia.
  - change (take_sign (43 :: udec 5 e)) with (0, udec 5 e). cbv beta iota zeta.
    destruct (decrun_udec e) as (n & Hn & ->); [lia|]. destruct (Z.eqb_spec n 0); [lia|]. reflexivity.
Qed.

(** ** The round trip *)
Lemma b64_ok : fmt_ok binary64. Proof. split; cbn; lia. Qed.
Lemma round_pack_self b : is_bits binary64 b -> is_finite binary64 b = true ->
  round_pack binary64 (sgn binary64 b) (sig binary64 b) (sexp binary64 b) = b.
Proof.
  intros Hb Hf. rewrite <- fconv_finite with (g := binary64) by exact Hf.
  apply (encodes_unique binary64 (dec binary64 b)); [exact b64_ok| |apply fconv_encodes; exact b64_ok|apply encodes_dec; [exact b64_ok|exact Hb]].
  rewrite dec_finite by exact Hf. discriminate.
Qed.
Lemma finite_not_special b : is_finite binary64 b = true -> is_nan binary64 b = false /\ is_inf binary64 b = false.
Proof. unfold is_finite, is_nan, is_inf. destruct (expf binary64 b =? expmax binary64); cbn; [discriminate|auto]. Qed.

Definition fmt_body (b : Z) : list Z :=
  (if expf binary64 b =? 0 then [48] else [49]) ++
  (match strip0 (hexdigits 13 (man binary64 b)) with [] => [] | _ => 46 :: strip0 (hexdigits 13 (man binary64 b)) end) ++ 112 ::
  fmt_exp (if is_zero binary64 b then 0 else if expf binary64 b =? 0 then -1022 else expf binary64 b - 1023).

Lemma fmt_a_finite b : is_finite binary64 b = true ->
  fmt_a b = (if sgn binary64 b =? 1 then [45] else []) ++ 48 :: 120 :: fmt_body b.
Proof. intros H. destruct (finite_not_special b H) as [H1 H2]. unfold fmt_a, fmt_body. rewrite H1, H2. reflexivity. Qed.

Lemma fromhex_sign s l : s = 0 \/ s = 1 ->
  lstrip ((if s =? 1 then [45] else []) ++ 48 :: l) = (if s =? 1 then [45] else []) ++ 48 :: l /\
  take_sign ((if s =? 1 then [45] else []) ++ 48 :: l) = (s, 48 :: l).
Proof. intros [-> | ->]; split; reflexivity. Qed.

Lemma expf_range b : 0 <= expf binary64 b < 2048.
Proof. unfold expf. apply (Z.mod_pos_bound _ 2048). lia. Qed.
Lemma man_range b : 0 <= man binary64 b < 2 ^ 52.
Proof. unfold man. apply Z.mod_pos_bound. reflexivity. Qed.
Lemma sgn_01 b : sgn binary64 b = 0 \/ sgn binary64 b = 1.
Proof. unfold sgn. pose proof (Z.mod_pos_bound (b / sbit binary64) 2). lia. Qed.

Lemma hexrun_body b r : exists m n k,
  (let '(m, n, r) := hexrun (fmt_body b ++ r) 0 0 in
          match r with
            | c :: r' => if c =? 46 then let '(m', n', r'') := hexrun r' m n in (m', n', n' - n, r'') else (m, n, 0, r)
            | [] => (m, n, 0, [])
            end) = (m, n, k, 112 :: fmt_exp (if is_zero binary64 b then 0 else if expf binary64 b =? 0 then -1022 else expf binary64 b - 1023) ++ r) /\
  0 < n /\ 0 <= k <= 13 /\ m * 2 ^ (4 * (13 - k)) = sig binary64 b /\ 0 <= m.
Proof.
  unfold fmt_body. set (E := fmt_exp _). set (frac := strip0 _).
  pose proof (man_range b) as Hm. destruct (strip0_spec (hexdigits 13 (man binary64 b))) as [j Hj]. fold frac in Hj.
  assert (Hd : Forall hexd frac). { pose proof (hexdigits_hexd 13 (man binary64 b)) as D. rewrite Hj in D. apply Forall_app in D. tauto. }
  assert (Hl : (length frac + j = 13)%nat). { pose proof (hexdigits_length 13 (man binary64 b)) as D. rewrite Hj, app_length, repeat_length in D. exact D. }
  set (lead := if expf binary64 b =? 0 then 0 else 1).
  assert (HL : (if expf binary64 b =? 0 then [48] else [49]) = [48 + lead]) by (unfold lead; destruct (expf binary64 b =? 0); reflexivity).
  assert (HLv : hexval (48 + lead) = Some lead) by (unfold lead; destruct (expf binary64 b =? 0); reflexivity).
  assert (V : hexnum frac lead * 16 ^ Z.of_nat j = sig binary64 b).
  { rewrite <- hexnum_zeros, <- hexnum_app, <- Hj, hexnum_hexdigits by (split; [lia|]; apply Hm).
    unfold sig, lead. change (mw binary64) with 52. change (16 ^ Z.of_nat 13) with (2 ^ 52). destruct (expf binary64 b =? 0); lia. }
  assert (P : hexnum frac lead * 2 ^ (4 * (13 - Z.of_nat (length frac))) = sig binary64 b).
  { rewrite <- V. f_equal. replace (13 - Z.of_nat (length frac)) with (Z.of_nat j) by lia. rewrite Z.pow_mul_r by lia. reflexivity. }
  assert (NN : 0 <= hexnum frac lead).
  { pose proof (sig_nonneg _ b64_ok b) as S. rewrite <- V in S. assert (0 < 16 ^ Z.of_nat j) by (apply Z.pow_pos_nonneg; lia). nia. }
  rewrite HL. cbn [app].
  destruct frac as [|x y] eqn:F.
  - cbn [app hexrun]. rewrite HLv. change (hexval 112) with (@None Z). cbv beta iota zeta. change (112 =? 46) with false. cbv iota.
    exists (0 * 16 + lead), (0 + 1), 0. cbn in V, P, NN. repeat split; try lia.
  - rewrite <- F in *. rewrite <- app_assoc. cbn [app hexrun]. rewrite HLv. change (hexval 46) with (@None Z). cbv beta iota zeta. change (46 =? 46) with true. cbv iota.
    rewrite hexrun_app by exact Hd. rewrite hexrun_stop by reflexivity.
    exists (hexnum frac lead), (0 + 1 + Z.of_nat (length frac)), (Z.of_nat (length frac)).
    repeat split; try lia; try assumption; try (repeat f_equal; lia).
Qed.

Lemma fromhex_fmt_finite b : is_bits binary64 b -> is_finite binary64 b = true -> fromhex (fmt_a b) = Ret b.
Proof.
  intros Hb Hf. rewrite fmt_a_finite by exact Hf. unfold fromhex.
  destruct (fromhex_sign (sgn binary64 b) (120 :: fmt_body b) (sgn_01 b)) as [-> ->]. cbv beta iota zeta.
  change (after (bytes "inf") (48 :: 120 :: fmt_body b)) with (@None (list Z)).
  change (after (bytes "nan") (48 :: 120 :: fmt_body b)) with (@None (list Z)). cbv beta iota.
  change (skip_0x (48 :: 120 :: fmt_body b)) with (fmt_body b).
  destruct (hexrun_body b []) as (m & n & k & R & Hn & Hk & Hv & Hm). rewrite !app_nil_r in R.
  destruct (hexrun (fmt_body b) 0 0) as [[m0 n0] r0]. cbv beta iota in R |- *. rewrite R.
  destruct (Z.eqb_spec n 0); [lia|].
  set (E := if is_zero binary64 b then 0 else _) in *. pose proof (expf_range b) as HE.
  rewrite parse_fmt_exp by (unfold E; destruct (is_zero binary64 b); [lia|]; destruct (expf binary64 b =? 0); lia).
  cbn [pbind]. change (negb (only_spaces [])) with false. cbv beta iota.
  assert (RP : round_pack binary64 (sgn binary64 b) m (E - 4 * k) = b).
  { transitivity (round_pack binary64 (sgn binary64 b) (sig binary64 b) (sexp binary64 b)); [|apply round_pack_self; assumption].
    destruct (Z.eq_dec m 0) as [-> |Hm0].
    - rewrite <- Hv. cbn [Z.mul]. unfold round_pack. reflexivity.
    - rewrite <- Hv. rewrite round_pack_scale by lia.
      assert (Es : sexp binary64 b = E - 52); [|f_equal; lia].
      unfold E. assert (is_zero binary64 b = false) as ->.
      { rewrite zero_fval by exact b64_ok. apply Raux.Req_bool_false. intros Z0. apply sig_zero in Z0; [|exact b64_ok].
        rewrite Z0 in Hv. assert (0 < 2 ^ (4 * (13 - k))) by (apply Z.pow_pos_nonneg; lia). nia. }
      unfold sexp. change (bias binary64) with 1023. change (mw binary64) with 52. destruct (expf binary64 b =? 0); lia. }
  rewrite RP. destruct (finite_not_special b Hf) as [_ ->]. reflexivity.
Qed.

Lemma fromhex_fmt b : is_bits binary64 b -> is_nan binary64 b = false -> fromhex (fmt_a b) = Ret b.
Proof.
  intros Hb Hn. destruct (is_inf binary64 b) eqn:Hi; [|apply fromhex_fmt_finite; [exact Hb|apply not_special_finite; assumption]].
  unfold fmt_a. rewrite Hn, Hi. rewrite (inf_inv binary64 b b64_ok Hb Hi) at 2.
  destruct (sgn_01 b) as [-> | ->]; reflexivity.
Qed.

(** ** Bytes of a printed double *)
Definition num_byte (c : Z) : Prop := (c = 43 \/ 45 <= c <= 46 \/ 48 <= c <= 57 \/ 97 <= c <= 122).
Lemma udec_num n k : 0 <= k < 10 ^ Z.of_nat n -> Forall num_byte (udec n k).
Proof. intros H. eapply List.Forall_impl; [|apply udec_digits; exact H]. unfold num_byte. cbn. lia. Qed.
Lemma fmt_exp_num e : - 10 ^ 5 < e < 10 ^ 5 -> Forall num_byte (fmt_exp e).
Proof.
  intros H. unfold fmt_exp. destruct (Z.ltb_spec e 0); (constructor; [unfold num_byte; lia|]); apply udec_num; cbn; lia.
Qed.
Lemma fmt_a_bytes b : Forall num_byte (fmt_a b).
Proof.
  assert (N : forall l, forallb (fun c => (c =? 43) || (45 <=? c) && (c <=? 46) || (48 <=? c) && (c <=? 57) || (97 <=? c) && (c <=? 122)) l = true -> Forall num_byte l).
  { intros l H. apply Forall_forall. intros c Hc. rewrite forallb_forall in H. specialize (H c Hc). unfold num_byte. lia. }
  unfold fmt_a. apply Forall_app. split; [destruct (sgn binary64 b =? 1); apply N; reflexivity|].
  destruct (is_nan binary64 b); [apply N; reflexivity|]. destruct (is_inf binary64 b); [apply N; reflexivity|].
  apply Forall_app. split; [apply N; reflexivity|]. apply Forall_app. split; [destruct (expf binary64 b =? 0); apply N; reflexivity|].
  apply Forall_app. split.
  - destruct (strip0_spec (hexdigits 13 (man binary64 b))) as [j Hj]. pose proof (hexdigits_hexd 13 (man binary64 b)) as D.
    rewrite Hj in D. apply Forall_app in D as [D _].
    assert (D' : Forall num_byte (strip0 (hexdigits 13 (man binary64 b)))) by (eapply List.Forall_impl; [|exact D]; unfold hexd, num_byte; cbn; lia).
    destruct (strip0 _); [constructor|]. constructor; [unfold num_byte; lia|exact D'].
  - constructor; [unfold num_byte; lia|]. apply fmt_exp_num. pose proof (expf_range b).
    destruct (is_zero binary64 b); [lia|]. destruct (expf binary64 b =? 0); lia.
Qed.
Lemma fmt_a_plain b : ~ In comma (fmt_a b) /\ ~ In newline (fmt_a b).
Proof.
  pose proof (fmt_a_bytes b) as H. rewrite Forall_forall in H. unfold comma, newline, num_byte in *.
  split; intros Hi; specialize (H _ Hi); lia.
Qed.
Lemma fmt_a_hex b : is_finite binary64 b = true -> In 120 (fmt_a b).
Proof. intros H. rewrite fmt_a_finite by exact H. apply in_app_iff. right. right. left. reflexivity. Qed.
Lemma fmt_a_nan b : is_nan binary64 b = true -> fmt_a b = bytes "nan" \/ fmt_a b = bytes "-nan".
Proof. intros H. unfold fmt_a. rewrite H. destruct (sgn binary64 b =? 1); [right|left]; reflexivity. Qed.
Lemma fmt_a_inf b : is_inf binary64 b = true -> fmt_a b = bytes "inf" \/ fmt_a b = bytes "-inf".
Proof. intros H. unfold fmt_a. rewrite H, (inf_not_nan _ _ H). destruct (sgn binary64 b =? 1); [right|left]; reflexivity. Qed.
