(** Operation-level consequences: modes, flags, casts, default configuration. *)
From Coq Require Import String ZArith Reals Bool Lia Lra.
From Flocq Require Import Core.
From Verif Require Import Common Bits BitsFacts FloatReal FloatValue StdlibModel VprecModel VprecRound VprecValue VprecDenormal VprecMain VprecProps VprecConfig.
Open Scope Z_scope.
Open Scope outcome_scope.

(** [vspec] determines the result *)
Lemma vspec_unique f r p fl x y y' : fmt_ok f -> 2 <= r -> 1 <= p -> vspec f r p fl x y -> vspec f r p fl x y' -> y = y'.
Proof.
  intros Hf Hr Hp. unfold vspec. cbv zeta. set (X := Rabs (fval f x)). set (Y := rnd (vemin r) p X).
  assert (HX : (0 <= X)%R) by apply Rabs_pos. pose proof (bpow_gt_0 radix2 (vemin r)) as Hb.
  assert (Hz : is_finite f x = false -> X = 0%R -> False).
  { intros Fx H. unfold X in H. rewrite (mval_abs f Hf) in H. apply (mval_zero f Hf) in H. unfold is_zero in H. apply Z.eqb_eq in H.
    assert (is_finite f x = true) by (apply finite_code; [assumption|]; rewrite H; apply inf_code_pos; assumption). congruence. }
  assert (Hlt : (X < b2 (vemin r))%R -> (b2 (vemax r + 1) <= Y)%R -> False).
  { intros H1 H2. destruct (vemax_vemin r Hr) as [Hm1 Hm2].
    assert (Y <= b2 (vemin r))%R; [|assert (b2 (vemin r) < b2 (vemax r + 1))%R by (apply bpow_lt; lia); lra].
    unfold Y. apply rnd_le_pow; [lia|lia|lra]. }
  intros [H|[H|[H|[H|[H|H]]]]] [H'|[H'|[H'|[H'|[H'|H']]]]];
    repeat match goal with K : _ /\ _ |- _ => destruct K end; subst; try congruence; try lra;
    try (exfalso; apply Hz; congruence); try (exfalso; apply Hlt; lra); try (eapply denotes_unique; eassumption).
Qed.

(** flags play no role outside the emulated subnormals, and each flag only concerns its side *)
Definition same_rounding (c c' : vctx) : Prop :=
  abs_exp c = abs_exp c' /\ rel_err c = rel_err c' /\ abs_err c = abs_err c'.

Lemma vround_flags sem f r p inp x c c' : fmt_ok f -> 2 <= r <= 31 -> 1 - bias f <= vemin r -> same_rounding c c' ->
  (flush c inp = flush c' inp \/ is_finite f x = false \/ (b2 (vemin r) <= Rabs (fval f x))%R) ->
  vprec_round sem f x inp c r p = vprec_round sem f x inp c' r p.
Proof.
  intros Hf Hr Hm (E1 & E2 & E3) H. unfold vprec_round. destruct (is_finite f x) eqn:Fx; [|reflexivity]. cbn [negb].
  rewrite shl1_ok by lia. cbn [bind]. fold (vemax r). destruct (vemax_vemin r ltac:(lia)) as [_ <-].
  assert (Hh : forall g a e q, handle_normal_abserr sem g a e q c = handle_normal_abserr sem g a e q c').
  { intros. unfold handle_normal_abserr, compute_abserr. rewrite E1, E2. reflexivity. }
  assert (Hd : forall g d q, compute_abserr g true c d q = compute_abserr g true c' d q).
  { intros. unfold compute_abserr. rewrite E1, E2. reflexivity. }
  rewrite Hh, Hd, E3. match goal with |- bind ?m _ = _ => destruct m as [o| | |] end; cbn [bind]; try reflexivity.
  destruct o; [reflexivity|]. destruct H as [H|[H|H]].
  - unfold flush in H. rewrite H. reflexivity.
  - congruence.
  - rewrite (mval_abs f Hf) in H. destruct (Z.ltb_spec (expf f x - bias f) (vemin r)) as [L|L]; [|reflexivity].
    apply (mval_lt_pow f Hf) in L; [lra|assumption].
Qed.

Lemma cfmt_emin f r : cfmt f -> 2 <= r <= ew f -> 2 <= r <= 31 /\ 1 - bias f <= vemin r.
Proof.
  intros Hcf Hr. pose proof (vemin_cases f r Hcf Hr) as H. assert (ew f <= 11) by (destruct Hcf as [-> | ->]; cbn; lia).
  pose proof (vemax_le f r Hcf Hr). unfold vemin, vemax in *. lia.
Qed.

(** operands and results as the modes prescribe *)
Section ops.
  Context (sem : shift_sem) (f : fmt) (Hcf : cfmt f) (ctx : vctx).
  Let r := ctx_range f ctx.
  Let p := ctx_prec f ctx.
  Context (Hr : 2 <= r <= ew f) (Hadm : adm sem f p) (Hrel : abs_err ctx = false).

  (** the image of an operand (resp. result) under the mode *)
  Definition op_in (a a' : Z) : Prop :=
    if rounds_inputs (vmode_of ctx) then vspec f r p (daz ctx) a a' else a' = a.
  Definition op_out (v y : Z) : Prop :=
    if rounds_output (vmode_of ctx) then vspec f r p (ftz ctx) v y else y = v.

  Lemma round_in_spec a : is_bits f a -> exists a', round_in sem f ctx a = Ok a' /\ is_bits f a' /\ op_in a a'.
  Proof.
    intros Ha. unfold round_in, op_in. destruct (rounds_inputs (vmode_of ctx)); [|eauto].
    destruct (vround_spec sem f Hcf r p Hr Hadm ctx Hrel true a Ha) as (y & Hy & By & Sy). exists y. split; [exact Hy|]. split; [exact By|].
    replace (flush ctx true) with (daz ctx) in Sy; [exact Sy|]. unfold flush. destruct (daz ctx), (ftz ctx); reflexivity.
  Qed.
  Lemma round_out_spec a : is_bits f a -> exists a', round_out sem f ctx a = Ok a' /\ is_bits f a' /\ op_out a a'.
  Proof.
    intros Ha. unfold round_out, op_out. destruct (rounds_output (vmode_of ctx)); [|eauto].
    destruct (vround_spec sem f Hcf r p Hr Hadm ctx Hrel false a Ha) as (y & Hy & By & Sy). exists y. split; [exact Hy|]. split; [exact By|].
    replace (flush ctx false) with (ftz ctx) in Sy; [exact Sy|]. unfold flush. destruct (daz ctx), (ftz ctx); reflexivity.
  Qed.

  Lemma binary_op_spec op a b : (forall u v, is_bits f u -> is_bits f v -> is_bits f (op u v)) -> is_bits f a -> is_bits f b ->
    exists a' b' y, vprec_binary_op sem f op ctx a b = Ok y /\ op_in a a' /\ op_in b b' /\ op_out (op a' b') y /\ is_bits f y.
  Proof.
    intros Hop Ha Hb. unfold vprec_binary_op.
    destruct (round_in_spec a Ha) as (a' & -> & Ba & Sa). destruct (round_in_spec b Hb) as (b' & -> & Bb & Sb). cbn [bind].
    destruct (round_out_spec (op a' b') (Hop _ _ Ba Bb)) as (y & -> & By & Sy). exists a', b', y. auto.
  Qed.
  Lemma ternary_op_spec op a b c : (forall u v w, is_bits f u -> is_bits f v -> is_bits f w -> is_bits f (op u v w)) ->
    is_bits f a -> is_bits f b -> is_bits f c ->
    exists a' b' c' y, vprec_ternary_op sem f op ctx a b c = Ok y /\ op_in a a' /\ op_in b b' /\ op_in c c' /\ op_out (op a' b' c') y /\ is_bits f y.
  Proof.
    intros Hop Ha Hb Hc. unfold vprec_ternary_op.
    destruct (round_in_spec a Ha) as (a' & -> & Ba & Sa). destruct (round_in_spec b Hb) as (b' & -> & Bb & Sb). 
    destruct (round_in_spec c Hc) as (c' & -> & Bc & Sc). cbn [bind].
    destruct (round_out_spec (op a' b' c') (Hop _ _ _ Ba Bb Bc)) as (y & -> & By & Sy). exists a', b', c', y. auto 10.
  Qed.
End ops.

(** the configuration invariant delivers the bounds the rounding theorems need *)
Lemma bounds_range f ctx : cfmt f -> in_bounds ctx -> 2 <= ctx_range f ctx <= ew f.
Proof. intros [-> | ->] (H1 & H2 & H3 & H4); cbn; lia. Qed.
Lemma bounds_prec sem f ctx : cfmt f -> in_bounds ctx -> (sem = Strict -> ctx_prec f ctx < mw f) -> adm sem f (ctx_prec f ctx).
Proof. intros [-> | ->] (H1 & H2 & H3 & H4) Hs; (split; [cbn; lia|intros E; specialize (Hs E); cbn in *; lia]). Qed.

Lemma binary_op_modes strtol qs ctx sem f op a b :
  vrun strtol qs = Ok ctx -> cfmt f -> (sem = Strict -> ctx_prec f ctx < mw f) -> abs_err ctx = false ->
  (forall u v, is_bits f u -> is_bits f v -> is_bits f (op u v)) -> is_bits f a -> is_bits f b ->
  exists a' b' y, vprec_binary_op sem f op ctx a b = Ok y /\ op_in f ctx a a' /\ op_in f ctx b b' /\ op_out f ctx (op a' b') y.
Proof.
  intros Hq Hcf Hs Hrel Hop Ha Hb. apply vrun_bounds in Hq.
  destruct (binary_op_spec sem f Hcf ctx (bounds_range f ctx Hcf Hq) (bounds_prec sem f ctx Hcf Hq Hs) Hrel op a b Hop Ha Hb) as (a' & b' & y & H & H1 & H2 & H3 & _).
  exists a', b', y. auto.
Qed.
Lemma ternary_op_modes strtol qs ctx sem f op a b c :
  vrun strtol qs = Ok ctx -> cfmt f -> (sem = Strict -> ctx_prec f ctx < mw f) -> abs_err ctx = false ->
  (forall u v w, is_bits f u -> is_bits f v -> is_bits f w -> is_bits f (op u v w)) -> is_bits f a -> is_bits f b -> is_bits f c ->
  exists a' b' c' y, vprec_ternary_op sem f op ctx a b c = Ok y /\ op_in f ctx a a' /\ op_in f ctx b b' /\ op_in f ctx c c' /\
    op_out f ctx (op a' b' c') y.
Proof.
  intros Hq Hcf Hs Hrel Hop Ha Hb Hc. apply vrun_bounds in Hq.
  destruct (ternary_op_spec sem f Hcf ctx (bounds_range f ctx Hcf Hq) (bounds_prec sem f ctx Hcf Hq Hs) Hrel op a b c Hop Ha Hb Hc) as (a' & b' & c' & y & H & H1 & H2 & H3 & H4 & _).
  exists a', b', c', y. auto 10.
Qed.

(** the images are unique: no other value can influence the result *)
Lemma op_in_unique strtol qs ctx f a a' a'' : vrun strtol qs = Ok ctx -> cfmt f -> op_in f ctx a a' -> op_in f ctx a a'' -> a' = a''.
Proof.
  intros Hq Hcf. apply vrun_bounds in Hq. pose proof (bounds_range f ctx Hcf Hq). pose proof (bounds_prec Masked f ctx Hcf Hq ltac:(discriminate)) as [Hp _].
  unfold op_in. destruct (rounds_inputs _); [|congruence]. apply vspec_unique; [apply cfmt_ok; assumption|lia|lia].
Qed.
Lemma op_out_unique strtol qs ctx f a a' a'' : vrun strtol qs = Ok ctx -> cfmt f -> op_out f ctx a a' -> op_out f ctx a a'' -> a' = a''.
Proof.
  intros Hq Hcf. apply vrun_bounds in Hq. pose proof (bounds_range f ctx Hcf Hq). pose proof (bounds_prec Masked f ctx Hcf Hq ltac:(discriminate)) as [Hp _].
  unfold op_out. destruct (rounds_output _); [|congruence]. apply vspec_unique; [apply cfmt_ok; assumption|lia|lia].
Qed.

(** C09 *)
Lemma default_binary_op f op a b : cfmt f -> is_bits f (op a b) -> vprec_binary_op Masked f op vctx_init a b = Ok (op a b).
Proof.
  intros Hcf Hb. unfold vprec_binary_op, round_in, round_out. cbn [vmode_of vctx_init rounds_inputs rounds_output bind].
  replace (ctx_range f vctx_init) with (ew f) by (destruct Hcf as [-> | ->]; reflexivity).
  replace (ctx_prec f vctx_init) with (mw f) by (destruct Hcf as [-> | ->]; reflexivity). apply vround_default; auto.
Qed.
Lemma default_ternary_op f op a b c : cfmt f -> is_bits f (op a b c) -> vprec_ternary_op Masked f op vctx_init a b c = Ok (op a b c).
Proof.
  intros Hcf Hb. unfold vprec_ternary_op, round_in, round_out. cbn [vmode_of vctx_init rounds_inputs rounds_output bind].
  replace (ctx_range f vctx_init) with (ew f) by (destruct Hcf as [-> | ->]; reflexivity).
  replace (ctx_prec f vctx_init) with (mw f) by (destruct Hcf as [-> | ->]; reflexivity). apply vround_default; auto.
Qed.
Lemma default_binary_op_ub f op a b : cfmt f -> is_bits f (op a b) -> is_finite f (op a b) = true -> 1 <= expf f (op a b) ->
  vprec_binary_op Strict f op vctx_init a b = UB.
Proof.
  intros Hcf Hb Fb He. unfold vprec_binary_op, round_in, round_out. cbn [vmode_of vctx_init rounds_inputs rounds_output bind].
  replace (ctx_range f vctx_init) with (ew f) by (destruct Hcf as [-> | ->]; reflexivity).
  replace (ctx_prec f vctx_init) with (mw f) by (destruct Hcf as [-> | ->]; reflexivity). apply vround_default_ub; auto.
Qed.

(** C11 *)
Lemma cast_spec strtol qs ctx sem x : vrun strtol qs = Ok ctx -> abs_err ctx = false -> is_bits binary64 x ->
  exists y, vprec_cast sem ctx x = Ok y /\
    match vmode_of ctx with
    | mode_ieee => y = fconv binary64 binary32 x
    | mode_ob | mode_full => vspec_cast (range32 ctx) (prec32 ctx) (ftz ctx) x y
    | mode_ib => vspec_cast (Z.min (range64 ctx) 8) (Z.min (prec64 ctx) 23) (daz ctx) x y
    end.
Proof.
  intros Hq Hrel Hx. apply vrun_bounds in Hq as (B1 & B2 & B3 & B4). unfold vprec_cast.
  assert (F1 : flush ctx false = ftz ctx) by (unfold flush; destruct (daz ctx), (ftz ctx); reflexivity).
  assert (F2 : flush ctx true = daz ctx) by (unfold flush; destruct (daz ctx), (ftz ctx); reflexivity).
  destruct (vmode_of ctx).
  - eauto.
  - destruct (vcast_round sem ctx false (range32 ctx) (prec32 ctx) x B2 B1 Hrel Hx) as (y & -> & Hy). rewrite F1 in Hy. cbn [bind]. eauto.
  - destruct (vcast_round sem ctx true (Z.min (range64 ctx) 8) (Z.min (prec64 ctx) 23) x ltac:(lia) ltac:(lia) Hrel Hx) as (y & -> & Hy). rewrite F2 in Hy. cbn [bind]. eauto.
  - destruct (vcast_round sem ctx false (range32 ctx) (prec32 ctx) x B2 B1 Hrel Hx) as (y & -> & Hy). rewrite F1 in Hy. cbn [bind]. eauto.
Qed.

(** C10 *)
Lemma vround_flush sem f r p ctx inp x : cfmt f -> 2 <= r <= ew f -> adm sem f p -> abs_err ctx = false ->
  is_bits f x -> is_finite f x = true -> (Rabs (fval f x) < b2 (vemin r))%R -> (if inp : bool then daz ctx else ftz ctx) = true ->
  vprec_round sem f x inp ctx r p = Ok (zero f (sgn f x)).
Proof.
  intros Hcf Hr Hadm Hrel Hx Fx HX Hfl. destruct (vprec_round_rel sem f Hcf r p Hr Hadm ctx Hrel inp x Hx Fx) as (y & Hy & By & H1 & H2 & H3 & H4).
  rewrite Hy. f_equal. rewrite (mval_abs f (cfmt_ok f Hcf)) in HX. apply H3; [exact HX|].
  unfold flush. destruct inp; rewrite Hfl; destruct (daz ctx), (ftz ctx); reflexivity.
Qed.

Lemma vround_unflushed sem f r p ctx inp x : cfmt f -> 2 <= r <= ew f ->
  (is_finite f x = false \/ (b2 (vemin r) <= Rabs (fval f x))%R \/ (if inp : bool then daz ctx else ftz ctx) = false) ->
  vprec_round sem f x inp ctx r p = vprec_round sem f x inp (upd_daz (upd_ftz ctx false) false) r p.
Proof.
  intros Hcf Hr H. destruct (cfmt_emin f r Hcf Hr). apply vround_flags; try assumption; [apply cfmt_ok; assumption|repeat split|].
  destruct H as [H|[H|H]]; auto. left. unfold flush. cbn. destruct inp; rewrite H; rewrite ?andb_false_r; reflexivity.
Qed.
