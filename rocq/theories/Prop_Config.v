(** C69: configuration of the MCA, bitmask and cancellation backends. *)
From Coq Require Import String ZArith List Bool Lia Reals.
From Flocq Require Import Core.
From Verif Require Import Common Bits BitsFacts FloatReal FloatValue FloatOps StdlibModel RngModel McaModel CancelModel BitmaskModel IeeeModel IeeeProofs VprecConfig ConfigModel.
Import ListNotations.
Open Scope Z_scope.
Open Scope outcome_scope.

(** * The documented meaning of the requests *)
Definition positive (x : Z) : Prop := vlt (dec binary32 0) (dec binary32 x).
Definition at_most_one (x : Z) : Prop := vlt (dec binary32 x) (dec binary32 one32) \/ veq (dec binary32 x) (dec binary32 one32).
Definition mode_names : list (string * mcamode) := [("ieee"%string, mca_ieee); ("mca"%string, mca_mca); ("pb"%string, mca_pb); ("rr"%string, mca_rr)].
Definition error_names : list (string * (bool * bool)) := [("rel"%string, (true, false)); ("abs"%string, (false, true)); ("all"%string, (true, true))].
Definition mode_numbers : list (Z * mcamode) := [(0, mca_ieee); (1, mca_mca); (2, mca_pb); (3, mca_rr)].
Definition error_numbers : list (Z * (bool * bool)) := [(0, (true, false)); (1, (false, true)); (2, (true, true))].

Section spec.
  Context (strtol strtod : string -> Z * bool).
  Definition number (a : string) : Z := fst (strtol a).
  Definition is_number (a : string) : Prop := snd (strtol a) = false.
  Definition as_float (a : string) : Z := fconv binary64 binary32 (fst (strtod a)).

  (** the values the theorem speaks of: numbers that fit in an int, reals that are not NaN *)
  Definition representable (q : mreq) : Prop :=
    match q with
    | MOpt (MPrec32 a) | MOpt (MPrec64 a) | MOpt (MErrExp a) => - 2 ^ 31 <= number a < 2 ^ 31
    | MOpt (MSparsity a) => dec binary64 (fst (strtod a)) <> DNaN
    | MConf k => 0 <= mf_p32 k < 2 ^ 32 /\ 0 <= mf_p64 k < 2 ^ 32 /\ - 2 ^ 31 <= mf_absexp k < 2 ^ 31 /\ is_bits binary32 (mf_sparsity k) /\ dec binary32 (mf_sparsity k) <> DNaN
    | _ => True
    end.
  Definition valid (b : mbackend) (q : mreq) : Prop :=
    match q with
    | MOpt (MPrec32 a) => is_number a /\ match b with QuadB => 1 <= number a | IntB => number a = 24 end
    | MOpt (MPrec64 a) => is_number a /\ match b with QuadB => 1 <= number a | IntB => number a = 53 end
    | MOpt (MMode a) => exists m, In (lower a, m) mode_names
    | MOpt (MErrMode a) => b = QuadB /\ exists m, In (lower a, m) error_names
    | MOpt (MErrExp a) => b = QuadB /\ is_number a
    | MOpt (MSeed a) => is_number a
    | MOpt MDaz | MOpt MFtz => True
    | MOpt (MSparsity a) => snd (strtod a) = false /\ positive (as_float a) /\ (b = IntB -> at_most_one (as_float a))
    | MConf k => positive (mf_sparsity k) /\ 1 <= mf_p32 k < 2 ^ 31 /\ 1 <= mf_p64 k < 2 ^ 31 /\ 0 <= mf_mode k <= 3 /\ 0 <= mf_err k <= 2
    | MCall32 v | MCall64 v => b = QuadB -> 1 <= v
    end.
  (** the new context, field by field *)
  Definition becomes (b : mbackend) (q : mreq) (c c' : mctx) : Prop :=
    match c with
    | mk_mctx mode p32 p64 rel abs absexp daz ftz choose seed sparsity =>
      match q with
      | MOpt (MPrec32 a) => c' = mk_mctx mode (number a) p64 rel abs absexp daz ftz choose seed sparsity
      | MOpt (MPrec64 a) => c' = mk_mctx mode p32 (number a) rel abs absexp daz ftz choose seed sparsity
      | MOpt (MMode a) => exists m, In (lower a, m) mode_names /\ c' = mk_mctx m p32 p64 rel abs absexp daz ftz choose seed sparsity
      | MOpt (MErrMode a) => exists r s, In (lower a, (r, s)) error_names /\ c' = mk_mctx mode p32 p64 r s absexp daz ftz choose seed sparsity
      | MOpt (MErrExp a) => c' = mk_mctx mode p32 p64 rel abs (number a) daz ftz choose seed sparsity
      | MOpt (MSeed a) => c' = mk_mctx mode p32 p64 rel abs absexp daz ftz true (number a mod 2 ^ 64) sparsity
      | MOpt MDaz => c' = mk_mctx mode p32 p64 rel abs absexp true ftz choose seed sparsity
      | MOpt MFtz => c' = mk_mctx mode p32 p64 rel abs absexp daz true choose seed sparsity
      | MOpt (MSparsity a) => c' = mk_mctx mode p32 p64 rel abs absexp daz ftz choose seed (as_float a)
      | MConf k => exists m r s e, In (mf_mode k, m) mode_numbers /\ In (mf_err k, (r, s)) error_numbers /\
          (e = mf_absexp k \/ b = IntB /\ mf_err k = 0 /\ e = absexp) /\
          c' = mk_mctx m (mf_p32 k) (mf_p64 k) r s e (negb (mf_daz k =? 0)) (negb (mf_ftz k =? 0)) true (mf_seed k) (mf_sparsity k)
      | MCall32 v => c' = mk_mctx mode (match b with QuadB => v | IntB => p32 end) p64 rel abs absexp daz ftz choose seed sparsity
      | MCall64 v => c' = mk_mctx mode p32 (match b with QuadB => v | IntB => p64 end) rel abs absexp daz ftz choose seed sparsity
      end
    end.

  (** bitmask *)
  Definition bmode_names : list (string * bmode) := [("ieee"%string, bm_ieee); ("full"%string, bm_full); ("ib"%string, bm_ib); ("ob"%string, bm_ob)].
  Definition oper_names : list (string * boper) := [("zero"%string, bop_zero); ("one"%string, bop_one); ("rand"%string, bop_rand)].
  Definition brepresentable (o : bopt) : Prop := match o with BPrec32 a | BPrec64 a => - 2 ^ 31 <= number a < 2 ^ 31 | _ => True end.
  Definition bvalid (o : bopt) : Prop :=
    match o with
    | BPrec32 a | BPrec64 a => is_number a /\ 1 <= number a
    | BMode a => exists m, In (lower a, m) bmode_names
    | BOper a => exists m, In (lower a, m) oper_names
    | BSeed a => is_number a
    | BDaz | BFtz => True
    end.
  (** a word whose bits are exactly those at positions [k] and above *)
  Definition keeps_from (width k mask : Z) : Prop := 0 <= mask < 2 ^ width /\ forall i, 0 <= i < width -> Z.testbit mask i = (k <=? i).
  Definition bbecomes (o : bopt) (c c' : bctx) : Prop :=
    match c with
    | mk_bctx mode oper p32 p64 daz ftz choose seed mask32 mask64 =>
      match o with
      | BPrec32 a => exists mask, keeps_from 32 (24 - number a) mask /\ c' = mk_bctx mode oper (number a) p64 daz ftz choose seed mask mask64
      | BPrec64 a => exists mask, keeps_from 64 (53 - number a) mask /\ c' = mk_bctx mode oper p32 (number a) daz ftz choose seed mask32 mask
      | BMode a => exists m, In (lower a, m) bmode_names /\ c' = mk_bctx m oper p32 p64 daz ftz choose seed mask32 mask64
      | BOper a => exists m, In (lower a, m) oper_names /\ c' = mk_bctx mode m p32 p64 daz ftz choose seed mask32 mask64
      | BSeed a => c' = mk_bctx mode oper p32 p64 daz ftz true (number a mod 2 ^ 64) mask32 mask64
      | BDaz => c' = mk_bctx mode oper p32 p64 true ftz choose seed mask32 mask64
      | BFtz => c' = mk_bctx mode oper p32 p64 daz true choose seed mask32 mask64
      end
    end.
End spec.


(** * Lemmas *)
Lemma to_int_id v : - 2 ^ 31 <= v < 2 ^ 31 -> to_int v = v.
Proof. intros H. unfold to_int. change (2 ^ 31) with 2147483648 in *. change (2 ^ 32) with 4294967296. rewrite Z.mod_small by lia. lia. Qed.
Lemma to_int_high v : 2 ^ 31 <= v < 2 ^ 32 -> to_int v = v - 2 ^ 32.
Proof.
  intros H. unfold to_int. change (2 ^ 31) with 2147483648 in *. change (2 ^ 32) with 4294967296 in *.
  replace (v + 2147483648) with (v - 2147483648 + 1 * 4294967296) by lia. rewrite Z.mod_add by lia. rewrite Z.mod_small by lia. lia.
Qed.
Lemma fkey_key f x : fkey f x = key f x. Proof. reflexivity. Qed.
Lemma bits0 : is_bits binary32 0. Proof. split; vm_compute; congruence. Qed.
Lemma bits1 : is_bits binary32 one32. Proof. split; vm_compute; congruence. Qed.
Lemma not_positive_spec x : is_bits binary32 x -> dec binary32 x <> DNaN -> not_positive x = false <-> positive x.
Proof.
  intros B N. unfold not_positive, fge, positive. rewrite !fkey_key.
  assert (Nx : is_nan binary32 x = false) by (destruct (is_nan binary32 x) eqn:E; [apply nan_dec in E; congruence|reflexivity]).
  assert (N0 : is_nan binary32 0 = false) by (vm_compute; reflexivity). rewrite Nx, N0. cbn [negb andb].
  rewrite Z.leb_gt. apply (key_vlt binary32 ok32 0 x bits0 B N0 Nx).
Qed.
Lemma above_one_spec x : is_bits binary32 x -> dec binary32 x <> DNaN -> above_one x = false <-> at_most_one x.
Proof.
  intros B N. unfold above_one, fgt, at_most_one. rewrite !fkey_key.
  assert (Nx : is_nan binary32 x = false) by (destruct (is_nan binary32 x) eqn:E; [apply nan_dec in E; congruence|reflexivity]).
  assert (N1 : is_nan binary32 one32 = false) by (vm_compute; reflexivity). rewrite Nx, N1. cbn [negb andb].
  rewrite Z.ltb_ge. pose proof (key_vlt binary32 ok32 x one32 B bits1 Nx N1) as K. pose proof (key_veq binary32 ok32 x one32 B bits1 Nx N1) as K'.
  assert (D : key binary32 x <= key binary32 one32 <-> key binary32 x < key binary32 one32 \/ key binary32 x = key binary32 one32) by lia. tauto.
Qed.
Lemma as_float_ok d : dec binary64 d <> DNaN -> is_bits binary32 (fconv binary64 binary32 d) /\ dec binary32 (fconv binary64 binary32 d) <> DNaN.
Proof.
  intros N. destruct (fconv_encodes binary64 binary32 d ok64 ok32) as [B E]. split; [exact B|].
  assert (S : forall s X, rsign s X = 0 \/ rsign s X = 1 \/ rsign s X = s).
  { intros s X. unfold rsign. destruct (Req_bool X 0); [tauto|]. destruct (Rlt_bool X 0); tauto. }
  unfold dec in N, E at 1. destruct (is_nan binary64 d); [congruence|]. pose proof (sgn_01 binary64 d) as S1.
  destruct (is_inf binary64 d); [rewrite E, dec_inf by (exact ok32 || exact S1); discriminate|].
  cbv zeta in E. destruct E as [E1 E2]. destruct (Rlt_or_le (Rabs (rnd (femin binary32) (mw binary32) (fval binary64 d))) (b2 (bias binary32 + 1))) as [L|L].
  - destruct (E1 L) as (F & _). rewrite dec_finite by exact F. discriminate.
  - rewrite (E2 L), dec_inf; [discriminate|exact ok32|]. destruct (S (sgn binary64 d) (fval binary64 d)) as [H|[H|H]]; rewrite H; tauto.
Qed.
Lemma str_eq_spec a b : str_eq a b = true <-> b = a.
Proof. unfold str_eq. destruct (string_dec a b); split; congruence. Qed.
Lemma str_eq_not a b : str_eq a b = false <-> b <> a.
Proof. unfold str_eq. destruct (string_dec a b); split; congruence. Qed.


Ltac names :=
  unfold strcase_eq;
  repeat match goal with
  | |- context [str_eq (lower ?s) (lower ?a)] =>
    let E := fresh "E" in let s' := eval vm_compute in (lower s) in change (lower s) with s';
    destruct (str_eq s' (lower a)) eqn:E; [apply str_eq_spec in E; rewrite E|apply str_eq_not in E]
  end.
Ltac table := unfold mode_names, error_names, bmode_names, oper_names, mode_numbers, error_numbers; cbn [In].
Ltac refuse := left; split; [reflexivity|]; table; intros H; repeat match goal with H : _ /\ _ |- _ => destruct H | H : exists _, _ |- _ => destruct H | H : _ \/ _ |- _ => destruct H end; try contradiction; congruence.
Ltac take m := right; split; [exists m; table; tauto|eexists; split; [reflexivity|]; exists m; split; [table; tauto|reflexivity]].

Section proofs.
  Context (strtol strtod : string -> Z * bool).

  Definition decided (b : mbackend) (c : mctx) (q : mreq) : Prop :=
    (mstep strtol strtod b c q = Exit /\ ~ valid strtol strtod b q) \/
    (valid strtol strtod b q /\ exists c', mstep strtol strtod b c q = Ok c' /\ becomes strtol strtod b q c c').

  Lemma common_spec b c o : match o with MMode _ | MSeed _ | MDaz | MFtz => True | _ => False end -> decided b c (MOpt o).
  Proof.
    assert (S : match o with MMode _ | MSeed _ | MDaz | MFtz => True | _ => False end -> mstep strtol strtod b c (MOpt o) = quad_option strtol strtod c o) by (destruct b, o; cbn; tauto).
    intros H. unfold decided. rewrite (S H). clear S.
    destruct c as [mode p32 p64 rel abs absexp daz ftz choose seed sparsity].
    destruct o as [a|a|a|a|a|a| | |a]; cbn in H; try contradiction; clear H; cbn [valid becomes quad_option].
    - names; [take mca_ieee|take mca_mca|take mca_pb|take mca_rr|refuse].
    - unfold is_number, number. destruct (strtol a) as [l e]. cbn [fst snd]. destruct e; [refuse|]. right. split; [reflexivity|]. eexists; split; reflexivity.
    - right. split; [exact I|]. eexists; split; reflexivity.
    - right. split; [exact I|]. eexists; split; reflexivity.
  Qed.
  Lemma option_spec b c o : representable strtol strtod (MOpt o) -> decided b c (MOpt o).
  Proof.
    destruct o as [a|a|a|a|a|a| | |a]; try (intros _; apply common_spec; exact I); unfold decided, representable.
    all: destruct c as [mode p32 p64 rel abs absexp daz ftz choose seed sparsity]; cbn [valid becomes mstep].
    - unfold is_number, number. destruct (strtol a) as [l e] eqn:L. cbn [fst snd]. intros R.
      destruct b; cbn [quad_option int_option]; rewrite L, to_int_id by exact R; destruct e; cbn [orb]; try (left; split; [reflexivity|intuition discriminate]); unfold set_precision32.
      + destruct (Z.leb_spec l 0); [left; split; [reflexivity|intuition lia]|]. destruct (Z.ltb_spec l 1); [lia|].
        right. split; [intuition lia|]. eexists; split; reflexivity.
      + destruct (Z.eqb_spec l 24); cbn [negb]; [|left; split; [reflexivity|intuition lia]]. destruct (Z.ltb_spec l 1); [lia|].
        right. split; [intuition lia|]. eexists; split; reflexivity.
    - unfold is_number, number. destruct (strtol a) as [l e] eqn:L. cbn [fst snd]. intros R.
      destruct b; cbn [quad_option int_option]; rewrite L, to_int_id by exact R; destruct e; cbn [orb]; try (left; split; [reflexivity|intuition discriminate]); unfold set_precision64.
      + destruct (Z.leb_spec l 0); [left; split; [reflexivity|intuition lia]|]. destruct (Z.ltb_spec l 1); [lia|].
        right. split; [intuition lia|]. eexists; split; reflexivity.
      + destruct (Z.eqb_spec l 53); cbn [negb]; [|left; split; [reflexivity|intuition lia]]. destruct (Z.ltb_spec l 1); [lia|].
        right. split; [intuition lia|]. eexists; split; reflexivity.
    - intros _. destruct b; cbn [quad_option int_option]; [|left; split; [reflexivity|intuition discriminate]].
      names; [| | |refuse].
      all: right; split; [split; [reflexivity|]; eexists; table; tauto|eexists; split; [reflexivity|]; do 2 eexists; split; [table; eauto|reflexivity]].
    - unfold is_number, number. destruct (strtol a) as [l e] eqn:L. cbn [fst snd]. intros R.
      destruct b; cbn [quad_option int_option]; [rewrite L|left; split; [reflexivity|intuition discriminate]].
      destruct e; [left; split; [reflexivity|intuition discriminate]|]. right. split; [tauto|]. eexists; split; [reflexivity|].
      unfold upd_mexp. rewrite to_int_id by exact R. reflexivity.
    - unfold as_float. destruct (strtod a) as [d e] eqn:L. cbn [fst snd]. intros R. destruct (as_float_ok d R) as [B N].
      pose proof (not_positive_spec _ B N) as P. pose proof (above_one_spec _ B N) as A. set (x := fconv binary64 binary32 d) in *.
      destruct b; cbn [quad_option int_option]; rewrite L; fold x; unfold set_msparsity.
      + destruct (not_positive x); cbn [orb]; [left; split; [reflexivity|intuition discriminate]|].
        destruct e; [left; split; [reflexivity|intuition discriminate]|]. right. split; [intuition discriminate|]. eexists; split; reflexivity.
      + destruct (not_positive x); cbn [orb]; [left; split; [reflexivity|intuition discriminate]|].
        destruct (above_one x); cbn [orb]; [left; split; [reflexivity|intuition discriminate]|].
        destruct e; [left; split; [reflexivity|intuition discriminate]|]. right. split; [tauto|]. eexists; split; reflexivity.
  Qed.
  Lemma configure_spec b c k : representable strtol strtod (MConf k) -> decided b c (MConf k).
  Proof.
    unfold decided, representable. intros (R32 & R64 & Re & Rs & Rn). pose proof (not_positive_spec _ Rs Rn) as P.
    destruct c as [mode p32 p64 rel abs absexp daz ftz choose seed sparsity]. cbn [valid becomes mstep]. unfold mca_configure, set_msparsity.
    destruct (not_positive (mf_sparsity k)); cbn [bind]; [left; split; [reflexivity|intuition discriminate]|].
    assert (T : forall v, 0 <= v < 2 ^ 32 -> (1 <= v < 2 ^ 31 -> to_int v = v) /\ (~ 1 <= v < 2 ^ 31 -> to_int v < 1)).
    { intros v Hv. split; intros H. { apply to_int_id. lia. } destruct (Z.eq_dec v 0) as [-> |]; [reflexivity|]. rewrite to_int_high; lia. }
    destruct (T _ R32) as [T1 T2]. destruct (T _ R64) as [T3 T4]. clear T. unfold set_precision32.
    destruct (Z.ltb_spec (to_int (mf_p32 k)) 1); cbn [bind].
    { left; split; [reflexivity|]. intros (_ & V & _). rewrite T1 in H by exact V. lia. }
    destruct (Z_le_gt_dec 1 (mf_p32 k)) as [H32|H32]; [|rewrite to_int_id in H; lia].
    destruct (Z_lt_le_dec (mf_p32 k) (2 ^ 31)) as [L32|L32]; [|specialize (T2 ltac:(lia)); lia]. rewrite T1 by lia.
    unfold set_precision64. destruct (Z.ltb_spec (to_int (mf_p64 k)) 1); cbn [bind].
    { left; split; [reflexivity|]. intros (_ & _ & V & _). rewrite T3 in H0 by exact V. lia. }
    destruct (Z_le_gt_dec 1 (mf_p64 k)) as [H64|H64]; [|rewrite to_int_id in H0; lia].
    destruct (Z_lt_le_dec (mf_p64 k) (2 ^ 31)) as [L64|L64]; [|specialize (T4 ltac:(lia)); lia]. rewrite T3 by lia.
    unfold set_mmode. cbn [m_mode m_p32 m_p64 m_rel m_abs m_absexp m_daz m_ftz m_choose m_seed m_sparsity upd_mseed upd_msparsity].
    assert (M : (exists m, In (mf_mode k, m) mode_numbers /\ 0 <= mf_mode k <= 3 /\ forall c, set_mmode c (mf_mode k) = Ok (upd_mmode c m)) \/
                (~ 0 <= mf_mode k <= 3 /\ forall c, set_mmode c (mf_mode k) = Exit)).
    { unfold set_mmode. destruct (Z.eqb_spec (mf_mode k) 0) as [-> |]; [left; exists mca_ieee; table; intuition lia|].
      destruct (Z.eqb_spec (mf_mode k) 1) as [-> |]; [left; exists mca_mca; table; intuition lia|].
      destruct (Z.eqb_spec (mf_mode k) 2) as [-> |]; [left; exists mca_pb; table; intuition lia|].
      destruct (Z.eqb_spec (mf_mode k) 3) as [-> |]; [left; exists mca_rr; table; intuition lia|]. right. split; [lia|reflexivity]. }
    assert (F : (exists r s, In (mf_err k, (r, s)) error_numbers /\ 0 <= mf_err k <= 2 /\ forall c, set_merr c (mf_err k) = Ok (upd_merr c r s)) \/
                (~ 0 <= mf_err k <= 2 /\ forall c, set_merr c (mf_err k) = Exit)).
    { unfold set_merr. destruct (Z.eqb_spec (mf_err k) 0) as [-> |]; [left; exists true, false; table; intuition lia|].
      destruct (Z.eqb_spec (mf_err k) 1) as [-> |]; [left; exists false, true; table; intuition lia|].
      destruct (Z.eqb_spec (mf_err k) 2) as [-> |]; [left; exists true, true; table; intuition lia|]. right. split; [lia|reflexivity]. }
    fold (set_mmode (mk_mctx mode (mf_p32 k) (mf_p64 k) rel abs absexp daz ftz true (mf_seed k) (mf_sparsity k)) (mf_mode k)).
    destruct M as [(m & M1 & M2 & M3)|(M1 & M2)]; [rewrite M3|rewrite M2; left; split; [reflexivity|lia]]. cbn [bind].
    destruct F as [(r & s & F1 & F2 & F3)|(F1 & F2)]; [rewrite F3|rewrite F2; left; split; [reflexivity|lia]]. cbn [bind].
    right. split; [intuition lia|]. eexists; split; [reflexivity|]. exists m, r, s.
    unfold upd_mftz, upd_mdaz, upd_mexp. rewrite to_int_id by exact Re. destruct b.
    - exists (mf_absexp k). repeat split; try assumption; [tauto|]. destruct (Z.eqb_spec (mf_absexp k) (2 ^ 32 - 1)); [lia|reflexivity].
    - exists (if (mf_err k =? 1) || (mf_err k =? 2) then mf_absexp k else absexp). repeat split; try assumption.
      + destruct (Z.eqb_spec (mf_err k) 1); [left; reflexivity|]. destruct (Z.eqb_spec (mf_err k) 2); [left; reflexivity|]. right. repeat split; lia.
      + destruct ((mf_err k =? 1) || (mf_err k =? 2)); reflexivity.
  Qed.

  Lemma bm_spec c o : brepresentable strtol o ->
    (bm_option strtol c o = Exit /\ ~ bvalid strtol o) \/
    (bvalid strtol o /\ exists c', bm_option strtol c o = Ok c' /\ bbecomes strtol o c c').
  Proof.
    assert (K : forall w q p, 1 <= p -> 0 < q <= w ->
      keeps_from w (q - p) (if p <=? q then ((2 ^ w - 1) * 2 ^ (q - p)) mod 2 ^ w else 2 ^ w - 1)).
    { intros w q p Hp Hq. assert (0 < 2 ^ w) by (apply Z.pow_pos_nonneg; lia). replace (2 ^ w - 1) with (Z.ones w) by (rewrite Z.ones_equiv; lia).
      destruct (Z.leb_spec p q); (split; [|intros i Hi]).
      - apply Z.mod_pos_bound. lia.
      - rewrite Z.mod_pow2_bits_low by lia. rewrite Z.mul_pow2_bits by lia. destruct (Z.leb_spec (q - p) i).
        + apply Z.ones_spec_low. lia.
        + apply Z.testbit_neg_r. lia.
      - rewrite Z.ones_equiv. lia.
      - rewrite Z.ones_spec_low by lia. symmetry. apply Z.leb_le. lia. }
    destruct c as [mode oper p32 p64 daz ftz choose seed mask32 mask64].
    destruct o as [a|a|a|a|a| | ]; unfold brepresentable; cbn [bvalid bbecomes bm_option].
    - unfold is_number, number. destruct (strtol a) as [l e]. cbn [fst snd]. intros R. rewrite to_int_id by exact R.
      destruct e; cbn [orb]; [left; split; [reflexivity|intuition discriminate]|]. unfold BitmaskModel.set_prec32.
      destruct (Z.leb_spec l 0); [left; split; [reflexivity|intuition lia]|]. destruct (Z.ltb_spec l 1); [lia|].
      right. split; [intuition lia|]. eexists; split; [reflexivity|]. exists (precision_mask binary32 l). split; [|reflexivity].
      apply (K 32 24 l); lia.
    - unfold is_number, number. destruct (strtol a) as [l e]. cbn [fst snd]. intros R. rewrite to_int_id by exact R.
      destruct e; cbn [orb]; [left; split; [reflexivity|intuition discriminate]|]. unfold BitmaskModel.set_prec64.
      destruct (Z.leb_spec l 0); [left; split; [reflexivity|intuition lia]|]. destruct (Z.ltb_spec l 1); [lia|].
      right. split; [intuition lia|]. eexists; split; [reflexivity|]. exists (precision_mask binary64 l). split; [|reflexivity].
      apply (K 64 53 l); lia.
    - intros _. names; [take bm_ieee|take bm_full|take bm_ib|take bm_ob|refuse].
    - intros _. names; [take bop_zero|take bop_one|take bop_rand|refuse].
    - intros _. unfold is_number, number. destruct (strtol a) as [l e]. cbn [fst snd]. destruct e; [refuse|]. right. split; [reflexivity|]. eexists; split; reflexivity.
    - intros _. right. split; [exact I|]. eexists; split; reflexivity.
    - intros _. right. split; [exact I|]. eexists; split; reflexivity.
  Qed.
End proofs.

(** * C69 *)
(** Every option, configure hook and user call of the two MCA backends either is outside its documented domain and ends the
    program, or is inside and changes exactly the fields it names, to the value given. Partial: for the numbers that fit in an
    int and reals that are not NaN; see the two refutations. *)
Theorem C69_mca_partial :
  forall strtol strtod b c q, representable strtol strtod q ->
  (mstep strtol strtod b c q = Exit /\ ~ valid strtol strtod b q) \/
  (valid strtol strtod b q /\ exists c', mstep strtol strtod b c q = Ok c' /\ becomes strtol strtod b q c c').
Proof.
  intros strtol strtod b c [o|k|v|v] R; [apply option_spec; exact R|apply configure_spec; exact R| |].
  all: destruct c as [mode p32 p64 rel abs absexp daz ftz choose seed sparsity]; cbn [valid becomes mstep]; unfold set_precision32, set_precision64.
  all: destruct b; [destruct (Z.ltb_spec v 1); [left; split; [reflexivity|intros V; specialize (V eq_refl); lia]|]|].
  all: right; split; [intros; congruence || lia|eexists; split; reflexivity].
Qed.
Print Assumptions C69_mca_partial.

(** Whatever the history of requests, representable or not, the precisions of a backend that is still running are at least one
    and its sparsity is not a number at or below zero; the integer backend used through its options only keeps the two
    precisions for which its noise is defined (C55). *)
Theorem C69_mca_invariant :
  forall strtol strtod b qs c, mrun strtol strtod b qs = Ok c ->
  1 <= m_p32 c /\ 1 <= m_p64 c /\ not_positive (m_sparsity c) = false /\
  (b = IntB -> (forall k, ~ In (MConf k) qs) -> m_p32 c = 24 /\ m_p64 c = 53 /\ m_rel c = true /\ m_abs c = false).
Proof.
  intros strtol strtod b qs c. unfold mrun.
  assert (S : forall c0 q c1, mstep strtol strtod b c0 q = Ok c1 -> 1 <= m_p32 c0 -> 1 <= m_p64 c0 -> not_positive (m_sparsity c0) = false ->
    1 <= m_p32 c1 /\ 1 <= m_p64 c1 /\ not_positive (m_sparsity c1) = false /\
    (b = IntB -> (forall k, q <> MConf k) -> m_p32 c0 = 24 /\ m_p64 c0 = 53 /\ m_rel c0 = true /\ m_abs c0 = false -> m_p32 c1 = 24 /\ m_p64 c1 = 53 /\ m_rel c1 = true /\ m_abs c1 = false)).
  { intros c0 q c1 E P3 P6 PS.
    destruct q as [o|k|v|v]; cbn [mstep] in E.
    - assert (D : forall o', quad_option strtol strtod c0 o' = Ok c1 -> match o' with MPrec32 _ | MPrec64 _ | MErrMode _ | MErrExp _ | MSparsity _ => True | _ =>
        m_p32 c1 = m_p32 c0 /\ m_p64 c1 = m_p64 c0 /\ m_rel c1 = m_rel c0 /\ m_abs c1 = m_abs c0 /\ m_sparsity c1 = m_sparsity c0 end).
      { intros o' E'. destruct o'; try exact I; cbn [quad_option] in E'.
        - unfold set_mmode in E'. cbn [Z.eqb] in E'. repeat match type of E' with context [strcase_eq ?s ?a] => destruct (strcase_eq s a) end; try discriminate E'; injection E' as <-; cbn; tauto.
        - destruct (strtol a) as [l []]; [discriminate|]. injection E' as <-. cbn. tauto.
        - injection E' as <-. cbn. tauto.
        - injection E' as <-. cbn. tauto. }
      destruct o as [a|a|a|a|a|a| | |a].
      3, 6, 7, 8: (assert (E' : quad_option strtol strtod c0 _ = Ok c1) by (destruct b; exact E); apply D in E'; destruct E' as (-> & -> & -> & -> & ->); tauto).
      all: destruct b; cbn [quad_option int_option] in E; try discriminate E; try (destruct (strtol a) as [l []] eqn:L; cbn [orb] in E; [discriminate|]).
      + destruct (to_int l <=? 0); [discriminate|]. unfold set_precision32 in E. destruct (Z.ltb_spec (to_int l) 1); [discriminate|]. injection E as <-. cbn. intuition (lia || discriminate).
      + destruct (Z.eqb_spec (to_int l) 24) as [T|]; [|discriminate]. cbn [negb] in E. unfold set_precision32 in E. rewrite T in E. injection E as <-. cbn. intuition lia.
      + destruct (to_int l <=? 0); [discriminate|]. unfold set_precision64 in E. destruct (Z.ltb_spec (to_int l) 1); [discriminate|]. injection E as <-. cbn. intuition (lia || discriminate).
      + destruct (Z.eqb_spec (to_int l) 53) as [T|]; [|discriminate]. cbn [negb] in E. unfold set_precision64 in E. rewrite T in E. injection E as <-. cbn. intuition lia.
      + unfold set_merr in E. cbn [Z.eqb] in E. repeat match type of E with context [strcase_eq ?s ?a] => destruct (strcase_eq s a) end; try discriminate E; injection E as <-; cbn; intuition (lia || discriminate).
      + injection E as <-. cbn. intuition (lia || discriminate).
      + destruct (strtod a) as [d e]. unfold set_msparsity in E. destruct (not_positive (fconv binary64 binary32 d)) eqn:N; [discriminate|].
        cbn [orb] in E. destruct e; [discriminate|]. injection E as <-. cbn [m_p32 m_p64 m_rel m_abs m_sparsity upd_msparsity]. tauto.
      + destruct (strtod a) as [d e]. unfold set_msparsity in E. destruct (not_positive (fconv binary64 binary32 d)) eqn:N; [discriminate|].
        cbn [orb] in E. destruct (above_one _); [discriminate|]. destruct e; [discriminate|]. injection E as <-. cbn [m_p32 m_p64 m_rel m_abs m_sparsity upd_msparsity]. tauto.
    - unfold mca_configure, set_msparsity, set_precision32, set_precision64, set_mmode, set_merr in E.
      destruct (not_positive (mf_sparsity k)) eqn:N; [discriminate|]. cbn [bind] in E.
      destruct (Z.ltb_spec (to_int (mf_p32 k)) 1); [discriminate|]. cbn [bind] in E.
      destruct (Z.ltb_spec (to_int (mf_p64 k)) 1); [discriminate|]. cbn [bind] in E.
      destruct (mf_mode k =? 0), (mf_mode k =? 1), (mf_mode k =? 2), (mf_mode k =? 3); try discriminate E; cbn [bind] in E;
      destruct (mf_err k =? 0), (mf_err k =? 1), (mf_err k =? 2), b; try discriminate E; cbn [bind orb] in E; try destruct (mf_absexp k =? 2 ^ 32 - 1);
      injection E as <-; cbn [m_p32 m_p64 m_rel m_abs m_sparsity upd_msparsity upd_mdaz upd_mftz upd_mexp upd_merr upd_mmode upd_mseed];
      (split; [assumption|split; [assumption|split; [exact N|intros _ Q; destruct (Q k eq_refl)]]]).
    - destruct b; [|injection E as <-; tauto]. unfold set_precision32 in E. destruct (Z.ltb_spec v 1); [discriminate|]. injection E as <-. cbn. intuition (lia || discriminate).
    - destruct b; [|injection E as <-; tauto]. unfold set_precision64 in E. destruct (Z.ltb_spec v 1); [discriminate|]. injection E as <-. cbn. intuition (lia || discriminate). }
  assert (G : forall qs c0, ofold (mstep strtol strtod b) qs c0 = Ok c -> 1 <= m_p32 c0 -> 1 <= m_p64 c0 -> not_positive (m_sparsity c0) = false ->
    1 <= m_p32 c /\ 1 <= m_p64 c /\ not_positive (m_sparsity c) = false /\
    (b = IntB -> (forall k, ~ In (MConf k) qs) -> m_p32 c0 = 24 /\ m_p64 c0 = 53 /\ m_rel c0 = true /\ m_abs c0 = false -> m_p32 c = 24 /\ m_p64 c = 53 /\ m_rel c = true /\ m_abs c = false)).
  { clear qs. induction qs as [|q qs IH]; intros c0 E A1 A2 A3; cbn [ofold] in E.
    - injection E as <-. tauto.
    - destruct (mstep strtol strtod b c0 q) as [c1| | |] eqn:E1; try discriminate E. cbn [bind] in E.
      destruct (S _ _ _ E1 A1 A2 A3) as (B1 & B2 & B3 & B4). destruct (IH _ E B1 B2 B3) as (I1 & I2 & I3 & I4).
      split; [exact I1|split; [exact I2|split; [exact I3|]]]. intros Hb Q H0.
      apply (I4 Hb); [intros k Hk; apply (Q k); right; exact Hk|]. apply (B4 Hb); [intros k ->; apply (Q k); left; reflexivity|exact H0]. }
  intros E. destruct (G qs mca_defaults E ltac:(cbn; lia) ltac:(cbn; lia) eq_refl) as (G1 & G2 & G3 & G4).
  repeat split; try assumption; apply G4; try assumption; repeat split.
Qed.
Print Assumptions C69_mca_invariant.

(** a reading of numbers to run the model on: "24" and so on, anything else is an error *)
Definition demo_strtol (s : string) : Z * bool :=
  if str_eq s "24" then (24, false) else if str_eq s "53" then (53, false) else if str_eq s "10" then (10, false)
  else if str_eq s "4294967297" then (4294967297, false) else (0, true).
Definition demo_strtod (s : string) : Z * bool :=
  if str_eq s "0.5" then (0x3FE0000000000000, false) else if str_eq s "2" then (0x4000000000000000, false)
  else if str_eq s "nan" then (0x7FF8000000000000, false) else (0, true).
Example C69_nonvacuous :
  mrun demo_strtol demo_strtod QuadB [MOpt (MPrec32 "10"); MOpt (MMode "RR"); MOpt (MSparsity "0.5"); MCall64 7; MOpt MDaz] =
    Ok (mk_mctx mca_rr 10 7 true false 112 true false false 0 0x3F000000) /\
  mrun demo_strtol demo_strtod IntB [MOpt (MPrec32 "10")] = Exit /\ mrun demo_strtol demo_strtod QuadB [MOpt (MPrec32 "x")] = Exit /\
  mrun demo_strtol demo_strtod IntB [MOpt (MSparsity "2")] = Exit /\
  representable demo_strtol demo_strtod (MOpt (MPrec32 "10")) /\ representable demo_strtol demo_strtod (MOpt (MSparsity "0.5")) /\
  representable demo_strtol demo_strtod (MConf (mk_mconf 1 one32 24 53 1 0 0 0 1)) /\
  mrun demo_strtol demo_strtod IntB [MConf (mk_mconf 1 one32 24 53 1 0 0 0 1)] = Ok (mk_mctx mca_mca 24 53 true false 112 false true true 1 one32).
Proof.
  assert (N : forall f x, is_nan f x = false -> dec f x <> DNaN) by (intros f x H D; apply nan_dec in D; congruence).
  repeat split; try (vm_compute; (reflexivity || congruence)); try (apply N; vm_compute; reflexivity).
Qed.

(** Outside: a precision is cut to 32 bits before it is tested, so 4294967297 is accepted and means 1; a NaN sparsity is
    accepted by both backends. *)
Theorem C69_large_precision_refuted :
  ~ (forall strtol strtod c q c', mstep strtol strtod QuadB c q = Ok c' -> becomes strtol strtod QuadB q c c').
Proof.
  intros H. specialize (H demo_strtol demo_strtod mca_defaults (MOpt (MPrec32 "4294967297")) _ eq_refl). vm_compute in H. discriminate.
Qed.
Print Assumptions C69_large_precision_refuted.
Theorem C69_nan_sparsity_refuted :
  forall b, ~ (forall strtol strtod c q c', mstep strtol strtod b c q = Ok c' -> dec binary32 (m_sparsity c) <> DNaN -> dec binary32 (m_sparsity c') <> DNaN).
Proof.
  intros b H. apply (H demo_strtol demo_strtod mca_defaults (MOpt (MSparsity "nan")) (upd_msparsity mca_defaults 0x7FC00000)).
  - destruct b; vm_compute; reflexivity.
  - intros D. apply nan_dec in D. vm_compute in D. discriminate.
  - apply nan_dec. vm_compute. reflexivity.
Qed.
Print Assumptions C69_nan_sparsity_refuted.

(** the options of the bitmask backend; the mask installed by a precision p keeps exactly the bits from 24 - p (53 - p) up *)
Theorem C69_bitmask_partial :
  forall strtol c o, brepresentable strtol o ->
  (bm_option strtol c o = Exit /\ ~ bvalid strtol o) \/
  (bvalid strtol o /\ exists c', bm_option strtol c o = Ok c' /\ bbecomes strtol o c c').
Proof. intros strtol. exact (bm_spec strtol strtol). Qed.
Print Assumptions C69_bitmask_partial.
Example C69_bitmask_nonvacuous :
  bm_run demo_strtol [BPrec32 "10"; BMode "IB"; BOper "Rand"; BFtz] =
    Ok (mk_bctx bm_ib bop_rand 10 52 false true false 0 0xFFFFC000 (2 ^ 64 - 1)) /\
  bm_run demo_strtol [BMode "mca"] = Exit /\ bm_run demo_strtol [BPrec64 ""] = Exit /\ brepresentable demo_strtol (BPrec32 "10").
Proof. repeat split; vm_compute; (reflexivity || congruence). Qed.

(** the options of the cancellation backend: a tolerance is an integer at or above zero *)
Theorem C69_cancellation_partial :
  forall strtol t ch sd w o, (forall a, o = CTolerance a -> - 2 ^ 31 <= fst (strtol a) < 2 ^ 31) ->
  cc_option strtol (mk_cctx t ch sd, w) o =
  match o with
  | CTolerance a => if snd (strtol a) then Exit else if fst (strtol a) <? 0 then Exit else Ok (mk_cctx (fst (strtol a)) ch sd, w)
  | CWarning _ => Ok (mk_cctx t ch sd, true)
  | CSeed a => if snd (strtol a) then Exit else Ok (mk_cctx t true (fst (strtol a) mod 2 ^ 64), w)
  end.
Proof.
  intros strtol t ch sd w [a|a|a] R; cbn [cc_option fst snd].
  - specialize (R a eq_refl). destruct (strtol a) as [l []]; cbn [fst snd] in *; [reflexivity|]. unfold set_tolerance.
    change (int_wrap l) with (to_int l). rewrite to_int_id by exact R. destruct (l <? 0); reflexivity.
  - reflexivity.
  - destruct (strtol a) as [l []]; reflexivity.
Qed.
Print Assumptions C69_cancellation_partial.
(** so a run that is configured by options only never has a negative tolerance, *)
Theorem C69_cancellation_tolerance :
  forall strtol os c w, cc_run strtol os = Ok (c, w) -> 0 <= c_tolerance c.
Proof.
  intros strtol os c w. unfold cc_run.
  enough (G : forall c0, 0 <= c_tolerance (fst c0) -> ofold (cc_option strtol) os c0 = Ok (c, w) -> 0 <= c_tolerance c) by (apply G; cbn; lia).
  induction os as [|o os IH]; intros c0 H0 E; cbn [ofold] in E.
  - injection E as ->. exact H0.
  - destruct (cc_option strtol c0 o) as [c1| | |] eqn:E1; try discriminate E. cbn [bind] in E. apply (IH c1); [|exact E].
    destruct o as [a|a|a]; cbn [cc_option] in E1.
    + destruct (strtol a) as [l []]; [discriminate|]. unfold set_tolerance in E1. destruct (Z.ltb_spec (int_wrap l) 0); [discriminate|].
      injection E1 as <-. exact H.
    + injection E1 as <-. exact H0.
    + destruct (strtol a) as [l []]; [discriminate|]. injection E1 as <-. exact H0.
Qed.
Print Assumptions C69_cancellation_tolerance.
Example C69_cancellation_nonvacuous :
  cc_run demo_strtol [CTolerance "10"; CSeed "24"] = Ok (mk_cctx 10 true 24, false) /\ cc_run (fun _ => (-1, false)) [CTolerance "-1"] = Exit.
Proof. split; vm_compute; reflexivity. Qed.
(** but --warning takes an argument and ignores it, and the configure hook does not test the tolerance *)
Theorem C69_warning_argument_refuted :
  ~ (forall strtol c c' w, cc_option strtol c (CWarning "false") = Ok (c', w) -> w = false).
Proof. intros H. specialize (H demo_strtol (cancel_defaults, false) _ _ eq_refl). discriminate. Qed.
Print Assumptions C69_warning_argument_refuted.
Theorem C69_configure_tolerance_refuted :
  ~ (forall tolerance warning seed, 0 <= c_tolerance (fst (cc_configure tolerance warning seed))).
Proof. intros H. specialize (H (-1) 0 0). cbn in H. lia. Qed.
Print Assumptions C69_configure_tolerance_refuted.
