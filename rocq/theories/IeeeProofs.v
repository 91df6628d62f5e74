(** Proofs about the IEEE backend. *)
From Coq Require Import ZArith Reals Ascii String DecimalString DecimalPos DecimalZ List Bool Lia Lra.
From Flocq Require Import Core.
From Verif Require Import Common Bits BitsFacts FloatReal FloatValue FloatOps StdlibModel StdlibProofs IeeeModel.
Import ListNotations.
Open Scope Z_scope.

(** * Comparisons *)
(** order of exact values, infinities included; nothing is ordered with NaN *)
Definition vlt (v w : dval) : Prop :=
  match v, w with
  | DNaN, _ | _, DNaN => False
  | DInf s, DInf t => s = 1 /\ t = 0
  | DInf s, DFin _ _ => s = 1
  | DFin _ _, DInf t => t = 0
  | DFin _ X, DFin _ Y => (X < Y)%R
  end.
Definition veq (v w : dval) : Prop :=
  match v, w with
  | DInf s, DInf t => s = t
  | DFin _ X, DFin _ Y => X = Y
  | _, _ => False
  end.

Section cmp.
  Context (f : fmt) (Hf : fmt_ok f).
  Lemma cval_lt_iff a b : 0 <= a < sbit f -> 0 <= b < sbit f -> a < b <-> cval f a < cval f b.
  Proof.
    intros Ha Hb. split; intros H.
    - assert (cval f a <= cval f b) by (apply cval_le; [assumption|lia]). assert (cval f a <> cval f b) by (intros E; apply (cval_inj f Hf) in E; lia). lia.
    - destruct (Z.lt_ge_cases a b) as [|G]; [assumption|]. assert (cval f b <= cval f a) by (apply cval_le; [assumption|lia]). lia.
  Qed.
  Lemma key_uval a b : key f a < key f b <-> uval f a < uval f b.
  Proof.
    unfold key, uval. pose proof (code_range f Hf a) as Ra. pose proof (code_range f Hf b) as Rb.
    pose proof (cval_lt_iff _ _ Ra Rb). pose proof (cval_lt_iff _ _ Rb Ra).
    assert (Z0 : 0 <= 0 < sbit f) by (unfold sbit; destruct Hf; split; [lia|apply Z.pow_pos_nonneg; lia]).
    pose proof (cval_lt_iff _ _ Z0 Ra). pose proof (cval_lt_iff _ _ Z0 Rb). pose proof (cval_lt_iff _ _ Ra Z0). pose proof (cval_lt_iff _ _ Rb Z0). rewrite cval_0 in * by assumption.
    destruct (sgn f a =? 1), (sgn f b =? 1); lia.
  Qed.
  Lemma key_fval a b : key f a < key f b <-> (fval f a < fval f b)%R.
  Proof.
    rewrite key_uval, !fval_uval by assumption. split; intros H.
    - apply Rmult_lt_compat_r; [apply bpow_gt_0|]. apply IZR_lt. assumption.
    - apply Rmult_lt_reg_r in H; [|apply bpow_gt_0]. apply lt_IZR. assumption.
  Qed.
  Lemma key_inf b : is_inf f b = true -> key f b = if sgn f b =? 1 then - inf_code f else inf_code f.
  Proof.
    unfold is_inf, key. rewrite andb_true_iff, !Z.eqb_eq. intros [E M]. rewrite (code_split f Hf b), E, M. unfold inf_code. rewrite Z.add_0_r. reflexivity.
  Qed.
  Lemma key_finite b : is_finite f b = true -> - inf_code f < key f b < inf_code f.
  Proof. intros H. apply (finite_code f Hf) in H. pose proof (code_range f Hf b). unfold key. destruct (_ =? _); lia. Qed.
  Lemma key_vlt a b : is_bits f a -> is_bits f b -> is_nan f a = false -> is_nan f b = false -> key f a < key f b <-> vlt (dec f a) (dec f b).
  Proof.
    intros Ba Bb Na Nb. unfold dec. rewrite Na, Nb. pose proof (sgn_01 f a) as Sa. pose proof (sgn_01 f b) as Sb.
    assert (0 < inf_code f). { unfold inf_code, expmax. destruct Hf. pose proof (pow2_lt 0 (ew f)). pose proof (pow2_pos (mw f)). nia. }
    destruct (is_inf f a) eqn:Ia, (is_inf f b) eqn:Ib; cbn [vlt].
    - rewrite !key_inf by assumption. destruct (Z.eqb_spec (sgn f a) 1), (Z.eqb_spec (sgn f b) 1); lia.
    - rewrite key_inf by assumption. pose proof (key_finite b (not_special_finite _ _ Nb Ib)). destruct (Z.eqb_spec (sgn f a) 1); lia.
    - rewrite (key_inf b) by assumption. pose proof (key_finite a (not_special_finite _ _ Na Ia)). destruct (Z.eqb_spec (sgn f b) 1); lia.
    - apply key_fval.
  Qed.
  Lemma veq_not_lt a b : is_nan f a = false -> is_nan f b = false -> veq (dec f a) (dec f b) <-> ~ vlt (dec f a) (dec f b) /\ ~ vlt (dec f b) (dec f a).
  Proof.
    intros Na Nb. unfold dec. rewrite Na, Nb. pose proof (sgn_01 f a) as Sa. pose proof (sgn_01 f b) as Sb. destruct (is_inf f a), (is_inf f b); cbn [vlt veq]; try lia.
    split; [intros E; rewrite E; split; apply Rlt_irrefl|]. intros [A B]. lra.
  Qed.
  Lemma key_veq a b : is_bits f a -> is_bits f b -> is_nan f a = false -> is_nan f b = false -> key f a = key f b <-> veq (dec f a) (dec f b).
  Proof. intros Ba Bb Na Nb. rewrite veq_not_lt, <- !key_vlt by assumption. lia. Qed.
  Lemma nan_dec a : is_nan f a = true <-> dec f a = DNaN.
  Proof. unfold dec. destruct (is_nan f a); [split; reflexivity|]. destruct (is_inf f a); split; discriminate. Qed.
End cmp.

(** * Counters *)
Definition atomic (a : action) : Prop := match a with AtomicInc _ => True | _ => False end.
Definition inc_of (c : counter) (a : action) : Z := match a with AtomicInc c' => if counter_eqb c' c then 1 else 0 | _ => 0 end.
Definition pending (c : counter) (l : list action) : Z := fold_right (fun a n => inc_of c a + n) 0 l.
Definition pending_all (c : counter) (ts : list thread) : Z := fold_right (fun t n => pending c (todo t) + n) 0 ts.
Definition all_atomic (ts : list thread) : Prop := Forall (fun t => Forall atomic (todo t)) ts.

Lemma counter_eqb_refl c : counter_eqb c c = true. Proof. destruct c; reflexivity. Qed.
Lemma counter_eqb_eq a b : counter_eqb a b = true -> a = b. Proof. destruct a, b; intros H; try reflexivity; discriminate. Qed.
Lemma do_atomic a r cs c : atomic a -> let '(_, cs') := do_action a r cs in (cs' c) mod 2 ^ 64 = (cs c + inc_of c a) mod 2 ^ 64.
Proof.
  destruct a as [c'| |]; intros []. cbn [do_action inc_of]. unfold cset. destruct (counter_eqb c' c) eqn:E.
  - apply counter_eqb_eq in E. subst c'. unfold incr. apply Z.mod_mod. lia.
  - rewrite Z.add_0_r. reflexivity.
Qed.
Lemma step_inv i ts cs c : all_atomic ts -> let '(ts', cs') := step i ts cs in all_atomic ts' /\ (cs' c + pending_all c ts') mod 2 ^ 64 = (cs c + pending_all c ts) mod 2 ^ 64.
Proof.
  revert i cs. induction ts as [|t ts IH]; intros i cs H; [destruct i; cbn; auto|]. inversion H as [|? ? Ht Hts]. subst. destruct i as [|i]; cbn [step].
  - destruct (todo t) as [|a rest] eqn:E; [split; [assumption|reflexivity]|]. inversion Ht as [|? ? Ha Hrest]. subst.
    pose proof (do_atomic a (reg t) cs c Ha) as D. destruct (do_action a (reg t) cs) as [r cs']. split.
    + constructor; assumption.
    + cbn [pending_all fold_right todo]. rewrite E. cbn [pending fold_right]. fold (pending c rest). fold (pending_all c ts).
      rewrite <- Z.add_mod_idemp_l, D, Z.add_mod_idemp_l by lia. f_equal. lia.
  - specialize (IH i cs Hts). destruct (step i ts cs) as [ts' cs']. destruct IH as [A B]. split; [constructor; assumption|].
    cbn [pending_all fold_right]. fold (pending_all c ts). fold (pending_all c ts').
    replace (cs' c + (pending c (todo t) + pending_all c ts')) with (cs' c + pending_all c ts' + pending c (todo t)) by lia.
    replace (cs c + (pending c (todo t) + pending_all c ts)) with (cs c + pending_all c ts + pending c (todo t)) by lia.
    rewrite <- Z.add_mod_idemp_l, B, Z.add_mod_idemp_l by lia. reflexivity.
Qed.
Lemma run_inv sched ts cs c : all_atomic ts -> let '(ts', cs') := run_threads sched ts cs in all_atomic ts' /\ (cs' c + pending_all c ts') mod 2 ^ 64 = (cs c + pending_all c ts) mod 2 ^ 64.
Proof.
  revert ts cs. induction sched as [|i sched IH]; intros ts cs H; [cbn; auto|]. cbn [run_threads]. pose proof (step_inv i ts cs c H) as S.
  destruct (step i ts cs) as [ts' cs']. destruct S as [A B]. specialize (IH ts' cs' A). destruct (run_threads sched ts' cs') as [ts2 cs2]. destruct IH as [A2 B2]. split; [assumption|]. congruence.
Qed.
Lemma do_range a r cs c : atomic a -> 0 <= cs c < 2 ^ 64 -> let '(_, cs') := do_action a r cs in 0 <= cs' c < 2 ^ 64.
Proof. destruct a as [c'| |]; intros [] H. cbn [do_action]. unfold cset. destruct (counter_eqb c' c); [apply Z.mod_pos_bound; lia|assumption]. Qed.
Lemma step_range i ts cs c : all_atomic ts -> 0 <= cs c < 2 ^ 64 -> let '(_, cs') := step i ts cs in 0 <= cs' c < 2 ^ 64.
Proof.
  revert i cs. induction ts as [|t ts IH]; intros i cs H R; [destruct i; exact R|]. inversion H as [|? ? Ht Hts]. subst. destruct i as [|i]; cbn [step].
  - destruct (todo t) as [|a rest]; [exact R|]. inversion Ht as [|? ? Ha Hrest]. subst. pose proof (do_range a (reg t) cs c Ha R) as D. destruct (do_action a (reg t) cs). exact D.
  - specialize (IH i cs Hts R). destruct (step i ts cs). exact IH.
Qed.
Lemma run_range sched ts cs c : all_atomic ts -> 0 <= cs c < 2 ^ 64 -> let '(_, cs') := run_threads sched ts cs in 0 <= cs' c < 2 ^ 64.
Proof.
  revert ts cs. induction sched as [|i sched IH]; intros ts cs H R; [exact R|]. cbn [run_threads]. pose proof (step_range i ts cs c H R) as S. pose proof (step_inv i ts cs c H) as V.
  destruct (step i ts cs) as [ts' cs']. destruct V as [A _]. exact (IH ts' cs' A S).
Qed.

(** the counter an operation belongs to *)
Definition counted (c : counter) (o : iop) : bool :=
  match c, o with CMul, OpMul | CDiv, OpDiv | CAdd, OpAdd | CSub, OpSub | CFma, OpFma => true | _, _ => false end.
Definition calls_of (c : counter) (progs : list (list iop)) : Z := Z.of_nat (List.length (filter (counted c) (concat progs))).
Lemma start_atomic cnt calls : Forall atomic (todo (start_thread cnt calls)).
Proof.
  cbn. induction calls as [|o calls IH]; [constructor|]. cbn [map concat]. apply Forall_app. split; [|assumption].
  destruct cnt; [|constructor]. destruct o; cbn; repeat constructor.
Qed.
Lemma pending_app c l1 l2 : pending c (l1 ++ l2) = pending c l1 + pending c l2.
Proof. induction l1 as [|a l1 IH]; [reflexivity|]. cbn [app pending fold_right]. unfold pending in IH. rewrite IH. fold (pending c l1). unfold pending. lia. Qed.
Lemma start_pending c calls : pending c (todo (start_thread true calls)) = Z.of_nat (List.length (filter (counted c) calls)).
Proof.
  cbn [todo start_thread]. induction calls as [|o calls IH]; [reflexivity|]. cbn [map concat filter]. rewrite pending_app, IH.
  destruct c, o; cbn [ieee_actions counted pending fold_right inc_of counter_eqb List.length]; lia.
Qed.
Lemma start_all_atomic cnt progs : all_atomic (map (start_thread cnt) progs).
Proof. apply Forall_forall. intros t Ht. apply in_map_iff in Ht. destruct Ht as (p & <- & _). apply start_atomic. Qed.
Lemma start_pending_all c progs : pending_all c (map (start_thread true) progs) = calls_of c progs.
Proof.
  unfold calls_of. induction progs as [|p progs IH]; [reflexivity|]. cbn [map concat pending_all fold_right]. fold (pending_all c (map (start_thread true) progs)).
  rewrite IH, start_pending, filter_app, app_length. lia.
Qed.
Lemma finished_pending c ts : Forall (fun t => todo t = []) ts -> pending_all c ts = 0.
Proof. induction 1 as [|t ts H _ IH]; [reflexivity|]. cbn [pending_all fold_right]. rewrite H. exact IH. Qed.

Lemma counts_exact sched progs ts cs : run_threads sched (map (start_thread true) progs) counters0 = (ts, cs) -> Forall (fun t => todo t = []) ts ->
  forall c, cs c = calls_of c progs mod 2 ^ 64.
Proof.
  intros E Fin c. pose proof (run_inv sched (map (start_thread true) progs) counters0 c (start_all_atomic true progs)) as V.
  pose proof (run_range sched (map (start_thread true) progs) counters0 c (start_all_atomic true progs) ltac:(unfold counters0; lia)) as R.
  rewrite E in V, R. destruct V as [_ V]. rewrite (finished_pending c ts Fin), start_pending_all, Z.add_0_r in V. cbn [counters0] in V. rewrite Z.add_0_l in V.
  rewrite <- V. symmetry. apply Z.mod_small. assumption.
Qed.
Lemma not_counted sched progs ts cs : run_threads sched (map (start_thread false) progs) counters0 = (ts, cs) -> forall c, cs c = 0.
Proof.
  assert (H : forall sched ts cs ts' cs', Forall (fun t => todo t = []) ts -> run_threads sched ts cs = (ts', cs') -> cs' = cs).
  { clear. induction sched as [|i sched IH]; intros ts cs ts' cs' F E; cbn in E; [congruence|].
    assert (S : step i ts cs = (ts, cs)). { clear E. revert i. induction F as [|t ts Ht F IHt]; intros i; [destruct i; reflexivity|]. destruct i; cbn [step]; [rewrite Ht; reflexivity|]. rewrite IHt. reflexivity. }
    rewrite S in E. eapply IH; eassumption. }
  intros E c. apply H in E; [rewrite E; reflexivity|]. apply Forall_forall. intros t Ht. apply in_map_iff in Ht. destruct Ht as (p & <- & _). cbn. clear.
  induction p; [reflexivity|assumption].
Qed.

(** * Binary output *)
(** value of a string of binary digits after the point *)
Fixpoint binfrac (s : string) : R := match s with EmptyString => 0%R | String c r => (((if ascii_dec c "1" then 1 else 0) + binfrac r) / 2)%R end.
Fixpoint all_bits (s : string) : Prop := match s with EmptyString => True | String c r => (c = "0"%char \/ c = "1"%char) /\ all_bits r end.
Fixpoint bits_string (l : list bool) : string := match l with [] => EmptyString | b :: l' => String (digit b) (bits_string l') end.
Lemma digits_app l rest : digits l rest = append (bits_string l) rest.
Proof. induction l as [|b l IH]; [reflexivity|]. cbn. rewrite IH. reflexivity. Qed.
Lemma bits_all l : all_bits (bits_string l).
Proof. induction l as [|b l IH]; [exact I|]. cbn. split; [destruct b; auto|assumption]. Qed.
Definition fracv (l : list bool) : R := fold_right (fun (b : bool) r => (((if b then 1 else 0) + r) / 2)%R) 0%R l.
Lemma binfrac_bits l : binfrac (bits_string l) = fracv l.
Proof. induction l as [|b l IH]; [reflexivity|]. cbn [bits_string binfrac fracv fold_right]. rewrite IH. destruct b; reflexivity. Qed.
Lemma strip_fracv l : fracv (strip_zeros l) = fracv l.
Proof.
  induction l as [|b l IH]; [reflexivity|]. cbn [strip_zeros]. destruct (strip_zeros l) as [|c r]; cbn [fracv fold_right] in *; fold (fracv l) in *; rewrite <- IH; [destruct b; cbn; lra|reflexivity].
Qed.
Lemma nib_fracv n l : 0 <= n < 16 -> fracv (hex_to_bit n ++ l) = ((IZR n + fracv l) / 16)%R.
Proof.
  intros H. cbn [hex_to_bit app fracv fold_right]. fold (fracv l). generalize (fracv l). intros r.
  assert (C : In n [0;1;2;3;4;5;6;7;8;9;10;11;12;13;14;15]) by (cbn; lia).
  cbn [In] in C. repeat (destruct C as [<-|C]; [cbn; lra|]). destruct C.
Qed.
Lemma nibble size x i : 0 <= x -> 0 <= i -> i + 4 <= size ->
  Z.shiftr (Z.land x (Z.shiftr (Z.shiftl 15 (size - 4)) i)) (size - (i + 4)) = (x / 2 ^ (size - i - 4)) mod 16.
Proof.
  intros Hx Hi Hs. rewrite Z.shiftr_land, Z.shiftr_shiftr by lia.
  replace (i + (size - (i + 4))) with (size - 4) by lia. rewrite Z.shiftr_shiftl_l, Z.sub_diag, Z.shiftl_0_r by lia.
  change 15 with (Z.ones 4). rewrite Z.land_ones by lia. rewrite Z.shiftr_div_pow2 by lia. f_equal. f_equal. f_equal. lia.
Qed.

Lemma bit_loop_value fuel i size ft x : 0 <= x -> 0 <= i <= size -> (4 | i) -> (4 | size) -> size - i <= 4 * Z.of_nat fuel -> 0 <= ft <= size -> (2 ^ (size - ft) | x) ->
  fracv (bit_loop fuel i size ft x) = (IZR (x mod 2 ^ (size - i)) / IZR (2 ^ (size - i)))%R.
Proof.
  intros Hx Hi [q Hq] [qs Hqs] Hfuel Hft Hd. revert i q Hi Hq Hfuel. induction fuel as [|fuel IH]; intros i q Hi Hq Hfuel.
  - replace (size - i) with 0 by lia. change (2 ^ 0) with 1. rewrite Z.mod_1_r. cbn. lra.
  - cbn [bit_loop]. destruct (Z.ltb_spec i ft) as [L|L].
    + assert (L4 : i + 4 <= size) by lia. rewrite nibble by lia. rewrite nib_fracv by (apply Z.mod_pos_bound; lia).
      rewrite (IH (i + 4) (q + 1)) by lia. set (k := size - i - 4) in *. replace (size - (i + 4)) with k by lia. replace (size - i) with (k + 4) by lia.
      rewrite (Z.pow_add_r 2 k 4) by lia. change (2 ^ 4) with 16. pose proof (pow2_pos k ltac:(lia)).
      rewrite (Z.rem_mul_r x (2 ^ k) 16) by lia. rewrite plus_IZR, !mult_IZR. field. apply not_0_IZR. lia.
    + destruct Hd as [z ->]. replace (size - ft) with ((size - i) + (i - ft)) by lia. rewrite (Z.pow_add_r 2 (size - i) (i - ft)) by lia.
      rewrite (Z.mul_comm (2 ^ (size - i))), Z.mul_assoc, Z.mod_mul by (pose proof (pow2_pos (size - i) ltac:(lia)); lia). cbn. lra.
Qed.
Lemma uint_to_bit_value size x : 0 <= x < 2 ^ size -> 0 <= size -> (4 | size) -> fracv (uint_to_bit size x) = (IZR x / IZR (2 ^ size))%R.
Proof.
  intros Hx Hs H4. unfold uint_to_bit. destruct (Z.eqb_spec x 0) as [->|N]; [cbn; lra|]. rewrite strip_fracv.
  destruct (ctz_spec x ltac:(lia)) as (j & Hj & Hc & E). 
  assert (Lc : ctz x <= size). { destruct (Z.le_gt_cases (ctz x) size) as [|G]; [assumption|]. pose proof (pow2_lt size (ctz x) ltac:(lia)). nia. }
  rewrite bit_loop_value; try lia; try assumption.
  - rewrite Z.sub_0_r, Z.mod_small by lia. reflexivity.
  - apply Z.divide_0_r.
  - rewrite Z.sub_sub_distr, Z.sub_diag, Z.add_0_l. exists (2 * j + 1). assumption.
Qed.

Lemma shown_small size z : 1 <= size -> - 2 ^ (size - 1) <= z < 2 ^ (size - 1) -> to_signed size (z mod 2 ^ size) = z.
Proof.
  intros Hs Hz. unfold to_signed. pose proof (pow2_P size Hs) as P. destruct (Z.neg_nonneg_cases z) as [N|N].
  - rewrite <- (Z_mod_plus_full z 1), Z.mul_1_l, Z.mod_small by lia. destruct (Z.ltb_spec (z + 2 ^ size) (2 ^ (size - 1))); lia.
  - rewrite Z.mod_small by lia. destruct (Z.ltb_spec z (2 ^ (size - 1))); lia.
Qed.

(** the shape of the text of a finite number, and the value it denotes *)
Definition text_denotes (s : string) (sg : Z) (X : R) : Prop :=
  exists lead frac e, s = append (if sg =? 1 then "-" else "+") (append (if lead : bool then "1" else "0") (append "." (append frac (append " x 2^" (decimal e))))) /\
    (sg = 0 \/ sg = 1) /\ all_bits frac /\ X = (((if lead then 1 else 0) + binfrac frac) * b2 e)%R.

Lemma text_shape sg (lead : bool) frac e : binary_text (if sg =? 1 then "-"%char else "+"%char) (if lead then "1"%char else "0"%char) frac e =
  append (if sg =? 1 then "-" else "+") (append (if lead then "1" else "0") (append "." (append (bits_string frac) (append " x 2^" (decimal e))))).
Proof. unfold binary_text. rewrite digits_app. destruct (sg =? 1), lead; reflexivity. Qed.

Section print.
  Context (f : fmt) (Hf : fmt_ok f) (H4 : (4 | mw f + ew f + 1)).
  Let size := mw f + ew f + 1.
  Lemma bias_small : bias f + mw f + ew f + 3 <= 2 ^ (size - 1).
  Proof.
    unfold size, bias. destruct Hf as [Hm He]. replace (mw f + ew f + 1 - 1) with (mw f + ew f) by lia. rewrite pow2_split by lia. rewrite (pow2_P (ew f)) by lia.
    pose proof (pow2_lt (ew f - 1) (ew f) ltac:(lia)).
    assert (G : forall n, 0 <= n -> n + 1 <= 2 ^ n).
    { intros n Hn. rewrite <- (Z2Nat.id n) by assumption. induction (Z.to_nat n) as [|k IH]; [cbn; lia|]. rewrite Nat2Z.inj_succ, Z.pow_succ_r by lia. lia. }
    pose proof (G (mw f) ltac:(lia)) as Gm. pose proof (G (ew f - 1) ltac:(lia)) as Ge. set (A := 2 ^ mw f) in *. set (B := 2 ^ (ew f - 1)) in *.
    assert (4 <= A) by (unfold A; pose proof (pow2_le 2 (mw f) ltac:(lia)); lia). assert (2 <= B) by (unfold B; pose proof (pow2_le 1 (ew f - 1) ltac:(lia)); lia). nia.
  Qed.
  Lemma print_denotes alt b : is_bits f b -> is_finite f b = true -> text_denotes (real_to_binary f alt b) (sgn f b) (mval f b).
  Proof.
    intros Hb Hfin. pose proof bias_small as BS. assert (Hs0 : 0 <= size) by (unfold size; destruct Hf; lia). unfold real_to_binary. fold size.
    assert (Hpow : 2 ^ size = 2 ^ mw f * 2 ^ (ew f + 1)) by (unfold size; rewrite <- pow2_split by (destruct Hf; lia); f_equal; lia).
    pose proof (man_range f Hf b) as RM. pose proof (pow2_pos (ew f + 1) ltac:(destruct Hf; lia)) as PE.
    assert (W : Z.shiftl (man f b) (ew f + 1) mod 2 ^ size = man f b * 2 ^ (ew f + 1)).
    { rewrite Z.shiftl_mul_pow2 by (destruct Hf; lia). apply Z.mod_small. rewrite Hpow. nia. }
    assert (FV : forall x, 0 <= x < 2 ^ size -> binfrac (bits_string (uint_to_bit size x)) = (IZR x / IZR (2 ^ size))%R).
    { intros x Hx. rewrite binfrac_bits. apply uint_to_bit_value; assumption. }
    assert (FM : (IZR (man f b * 2 ^ (ew f + 1)) / IZR (2 ^ size) = IZR (man f b) * b2 (- mw f))%R).
    { rewrite Hpow, !mult_IZR, bpow_opp, <- IZR_pow2 by (destruct Hf; lia). field. split; apply not_0_IZR; [pose proof (pow2_pos (mw f))|]; destruct Hf; lia. }
    assert (RM' : 0 <= man f b * 2 ^ (ew f + 1) < 2 ^ size) by (rewrite Hpow; nia).
    pose proof (expf_range f Hf b) as RE. destruct (bias_bounds f Hf) as [B1 B2].
    unfold fpclassify. unfold is_finite in Hfin. apply negb_true_iff in Hfin. rewrite Hfin. cbn [andb].
    destruct (Z.eqb_spec (expf f b) 0) as [E0|E0]; cbn [andb].
    - destruct (Z.eqb_spec (man f b) 0) as [M0|M0]; cbn [andb negb].
      + exists false, "0"%string, 0. split; [apply (text_shape _ false [false] 0)|]. split; [apply sgn_01; assumption|]. split; [cbn; auto|].
        unfold mval, sig. rewrite E0. cbn [Z.eqb]. rewrite M0. cbn [binfrac ascii_dec]. destruct (ascii_dec "0" "1"); [discriminate|]. lra.
      + rewrite W. assert (MV : mval f b = (IZR (man f b) * b2 (1 - bias f - mw f))%R) by (unfold mval, sig, sexp; rewrite E0; reflexivity).
        destruct alt.
        * set (m := man f b * 2 ^ (ew f + 1)) in *. set (L := Z.log2 m). unfold clz. fold L.
          assert (Hm : 0 < m) by (unfold m; nia). pose proof (Z.log2_spec m Hm) as LS. fold L in LS. rewrite Z.pow_succ_r in LS by (apply Z.log2_nonneg).
          assert (L0 : 0 <= L) by apply Z.log2_nonneg.
          assert (L1 : L < size). { apply Z.log2_lt_pow2; lia. }
          assert (L2 : ew f + 1 <= L). { apply Z.log2_le_pow2; [assumption|]. unfold m. nia. }
          replace (size - 1 - L + 1) with (size - L) by lia.
          assert (SH : Z.shiftl m (size - L) mod 2 ^ size = (m - 2 ^ L) * 2 ^ (size - L)).
          { rewrite Z.shiftl_mul_pow2 by lia. replace (m * 2 ^ (size - L)) with ((m - 2 ^ L) * 2 ^ (size - L) + 1 * 2 ^ size) by (replace (2 ^ size) with (2 ^ L * 2 ^ (size - L)) by (rewrite <- pow2_split by lia; f_equal; lia); ring).
            rewrite Z_mod_plus_full. apply Z.mod_small. replace (2 ^ size) with (2 ^ L * 2 ^ (size - L)) by (rewrite <- pow2_split by lia; f_equal; lia). pose proof (pow2_pos (size - L)). nia. }
          rewrite SH. exists true. eexists. exists (1 - bias f - (size - L)). split.
          { rewrite shown_small; [|unfold size in *; destruct Hf; lia|unfold size in *; destruct Hf; lia].
            replace (- (bias f - 1) - (size - L)) with (1 - bias f - (size - L)) by lia. apply (text_shape _ true). }
          split; [apply sgn_01; assumption|]. split; [apply bits_all|]. rewrite FV.
          2: { replace (2 ^ size) with (2 ^ L * 2 ^ (size - L)) by (rewrite <- pow2_split by lia; f_equal; lia). pose proof (pow2_pos (size - L)). nia. }
          replace (2 ^ size) with (2 ^ L * 2 ^ (size - L)) by (rewrite <- pow2_split by lia; f_equal; lia). rewrite !mult_IZR, minus_IZR.
          pose proof (pow2_pos L L0) as PL. pose proof (pow2_pos (size - L) ltac:(lia)) as PS.
          replace (1 + (IZR m - IZR (2 ^ L)) * IZR (2 ^ (size - L)) / (IZR (2 ^ L) * IZR (2 ^ (size - L))))%R with (IZR m / IZR (2 ^ L))%R by (field; split; apply not_0_IZR; lia).
          rewrite MV. unfold m. rewrite mult_IZR, !IZR_pow2 by (destruct Hf; lia).
          replace (1 - bias f - (size - L)) with (L + (1 - bias f - mw f) + - (ew f + 1)) by (unfold size; lia). set (w := ew f + 1). rewrite !bpow_plus, bpow_opp.
          pose proof (bpow_gt_0 radix2 w). pose proof (bpow_gt_0 radix2 L). field. split; lra.
        * exists false. eexists. exists (1 - bias f). split.
          { rewrite shown_small; [|unfold size in *; destruct Hf; lia|unfold size in *; destruct Hf; lia]. rewrite E0. replace (0 - bias f + 1) with (1 - bias f) by lia. apply (text_shape _ false). }
          split; [apply sgn_01; assumption|]. split; [apply bits_all|]. rewrite FV, FM by assumption. rewrite MV, Rplus_0_l, Rmult_assoc, <- bpow_plus. do 2 f_equal. lia.
    - rewrite W. exists true. eexists. exists (expf f b - bias f). split.
      { rewrite shown_small; [|unfold size in *; destruct Hf; lia|unfold size in *; destruct Hf; lia]. apply (text_shape _ true). }
      split; [apply sgn_01; assumption|]. split; [apply bits_all|]. rewrite FV, FM by assumption. unfold mval, sig, sexp. destruct (Z.eqb_spec (expf f b) 0); [contradiction|].
      rewrite plus_IZR, IZR_pow2 by (destruct Hf; lia). replace (expf f b - bias f - mw f) with (expf f b - bias f + - mw f) by lia. rewrite bpow_plus, bpow_opp. field. apply Rgt_not_eq, bpow_gt_0.
  Qed.
End print.

(** the text determines sign and value *)
Lemma decimal_inj a b : decimal a = decimal b -> a = b.
Proof.
  intros H. unfold decimal in H.
  assert (P : forall z, NilZero.int_of_string (NilZero.string_of_int (Z.to_int z)) = Some (Z.to_int z)).
  { intros z. apply NilZero.isi; destruct z; cbn; try discriminate; intros E; injection E; apply DecimalPos.Unsigned.to_uint_nonnil. }
  assert (E : Z.to_int a = Z.to_int b) by (pose proof (P a) as Pa; rewrite H, (P b) in Pa; congruence).
  rewrite <- (DecimalZ.of_to a), E. apply DecimalZ.of_to.
Qed.
Lemma bits_prefix_inj s1 s2 r1 r2 : all_bits s1 -> all_bits s2 -> append s1 (String " " r1) = append s2 (String " " r2) -> s1 = s2 /\ r1 = r2.
Proof.
  revert s2. induction s1 as [|c s1 IH]; intros [|c2 s2] H1 H2 E; cbn in *.
  - injection E as ->. auto.
  - injection E as <- _. destruct H2 as [[|] _]; discriminate.
  - injection E as -> _. destruct H1 as [[|] _]; discriminate.
  - injection E as -> E. destruct (IH s2) as [-> ->]; tauto.
Qed.
Lemma text_unambiguous s sg sg' X X' : text_denotes s sg X -> text_denotes s sg' X' -> sg = sg' /\ X = X'.
Proof.
  intros (lead & frac & e & -> & Hs & Hb & ->) (lead' & frac' & e' & E & Hs' & Hb' & ->).
  assert (Esg : sg = sg'). { destruct Hs as [-> | ->], Hs' as [-> | ->]; try reflexivity; discriminate. } subst sg'. split; [reflexivity|].
  assert (E' : append (if lead then "1" else "0") (append "." (append frac (append " x 2^" (decimal e)))) = append (if lead' then "1" else "0") (append "." (append frac' (append " x 2^" (decimal e'))))).
  { destruct (sg =? 1); cbn [append] in E; injection E; auto. }
  assert (El : lead = lead') by (destruct lead, lead'; try reflexivity; discriminate). subst lead'.
  assert (E2 : append frac (append " x 2^" (decimal e)) = append frac' (append " x 2^" (decimal e'))) by (destruct lead; cbn [append] in E'; injection E'; auto).
  apply bits_prefix_inj in E2; try assumption. destruct E2 as [-> E2]. injection E2 as E2. apply decimal_inj in E2. subst. reflexivity.
Qed.
Lemma special_not_text s sg X c : text_denotes s sg X -> s <> String c "inf" /\ s <> "+nan"%string.
Proof.
  intros (lead & frac & e & -> & _). split; intros E; destruct (sg =? 1), lead; cbn [append] in E; discriminate.
Qed.
Lemma strip_last l : strip_zeros l = [] \/ last (strip_zeros l) false = true.
Proof.
  induction l as [|b l [IH|IH]]; cbn [strip_zeros]; [auto|rewrite IH; destruct b; auto|]. destruct (strip_zeros l) as [|c r]; [discriminate|]. right. exact IH.
Qed.
Lemma strip_length l : (List.length (strip_zeros l) <= List.length l)%nat.
Proof. induction l as [|b l IH]; [cbn; lia|]. cbn [strip_zeros List.length]. destruct (strip_zeros l) as [|c r]; [destruct b; cbn; lia|]. cbn [List.length] in *. lia. Qed.
Lemma loop_length fuel i size ft x : (List.length (bit_loop fuel i size ft x) <= 4 * fuel)%nat /\ Z.of_nat (List.length (bit_loop fuel i size ft x)) <= Z.max 0 (ft - i + 3).
Proof.
  revert i. induction fuel as [|fuel IH]; intros i; [cbn; lia|]. cbn [bit_loop]. destruct (Z.ltb_spec i ft) as [L|L]; [|cbn; lia]. rewrite app_length. cbn [hex_to_bit List.length]. specialize (IH (i + 4)). lia.
Qed.
(** lengths, for the buffers of STRING_MAX characters *)
Lemma decimal_short e : -2000 <= e <= 2000 -> (String.length (decimal e) <= 5)%nat.
Proof.
  intros He. assert (C : forallb (fun k => Nat.leb (String.length (decimal (Z.of_nat k - 2000))) 5) (seq 0 4001) = true) by (vm_compute; reflexivity).
  rewrite forallb_forall in C. specialize (C (Z.to_nat (e + 2000))). rewrite Z2Nat.id, Z.add_simpl_r in C by lia. apply Nat.leb_le, C. apply in_seq. lia.
Qed.
Lemma string_app_length s t : String.length (append s t) = (String.length s + String.length t)%nat.
Proof. induction s as [|c s IH]; [reflexivity|]. cbn. rewrite IH. reflexivity. Qed.
Lemma bits_string_length l : String.length (bits_string l) = List.length l.
Proof. induction l as [|b l IH]; [reflexivity|]. cbn. rewrite IH. reflexivity. Qed.
Lemma binary_text_length s c frac e : -2000 <= e <= 2000 -> (String.length (binary_text s c frac e) <= List.length frac + 13)%nat.
Proof.
  intros He. unfold binary_text. rewrite digits_app. cbn [String.length]. rewrite !string_app_length, bits_string_length. pose proof (decimal_short e He). cbn [String.length]. lia.
Qed.
Lemma uint_to_bit_length size x : 0 <= x < 2 ^ size -> 1 <= size -> Z.of_nat (List.length (uint_to_bit size x)) <= size + 3.
Proof.
  intros Hx Hs. unfold uint_to_bit. destruct (Z.eqb_spec x 0) as [->|N]; [cbn; lia|]. destruct (ctz_spec x ltac:(lia)) as (j & Hj & Hc & E).
  pose proof (strip_length (bit_loop (Z.to_nat size) 0 size (size - ctz x) x)). destruct (loop_length (Z.to_nat size) 0 size (size - ctz x) x). lia.
Qed.
Lemma print_length f alt b : f = binary32 \/ f = binary64 -> is_bits f b -> (String.length (real_to_binary f alt b) <= 80)%nat.
Proof.
  intros Hf Hb.
  assert (Of : fmt_ok f) by (destruct Hf as [-> | ->]; [apply ok32|apply ok64]). pose proof (bias_small f Of) as BS. pose proof (expf_range f Of b) as RE.
  assert (B : 1 <= bias f <= 1023 /\ expmax f <= 2047 /\ 1 <= mw f + ew f + 1 <= 64 /\ bias f <= 2 ^ ew f /\ expmax f - bias f <= 1024 /\ expmax f + 200 <= 2 ^ (mw f + ew f + 1 - 1)) by (destruct Hf as [-> | ->]; vm_compute; intuition congruence).
  destruct B as (B1 & B2 & B3 & B4 & B5 & B6). assert (B7 : bias f + 66 <= 2 ^ (mw f + ew f + 1 - 1)) by (destruct Hf as [-> | ->]; vm_compute; congruence). set (size := mw f + ew f + 1) in *. pose proof (pow2_pos size ltac:(lia)) as PS.
  assert (U : forall z, Z.of_nat (List.length (uint_to_bit size (z mod 2 ^ size))) <= 67).
  { intros z. pose proof (uint_to_bit_length size (z mod 2 ^ size) (Z.mod_pos_bound z (2 ^ size) PS) ltac:(lia)). lia. }
  unfold real_to_binary. fold size. unfold fpclassify.
  assert (Rexp : 0 <= expf f b <= expmax f) by (unfold expmax; lia).
  destruct (Z.eqb_spec (expf f b) (expmax f)) as [EM|EM]; [destruct (man f b =? 0); cbn; lia|].
  cbn [andb]. destruct (Z.eqb_spec (expf f b) 0) as [E0|E0]; cbn [andb].
  - destruct (Z.eqb_spec (man f b) 0) as [M0|M0].
    + etransitivity; [apply binary_text_length; lia|]. cbn. lia.
    + destruct alt.
      * set (m := Z.shiftl (man f b) (ew f + 1) mod 2 ^ size). assert (Cl : 0 <= clz size m <= size - 1).
        { pose proof (Z.mod_pos_bound (Z.shiftl (man f b) (ew f + 1)) (2 ^ size) PS) as R. fold m in R. unfold clz. pose proof (Z.log2_nonneg m). destruct (Z.eq_dec m 0) as [->|Nm]; [cbn; lia|].
          pose proof (proj1 (Z.log2_lt_pow2 m size ltac:(lia)) ltac:(lia)). lia. }
        rewrite shown_small by (clear - B1 B2 B3 B5 B6 B7 Rexp Cl; lia). etransitivity; [apply binary_text_length; lia|]. specialize (U (Z.shiftl m (clz size m + 1))). lia.
      * rewrite shown_small by (clear - B1 B2 B3 B5 B6 B7 Rexp; lia). etransitivity; [apply binary_text_length; lia|]. specialize (U (Z.shiftl (man f b) (ew f + 1))). lia.
  - rewrite shown_small by (clear - B1 B2 B3 B5 B6 B7 Rexp; lia). etransitivity; [apply binary_text_length; lia|]. specialize (U (Z.shiftl (man f b) (ew f + 1))). lia.
Qed.
