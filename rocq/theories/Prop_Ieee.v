(** C26-C28, C63: the IEEE backend. *)
From Coq Require Import ZArith Reals Ascii String List Bool Lia Lra.
From Flocq Require Import Core.
From Verif Require Import Common Bits BitsFacts FloatReal FloatValue FloatOps StdlibModel StdlibProofs IeeeModel IeeeProofs.
Import ListNotations.
Open Scope Z_scope.

(** the LLVM language reference, instruction fcmp, on exact values; [veq] and [vlt] order values (-0 = +0), nothing compares
    with NaN *)
Definition llvm_fcmp (p : fcmp) (v w : dval) : Prop :=
  let unordered := v = DNaN \/ w = DNaN in
  match p with
  | FCMP_FALSE => False
  | FCMP_OEQ => veq v w
  | FCMP_OGT => vlt w v
  | FCMP_OGE => vlt w v \/ veq v w
  | FCMP_OLT => vlt v w
  | FCMP_OLE => vlt v w \/ veq v w
  | FCMP_ONE => vlt v w \/ vlt w v
  | FCMP_ORD => ~ unordered
  | FCMP_UEQ => unordered \/ veq v w
  | FCMP_UGT => unordered \/ vlt w v
  | FCMP_UGE => unordered \/ vlt w v \/ veq v w
  | FCMP_ULT => unordered \/ vlt v w
  | FCMP_ULE => unordered \/ vlt v w \/ veq v w
  | FCMP_UNE => unordered \/ vlt v w \/ vlt w v
  | FCMP_UNO => unordered
  | FCMP_TRUE => True
  end.
Definition or_predicate (p : fcmp) : Prop :=
  match p with FCMP_UEQ | FCMP_UGT | FCMP_UGE | FCMP_ULT | FCMP_ULE | FCMP_UNE => True | _ => False end.

Lemma narrow_format f : f = binary32 \/ f = binary64 -> fmt_ok f.
Proof. intros [-> | ->]; [apply ok32|apply ok64]. Qed.

Lemma cmp_iff f p a b : fmt_ok f -> is_bits f a -> is_bits f b ->
  ieee_cmp f p a b = true <-> (if (match p with FCMP_UEQ | FCMP_UGT | FCMP_UGE | FCMP_ULT | FCMP_ULE | FCMP_UNE => true | _ => false end)
                               then dec f a = DNaN \/ dec f b = DNaN else llvm_fcmp p (dec f a) (dec f b)).
Proof.
  intros Hf Ha Hb. pose proof (nan_dec f a) as Na. pose proof (nan_dec f b) as Nb.
  assert (NN : vlt (dec f a) (dec f b) \/ vlt (dec f b) (dec f a) \/ veq (dec f a) (dec f b) -> dec f a <> DNaN /\ dec f b <> DNaN).
  { destruct (dec f a), (dec f b); cbn; intros [H|[H|H]]; split; (contradiction || discriminate). }
  assert (OR : is_nan f a = false -> is_nan f b = false -> (key f a < key f b <-> vlt (dec f a) (dec f b)) /\ (key f b < key f a <-> vlt (dec f b) (dec f a)) /\ (key f a = key f b <-> veq (dec f a) (dec f b))).
  { intros. repeat split; intros; try (apply key_vlt; assumption); try (apply (key_vlt f Hf b a); assumption); apply (key_veq f Hf a b); assumption. }
  unfold ieee_cmp, c_eq, isgreater, isgreaterequal, isless, islessequal, islessgreater, isunordered.
  destruct (is_nan f a) eqn:A; [|destruct (is_nan f b) eqn:B].
  - pose proof (proj1 Na eq_refl) as Da. destruct p; cbn [orb negb andb llvm_fcmp]; split; intros H; try discriminate; try tauto.
  - pose proof (proj1 Nb eq_refl) as Db. destruct p; cbn [orb negb andb llvm_fcmp]; split; intros H; try discriminate; try tauto.
  - destruct (OR eq_refl eq_refl) as (O1 & O2 & O3). assert (Da : dec f a <> DNaN) by (intros E; apply Na in E; discriminate). assert (Db : dec f b <> DNaN) by (intros E; apply Nb in E; discriminate). clear Na Nb NN OR.
    destruct p; cbn [orb negb andb llvm_fcmp]; rewrite ?orb_true_iff, ?Z.eqb_eq, ?Z.ltb_lt, ?Z.leb_le, <- ?O1, <- ?O2, <- ?O3; split; intros H; try discriminate; try tauto; try lia.
Qed.

(** C26. Ten of the sixteen predicates have LLVM's meaning for every pair of operands. Missing for the full statement: the
    six "unordered or ..." predicates, see the two theorems below. *)
Theorem C26_predicates_partial :
  forall f p a b, f = binary32 \/ f = binary64 -> is_bits f a -> is_bits f b -> ~ or_predicate p ->
  (ieee_cmp f p a b = true <-> llvm_fcmp p (dec f a) (dec f b)).
Proof.
  intros f p a b Hf Ha Hb Hp. rewrite (cmp_iff f p a b (narrow_format f Hf) Ha Hb). destruct p; try reflexivity; exfalso; apply Hp; exact I.
Qed.
Print Assumptions C26_predicates_partial.
Example C26_nonvacuous :
  ~ or_predicate FCMP_OLE /\ ieee_cmp binary64 FCMP_OLE 0x8000000000000000 0 = true /\ ieee_cmp binary64 FCMP_OLT 0x8000000000000000 0 = false /\
  ieee_cmp binary64 FCMP_OLE 0x7FF8000000000000 0 = false /\ ieee_cmp binary32 FCMP_OGT 0xBF800000 0xC0000000 = true.
Proof. split; [intros []|]. vm_compute. auto. Qed.

(** The six predicates say "true" exactly when an operand is NaN: they never answer "true" wrongly, and with ordered operands
    they always answer "false". *)
Theorem C26_unordered_predicates :
  forall f p a b, f = binary32 \/ f = binary64 -> is_bits f a -> is_bits f b -> or_predicate p ->
  (ieee_cmp f p a b = true <-> dec f a = DNaN \/ dec f b = DNaN) /\ (ieee_cmp f p a b = true -> llvm_fcmp p (dec f a) (dec f b)).
Proof.
  intros f p a b Hf Ha Hb Hp. rewrite (cmp_iff f p a b (narrow_format f Hf) Ha Hb). destruct p; try contradiction; cbn [llvm_fcmp]; tauto.
Qed.
Print Assumptions C26_unordered_predicates.
(** so each of them is wrong somewhere: 1 compared with 1, 1 with 2, 2 with 1 *)
Theorem C26_unordered_predicates_refuted :
  forall p, or_predicate p -> exists a b, is_bits binary64 a /\ is_bits binary64 b /\ llvm_fcmp p (dec binary64 a) (dec binary64 b) /\ ieee_cmp binary64 p a b = false.
Proof.
  set (one := 0x3FF0000000000000). set (two := 0x4000000000000000).
  assert (B1 : is_bits binary64 one) by (vm_compute; split; congruence). assert (B2 : is_bits binary64 two) by (vm_compute; split; congruence).
  assert (L : vlt (dec binary64 one) (dec binary64 two)) by (apply (key_vlt binary64 ok64 one two B1 B2); reflexivity).
  assert (Q : veq (dec binary64 one) (dec binary64 one)) by (apply (key_veq binary64 ok64 one one B1 B1); reflexivity).
  intros p Hp. destruct p; try contradiction; cbn [llvm_fcmp].
  - exists one, one. repeat (split; [tauto|]). vm_compute; reflexivity.
  - exists two, one. repeat (split; [tauto|]). vm_compute; reflexivity.
  - exists one, one. repeat (split; [tauto|]). vm_compute; reflexivity.
  - exists one, two. repeat (split; [tauto|]). vm_compute; reflexivity.
  - exists one, one. repeat (split; [tauto|]). vm_compute; reflexivity.
  - exists one, two. repeat (split; [tauto|]). vm_compute; reflexivity.
Qed.
Print Assumptions C26_unordered_predicates_refuted.

(** C27. Any number of threads, each making any sequence of calls, interleaved in any way; when all calls are finished the
    report lists for each of the five operations the number of calls made by all threads (less than 2^63 each). Without the
    option nothing is printed. *)
Theorem C27_counts_exact :
  forall sched progs ts cs, run_threads sched (map (start_thread true) progs) counters0 = (ts, cs) ->
  Forall (fun t => todo t = []) ts -> (forall c, calls_of c progs < 2 ^ 63) ->
  ieee_report true cs = [(CMul, calls_of CMul progs); (CDiv, calls_of CDiv progs); (CAdd, calls_of CAdd progs); (CSub, calls_of CSub progs); (CFma, calls_of CFma progs)].
Proof.
  intros sched progs ts cs E F L. unfold ieee_report. cbn [map].
  assert (H : forall c, to_signed 64 (cs c) = calls_of c progs).
  { intros c. rewrite (counts_exact sched progs ts cs E F c). specialize (L c). assert (0 <= calls_of c progs) by (unfold calls_of; lia).
    change (2 ^ 63) with 9223372036854775808 in L. rewrite Z.mod_small by lia. unfold to_signed. change (2 ^ (64 - 1)) with 9223372036854775808. destruct (Z.ltb_spec (calls_of c progs) 9223372036854775808); lia. }
  rewrite !H. reflexivity.
Qed.
Print Assumptions C27_counts_exact.
(** beyond 2^63 calls of one kind the report is the count modulo 2^64, read as signed *)
Theorem C27_counts_modulo :
  forall sched progs ts cs c, run_threads sched (map (start_thread true) progs) counters0 = (ts, cs) -> Forall (fun t => todo t = []) ts ->
  exists n, In (c, n) (ieee_report true cs) /\ (n - calls_of c progs) mod 2 ^ 64 = 0 /\ - 2 ^ 63 <= n < 2 ^ 63.
Proof.
  intros sched progs ts cs c E F. exists (to_signed 64 (cs c)). split; [destruct c; cbn; tauto|]. rewrite (counts_exact sched progs ts cs E F c).
  set (v := calls_of c progs). pose proof (Z.mod_pos_bound v (2 ^ 64) ltac:(lia)) as R. pose proof (Z.div_mod v (2 ^ 64) ltac:(lia)) as D.
  unfold to_signed. change (64 - 1) with 63. set (m := v mod 2 ^ 64) in *. destruct (Z.ltb_spec m (2 ^ 63)); split; try lia.
  - replace (m - v) with (- (v / 2 ^ 64) * 2 ^ 64) by lia. apply Z_mod_mult.
  - replace (m - 2 ^ 64 - v) with ((- (v / 2 ^ 64) - 1) * 2 ^ 64) by lia. apply Z_mod_mult.
Qed.
Print Assumptions C27_counts_modulo.
Theorem C27_not_counting :
  forall sched progs ts cs, run_threads sched (map (start_thread false) progs) counters0 = (ts, cs) -> ieee_report false cs = [] /\ forall c, cs c = 0.
Proof. intros sched progs ts cs E. split; [reflexivity|]. exact (not_counted sched progs ts cs E). Qed.
Print Assumptions C27_not_counting.
(** finishing schedules exist: from any reachable point the threads can be run to the end *)
Example C27_nonvacuous :
  exists ts cs, run_threads [1; 0; 0; 1; 2; 0; 1]%nat (map (start_thread true) [[OpAdd; OpMul; OpAdd]; [OpFma; OpCmp; OpAdd; OpSub]; [OpDiv]]) counters0 = (ts, cs) /\
  Forall (fun t => todo t = []) ts /\ ieee_report true cs = [(CMul, 1); (CDiv, 1); (CAdd, 3); (CSub, 1); (CFma, 1)].
Proof. eexists _, _. split; [reflexivity|]. split; [repeat constructor|]. vm_compute. reflexivity. Qed.
(** the same statement is false of plain increments *)
Example C27_plain_increment_loses :
  exists cs, snd (run_threads [0; 1; 0; 1]%nat [mk_thread 0 [Load CAdd; StoreInc CAdd]; mk_thread 0 [Load CAdd; StoreInc CAdd]] counters0) = cs /\ cs CAdd = 1.
Proof. eexists. split; [reflexivity|]. vm_compute. reflexivity. Qed.

(** C28. The text of a finite number is sign, leading bit, ".", fraction bits, " x 2^" and the exponent in decimal, and denotes the
    number ([binfrac] reads a string of 0s and 1s after the binary point). *)
Definition denoted_by (s : string) (sign : Z) (X : R) : Prop :=
  exists lead frac e, s = append (if sign =? 1 then "-" else "+") (append (if lead : bool then "1" else "0") (append "." (append frac (append " x 2^" (decimal e))))) /\
    all_bits frac /\ X = (((if lead then 1 else 0) + binfrac frac) * b2 e)%R.
Lemma div4_32 : (4 | mw binary32 + ew binary32 + 1). Proof. exists 8. reflexivity. Qed.
Lemma div4_64 : (4 | mw binary64 + ew binary64 + 1). Proof. exists 16. reflexivity. Qed.
Lemma narrow_div4 f : f = binary32 \/ f = binary64 -> (4 | mw f + ew f + 1).
Proof. intros [-> | ->]; [apply div4_32|apply div4_64]. Qed.
Theorem C28_text_denotes_value :
  forall f alt b, f = binary32 \/ f = binary64 -> is_bits f b -> is_finite f b = true ->
  denoted_by (real_to_binary f alt b) (sgn f b) (Rabs (fval f b)).
Proof.
  intros f alt b Hf Hb Hfin. pose proof (narrow_format f Hf) as Of.
  destruct (print_denotes f Of (narrow_div4 f Hf) alt b Hb Hfin) as (lead & frac & e & E & _ & A & V). exists lead, frac, e. rewrite (mval_abs f Of). auto.
Qed.
Print Assumptions C28_text_denotes_value.
(** a text denotes one number only *)
Theorem C28_text_unambiguous :
  forall s sg sg' X X', sg = 0 \/ sg = 1 -> sg' = 0 \/ sg' = 1 -> denoted_by s sg X -> denoted_by s sg' X' -> sg = sg' /\ X = X'.
Proof.
  intros s sg sg' X X' H H' (l & f & e & E & A & V) (l' & f' & e' & E' & A' & V').
  apply (text_unambiguous s sg sg' X X'); [exists l, f, e|exists l', f', e']; auto.
Qed.
Print Assumptions C28_text_unambiguous.
(** so different numbers that are not NaN print differently, in either style, and the two styles never clash *)
Theorem C28_injective :
  forall f alt alt' b b', f = binary32 \/ f = binary64 -> is_bits f b -> is_bits f b' -> is_nan f b = false -> is_nan f b' = false ->
  real_to_binary f alt b = real_to_binary f alt' b' -> b = b'.
Proof.
  intros f alt alt' b b' Hf Hb Hb' Nb Nb' E. pose proof (narrow_format f Hf) as Of. pose proof (narrow_div4 f Hf) as D4.
  assert (INF : forall alt b, is_bits f b -> is_inf f b = true -> real_to_binary f alt b = String (if sgn f b =? 1 then "-"%char else "+"%char) "inf").
  { intros alt0 b0 Hb0 I0. unfold real_to_binary, fpclassify. unfold is_inf in I0. apply andb_true_iff in I0. destruct I0 as [-> ->]. reflexivity. }
  destruct (is_inf f b) eqn:I, (is_inf f b') eqn:I'.
  - rewrite !INF in E by assumption. rewrite (inf_inv f b Of Hb I), (inf_inv f b' Of Hb' I'). f_equal.
    destruct (sgn_01 f b) as [S|S], (sgn_01 f b') as [S'|S']; rewrite S, S' in E |- *; (reflexivity || discriminate).
  - exfalso. rewrite (INF alt b) in E by assumption. pose proof (print_denotes f Of D4 alt' b' Hb' (not_special_finite _ _ Nb' I')) as T. rewrite <- E in T.
    apply (special_not_text _ _ _ (if sgn f b =? 1 then "-"%char else "+"%char)) in T. destruct T as [T _]. apply T. reflexivity.
  - exfalso. rewrite (INF alt' b') in E by assumption. pose proof (print_denotes f Of D4 alt b Hb (not_special_finite _ _ Nb I)) as T. rewrite E in T.
    apply (special_not_text _ _ _ (if sgn f b' =? 1 then "-"%char else "+"%char)) in T. destruct T as [T _]. apply T. reflexivity.
  - pose proof (print_denotes f Of D4 alt b Hb (not_special_finite _ _ Nb I)) as T. pose proof (print_denotes f Of D4 alt' b' Hb' (not_special_finite _ _ Nb' I')) as T'.
    rewrite E in T. destruct (text_unambiguous _ _ _ _ _ T T') as [S V]. apply (bits_ext f Of); try assumption.
Qed.
Print Assumptions C28_injective.
(** infinities keep their sign, NaNs print as one text that no number has *)
Theorem C28_special :
  forall f alt b, f = binary32 \/ f = binary64 -> is_bits f b ->
  (is_inf f b = true -> real_to_binary f alt b = append (if sgn f b =? 1 then "-" else "+") "inf") /\
  (is_nan f b = true <-> real_to_binary f alt b = "+nan"%string).
Proof.
  intros f alt b Hf Hb. pose proof (narrow_format f Hf) as Of. pose proof (narrow_div4 f Hf) as D4. split.
  - intros I. unfold real_to_binary, fpclassify. unfold is_inf in I. apply andb_true_iff in I. destruct I as [-> ->]. destruct (sgn f b =? 1); reflexivity.
  - split.
    + intros N. unfold real_to_binary, fpclassify. unfold is_nan in N. apply andb_true_iff in N. destruct N as [-> N]. apply negb_true_iff in N. rewrite N. reflexivity.
    + intros E. destruct (is_nan f b) eqn:N; [reflexivity|]. exfalso. destruct (is_inf f b) eqn:I.
      * unfold real_to_binary, fpclassify in E. unfold is_inf in I. apply andb_true_iff in I. destruct I as [I1 I2]. rewrite I1, I2 in E. destruct (sgn f b =? 1); discriminate.
      * pose proof (print_denotes f Of D4 alt b Hb (not_special_finite _ _ N I)) as T. rewrite E in T. apply (special_not_text _ _ _ "0"%char) in T. destruct T as [_ T]. apply T. reflexivity.
Qed.
Print Assumptions C28_special.
(** the sign of a NaN is lost although the comment in the code announces +/-nan *)
Theorem C28_nan_sign_refuted :
  exists b b', is_bits binary64 b /\ is_bits binary64 b' /\ sgn binary64 b <> sgn binary64 b' /\ real_to_binary binary64 false b = real_to_binary binary64 false b'.
Proof. exists 0x7FF8000000000000, 0xFFF8000000000000. split; [vm_compute; split; congruence|]. split; [vm_compute; split; congruence|]. split; [vm_compute; congruence|]. vm_compute. reflexivity. Qed.
Print Assumptions C28_nan_sign_refuted.
Example C28_nonvacuous :
  real_to_binary binary32 false 0xC0480000 = "-1.1001 x 2^1"%string /\ real_to_binary binary32 false 0x3 = "+0.00000000000000000000011 x 2^-126"%string /\
  real_to_binary binary32 true 0x3 = "+1.1 x 2^-148"%string /\ real_to_binary binary64 true 0x3FF0000000000000 = "+1.0 x 2^0"%string.
Proof. vm_compute. auto. Qed.

(** C63. Whatever the options and the interleaving, the results are the machine's: for a machine with correctly rounded
    arithmetic, the correctly rounded ones. *)
Definition exact_result (f : fmt) (o : iop) (a b c : Z) : dval :=
  match o with
  | OpAdd => dadd (dec f a) (dec f b) | OpSub => dsub (dec f a) (dec f b) | OpMul => dmul (dec f a) (dec f b)
  | OpDiv => ddiv (dec f a) (dec f b) | OpFma => dfma (dec f a) (dec f b) (dec f c) | _ => DNaN
  end.
Theorem C63_results_correctly_rounded :
  forall n f o a b c, ieee_arith n -> f = binary32 \/ f = binary64 -> is_bits f a -> is_bits f b -> is_bits f c -> o <> OpCmp -> o <> OpCast ->
  encodes f (exact_result f o a b c) (ieee_result n f o a b c).
Proof.
  intros n f o a b c Hn Hf Ha Hb Hc N1 N2. destruct (Hn f (narrow_format f Hf) a b Ha Hb) as (A & S & M & D & F). destruct o; try assumption; [apply F; assumption|congruence|congruence].
Qed.
Print Assumptions C63_results_correctly_rounded.
Theorem C63_cast_correctly_rounded :
  forall n a b c, is_bits binary64 a -> encodes binary32 (dec binary64 a) (ieee_result n binary64 OpCast a b c).
Proof. intros n a b c Ha. apply fconv_encodes; [apply ok64|apply ok32]. Qed.
Print Assumptions C63_cast_correctly_rounded.
Example C63_nonvacuous : ieee_arith soft /\ ieee_result soft binary32 OpFma 0x3F800800 0x3F800800 0x0D800000 = 0x3F801001 /\ ieee_result soft binary64 OpCast 0x3FF0000010000001 0 0 = 0x3F800001.
Proof. split; [exact soft_ieee|]. vm_compute. auto. Qed.

(** the text always fits the buffers of 256 characters *)
Theorem C28_fits_buffer : forall f alt b, f = binary32 \/ f = binary64 -> is_bits f b -> (String.length (real_to_binary f alt b) < 256)%nat.
Proof. intros f alt b Hf Hb. pose proof (print_length f alt b Hf Hb). lia. Qed.
Print Assumptions C28_fits_buffer.
Example C28_length_nonvacuous : String.length (real_to_binary binary64 false 0x801FFFFFFFFFFFFF) = 65%nat.
Proof. vm_compute. reflexivity. Qed.
