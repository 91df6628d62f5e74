(** C34-C39: the wrapper (vfcwrapper/main.c.in, funcinstr.c). *)
From Coq Require Import String ZArith List Bool Lia Sorted.
From stdpp Require Import base list numbers.
From Verif Require Import Common HashModel HashTable HashMapProofs Text Bits FloatOps IeeeModel WrapModel WrapParseProofs WrapProofs DdebugModel DdebugProofs FuncModel FuncProofs.
Import ListNotations.
Open Scope Z_scope.

(** * C34: dispatch *)
(** Each wrapper calls every backend that has the function once, in load order, with the operands of the program: with
    backends that note their calls, the journal grows by exactly these calls; results and states are those of the backends. *)
Theorem C34_each_backend_once :
  forall W (bs : list (backend W)) (w : W) (j : list (nat * call)),
  (forall p o a b, arith_wrapper (recorded_from 0 bs) p o a b (w, j) =
     with_journal (arith_wrapper bs p o a b w) (j ++ map (fun k => (k, CArith p o a b)) (implementing (fun x => b_arith x p o) 0 bs))) /\
  (forall p a b c, fma_wrapper (recorded_from 0 bs) p a b c (w, j) =
     with_journal (fma_wrapper bs p a b c w) (j ++ map (fun k => (k, CFma p a b c)) (implementing (fun x => b_fma x p) 0 bs))) /\
  (forall p pr a b, cmp_wrapper (recorded_from 0 bs) p pr a b (w, j) =
     with_journal (cmp_wrapper bs p pr a b w) (j ++ map (fun k => (k, CCmp p pr a b)) (implementing (fun x => b_cmp x p) 0 bs))) /\
  (forall a, cast_wrapper (recorded_from 0 bs) a (w, j) =
     with_journal (cast_wrapper bs a w) (j ++ map (fun k => (k, CCast a)) (implementing b_cast 0 bs))).
Proof.
  intros W bs w j. split; [|split; [|split]]; intros; [apply arith_recorded|apply fma_recorded|apply cmp_recorded|apply cast_recorded].
Qed.
Print Assumptions C34_each_backend_once.

(** the list of numbers in the journal: increasing, and a number is in it iff the backend loaded at that rank has the function *)
Theorem C34_load_order :
  forall B F (get : B -> option F) (bs : list B),
  StronglySorted lt (implementing get 0 bs) /\
  forall k, In k (implementing get 0 bs) <-> exists b f, nth_error bs k = Some b /\ get b = Some f.
Proof.
  intros B F get bs. split; [apply implementing_sorted|]. intros k. rewrite implementing_spec, Nat.sub_0_r. split.
  - intros (_ & b & H1 & H2). unfold has in H2. destruct (get b) as [f|] eqn:E; [|discriminate]. exists b, f. auto.
  - intros (b & f & H1 & H2). split; [lia|]. exists b. unfold has. rewrite H2. auto.
Qed.
Print Assumptions C34_load_order.

(** the value the program gets is the one left by the last backend that has the function, run after all others *)
Theorem C34_last_decides :
  forall W (bs1 : list (backend W)) x f (bs2 : list (backend W)) p o a b w,
  b_arith x p o = Some f -> Forall (fun y => b_arith y p o = None) bs2 ->
  exists cell w1, call_all (fun y => b_arith y p o) (fun g => g a b) bs1 (Some (qnan (wfmt p))) w = (cell, w1) /\
    arith_wrapper (bs1 ++ x :: bs2) p o a b w =
      match f a b cell w1 with (Some c, w2) => Ok (c, w2) | (None, _) => UB end.
Proof.
  intros W bs1 x f bs2 p o a b w Hx Hn.
  exists (fst (call_all (fun y => b_arith y p o) (fun g => g a b) bs1 (Some (qnan (wfmt p))) w)),
    (snd (call_all (fun y => b_arith y p o) (fun g => g a b) bs1 (Some (qnan (wfmt p))) w)).
  split; [apply surjective_pairing|]. unfold arith_wrapper.
  rewrite (call_all_last (fun y => b_arith y p o) (fun g => g a b) bs1 x f bs2 _ w Hx Hn).
  unfold returned. destruct (f a b _ _) as [[c|] w2]; reflexivity.
Qed.
Print Assumptions C34_last_decides.

(** the same for fused operations, comparisons and casts *)
Theorem C34_last_decides_others :
  forall W (bs1 : list (backend W)) x (bs2 : list (backend W)) (w : W),
  (forall p f a b d, b_fma x p = Some f -> Forall (fun y => b_fma y p = None) bs2 ->
    exists cell w1, call_all (fun y => b_fma y p) (fun g => g a b d) bs1 (Some (qnan (wfmt p))) w = (cell, w1) /\
    fma_wrapper (bs1 ++ x :: bs2) p a b d w = match f a b d cell w1 with (Some c, w2) => Ok (c, w2) | (None, _) => UB end) /\
  (forall p f pr a b, b_cmp x p = Some f -> Forall (fun y => b_cmp y p = None) bs2 ->
    exists cell w1, call_all (fun y => b_cmp y p) (fun g => g pr a b) bs1 None w = (cell, w1) /\
    cmp_wrapper (bs1 ++ x :: bs2) p pr a b w = match f pr a b cell w1 with (Some c, w2) => Ok (c, w2) | (None, _) => UB end) /\
  (forall f a, b_cast x = Some f -> Forall (fun y => b_cast y = None) bs2 ->
    exists cell w1, call_all b_cast (fun g => g a) bs1 None w = (cell, w1) /\
    cast_wrapper (bs1 ++ x :: bs2) a w = match f a cell w1 with (Some c, w2) => Ok (c, w2) | (None, _) => UB end).
Proof.
  intros W bs1 x bs2 w. split; [|split].
  - intros p f a b d Hx Hn. eexists _, _. split; [apply surjective_pairing|]. unfold fma_wrapper.
    rewrite (call_all_last (fun y => b_fma y p) (fun g => g a b d) bs1 x f bs2 _ w Hx Hn). unfold returned. destruct (f a b d _ _) as [[c|] w2]; reflexivity.
  - intros p f pr a b Hx Hn. eexists _, _. split; [apply surjective_pairing|]. unfold cmp_wrapper.
    rewrite (call_all_last (fun y => b_cmp y p) (fun g => g pr a b) bs1 x f bs2 _ w Hx Hn). unfold returned. destruct (f pr a b _ _) as [[c|] w2]; reflexivity.
  - intros f a Hx Hn. eexists _, _. split; [apply surjective_pairing|]. unfold cast_wrapper.
    rewrite (call_all_last b_cast (fun g => g a) bs1 x f bs2 _ w Hx Hn). unfold returned. destruct (f a _ _) as [[c|] w2]; reflexivity.
Qed.
Print Assumptions C34_last_decides_others.

(** start-up refuses a list of backends in which some instrumented operation has no implementation, so no wrapper returns an
    uninitialised value as long as backends write their results *)
Theorem C34_always_a_result :
  forall W inst_fcmp inst_fma inst_cast (bs : list (backend W)) w,
  init_checks inst_fcmp inst_fma inst_cast bs = Ok tt -> Forall writes bs ->
  (forall p o a b, exists c w', arith_wrapper bs p o a b w = Ok (c, w')) /\
  (inst_fcmp = true -> forall p pr a b, exists c w', cmp_wrapper bs p pr a b w = Ok (c, w')) /\
  (inst_fma = true -> forall p a b d, exists c w', fma_wrapper bs p a b d w = Ok (c, w')) /\
  (inst_cast = true -> forall a, exists c w', cast_wrapper bs a w = Ok (c, w')).
Proof. intros. eapply wrappers_defined; eassumption. Qed.
Print Assumptions C34_always_a_result.

(** two backends, the second without the function fma and counting its calls; the first adds its operands *)
Definition ex_first : backend Z :=
  mk_backend (fun _ _ => Some (fun a b _ w => (Some (a + b), w))) (fun _ => Some (fun _ a b _ w => (Some 1, w)))
    (fun _ => Some (fun a b c _ w => (Some (a * b + c), w))) (Some (fun a _ w => (Some a, w))).
Definition ex_second : backend Z :=
  mk_backend (fun _ _ => Some (fun a b c w => (match c with Some v => Some (10 * v) | None => Some 0 end, w + 1)))
    (fun _ => Some (fun _ a b _ w => (Some 0, w + 1))) (fun _ => None) (Some (fun a _ w => (Some (a + 1), w + 1))).
Example C34_nonvacuous :
  arith_wrapper (recorded_from 0 [ex_first; ex_second]) PDouble WAdd 3 4 (0, []) =
    Ok (70, (1, [(0%nat, CArith PDouble WAdd 3 4); (1%nat, CArith PDouble WAdd 3 4)])) /\
  implementing (fun x => b_fma x PDouble) 0 [ex_first; ex_second] = [0%nat] /\
  init_checks true true true [ex_first; ex_second] = Ok tt /\ Forall writes [ex_first; ex_second] /\
  init_checks false true false [ex_second] = Exit /\
  b_arith ex_second PDouble WAdd <> None.
Proof.
  split; [reflexivity|]. split; [reflexivity|]. split; [reflexivity|]. split; [|split; [reflexivity|discriminate]].
  apply List.Forall_cons; [|apply List.Forall_cons; [|apply List.Forall_nil]].
  - split; cbn; intros; match goal with H : Some _ = Some _ |- _ => injection H as <-; discriminate end.
  - split; cbn; intros; try discriminate; match goal with H : Some _ = Some _ |- _ => injection H as <- end; try destruct c; discriminate.
Qed.

(** * C35: vectors *)
(** a vector operation succeeds iff the scalar operation succeeds on the lanes in order, each on the state left by the one
    before; then every lane is written, with the scalar results *)
Theorem C35_lanes_in_order :
  forall W (scalar : Z -> Z -> W -> outcome (Z * W)) size a b w r w', length a = size -> length b = size ->
  (vector_wrapper scalar size a b w = Ok (r, w') <-> exists c, in_sequence scalar a b w c w' /\ r = map Some c).
Proof. intros W scalar size a b w r w' <- H. apply vector_spec. symmetry. exact H. Qed.
Print Assumptions C35_lanes_in_order.

(** in_sequence, lane by lane: there are states w = s_0, ..., s_size = w' with lane i computed from s_i to s_(i+1) *)
Theorem C35_lane_states :
  forall W (scalar : Z -> Z -> W -> outcome (Z * W)) size a b w r w', length a = size -> length b = size ->
  vector_wrapper scalar size a b w = Ok (r, w') ->
  length r = size /\
  exists s : nat -> W, s 0%nat = w /\ s size = w' /\
    forall i, (i < size)%nat -> exists x y z, nth_error a i = Some x /\ nth_error b i = Some y /\
      nth_error r i = Some (Some z) /\ scalar x y (s i) = Ok (z, s (S i)).
Proof.
  intros W scalar size a b w r w' Ha Hb H. apply (C35_lanes_in_order W scalar size a b w r w' Ha Hb) in H as (c & Hs & ->). subst size.
  clear Hb. split; [rewrite map_length; symmetry; apply (in_sequence_len _ _ _ _ _ _ Hs)|].
  induction Hs as [w|x a y b w z w1 c w2 Hz Hs (s & S0 & S1 & IH)].
  - exists (fun _ => w). split; [reflexivity|]. split; [reflexivity|]. cbn. lia.
  - exists (fun i => match i with O => w | S i => s i end). split; [reflexivity|]. split; [exact S1|]. intros [|i] Hi.
    + exists x, y, z. cbn. rewrite S0. auto.
    + cbn [length] in Hi. destruct (IH i ltac:(lia)) as (x' & y' & z' & A & B & C & D). exists x', y', z'. cbn. auto.
Qed.
Print Assumptions C35_lane_states.

Example C35_nonvacuous :
  vector_wrapper (arith_wrapper [ex_first; ex_second] PFloat WMul) 4 [1; 2; 3; 4] [5; 6; 7; 8] 0 = Ok ([Some 60; Some 80; Some 100; Some 120], 4).
Proof. reflexivity. Qed.

(** * C36: delta-debug filters *)
(** With any exclusion and inclusion files made of lines "0x<address><text>", an arithmetic operation called from [site] goes
    to the backends iff [site] is in no exclusion line and, when there is an inclusion file, in one of its lines; otherwise
    the result is the native operation and no backend is called. *)
Theorem C36_filters :
  forall (E I : option (list entry)), file_ok E -> file_ok I ->
  exists st, dd_init (file_of E) (file_of I) false = Ok st /\
  forall W (n : arith) (bs : list (backend W)) site p o a b (w : W),
    (~ excluded E site /\ included I site -> dd_arith n bs site p o a b w st = omap (fun r => (r, st)) (arith_wrapper bs p o a b w)) /\
    (excluded E site \/ ~ included I site -> dd_arith n bs site p o a b w st = Ok (native_op n p o a b, w, st)).
Proof.
  intros E I HE HI. destruct (filter_spec E I HE HI) as (st & Est & Hd). exists st. split; [exact Est|].
  intros W n bs site p o a b w. unfold dd_arith. rewrite Hd. cbn [bind]. unfold instrumented. split.
  - intros [H1 H2]. rewrite (bool_decide_eq_false_2 _ H1), (bool_decide_eq_true_2 _ H2). cbn [negb andb].
    destruct (arith_wrapper bs p o a b w) as [[c w']| | |]; reflexivity.
  - intros [H1|H2].
    + rewrite (bool_decide_eq_true_2 _ H1). reflexivity.
    + rewrite (bool_decide_eq_false_2 _ H2), andb_false_r. reflexivity.
Qed.
Print Assumptions C36_filters.

(** With VFC_DDEBUG_GEN, for every execution (sequence of call sites): the operations not excluded are instrumented, and the
    addresses written are those of the executed sites not excluded, each once. *)
Theorem C36_generated_sites :
  forall (E : option (list entry)) (trace : list Z), file_ok E -> Forall legal_value trace -> Z.of_nat (length trace) <= max_inserts ->
  exists st st', dd_init (file_of E) None true = Ok st /\
    dd_run st trace = Ok (map (fun a => negb (bool_decide (excluded E a))) trace, st') /\
    NoDup (gen_addresses (dd_must st')) /\
    forall x, x ∈ gen_addresses (dd_must st') <-> x + call_op_size ∈ trace /\ ~ excluded E (x + call_op_size).
Proof.
  intros E trace HE Hl HN. destruct (generate_spec E trace HE Hl HN) as (st & st' & S & E1 & E2 & Hnd & Hp & Hx).
  exists st, st'. split; [exact E1|]. split; [exact E2|]. rewrite Hp. split.
  - apply NoDup_fmap_2; [|exact Hnd]. intros x y H. lia.
  - intros x. rewrite Hp. rewrite <- Hx. rewrite elem_of_list_In, in_map_iff. split.
    + intros (y & <- & Hy). replace (y - call_op_size + call_op_size) with y by lia. apply elem_of_list_In. exact Hy.
    + intros H. exists (x + call_op_size). split; [lia|]. apply elem_of_list_In. exact H.
Qed.
Print Assumptions C36_generated_sites.

(** the generated file, written into a new file and used as inclusion file, instruments exactly the sites of that execution *)
Theorem C36_generate_then_include :
  forall (addr2line : Z -> list Z) (E : option (list entry)) (trace : list Z),
  answers addr2line -> file_ok E -> Forall (fun a => call_op_size <= a < 2 ^ 64) trace -> Z.of_nat (length trace) <= max_inserts ->
  exists st st' st2 ds, dd_init (file_of E) None true = Ok st /\ dd_run st trace = Ok (ds, st') /\
    dd_init None (Some (Some (generate addr2line (dd_must st') []))) false = Ok st2 /\
    forall a, ddebug st2 a = Ok (bool_decide (a ∈ trace) && negb (bool_decide (excluded E a)), st2).
Proof. exact roundtrip. Qed.
Print Assumptions C36_generate_then_include.

(** "0x401136: main at test.c:7" and "0x401150: main at test.c:9" *)
Definition ex_line1 : entry := ([4; 0; 1; 1; 3; 6], bytes ": main at test.c:7").
Definition ex_line2 : entry := ([4; 0; 1; 1; 5; 0], bytes ": main at test.c:9").
Lemma ex_lines_ok : file_ok (Some [ex_line1; ex_line2]).
Proof.
  split; [|vm_compute; discriminate].
  repeat constructor; cbn; try lia; try (vm_compute; lia); try discriminate; unfold LINE_MAX; cbn; lia.
Qed.
Definition hex16 (x : Z) : list Z := map (fun i => Z.land (Z.shiftr x (4 * i)) 15) [15; 14; 13; 12; 11; 10; 9; 8; 7; 6; 5; 4; 3; 2; 1; 0].
Lemma hex16_value x : 0 <= x < 2 ^ 64 -> digits_value (hex16 x) = x.
Proof.
  intros H. unfold hex16, digits_value. cbn [map fold_left].
  assert (N : forall y, Z.land y 15 = y mod 16) by (intros y; change 15 with (Z.ones 4); apply Z.land_ones; lia).
  rewrite !N, !Z.shiftr_div_pow2 by lia.
  assert (Q : forall i, 0 <= i -> x / 2 ^ (4 * (i + 1)) = x / 2 ^ (4 * i) / 16).
  { intros i Hi. rewrite Z.div_div by lia. f_equal. replace (4 * (i + 1)) with (4 * i + 4) by lia. rewrite Z.pow_add_r by lia. reflexivity. }
  assert (D : forall j i, j = i + 1 -> 0 <= i -> 16 * (x / 2 ^ (4 * j)) + (x / 2 ^ (4 * i)) mod 16 = x / 2 ^ (4 * i)).
  { intros j i -> Hi. rewrite Q by exact Hi. pose proof (Z.div_mod (x / 2 ^ (4 * i)) 16 ltac:(lia)). lia. }
  assert (T : 16 * 0 + (x / 2 ^ (4 * 15)) mod 16 = x / 2 ^ (4 * 15)).
  { rewrite Z.mul_0_r, Z.add_0_l. apply Z.mod_small. split; [apply Z.div_pos; lia|]. apply Z.div_lt_upper_bound; [lia|]. change (2 ^ (4 * 15) * 16) with (2 ^ 64). lia. }
  rewrite T.
  rewrite (D 15 14), (D 14 13), (D 13 12), (D 12 11), (D 11 10), (D 10 9), (D 9 8), (D 8 7), (D 7 6), (D 6 5), (D 5 4), (D 4 3), (D 3 2), (D 2 1), (D 1 0) by lia.
  cbn [Z.mul]. rewrite Z.pow_0_r, Z.div_1_r. reflexivity.
Qed.
Lemma ex_answers : answers (fun x => entry_line (hex16 x, bytes ": f at x.c:1")).
Proof.
  intros x Hx. exists (hex16 x, bytes ": f at x.c:1"). split; [|split; [reflexivity|apply hex16_value; unfold call_op_size in Hx; lia]].
  split; cbn [fst snd].
  - unfold hex16. cbn [map]. repeat constructor; try (apply Z.land_nonneg; lia);
      (change 15 with (Z.ones 4); rewrite Z.land_ones by lia; apply Z.mod_pos_bound; lia).
  - rewrite hex16_value; unfold call_op_size in *; lia.
  - repeat constructor; discriminate.
  - reflexivity.
  - unfold entry_line, hex16, LINE_MAX. cbn. lia.
Qed.
Example C36_nonvacuous :
  file_ok (Some [ex_line1; ex_line2]) /\ excluded (Some [ex_line1; ex_line2]) 0x40113b /\ ~ excluded (Some [ex_line1; ex_line2]) 0x401136 /\
  Forall legal_value [0x40113b; 0x401155; 0x40113b; 0x401170] /\
  answers (fun x => entry_line (hex16 x, bytes ": f at x.c:1")) /\
  (match dd_init None None true with Ok st =>
     match dd_run st [0x40113b; 0x401155; 0x40113b; 0x401170] with Ok (bs, st') => Some (bs, gen_addresses (dd_must st')) | _ => None end | _ => None end)
   = Some ([true; true; true; true], [0x40116b; 0x401136; 0x401150]).
Proof.
  split; [exact ex_lines_ok|]. split; [apply (bool_decide_unpack _); vm_compute; exact I|]. split; [apply (bool_decide_unpack _); vm_compute; exact I|].
  split; [repeat constructor; vm_compute; congruence|]. split; [exact ex_answers|]. vm_compute. reflexivity.
Qed.

(** not always: the file named by VFC_DDEBUG_GEN is not emptied first (O_TRUNC is missing), so generating into an older, longer file
    leaves lines that are no site of the execution: here the old file has two lines, the execution one site, and the next
    run with that inclusion file instruments the old site too *)
Theorem C36_generate_over_old_file_refuted :
  exists (addr2line : Z -> list Z) (trace : list Z) (old : list Z) (site : Z) st st' ds st2,
  answers addr2line /\ dd_init None None true = Ok st /\ dd_run st trace = Ok (ds, st') /\ ~ site ∈ trace /\
  dd_init None (Some (Some (generate addr2line (dd_must st') old))) false = Ok st2 /\ ddebug st2 site = Ok (true, st2).
Proof.
  exists (fun x => entry_line (hex16 x, bytes ": f at x.c:1")), [0x401155],
    (entry_line (hex16 0x401000, bytes ": f at x.c:1") ++ entry_line (hex16 0x401136, bytes ": f at x.c:1")), 0x40113b.
  eexists _, _, _, _. split; [exact ex_answers|]. split; [reflexivity|]. split; [vm_compute; reflexivity|].
  split; [apply (bool_decide_unpack _); vm_compute; exact I|]. split; [vm_compute; reflexivity|]. vm_compute. reflexivity.
Qed.
Print Assumptions C36_generate_over_old_file_refuted.

(** a line longer than 2047 bytes is read as two: the second part may look like an address, here in "…:0x401136" where the
    name of the file is long *)
Theorem C36_long_line_refuted :
  exists (e : entry) (site : Z) st,
  Forall (fun d => 0 <= d < 16) e.1 /\ Forall (fun c => c <> newline) e.2 /\ hd 0 e.2 = 58 /\ site <> entry_site e /\
  dd_init None (Some (Some (entry_line e))) false = Ok st /\ ddebug st site = Ok (true, st).
Proof.
  exists ([4; 0; 1; 1; 5; 0], bytes ": f at " ++ repeat 97 2032 ++ bytes "401136/x.c:1"), 0x40113b. eexists.
  split; [repeat constructor; lia|]. split; [apply (bool_decide_unpack _); vm_compute; exact I|].
  split; [reflexivity|]. split; [vm_compute; discriminate|]. split; [vm_compute; reflexivity|]. vm_compute. reflexivity.
Qed.
Print Assumptions C36_long_line_refuted.

(** a fused multiply-add at an excluded site is computed with two roundings: (1+2^-52)^2 - (1+2^-51) is 2^-104, the program gets 0 *)
Theorem C36_excluded_fma_refuted :
  exists (E : option (list entry)) site a b c st (r : Z), file_ok E /\ excluded E site /\ dd_init (file_of E) None false = Ok st /\
  dd_fma (W := Z) soft [ex_first] site PDouble a b c 0 st = Ok (r, 0, st) /\ r <> n_fma soft binary64 a b c.
Proof.
  exists (Some [ex_line1; ex_line2]), 0x40113b, 0x3FF0000000000001, 0x3FF0000000000001, 0xBFF0000000000002. eexists _, _.
  split; [exact ex_lines_ok|]. split; [apply (bool_decide_unpack _); vm_compute; exact I|]. split; [vm_compute; reflexivity|].
  split; [vm_compute; reflexivity|]. vm_compute. discriminate.
Qed.
Print Assumptions C36_excluded_fma_refuted.

(** * C37: the list of backends *)
(** text with separators *)
Fixpoint join (d : Z) (ws : list (list Z)) : list Z := match ws with [] => [] | [w] => w | w :: ws' => w ++ d :: join d ws' end.
Definition word_ok (w : list Z) : Prop := w <> [] /\ Forall (fun c => c <> 0 /\ c <> 32 /\ c <> 59) w.

Lemma words_join d ws : Forall (fun w => w <> [] /\ no d w) ws -> words d (join d ws) = ws.
Proof.
  induction ws as [|w ws IH]; intros H; [reflexivity|]. inversion H as [|? ? [Hw Hn] H']; subst. destruct ws as [|w' ws].
  - apply words_last; assumption.
  - change (join d (w :: w' :: ws)) with (w ++ d :: join d (w' :: ws)). rewrite words_more by assumption. rewrite IH by exact H'. reflexivity.
Qed.
Lemma join_no c d ws : c <> d -> Forall (no c) ws -> no c (join d ws).
Proof.
  intros Hcd. induction ws as [|w ws IH]; intros H; [intros []|]. inversion H as [|? ? Hw H']; subst. destruct ws as [|w' ws]; [exact Hw|].
  change (join d (w :: w' :: ws)) with (w ++ d :: join d (w' :: ws)). apply no_app. split; [exact Hw|]. apply no_cons. split; [congruence|apply IH; exact H'].
Qed.
Lemma word_no w c : word_ok w -> c = 0 \/ c = space \/ c = semicolon -> no c w.
Proof. intros [_ H] Hc Hin. rewrite List.Forall_forall in H. specialize (H c Hin). tauto. Qed.

(** A list of at most 16 backends, each a name with fewer than 256 words in all, separated by ';' and ' ', is loaded exactly
    as written when every backend loads and accepts its arguments. *)
Theorem C37_loaded_as_written :
  forall (w : world) (bs : list (list (list Z))) file,
  bs <> [] -> (length bs <= 16)%nat -> Forall (fun args => args <> [] /\ (length args < 256)%nat /\ Forall word_ok args) bs ->
  Forall (fun args => loads w (hd_error args) = true /\ accepts w args = true) bs ->
  read_configuration w (Some (join 59 (map (join 32) bs))) file = Ok bs.
Proof. change 59 with semicolon. change 32 with space.
  intros w bs file Hne H16 Hok Hacc. unfold read_configuration. cbn [backends_variable bind].
  assert (Hw : Forall (fun args => words space (join space args) = args /\ join space args <> [] /\ no semicolon (join space args) /\ no 0 (join space args)) bs).
  { eapply List.Forall_impl; [|exact Hok]. intros args (A1 & A2 & A3).
    assert (N : forall c, c = 0 \/ c = space \/ c = semicolon -> Forall (no c) args).
    { intros c Hc. eapply List.Forall_impl; [|exact A3]. intros x Hx. apply word_no; assumption. }
    split; [|split; [|split]].
    - apply words_join. apply List.Forall_forall. intros x Hx. rewrite List.Forall_forall in A3. split; [apply (A3 x Hx)|].
      apply word_no; [apply (A3 x Hx)|tauto].
    - destruct args as [|x args]; [congruence|]. inversion A3 as [|? ? [X _] _]; subst. destruct args; [exact X|]. cbn. destruct x; discriminate.
    - apply join_no; [discriminate|apply N; tauto].
    - apply join_no; [discriminate|apply N; tauto]. }
  rewrite load_backends_spec.
  - rewrite words_join.
    + rewrite map_map. rewrite (map_ext_in _ (fun x => x)).
      2:{ intros x Hx. rewrite List.Forall_forall in Hw. apply (Hw x Hx). }
      rewrite map_id, load_all_good.
      * cbn [bind app]. destruct bs; [congruence|reflexivity].
      * apply List.Forall_forall. intros x Hx. rewrite List.Forall_forall in Hok, Hacc. split; [apply (Hok x Hx)|apply (Hacc x Hx)].
      * exact H16.
    + apply List.Forall_map. eapply List.Forall_impl; [|exact Hw]. intros x (_ & X1 & X2 & _). exact (conj X1 X2).
  - apply join_no; [discriminate|]. apply List.Forall_map. eapply List.Forall_impl; [|exact Hw]. intros x (_ & _ & _ & X). exact X.
Qed.
Print Assumptions C37_loaded_as_written.

(** Whatever the string: if the program starts, the backends loaded are those written (words between the separators), at most
    16, each with fewer than 256 words, all loaded and accepted. *)
Theorem C37_sound :
  forall (w : world) (s : list Z) l, ~ In 0 s -> load_backends w (s ++ [0]) = Ok l ->
  l = map (words 32) (words 59 s) /\ l <> [] /\ (length l <= 16)%nat /\
  Forall (fun args => (length args < 256)%nat /\ loads w (hd_error args) = true /\ accepts w args = true) l.
Proof. change 59 with semicolon. change 32 with space.
  intros w s l H0 H. rewrite load_backends_spec in H by exact H0.
  destruct (ofold (load_step w) (map (words space) (words semicolon s)) []) as [l'| | |] eqn:E; cbn [bind] in H; try discriminate.
  destruct l' as [|x l']; [discriminate|]. injection H as <-. apply load_sound in E; [|unfold MAX_BACKENDS; cbn; lia].
  destruct E as (E1 & E2 & E3). cbn [app] in E1. split; [exact E1|]. split; [discriminate|]. split; [exact E3|]. rewrite E1. exact E2.
Qed.
Print Assumptions C37_sound.

(** the only write outside the arrays: a backend written with exactly 256 words *)
Theorem C37_memory_safe_partial :
  forall (w : world) (s : list Z), ~ In 0 s -> Forall (fun tok => length (words 32 tok) <> 256%nat) (words 59 s) ->
  load_backends w (s ++ [0]) <> UB /\ load_backends w (s ++ [0]) <> Diverge.
Proof. change 59 with semicolon. change 32 with space.
  intros w s H0 H. rewrite load_backends_spec by exact H0.
  destruct (ofold (load_step w) (map (words space) (words semicolon s)) []) as [l'| | |] eqn:E; cbn [bind].
  - destruct l'; split; discriminate.
  - exfalso. apply load_ub in E as (b & Hb & L). apply in_map_iff in Hb as (tok & <- & Ht). rewrite List.Forall_forall in H. exact (H tok Ht L).
  - split; discriminate.
  - exfalso. exact (load_no_diverge _ _ _ E).
Qed.
Print Assumptions C37_memory_safe_partial.

(** the full statement is false: a first backend of exactly 256 words makes vfc_init write backend_argv[256] *)
Theorem C37_overflow_refuted :
  forall (w : world) (s tok : list Z) toks, ~ In 0 s -> words 59 s = tok :: toks -> length (words 32 tok) = 256%nat ->
  load_backends w (s ++ [0]) = UB.
Proof. change 59 with semicolon. change 32 with space.
  intros w s tok toks H0 H L. rewrite load_backends_spec by exact H0. rewrite H. cbn [map ofold]. unfold load_step at 1. rewrite L. reflexivity.
Qed.
Print Assumptions C37_overflow_refuted.

(** more than 16 backends or more than 256 words: refused *)
Theorem C37_too_many_refused :
  forall (w : world) (s : list Z), ~ In 0 s -> Forall (fun tok => length (words 32 tok) <> 256%nat) (words 59 s) ->
  (16 < length (words 59 s))%nat \/ Exists (fun tok => (256 < length (words 32 tok))%nat) (words 59 s) ->
  load_backends w (s ++ [0]) = Exit.
Proof.
  intros w s H0 H Hm. destruct (C37_memory_safe_partial w s H0 H) as (N1 & N2). destruct (load_backends w (s ++ [0])) as [l| | |] eqn:E; try congruence.
  exfalso. destruct (C37_sound w s l H0 E) as (-> & _ & L & F). rewrite map_length in L. destruct Hm as [Hm|Hm]; [lia|].
  apply List.Exists_exists in Hm as (tok & Ht & Hl). rewrite List.Forall_forall in F. destruct (F (words 32 tok)) as (X & _); [|lia].
  apply in_map. exact Ht.
Qed.
Print Assumptions C37_too_many_refused.

(** VFC_BACKENDS, when set, decides alone; otherwise the first line of the file does *)
Theorem C37_precedence :
  forall w s file, read_configuration w (Some s) file = read_configuration w (Some s) None /\
  forall line rest, line <> [] -> ~ In 10 line ->
    read_configuration w None (Some (Some (line ++ 10 :: rest))) = read_configuration w (Some line) None /\
    read_configuration w None (Some (Some line)) = read_configuration w (Some line) None.
Proof. change 10 with newline.
  intros w s file. split; [reflexivity|]. intros line rest Hne Hn. unfold read_configuration, backends_variable.
  assert (F : forall r, first_line (line ++ newline :: r) = line /\ first_line line = line).
  { intros r. clear Hne. induction line as [|c line IH]; [split; reflexivity|]. cbn [app first_line].
    destruct (Z.eqb_spec c 10) as [->|_]; [exfalso; apply Hn; left; reflexivity|].
    assert (Hn' : ~ In newline line) by (intros X; apply Hn; right; exact X). destruct (IH Hn') as [A B]. rewrite A, B. auto. }
  destruct line as [|c line]; [congruence|]. destruct (F rest) as [A B]. split.
  - change ((c :: line) ++ newline :: rest) with (c :: line ++ newline :: rest) in A |- *. rewrite A. reflexivity.
  - rewrite B. reflexivity.
Qed.
Print Assumptions C37_precedence.

Example C37_nonvacuous :
  let w := mk_world (fun n => match n with Some _ => true | None => false end) (fun _ => true) in
  let bs := [[bytes "libinterflop_mca.so"; bytes "--precision-binary32"; bytes "12"]; [bytes "libinterflop_ieee.so"]] in
  Forall (fun args => args <> [] /\ (length args < 256)%nat /\ Forall word_ok args) bs /\
  Forall (fun args => loads w (hd_error args) = true /\ accepts w args = true) bs /\
  load_backends w (bytes " libinterflop_mca.so  --precision-binary32 12;; libinterflop_ieee.so ;" ++ [0]) = Ok bs /\
  (let s := join 32 (repeat [97] 256) in ~ In 0 s /\ words 59 s = [s] /\ length (words 32 s) = 256%nat) /\
  (let s := join 32 (repeat [97] 257) in Forall (fun tok => length (words 32 tok) <> 256%nat) (words 59 s)).
Proof.
  cbn zeta. split; [repeat constructor; cbn; try discriminate; lia|]. split; [repeat constructor|]. split; [vm_compute; reflexivity|].
  split; [split; [|split; vm_compute; reflexivity]|].
  - apply (join_no 0 space); [discriminate|]. apply List.Forall_forall. intros x Hx. apply repeat_spec in Hx. subst x. intros [H|[]]. discriminate.
  - replace (words semicolon _) with [join space (repeat [97] 257)] by (vm_compute; reflexivity). constructor; [|constructor]. vm_compute. discriminate.
Qed.

(** a part made of blanks only names no backend: dlopen gets NULL, and the program stops if that gives no backend *)
Theorem C37_blank_part_refused :
  forall (w : world) (s tok : list Z), ~ In 0 s -> In tok (words 59 s) -> Forall (fun c => c = 32) tok -> loads w None = false ->
  forall l, load_backends w (s ++ [0]) <> Ok l.
Proof.
  intros w s tok H0 Hin Hb Hl l E. destruct (C37_sound w s l H0 E) as (-> & _ & _ & F). rewrite List.Forall_forall in F.
  destruct (F (words 32 tok)) as (_ & X & _); [apply in_map; exact Hin|]. rewrite words_blank in X; [cbn in X; congruence|].
  eapply List.Forall_impl; [|exact Hb]. intros c ->. reflexivity.
Qed.
Print Assumptions C37_blank_part_refused.

Example C37_blank_nonvacuous : In [32] (words 59 (bytes "libinterflop_ieee.so; ;")) /\ ~ In 0 (bytes "libinterflop_ieee.so; ;").
Proof. split; [vm_compute; tauto|]. vm_compute. intuition discriminate. Qed.

(** * C38: variadic arguments *)
(** interflop_call: each backend having the function reads the list from its beginning, whatever the others read *)
Theorem C38_user_call_independent :
  forall A (bs : list (option (reader A))) (args : list A),
  (forall l, user_call bs args = Ok l ->
    Forall2 (fun r seen => exists rest, consume r args = Ok (seen, rest) /\ args = seen ++ rest)
      (flat_map (fun b => match b with Some r => [r] | None => [] end) bs) l) /\
  ((forall r, In (Some r) bs -> exists x, consume r args = Ok x) -> exists l, user_call bs args = Ok l).
Proof. intros A bs args. split; [intros l; apply user_call_spec|apply user_call_total]. Qed.
Print Assumptions C38_user_call_independent.

(** function instrumentation hands the same va_list to all backends: right with one backend having the function *)
Theorem C38_function_instrumentation_partial :
  forall A (bs : list (option (reader A))) (args : list A),
  (length (flat_map (fun b => match b with Some r => [r] | None => [] end) bs) <= 1)%nat -> shared_call bs args = user_call bs args.
Proof. intros. apply shared_call_single. assumption. Qed.
Print Assumptions C38_function_instrumentation_partial.

(** with two backends the second reads what the first left: other arguments, or beyond the end *)
Theorem C38_function_instrumentation_refuted :
  exists (r : reader Z) (args : list Z),
  user_call [Some r; Some r] args = Ok [[1]; [1]] /\ shared_call [Some r; Some r] args = Ok [[1]; [2]] /\
  shared_call [Some r; Some r; Some r] args = UB /\ user_call [Some r; Some r; Some r] args = Ok [[1]; [1]; [1]].
Proof. exists (Read (fun _ => Stop)), [1; 2]. repeat split. Qed.
Print Assumptions C38_function_instrumentation_refuted.

Example C38_nonvacuous :
  let r := Read (fun n => if n =? 2 then Read (fun _ => Read (fun _ => Stop)) else Stop) in
  user_call [Some r; None; Some (Read (fun _ => Stop))] [2; 30; 40] = Ok [[2; 30; 40]; [2]] /\
  consume r [2; 30; 40] = Ok ([2; 30; 40], []) /\
  (length (flat_map (fun b => match b with Some x => [x] | None => [] end) [None; Some r; None]) <= 1)%nat.
Proof. cbn. repeat split. lia. Qed.

(** * C39: the call stack *)
(** For every history in which no more calls end than began, with functions whose identifiers have distinct hashes: the
    stacks handed to the backends are the active calls, innermost first, at each event, when the depth stays within 4095. *)
Theorem C39_call_stack_partial :
  forall al (h : list fevent) act', allocator al (length h) -> actives [] h = Some act' -> Z.of_nat (length h) <= max_inserts ->
  (forall f g, f ∈ entered h -> g ∈ entered h -> key_of f = key_of g -> f = g) ->
  (depth 0 h <= 4095)%nat -> exists st, fi_run al h = Ok (st, expected [] h []).
Proof. intros al h act'. apply call_stack_exact. Qed.
Print Assumptions C39_call_stack_partial.

(** beyond 4095 active calls the process exits; with any hashes the stack has the right length and in each place a function
    entered before with the same hash *)
Theorem C39_any_history :
  forall al (h : list fevent) act', allocator al (length h) -> actives [] h = Some act' -> Z.of_nat (length h) <= max_inserts ->
  ((depth 0 h <= 4095)%nat -> exists st log, fi_run al h = Ok (st, log) /\ Forall2 (similar (entered h)) log (expected [] h [])) /\
  ((4095 < depth 0 h)%nat -> fi_run al h = Exit).
Proof.
  intros al h act' Ha Hact HN. pose proof (call_stack_any al h act' Ha Hact HN) as H. split; intros Hd.
  - replace (depth 0 h <=? 4095)%nat with true in H by (symmetry; apply Nat.leb_le; exact Hd). exact H.
  - replace (depth 0 h <=? 4095)%nat with false in H by (symmetry; apply Nat.leb_gt; exact Hd). exact H.
Qed.
Print Assumptions C39_any_history.

Definition ex_al (i : nat) : Z := 1000 + 32 * Z.of_nat i.
Definition ex_f (s : string) : finfo := mk_finfo (bytes s) 0 0 1 1.
(** functions are told apart by a hash of their identifier: calling the second of two functions with equal hashes shows the first *)
Theorem C39_call_stack_refuted :
  exists (al : nat -> Z) (f g : finfo) st, f_id f <> f_id g /\ allocator al 3 /\
  actives [] [FEnter f; FExit f; FEnter g] = Some [g] /\
  fi_run al [FEnter f; FExit f; FEnter g] = Ok (st, [[f]; [f]; [f]]).
Proof.
  exists ex_al, (ex_f "Aa.c/g/sin/3/0"), (ex_f "BB.c/g/sin/3/0"). eexists.
  split; [vm_compute; discriminate|]. split; [split; unfold ex_al, legal_value; intros; lia|]. split; [reflexivity|]. vm_compute. reflexivity.
Qed.
Print Assumptions C39_call_stack_refuted.

Example C39_nonvacuous :
  let f := ex_f "a.c/main/f/3/0" in let g := ex_f "a.c/f/g/7/0" in
  let h := [FEnter f; FEnter g; FExit g; FEnter g; FEnter f; FExit f; FExit g; FExit f] in
  allocator ex_al (length h) /\ actives [] h = Some [] /\ depth 0 h = 3%nat /\ key_of f <> key_of g /\
  expected [] h [] = [[f]; [g; f]; [f; g; f]; [f; g; f]; [g; f]; [g; f]; [g; f]; [f]] /\
  (forall a b, a ∈ entered h -> b ∈ entered h -> key_of a = key_of b -> a = b).
Proof.
  cbn zeta. split; [split; unfold ex_al, legal_value; cbn [length]; intros; lia|].
  split; [reflexivity|]. split; [reflexivity|]. split; [vm_compute; discriminate|]. split; [reflexivity|].
  intros a b Ha Hb. cbn in Ha, Hb. rewrite !elem_of_cons, elem_of_nil in Ha, Hb.
  assert (N : key_of (ex_f "a.c/main/f/3/0") <> key_of (ex_f "a.c/f/g/7/0")) by (vm_compute; discriminate).
  intros E. destruct Ha as [-> |[-> |[-> |[-> |[]]]]], Hb as [-> |[-> |[-> |[-> |[]]]]]; congruence.
Qed.
