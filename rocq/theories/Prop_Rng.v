(** C16-C18: random number generation. *)
From Coq Require Import ZArith Reals List Bool Lia Lra.
From Flocq Require Import Core.
From Verif Require Import Common Bits BitsFacts FloatReal FloatValue RngModel RngProofs.
Import ListNotations.
Open Scope Z_scope.

(** C16: with a user-fixed seed, in every schedule of draws by any threads: two different seeds leave every drawing thread
    in different generator states. *)
Theorem C16_seeds_distinct :
  forall s s' clock clock' sch i, is_u64 s -> is_u64 s' -> s <> s' -> Z.of_nat (length sch) < 2 ^ 31 -> In i sch ->
  words (tls (snd (run_draws true s clock rngs0 sch)) i) <> words (tls (snd (run_draws true s' clock' rngs0 sch)) i).
Proof.
  intros s s' clock clock' sch i Hs Hs' Hne Hl Hi. apply firsts_in in Hi. apply In_nth_error in Hi. destruct Hi as [p Hp].
  rewrite !(end_from_start _ _ sch i p) by assumption. intros E.
  apply xstep_iter_inj in E; [|apply seeded_state; assumption|apply seeded_state; assumption].
  apply seeded_inj in E; [|assumption|assumption]. apply Hne.
  apply (f_equal (fun z => Z.lxor z (wrap64 (1 + Z.of_nat p)))) in E. rewrite !Z.lxor_assoc, Z.lxor_nilpotent, !Z.lxor_0_r in E. exact E.
Qed.
Print Assumptions C16_seeds_distinct.
Example C16_seeds_nonvacuous :
  let w s := words (tls (snd (run_draws true s (fun _ => 0) rngs0 [7; 3; 3; 7]%nat)) 3%nat) in
  w 42 = (13189261784823669103, 15402699489707968211) /\ w 43 <> w 42.
Proof. vm_compute. split; [reflexivity|discriminate]. Qed.

(** two threads of one run that made as many draws are in different states, even in different schedules *)
Theorem C16_threads_distinct :
  forall s clock sch sch' i j p q, is_u64 s -> Z.of_nat (length sch) < 2 ^ 31 -> Z.of_nat (length sch') < 2 ^ 31 ->
  nth_error (firsts sch) p = Some i -> nth_error (firsts sch') q = Some j -> p <> q ->
  count_occ Nat.eq_dec sch i = count_occ Nat.eq_dec sch' j ->
  words (tls (snd (run_draws true s clock rngs0 sch)) i) <> words (tls (snd (run_draws true s clock rngs0 sch')) j).
Proof.
  intros s clock sch sch' i j p q Hs Hl Hl' Hp Hq Hpq Hc.
  rewrite (end_from_start s clock sch i p), (end_from_start s clock sch' j q) by assumption. rewrite Hc. intros E.
  apply xstep_iter_inj in E; [|apply seeded_state; assumption|apply seeded_state; assumption].
  apply seeded_inj in E; [|assumption|assumption]. apply Hpq.
  apply (f_equal (Z.lxor s)) in E. rewrite <- !Z.lxor_assoc, Z.lxor_nilpotent, !Z.lxor_0_l in E.
  assert (Bp : (p < length (firsts sch))%nat) by (apply nth_error_Some; congruence).
  assert (Bq : (q < length (firsts sch'))%nat) by (apply nth_error_Some; congruence).
  pose proof (firsts_length sch). pose proof (firsts_length sch').
  rewrite !wrap64_id in E by (unfold is_u64; lia). lia.
Qed.
Print Assumptions C16_threads_distinct.
Example C16_threads_nonvacuous : firsts [7; 3; 3; 7; 9]%nat = [7; 3; 9]%nat.
Proof. reflexivity. Qed.

(** the generator state is all zero exactly for one user seed per thread number, at every time *)
Theorem C16_stuck_iff :
  forall s clock sch i p, is_u64 s -> Z.of_nat (length sch) < 2 ^ 31 -> nth_error (firsts sch) p = Some i ->
  (words (tls (snd (run_draws true s clock rngs0 sch)) i) = (0, 0) <-> s = Z.lxor 0x61C8864680B583EB (1 + Z.of_nat p)).
Proof.
  intros s clock sch i p Hs Hl Hp. rewrite (end_from_start s clock sch i p) by assumption.
  assert (Bp : (p < length (firsts sch))%nat) by (apply nth_error_Some; congruence). pose proof (firsts_length sch) as Hf.
  assert (Hw : wrap64 (1 + Z.of_nat p) = 1 + Z.of_nat p) by (apply wrap64_id; unfold is_u64; lia).
  set (t := 1 + Z.of_nat p) in *. change 0x61C8864680B583EB with zero_seed.
  assert (Hx : is_u64 (Z.lxor s t)) by (rewrite <- Hw; apply lxor_u64; [assumption|apply wrap64_range]).
  split.
  - intros E. assert (Z0 : seeded s t = (0, 0)).
    { apply (xstep_iter_inj (count_occ Nat.eq_dec sch i)); [apply seeded_state; assumption|split; unfold is_u64; cbn; lia|].
      rewrite xstep_zero. exact E. }
    unfold seeded in Z0. rewrite Hw in Z0. injection Z0 as Z0 _. apply next_seed_zero in Z0; [|exact Hx]. rewrite <- Z0.
    rewrite Z.lxor_assoc, Z.lxor_nilpotent, Z.lxor_0_r. reflexivity.
  - intros E. assert (Z0 : seeded s t = (0, 0)).
    { unfold seeded. rewrite Hw. assert (Hz : Z.lxor s t = zero_seed) by (rewrite E, Z.lxor_assoc, Z.lxor_nilpotent, Z.lxor_0_r; reflexivity).
      rewrite Hz. reflexivity. }
    rewrite Z0. apply xstep_zero.
Qed.
Print Assumptions C16_stuck_iff.
Example C16_stuck_nonvacuous : nth_error (firsts [4; 4; 5]%nat) 1 = Some 5%nat.
Proof. reflexivity. Qed.

(** "the state is never the all-zero fixed point" is false: with that seed the first thread draws 0 for ever. *)
Theorem C16_stuck_refuted :
  exists s, 0 <= s < 2 ^ 63 /\ forall clock n, fst (run_draws true s clock rngs0 (repeat 0%nat n)) = repeat (0%nat, 0) n.
Proof.
  exists (Z.lxor 0x61C8864680B583EB 1). split; [vm_compute; split; congruence|]. intros clock n.
  set (sd := Z.lxor 0x61C8864680B583EB 1). destruct n as [|n]; [reflexivity|]. cbn [repeat]. rewrite run_cons. cbn [fst].
  f_equal.
  match goal with |- fst (run_draws _ _ _ ?m _) = _ => set (mm := m) end.
  assert (W : valid (tls mm 0%nat) = true /\ words (tls mm 0%nat) = (0, 0)) by (vm_compute; auto).
  clearbody mm. clear -W. revert mm W. induction n as [|n IH]; intros mm [W1 W2]; [reflexivity|].
  cbn [repeat]. rewrite run_cons, thread_draw_valid by assumption. cbn [fst snd]. rewrite W2. f_equal. apply IH.
  cbn [tls]. rewrite tls_set_eq. cbn [valid words]. split; reflexivity.
Qed.
Print Assumptions C16_stuck_refuted.

(** distinct seeds do not give distinct streams across threads: thread number 1 of seed s draws what thread number 2 of
    seed s ^ 3 draws. *)
Theorem C16_cross_thread_refuted :
  forall s clock n, is_u64 s -> Z.of_nat n < 2 ^ 31 - 1 -> is_u64 (Z.lxor s 3) /\ Z.lxor s 3 <> s /\
  draws_of 0 (fst (run_draws true s clock rngs0 (repeat 0%nat n))) =
  draws_of 1 (fst (run_draws true (Z.lxor s 3) clock rngs0 (0%nat :: repeat 1%nat n))).
Proof.
  intros s clock n Hs Hn. split; [apply lxor_u64; [assumption|unfold is_u64; lia]|]. split.
  { intros E. apply (f_equal (Z.lxor s)) in E. rewrite <- Z.lxor_assoc, Z.lxor_nilpotent, Z.lxor_0_l in E. discriminate. }
  assert (F : forall i k, firsts (repeat i (S k)) = [i]).
  { intros i k. induction k as [|k IH]; [reflexivity|]. change (firsts (repeat i (S (S k)))) with (i :: remove Nat.eq_dec i (firsts (repeat i (S k)))).
    rewrite IH. cbn [remove]. destruct (Nat.eq_dec i i); [reflexivity|congruence]. }
  destruct n as [|n].
  { cbn [repeat]. rewrite run_cons. cbn [run_draws fst]. unfold draws_of. cbn [filter fst Nat.eqb map]. reflexivity. }
  rewrite (run_from_start s clock _ 0%nat 0%nat); [|rewrite repeat_length; lia|rewrite F; reflexivity].
  rewrite (run_from_start (Z.lxor s 3) clock _ 1%nat 1%nat).
  - rewrite count_occ_repeat_eq by reflexivity. change (count_occ Nat.eq_dec (0%nat :: repeat 1%nat (S n)) 1%nat) with (count_occ Nat.eq_dec (repeat 1%nat (S n)) 1%nat).
    rewrite count_occ_repeat_eq by reflexivity. f_equal. unfold seeded. change (wrap64 (1 + Z.of_nat 0)) with 1. change (wrap64 (1 + Z.of_nat 1)) with 2.
    rewrite Z.lxor_assoc. reflexivity.
  - cbn [length]. rewrite repeat_length. lia.
  - change (firsts (0%nat :: repeat 1%nat (S n))) with (0%nat :: remove Nat.eq_dec 0%nat (firsts (repeat 1%nat (S n)))). rewrite F. reflexivity.
Qed.
Print Assumptions C16_cross_thread_refuted.
Example C16_cross_nonvacuous : fst (run_draws true 5 (fun _ => 0) rngs0 [0]%nat) = [(0%nat, 18176365647743501465)].
Proof. vm_compute. reflexivity. Qed.

(** without a fixed seed, threads reading different clocks and having different identifiers may still share their stream *)
Theorem C16_clock_refuted :
  exists sec usec tid usec' tid', usec <> usec' /\ tid <> tid' /\ forall sch m, 
  let clock i := if Nat.eqb i 0 then clock_seed sec usec tid else clock_seed sec usec' tid' in
  run_draws false 0 clock m sch = run_draws false 0 (fun _ => clock_seed sec usec tid) m sch.
Proof.
  exists 1700000000, 0, 4096, 1, 4097. split; [lia|]. split; [lia|]. intros sch.
  induction sch as [|i sch IH]; intros m; [reflexivity|]. cbn zeta in *. rewrite !run_cons.
  replace (if Nat.eqb i 0 then clock_seed 1700000000 0 4096 else clock_seed 1700000000 1 4097) with (clock_seed 1700000000 0 4096).
  - rewrite IH. reflexivity.
  - destruct (Nat.eqb i 0); vm_compute; reflexivity.
Qed.
Print Assumptions C16_clock_refuted.

(** C17: every draw is k / 2^52 for an integer 0 <= k < 2^52, so it lies in [0, 1). *)
Theorem C17_draw_in_unit_interval :
  forall r g clk y r' g', get_rand_double01 r g clk = (y, r', g') ->
  is_finite binary64 y = true /\ (exists k, 0 <= k < 2 ^ 52 /\ fval binary64 y = (IZR k * bpow radix2 (-52))%R) /\
  (0 <= fval binary64 y < 1)%R.
Proof.
  intros r g clk y r' g' H. unfold get_rand_double01, draw64 in H. destruct (init_random_state r g clk) as [r1 g1].
  injection H as <- _ _. pose proof (xresult_u64 (words r1)) as Hu. destruct (to_double_value _ Hu) as [F V].
  set (k := xresult (words r1) / 2 ^ 12) in *.
  assert (Hk : 0 <= k < 2 ^ 52) by (unfold is_u64 in Hu; unfold k; split; [apply Z.div_pos; lia|apply Z.div_lt_upper_bound; lia]).
  split; [exact F|]. split; [exists k; split; assumption|]. rewrite V. split.
  - apply Rmult_le_pos; [apply IZR_le; lia|apply bpow_ge_0].
  - apply Rlt_le_trans with (IZR (2 ^ 52) * bpow radix2 (-52))%R.
    + apply Rmult_lt_compat_r; [apply bpow_gt_0|apply IZR_lt; lia].
    + rewrite IZR_pow2 by lia. rewrite <- bpow_plus. right. reflexivity.
Qed.
Print Assumptions C17_draw_in_unit_interval.
Example C17_nonvacuous : fst (fst (get_rand_double01 (mk_rng true 42 false (0, 0)) 0 0)) = 4601319163324685364.
Proof. vm_compute. reflexivity. Qed.

(** every multiple of 2^-52 in [0,1) is drawn from some generator state (each first word leaves all values possible) *)
Theorem C17_all_values_attained :
  forall k s0, 0 <= k < 2 ^ 52 -> is_u64 s0 ->
  exists s1, is_u64 s1 /\ forall c sd g clk, 
  fval binary64 (fst (fst (get_rand_double01 (mk_rng c sd true (s0, s1)) g clk))) = (IZR k * bpow radix2 (-52))%R.
Proof.
  intros k s0 Hk H0. set (u := k * 2 ^ 12). assert (Hu : is_u64 u) by (unfold is_u64, u; lia).
  set (v := wrap64 (u - s0)). assert (Hv : is_u64 v) by apply wrap64_range.
  (* rotate right by 17 *)
  set (w := rotl v 47). assert (Hw : is_u64 w) by (apply rotl_u64; [assumption|lia]).
  assert (Hr : rotl w 17 = v).
  { unfold is_u64 in *. rewrite rotl_arith by (assumption || lia). unfold w. rewrite rotl_arith by (assumption || lia).
    change (64 - 47) with 17. change (64 - 17) with 47.
    pose proof (Z.div_mod v (2 ^ 17) ltac:(lia)) as D. pose proof (Z.mod_pos_bound v (2 ^ 17) ltac:(lia)) as B.
    assert (B' : 0 <= v / 2 ^ 17 < 2 ^ 47) by (split; [apply Z.div_pos; lia|apply Z.div_lt_upper_bound; lia]).
    set (c := v mod 2 ^ 17) in *. set (d := v / 2 ^ 17) in *. replace (c * 2 ^ 47 + d) with (d + c * 2 ^ 47) by lia.
    rewrite Z.mod_add, Z.mod_small by lia. rewrite Z.div_add, Z.div_small by lia. lia. }
  exists (wrap64 (w - s0)). split; [apply wrap64_range|]. intros c sd g clk.
  assert (Hx : xresult (s0, wrap64 (w - s0)) = u).
  { unfold xresult. cbn [fst snd]. replace (wrap64 (s0 + wrap64 (w - s0))) with w.
    - rewrite Hr. unfold v, wrap64. rewrite Z.add_mod_idemp_l by lia. replace (u - s0 + s0) with u by lia. apply Z.mod_small. exact Hu.
    - unfold wrap64. rewrite Z.add_mod_idemp_r by lia. replace (s0 + (w - s0)) with w by lia. symmetry. apply Z.mod_small. exact Hw. }
  unfold get_rand_double01, draw64, init_random_state. cbn [valid words fst]. rewrite Hx.
  destruct (to_double_value u Hu) as [_ ->]. unfold u. rewrite Z.div_mul by lia. reflexivity.
Qed.
Print Assumptions C17_all_values_attained.
Example C17_attained_nonvacuous : 0 <= 2 ^ 51 < 2 ^ 52 /\ is_u64 12345.
Proof. unfold is_u64. lia. Qed.

(** the documented range "(0,1) open interval" (vfc_rng.h) is false: 0 is drawn, e.g. by the first thread with this seed *)
Theorem C17_open_interval_refuted :
  exists s, 0 <= s < 2 ^ 63 /\ fst (fst (get_rand_double01 (init_rng_state_struct rng0 true s false) 0 0)) = zero binary64 0.
Proof. exists (Z.lxor 0x61C8864680B583EB 1). split; [vm_compute; split; congruence|]. vm_compute. reflexivity. Qed.
Print Assumptions C17_open_interval_refuted.

(** C18: with a fixed seed the numbers drawn by a thread depend on the seed, on its rank in the order of first draws and on
    how many it draws - not on the rest of the schedule, nor on the clock. *)
Theorem C18_reproducible_threads :
  forall s clock clock' sch sch' i j p, Z.of_nat (length sch) < 2 ^ 31 -> Z.of_nat (length sch') < 2 ^ 31 ->
  nth_error (firsts sch) p = Some i -> nth_error (firsts sch') p = Some j ->
  (count_occ Nat.eq_dec sch i <= count_occ Nat.eq_dec sch' j)%nat ->
  draws_of i (fst (run_draws true s clock rngs0 sch)) =
  firstn (count_occ Nat.eq_dec sch i) (draws_of j (fst (run_draws true s clock' rngs0 sch'))).
Proof.
  intros s clock clock' sch sch' i j p Hl Hl' Hp Hp' Hc.
  rewrite (run_from_start s clock sch i p), (run_from_start s clock' sch' j p) by assumption.
  symmetry. apply stream_firstn. exact Hc.
Qed.
Print Assumptions C18_reproducible_threads.
Example C18_nonvacuous :
  draws_of 3 (fst (run_draws true 42 (fun _ => 0) rngs0 [7; 3; 7; 3]%nat)) =
  draws_of 1 (fst (run_draws true 42 (fun _ => 9) rngs0 [2; 1; 2; 2; 8; 1]%nat)) /\
  length (draws_of 3 (fst (run_draws true 42 (fun _ => 0) rngs0 [7; 3; 7; 3]%nat))) = 2%nat.
Proof. vm_compute. auto. Qed.

(** the rank is needed: which thread draws first decides who gets which stream *)
Theorem C18_order_matters_refuted :
  exists s sch sch', forall clock, 
  draws_of 0 (fst (run_draws true s clock rngs0 sch)) <> draws_of 0 (fst (run_draws true s clock rngs0 sch')) /\
  count_occ Nat.eq_dec sch 0%nat = count_occ Nat.eq_dec sch' 0%nat /\ (forall i, In i sch <-> In i sch').
Proof.
  exists 42, [0; 1]%nat, [1; 0]%nat. intros clock. split; [vm_compute; discriminate|]. split; [reflexivity|]. intros i. cbn. tauto.
Qed.
Print Assumptions C18_order_matters_refuted.

(** C54: a seed pushed by mcaquad_push_seed and friends (used by Verrou) after the first draw is not installed: the draws go
    on from the old state. *)
Theorem C54_push_seed_refuted :
  forall r c s g clk, valid r = true -> draw64 (fst (push_seed (r, c) s)) g clk = draw64 r g clk.
Proof. intros r c s g clk H. unfold push_seed, init_rng_state_struct. cbn [fst]. rewrite H. reflexivity. Qed.
Print Assumptions C54_push_seed_refuted.
Example C54_nonvacuous : valid (snd (fst (draw64 (mk_rng true 42 false (0, 0)) 0 0))) = true.
Proof. reflexivity. Qed.
