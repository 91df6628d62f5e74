(** Properties C40-C45 and C60-C62: the delta-debugging tool.

    Deltas are of any type [D] with decidable equality; [name] (md5Name) and the outcome [sample k i] of sample i of
    configuration k are arbitrary. A configuration fails, with [nb] samples asked for, when one of its first [nb] samples fails
    or a failure is recorded in the cache [d]: [fails name sample nb c d]. [disk_ok] says that the cache holds no result that
    the samples would not give; the empty cache [disk0] is one. *)
From Coq Require Import List Arith Bool Lia Permutation.
From Verif Require Import DDModel DDProofs DDStoch DDSample DDCache.
Import ListNotations.
Open Scope py_scope.

Section properties.
  Context {D K : Type} (Ddec : forall x y : D, {x = y} + {x <> y}) (Kdec : forall x y : K, {x = y} + {x <> y}).
  Context (name : list D -> K) (sample : K -> nat -> bool) (delta0 : list D) (listdir : list entry -> list entry).
  Context (Hls : forall l, Permutation (listdir l) l).
  Context (unsafe : bool) (nb : nat).
  Notation test := (sample_test Ddec Kdec name sample delta0 listdir false).
  Notation fails := (fails name sample).
  Notation disk_ok := (disk_ok sample).
  Notation without c x := (filter (fun y => if Ddec y x then false else true) c).
  (** a duplicate-free list of deltas of the reference run *)
  Notation config c := (NoDup c /\ incl c delta0).

  Lemma minus_one c x : listminus Ddec c [x] = without c x.
  Proof. unfold listminus. apply filter_ext. intros y. unfold inb. destruct (in_dec Ddec y [x]) as [[->|[]]|H]; [destruct (Ddec y y); [reflexivity|congruence]|]. destruct (Ddec y x) as [->|]; [contradiction H; left; reflexivity|reflexivity]. Qed.

  (** C40: minimisation ends (from some fuel on it returns the same result, and that fuel is polynomial in the number of
      deltas), the result fails, is included in the input, and is no longer failing when any one delta is removed. *)
  Theorem C40_ddmin_one_minimal c d : disk_ok d -> config c -> fails nb c d -> ~ fails nb [] d ->
    exists c' d', (forall fuel, S (length c * (length c + 2)) <= fuel -> ddmin Ddec test unsafe fuel nb c d = Ret (c', d')) /\
      disk_ok d' /\ NoDup c' /\ incl c' c /\ fails nb c' d /\ forall x, In x c' -> ~ fails nb (without c' x) d.
  Proof.
    intros Hd Hc HF H0. destruct (ddmin_spec Ddec test delta0 disk_ok fails (seq_test_like Ddec Kdec name sample delta0 listdir Hls) unsafe nb c d Hd Hc HF H0)
      as (c' & d' & E & A & _ & [N _] & I & _ & M1 & M2).
    exists c', d'. split; [exact E|]. split; [exact A|]. split; [exact N|]. split; [exact I|]. split; [exact M1|]. intros x Hx. rewrite <- minus_one. auto.
  Qed.

  (** C40: the preconditions are checked: a failing empty configuration or a passing input stop the tool. *)
  Theorem C40_preconditions_checked c d fuel : disk_ok d -> config c -> (fails nb [] d \/ ~ fails nb c d) -> ddmin Ddec test unsafe (S fuel) nb c d = Quit.
  Proof.
    intros Hd Hc H. pose proof (seq_test_like Ddec Kdec name sample delta0 listdir Hls) as TL.
    destruct (tl_test _ _ _ _ TL nb [] d Hd (good_nil delta0)) as (v & d1 & E & Hd1 & X & Hv & _). unfold ddmin. rewrite E. cbn [pbind].
    destruct (is_fail v); [reflexivity|]. destruct H as [H|H]; [apply Hv in H; discriminate|].
    destruct (tl_test _ _ _ _ TL nb c d1 Hd1 Hc) as (v2 & d2 & E2 & _ & _ & Hv2 & _). cbn [ddmin_loop]. rewrite E2. cbn [pbind].
    destruct (is_fail v2); [|reflexivity]. contradiction H. apply X; [reflexivity|]. apply Hv2. reflexivity.
  Qed.

  (** C41: maximisation ends; the result passes, and adding back any one of the other deltas makes it fail. *)
  Theorem C41_ddmax_one_maximal c d : disk_ok d -> config c -> fails nb c d -> ~ fails nb [] d ->
    exists kept d', (forall fuel, S (length c * (length c + 2)) <= fuel -> DDMax Ddec test nb fuel c d = Ret (kept, d')) /\
      disk_ok d' /\ NoDup kept /\ incl kept c /\ ~ fails nb kept d /\
      forall x, In x c -> ~ In x kept -> exists more, NoDup more /\ incl more c /\ (forall y, In y more <-> y = x \/ In y kept) /\ fails nb more d.
  Proof.
    intros Hd Hc HF H0. destruct (DDMax_spec Ddec test delta0 disk_ok fails (seq_test_like Ddec Kdec name sample delta0 listdir Hls) nb c d Hd Hc HF H0)
      as (kept & d' & E & A & _ & N & I & P & M).
    exists kept, d'. split; [exact E|]. split; [exact A|]. split; [exact N|]. split; [exact I|]. split; [exact P|]. intros x Hx Nx.
    destruct (M x Hx Nx) as (more & B1 & B2 & B3 & B4). exists more. split; [exact B2|]. split; [exact B3|]. split; [|exact B1].
    intros y. rewrite B4. cbn. split; intros [->|H]; auto.
  Qed.

  (** what is returned by the three rddmin variants: 1-minimal failing sets, pairwise disjoint (no delta occurs twice in their
      concatenation), inside the input, and once all are removed the rest passes *)
  Definition rddmin_result (n : nat) (deltas : list D) (tab : list (list D)) (d : disk) : Prop :=
    (forall conf, In conf tab -> fails n conf d /\ forall x, In x conf -> ~ fails n (without conf x) d) /\
    NoDup (concat tab) /\ incl (concat tab) deltas /\
    ~ fails n (filter (fun x => if in_dec Ddec x (concat tab) then false else true) deltas) d.
  Lemma one_minimal_without n conf d : one_minimal Ddec fails n conf d -> fails n conf d /\ forall x, In x conf -> ~ fails n (without conf x) d.
  Proof. intros [A B]. split; [exact A|]. intros x Hx. rewrite <- minus_one. auto. Qed.
  Lemma minus_eq c x : listminus Ddec c x = filter (fun y => if in_dec Ddec y x then false else true) c.
  Proof. unfold listminus. apply filter_ext. intros y. unfold inb. destruct (in_dec Ddec y x); reflexivity. Qed.

  Theorem C42_rddmin c d : disk_ok d -> config c -> fails nb c d -> ~ fails nb [] d ->
    exists tab d', (forall fuel, S (length c * (length c + 2)) + length c <= fuel -> RDDMin Ddec test unsafe nb fuel c nb d = Ret (tab, d')) /\
      disk_ok d' /\ rddmin_result nb c tab d.
  Proof.
    intros Hd Hc HF H0. destruct (RDDMin_spec Ddec test delta0 disk_ok fails (seq_test_like Ddec Kdec name sample delta0 listdir Hls) unsafe nb c d Hd Hc HF H0)
      as (tab & d' & E & A & _ & B1 & B2 & B3 & B4).
    exists tab, d'. split; [exact E|]. split; [exact A|]. split; [intros conf Hconf; apply one_minimal_without; auto|]. rewrite <- minus_eq. auto.
  Qed.

  (** C61: srddmin, which raises the number of samples step by step, gives the same guarantees for the largest number *)
  Theorem C61_srddmin runTab c d : runTab <> [] -> (forall r, In r runTab -> r <= last runTab 0) -> nb <= last runTab 0 ->
    disk_ok d -> config c -> fails (last runTab 0) c d -> ~ fails (last runTab 0) [] d ->
    exists tab d', (forall fuel, S (length c * (length c + 2)) + length c <= fuel -> SRDDMin Ddec test unsafe nb fuel c runTab d = Ret (tab, d')) /\
      disk_ok d' /\ rddmin_result (last runTab 0) c tab d.
  Proof.
    intros Hne Hle Hnb Hd Hc HF H0. destruct (SRDDMin_spec Ddec test delta0 disk_ok fails (seq_test_like Ddec Kdec name sample delta0 listdir Hls) unsafe nb (last runTab 0) runTab c d Hne eq_refl Hle Hnb Hd Hc H0 HF)
      as (tab & d' & E & A & _ & rest & (B1 & B2 & B3 & ->) & B5).
    exists tab, d'. split; [exact E|]. split; [exact A|]. split; [intros conf Hconf; apply one_minimal_without; auto|]. rewrite <- minus_eq. auto.
  Qed.

  (** C62: drddmin, the default algorithm: a dichotomy first, then srddmin on what it found and on the rest *)
  Theorem C62_drddmin runTab dichoTab g c d : runTab <> [] -> (forall r, In r runTab -> r <= last runTab 0) -> (forall r, In r dichoTab -> r <= last runTab 0) ->
    nb <= last runTab 0 -> 2 <= g -> disk_ok d -> config c -> fails (last runTab 0) c d -> ~ fails (last runTab 0) [] d ->
    exists tab d', (forall fuel, S (length c * (length c + 2)) + 4 * length c <= fuel -> DRDDMin Ddec test unsafe nb fuel c runTab dichoTab g d = Ret (tab, d')) /\
      disk_ok d' /\ rddmin_result (last runTab 0) c tab d.
  Proof.
    intros Hne Hle Hle2 Hnb Hg Hd Hc HF H0. destruct (DRDDMin_spec Ddec test delta0 disk_ok fails (seq_test_like Ddec Kdec name sample delta0 listdir Hls) unsafe nb (last runTab 0) runTab dichoTab g c d)
      as (tab & d' & E & A & _ & rest & (B1 & B2 & B3 & ->) & B5); auto.
    exists tab, d'. split; [exact E|]. split; [exact A|]. split; [intros conf Hconf; apply one_minimal_without; auto|]. rewrite <- minus_eq. auto.
  Qed.

  Lemma granularity_loop c n size res d fuel : disk_ok d -> config c -> 2 <= length c <= size -> (forall m, fails m c d) -> split_loop test nb fuel n 1 size [c] [] res d = NoFuel.
  Proof.
    pose proof (seq_test_like Ddec Kdec name sample delta0 listdir Hls) as TL. intros Hd Hc L HK. revert d res Hd HK. induction fuel as [|fuel IH]; intros d res Hd HK; [reflexivity|].
    cbn [split_loop]. replace (length c <=? size) with true by (symmetry; apply Nat.leb_le; lia). rewrite Nat.min_l by lia.
    assert (Es : split c 1 = [c]). { unfold split. rewrite Nat.div_1_r, firstn_all. reflexivity. }
    rewrite Es. cbn [treat_parts]. destruct (tl_test _ _ _ _ TL n c d Hd Hc) as (v1 & d2 & E2 & Hd2 & _ & Hv1 & HK2). rewrite E2. cbn [pbind].
    rewrite (proj2 Hv1 (HK n)) in *. replace (length c =? 1) with false by (symmetry; apply Nat.eqb_neq; lia). cbn [pbind app]. apply IH; auto.
  Qed.
  (** C62: with granularity 1 the dichotomy never ends on a failing set of two deltas or more (and no check rejects that value) *)
  Theorem C62_granularity_one_refuted c d n : disk_ok d -> config c -> 2 <= length c -> fails nb c d -> forall fuel, splitDeltas test nb fuel c n 1 d = NoFuel.
  Proof.
    intros Hd Hc L HF fuel. pose proof (seq_test_like Ddec Kdec name sample delta0 listdir Hls) as TL. unfold splitDeltas.
    destruct (tl_test _ _ _ _ TL nb c d Hd Hc) as (v & d1 & E & Hd1 & _ & Hv & HK). rewrite E. cbn [pbind]. apply Hv in HF. rewrite HF. apply granularity_loop; auto.
  Qed.

  (** C45: in every session the verdict is FAIL iff a sample fails among the first N, where N is the largest number of samples
      asked for this configuration, now or before: nothing else influences it, no failure is forgotten and none is invented. *)
  Theorem C45_session_verdicts reqs n c : Forall (fun r : nat * list D => config (snd r)) (reqs ++ [(n, c)]) ->
    exists vs v d', play Ddec Kdec name sample delta0 listdir (reqs ++ [(n, c)]) disk0 = Ret (vs ++ [v], d') /\
      (v = FAIL <-> exists i, sample (name c) i = false /\ (i < n \/ exists m c', In (m, c') reqs /\ name c' = name c /\ i < m)).
  Proof.
    intros H. apply Forall_app in H. destruct H as [H1 H2]. inversion H2 as [|? ? Hc _]. subst. cbn [snd] in Hc.
    destruct (play_ok Ddec Kdec name sample delta0 listdir Hls reqs disk0 (disk0_ok sample) H1) as (vs & d1 & E & Hd1 & F).
    destruct (tl_test _ _ _ _ (seq_test_like Ddec Kdec name sample delta0 listdir Hls) n c d1 Hd1 Hc) as (v & d2 & E2 & _ & _ & Hv & _).
    exists vs, v, d2. rewrite play_app, E. cbn [pbind play]. rewrite E2. cbn [pbind]. split; [reflexivity|].
    transitivity (is_fail v = true); [destruct v; cbn; split; congruence|]. rewrite Hv, F, fails_disk0. split.
    - intros [(i & L & Ei)|(m & c' & Hin & Ek & i & L & Ei)]; exists i; split; auto. right. exists m, c'. auto.
    - intros (i & Ei & [L|(m & c' & Hin & Ek & L)]); [left; exists i; auto|]. right. exists m, c'. split; [assumption|]. split; [assumption|]. exists i. auto.
  Qed.

  (** C45: asking again gives the same verdict, for as many samples or fewer after PASS, for any number after FAIL *)
  Theorem C45_retest_stable n c d v d' m : disk_ok d -> config c -> test n c d = Ret (v, d') -> (v = PASS -> m <= n) -> exists d'', test m c d' = Ret (v, d'').
  Proof.
    intros Hd Hc E Hm. pose proof (seq_test_like Ddec Kdec name sample delta0 listdir Hls) as TL.
    destruct (tl_test _ _ _ _ TL n c d Hd Hc) as (v1 & d1 & E1 & Hd1 & X & Hv & HK). rewrite E in E1. injection E1 as <- <-.
    destruct (tl_test _ _ _ _ TL m c d' Hd1 Hc) as (v2 & d2 & E2 & _ & _ & Hv2 & _). exists d2. rewrite E2. f_equal. f_equal.
    destruct v, v2; try reflexivity; exfalso.
    - specialize (Hm eq_refl). pose proof (proj1 Hv2 eq_refl) as HF. apply (tl_mono _ _ _ _ TL m n) in HF; [|assumption]. apply X in HF; [|reflexivity]. apply Hv in HF. discriminate.
    - assert (HF : fails m c d') by (apply HK; reflexivity). apply Hv2 in HF. discriminate.
  Qed.

  (** C45: a session killed while a sample runs leaves a cache on which the next session raises an exception for the same
      configuration, whatever the order of os.listdir: every later test of the configuration stops the tool. *)
  Theorem C45_interrupted_session_refuted done i n c l : NoDup (done ++ [i]) -> (forall j, In j done -> sample (name c) j = true) ->
    killed_seq sample (name c) done i [] = Ret l -> test n c (upd Kdec disk0 (name c) l) = Raise.
  Proof.
    intros N Hok E. rewrite killed_seq_ok in E; [|split; [constructor|intros ? ? []]|assumption|intros ? _ []]. injection E as <-. cbn [app].
    unfold sample_test, upd. destruct (Kdec (name c) (name c)) as [_|]; [|congruence]. cbn [pbind]. unfold to_compute. rewrite (scan_none_true _ _ i); [reflexivity| |].
    - apply (Permutation_in _ (Permutation_sym (Hls _))). apply in_app_iff. right. left. reflexivity.
    - intros j Hj. apply (Permutation_in _ (Hls _)) in Hj. apply in_app_iff in Hj. destruct Hj as [Hj|[Hj|[]]]; [|discriminate]. apply in_map_iff in Hj.
      destruct Hj as (j' & [= -> Ej] & Hj). rewrite Hok in Ej by assumption. discriminate.
  Qed.
End properties.

(** C45: with parallel sampling (INTERFLOP_DD_NUM_THREADS) a failure found early leaves directories without a result, and
    testing the same configuration again may raise: two samples, the first fails; os.listdir lists the second one first. *)
Theorem C45_parallel_retest_refuted : exists (listdir : list entry -> list entry) (sample : list nat -> nat -> bool) d', (forall l, Permutation (listdir l) l) /\
  let test := sample_test Nat.eq_dec (list_eq_dec Nat.eq_dec) (fun c => c) sample [1; 2; 3] listdir true 2 [1; 2] in
  test disk0 = Ret (FAIL, d') /\ test d' = Raise.
Proof.
  exists (@rev entry), (fun _ i => negb (i =? 0)). eexists. split; [intros l; apply Permutation_sym, Permutation_rev|]. cbv zeta. split; reflexivity.
Qed.

(** C43: splitting is a partition into consecutive parts of nearly equal sizes. *)
Theorem C43_split_partition {D} (c : list D) n : n <> 0 ->
  length (split c n) = n /\ concat (split c n) = c /\
  (forall p, In p (split c n) -> length c / n <= length p <= (length c + n - 1) / n) /\ (n <= length c -> forall p, In p (split c n) -> p <> []).
Proof.
  intros N. split; [apply split_length|]. split; [apply split_concat; assumption|]. split; [intros p Hp; apply split_sizes; assumption|].
  intros L p Hp ->. apply split_nonempty in Hp; [cbn in Hp; lia|assumption].
Qed.
(** C43: sizes differ by at most one *)
Theorem C43_split_balanced {D} (c : list D) n p q : n <> 0 -> In p (split c n) -> In q (split c n) -> length p <= length q + 1.
Proof.
  intros N Hp Hq. apply split_sizes in Hp, Hq. transitivity ((length c + n - 1) / n); [tauto|]. transitivity (length c / n + 1); [|lia].
  pose proof (Nat.div_mod (length c) n N). pose proof (Nat.mod_upper_bound (length c) n N).
  apply Nat.lt_succ_r. apply Nat.div_lt_upper_bound; [assumption|]. nia.
Qed.

(** C44: a lookup answers with an outcome iff it is the last one recorded for exactly that list of deltas. *)
Theorem C44_lookup_last_recorded {V} (log : list (list nat * V)) c r :
  lookup c (record log) = Some r <-> exists before after, log = before ++ (c, r) :: after /\ forall r', ~ In (c, r') after.
Proof. rewrite lookup_record. apply last_outcome_spec. Qed.
(** C44: the order of the deltas matters, although add() sorts a copy of the list: the set {1,2} is not found *)
Theorem C44_order_refuted : exists c c', Permutation c c' /\ lookup c (record [(c', FAIL)]) = None.
Proof. exists [1; 2], [2; 1]. split; [apply perm_swap|reflexivity]. Qed.

(** C60: what the monotony queries answer was recorded, for a superset resp. a subset of the queried configuration *)
Theorem C60_queries_sound {V} (log : list (list nat * V)) c r :
  (lookup_subset c (record log) = Some r -> exists c', In (c', r) log /\ incl c' c) /\
  (forall fuel, lookup_superset fuel c (record log) = Ret (Some r) -> exists c', In (c', r) log /\ incl c c').
Proof.
  assert (IN : forall c' : list nat, lookup c' (record log) = Some r -> In (c', r) log).
  { intros c' H. apply C44_lookup_last_recorded in H. destruct H as (b & a & -> & _). apply in_app_iff. right. left. reflexivity. }
  split.
  - intros H. apply lookup_subset_sound in H. destruct H as (c' & S & L). exists c'. split; [auto|]. apply sublist_incl. assumption.
  - intros fuel H. apply lookup_superset_sound in H. destruct H as (c' & S & L). exists c'. split; [auto|]. apply sublist_incl. assumption.
Qed.
(** C60: a recorded subset is missed: [1;3] and [2] recorded, {1,2} contains [2] *)
Theorem C60_subset_missed_refuted : exists log c c', In (c', FAIL) log /\ incl c' c /\ lookup_subset c (record log) = None.
Proof.
  exists [([1; 3], PASS); ([2], FAIL)], [1; 2], [2]. split; [right; left; reflexivity|]. split; [|reflexivity]. intros x [->|[]]. right. left. reflexivity.
Qed.
(** C60: a superset query on a proper prefix of a recorded configuration raises (dict.keys()[0] in Python 3), whatever the fuel *)
Theorem C60_superset_raises_refuted {V} (r : V) x y rest fuel : lookup_superset (S (S fuel)) [x] (record [(x :: y :: rest, r)]) = Raise.
Proof. cbn. rewrite Nat.eqb_refl. destruct fuel; reflexivity. Qed.
(** C60: and a recorded superset is missed when a smaller key exists *)
Theorem C60_superset_missed_refuted : exists log c c', In (c', PASS) log /\ incl c c' /\ forall fuel, 3 <= fuel -> lookup_superset fuel c (record log) = Ret None.
Proof.
  exists [([1; 3], PASS); ([2], FAIL)], [3], [1; 3]. split; [left; reflexivity|]. split; [intros x [->|[]]; right; left; reflexivity|].
  intros fuel L. do 3 (destruct fuel as [|fuel]; [lia|]). reflexivity.
Qed.

(** ** Concrete cases *)
(** four deltas; a configuration fails when it contains 1 and 3, or 2: found at sample 1 only *)
Definition ex_sample (k : list nat) (i : nat) : bool :=
  negb ((i =? 1) && ((inb Nat.eq_dec 1 k && inb Nat.eq_dec 3 k) || inb Nat.eq_dec 2 k)).
Notation ex_test := (sample_test Nat.eq_dec (list_eq_dec Nat.eq_dec) (fun c => c) ex_sample [1; 2; 3; 4] (fun l => l) false).
Example ex_hypotheses : disk_ok ex_sample (disk0 (K := list nat)) /\ (NoDup [1; 2; 3; 4] /\ incl [1; 2; 3; 4] [1; 2; 3; 4]) /\
  fails (fun c => c) ex_sample 2 [1; 2; 3; 4] disk0 /\ ~ fails (fun c => c) ex_sample 2 [] disk0.
Proof.
  split; [apply disk0_ok|]. split; [split; [repeat constructor; cbn; intuition congruence|apply incl_refl]|]. split; [left; exists 1; split; [lia|reflexivity]|].
  intros [(i & L & E)|(l & i & E & _)]; [|discriminate]. unfold ex_sample in E. cbn in E. rewrite andb_false_r in E. discriminate.
Qed.
Example C40_nonvacuous : exists d', ddmin Nat.eq_dec ex_test false 100 2 [1; 2; 3; 4] disk0 = Ret ([2], d'). Proof. eexists. vm_compute. reflexivity. Qed.
Example C41_nonvacuous : exists d', DDMax Nat.eq_dec ex_test 2 100 [1; 2; 3; 4] disk0 = Ret ([3; 4], d'). Proof. eexists. vm_compute. reflexivity. Qed.
Example C42_nonvacuous : exists d', RDDMin Nat.eq_dec ex_test false 2 100 [1; 2; 3; 4] 2 disk0 = Ret ([[2]; [1; 3]], d'). Proof. eexists. vm_compute. reflexivity. Qed.
Example C61_nonvacuous : exists d', SRDDMin Nat.eq_dec ex_test false 2 100 [1; 2; 3; 4] [1; 2] disk0 = Ret ([[2]; [1; 3]], d'). Proof. eexists. vm_compute. reflexivity. Qed.
Example C62_nonvacuous : exists d', DRDDMin Nat.eq_dec ex_test false 2 100 [1; 2; 3; 4] [1; 2] [1] 2 disk0 = Ret ([[2]; [1; 3]], d'). Proof. eexists. vm_compute. reflexivity. Qed.
Example C45_nonvacuous : exists d', play Nat.eq_dec (list_eq_dec Nat.eq_dec) (fun c => c) ex_sample [1; 2; 3; 4] (fun l => l) [(1, [2]); (2, [2]); (1, [2]); (3, [1])] disk0 = Ret ([PASS; FAIL; FAIL; PASS], d').
Proof. eexists. vm_compute. reflexivity. Qed.
Example C45_killed_nonvacuous : killed_seq ex_sample [2] [0] 2 [] = Ret [(0, Some true); (2, None)]. Proof. reflexivity. Qed.
Example C43_nonvacuous : split [1; 2; 3; 4; 5; 6; 7] 3 = [[1; 2]; [3; 4]; [5; 6; 7]]. Proof. reflexivity. Qed.
Example C44_nonvacuous : lookup [1; 2] (record [([1; 2], PASS); ([1], FAIL); ([1; 2], FAIL); ([2], PASS)]) = Some FAIL. Proof. reflexivity. Qed.
Example C60_nonvacuous : lookup_subset [1; 2; 3] (record [([1; 3], FAIL)]) = Some FAIL /\ lookup_superset 5 [3] (record [([1; 3], PASS)]) = Ret (Some PASS). Proof. split; reflexivity. Qed.

Print Assumptions C40_ddmin_one_minimal.
Print Assumptions C40_preconditions_checked.
Print Assumptions C41_ddmax_one_maximal.
Print Assumptions C42_rddmin.
Print Assumptions C61_srddmin.
Print Assumptions C62_drddmin.
Print Assumptions C62_granularity_one_refuted.
Print Assumptions C45_session_verdicts.
Print Assumptions C45_retest_stable.
Print Assumptions C45_interrupted_session_refuted.
Print Assumptions C45_parallel_retest_refuted.
Print Assumptions C43_split_partition.
Print Assumptions C43_split_balanced.
Print Assumptions C44_lookup_last_recorded.
Print Assumptions C44_order_refuted.
Print Assumptions C60_queries_sound.
Print Assumptions C60_subset_missed_refuted.
Print Assumptions C60_superset_raises_refuted.
Print Assumptions C60_superset_missed_refuted.
