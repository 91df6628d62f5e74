(** Properties C93 and C94: the configuration of vfc_ddebug and what it reports, end to end. *)
From Coq Require Import String ZArith List Bool Lia Permutation.
From stdpp Require Import base list numbers.
From Verif Require Import Common HashModel HashTable HashMapProofs Text DdebugModel DdebugProofs DDModel DDProofs DDSample Prop_DD Prop_Wrap DDMainModel DDMainProofs.
Import ListNotations.
Open Scope Z_scope.
Open Scope py_scope.

(** * C93: the configuration *)
Section environment.
  Context (py_int : list Z -> option Z) (env : list Z -> option (list Z)).
  Definition var (key : string) : option (list Z) := env (bytes "INTERFLOP_" ++ bytes key)%list.
  (** an integer variable: the value when set (it must be one), otherwise the default *)
  Definition int_setting (key : string) (default v : Z) : Prop := (var key = None /\ v = default) \/ exists t, var key = Some t /\ py_int t = Some v.
  (** a variable with documented words, each with its meaning *)
  Definition word_setting (key : string) (meanings : list (list Z * list Z)) (default v : list Z) : Prop :=
    (var key = None /\ v = default) \/ exists t, var key = Some t /\ In (t, v) meanings.
  Definition flag_setting (key : string) (v : bool) : Prop := v = true <-> var key <> None.
  (** the documentation (get_EnvDoc), except that integers for DD_DICHO_TAB are refused *)
  Record described (c : settings) : Prop := {
    ds_nruns : int_setting "DD_NRUNS" 5 (nb_run c);
    ds_threads : (var "DD_NUM_THREADS" = None /\ max_proc c = None) \/
      exists t p, var "DD_NUM_THREADS" = Some t /\ py_int t = Some p /\ ((p < nb_run c /\ max_proc c = None) \/ (nb_run c <= p /\ max_proc c = Some p));
    ds_algo : word_setting "DD_ALGO" [(bytes "ddmax", bytes "ddmax"); (bytes "rddmin", bytes "rddmin")] (bytes "rddmin") (dd_algo c);
    ds_variant : word_setting "DD_RDDMIN" [(bytes "s", bytes "s"); (bytes "stoch", bytes "s"); (bytes "d", bytes "d"); (bytes "dicho", bytes "d"); (bytes "strict", bytes ""); (bytes "", bytes "")]
      (bytes "d") (rddmin_variant c);
    ds_rtab : word_setting "DD_RDDMIN_TAB" [(bytes "exp", bytes "exp"); (bytes "all", bytes "all"); (bytes "single", bytes "single")] (bytes "exp") (rddmin_tab c);
    ds_dtab : word_setting "DD_DICHO_TAB" [(bytes "exp", bytes "exp"); (bytes "all", bytes "all"); (bytes "single", bytes "single"); (bytes "half", bytes "half")] (bytes "half") (dicho_tab c);
    ds_gran : int_setting "DD_DICHO_GRANULARITY" 2 (split_granularity c);
    ds_sym : flag_setting "DD_SYM" (dd_sym c);
    ds_quiet : flag_setting "DD_QUIET" (dd_quiet c) }.
End environment.

Lemma pbind_ret {A B} (m : py A) (k : A -> py B) b : (do x <- m; k x) = Ret b <-> exists a, m = Ret a /\ k a = Ret b.
Proof. destruct m; cbn; split; try (intros (x & E & _); discriminate); try discriminate; [intros H; eauto|intros (x & [= <-] & H); exact H]. Qed.
Lemma read_int_iff py_int env key d v : read_int py_int env key d = Ret v <-> int_setting py_int env key d v.
Proof.
  unfold read_int, int_setting, var. destruct (env _) as [t|].
  - destruct (py_int t) as [n|] eqn:E; split.
    + intros [= <-]. right. exists t. auto.
    + intros [[H _]|(t' & [= <-] & H)]; [discriminate|]. congruence.
    + discriminate.
    + intros [[H _]|(t' & [= <-] & H)]; [discriminate|]. congruence.
  - split; [intros [= <-]; left; auto|]. intros [[_ ->]|(t & H & _)]; [reflexivity|discriminate].
Qed.
Lemma read_flag_iff env key : flag_setting env key (read_flag env key false).
Proof. unfold flag_setting, read_flag, var. destruct (env _); split; congruence. Qed.
Lemma flag_unique env key b b' : flag_setting env key b -> flag_setting env key b' -> b = b'.
Proof. unfold flag_setting. intros H H'. apply eq_true_iff_eq. rewrite H, H'. reflexivity. Qed.
Lemma read_word_iff env key acc d v : read_word env key acc d = Ret v <-> (var env key = None /\ v = d) \/ (var env key = Some v /\ In v acc).
Proof.
  unfold read_word, var. destruct (env _) as [t|].
  - destruct (existsb (same t) acc) eqn:E.
    + apply existsb_same in E. split; [intros [= <-]; auto|]. intros [[H _]|[[= <-] _]]; [discriminate|reflexivity].
    + split; [discriminate|]. intros [[H _]|[[= <-] H]]; [discriminate|]. apply existsb_same in H. congruence.
  - split; [intros [= <-]; auto|]. intros [[_ ->]|[H _]]; [reflexivity|discriminate].
Qed.

(** Every variable left unset keeps the documented default, every documented value is taken, and any other value stops the
    tool (no configuration is built). *)
Theorem C93_environment : forall py_int env c, read_environ py_int env default_settings = Ret c <-> described py_int env c.
Proof.
  intros py_int env c. unfold read_environ. cbn [nb_run max_proc dd_algo rddmin_variant rddmin_tab dicho_tab split_granularity dd_sym dd_quiet default_settings].
  assert (PLAIN : forall key d (ms : list (list Z * list Z)) v, Forall (fun p => p.1 = p.2) ms -> (word_setting env key ms d v <-> (var env key = None /\ v = d) \/ (var env key = Some v /\ In v (map fst ms)))).
  { intros key d ms v HP. unfold word_setting. assert (Q : forall t, In (t, v) ms <-> t = v /\ In v (map fst ms)).
    { intros t. rewrite in_map_iff. rewrite List.Forall_forall in HP. split.
      - intros H. split; [exact (HP _ H)|]. exists (t, v). split; [exact (HP _ H)|exact H].
      - intros [-> ([x y] & Ex & H)]. cbn in Ex. subst x. pose proof (HP _ H) as E. cbn in E. subst y. exact H. }
    split; (intros [H|H]; [left; exact H|right]).
    - destruct H as (t & E & Hin). apply Q in Hin as [-> Hin]. auto.
    - destruct H as [E Hin]. exists v. split; [exact E|]. apply Q. auto. }
  split.
  - intros H. apply pbind_ret in H as (nb & E1 & H). apply pbind_ret in H as (procs & E2 & H). apply pbind_ret in H as (algo & E3 & H).
    apply pbind_ret in H as (variant & E4 & H). apply pbind_ret in H as (rtab & E5 & H). apply pbind_ret in H as (dtab & E6 & H).
    apply pbind_ret in H as (gran & E7 & H). injection H as <-.
    constructor; cbn [nb_run max_proc dd_algo rddmin_variant rddmin_tab dicho_tab split_granularity dd_sym dd_quiet].
    + apply read_int_iff. exact E1.
    + unfold read_int_or_none in E2. unfold var. destruct (env _) as [t|]; [|injection E2 as <-; left; auto].
      destruct (py_int t) as [p|] eqn:Ep; [|discriminate]. injection E2 as <-. right. exists t, p. split; [reflexivity|]. split; [exact Ep|].
      destruct (Z.ltb_spec p nb); [left|right]; auto.
    + apply read_word_iff in E3. apply PLAIN; [repeat constructor|]. exact E3.
    + apply read_word_iff in E4. destruct E4 as [[E4 ->]|[E4 Hin]]; [left; split; [exact E4|reflexivity]|]. right. exists variant. split; [exact E4|].
      cbn [In] in Hin. destruct Hin as [<-|[<-|[<-|[<-|[<-|[<-|[]]]]]]]; vm_compute; tauto.
    + apply read_word_iff in E5. apply PLAIN; [repeat constructor|]. exact E5.
    + apply read_word_iff in E6. apply PLAIN; [repeat constructor|]. cbn [map fst In] in *. tauto.
    + apply read_int_iff. exact E7.
    + apply read_flag_iff.
    + apply read_flag_iff.
  - intros [H1 H2 H3 H4 H5 H6 H7 H8 H9]. apply PLAIN in H3; [|repeat constructor]. apply PLAIN in H5; [|repeat constructor]. apply PLAIN in H6; [|repeat constructor].
    rewrite (proj2 (read_int_iff py_int env "DD_NRUNS" 5 (nb_run c)) H1). cbn [pbind].
    assert (T : exists procs, read_int_or_none py_int env "DD_NUM_THREADS" None = Ret procs /\ match procs with Some p => if p <? nb_run c then None else Some p | None => None end = max_proc c).
    { unfold read_int_or_none. unfold var in H2. destruct H2 as [[-> ->]|(t & p & -> & -> & H2)]; [exists None; auto|]. exists (Some p). split; [reflexivity|].
      destruct H2 as [[L ->]|[L ->]]; destruct (Z.ltb_spec p (nb_run c)); try lia; reflexivity. }
    destruct T as (procs & -> & T). cbn [pbind]. rewrite T.
    rewrite (proj2 (read_word_iff env "DD_ALGO" [bytes "ddmax"; bytes "rddmin"] (bytes "rddmin") (dd_algo c)) H3). cbn [pbind].
    assert (V : exists variant, read_word env "DD_RDDMIN" [bytes "s"; bytes "stoch"; bytes "d"; bytes "dicho"; bytes ""; bytes "strict"] (bytes "d") = Ret variant /\
      (let variant := if same variant (bytes "stoch") then bytes "s" else variant in
       let variant := if same variant (bytes "dicho") then bytes "d" else variant in
       if same variant (bytes "strict") then bytes "" else variant) = rddmin_variant c).
    { destruct H4 as [[E H4]|(t & E & Hin)].
      - exists (bytes "d"). split; [apply read_word_iff; left; auto|rewrite H4; reflexivity].
      - exists t. cbn [In] in Hin. split.
        + apply read_word_iff. right. split; [exact E|]. cbn [In]. destruct Hin as [Q|[Q|[Q|[Q|[Q|[Q|[]]]]]]]; apply (f_equal fst) in Q; cbn [fst] in Q; subst t; tauto.
        + destruct Hin as [Q|[Q|[Q|[Q|[Q|[Q|[]]]]]]]; pose proof (f_equal fst Q) as Q1; pose proof (f_equal snd Q) as Q2; cbn [fst snd] in Q1, Q2; subst t; rewrite <- Q2; reflexivity. }
    destruct V as (variant & -> & V). cbn [pbind]. cbv zeta in V. rewrite V.
    rewrite (proj2 (read_word_iff env "DD_RDDMIN_TAB" [bytes "exp"; bytes "all"; bytes "single"] (bytes "exp") (rddmin_tab c)) H5). cbn [pbind].
    rewrite (proj2 (read_word_iff env "DD_DICHO_TAB" [bytes "exp"; bytes "all"; bytes "half"; bytes "single"] (bytes "half") (dicho_tab c))) by (cbn [map fst In] in *; tauto). cbn [pbind].
    rewrite (proj2 (read_int_iff py_int env "DD_DICHO_GRANULARITY" 2 (split_granularity c)) H7). cbn [pbind].
    rewrite (flag_unique env "DD_SYM" _ _ (read_flag_iff env "DD_SYM") H8), (flag_unique env "DD_QUIET" _ _ (read_flag_iff env "DD_QUIET") H9). destruct c. reflexivity.
Qed.
Print Assumptions C93_environment.

(** the words a configuration holds *)
Lemma described_words py_int env c : described py_int env c ->
  In (dd_algo c) [bytes "ddmax"; bytes "rddmin"] /\ In (rddmin_variant c) [bytes "s"; bytes "d"; bytes ""] /\
  In (rddmin_tab c) [bytes "exp"; bytes "all"; bytes "single"] /\ In (dicho_tab c) [bytes "exp"; bytes "all"; bytes "half"; bytes "single"].
Proof.
  assert (W : forall key ms d v, word_setting env key ms d v -> d = v \/ In v (map snd ms)).
  { intros key ms d v [[_ ->]|(t & _ & Hin)]; [left; reflexivity|right]. apply in_map_iff. exists (t, v). auto. }
  intros [_ _ H3 H4 H5 H6 _ _ _]. apply W in H3, H4, H5, H6. cbn [map snd In] in *. split; [clear - H3; tauto|]. split; [clear - H4; tauto|]. split; [clear - H5; tauto|]. clear - H6. tauto.
Qed.

(** The numbers of samples, for [n] runs: [counts word lo depth n t] says which numbers the table [t] holds. "exp" ends with
    [n] and each entry is half (rounded down) of the one after it, "all" counts from [lo], "single" is [n], "half" is half of
    [n] rounded up *)
Definition counts (word : list Z) (lo depth n : Z) (t : list Z) : Prop :=
  (word = bytes "exp" -> Z.of_nat (length t) = 1 + depth /\ (exists front, t = front ++ [n]) /\ forall l x y r, t = l ++ x :: y :: r -> x = y / 2) /\
  (word = bytes "all" -> Z.of_nat (length t) = n /\ forall i x, nth_error t i = Some x -> x = lo + Z.of_nat i) /\
  (word = bytes "single" -> t = [n]) /\
  (word = bytes "half" -> exists h, t = [h] /\ n <= 2 * h <= n + 1).
Lemma counts_exp lg lo n t : 0 <= lg n -> exponential_range lg n = Ret t -> counts (bytes "exp") lo (lg n) n t.
Proof.
  intros Hlg. unfold exponential_range. destruct (Z.leb_spec n 0) as [|Hn]; [discriminate|]. intros [= <-]. unfold counts. split; [intros _|split; [discriminate|split; discriminate]].
  replace (Z.to_nat (1 + lg n)) with (S (Z.to_nat (lg n))) by lia. rewrite rev_length, map_length, seq_length. split; [lia|].
  set (m := Z.to_nat (lg n)). clearbody m. set (f := fun i => n / 2 ^ Z.of_nat i). split.
  - exists (rev (map f (seq 1 m))). cbn [seq map rev]. f_equal. f_equal. unfold f. change (Z.of_nat 0) with 0. rewrite Z.pow_0_r, Z.div_1_r. reflexivity.
  - intros l x y r E. apply (f_equal (@rev Z)) in E. rewrite rev_involutive, rev_app_distr in E. cbn [rev] in E. rewrite <- !app_assoc in E. cbn [app] in E.
    assert (G : forall k s pre, map f (seq s k) = pre ++ y :: x :: rev l -> x = y / 2); [|exact (G _ _ _ E)].
    clear E. induction k as [|k IH]; intros s [|z pre] E; try discriminate; cbn [seq map app] in E.
    + injection E as E1 E2. destruct k as [|k]; [discriminate|]. cbn [seq map] in E2. injection E2 as E2 _. subst x y. unfold f.
      rewrite Z.div_div by lia. f_equal. rewrite Nat2Z.inj_succ, Z.pow_succ_r by lia. lia.
    + injection E as _ E. exact (IH _ _ E).
Qed.
Lemma counts_all lo depth a b n : lo = a -> n = b - a -> 0 <= n -> counts (bytes "all") lo depth n (range a b).
Proof.
  intros -> -> Hn. unfold counts. split; [discriminate|]. split; [intros _|split; discriminate]. unfold range. rewrite map_length, seq_length. split; [lia|].
  intros i x E. rewrite nth_error_map in E. destruct (nth_error (seq 0 _) i) as [j|] eqn:J; [|discriminate]. injection E as <-.
  assert (L : (i < Z.to_nat (b - a))%nat) by (rewrite <- (seq_length (Z.to_nat (b - a)) 0); apply nth_error_Some; congruence).
  rewrite (nth_error_nth' _ O) in J by (rewrite seq_length; exact L). rewrite seq_nth in J by exact L. injection J as <-. reflexivity.
Qed.
Lemma counts_rddmin lg c t : (forall n, 1 <= n -> 0 <= lg n) -> 1 <= nb_run c -> In (rddmin_tab c) [bytes "exp"; bytes "all"; bytes "single"] -> get_rddmin_tab lg c = Ret t ->
  counts (rddmin_tab c) 1 (lg (nb_run c)) (nb_run c) t.
Proof.
  intros Hlg Hn Ht E. unfold get_rddmin_tab in E. destruct Ht as [H|[H|[H|[]]]]; rewrite <- H in E |- *.
  - apply counts_exp; [auto|exact E].
  - change (Ret (range 1 (nb_run c + 1)) = Ret t) in E. injection E as <-. apply counts_all; lia.
  - change (Ret [nb_run c] = Ret t) in E. injection E as <-. unfold counts. split; [discriminate|]. split; [discriminate|]. split; [reflexivity|discriminate].
Qed.
Lemma counts_split lg c t : (forall n, 1 <= n -> 0 <= lg n) -> 1 <= nb_run c -> In (dicho_tab c) [bytes "exp"; bytes "all"; bytes "half"; bytes "single"] -> get_split_tab lg c = Ret t ->
  counts (dicho_tab c) 0 (lg (nb_run c)) (nb_run c) t.
Proof.
  intros Hlg Hn Ht E. unfold get_split_tab in E. destruct Ht as [H|[H|[H|[H|[]]]]]; rewrite <- H in E |- *.
  - apply counts_exp; [auto|exact E].
  - change (Ret (range 0 (nb_run c)) = Ret t) in E. injection E as <-. apply counts_all; lia.
  - change (Ret [(nb_run c + 1) / 2] = Ret t) in E. injection E as <-. unfold counts. split; [discriminate|]. split; [discriminate|]. split; [discriminate|]. intros _. eexists. split; [reflexivity|].
    pose proof (Z.div_mod (nb_run c + 1) 2 ltac:(lia)). pose proof (Z.mod_pos_bound (nb_run c + 1) 2 ltac:(lia)). lia.
  - change (Ret [nb_run c] = Ret t) in E. injection E as <-. unfold counts. split; [discriminate|]. split; [discriminate|]. split; [reflexivity|discriminate].
Qed.

(** With at least one run both tables exist and hold the documented numbers; the one of the rddmin variants ends with DD_NRUNS,
    its largest entry, and every entry of the dichotomy table is at most DD_NRUNS. *)
Theorem C93_tables : forall py_int lg env c, (forall n, 1 <= n -> 0 <= lg n) -> read_environ py_int env default_settings = Ret c -> 1 <= nb_run c ->
  exists t u, get_rddmin_tab lg c = Ret t /\ get_split_tab lg c = Ret u /\
    (exists front, t = front ++ [nb_run c]) /\ (forall r, In r t -> 0 <= r <= nb_run c) /\ (forall r, In r u -> 0 <= r <= nb_run c) /\
    counts (rddmin_tab c) 1 (lg (nb_run c)) (nb_run c) t /\ counts (dicho_tab c) 0 (lg (nb_run c)) (nb_run c) u.
Proof.
  intros py_int lg env c Hlg Hc Hn. apply C93_environment in Hc. apply described_words in Hc as (_ & _ & Ht & Hu).
  assert (W : exists t u, get_rddmin_tab lg c = Ret t /\ get_split_tab lg c = Ret u /\ (exists front, t = front ++ [nb_run c]) /\ (forall r, In r t -> 0 <= r <= nb_run c) /\ (forall r, In r u -> 0 <= r <= nb_run c)).
  2:{ destruct W as (t & u & E1 & E2 & H1 & H2 & H3). exists t, u. split; [exact E1|]. split; [exact E2|]. split; [exact H1|]. split; [exact H2|]. split; [exact H3|].
      split; [apply counts_rddmin; assumption|apply counts_split; assumption]. }
  assert (EXP : exists front, exponential_range lg (nb_run c) = Ret (front ++ [nb_run c]) /\ (forall r, In r (front ++ [nb_run c]) -> 0 <= r <= nb_run c) /\
    forall l x y r, front ++ [nb_run c] = l ++ x :: y :: r -> x = y / 2).
  { unfold exponential_range. replace (nb_run c <=? 0) with false by (symmetry; apply Z.leb_gt; lia). specialize (Hlg _ Hn).
    replace (Z.to_nat (1 + lg (nb_run c))) with (S (Z.to_nat (lg (nb_run c)))) by lia. remember (Z.to_nat (lg (nb_run c))) as m eqn:Em. clear Em.
    set (f := fun i => nb_run c / 2 ^ Z.of_nat i). assert (F0 : f O = nb_run c) by (unfold f; change (Z.of_nat 0) with 0; rewrite Z.pow_0_r, Z.div_1_r; reflexivity).
    exists (rev (map f (seq 1 m))). split; [cbn [seq map rev]; rewrite F0; reflexivity|]. replace [nb_run c] with [f O] by (rewrite F0; reflexivity).
    change (rev (map f (seq 1 m)) ++ [f O]) with (rev (map f (seq 0 (S m)))). split.
    - intros r Hr. apply in_rev in Hr. apply in_map_iff in Hr as (i & <- & _). unfold f. assert (1 <= 2 ^ Z.of_nat i) by (apply (Z.pow_le_mono_r 2 0); lia).
      split; [apply Z.div_pos; lia|]. apply Z.div_le_upper_bound; nia.
    - intros l x y r E. apply (f_equal (@rev Z)) in E. rewrite rev_involutive, rev_app_distr in E. cbn [rev] in E. rewrite <- !app_assoc in E. cbn [app] in E.
      generalize dependent (S m). intros k E. assert (G : forall s k pre, map f (seq s k) = pre ++ y :: x :: rev l -> x = y / 2).
      { clear E. intros s k'. revert s. induction k' as [|k' IH]; intros s [|z pre] E; try discriminate; cbn [seq map app] in E.
        - injection E as E1 E2. destruct k' as [|k']; [discriminate|]. cbn [seq map] in E2. injection E2 as E2 _. subst x y. unfold f.
          rewrite Z.div_div by lia. f_equal. rewrite Nat2Z.inj_succ, Z.pow_succ_r by lia. lia.
        - injection E as _ E. exact (IH _ _ E). }
      exact (G _ _ _ E). }
  assert (U : exists u, get_split_tab lg c = Ret u /\ forall r, In r u -> 0 <= r <= nb_run c).
  { unfold get_split_tab. cbn [In] in Hu. destruct Hu as [<-|[<-|[<-|[<-|[]]]]].
    - destruct EXP as (front & E & H & _). change (same (bytes "exp") (bytes "exp")) with true. eauto.
    - change (same (bytes "all") (bytes "exp")) with false. change (same (bytes "all") (bytes "all")) with true. eexists. split; [reflexivity|].
      intros r Hr. apply in_range in Hr. lia.
    - change (same (bytes "half") (bytes "exp")) with false. change (same (bytes "half") (bytes "all")) with false. change (same (bytes "half") (bytes "single")) with false.
      change (same (bytes "half") (bytes "half")) with true. eexists. split; [reflexivity|]. intros r [<-|[]]. split; [apply Z.div_pos; lia|]. apply Z.div_le_upper_bound; lia.
    - change (same (bytes "single") (bytes "exp")) with false. change (same (bytes "single") (bytes "all")) with false. change (same (bytes "single") (bytes "single")) with true.
      eexists. split; [reflexivity|]. intros r [<-|[]]. lia. }
  destruct U as (u & Eu & HU). unfold get_rddmin_tab. cbn [In] in Ht. destruct Ht as [Et|[Et|[Et|[]]]].
  - destruct EXP as (front & E & H1 & H2). exists (front ++ [nb_run c]), u. rewrite <- Et. change (same (bytes "exp") (bytes "exp")) with true.
    split; [exact E|]. split; [exact Eu|]. split; [eauto|]. split; [exact H1|exact HU].
  - exists (range 1 (nb_run c + 1)), u. rewrite <- Et. change (same (bytes "all") (bytes "exp")) with false. change (same (bytes "all") (bytes "all")) with true.
    split; [reflexivity|]. split; [exact Eu|]. split.
    { exists (range 1 (nb_run c)). unfold range. replace (Z.to_nat (nb_run c + 1 - 1)) with (Z.to_nat (nb_run c - 1) + 1)%nat by lia. rewrite seq_app, map_app. cbn [seq map]. f_equal. f_equal. lia. }
    split; [intros r Hr; apply in_range in Hr; lia|exact HU].
  - exists [nb_run c], u. rewrite <- Et. change (same (bytes "single") (bytes "exp")) with false. change (same (bytes "single") (bytes "all")) with false. change (same (bytes "single") (bytes "single")) with true.
    split; [reflexivity|]. split; [exact Eu|]. split; [exists []; reflexivity|]. split; [intros r [<-|[]]; lia|exact HU].
Qed.
Print Assumptions C93_tables.

(** The documentation also allows an integer for DD_DICHO_TAB ("or int"): every integer stops the tool, whatever the other
    variables are. *)
Theorem C93_dicho_int_refuted : forall py_int env t n, var env "DD_DICHO_TAB" = Some t -> py_int t = Some n ->
  (forall w, In w [bytes "exp"; bytes "all"; bytes "half"; bytes "single"] -> py_int w = None) -> forall c, read_environ py_int env default_settings <> Ret c.
Proof.
  intros py_int env t n Hv Hi Hw c H. apply C93_environment in H. destruct H as [_ _ _ _ _ [[H _]|(t' & H & Hin)] _ _ _]; [congruence|].
  rewrite Hv in H. injection H as <-. assert (In t [bytes "exp"; bytes "all"; bytes "half"; bytes "single"]); [|rewrite (Hw t) in Hi by assumption; discriminate].
  cbn [In] in *. destruct Hin as [Q|[Q|[Q|[Q|[]]]]]; apply (f_equal fst) in Q; cbn [fst] in Q; tauto.
Qed.
Print Assumptions C93_dicho_int_refuted.

(** the command line: two executable scripts, and no request for help *)
Theorem C93_command_line : forall py_int executable argv env c, ddconfig py_int executable argv env = Ret c <->
  (exists name run cmp, argv = [name; run; cmp] /\ executable run = true /\ executable cmp = true) /\ ~ In (bytes "-h") argv /\ ~ In (bytes "--help") argv /\
  described py_int env c.
Proof.
  intros py_int executable argv env c. unfold ddconfig, parse_argv. rewrite <- C93_environment.
  destruct (existsb (same (bytes "-h")) argv) eqn:E1; [apply existsb_same in E1; cbn; split; [discriminate|tauto]|].
  destruct (existsb (same (bytes "--help")) argv) eqn:E2; [apply existsb_same in E2; cbn; split; [discriminate|tauto]|]. cbn [orb].
  assert (N : forall x, existsb (same x) argv = false -> ~ In x argv) by (intros x E H; apply existsb_same in H; congruence). apply N in E1, E2.
  assert (Q : (do _ <- match argv with [_; run; cmp] => if executable run then if executable cmp then Ret (run, cmp) else Quit else Quit | _ => Quit end; read_environ py_int env default_settings) = Ret c <->
    (exists name run cmp, argv = [name; run; cmp] /\ executable run = true /\ executable cmp = true) /\ read_environ py_int env default_settings = Ret c); [|tauto].
  destruct argv as [|a [|b [|d [|e l]]]]; cbn [pbind]; try (split; [discriminate|intros [(x & y & z & H & _) _]; discriminate]).
  destruct (executable b) eqn:Eb; [|split; [discriminate|]; intros [(x & y & z & [= <- <- <-] & Hy & _) _]; congruence].
  destruct (executable d) eqn:Ed; [|split; [discriminate|]; intros [(x & y & z & [= <- <- <-] & _ & Hz) _]; congruence].
  cbn [pbind]. split; [intros H; split; [exists a, b, d; auto|exact H]|tauto].
Qed.
Print Assumptions C93_command_line.

(** * C94: the report *)
Section session.
  Context (lg : Z -> Z) (Hlg : forall n, 1 <= n -> 0 <= lg n).
  Context (prog : (Z -> bool) -> nat -> bool) (listdir : list DDModel.entry -> list DDModel.entry) (Hls : forall l, Permutation (listdir l) l).
  Context (delta0 : list (list Z)) (N0 : List.NoDup delta0).
  Notation test := (sample_test bytes_dec bytes_dec config_name (sample_of prog) delta0 listdir false).
  Notation fails := (fails config_name (sample_of prog)).

  Lemma test_ret n c d : disk_ok (sample_of prog) d -> List.NoDup c -> incl c delta0 -> exists v d', test n c d = Ret (v, d').
  Proof. intros Hd N I. destruct (tl_test _ _ _ _ (seq_test_like bytes_dec bytes_dec config_name (sample_of prog) delta0 listdir Hls) n c d Hd (conj N I)) as (v & d' & E & _). eauto. Qed.
  Lemma minus_ret n tab d : disk_ok (sample_of prog) d -> exists v d', test n (listminus bytes_dec delta0 tab) d = Ret (v, d').
  Proof. intros Hd. apply test_ret; [exact Hd|apply List.NoDup_filter; exact N0|]. intros x Hx. apply List.filter_In in Hx. tauto. Qed.

  Lemma run_minimal c unsafe : In (rddmin_variant c) [bytes "s"; bytes "d"; bytes ""] -> In (rddmin_tab c) [bytes "exp"; bytes "all"; bytes "single"] ->
    In (dicho_tab c) [bytes "exp"; bytes "all"; bytes "half"; bytes "single"] ->
    dd_algo c = bytes "rddmin" -> 1 <= nb_run c -> max_proc c = None -> 2 <= split_granularity c ->
    fails (Z.to_nat (nb_run c)) delta0 disk0 -> ~ fails (Z.to_nat (nb_run c)) [] disk0 ->
    exists F tab d', (forall fuel, (F <= fuel)%nat -> run_dd lg prog listdir c unsafe delta0 fuel disk0 = Ret (Minimal tab, d')) /\
      rddmin_result bytes_dec config_name (sample_of prog) (Z.to_nat (nb_run c)) delta0 tab disk0.
  Proof.
    intros Hv Ht Hu Ha Hn Hp Hg HF H0. pose proof (disk0_ok (sample_of prog)) as D0. assert (C0 : List.NoDup delta0 /\ incl delta0 delta0) by (split; [exact N0|intros x; auto]).
    unfold run_dd, get_dd_algo. rewrite Ha, Hp. change (ends_with (bytes "rddmin") (bytes "rddmin")) with true. cbv iota.
    destruct (rddmin_table lg Hlg c Hn Ht) as (t & Et & T1 & T2 & T3). destruct (split_table lg Hlg c Hn Hu) as (u & Eu & U).
    assert (T1' : map Z.to_nat t <> []) by (destruct t; [congruence|discriminate]).
    cbn [In] in Hv. destruct Hv as [<-|[<-|[<-|[]]]].
    - change (same (bytes "s" ++ bytes "rddmin") (bytes "rddmin")) with false. change (starts_with (bytes "srddmin") (bytes "s" ++ bytes "rddmin")) with true. cbv iota.
      rewrite Et. cbn [pbind]. destruct (C61_srddmin bytes_dec bytes_dec config_name (sample_of prog) delta0 listdir Hls unsafe (Z.to_nat (nb_run c)) (map Z.to_nat t) delta0 disk0) as (tab & d' & E & Hd & R); auto.
      { rewrite T2. exact T3. } { rewrite T2. lia. } { rewrite T2. exact HF. } { rewrite T2. exact H0. }
      destruct (minus_ret (Z.to_nat (nb_run c)) (concat tab) d' Hd) as (v & d2 & E2). rewrite T2 in R.
      eexists _, tab, d2. split; [|exact R]. intros fuel Hf. rewrite (E fuel Hf). cbn [pbind]. rewrite E2. reflexivity.
    - change (same (bytes "d" ++ bytes "rddmin") (bytes "rddmin")) with false. change (starts_with (bytes "srddmin") (bytes "d" ++ bytes "rddmin")) with false.
      change (starts_with (bytes "drddmin") (bytes "d" ++ bytes "rddmin")) with true. cbv iota. rewrite Et, Eu. cbn [pbind].
      destruct (C62_drddmin bytes_dec bytes_dec config_name (sample_of prog) delta0 listdir Hls unsafe (Z.to_nat (nb_run c)) (map Z.to_nat t) (map Z.to_nat u) (Z.to_nat (split_granularity c)) delta0 disk0) as (tab & d' & E & Hd & R); auto.
      { rewrite T2. exact T3. } { rewrite T2. exact U. } { rewrite T2. lia. } { lia. } { rewrite T2. exact HF. } { rewrite T2. exact H0. }
      destruct (minus_ret (Z.to_nat (nb_run c)) (concat tab) d' Hd) as (v & d2 & E2). rewrite T2 in R.
      eexists _, tab, d2. split; [|exact R]. intros fuel Hf. rewrite (E fuel Hf). cbn [pbind]. rewrite E2. reflexivity.
    - change (same (bytes "" ++ bytes "rddmin") (bytes "rddmin")) with true. cbv iota.
      destruct (C42_rddmin bytes_dec bytes_dec config_name (sample_of prog) delta0 listdir Hls unsafe (Z.to_nat (nb_run c)) delta0 disk0 D0 C0 HF H0) as (tab & d' & E & Hd & R).
      destruct (minus_ret (Z.to_nat (nb_run c)) (concat tab) d' Hd) as (v & d2 & E2).
      eexists _, tab, d2. split; [|exact R]. intros fuel Hf. rewrite (E fuel Hf). cbn [pbind]. rewrite E2. reflexivity.
  Qed.
End session.

(** the reference run: every site executed is written on one line *)
Lemma reference a2l trace : answers a2l -> Forall in_space trace -> Z.of_nat (length trace) <= max_inserts ->
  exists st ds st' S, dd_init None None true = Ok st /\ dd_run st trace = Ok (ds, st') /\ List.NoDup S /\ Forall in_space S /\ (forall x, In x S <-> In x trace) /\
    Z.of_nat (length S) <= max_inserts /\ readlines (generate a2l (dd_must st') []) = map (line_of a2l) S.
Proof.
  intros Ha Ht HN. assert (Hl : Forall legal_value trace) by (eapply List.Forall_impl; [|exact Ht]; unfold in_space, legal_value, call_op_size; cbn; intros; lia).
  destruct (generate_spec None trace I Hl HN) as (st & st' & S & E1 & E2 & Hnd & Hp & Hx).
  set (S' := map (fun x => x + call_op_size) (gen_addresses (dd_must st'))).
  assert (P : Permutation S' S).
  { unfold S'. rewrite Hp, map_map. rewrite (map_ext _ (fun x => x)) by (intros; lia). rewrite map_id. reflexivity. }
  assert (Hin : forall x, In x S' <-> In x trace).
  { intros x. transitivity (In x S); [split; apply Permutation_in; [exact P|symmetry; exact P]|]. rewrite <- !elem_of_list_In, Hx. cbn. tauto. }
  assert (HS : Forall in_space S') by (apply List.Forall_forall; intros x Hx'; apply Hin in Hx'; rewrite List.Forall_forall in Ht; auto).
  assert (ND : List.NoDup S') by (eapply Permutation_NoDup; [symmetry; exact P|apply NoDup_ListNoDup; exact Hnd]).
  eexists st, _, st', S'. split; [exact E1|]. split; [exact E2|]. split; [exact ND|]. split; [exact HS|]. split; [exact Hin|]. split.
  { assert (length S' <= length trace)%nat; [|lia]. apply List.NoDup_incl_length; [exact ND|]. intros x Hx'. apply Hin. exact Hx'. }
  unfold generate, overwrite. rewrite skipn_nil, app_nil_r.
  replace (map a2l (gen_addresses (dd_must st'))) with (map (line_of a2l) S').
  2:{ unfold S'. rewrite map_map. apply map_ext. intros x. unfold line_of. f_equal. lia. }
  destruct (lines_entries a2l Ha S' HS) as (es & A & B & _). rewrite B. change (concat (map entry_line es)) with (text_of es). apply readlines_text. exact A.
Qed.

(** all of the first [nb] runs are accepted when the sites of [g] are instrumented *)
Definition accepts (prog : (Z -> bool) -> nat -> bool) (nb : nat) (g : list Z) : Prop := forall i, (i < nb)%nat -> prog (fun a => existsb (Z.eqb a) g) i = true.
Lemma accepted_ext prog (Hext : forall f g i, (forall a, f a = g a) -> prog f i = prog g i) nb g h : (forall x, In x g <-> In x h) -> accepts prog nb g -> accepts prog nb h.
Proof.
  intros E H i Hi. rewrite <- (H i Hi). apply Hext. intros a. apply eq_true_iff_eq. rewrite !existsb_exists.
  split; intros (x & Hx & Ex); apply Z.eqb_eq in Ex; subst x; exists a; (split; [apply E; exact Hx|apply Z.eqb_refl]).
Qed.
Lemma failing_sites a2l (Ha : answers a2l) prog (Hext : forall f g i, (forall a, f a = g a) -> prog f i = prog g i) nb g : Forall in_space g -> Z.of_nat (length g) <= max_inserts ->
  (fails config_name (sample_of prog) nb (map (line_of a2l) g) disk0 <-> ~ accepts prog nb g) /\ (~ fails config_name (sample_of prog) nb (map (line_of a2l) g) disk0 -> accepts prog nb g).
Proof.
  intros Hg' L. rewrite (fails_sites a2l Ha prog Hext nb g Hg' L). unfold accepts. split; [split|].
  - intros (i & Hi & E) H. unfold with_sites in E. rewrite (H i Hi) in E. discriminate.
  - intros H. destruct (List.Exists_dec (fun i => with_sites prog g i = false) (seq 0 nb)) as [X|X].
    + intros i. destruct (with_sites prog g i); [right; discriminate|left; reflexivity].
    + apply List.Exists_exists in X as (i & Hi & E). apply in_seq in Hi. exists i. split; [lia|exact E].
    + exfalso. apply H. intros i Hi. destruct (prog (fun a => existsb (Z.eqb a) g) i) eqn:E; [reflexivity|]. exfalso. apply X. apply List.Exists_exists. exists i.
      split; [apply in_seq; lia|exact E].
  - intros H i Hi. destruct (prog (fun a => existsb (Z.eqb a) g) i) eqn:E; [reflexivity|]. exfalso. apply H. exists i. auto.
Qed.

(** For every program whose outcome depends on which call sites are instrumented only, every reference run and every
    configuration of the rddmin family without parallel samples: if the instrumented program fails one of the DD_NRUNS samples
    and the uninstrumented one none, the tool ends and reports disjoint groups of lines. The lines of a group are those of call
    sites executed by the reference run; instrumenting only the sites of a group fails, leaving any one of them out passes,
    and instrumenting every executed site outside the groups passes. *)
Theorem C94_minimal_groups : forall py_int lg executable prog listdir a2l trace argv env c,
  (forall n, 1 <= n -> 0 <= lg n) -> (forall l, Permutation (listdir l) l) -> answers a2l ->
  (forall f g i, (forall a, f a = g a) -> prog f i = prog g i) ->
  Forall in_space trace -> Z.of_nat (length trace) <= max_inserts ->
  ddconfig py_int executable argv env = Ret c -> dd_algo c = bytes "rddmin" -> 1 <= nb_run c -> max_proc c = None -> 2 <= split_granularity c ->
  let accepted g := forall i, (i < Z.to_nat (nb_run c))%nat -> prog (fun a => existsb (Z.eqb a) g) i = true in
  ~ accepted trace -> accepted [] ->
  exists st ds st' groups d' F, dd_init None None true = Ok st /\ dd_run st trace = Ok (ds, st') /\
    (forall fuel, (F <= fuel)%nat -> vfc_ddebug py_int lg executable prog listdir argv env true [generate a2l (dd_must st') []] true fuel disk0 =
      Ret (Minimal (map (map (fun a => a2l (a - call_op_size))) groups), d')) /\
    List.NoDup (concat groups) /\ incl (concat groups) trace /\
    (forall g, In g groups -> ~ accepted g /\ forall x, In x g -> accepted (List.filter (fun a => negb (a =? x)) g)) /\
    accepted (List.filter (fun a => negb (existsb (Z.eqb a) (concat groups))) trace).
Proof.
  intros py_int lg executable prog listdir a2l trace argv env c Hlg Hls Ha Hext Ht HN Hc Halgo Hn Hp Hg accepted HF H0.
  pose proof (proj1 (C93_command_line _ _ _ _ _) Hc) as (_ & _ & _ & Hdesc). apply described_words in Hdesc as (_ & W2 & W3 & W4).
  destruct (reference a2l trace Ha Ht HN) as (st & ds & st' & S & E1 & E2 & NS & HS & HinS & LS & ER).
  set (nb := Z.to_nat (nb_run c)) in *.
  assert (AC : forall g, Forall in_space g -> Z.of_nat (length g) <= max_inserts -> (fails config_name (sample_of prog) nb (map (line_of a2l) g) disk0 <-> ~ accepted g))
    by (intros g Hg' L; exact (proj1 (failing_sites a2l Ha prog Hext nb g Hg' L))).
  assert (ACd : forall g, Forall in_space g -> Z.of_nat (length g) <= max_inserts -> ~ fails config_name (sample_of prog) nb (map (line_of a2l) g) disk0 -> accepted g)
    by (intros g Hg' L; exact (proj2 (failing_sites a2l Ha prog Hext nb g Hg' L))).
  assert (AX : forall g h, (forall x, In x g <-> In x h) -> accepted g -> accepted h) by (intros g h; exact (accepted_ext prog Hext nb g h)).
  destruct (run_minimal lg Hlg prog listdir Hls (map (line_of a2l) S) (delta0_nodup a2l Ha S HS NS) c (match env (bytes "INTERFLOP_DD_UNSAFE") with Some _ => true | None => false end) W2 W3 W4 Halgo Hn Hp Hg)
    as (F & tab & d' & ERUN & R1 & R2 & R3 & R4).
  { apply AC; [exact HS|exact LS|]. intros H. apply HF. eapply AX; [exact HinS|exact H]. }
  { intros H. refine (proj1 (AC [] _ _) H H0); [constructor|cbn [length]; lia]. }
  destruct (groups_of a2l S tab R3) as (gs & -> & Hgs). rewrite concat_lines in *.
  pose proof (nodup_lines a2l _ R2) as NG.
  assert (Each : forall g, In g gs -> List.NoDup g /\ incl g S).
  { intros g Hin. apply in_split in Hin as (l1 & l2 & ->). rewrite concat_app in *. cbn [concat] in *. split.
    - apply NoDup_ListNoDup in NG. apply NoDup_app in NG as (_ & _ & NG). apply NoDup_app in NG as (NG & _). apply NoDup_ListNoDup. exact NG.
    - intros x Hx. apply Hgs. apply in_or_app. right. apply in_or_app. left. exact Hx. }
  exists st, ds, st', gs, d', F. split; [exact E1|]. split; [exact E2|]. split.
  { intros fuel Hf. unfold vfc_ddebug. rewrite Hc. cbn [pbind negb]. rewrite merge_one. cbn [pbind]. rewrite ER. rewrite (ERUN fuel Hf). reflexivity. }
  split; [exact NG|]. split; [intros x Hx; apply HinS, Hgs, Hx|]. split.
  - intros g Hin. destruct (Each g Hin) as [Ng Ig]. pose proof (in_space_of S HS g Ig) as Sg. pose proof (group_length S LS g Ng Ig) as Lg.
    destruct (R1 (map (line_of a2l) g) (in_map _ _ _ Hin)) as [Q1 Q2]. split; [apply AC; assumption|]. intros x Hx.
    specialize (Q2 (line_of a2l x) (in_map _ _ _ Hx)).
    rewrite (filter_lines a2l _ (fun a => negb (a =? x))) in Q2.
    + assert (Ix : incl (List.filter (fun a => negb (a =? x)) g) S) by (intros y Hy; apply List.filter_In in Hy; apply Ig; tauto).
      apply ACd; [apply (in_space_of S HS); exact Ix|apply (group_length S LS); [apply List.NoDup_filter; exact Ng|exact Ix]|exact Q2].
    + intros a Hain. destruct (bytes_dec (line_of a2l a) (line_of a2l x)) as [E|E]; destruct (Z.eqb_spec a x) as [->|Nx]; try reflexivity; [|congruence].
      exfalso. apply Nx. rewrite List.Forall_forall in Sg. apply (line_inj a2l Ha); [apply Sg; exact Hain|apply Sg; exact Hx|exact E].
  - rewrite (filter_lines a2l _ (fun a => negb (existsb (Z.eqb a) (concat gs)))) in R4.
    + assert (Ix : incl (List.filter (fun a => negb (existsb (Z.eqb a) (concat gs))) S) S) by (intros y Hy; apply List.filter_In in Hy; tauto).
      eapply AX; [|apply ACd; [apply (in_space_of S HS); exact Ix|apply (group_length S LS); [apply List.NoDup_filter; exact NS|exact Ix]|exact R4]].
      intros x. rewrite !List.filter_In, HinS. reflexivity.
    + intros a Hain. destruct (in_dec bytes_dec (line_of a2l a) (map (line_of a2l) (concat gs))) as [I|I].
      * apply (in_line a2l Ha S HS a _ Hgs Hain) in I. replace (existsb (Z.eqb a) (concat gs)) with true; [reflexivity|]. symmetry. apply existsb_exists. exists a. split; [exact I|apply Z.eqb_refl].
      * replace (existsb (Z.eqb a) (concat gs)) with false; [reflexivity|]. symmetry. apply not_true_iff_false. intros H. apply I. apply (in_line a2l Ha S HS a _ Hgs Hain).
        apply existsb_exists in H as (y & Hy & Ey). apply Z.eqb_eq in Ey. subst y. exact Hy.
Qed.
Print Assumptions C94_minimal_groups.

(** the same for DD_ALGO=ddmax: the sites reported can be instrumented together, and no other executed site can be added *)
Theorem C94_maximal_set : forall py_int lg executable prog listdir a2l trace argv env c,
  (forall l, Permutation (listdir l) l) -> answers a2l -> (forall f g i, (forall a, f a = g a) -> prog f i = prog g i) ->
  Forall in_space trace -> Z.of_nat (length trace) <= max_inserts ->
  ddconfig py_int executable argv env = Ret c -> dd_algo c = bytes "ddmax" -> max_proc c = None ->
  let accepted g := forall i, (i < Z.to_nat (nb_run c))%nat -> prog (fun a => existsb (Z.eqb a) g) i = true in
  ~ accepted trace -> accepted [] ->
  exists st ds st' kept d' F, dd_init None None true = Ok st /\ dd_run st trace = Ok (ds, st') /\
    (forall fuel, (F <= fuel)%nat -> vfc_ddebug py_int lg executable prog listdir argv env true [generate a2l (dd_must st') []] true fuel disk0 =
      Ret (Maximal (map (fun a => a2l (a - call_op_size)) kept), d')) /\
    List.NoDup kept /\ incl kept trace /\ accepted kept /\ forall x, In x trace -> ~ In x kept -> ~ accepted (x :: kept).
Proof.
  intros py_int lg executable prog listdir a2l trace argv env c Hls Ha Hext Ht HN Hc Halgo Hp accepted HF H0.
  destruct (reference a2l trace Ha Ht HN) as (st & ds & st' & S & E1 & E2 & NS & HS & HinS & LS & ER). set (nb := Z.to_nat (nb_run c)) in *.
  assert (AC : forall g, Forall in_space g -> Z.of_nat (length g) <= max_inserts -> (fails config_name (sample_of prog) nb (map (line_of a2l) g) disk0 <-> ~ accepted g))
    by (intros g Hg' L; exact (proj1 (failing_sites a2l Ha prog Hext nb g Hg' L))).
  assert (ACd : forall g, Forall in_space g -> Z.of_nat (length g) <= max_inserts -> ~ fails config_name (sample_of prog) nb (map (line_of a2l) g) disk0 -> accepted g)
    by (intros g Hg' L; exact (proj2 (failing_sites a2l Ha prog Hext nb g Hg' L))).
  assert (AX : forall g h, (forall x, In x g <-> In x h) -> accepted g -> accepted h) by (intros g h; exact (accepted_ext prog Hext nb g h)).
  pose proof (delta0_nodup a2l Ha S HS NS) as N0.
  destruct (C41_ddmax_one_maximal bytes_dec bytes_dec config_name (sample_of prog) (map (line_of a2l) S) listdir Hls nb (map (line_of a2l) S) disk0) as (keptl & d' & ERUN & _ & NK & IK & PK & MK).
  { apply disk0_ok. } { split; [exact N0|intros x; auto]. }
  { apply AC; [exact HS|exact LS|]. intros H. apply HF. eapply AX; [exact HinS|exact H]. }
  { intros H. refine (proj1 (AC [] _ _) H H0); [constructor|cbn [length]; lia]. }
  destruct (group_of a2l S keptl IK) as (kept & -> & Ik). pose proof (nodup_lines a2l _ NK) as Nk. pose proof (in_space_of S HS kept Ik) as Sk.
  eexists st, ds, st', kept, d', _. split; [exact E1|]. split; [exact E2|]. split.
  { intros fuel Hf. unfold vfc_ddebug. rewrite Hc. cbn [pbind negb]. rewrite merge_one. cbn [pbind]. rewrite ER. unfold run_dd, get_dd_algo. rewrite Halgo, Hp.
    change (ends_with (bytes "rddmin") (bytes "ddmax")) with false. change (same (bytes "ddmax") (bytes "rddmin")) with false.
    change (starts_with (bytes "srddmin") (bytes "ddmax")) with false. change (starts_with (bytes "drddmin") (bytes "ddmax")) with false. change (same (bytes "ddmax") (bytes "ddmax")) with true.
    cbv iota zeta. fold nb. rewrite (ERUN fuel Hf). reflexivity. }
  split; [exact Nk|]. split; [intros x Hx; apply HinS, Ik, Hx|]. split.
  - apply ACd; [exact Sk|apply (group_length S LS); assumption|exact PK].
  - intros x Hx Hnx. apply HinS in Hx. destruct (MK (line_of a2l x) (in_map _ _ _ Hx)) as (morel & M1 & M2 & M3 & M4).
    { intros H. apply Hnx. apply (in_line a2l Ha S HS x kept Ik Hx). exact H. }
    destruct (group_of a2l S morel M2) as (more & -> & Im). pose proof (nodup_lines a2l _ M1) as Nm. intros H.
    refine (proj1 (AC more (in_space_of S HS more Im) (group_length S LS more Nm Im)) M4 _). apply (AX (x :: kept)); [|exact H]. intros y. split.
    + intros Hy. assert (Iy : In y S) by (destruct Hy as [<-|Hy]; [exact Hx|apply Ik; exact Hy]). apply (in_line a2l Ha S HS y more Im Iy). apply M3.
      destruct Hy as [<-|Hy]; [left; reflexivity|right; apply in_map; exact Hy].
    + intros Hy. pose proof (Im y Hy) as Iy. destruct (proj1 (M3 (line_of a2l y)) (in_map _ _ _ Hy)) as [E|E].
      * left. rewrite List.Forall_forall in HS. symmetry. apply (line_inj a2l Ha); [apply HS; exact Iy|apply HS; exact Hx|exact E].
      * right. apply (in_line a2l Ha S HS y kept Ik Iy). exact E.
Qed.
Print Assumptions C94_maximal_set.

(** if the fully instrumented program passes every sample the tool says so and reports nothing (exit 42), with every algorithm *)
Theorem C94_nothing_to_debug : forall py_int lg executable prog listdir a2l trace argv env c fuel,
  (forall n, 1 <= n -> 0 <= lg n) -> (forall l, Permutation (listdir l) l) -> answers a2l -> (forall f g i, (forall a, f a = g a) -> prog f i = prog g i) ->
  Forall in_space trace -> Z.of_nat (length trace) <= max_inserts ->
  ddconfig py_int executable argv env = Ret c -> 1 <= nb_run c -> max_proc c = None -> (1 <= fuel)%nat ->
  (forall i, (i < Z.to_nat (nb_run c))%nat -> prog (fun a => existsb (Z.eqb a) trace) i = true) ->
  exists st ds st', dd_init None None true = Ok st /\ dd_run st trace = Ok (ds, st') /\
    vfc_ddebug py_int lg executable prog listdir argv env true [generate a2l (dd_must st') []] true fuel disk0 = Quit.
Proof.
  intros py_int lg executable prog listdir a2l trace argv env c fuel Hlg Hls Ha Hext Ht HN Hc Hn Hp Hfuel HA.
  pose proof (proj1 (C93_command_line _ _ _ _ _) Hc) as (_ & _ & _ & Hdesc). apply described_words in Hdesc as (W1 & W2 & W3 & W4).
  destruct (reference a2l trace Ha Ht HN) as (st & ds & st' & S & E1 & E2 & NS & HS & HinS & LS & ER). set (nb := Z.to_nat (nb_run c)) in *.
  exists st, ds, st'. split; [exact E1|]. split; [exact E2|].
  unfold vfc_ddebug. rewrite Hc. cbn [pbind negb]. rewrite merge_one. cbn [pbind]. rewrite ER. unfold run_dd, get_dd_algo. rewrite Hp. fold nb. cbv zeta.
  pose proof (seq_test_like bytes_dec bytes_dec config_name (sample_of prog) (map (line_of a2l) S) listdir Hls) as TL.
  assert (G : good (map (line_of a2l) S) (map (line_of a2l) S)) by (split; [apply delta0_nodup; assumption|intros x; auto]).
  destruct (tl_test _ _ _ _ TL nb (map (line_of a2l) S) disk0 (disk0_ok _) G) as (v & d1 & ET & _ & _ & Hv & _).
  assert (NF : ~ fails config_name (sample_of prog) nb (map (line_of a2l) S) disk0).
  { intros H. apply (proj1 (failing_sites a2l Ha prog Hext nb S HS LS)) in H. apply H. apply (accepted_ext prog Hext nb trace); [intros x; rewrite HinS; reflexivity|exact HA]. }
  assert (Ev : is_fail v = false) by (destruct (is_fail v) eqn:E; [exfalso; apply NF, Hv; reflexivity|reflexivity]).
  destruct (rddmin_table lg Hlg c Hn W3) as (t & Et & T1 & T2 & T3). destruct (split_table lg Hlg c Hn W4) as (u & Eu & U). fold nb in T2.
  assert (T1' : map Z.to_nat t <> []) by (destruct t; [congruence|discriminate]).
  cbn [In] in W1. destruct W1 as [<-|[<-|[]]].
  - change (ends_with (bytes "rddmin") (bytes "ddmax")) with false. change (same (bytes "ddmax") (bytes "rddmin")) with false.
    change (starts_with (bytes "srddmin") (bytes "ddmax")) with false. change (starts_with (bytes "drddmin") (bytes "ddmax")) with false. change (same (bytes "ddmax") (bytes "ddmax")) with true.
    cbv iota. unfold DDMax, dd_max.
    destruct (tl_test _ _ _ _ TL nb [] disk0 (disk0_ok _) (good_nil _)) as (v0 & d0 & E0 & Hd0 & X0 & Hv0 & _). rewrite E0. cbn [pbind]. destruct (is_fail v0) eqn:Ev0; [reflexivity|].
    destruct fuel as [|fuel]; [lia|]. cbn [ddmax_loop].
    destruct (tl_test _ _ _ _ TL nb (map (line_of a2l) S) d0 Hd0 G) as (v1 & d2 & E3 & _ & _ & Hv1 & _). rewrite E3. cbn [pbind].
    destruct (is_fail v1) eqn:Ev1; [|reflexivity]. exfalso. apply NF. apply X0; [lia|]. apply Hv1. reflexivity.
  - change (ends_with (bytes "rddmin") (bytes "rddmin")) with true. cbv iota. cbn [In] in W2. destruct W2 as [<-|[<-|[<-|[]]]].
    + change (same (bytes "s" ++ bytes "rddmin") (bytes "rddmin")) with false. change (starts_with (bytes "srddmin") (bytes "s" ++ bytes "rddmin")) with true. cbv iota.
      rewrite Et. cbn [pbind]. unfold SRDDMin. rewrite T2, ET. cbn [pbind]. rewrite Ev. destruct (map Z.to_nat t); [congruence|reflexivity].
    + change (same (bytes "d" ++ bytes "rddmin") (bytes "rddmin")) with false. change (starts_with (bytes "srddmin") (bytes "d" ++ bytes "rddmin")) with false.
      change (starts_with (bytes "drddmin") (bytes "d" ++ bytes "rddmin")) with true. cbv iota. rewrite Et, Eu. cbn [pbind].
      unfold DRDDMin. rewrite T2, ET. cbn [pbind]. rewrite Ev. destruct (map Z.to_nat t); [congruence|reflexivity].
    + change (same (bytes "" ++ bytes "rddmin") (bytes "rddmin")) with true. cbv iota. unfold RDDMin. rewrite ET. cbn [pbind]. rewrite Ev. reflexivity.
Qed.
Print Assumptions C94_nothing_to_debug.

(** DD_DICHO_GRANULARITY=1 is accepted (it is documented as any int): with the default algorithm the tool never ends, on every
    program that fails and executes two sites *)
Theorem C94_granularity_one_refuted : forall py_int lg executable prog listdir a2l trace argv env c a b,
  (forall n, 1 <= n -> 0 <= lg n) -> (forall l, Permutation (listdir l) l) -> answers a2l -> (forall f g i, (forall a, f a = g a) -> prog f i = prog g i) ->
  Forall in_space trace -> Z.of_nat (length trace) <= max_inserts -> In a trace -> In b trace -> a <> b ->
  ddconfig py_int executable argv env = Ret c -> dd_algo c = bytes "rddmin" -> rddmin_variant c = bytes "d" -> 1 <= nb_run c -> max_proc c = None -> split_granularity c = 1 ->
  ~ (forall i, (i < Z.to_nat (nb_run c))%nat -> prog (fun a => existsb (Z.eqb a) trace) i = true) ->
  exists st ds st', dd_init None None true = Ok st /\ dd_run st trace = Ok (ds, st') /\
    forall fuel, vfc_ddebug py_int lg executable prog listdir argv env true [generate a2l (dd_must st') []] true fuel disk0 = NoFuel.
Proof.
  intros py_int lg executable prog listdir a2l trace argv env c a b Hlg Hls Ha Hext Ht HN Hia Hib Hab Hc Halgo Hvar Hn Hp Hg HF.
  pose proof (proj1 (C93_command_line _ _ _ _ _) Hc) as (_ & _ & _ & Hdesc). apply described_words in Hdesc as (_ & _ & W3 & W4).
  destruct (reference a2l trace Ha Ht HN) as (st & ds & st' & S & E1 & E2 & NS & HS & HinS & LS & ER). set (nb := Z.to_nat (nb_run c)) in *.
  exists st, ds, st'. split; [exact E1|]. split; [exact E2|]. intros fuel.
  unfold vfc_ddebug. rewrite Hc. cbn [pbind negb]. rewrite merge_one. cbn [pbind]. rewrite ER. unfold run_dd, get_dd_algo. rewrite Hp, Halgo, Hvar, Hg. fold nb. cbv zeta.
  change (ends_with (bytes "rddmin") (bytes "rddmin")) with true. cbv iota.
  change (same (bytes "d" ++ bytes "rddmin") (bytes "rddmin")) with false. change (starts_with (bytes "srddmin") (bytes "d" ++ bytes "rddmin")) with false.
  change (starts_with (bytes "drddmin") (bytes "d" ++ bytes "rddmin")) with true. cbv iota.
  destruct (rddmin_table lg Hlg c Hn W3) as (t & Et & T1 & T2 & T3). destruct (split_table lg Hlg c Hn W4) as (u & Eu & U). rewrite Et, Eu. cbn [pbind]. fold nb in T2.
  assert (U1 : u <> []).
  { intros ->. revert Eu. unfold get_split_tab. destruct (same (dicho_tab c) (bytes "exp")).
    { destruct (exponential_good lg (nb_run c) Hn (Hlg _ Hn)) as (x & -> & N & _). congruence. }
    destruct (same (dicho_tab c) (bytes "all")).
    { intros H. injection H as H. assert (X : In 0 (range 0 (nb_run c))) by (apply in_range; lia). rewrite H in X. destruct X. }
    destruct (same (dicho_tab c) (bytes "single")); [discriminate|]. destruct (same (dicho_tab c) (bytes "half")); discriminate. }
  pose proof (seq_test_like bytes_dec bytes_dec config_name (sample_of prog) (map (line_of a2l) S) listdir Hls) as TL.
  assert (G : good (map (line_of a2l) S) (map (line_of a2l) S)) by (split; [apply delta0_nodup; assumption|intros x; auto]).
  destruct (tl_test _ _ _ _ TL nb (map (line_of a2l) S) disk0 (disk0_ok _) G) as (v & d1 & ET & Hd1 & _ & Hv & HK).
  assert (Ev : is_fail v = true).
  { apply Hv. apply (proj1 (failing_sites a2l Ha prog Hext nb S HS LS)). intros H. apply HF. apply (accepted_ext prog Hext nb S trace); [exact HinS|exact H]. }
  specialize (HK Ev). assert (L2 : (2 <= length S)%nat).
  { apply HinS in Hia, Hib. destruct S as [|x [|y S]]; [destruct Hia|destruct Hia as [<-|[]], Hib as [<-|[]]; congruence|cbn; lia]. }
  destruct (map Z.to_nat t) as [|t0 tl] eqn:Em; [destruct t; [congruence|discriminate]|]. unfold DRDDMin. cbv beta iota zeta. rewrite T2, ET. cbn [pbind]. rewrite Ev. cbn [negb].
  destruct u as [|u0 ul]; [congruence|]. unfold SsplitDeltas. cbn [map ssplit split_each]. rewrite map_length. replace (Nat.eqb (length S) 1) with false by (symmetry; apply Nat.eqb_neq; lia).
  rewrite (C62_granularity_one_refuted bytes_dec bytes_dec config_name (sample_of prog) (map (line_of a2l) S) listdir Hls nb (map (line_of a2l) S) d1 (Z.to_nat u0) Hd1 G); [reflexivity|rewrite map_length; exact L2|apply HK].
Qed.
Print Assumptions C94_granularity_one_refuted.

(** files of several processes (or several runs): the merged list has the lines of all of them, each once if no file repeats one *)
(** A report is only made with a reference run that succeeded, left its list and that the comparison script accepts against
    itself; it is a maximal set exactly when DD_ALGO is ddmax. *)
Theorem C94_report_conditions : forall py_int lg executable prog listdir argv env ref_ok files cmp_ok fuel d r d',
  vfc_ddebug py_int lg executable prog listdir argv env ref_ok files cmp_ok fuel d = Ret (r, d') ->
  ref_ok = true /\ cmp_ok = true /\ files <> [] /\ (exists c, ddconfig py_int executable argv env = Ret c) /\
  (var env "DD_ALGO" = Some (bytes "ddmax") <-> exists kept, r = Maximal kept).
Proof.
  intros py_int lg executable prog listdir argv env ref_ok files cmp_ok fuel d r d' H. unfold vfc_ddebug in H.
  apply pbind_ret in H as (c & Ec & H). destruct ref_ok; [|discriminate]. cbn [negb] in H. apply pbind_ret in H as (m & Em & H). destruct cmp_ok; [|discriminate]. cbn [negb] in H.
  split; [reflexivity|]. split; [reflexivity|]. split; [destruct files; [discriminate|congruence]|]. split; [eauto|].
  pose proof Ec as Hd. apply C93_command_line in Hd as (_ & _ & _ & Hd). destruct (described_words _ _ _ Hd) as (Ha & Hv & _ & _).
  assert (AL : var env "DD_ALGO" = Some (bytes "ddmax") <-> dd_algo c = bytes "ddmax").
  { destruct Hd as [_ _ H3 _ _ _ _ _ _]. split.
    - intros E. destruct H3 as [[K _]|(t & K & Hin)]; [congruence|]. rewrite E in K. injection K as <-. cbn [In] in Hin. destruct Hin as [Q|[Q|[]]]; [exact (eq_sym (f_equal snd Q))|apply (f_equal fst) in Q; discriminate].
    - intros E. rewrite E in H3. destruct H3 as [[_ K]|(t & K & Hin)]; [discriminate|]. cbn [In] in Hin. destruct Hin as [Q|[Q|[]]]; [|apply (f_equal snd) in Q; discriminate].
      apply (f_equal fst) in Q. cbn [fst] in Q. rewrite K, <- Q. reflexivity. }
  rewrite AL. clear AL Hd. unfold run_dd, get_dd_algo in H.
  cbn [In] in Ha. destruct Ha as [Ha|[Ha|[]]].
  - rewrite <- Ha in H |- *. change (ends_with (bytes "rddmin") (bytes "ddmax")) with false in H. cbn iota in H. change (same (bytes "ddmax") (bytes "rddmin")) with false in H.
    change (starts_with (bytes "srddmin") (bytes "ddmax")) with false in H. change (starts_with (bytes "drddmin") (bytes "ddmax")) with false in H. change (same (bytes "ddmax") (bytes "ddmax")) with true in H. cbn iota in H.
    apply pbind_ret in H as ([kept d1] & _ & E). injection E as <- _. split; [eauto|reflexivity].
  - rewrite <- Ha in H |- *. change (ends_with (bytes "rddmin") (bytes "rddmin")) with true in H. cbn iota in H.
    assert (exists tab, r = Minimal tab) as [tab ->].
    { cbn [In] in Hv. destruct Hv as [Hv|[Hv|[Hv|[]]]]; rewrite <- Hv in H.
      - change (same (bytes "s" ++ bytes "rddmin") (bytes "rddmin")) with false in H. change (starts_with (bytes "srddmin") (bytes "s" ++ bytes "rddmin")) with true in H. cbn iota in H.
        apply pbind_ret in H as (t & _ & H). apply pbind_ret in H as ([tab d1] & _ & H). apply pbind_ret in H as ([x d2] & _ & H). injection H as <- _. eauto.
      - change (same (bytes "d" ++ bytes "rddmin") (bytes "rddmin")) with false in H. change (starts_with (bytes "srddmin") (bytes "d" ++ bytes "rddmin")) with false in H.
        change (starts_with (bytes "drddmin") (bytes "d" ++ bytes "rddmin")) with true in H. cbn iota in H.
        apply pbind_ret in H as (t & _ & H). apply pbind_ret in H as (u & _ & H). apply pbind_ret in H as ([tab d1] & _ & H). apply pbind_ret in H as ([x d2] & _ & H). injection H as <- _. eauto.
      - change (same (bytes "" ++ bytes "rddmin") (bytes "rddmin")) with true in H. cbn iota in H. apply pbind_ret in H as ([tab d1] & _ & H). apply pbind_ret in H as ([x d2] & _ & H). injection H as <- _. eauto. }
    split; [discriminate|intros (? & ?); discriminate].
Qed.
Print Assumptions C94_report_conditions.

Lemma readlines_whole ls : Forall (fun l => exists p, l = p ++ [newline] /\ ~ In newline p) ls -> readlines (concat ls) = ls.
Proof.
  induction 1 as [|l ls (p & -> & Hp) _ IH]; [reflexivity|]. cbn [concat]. rewrite <- app_assoc. cbn [app]. rewrite readlines_line, IH; [reflexivity|].
  apply List.Forall_forall. intros c Hc ->. contradiction.
Qed.
Theorem C94_merged_list : forall files, files <> [] ->
  (forall f, In f files -> exists ls, f = concat ls /\ List.NoDup ls /\ Forall (fun l => exists p, l = p ++ [newline] /\ ~ In newline p) ls) ->
  exists text, merge_list files = Ret text /\ List.NoDup (readlines text) /\ forall l, In l (readlines text) <-> exists f, In f files /\ In l (readlines f).
Proof.
  intros [|f fs] Hne HF; [congruence|]. unfold merge_list. eexists. split; [reflexivity|].
  set (whole := fun l => exists p, l = p ++ [newline] /\ ~ In newline p) in *. set (step := fun acc line => if in_dec bytes_dec line acc then acc else acc ++ [line]).
  assert (ST : forall lines acc, Forall whole lines -> Forall whole acc -> List.NoDup acc ->
    Forall whole (fold_left step lines acc) /\ List.NoDup (fold_left step lines acc) /\ forall l, In l (fold_left step lines acc) <-> In l acc \/ In l lines).
  { induction lines as [|x lines IH]; intros acc H1 H2 H3; [cbn; split; [exact H2|]; split; [exact H3|]; tauto|]. inversion H1 as [|? ? Hx H1']; subst. cbn [fold_left].
    unfold step at 2 4 6. destruct (in_dec bytes_dec x acc) as [I|I].
    - destruct (IH acc H1' H2 H3) as (A & B & C). split; [exact A|]. split; [exact B|]. intros l. rewrite C. cbn. split; [tauto|]. intros [H|[<-|H]]; auto.
    - destruct (IH (acc ++ [x]) H1') as (A & B & C).
      + apply List.Forall_app. auto.
      + apply NoDup_ListNoDup, NoDup_app. split; [apply NoDup_ListNoDup; exact H3|]. split; [|apply NoDup_singleton]. intros y Hy Hy'. apply elem_of_list_singleton in Hy' as ->. apply I. apply elem_of_list_In. exact Hy.
      + split; [exact A|]. split; [exact B|]. intros l. rewrite C, in_app_iff. cbn. tauto. }
  assert (L : forall g, In g (f :: fs) -> Forall whole (readlines g) /\ List.NoDup (readlines g)).
  { intros g Hg. destruct (HF g Hg) as (ls & -> & N & W). rewrite readlines_whole by exact W. auto. }
  assert (LS : Forall whole (concat (map readlines fs))).
  { apply List.Forall_forall. intros l Hl. apply in_concat in Hl as (x & Hx & Hl). apply in_map_iff in Hx as (g & <- & Hg). destruct (L g (or_intror Hg)) as [W _].
    rewrite List.Forall_forall in W. auto. }
  destruct (L f (or_introl eq_refl)) as [Wf Nf]. destruct (ST _ _ LS Wf Nf) as (A & B & C). rewrite readlines_whole by exact A. split; [exact B|].
  intros l. rewrite C. split.
  - intros [H|H]; [exists f; split; [left; reflexivity|exact H]|]. apply in_concat in H as (x & Hx & H). apply in_map_iff in Hx as (g & <- & Hg). exists g. split; [right; exact Hg|exact H].
  - intros (g & [<-|Hg] & H); [left; exact H|]. right. apply in_concat. exists (readlines g). split; [apply in_map; exact Hg|exact H].
Qed.
Print Assumptions C94_merged_list.

(** * Examples *)
Definition ex_a2l (x : Z) : list Z := entry_line (hex16 x, bytes ": f at x.c:1").
(** DD_NRUNS is "3", the other variables are unset *)
Definition ex_env (k : list Z) : option (list Z) := if same k (bytes "INTERFLOP_DD_NRUNS") then Some (bytes "3") else None.
Definition ex_int (t : list Z) : option Z := match t with [d] => if (48 <=? d) && (d <=? 57) then Some (d - 48) else None | _ => None end.
Definition ex_argv : list (list Z) := [bytes "vfc_ddebug"; bytes "./ddRun"; bytes "./ddCmp"].
Definition ex_trace : list Z := [0x40113b; 0x401155; 0x40113b; 0x401170; 0x401190].
(** fails when the first two sites are instrumented together, in the third run, and when the last site is *)
Definition ex_prog (f : Z -> bool) (i : nat) : bool := negb ((f 0x40113b && f 0x401155 && Nat.eqb i 2) || f 0x401190).
Definition ex_reference : list (list Z) :=
  match dd_init None None true with Ok st => match dd_run st ex_trace with Ok (_, st') => [generate ex_a2l (dd_must st') []] | _ => [] end | _ => [] end.

Example C93_nonvacuous : exists c, ddconfig ex_int (fun _ => true) ex_argv ex_env = Ret c /\ nb_run c = 3 /\ get_dd_algo c = bytes "drddmin" /\
  get_rddmin_tab Z.log2 c = Ret [1; 3] /\ get_split_tab Z.log2 c = Ret [2] /\
  read_environ ex_int (fun k => if same k (bytes "INTERFLOP_DD_DICHO_TAB") then Some (bytes "3") else None) default_settings = Quit.
Proof. eexists. split; [vm_compute; reflexivity|]. vm_compute. repeat split. Qed.

Definition reported (r : py (report * disk (K := list Z))) : option report := match r with Ret (r, _) => Some r | _ => None end.
Example C94_nonvacuous : exists c, ddconfig ex_int (fun _ => true) ex_argv ex_env = Ret c /\ answers ex_a2l /\ (forall n, 1 <= n -> 0 <= Z.log2 n) /\
  (forall f g i, (forall a, f a = g a) -> ex_prog f i = ex_prog g i) /\ Forall in_space ex_trace /\ Z.of_nat (length ex_trace) <= max_inserts /\
  dd_algo c = bytes "rddmin" /\ 1 <= nb_run c /\ max_proc c = None /\ 2 <= split_granularity c /\
  ~ (forall i, (i < Z.to_nat (nb_run c))%nat -> ex_prog (fun a => existsb (Z.eqb a) ex_trace) i = true) /\
  (forall i, (i < Z.to_nat (nb_run c))%nat -> ex_prog (fun a => existsb (Z.eqb a) []) i = true) /\
  reported (vfc_ddebug ex_int Z.log2 (fun _ => true) ex_prog (fun l => l) ex_argv ex_env true ex_reference true 60 disk0) =
    Some (Minimal [[ex_a2l (0x401190 - 5)]; [ex_a2l (0x40113b - 5); ex_a2l (0x401155 - 5)]]).
Proof.
  eexists. split; [vm_compute; reflexivity|]. split; [exact ex_answers|]. split; [intros n _; apply Z.log2_nonneg|].
  split; [intros f g i H; unfold ex_prog; rewrite !H; reflexivity|]. split; [repeat constructor; vm_compute; congruence|]. split; [vm_compute; congruence|].
  split; [reflexivity|]. split; [vm_compute; congruence|]. split; [reflexivity|]. split; [vm_compute; congruence|].
  split; [intros H; specialize (H 0%nat ltac:(vm_compute; lia)); vm_compute in H; discriminate|]. split; [intros i Hi; reflexivity|].
  vm_compute. reflexivity.
Qed.

(** the directories of earlier sessions are not removed (only dd.line/ref is): a failure recorded for an older version of the
    program is reported for a program that passes every sample whatever is instrumented *)
Theorem C94_stale_results_refuted : exists d tab, (forall k l i b, d k = Some l -> In (i, b) l -> exists old : (Z -> bool) -> nat -> bool, b = Some (sample_of old k i)) /\
  reported (vfc_ddebug ex_int Z.log2 (fun _ => true) (fun _ _ => true) (fun l => l) ex_argv ex_env true ex_reference true 60 d) = Some (Minimal tab) /\ tab <> [].
Proof.
  exists (fun k => if same k (config_name (map ex_a2l (map (fun a => a - call_op_size) [0x40113b; 0x401155; 0x401170; 0x401190]))) then Some [(0%nat, Some false)] else None).
  eexists. split.
  - intros k l i b H Hin. exists (fun _ _ => false). destruct (same k _); [|discriminate]. injection H as <-. destruct Hin as [[= <- <-]|[]]. reflexivity.
  - split; [vm_compute; reflexivity|discriminate].
Qed.
Print Assumptions C94_stale_results_refuted.
