(** C92: the compiler driver with a PRISM backend (verificarlo.in.in L189-200, L290-304), against the options of the PRISM pass. *)
From Coq Require Import String ZArith List Bool Lia.
From Verif Require Import Common Text DriverModel DriverRun DriverTrace DriverWords Prop_Driver.
From Verif Require PrismModel.
Import ListNotations.
Open Scope Z_scope.

(** the word is not an option of the pass, or one that the pass declares *)
Definition accepted (w : list Z) : Prop := forall x, w = b_ "-vfclibinst-" ++ x -> In (b_ "vfclibinst-" ++ x) PrismModel.declared_options.
Lemma accepted_hd w : hd 0 w <> 45 -> accepted w.
Proof. intros H x ->. elim H. reflexivity. Qed.
Lemma accepted_path w : hd 0 w = 47 -> accepted w.
Proof. intros H. apply accepted_hd. rewrite H. discriminate. Qed.
Definition acceptable (w : list Z) : bool := negb (DriverModel.same (firstn 12 w) (b_ "-vfclibinst-")) || existsb (fun o => DriverModel.same o (tl w)) PrismModel.declared_options.
Lemma accepted_if w : acceptable w = true -> accepted w.
Proof.
  intros H x ->. unfold acceptable in H. replace (DriverModel.same (firstn 12 (b_ "-vfclibinst-" ++ x)) (b_ "-vfclibinst-")) with true in H by reflexivity. cbn [negb orb] in H.
  apply existsb_exists in H. destruct H as (o & Ho & E). unfold DriverModel.same in E. destruct (list_eq_dec Z.eq_dec o (tl (b_ "-vfclibinst-" ++ x))) as [-> |]; [exact Ho|discriminate].
Qed.
Lemma not_accepted w : acceptable w = false -> ~ accepted w.
Proof.
  intros H A. unfold acceptable in H. apply orb_false_iff in H. destruct H as [H1 H2]. apply negb_false_iff in H1. unfold DriverModel.same in H1.
  destruct (list_eq_dec Z.eq_dec (firstn 12 w) (b_ "-vfclibinst-")) as [E|]; [|discriminate]. specialize (A (skipn 12 w)). rewrite <- E, firstn_skipn in A. specialize (A eq_refl).
  assert (T : tl w = b_ "vfclibinst-" ++ skipn 12 w). { rewrite <- (firstn_skipn 12 w) at 1. rewrite E. reflexivity. }
  rewrite <- T in A. assert (X : existsb (fun o => DriverModel.same o (tl w)) PrismModel.declared_options = true); [|congruence].
  apply existsb_exists. exists (tl w). split; [exact A|]. unfold DriverModel.same. destruct (list_eq_dec Z.eq_dec (tl w) (tl w)); congruence.
Qed.
Ltac words := repeat first [assumption | apply Forall_app; split | apply Forall_on | apply Forall_cons | apply Forall_nil | solve [apply accepted_if; vm_compute; reflexivity] | solve [apply accepted_path; first [assumption | apply hd_app; [assumption | lia]]]].
Section words.
  Context (c : config) (a : args) (T : tidy c a) (G : good_prism a) (mode : list Z) (Ep : a_prism a = Some mode).
  Lemma words_accepted wr input out : hd 0 input = 47 -> hd 0 out = 47 -> a_fcmp a = false -> a_cast a = false -> Forall accepted (mca_words c a wr input out).
  Proof.
    intros Hi Ho Ef Ec. destruct (paths c a T) as (K1 & K2 & K3 & K4 & K5 & K6 & K7 & K8 & K9 & K10). destruct (values c a T) as (V1 & V2 & V3 & V4).
    assert (S : Forall accepted (select_words a)).
    { unfold select_words. destruct (given (a_function a)); [words; apply accepted_hd; auto|]. destruct (given (a_include a)), (given (a_exclude a)); cbn [on]; words; apply accepted_hd; auto. }
    assert (P : Forall accepted (prism_words c a mode)).
    { destruct G as [HD HM]. unfold prism_words. assert (M : accepted mode) by (destruct (HM mode Ep) as [-> | ->]; apply accepted_if; vm_compute; reflexivity).
      assert (D : accepted (if a_dynamic a then b_ "dynamic" else b_ "static")) by (destruct (a_dynamic a); apply accepted_if; vm_compute; reflexivity). words.
      assert (X : Forall accepted (concat (map (fun d => match d with [] => [] | _ => [b_ "-vfclibinst-debug-" ++ d] end) (a_debug a)))).
      { clear - HD. induction HD as [|d l Hd HD IH]; [constructor|]. cbn [map concat]. apply Forall_app. split; [|exact IH]. unfold oneof in Hd. apply existsb_exists in Hd. destruct Hd as (y & Hy & E).
        unfold DriverModel.same in E. destruct (list_eq_dec Z.eq_dec d y) as [-> |]; [|discriminate]. unfold debug_choices in Hy. cbn [map In] in Hy.
        destruct Hy as [<- |[<- |[<- |[<- |[]]]]]; first [apply Forall_nil | apply Forall_cons; [apply accepted_if; vm_compute; reflexivity | apply Forall_nil]]. }
      destruct (a_debug a) as [|d l]; [constructor|]. constructor; [apply accepted_if; vm_compute; reflexivity|exact X]. }
    unfold mca_words. rewrite Ep, Ef, Ec. cbn [on app]. unfold pass_words. destruct (17 <=? c_version c); words.
  Qed.
  Lemma words_mode wr input out : exists l r, mca_words c a wr input out = l ++ [b_ "-vfclibinst-mode"; mode; b_ "-vfclibinst-dispatch"; if a_dynamic a then b_ "dynamic" else b_ "static";
    b_ "-vfclibinst-prism-static-ir-file"; c_prismdir c ++ b_ "/prism-static.ll"; b_ "-vfclibinst-prism-dynamic-ir-file"; c_prismdir c ++ b_ "/prism-dynamic.ll"] ++ r.
  Proof.
    unfold mca_words. rewrite Ep. unfold prism_words.
    match goal with |- exists l r, ?A ++ ?B ++ ?C ++ ?D ++ ?E ++ ?F ++ ?G ++ (?h ++ ?t) ++ ?K = _ => exists (A ++ B ++ C ++ D ++ E ++ F ++ G), (t ++ K) end.
    rewrite <- !app_assoc. reflexivity.
  Qed.
  Lemma words_not_strict wr input out : hd 0 input = 47 -> hd 0 out = 47 -> a_strict a = false -> ~ In (b_ "-vfclibinst-strict-abi") (mca_words c a wr input out).
  Proof.
    intros Hi Ho E. destruct (paths c a T) as (K1 & K2 & K3 & K4 & K5 & K6 & K7 & K8 & K9 & K10). apply not_in_other.
    assert (S : Forall (other (b_ "-vfclibinst-strict-abi")) (select_words a)) by (apply (select_other c a T); [reflexivity | lits | lits | lits]).
    assert (P : Forall (other (b_ "-vfclibinst-strict-abi")) (prism_words c a mode)).
    { destruct G as [HD HM]. unfold prism_words. rewrite E. cbn [on app].
      assert (M : other (b_ "-vfclibinst-strict-abi") mode) by (destruct (HM mode Ep) as [-> | ->]; lits).
      assert (D : other (b_ "-vfclibinst-strict-abi") (if a_dynamic a then b_ "dynamic" else b_ "static")) by (destruct (a_dynamic a); lits).
      assert (Q : forall y, other (b_ "-vfclibinst-strict-abi") (c_prismdir c ++ y)) by (intro y; apply other_path; [reflexivity | apply hd_app; [assumption | lia]]).
      assert (X : Forall (other (b_ "-vfclibinst-strict-abi")) (concat (map (fun d => match d with [] => [] | _ => [b_ "-vfclibinst-debug-" ++ d] end) (a_debug a)))).
      { clear - HD. induction HD as [|d l Hd HD IH]; [constructor|]. cbn [map concat]. apply Forall_app. split; [|exact IH]. destruct d; [constructor|]. constructor; [intro H; apply (f_equal (fun l => nth 12 l 0)) in H; discriminate H|constructor]. }
      destruct (a_debug a) as [|d l]; others idtac; try lits; try apply Q. }
    assert (L : Forall (other (b_ "-vfclibinst-strict-abi")) (pass_words c (b_ "vfclibinst") (c_libdir c ++ b_ "/libvfcinstrumentprism.so"))) by (apply pass_other; [reflexivity | apply hd_app; [assumption | lia] | lits | lits | lits | lits | lits]).
    unfold mca_words. rewrite Ep. others ltac:(apply other_path; [reflexivity | assumption]).
  Qed.
End words.

Definition dispatching (a : args) : list Z := if a_dynamic a then b_ "dynamic" else b_ "static".
(** what a value of --prism-backend asks for *)
Definition asks (y : list Z) (r : PrismModel.rounding) : Prop :=
  (y = b_ "ud" \/ y = b_ "up-down") /\ r = PrismModel.UpDown \/ (y = b_ "sr" \/ y = b_ "stochastic-rounding") /\ r = PrismModel.StochasticRounding.
Lemma asked argv a extras mode : parse argv None no_args [] = Got (a, extras) -> a_prism a = Some mode -> exists y r, last_of VPrism y argv /\ asks y r /\ PrismModel.rounding_of mode = Ok r.
Proof.
  intros H Em. destruct (parse_last argv a extras VPrism H) as [[E _] | (y & [] & a1 & L & Es & E)]; cbn [field] in E; rewrite Em in E; [discriminate |].
  exists y. cbn [set_value] in Es. apply (f_equal (fun p => fst (fst p))) in E. cbn [fst] in E.
  destruct (same y (b_ "ud") || same y (b_ "up-down")) eqn:E1; [| destruct (same y (b_ "sr") || same y (b_ "stochastic-rounding")) eqn:E2; [| discriminate]]; injection Es as <-; cbn in E; injection E as ->.
  - exists PrismModel.UpDown. split; [exact L |]. split; [| vm_compute; reflexivity]. left. split; [| reflexivity]. apply orb_true_iff in E1. rewrite !same_iff in E1. exact E1.
  - exists PrismModel.StochasticRounding. split; [exact L |]. split; [| vm_compute; reflexivity]. right. split; [| reflexivity]. apply orb_true_iff in E2. rewrite !same_iff in E2. exact E2.
Qed.
Lemma dispatched argv a extras : parse argv None no_args [] = Got (a, extras) -> last_of VDispatch (dispatching a) argv \/ Forall (fun x => ~ mentions VDispatch x) argv /\ dispatching a = b_ "dynamic".
Proof.
  intros H. unfold dispatching. destruct (parse_last argv a extras VDispatch H) as [[E F] | (y & [] & a1 & L & Es & E)]; cbn [field] in E; apply (f_equal snd) in E; cbn [snd] in E; rewrite E.
  - right. split; [exact F | reflexivity].
  - left. cbn [set_value] in Es. destruct (same y (b_ "dynamic")) eqn:E1; [| destruct (same y (b_ "static")) eqn:E2; [| discriminate]]; injection Es as <-; cbn iota.
    + apply same_iff in E1. rewrite <- E1. exact L.
    + apply same_iff in E2. rewrite <- E2. exact L.
Qed.
(** With a PRISM backend every run of the pass of the operations loads the PRISM pass, with the mode of the last --prism-backend and the
    dispatching of the last --prism-backend-dispatch (dynamic without one), in the words of the pass; it reads the two IR files; the library
    linked is the one of that dispatching; the strict ABI option goes to the pass exactly when it is on the command line; and the pass
    accepts all its options exactly when neither --inst-fcmp nor --inst-cast is on the command line. *)
Theorem C92_driver_partial : forall c rnd ok argv a extras cmds tmps mode,
  parse argv None no_args [] = Got (a, extras) -> clean c rnd a extras -> tidy c a -> to_link a -> a_prism a = Some mode ->
  c_opt c <> linker_path c (a_linker a) -> c_opt c <> c_llvm_link c -> verificarlo c rnd ok argv = (Got tt, cmds, tmps) ->
  exists cs link y r m d dn, map sh_words cmds = map Some (cs ++ [link]) /\ last_of VPrism y argv /\ asks y r /\ PrismModel.rounding_of m = Ok r /\
  (last_of VDispatch dn argv \/ Forall (fun x => ~ mentions VDispatch x) argv /\ dn = b_ "dynamic") /\ PrismModel.dispatch_of dn = Ok d /\
  (exists s, In (b_ "-lprism-" ++ dn ++ s) link /\ (s = [] \/ s = b_ "-dbg")) /\
  forall w, In w cs -> runs c w "vfclibinst" ->
  In (c_libdir c ++ b_ "/libvfcinstrumentprism.so") w /\
  (exists l1 l2, w = l1 ++ [b_ "-vfclibinst-mode"; m; b_ "-vfclibinst-dispatch"; dn; b_ "-vfclibinst-prism-static-ir-file"; c_prismdir c ++ b_ "/prism-static.ll";
     b_ "-vfclibinst-prism-dynamic-ir-file"; c_prismdir c ++ b_ "/prism-dynamic.ll"] ++ l2) /\
  (In (b_ "--prism-backend-strict-abi") argv <-> In (b_ "-vfclibinst-strict-abi") w) /\
  (Forall accepted w <-> ~ In (b_ "--inst-fcmp") argv /\ ~ In (b_ "--inst-cast") argv).
Proof.
  intros c rnd ok argv a extras cmds tmps mode Hp Hc Ht Hl Ep N1 N2 Hrun.
  destruct (main_link c rnd ok argv a extras cmds tmps Hp Hc Hl Hrun) as (wi & wo & tms & wss & Etm & Ft & Fw & HB & HR).
  unfold no_prism in Fw, HR. rewrite Ep in Fw, HR. cbn [on app] in HR. pose proof (parse_prism argv a extras Hp) as G.
  assert (One := fun f s => one_spelling argv a extras f s Hp).
  destruct (asked argv a extras mode Hp Ep) as (y & r & A1 & A2 & A3).
  exists wss, (link_words c a (options extras) (libraries extras) (map object_of (sources extras)) wo), y, r, mode, (if a_dynamic a then PrismModel.Dynamic else PrismModel.Static), (dispatching a).
  split; [exact HR |]. split; [exact A1 |]. split; [exact A2 |]. split; [exact A3 |]. split; [exact (dispatched argv a extras Hp) |].
  split; [unfold dispatching; destruct (a_dynamic a); vm_compute; reflexivity |]. split.
  { exists (match a_debug a with [] => [] | _ => b_ "-dbg" end). split; [| destruct (a_debug a); auto].
    unfold link_words. rewrite Ep, !in_app_iff. do 6 right. left. left. unfold dispatching. destruct (a_dynamic a); reflexivity. }
  intros w Hw Hr. destruct (blocks_pass _ _ _ _ _ _ _ _ HB N1 N2 Ft w Hw (proj1 Hr)) as [(i & u & Ti & Tu & -> & _) | (i & u & Ti & Tu & ->)];
    apply (temp_hd c a Ht) in Ti; apply (temp_hd c a Ht) in Tu; [destruct (func_not_inst c a i u Ht Ti Tu Hr) |].
  split; [unfold mca_words, pass_words; rewrite Ep; destruct (17 <=? c_version c); rewrite !in_app_iff; cbn [In]; tauto |]. split; [| split].
  - apply words_mode. exact Ep.
  - rewrite (One FStrict "--prism-backend-strict-abi"%string eq_refl). cbn [has]. split.
    + intro E. unfold mca_words. rewrite Ep. unfold prism_words. rewrite E, !in_app_iff. cbn [on In]. tauto.
    + intro H. destruct (a_strict a) eqn:E; [reflexivity |]. exfalso. revert H. apply (words_not_strict c a Ht G mode Ep); assumption.
  - rewrite (One FFcmp "--inst-fcmp"%string eq_refl), (One FCast "--inst-cast"%string eq_refl). cbn [has]. split.
    + intro F. rewrite Forall_forall in F. split; intro E.
      * apply (not_accepted (b_ "-vfclibinst-inst-fcmp")); [vm_compute; reflexivity |]. apply F. unfold mca_words. rewrite E, !in_app_iff. cbn [on In]. tauto.
      * apply (not_accepted (b_ "-vfclibinst-inst-cast")); [vm_compute; reflexivity |]. apply F. unfold mca_words. rewrite E, !in_app_iff. cbn [on In]. tauto.
    + intros [E1 E2]. apply not_true_is_false in E1. apply not_true_is_false in E2. apply (words_accepted c a Ht G mode Ep); assumption.
Qed.
Print Assumptions C92_driver_partial.
Definition prism_line : list (list Z) := line ["--prism-backend=sr"; "--prism-backend-dispatch"; "static"; "a.c"; "--prism-backend-strict-abi"; "-O2"]%string.
Example C92_nonvacuous : exists a extras cmds tmps, parse prism_line None no_args [] = Got (a, extras) /\ clean demo names a extras /\ tidy demo a /\ to_link a /\ a_prism a = Some (b_ "stochastic-rounding") /\
  c_opt demo <> linker_path demo (a_linker a) /\ c_opt demo <> c_llvm_link demo /\ verificarlo demo names all_ok prism_line = (Got tt, cmds, tmps) /\
  exists w, sh_words (nth 1 cmds []) = Some w /\ runs demo w "vfclibinst" /\ In (b_ "-vfclibinst-strict-abi") w.
Proof.
  do 4 eexists. split; [vm_compute; reflexivity |].
  split; [split; [exact demo_plain | split; [discriminate | reflexivity] | exact names_ordinary | vm_compute | vm_compute | vm_compute |] |].
  - repeat first [apply Forall_cons | apply Forall_nil | split; [discriminate | reflexivity]].
  - repeat first [apply Forall_cons | apply Forall_nil]; vm_compute; intro H; repeat (destruct H as [H | H]; [discriminate |]); exact H.
  - repeat first [apply Forall_cons | apply Forall_nil | split; [discriminate | reflexivity]].
  - split; [discriminate |]. split; [intro; split; [discriminate | vm_compute; reflexivity] |]. split; discriminate.
  - split; [split; [repeat apply Forall_cons; try apply Forall_nil; reflexivity | reflexivity | right; eexists; reflexivity | repeat apply Forall_cons; try apply Forall_nil; intros; try discriminate] |].
    split; [repeat split |]. split; [reflexivity |]. split; [discriminate |]. split; [discriminate |]. split; [vm_compute; reflexivity |].
    eexists. split; [vm_compute; reflexivity |]. split; [split; [reflexivity | left; vm_compute; tauto] |]. vm_compute; tauto.
Qed.
(** --inst-fcmp (documented for every backend) with a PRISM backend: the driver gives the pass an option it does not have. *)
Definition fcmp_line : list (list Z) := line ["--prism-backend=sr"; "--inst-fcmp"; "a.c"]%string.
Theorem C92_fcmp_refuted : exists cmds tmps w x, verificarlo demo names all_ok fcmp_line = (Got tt, cmds, tmps) /\ sh_words (nth 1 cmds []) = Some w /\ runs demo w "vfclibinst" /\
  In (c_libdir demo ++ b_ "/libvfcinstrumentprism.so") w /\ In (b_ "-vfclibinst-" ++ x) w /\ ~ In (b_ "vfclibinst-" ++ x) PrismModel.declared_options.
Proof.
  do 3 eexists. exists (b_ "inst-fcmp"). split; [vm_compute; reflexivity |]. split; [vm_compute; reflexivity |]. split; [split; [reflexivity | left; vm_compute; tauto] |]. split; [vm_compute; tauto |].
  split; [vm_compute; tauto |]. intro H. vm_compute in H. repeat (destruct H as [H | H]; [discriminate |]). exact H.
Qed.
Print Assumptions C92_fcmp_refuted.
