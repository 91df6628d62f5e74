(** C110: the delta-debug filters and the list of call sites when the program has threads. *)
From Coq Require Import String ZArith List Bool Lia.
From stdpp Require Import base list numbers.
From Verif Require Import Common HashModel HashTable HashMapProofs DdebugModel DdebugProofs ConcHashModel ConcHashProofs Prop_Wrap.
Import ListNotations.
Open Scope Z_scope.

Lemma holds_wfh m S : holds_set m S -> wfh m.
Proof.
  intros [_ (n & HR)]. pose proof (mr_w _ _ _ _ HR) as Hw. pose proof (hw_len m n Hw). pose proof (pow2_range n (hw_n m n Hw)).
  pose proof (hw_mask _ _ Hw). pose proof (hw_cap _ _ Hw). unfold wfh. split; lia.
Qed.
Lemma mustnot_wfh st E : knows_excluded st E -> wfh (mustnot st).
Proof.
  unfold knows_excluded, mustnot. destruct E, (dd_exclude st) as [m|]; try tauto.
  - intros (S & H & _). eapply holds_wfh. exact H.
  - intros _. eapply holds_wfh. exact create_holds.
Qed.
Lemma rep_must st : rep (mem_of st) false 0 (dd_must st).
Proof. split; reflexivity. Qed.
Lemma rep_mustnot st : rep (mem_of st) true 1 (mustnot st).
Proof. split; reflexivity. Qed.
Lemma turns_count j sched : turns j sched = count_occ Nat.eq_dec sched j.
Proof. induction sched as [|i sched IH]; [reflexivity|]. cbn. rewrite IH. destruct (Nat.eq_dec i j); reflexivity. Qed.

Lemma witnesses {A B} (P : A -> B -> Prop) l : (forall x, x ∈ l -> exists y, P x y) -> exists l', Forall2 P l l'.
Proof.
  induction l as [|x l IH]; intros H; [exists []; constructor|]. destruct (H x ltac:(left)) as [y Hy].
  destruct IH as [l' Hl]; [intros z Hz; apply H; right; exact Hz|]. exists (y :: l'). constructor; assumption.
Qed.

(** With inclusion and exclusion files, any number of threads and any schedule of their memory accesses: no access is outside of a
    live block, the tables do not change, and a thread that has made N accesses is done and sent to the backends exactly the
    operations whose call site is in no exclusion line and, when there is an inclusion file, in one of its lines. *)
Theorem C110_filters_partial :
  forall (E I : option (list entry)), file_ok E -> file_ok I ->
  exists st F, dd_init (file_of E) (file_of I) false = Ok st /\
  forall traces fuel, (F <= fuel)%nat -> exists N, forall sched, exists ps,
    run sched (mem_of st, map (thread fuel (paths_of st)) traces) = Some (mem_of st, ps) /\ length ps = length traces /\
    forall j trace, nth_error traces j = Some trace ->
      (forall r, nth_error ps j = Some (Done r) -> r = map (instrumented E I) trace) /\
      ((N <= count_occ Nat.eq_dec sched j)%nat -> nth_error ps j = Some (Done (map (instrumented E I) trace))).
Proof.
  intros E I HE HI. destruct (dd_init_spec E I false HE HI ltac:(auto)) as (st & Est & Hk & Hg & Hi).
  exists st, (length (hm_items (mustnot st)) + length (hm_items (dd_must st)))%nat. split; [exact Est|]. intros traces fuel Hf.
  assert (Hw1 : wfh (mustnot st)) by (eapply mustnot_wfh; exact Hk).
  assert (Hcall : forall a, evals (mem_of st) (ddebug_prog fuel (paths_of st) a) (instrumented E I a)).
  { intros a. unfold ddebug_prog, instrumented, paths_of. cbn [p_exclude p_include p_gen]. rewrite Hg.
    eapply evals_seq; [|].
    - instantiate (1 := bool_decide (excluded E a)). pose proof (excluded_lookup st E a Hk) as Hx. destruct (dd_exclude st) as [h|] eqn:Ex.
      + assert (h = mustnot st) as -> by (unfold mustnot; rewrite Ex; reflexivity).
        eapply have_evals; [apply rep_mustnot|apply Hw1|exact Hx|lia].
      + injection Hx as <-. apply evals_done.
    - destruct (bool_decide (excluded E a)); [apply evals_done|]. cbn [negb andb]. destruct I as [is|].
      + destruct Hi as (-> & S & Hm & Hx). eapply have_evals; [apply rep_must|apply (holds_wfh _ _ Hm)| |lia].
        rewrite (have_holds _ _ a Hm). f_equal. cbn. apply bool_decide_ext. apply Hx.
      + destruct Hi as (-> & _). apply evals_done. }
  destruct (witnesses (fun t n => eval (mem_of st) (thread fuel (paths_of st) t) = Some (n, map (instrumented E I) t)) traces) as [ns Hns].
  { intros t _. apply thread_evals. intros a _. apply Hcall. }
  pose proof (Forall2_length _ _ _ Hns) as Hlen. exists (list_sum ns). intros sched.
  destruct (run_reads (mem_of st) sched (map (thread fuel (paths_of st)) traces) ns (map (map (instrumented E I)) traces)) as (ps & R1 & R2 & R3).
  { rewrite map_length. lia. } { rewrite !map_length. reflexivity. }
  { intros j p n r A1 A2 A3. apply list_lookup_fmap_Some in A1 as (t & A1 & ->). apply list_lookup_fmap_Some in A3 as (t' & A3 & ->).
    assert (t' = t) as -> by congruence. rewrite Forall2_lookup in Hns. specialize (Hns j). rewrite A1, A2 in Hns. inversion Hns; subst. assumption. }
  exists ps. rewrite map_length in R2. split; [exact R1|]. split; [exact R2|]. intros j trace Hj. rewrite <- turns_count.
  assert (Hj' : traces !! j = Some trace) by (revert Hj; clear; revert j; induction traces as [|x l IH]; intros [|j]; cbn; auto; discriminate).
  assert (exists n, ns !! j = Some n) as [n En] by (apply lookup_lt_is_Some; rewrite <- Hlen; eapply lookup_lt_Some; exact Hj').
  assert (exists p, ps !! j = Some p) as [p Ep] by (apply lookup_lt_is_Some; rewrite R2; eapply lookup_lt_Some; exact Hj').
  assert (Er : map (map (instrumented E I)) traces !! j = Some (map (instrumented E I) trace)) by (apply list_lookup_fmap_Some; eauto).
  pose proof (R3 j p n _ Ep En Er) as Hev.
  assert (Hnp : nth_error ps j = Some p) by (revert Ep; clear; revert j; induction ps as [|x l IH]; intros [|j]; cbn; auto; discriminate).
  rewrite Hnp. split.
  - intros r [= ->]. cbn in Hev. congruence.
  - intros HN. f_equal. apply (eval_done (mem_of st)). rewrite Hev. do 2 f_equal.
    assert (n <= list_sum ns)%nat; [|lia]. revert En. clear. unfold list_sum. revert j. induction ns as [|x l IH]; intros [|j] E; cbn in *; try discriminate; [injection E as ->; lia|].
    specialize (IH j E). lia.
Qed.
Print Assumptions C110_filters_partial.

(** With VFC_DDEBUG_GEN and any exclusion file, for every schedule without an invalid access: the list of call sites only has
    operations that a thread executed and that are not excluded, and every operation was sent to the backends iff it is not excluded. *)
Theorem C110_generated_partial :
  forall (E : option (list entry)), file_ok E ->
  exists st, dd_init (file_of E) None true = Ok st /\
  forall traces fuel sched m ps, run sched (mem_of st, map (thread fuel (paths_of st)) traces) = Some (m, ps) ->
    (forall l x, recorded m = Some l -> In x l -> exists trace, In trace traces /\ In (x + call_op_size) trace /\ ~ excluded E (x + call_op_size)) /\
    (forall j trace r, nth_error traces j = Some trace -> nth_error ps j = Some (Done r) -> r = map (fun a => negb (bool_decide (excluded E a))) trace).
Proof.
  intros E HE. destruct (dd_init_spec E None true HE I ltac:(congruence)) as (st & Est & Hk & Hg & Hi & Hm0).
  exists st. split; [exact Est|]. intros traces fuel sched m ps Hrun.
  set (V := fun v => v = 0 \/ exists trace, In trace traces /\ In v trace /\ ~ excluded E v).
  assert (Hw1 : wfh (mustnot st)) by (eapply mustnot_wfh; exact Hk).
  assert (Hinv : inv V (mustnot st) (mem_of st)).
  { split; [apply rep_mustnot|cbn; lia|]. intros b cells i v Hb Hc Hv _. left.
    destruct b as [|[|b]]; cbn in Hc; [|lia|destruct b; discriminate]. injection Hc as <-. rewrite Hm0 in Hv.
    change (flat (hm_items hashmap_create)) with (replicate 16 0) in Hv. apply lookup_replicate_1 in Hv as [-> _]. reflexivity. }
  assert (Hp : paths_of st = mk_paths (match dd_exclude st with Some _ => true | None => false end) false true) by (unfold paths_of; rewrite Hi, Hg; reflexivity).
  destruct (inv_run V (mustnot st) (or_introl eq_refl) (fun j r => forall trace, traces !! j = Some trace -> r = map (fun a => negb (bool_decide (excluded E a))) trace)
    sched (mem_of st) (map (thread fuel (paths_of st)) traces) m ps Hinv) as [Him Hps]; [|exact Hrun|].
  { intros j p Hj. apply list_lookup_fmap_Some in Hj as (trace & Hj & ->). rewrite Hp. eapply ok_any; [|eapply (ok_thread _ _ fuel _ (fun a => bool_decide (excluded E a)) trace)].
    - cbn. intros r -> t Ht. congruence.
    - apply Hw1.
    - intros a _. rewrite <- (excluded_lookup st E a Hk). unfold mustnot. destruct (dd_exclude st); reflexivity.
    - intros a Ha Hx. right. exists trace. apply bool_decide_eq_false in Hx. split; [apply elem_of_list_In; eapply elem_of_list_lookup_2; exact Hj|].
      split; [apply elem_of_list_In; exact Ha|exact Hx]. }
  split.
  - intros l x Hrec Hx. unfold recorded in Hrec. destruct (reads m _ _ 0) as [vs|] eqn:Er; [|discriminate]. injection Hrec as <-.
    apply in_map_iff in Hx as (v & <- & Hv). apply filter_In in Hv as [Hv Hnz].
    pose proof (inv_reads V (mustnot st) m _ _ Him (inv_items _ _ _ Him) 0 vs v Er Hv) as [-> |H]; [discriminate|].
    replace (v - call_op_size + call_op_size) with v by lia. exact H.
  - intros j trace r Hj Hr.
    assert (Hj' : traces !! j = Some trace) by (revert Hj; clear; revert j; induction traces as [|y l IH]; intros [|j]; cbn; auto; discriminate).
    assert (Hr' : ps !! j = Some (Done r)) by (revert Hr; clear; revert j; induction ps as [|y l IH]; intros [|j]; cbn; auto; discriminate).
    exact (Hps j _ Hr' trace Hj').
Qed.
Print Assumptions C110_generated_partial.

(** With one thread, the accesses of this model are the code whose results C36 states: once it has run long enough the thread is
    done, and the list has exactly the executed sites that are not excluded, each once. *)
Theorem C110_one_thread :
  forall (E : option (list entry)) (trace : list Z), file_ok E -> Forall legal_value trace -> Z.of_nat (length trace) <= max_inserts ->
  exists st F, dd_init (file_of E) None true = Ok st /\
  forall fuel, (F <= fuel)%nat -> exists N m l, (forall n, (N <= n)%nat ->
      run (repeat 0%nat n) (mem_of st, [thread fuel (paths_of st) trace]) = Some (m, [Done (map (fun a => negb (bool_decide (excluded E a))) trace)])) /\
    recorded m = Some l /\ NoDup l /\ forall x, x ∈ l <-> x + call_op_size ∈ trace /\ ~ excluded E (x + call_op_size).
Proof.
  intros E trace HE Hl HN. destruct (generate_spec E trace HE Hl HN) as (st & st' & S & E1 & E2 & Hnd & Hp & Hx).
  destruct (dd_init_spec E None true HE I ltac:(congruence)) as (st0 & Est & Hk & Hg & Hi & Hm0). change (dd_init (file_of E) None true = Ok st0) in Est.
  assert (st0 = st) as -> by congruence.
  destruct (thread_exec trace st _ st' E2) as [F HF]. exists st, F. split; [exact E1|]. intros fuel Hf.
  destruct (HF fuel Hf 0 (mem_of st) (rep_must st) (rep_mustnot st) ltac:(lia)) as (m & b & X & R & W).
  { rewrite Hm0. eapply holds_wfh. exact create_holds. } { apply (mustnot_wfh st E Hk). }
  destruct (exec_run _ _ _ _ X) as [N Hrun]. exists N, m, (gen_addresses (dd_must st')). split; [exact Hrun|].
  split; [apply (recorded_rep m b); assumption|]. rewrite Hp. split.
  - apply NoDup_fmap_2; [|exact Hnd]. intros x y H. lia.
  - intros x. rewrite Hp, elem_of_list_fmap. split.
    + intros (y & -> & Hy). replace (y - call_op_size + call_op_size) with y by lia. apply Hx. exact Hy.
    + intros H. exists (x + call_op_size). split; [lia|]. apply Hx. exact H.
Qed.
Print Assumptions C110_one_thread.

(** * What can go wrong with VFC_DDEBUG_GEN *)
Definition gen_st : dd := mk_dd None false true hashmap_create.
Lemma gen_st_init : dd_init (file_of None) None true = Ok gen_st.
Proof. reflexivity. Qed.

(** Two threads that each execute one operation, both to the end, without an invalid access: the list has one of the two sites *)
Theorem C110_lost_refuted :
  exists a b sched, legal_value a /\ legal_value b /\ a <> b /\
  forall f, exists m l, run sched (mem_of gen_st, map (thread (8 + f) (paths_of gen_st)) [[a]; [b]]) = Some (m, [Done [true]; Done [true]]) /\
    recorded m = Some l /\ In (a - call_op_size) l /\ ~ In (b - call_op_size) l.
Proof.
  exists 0x40113b, 0x401153, (repeat 0%nat 7 ++ repeat 1%nat 14 ++ repeat 0%nat 7).
  split; [unfold legal_value; lia|]. split; [unfold legal_value; lia|]. split; [lia|]. intros f. eexists _, _.
  split; [vm_compute; reflexivity|]. split; [vm_compute; reflexivity|]. split; [left; reflexivity|]. intros [H|[]]. vm_compute in H. discriminate.
Qed.
Print Assumptions C110_lost_refuted.

Definition is_some {A} (o : option A) : bool := match o with Some _ => true | None => false end.
Lemma is_some_ex {A} (o : option A) : is_some o = true -> exists a, o = Some a.
Proof. destruct o as [a|]; [exists a; reflexivity|discriminate]. Qed.
(** A thread that is about to store its address when another one makes the table grow stores it in the freed array *)
Theorem C110_use_after_free_refuted :
  exists trace b sched, Forall legal_value trace /\ legal_value b /\
  forall f, (exists s, run (removelast sched) (mem_of gen_st, map (thread (16 + f) (paths_of gen_st)) [trace; [b]]) = Some s) /\
    run sched (mem_of gen_st, map (thread (16 + f) (paths_of gen_st)) [trace; [b]]) = None.
Proof.
  exists [0x401109; 0x401112; 0x40111b; 0x401124; 0x40112d; 0x401136; 0x40113f], 0x401148, (repeat 1%nat 8 ++ repeat 0%nat 500 ++ [1%nat]).
  split; [repeat (apply List.Forall_cons; [unfold legal_value; lia|]); apply List.Forall_nil|]. split; [unfold legal_value; lia|].
  intros f. split; [apply is_some_ex; vm_compute; reflexivity|]. vm_compute. reflexivity.
Qed.
Print Assumptions C110_use_after_free_refuted.

(** The count of items is a read and a write: when increments are lost the table becomes full without growing, and the next
    operation searches a free slot for ever: for every number of turns of the loop some schedule brings the thread there. *)
Definition full_sched : list nat := concat (repeat (repeat 0%nat 4 ++ repeat 1%nat 4 ++ repeat 0%nat 10 ++ repeat 1%nat 10) 4).
Definition full_traces : list (list Z) := [[0x401100; 0x401112; 0x401124; 0x401136]; [0x401109; 0x40111b; 0x40112d; 0x40113f]].
Definition full_map : hmap :=
  mk_hmap 3 7 8 (map (fun v => (v, v)) [0x401100; 0x401109; 0x401112; 0x40111b; 0x401124; 0x40112d; 0x401136; 0x40113f]) 4 0.
Lemma full_run f : exists m, run full_sched (mem_of gen_st, map (thread (8 + f) (paths_of gen_st)) full_traces) = Some (m, [Done [true; true; true; true]; Done [true; true; true; true]]) /\
  rep m false 0 full_map.
Proof. eexists. split; [vm_compute; reflexivity|]. split; [intros []; vm_compute; reflexivity|vm_compute; reflexivity]. Qed.
Theorem C110_hang_refuted :
  exists traces a, Forall (Forall legal_value) traces /\ legal_value a /\
  forall f, exists sched m, run sched (mem_of gen_st, map (thread (8 + f) (paths_of gen_st)) (traces ++ [[a]])) =
    Some (m, [Done [true; true; true; true]; Done [true; true; true; true]; Spin]).
Proof.
  exists full_traces, 0x401148. split; [unfold full_traces, legal_value; repeat (first [apply List.Forall_cons|apply List.Forall_nil|lia])|].
  split; [unfold legal_value; lia|]. intros f. destruct (full_run f) as (m & E & R).
  assert (Hs : Forall (fun j => (j < 2)%nat) full_sched) by (apply (bool_decide_unpack _); vm_compute; exact I).
  destruct (run_extend full_sched (thread (8 + f) (paths_of gen_st) [0x401148]) (mem_of gen_st) (map (thread (8 + f) (paths_of gen_st)) full_traces) _ _ Hs E) as [E' _].
  destruct (spins_run m 2 (thread (8 + f) (paths_of gen_st) [0x401148])
    [Done [true; true; true; true]; Done [true; true; true; true]; thread (8 + f) (paths_of gen_st) [0x401148]] eq_refl) as [n Hn].
  - cbn [thread]. apply spins_left. unfold ddebug_prog, paths_of. cbn [gen_st dd_exclude dd_include dd_gen p_exclude p_include p_gen seqp].
    apply spins_left. unfold insert_prog. apply spins_left. unfold add_member. change ((0x401148 =? 0) || (0x401148 =? 1)) with false. cbn iota.
    eapply spins_right; [apply evals_rd; eapply rep_mask; exact R|]. apply spins_left.
    apply (full_walk m 0 full_map 0x401148 R eq_refl).
    + intros ii Hi. assert (ii = 0 \/ ii = 1 \/ ii = 2 \/ ii = 3 \/ ii = 4 \/ ii = 5 \/ ii = 6 \/ ii = 7) as Hc by lia.
      repeat (destruct Hc as [-> | Hc]; [eexists; split; [reflexivity|]; cbn; lia|]). subst ii. eexists. split; [reflexivity|]. cbn. lia.
    + vm_compute. split; discriminate.
  - exists (full_sched ++ repeat 2%nat n), m. rewrite map_app. rewrite (run_app _ _ _ _ E'). exact Hn.
Qed.
Print Assumptions C110_hang_refuted.


(** two threads that take turns, with the exclusion file of C36: 0x40113b is excluded, the other sites are recorded *)
Example C110_nonvacuous :
  file_ok (Some [ex_line1; ex_line2]) /\ excluded (Some [ex_line1; ex_line2]) 0x40113b /\ ~ excluded (Some [ex_line1; ex_line2]) 0x401170 /\
  match dd_init (file_of (Some [ex_line1; ex_line2])) None true with
  | Ok st => match run (concat (repeat [0; 1; 1]%nat 60)) (mem_of st, map (thread 8 (paths_of st)) [[0x40113b; 0x401170]; [0x401181; 0x40113b; 0x401170]]) with
             | Some (m, [Done r1; Done r2]) => Some (recorded m, r1, r2)
             | _ => None
             end
  | _ => None
  end = Some (Some [0x40116b; 0x40117c], [false; true], [true; false; true]) /\
  match dd_init (file_of (Some [ex_line1])) (file_of (Some [ex_line1; ex_line2])) false with
  | Ok st => match run (concat (repeat [0; 1; 1]%nat 60)) (mem_of st, map (thread 8 (paths_of st)) [[0x40113b; 0x401155]; [0x401155; 0x401170]]) with
             | Some (_, [Done r1; Done r2]) => Some (r1, r2)
             | _ => None
             end
  | _ => None
  end = Some ([false; true], [true; false]) /\
  Forall legal_value [0x40113b; 0x401170].
Proof.
  split; [exact ex_lines_ok|]. split; [apply (bool_decide_unpack _); vm_compute; exact I|]. split; [apply (bool_decide_unpack _); vm_compute; exact I|].
  split; [vm_compute; reflexivity|]. split; [vm_compute; reflexivity|]. repeat (apply List.Forall_cons; [unfold legal_value; lia|]). apply List.Forall_nil.
Qed.
