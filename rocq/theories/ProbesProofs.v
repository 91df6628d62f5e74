(** Proofs about the probes model. *)
From Coq Require Import String ZArith List Bool Lia.
From stdpp Require Import base list numbers gmap.
From Verif Require Import Common HashModel HashTable HashMapProofs Text ProbesModel.
Import ListNotations.
Open Scope Z_scope.
Open Scope outcome_scope.

Lemma ofold_app {S O} (f : S -> O -> outcome S) l1 l2 s :
  ofold f (l1 ++ l2) s = bind (ofold f l1 s) (ofold f l2).
Proof.
  revert s. induction l1 as [|o l1 IH]; intros s; cbn; [reflexivity|].
  destruct (f s o); cbn; auto.
Qed.

(** ** Specification vocabulary *)
Definition req_key (r : probe_req) : list Z * list Z := (pr_test r, pr_var r).
Definition req_hash (r : probe_req) : Z := hashmap_str_function (pr_test r ++ [comma] ++ pr_var r).
Definition has_comma (r : probe_req) : Prop := In comma (pr_test r) \/ In comma (pr_var r).
(** the CSV record a reader expects for a request *)
Definition req_fields (fmt_a : Z -> list Z) (r : probe_req) : list (list Z) :=
  [pr_test r; pr_var r; fmt_a (pr_val r); fmt_a (pr_thr r); mode_text (pr_mode r)].
Definition malloc_ok (rs : list probe_req) : Prop :=
  NoDup (map pr_addr rs) /\ Forall (fun r => legal_value (pr_addr r)) rs.

Definition req_pair (r : probe_req) : Z * Z := (req_hash r, pr_addr r).
Definition req_node (r : probe_req) : node :=
  mk_node (gen_probe_key (pr_test r) (pr_var r)) (pr_val r) (pr_thr r) (mode_text (pr_mode r)).
Definition heap_of (rs : list probe_req) : list (Z * node) := rev (map (fun r => (pr_addr r, req_node r)) rs).

Lemma validate_true s : validate_probe_key s = true <-> ~ In comma s.
Proof.
  unfold validate_probe_key. rewrite negb_true_iff. split.
  - intros H Hin. assert (existsb (Z.eqb comma) s = true); [|congruence].
    apply existsb_exists. exists comma. split; [assumption|reflexivity].
  - intros H. destruct (existsb (Z.eqb comma) s) eqn:E; [|reflexivity].
    apply existsb_exists in E as (x & Hx & Ex). apply Z.eqb_eq in Ex. subst x. tauto.
Qed.

Lemma gen_key_inj t v t' v' : ~ In comma t -> ~ In comma t' ->
  gen_probe_key t v = gen_probe_key t' v' -> t = t' /\ v = v'.
Proof.
  unfold gen_probe_key. revert t'. induction t as [|x t IH]; intros [|x' t'] H1 H2 E; cbn in *.
  - injection E as ->. auto.
  - injection E as E1 E2. exfalso. apply H2. left. auto.
  - injection E as E1 E2. exfalso. apply H1. left. auto.
  - injection E as -> E. destruct (IH t') as [-> ->]; tauto.
Qed.

Lemma heap_get_of rs a : heap_get (heap_of rs) a <> None -> exists r, In r rs /\ pr_addr r = a /\ heap_get (heap_of rs) a = Some (req_node r).
Proof.
  unfold heap_of. induction rs as [|r rs IH] using rev_ind; [cbn; tauto|].
  rewrite map_app, rev_app_distr. cbn. destruct (Z.eqb_spec (pr_addr r) a) as [E|E].
  - intros _. exists r. rewrite in_app_iff. cbn. auto.
  - intros H. destruct (IH H) as (r' & H1 & H2 & H3). exists r'. rewrite in_app_iff. auto.
Qed.

Lemma heap_get_some rs r : In r rs -> heap_get (heap_of rs) (pr_addr r) <> None.
Proof.
  unfold heap_of. induction rs as [|r' rs IH] using rev_ind; [cbn; tauto|].
  rewrite map_app, rev_app_distr. cbn. intros [H|[->|[]]]%in_app_iff.
  - destruct (pr_addr r' =? pr_addr r); [discriminate|]. apply IH. assumption.
  - rewrite Z.eqb_refl. discriminate.
Qed.

Lemma heap_get_addr rs r : NoDup (map pr_addr rs) -> In r rs -> heap_get (heap_of rs) (pr_addr r) = Some (req_node r).
Proof.
  unfold heap_of. induction rs as [|r' rs IH] using rev_ind; [cbn; tauto|].
  rewrite !map_app, rev_app_distr. cbn. intros Hnd [H|[->|[]]]%in_app_iff.
  - apply NoDup_app in Hnd as (Hnd & Hx & _).
    destruct (Z.eqb_spec (pr_addr r') (pr_addr r)) as [E|E]; [|apply IH; assumption].
    exfalso. apply (Hx (pr_addr r)); [apply elem_of_list_In, in_map; assumption|]. rewrite E. left.
  - rewrite Z.eqb_refl. reflexivity.
Qed.

(** ** Main run lemma *)
Definition dup_seen (rs : list probe_req) : Prop :=
  exists l1 r l2 r', rs = l1 ++ r :: l2 /\ In r' l1 /\ req_key r = req_key r'.

Lemma dup_seen_app rs r : dup_seen rs -> dup_seen (rs ++ [r]).
Proof.
  intros (l1 & x & l2 & r' & -> & H). exists l1, x, (l2 ++ [r]), r'. rewrite <- app_assoc. auto.
Qed.

Lemma map_pairs rs : (map req_pair rs).*2 = map pr_addr rs.
Proof. rewrite <- list_fmap_compose. reflexivity. Qed.

Lemma forall_pairs rs : Forall (fun r => legal_value (pr_addr r)) rs -> Forall (fun kv : Z * Z => legal_value kv.2) (map req_pair rs).
Proof. induction 1; cbn; constructor; auto. Qed.

Lemma probes_run rs :
  malloc_ok rs -> Z.of_nat (length rs) <= max_inserts ->
  (exists m, ofold probe_kernel rs init_probes = Ok (mk_pstate m (heap_of rs)) /\
     ofold run_insert (map req_pair rs) hashmap_create = Ok m /\
     Forall (fun r => ~ has_comma r) rs) \/
  (ofold probe_kernel rs init_probes = Exit /\ (Exists has_comma rs \/ dup_seen rs)).
Proof.
  induction rs as [|r rs IH] using rev_ind; intros [Hnd Hleg] HN.
  { left. exists hashmap_create. repeat split. constructor. }
  rewrite map_app in Hnd. apply NoDup_app in Hnd as (Hnd & Hx & _).
  apply Forall_app in Hleg as [Hleg Hr0]. pose proof (Forall_inv Hr0) as Hr. cbn in Hr.
  rewrite app_length in HN. cbn in HN.
  destruct IH as [(m & Hrun & Hm & Hnc)|[Hrun Hbad]]; [split; assumption|lia| |].
  2:{ right. rewrite ofold_app, Hrun. split; [reflexivity|].
      destruct Hbad as [Hc|Hd]; [left; apply Exists_app; left; assumption|right; apply dup_seen_app; assumption]. }
  rewrite ofold_app, Hrun. cbn [bind ofold]. unfold probe_kernel.
  destruct (validate_probe_key (pr_test r)) eqn:Ev1; cbn [negb].
  2:{ right. split; [reflexivity|]. left. apply Exists_app. right. constructor. left.
      destruct (in_dec Z.eq_dec comma (pr_test r)) as [|Hn]; [assumption|].
      apply validate_true in Hn. congruence. }
  destruct (validate_probe_key (pr_var r)) eqn:Ev2; cbn [negb].
  2:{ right. split; [reflexivity|]. left. apply Exists_app. right. constructor. right.
      destruct (in_dec Z.eq_dec comma (pr_var r)) as [|Hn]; [assumption|].
      apply validate_true in Hn. congruence. }
  apply validate_true in Ev1. apply validate_true in Ev2. cbn [ps_map ps_heap].
  destruct (hashmap_inserts (map req_pair rs)) as (m0 & Hm0 & Hnum & Hget & _);
    [rewrite map_length; lia|apply forall_pairs; assumption|rewrite map_pairs; assumption|].
  assert (m0 = m) by congruence. subst m0.
  assert (Hins : exists m', hashmap_insert m (req_hash r) (pr_addr r) = Ok m' /\
            ofold run_insert (map req_pair (rs ++ [r])) hashmap_create = Ok m').
  { destruct (hashmap_inserts (map req_pair (rs ++ [r]))) as (m' & Hm' & _).
    - rewrite map_length, app_length. cbn. lia.
    - apply forall_pairs. apply Forall_app; split; [assumption|]. constructor; [assumption|constructor].
    - rewrite map_pairs, map_app. apply NoDup_app. split; [assumption|]. split; [assumption|]. apply NoDup_singleton.
    - exists m'. split; [|assumption]. rewrite map_app, ofold_app, Hm in Hm'. cbn in Hm'.
      unfold run_insert in Hm'. cbn in Hm'. destruct (hashmap_insert m (req_hash r) (pr_addr r)); cbn in Hm'; congruence. }
  destruct Hins as (m' & Hins & Hm').
  assert (Hheap : (pr_addr r, mk_node (gen_probe_key (pr_test r) (pr_var r)) (pr_val r) (pr_thr r) (mode_text (pr_mode r))) :: heap_of rs
                  = heap_of (rs ++ [r])).
  { unfold heap_of. rewrite map_app, rev_app_distr. reflexivity. }
  destruct (Hget (req_hash r)) as (old & Hg & _ & Hc).
  change (hashmap_str_function (gen_probe_key (pr_test r) (pr_var r))) with (req_hash r).
  rewrite Hg. cbn [bind].
  assert (Hnc' : Forall (fun r => ~ has_comma r) (rs ++ [r])).
  { apply Forall_app. split; [assumption|]. constructor; [|constructor]. unfold has_comma. tauto. }
  destruct Hc as [[E Hk]|[E Hin]].
  - subst old. cbn [Z.eqb]. rewrite Hins. cbn [bind]. rewrite Hheap. left. exists m'. auto.
  - destruct (Z.eqb_spec old 0) as [|_]; [tauto|].
    apply elem_of_list_In, in_map_iff in Hin as (r' & Er' & Hr'). unfold req_pair in Er'. injection Er' as Eh Ea. subst old.
    rewrite (heap_get_addr rs r' Hnd Hr').
    destruct (decide _) as [Ek|Ek].
    + right. split; [reflexivity|]. right. exists rs, r, [], r'. split; [reflexivity|]. split; [assumption|].
      cbn in Ek. apply gen_key_inj in Ek as [E1 E2]; [|assumption|].
      * unfold req_key. congruence.
      * rewrite Forall_forall in Hnc. intros Hc. apply (Hnc r'); [apply elem_of_list_In; assumption|]. left. assumption.
    + rewrite Hins. cbn [bind]. rewrite Hheap. left. exists m'. auto.
Qed.

(** ** Export *)
Section export.
  Context (fmt_a : Z -> list Z).

  Definition line_of (r : probe_req) : list Z :=
    gen_probe_key (pr_test r) (pr_var r) ++ [comma] ++ fmt_a (pr_val r) ++ [comma] ++ fmt_a (pr_thr r) ++ [comma] ++ mode_text (pr_mode r).

  Lemma dump_items_spec items rs :
    (forall v k, (v, k) ∈ items -> v <> 0 -> exists r, In r rs /\ pr_addr r = v) -> NoDup (map pr_addr rs) ->
    exists ps, dump_items fmt_a items (heap_of rs) = Ok (concat (map (fun l => l ++ [newline]) (map line_of ps))) /\
      map pr_addr ps = (filter (fun sl : Z * Z => sl.1 <> 0) items).*1 /\ Forall (fun p => In p rs) ps.
  Proof.
    intros H Hnd. induction items as [|[v k] items IH].
    - exists []. repeat split. constructor.
    - destruct IH as (ps & H1 & H2 & H3).
      { intros v' k' Hin. apply (H v' k'). right. assumption. }
      cbn [dump_items]. rewrite filter_cons. cbn [fst]. destruct (Z.eqb_spec v 0) as [E|E].
      + rewrite decide_False by tauto. exists ps. auto.
      + rewrite decide_True by assumption. destruct (H v k ltac:(left) E) as (r & Hr & <-).
        rewrite (heap_get_addr rs r Hnd Hr), H1. cbn [bind]. exists (r :: ps). split; [|split].
        * cbn. unfold line_of, probe_line. cbn. repeat (rewrite <- ?app_assoc; cbn). reflexivity.
        * cbn. rewrite H2. reflexivity.
        * constructor; assumption.
  Qed.

  Lemma addr_perm ps rs : NoDup (map pr_addr rs) -> Forall (fun p => In p rs) ps ->
    map pr_addr ps ≡ₚ map pr_addr rs -> ps ≡ₚ rs.
  Proof.
    intros Hnd Hin Hp. assert (Hnp : NoDup (map pr_addr ps)) by (rewrite Hp; assumption).
    apply NoDup_Permutation.
    - eapply NoDup_fmap_1. exact Hnp.
    - eapply NoDup_fmap_1. exact Hnd.
    - intros x. rewrite Forall_forall in Hin. split; [intros Hx; apply elem_of_list_In; auto|].
      intros Hx. assert (Ha : pr_addr x ∈ map pr_addr ps).
      { rewrite Hp. apply elem_of_list_In, in_map, elem_of_list_In. assumption. }
      apply elem_of_list_In, in_map_iff in Ha as (p & Ep & Hp').
      assert (Hpr : p ∈ rs) by (apply elem_of_list_In, Hin, elem_of_list_In; assumption).
      apply elem_of_list_lookup in Hpr as [i Hi]. apply elem_of_list_lookup in Hx as [j Hj].
      assert (i = j) as ->.
      { eapply (NoDup_lookup (pr_addr <$> rs)); [exact Hnd| |]; rewrite list_lookup_fmap.
        - rewrite Hi. reflexivity.
        - rewrite Hj. cbn. congruence. }
      assert (p = x) by congruence. subst. apply elem_of_list_In. assumption.
  Qed.

  Lemma mode_text_plain m : ~ In comma (mode_text m) /\ ~ In newline (mode_text m).
  Proof. destruct m; vm_compute; split; intros H; repeat destruct H as [H|H]; try discriminate; assumption. Qed.

  Lemma split_line r :
    ~ has_comma r -> (forall v, ~ In comma (fmt_a v)) -> split_on comma (line_of r) = req_fields fmt_a r.
  Proof.
    intros Hc Hf. unfold has_comma in Hc. unfold line_of, gen_probe_key, req_fields.
    rewrite <- !app_assoc. cbn [app]. rewrite split_on_app by tauto. rewrite split_on_app by tauto.
    rewrite split_on_app by auto. rewrite split_on_app by auto. rewrite split_on_nosep by apply mode_text_plain. reflexivity.
  Qed.

  Definition no_newline (r : probe_req) : Prop := ~ In newline (pr_test r) /\ ~ In newline (pr_var r).

  Lemma line_no_newline r : no_newline r -> (forall v, ~ In newline (fmt_a v)) -> ~ In newline (line_of r).
  Proof.
    intros [H1 H2] Hf. unfold line_of, gen_probe_key. rewrite !in_app_iff.
    pose proof (Hf (pr_val r)). pose proof (Hf (pr_thr r)). destruct (mode_text_plain (pr_mode r)).
    assert (~ In newline [comma]) by (cbn; intros [E|[]]; discriminate). tauto.
  Qed.

  (** every accepted history is exported as one CSV record per probe *)
  Lemma probes_export rs :
    malloc_ok rs -> Z.of_nat (length rs) <= max_inserts ->
    (forall v, ~ In comma (fmt_a v) /\ ~ In newline (fmt_a v)) -> Forall no_newline rs ->
    forall st, ofold probe_kernel rs init_probes = Ok st ->
    num_probes st = Z.of_nat (length rs) /\
    exists file ps, dump_probes fmt_a st = Ok file /\ ps ≡ₚ rs /\
      map (split_on comma) (split_on newline file) =
        [bytes "test"%string; bytes "variable"%string; bytes "value"%string; bytes "accuracy_threshold"%string; bytes "check_mode"%string]
          :: map (req_fields fmt_a) ps ++ [[[]]].
  Proof.
    intros Hok HN Hf Hnl st Hst. destruct Hok as [Hnd Hleg].
    destruct (probes_run rs) as [(m & Hrun & Hm & Hnc)|[Hrun _]]; [split; assumption|assumption| |congruence].
    assert (st = mk_pstate m (heap_of rs)) by congruence. subst st.
    destruct (hashmap_inserts (map req_pair rs)) as (m0 & Hm0 & Hnum & _ & Hperm);
      [rewrite map_length; assumption|apply forall_pairs; assumption|rewrite map_pairs; assumption|].
    assert (m0 = m) by congruence. subst m0. split.
    { unfold num_probes. cbn [ps_map]. rewrite Hnum, map_length. reflexivity. }
    assert (Haddr : (filter (fun sl : Z * Z => sl.1 <> 0) (hm_items m)).*1 ≡ₚ map pr_addr rs).
    { rewrite <- map_pairs, <- Hperm. rewrite <- list_fmap_compose. reflexivity. }
    destruct (dump_items_spec (hm_items m) rs) as (ps & H1 & H2 & H3); [|assumption|].
    { intros v k Hin Hv. assert (Hv' : v ∈ map pr_addr rs).
      { rewrite <- Haddr. apply elem_of_list_fmap. exists (v, k). split; [reflexivity|].
        apply elem_of_list_filter. auto. }
      apply elem_of_list_In, in_map_iff in Hv' as (r & Er & Hr). eauto. }
    assert (Hps : ps ≡ₚ rs) by (apply addr_perm; [assumption|assumption|rewrite H2; assumption]).
    eexists _, ps. split; [|split; [exact Hps|]].
    - unfold dump_probes. cbn [ps_map ps_heap]. rewrite H1. cbn [bind]. reflexivity.
    - cbn [app]. rewrite split_on_app by (vm_compute; intros H; repeat destruct H as [H|H]; try discriminate; assumption).
      rewrite split_on_lines.
      + cbn [map]. rewrite map_app. f_equal. f_equal. rewrite map_map. apply map_ext_in.
        intros r Hr. apply split_line; [|intros v; apply Hf].
        rewrite Forall_forall in Hnc, H3. apply Hnc, elem_of_list_In, H3, elem_of_list_In. assumption.
      + apply Forall_forall. intros l Hl. apply elem_of_list_In, in_map_iff in Hl as (r & <- & Hr).
        apply line_no_newline; [|intros v; apply Hf].
        rewrite Forall_forall in Hnl, H3. apply Hnl, elem_of_list_In, H3, elem_of_list_In. assumption.
  Qed.
End export.

(** without hash collisions between different names, a history is refused exactly when it has a comma or a duplicate *)
Lemma probes_refused_iff rs :
  malloc_ok rs -> Z.of_nat (length rs) <= max_inserts ->
  (forall r r', In r rs -> In r' rs -> req_hash r = req_hash r' -> req_key r = req_key r') ->
  (ofold probe_kernel rs init_probes = Exit <-> Exists has_comma rs \/ ~ NoDup (map req_key rs)) /\
  (ofold probe_kernel rs init_probes = Exit \/ exists st, ofold probe_kernel rs init_probes = Ok st).
Proof.
  intros Hok HN Hinj.
  destruct (probes_run rs Hok HN) as [(m & Hrun & Hm & Hnc)|[Hrun Hbad]].
  2:{ split; [|left; assumption]. split; [intros _|intros _; assumption].
      destruct Hbad as [|(l1 & r & l2 & r' & -> & Hin & E)]; [left; assumption|right].
      rewrite map_app. cbn. intros Hnd. apply NoDup_app in Hnd as (_ & Hx & _).
      apply (Hx (req_key r)); [rewrite E; apply elem_of_list_In, in_map; assumption|left]. }
  split; [|right; eauto]. split; [congruence|]. intros [Hc|Hd].
  - exfalso. apply list.Exists_exists in Hc as (r & Hr & Hc). rewrite Forall_forall in Hnc. exact (Hnc r Hr Hc).
  - exfalso. apply Hd. clear Hd.
    (* each step found no earlier probe with the same hash, or one with a different key *)
    revert Hok HN Hinj m Hrun Hm Hnc. induction rs as [|r rs IH] using rev_ind; intros [Hnd Hleg] HN Hinj m Hrun Hm Hnc.
    { constructor. }
    rewrite map_app in Hnd. apply NoDup_app in Hnd as (Hnd & Hx & _).
    apply Forall_app in Hleg as [Hleg Hr]. apply Forall_app in Hnc as [Hnc _].
    rewrite app_length in HN. cbn in HN. rewrite ofold_app in Hrun.
    destruct (probes_run rs) as [(m1 & Hrun1 & Hm1 & _)|[Hrun1 _]]; [split; assumption|lia| |].
    2:{ rewrite Hrun1 in Hrun. discriminate. }
    rewrite Hrun1 in Hrun. cbn [bind ofold] in Hrun.
    rewrite map_app. apply NoDup_app. split; [|split; [|apply NoDup_singleton]].
    { apply (IH ltac:(split; assumption) ltac:(lia)) with m1; auto.
      intros a b Ha Hb. apply Hinj; apply in_or_app; left; assumption. }
    intros k Hk Hk'. apply elem_of_list_singleton in Hk'. subst k.
    apply elem_of_list_In, in_map_iff in Hk as (r' & Ek & Hr').
    destruct (hashmap_inserts (map req_pair rs)) as (m0 & Hm0 & Hnum & Hget & _);
      [rewrite map_length; lia|apply forall_pairs; assumption|rewrite map_pairs; assumption|].
    assert (m0 = m1) by congruence. subst m0.
    destruct (Hget (req_hash r)) as (old & Hg & _ & Hc). unfold probe_kernel in Hrun.
    destruct (negb (validate_probe_key (pr_test r))); [discriminate|].
    destruct (negb (validate_probe_key (pr_var r))); [discriminate|]. cbn [ps_map ps_heap] in Hrun.
    change (hashmap_str_function (gen_probe_key (pr_test r) (pr_var r))) with (req_hash r) in Hrun.
    rewrite Hg in Hrun. cbn [bind] in Hrun.
    destruct Hc as [[E Hni]|[E Hin]].
    + apply Hni. rewrite <- list_fmap_compose. apply elem_of_list_fmap. exists r'. cbn. split; [|apply elem_of_list_In; assumption].
      unfold req_key in Ek. unfold req_hash. congruence.
    + destruct (Z.eqb_spec old 0) as [|_]; [tauto|].
      apply elem_of_list_In, in_map_iff in Hin as (r2 & Er2 & Hr2). unfold req_pair in Er2. injection Er2 as Eh Ea. subst old.
      rewrite (heap_get_addr rs r2 Hnd Hr2) in Hrun.
      rewrite decide_True in Hrun; [discriminate|].
      assert (E2 : req_key r2 = req_key r).
      { apply Hinj; [apply in_or_app; left; assumption|apply in_or_app; right; left; reflexivity|assumption]. }
      unfold req_key in E2. cbn. congruence.
Qed.

(** Witness: "Aa,v" and "BB,v" have the same hash; a second "BB,v" after "Aa,v" is accepted. *)
Definition dup_reqs : list probe_req :=
  [ mk_req (bytes "Aa"%string) (bytes "v"%string) 1 0 CheckNone 1000;
    mk_req (bytes "BB"%string) (bytes "v"%string) 2 0 CheckNone 2000;
    mk_req (bytes "BB"%string) (bytes "v"%string) 3 0 CheckNone 3000 ].

Lemma dup_reqs_accepted :
  malloc_ok dup_reqs /\ ~ NoDup (map req_key dup_reqs) /\
  exists st, ofold probe_kernel dup_reqs init_probes = Ok st /\ num_probes st = 3.
Proof.
  split; [|split].
  - split; [vm_compute; repeat constructor; set_solver|]. repeat constructor; vm_compute; congruence.
  - intros H. apply NoDup_cons in H as [_ H]. apply NoDup_cons in H as [H _]. apply H. left.
  - eexists. split; vm_compute; reflexivity.
Qed.
