(** C113: the memory of the probes over their life, and the names given by Fortran programs. *)
From Coq Require Import String ZArith List Bool Lia.
From stdpp Require Import base list.
From Verif Require Import Common HashModel HashMapProofs Text ProbesModel ProbesProofs ProbesLifeModel.
Import ListNotations.
Open Scope Z_scope.
Open Scope outcome_scope.

Lemma set_eq m b v : set m b v b = v.
Proof. unfold set. rewrite decide_True; auto. Qed.
Lemma set_ne m b v x : x <> b -> set m b v x = m x.
Proof. intros H. unfold set. rewrite decide_False; auto. Qed.

Definition used (items : list (Z * Z)) : list Z := (filter (fun sl : Z * Z => sl.1 <> 0) items).*1.
Lemma used_cons v k items : used ((v, k) :: items) = if decide (v = 0) then used items else v :: used items.
Proof. unfold used. rewrite filter_cons. cbn. destruct (decide (v = 0)) as [->|N]; [rewrite decide_False by tauto|rewrite decide_True by auto]; reflexivity. Qed.

Definition freed_keys (vs : list Z) (m : memory) : memory :=
  fun b => match b with Key a | Mode a => if decide (a ∈ vs) then false else m b | _ => m b end.
Lemma free_keys_spec items m :
  NoDup (used items) -> (forall v, v ∈ used items -> v <> 1 /\ m (Node v) = true /\ m (Key v) = true /\ m (Mode v) = true) ->
  exists m', free_keys items m = Ok m' /\ forall b, m' b = freed_keys (used items) m b.
Proof.
  revert m. induction items as [|[v k] items IH]; intros m; [intros _ _; exists m; split; [reflexivity|intros []; reflexivity]|].
  rewrite used_cons. cbn [free_keys]. destruct (decide (v = 0)) as [->|N]; [apply IH|].
  intros Nd H. apply NoDup_cons in Nd as [Nv Nd]. destruct (H v) as (N1 & A & B & C); [left|].
  destruct (Z.eqb_spec v 0); [congruence|]. destruct (Z.eqb_spec v 1); [congruence|]. cbn [orb]. rewrite A.
  unfold free. rewrite B. cbn [bind]. rewrite set_ne by discriminate. rewrite C. cbn [bind].
  destruct (IH (set (set m (Key v) false) (Mode v) false)) as (m' & E & S); [exact Nd| |].
  { intros w Hw. assert (w <> v) by (intros ->; contradiction). rewrite !set_ne by congruence. apply H. right. exact Hw. }
  exists m'. split; [exact E|]. intros b. rewrite S. destruct b as [| |a|a|a]; cbn; rewrite ?set_ne by discriminate; auto.
  - destruct (decide (a ∈ used items)) as [I|I]; [rewrite decide_True by (right; exact I); reflexivity|].
    destruct (decide (a = v)) as [->|Na].
    + rewrite set_eq, decide_True by left. reflexivity.
    + rewrite set_ne by congruence. rewrite decide_False; [reflexivity|]. intros X. apply elem_of_cons in X. tauto.
  - destruct (decide (a ∈ used items)) as [I|I]; [rewrite decide_True by (right; exact I); reflexivity|].
    destruct (decide (a = v)) as [->|Na].
    + rewrite set_eq, decide_True by left. reflexivity.
    + rewrite !set_ne by congruence. rewrite decide_False; [reflexivity|]. intros X. apply elem_of_cons in X. tauto.
Qed.
Lemma free_nodes_spec items m :
  NoDup (used items) -> (forall v, v ∈ used items -> m (Node v) = true) ->
  exists m', free_nodes items m = Ok m' /\
    forall b, m' b = match b with Node a => if decide (a ∈ used items) then false else m b | _ => m b end.
Proof.
  revert m. induction items as [|[v k] items IH]; intros m; [intros _ _; exists m; split; [reflexivity|intros []; reflexivity]|].
  rewrite used_cons. cbn [free_nodes]. destruct (decide (v = 0)) as [->|N]; [apply IH|].
  intros Nd H. apply NoDup_cons in Nd as [Nv Nd].
  destruct (Z.eqb_spec v 0); [congruence|]. unfold free. rewrite (H v) by left. cbn [bind].
  destruct (IH (set m (Node v) false)) as (m' & E & S); [exact Nd| |].
  { intros w Hw. assert (w <> v) by (intros ->; contradiction). rewrite set_ne by congruence. apply H. right. exact Hw. }
  exists m'. split; [exact E|]. intros b. rewrite S. destruct b as [| |a|a|a]; rewrite ?set_ne by discriminate; auto.
  destruct (decide (a ∈ used items)) as [I|I]; [rewrite decide_True by (right; exact I); reflexivity|].
  destruct (decide (a = v)) as [->|Na].
  + rewrite set_eq, decide_True by left. reflexivity.
  + rewrite set_ne by congruence. rewrite decide_False; [reflexivity|]. intros X. apply elem_of_cons in X. tauto.
Qed.

(** the table after the probes [rs]: exactly their addresses *)
Lemma used_addresses rs m : malloc_ok rs -> Z.of_nat (length rs) <= max_inserts ->
  ofold run_insert (map req_pair rs) hashmap_create = Ok m -> used (hm_items m) ≡ₚ map pr_addr rs.
Proof.
  intros [Hnd Hleg] HN Hm. destruct (hashmap_inserts (map req_pair rs)) as (m0 & Hm0 & _ & _ & Hperm);
    [rewrite map_length; assumption|apply forall_pairs; assumption|rewrite map_pairs; assumption|].
  assert (m0 = m) by congruence. subst m0. unfold used. rewrite <- map_pairs, <- Hperm. rewrite <- list_fmap_compose. reflexivity.
Qed.

Definition alive_for (rs : list probe_req) (b : block) : bool :=
  match b with Table | Items => true | Node a | Key a | Mode a => if decide (a ∈ map pr_addr rs) then true else false end.
(** a history of probes has no invalid access, and is accepted or refused as ProbesModel.v says *)
Lemma probes_life rs : malloc_ok rs -> Z.of_nat (length rs) <= max_inserts ->
  (exists m M, ofold step (map Probe rs) start = Ok (mk_life (mk_pstate m (heap_of rs)) M)
     /\ ofold probe_kernel rs init_probes = Ok (mk_pstate m (heap_of rs))
     /\ ofold run_insert (map req_pair rs) hashmap_create = Ok m /\ (forall b, M b = alive_for rs b))
  \/ ofold step (map Probe rs) start = Exit /\ ofold probe_kernel rs init_probes = Exit.
Proof.
  induction rs as [|r rs IH] using rev_ind; intros Hok HN.
  { left. exists hashmap_create, (mem start). repeat split. }
  pose proof (probes_run (rs ++ [r]) Hok HN) as PR.
  assert (Hok' : malloc_ok rs).
  { destruct Hok as [A B]. rewrite map_app in A. apply NoDup_app in A as (A & _). apply Forall_app in B as [B _]. split; assumption. }
  rewrite app_length in HN. cbn in HN.
  destruct (IH Hok' ltac:(lia)) as [(m & M & H1 & H2 & H3 & H4)|[H1 H2]].
  2:{ right. rewrite map_app, !ofold_app, H1, H2. split; reflexivity. }
  assert (Q : ofold probe_kernel (rs ++ [r]) init_probes = probe_kernel (mk_pstate m (heap_of rs)) r).
  { rewrite ofold_app, H2. cbn [bind ofold]. destruct (probe_kernel _ r); reflexivity. }
  assert (T : ofold step (map Probe (rs ++ [r])) start = probe (mk_life (mk_pstate m (heap_of rs)) M) r).
  { rewrite map_app, ofold_app, H1. cbn [bind map ofold step]. destruct (probe _ r); reflexivity. }
  rewrite Q, T. rewrite Q in PR. clear Q T.
  unfold probe. cbn [contents mem ps_map].
  destruct (validate_probe_key (pr_test r)) eqn:E1; cbn [negb orb];
    [|right; split; [reflexivity|unfold probe_kernel; rewrite E1; reflexivity]].
  destruct (validate_probe_key (pr_var r)) eqn:E2; cbn [negb orb];
    [|right; split; [reflexivity|unfold probe_kernel; rewrite E1, E2; reflexivity]].
  destruct Hok' as [Hnd Hleg].
  destruct (hashmap_inserts (map req_pair rs)) as (m0 & Hm0 & _ & Hget & _);
    [rewrite map_length; lia|apply forall_pairs; assumption|rewrite map_pairs; assumption|].
  assert (m0 = m) by congruence. subst m0.
  destruct (Hget (req_hash r)) as (old & Hg & _ & Hc).
  change (hashmap_str_function (gen_probe_key (pr_test r) (pr_var r))) with (req_hash r). rewrite Hg. cbn [bind].
  assert (G : negb (old =? 0) && negb (M (Node old) && M (Key old)) = false).
  { destruct Hc as [[-> _]|[N I]]; [reflexivity|].
    assert (Io : old ∈ map pr_addr rs).
    { apply elem_of_list_In. apply elem_of_list_In, in_map_iff in I as (r' & Er' & Hr'). injection Er' as _ <-. now apply in_map. }
    rewrite !H4. cbn. rewrite decide_True by exact Io. cbn. apply andb_false_r. }
  rewrite G. destruct PR as [(m' & R1 & R2 & _)|[R1 _]]; rewrite R1; [left|right; split; reflexivity].
  cbn [bind]. eexists m', _. split; [reflexivity|]. split; [reflexivity|]. split; [exact R2|].
  intros b. destruct b as [| |a|a|a]; rewrite ?set_ne by discriminate; try (rewrite H4; reflexivity).
  all: cbn [alive_for]; destruct (decide (a = pr_addr r)) as [->|Na];
    [rewrite ?set_ne by discriminate; rewrite set_eq, decide_True; [reflexivity|]; rewrite map_app; apply elem_of_app; right; left|].
  all: rewrite !set_ne by congruence; rewrite H4; cbn [alive_for];
    destruct (decide (a ∈ map pr_addr rs)) as [I|I];
    [rewrite decide_True; [reflexivity|]; rewrite map_app; apply elem_of_app; left; exact I|];
    rewrite decide_False; [reflexivity|]; rewrite map_app; intros X; apply elem_of_app in X as [X|X]; [contradiction|];
    apply elem_of_list_singleton in X; congruence.
Qed.

Lemma ending rs m M : malloc_ok rs -> Z.of_nat (length rs) <= max_inserts ->
  ofold run_insert (map req_pair rs) hashmap_create = Ok m -> (forall b, M b = alive_for rs b) ->
  exists M', free_probes (mk_life (mk_pstate m (heap_of rs)) M) = Ok (mk_life (mk_pstate m (heap_of rs)) M')
  /\ (forall b, M' b = match b with Table | Items => true | _ => false end)
  /\ readable M (hm_items m) = true.
Proof.
  intros Hok HN Hm HM. pose proof (used_addresses rs m Hok HN Hm) as P. destruct Hok as [Hnd Hleg].
  assert (Nd : NoDup (used (hm_items m))) by (rewrite P; exact Hnd).
  assert (In1 : forall v, v ∈ used (hm_items m) <-> v ∈ map pr_addr rs) by (intros v; now rewrite P).
  assert (L : forall v, v ∈ used (hm_items m) -> v <> 1 /\ M (Node v) = true /\ M (Key v) = true /\ M (Mode v) = true).
  { intros v Hv. apply In1 in Hv. split.
    - apply elem_of_list_In, in_map_iff in Hv as (r & <- & Hr). rewrite Forall_forall in Hleg.
      specialize (Hleg r (proj2 (elem_of_list_In _ _) Hr)). unfold legal_value in Hleg. lia.
    - rewrite !HM. cbn. rewrite decide_True by exact Hv. auto. }
  unfold free_probes. cbn [contents ps_map mem].
  destruct (free_keys_spec (hm_items m) M Nd L) as (M1 & -> & S1). cbn [bind].
  destruct (free_nodes_spec (hm_items m) M1 Nd) as (M2 & -> & S2).
  { intros v Hv. rewrite S1. cbn. apply L, Hv. }
  cbn [bind]. exists M2. split; [reflexivity|]. split.
  - intros b. rewrite S2. destruct b as [| |a|a|a]; rewrite ?S1; cbn; rewrite ?HM; cbn; auto;
      destruct (decide (a ∈ used (hm_items m))) as [I|I]; auto; rewrite decide_False; auto; intros X; apply I, In1, X.
  - unfold readable. apply forallb_forall. intros [v k] Hin. cbn [fst]. destruct (Z.eqb_spec v 0); [reflexivity|]. cbn [orb].
    assert (Hv : v ∈ used (hm_items m)).
    { unfold used. apply elem_of_list_fmap. exists (v, k). split; [reflexivity|]. apply elem_of_list_filter. split; [exact n|]. now apply elem_of_list_In. }
    destruct (L v Hv) as (_ & -> & -> & ->). reflexivity.
Qed.

Definition ends (c : call) : Prop := c = Free \/ exists o, c = Dump o.
(** Any probes, then one vfc_free_probes or vfc_dump_probes: no block is used after it is freed or freed twice, and every node,
    key and mode is freed. The table and its items never are. *)
Theorem C113_life_partial rs c :
  malloc_ok rs -> Z.of_nat (length rs) <= max_inserts -> ends c ->
  (exists st, ofold probe_kernel rs init_probes = Ok st /\
   exists l, ofold step (map Probe rs ++ [c]) start = Ok l /\ forall b, mem l b = true <-> b = Table \/ b = Items)
  \/ ofold probe_kernel rs init_probes = Exit /\ ofold step (map Probe rs ++ [c]) start = Exit.
Proof.
  intros Hok HN Hc. destruct (probes_life rs Hok HN) as [(m & M & H1 & H2 & H3 & H4)|[H1 H2]].
  2:{ right. split; [exact H2|]. rewrite ofold_app, H1. reflexivity. }
  left. eexists. split; [exact H2|]. destruct (ending rs m M Hok HN H3 H4) as (M' & E & S & R).
  eexists. split.
  - rewrite ofold_app, H1. cbn [bind ofold]. replace (step _ c) with (free_probes (mk_life (mk_pstate m (heap_of rs)) M)).
    + rewrite E. reflexivity.
    + destruct Hc as [-> | (o & ->)]; [reflexivity|]. cbn [step]. unfold dump. cbn [mem contents ps_map]. rewrite R, andb_false_r. reflexivity.
  - intros b. cbn [mem]. rewrite S. destruct b; split; intros X; auto; try discriminate; destruct X; discriminate.
Qed.

Lemma dead rs m M : malloc_ok rs -> Z.of_nat (length rs) <= max_inserts -> rs <> [] ->
  ofold run_insert (map req_pair rs) hashmap_create = Ok m -> (forall b, M b = match b with Table | Items => true | _ => false end) ->
  free_probes (mk_life (mk_pstate m (heap_of rs)) M) = UB.
Proof.
  intros Hok HN Ne Hm HM. pose proof (used_addresses rs m Hok HN Hm) as P. destruct Hok as [_ Hleg].
  assert (L : forall v, v ∈ used (hm_items m) -> v <> 1).
  { intros v Hv. rewrite P in Hv. apply elem_of_list_In, in_map_iff in Hv as (r & <- & Hr). rewrite Forall_forall in Hleg.
    specialize (Hleg r (proj2 (elem_of_list_In _ _) Hr)). unfold legal_value in Hleg. lia. }
  assert (U : used (hm_items m) <> []).
  { intros X. rewrite X in P. symmetry in P. apply Permutation_nil_r in P. destruct rs; [congruence|discriminate]. }
  unfold free_probes. cbn [contents ps_map mem]. enough (E : free_keys (hm_items m) M = UB) by (rewrite E; reflexivity).
  clear P. induction (hm_items m) as [|[v k] items IH]; [exfalso; apply U; reflexivity|].
  rewrite used_cons in U, L. cbn [free_keys]. destruct (decide (v = 0)) as [->|N]; [cbn; auto|].
  destruct (Z.eqb_spec v 0); [congruence|]. destruct (Z.eqb_spec v 1) as [->|]; [exfalso; apply (L 1); [left|reflexivity]|].
  cbn [orb]. rewrite HM. reflexivity.
Qed.

(** Once dumped or freed, the structure still has the addresses of what was freed: dumping or freeing it again is undefined *)
Theorem C113_twice_refuted rs st c d :
  malloc_ok rs -> Z.of_nat (length rs) <= max_inserts -> rs <> [] -> ofold probe_kernel rs init_probes = Ok st ->
  ends c -> ends d -> ofold step (map Probe rs ++ [c; d]) start = UB.
Proof.
  intros Hok HN Ne Hst Hc Hd. destruct (probes_life rs Hok HN) as [(m & M & H1 & H2 & H3 & H4)|[_ H2]]; [|congruence].
  destruct (ending rs m M Hok HN H3 H4) as (M' & E & S & R).
  rewrite ofold_app, H1. cbn [bind ofold]. replace (step _ c) with (free_probes (mk_life (mk_pstate m (heap_of rs)) M)).
  2:{ destruct Hc as [-> | (o & ->)]; [reflexivity|]. cbn [step]. unfold dump. cbn [mem contents ps_map]. rewrite R, andb_false_r. reflexivity. }
  rewrite E. cbn [bind]. pose proof (dead rs m M' Hok HN Ne H3 S) as D.
  destruct Hd as [-> | (o & ->)]; cbn [step].
  - rewrite D. reflexivity.
  - unfold dump. destruct (_ && _); [reflexivity|]. rewrite D. reflexivity.
Qed.
(** and so is a probe of a name that was there; vfc_num_probes still counts the freed probes *)
Theorem C113_reuse_refuted rs st c r r' :
  malloc_ok rs -> Z.of_nat (length rs) <= max_inserts -> ofold probe_kernel rs init_probes = Ok st -> ends c ->
  In r rs -> pr_test r' = pr_test r -> pr_var r' = pr_var r ->
  ofold step (map Probe rs ++ [c; Probe r']) start = UB
  /\ exists l, ofold step (map Probe rs ++ [c]) start = Ok l /\ num_probes (contents l) = Z.of_nat (length rs).
Proof.
  intros Hok HN Hst Hc Hr Et Ev. destruct (probes_run rs Hok HN) as [(m1 & P1 & _ & Nc)|[P1 _]]; [|congruence].
  destruct (probes_life rs Hok HN) as [(m & M & H1 & H2 & H3 & H4)|[_ H2]]; [|congruence].
  destruct (ending rs m M Hok HN H3 H4) as (M' & E & S & R).
  assert (Sc : step (mk_life (mk_pstate m (heap_of rs)) M) c = Ok (mk_life (mk_pstate m (heap_of rs)) M')).
  { destruct Hc as [-> | (o & ->)]; [exact E|]. cbn [step]. unfold dump. cbn [mem contents ps_map]. rewrite R, andb_false_r. exact E. }
  destruct Hok as [Hnd Hleg].
  destruct (hashmap_inserts (map req_pair rs)) as (m0 & Hm0 & Hnum & Hget & _);
    [rewrite map_length; assumption|apply forall_pairs; assumption|rewrite map_pairs; assumption|].
  assert (m0 = m) by congruence. subst m0. split.
  - rewrite ofold_app, H1. cbn [bind ofold]. rewrite Sc. cbn [bind step]. unfold probe. rewrite Et, Ev. cbn [contents ps_map mem].
    rewrite Forall_forall in Nc. specialize (Nc r (proj2 (elem_of_list_In _ _) Hr)). unfold has_comma in Nc.
    assert (E1 : validate_probe_key (pr_test r) = true) by (apply validate_true; tauto).
    assert (E2 : validate_probe_key (pr_var r) = true) by (apply validate_true; tauto).
    rewrite E1, E2. cbn [negb orb]. change (hashmap_str_function (gen_probe_key (pr_test r) (pr_var r))) with (req_hash r).
    destruct (Hget (req_hash r)) as (old & -> & _ & Hk). cbn [bind].
    destruct Hk as [[_ Nk]|[N0 I]].
    + exfalso. apply Nk. apply elem_of_list_fmap. exists (req_pair r). split; [reflexivity|].
      apply elem_of_list_In, in_map, Hr.
    + destruct (Z.eqb_spec old 0); [tauto|]. rewrite S. reflexivity.
  - eexists. split; [rewrite ofold_app, H1; cbn [bind ofold]; rewrite Sc; reflexivity|].
    unfold num_probes. cbn [contents ps_map]. rewrite Hnum, map_length. reflexivity.
Qed.

(** A Fortran name that ends with c_null_char is the name, whatever follows it in memory *)
Theorem C113_fortran_name s rest : ~ In 0 s -> c_string (s ++ [0] ++ rest) = Some s.
Proof.
  induction s as [|x s IH]; intros H; [reflexivity|]. cbn [app c_string].
  destruct (Z.eqb_spec x 0) as [->|]; [exfalso; apply H; left; reflexivity|].
  cbn [app] in IH. rewrite IH; [reflexivity|]. intros I. apply H. right. exact I.
Qed.
(** Without it, the name that is recorded is never the one that was written unless a 0 follows by chance *)
Theorem C113_fortran_unterminated_refuted s x rest : ~ In 0 s -> x <> 0 -> c_string (s ++ x :: rest) <> Some s.
Proof.
  intros H Hx. induction s as [|y s IH]; cbn [app c_string].
  - destruct (Z.eqb_spec x 0); [congruence|]. destruct (c_string rest); discriminate.
  - destruct (Z.eqb_spec y 0) as [->|]; [exfalso; apply H; left; reflexivity|].
    destruct (c_string (s ++ x :: rest)) eqn:E; [|discriminate]. intros [= ->]. apply IH; [|reflexivity]. intros I. apply H. right. exact I.
Qed.
(** The count is right exactly when the upper half of the register happens to be 0 *)
Theorem C113_fortran_count_refuted rs l upper :
  malloc_ok rs -> Z.of_nat (length rs) <= max_inserts -> Z.of_nat (length rs) < 2 ^ 32 -> ofold step (map Probe rs) start = Ok l ->
  (fortran_num_probes upper l = Z.of_nat (length rs) <-> upper = 0).
Proof.
  intros Hok HN HL Hl. destruct (probes_life rs Hok HN) as [(m & M & H1 & H2 & H3 & H4)|[H1 _]]; [|congruence].
  rewrite H1 in Hl. injection Hl as <-. destruct Hok as [Hnd Hleg].
  destruct (hashmap_inserts (map req_pair rs)) as (m0 & Hm0 & Hnum & _);
    [rewrite map_length; assumption|apply forall_pairs; assumption|rewrite map_pairs; assumption|].
  assert (m0 = m) by congruence. subst m0.
  unfold fortran_num_probes, num_probes. cbn [contents ps_map]. rewrite Hnum, map_length. rewrite Z.mod_small by lia. lia.
Qed.

(** two probes, dumped; the second test shows each hypothesis is met *)
Definition two : list probe_req :=
  [mk_req (bytes "t"%string) (bytes "a"%string) 7 0 CheckNone 4096; mk_req (bytes "t"%string) (bytes "b"%string) 8 1 CheckAbsolute 8192].
Example C113_nonvacuous :
  malloc_ok two /\ Z.of_nat (length two) <= max_inserts
  /\ (exists st, ofold probe_kernel two init_probes = Ok st) /\ ends (Dump true) /\ ends Free
  /\ match ofold step (map Probe two) start with Ok l => mem l (Key 4096) && mem l (Mode 8192) | _ => false end = true
  /\ match ofold step (map Probe two ++ [Dump true]) start with Ok l => mem l (Key 4096) || mem l (Node 8192) | _ => true end = false.
Proof.
  split; [|split; [vm_compute; discriminate|split; [|split; [right; eauto|split; [left; reflexivity|split; vm_compute; reflexivity]]]]].
  - split; [cbn; apply NoDup_cons; split; [intros X; apply elem_of_list_singleton in X; discriminate|apply NoDup_singleton]|].
    repeat constructor; unfold legal_value; cbn; lia.
  - destruct (ofold probe_kernel two init_probes) eqn:E; [eauto|..]; exfalso; revert E; vm_compute; discriminate.
Qed.

Print Assumptions C113_life_partial.
Print Assumptions C113_twice_refuted.
Print Assumptions C113_reuse_refuted.
Print Assumptions C113_fortran_name.
Print Assumptions C113_fortran_unterminated_refuted.
Print Assumptions C113_fortran_count_refuted.
