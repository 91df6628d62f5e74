(** C115: the hash map (vfc_hashmap.c) used by several threads. *)
From Coq Require Import ZArith List Bool Lia.
From stdpp Require Import base list.
From Verif Require Import Common HashModel HashTable HashMapProofs HashThreadsModel HashThreadsProofs.
Import ListNotations.
Open Scope Z_scope.

(** Any threads, any insertions and look-ups, any schedule, as long as the table has room for all the insertions: no access
    is outside of the table, and a look-up answers NULL or a value that some thread inserts. Missing: that it was inserted
    with the key asked for (refuted below); tables that grow while several threads use them. *)
Theorem C115_answers_partial :
  forall nbits (progs : list (list hop)) (sched : list nat), 3 <= nbits <= 30 ->
  overloaded (Z.of_nat (length (all_ins progs))) (2 ^ nbits) = false ->
  exists s, t_run nbits progs sched = Ok s /\
    (forall t k v, (t, k, v) ∈ ts_log s -> v = 0 \/ exists k', (k', v) ∈ all_ins progs) /\
    (forall c, c ∈ ts_cells s -> c.1 = 0 \/ exists k', (k', c.1) ∈ all_ins progs) /\
    0 <= ts_nitems s <= Z.of_nat (length (all_ins progs)).
Proof.
  intros nbits progs sched Hn Hr. assert (Hn' : 0 <= nbits <= 62) by lia.
  destruct (K_run nbits (all_ins progs) Hn' Hr sched _ (K_init nbits progs)) as (s & E & _ & Hv & (H0 & H1) & _ & Hl).
  exists s. split; [exact E|]. split; [|split; [|split; [exact H0|unfold pend in H1; lia]]].
  - intros t k v I. rewrite Forall_forall in Hl. exact (Hl (t, k, v) I).
  - intros c I. apply elem_of_list_lookup in I as (i & I). exact (Hv i c I).
Qed.
Print Assumptions C115_answers_partial.

(** When no two insertions have the same first cell, threads cannot disturb each other: during any schedule, a look-up
    of a key other than 0 answers NULL or the value inserted with this key; and when all have finished, every key has its value. *)
Theorem C115_apart :
  forall nbits (progs : list (list hop)) (sched : list nat), 3 <= nbits <= 30 ->
  overloaded (Z.of_nat (length (all_ins progs))) (2 ^ nbits) = false ->
  (forall k v, (k, v) ∈ all_ins progs -> legal_value v) ->
  NoDup (map (fun e => (73 * e.1) mod 2 ^ nbits) (all_ins progs)) ->
  exists s, t_run nbits progs sched = Ok s /\
    (forall t k v, (t, k, v) ∈ ts_log s -> k <> 0 -> v = 0 \/ (k, v) ∈ all_ins progs) /\
    (t_finished s -> forall k v, (k, v) ∈ all_ins progs -> hashmap_get (left_table nbits s) k = Ok v).
Proof.
  intros nbits progs sched Hn Hr Hl Ha. assert (Hn' : 0 <= nbits <= 62) by lia.
  assert (Ha' : NoDup (map (fun e => home nbits e.1) (all_ins progs))).
  { rewrite <- (map_ext (fun e => Z.to_nat ((73 * e.1) mod 2 ^ nbits))).
    - assert (Hp : 0 < 2 ^ nbits) by (apply Z.pow_pos_nonneg; lia). clear Hr Hl.
      induction (all_ins progs) as [|a l IH]; [constructor|]. cbn [map] in *. apply NoDup_cons in Ha as (N & Ha).
      apply NoDup_cons. split; [|exact (IH Ha)]. intros I. apply N. apply elem_of_list_In in I. apply in_map_iff in I as (b & E & I).
      apply elem_of_list_In. apply in_map_iff. exists b. split; [|exact I].
      pose proof (Z.mod_pos_bound (73 * a.1) _ Hp). pose proof (Z.mod_pos_bound (73 * b.1) _ Hp). lia.
    - intros e. unfold home. rewrite probe_start_eq by lia. reflexivity. }
  destruct (J_run nbits (all_ins progs) Hn' Hr Hl Ha' sched _ (K_init nbits progs) (J_init nbits progs Hn') (Q_init _ _ _)) as (s & E & _ & HJ & _ & _ & HQ).
  exists s. split; [exact E|]. split.
  { intros t k v I N. rewrite Forall_forall in HQ. destruct (HQ (t, k, v) I) as [H|[H|H]]; cbn [fst snd] in H; auto. contradiction. }
  intros F k v I. apply get_home.
  - exact (J_end nbits _ s k v HJ F I).
  - specialize (Hl k v I). unfold legal_value in Hl. lia.
Qed.
Print Assumptions C115_apart.

(** two insertions at once whose keys have the same first cell: afterwards the first key has the value of the second, and
    the second key is not found *)
Theorem C115_torn_refuted :
  exists (progs : list (list hop)) sched, all_ins progs = [(1, 2000); (9, 3000)] /\
  match t_run 3 progs sched with
  | Ok s => t_finished s /\ hashmap_get (left_table 3 s) 1 = Ok 3000 /\ hashmap_get (left_table 3 s) 9 = Ok 0
  | _ => False
  end.
Proof.
  exists [[HInsert 1 2000]; [HInsert 9 3000]], [0; 0; 0; 0; 1; 1; 1; 1; 0; 1; 1; 0]%nat. split; [reflexivity|].
  vm_compute. split; [repeat constructor|]. split; reflexivity.
Qed.
Print Assumptions C115_torn_refuted.

(** the number of entries can be too small even when the keys do not meet: the table then grows too late *)
Theorem C115_count_refuted :
  exists (progs : list (list hop)) sched, all_ins progs = [(1, 2000); (2, 3000)] /\
  match t_run 3 progs sched with
  | Ok s => t_finished s /\ hashmap_get (left_table 3 s) 1 = Ok 2000 /\ hashmap_get (left_table 3 s) 2 = Ok 3000 /\
            hashmap_num_items (left_table 3 s) = 1
  | _ => False
  end.
Proof.
  exists [[HInsert 1 2000]; [HInsert 2 3000]], [0; 0; 0; 1; 1; 1; 0; 1; 0; 1; 0; 1]%nat. split; [reflexivity|].
  vm_compute. split; [repeat constructor|]. repeat split; reflexivity.
Qed.
Print Assumptions C115_count_refuted.

(** looking a name up and then adding it (vfc_enter_function) is not one action: two threads that enter the same function for
    the first time both add it, even when the calls of the table never overlap *)
Theorem C115_same_function_refuted :
  exists sched, match t_run 3 [[HGet 5; HInsert 5 2000]; [HGet 5; HInsert 5 3000]] sched with
  | Ok s => t_finished s /\ ts_log s = [(0%nat, 5, 0); (1%nat, 5, 0)] /\ (2000, 5) ∈ ts_cells s /\ (3000, 5) ∈ ts_cells s
  | _ => False
  end.
Proof.
  exists [0; 0; 1; 1; 0; 0; 0; 0; 0; 0; 1; 1; 1; 1; 1; 1; 1]%nat. vm_compute. split; [repeat constructor|]. split; [reflexivity|].
  split; apply elem_of_list_In; cbn; tauto.
Qed.
Print Assumptions C115_same_function_refuted.

(** a look-up during the insertion of its key can miss it although its value is already there *)
Theorem C115_half_entry_refuted :
  exists sched, match t_run 3 [[HInsert 1 2000]; [HGet 1]] sched with
  | Ok s => ts_log s = [(1%nat, 1, 0)] /\ (2000, 0) ∈ ts_cells s
  | _ => False
  end.
Proof.
  exists [0; 0; 0; 0; 0; 1; 1; 1; 1]%nat. vm_compute. split; [reflexivity|]. apply elem_of_list_In. cbn. tauto.
Qed.
Print Assumptions C115_half_entry_refuted.

(** a table that grows: whatever it holds, a look-up by another thread between the writes of mask and items reads outside of
    the old cells for every key whose first cell is in the new half, and between the write of items and the end of the
    copy a look-up can miss every key *)
Theorem C115_growth_refuted :
  forall (m : hmap) (k : Z), 3 <= hm_nbits m <= 29 -> length (hm_items m) = Z.to_nat (2 ^ hm_nbits m) ->
  (2 ^ hm_nbits m <= (73 * k) mod 2 ^ (hm_nbits m + 1) -> hashmap_get (view_mask m) k = UB) /\
  hashmap_get (view_new m) k = Ok 0.
Proof.
  intros m k Hn Hl. assert (Hp : 0 < 2 ^ hm_nbits m) by (apply Z.pow_pos_nonneg; lia).
  assert (Hp1 : 0 < 2 ^ (hm_nbits m + 1)) by (apply Z.pow_pos_nonneg; lia). split.
  - intros Hk. unfold hashmap_get, hashmap_find, view_mask. cbn [hm_items hm_mask]. rewrite probe_start_eq by lia.
    destruct (length (hm_items m)) as [|n] eqn:E; [lia|]. cbn [probe].
    rewrite (lookup_ge_None_2 (hm_items m)) by lia. reflexivity.
  - unfold hashmap_get, hashmap_find, view_new. cbn [hm_items hm_mask]. rewrite probe_start_eq by lia.
    pose proof (Z.mod_pos_bound (73 * k) _ Hp1) as B. rewrite replicate_length.
    destruct (Z.to_nat (2 ^ (hm_nbits m + 1))) as [|n] eqn:E; [lia|]. cbn [probe].
    rewrite lookup_replicate_2 by lia. reflexivity.
Qed.
Print Assumptions C115_growth_refuted.
(** a table of six entries that the insertion of a seventh makes grow *)
Example C115_growth_nonvacuous :
  exists m, ofold (fun m e => hashmap_insert m e.1 e.2) [(1, 11); (2, 12); (3, 13); (4, 14); (5, 15); (6, 16)] hashmap_create = Ok m /\ hm_nbits m = 3 /\
  length (hm_items m) = Z.to_nat (2 ^ hm_nbits m) /\ hashmap_get m 1 = Ok 11 /\
  (exists m', hashmap_insert m 7 17 = Ok m' /\ hm_nbits m' = 4) /\
  2 ^ hm_nbits m <= (73 * 1) mod 2 ^ (hm_nbits m + 1).
Proof.
  eexists. split; [vm_compute; reflexivity|]. split; [reflexivity|]. split; [reflexivity|]. split; [vm_compute; reflexivity|].
  split; [eexists; split; vm_compute; reflexivity|]. vm_compute. discriminate.
Qed.

(** three threads, insertions and look-ups mixed, the schedule alternates *)
Example C115_nonvacuous :
  let progs := [[HInsert 1 2000; HGet 2]; [HInsert 2 3000; HInsert 3 3100]; [HGet 1; HInsert 4 4000; HGet 9]] in
  let sched := concat (replicate 40 [0; 1; 2]%nat) in
  overloaded (Z.of_nat (length (all_ins progs))) (2 ^ 3) = false /\
  (forall k v, (k, v) ∈ all_ins progs -> legal_value v) /\
  NoDup (map (fun e => (73 * e.1) mod 2 ^ 3) (all_ins progs)) /\
  match t_run 3 progs sched with
  | Ok s => t_finished s /\ hashmap_get (left_table 3 s) 3 = Ok 3100 /\ length (ts_log s) = 3%nat
  | _ => False
  end.
Proof.
  split; [reflexivity|]. split.
  - intros k v I. cbn in I. unfold legal_value. change (2 ^ 64) with 18446744073709551616.
    rewrite !elem_of_cons, elem_of_nil in I. destruct I as [E|[E|[E|[E|[]]]]]; injection E as -> ->; lia.
  - split; [apply NoDup_ListNoDup; vm_compute; repeat constructor; cbn; intuition lia|].
    vm_compute. split; [repeat constructor|]. split; reflexivity.
Qed.
