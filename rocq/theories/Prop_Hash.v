(** C29-C33, C52: hash map, hash set and probes. *)
From Coq Require Import String ZArith List Bool Lia.
From stdpp Require Import base list numbers gmap.
From Verif Require Import Common HashModel HashMapProofs HashSetProofs Text ProbesModel ProbesProofs.
Import ListNotations.
Open Scope Z_scope.

(** C29: insertions of distinct keys with distinct legal values behave as a finite map. *)
Theorem C29_hashmap_finite_map :
  forall l : list (Z * Z),
  Z.of_nat (length l) <= max_inserts -> NoDup (l.*1) -> NoDup (l.*2) -> Forall (fun kv => legal_value kv.2) l ->
  exists m, ofold run_insert l hashmap_create = Ok m /\
    hashmap_num_items m = Z.of_nat (length l) /\
    (forall k v, (k, v) ∈ l -> hashmap_get m k = Ok v /\ hashmap_have m k = Ok true) /\
    (forall k, k ∉ l.*1 -> hashmap_get m k = Ok 0 /\ hashmap_have m k = Ok false).
Proof. exact hashmap_finite_map. Qed.
Print Assumptions C29_hashmap_finite_map.

Example C29_nonvacuous :
  let l := [(1, 100); (9, 200); (17, 300); (25, 400); (33, 500); (41, 600); (0, 700); (2, 800)] in
  Z.of_nat (length l) <= max_inserts /\ NoDup (l.*1) /\ NoDup (l.*2) /\ Forall (fun kv => legal_value kv.2) l.
Proof.
  cbn zeta. split; [vm_compute; discriminate|]. split; [|split].
  - cbn. apply (bool_decide_unpack _). vm_compute. exact I.
  - cbn. apply (bool_decide_unpack _). vm_compute. exact I.
  - repeat (apply Forall_cons; split; [vm_compute; split; congruence|]). constructor.
Qed.

(** C29, keys allowed to repeat (as with colliding string hashes): lookup returns one of the values
    inserted under the key, and the occupied slots are exactly the inserted pairs. *)
Theorem C29_hashmap_multimap :
  forall l : list (Z * Z),
  Z.of_nat (length l) <= max_inserts -> Forall (fun kv => legal_value kv.2) l -> NoDup (l.*2) ->
  exists m, ofold run_insert l hashmap_create = Ok m /\
    hashmap_num_items m = Z.of_nat (length l) /\
    (forall k, exists r, hashmap_get m k = Ok r /\ hashmap_have m k = Ok (negb (r =? 0)) /\
      ((r = 0 /\ k ∉ l.*1) \/ (r <> 0 /\ (k, r) ∈ l))) /\
    map swap_pair (filter (fun sl : Z * Z => sl.1 <> 0) (hm_items m)) ≡ₚ l.
Proof. exact hashmap_inserts. Qed.
Print Assumptions C29_hashmap_multimap.

Example C29_multimap_nonvacuous :
  let l := [(7, 100); (7, 200); (7, 300); (1, 400)] in
  Z.of_nat (length l) <= max_inserts /\ Forall (fun kv => legal_value kv.2) l /\ NoDup (l.*2).
Proof.
  cbn zeta. split; [vm_compute; discriminate|]. split.
  - repeat (apply Forall_cons; split; [vm_compute; split; congruence|]). constructor.
  - cbn. apply (bool_decide_unpack _). vm_compute. exact I.
Qed.

(** C29: every history of insertions and removals, legal or not, terminates without undefined behaviour. *)
Theorem C29_hashmap_terminates :
  forall os, Forall hop_u64 os -> num_inserts os <= max_inserts ->
  exists m, ofold run_hop os hashmap_create = Ok m /\
    forall k, exists r b, hashmap_get m k = Ok r /\ hashmap_have m k = Ok b.
Proof. exact hashmap_always_terminates. Qed.
Print Assumptions C29_hashmap_terminates.

Example C29_terminates_nonvacuous :
  let os := [HInsert 1 0; HInsert 1 1; HInsert 1 5; HRemove 1; HRemove 1; HRemove 9; HInsert 9 5] in
  Forall hop_u64 os /\ num_inserts os <= max_inserts.
Proof. cbn zeta. split; [repeat constructor; vm_compute; congruence|vm_compute; discriminate]. Qed.

(** C30, what holds: other keys are unaffected by removals, the count is exact, and an absent key is
    reported absent or, if it was inserted before, as the tombstone value 1.
    Missing with respect to C30: a removed key is not always reported absent (see the refutation). *)
Theorem C30_hashmap_removal_partial :
  forall os, hist_ok ∅ os -> num_inserts os <= max_inserts ->
  exists m, ofold run_hop os hashmap_create = Ok m /\
    let σ := fold_left spec_hop os ∅ in
    hashmap_num_items m = Z.of_nat (size σ) /\
    forall k, match σ !! k with
              | Some v => hashmap_get m k = Ok v /\ hashmap_have m k = Ok true
              | None => hashmap_get m k = Ok 0 /\ hashmap_have m k = Ok false \/
                        (k ∈ inserted_keys os /\ hashmap_get m k = Ok 1 /\ hashmap_have m k = Ok true)
              end.
Proof. exact hashmap_history. Qed.
Print Assumptions C30_hashmap_removal_partial.

Example C30_nonvacuous :
  hist_ok ∅ [HInsert 1 100; HInsert 9 200; HRemove 1; HInsert 1 300; HRemove 9; HInsert 9 100].
Proof.
  unfold hist_ok, hop_ok, spec_hop. unfold legal_value.
  repeat split; try (simpl; lia); try (vm_compute; reflexivity); try (vm_compute; congruence);
    try (eexists; vm_compute; reflexivity).
  all: intros k' H.
  all: repeat (rewrite lookup_insert_Some in H || rewrite lookup_delete_Some in H || rewrite lookup_empty in H).
  all: naive_solver.
Qed.

(** C30 is false as stated: a removed key is still found, with the tombstone as value. *)
Theorem C30_removed_key_absent_refuted :
  exists m, ofold run_hop [HInsert 1 100; HRemove 1] hashmap_create = Ok m /\
    hashmap_get m 1 = Ok 1 /\ hashmap_have m 1 = Ok true.
Proof. exact hashmap_get_after_remove_witness. Qed.
Print Assumptions C30_removed_key_absent_refuted.

(** ... and removing an absent key decrements the item count. *)
Theorem C30_remove_absent_count_refuted :
  exists m, ofold run_hop [HInsert 1 100; HInsert 2 200; HRemove 1; HRemove 1] hashmap_create = Ok m /\
    hashmap_num_items m = 0 /\ hashmap_get m 2 = Ok 200.
Proof. exact hashmap_double_remove_witness. Qed.
Print Assumptions C30_remove_absent_count_refuted.

(** C52: two keys with the same value: the second insertion is silently dropped. *)
Theorem C52_shared_value_refuted :
  exists m, ofold run_insert [(1, 100); (9, 100)] hashmap_create = Ok m /\
    hashmap_get m 9 = Ok 0 /\ hashmap_num_items m = 1.
Proof. exact hashmap_shared_value_witness. Qed.
Print Assumptions C52_shared_value_refuted.

(** C31, additions only: membership, return code and count are those of a set. *)
Theorem C31_hashset_adds :
  forall l, Forall legal_value l -> Z.of_nat (length l) < max_inserts ->
  exists s, ofold (fun s v => omap snd (hashset_add s v)) l hashset_create = Ok s /\
    hashset_num_items s = Z.of_nat (size (list_to_set l : gset Z)) /\
    forall v, legal_value v ->
      hashset_is_member s v = Ok (bool_decide (v ∈ l)) /\
      exists s', hashset_add s v = Ok (if bool_decide (v ∈ l) then 0 else 1, s').
Proof. exact hashset_adds. Qed.
Print Assumptions C31_hashset_adds.

Example C31_adds_nonvacuous :
  let l := [2; 10; 18; 2; 26; 34; 42; 50; 10; 58] in Forall legal_value l /\ Z.of_nat (length l) < max_inserts.
Proof. cbn zeta. split; [repeat constructor; vm_compute; congruence|vm_compute; reflexivity]. Qed.

(** C31 with removals: no member is ever lost and nothing that was never added is reported.
    Missing: a removed value may still be reported (see the refutation). *)
Theorem C31_hashset_history_partial :
  forall os, Forall sop_legal os -> num_adds os <= max_inserts ->
  exists s, ofold run_sop os hashset_create = Ok s /\
    forall v, legal_value v -> exists b, hashset_is_member s v = Ok b /\
      (v ∈ fold_left spec_sop os ∅ -> b = true) /\ (b = true -> v ∈ added os).
Proof. exact hashset_history. Qed.
Print Assumptions C31_hashset_history_partial.

Example C31_history_nonvacuous :
  let os := [SAdd 2; SAdd 10; SRemove 2; SAdd 10; SRemove 10; SAdd 3] in Forall sop_legal os /\ num_adds os <= max_inserts.
Proof. cbn zeta. split; [repeat constructor; vm_compute; congruence|vm_compute; discriminate]. Qed.

Theorem C31_hashset_removal_refuted :
  exists s, ofold run_sop [SAdd 2; SAdd 10; SRemove 2; SAdd 10; SRemove 10] hashset_create = Ok s /\
    hashset_is_member s 10 = Ok true /\ hashset_num_items s = 1 /\
    fold_left spec_sop [SAdd 2; SAdd 10; SRemove 2; SAdd 10; SRemove 10] (∅ : gset Z) = ∅.
Proof. exact hashset_removal_witness. Qed.
Print Assumptions C31_hashset_removal_refuted.

(** C32: an accepted history of probes is exported as exactly one CSV record per probe, whatever the hash collisions. *)
Theorem C32_probes_exported_once :
  forall (fmt_a : Z -> list Z) rs,
  malloc_ok rs -> Z.of_nat (length rs) <= max_inserts ->
  (forall v, ~ In comma (fmt_a v) /\ ~ In newline (fmt_a v)) -> Forall no_newline rs ->
  forall st, ofold probe_kernel rs init_probes = Ok st ->
  num_probes st = Z.of_nat (length rs) /\
  exists file ps, dump_probes fmt_a st = Ok file /\ ps ≡ₚ rs /\
    map (split_on comma) (split_on newline file) =
      [bytes "test"%string; bytes "variable"%string; bytes "value"%string; bytes "accuracy_threshold"%string;
       bytes "check_mode"%string] :: map (req_fields fmt_a) ps ++ [[[]]].
Proof. exact probes_export. Qed.
Print Assumptions C32_probes_exported_once.

Example C32_nonvacuous :
  let fmt_a := fun v : Z => if v =? 0 then bytes "0x0p+0"%string else bytes "0x1p+0"%string in
  malloc_ok dup_reqs /\ Z.of_nat (length dup_reqs) <= max_inserts /\
  (forall v, ~ In comma (fmt_a v) /\ ~ In newline (fmt_a v)) /\ Forall no_newline dup_reqs /\
  exists st, ofold probe_kernel dup_reqs init_probes = Ok st.
Proof.
  cbn zeta. split; [exact (proj1 dup_reqs_accepted)|]. split; [vm_compute; discriminate|]. split; [|split].
  - intros v. destruct (v =? 0); vm_compute; split; intros H; repeat destruct H as [H|H]; try discriminate; assumption.
  - repeat constructor; vm_compute; intros H; repeat destruct H as [H|H]; try discriminate; assumption.
  - destruct dup_reqs_accepted as (_ & _ & st & H & _). exists st. exact H.
Qed.

(** C33, what holds: if different names have different hashes, a history is refused exactly when a name has a comma
    or a (test, variable) pair is repeated, and it is otherwise accepted.
    Missing: with colliding hashes a duplicate can be accepted (see the refutation). *)
Theorem C33_duplicates_refused_partial :
  forall rs, malloc_ok rs -> Z.of_nat (length rs) <= max_inserts ->
  (forall r r', In r rs -> In r' rs -> req_hash r = req_hash r' -> req_key r = req_key r') ->
  (ofold probe_kernel rs init_probes = Exit <-> Exists has_comma rs \/ ~ NoDup (map req_key rs)) /\
  (ofold probe_kernel rs init_probes = Exit \/ exists st, ofold probe_kernel rs init_probes = Ok st).
Proof. exact probes_refused_iff. Qed.
Print Assumptions C33_duplicates_refused_partial.

Definition C33_reqs : list probe_req :=
  [ mk_req (bytes "t"%string) (bytes "x"%string) 1 0 CheckNone 1000;
    mk_req (bytes "t"%string) (bytes "y"%string) 2 5 CheckRelative 2000;
    mk_req (bytes "t"%string) (bytes "x"%string) 3 0 CheckAbsolute 3000 ].
Example C33_nonvacuous :
  malloc_ok C33_reqs /\ Z.of_nat (length C33_reqs) <= max_inserts /\
  (forall r r', In r C33_reqs -> In r' C33_reqs -> req_hash r = req_hash r' -> req_key r = req_key r').
Proof.
  split; [split|split].
  - cbn. apply (bool_decide_unpack _). vm_compute. exact I.
  - repeat constructor; vm_compute; congruence.
  - vm_compute. discriminate.
  - intros r r' H H'. cbn in H, H'. repeat destruct H as [<-|H]; repeat destruct H' as [<-|H']; try tauto;
      intros E; vm_compute in E; try discriminate; reflexivity.
Qed.

(** C33, soundness of refusals without any assumption on hashes: a refusal is always justified. *)
Theorem C33_refusals_sound :
  forall rs, malloc_ok rs -> Z.of_nat (length rs) <= max_inserts ->
  (exists m, ofold probe_kernel rs init_probes = Ok (mk_pstate m (heap_of rs)) /\
     ofold run_insert (map req_pair rs) hashmap_create = Ok m /\
     Forall (fun r => ~ has_comma r) rs) \/
  (ofold probe_kernel rs init_probes = Exit /\ (Exists has_comma rs \/ dup_seen rs)).
Proof. exact probes_run. Qed.
Print Assumptions C33_refusals_sound.

Example C33_sound_nonvacuous : malloc_ok dup_reqs /\ Z.of_nat (length dup_reqs) <= max_inserts.
Proof. split; [exact (proj1 dup_reqs_accepted)|vm_compute; discriminate]. Qed.

Theorem C33_duplicate_refused_refuted :
  malloc_ok dup_reqs /\ ~ NoDup (map req_key dup_reqs) /\
  exists st, ofold probe_kernel dup_reqs init_probes = Ok st /\ num_probes st = 3.
Proof. exact dup_reqs_accepted. Qed.
Print Assumptions C33_duplicate_refused_refuted.
