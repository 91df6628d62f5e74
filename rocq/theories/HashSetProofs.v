(** Refinement proofs for the hash set of hashset.c. *)
From Coq Require Import ZArith List Bool Lia.
From stdpp Require Import base list numbers gmap fin_sets sets.
From Verif Require Import Common HashModel HashTable HashMapProofs.
Import ListNotations.
Open Scope Z_scope.
Open Scope outcome_scope.

Notation idlive := (live (A:=Z) id).
Notation zlist := (live_list (A:=Z) id).
Notation znz := (nz (A:=Z) id).
Notation ztinv := (tinv (A:=Z) id id).

Ltac spl := repeat match goal with |- _ /\ _ => split; [solve [auto|lia|cbn; lia]|] end.

Record hsw (s : hset) (n : Z) : Prop := {
  sw_nbits : hs_nbits s = n;
  sw_mask : hs_mask s = 2 ^ n - 1;
  sw_cap : hs_capacity s = 2 ^ n;
  sw_t : ztinv (hs_items s) n;
  sw_cnt : wrap64 (hs_nitems s + hs_ndel s) = znz (hs_items s);
  sw_u : Forall is_u64 (hs_items s) }.

Lemma sw_n s n : hsw s n -> 3 <= n <= 30.
Proof. intros H. exact (ti_n _ _ _ _ (sw_t _ _ H)). Qed.
Lemma sw_len s n : hsw s n -> length (hs_items s) = Z.to_nat (2 ^ n).
Proof. intros H. exact (ti_len _ _ _ _ (sw_t _ _ H)). Qed.

Lemma znz_bound items n : ztinv items n -> 0 <= znz items <= 2 ^ 30.
Proof.
  intros H. unfold nz. pose proof (filter_length (nonzero id) items).
  rewrite (ti_len _ _ _ _ H) in *. pose proof (pow2_range n (ti_n _ _ _ _ H)). lia.
Qed.

Lemma zdead_iff (v : Z) : ((v =? 0) || (v =? 1)) = true <-> ~ idlive v.
Proof. unfold live, id. rewrite orb_true_iff, !Z.eqb_eq. lia. Qed.

Definition sput (s : hset) (i v old : Z) : hset :=
  mk_hset (hs_nbits s) (hs_mask s) (hs_capacity s) (<[Z.to_nat i := v]> (hs_items s))
    (wrap64 (hs_nitems s + 1)) (if old =? 1 then wrap64 (hs_ndel s - 1) else hs_ndel s).

Lemma zlist_elem items v : v ∈ zlist items <-> v <> 0 /\ v <> 1 /\ v ∈ items.
Proof. unfold live_list. rewrite elem_of_list_filter. unfold live, id. tauto. Qed.

(** effect of hashset_add_member on a table with room *)
Lemma sadd_spec s n v :
  hsw s n -> znz (hs_items s) < 2 ^ n -> is_u64 v -> v <> 0 -> v <> 1 ->
  exists rc s', hashset_add_member s v = Ok (rc, s') /\ hsw s' n /\
    znz (hs_items s) <= znz (hs_items s') <= znz (hs_items s) + 1 /\
    ((rc = 0 /\ s' = s /\ v ∈ zlist (hs_items s)) \/
     (rc = 1 /\ zlist (hs_items s') ≡ₚ v :: zlist (hs_items s) /\
      hs_nitems s' = wrap64 (hs_nitems s + 1) /\
      (1 ∉ hs_items s -> v ∉ zlist (hs_items s) /\ 1 ∉ hs_items s' /\ hs_ndel s' = hs_ndel s /\
                         znz (hs_items s') = znz (hs_items s) + 1))).
Proof.
  intros Hs Hlt Hu Hv0 Hv1. pose proof (sw_n _ _ Hs) as Hn.
  destruct (nz_lt_exists_empty _ _ _ _ (sw_t _ _ Hs) Hlt) as (e & Hein & He). unfold id in He. subst e.
  set (stop := fun w : Z => (w =? 0) || (w =? 1) || (w =? v)).
  destruct (probe_ok stop (hs_items s) n (hstart n v)) as (j & old & Hj & Hp & Hat & Hst & Hpre);
    [lia|exact (sw_len _ _ Hs)|apply hstart_bound; lia| |].
  { exists 0. split; [assumption|]. reflexivity. }
  set (i := pidx n (hstart n v) j) in *.
  assert (Hi : 0 <= i) by (apply pidx_bound; lia).
  unfold hashset_add_member.
  replace ((v =? 0) || (v =? 1)) with false by (symmetry; rewrite orb_false_iff, !Z.eqb_neq; tauto).
  rewrite (sw_mask _ _ Hs), probe_start_eq by lia. fold (hstart n v). fold stop. rewrite Hp. cbn [bind].
  destruct ((old =? 0) || (old =? 1)) eqn:Eo.
  - assert (Hd : ~ idlive old) by (apply zdead_iff; assumption).
    assert (Hnz : znz (<[Z.to_nat i := v]> (hs_items s)) = znz (hs_items s) + (if Z.eq_dec old 0 then 1 else 0)).
    { apply (nz_put id (hs_items s) (Z.to_nat i) old v); [exact Hat|assumption]. }
    exists 1, (sput s i v old). split; [unfold sput; rewrite (sw_mask _ _ Hs); reflexivity|].
    pose proof (znz_bound _ _ (sw_t _ _ Hs)) as Hb. assert (H64 : 2 ^ 30 + 1 < 2 ^ 64) by reflexivity.
    assert (Hreach : reach id (hs_items s) n v i).
    { exists j. split; [assumption|]. split; [reflexivity|]. intros j' Hj'.
      destruct (Hpre j' Hj') as (w & H1 & H2). exists w. split; [assumption|].
      unfold stop in H2. rewrite !orb_false_iff, !Z.eqb_neq in H2. unfold id. tauto. }
    split; [split; cbn; try apply Hs|].
    + eapply tinv_put; [exact (sw_t _ _ Hs)|exact Hat|assumption|assumption|intros _; exact Hreach].
    + rewrite Hnz. pose proof (sw_cnt _ _ Hs) as Hc.
      destruct (Z.eqb_spec old 1) as [E1|E1], (Z.eq_dec old 0) as [E0|E0].
      * lia.
      * rewrite Z.add_0_r. apply wrap64_move. assumption.
      * apply wrap64_succ; [assumption|lia|lia].
      * unfold live, id in Hd. tauto.
    + apply Forall_insert; [exact (sw_u _ _ Hs)|assumption].
    + split; [cbn; rewrite Hnz; destruct (Z.eq_dec old 0); lia|]. right. split; [reflexivity|].
      split; [cbn; apply live_list_put_dead with old; [exact Hat|assumption|split; assumption]|].
      split; [reflexivity|]. intros Hno1.
      assert (E0 : old = 0).
      { rewrite orb_true_iff, !Z.eqb_eq in Eo. destruct Eo as [|E1]; [assumption|].
        exfalso. apply Hno1. subst old. eapply elem_of_list_lookup_2; exact Hat. }
      subst old. split; [|split; [|split; [reflexivity|cbn; rewrite Hnz; reflexivity]]].
      * rewrite zlist_elem. intros (_ & _ & Hin). apply elem_of_at in Hin as (i1 & Hi1 & Hat1).
        destruct (ti_reach _ _ _ _ (sw_t _ _ Hs) i1 v Hat1 ltac:(lia)) as (j1 & Hj1 & E1 & Hpre1); [split; assumption|].
        unfold id in *.
        destruct (Z.lt_trichotomy j j1) as [Hlt'|[Heq|Hgt]].
        -- destruct (Hpre1 j ltac:(lia)) as (w & Hw1 & Hw2). unfold i in Hat. rewrite Hat in Hw1. congruence.
        -- subst j1. rewrite E1 in Hat1. unfold i in Hat. congruence.
        -- destruct (Hpre j1 ltac:(lia)) as (w & Hw1 & Hw2). rewrite <- E1, Hat1 in Hw1. injection Hw1 as <-.
           unfold stop in Hw2. rewrite Z.eqb_refl, orb_true_r in Hw2. discriminate.
      * cbn. intros Hin. apply elem_of_list_lookup in Hin as [i2 Hi2].
        destruct (decide (i2 = Z.to_nat i)) as [->|Hne].
        -- rewrite list_lookup_insert in Hi2 by (apply lookup_lt_Some in Hat; exact Hat). congruence.
        -- rewrite list_lookup_insert_ne in Hi2 by auto. apply Hno1. eapply elem_of_list_lookup_2; exact Hi2.
  - exists 0, s. split; [reflexivity|]. split; [assumption|]. split; [lia|]. left. split; [reflexivity|].
    split; [reflexivity|]. unfold stop in Hst. rewrite Eo in Hst. cbn in Hst. apply Z.eqb_eq in Hst. subst old.
    rewrite zlist_elem. repeat split; try assumption. eapply elem_of_list_lookup_2; exact Hat.
Qed.

Lemma sadd_dead s v : v = 0 \/ v = 1 -> hashset_add_member s v = Ok (-1, s).
Proof. intros [E|E]; subst; reflexivity. Qed.

Definition sfresh (n : Z) : hset :=
  mk_hset n (2 ^ n - 1) (2 ^ n) (replicate (Z.to_nat (2 ^ n)) 0) 0 0.

Lemma sfresh_hsw n : 3 <= n <= 30 ->
  hsw (sfresh n) n /\ znz (hs_items (sfresh n)) = 0 /\ zlist (hs_items (sfresh n)) = [] /\ 1 ∉ hs_items (sfresh n).
Proof.
  intros Hn. pose proof (pow2_range n Hn).
  assert (Hz : znz (hs_items (sfresh n)) = 0).
  { unfold nz, sfresh; cbn [hs_items]. rewrite filter_replicate_False; [reflexivity|]. unfold nonzero, id. tauto. }
  split; [|split; [assumption|split]].
  - split; try reflexivity.
    + split; [assumption|cbn; rewrite replicate_length; reflexivity|].
      intros i sl Hi _ [Hl _]. unfold at_ in Hi. cbn in Hi.
      apply lookup_replicate in Hi as [-> _]. unfold id in Hl. lia.
    + rewrite Hz. reflexivity.
    + cbn. apply Forall_replicate. split; [lia|reflexivity].
  - unfold live_list, sfresh; cbn [hs_items]. apply filter_replicate_False. unfold live, id. tauto.
  - cbn. intros Hin. apply elem_of_replicate in Hin as [E _]. discriminate.
Qed.

Definition srehash_loop (old : list Z) (s : hset) : outcome hset :=
  ofold (fun s v => omap snd (hashset_add_member s v)) old s.

Lemma srehash_spec old : forall s n,
  hsw s n -> znz (hs_items s) + Z.of_nat (length (zlist old)) < 2 ^ n -> Forall is_u64 old ->
  1 ∉ hs_items s -> hs_ndel s = 0 -> NoDup (zlist (hs_items s)) -> hs_nitems s = znz (hs_items s) ->
  exists s', srehash_loop old s = Ok s' /\ hsw s' n /\
    znz (hs_items s') <= znz (hs_items s) + Z.of_nat (length (zlist old)) /\
    1 ∉ hs_items s' /\ hs_ndel s' = 0 /\ NoDup (zlist (hs_items s')) /\ hs_nitems s' = znz (hs_items s') /\
    (forall v, v ∈ zlist (hs_items s') <-> v ∈ zlist (hs_items s) \/ v ∈ zlist old).
Proof.
  induction old as [|v old IH]; intros s n Hs Hroom Hu Hno Hd Hnd Hni.
  - exists s. split; [reflexivity|]. spl. intros x. rewrite (zlist_elem []). set_solver.
  - inversion Hu as [|? ? Hv Hu']; subst.
    assert (Hlen : length (zlist (v :: old)) = ((if decide (idlive v) then 1 else 0) + length (zlist old))%nat).
    { unfold live_list. rewrite filter_cons. destruct (decide (idlive v)); reflexivity. }
    rewrite Hlen in Hroom |- *. cbn [srehash_loop ofold]. unfold srehash_loop; cbn [ofold]; fold (srehash_loop old).
    destruct (decide (idlive v)) as [Hl|Hl].
    + destruct Hl as [Hv0 Hv1]. unfold id in Hv0, Hv1.
      destruct (sadd_spec s n v Hs ltac:(lia) Hv Hv0 Hv1) as (rc & s1 & Ha & Hs1 & Hz1 & Hor).
      rewrite Ha. cbn [omap bind snd].
      assert (Hfl : forall w, w ∈ zlist (v :: old) <-> w = v \/ w ∈ zlist old).
      { intros w. rewrite !zlist_elem, elem_of_cons. split; [tauto|]. intros [->|]; tauto. }
      destruct Hor as [(-> & -> & Hin)|(-> & Hp & Hni1 & Hcl)].
      * destruct (IH s n) as (s' & H1 & H2 & H3 & H4 & H5 & H6 & H7 & H8); auto; [lia|].
        exists s'. spl. intros w. rewrite H8, Hfl.
        split; [tauto|]. intros [|[->|]]; tauto.
      * destruct (Hcl Hno) as (Hnin & Hno1 & Hd1 & Hz1').
        destruct (IH s1 n) as (s' & H1 & H2 & H3 & H4 & H5 & H6 & H7 & H8); auto; try lia.
        { rewrite Hp. apply NoDup_cons. split; assumption. }
        { rewrite Hni1, Hni, Hz1'. unfold wrap64. pose proof (znz_bound _ _ (sw_t _ _ Hs)).
          assert (2 ^ 30 + 1 < 2 ^ 64) by reflexivity. rewrite Z.mod_small; lia. }
        exists s'. spl. intros w. rewrite H8, Hp, Hfl, elem_of_cons. tauto.
    + rewrite sadd_dead by (unfold live, id in Hl; lia). cbn [omap bind snd].
      destruct (IH s n) as (s' & H1 & H2 & H3 & H4 & H5 & H6 & H7 & H8); auto.
      exists s'. spl. intros w. rewrite H8. rewrite !zlist_elem, elem_of_cons.
      unfold live, id in Hl. split; [tauto|]. intros [|(? & ? & [->|])]; try tauto.
Qed.

Lemma smaybe_rehash_grow s n :
  hsw s n -> znz (hs_items s) < 2 ^ n -> overloaded (znz (hs_items s)) (2 ^ n) = true -> n < 30 ->
  exists s', hashset_maybe_rehash s = Ok s' /\ hsw s' (n + 1) /\
    znz (hs_items s') <= znz (hs_items s) /\
    1 ∉ hs_items s' /\ hs_ndel s' = 0 /\ NoDup (zlist (hs_items s')) /\ hs_nitems s' = znz (hs_items s') /\
    (forall v, v ∈ zlist (hs_items s') <-> v ∈ zlist (hs_items s)).
Proof.
  intros Hs Hlt Hov Hn30. pose proof (sw_n _ _ Hs) as Hn.
  unfold hashset_maybe_rehash. rewrite (sw_cnt _ _ Hs), (sw_cap _ _ Hs), Hov, (sw_nbits _ _ Hs).
  unfold shift_capacity.
  replace ((0 <=? n + 1) && (n + 1 <? 31)) with true
    by (symmetry; apply andb_true_iff; split; [apply Z.leb_le|apply Z.ltb_lt]; lia).
  cbn [bind]. fold (sfresh (n + 1)). fold (srehash_loop (hs_items s) (sfresh (n + 1))).
  destruct (sfresh_hsw (n + 1)) as (Hf & Hfz & Hfl & Hf1); [lia|].
  pose proof (live_le_nz id (hs_items s)) as Hle.
  destruct (srehash_spec (hs_items s) (sfresh (n + 1)) (n + 1)) as (s' & H1 & H2 & H3 & H4 & H5 & H6 & H7 & H8); auto.
  - rewrite Hfz. rewrite Z.pow_add_r by lia. change (2 ^ 1) with 2. lia.
  - exact (sw_u _ _ Hs).
  - rewrite Hfl. constructor.
  - exists s'. spl. intros v. rewrite H8, Hfl. set_solver.
Qed.

Lemma smaybe_rehash_noop s n :
  hsw s n -> overloaded (znz (hs_items s)) (2 ^ n) = false -> hashset_maybe_rehash s = Ok s.
Proof.
  intros Hs Hov. unfold hashset_maybe_rehash. rewrite (sw_cnt _ _ Hs), (sw_cap _ _ Hs), Hov. reflexivity.
Qed.

(** ** Any history of additions and removals: no false negative *)
Record srel (s : hset) (σ : gset Z) (E : list Z) (n N : Z) : Prop := {
  sr_w : hsw s n;
  sr_load : overloaded (znz (hs_items s)) (2 ^ n) = false;
  sr_in : forall v, v ∈ σ -> v ∈ zlist (hs_items s);
  sr_ever : forall v, v ∈ zlist (hs_items s) -> v ∈ E;
  sr_N : znz (hs_items s) <= N }.

Lemma add_srel s σ E n N v :
  srel s σ E n N -> is_u64 v -> v <> 0 -> v <> 1 -> N + 1 <= max_inserts ->
  exists rc s' n', hashset_add s v = Ok (rc, s') /\ srel s' ({[v]} ∪ σ) (v :: E) n' (N + 1).
Proof.
  intros HR Hu Hv0 Hv1 HN. pose proof (sr_w _ _ _ _ _ HR) as Hs. pose proof (sw_n _ _ Hs) as Hn.
  pose proof (pow2_range n Hn) as Hp2. pose proof (sr_N _ _ _ _ _ HR) as HNn.
  pose proof (not_overloaded_room _ _ (sr_load _ _ _ _ _ HR) ltac:(lia)) as Hroom.
  destruct (sadd_spec s n v Hs ltac:(lia) Hu Hv0 Hv1) as (rc & s1 & Ha & Hs1 & Hz1 & Hor).
  assert (Hset : forall w, w ∈ zlist (hs_items s1) <-> w = v \/ w ∈ zlist (hs_items s)).
  { intros w. destruct Hor as [(_ & -> & Hin)|(_ & Hp & _)].
    - split; [tauto|]. intros [->|]; assumption.
    - rewrite Hp, elem_of_cons. tauto. }
  unfold hashset_add. rewrite Ha. cbn [bind fst snd].
  destruct (overloaded (znz (hs_items s1)) (2 ^ n)) eqn:Hov.
  - assert (Hn30 : n < 30).
    { destruct (Z.eq_dec n 30) as [->|]; [|lia]. rewrite max_inserts_ok in Hov by lia. discriminate. }
    destruct (smaybe_rehash_grow s1 n Hs1 ltac:(lia) Hov Hn30) as (s' & H1 & H2 & H3 & H4 & H5 & H6 & H7 & H8).
    rewrite H1. cbn [bind]. exists rc, s', (n + 1). split; [reflexivity|]. split.
    + assumption.
    + rewrite Z.pow_add_r by lia. change (2 ^ 1) with 2. rewrite Z.mul_comm. apply not_overloaded_half; lia.
    + intros w Hw. apply H8, Hset. apply elem_of_union in Hw as [Hw|Hw]; [left; set_solver|right].
      apply (sr_in _ _ _ _ _ HR). assumption.
    + intros w Hw. apply H8, Hset in Hw as [->|Hw]; [left|right]. apply (sr_ever _ _ _ _ _ HR). assumption.
    + lia.
  - rewrite (smaybe_rehash_noop s1 n Hs1 Hov). cbn [bind]. exists rc, s1, n. split; [reflexivity|]. split; auto.
    + intros w Hw. apply Hset. apply elem_of_union in Hw as [Hw|Hw]; [left; set_solver|right].
      apply (sr_in _ _ _ _ _ HR). assumption.
    + intros w Hw. apply Hset in Hw as [->|Hw]; [left|right]. apply (sr_ever _ _ _ _ _ HR). assumption.
    + lia.
Qed.

Lemma sfind_spec s n v :
  hsw s n -> znz (hs_items s) < 2 ^ n -> v <> 0 -> v <> 1 ->
  exists i w, 0 <= i /\ hashset_find s v = Ok (i, w) /\ at_ (hs_items s) i = Some w /\
    ((w = 0 /\ v ∉ zlist (hs_items s)) \/ (w = v /\ v ∈ zlist (hs_items s))).
Proof.
  intros Hs Hlt Hv0 Hv1. pose proof (sw_n _ _ Hs) as Hn.
  destruct (nz_lt_exists_empty _ _ _ _ (sw_t _ _ Hs) Hlt) as (e & Hein & He). unfold id in He. subst e.
  destruct (probe_ok (fun w => (w =? 0) || (w =? v)) (hs_items s) n (hstart n v)) as (j & w & Hj & Hp & Hat & Hst & Hpre);
    [lia|exact (sw_len _ _ Hs)|apply hstart_bound; lia| |].
  { exists 0. split; [assumption|]. reflexivity. }
  exists (pidx n (hstart n v) j), w. split; [apply pidx_bound; lia|].
  split; [unfold hashset_find; rewrite (sw_mask _ _ Hs), probe_start_eq by lia; exact Hp|].
  split; [assumption|].
  rewrite orb_true_iff, !Z.eqb_eq in Hst. destruct (Z.eq_dec w v) as [->|Hne].
  - right. split; [reflexivity|]. rewrite zlist_elem. repeat split; try assumption.
    eapply elem_of_list_lookup_2; exact Hat.
  - left. destruct Hst as [->|]; [|tauto]. split; [reflexivity|]. rewrite zlist_elem. intros (_ & _ & Hin).
    apply elem_of_at in Hin as (i1 & Hi1 & Hat1).
    destruct (ti_reach _ _ _ _ (sw_t _ _ Hs) i1 v Hat1 ltac:(lia)) as (j1 & Hj1 & E1 & Hpre1); [split; assumption|].
    unfold id in *. destruct (Z.lt_trichotomy j j1) as [Hlt'|[Heq|Hgt]].
    + destruct (Hpre1 j ltac:(lia)) as (x & Hx1 & Hx2). rewrite Hat in Hx1. congruence.
    + subst j1. rewrite E1 in Hat1. congruence.
    + destruct (Hpre j1 ltac:(lia)) as (x & Hx1 & Hx2). rewrite <- E1, Hat1 in Hx1. injection Hx1 as <-.
      rewrite Z.eqb_refl, orb_true_r in Hx2. discriminate.
Qed.

Lemma smember_iff s n v :
  hsw s n -> znz (hs_items s) < 2 ^ n -> v <> 0 -> v <> 1 ->
  hashset_is_member s v = Ok (bool_decide (v ∈ zlist (hs_items s))).
Proof.
  intros Hs Hlt Hv0 Hv1. destruct (sfind_spec s n v Hs Hlt Hv0 Hv1) as (i & w & _ & Hf & _ & Hc).
  unfold hashset_is_member. rewrite Hf. cbn [bind]. f_equal.
  destruct Hc as [[-> Hni]|[-> Hin]].
  - rewrite bool_decide_false by assumption. reflexivity.
  - rewrite bool_decide_true by assumption. destruct (Z.eqb_spec v 0); [lia|reflexivity].
Qed.

Lemma remove_srel s σ E n N v :
  srel s σ E n N -> is_u64 v -> v <> 0 -> v <> 1 ->
  exists rc s', hashset_remove s v = Ok (rc, s') /\ srel s' (σ ∖ {[v]}) E n N /\
    hashset_is_member s v = Ok (rc =? 1).
Proof.
  intros HR Hu Hv0 Hv1. pose proof (sr_w _ _ _ _ _ HR) as Hs. pose proof (sw_n _ _ Hs) as Hn.
  pose proof (pow2_range n Hn) as Hp2.
  pose proof (not_overloaded_room _ _ (sr_load _ _ _ _ _ HR) ltac:(lia)) as Hroom.
  destruct (sfind_spec s n v Hs ltac:(lia) Hv0 Hv1) as (i & w & Hi & Hf & Hat & Hc).
  unfold hashset_remove, hashset_is_member. rewrite Hf. cbn [bind].
  destruct Hc as [[-> Hni]|[-> Hin]].
  - exists 0, s. split; [reflexivity|]. split; [|reflexivity]. destruct HR. split; auto. set_solver.
  - destruct (Z.eqb_spec v 0); [lia|].
    assert (Hnz : znz (<[Z.to_nat i := 1]> (hs_items s)) = znz (hs_items s)).
    { rewrite (nz_put id (hs_items s) (Z.to_nat i) v 1); [|exact Hat|unfold id; lia].
      unfold id. destruct (Z.eq_dec v 0); lia. }
    assert (Hkill : v :: zlist (<[Z.to_nat i := 1]> (hs_items s)) ≡ₚ zlist (hs_items s)).
    { apply live_list_kill; [exact Hat|split; assumption|unfold live, id; lia]. }
    eexists 1, _. split; [reflexivity|]. split; [|reflexivity]. split; cbn [hs_items hs_nitems hs_ndel].
    + split; cbn; try apply Hs.
      * eapply tinv_put; [exact (sw_t _ _ Hs)|exact Hat|assumption|unfold id; lia|]. intros [_ H1]. unfold id in H1. lia.
      * rewrite Hnz. apply wrap64_move'. exact (sw_cnt _ _ Hs).
      * apply Forall_insert; [exact (sw_u _ _ Hs)|]. split; [lia|reflexivity].
    + rewrite Hnz. exact (sr_load _ _ _ _ _ HR).
    + intros x Hx. apply elem_of_difference in Hx as [Hx Hxv].
      pose proof (sr_in _ _ _ _ _ HR x Hx) as Hin'. rewrite <- Hkill in Hin'.
      apply elem_of_cons in Hin' as [->|]; [set_solver|assumption].
    + intros x Hx. apply (sr_ever _ _ _ _ _ HR). rewrite <- Hkill. right. assumption.
    + rewrite Hnz. exact (sr_N _ _ _ _ _ HR).
Qed.

Lemma screate_srel : srel hashset_create ∅ [] 3 0.
Proof.
  destruct (sfresh_hsw 3) as (Hf & Hfz & Hfl & Hf1); [lia|]. change hashset_create with (sfresh 3).
  split; [assumption|rewrite Hfz; reflexivity|set_solver|rewrite Hfl; set_solver|rewrite Hfz; lia].
Qed.

Inductive sop := SAdd (v : Z) | SRemove (v : Z).
Definition run_sop (s : hset) (o : sop) : outcome hset :=
  match o with
  | SAdd v => omap snd (hashset_add s v)
  | SRemove v => omap snd (hashset_remove s v)
  end.
(** mathematical set semantics *)
Definition spec_sop (σ : gset Z) (o : sop) : gset Z :=
  match o with SAdd v => {[v]} ∪ σ | SRemove v => σ ∖ {[v]} end.
Definition sop_arg (o : sop) : Z := match o with SAdd v => v | SRemove v => v end.
Definition sop_legal (o : sop) : Prop := legal_value (sop_arg o).
Definition is_sadd (o : sop) : bool := match o with SAdd _ => true | _ => false end.
Definition num_adds (os : list sop) : Z := Z.of_nat (length (List.filter is_sadd os)).
Definition added (os : list sop) : list Z := map sop_arg (List.filter is_sadd os).

Lemma shistory os : forall s σ E n N,
  srel s σ E n N -> Forall sop_legal os -> N + num_adds os <= max_inserts ->
  exists s' n' N', ofold run_sop os s = Ok s' /\ srel s' (fold_left spec_sop os σ) (rev (added os) ++ E) n' N'.
Proof.
  induction os as [|o os IH]; intros s σ E n N HR Ho HN.
  - exists s, n, N. split; [reflexivity|assumption].
  - inversion Ho as [|? ? H1 H2]; subst. unfold num_adds, added in *. unfold sop_legal, legal_value in H1.
    destruct o as [v|v]; cbn [sop_arg run_sop spec_sop List.filter is_sadd length ofold fold_left map rev] in *.
    + destruct (add_srel s σ E n N v HR) as (rc & s1 & n1 & Ha & HR1); try lia.
      { unfold is_u64. lia. }
      rewrite Ha. cbn [omap bind snd]. rewrite <- app_assoc. cbn [app]. eapply IH; eauto. lia.
    + destruct (remove_srel s σ E n N v HR) as (rc & s1 & Ha & HR1 & _); try lia.
      { unfold is_u64. lia. }
      rewrite Ha. cbn [omap bind snd]. eapply IH; eauto.
Qed.

(** every member of the abstract set is reported, everything reported was added once *)
Lemma hashset_history os :
  Forall sop_legal os -> num_adds os <= max_inserts ->
  exists s, ofold run_sop os hashset_create = Ok s /\
    forall v, legal_value v -> exists b, hashset_is_member s v = Ok b /\
      (v ∈ fold_left spec_sop os ∅ -> b = true) /\ (b = true -> v ∈ added os).
Proof.
  intros Ho HN. destruct (shistory os hashset_create ∅ [] 3 0) as (s & n & N & Hr & HR); auto using screate_srel.
  exists s. split; [assumption|]. intros v Hv. unfold legal_value in Hv.
  pose proof (sr_w _ _ _ _ _ HR) as Hs. pose proof (pow2_range n (sw_n _ _ Hs)) as Hp2.
  pose proof (not_overloaded_room _ _ (sr_load _ _ _ _ _ HR) ltac:(lia)) as Hroom.
  exists (bool_decide (v ∈ zlist (hs_items s))). split; [apply smember_iff with n; auto; lia|]. split.
  - intros Hin. apply bool_decide_true. apply (sr_in _ _ _ _ _ HR). assumption.
  - intros Hb. apply bool_decide_eq_true in Hb. apply (sr_ever _ _ _ _ _ HR) in Hb.
    rewrite app_nil_r in Hb. apply elem_of_list_In. apply (proj2 (in_rev _ _)). apply elem_of_list_In. assumption.
Qed.

(** ** Additions only: exact set semantics, including return codes and the count *)
Record arel (s : hset) (σ : gset Z) (n N : Z) : Prop := {
  ar_w : hsw s n;
  ar_load : overloaded (znz (hs_items s)) (2 ^ n) = false;
  ar_in : forall v, v ∈ σ <-> v ∈ zlist (hs_items s);
  ar_no1 : 1 ∉ hs_items s;
  ar_nd : NoDup (zlist (hs_items s));
  ar_ndel : hs_ndel s = 0;
  ar_nit : hs_nitems s = znz (hs_items s);
  ar_N : znz (hs_items s) <= N }.

Lemma no1_nz items : 1 ∉ items -> znz items = Z.of_nat (length (zlist items)).
Proof.
  unfold nz, live_list. intros H. f_equal. induction items as [|a l IH]; [reflexivity|].
  rewrite !filter_cons. apply not_elem_of_cons in H as [H1 H2].
  destruct (decide (idlive a)) as [D|D], (decide (nonzero id a)) as [D'|D']; unfold live, nonzero, id in *; cbn [length];
    rewrite ?IH by assumption; try reflexivity; exfalso; lia.
Qed.

Lemma arel_size s σ n N : arel s σ n N -> hs_nitems s = Z.of_nat (size σ).
Proof.
  intros HR. rewrite (ar_nit _ _ _ _ HR), (no1_nz _ (ar_no1 _ _ _ _ HR)). f_equal.
  assert (σ = list_to_set (zlist (hs_items s))) as ->.
  { apply set_eq. intros v. rewrite elem_of_list_to_set. apply (ar_in _ _ _ _ HR). }
  symmetry. apply size_list_to_set. exact (ar_nd _ _ _ _ HR).
Qed.

Lemma add_arel s σ n N v :
  arel s σ n N -> legal_value v -> N + 1 <= max_inserts ->
  exists s' n', hashset_add s v = Ok (if decide (v ∈ σ) then 0 else 1, s') /\ arel s' ({[v]} ∪ σ) n' (N + 1).
Proof.
  intros HR Hv HN. unfold legal_value in Hv.
  pose proof (ar_w _ _ _ _ HR) as Hs. pose proof (sw_n _ _ Hs) as Hn.
  pose proof (pow2_range n Hn) as Hp2. pose proof (ar_N _ _ _ _ HR) as HNn.
  pose proof (not_overloaded_room _ _ (ar_load _ _ _ _ HR) ltac:(lia)) as Hroom.
  destruct (sadd_spec s n v Hs) as (rc & s1 & Ha & Hs1 & Hz1 & Hor); try lia.
  { unfold is_u64. lia. }
  assert (H1 : rc = (if decide (v ∈ σ) then 0 else 1) /\ 1 ∉ hs_items s1 /\ NoDup (zlist (hs_items s1)) /\
    hs_ndel s1 = 0 /\ hs_nitems s1 = znz (hs_items s1) /\
    (forall w, w ∈ {[v]} ∪ σ <-> w ∈ zlist (hs_items s1))).
  { destruct Hor as [(-> & -> & Hin)|(-> & Hp & Hni & Hcl)].
    - rewrite decide_True by (apply (ar_in _ _ _ _ HR); assumption).
      split; [reflexivity|]. split; [exact (ar_no1 _ _ _ _ HR)|]. split; [exact (ar_nd _ _ _ _ HR)|].
      split; [exact (ar_ndel _ _ _ _ HR)|]. split; [exact (ar_nit _ _ _ _ HR)|].
      intros w. rewrite <- (ar_in _ _ _ _ HR). apply (ar_in _ _ _ _ HR) in Hin. set_solver.
    - destruct (Hcl (ar_no1 _ _ _ _ HR)) as (Hni1 & Hno1 & Hd1 & Hz).
      rewrite decide_False by (rewrite (ar_in _ _ _ _ HR); assumption).
      split; [reflexivity|]. split; [assumption|].
      split; [rewrite Hp; apply NoDup_cons; split; [assumption|exact (ar_nd _ _ _ _ HR)]|].
      split; [rewrite Hd1; exact (ar_ndel _ _ _ _ HR)|].
      split.
      + rewrite Hni, (ar_nit _ _ _ _ HR), Hz. pose proof (znz_bound _ _ (sw_t _ _ Hs)).
        assert (2 ^ 30 + 1 < 2 ^ 64) by reflexivity. unfold wrap64. rewrite Z.mod_small; lia.
      + intros w. rewrite Hp, elem_of_cons, elem_of_union, elem_of_singleton, (ar_in _ _ _ _ HR). reflexivity. }
  destruct H1 as (Hrc & Hno1 & Hnd1 & Hd1 & Hni1 & Hin1).
  unfold hashset_add. rewrite Ha. cbn [bind fst snd].
  destruct (overloaded (znz (hs_items s1)) (2 ^ n)) eqn:Hov.
  - assert (Hn30 : n < 30).
    { destruct (Z.eq_dec n 30) as [->|]; [|lia]. rewrite max_inserts_ok in Hov by lia. discriminate. }
    destruct (smaybe_rehash_grow s1 n Hs1 ltac:(lia) Hov Hn30) as (s' & H1 & H2 & H3 & H4 & H5 & H6 & H7 & H8).
    rewrite H1. cbn [bind]. exists s', (n + 1). rewrite Hrc. split; [reflexivity|]. split; auto.
    + rewrite Z.pow_add_r by lia. change (2 ^ 1) with 2. rewrite Z.mul_comm. apply not_overloaded_half; lia.
    + intros w. rewrite H8. apply Hin1.
    + lia.
  - rewrite (smaybe_rehash_noop s1 n Hs1 Hov). cbn [bind]. exists s1, n. rewrite Hrc. split; [reflexivity|].
    split; auto. lia.
Qed.

Lemma screate_arel : arel hashset_create ∅ 3 0.
Proof.
  destruct (sfresh_hsw 3) as (Hf & Hfz & Hfl & Hf1); [lia|]. change hashset_create with (sfresh 3).
  split; [assumption|rewrite Hfz; reflexivity|intros v; rewrite Hfl; set_solver|assumption|rewrite Hfl; constructor
         |reflexivity|rewrite Hfz; reflexivity|rewrite Hfz; lia].
Qed.

Lemma adds_arel l : forall s σ n N,
  arel s σ n N -> Forall legal_value l -> N + Z.of_nat (length l) <= max_inserts ->
  exists s' n', ofold (fun s v => omap snd (hashset_add s v)) l s = Ok s' /\
    arel s' (list_to_set l ∪ σ) n' (N + Z.of_nat (length l)).
Proof.
  induction l as [|v l IH]; intros s σ n N HR Hl HN.
  - exists s, n. split; [reflexivity|]. cbn. rewrite union_empty_l_L, Z.add_0_r. assumption.
  - inversion Hl; subst. cbn [length] in HN.
    destruct (add_arel s σ n N v HR) as (s1 & n1 & Ha & HR1); auto; [lia|].
    cbn [ofold]. rewrite Ha. cbn [omap bind snd].
    destruct (IH s1 _ n1 (N + 1) HR1) as (s' & n' & Hr & HR'); auto; [lia|].
    exists s', n'. split; [assumption|]. cbn [length]. rewrite Nat2Z.inj_succ. unfold Z.succ.
    replace (N + (Z.of_nat (length l) + 1)) with (N + 1 + Z.of_nat (length l)) by lia.
    replace (list_to_set (v :: l) ∪ σ) with (list_to_set l ∪ ({[v]} ∪ σ) : gset Z) by set_solver. assumption.
Qed.

Lemma hashset_adds l :
  Forall legal_value l -> Z.of_nat (length l) < max_inserts ->
  exists s, ofold (fun s v => omap snd (hashset_add s v)) l hashset_create = Ok s /\
    hashset_num_items s = Z.of_nat (size (list_to_set l : gset Z)) /\
    forall v, legal_value v ->
      hashset_is_member s v = Ok (bool_decide (v ∈ l)) /\
      exists s', hashset_add s v = Ok (if bool_decide (v ∈ l) then 0 else 1, s').
Proof.
  intros Hl HN. destruct (adds_arel l hashset_create ∅ 3 0) as (s & n & Hr & HR); auto using screate_arel; [lia|].
  exists s. split; [assumption|]. rewrite union_empty_r_L in HR. split; [exact (arel_size _ _ _ _ HR)|].
  intros v Hv. pose proof Hv as Hv'. unfold legal_value in Hv'.
  pose proof (ar_w _ _ _ _ HR) as Hs. pose proof (pow2_range n (sw_n _ _ Hs)) as Hp2.
  pose proof (not_overloaded_room _ _ (ar_load _ _ _ _ HR) ltac:(lia)) as Hroom.
  split.
  - rewrite (smember_iff s n v Hs ltac:(lia)) by lia. f_equal. apply bool_decide_ext.
    rewrite <- (ar_in _ _ _ _ HR). apply elem_of_list_to_set.
  - destruct (add_arel s _ n _ v HR Hv ltac:(lia)) as (s' & n' & Ha & _). exists s'. rewrite Ha.
    destruct (decide (v ∈ (list_to_set l : gset Z))) as [D|D]; rewrite elem_of_list_to_set in D.
    + rewrite bool_decide_true by assumption. reflexivity.
    + rewrite bool_decide_false by assumption. reflexivity.
Qed.

(** Witness: a value added once more after a colliding removal is stored twice, and stays a member once removed. *)
Lemma hashset_removal_witness :
  exists s, ofold run_sop [SAdd 2; SAdd 10; SRemove 2; SAdd 10; SRemove 10] hashset_create = Ok s /\
    hashset_is_member s 10 = Ok true /\ hashset_num_items s = 1 /\
    fold_left spec_sop [SAdd 2; SAdd 10; SRemove 2; SAdd 10; SRemove 10] (∅ : gset Z) = ∅.
Proof. eexists. split; [vm_compute; reflexivity|]. split; [vm_compute; reflexivity|]. split; [vm_compute; reflexivity|].
  cbn. set_solver. Qed.
