(** Refinement proofs for the hash map of vfc_hashmap.c. *)
From Coq Require Import ZArith List Bool Lia.
From stdpp Require Import base list numbers gmap fin_maps.
From Verif Require Import Common HashModel HashTable.
Import ListNotations.
Open Scope Z_scope.
Open Scope outcome_scope.

Notation slot := (Z * Z)%type.
Notation vlive := (live (A:=slot) fst).
Notation llist := (live_list (A:=slot) fst).
Notation snz := (nz (A:=slot) fst).
Notation stinv := (tinv (A:=slot) fst snd).
Notation sreach := (reach (A:=slot) fst).

(** [k] fits the type size_t *)
Definition legal_value (v : Z) : Prop := 2 <= v < 2 ^ 64.

(** structural invariant of the map *)
Record hmw (m : hmap) (n : Z) : Prop := {
  hw_nbits : hm_nbits m = n;
  hw_mask : hm_mask m = 2 ^ n - 1;
  hw_cap : hm_capacity m = 2 ^ n;
  hw_t : stinv (hm_items m) n;
  hw_cnt : wrap64 (hm_nitems m + hm_ndel m) = snz (hm_items m) }.

Lemma hw_n m n : hmw m n -> 3 <= n <= 30.
Proof. intros H. exact (ti_n _ _ _ _ (hw_t _ _ H)). Qed.
Lemma hw_len m n : hmw m n -> length (hm_items m) = Z.to_nat (2 ^ n).
Proof. intros H. exact (ti_len _ _ _ _ (hw_t _ _ H)). Qed.

Lemma pow2_range n : 3 <= n <= 30 -> 8 <= 2 ^ n <= 2 ^ 30.
Proof.
  intros. split.
  - change 8 with (2 ^ 3). apply Z.pow_le_mono_r; lia.
  - apply Z.pow_le_mono_r; lia.
Qed.

Lemma nz_le_len (items : list slot) : snz items <= Z.of_nat (length items).
Proof. unfold nz. pose proof (filter_length (nonzero fst) items). lia. Qed.

Lemma nz_lt_64 items n : stinv items n -> snz items <= 2 ^ 30.
Proof.
  intros H. pose proof (nz_le_len items). rewrite (ti_len _ _ _ _ H) in *.
  pose proof (pow2_range n (ti_n _ _ _ _ H)). lia.
Qed.

Lemma wrap64_succ a b c : wrap64 (a + b) = c -> 0 <= c -> c + 1 < 2 ^ 64 -> wrap64 (wrap64 (a + 1) + b) = c + 1.
Proof.
  unfold wrap64. intros H Hc Hc2. rewrite Zplus_mod_idemp_l.
  replace (a + 1 + b) with (a + b + 1) by lia.
  rewrite <- Zplus_mod_idemp_l, H. apply Z.mod_small. lia.
Qed.

Lemma wrap64_move a b c : wrap64 (a + b) = c -> wrap64 (wrap64 (a + 1) + wrap64 (b - 1)) = c.
Proof.
  unfold wrap64. intros H. rewrite Zplus_mod_idemp_l, Zplus_mod_idemp_r.
  replace (a + 1 + (b - 1)) with (a + b) by lia. assumption.
Qed.

Lemma wrap64_move' a b c : wrap64 (a + b) = c -> wrap64 (wrap64 (a - 1) + wrap64 (b + 1)) = c.
Proof.
  unfold wrap64. intros H. rewrite Zplus_mod_idemp_l, Zplus_mod_idemp_r.
  replace (a - 1 + (b + 1)) with (a + b) by lia. assumption.
Qed.

Lemma not_live_iff (sl : slot) : (((sl.1 =? 0) || (sl.1 =? 1)) = true) <-> ~ vlive sl.
Proof. unfold live. rewrite orb_true_iff, !Z.eqb_eq. lia. Qed.

Definition put (m : hmap) (i : Z) (sl old : slot) : hmap :=
  mk_hmap (hm_nbits m) (hm_mask m) (hm_capacity m) (<[Z.to_nat i := sl]> (hm_items m))
    (wrap64 (hm_nitems m + 1)) (if old.1 =? 1 then wrap64 (hm_ndel m - 1) else hm_ndel m).

(** what hashmap_add_member does on a table with an empty slot *)
Lemma add_member_spec m n k v :
  hmw m n -> snz (hm_items m) < 2 ^ n -> v <> 0 -> v <> 1 ->
  exists j old, let i := pidx n (hstart n k) j in
    0 <= j < 2 ^ n /\ at_ (hm_items m) i = Some old /\
    (forall j', 0 <= j' < j -> exists sl, at_ (hm_items m) (pidx n (hstart n k) j') = Some sl /\ vlive sl /\ sl.1 <> v) /\
    ((vlive old /\ old.1 = v /\ hashmap_add_member m k v = Ok (0, m)) \/
     (~ vlive old /\ hashmap_add_member m k v = Ok (1, put m i (v, k) old))).
Proof.
  intros Hm Hlt Hv0 Hv1. pose proof (hw_n _ _ Hm) as Hn.
  destruct (nz_lt_exists_empty _ _ _ _ (hw_t _ _ Hm) Hlt) as (e & Hein & He).
  set (stop := fun sl : slot => (sl.1 =? 0) || (sl.1 =? 1) || (sl.1 =? v)).
  destruct (probe_ok stop (hm_items m) n (hstart n k)) as (j & old & Hj & Hp & Hat & Hst & Hpre);
    [lia|exact (hw_len _ _ Hm)|apply hstart_bound; lia| |].
  { exists e. split; [assumption|]. unfold stop. rewrite He. reflexivity. }
  exists j, old. cbn zeta. split; [assumption|]. split; [assumption|]. split.
  { intros j' Hj'. destruct (Hpre j' Hj') as (sl & H1 & H2). exists sl. split; [assumption|].
    unfold stop in H2. rewrite !orb_false_iff, !Z.eqb_neq in H2. unfold live. tauto. }
  unfold hashmap_add_member.
  replace ((v =? 0) || (v =? 1)) with false by (symmetry; rewrite orb_false_iff, !Z.eqb_neq; tauto).
  rewrite (hw_mask _ _ Hm), probe_start_eq by lia. fold (hstart n k). fold stop. rewrite Hp.
  cbn [bind].
  destruct ((old.1 =? 0) || (old.1 =? 1)) eqn:Eo.
  - right. split; [apply not_live_iff; assumption|]. unfold put. rewrite (hw_mask _ _ Hm). reflexivity.
  - left. unfold stop in Hst. rewrite Eo in Hst. cbn in Hst. apply Z.eqb_eq in Hst.
    split; [|split; [assumption|reflexivity]].
    rewrite orb_false_iff, !Z.eqb_neq in Eo. unfold live. tauto.
Qed.

Lemma put_hmw m n k v j old :
  hmw m n -> legal_value v -> 0 <= j < 2 ^ n ->
  at_ (hm_items m) (pidx n (hstart n k) j) = Some old -> ~ vlive old ->
  (forall j', 0 <= j' < j -> exists sl, at_ (hm_items m) (pidx n (hstart n k) j') = Some sl /\ vlive sl /\ sl.1 <> v) ->
  hmw (put m (pidx n (hstart n k) j) (v, k) old) n /\
  snz (hm_items (put m (pidx n (hstart n k) j) (v, k) old)) = snz (hm_items m) + (if Z.eq_dec old.1 0 then 1 else 0) /\
  llist (hm_items (put m (pidx n (hstart n k) j) (v, k) old)) ≡ₚ (v, k) :: llist (hm_items m).
Proof.
  intros Hm Hv Hj Hat Hd Hpre. pose proof (hw_n _ _ Hm) as Hn. unfold legal_value in Hv.
  assert (Hi : 0 <= pidx n (hstart n k) j) by (apply pidx_bound; lia).
  assert (Hnz : snz (<[Z.to_nat (pidx n (hstart n k) j):=(v, k)]> (hm_items m)) =
                snz (hm_items m) + (if Z.eq_dec old.1 0 then 1 else 0)).
  { apply nz_put; [exact Hat|]. cbn. lia. }
  split; [|split].
  - split; cbn [hm_nbits hm_mask hm_capacity hm_items put hm_nitems hm_ndel].
    + exact (hw_nbits _ _ Hm).
    + exact (hw_mask _ _ Hm).
    + exact (hw_cap _ _ Hm).
    + eapply tinv_put; [exact (hw_t _ _ Hm)|exact Hat|exact Hi|cbn; lia|].
      intros _. exists j. split; [assumption|]. split; [reflexivity|].
      intros j' Hj'. destruct (Hpre j' Hj') as (sl & H1 & H2 & _). exists sl. split; [assumption|apply H2].
    + rewrite Hnz. pose proof (hw_cnt _ _ Hm) as Hc. pose proof (nz_lt_64 _ _ (hw_t _ _ Hm)).
      pose proof (nz_nonneg fst (hm_items m)).
      assert (2 ^ 30 + 1 < 2 ^ 64) by reflexivity.
      destruct (Z.eqb_spec old.1 1) as [E1|E1], (Z.eq_dec old.1 0) as [E0|E0].
      * lia.
      * rewrite Z.add_0_r. apply wrap64_move. assumption.
      * apply wrap64_succ; [assumption|lia|lia].
      * unfold live in Hd. tauto.
  - exact Hnz.
  - apply live_list_put_dead with old; [exact Hat|assumption|]. unfold live; cbn. lia.
Qed.

(** ** Clean tables (no tombstone) *)
Definition clean (items : list slot) : Prop := Forall (fun sl => sl.1 <> 1) items.

Lemma clean_at items i sl : clean items -> at_ items i = Some sl -> sl.1 <> 1.
Proof. intros Hc H. eapply Forall_lookup_1 in Hc; [exact Hc|exact H]. Qed.

Lemma clean_put items i sl : clean items -> sl.1 <> 1 -> clean (<[i := sl]> items).
Proof. intros Hc Hs. apply Forall_insert; assumption. Qed.

Lemma clean_nz items : clean items -> snz items = Z.of_nat (length (llist items)).
Proof.
  unfold nz, live_list. intros Hc. f_equal. induction Hc as [|a l Ha Hl IH]; [reflexivity|].
  rewrite !filter_cons. destruct (decide (vlive a)) as [H1|H1], (decide (nonzero fst a)) as [H2|H2];
    unfold live, nonzero in *; cbn [length]; try lia; tauto.
Qed.

(** adding a fresh value to a clean table *)
Lemma add_member_clean m n k v :
  hmw m n -> clean (hm_items m) -> hm_ndel m = 0 -> snz (hm_items m) < 2 ^ n -> legal_value v ->
  v ∉ (llist (hm_items m)).*1 ->
  exists m', hashmap_add_member m k v = Ok (1, m') /\ hmw m' n /\ clean (hm_items m') /\ hm_ndel m' = 0 /\
    hm_nitems m' = wrap64 (hm_nitems m + 1) /\
    snz (hm_items m') = snz (hm_items m) + 1 /\ llist (hm_items m') ≡ₚ (v, k) :: llist (hm_items m).
Proof.
  intros Hm Hc Hd Hlt Hv Hnew. unfold legal_value in Hv.
  destruct (add_member_spec m n k v Hm Hlt ltac:(lia) ltac:(lia)) as (j & old & Hj & Hat & Hpre & Hor).
  destruct Hor as [(Hl & E & _)|(Hd' & Hadd)].
  - exfalso. apply Hnew. apply elem_of_list_fmap. exists old. split; [congruence|].
    apply elem_of_list_filter. split; [assumption|]. eapply elem_of_list_lookup_2; exact Hat.
  - exists (put m (pidx n (hstart n k) j) (v, k) old). split; [assumption|].
    destruct (put_hmw m n k v j old Hm Hv Hj Hat Hd' Hpre) as (H1 & H2 & H3).
    assert (E0 : old.1 = 0).
    { pose proof (clean_at _ _ _ Hc Hat). unfold live in Hd'. lia. }
    rewrite E0 in H2. cbn in H2.
    repeat split; auto; try (apply H1).
    + cbn. apply clean_put; [assumption|cbn; lia].
    + cbn. rewrite E0. assumption.
Qed.

Definition fresh (n : Z) : hmap :=
  mk_hmap n (2 ^ n - 1) (2 ^ n) (replicate (Z.to_nat (2 ^ n)) (0, 0)) 0 0.

Lemma filter_replicate_False {A} (P : A -> Prop) `{!forall x, Decision (P x)} k x :
  ~ P x -> filter P (replicate k x) = [].
Proof. intros. induction k as [|k IH]; cbn [replicate]; [reflexivity|]. rewrite filter_cons_False; assumption. Qed.

Lemma fresh_hmw n : 3 <= n <= 30 -> hmw (fresh n) n /\ clean (hm_items (fresh n)) /\
  snz (hm_items (fresh n)) = 0 /\ llist (hm_items (fresh n)) = [].
Proof.
  intros Hn. pose proof (pow2_range n Hn) as Hp.
  assert (Hz : snz (hm_items (fresh n)) = 0).
  { unfold nz, fresh; cbn [hm_items]. rewrite filter_replicate_False; [reflexivity|]. unfold nonzero; cbn. tauto. }
  split; [|split; [|split; [assumption|]]].
  - split; try reflexivity.
    + split; [assumption|cbn; rewrite replicate_length; reflexivity|].
      intros i sl Hi _ [Hl _]. unfold at_ in Hi. cbn in Hi.
      apply lookup_replicate in Hi as [-> _]. cbn in Hl. lia.
    + rewrite Hz. reflexivity.
  - cbn. apply Forall_replicate. cbn. lia.
  - unfold live_list, fresh; cbn [hm_items]. apply filter_replicate_False. unfold live; cbn. tauto.
Qed.

(** re-inserting the slots of an old table into a roomy clean table *)
Lemma rehash_items_spec old : forall m n,
  hmw m n -> clean (hm_items m) -> hm_ndel m = 0 ->
  hm_nitems m = Z.of_nat (length (llist (hm_items m))) ->
  snz (hm_items m) + Z.of_nat (length (llist old)) < 2 ^ n ->
  Forall (fun sl => 0 <= sl.1 < 2 ^ 64) old ->
  NoDup ((llist (hm_items m)).*1 ++ (llist old).*1) ->
  exists m', rehash_items old m = Ok m' /\ hmw m' n /\ clean (hm_items m') /\ hm_ndel m' = 0 /\
    hm_nitems m' = Z.of_nat (length (llist (hm_items m'))) /\
    llist (hm_items m') ≡ₚ llist (hm_items m) ++ llist old.
Proof.
  induction old as [|sl old IH]; intros m n Hm Hc Hd Hni Hroom Hleg Hnd.
  - exists m. cbn. rewrite app_nil_r. repeat (split; [solve [auto]|]). reflexivity.
  - inversion Hleg as [|? ? Hsl Hleg']; subst.
    unfold rehash_items. cbn [ofold]. fold (rehash_items old).
    destruct (decide (vlive sl)) as [Hl|Hl].
    + unfold live_list in Hroom, Hnd. rewrite filter_cons_True in Hroom, Hnd by assumption.
      fold (llist old) in Hroom, Hnd. fold (llist (hm_items m)) in Hnd.
      cbn [length] in Hroom. rewrite fmap_cons in Hnd.
      destruct (add_member_clean m n sl.2 sl.1) as (m1 & Ha & Hm1 & Hc1 & Hd1 & Hni1 & Hnz1 & Hp1); auto; try lia.
      { unfold legal_value. unfold live in Hl. lia. }
      { intros Hin. apply NoDup_app in Hnd as (_ & Hdis & _). apply (Hdis _ Hin). left. }
      rewrite Ha. cbn [omap bind snd].
      assert (Hlen1 : length (llist (hm_items m1)) = S (length (llist (hm_items m)))).
      { rewrite Hp1. reflexivity. }
      destruct (IH m1 n) as (m' & Hr & Hm' & Hc' & Hd' & Hni' & Hp'); auto; try lia.
      { rewrite Hni1, Hni, Hlen1. unfold wrap64. rewrite Z.mod_small; [lia|].
        pose proof (live_le_nz fst (hm_items m)). pose proof (nz_lt_64 _ _ (hw_t _ _ Hm)).
        assert (2 ^ 30 + 1 < 2 ^ 64) by reflexivity. lia. }
      { rewrite Hp1. rewrite fmap_cons. cbn [app fst]. rewrite Permutation_middle. exact Hnd. }
      exists m'. repeat (split; [solve [auto]|]).
      rewrite Hp', Hp1. unfold live_list at 4. rewrite filter_cons_True by assumption.
      destruct sl as [v k]. cbn. apply Permutation_middle.
    + assert (Ha : hashmap_add_member m sl.2 sl.1 = Ok (-1, m)).
      { unfold hashmap_add_member. apply not_live_iff in Hl. rewrite Hl. reflexivity. }
      rewrite Ha. cbn [omap bind snd].
      assert (Hf : llist (sl :: old) = llist old).
      { unfold live_list. apply filter_cons_False. assumption. }
      rewrite Hf in *. apply IH; auto.
Qed.

(** growing preserves the contents and removes tombstones *)
Lemma maybe_rehash_spec m n :
  hmw m n -> snz (hm_items m) < 2 ^ n -> overloaded (snz (hm_items m)) (2 ^ n) = true -> n < 30 ->
  Forall (fun sl => 0 <= sl.1 < 2 ^ 64) (hm_items m) -> NoDup ((llist (hm_items m)).*1) ->
  exists m', maybe_rehash_map m = Ok m' /\ hmw m' (n + 1) /\ clean (hm_items m') /\ hm_ndel m' = 0 /\
    hm_nitems m' = Z.of_nat (length (llist (hm_items m'))) /\
    llist (hm_items m') ≡ₚ llist (hm_items m).
Proof.
  intros Hm Hlt Hov Hn30 Hleg Hnd. pose proof (hw_n _ _ Hm) as Hn.
  unfold maybe_rehash_map. rewrite (hw_cnt _ _ Hm), (hw_cap _ _ Hm), Hov.
  rewrite (hw_nbits _ _ Hm). unfold shift_capacity.
  replace ((0 <=? n + 1) && (n + 1 <? 31)) with true
    by (symmetry; apply andb_true_iff; split; [apply Z.leb_le|apply Z.ltb_lt]; lia).
  cbn [bind]. fold (fresh (n + 1)).
  destruct (fresh_hmw (n + 1)) as (Hf & Hfc & Hfz & Hfl); [lia|].
  destruct (rehash_items_spec (hm_items m) (fresh (n + 1)) (n + 1)) as (m' & H1 & H2 & H3 & H4 & H5 & H6); auto.
  - rewrite Hfl. reflexivity.
  - rewrite Hfz. pose proof (live_le_nz fst (hm_items m)).
    rewrite Z.pow_add_r by lia. change (2 ^ 1) with 2. lia.
  - rewrite Hfl. exact Hnd.
  - exists m'. repeat (split; [solve [auto]|]). rewrite H6, Hfl. reflexivity.
Qed.

Lemma maybe_rehash_noop m n :
  hmw m n -> overloaded (snz (hm_items m)) (2 ^ n) = false -> maybe_rehash_map m = Ok m.
Proof.
  intros Hm Hov. unfold maybe_rehash_map. rewrite (hw_cnt _ _ Hm), (hw_cap _ _ Hm), Hov. reflexivity.
Qed.

(** largest number of insertions before the capacity shift becomes undefined *)
Definition max_inserts : Z := 912680550.

Lemma overloaded_mono a b c : overloaded a c = true -> a <= b -> overloaded b c = true.
Proof. unfold overloaded. rewrite !Z.leb_le. change (2 ^ 53) with 9007199254740992. lia. Qed.

Lemma max_inserts_ok a : a <= max_inserts -> overloaded a (2 ^ 30) = false.
Proof. unfold overloaded, max_inserts. intros. apply Z.leb_gt. change (2 ^ 30) with 1073741824. change (2 ^ 53) with 9007199254740992. lia. Qed.

(** ** Histories with insertions and removals *)

(** [find] walk: it ends at the first slot that is empty or has the key *)
Definition fstop (k : Z) (sl : slot) : bool := (sl.1 =? 0) || (sl.2 =? k).

Lemma find_spec m n k :
  hmw m n -> snz (hm_items m) < 2 ^ n ->
  exists j sl, 0 <= j < 2 ^ n /\ hashmap_find m k = Ok (pidx n (hstart n k) j, sl) /\
    at_ (hm_items m) (pidx n (hstart n k) j) = Some sl /\ (sl.1 = 0 \/ sl.2 = k) /\
    forall j', 0 <= j' < j -> exists sl', at_ (hm_items m) (pidx n (hstart n k) j') = Some sl' /\ sl'.1 <> 0 /\ sl'.2 <> k.
Proof.
  intros Hm Hlt. pose proof (hw_n _ _ Hm) as Hn.
  destruct (nz_lt_exists_empty _ _ _ _ (hw_t _ _ Hm) Hlt) as (e & Hein & He).
  destruct (probe_ok (fstop k) (hm_items m) n (hstart n k)) as (j & sl & Hj & Hp & Hat & Hst & Hpre);
    [lia|exact (hw_len _ _ Hm)|apply hstart_bound; lia| |].
  { exists e. split; [assumption|]. unfold fstop. rewrite He. reflexivity. }
  exists j, sl. split; [assumption|]. split; [|split; [assumption|split]].
  - unfold hashmap_find. rewrite (hw_mask _ _ Hm), probe_start_eq by lia. exact Hp.
  - unfold fstop in Hst. rewrite orb_true_iff, !Z.eqb_eq in Hst. assumption.
  - intros j' Hj'. destruct (Hpre j' Hj') as (sl' & H1 & H2). exists sl'. split; [assumption|].
    unfold fstop in H2. rewrite orb_false_iff, !Z.eqb_neq in H2. assumption.
Qed.

(** a live slot is the first one with its key on its walk *)
Definition first_key (items : list slot) (n : Z) : Prop :=
  forall i sl, 0 <= i -> at_ items i = Some sl -> vlive sl ->
  exists j, 0 <= j < 2 ^ n /\ i = pidx n (hstart n sl.2) j /\
    forall j', 0 <= j' < j -> exists sl', at_ items (pidx n (hstart n sl.2) j') = Some sl' /\ sl'.1 <> 0 /\ sl'.2 <> sl.2.

Lemma live_at items sl : sl ∈ llist items -> exists i, 0 <= i < Z.of_nat (length items) /\ at_ items i = Some sl /\ vlive sl.
Proof.
  intros H. apply elem_of_list_filter in H as [Hl Hin]. apply elem_of_at in Hin as (i & ? & ?). eauto.
Qed.

Lemma at_live items i sl : at_ items i = Some sl -> vlive sl -> sl ∈ llist items.
Proof. intros H Hl. apply elem_of_list_filter. split; [assumption|]. eapply elem_of_list_lookup_2; exact H. Qed.

Lemma at_unique items i1 i2 s1 s2 :
  NoDup ((llist items).*2) -> 0 <= i1 -> 0 <= i2 ->
  at_ items i1 = Some s1 -> at_ items i2 = Some s2 -> vlive s1 -> vlive s2 -> s1.2 = s2.2 -> i1 = i2.
Proof.
  intros Hnd H1 H2 A1 A2 L1 L2 E. unfold at_ in *.
  assert (HH : forall (l : list slot) (a b : nat) x y, NoDup ((llist l).*2) -> l !! a = Some x -> l !! b = Some y ->
            vlive x -> vlive y -> x.2 = y.2 -> a = b).
  { clear. induction l as [|s l IH]; intros a b x y Hnd Ha Hb Lx Ly E; [discriminate|].
    unfold live_list in Hnd. destruct a as [|a], b as [|b]; cbn in Ha, Hb.
    - reflexivity.
    - injection Ha as ->. rewrite filter_cons_True in Hnd by assumption.
      apply NoDup_cons in Hnd as [Hni _]. exfalso. apply Hni. rewrite E.
      apply elem_of_list_fmap. exists y. split; [reflexivity|]. apply elem_of_list_filter.
      split; [assumption|]. eapply elem_of_list_lookup_2; exact Hb.
    - injection Hb as ->. rewrite filter_cons_True in Hnd by assumption.
      apply NoDup_cons in Hnd as [Hni _]. exfalso. apply Hni. rewrite <- E.
      apply elem_of_list_fmap. exists x. split; [reflexivity|]. apply elem_of_list_filter.
      split; [assumption|]. eapply elem_of_list_lookup_2; exact Ha.
    - f_equal. eapply IH; eauto. unfold live_list.
      rewrite filter_cons in Hnd. destruct (decide (vlive s)); [|assumption].
      apply NoDup_cons in Hnd. tauto. }
  assert (Z.to_nat i1 = Z.to_nat i2) by (eapply HH; eauto). lia.
Qed.

Lemma clean_first_key items n :
  stinv items n -> clean items -> NoDup ((llist items).*2) -> first_key items n.
Proof.
  intros Ht Hc Hnd i sl Hi Hat Hl.
  destruct (ti_reach _ _ _ _ Ht i sl Hat Hi Hl) as (j & Hj & -> & Hpre).
  exists j. split; [assumption|]. split; [reflexivity|].
  intros j' Hj'. destruct (Hpre j' Hj') as (sl' & H1 & H2). exists sl'. split; [assumption|].
  split; [assumption|]. intros E.
  assert (Hn := ti_n _ _ _ _ Ht).
  assert (vlive sl').
  { split; [assumption|]. eapply clean_at; eauto. }
  assert (pidx n (hstart n sl.2) j' = pidx n (hstart n sl.2) j).
  { eapply at_unique; eauto; apply pidx_bound; lia. }
  apply pidx_inj in H0; lia.
Qed.

(** the relation between the concrete map and a finite map [σ] *)
Definition slots_of (σ : gmap Z Z) : list slot := (fun kv => (kv.2, kv.1)) <$> map_to_list σ.

Record hrel (m : hmap) (σ : gmap Z Z) (K : list Z) (n N : Z) : Prop := {
  hr_w : hmw m n;
  hr_load : overloaded (snz (hm_items m)) (2 ^ n) = false;
  hr_live : llist (hm_items m) ≡ₚ slots_of σ;
  hr_vals : NoDup ((slots_of σ).*1);
  hr_leg : Forall (fun sl => 0 <= sl.1 < 2 ^ 64) (hm_items m);
  hr_fk : first_key (hm_items m) n;
  hr_keys : Forall (fun sl : slot => sl.1 <> 0 -> sl.2 ∈ K) (hm_items m);
  hr_nit : hm_nitems m = Z.of_nat (size σ);
  hr_ndel : 0 <= hm_ndel m;
  hr_N : snz (hm_items m) <= N;
  hr_cap : n = 3 \/ overloaded N (2 ^ (n - 1)) = true }.

Lemma slots_keys_NoDup σ : NoDup ((slots_of σ).*2).
Proof.
  unfold slots_of. rewrite <- list_fmap_compose. 
  assert (E : (snd ∘ (fun kv : Z * Z => (kv.2, kv.1))) <$> map_to_list σ = (map_to_list σ).*1).
  { apply list_fmap_ext. intros; reflexivity. }
  rewrite E. apply NoDup_fst_map_to_list.
Qed.

Lemma elem_slots_of σ v k : (v, k) ∈ slots_of σ <-> σ !! k = Some v.
Proof.
  unfold slots_of. rewrite elem_of_list_fmap. split.
  - intros ([k' v'] & [= -> ->] & H). apply elem_of_map_to_list in H. assumption.
  - intros H. exists (k, v). split; [reflexivity|]. apply elem_of_map_to_list. assumption.
Qed.

Lemma slots_insert σ k v : σ !! k = None -> slots_of (<[k := v]> σ) ≡ₚ (v, k) :: slots_of σ.
Proof. intros H. unfold slots_of. rewrite map_to_list_insert by assumption. reflexivity. Qed.

Lemma slots_delete σ k v : σ !! k = Some v -> (v, k) :: slots_of (delete k σ) ≡ₚ slots_of σ.
Proof.
  intros H. rewrite <- (insert_delete σ k v H) at 2. rewrite slots_insert by apply lookup_delete. reflexivity.
Qed.

Lemma hrel_room m σ K n N : hrel m σ K n N -> snz (hm_items m) + 1 < 2 ^ n.
Proof.
  intros H. pose proof (pow2_range n (hw_n _ _ (hr_w _ _ _ _ _ H))).
  apply not_overloaded_room; [exact (hr_load _ _ _ _ _ H)|lia].
Qed.

Lemma first_key_put m n k v j old :
  hmw m n -> legal_value v -> 0 <= j < 2 ^ n -> first_key (hm_items m) n ->
  at_ (hm_items m) (pidx n (hstart n k) j) = Some old -> ~ vlive old ->
  (forall j', 0 <= j' < j -> exists sl, at_ (hm_items m) (pidx n (hstart n k) j') = Some sl /\ vlive sl /\ sl.1 <> v) ->
  k ∉ (llist (hm_items m)).*2 ->
  first_key (<[Z.to_nat (pidx n (hstart n k) j) := (v, k)]> (hm_items m)) n.
Proof.
  intros Hm Hv Hj Hfk Hat Hd Hpre Hnk i sl Hi Hati Hl.
  pose proof (hw_n _ _ Hm) as Hn. pose proof (hw_len _ _ Hm) as Hlen.
  unfold legal_value in Hv.
  assert (Hb : forall j, 0 <= pidx n (hstart n k) j < Z.of_nat (length (hm_items m))).
  { intros j0. rewrite Hlen. pose proof (pidx_bound n (hstart n k) j0 ltac:(lia)). lia. }
  rewrite at_insert in Hati by (try apply Hb; assumption).
  destruct (Z.eq_dec (pidx n (hstart n k) j) i) as [<-|Hne].
  - injection Hati as <-. cbn [snd]. exists j. split; [assumption|]. split; [reflexivity|].
    intros j' Hj'. destruct (Hpre j' Hj') as (s & H1 & H2 & H3). exists s.
    rewrite at_insert by (apply Hb). destruct (Z.eq_dec _ _) as [E|E].
    + apply pidx_inj in E; lia.
    + split; [assumption|]. split; [apply H2|]. intros Ek. apply Hnk. rewrite <- Ek.
      apply elem_of_list_fmap_1. eapply at_live; eauto.
  - assert (Hks : sl.2 <> k).
    { intros <-. apply Hnk. apply elem_of_list_fmap_1. eapply at_live; eauto. }
    destruct (Hfk i sl Hi Hati Hl) as (j1 & Hj1 & E1 & Hpre1). exists j1. split; [assumption|]. split; [assumption|].
    intros j' Hj'. destruct (Hpre1 j' Hj') as (s & H1 & H2).
    rewrite at_insert; [|apply Hb|apply pidx_bound; lia].
    destruct (Z.eq_dec _ _) as [E|E]; [|eauto].
    exists (v, k). cbn. split; [reflexivity|]. split; [lia|auto].
Qed.

(** inserting a key that is absent, with a fresh value *)
Lemma insert_rel m σ K n N k v :
  hrel m σ K n N -> N + 1 <= max_inserts -> σ !! k = None -> legal_value v -> v ∉ (slots_of σ).*1 ->
  exists m' n', hashmap_insert m k v = Ok m' /\ hrel m' (<[k := v]> σ) (k :: K) n' (N + 1).
Proof.
  intros HR HN Hk Hv Hfresh. pose proof (hr_w _ _ _ _ _ HR) as Hm. pose proof (hw_n _ _ Hm) as Hn.
  pose proof (hrel_room _ _ _ _ _ HR) as Hroom.
  pose proof (hw_len _ _ Hm) as Hlen. pose proof Hv as Hv'. unfold legal_value in Hv'.
  destruct (add_member_spec m n k v Hm ltac:(lia) ltac:(lia) ltac:(lia)) as (j & old & Hj & Hat & Hpre & Hor).
  assert (Hperm := hr_live _ _ _ _ _ HR).
  destruct Hor as [(Hl & E & _)|(Hd & Hadd)].
  { exfalso. apply Hfresh. rewrite <- Hperm. rewrite <- E. apply elem_of_list_fmap_1. eapply at_live; eauto. }
  set (m1 := put m (pidx n (hstart n k) j) (v, k) old) in *.
  destruct (put_hmw m n k v j old Hm Hv Hj Hat Hd Hpre) as (Hm1 & Hnz1 & Hp1). fold m1 in Hm1, Hnz1, Hp1.
  assert (Hnk : k ∉ (llist (hm_items m)).*2).
  { rewrite Hperm. intros Hin. apply elem_of_list_fmap in Hin as ([v' k'] & -> & Hin).
    apply elem_slots_of in Hin. cbn in Hk. congruence. }
  assert (Hlive1 : llist (hm_items m1) ≡ₚ slots_of (<[k := v]> σ)).
  { rewrite Hp1, slots_insert, Hperm by assumption. reflexivity. }
  assert (Hvals1 : NoDup ((slots_of (<[k := v]> σ)).*1)).
  { rewrite slots_insert by assumption. rewrite fmap_cons. apply NoDup_cons. split; [assumption|exact (hr_vals _ _ _ _ _ HR)]. }
  assert (Hleg1 : Forall (fun sl => 0 <= sl.1 < 2 ^ 64) (hm_items m1)).
  { cbn. apply Forall_insert; [exact (hr_leg _ _ _ _ _ HR)|cbn; lia]. }
  assert (Hkeysin : Forall (fun sl : slot => sl.1 <> 0 -> sl.2 ∈ k :: K) (hm_items m1)).
  { cbn. apply Forall_insert; [|intros _; left].
    eapply Forall_impl; [exact (hr_keys _ _ _ _ _ HR)|]. cbn. intros sl Hs Hz. right. auto. }
  assert (Hsz : size (<[k := v]> σ) = S (size σ)) by (apply map_size_insert_None; assumption).
  assert (Hszb : Z.of_nat (size σ) <= 2 ^ 30).
  { pose proof (live_le_nz fst (hm_items m)). pose proof (nz_lt_64 _ _ (hw_t _ _ Hm)).
    rewrite Hperm in H. unfold slots_of in H. rewrite fmap_length in H.
    change (length (map_to_list σ)) with (size σ) in H. lia. }
  assert (H64 : 2 ^ 30 + 1 < 2 ^ 64) by reflexivity.
  assert (Hnz1' : snz (hm_items m1) <= snz (hm_items m) + 1) by (destruct (Z.eq_dec old.1 0); lia).
  pose proof (hr_N _ _ _ _ _ HR) as HNn.
  assert (Hkeys1 : NoDup ((llist (hm_items m1)).*2)) by (rewrite Hlive1; apply slots_keys_NoDup).
  unfold hashmap_insert. rewrite Hadd. cbn [bind snd].
  destruct (overloaded (snz (hm_items m1)) (2 ^ n)) eqn:Hov.
  - assert (Hn30 : n < 30).
    { destruct (Z.eq_dec n 30) as [->|]; [|lia].
      rewrite max_inserts_ok in Hov by lia. discriminate. }
    destruct (maybe_rehash_spec m1 n) as (m' & Hr & Hm' & Hc' & Hd' & Hni' & Hp'); auto; try lia.
    { rewrite Hlive1. assumption. }
    exists m', (n + 1). split; [assumption|].
    pose proof (pow2_range n Hn) as Hp2.
    assert (Hpp : 2 ^ (n + 1) = 2 * 2 ^ n) by (rewrite Z.pow_add_r by lia; change (2 ^ 1) with 2; lia).
    assert (Hlenp : length (llist (hm_items m')) = S (size σ)).
    { rewrite Hp', Hlive1. unfold slots_of. rewrite fmap_length. exact Hsz. }
    assert (Hnzle : snz (hm_items m') <= snz (hm_items m1)).
    { rewrite clean_nz by assumption. rewrite Hp'. apply live_le_nz. }
    split; auto.
    + rewrite Hpp. apply not_overloaded_half; lia.
    + rewrite Hp'. assumption.
    + apply Forall_forall. intros sl Hin. 
      destruct (decide (vlive sl)) as [Hl|Hl].
      * assert (sl ∈ llist (hm_items m1)) as Hin1.
        { rewrite <- Hp'. apply elem_of_list_filter. split; assumption. }
        apply elem_of_list_filter in Hin1 as [_ Hin1].
        rewrite Forall_forall in Hleg1. apply Hleg1. assumption.
      * unfold live in Hl. lia.
    + apply clean_first_key; [exact (hw_t _ _ Hm')|assumption|]. rewrite Hp'. assumption.
    + apply Forall_forall. intros sl Hin Hz.
      assert (Hl : vlive sl).
      { split; [assumption|]. apply elem_of_list_lookup_1 in Hin as [i Hi].
        eapply Forall_lookup_1 in Hc'; [exact Hc'|exact Hi]. }
      assert (sl ∈ llist (hm_items m1)) as Hin1.
      { rewrite <- Hp'. apply elem_of_list_filter. split; assumption. }
      apply elem_of_list_filter in Hin1 as [_ Hin1].
      rewrite Forall_forall in Hkeysin. apply Hkeysin; assumption.
    + rewrite Hni', Hlenp, Hsz. reflexivity.
    + rewrite Hd'. lia.
    + lia.
    + right. replace (n + 1 - 1) with n by lia. eapply overloaded_mono; [exact Hov|lia].
  - exists m1, n. split; [eapply maybe_rehash_noop; eauto|].
    split; auto.
    + eapply first_key_put; eauto using hr_fk.
    + cbn. rewrite (hr_nit _ _ _ _ _ HR), Hsz. unfold wrap64. rewrite Z.mod_small; lia.
    + cbn. pose proof (hr_ndel _ _ _ _ _ HR). destruct (old.1 =? 1); [|assumption].
      unfold wrap64. apply Z.mod_pos_bound. lia.
    + lia.
    + destruct (hr_cap _ _ _ _ _ HR) as [->|Hc]; [left; reflexivity|right].
      eapply overloaded_mono; [exact Hc|lia].
Qed.

(** looking up *)
Lemma get_rel m σ K n N k :
  hrel m σ K n N ->
  exists r, hashmap_get m k = Ok r /\ hashmap_have m k = Ok (negb (r =? 0)) /\
    match σ !! k with Some v => r = v | None => r = 0 \/ (r = 1 /\ k ∈ K) end.
Proof.
  intros HR. pose proof (hr_w _ _ _ _ _ HR) as Hm. pose proof (hw_n _ _ Hm) as Hn.
  pose proof (hrel_room _ _ _ _ _ HR) as Hroom.
  destruct (find_spec m n k Hm ltac:(lia)) as (j & sl & Hj & Hf & Hat & Hst & Hpre).
  exists (if sl.1 =? 0 then 0 else sl.1). unfold hashmap_get, hashmap_have. rewrite Hf. cbn [bind].
  split; [reflexivity|]. split; [destruct (sl.1 =? 0) eqn:E; [reflexivity|rewrite E; reflexivity]|].
  assert (Hperm := hr_live _ _ _ _ _ HR).
  destruct (σ !! k) as [v|] eqn:Ek.
  - apply elem_slots_of in Ek. rewrite <- Hperm in Ek. apply live_at in Ek as (i & Hi & Hati & Hl).
    destruct (hr_fk _ _ _ _ _ HR i (v, k)) as (j1 & Hj1 & E1 & Hpre1); try assumption; [lia|].
    cbn [snd] in *. destruct (Z.lt_trichotomy j j1) as [Hlt|[->|Hgt]].
    + destruct (Hpre1 j ltac:(lia)) as (s & Hs1 & Hs2 & Hs3). rewrite Hat in Hs1. injection Hs1 as <-. tauto.
    + rewrite <- E1, Hati in Hat. injection Hat as <-. cbn. unfold live in Hl. cbn in Hl.
      destruct (Z.eqb_spec v 0); lia.
    + destruct (Hpre j1 ltac:(lia)) as (s & Hs1 & Hs2 & Hs3). rewrite <- E1, Hati in Hs1. injection Hs1 as <-.
      cbn in Hs3. tauto.
  - destruct (Z.eqb_spec sl.1 0) as [E|E]; [tauto|]. destruct Hst as [|Hk]; [tauto|].
    destruct (Z.eq_dec sl.1 1) as [E1|E1].
    { right. split; [assumption|]. rewrite <- Hk. pose proof (hr_keys _ _ _ _ _ HR) as Hks.
      eapply Forall_lookup_1 in Hks; [apply Hks; assumption|exact Hat]. }
    exfalso.
    assert (Hin : sl ∈ llist (hm_items m)) by (eapply at_live; [exact Hat|split; assumption]).
    rewrite Hperm in Hin. destruct sl as [v k']. cbn in Hk. subst k'.
    apply elem_slots_of in Hin. congruence.
Qed.

(** removing a present key *)
Lemma remove_rel m σ K n N k v :
  hrel m σ K n N -> σ !! k = Some v ->
  exists m', hashmap_remove m k = Ok m' /\ hrel m' (delete k σ) K n N.
Proof.
  intros HR Ek. pose proof (hr_w _ _ _ _ _ HR) as Hm. pose proof (hw_n _ _ Hm) as Hn.
  pose proof (hrel_room _ _ _ _ _ HR) as Hroom.
  assert (Hperm := hr_live _ _ _ _ _ HR).
  destruct (find_spec m n k Hm ltac:(lia)) as (j & sl & Hj & Hf & Hat & Hst & Hpre).
  (* the slot found is the live one *)
  assert (Hsl : sl = (v, k)).
  { pose proof Ek as Hin. apply elem_slots_of in Hin. rewrite <- Hperm in Hin. apply live_at in Hin as (i & Hi & Hati & Hl).
    destruct (hr_fk _ _ _ _ _ HR i (v, k)) as (j1 & Hj1 & E1 & Hpre1); try assumption; [lia|].
    cbn [snd] in *. destruct (Z.lt_trichotomy j j1) as [Hlt|[->|Hgt]].
    + destruct (Hpre1 j ltac:(lia)) as (s & Hs1 & Hs2 & Hs3). rewrite Hat in Hs1. injection Hs1 as <-. tauto.
    + rewrite <- E1, Hati in Hat. congruence.
    + destruct (Hpre j1 ltac:(lia)) as (s & Hs1 & Hs2 & Hs3). rewrite <- E1, Hati in Hs1. injection Hs1 as <-.
      cbn in Hs3. tauto. }
  subst sl. set (i := pidx n (hstart n k) j) in *.
  assert (Hl : vlive (v, k)).
  { pose proof Ek as Hin. apply elem_slots_of in Hin. rewrite <- Hperm in Hin. apply elem_of_list_filter in Hin. tauto. }
  assert (Hv0 : v <> 0) by (destruct Hl; assumption).
  assert (Hi : 0 <= i) by (apply pidx_bound; lia).
  assert (Hib : i < Z.of_nat (length (hm_items m))) by (apply lookup_lt_Some in Hat; lia).
  unfold hashmap_remove. rewrite Hf. cbn [bind fst snd].
  destruct (Z.eqb_spec v 0); [lia|].
  eexists. split; [reflexivity|].
  assert (Hnz : snz (<[Z.to_nat i:=(1, k)]> (hm_items m)) = snz (hm_items m)).
  { rewrite (nz_put _ _ _ (v, k)); [|exact Hat|cbn; lia]. cbn. destruct (Z.eq_dec v 0); lia. }
  assert (Hlv : (v, k) :: llist (<[Z.to_nat i:=(1, k)]> (hm_items m)) ≡ₚ llist (hm_items m)).
  { apply live_list_kill; [exact Hat|assumption|]. unfold live; cbn. lia. }
  assert (Hsz : size σ = S (size (delete k σ))).
  { rewrite map_size_delete, Ek. cbn.
    assert (size σ <> 0)%nat; [|lia]. intros H0. apply map_size_empty_iff in H0. subst σ. rewrite lookup_empty in Ek. discriminate. }
  assert (Hszb : Z.of_nat (size σ) <= 2 ^ 30).
  { pose proof (live_le_nz fst (hm_items m)). pose proof (nz_lt_64 _ _ (hw_t _ _ Hm)).
    rewrite Hperm in H. unfold slots_of in H. rewrite fmap_length in H.
    change (length (map_to_list σ)) with (size σ) in H. lia. }
  assert (H64 : 2 ^ 30 + 1 < 2 ^ 64) by reflexivity.
  split; cbn [hm_items hm_nitems hm_ndel].
  - split; cbn; try apply Hm.
    + eapply tinv_put; [exact (hw_t _ _ Hm)|exact Hat|assumption|cbn; lia|].
      intros [_ H1]. cbn in H1. lia.
    + rewrite Hnz. apply wrap64_move'. exact (hw_cnt _ _ Hm).
  - rewrite Hnz. exact (hr_load _ _ _ _ _ HR).
  - apply (Permutation_cons_inv (a := (v, k))). rewrite Hlv, Hperm. symmetry. apply slots_delete. assumption.
  - pose proof (hr_vals _ _ _ _ _ HR) as Hv. rewrite <- (slots_delete σ k v Ek) in Hv.
    rewrite fmap_cons in Hv. apply NoDup_cons in Hv. tauto.
  - apply Forall_insert; [exact (hr_leg _ _ _ _ _ HR)|cbn; lia].
  - intros i' sl' Hi' Hat' Hl'. rewrite at_insert in Hat' by lia.
    destruct (Z.eq_dec i i') as [<-|Hne].
    + injection Hat' as <-. unfold live in Hl'. cbn in Hl'. lia.
    + destruct (hr_fk _ _ _ _ _ HR i' sl' Hi' Hat' Hl') as (j1 & Hj1 & E1 & Hpre1).
      exists j1. split; [assumption|]. split; [assumption|].
      intros j' Hj'. destruct (Hpre1 j' Hj') as (s & Hs1 & Hs2 & Hs3).
      rewrite at_insert; [|lia|apply pidx_bound; lia].
      destruct (Z.eq_dec i _) as [E|E]; [|eauto].
      exists (1, k). split; [reflexivity|]. split; [cbn; lia|].
      rewrite <- E, Hat in Hs1. injection Hs1 as <-. exact Hs3.
  - apply Forall_insert; [exact (hr_keys _ _ _ _ _ HR)|]. intros _. cbn.
    pose proof (hr_keys _ _ _ _ _ HR) as Hks.
    apply (Forall_lookup_1 _ _ _ _ Hks Hat Hv0).
  - rewrite (hr_nit _ _ _ _ _ HR). unfold wrap64. rewrite Z.mod_small; lia.
  - apply Z.mod_pos_bound. lia.
  - rewrite Hnz. exact (hr_N _ _ _ _ _ HR).
  - exact (hr_cap _ _ _ _ _ HR).
Qed.

Lemma create_rel : hrel hashmap_create ∅ [] 3 0.
Proof.
  destruct (fresh_hmw 3) as (Hf & Hfc & Hfz & Hfl); [lia|].
  change hashmap_create with (fresh 3).
  assert (Hs : slots_of ∅ = []) by (unfold slots_of; rewrite map_to_list_empty; reflexivity).
  split.
  - exact Hf.
  - rewrite Hfz. reflexivity.
  - rewrite Hfl, Hs. reflexivity.
  - rewrite Hs. constructor.
  - cbn. repeat constructor; cbn; lia.
  - apply clean_first_key; [exact (hw_t _ _ Hf)|assumption|rewrite Hfl; constructor].
  - cbn. repeat (constructor; [cbn; lia|]). constructor.
  - rewrite map_size_empty. reflexivity.
  - cbn. lia.
  - rewrite Hfz. lia.
  - left. reflexivity.
Qed.

(** ** Specification: histories over a finite map *)
Inductive hop := HInsert (k v : Z) | HRemove (k : Z).

Definition run_hop (m : hmap) (o : hop) : outcome hmap :=
  match o with
  | HInsert k v => hashmap_insert m k v
  | HRemove k => hashmap_remove m k
  end.

Definition spec_hop (σ : gmap Z Z) (o : hop) : gmap Z Z :=
  match o with
  | HInsert k v => <[k := v]> σ
  | HRemove k => delete k σ
  end.

(** insertions use absent keys and values not stored yet; removals concern present keys *)
Definition hop_ok (σ : gmap Z Z) (o : hop) : Prop :=
  match o with
  | HInsert k v => σ !! k = None /\ legal_value v /\ (forall k', σ !! k' <> Some v)
  | HRemove k => is_Some (σ !! k)
  end.

Fixpoint hist_ok (σ : gmap Z Z) (os : list hop) : Prop :=
  match os with
  | [] => True
  | o :: os' => hop_ok σ o /\ hist_ok (spec_hop σ o) os'
  end.

Definition is_insert (o : hop) : bool := match o with HInsert _ _ => true | HRemove _ => false end.
Definition num_inserts (os : list hop) : Z := Z.of_nat (length (List.filter is_insert os)).

Fixpoint inserted_keys (os : list hop) : list Z :=
  match os with
  | [] => []
  | HInsert k _ :: os' => k :: inserted_keys os'
  | HRemove _ :: os' => inserted_keys os'
  end.

Lemma history_rel os : forall m σ K n N,
  hrel m σ K n N -> hist_ok σ os -> N + num_inserts os <= max_inserts ->
  exists m' n' N', ofold run_hop os m = Ok m' /\
    hrel m' (fold_left spec_hop os σ) (rev (inserted_keys os) ++ K) n' N'.
Proof.
  induction os as [|o os IH]; intros m σ K n N HR Hok HN.
  - exists m, n, N. split; [reflexivity|assumption].
  - destruct Hok as [Ho Hok]. cbn [ofold fold_left]. unfold num_inserts in HN.
    destruct o as [k v|k]; cbn [run_hop spec_hop List.filter is_insert length inserted_keys rev] in *.
    + destruct Ho as (Hk & Hv & Hfr).
      destruct (insert_rel m σ K n N k v) as (m1 & n1 & H1 & HR1); auto; [lia| |].
      { intros Hin. apply elem_of_list_fmap in Hin as ([v' k'] & -> & Hin). apply elem_slots_of in Hin.
        apply (Hfr k'). exact Hin. }
      rewrite H1. cbn [bind]. rewrite <- app_assoc. cbn [app].
      eapply IH; eauto. unfold num_inserts. lia.
    + destruct Ho as [v Hv]. destruct (remove_rel m σ K n N k v) as (m1 & H1 & HR1); auto.
      rewrite H1. cbn [bind]. eapply IH; eauto.
Qed.

(** full theorem for well-behaved histories *)
Lemma hashmap_history os :
  hist_ok ∅ os -> num_inserts os <= max_inserts ->
  exists m, ofold run_hop os hashmap_create = Ok m /\
    let σ := fold_left spec_hop os ∅ in
    hashmap_num_items m = Z.of_nat (size σ) /\
    forall k, match σ !! k with
              | Some v => hashmap_get m k = Ok v /\ hashmap_have m k = Ok true
              | None => hashmap_get m k = Ok 0 /\ hashmap_have m k = Ok false \/
                        (k ∈ inserted_keys os /\ hashmap_get m k = Ok 1 /\ hashmap_have m k = Ok true)
              end.
Proof.
  intros Hok HN. destruct (history_rel os hashmap_create ∅ [] 3 0) as (m & n & N & Hr & HR); auto using create_rel.
  exists m. split; [assumption|]. cbn zeta. split; [exact (hr_nit _ _ _ _ _ HR)|].
  intros k. destruct (get_rel m _ _ n N k HR) as (r & Hg & Hh & Hs).
  destruct (fold_left spec_hop os ∅ !! k) as [v|] eqn:E.
  - subst r. split; [assumption|]. rewrite Hh.
    apply elem_slots_of in E. rewrite <- (hr_live _ _ _ _ _ HR) in E. apply elem_of_list_filter in E as [[Hv _] _].
    cbn in Hv. destruct (Z.eqb_spec v 0); [lia|reflexivity].
  - destruct Hs as [E0|[E0 Hin]]; subst r; [left; split; assumption|right].
    split; [|split; assumption]. rewrite app_nil_r in Hin.
    apply elem_of_list_In. apply (proj2 (in_rev _ _)). apply elem_of_list_In. assumption.
Qed.

(** ** Insert-only histories with colliding keys (multimap) *)
Record mrel (m : hmap) (L : list slot) (n N : Z) : Prop := {
  mr_w : hmw m n;
  mr_load : overloaded (snz (hm_items m)) (2 ^ n) = false;
  mr_clean : clean (hm_items m);
  mr_live : llist (hm_items m) ≡ₚ L;
  mr_leg : Forall (fun sl => 0 <= sl.1 < 2 ^ 64) (hm_items m);
  mr_nit : hm_nitems m = Z.of_nat (length L);
  mr_ndel : hm_ndel m = 0;
  mr_N : snz (hm_items m) <= N }.

Lemma insert_mrel m L n N k v :
  mrel m L n N -> N + 1 <= max_inserts -> NoDup (L.*1) -> legal_value v -> v ∉ L.*1 ->
  exists m' n', hashmap_insert m k v = Ok m' /\ mrel m' ((v, k) :: L) n' (N + 1).
Proof.
  intros HR HN Hnd Hv Hfresh. pose proof (mr_w _ _ _ _ HR) as Hm. pose proof (hw_n _ _ Hm) as Hn.
  pose proof (pow2_range n Hn) as Hp2.
  pose proof (not_overloaded_room _ _ (mr_load _ _ _ _ HR) ltac:(lia)) as Hroom.
  pose proof (mr_live _ _ _ _ HR) as Hperm. pose proof (mr_N _ _ _ _ HR) as HNn.
  pose proof Hv as Hv'. unfold legal_value in Hv'.
  destruct (add_member_clean m n k v) as (m1 & Hadd & Hm1 & Hc1 & Hd1 & Hni1 & Hnz1 & Hp1);
    auto; [exact (mr_clean _ _ _ _ HR)|exact (mr_ndel _ _ _ _ HR)|lia|rewrite Hperm; assumption|].
  assert (Hleg1 : Forall (fun sl : slot => 0 <= sl.1 < 2 ^ 64) (hm_items m1)).
  { apply Forall_forall. intros sl Hin. destruct (decide (vlive sl)) as [Hl|Hl].
    - assert (Hin1 : sl ∈ llist (hm_items m1)) by (apply elem_of_list_filter; split; assumption).
      rewrite Hp1 in Hin1. apply elem_of_cons in Hin1 as [->|Hin1]; [cbn; lia|].
      apply elem_of_list_filter in Hin1 as [_ Hin1].
      pose proof (mr_leg _ _ _ _ HR) as Hleg. rewrite Forall_forall in Hleg. apply Hleg. assumption.
    - unfold live in Hl. lia. }
  assert (Hnit1 : hm_nitems m1 = Z.of_nat (length ((v, k) :: L))).
  { rewrite Hni1, (mr_nit _ _ _ _ HR). cbn [length].
    pose proof (live_le_nz fst (hm_items m)) as HL. rewrite Hperm in HL.
    pose proof (nz_lt_64 _ _ (hw_t _ _ Hm)). assert (2 ^ 30 + 1 < 2 ^ 64) by reflexivity.
    unfold wrap64. rewrite Z.mod_small; lia. }
  unfold hashmap_insert. rewrite Hadd. cbn [bind snd].
  destruct (overloaded (snz (hm_items m1)) (2 ^ n)) eqn:Hov.
  - assert (Hn30 : n < 30).
    { destruct (Z.eq_dec n 30) as [->|]; [|lia]. rewrite max_inserts_ok in Hov by lia. discriminate. }
    destruct (maybe_rehash_spec m1 n) as (m' & Hr & Hm' & Hc' & Hd' & Hni' & Hp'); auto; try lia.
    { rewrite Hp1, fmap_cons, Hperm. apply NoDup_cons. split; assumption. }
    exists m', (n + 1). split; [assumption|].
    assert (Hpp : 2 ^ (n + 1) = 2 * 2 ^ n) by (rewrite Z.pow_add_r by lia; change (2 ^ 1) with 2; lia).
    assert (Hnzle : snz (hm_items m') <= snz (hm_items m1)).
    { rewrite clean_nz by assumption. rewrite Hp'. apply live_le_nz. }
    split; auto.
    + rewrite Hpp. apply not_overloaded_half; lia.
    + rewrite Hp', Hp1, Hperm. reflexivity.
    + apply Forall_forall. intros sl Hin. destruct (decide (vlive sl)) as [Hl|Hl].
      * assert (sl ∈ llist (hm_items m1)) as Hin1.
        { rewrite <- Hp'. apply elem_of_list_filter. split; assumption. }
        apply elem_of_list_filter in Hin1 as [_ Hin1].
        rewrite Forall_forall in Hleg1. apply Hleg1. assumption.
      * unfold live in Hl. lia.
    + rewrite Hni', Hp', Hp1, Hperm. reflexivity.
    + lia.
  - exists m1, n. split; [eapply maybe_rehash_noop; eauto|]. split; auto.
    + rewrite Hp1, Hperm. reflexivity.
    + lia.
Qed.

Definition run_insert (m : hmap) (kv : Z * Z) : outcome hmap := hashmap_insert m kv.1 kv.2.
Definition swap_pair (kv : Z * Z) : slot := (kv.2, kv.1).

Lemma inserts_mrel l : forall m L n N,
  mrel m L n N -> N + Z.of_nat (length l) <= max_inserts ->
  Forall (fun kv => legal_value kv.2) l -> NoDup (L.*1 ++ l.*2) ->
  exists m' n' N', ofold run_insert l m = Ok m' /\ mrel m' (rev (map swap_pair l) ++ L) n' N'.
Proof.
  induction l as [|[k v] l IH]; intros m L n N HR HN Hleg Hnd.
  - exists m, n, N. split; [reflexivity|]. exact HR.
  - inversion Hleg as [|? ? Hv Hleg']; subst. cbn [length] in HN. rewrite fmap_cons in Hnd. cbn [snd] in Hnd.
    rewrite <- Permutation_middle in Hnd. apply NoDup_cons in Hnd as [Hni Hnd].
    rewrite elem_of_app in Hni.
    destruct (insert_mrel m L n N k v) as (m1 & n1 & H1 & HR1); auto; try lia; try tauto.
    { apply NoDup_app in Hnd. tauto. }
    cbn [ofold map rev]. unfold run_insert at 1. cbn [fst snd]. rewrite H1. cbn [bind].
    rewrite <- app_assoc. change ([swap_pair (k, v)] ++ L) with ((v, k) :: L).
    apply (IH m1 _ n1 (N + 1)); auto; [lia|].
    rewrite fmap_cons. cbn [fst app]. apply NoDup_cons. split; [rewrite elem_of_app; tauto|assumption].
Qed.

Lemma create_mrel : mrel hashmap_create [] 3 0.
Proof.
  destruct (fresh_hmw 3) as (Hf & Hfc & Hfz & Hfl); [lia|]. change hashmap_create with (fresh 3).
  split.
  - exact Hf.
  - rewrite Hfz. reflexivity.
  - exact Hfc.
  - rewrite Hfl. reflexivity.
  - cbn. repeat constructor; cbn; lia.
  - reflexivity.
  - reflexivity.
  - rewrite Hfz. lia.
Qed.

Lemma get_mrel m L n N k :
  mrel m L n N ->
  exists r, hashmap_get m k = Ok r /\ hashmap_have m k = Ok (negb (r =? 0)) /\
    ((r = 0 /\ k ∉ L.*2) \/ (r <> 0 /\ (r, k) ∈ L)).
Proof.
  intros HR. pose proof (mr_w _ _ _ _ HR) as Hm. pose proof (hw_n _ _ Hm) as Hn.
  pose proof (pow2_range n Hn) as Hp2.
  pose proof (not_overloaded_room _ _ (mr_load _ _ _ _ HR) ltac:(lia)) as Hroom.
  pose proof (mr_live _ _ _ _ HR) as Hperm.
  destruct (find_spec m n k Hm ltac:(lia)) as (j & sl & Hj & Hf & Hat & Hst & Hpre).
  exists (if sl.1 =? 0 then 0 else sl.1). unfold hashmap_get, hashmap_have. rewrite Hf. cbn [bind].
  split; [reflexivity|]. split; [destruct (sl.1 =? 0) eqn:E; [reflexivity|rewrite E; reflexivity]|].
  destruct (Z.eqb_spec sl.1 0) as [E|E].
  - left. split; [reflexivity|]. rewrite <- Hperm. intros Hin.
    apply elem_of_list_fmap in Hin as ([v k'] & Ek & Hin). cbn in Ek. subst k'.
    apply live_at in Hin as (i & Hi & Hati & Hl).
    destruct (ti_reach _ _ _ _ (hw_t _ _ Hm) i (v, k) Hati ltac:(lia) Hl) as (j1 & Hj1 & E1 & Hpre1).
    cbn [snd] in *. destruct (Z.lt_trichotomy j j1) as [Hlt|[Heq|Hgt]].
    + destruct (Hpre1 j ltac:(lia)) as (s & Hs1 & Hs2). rewrite Hat in Hs1. injection Hs1 as <-. lia.
    + subst j1. rewrite <- E1, Hati in Hat. injection Hat as <-. destruct Hl. cbn in *. lia.
    + destruct (Hpre j1 ltac:(lia)) as (s & Hs1 & Hs2 & Hs3). rewrite <- E1, Hati in Hs1. injection Hs1 as <-.
      cbn in Hs3. tauto.
  - right. split; [assumption|]. destruct Hst as [|Hk]; [tauto|].
    rewrite <- Hperm. destruct sl as [v k']. cbn in *. subst k'.
    eapply at_live; [exact Hat|]. split; [assumption|]. cbn.
    exact (clean_at _ _ _ (mr_clean _ _ _ _ HR) Hat).
Qed.

(** insert-only histories, keys may repeat *)
Lemma hashmap_inserts l :
  Z.of_nat (length l) <= max_inserts -> Forall (fun kv => legal_value kv.2) l -> NoDup (l.*2) ->
  exists m, ofold run_insert l hashmap_create = Ok m /\
    hashmap_num_items m = Z.of_nat (length l) /\
    (forall k, exists r, hashmap_get m k = Ok r /\ hashmap_have m k = Ok (negb (r =? 0)) /\
      ((r = 0 /\ k ∉ l.*1) \/ (r <> 0 /\ (k, r) ∈ l))) /\
    map swap_pair (filter (fun sl : slot => sl.1 <> 0) (hm_items m)) ≡ₚ l.
Proof.
  intros HN Hleg Hnd.
  destruct (inserts_mrel l hashmap_create [] 3 0) as (m & n & N & Hr & HR); auto using create_mrel.
  exists m. split; [assumption|]. rewrite app_nil_r in HR. split.
  { unfold hashmap_num_items. rewrite (mr_nit _ _ _ _ HR). rewrite rev_length, map_length. reflexivity. }
  assert (Hin : forall r k, (r, k) ∈ rev (map swap_pair l) <-> (k, r) ∈ l).
  { intros r k. rewrite !elem_of_list_In, <- in_rev, in_map_iff. split.
    - intros ([k' r'] & [= -> ->] & H). assumption.
    - intros H. exists (k, r). split; [reflexivity|assumption]. }
  split.
  - intros k. destruct (get_mrel m _ n N k HR) as (r & Hg & Hh & Hc). exists r. split; [assumption|].
    split; [assumption|]. destruct Hc as [[E Hni]|[E Hi]].
    + left. split; [assumption|]. intros Hk. apply Hni. apply elem_of_list_fmap in Hk as ([k' v] & Ek & Hk).
      cbn in Ek. subst k'. apply elem_of_list_fmap. exists (v, k). split; [reflexivity|]. apply Hin. assumption.
    + right. split; [assumption|]. apply Hin. assumption.
  - assert (E : filter (fun sl : slot => sl.1 <> 0) (hm_items m) = llist (hm_items m)).
    { unfold live_list. pose proof (mr_clean _ _ _ _ HR) as Hc. unfold clean in Hc. clear -Hc.
      induction Hc as [|a l Ha Hl IH]; [reflexivity|].
      rewrite !filter_cons, IH.
      destruct (decide (a.1 <> 0)) as [H1|H1], (decide (vlive a)) as [H2|H2]; unfold live in *; try reflexivity; exfalso; tauto. }
    rewrite E. rewrite (Permutation_map swap_pair (mr_live _ _ _ _ HR)).
    rewrite map_rev, map_map. rewrite (map_ext _ id) by (intros [? ?]; reflexivity).
    rewrite map_id. symmetry. apply Permutation_rev.
Qed.

(** ** Safety of arbitrary histories: no out-of-bounds access, no endless probing *)
Record hsafe (m : hmap) (n N : Z) : Prop := {
  sf_w : hmw m n;
  sf_load : overloaded (snz (hm_items m)) (2 ^ n) = false;
  sf_N : snz (hm_items m) <= N }.

Lemma add_member_any m n k v :
  hmw m n -> snz (hm_items m) < 2 ^ n -> is_u64 v ->
  exists rc m', hashmap_add_member m k v = Ok (rc, m') /\ hmw m' n /\
    snz (hm_items m) <= snz (hm_items m') <= snz (hm_items m) + 1 /\
    (~ vlive (v, k) -> m' = m).
Proof.
  intros Hm Hlt Hv. unfold is_u64 in Hv.
  destruct (decide (vlive (v, k))) as [Hl|Hl].
  - unfold live in Hl. cbn in Hl.
    destruct (add_member_spec m n k v Hm Hlt ltac:(lia) ltac:(lia)) as (j & old & Hj & Hat & Hpre & Hor).
    destruct Hor as [(_ & _ & Hadd)|(Hd & Hadd)].
    + exists 0, m. repeat (split; [solve [auto|lia]|]). unfold live; cbn. tauto.
    + destruct (put_hmw m n k v j old Hm) as (H1 & H2 & _); auto; [unfold legal_value; lia|].
      eexists 1, _. split; [exact Hadd|]. split; [assumption|].
      split; [rewrite H2; destruct (Z.eq_dec old.1 0); lia|]. unfold live; cbn. tauto.
  - exists (-1), m. unfold hashmap_add_member. pose proof Hl as Hl'. apply not_live_iff in Hl'.
    cbn [fst] in Hl'. rewrite Hl'. split; [reflexivity|]. split; [assumption|]. split; [lia|auto].
Qed.

Lemma rehash_any old : forall m n,
  hmw m n -> snz (hm_items m) + Z.of_nat (length (llist old)) < 2 ^ n ->
  Forall (fun sl => is_u64 sl.1) old ->
  exists m', rehash_items old m = Ok m' /\ hmw m' n /\
    snz (hm_items m') <= snz (hm_items m) + Z.of_nat (length (llist old)).
Proof.
  induction old as [|sl old IH]; intros m n Hm Hroom Hleg.
  - exists m. split; [reflexivity|]. split; [assumption|]. cbn. lia.
  - inversion Hleg as [|? ? Hsl Hleg']; subst.
    assert (Hlen : length (llist (sl :: old)) = ((if decide (vlive sl) then 1 else 0) + length (llist old))%nat).
    { unfold live_list. rewrite filter_cons. destruct (decide (vlive sl)); reflexivity. }
    rewrite Hlen in *.
    destruct (add_member_any m n sl.2 sl.1 Hm ltac:(lia) Hsl) as (rc & m1 & Ha & Hm1 & Hz1 & Hnl).
    unfold rehash_items. cbn [ofold]. rewrite Ha. cbn [omap bind snd]. fold (rehash_items old).
    destruct (decide (vlive sl)) as [Hl|Hl].
    + destruct (IH m1 n Hm1 ltac:(lia) Hleg') as (m' & H1 & H2 & H3). exists m'. split; [exact H1|].
      split; [assumption|lia].
    + destruct sl as [v k]. rewrite (Hnl Hl) in *.
      destruct (IH m n Hm ltac:(lia) Hleg') as (m' & H1 & H2 & H3). exists m'. split; [exact H1|].
      split; [assumption|lia].
Qed.

(** values stored in the table come from the arguments of insertions *)
Definition items_u64 (m : hmap) : Prop := Forall (fun sl => is_u64 sl.1) (hm_items m).

Lemma add_member_u64 m k v rc m' :
  items_u64 m -> is_u64 v -> hashmap_add_member m k v = Ok (rc, m') -> items_u64 m'.
Proof.
  unfold items_u64, hashmap_add_member. intros Hm Hv.
  destruct ((v =? 0) || (v =? 1)); [intros [= <- <-]; assumption|].
  destruct (probe _ _ _ _ _) as [[ii sl]| | |]; cbn [bind]; try discriminate.
  destruct ((sl.1 =? 0) || (sl.1 =? 1)); intros [= <- <-]; [|assumption].
  cbn. apply Forall_insert; assumption.
Qed.

Lemma rehash_u64 old : forall m m', items_u64 m -> Forall (fun sl => is_u64 sl.1) old ->
  rehash_items old m = Ok m' -> items_u64 m'.
Proof.
  induction old as [|sl old IH]; intros m m' Hm Hold.
  - intros [= <-]. assumption.
  - inversion Hold; subst. unfold rehash_items. cbn [ofold].
    destruct (hashmap_add_member m sl.2 sl.1) as [[rc m1]| | |] eqn:Ha; cbn [omap bind snd]; try discriminate.
    fold (rehash_items old). apply IH; [|assumption]. eapply add_member_u64; eauto.
Qed.

Lemma insert_safe m n N k v :
  hsafe m n N -> items_u64 m -> is_u64 v -> N + 1 <= max_inserts ->
  exists m' n', hashmap_insert m k v = Ok m' /\ hsafe m' n' (N + 1) /\ items_u64 m'.
Proof.
  intros HR Hu Hv HN. pose proof (sf_w _ _ _ HR) as Hm. pose proof (hw_n _ _ Hm) as Hn.
  pose proof (pow2_range n Hn) as Hp2. pose proof (sf_N _ _ _ HR) as HNn.
  pose proof (not_overloaded_room _ _ (sf_load _ _ _ HR) ltac:(lia)) as Hroom.
  destruct (add_member_any m n k v Hm ltac:(lia) Hv) as (rc & m1 & Ha & Hm1 & Hz1 & _).
  pose proof (add_member_u64 m k v rc m1 Hu Hv Ha) as Hu1.
  unfold hashmap_insert. rewrite Ha. cbn [bind snd].
  destruct (overloaded (snz (hm_items m1)) (2 ^ n)) eqn:Hov.
  - assert (Hn30 : n < 30).
    { destruct (Z.eq_dec n 30) as [->|]; [|lia]. rewrite max_inserts_ok in Hov by lia. discriminate. }
    assert (Hpp : 2 ^ (n + 1) = 2 * 2 ^ n) by (rewrite Z.pow_add_r by lia; change (2 ^ 1) with 2; lia).
    destruct (fresh_hmw (n + 1)) as (Hf & Hfc & Hfz & Hfl); [lia|].
    destruct (rehash_any (hm_items m1) (fresh (n + 1)) (n + 1) Hf) as (m' & H1 & H2 & H3); [|exact Hu1|].
    { rewrite Hfz. pose proof (live_le_nz fst (hm_items m1)). lia. }
    exists m', (n + 1). split; [|split; [split|]].
    + unfold maybe_rehash_map. rewrite (hw_cnt _ _ Hm1), (hw_cap _ _ Hm1), Hov, (hw_nbits _ _ Hm1).
      unfold shift_capacity.
      replace ((0 <=? n + 1) && (n + 1 <? 31)) with true
        by (symmetry; apply andb_true_iff; split; [apply Z.leb_le|apply Z.ltb_lt]; lia).
      exact H1.
    + assumption.
    + rewrite Hpp. apply not_overloaded_half; [lia|]. pose proof (live_le_nz fst (hm_items m1)). lia.
    + pose proof (live_le_nz fst (hm_items m1)). lia.
    + eapply rehash_u64; [|exact Hu1|exact H1]. unfold items_u64. cbn. apply Forall_replicate. split; [cbn; lia|reflexivity].
  - exists m1, n. split; [eapply maybe_rehash_noop; eauto|]. split; [|assumption]. split; auto. lia.
Qed.

Lemma remove_safe m n N k :
  hsafe m n N -> items_u64 m ->
  exists m', hashmap_remove m k = Ok m' /\ hsafe m' n N /\ items_u64 m'.
Proof.
  intros HR Hu. pose proof (sf_w _ _ _ HR) as Hm. pose proof (hw_n _ _ Hm) as Hn.
  pose proof (pow2_range n Hn) as Hp2.
  pose proof (not_overloaded_room _ _ (sf_load _ _ _ HR) ltac:(lia)) as Hroom.
  destruct (find_spec m n k Hm ltac:(lia)) as (j & sl & Hj & Hf & Hat & Hst & Hpre).
  unfold hashmap_remove. rewrite Hf. cbn [bind].
  destruct (Z.eqb_spec sl.1 0) as [E|E]; [exists m; repeat split; auto; apply HR|].
  set (i := pidx n (hstart n k) j) in *.
  assert (Hi : 0 <= i) by (apply pidx_bound; lia).
  assert (Hnz : snz (<[Z.to_nat i:=(1, sl.2)]> (hm_items m)) = snz (hm_items m)).
  { rewrite (nz_put _ _ _ sl); [|exact Hat|cbn; lia]. destruct (Z.eq_dec sl.1 0); lia. }
  eexists. split; [reflexivity|]. split.
  - split; cbn [hm_items hm_nitems hm_ndel].
    + split; cbn; try apply Hm.
      * eapply tinv_put; [exact (hw_t _ _ Hm)|exact Hat|assumption|cbn; lia|].
        intros [_ H1]. cbn in H1. lia.
      * rewrite Hnz. apply wrap64_move'. exact (hw_cnt _ _ Hm).
    + rewrite Hnz. exact (sf_load _ _ _ HR).
    + rewrite Hnz. exact (sf_N _ _ _ HR).
  - unfold items_u64. cbn. apply Forall_insert; [exact Hu|]. cbn. split; [lia|reflexivity].
Qed.

Definition hop_u64 (o : hop) : Prop := match o with HInsert _ v => is_u64 v | HRemove _ => True end.

Lemma history_safe os : forall m n N,
  hsafe m n N -> items_u64 m -> Forall hop_u64 os -> N + num_inserts os <= max_inserts ->
  exists m' n' N', ofold run_hop os m = Ok m' /\ hsafe m' n' N'.
Proof.
  induction os as [|o os IH]; intros m n N HR Hu Ho HN.
  - exists m, n, N. split; [reflexivity|assumption].
  - inversion Ho as [|? ? H1 H2]; subst. unfold num_inserts in HN.
    destruct o as [k v|k]; cbn [run_hop List.filter is_insert length ofold] in *.
    + destruct (insert_safe m n N k v HR Hu H1 ltac:(lia)) as (m1 & n1 & Ha & HR1 & Hu1).
      rewrite Ha. cbn [bind]. eapply IH; eauto. unfold num_inserts. lia.
    + destruct (remove_safe m n N k HR Hu) as (m1 & Ha & HR1 & Hu1).
      rewrite Ha. cbn [bind]. eapply IH; eauto.
Qed.

Lemma hashmap_always_terminates os :
  Forall hop_u64 os -> num_inserts os <= max_inserts ->
  exists m, ofold run_hop os hashmap_create = Ok m /\
    forall k, exists r b, hashmap_get m k = Ok r /\ hashmap_have m k = Ok b.
Proof.
  intros Ho HN. pose proof create_rel as HC.
  destruct (history_safe os hashmap_create 3 0) as (m & n & N & Hr & HR); auto.
  - split; [exact (hr_w _ _ _ _ _ HC)|exact (hr_load _ _ _ _ _ HC)|exact (hr_N _ _ _ _ _ HC)].
  - unfold items_u64. apply (Forall_replicate _ 8 (0, 0)). split; [cbn; lia|reflexivity].
  - exists m. split; [assumption|]. intros k.
    pose proof (sf_w _ _ _ HR) as Hm. pose proof (pow2_range n (hw_n _ _ Hm)).
    pose proof (not_overloaded_room _ _ (sf_load _ _ _ HR) ltac:(lia)) as Hroom.
    destruct (find_spec m n k Hm ltac:(lia)) as (j & sl & _ & Hf & _).
    unfold hashmap_get, hashmap_have. rewrite Hf. cbn [bind]. eauto.
Qed.

(** distinct keys and distinct legal values: a finite map *)
Lemma hashmap_finite_map l :
  Z.of_nat (length l) <= max_inserts -> NoDup (l.*1) -> NoDup (l.*2) -> Forall (fun kv => legal_value kv.2) l ->
  exists m, ofold run_insert l hashmap_create = Ok m /\
    hashmap_num_items m = Z.of_nat (length l) /\
    (forall k v, (k, v) ∈ l -> hashmap_get m k = Ok v /\ hashmap_have m k = Ok true) /\
    (forall k, k ∉ l.*1 -> hashmap_get m k = Ok 0 /\ hashmap_have m k = Ok false).
Proof.
  intros HN Hk Hv Hl. destruct (hashmap_inserts l HN Hl Hv) as (m & Hm & Hn & Hg & _).
  exists m. split; [assumption|]. split; [assumption|]. split.
  - intros k v Hin. destruct (Hg k) as (r & Hr & Hh & Hc). destruct Hc as [[_ Hni]|[Hr0 Hin']].
    + exfalso. apply Hni. apply elem_of_list_fmap. exists (k, v). auto.
    + assert (r = v) as ->.
      { apply elem_of_list_lookup in Hin as [i Hi]. apply elem_of_list_lookup in Hin' as [j Hj].
        assert (i = j) as ->.
        { eapply (NoDup_lookup (l.*1)); [exact Hk| |]; rewrite list_lookup_fmap.
          - rewrite Hi. reflexivity.
          - rewrite Hj. reflexivity. }
        congruence. }
      split; [assumption|]. rewrite Hh. destruct (Z.eqb_spec v 0); [tauto|reflexivity].
  - intros k Hni. destruct (Hg k) as (r & Hr & Hh & Hc). destruct Hc as [[E _]|[Hr0 Hin']].
    + subst r. auto.
    + exfalso. apply Hni. apply elem_of_list_fmap. exists (k, r). auto.
Qed.

(** Witnesses of what does not hold *)
Lemma hashmap_get_after_remove_witness :
  exists m, ofold run_hop [HInsert 1 100; HRemove 1] hashmap_create = Ok m /\
    hashmap_get m 1 = Ok 1 /\ hashmap_have m 1 = Ok true.
Proof. eexists. split; [vm_compute; reflexivity|]. split; vm_compute; reflexivity. Qed.

Lemma hashmap_double_remove_witness :
  exists m, ofold run_hop [HInsert 1 100; HInsert 2 200; HRemove 1; HRemove 1] hashmap_create = Ok m /\
    hashmap_num_items m = 0 /\ hashmap_get m 2 = Ok 200.
Proof. eexists. split; [vm_compute; reflexivity|]. split; vm_compute; reflexivity. Qed.

Lemma hashmap_shared_value_witness :
  exists m, ofold run_insert [(1, 100); (9, 100)] hashmap_create = Ok m /\
    hashmap_get m 9 = Ok 0 /\ hashmap_num_items m = 1.
Proof. eexists. split; [vm_compute; reflexivity|]. split; vm_compute; reflexivity. Qed.
