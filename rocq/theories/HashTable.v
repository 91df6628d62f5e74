(** Theory of the probing loop: odd step modulo a power of two. *)
From Coq Require Import ZArith List Bool Lia Znumtheory Zpow_facts.
From stdpp Require Import base list numbers.
From Verif Require Import Common HashModel.
Import ListNotations.
Open Scope Z_scope.
Open Scope outcome_scope.

(** [j]-th index of the walk from [h] in a table of [2^n] slots *)
Definition pidx (n h j : Z) : Z := (h + 5009 * j) mod 2 ^ n.

Lemma pow2_pos n : 0 <= n -> 0 < 2 ^ n.
Proof. intros. apply Z.pow_pos_nonneg; lia. Qed.

Lemma mod_mod_pow2 x n m : 0 <= n <= m -> (x mod 2 ^ m) mod 2 ^ n = x mod 2 ^ n.
Proof.
  intros H. symmetry. apply Zmod_div_mod.
  - apply pow2_pos; lia.
  - apply pow2_pos; lia.
  - exists (2 ^ (m - n)). rewrite <- Z.pow_add_r by lia. f_equal. lia.
Qed.

Lemma land_mask n x : 0 <= n <= 64 -> Z.land (2 ^ n - 1) (wrap64 x) = x mod 2 ^ n.
Proof.
  intros H. rewrite Z.land_comm.
  replace (2 ^ n - 1) with (Z.ones n) by (rewrite Z.ones_equiv; lia).
  rewrite Z.land_ones by lia. unfold wrap64. apply mod_mod_pow2; lia.
Qed.

Lemma probe_start_eq n key : 0 <= n <= 64 -> probe_start (2 ^ n - 1) key = (73 * key) mod 2 ^ n.
Proof. intros. unfold probe_start, prime_1. apply land_mask; assumption. Qed.

Lemma probe_next_pidx n h j : 0 <= n <= 64 -> probe_next (2 ^ n - 1) (pidx n h j) = pidx n h (j + 1).
Proof.
  intros. unfold probe_next, prime_2. rewrite land_mask by assumption.
  unfold pidx. rewrite Zplus_mod_idemp_l. f_equal. lia.
Qed.

Lemma pidx_bound n h j : 0 <= n -> 0 <= pidx n h j < 2 ^ n.
Proof. intros. unfold pidx. apply Z.mod_pos_bound, pow2_pos; assumption. Qed.

Lemma pidx_0 n h : 0 <= n -> 0 <= h < 2 ^ n -> pidx n h 0 = h.
Proof. intros. unfold pidx. rewrite Z.mul_0_r, Z.add_0_r. apply Z.mod_small; assumption. Qed.

Lemma rel_prime_step n : 0 <= n -> rel_prime 5009 (2 ^ n).
Proof.
  intros. apply rel_prime_Zpower_r; [lia|]. apply rel_prime_sym.
  apply prime_rel_prime; [apply Znumtheory.prime_2|].
  intros [q Hq]. lia.
Qed.

(** the walk visits every slot within [2^n] steps *)
Lemma pidx_surj n h i : 0 <= n -> 0 <= i < 2 ^ n -> exists j, 0 <= j < 2 ^ n /\ pidx n h j = i.
Proof.
  intros Hn Hi. pose proof (pow2_pos n Hn) as Hp.
  destruct (rel_prime_bezout _ _ (rel_prime_step n Hn)) as [u v Huv].
  exists ((u * (i - h)) mod 2 ^ n). split; [apply Z.mod_pos_bound; assumption|].
  unfold pidx.
  rewrite <- Zplus_mod_idemp_r.
  rewrite <- (Zmult_mod_idemp_r ((u * (i - h)) mod 2 ^ n)).
  rewrite Zmod_mod, Zmult_mod_idemp_r, Zplus_mod_idemp_r.
  replace (h + 5009 * (u * (i - h))) with (i + (- v * (i - h)) * 2 ^ n) by nia.
  rewrite Z_mod_plus_full. apply Z.mod_small; assumption.
Qed.

(** ... and never twice *)
Lemma pidx_inj n h j1 j2 :
  0 <= n -> 0 <= j1 < 2 ^ n -> 0 <= j2 < 2 ^ n -> pidx n h j1 = pidx n h j2 -> j1 = j2.
Proof.
  intros Hn H1 H2 E. unfold pidx in E. pose proof (pow2_pos n Hn) as Hp.
  assert (D : (2 ^ n | 5009 * (j1 - j2))).
  { apply Z.mod_divide; [lia|].
    replace (5009 * (j1 - j2)) with ((h + 5009 * j1) - (h + 5009 * j2)) by ring.
    rewrite Zminus_mod, E, Z.sub_diag. apply Zmod_0_l. }
  apply Gauss in D; [|apply rel_prime_sym, rel_prime_step; assumption].
  destruct D as [q Hq]. assert (q = 0) by nia. lia.
Qed.

Section Probe.
Context {A : Type}.
Implicit Types (items : list A) (stop : A -> bool).

Definition at_ items (i : Z) : option A := items !! Z.to_nat i.

Lemma probe_spec stop items n h fuel :
  0 <= n <= 64 -> length items = Z.to_nat (2 ^ n) ->
  forall j0, 0 <= j0 ->
  (exists j sl, 0 <= j < Z.of_nat fuel /\
     probe stop items (2 ^ n - 1) (pidx n h j0) fuel = Ok (pidx n h (j0 + j), sl) /\
     at_ items (pidx n h (j0 + j)) = Some sl /\ stop sl = true /\
     forall j', 0 <= j' < j -> exists sl', at_ items (pidx n h (j0 + j')) = Some sl' /\ stop sl' = false)
  \/ (probe stop items (2 ^ n - 1) (pidx n h j0) fuel = Diverge /\
     forall j', 0 <= j' < Z.of_nat fuel -> exists sl', at_ items (pidx n h (j0 + j')) = Some sl' /\ stop sl' = false).
Proof.
  intros Hn Hlen. induction fuel as [|fuel IH]; intros j0 Hj0.
  - right. split; [reflexivity|]. intros; lia.
  - cbn [probe].
    destruct (items !! Z.to_nat (pidx n h j0)) as [sl|] eqn:E.
    2:{ exfalso. apply lookup_ge_None_1 in E. pose proof (pidx_bound n h j0 ltac:(lia)). lia. }
    destruct (stop sl) eqn:Es.
    + left. exists 0, sl. rewrite Z.add_0_r. repeat split; try lia; auto.
    + rewrite probe_next_pidx by lia.
      destruct (IH (j0 + 1) ltac:(lia)) as [(j & sl' & Hj & Hp & Hat & Hst & Hpre)|[Hp Hpre]].
      * left. exists (j + 1), sl'. replace (j0 + (j + 1)) with (j0 + 1 + j) by lia.
        repeat split; auto; try lia.
        intros j' Hj'. destruct (Z.eq_dec j' 0) as [->|].
        -- exists sl. rewrite Z.add_0_r. auto.
        -- destruct (Hpre (j' - 1)) as (s & H1 & H2); [lia|].
           replace (j0 + 1 + (j' - 1)) with (j0 + j') in H1 by lia. eauto.
      * right. split; [assumption|]. intros j' Hj'. destruct (Z.eq_dec j' 0) as [->|].
        -- exists sl. rewrite Z.add_0_r. auto.
        -- destruct (Hpre (j' - 1)) as (s & H1 & H2); [lia|].
           replace (j0 + 1 + (j' - 1)) with (j0 + j') in H1 by lia. eauto.
Qed.

(** with a stopping slot somewhere, the loop stops at the first one on the walk *)
Lemma probe_ok stop items n h :
  0 <= n <= 64 -> length items = Z.to_nat (2 ^ n) -> 0 <= h < 2 ^ n ->
  (exists sl, sl ∈ items /\ stop sl = true) ->
  exists j sl, 0 <= j < 2 ^ n /\
     probe stop items (2 ^ n - 1) h (length items) = Ok (pidx n h j, sl) /\
     at_ items (pidx n h j) = Some sl /\ stop sl = true /\
     forall j', 0 <= j' < j -> exists sl', at_ items (pidx n h j') = Some sl' /\ stop sl' = false.
Proof.
  intros Hn Hlen Hh (sl0 & Hin & Hst0).
  pose proof (pow2_pos n ltac:(lia)) as Hp.
  destruct (probe_spec stop items n h (length items) Hn Hlen 0 ltac:(lia))
    as [(j & sl & Hj & Hpr & Hat & Hst & Hpre)|[Hpr Hpre]].
  - exists j, sl. rewrite pidx_0 in Hpr by lia. rewrite Hlen in Hj.
    rewrite Z2Nat.id in Hj by lia. cbn [Z.add] in *.
    repeat split; auto; lia.
  - exfalso. apply elem_of_list_lookup_1 in Hin as [i Hi].
    pose proof (lookup_lt_Some _ _ _ Hi) as Hb.
    destruct (pidx_surj n h (Z.of_nat i) ltac:(lia)) as (j & Hj & Hji); [lia|].
    destruct (Hpre j) as (s & H1 & H2); [rewrite Hlen, Z2Nat.id; lia|].
    change (0 + j) with j in H1. rewrite Hji in H1. unfold at_ in H1. rewrite Nat2Z.id in H1.
    congruence.
Qed.

(** ** Structural invariant of a table whose slots carry a value and a hash key *)
Variable val key : A -> Z.

Definition hstart (n k : Z) : Z := (73 * k) mod 2 ^ n.

Lemma hstart_bound n k : 0 <= n -> 0 <= hstart n k < 2 ^ n.
Proof. intros. apply Z.mod_pos_bound, pow2_pos; assumption. Qed.

(** slot [i] is found from key [k] without meeting an empty slot *)
Definition reach items (n k : Z) (i : Z) : Prop :=
  exists j, 0 <= j < 2 ^ n /\ i = pidx n (hstart n k) j /\
    forall j', 0 <= j' < j -> exists sl, at_ items (pidx n (hstart n k) j') = Some sl /\ val sl <> 0.

Definition live (sl : A) : Prop := val sl <> 0 /\ val sl <> 1.
#[local] Instance live_dec sl : Decision (live sl).
Proof. unfold live. apply _. Defined.
Definition nonzero (sl : A) : Prop := val sl <> 0.
#[local] Instance nonzero_dec sl : Decision (nonzero sl).
Proof. unfold nonzero. apply _. Defined.

Definition live_list items : list A := filter live items.
Definition nz items : Z := Z.of_nat (length (filter nonzero items)).

Record tinv items (n : Z) : Prop := {
  ti_n : 3 <= n <= 30;
  ti_len : length items = Z.to_nat (2 ^ n);
  ti_reach : forall i sl, at_ items i = Some sl -> 0 <= i -> live sl -> reach items n (key sl) i }.

Lemma nz_lt_exists_empty items n : tinv items n -> nz items < 2 ^ n -> exists sl, sl ∈ items /\ val sl = 0.
Proof.
  intros [Hn Hlen _] Hlt.
  destruct (decide (Exists (fun sl => val sl = 0) items)) as [He|He].
  - apply list.Exists_exists in He as (sl & ? & ?). exists sl. split; assumption.
  - exfalso. apply not_Exists_Forall in He; [|apply _].
    assert (Hl : length (filter nonzero items) = length items); [|unfold nz in Hlt; rewrite Hl in Hlt; lia].
    clear -He. induction items as [|a l IH]; [reflexivity|].
    inversion He; subst. rewrite filter_cons_True by (unfold nonzero; assumption).
    cbn. f_equal. apply IH. assumption.
Qed.

Lemma at_insert items i sl i' :
  0 <= i < Z.of_nat (length items) -> 0 <= i' ->
  at_ (<[Z.to_nat i := sl]> items) i' = if Z.eq_dec i i' then Some sl else at_ items i'.
Proof.
  intros Hi Hi'. unfold at_. destruct (Z.eq_dec i i') as [->|Hne].
  - apply list_lookup_insert. lia.
  - apply list_lookup_insert_ne. lia.
Qed.

(** replacing a slot by a nonempty one keeps reachability *)
Lemma reach_insert items n k i i0 old new :
  0 <= n -> length items = Z.to_nat (2 ^ n) -> 0 <= i0 ->
  at_ items i0 = Some old -> val new <> 0 ->
  reach items n k i -> reach (<[Z.to_nat i0 := new]> items) n k i.
Proof.
  intros Hn Hlen Hi0 Hat Hnew (j & Hj & -> & Hpre).
  assert (Hi0' : i0 < Z.of_nat (length items)) by (apply lookup_lt_Some in Hat; lia).
  exists j. repeat split; try lia.
  intros j' Hj'. destruct (Hpre j' Hj') as (sl & Hsl & Hv).
  rewrite at_insert; [|lia|apply pidx_bound; lia].
  destruct (Z.eq_dec _ _); eauto.
Qed.

(** putting a live slot where the walk from its key leads *)
Lemma tinv_put items n i0 old new :
  tinv items n -> at_ items i0 = Some old -> 0 <= i0 -> val new <> 0 ->
  (live new -> reach items n (key new) i0) -> tinv (<[Z.to_nat i0 := new]> items) n.
Proof.
  intros [Hn Hlen Hr] Hat Hi0 Hnew Hreach.
  assert (Hi0' : i0 < Z.of_nat (length items)) by (apply lookup_lt_Some in Hat; lia).
  split; [assumption|rewrite insert_length; assumption|].
  intros i sl Hi Hpos Hl. rewrite at_insert in Hi by lia.
  destruct (Z.eq_dec i0 i) as [->|].
  - injection Hi as <-. eapply reach_insert; eauto; lia.
  - eapply reach_insert; eauto; lia.
Qed.

Lemma filter_insert_perm (P : A -> Prop) `{!forall x, Decision (P x)} items i old new :
  items !! i = Some old ->
  (if decide (P old) then [old] else []) ++ filter P (<[i := new]> items) ≡ₚ
  (if decide (P new) then [new] else []) ++ filter P items.
Proof.
  intros Hi. pose proof (take_drop_middle _ _ _ Hi) as Hd.
  pose proof (lookup_lt_Some _ _ _ Hi) as Hlt.
  rewrite <- Hd at 1.
  rewrite insert_app_r_alt by (rewrite take_length; lia).
  rewrite take_length, Nat.min_l by lia. rewrite Nat.sub_diag. cbn [list_insert insert].
  rewrite <- Hd at 3. rewrite !list.filter_app, !filter_cons.
  destruct (decide (P old)), (decide (P new)); cbn; try reflexivity.
  - rewrite (Permutation_middle _ _ new), (Permutation_middle _ _ old). 
    rewrite <- !Permutation_middle. apply perm_swap.
  - rewrite <- Permutation_middle. reflexivity.
  - rewrite <- Permutation_middle. reflexivity.
Qed.

Lemma live_list_put_dead items i old new :
  items !! i = Some old -> ~ live old -> live new ->
  live_list (<[i := new]> items) ≡ₚ new :: live_list items.
Proof.
  intros Hi Ho Hn. pose proof (filter_insert_perm live items i old new Hi) as H.
  rewrite decide_False, decide_True in H by assumption. exact H.
Qed.

Lemma live_list_kill items i old new :
  items !! i = Some old -> live old -> ~ live new ->
  old :: live_list (<[i := new]> items) ≡ₚ live_list items.
Proof.
  intros Hi Ho Hn. pose proof (filter_insert_perm live items i old new Hi) as H.
  rewrite decide_True, decide_False in H by assumption. exact H.
Qed.

Lemma live_list_dead_dead items i old new :
  items !! i = Some old -> ~ live old -> ~ live new ->
  live_list (<[i := new]> items) ≡ₚ live_list items.
Proof.
  intros Hi Ho Hn. pose proof (filter_insert_perm live items i old new Hi) as H.
  rewrite !decide_False in H by assumption. exact H.
Qed.

Lemma nz_put items i old new :
  items !! i = Some old -> val new <> 0 ->
  nz (<[i := new]> items) = nz items + (if Z.eq_dec (val old) 0 then 1 else 0).
Proof.
  clear key. intros Hi Hn. pose proof (filter_insert_perm nonzero items i old new Hi) as H.
  apply Permutation_length in H. rewrite !app_length in H.
  rewrite (decide_True (P := nonzero new)) in H by assumption. unfold nz.
  destruct (Z.eq_dec (val old) 0) as [E|E], (decide (nonzero old)) as [D|D]; cbn in H; try lia;
    unfold nonzero in D; tauto.
Qed.

Lemma elem_of_at items sl : sl ∈ items <-> exists i, 0 <= i < Z.of_nat (length items) /\ at_ items i = Some sl.
Proof.
  split.
  - intros H. apply elem_of_list_lookup_1 in H as [i Hi]. exists (Z.of_nat i).
    pose proof (lookup_lt_Some _ _ _ Hi). unfold at_. rewrite Nat2Z.id. split; [lia|assumption].
  - intros (i & _ & Hi). eapply elem_of_list_lookup_2. exact Hi.
Qed.

Lemma nz_nonneg items : 0 <= nz items.
Proof. unfold nz. lia. Qed.

Lemma live_le_nz items : Z.of_nat (length (live_list items)) <= nz items.
Proof.
  unfold nz, live_list. induction items as [|a l IH]; [reflexivity|].
  rewrite !filter_cons. destruct (decide (live a)) as [Hl|Hl], (decide (nonzero a)) as [Hz|Hz]; cbn [length]; try lia.
  destruct Hl as [H1 _]. contradiction.
Qed.

End Probe.

Global Arguments reach {A} val items n k i.
Global Arguments live {A} val sl.
Global Arguments nonzero {A} val sl.
Global Arguments live_list {A} val items.
Global Arguments nz {A} val items.
Global Arguments tinv {A} val key items n.
#[global] Existing Instances live_dec nonzero_dec.

(** load factor facts *)
Lemma overloaded_false n c : overloaded n c = false -> 0 < c -> n < c.
Proof. unfold overloaded. intros H Hc. apply Z.leb_gt in H. change (2 ^ 53) with 9007199254740992 in H. lia. Qed.

Lemma not_overloaded_room n c : overloaded n c = false -> 8 <= c -> n + 1 < c.
Proof.
  unfold overloaded. intros H Hc. apply Z.leb_gt in H. change (2 ^ 53) with 9007199254740992 in H.
  lia.
Qed.

Lemma not_overloaded_half n c : 8 <= c -> n <= c -> overloaded n (2 * c) = false.
Proof.
  unfold overloaded. intros. apply Z.leb_gt. change (2 ^ 53) with 9007199254740992. lia.
Qed.

