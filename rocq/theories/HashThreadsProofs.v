(** Proofs about the hash map under threads (HashThreadsModel.v). *)
From Coq Require Import ZArith List Bool Lia.
From stdpp Require Import base list.
From Verif Require Import Common HashModel HashTable HashMapProofs HashThreadsModel.
Import ListNotations.
Open Scope Z_scope.

Lemma concat_insert {A B} (f : A -> list B) (l : list A) t x y :
  l !! t = Some x -> (length (concat (map f (<[t := y]> l))) + length (f x) = length (concat (map f l)) + length (f y))%nat.
Proof.
  revert t. induction l as [|a l IH]; intros [|t] H; cbn in H; try discriminate.
  - injection H as ->. change (<[0%nat := y]> (x :: l)) with (y :: l). cbn [map concat]. rewrite !app_length. lia.
  - apply IH in H. change (<[S t := y]> (a :: l)) with (a :: <[t := y]> l). cbn [map concat]. rewrite !app_length. lia.
Qed.
Lemma concat_split {A B} (f : A -> list B) (l : list A) t x :
  l !! t = Some x -> concat (map f l) ≡ₚ f x ++ concat (map f (take t l)) ++ concat (map f (drop (S t) l)).
Proof.
  intros H. rewrite <- (take_drop_middle l t x H) at 1. rewrite map_app, concat_app. cbn [map concat].
  rewrite !app_assoc. apply Permutation_app_tail. apply Permutation_app_comm.
Qed.
Lemma concat_split_insert {A B} (f : A -> list B) (l : list A) t x y :
  l !! t = Some x -> concat (map f (<[t := y]> l)) ≡ₚ f y ++ concat (map f (take t l)) ++ concat (map f (drop (S t) l)).
Proof.
  intros H. assert (Lt : (t < length l)%nat) by (apply lookup_lt_Some in H; exact H).
  rewrite (concat_split f _ t y) by (apply list_lookup_insert; exact Lt).
  rewrite take_insert by lia. rewrite drop_insert_gt by lia. reflexivity.
Qed.
Lemma in_others {A B} (f : A -> list B) (l : list A) t u y b :
  l !! u = Some y -> u <> t -> b ∈ f y -> b ∈ concat (map f (take t l)) ++ concat (map f (drop (S t) l)).
Proof.
  intros H N I. apply elem_of_app. destruct (Nat.lt_ge_cases u t) as [Hl|Hl]; [left|right].
  - apply elem_of_list_In, in_concat. exists (f y). split; [|apply elem_of_list_In; exact I].
    apply in_map, elem_of_list_In. apply (elem_of_list_lookup_2 _ u). rewrite lookup_take by exact Hl. exact H.
  - apply elem_of_list_In, in_concat. exists (f y). split; [|apply elem_of_list_In; exact I].
    apply in_map, elem_of_list_In. apply (elem_of_list_lookup_2 _ (u - S t)). rewrite lookup_drop.
    replace (S t + (u - S t))%nat with u by lia. exact H.
Qed.

(** the insertion a thread is in *)
Definition cur (pc : hpc) : list (Z * Z) :=
  match pc with HProbe k v _ | HCount k v _ | HCount2 k v _ _ | HVal k v _ | HKey k v _ => [(k, v)] | _ => [] end.
Definition open_ins (th : hthread) : list (Z * Z) := cur (ht_pc th) ++ ins (ht_todo th).
Definition fresh (pc : hpc) : list (Z * Z) :=
  match pc with HProbe k v _ | HCount k v _ | HCount2 k v _ _ => [(k, v)] | _ => [] end.
Definition uncounted (th : hthread) : list (Z * Z) := fresh (ht_pc th) ++ ins (ht_todo th).
Definition pend (l : list hthread) : Z := Z.of_nat (length (concat (map uncounted l))).

Section Run.
  Variables (nbits : Z) (all : list (Z * Z)).
  Hypothesis Hn : 0 <= nbits <= 62.
  Hypothesis Hroom : overloaded (Z.of_nat (length all)) (2 ^ nbits) = false.

  Definition idx (ii : Z) : Prop := (Z.to_nat ii < Z.to_nat (2 ^ nbits))%nat.
  Lemma idx_mod x : idx (x mod 2 ^ nbits).
  Proof. unfold idx. pose proof (Z.mod_pos_bound x (2 ^ nbits) (pow2_pos nbits ltac:(lia))). lia. Qed.
  Lemma idx_start k : idx (probe_start (2 ^ nbits - 1) k).
  Proof. rewrite probe_start_eq by lia. apply idx_mod. Qed.
  Lemma idx_next ii : idx (probe_next (2 ^ nbits - 1) ii).
  Proof. unfold probe_next. rewrite land_mask by lia. apply idx_mod. Qed.
  Lemma all_small : Z.of_nat (length all) < 2 ^ 63.
  Proof.
    pose proof (overloaded_false _ _ Hroom (pow2_pos nbits ltac:(lia))). assert (2 ^ nbits <= 2 ^ 62) by (apply Z.pow_le_mono_r; lia).
    change (2 ^ 62) with 4611686018427387904 in *. change (2 ^ 63) with 9223372036854775808. lia.
  Qed.

  Definition known (v : Z) : Prop := v = 0 \/ exists k, (k, v) ∈ all.
  Definition pc_ok (s : tstate) (pc : hpc) : Prop :=
    match pc with
    | HIdle => True
    | HProbe _ _ ii | HCount _ _ ii | HVal _ _ ii | HKey _ _ ii | HFind _ ii | HCmp _ ii | HRet _ ii => idx ii
    | HCount2 _ _ ii n => idx ii /\ 0 <= n /\ n + pend (ts_threads s) <= Z.of_nat (length all)
    end.
  Definition K (s : tstate) : Prop :=
    length (ts_cells s) = Z.to_nat (2 ^ nbits) /\ (forall i c, ts_cells s !! i = Some c -> known c.1) /\
    (0 <= ts_nitems s /\ ts_nitems s + pend (ts_threads s) <= Z.of_nat (length all)) /\
    (forall t th, ts_threads s !! t = Some th -> open_ins th ⊆ all /\ pc_ok s (ht_pc th)) /\
    Forall (fun e => known (snd e)) (ts_log s).
  Lemma K_upd s t th0 pc todo cells' n' log' :
    K s -> ts_threads s !! t = Some th0 ->
    let s' := mk_tstate cells' n' (<[t := mk_hthread pc todo]> (ts_threads s)) log' in
    length cells' = Z.to_nat (2 ^ nbits) -> (forall i c, cells' !! i = Some c -> known c.1) ->
    let gone := (Z.of_nat (length (uncounted th0)) - Z.of_nat (length (uncounted (mk_hthread pc todo)))) in
    0 <= gone -> 0 <= n' -> n' + pend (ts_threads s) - gone <= Z.of_nat (length all) ->
    open_ins (mk_hthread pc todo) ⊆ open_ins th0 ->
    match pc with HCount2 _ _ ii n => idx ii /\ 0 <= n /\ n + pend (ts_threads s) <= Z.of_nat (length all) | _ => pc_ok s' pc end ->
    Forall (fun e => known (snd e)) log' -> K s'.
  Proof.
    intros (Hc & Hv & Hni & Hth & Hl) L s' Hc' Hv' gone Hg Hn0 Hn' Ho Hp Hl'.
    pose proof (concat_insert uncounted _ _ _ (mk_hthread pc todo) L) as E.
    assert (P : pend (ts_threads s') = pend (ts_threads s) - gone) by (unfold pend, s', gone; cbn [ts_threads]; lia).
    split; [exact Hc'|]. split; [exact Hv'|]. split; [split; [exact Hn0|rewrite P; cbn [s' ts_nitems]; lia]|]. split; [|exact Hl'].
    intros u thu Hu. unfold s' in Hu. cbn [ts_threads] in Hu. destruct (decide (u = t)) as [-> |N].
    - rewrite list_lookup_insert in Hu by (apply lookup_lt_Some in L; exact L). injection Hu as <-. cbn [ht_pc]. split.
      + intros x I. apply (proj1 (Hth t th0 L)), Ho, I.
      + destruct pc; try exact Hp. cbn [pc_ok]. rewrite P. intuition lia.
    - rewrite list_lookup_insert_ne in Hu by congruence. destruct (Hth u thu Hu) as (H1 & H2). split; [exact H1|].
      destruct (ht_pc thu); try exact H2. cbn [pc_ok] in *. rewrite P. intuition lia.
  Qed.
  Lemma known_insert (cells : list (Z * Z)) j c : (forall i c, cells !! i = Some c -> known c.1) -> known c.1 ->
    forall i d, <[j := c]> cells !! i = Some d -> known d.1.
  Proof.
    intros H Kc i d E. destruct (decide (i = j)) as [-> |N].
    - apply list_lookup_insert_Some in E as [(_ & <- & _)|(N & _)]; [exact Kc|congruence].
    - rewrite list_lookup_insert_ne in E by congruence. exact (H i d E).
  Qed.
  Lemma K_step s t : K s -> exists s', t_step nbits s t = Ok s' /\ K s'.
  Proof.
    intros H. pose proof H as (Hc & Hv & (Hn0 & Hni) & Hth & Hl). unfold t_step.
    destruct (ts_threads s !! t) as [[pc todo]|] eqn:L; [|exists s; split; [reflexivity|exact H]].
    destruct (Hth t _ L) as (Ho & Hp). cbn [ht_pc] in Hp. unfold open_ins in Ho. cbn [ht_pc ht_todo] in Ho.
    assert (C : forall ii, idx ii -> exists c, ts_cells s !! Z.to_nat ii = Some c /\ known c.1).
    { intros ii I. destruct (lookup_lt_is_Some_2 (ts_cells s) (Z.to_nat ii)) as (c & E); [unfold idx in I; lia|]. exists c. split; [exact E|exact (Hv _ _ E)]. }
    pose proof all_small as SM. change (2 ^ 63) with 9223372036854775808 in SM. 
    assert (Pp : 0 <= pend (ts_threads s)) by (unfold pend; lia).
    unfold tupd, answer, set_nitems, set_cell. cbn [ts_cells ts_nitems ts_threads ts_log].
    Ltac ku H L := eexists; (split; [reflexivity|]); eapply K_upd;
      [exact H|exact L|cbn [ts_cells]; try (rewrite insert_length); assumption
      |try assumption
      |unfold uncounted; cbn [ht_pc ht_todo fresh ins app length]; lia
      |try assumption; try lia
      |unfold uncounted; cbn [ht_pc ht_todo fresh ins app length]; try lia
      |unfold open_ins; cbn [ht_pc ht_todo cur ins app]; intros x Hx; first [exact Hx|apply elem_of_list_further; exact Hx]
      |try (cbn [pc_ok]; try exact I; try assumption)
      |try assumption].
    destruct pc as [|k v ii|k v ii|k v ii n|k v ii|k v ii|k ii|k ii|k ii]; cbn [pc_ok] in Hp.
    - destruct todo as [|[k v|k] l]; [exists s; split; [reflexivity|exact H]| |].
      + destruct ((v =? 0) || (v =? 1)); ku H L. apply idx_start.
      + ku H L. apply idx_start.
    - destruct (C ii Hp) as (c & -> & _). destruct ((c.1 =? 0) || (c.1 =? 1)); [ku H L|]. destruct (c.1 =? v); ku H L. apply idx_next.
    - ku H L. split; [exact Hp|]. split; assumption.
    - destruct Hp as (Hi & Hp0 & Hp1). unfold wrap64. rewrite Z.mod_small by (change (2 ^ 64) with 18446744073709551616; lia). ku H L.
    - destruct (C ii Hp) as (c & -> & _). ku H L. apply known_insert; [exact Hv|]. right. exists k. apply Ho. cbn. constructor.
    - destruct (C ii Hp) as (c & -> & Kc). destruct (overloaded (ts_nitems s) (2 ^ nbits)) eqn:O.
      { exfalso. apply (overloaded_mono _ (Z.of_nat (length all))) in O; [congruence|lia]. }
      ku H L. apply known_insert; [exact Hv|exact Kc].
    - destruct (C ii Hp) as (c & -> & Kc). destruct (c.1 =? 0); ku H L.
      apply Forall_app. split; [exact Hl|]. constructor; [left; reflexivity|constructor].
    - destruct (C ii Hp) as (c & -> & Kc). destruct (c.2 =? k); ku H L. apply idx_next.
    - destruct (C ii Hp) as (c & -> & Kc). ku H L. apply Forall_app. split; [exact Hl|]. constructor; [exact Kc|constructor].
  Qed.
  Lemma K_run sched s : K s -> exists s', ofold (t_step nbits) sched s = Ok s' /\ K s'.
  Proof.
    revert s. induction sched as [|t sched IH]; intros s H; [exists s; split; [reflexivity|exact H]|].
    cbn [ofold]. destruct (K_step s t H) as (s' & -> & H'). cbn [bind]. apply IH. exact H'.
  Qed.
End Run.

Lemma t_init_threads nbits progs t th : ts_threads (t_init nbits progs) !! t = Some th ->
  exists l, progs !! t = Some l /\ th = mk_hthread HIdle l.
Proof.
  unfold t_init. cbn [ts_threads]. intros H. change (map ?f ?l) with (f <$> l) in H. rewrite list_lookup_fmap in H.
  destruct (progs !! t) as [l|]; [|discriminate]. injection H as <-. eauto.
Qed.
Lemma t_init_open nbits progs : concat (map open_ins (ts_threads (t_init nbits progs))) = all_ins progs.
Proof. unfold t_init, all_ins. cbn [ts_threads]. rewrite map_map. reflexivity. Qed.
Lemma t_init_cell nbits progs i c : ts_cells (t_init nbits progs) !! i = Some c -> c = (0, 0).
Proof. unfold t_init. cbn [ts_cells]. intros H. apply lookup_replicate in H as (-> & _). reflexivity. Qed.
Lemma K_init nbits progs : K nbits (all_ins progs) (t_init nbits progs).
Proof.
  split; [apply replicate_length|]. split; [intros i c H; apply t_init_cell in H as ->; left; reflexivity|].
  split; [split; [reflexivity|]|].
  - unfold pend. replace (map uncounted (ts_threads (t_init nbits progs))) with (map open_ins (ts_threads (t_init nbits progs))).
    + rewrite t_init_open. cbn. lia.
    + unfold t_init. cbn [ts_threads]. rewrite !map_map. reflexivity.
  - split; [|constructor]. intros t th H. apply t_init_threads in H as (l & Hl & ->). split; [|exact I].
    intros x I. unfold all_ins. apply elem_of_list_In, in_concat. exists (ins l). split; [|apply elem_of_list_In; exact I].
    apply in_map, elem_of_list_In. apply elem_of_list_lookup_2 in Hl. exact Hl.
Qed.

(** * Insertions whose first cells are all different *)
Definition home (nbits k : Z) : nat := Z.to_nat (probe_start (2 ^ nbits - 1) k).
Section Apart.
  Variables (nbits : Z) (all : list (Z * Z)).
  Hypothesis Hn : 0 <= nbits <= 62.
  Hypothesis Hroom : overloaded (Z.of_nat (length all)) (2 ^ nbits) = false.
  Hypothesis Hlegal : forall k v, (k, v) ∈ all -> legal_value v.
  Hypothesis Hapart : NoDup (map (fun e => home nbits e.1) all).

  Definition untouched (s : tstate) (k : Z) : Prop := exists key, ts_cells s !! home nbits k = Some (0, key).
  Definition pc_apart (s : tstate) (pc : hpc) : Prop :=
    match pc with
    | HProbe k _ ii | HCount k _ ii | HCount2 k _ ii _ | HVal k _ ii => Z.to_nat ii = home nbits k /\ untouched s k
    | HKey k v ii => Z.to_nat ii = home nbits k /\ exists key, ts_cells s !! home nbits k = Some (v, key)
    | _ => True
    end.
  Definition J (s : tstate) : Prop :=
    exists done, all ≡ₚ done ++ concat (map open_ins (ts_threads s)) /\
      (forall k v, (k, v) ∈ done -> ts_cells s !! home nbits k = Some (v, k)) /\
      (forall t th, ts_threads s !! t = Some th ->
         (forall k v, (k, v) ∈ ins (ht_todo th) -> untouched s k) /\ pc_apart s (ht_pc th)).

  (** a thread that owns [k] is the only one to have its first cell *)
  Lemma owner done s t th k v rest : all ≡ₚ done ++ concat (map open_ins (ts_threads s)) ->
    ts_threads s !! t = Some th -> open_ins th = (k, v) :: rest ->
    (forall k' v', (k', v') ∈ done -> home nbits k' <> home nbits k) /\
    (forall k' v', (k', v') ∈ rest -> home nbits k' <> home nbits k) /\
    (forall u thu k' v', ts_threads s !! u = Some thu -> u <> t -> (k', v') ∈ open_ins thu -> home nbits k' <> home nbits k).
  Proof.
    intros P L O. rewrite (concat_split open_ins _ t th L), O in P.
    assert (P' : all ≡ₚ (k, v) :: (done ++ rest ++ concat (map open_ins (take t (ts_threads s))) ++ concat (map open_ins (drop (S t) (ts_threads s))))).
    { rewrite P. cbn [app]. symmetry. apply Permutation_middle. }
    pose proof Hapart as A. rewrite P' in A. cbn [map] in A. apply NoDup_cons in A as (A & _). cbn [fst] in A.
    assert (X : forall k' v', (k', v') ∈ done ++ rest ++ concat (map open_ins (take t (ts_threads s))) ++ concat (map open_ins (drop (S t) (ts_threads s))) ->
              home nbits k' <> home nbits k).
    { intros k' v' I E. apply A. rewrite <- E. apply elem_of_list_In. apply elem_of_list_In in I.
      exact (in_map (fun e => home nbits e.1) _ (k', v') I). }
    split; [|split].
    - intros k' v' I. apply (X k' v'). apply elem_of_app. left. exact I.
    - intros k' v' I. apply (X k' v'). apply elem_of_app. right. apply elem_of_app. left. exact I.
    - intros u thu k' v' Lu N I. apply (X k' v'). apply elem_of_app. right. apply elem_of_app. right.
      exact (in_others open_ins _ t u thu _ Lu N I).
  Qed.
  (** a step that writes no cell *)
  Lemma J_quiet s t th0 pc todo n' log' : J s -> ts_threads s !! t = Some th0 ->
    open_ins (mk_hthread pc todo) = open_ins th0 ->
    (forall k v, (k, v) ∈ ins todo -> untouched s k) -> pc_apart s pc ->
    J (mk_tstate (ts_cells s) n' (<[t := mk_hthread pc todo]> (ts_threads s)) log').
  Proof.
    intros (done & P & D & T) L O U A. exists done. cbn [ts_threads ts_cells]. split; [|split; [exact D|]].
    - rewrite (concat_split_insert open_ins _ t th0 _ L), O, <- (concat_split open_ins _ t th0 L). exact P.
    - intros u thu Hu. destruct (decide (u = t)) as [-> |N].
      + rewrite list_lookup_insert in Hu by (apply lookup_lt_Some in L; exact L). injection Hu as <-. split; [exact U|exact A].
      + rewrite list_lookup_insert_ne in Hu by congruence. exact (T u thu Hu).
  Qed.
  Lemma pc_apart_other s s' pc :
    (forall k v, (k, v) ∈ cur pc -> ts_cells s' !! home nbits k = ts_cells s !! home nbits k) -> pc_apart s pc -> pc_apart s' pc.
  Proof.
    destruct pc as [|k v ii|k v ii|k v ii n|k v ii|k v ii|k ii|k ii|k ii]; cbn [cur pc_apart]; unfold untouched; intros H A; try exact A;
      rewrite (H k v) by constructor; exact A.
  Qed.
  (** a step that writes the first cell of its key *)
  Lemma J_write s t pc0 todo pc k v c n' log' done extra :
    all ≡ₚ done ++ concat (map open_ins (ts_threads s)) ->
    (forall k v, (k, v) ∈ done -> ts_cells s !! home nbits k = Some (v, k)) ->
    (forall t th, ts_threads s !! t = Some th ->
         (forall k v, (k, v) ∈ ins (ht_todo th) -> untouched s k) /\ pc_apart s (ht_pc th)) ->
    ts_threads s !! t = Some (mk_hthread pc0 todo) -> cur pc0 = [(k, v)] -> extra ++ cur pc = [(k, v)] ->
    let s' := mk_tstate (<[home nbits k := c]> (ts_cells s)) n' (<[t := mk_hthread pc todo]> (ts_threads s)) log' in
    (home nbits k < length (ts_cells s))%nat ->
    (forall k' v', (k', v') ∈ extra -> k' = k /\ c = (v', k')) -> pc_apart s' pc -> J s'.
  Proof.
    intros P D T L C0 CE s' Lc X A.
    destruct (owner done s t _ k v (ins todo) P L) as (O1 & O2 & O3); [unfold open_ins; cbn [ht_pc ht_todo]; rewrite C0; reflexivity|].
    assert (Oth : forall k', home nbits k' <> home nbits k -> ts_cells s' !! home nbits k' = ts_cells s !! home nbits k').
    { intros k' N. unfold s'. cbn [ts_cells]. rewrite list_lookup_insert_ne by congruence. reflexivity. }
    exists (done ++ extra). split; [|split].
    - unfold s'. cbn [ts_threads]. rewrite (concat_split_insert open_ins _ t _ _ L), P, (concat_split open_ins _ t _ L).
      unfold open_ins at 1 4. cbn [ht_pc ht_todo]. rewrite C0, <- CE. rewrite <- !app_assoc. reflexivity.
    - intros k' v' I. apply elem_of_app in I as [I|I].
      + rewrite Oth by exact (O1 k' v' I). exact (D k' v' I).
      + destruct (X k' v' I) as (-> & ->). unfold s'. cbn [ts_cells]. apply list_lookup_insert. exact Lc.
    - intros u thu Hu. unfold s' in Hu. cbn [ts_threads] in Hu. destruct (decide (u = t)) as [-> |N].
      + rewrite list_lookup_insert in Hu by (apply lookup_lt_Some in L; exact L). injection Hu as <-. cbn [ht_pc ht_todo]. split; [|exact A].
        intros k' v' I. unfold untouched. rewrite Oth by exact (O2 k' v' I). exact (proj1 (T t _ L) k' v' I).
      + rewrite list_lookup_insert_ne in Hu by congruence. destruct (T u thu Hu) as (T1 & T2). split.
        * intros k' v' I. unfold untouched. rewrite Oth; [exact (T1 k' v' I)|]. apply (O3 u thu k' v' Hu N).
          unfold open_ins. apply elem_of_app. right. exact I.
        * apply (pc_apart_other s); [|exact T2]. intros k' v' I. apply Oth. apply (O3 u thu k' v' Hu N).
          unfold open_ins. apply elem_of_app. left. exact I.
  Qed.
  Lemma J_step s t s' : K nbits all s -> J s -> t_step nbits s t = Ok s' -> J s'.
  Proof.
    intros HK HJ. pose proof HJ as (done & P & D & T). pose proof HK as (Hc & _ & _ & Hth & _). unfold t_step.
    destruct (ts_threads s !! t) as [[pc todo]|] eqn:L; [|intros E; injection E as <-; exact HJ].
    destruct (T t _ L) as (T1 & T2). destruct (Hth t _ L) as (Ho & Hp). cbn [ht_pc ht_todo] in *.
    assert (Leg : forall k v, (k, v) ∈ open_ins (mk_hthread pc todo) -> legal_value v) by (intros k v I; apply (Hlegal k v), Ho, I).
    unfold tupd, answer, set_nitems, set_cell. cbn [ts_cells ts_nitems ts_threads ts_log].
    destruct pc as [|k v ii|k v ii|k v ii n|k v ii|k v ii|k ii|k ii|k ii]; cbn [pc_apart pc_ok] in *.
    - destruct todo as [|[k v|k] l]; [intros E; injection E as <-; exact HJ| |].
      + assert (V : legal_value v) by (apply (Leg k v); unfold open_ins; cbn; constructor). unfold legal_value in V.
        destruct (Z.eqb_spec v 0); [lia|]. destruct (Z.eqb_spec v 1); [lia|]. cbn [orb]. intros E. injection E as <-.
        eapply J_quiet; [exact HJ|exact L|reflexivity| |].
        * intros k' v' I. apply (T1 k' v'). cbn [ins]. constructor. exact I.
        * cbn [pc_apart]. split; [reflexivity|]. apply (T1 k v). cbn [ins]. constructor.
      + intros E. injection E as <-. eapply J_quiet; [exact HJ|exact L|reflexivity|exact T1|exact I].
    - destruct T2 as (Ei & U). destruct U as (key & U). rewrite Ei, U. cbn. intros E. injection E as <-.
      eapply J_quiet; [exact HJ|exact L|reflexivity|exact T1|]. cbn [pc_apart]. split; [exact Ei|exists key; exact U].
    - intros E. injection E as <-. eapply J_quiet; [exact HJ|exact L|reflexivity|exact T1|exact T2].
    - intros E. injection E as <-. eapply J_quiet; [exact HJ|exact L|reflexivity|exact T1|exact T2].
    - destruct T2 as (Ei & key & U). rewrite Ei, U. intros E. injection E as <-. cbn [snd].
      assert (Lk : (home nbits k < length (ts_cells s))%nat) by (apply lookup_lt_Some in U; exact U).
      eapply (J_write s t _ todo _ k v _ _ _ done []); [exact P|exact D|exact T|exact L|reflexivity|reflexivity|exact Lk|intros k' v' I; inversion I|].
      cbn [pc_apart]. split; [exact Ei|]. exists key. cbn [ts_cells]. apply list_lookup_insert. exact Lk.
    - destruct T2 as (Ei & key & U). rewrite Ei, U. destruct (overloaded (ts_nitems s) (2 ^ nbits)); [discriminate|].
      intros E. injection E as <-. cbn [fst].
      assert (Lk : (home nbits k < length (ts_cells s))%nat) by (apply lookup_lt_Some in U; exact U).
      eapply (J_write s t _ todo _ k v _ _ _ done [(k, v)]); [exact P|exact D|exact T|exact L|reflexivity|reflexivity|exact Lk| |exact I].
      intros k' v' I. apply elem_of_list_singleton in I. injection I as -> ->. split; reflexivity.
    - destruct (ts_cells s !! Z.to_nat ii) as [c|]; [|discriminate]. destruct (c.1 =? 0); intros E; injection E as <-;
        (eapply J_quiet; [exact HJ|exact L|reflexivity|exact T1|exact I]).
    - destruct (ts_cells s !! Z.to_nat ii) as [c|]; [|discriminate]. destruct (c.2 =? k); intros E; injection E as <-;
        (eapply J_quiet; [exact HJ|exact L|reflexivity|exact T1|exact I]).
    - destruct (ts_cells s !! Z.to_nat ii) as [c|]; [|discriminate]. intros E; injection E as <-.
      eapply J_quiet; [exact HJ|exact L|reflexivity|exact T1|exact I].
  Qed.
  (** ** What look-ups find *)
  Lemma home_inj k v k' v' : (k, v) ∈ all -> (k', v') ∈ all -> home nbits k = home nbits k' -> k = k' /\ v = v'.
  Proof.
    intros I I' E. clear Hroom Hlegal. induction all as [|e l IH]; [inversion I|]. cbn [map] in Hapart. apply NoDup_cons in Hapart as (N & A).
    apply elem_of_cons in I, I'. destruct I as [E1|I], I' as [E2|I'].
    - split; congruence.
    - exfalso. apply N. rewrite <- E1. cbn [fst]. rewrite E. apply elem_of_list_In. apply elem_of_list_In in I'. exact (in_map (fun e => home nbits e.1) _ _ I').
    - exfalso. apply N. rewrite <- E2. cbn [fst]. rewrite <- E. apply elem_of_list_In. apply elem_of_list_In in I. exact (in_map (fun e => home nbits e.1) _ _ I).
    - exact (IH A I I').
  Qed.
  Definition cell_ok (i : nat) (c : Z * Z) : Prop := c.2 = 0 \/ ((c.2, c.1) ∈ all /\ i = home nbits c.2).
  Definition ret_ok (cells : list (Z * Z)) (pc : hpc) : Prop :=
    match pc with HRet k ii => k = 0 \/ exists c, cells !! Z.to_nat ii = Some c /\ c.2 = k | _ => True end.
  Definition answer_ok (e : nat * Z * Z) : Prop := e.1.2 = 0 \/ e.2 = 0 \/ (e.1.2, e.2) ∈ all.
  Definition Q (s : tstate) : Prop :=
    (forall i c, ts_cells s !! i = Some c -> cell_ok i c) /\
    (forall t th, ts_threads s !! t = Some th -> ret_ok (ts_cells s) (ht_pc th)) /\ Forall answer_ok (ts_log s).
  Lemma Q_upd s t th0 th cells' n' log' : Q s -> ts_threads s !! t = Some th0 ->
    (forall i c, cells' !! i = Some c -> cell_ok i c) ->
    (forall i c, ts_cells s !! i = Some c -> c.2 <> 0 -> exists c', cells' !! i = Some c' /\ c'.2 = c.2) ->
    ret_ok cells' (ht_pc th) -> Forall answer_ok log' ->
    Q (mk_tstate cells' n' (<[t := th]> (ts_threads s)) log').
  Proof.
    intros (_ & T & _) L C' M R Hl. split; [exact C'|]. split; [|exact Hl]. cbn [ts_threads ts_cells].
    intros u thu Hu. destruct (decide (u = t)) as [-> |N].
    - rewrite list_lookup_insert in Hu by (apply lookup_lt_Some in L; exact L). injection Hu as <-. exact R.
    - rewrite list_lookup_insert_ne in Hu by congruence. specialize (T u thu Hu). unfold ret_ok in *.
      destruct (ht_pc thu) as [| | | | | | | |k ii]; try exact I. destruct T as [E|(c & Ec & E)]; [left; exact E|].
      destruct (decide (k = 0)) as [E0|N0]; [left; exact E0|]. right.
      destruct (M _ c Ec) as (c' & Ec' & E'); [congruence|]. exists c'. split; [exact Ec'|congruence].
  Qed.
  Lemma Q_step s t s' : K nbits all s -> J s -> Q s -> t_step nbits s t = Ok s' -> Q s'.
  Proof.
    intros HK (done & P & D & T) HQ. pose proof HQ as (Qc & Qr & Ql). pose proof HK as (_ & _ & _ & Hth & _). unfold t_step.
    destruct (ts_threads s !! t) as [[pc todo]|] eqn:L; [|intros E; injection E as <-; exact HQ].
    destruct (T t _ L) as (_ & T2). destruct (Hth t _ L) as (Ho & _). specialize (Qr t _ L). cbn [ht_pc ht_todo] in *.
    assert (M0 : forall i c, ts_cells s !! i = Some c -> c.2 <> 0 -> exists c', ts_cells s !! i = Some c' /\ c'.2 = c.2) by eauto.
    unfold tupd, answer, set_nitems, set_cell. cbn [ts_cells ts_nitems ts_threads ts_log].
    Ltac qu HQ L Qc M0 Ql := intros E; injection E as <-; eapply Q_upd; [exact HQ|exact L|exact Qc|exact M0|try exact I|try exact Ql].
    destruct pc as [|k v ii|k v ii|k v ii n|k v ii|k v ii|k ii|k ii|k ii]; cbn [pc_apart ret_ok] in *.
    - destruct todo as [|[k v|k] l]; [intros E; injection E as <-; exact HQ| |].
      + destruct ((v =? 0) || (v =? 1)); qu HQ L Qc M0 Ql.
      + qu HQ L Qc M0 Ql.
    - destruct (ts_cells s !! Z.to_nat ii) as [c|]; [|discriminate].
      destruct ((c.1 =? 0) || (c.1 =? 1)); [qu HQ L Qc M0 Ql|]. destruct (c.1 =? v); qu HQ L Qc M0 Ql.
    - qu HQ L Qc M0 Ql.
    - qu HQ L Qc M0 Ql.
    - destruct T2 as (Ei & key & U). rewrite Ei, U. cbn [snd]. intros E. injection E as <-.
      assert (K0 : key = 0).
      { destruct (Qc _ _ U) as [Z0|(I & _)]; [exact Z0|]. cbn [fst snd] in I. specialize (Hlegal _ _ I). unfold legal_value in Hlegal. lia. }
      subst key. eapply Q_upd; [exact HQ|exact L| | |exact I|exact Ql].
      + intros i c Ec. destruct (decide (i = home nbits k)) as [-> |N].
        * apply list_lookup_insert_Some in Ec as [(_ & <- & _)|(N & _)]; [left; reflexivity|congruence].
        * rewrite list_lookup_insert_ne in Ec by congruence. exact (Qc i c Ec).
      + intros i c Ec Nc. exists c. split; [|reflexivity]. rewrite list_lookup_insert_ne; [exact Ec|].
        intros <-. rewrite U in Ec. injection Ec as <-. apply Nc. reflexivity.
    - destruct T2 as (Ei & key & U). rewrite Ei, U. destruct (overloaded (ts_nitems s) (2 ^ nbits)); [discriminate|]. cbn [fst].
      intros E. injection E as <-.
      assert (Ikv : (k, v) ∈ all) by (apply Ho; constructor).
      assert (Lk : (home nbits k < length (ts_cells s))%nat) by (apply lookup_lt_Some in U; exact U).
      eapply Q_upd; [exact HQ|exact L| | |exact I|exact Ql].
      + intros i c Ec. destruct (decide (i = home nbits k)) as [-> |N].
        * apply list_lookup_insert_Some in Ec as [(_ & <- & _)|(N & _)]; [right; split; [exact Ikv|reflexivity]|congruence].
        * rewrite list_lookup_insert_ne in Ec by congruence. exact (Qc i c Ec).
      + intros i c Ec Nc. destruct (decide (i = home nbits k)) as [-> |N].
        * rewrite U in Ec. injection Ec as <-. cbn [snd] in *. destruct (Qc _ _ U) as [Z0|(I & Eh)]; [cbn in Z0; congruence|].
          cbn [fst snd] in I, Eh. destruct (home_inj _ _ _ _ Ikv I Eh) as (<- & _).
          eexists. split; [apply list_lookup_insert; exact Lk|reflexivity].
        * exists c. split; [|reflexivity]. rewrite list_lookup_insert_ne by congruence. exact Ec.
    - destruct (ts_cells s !! Z.to_nat ii) as [c|]; [|discriminate]. destruct (c.1 =? 0); qu HQ L Qc M0 Ql.
      apply Forall_app. split; [exact Ql|]. constructor; [right; left; reflexivity|constructor].
    - destruct (ts_cells s !! Z.to_nat ii) as [c|] eqn:Ec; [|discriminate]. destruct (Z.eqb_spec c.2 k) as [Ek|Nk]; qu HQ L Qc M0 Ql.
      cbn [ret_ok ht_pc]. right. exists c. split; [exact Ec|exact Ek].
    - destruct (ts_cells s !! Z.to_nat ii) as [c|] eqn:Ec; [|discriminate]. qu HQ L Qc M0 Ql.
      apply Forall_app. split; [exact Ql|]. constructor; [|constructor]. unfold answer_ok. cbn [fst snd].
      destruct Qr as [E0|(c' & Ec' & Ek)]; [left; exact E0|]. injection Ec' as <-.
      destruct (Qc _ _ Ec) as [Z0|(I & _)]; [left; congruence|]. right. right. rewrite <- Ek. exact I.
  Qed.
  Lemma J_run sched s : K nbits all s -> J s -> Q s ->
    exists s', ofold (t_step nbits) sched s = Ok s' /\ K nbits all s' /\ J s' /\ Q s'.
  Proof.
    revert s. induction sched as [|t sched IH]; intros s H H2 H3; [exists s; split; [reflexivity|auto]|].
    cbn [ofold]. destruct (K_step nbits all Hn Hroom s t H) as (s' & E & H'). rewrite E. cbn [bind].
    apply IH; [exact H'|exact (J_step s t s' H H2 E)|exact (Q_step s t s' H H2 H3 E)].
  Qed.
End Apart.
Lemma J_init nbits progs : 0 <= nbits <= 62 -> J nbits (all_ins progs) (t_init nbits progs).
Proof.
  intros Hn. exists []. split; [rewrite t_init_open; reflexivity|]. split; [intros k v I; inversion I|].
  intros t th H. apply t_init_threads in H as (l & _ & ->). split; [|exact I]. intros k v _.
  exists 0. unfold t_init. cbn [ts_cells]. apply lookup_replicate. split; [reflexivity|]. exact (idx_start nbits Hn k).
Qed.
Lemma Q_init nbits all progs : Q nbits all (t_init nbits progs).
Proof.
  split; [intros i c H; apply t_init_cell in H as ->; left; reflexivity|]. split; [|constructor].
  intros t th H. apply t_init_threads in H as (l & _ & ->). exact I.
Qed.
Lemma J_end nbits all s k v : J nbits all s -> t_finished s -> (k, v) ∈ all -> ts_cells s !! home nbits k = Some (v, k).
Proof.
  intros (done & P & D & _) F I. apply (D k v). rewrite P in I. apply elem_of_app in I as [I|I]; [exact I|]. exfalso.
  apply elem_of_list_In, in_concat in I as (l & I1 & I2). apply in_map_iff in I1 as (th & <- & I1).
  unfold t_finished in F. rewrite Forall_forall in F. apply elem_of_list_In in I1. destruct (F th I1) as (E1 & E2).
  unfold open_ins in I2. rewrite E1, E2 in I2. exact I2.
Qed.
Lemma get_home nbits s k v : ts_cells s !! home nbits k = Some (v, k) -> v <> 0 -> hashmap_get (left_table nbits s) k = Ok v.
Proof.
  intros E N. unfold hashmap_get, hashmap_find, left_table. cbn [hm_items hm_mask].
  destruct (ts_cells s) as [|c0 l] eqn:Ec; [discriminate|]. cbn [length probe]. unfold home in E. rewrite E. cbn [fst snd].
  rewrite Z.eqb_refl, orb_true_r. cbn [bind fst]. destruct (Z.eqb_spec v 0); [contradiction|reflexivity].
Qed.
