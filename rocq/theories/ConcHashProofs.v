(** Threads on the delta-debug tables: what no schedule can change (proofs for Prop_ConcHash.v). *)
From Coq Require Import ZArith List Bool Lia.
From stdpp Require Import base list numbers.
From Verif Require Import Common HashModel HashTable HashMapProofs DdebugModel DdebugProofs ConcHashModel.
Import ListNotations.
Open Scope Z_scope.

(** * Layout *)
Lemma flat_length items : length (flat items) = (2 * length items)%nat.
Proof. unfold flat. induction items as [|sl items IH]; [reflexivity|]. cbn. cbn in IH. lia. Qed.
Lemma flat_value items : forall i, flat items !! (2 * i)%nat = fst <$> items !! i.
Proof.
  induction items as [|sl items IH]; intros i; [destruct i; reflexivity|]. destruct i as [|i]; [reflexivity|].
  replace (2 * S i)%nat with (S (S (2 * i))) by lia. cbn. apply IH.
Qed.
Lemma flat_key items : forall i, flat items !! (2 * i + 1)%nat = snd <$> items !! i.
Proof.
  induction items as [|sl items IH]; intros i; [destruct i; reflexivity|]. destruct i as [|i]; [reflexivity|].
  replace (2 * S i + 1)%nat with (S (S (2 * i + 1))) by lia. cbn. apply IH.
Qed.
Lemma flat_put items : forall i v k, <[(2 * i + 1)%nat := k]> (<[(2 * i)%nat := v]> (flat items)) = flat (<[i := (v, k)]> items).
Proof.
  induction items as [|sl items IH]; intros i v k; [destruct i; reflexivity|]. destruct i as [|i]; [reflexivity|].
  replace (2 * S i + 1)%nat with (S (S (2 * i + 1))) by lia. replace (2 * S i)%nat with (S (S (2 * i))) by lia.
  cbn [flat map concat app insert list_insert fst snd]. do 2 f_equal. apply IH.
Qed.
Lemma flat_fresh n : replicate (2 * n) 0 = flat (replicate n (0, 0)).
Proof. induction n as [|n IH]; [reflexivity|]. replace (2 * S n)%nat with (S (S (2 * n))) by lia. cbn. cbn in IH. f_equal. f_equal. exact IH. Qed.

(** * Read-only programs *)
(** number of accesses and result of a program that only reads *)
Fixpoint eval {A} (m : mem) (p : prog A) : option (nat * A) :=
  match p with
  | Done a => Some (0%nat, a)
  | Rd l k => match read m l with
              | Some v => match eval m (k v) with Some (n, a) => Some (S n, a) | None => None end
              | None => None
              end
  | _ => None
  end.
Definition evals {A} (m : mem) (p : prog A) (a : A) : Prop := exists n, eval m p = Some (n, a).

Lemma evals_done {A} m (a : A) : evals m (Done a) a.
Proof. exists 0%nat. reflexivity. Qed.
Lemma evals_seq {A B} m (p : prog A) (f : A -> prog B) a b : evals m p a -> evals m (f a) b -> evals m (seqp p f) b.
Proof.
  intros [n Hn] Hb. revert n Hn. induction p as [a'|l k IH|l v k IH|n' k IH|b' k IH| |]; intros n Hn; cbn in Hn |- *; try discriminate.
  - injection Hn as <- <-. exact Hb.
  - destruct (read m l) as [v|] eqn:E; [|discriminate]. destruct (eval m (k v)) as [[n1 a1]|] eqn:E1; [|discriminate].
    injection Hn as <- <-. destruct (IH v n1 E1) as [n2 E2]. exists (S n2). cbn. rewrite E, E2. reflexivity.
Qed.
Lemma evals_rd m l v : read m l = Some v -> evals m (rd l) v.
Proof. intros E. exists 1%nat. cbn. rewrite E. reflexivity. Qed.

(** table [w] of memory [m] is the hash map [h], in block [b] *)
Record rep (m : mem) (w : bool) (b : Z) (h : hmap) : Prop := mk_rep {
  rep_fld : forall f, fld m w f = fields_of h b f;
  rep_blk : block m b = Some (flat (hm_items h)) }.

Lemma rep_value m w b h ii sl : rep m w b h -> 0 <= ii -> hm_items h !! Z.to_nat ii = Some sl -> read m (Cell b (2 * ii)) = Some sl.1.
Proof.
  intros [_ Hb] H0 E. cbn [read]. rewrite Hb. replace (2 * ii <? 0) with false by (symmetry; apply Z.ltb_ge; lia).
  replace (Z.to_nat (2 * ii)) with (2 * Z.to_nat ii)%nat by lia. rewrite flat_value, E. reflexivity.
Qed.
Lemma rep_key m w b h ii sl : rep m w b h -> 0 <= ii -> hm_items h !! Z.to_nat ii = Some sl -> read m (Cell b (2 * ii + 1)) = Some sl.2.
Proof.
  intros [_ Hb] H0 E. cbn [read]. rewrite Hb. replace (2 * ii + 1 <? 0) with false by (symmetry; apply Z.ltb_ge; lia).
  replace (Z.to_nat (2 * ii + 1)) with (2 * Z.to_nat ii + 1)%nat by lia. rewrite flat_key, E. reflexivity.
Qed.
Lemma rep_items m w b h : rep m w b h -> read m (Fld w Items) = Some b.
Proof. intros [H _]. cbn. rewrite H. reflexivity. Qed.
Lemma rep_mask m w b h : rep m w b h -> read m (Fld w Mask) = Some (hm_mask h).
Proof. intros [H _]. cbn. rewrite H. reflexivity. Qed.

Lemma probe_next_nonneg mask ii : 0 <= mask -> 0 <= probe_next mask ii.
Proof. intros H. unfold probe_next. apply Z.land_nonneg. auto. Qed.
Lemma probe_start_nonneg mask k : 0 <= mask -> 0 <= probe_start mask k.
Proof. intros H. unfold probe_start. apply Z.land_nonneg. auto. Qed.

Lemma evals_get_value m w b h ii sl : rep m w b h -> 0 <= ii -> hm_items h !! Z.to_nat ii = Some sl -> evals m (get_value w ii) sl.1.
Proof. intros R H0 E. unfold get_value. eapply evals_seq; [apply evals_rd; eapply rep_items; exact R|]. apply evals_rd. eapply rep_value; eassumption. Qed.
Lemma evals_get_key m w b h ii sl : rep m w b h -> 0 <= ii -> hm_items h !! Z.to_nat ii = Some sl -> evals m (get_key w ii) sl.2.
Proof. intros R H0 E. unfold get_key. eapply evals_seq; [apply evals_rd; eapply rep_items; exact R|]. apply evals_rd. eapply rep_key; eassumption. Qed.

Lemma have_walk_evals m w b h key : rep m w b h -> 0 <= hm_mask h -> forall n ii r fuel,
  probe (fun sl : Z * Z => (sl.1 =? 0) || (sl.2 =? key)) (hm_items h) (hm_mask h) ii n = Ok r -> (n <= fuel)%nat -> 0 <= ii ->
  evals m (have_walk fuel w key ii) (negb (r.2.1 =? 0)).
Proof.
  intros R Hm. induction n as [|n IH]; intros ii r fuel E Hf H0; [discriminate|]. destruct fuel as [|fuel]; [lia|].
  cbn [probe] in E. destruct (hm_items h !! Z.to_nat ii) as [sl|] eqn:El; [|discriminate]. cbn [have_walk].
  eapply evals_seq; [eapply evals_get_value; eassumption|]. destruct (sl.1 =? 0) eqn:E0; cbn [orb] in E.
  - injection E as <-. cbn [fst snd]. rewrite E0. apply evals_done.
  - eapply evals_seq; [eapply evals_get_key; eassumption|]. destruct (sl.2 =? key) eqn:Ek.
    + injection E as <-. cbn [fst snd]. rewrite E0. apply evals_done.
    + eapply evals_seq; [apply evals_rd; eapply rep_mask; exact R|]. apply (IH _ _ fuel E ltac:(lia)). apply probe_next_nonneg. exact Hm.
Qed.
Lemma have_evals m w b h key r fuel : rep m w b h -> 0 <= hm_mask h -> hashmap_have h key = Ok r -> (length (hm_items h) <= fuel)%nat ->
  evals m (have_prog fuel w key) r.
Proof.
  intros R Hm E Hf. unfold hashmap_have, hashmap_find in E. unfold have_prog.
  eapply evals_seq; [apply evals_rd; eapply rep_mask; exact R|].
  destruct (probe _ (hm_items h) (hm_mask h) (probe_start (hm_mask h) key) _) as [[i sl]| | |] eqn:Ep; try discriminate.
  injection E as <-. eapply (have_walk_evals m w b h key R Hm _ _ _ fuel Ep Hf). apply probe_start_nonneg. exact Hm.
Qed.

(** ** Schedules of read-only threads *)
Fixpoint turns (j : nat) (sched : list nat) : nat :=
  match sched with [] => 0%nat | i :: sched => ((if Nat.eq_dec i j then 1 else 0) + turns j sched)%nat end.

Lemma step_reads {A} m (p : prog A) n a : eval m p = Some (n, a) ->
  exists p', step1 m p = Some (m, p') /\ eval m p' = Some ((n - 1)%nat, a).
Proof.
  destruct p as [a'|l k|l v k|n' k|b' k| |]; cbn; intros E; try discriminate.
  - injection E as <- <-. exists (Done a'). auto.
  - destruct (read m l) as [v|]; [|discriminate]. destruct (eval m (k v)) as [[n1 a1]|] eqn:E1; [|discriminate].
    injection E as <- <-. exists (k v). split; [reflexivity|]. rewrite E1. do 2 f_equal. lia.
Qed.
Lemma eval_done {A} m (p : prog A) a : eval m p = Some (0%nat, a) -> p = Done a.
Proof.
  destruct p as [a'|l k|l v k|n' k|b' k| |]; cbn; intros E; try discriminate; [congruence|].
  destruct (read m l) as [v|]; [|discriminate]. destruct (eval m (k v)) as [[n1 a1]|]; discriminate.
Qed.

Lemma run_reads {A} m sched : forall (ps : list (prog A)) ns rs,
  length ns = length ps -> length rs = length ps ->
  (forall j p n r, ps !! j = Some p -> ns !! j = Some n -> rs !! j = Some r -> eval m p = Some (n, r)) ->
  exists ps', run sched (m, ps) = Some (m, ps') /\ length ps' = length ps /\
    forall j p n r, ps' !! j = Some p -> ns !! j = Some n -> rs !! j = Some r -> eval m p = Some ((n - turns j sched)%nat, r).
Proof.
  induction sched as [|i sched IH]; intros ps ns rs Hn Hr H.
  - exists ps. split; [reflexivity|]. split; [reflexivity|]. intros j p n r A1 A2 A3. cbn [turns]. rewrite Nat.sub_0_r. eauto.
  - cbn [run stepj turns fst snd]. destruct (ps !! i) as [p|] eqn:Ep.
    + assert (exists n, ns !! i = Some n) as [n En]. { apply lookup_lt_is_Some. rewrite Hn. eapply lookup_lt_Some. exact Ep. }
      assert (exists r, rs !! i = Some r) as [r Er]. { apply lookup_lt_is_Some. rewrite Hr. eapply lookup_lt_Some. exact Ep. }
      destruct (step_reads m p n r (H _ _ _ _ Ep En Er)) as (p' & E1 & E2). unfold stepj. cbn [fst snd]. rewrite Ep, E1.
      destruct (IH (<[i := p']> ps) (<[i := (n - 1)%nat]> ns) rs) as (ps' & R1 & R2 & R3).
      { rewrite !insert_length. exact Hn. } { rewrite insert_length. exact Hr. }
      { intros j q n' r' A1 A2 A3. destruct (Nat.eq_dec i j) as [<-|Hij].
        - rewrite list_lookup_insert in A1 by (eapply lookup_lt_Some; exact Ep). rewrite list_lookup_insert in A2 by (eapply lookup_lt_Some; exact En). congruence.
        - rewrite list_lookup_insert_ne in A1 by exact Hij. rewrite list_lookup_insert_ne in A2 by exact Hij. eauto. }
      exists ps'. split; [exact R1|]. split; [rewrite R2; apply insert_length|]. intros j q n' r' A1 A2 A3.
      destruct (Nat.eq_dec i j) as [<-|Hij].
      * rewrite (R3 i q (n - 1)%nat r' A1) by (try assumption; apply list_lookup_insert; eapply lookup_lt_Some; exact En).
        do 2 f_equal. assert (n' = n) by congruence. lia.
      * rewrite (R3 j q n' r' A1) by (try assumption; rewrite list_lookup_insert_ne by exact Hij; exact A2). do 2 f_equal.
    + unfold stepj. cbn [fst snd]. rewrite Ep. destruct (IH ps ns rs Hn Hr H) as (ps' & R1 & R2 & R3). exists ps'. split; [exact R1|]. split; [exact R2|].
      intros j q n r A1 A2 A3. rewrite (R3 j q n r A1 A2 A3). do 2 f_equal. destruct (Nat.eq_dec i j) as [<-|]; [|lia].
      exfalso. apply lookup_lt_Some in A1. rewrite R2 in A1. apply lookup_ge_None in Ep. lia.
Qed.

Lemma thread_evals m fuel c (ans : Z -> bool) trace : (forall a, a ∈ trace -> evals m (ddebug_prog fuel c a) (ans a)) ->
  evals m (thread fuel c trace) (map ans trace).
Proof.
  induction trace as [|a trace IH]; intros H; [apply evals_done|]. cbn [thread map].
  eapply evals_seq; [apply H; left|]. eapply evals_seq; [apply IH; intros x Hx; apply H; right; exact Hx|]. apply evals_done.
Qed.

(** * What every access of every thread preserves *)
Section Safe.
  Context {A : Type} (okr okw : loc -> Z -> Prop) (okb : Z -> Prop).
  Fixpoint safe (Post : A -> Prop) (p : prog A) : Prop :=
    match p with
    | Done a => Post a
    | Rd l k => forall v, okr l v -> safe Post (k v)
    | Wr l v k => okw l v /\ safe Post k
    | Calloc n k => forall b, okb b -> safe Post (k b)
    | Free b k => okb b /\ safe Post k
    | Fault | Spin => True
    end.
End Safe.
Arguments safe {A}.

Lemma safe_seq {A B} okr okw okb (P : A -> Prop) (Q : B -> Prop) (p : prog A) (f : A -> prog B) :
  safe okr okw okb P p -> (forall a, P a -> safe okr okw okb Q (f a)) -> safe okr okw okb Q (seqp p f).
Proof.
  intros Hp Hf. revert Hp. induction p as [a'|l k IH|l v k IH|n' k IH|b' k IH| |]; cbn; intros Hp; auto.
  - destruct Hp. auto.
  - destruct Hp. auto.
Qed.

Section Gen.
  Context (V : Z -> Prop) (h : hmap).
  Hypothesis V0 : V 0.
  Definition okr (l : loc) (v : Z) : Prop :=
    match l with
    | Fld true f => v = fields_of h 1 f
    | Fld false Items => v <> 1
    | Fld false _ => True
    | Cell b i => if b =? 1 then 0 <= i /\ flat (hm_items h) !! Z.to_nat i = Some v else Z.even i = true -> V v
    end.
  Definition okw (l : loc) (v : Z) : Prop :=
    match l with
    | Fld true f => False
    | Fld false Items => v <> 1
    | Fld false _ => True
    | Cell b i => b <> 1 /\ (Z.even i = true -> V v)
    end.
  Definition okb (b : Z) : Prop := b <> 1.
  Notation ok := (safe okr okw okb).
  Record inv (m : mem) : Prop := mk_inv {
    inv_rep : rep m true 1 h;
    inv_items : fld m false Items <> 1;
    inv_cells : forall b cells i v, Z.of_nat b <> 1 -> heap m !! b = Some (Some cells) -> cells !! i = Some v -> Nat.even i = true -> V v }.

  Lemma inv_read m l v : inv m -> read m l = Some v -> okr l v.
  Proof.
    intros [R Hi Hc] E. destruct l as [[|] f|b i]; cbn [okr].
    - cbn in E. injection E as <-. apply (rep_fld _ _ _ _ R).
    - cbn in E. injection E as <-. destruct f; auto.
    - cbn [read] in E. destruct (block m b) as [cells|] eqn:Eb; [|discriminate]. destruct (i <? 0) eqn:Ei; [discriminate|]. apply Z.ltb_ge in Ei.
      destruct (b =? 1) eqn:E1.
      + apply Z.eqb_eq in E1 as ->. rewrite (rep_blk _ _ _ _ R) in Eb. injection Eb as <-. auto.
      + apply Z.eqb_neq in E1. intros Hev. unfold block in Eb. destruct (b <? 0) eqn:Eb0; [discriminate|]. apply Z.ltb_ge in Eb0.
        destruct (heap m !! Z.to_nat b) as [[c|]|] eqn:Eh; try discriminate. injection Eb as ->.
        eapply (Hc (Z.to_nat b) cells (Z.to_nat i) v); try eassumption; [lia|].
        apply Nat.even_spec. apply Z.even_spec in Hev as [q Hq]. exists (Z.to_nat q). lia.
  Qed.

  Lemma inv_write m l v m' : inv m -> okw l v -> write m l v = Some m' -> inv m'.
  Proof.
    intros [R Hi Hc] Hw E. destruct l as [[|] f|b i]; cbn [okw] in Hw; [tauto| |].
    - cbn in E. injection E as <-. split.
      + split; [intros f'; cbn; apply (rep_fld _ _ _ _ R)|exact (rep_blk _ _ _ _ R)].
      + cbn. destruct f; cbn; auto.
      + exact Hc.
    - destruct Hw as [Hb Hv]. cbn [write] in E. destruct (read m (Cell b i)) as [v0|] eqn:Er; [|discriminate].
      cbn [read] in Er. destruct (block m b) as [cells|] eqn:Eb; [|discriminate]. destruct (i <? 0) eqn:Ei; [discriminate|]. apply Z.ltb_ge in Ei.
      injection E as <-. unfold block in Eb. destruct (b <? 0) eqn:Eb0; [discriminate|]. apply Z.ltb_ge in Eb0.
      destruct (heap m !! Z.to_nat b) as [[c|]|] eqn:Eh; try discriminate. injection Eb as ->. split.
      + split; [exact (rep_fld _ _ _ _ R)|]. rewrite <- (rep_blk _ _ _ _ R). unfold block. cbn [heap].
        rewrite list_lookup_insert_ne by lia. reflexivity.
      + exact Hi.
      + cbn [heap]. intros b' cells' i' v' Hb' E1 E2 He. destruct (Nat.eq_dec b' (Z.to_nat b)) as [->|Hne].
        * rewrite list_lookup_insert in E1 by (eapply lookup_lt_Some; exact Eh). injection E1 as <-.
          destruct (Nat.eq_dec i' (Z.to_nat i)) as [->|Hni].
          -- rewrite list_lookup_insert in E2 by (eapply lookup_lt_Some; exact Er). injection E2 as <-. apply Hv.
             apply Z.even_spec. apply Nat.even_spec in He as [q Hq]. exists (Z.of_nat q). lia.
          -- rewrite list_lookup_insert_ne in E2 by lia. eauto.
        * rewrite list_lookup_insert_ne in E1 by lia. eauto.
  Qed.

  Lemma inv_len m : inv m -> (2 <= length (heap m))%nat.
  Proof.
    intros [R _ _]. pose proof (rep_blk _ _ _ _ R) as E. unfold block in E. change (1 <? 0) with false in E. change (Z.to_nat 1) with 1%nat in E. cbn iota in E.
    destruct (heap m !! 1%nat) as [c|] eqn:Eh; [|discriminate]. apply lookup_lt_Some in Eh. lia.
  Qed.

  Lemma inv_step {A} (P : A -> Prop) m p m' p' : inv m -> ok P p -> step1 m p = Some (m', p') -> inv m' /\ ok P p'.
  Proof.
    intros Hm Hp E. pose proof (inv_len m Hm) as Hlen. destruct p as [a|l k|l v k|n k|b k| |]; cbn in Hp, E; try discriminate.
    - injection E as <- <-. auto.
    - destruct (read m l) as [v|] eqn:Er; [|discriminate]. injection E as <- <-. split; [exact Hm|]. apply Hp. eapply inv_read; eassumption.
    - destruct (write m l v) as [m1|] eqn:Ew; [|discriminate]. injection E as <- <-. destruct Hp as [Hw Hp]. split; [eapply inv_write; eassumption|exact Hp].
    - injection E as <- <-. split; [|apply Hp; unfold okb; lia]. destruct Hm as [R Hi Hc]. split.
      + split; [exact (rep_fld _ _ _ _ R)|]. rewrite <- (rep_blk _ _ _ _ R). unfold block. cbn [heap]. rewrite lookup_app_l; [reflexivity|].
        change (Z.to_nat 1) with 1%nat. lia.
      + exact Hi.
      + cbn [heap]. intros b cells i v Hb E1 E2 He. apply lookup_app_Some in E1 as [E1|[_ E1]]; [eauto|].
        apply list_lookup_singleton_Some in E1 as [_ E1]. injection E1 as <-. apply lookup_replicate_1 in E2 as [-> _]. exact V0.
    - destruct (block m b) as [cells|] eqn:Eb; [|discriminate]. injection E as <- <-. destruct Hp as [Hb Hp]. split; [|exact Hp].
      unfold block in Eb. destruct (b <? 0) eqn:Eb0; [discriminate|]. apply Z.ltb_ge in Eb0. unfold okb in Hb.
      destruct (heap m !! Z.to_nat b) as [[c|]|] eqn:Eh; try discriminate.
      destruct Hm as [R Hi Hc]. split.
      + split; [exact (rep_fld _ _ _ _ R)|]. rewrite <- (rep_blk _ _ _ _ R). unfold block. cbn [heap]. rewrite list_lookup_insert_ne by lia. reflexivity.
      + exact Hi.
      + cbn [heap]. intros b' cells' i v Hb' E1 E2 He. destruct (Nat.eq_dec b' (Z.to_nat b)) as [->|Hne].
        * rewrite list_lookup_insert in E1 by (eapply lookup_lt_Some; exact Eh). discriminate.
        * rewrite list_lookup_insert_ne in E1 by lia. eauto.
    - injection E as <- <-. auto.
  Qed.

  Lemma inv_run {A} (P : nat -> A -> Prop) sched : forall m ps m' ps', inv m -> (forall j p, ps !! j = Some p -> ok (P j) p) ->
    run sched (m, ps) = Some (m', ps') -> inv m' /\ (forall j p, ps' !! j = Some p -> ok (P j) p).
  Proof.
    induction sched as [|i sched IH]; intros m ps m' ps' Hm Hps E; cbn [run] in E.
    - injection E as <- <-. auto.
    - unfold stepj in E. cbn [fst snd] in E. destruct (ps !! i) as [p|] eqn:Ep; [|eapply IH; eassumption].
      destruct (step1 m p) as [[m1 p1]|] eqn:E1; [|discriminate].
      destruct (inv_step (P i) m p m1 p1 Hm (Hps _ _ Ep) E1) as [H1 H2]. eapply IH; [exact H1| |exact E].
      intros j q Hq. destruct (Nat.eq_dec i j) as [<-|Hij].
      + rewrite list_lookup_insert in Hq by (eapply lookup_lt_Some; exact Ep). congruence.
      + rewrite list_lookup_insert_ne in Hq by exact Hij. eauto.
  Qed.

  (** ** The code of the table *)
  Lemma ok_rd l : ok (okr l) (rd l).
  Proof. cbn. auto. Qed.
  Lemma ok_any {A} (P Q : A -> Prop) p : (forall a, P a -> Q a) -> ok P p -> ok Q p.
  Proof. intros H. induction p as [a'|l k IH|l v k IH|n' k IH|b' k IH| |]; cbn; intros Hp; auto; destruct Hp; auto. Qed.

  Lemma even_2 ii : Z.even (2 * ii) = true.
  Proof. apply Z.even_spec. exists ii. reflexivity. Qed.
  Lemma odd_2 ii : Z.even (2 * ii + 1) = false.
  Proof. rewrite <- Z.negb_odd. replace (Z.odd (2 * ii + 1)) with true; [reflexivity|]. symmetry. apply Z.odd_spec. exists ii. reflexivity. Qed.

  Lemma ok_get_value ii : ok V (get_value false ii).
  Proof.
    unfold get_value. eapply safe_seq; [apply ok_rd|]. intros b Hb. cbn in Hb |- *.
    replace (b =? 1) with false by (symmetry; apply Z.eqb_neq; exact Hb). intros v Hv. apply Hv. apply (even_2 ii).
  Qed.
  Lemma ok_set_value v ii : V v -> ok (fun _ => True) (set_value false v ii).
  Proof. intros Hv. unfold set_value. eapply safe_seq; [apply ok_rd|]. intros b Hb. cbn in Hb |- *. auto. Qed.
  Lemma ok_set_key k ii : ok (fun _ => True) (set_key false k ii).
  Proof.
    unfold set_key. eapply safe_seq; [apply ok_rd|]. intros b Hb. cbn [okr] in Hb. cbn [safe wr okw].
    split; [split; [exact Hb|]|exact I]. rewrite odd_2. discriminate.
  Qed.
  Lemma ok_walk fuel value : forall ii, ok (fun _ => True) (add_walk fuel false value ii).
  Proof.
    induction fuel as [|fuel IH]; intros ii; [exact I|]. cbn [add_walk].
    eapply safe_seq; [apply ok_get_value|]. intros a _. destruct (a =? 0); [exact I|].
    eapply safe_seq; [apply ok_get_value|]. intros b _. destruct (b =? 1); [exact I|].
    eapply safe_seq; [apply ok_get_value|]. intros c _. destruct (c =? value); [exact I|].
    eapply safe_seq; [apply ok_rd|]. intros mask _. apply IH.
  Qed.
  Lemma ok_add fuel key value : V value -> ok (fun _ => True) (add_member fuel false key value).
  Proof.
    intros Hv. unfold add_member. destruct (_ || _); [exact I|].
    eapply safe_seq; [apply ok_rd|]. intros mask _. eapply safe_seq; [apply ok_walk|]. intros [ii|] _; [|exact I].
    eapply safe_seq; [apply ok_rd|]. intros n _. eapply (safe_seq _ _ _ (fun _ => True)); [cbn; auto|]. intros _ _.
    eapply safe_seq; [apply ok_get_value|]. intros a _. eapply (safe_seq _ _ _ (fun _ => True)).
    { destruct (a =? 1); [|exact I]. eapply safe_seq; [apply ok_rd|]. intros d _. cbn. auto. }
    intros _ _. eapply safe_seq; [apply ok_set_value; exact Hv|]. intros _ _. eapply safe_seq; [apply ok_set_key|]. intros _ _. exact I.
  Qed.
  Lemma ok_rehash_loop fuel old n : old <> 1 -> forall ii, ok (fun _ => True) (rehash_loop fuel false old n ii).
  Proof.
    intros Ho. induction n as [|n IH]; intros ii; [exact I|]. cbn [rehash_loop].
    eapply safe_seq; [apply ok_rd|]. intros key _. eapply safe_seq; [apply ok_rd|]. intros value Hv.
    cbn [okr] in Hv. replace (old =? 1) with false in Hv by (symmetry; apply Z.eqb_neq; exact Ho).
    eapply safe_seq; [apply ok_add; apply Hv; apply even_2|]. intros _ _. apply IH.
  Qed.
  Lemma ok_rehash fuel : ok (fun _ => True) (maybe_rehash fuel false).
  Proof.
    unfold maybe_rehash. eapply safe_seq; [apply ok_rd|]. intros n _. eapply safe_seq; [apply ok_rd|]. intros d _.
    eapply safe_seq; [apply ok_rd|]. intros c _. destruct (overloaded _ _); [|exact I].
    eapply safe_seq; [apply ok_rd|]. intros old Hold. cbn [okr] in Hold.
    eapply safe_seq; [apply ok_rd|]. intros oc _. eapply safe_seq; [apply ok_rd|]. intros nb _.
    eapply (safe_seq _ _ _ (fun _ => True)); [cbn; auto|]. intros _ _. eapply safe_seq; [apply ok_rd|]. intros nb' _.
    destruct (shift_capacity nb') as [cap| | |]; try exact I.
    eapply (safe_seq _ _ _ (fun _ => True)); [cbn; auto|]. intros _ _. eapply safe_seq; [apply ok_rd|]. intros c1 _.
    eapply (safe_seq _ _ _ (fun _ => True)); [cbn; auto|]. intros _ _. eapply safe_seq; [apply ok_rd|]. intros c2 _.
    eapply (safe_seq _ _ _ okb); [cbn; auto|]. intros b Hb.
    eapply (safe_seq _ _ _ (fun _ => True)); [cbn; auto|]. intros _ _.
    eapply (safe_seq _ _ _ (fun _ => True)); [cbn; auto|]. intros _ _.
    eapply (safe_seq _ _ _ (fun _ => True)); [cbn; auto|]. intros _ _.
    eapply safe_seq; [apply ok_rehash_loop; exact Hold|]. intros _ _. cbn. auto.
  Qed.
  Lemma ok_insert fuel a : V a -> ok (fun _ => True) (insert_prog fuel false a a).
  Proof. intros Ha. unfold insert_prog. eapply safe_seq; [apply ok_add; exact Ha|]. intros _ _. apply ok_rehash. Qed.

  (** the other table: only read *)
  Lemma ok_value1 ii sl : hm_items h !! Z.to_nat ii = Some sl -> 0 <= ii -> ok (fun v => v = sl.1) (get_value true ii).
  Proof.
    intros E H0. unfold get_value. eapply safe_seq; [apply ok_rd|]. intros b Hb. cbn [okr fields_of] in Hb. subst b.
    cbn [safe rd okr]. change (1 =? 1) with true. cbn beta iota. intros v [_ Hv].
    replace (Z.to_nat (2 * ii)) with (2 * Z.to_nat ii)%nat in Hv by lia. rewrite flat_value, E in Hv. cbn in Hv. congruence.
  Qed.
  Lemma ok_key1 ii sl : hm_items h !! Z.to_nat ii = Some sl -> 0 <= ii -> ok (fun v => v = sl.2) (get_key true ii).
  Proof.
    intros E H0. unfold get_key. eapply safe_seq; [apply ok_rd|]. intros b Hb. cbn [okr fields_of] in Hb. subst b.
    cbn [safe rd okr]. change (1 =? 1) with true. cbn beta iota. intros v [_ Hv].
    replace (Z.to_nat (2 * ii + 1)) with (2 * Z.to_nat ii + 1)%nat in Hv by lia. rewrite flat_key, E in Hv. cbn in Hv. congruence.
  Qed.
  Lemma ok_have_walk key : 0 <= hm_mask h -> forall n ii r fuel,
    probe (fun sl : Z * Z => (sl.1 =? 0) || (sl.2 =? key)) (hm_items h) (hm_mask h) ii n = Ok r -> 0 <= ii ->
    ok (fun b => b = negb (r.2.1 =? 0)) (have_walk fuel true key ii).
  Proof.
    intros Hm. induction n as [|n IH]; intros ii r fuel E H0; [discriminate|]. destruct fuel as [|fuel]; [exact I|].
    cbn [probe] in E. destruct (hm_items h !! Z.to_nat ii) as [sl|] eqn:El; [|discriminate]. cbn [have_walk].
    eapply safe_seq; [apply ok_value1; eassumption|]. intros a ->. destruct (sl.1 =? 0) eqn:E0; cbn [orb] in E.
    - injection E as <-. cbn. rewrite E0. reflexivity.
    - eapply safe_seq; [apply ok_key1; eassumption|]. intros k ->. destruct (sl.2 =? key) eqn:Ek.
      + injection E as <-. cbn. rewrite E0. reflexivity.
      + eapply safe_seq; [apply ok_rd|]. intros mask Hmask. cbn [okr fields_of] in Hmask. subst mask.
        apply (IH _ _ fuel E). apply probe_next_nonneg. exact Hm.
  Qed.
  Lemma ok_have fuel key r : 0 <= hm_mask h -> hashmap_have h key = Ok r -> ok (fun b => b = r) (have_prog fuel true key).
  Proof.
    intros Hm E. unfold hashmap_have, hashmap_find in E. unfold have_prog.
    eapply safe_seq; [apply ok_rd|]. intros mask Hmask. cbn [okr fields_of] in Hmask. subst mask.
    destruct (probe _ (hm_items h) (hm_mask h) (probe_start (hm_mask h) key) _) as [[i sl]| | |] eqn:Ep; try discriminate.
    injection E as <-. eapply (ok_have_walk key Hm _ _ _ fuel Ep). apply probe_start_nonneg. exact Hm.
  Qed.

  Lemma ok_thread fuel (excl : bool) (ex : Z -> bool) trace :
    0 <= hm_mask h ->
    (forall a, a ∈ trace -> (if excl then hashmap_have h a else Ok false) = Ok (ex a)) ->
    (forall a, a ∈ trace -> ex a = false -> V a) ->
    ok (fun r => r = map (fun a => negb (ex a)) trace) (thread fuel (mk_paths excl false true) trace).
  Proof.
    intros Hm. induction trace as [|a trace IH]; intros He Hv; [reflexivity|]. cbn [thread map].
    apply (safe_seq _ _ _ (fun b => b = negb (ex a))).
    - unfold ddebug_prog. cbn [p_exclude p_include p_gen]. apply (safe_seq _ _ _ (fun b => b = ex a)).
      + pose proof (He a ltac:(left)) as E. destruct excl; [apply ok_have; assumption|]. cbn. congruence.
      + intros b ->. destruct (ex a) eqn:Ea; [reflexivity|].
        eapply safe_seq; [apply ok_insert; apply Hv; [left|exact Ea]|]. intros _ _. reflexivity.
    - intros b ->. eapply safe_seq.
      + apply IH; intros x Hx; [apply He|apply Hv]; right; exact Hx.
      + intros bs ->. reflexivity.
  Qed.

  Lemma inv_reads m b n : inv m -> b <> 1 -> forall ii l v, reads m b n ii = Some l -> In v l -> V v.
  Proof.
    intros Hm Hb. induction n as [|n IH]; intros ii l v E Hin; cbn [reads] in E; [injection E as <-; destruct Hin|].
    destruct (read m (Cell b (2 * ii))) as [v0|] eqn:Er; [|discriminate]. destruct (reads m b n (ii + 1)) as [l0|] eqn:E0; [|discriminate].
    injection E as <-. destruct Hin as [<-|Hin]; [|eapply IH; eassumption].
    pose proof (inv_read _ _ _ Hm Er) as H. cbn [okr] in H. replace (b =? 1) with false in H by (symmetry; apply Z.eqb_neq; exact Hb).
    apply H. apply even_2.
  Qed.
End Gen.

(** * One thread alone: the sequential code of HashModel.v and DdebugModel.v *)
Fixpoint exec {A} (m : mem) (p : prog A) : option (mem * A) :=
  match p with
  | Done a => Some (m, a)
  | Rd l k => match read m l with Some v => exec m (k v) | None => None end
  | Wr l v k => match write m l v with Some m' => exec m' k | None => None end
  | Calloc n k => exec (mk_mem (fld m) (heap m ++ [Some (replicate (Z.to_nat n) 0)])) (k (Z.of_nat (length (heap m))))
  | Free b k => match block m b with Some _ => exec (mk_mem (fld m) (<[Z.to_nat b := None]> (heap m))) k | None => None end
  | Fault | Spin => None
  end.
Lemma exec_seq {A B} (p : prog A) (f : A -> prog B) : forall m m1 a, exec m p = Some (m1, a) -> exec m (seqp p f) = exec m1 (f a).
Proof.
  induction p as [a'|l k IH|l v k IH|n' k IH|b' k IH| |]; intros m m1 a E; cbn in E |- *; try discriminate.
  - injection E as <- <-. reflexivity.
  - destruct (read m l); [|discriminate]. eauto.
  - destruct (write m l v); [|discriminate]. eauto.
  - eauto.
  - destruct (block m b'); [|discriminate]. eauto.
Qed.
Lemma evals_exec {A} m (p : prog A) a : evals m p a -> exec m p = Some (m, a).
Proof.
  intros [n E]. revert n E. induction p as [a'|l k IH|l v k IH|n' k IH|b' k IH| |]; intros n E; cbn in E |- *; try discriminate.
  - congruence.
  - destruct (read m l) as [v|]; [|discriminate]. destruct (eval m (k v)) as [[n1 a1]|] eqn:E1; [|discriminate]. injection E as <- <-. eauto.
Qed.
Lemma exec_run {A} (p : prog A) : forall m m1 a, exec m p = Some (m1, a) -> exists N, forall n, (N <= n)%nat -> run (repeat 0%nat n) (m, [p]) = Some (m1, [Done a]).
Proof.
  assert (Hd : forall m (a : A) n, run (repeat 0%nat n) (m, [Done a]) = Some (m, [Done a])).
  { intros m a n. induction n as [|n IH]; [reflexivity|]. cbn [repeat run]. unfold stepj. cbn [fst snd lookup list_lookup step1]. exact IH. }
  assert (Hs : forall m (p p' : prog A) m' m1 a, step1 m p = Some (m', p') ->
    (exists N, forall n, (N <= n)%nat -> run (repeat 0%nat n) (m', [p']) = Some (m1, [Done a])) ->
    exists N, forall n, (N <= n)%nat -> run (repeat 0%nat n) (m, [p]) = Some (m1, [Done a])).
  { intros m q q' m' m1 a E [N HN]. exists (S N). intros [|n] Hn; [lia|]. cbn [repeat run]. unfold stepj. cbn [fst snd lookup list_lookup].
    rewrite E. cbn [insert list_insert]. apply HN. lia. }
  induction p as [a'|l k IH|l v k IH|n' k IH|b' k IH| |]; intros m m1 a E; cbn in E; try discriminate.
  - injection E as <- <-. exists 0%nat. intros n _. apply Hd.
  - destruct (read m l) as [v|] eqn:Er; [|discriminate]. eapply Hs; [cbn; rewrite Er; reflexivity|]. eauto.
  - destruct (write m l v) as [m'|] eqn:Er; [|discriminate]. eapply Hs; [cbn; rewrite Er; reflexivity|]. eauto.
  - eapply Hs; [reflexivity|]. eauto.
  - destruct (block m b') eqn:Er; [|discriminate]. eapply Hs; [cbn; rewrite Er; reflexivity|]. eauto.
Qed.

Definition wfh (h : hmap) : Prop := hm_capacity h = Z.of_nat (length (hm_items h)) /\ 0 <= hm_mask h.
(** nothing but table [false] and block [b] changed *)
Definition frame (b : Z) (m m' : mem) : Prop :=
  (forall b', b' <> b -> block m' b' = block m b') /\ (forall f, fld m' true f = fld m true f) /\ length (heap m') = length (heap m).
Lemma frame_refl b m : frame b m m.
Proof. split; [|split]; auto. Qed.
Lemma frame_trans b m m1 m2 : frame b m m1 -> frame b m1 m2 -> frame b m m2.
Proof. intros (A1 & A2 & A3) (B1 & B2 & B3). split; [intros b' H; rewrite B1, A1 by exact H; reflexivity|]. split; [intros f; rewrite B2, A2; reflexivity|congruence]. Qed.

Lemma block_range m b cells : block m b = Some cells -> 0 <= b /\ heap m !! Z.to_nat b = Some (Some cells).
Proof.
  unfold block. destruct (b <? 0) eqn:E; [discriminate|]. apply Z.ltb_ge in E. destruct (heap m !! Z.to_nat b) as [[c|]|]; try discriminate.
  intros [= ->]. auto.
Qed.
Lemma block_intro m b cells : 0 <= b -> heap m !! Z.to_nat b = Some (Some cells) -> block m b = Some cells.
Proof. intros H E. unfold block. replace (b <? 0) with false by (symmetry; apply Z.ltb_ge; lia). rewrite E. reflexivity. Qed.

Lemma write_cell m b i v v0 cells : block m b = Some cells -> 0 <= i -> cells !! Z.to_nat i = Some v0 ->
  exists m', write m (Cell b i) v = Some m' /\ fld m' = fld m /\ frame b m m' /\ block m' b = Some (<[Z.to_nat i := v]> cells).
Proof.
  intros Hb Hi E. destruct (block_range _ _ _ Hb) as [H0 Hh]. cbn [write read]. rewrite Hb. replace (i <? 0) with false by (symmetry; apply Z.ltb_ge; lia).
  rewrite E. eexists. split; [reflexivity|]. split; [reflexivity|]. split.
  - split; [|split; [reflexivity|apply insert_length]]. intros b' Hne. unfold block. cbn [heap]. destruct (b' <? 0) eqn:Eb; [reflexivity|].
    apply Z.ltb_ge in Eb. rewrite list_lookup_insert_ne by lia. reflexivity.
  - apply block_intro; [exact H0|]. cbn [heap]. apply list_lookup_insert. eapply lookup_lt_Some. exact Hh.
Qed.

Lemma add_walk_evals m b h value : rep m false b h -> 0 <= hm_mask h -> forall n ii r fuel,
  probe (fun sl : Z * Z => (sl.1 =? 0) || (sl.1 =? 1) || (sl.1 =? value)) (hm_items h) (hm_mask h) ii n = Ok r -> (n <= fuel)%nat -> 0 <= ii ->
  evals m (add_walk fuel false value ii) (if (r.2.1 =? 0) || (r.2.1 =? 1) then Some r.1 else None) /\
  0 <= r.1 /\ hm_items h !! Z.to_nat r.1 = Some r.2.
Proof.
  intros R Hm. induction n as [|n IH]; intros ii r fuel E Hf H0; [discriminate|]. destruct fuel as [|fuel]; [lia|].
  cbn [probe] in E. destruct (hm_items h !! Z.to_nat ii) as [sl|] eqn:El; [|discriminate]. cbn [add_walk].
  assert (Hg : evals m (get_value false ii) sl.1) by (eapply evals_get_value; eassumption).
  destruct (sl.1 =? 0) eqn:E0; [|destruct (sl.1 =? 1) eqn:E1; [|destruct (sl.1 =? value) eqn:E2]]; cbn [orb] in E.
  - injection E as <-. cbn [fst snd]. rewrite E0. split; [|auto]. eapply evals_seq; [exact Hg|]. rewrite E0. apply evals_done.
  - injection E as <-. cbn [fst snd]. rewrite E0, E1. split; [|auto]. eapply evals_seq; [exact Hg|]. rewrite E0.
    eapply evals_seq; [exact Hg|]. rewrite E1. apply evals_done.
  - injection E as <-. cbn [fst snd]. rewrite E0, E1. split; [|auto]. eapply evals_seq; [exact Hg|]. rewrite E0.
    eapply evals_seq; [exact Hg|]. rewrite E1. eapply evals_seq; [exact Hg|]. rewrite E2. apply evals_done.
  - destruct (IH _ _ fuel E ltac:(lia) (probe_next_nonneg _ _ Hm)) as [H1 H2]. split; [|exact H2].
    eapply evals_seq; [exact Hg|]. rewrite E0. eapply evals_seq; [exact Hg|]. rewrite E1. eapply evals_seq; [exact Hg|]. rewrite E2.
    eapply evals_seq; [apply evals_rd; eapply rep_mask; exact R|]. exact H1.
Qed.

Lemma exec_rd {A} m l v (f : Z -> prog A) : read m l = Some v -> exec m (seqp (rd l) f) = exec m (f v).
Proof. intros E. apply exec_seq. cbn. rewrite E. reflexivity. Qed.
Lemma exec_wr {A} m l v m' (f : unit -> prog A) : write m l v = Some m' -> exec m (seqp (wr l v) f) = exec m' (f tt).
Proof. intros E. apply exec_seq. cbn. rewrite E. reflexivity. Qed.

Definition set_fld (m : mem) (f : field) (v : Z) : mem := mk_mem (fun w' f' => if Bool.eqb false w' && field_eq f f' then v else fld m w' f') (heap m).
Lemma write_fld m f v : write m (Fld false f) v = Some (set_fld m f v).
Proof. reflexivity. Qed.
Lemma block_set m f v b : block (set_fld m f v) b = block m b.
Proof. reflexivity. Qed.
Lemma frame_set b m f v : frame b m (set_fld m f v).
Proof. split; [|split]; reflexivity. Qed.

Lemma add_exec m b h fuel key value r h' : rep m false b h -> 0 <= hm_mask h -> (length (hm_items h) <= fuel)%nat ->
  hashmap_add_member h key value = Ok (r, h') ->
  exists m', exec m (add_member fuel false key value) = Some (m', r) /\ rep m' false b h' /\ frame b m m'.
Proof.
  intros R Hm Hf E. unfold hashmap_add_member in E. unfold add_member. destruct ((value =? 0) || (value =? 1)).
  { injection E as <- <-. exists m. split; [reflexivity|]. split; [exact R|apply frame_refl]. }
  destruct (probe _ (hm_items h) (hm_mask h) _ _) as [[ii sl]| | |] eqn:Ep; try discriminate. cbn [bind] in E.
  rewrite (exec_rd _ _ _ _ (rep_mask _ _ _ _ R)).
  destruct (add_walk_evals m b h value R Hm _ _ _ fuel Ep Hf (probe_start_nonneg _ _ Hm)) as (Hw & H0 & Hsl). cbn [fst snd] in *.
  rewrite (exec_seq _ _ _ _ _ (evals_exec _ _ _ Hw)). destruct ((sl.1 =? 0) || (sl.1 =? 1)).
  2: { injection E as <- <-. exists m. split; [reflexivity|]. split; [exact R|apply frame_refl]. }
  injection E as <- <-. destruct R as [Rf Rb].
  rewrite (exec_rd m (Fld false Nitems) (hm_nitems h)) by (cbn; rewrite Rf; reflexivity).
  rewrite (exec_wr _ _ _ _ _ (write_fld _ _ _)). set (m1 := set_fld m Nitems _).
  assert (Hv1 : forall m', block m' b = Some (flat (hm_items h)) -> fld m' false Items = b -> exec m' (get_value false ii) = Some (m', sl.1)).
  { intros m' B F. apply evals_exec. unfold get_value. eapply evals_seq; [apply evals_rd; cbn; rewrite F; reflexivity|]. apply evals_rd.
    cbn [read]. rewrite B. replace (2 * ii <? 0) with false by (symmetry; apply Z.ltb_ge; lia).
    replace (Z.to_nat (2 * ii)) with (2 * Z.to_nat ii)%nat by lia. rewrite flat_value, Hsl. reflexivity. }
  rewrite (exec_seq _ _ m1 m1 sl.1) by (apply Hv1; [exact Rb|cbn; rewrite Rf; reflexivity]).
  set (m2 := if sl.1 =? 1 then set_fld m1 Ndel (wrap64 (hm_ndel h - 1)) else m1).
  rewrite (exec_seq _ _ m1 m2 tt).
  2: { unfold m2. destruct (sl.1 =? 1); [|reflexivity]. rewrite (exec_rd m1 (Fld false Ndel) (hm_ndel h)) by (cbn; rewrite Rf; reflexivity). reflexivity. }
  assert (F2 : fld m2 false Items = b) by (unfold m2; destruct (sl.1 =? 1); cbn; rewrite Rf; reflexivity).
  assert (B2 : block m2 b = Some (flat (hm_items h))) by (unfold m2; destruct (sl.1 =? 1); exact Rb).
  destruct (write_cell m2 b (2 * ii) value sl.1 _ B2) as (m3 & W3 & F3 & Fr3 & B3); [lia| |].
  { replace (Z.to_nat (2 * ii)) with (2 * Z.to_nat ii)%nat by lia. rewrite flat_value, Hsl. reflexivity. }
  rewrite (exec_seq _ _ m2 m3 tt) by (unfold set_value; rewrite (exec_rd m2 _ b) by (cbn; rewrite F2; reflexivity); cbn [exec wr]; rewrite W3; reflexivity).
  destruct (write_cell m3 b (2 * ii + 1) key sl.2 _ B3) as (m4 & W4 & F4 & Fr4 & B4); [lia| |].
  { rewrite list_lookup_insert_ne by lia. replace (Z.to_nat (2 * ii + 1)) with (2 * Z.to_nat ii + 1)%nat by lia. rewrite flat_key, Hsl. reflexivity. }
  rewrite (exec_seq _ _ m3 m4 tt) by (unfold set_key; rewrite (exec_rd m3 _ b) by (cbn; rewrite F3, F2; reflexivity); cbn [exec wr]; rewrite W4; reflexivity).
  exists m4. split; [reflexivity|]. split; [split|].
  - intros f. rewrite F4, F3. unfold m2. destruct (sl.1 =? 1); destruct f; cbn; rewrite ?Rf; reflexivity.
  - rewrite B4. cbn [hm_items]. rewrite <- flat_put. replace (Z.to_nat (2 * ii)) with (2 * Z.to_nat ii)%nat by lia.
    replace (Z.to_nat (2 * ii + 1)) with (2 * Z.to_nat ii + 1)%nat by lia. reflexivity.
  - eapply frame_trans; [apply (frame_set b m Nitems)|]. fold m1. eapply (frame_trans _ _ m2); [unfold m2; destruct (sl.1 =? 1); [apply frame_set|apply frame_refl]|].
    eapply frame_trans; eassumption.
Qed.

Lemma add_shape h key value r h' : hashmap_add_member h key value = Ok (r, h') ->
  length (hm_items h') = length (hm_items h) /\ hm_mask h' = hm_mask h /\ hm_capacity h' = hm_capacity h.
Proof.
  unfold hashmap_add_member. destruct ((value =? 0) || (value =? 1)); [intros [= <- <-]; auto|].
  destruct (probe _ _ _ _ _) as [[ii sl]| | |]; cbn [bind]; try discriminate. destruct ((sl.1 =? 0) || (sl.1 =? 1)); intros [= <- <-]; [|auto].
  cbn. rewrite insert_length. auto.
Qed.

Lemma rehash_len l : forall h h', rehash_items l h = Ok h' -> length (hm_items h') = length (hm_items h).
Proof.
  induction l as [|sl l IH]; intros h h' E; [cbn in E; congruence|]. unfold rehash_items in E. cbn [ofold] in E.
  destruct (hashmap_add_member h sl.2 sl.1) as [[r hx]| | |] eqn:Ea; try discriminate. cbn [omap bind snd] in E.
  destruct (add_shape _ _ _ _ _ Ea) as (S1 & _). rewrite (IH hx h' E). exact S1.
Qed.
Lemma rehash_exec old b items fuel : old <> b -> forall sfx pre m h h', items = pre ++ sfx -> rep m false b h -> block m old = Some (flat items) ->
  0 <= hm_mask h -> (length (hm_items h) <= fuel)%nat -> rehash_items sfx h = Ok h' ->
  exists m', exec m (rehash_loop fuel false old (length sfx) (Z.of_nat (length pre))) = Some (m', tt) /\ rep m' false b h' /\ frame b m m' /\
    length (hm_items h') = length (hm_items h) /\ hm_mask h' = hm_mask h /\ hm_capacity h' = hm_capacity h.
Proof.
  intros Hne. induction sfx as [|sl sfx IH]; intros pre m h h' Hi R Ho Hm Hf E.
  - cbn in E. injection E as <-. exists m. split; [reflexivity|]. split; [exact R|]. split; [apply frame_refl|]. auto.
  - unfold rehash_items in E. cbn [ofold] in E. destruct (hashmap_add_member h sl.2 sl.1) as [[r h1]| | |] eqn:Ea; try discriminate. cbn [omap bind snd] in E.
    destruct (add_shape _ _ _ _ _ Ea) as (S1 & S2 & S3).
    destruct (add_exec m b h fuel _ _ _ _ R Hm Hf Ea) as (m1 & X1 & R1 & Fr1).
    assert (Hsl : items !! length pre = Some sl) by (rewrite Hi, lookup_app_r, Nat.sub_diag by lia; reflexivity).
    assert (Hrk : read m (Cell old (2 * Z.of_nat (length pre) + 1)) = Some sl.2).
    { cbn [read]. rewrite Ho. replace (2 * Z.of_nat (length pre) + 1 <? 0) with false by (symmetry; apply Z.ltb_ge; lia).
      replace (Z.to_nat (2 * Z.of_nat (length pre) + 1)) with (2 * length pre + 1)%nat by lia. rewrite flat_key, Hsl. reflexivity. }
    assert (Hrv : read m (Cell old (2 * Z.of_nat (length pre))) = Some sl.1).
    { cbn [read]. rewrite Ho. replace (2 * Z.of_nat (length pre) <? 0) with false by (symmetry; apply Z.ltb_ge; lia).
      replace (Z.to_nat (2 * Z.of_nat (length pre))) with (2 * length pre)%nat by lia. rewrite flat_value, Hsl. reflexivity. }
    cbn [length rehash_loop]. rewrite (exec_rd _ _ _ _ Hrk), (exec_rd _ _ _ _ Hrv), (exec_seq _ _ _ _ _ X1).
    destruct (IH (pre ++ [sl]) m1 h1 h') as (m2 & X2 & R2 & Fr2 & T1 & T2 & T3); auto.
    { rewrite <- app_assoc. exact Hi. } { destruct Fr1 as (F & _). rewrite F by exact Hne. exact Ho. } { lia. } { lia. }
    exists m2. rewrite app_length in X2. cbn [length] in X2. replace (Z.of_nat (length pre) + 1) with (Z.of_nat (length pre + 1)) by lia.
    split; [exact X2|]. split; [exact R2|]. split; [eapply frame_trans; eassumption|]. split; [|split]; congruence.
Qed.

Lemma maybe_rehash_exec m b h h1 fuel h' : rep m false b h -> rep m true 1 h1 -> b <> 1 -> wfh h ->
  maybe_rehash_map h = Ok h' -> (length (hm_items h') <= fuel)%nat ->
  exists m' b', exec m (maybe_rehash fuel false) = Some (m', tt) /\ rep m' false b' h' /\ rep m' true 1 h1 /\ b' <> 1 /\ wfh h'.
Proof.
  intros R R1 Hb [Hc Hm] E Hf. unfold maybe_rehash. pose proof R as R0. destruct R as [Rf Rb].
  rewrite (exec_rd m (Fld false Nitems) (hm_nitems h)) by (cbn; rewrite Rf; reflexivity).
  rewrite (exec_rd m (Fld false Ndel) (hm_ndel h)) by (cbn; rewrite Rf; reflexivity).
  rewrite (exec_rd m (Fld false Capacity) (hm_capacity h)) by (cbn; rewrite Rf; reflexivity).
  unfold maybe_rehash_map in E. destruct (overloaded _ _).
  2: { injection E as <-. exists m, b. split; [reflexivity|]. split; [exact R0|]. split; [exact R1|]. split; [exact Hb|]. split; assumption. }
  destruct (shift_capacity (hm_nbits h + 1)) as [cap| | |] eqn:Es; try discriminate. cbn [bind] in E.
  assert (Hcap : 1 <= cap).
  { unfold shift_capacity in Es. destruct (_ && _) eqn:Ea; [|discriminate]. injection Es as <-. apply andb_true_iff in Ea as [Ea _]. apply Z.leb_le in Ea.
    pose proof (Z.pow_pos_nonneg 2 (hm_nbits h + 1) ltac:(lia) Ea). lia. }
  rewrite (exec_rd m (Fld false Items) b) by (cbn; rewrite Rf; reflexivity).
  rewrite (exec_rd m (Fld false Capacity) (hm_capacity h)) by (cbn; rewrite Rf; reflexivity).
  rewrite (exec_rd m (Fld false Nbits) (hm_nbits h)) by (cbn; rewrite Rf; reflexivity).
  rewrite (exec_wr _ _ _ _ _ (write_fld _ _ _)). set (m1 := set_fld m Nbits _).
  rewrite (exec_rd m1 (Fld false Nbits) (hm_nbits h + 1)) by reflexivity. rewrite Es.
  rewrite (exec_wr _ _ _ _ _ (write_fld _ _ _)). set (m2 := set_fld m1 Capacity _).
  rewrite (exec_rd m2 (Fld false Capacity) cap) by reflexivity.
  rewrite (exec_wr _ _ _ _ _ (write_fld _ _ _)). set (m3 := set_fld m2 Mask _).
  rewrite (exec_rd m3 (Fld false Capacity) cap) by reflexivity.
  set (m4 := mk_mem (fld m3) (heap m3 ++ [Some (replicate (Z.to_nat (2 * cap)) 0)])). set (nb := Z.of_nat (length (heap m3))).
  rewrite (exec_seq _ _ m3 m4 nb) by reflexivity.
  rewrite (exec_wr _ _ _ _ _ (write_fld _ _ _)). set (m5 := set_fld m4 Items _).
  rewrite (exec_wr _ _ _ _ _ (write_fld _ _ _)). set (m6 := set_fld m5 Nitems _).
  rewrite (exec_wr _ _ _ _ _ (write_fld _ _ _)). set (m7 := set_fld m6 Ndel _).
  set (h2 := mk_hmap (hm_nbits h + 1) (cap - 1) cap (replicate (Z.to_nat cap) (0, 0)) 0 0) in E.
  destruct (block_range _ _ _ Rb) as [Hb0 Hbh].
  assert (Hlt : (Z.to_nat b < length (heap m))%nat) by (eapply lookup_lt_Some; exact Hbh).
  assert (Hnb : nb = Z.of_nat (length (heap m))) by reflexivity.
  assert (H7 : heap m7 = heap m ++ [Some (flat (replicate (Z.to_nat cap) (0, 0)))]).
  { cbn. rewrite <- flat_fresh. replace (Z.to_nat (2 * cap)) with (2 * Z.to_nat cap)%nat by lia. reflexivity. }
  assert (R7 : rep m7 false nb h2).
  { split; [intros f; destruct f; cbn; reflexivity|]. apply block_intro; [lia|]. rewrite H7, Hnb, Nat2Z.id, lookup_app_r, Nat.sub_diag by lia. reflexivity. }
  assert (Hold : forall b', (Z.to_nat b' < length (heap m))%nat -> block m7 b' = block m b').
  { intros b' Hb'. unfold block. rewrite H7, lookup_app_l by exact Hb'. reflexivity. }
  destruct (rehash_exec b nb (hm_items h) fuel ltac:(lia) (hm_items h) [] m7 h2 h' eq_refl R7) as (m8 & X8 & R8 & Fr8 & T1 & T2 & T3).
  { rewrite Hold by exact Hlt. exact Rb. } { cbn. lia. }
  { destruct (le_lt_dec (length (hm_items h2)) fuel); [assumption|]. exfalso. pose proof (rehash_len _ _ _ E). lia. }
  { exact E. }
  rewrite Hc, Nat2Z.id. rewrite (exec_seq _ _ _ _ _ X8). destruct Fr8 as (G1 & G2 & G3).
  assert (B8 : block m8 b = Some (flat (hm_items h))) by (rewrite G1 by lia; rewrite Hold by exact Hlt; exact Rb).
  cbn [exec]. rewrite B8. eexists _, nb. split; [reflexivity|].
  assert (Hkeep : forall b', 0 <= b' -> b' <> b -> block (mk_mem (fld m8) (<[Z.to_nat b:=None]> (heap m8))) b' = block m8 b').
  { intros b' H1 H2. unfold block. cbn [heap]. rewrite list_lookup_insert_ne by lia. reflexivity. }
  destruct (block_range _ _ _ (rep_blk _ _ _ _ R1)) as [_ H1h]. apply lookup_lt_Some in H1h.
  change (Z.to_nat 1) with 1%nat in H1h. split; [|split; [|split]].
  - split; [exact (rep_fld _ _ _ _ R8)|]. rewrite Hkeep by lia. exact (rep_blk _ _ _ _ R8).
  - split; [intros f; cbn; rewrite G2; cbn; apply (rep_fld _ _ _ _ R1)|]. rewrite Hkeep by lia. rewrite G1 by lia.
    rewrite Hold by (change (Z.to_nat 1) with 1%nat; lia). exact (rep_blk _ _ _ _ R1).
  - lia.
  - split; [rewrite T3, T1; cbn [h2 hm_capacity hm_items]; rewrite replicate_length; lia|rewrite T2; cbn; lia].
Qed.

Lemma insert_exec m b h h1 key value h' : rep m false b h -> rep m true 1 h1 -> b <> 1 -> wfh h -> hashmap_insert h key value = Ok h' ->
  wfh h' /\ forall fuel, (length (hm_items h) <= fuel)%nat -> (length (hm_items h') <= fuel)%nat ->
  exists m' b', exec m (insert_prog fuel false key value) = Some (m', tt) /\ rep m' false b' h' /\ rep m' true 1 h1 /\ b' <> 1.
Proof.
  intros R R1 Hb Hw E. unfold hashmap_insert in E. destruct (hashmap_add_member h key value) as [[r hx]| | |] eqn:Ea; try discriminate. cbn [bind snd] in E.
  destruct (add_shape _ _ _ _ _ Ea) as (S1 & S2 & S3). destruct Hw as [Hc Hm].
  assert (Hmain : forall fuel, (length (hm_items h) <= fuel)%nat -> (length (hm_items h') <= fuel)%nat ->
    exists m' b', exec m (insert_prog fuel false key value) = Some (m', tt) /\ rep m' false b' h' /\ rep m' true 1 h1 /\ b' <> 1 /\ wfh h').
  { intros fuel Hf Hf'. destruct (add_exec m b h fuel _ _ _ _ R Hm Hf Ea) as (m1 & X1 & Rx & Fr). unfold insert_prog. rewrite (exec_seq _ _ _ _ _ X1).
    apply (maybe_rehash_exec m1 b hx h1 fuel h'); auto; [|split; [congruence|lia]].
    destruct Fr as (F1 & F2 & _). split; [intros f; rewrite F2; apply (rep_fld _ _ _ _ R1)|]. rewrite F1 by lia. exact (rep_blk _ _ _ _ R1). }
  split.
  - destruct (Hmain (length (hm_items h) + length (hm_items h'))%nat ltac:(lia) ltac:(lia)) as (m' & b' & H). tauto.
  - intros fuel H1 H2. destruct (Hmain fuel H1 H2) as (m' & b' & H). exists m', b'. tauto.
Qed.

Definition same_setup (st st' : dd) : Prop := dd_exclude st' = dd_exclude st /\ dd_include st' = dd_include st /\ dd_gen st' = dd_gen st.
Lemma thread_exec trace : forall st r st', dd_run st trace = Ok (r, st') ->
  exists F, forall fuel, (F <= fuel)%nat -> forall b m, rep m false b (dd_must st) -> rep m true 1 (mustnot st) -> b <> 1 -> wfh (dd_must st) -> 0 <= hm_mask (mustnot st) ->
  exists m' b', exec m (thread fuel (paths_of st) trace) = Some (m', r) /\ rep m' false b' (dd_must st') /\ wfh (dd_must st').
Proof.
  induction trace as [|a trace IH]; intros st r st' E.
  - cbn in E. injection E as <- <-. exists 0%nat. intros fuel _ b m R R1 Hb Hw Hm1. exists m, b. split; [reflexivity|]. auto.
  - cbn [dd_run] in E. destruct (ddebug st a) as [[d st1]| | |] eqn:Ed; try discriminate. cbn [bind] in E.
    destruct (dd_run st1 trace) as [[ds st2]| | |] eqn:Er; try discriminate. cbn [bind] in E. injection E as <- <-.
    unfold ddebug in Ed. set (F1 := (length (hm_items (mustnot st)) + length (hm_items (dd_must st)) + length (hm_items (dd_must st1)))%nat).
    destruct (IH st1 ds st2 Er) as [F HF]. exists (F + F1)%nat. intros fuel Hfuel b m R R1 Hb Hw Hm1.
    assert (Hcall : exists m1 b1, exec m (ddebug_prog fuel (paths_of st) a) = Some (m1, d) /\
       rep m1 false b1 (dd_must st1) /\ rep m1 true 1 (mustnot st) /\ b1 <> 1 /\ wfh (dd_must st1) /\ same_setup st st1).
    { assert (Hf : (F1 <= fuel)%nat) by lia. unfold F1 in Hf. unfold ddebug_prog, paths_of. cbn [p_exclude p_include p_gen].
      destruct (match dd_exclude st with Some m0 => hashmap_have m0 a | None => Ok false end) as [ex| | |] eqn:Ee; try discriminate. cbn [bind] in Ed.
      rewrite (exec_seq _ _ m m ex).
      2: { destruct (dd_exclude st) as [hx|] eqn:Ex; [|injection Ee as <-; reflexivity]. apply evals_exec.
           assert (hx = mustnot st) as -> by (unfold mustnot; rewrite Ex; reflexivity).
           apply (have_evals m true 1 (mustnot st) a ex fuel R1 Hm1 Ee). lia. }
      destruct ex; [injection Ed as <- <-; exists m, b; split; [reflexivity|]; unfold same_setup; auto 10|].
      destruct (dd_include st) eqn:Ein.
      { destruct (hashmap_have (dd_must st) a) as [hv| | |] eqn:Eh; try discriminate. cbn [bind] in Ed. injection Ed as <- <-.
        exists m, b. split; [|unfold same_setup; auto 10]. apply evals_exec. apply (have_evals m false b (dd_must st) a hv fuel R (proj2 Hw) Eh). lia. }
      destruct (dd_gen st) eqn:Eg.
      { destruct (hashmap_insert (dd_must st) a a) as [h'| | |] eqn:Ei; try discriminate. cbn [bind] in Ed. injection Ed as <- <-. cbn [dd_must] in Hf |- *.
        destruct (insert_exec m b (dd_must st) (mustnot st) a a h' R R1 Hb Hw Ei) as [Hw' Hx].
        destruct (Hx fuel ltac:(lia) ltac:(lia)) as (m1 & b1 & X & Y1 & Y2 & Y3). exists m1, b1. rewrite (exec_seq _ _ _ _ _ X).
        split; [reflexivity|]. unfold same_setup. cbn. rewrite Ein, Eg. auto 10. }
      injection Ed as <- <-. exists m, b. split; [reflexivity|]. unfold same_setup. auto 10. }
    destruct Hcall as (m1 & b1 & X & Y1 & Y2 & Y3 & Hw1 & (Q1 & Q2 & Q3)).
    assert (Hmn : mustnot st1 = mustnot st) by (unfold mustnot; rewrite Q1; reflexivity).
    assert (Hp : paths_of st1 = paths_of st) by (unfold paths_of; rewrite Q1, Q2, Q3; reflexivity).
    rewrite <- Hmn in Y2. destruct (HF fuel ltac:(lia) b1 m1 Y1 Y2 Y3 Hw1 ltac:(rewrite Hmn; exact Hm1)) as (m2 & b2 & X2 & Z1 & Z2).
    exists m2, b2. split; [|auto]. cbn [thread]. rewrite (exec_seq _ _ _ _ _ X). rewrite <- Hp. rewrite (exec_seq _ _ _ _ _ X2). reflexivity.
Qed.

Lemma reads_rep m b h : rep m false b h -> forall n ii, (ii + n <= length (hm_items h))%nat ->
  reads m b n (Z.of_nat ii) = Some (map fst (take n (drop ii (hm_items h)))).
Proof.
  intros R. induction n as [|n IH]; intros ii Hn; [reflexivity|]. cbn [reads].
  assert (exists sl, hm_items h !! ii = Some sl) as [sl Hsl] by (apply lookup_lt_is_Some; lia).
  rewrite (rep_value m false b h (Z.of_nat ii) sl R) by (rewrite ?Nat2Z.id; try lia; exact Hsl).
  replace (Z.of_nat ii + 1) with (Z.of_nat (S ii)) by lia. rewrite IH by lia. rewrite (drop_S _ sl ii Hsl). reflexivity.
Qed.
Lemma recorded_rep m b h : rep m false b h -> wfh h -> recorded m = Some (gen_addresses h).
Proof.
  intros R [Hc _]. unfold recorded. rewrite !(rep_fld _ _ _ _ R). cbn [fields_of]. rewrite Hc, Nat2Z.id.
  pose proof (reads_rep m b h R (length (hm_items h)) 0 ltac:(lia)) as E. change (Z.of_nat 0) with 0 in E. rewrite E.
  rewrite drop_0, take_ge by lia. f_equal. unfold gen_addresses. clear Hc E.
  induction (hm_items h) as [|sl l IH]; [reflexivity|]. cbn [map List.filter].
  destruct (negb (sl.1 =? 0) && negb (sl.1 =? 1)) eqn:E; cbn [map fst]; rewrite <- IH; reflexivity.
Qed.

(** * Threads that never come back *)
Fixpoint spins {A} (m : mem) (p : prog A) : Prop :=
  match p with Spin => True | Rd l k => match read m l with Some v => spins m (k v) | None => False end | _ => False end.
Lemma spins_left {A B} m (p : prog A) (f : A -> prog B) : spins m p -> spins m (seqp p f).
Proof.
  induction p as [a'|l k IH|l v k IH|n' k IH|b' k IH| |]; cbn; intros H; auto; try tauto.
  destruct (read m l); [auto|tauto].
Qed.
Lemma spins_right {A B} m (p : prog A) (f : A -> prog B) a : evals m p a -> spins m (f a) -> spins m (seqp p f).
Proof.
  intros [n Hn] Hb. revert n Hn. induction p as [a'|l k IH|l v k IH|n' k IH|b' k IH| |]; intros n Hn; cbn in Hn |- *; try discriminate.
  - injection Hn as <- <-. exact Hb.
  - destruct (read m l) as [v|] eqn:E; [|discriminate]. destruct (eval m (k v)) as [[n1 a1]|] eqn:E1; [|discriminate]. injection Hn as <- <-. eauto.
Qed.
Lemma spins_run {A} m j (p : prog A) : forall ps, ps !! j = Some p -> spins m p -> exists n, run (repeat j n) (m, ps) = Some (m, <[j := Spin]> ps).
Proof.
  induction p as [a'|l k IH|l v k IH|n' k IH|b' k IH| |]; cbn; intros ps E H; try tauto.
  - destruct (read m l) as [v|] eqn:Er; [|tauto]. destruct (IH v (<[j := k v]> ps)) as [n Hn]; [apply list_lookup_insert; eapply lookup_lt_Some; exact E|exact H|].
    exists (S n). cbn [repeat run]. unfold stepj. cbn [fst snd]. rewrite E. cbn [step1]. rewrite Er, Hn, list_insert_insert. reflexivity.
  - exists 0%nat. cbn. rewrite list_insert_id by exact E. reflexivity.
Qed.
(** no slot is free and the value is not there *)
Lemma full_walk m b h value : rep m false b h -> hm_mask h = 7 ->
  (forall ii, 0 <= ii <= 7 -> exists sl, hm_items h !! Z.to_nat ii = Some sl /\ sl.1 <> 0 /\ sl.1 <> 1 /\ sl.1 <> value) ->
  forall fuel ii, 0 <= ii <= 7 -> spins m (add_walk fuel false value ii).
Proof.
  intros R Hm Hfull. induction fuel as [|fuel IH]; intros ii Hi; [exact I|]. cbn [add_walk]. destruct (Hfull ii Hi) as (sl & E & N0 & N1 & N2).
  assert (Hg : evals m (get_value false ii) sl.1) by (eapply evals_get_value; [exact R|lia|exact E]).
  eapply spins_right; [exact Hg|]. rewrite (proj2 (Z.eqb_neq _ _) N0). eapply spins_right; [exact Hg|]. rewrite (proj2 (Z.eqb_neq _ _) N1).
  eapply spins_right; [exact Hg|]. rewrite (proj2 (Z.eqb_neq _ _) N2). eapply spins_right; [apply evals_rd; eapply rep_mask; exact R|].
  apply IH. rewrite Hm. unfold probe_next. change 7 with (2 ^ 3 - 1). rewrite land_mask by lia.
  pose proof (Z.mod_pos_bound (ii + prime_2) (2 ^ 3) ltac:(lia)). lia.
Qed.

Lemma run_app {A} s1 s2 : forall (s s' : mem * list (prog A)), run s1 s = Some s' -> run (s1 ++ s2) s = run s2 s'.
Proof.
  induction s1 as [|j s1 IH]; intros s s' E; cbn in E |- *; [congruence|]. destruct (stepj j s); [auto|discriminate].
Qed.
(** a thread that is not scheduled stays where it is *)
Lemma run_extend {A} sched (q : prog A) : forall m ps m' ps', Forall (fun j => (j < length ps)%nat) sched -> run sched (m, ps) = Some (m', ps') ->
  run sched (m, ps ++ [q]) = Some (m', ps' ++ [q]) /\ length ps' = length ps.
Proof.
  induction sched as [|j sched IH]; intros m ps m' ps' Hj E; cbn [run] in E |- *; [injection E as <- <-; auto|].
  inversion Hj as [|? ? Hj' Hs]; subst; clear Hj; rename Hj' into Hj. unfold stepj in E |- *. cbn [fst snd] in E |- *. rewrite lookup_app_l by exact Hj.
  destruct (ps !! j) as [p|] eqn:Ep; [|apply lookup_ge_None in Ep; lia].
  destruct (step1 m p) as [[m1 p1]|]; [|discriminate]. rewrite insert_app_l by exact Hj.
  destruct (IH m1 (<[j := p1]> ps) m' ps') as [H1 H2]; [rewrite insert_length; exact Hs|exact E|]. rewrite insert_length in H2. auto.
Qed.
