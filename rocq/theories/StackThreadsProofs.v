(** Proofs about the call stack under threads (StackThreadsModel.v). *)
From Coq Require Import ZArith List Bool Lia.
From stdpp Require Import base list.
From Verif Require Import Common FuncModel StackThreadsModel.
Import ListNotations.
Open Scope Z_scope.

Lemma sum_insert {A} (f : A -> nat) (l : list A) t x y :
  l !! t = Some x -> (sum (map f (<[t := y]> l)) + f x = sum (map f l) + f y)%nat.
Proof.
  revert t. induction l as [|a l IH]; intros [|t] H; cbn in H; try discriminate.
  - injection H as ->. change (<[0%nat := y]> (x :: l)) with (y :: l). cbn [map sum]. lia.
  - apply IH in H. change (<[S t := y]> (a :: l)) with (a :: <[t := y]> l). cbn [map sum]. lia.
Qed.
Lemma sum_member {A} (f : A -> nat) (l : list A) t x : l !! t = Some x -> (f x <= sum (map f l))%nat.
Proof.
  revert t. induction l as [|a l IH]; intros [|t] H; cbn in H; try discriminate.
  - injection H as ->. cbn. lia.
  - apply IH in H. cbn. lia.
Qed.
Lemma sum_le {A} (f g : A -> nat) (l : list A) : (forall x, (f x <= g x)%nat) -> (sum (map f l) <= sum (map g l))%nat.
Proof. intros H. induction l as [|a l IH]; cbn; [lia|]. specialize (H a). lia. Qed.
Lemma deepest_ge d l : (d <= deepest d l)%nat.
Proof. destruct l as [|[p b|b] l]; cbn; lia. Qed.

Lemma mod_small z : 0 <= z < SIZE_MOD -> z mod SIZE_MOD = z.
Proof. apply Z.mod_small. Qed.
Arguments SIZE_MOD : simpl never.
Lemma SIZE_MOD_val : SIZE_MOD = 18446744073709551616.
Proof. reflexivity. Qed.

(** * Any schedule, when top is read once *)
Definition top_ok (z : Z) : Prop := 0 <= z <= STACK_MAX.
Definition AI (s : sstate) : Prop :=
  Z.of_nat (length (s_arr s)) = 4096 /\ top_ok (s_top s) /\
  forall t th, s_threads s !! t = Some th ->
    match th_pc th with
    | Push1 _ _ | Pop1 => False
    | Push2 _ _ r => 1 <= r <= STACK_MAX
    | Push3 _ _ i => 0 <= i < STACK_MAX
    | Pop2 r => 0 <= r < STACK_MAX
    | _ => True
    end.
Lemma AI_upd s t th0 th top' arr' log' :
  AI s -> s_threads s !! t = Some th0 -> Z.of_nat (length arr') = 4096 -> top_ok top' ->
  match th_pc th with
  | Push1 _ _ | Pop1 => False
  | Push2 _ _ r => 1 <= r <= STACK_MAX
  | Push3 _ _ i => 0 <= i < STACK_MAX
  | Pop2 r => 0 <= r < STACK_MAX
  | _ => True
  end ->
  AI (mk_sstate top' arr' (<[t := th]> (s_threads s)) log').
Proof.
  intros (Ha & Hr & Ht) Hl Ha' Hr' Hth. split; [exact Ha'|]. split; [exact Hr'|].
  intros u thu Hu. cbn [s_threads] in Hu. destruct (decide (u = t)) as [-> |N].
  - rewrite list_lookup_insert in Hu by (apply lookup_lt_Some in Hl; exact Hl). injection Hu as <-. exact Hth.
  - rewrite list_lookup_insert_ne in Hu by congruence. exact (Ht u thu Hu).
Qed.
Ltac ai H E := eapply AI_upd; [exact H|exact E|cbn [s_arr]; try (rewrite insert_length); try assumption|unfold top_ok, STACK_MAX in *; lia|
  cbn [th_pc]; unfold top_ok, STACK_MAX in *; try exact I; try lia].
Lemma AI_step s t : AI s ->
  match s_step true s t with Ok s' => AI s' | Exit => s_top s = 0 | _ => False end.
Proof.
  intros H. pose proof H as (Ha & Hr & Ht). unfold s_step.
  destruct (s_threads s !! t) as [[pc todo d]|] eqn:E; [|exact H]. specialize (Ht t _ E). cbn [th_pc] in Ht.
  unfold upd, with_top, with_arr, noted. cbn [s_top s_arr s_threads s_log]. pose proof SIZE_MOD_val as SM.
  destruct pc as [|p b|p b r|p b i| | | |r].
  - destruct todo as [|[p b|b] k]; [exact H| |].
    + destruct (Z.eqb_spec (s_top s) 0) as [E0|N0]; [exact E0|]. ai H E.
    + destruct b; cbn [s_top s_arr s_threads s_log]; ai H E.
  - destruct Ht.
  - unfold STACK_MAX in Ht. rewrite (mod_small (r - 1)) by lia. ai H E.
  - destruct (Z.ltb_spec i STACK_MAX) as [Li|Li]; [|lia]. ai H E. destruct b; exact I.
  - ai H E.
  - destruct (Z.ltb_spec (s_top s) STACK_MAX) as [Li|Li]; ai H E.
  - destruct Ht.
  - unfold STACK_MAX in Ht. rewrite (mod_small (r + 1)) by lia. ai H E.
Qed.
Lemma init_threads progs t th : s_threads (s_init progs) !! t = Some th ->
  exists l, progs !! t = Some l /\ th = mk_thread Idle l 0.
Proof.
  unfold s_init. cbn [s_threads]. intros H. change (map ?f ?l) with (f <$> l) in H. rewrite list_lookup_fmap in H.
  destruct (progs !! t) as [l|]; [|discriminate]. injection H as <-. eauto.
Qed.
Lemma init_arr : Z.of_nat (length (<[Z.to_nat (STACK_MAX - 1) := Some 0]> (replicate (Z.to_nat STACK_MAX) (@None Z)))) = 4096.
Proof. rewrite insert_length, replicate_length. unfold STACK_MAX. lia. Qed.
Lemma AI_init progs : AI (s_init progs).
Proof.
  split; [exact init_arr|]. split; [unfold top_ok, s_init, STACK_MAX; cbn [s_top]; lia|].
  intros t th H. apply init_threads in H as (l & _ & ->). exact I.
Qed.
Lemma AI_run sched s : AI s -> match ofold (s_step true) sched s with Ok s' => AI s' | Exit => True | _ => False end.
Proof.
  revert s. induction sched as [|t sched IH]; intros s H; [exact H|]. cbn [ofold]. pose proof (AI_step s t H) as A.
  destruct (s_step true s t) as [s'| | |]; cbn [bind]; [apply IH; exact A|exact A|exact I|exact A].
Qed.

(** few calls: the process does not stop either *)
Definition pend (th : thread) : nat :=
  (enters (th_todo th) + match th_pc th with Push1 _ _ | Push2 _ _ _ => 1 | _ => 0 end)%nat.
Lemma pend_eq pc todo d :
  pend (mk_thread pc todo d) = (enters todo + match pc with Push1 _ _ | Push2 _ _ _ => 1 | _ => 0 end)%nat.
Proof. reflexivity. Qed.
Definition pends (s : sstate) : Z := Z.of_nat (sum (map pend (s_threads s))).
Definition BI (s : sstate) : Prop :=
  AI s /\ pends s <= s_top s /\
  forall t th, s_threads s !! t = Some th -> match th_pc th with Push2 _ _ r | Pop2 r => pends s <= r | _ => True end.
Lemma BI_upd s t th0 th top' arr' log' :
  BI s -> s_threads s !! t = Some th0 ->
  let s' := mk_sstate top' arr' (<[t := th]> (s_threads s)) log' in
  AI s' -> (pend th <= pend th0)%nat -> pends s - (Z.of_nat (pend th0) - Z.of_nat (pend th)) <= top' ->
  match th_pc th with Push2 _ _ r | Pop2 r => pends s <= r | _ => True end -> BI s'.
Proof.
  intros (HA & Hp & Ht) Hl s' HA' Hle Htop Hth. pose proof (sum_insert pend _ _ _ th Hl) as E1.
  assert (P : pends s' = pends s - (Z.of_nat (pend th0) - Z.of_nat (pend th))) by (unfold pends, s'; cbn [s_threads]; lia).
  split; [exact HA'|]. split; [unfold s' at 2; cbn [s_top]; lia|].
  intros u thu Hu. unfold s' in Hu. cbn [s_threads] in Hu. destruct (decide (u = t)) as [-> |N].
  - rewrite list_lookup_insert in Hu by (apply lookup_lt_Some in Hl; exact Hl). injection Hu as <-.
    destruct (th_pc th); try exact I; lia.
  - rewrite list_lookup_insert_ne in Hu by congruence. specialize (Ht u thu Hu). destruct (th_pc thu); try exact I; lia.
Qed.
Lemma BI_step s t : BI s -> exists s', s_step true s t = Ok s' /\ BI s'.
Proof.
  intros H. pose proof H as (HA & Hp & Ht). pose proof (AI_step s t HA) as A. pose proof HA as (_ & Hr & Ha). revert A.
  unfold s_step. destruct (s_threads s !! t) as [[pc todo d]|] eqn:E; [|intros A; exists s; split; [reflexivity|exact H]].
  specialize (Ht t _ E). specialize (Ha t _ E). cbn [th_pc] in Ht, Ha. pose proof (sum_member pend _ _ _ E) as M.
  unfold upd, with_top, with_arr, noted. cbn [s_top s_arr s_threads s_log].
  pose proof SIZE_MOD_val as SM. unfold pends in Hp, Ht.
  destruct pc as [|p b|p b r|p b i| | | |r].
  - destruct todo as [|[p b|b] k]; [intros A; exists s; split; [reflexivity|exact H]| |].
    + destruct (Z.eqb_spec (s_top s) 0) as [E0|N0].
      * intros _. exfalso. rewrite pend_eq in M. cbn [enters] in M. lia.
      * intros A. eexists. split; [reflexivity|]. eapply BI_upd; [exact H|exact E|exact A| | |];
          unfold pends; rewrite ?pend_eq; cbn [th_pc enters]; lia.
    + intros A. destruct b; cbn [s_top s_arr s_threads s_log] in A |- *; eexists; (split; [reflexivity|]);
        (eapply BI_upd; [exact H|exact E|exact A| | |]; unfold pends; rewrite ?pend_eq; cbn [th_pc enters]; try exact I; lia).
  - destruct Ha.
  - rewrite (mod_small (r - 1)) by (unfold STACK_MAX in Ha; lia). intros A. eexists. split; [reflexivity|].
    eapply BI_upd; [exact H|exact E|exact A| | |]; unfold pends; rewrite ?pend_eq; cbn [th_pc enters]; try exact I; lia.
  - destruct (Z.ltb_spec i STACK_MAX) as [Li|Li]; [|intros []]. intros A. eexists. split; [reflexivity|].
    eapply BI_upd; [exact H|exact E|exact A| | |]; unfold pends; rewrite ?pend_eq; destruct b; cbn [th_pc enters]; try exact I; lia.
  - intros A. eexists. split; [reflexivity|].
    eapply BI_upd; [exact H|exact E|exact A| | |]; unfold pends; rewrite ?pend_eq; cbn [th_pc enters]; try exact I; lia.
  - destruct (Z.ltb_spec (s_top s) STACK_MAX) as [Li|Li]; intros A; eexists; (split; [reflexivity|]);
    (eapply BI_upd; [exact H|exact E|exact A| | |]; unfold pends; rewrite ?pend_eq; cbn [th_pc enters]; try exact I; lia).
  - destruct Ha.
  - rewrite (mod_small (r + 1)) by (unfold STACK_MAX in Ha; lia). intros A. eexists. split; [reflexivity|].
    eapply BI_upd; [exact H|exact E|exact A| | |]; unfold pends; rewrite ?pend_eq; cbn [th_pc enters]; try exact I; lia.
Qed.
Lemma BI_run sched s : BI s -> exists s', ofold (s_step true) sched s = Ok s' /\ BI s'.
Proof.
  revert s. induction sched as [|t sched IH]; intros s H; [exists s; split; [reflexivity|exact H]|].
  cbn [ofold]. destruct (BI_step s t H) as (s' & -> & H'). cbn [bind]. apply IH. exact H'.
Qed.
Lemma sum_init (f : thread -> nat) (g : list sevent -> nat) progs :
  (forall l, f (mk_thread Idle l 0) = g l) -> sum (map f (s_threads (s_init progs))) = sum (map g progs).
Proof.
  intros H. unfold s_init. cbn [s_threads]. induction progs as [|l progs IH]; [reflexivity|]. cbn [map sum]. rewrite H, IH. reflexivity.
Qed.
Lemma BI_init progs : Z.of_nat (sum (map enters progs)) <= 4095 -> BI (s_init progs).
Proof.
  intros H. split; [apply AI_init|]. split.
  - unfold pends. rewrite (sum_init pend enters) by (intros l; unfold pend; cbn; lia). unfold s_init, STACK_MAX. cbn [s_top]. lia.
  - intros t th E. apply init_threads in E as (l & _ & ->). exact I.
Qed.

(** * Schedules without overlapping changes *)
Definition nextd (th : thread) : nat :=
  match th_pc th with Push1 _ _ | Push2 _ _ _ => S (th_depth th) | Quit | Pop1 | Pop2 _ => pred (th_depth th) | _ => th_depth th end.
Definition maxd (th : thread) : nat := Nat.max (th_depth th) (deepest (nextd th) (th_todo th)).
Definition endd (th : thread) : nat := ends (nextd th) (th_todo th).
Definition push3 (th : thread) : Prop := match th_pc th with Push3 _ _ _ => True | _ => False end.
Definition th_ok (P : Z -> Prop) (top : Z) (th : thread) : Prop :=
  bracketed (nextd th) (th_todo th) = true /\ (forall p b, SEnter p b ∈ th_todo th -> P p) /\
  match th_pc th with
  | Idle => True
  | Push1 p _ => P p
  | Push2 p _ r => P p /\ r = top
  | Push3 p _ i => P p /\ i = top /\ (1 <= th_depth th)%nat
  | Tell | Quit | Pop1 => (1 <= th_depth th)%nat
  | Pop2 r => r = top /\ (1 <= th_depth th)%nat
  end.
Lemma th_ok_other P top top' th : th_ok P top th -> critical th = false -> th_ok P top' th.
Proof. destruct th as [pc todo d]. unfold th_ok, critical. cbn [th_pc]. destruct pc; intros H E; try discriminate; exact H. Qed.
Definition filled (P : Z -> Prop) (arr : list (option Z)) (i : Z) : Prop := exists p, arr !! Z.to_nat i = Some (Some p) /\ P p.
Definition SI (P : Z -> Prop) (E : nat) (s : sstate) : Prop :=
  Z.of_nat (length (s_arr s)) = 4096 /\ s_arr s !! Z.to_nat 4095 = Some (Some 0) /\
  s_top s + Z.of_nat (sum (map th_depth (s_threads s))) = 4095 /\
  Z.of_nat (sum (map maxd (s_threads s))) <= 4095 /\ sum (map endd (s_threads s)) = E /\
  (forall t th, s_threads s !! t = Some th -> th_ok P (s_top s) th) /\
  (forall i, s_top s <= i < 4095 -> filled P (s_arr s) i \/
     (i = s_top s /\ exists t th, s_threads s !! t = Some th /\ push3 th)) /\
  Forall (fun e => exists p, snd e = SPtr p /\ P p) (s_log s).
Lemma depth_maxd th : (th_depth th <= maxd th)%nat.
Proof. unfold maxd. lia. Qed.
Lemma SI_top P E s : SI P E s -> 0 <= s_top s <= 4095.
Proof. intros (_ & _ & H & M & _). pose proof (sum_le th_depth maxd (s_threads s) depth_maxd). lia. Qed.
Lemma SI_cells P E s t th : SI P E s -> alone s t -> s_threads s !! t = Some th ->
  forall i, s_top s <= i < 4095 -> filled P (s_arr s) i \/ (i = s_top s /\ push3 th).
Proof.
  intros (_ & _ & _ & _ & _ & _ & C & _) A L i Hi. destruct (C i Hi) as [F|(Ei & u & thu & Lu & Pu)]; [left; exact F|].
  right. split; [exact Ei|]. destruct (decide (u = t)) as [-> |N]; [congruence|].
  specialize (A u thu Lu N). unfold push3, critical in *. destruct (th_pc thu); try discriminate; destruct Pu.
Qed.
Lemma SI_upd P E s t th0 th top' arr' log' :
  SI P E s -> alone s t -> s_threads s !! t = Some th0 ->
  Z.of_nat (length arr') = 4096 -> arr' !! Z.to_nat 4095 = Some (Some 0) -> th_ok P top' th ->
  top' + Z.of_nat (th_depth th) = s_top s + Z.of_nat (th_depth th0) -> (maxd th <= maxd th0)%nat -> endd th = endd th0 ->
  (forall i, top' <= i < 4095 -> filled P arr' i \/ (i = top' /\ push3 th)) ->
  Forall (fun e => exists p, snd e = SPtr p /\ P p) log' ->
  SI P E (mk_sstate top' arr' (<[t := th]> (s_threads s)) log').
Proof.
  intros (Ha & Hs & Ht & Hm & He & Hth & Hc & Hl) A L Ha' Hs' Hth' Htop Hmax Hend Hc' Hl'.
  pose proof (sum_insert th_depth _ _ _ th L) as E1. pose proof (sum_insert maxd _ _ _ th L) as E2.
  pose proof (sum_insert endd _ _ _ th L) as E3.
  assert (Lt : <[t := th]> (s_threads s) !! t = Some th) by (apply list_lookup_insert; apply lookup_lt_Some in L; exact L).
  unfold SI. cbn [s_arr s_top s_threads s_log]. split; [exact Ha'|]. split; [exact Hs'|]. split; [lia|]. split; [lia|]. split; [lia|].
  split; [|split; [|exact Hl']].
  - intros u thu Hu. destruct (decide (u = t)) as [-> |N]; [rewrite Lt in Hu; injection Hu as <-; exact Hth'|].
    rewrite list_lookup_insert_ne in Hu by congruence. apply th_ok_other with (s_top s); [exact (Hth u thu Hu)|exact (A u thu Hu N)].
  - intros i Hi. destruct (Hc' i Hi) as [F|(Ei & Q)]; [left; exact F|]. right. split; [exact Ei|]. exists t, th. split; [exact Lt|exact Q].
Qed.
Lemma SI_look P E s t th : SI P E s -> alone s t -> s_threads s !! t = Some th -> ~ push3 th -> (1 <= th_depth th)%nat ->
  exists p, look (s_top s) (s_arr s) = SPtr p /\ P p.
Proof.
  intros H A L N D. pose proof (SI_top P E s H) as Hr. pose proof H as (_ & _ & Ht & _).
  pose proof (sum_member th_depth _ _ _ L) as M.
  destruct (SI_cells P E s t th H A L (s_top s)) as [(p & F & Hp)|(_ & Q)]; [lia| |contradiction].
  exists p. split; [|exact Hp]. unfold look. rewrite F. reflexivity.
Qed.

Lemma SI_step once P E s t : SI P E s -> alone s t -> exists s', s_step once s t = Ok s' /\ SI P E s'.
Proof.
  intros H A. pose proof H as (Ha & Hs & Ht & Hm & He & Hth & _ & Hl). pose proof (SI_top P E s H) as Hr.
  unfold s_step. destruct (s_threads s !! t) as [[pc todo d]|] eqn:L; [|exists s; split; [reflexivity|exact H]].
  pose proof (SI_cells P E s t _ H A L) as Hc. pose proof (Hth t _ L) as (B & Q & K). cbn [th_pc th_todo th_depth] in *.
  pose proof (sum_member th_depth _ _ _ L) as M. cbn [th_depth] in M. pose proof SIZE_MOD_val as SM.
  unfold upd, with_top, with_arr, noted, STACK_MAX. cbn [s_top s_arr s_threads s_log].
  destruct pc as [|p b|p b r|p b i| | | |r].
  - destruct todo as [|[p b|b] k]; [exists s; split; [reflexivity|exact H]| |].
    + destruct (Z.eqb_spec (s_top s) 0) as [E0|N0].
      { exfalso. pose proof (sum_insert (fun x => (maxd x - th_depth x)%nat) (s_threads s) t _ (mk_thread Idle [] d) L) as X.
        pose proof (sum_insert th_depth (s_threads s) t _ (mk_thread Idle [] (S d)) L) as Y. cbn [th_depth] in Y.
        pose proof (sum_insert maxd (s_threads s) t _ (mk_thread Idle [] (S d)) L) as Z. unfold maxd at 2 4 in Z.
        cbn [th_depth nextd th_pc th_todo deepest] in Z. unfold nextd in Z. cbn [th_depth th_pc] in Z.
        pose proof (deepest_ge (S d) k) as G. pose proof (sum_le th_depth maxd (<[t := mk_thread Idle [] (S d)]> (s_threads s)) depth_maxd). lia. }
      eexists. split; [reflexivity|]. eapply SI_upd; [exact H|exact A|exact L|exact Ha|exact Hs| | | | | |exact Hl].
      * assert (Q' : forall q c, SEnter q c ∈ k -> P q) by (intros q c I; apply (Q q c); constructor; exact I).
        assert (Pp : P p) by (apply (Q p b); constructor).
        destruct once; (split; [exact B|]); (split; [exact Q'|]); cbn [th_pc]; [split; [exact Pp|reflexivity]|exact Pp].
      * cbn [th_depth]. lia.
      * destruct once; unfold maxd, nextd; cbn [th_pc th_todo th_depth deepest]; lia.
      * destruct once; unfold endd, nextd; cbn [th_pc th_todo th_depth ends]; reflexivity.
      * intros i Hi. destruct (Hc i Hi) as [F|(_ & [])]. left. exact F.
    + unfold nextd in B. cbn [th_pc th_todo th_depth bracketed] in B. destruct d as [|d]; [discriminate|].
      destruct (SI_look P E s t _ H A L) as (q & Lq & Pq); [intros []|cbn [th_depth]; lia|].
      destruct b; cbn [s_top s_arr s_threads s_log]; eexists; (split; [reflexivity|]);
        (eapply SI_upd; [exact H|exact A|exact L|exact Ha|exact Hs| | | | | |]).
      all: try (cbn [th_depth]; lia).
      all: try (unfold maxd, nextd; cbn [th_pc th_todo th_depth deepest]; lia).
      all: try (unfold endd, nextd; cbn [th_pc th_todo th_depth ends]; reflexivity).
      all: try (intros i Hi; destruct (Hc i Hi) as [F|(_ & [])]; left; exact F).
      all: try (split; [exact B|split; [intros q' c I; apply (Q q' c); constructor; exact I|cbn [th_pc th_depth]; lia]]).
      * apply Forall_app. split; [exact Hl|]. constructor; [|constructor]. exists q. split; [exact Lq|exact Pq].
      * exact Hl.
  - eexists. split; [reflexivity|]. eapply SI_upd; [exact H|exact A|exact L|exact Ha|exact Hs| | | | | |exact Hl].
    + split; [exact B|]. split; [exact Q|]. split; [exact K|reflexivity].
    + reflexivity.
    + reflexivity.
    + reflexivity.
    + intros i Hi. destruct (Hc i Hi) as [F|(_ & [])]. left. exact F.
  - destruct K as (Pp & ->).
    assert (T1 : 1 <= s_top s).
    { pose proof (sum_insert th_depth (s_threads s) t _ (mk_thread Idle [] (S d)) L) as Y. cbn [th_depth] in Y.
      pose proof (sum_insert maxd (s_threads s) t _ (mk_thread Idle [] (S d)) L) as Z. unfold maxd at 2 4 in Z.
      unfold nextd in Z. cbn [th_depth th_pc th_todo deepest] in Z.
      pose proof (deepest_ge (S d) todo) as G. pose proof (sum_le th_depth maxd (<[t := mk_thread Idle [] (S d)]> (s_threads s)) depth_maxd). lia. }
    rewrite (mod_small (s_top s - 1)) by lia.
    eexists. split; [reflexivity|]. eapply SI_upd; [exact H|exact A|exact L|exact Ha|exact Hs| | | | | |exact Hl].
    + split; [exact B|]. split; [exact Q|]. cbn [th_pc th_depth]. split; [exact Pp|]. split; [reflexivity|lia].
    + cbn [th_depth]. lia.
    + unfold maxd, nextd. cbn [th_pc th_todo th_depth]. pose proof (deepest_ge (S d) todo). lia.
    + reflexivity.
    + intros i Hi. destruct (decide (i = s_top s - 1)) as [-> |N]; [right; split; [reflexivity|exact I]|].
      destruct (Hc i) as [F|(_ & [])]; [lia|]. left. exact F.
  - destruct K as (Pp & -> & D). destruct (Z.ltb_spec (s_top s) 4096) as [Li|Li]; [|lia].
    eexists. split; [reflexivity|]. eapply SI_upd; [exact H|exact A|exact L|rewrite insert_length; exact Ha| | | | | | |exact Hl].
    + rewrite list_lookup_insert_ne by lia. exact Hs.
    + destruct b; (split; [exact B|]); (split; [exact Q|]); cbn [th_pc th_depth]; [exact D|exact I].
    + reflexivity.
    + destruct b; reflexivity.
    + destruct b; reflexivity.
    + intros i Hi. left. destruct (decide (i = s_top s)) as [-> |N].
      * exists p. split; [|exact Pp]. apply list_lookup_insert. lia.
      * destruct (Hc i Hi) as [(q & F & Pq)|(X & _)]; [|lia]. exists q. split; [|exact Pq]. rewrite list_lookup_insert_ne by lia. exact F.
  - destruct (SI_look P E s t _ H A L) as (q & Lq & Pq); [intros []|exact K|].
    eexists. split; [reflexivity|]. eapply SI_upd; [exact H|exact A|exact L|exact Ha|exact Hs| | | | | |].
    + split; [exact B|]. split; [exact Q|exact I].
    + reflexivity.
    + reflexivity.
    + reflexivity.
    + intros i Hi. destruct (Hc i Hi) as [F|(_ & [])]. left. exact F.
    + apply Forall_app. split; [exact Hl|]. constructor; [|constructor]. exists q. split; [exact Lq|exact Pq].
  - destruct (Z.ltb_spec (s_top s) 4096) as [Li|Li]; [|lia].
    eexists. split; [reflexivity|]. eapply SI_upd; [exact H|exact A|exact L|exact Ha|exact Hs| | | | | |exact Hl].
    + destruct once; (split; [exact B|]); (split; [exact Q|]); cbn [th_pc th_depth]; [split; [reflexivity|exact K]|exact K].
    + reflexivity.
    + destruct once; reflexivity.
    + destruct once; reflexivity.
    + intros i Hi. destruct (Hc i Hi) as [F|(_ & [])]. left. exact F.
  - eexists. split; [reflexivity|]. eapply SI_upd; [exact H|exact A|exact L|exact Ha|exact Hs| | | | | |exact Hl].
    + split; [exact B|]. split; [exact Q|]. split; [reflexivity|exact K].
    + reflexivity.
    + reflexivity.
    + reflexivity.
    + intros i Hi. destruct (Hc i Hi) as [F|(_ & [])]. left. exact F.
  - destruct K as (-> & D). rewrite (mod_small (s_top s + 1)) by lia. rewrite Nat.sub_1_r.
    eexists. split; [reflexivity|]. eapply SI_upd; [exact H|exact A|exact L|exact Ha|exact Hs| | | | | |exact Hl].
    + split; [exact B|]. split; [exact Q|exact I].
    + cbn [th_depth]. lia.
    + unfold maxd, nextd. cbn [th_pc th_todo th_depth]. lia.
    + reflexivity.
    + intros i Hi. destruct (Hc i) as [F|(_ & [])]; [lia|]. left. exact F.
Qed.
Lemma SI_run once P E sched s : SI P E s -> serial once s sched -> exists s', ofold (s_step once) sched s = Ok s' /\ SI P E s'.
Proof.
  revert s. induction sched as [|t sched IH]; intros s H S; [exists s; split; [reflexivity|exact H]|].
  cbn [serial] in S. destruct S as (A & S). cbn [ofold]. destruct (SI_step once P E s t H A) as (s' & Es & H'). rewrite Es in S |- *.
  cbn [bind]. apply IH; assumption.
Qed.
Definition entered_by (progs : list (list sevent)) (p : Z) : Prop := exists l b, l ∈ progs /\ SEnter p b ∈ l.
Lemma sum_zero {A} (f : A -> nat) (l : list A) : Forall (fun x => f x = O) l -> sum (map f l) = O.
Proof. induction 1 as [|x l E _ IH]; [reflexivity|]. cbn [map sum]. rewrite E, IH. reflexivity. Qed.
Lemma SI_init progs : Forall (fun l => bracketed 0 l = true) progs -> Z.of_nat (sum (map (deepest 0) progs)) <= 4095 ->
  SI (entered_by progs) (sum (map (ends 0) progs)) (s_init progs).
Proof.
  intros HB HD. split; [exact init_arr|]. split; [apply list_lookup_insert; rewrite replicate_length; unfold STACK_MAX; lia|].
  split. { rewrite (sum_init th_depth (fun _ => O)) by reflexivity. rewrite (sum_zero (fun _ => O)); [reflexivity|]. apply Forall_forall. reflexivity. }
  split. { rewrite (sum_init maxd (deepest 0)); [exact HD|]. intros l. reflexivity. }
  split. { rewrite (sum_init endd (ends 0)); [reflexivity|]. intros l. reflexivity. }
  split; [|split; [|constructor]].
  - intros t th H. apply init_threads in H as (l & Hl & ->). apply elem_of_list_lookup_2 in Hl.
    split; [|split; [|exact I]].
    + rewrite Forall_forall in HB. exact (HB l Hl).
    + intros p b I. exists l, b. split; assumption.
  - unfold s_init, STACK_MAX. cbn [s_top]. intros i Hi. lia.
Qed.

(** a checker of [serial], for examples *)
Fixpoint aloneb_from (n : nat) (l : list thread) (t : nat) : bool :=
  match l with [] => true | th :: l => (Nat.eqb n t || negb (critical th)) && aloneb_from (S n) l t end.
Fixpoint serialb (once : bool) (s : sstate) (sched : list nat) : bool :=
  match sched with
  | [] => true
  | t :: sched => aloneb_from 0 (s_threads s) t && match s_step once s t with Ok s' => serialb once s' sched | _ => true end
  end.
Lemma aloneb_from_sound l t : forall n, aloneb_from n l t = true ->
  forall u th, l !! u = Some th -> (n + u)%nat <> t -> critical th = false.
Proof.
  induction l as [|a l IH]; intros n H u th Hu N; [discriminate|]. cbn [aloneb_from] in H. apply andb_prop in H as (H1 & H2).
  destruct u as [|u]; cbn in Hu.
  - injection Hu as ->. destruct (Nat.eqb_spec n t); [lia|]. cbn in H1. destruct (critical th); [discriminate|reflexivity].
  - apply (IH (S n) H2 u th Hu). lia.
Qed.
Lemma serialb_sound once sched s : serialb once s sched = true -> serial once s sched.
Proof.
  revert s. induction sched as [|t sched IH]; intros s H; [exact I|]. cbn [serialb serial] in *. apply andb_prop in H as (H1 & H2).
  split; [intros u th Hu N; apply (aloneb_from_sound _ t 0 H1 u th Hu); exact N|].
  destruct (s_step once s t); auto.
Qed.

(** * How often the backends are told, for any schedule *)
Definition left_tells (th : thread) : nat :=
  (tells (th_todo th) + match th_pc th with Push1 _ b | Push2 _ b _ | Push3 _ b _ => tell_count b | Tell => 1 | _ => 0 end)%nat.
Definition TI (progs : list (list sevent)) (s : sstate) : Prop :=
  forall t l, progs !! t = Some l -> exists th, s_threads s !! t = Some th /\ (told_by t (s_log s) + left_tells th = tells l)%nat.
Lemma told_by_app t log u x : told_by t (log ++ [(u, x)]) = (told_by t log + if Nat.eqb u t then 1 else 0)%nat.
Proof. unfold told_by. rewrite List.filter_app, app_length. cbn. destruct (Nat.eqb u t); reflexivity. Qed.
Lemma TI_upd progs s t th0 th top' arr' log' : TI progs s -> s_threads s !! t = Some th0 ->
  (told_by t log' + left_tells th = told_by t (s_log s) + left_tells th0)%nat ->
  (forall u, u <> t -> told_by u log' = told_by u (s_log s)) ->
  TI progs (mk_sstate top' arr' (<[t := th]> (s_threads s)) log').
Proof.
  intros H L E O u l Hu. destruct (H u l Hu) as (thu & Lu & Eu). cbn [s_threads s_log]. destruct (decide (u = t)) as [-> |N].
  - exists th. split; [apply list_lookup_insert; apply lookup_lt_Some in L; exact L|]. rewrite L in Lu. injection Lu as <-. lia.
  - exists thu. split; [rewrite list_lookup_insert_ne by congruence; exact Lu|]. rewrite O by exact N. exact Eu.
Qed.
Lemma TI_step once progs s t s' : TI progs s -> s_step once s t = Ok s' -> TI progs s'.
Proof.
  intros H. unfold s_step. destruct (s_threads s !! t) as [[pc todo d]|] eqn:L; [|intros E; injection E as <-; exact H].
  unfold upd, with_top, with_arr, noted. cbn [s_top s_arr s_threads s_log].
  assert (A : forall x, (told_by t (s_log s ++ [(t, x)]) = told_by t (s_log s) + 1)%nat) by (intros x; rewrite told_by_app, Nat.eqb_refl; reflexivity).
  assert (B : forall x u, u <> t -> told_by u (s_log s ++ [(t, x)]) = told_by u (s_log s)).
  { intros x u N. rewrite told_by_app. destruct (Nat.eqb_spec t u); [congruence|]. lia. }
  Ltac ti H L B := intros E; injection E as <-; eapply TI_upd; [exact H|exact L| |try reflexivity; try (intros u Hu; apply B; exact Hu)].
  destruct pc as [|p b|p b r|p b i| | | |r].
  - destruct todo as [|[p b|b] k]; [intros E; injection E as <-; exact H| |].
    + destruct (s_top s =? 0); [discriminate|]. ti H L B. unfold left_tells. destruct once; cbn [th_pc th_todo tells]; lia.
    + destruct b; cbn [s_top s_arr s_threads s_log]; ti H L B; rewrite ?A; unfold left_tells; cbn [th_pc th_todo tells tell_count]; lia.
  - ti H L B. reflexivity.
  - ti H L B. reflexivity.
  - destruct (i <? STACK_MAX); [|discriminate]. ti H L B. unfold left_tells. destruct b; cbn [th_pc th_todo tell_count]; lia.
  - ti H L B. rewrite A. unfold left_tells. cbn [th_pc th_todo]. lia.
  - destruct (s_top s <? STACK_MAX); ti H L B; unfold left_tells; [destruct once|]; cbn [th_pc th_todo]; lia.
  - ti H L B. reflexivity.
  - ti H L B. reflexivity.
Qed.
Lemma TI_init progs : TI progs (s_init progs).
Proof.
  intros t l H. exists (mk_thread Idle l 0). split; [|unfold left_tells; cbn; lia].
  unfold s_init. cbn [s_threads]. change (map ?f progs) with (f <$> progs). rewrite list_lookup_fmap, H. reflexivity.
Qed.
Lemma TI_run once progs sched : forall s s', TI progs s -> ofold (s_step once) sched s = Ok s' -> TI progs s'.
Proof.
  induction sched as [|t sched IH]; intros s s' H E; [injection E as <-; exact H|]. cbn [ofold] in E.
  destruct (s_step once s t) as [s1| | |] eqn:E1; cbn [bind] in E; try discriminate.
  exact (IH s1 s' (TI_step once progs s t s1 H E1) E).
Qed.
