(** The outcome cache of DD.py: a tree of dictionaries. *)
From Coq Require Import List Arith Bool Lia.
From Verif Require Import DDModel.
Import ListNotations.
Open Scope py_scope.

(** OutcomeCache (DD.py L50-70): tail maps a delta to the cache of what follows it, in insertion order; result is None or an
    outcome. Deltas are totally ordered scalars, here numbers. *)
Inductive cache (V : Type) := Node (result : option V) (tail : list (nat * cache V)).
Arguments Node {V}.
Definition result {V} (t : cache V) := match t with Node r _ => r end.
Definition tail {V} (t : cache V) := match t with Node _ l => l end.
Definition empty {V} : cache V := Node None [].

Section cache.
  Context {V : Type}.
  Notation cache := (cache V).
  Fixpoint assoc (x : nat) (l : list (nat * cache)) : option cache :=
    match l with [] => None | (y, t) :: l' => if x =? y then Some t else assoc x l' end.
  (** p.tail[x] = t: replaces in place or appends *)
  Fixpoint put (x : nat) (t : cache) (l : list (nat * cache)) : list (nat * cache) :=
    match l with [] => [(x, t)] | (y, u) :: l' => if x =? y then (y, t) :: l' else (y, u) :: put x t l' end.
  (** add (L72-83): the sorted copy cs is not used *)
  Fixpoint add (c : list nat) (r : V) (t : cache) : cache :=
    match c with
    | [] => Node (Some r) (tail t)
    | x :: c' => Node (result t) (put x (add c' r (match assoc x (tail t) with Some u => u | None => empty end)) (tail t))
    end.
  (** lookup (L85-93) *)
  Fixpoint lookup (c : list nat) (t : cache) : option V :=
    match c with
    | [] => result t
    | x :: c' => match assoc x (tail t) with Some u => lookup c' u | None => None end
    end.
  (** the largest key at most x (L111-115) *)
  Fixpoint largest (x : nat) (l : list (nat * cache)) (k0 : option nat) : option nat :=
    match l with
    | [] => k0
    | (k, _) :: l' => largest x l' (if (match k0 with None => true | Some k0 => k0 <? k end) && (k <=? x) then Some k else k0)
    end.
  (** lookup_superset (L95-120), outcomes being non-empty strings; [c] is the rest of the list from start. self.tail.keys()[0]
      raises TypeError in Python 3. The depth of the tree bounds the recursion: [fuel]. *)
  Fixpoint lookup_superset (fuel : nat) (c : list nat) (t : cache) : py (option V) :=
    match fuel with
    | O => NoFuel
    | S fuel =>
        match c with
        | [] => match result t, tail t with
                | Some r, _ => Ret (Some r)
                | None, [] => Ret None
                | None, _ => Raise
                end
        | x :: c' => match assoc x (tail t) with
                     | Some u => lookup_superset fuel c' u
                     | None => match largest x (tail t) None with
                               | None => Ret None
                               | Some k0 => match assoc k0 (tail t) with Some u => lookup_superset fuel c u | None => Raise end
                               end
                     end
        end
    end.
  (** lookup_subset (L122-130) *)
  Fixpoint lookup_subset (c : list nat) (t : cache) : option V :=
    match c with
    | [] => result t
    | x :: c' => lookup_subset c' (match assoc x (tail t) with Some u => u | None => t end)
    end.

  (** a session: outcomes recorded one after the other *)
  Definition record (log : list (list nat * V)) : cache := fold_left (fun t '(c, r) => add c r t) log empty.

  Lemma assoc_put x y t l : assoc x (put y t l) = if x =? y then Some t else assoc x l.
  Proof.
    induction l as [|[z u] l IH]; [reflexivity|]. cbn [put]. destruct (Nat.eqb_spec y z) as [->|N].
    - cbn [assoc]. destruct (x =? z); reflexivity.
    - cbn [assoc]. rewrite IH. destruct (Nat.eqb_spec x z) as [->|]; [|reflexivity]. destruct (Nat.eqb_spec z y); [congruence|reflexivity].
  Qed.
  Lemma lookup_empty c : lookup c empty = None. Proof. destruct c; reflexivity. Qed.
  Lemma lookup_add c c' r t : lookup c' (add c r t) = if list_eq_dec Nat.eq_dec c' c then Some r else lookup c' t.
  Proof.
    revert c' t. induction c as [|x c IH]; intros c' t.
    - cbn [add]. destruct c'; reflexivity.
    - cbn [add]. destruct c' as [|x' c']; [reflexivity|]. cbn [lookup tail]. rewrite assoc_put.
      destruct (Nat.eqb_spec x' x) as [->|N].
      + rewrite IH. destruct (list_eq_dec Nat.eq_dec c' c) as [->|Nc].
        * destruct (list_eq_dec Nat.eq_dec (x :: c) (x :: c)); [reflexivity|congruence].
        * destruct (list_eq_dec Nat.eq_dec (x :: c') (x :: c)); [congruence|]. destruct (assoc x (tail t)); [reflexivity|apply lookup_empty].
      + destruct (list_eq_dec Nat.eq_dec (x' :: c') (x :: c)); [congruence|reflexivity].
  Qed.

  (** a lookup answers with the last outcome recorded for exactly this list *)
  Definition last_outcome (c : list nat) (log : list (list nat * V)) : option V :=
    fold_left (fun acc '(c', r) => if list_eq_dec Nat.eq_dec c c' then Some r else acc) log None.
  Lemma lookup_record c log : lookup c (record log) = last_outcome c log.
  Proof.
    unfold record, last_outcome. rewrite <- (lookup_empty c). generalize (empty (V := V)). induction log as [|[c' r] log IH]; intros t; [reflexivity|].
    cbn [fold_left]. rewrite IH, lookup_add. reflexivity.
  Qed.
  Lemma last_outcome_spec c log r : last_outcome c log = Some r <-> exists before after, log = before ++ (c, r) :: after /\ forall r', ~ In (c, r') after.
  Proof.
    unfold last_outcome. induction log as [|[c' r'] log IH] using rev_ind.
    - cbn. split; [discriminate|]. intros ([|] & after & E & _); discriminate.
    - rewrite fold_left_app. cbn [fold_left]. destruct (list_eq_dec Nat.eq_dec c c') as [<-|N].
      + split.
        * intros [= <-]. exists log, []. split; [reflexivity|]. intros r0 [].
        * intros (b & a & E & H). destruct a as [|y a _] using rev_ind.
          -- apply app_inj_tail in E. destruct E as [_ E]. congruence.
          -- rewrite app_comm_cons, app_assoc in E. apply app_inj_tail in E. destruct E as [_ <-]. contradiction (H r'). apply in_app_iff. right. left. reflexivity.
      + rewrite IH. split; intros (b & a & E & H).
        * exists b, (a ++ [(c', r')]). rewrite E. split; [rewrite <- app_assoc; reflexivity|]. intros r0 Hr. apply in_app_iff in Hr. destruct Hr as [Hr|[Hr|[]]]; [exact (H _ Hr)|congruence].
        * destruct a as [|y a _] using rev_ind.
          -- apply app_inj_tail in E. destruct E as [_ E]. congruence.
          -- rewrite app_comm_cons, app_assoc in E. apply app_inj_tail in E. destruct E as [E <-]. exists b, a. split; [exact E|]. intros r0 Hr. apply (H r0). apply in_app_iff. auto.
  Qed.

  (** the recorded list found by a subset query is a sublist of the query *)
  Inductive sublist : list nat -> list nat -> Prop :=
  | sub_nil : sublist [] []
  | sub_skip x a b : sublist a b -> sublist a (x :: b)
  | sub_take x a b : sublist a b -> sublist (x :: a) (x :: b).
  Lemma sublist_nil b : sublist [] b. Proof. induction b; constructor; assumption. Qed.
  Lemma sublist_incl a b : sublist a b -> incl a b.
  Proof. induction 1; intros y Hy; [destruct Hy|right; auto|]. destruct Hy as [->|Hy]; [left; reflexivity|right; auto]. Qed.
  Lemma lookup_subset_sound c t r : lookup_subset c t = Some r -> exists c', sublist c' c /\ lookup c' t = Some r.
  Proof.
    revert t. induction c as [|x c IH]; intros t H; [exists []; split; [constructor|exact H]|]. cbn [lookup_subset] in H.
    apply IH in H. destruct H as (c' & S & L). destruct (assoc x (tail t)) as [u|] eqn:E.
    - exists (x :: c'). split; [constructor; assumption|]. cbn [lookup]. rewrite E. exact L.
    - exists c'. split; [constructor; assumption|exact L].
  Qed.
  Lemma lookup_superset_sound fuel c t r : lookup_superset fuel c t = Ret (Some r) -> exists c', sublist c c' /\ lookup c' t = Some r.
  Proof.
    revert c t. induction fuel as [|fuel IH]; intros c t H; [discriminate|]. cbn [lookup_superset] in H. destruct c as [|x c].
    - exists []. split; [constructor|]. cbn [lookup]. destruct (result t); [congruence|]. destruct (tail t); discriminate.
    - destruct (assoc x (tail t)) as [u|] eqn:E.
      + apply IH in H. destruct H as (c' & S & L). exists (x :: c'). split; [constructor; assumption|]. cbn [lookup]. rewrite E. exact L.
      + destruct (largest x (tail t) None) as [k0|]; [|discriminate]. destruct (assoc k0 (tail t)) as [u|] eqn:E0; [|discriminate].
        apply IH in H. destruct H as (c' & S & L). exists (k0 :: c'). split; [constructor; assumption|]. cbn [lookup]. rewrite E0. exact L.
  Qed.
End cache.
