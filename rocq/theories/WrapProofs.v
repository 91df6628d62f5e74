(** Proofs about the calls of the backends: dispatch (C34), vectors (C35), variadic arguments (C38). *)
From Coq Require Import ZArith List Bool Lia Sorted.
From Verif Require Import Common Bits FloatOps IeeeModel WrapModel.
Import ListNotations.
Open Scope Z_scope.
Open Scope outcome_scope.

(** * Recording the calls *)
(** what a backend is asked *)
Inductive call := CArith (p : wprec) (o : wop) (a b : Z) | CCmp (p : wprec) (pr : fcmp) (a b : Z) | CFma (p : wprec) (a b c : Z) | CCast (a : Z).
(** the backend number [i] with every call noted in a journal *)
Definition note {W} (e : nat * call) (r : option Z * W) (j : list (nat * call)) : option Z * (W * list (nat * call)) := (fst r, (snd r, j ++ [e])).
Definition recorded {W} (i : nat) (x : backend W) : backend (W * list (nat * call)) :=
  mk_backend
    (fun p o => match b_arith x p o with Some f => Some (fun a b c s => note (i, CArith p o a b) (f a b c (fst s)) (snd s)) | None => None end)
    (fun p => match b_cmp x p with Some f => Some (fun pr a b c s => note (i, CCmp p pr a b) (f pr a b c (fst s)) (snd s)) | None => None end)
    (fun p => match b_fma x p with Some f => Some (fun a b d c s => note (i, CFma p a b d) (f a b d c (fst s)) (snd s)) | None => None end)
    (match b_cast x with Some f => Some (fun a c s => note (i, CCast a) (f a c (fst s)) (snd s)) | None => None end).
Fixpoint recorded_from {W} (i : nat) (bs : list (backend W)) : list (backend (W * list (nat * call))) :=
  match bs with [] => [] | b :: bs' => recorded i b :: recorded_from (S i) bs' end.
(** the numbers of the backends that have the function, in order *)
Definition has {B F} (get : B -> option F) (b : B) : bool := match get b with Some _ => true | None => false end.
Fixpoint implementing {B F} (get : B -> option F) (i : nat) (bs : list B) : list nat :=
  match bs with [] => [] | b :: bs' => (if has get b then [i] else []) ++ implementing get (S i) bs' end.

Lemma implementing_spec {B F} (get : B -> option F) bs : forall i k,
  In k (implementing get i bs) <-> (i <= k)%nat /\ exists b, nth_error bs (k - i) = Some b /\ has get b = true.
Proof.
  induction bs as [|b bs IH]; intros i k; cbn [implementing].
  - split; [intros []|]. intros (_ & b & H & _). destruct (k - i)%nat; discriminate.
  - rewrite in_app_iff, IH. split.
    + intros [H|(H1 & b' & H2 & H3)].
      * destruct (has get b) eqn:E; [|destruct H]. destruct H as [<-|[]]. split; [lia|]. exists b. rewrite Nat.sub_diag. auto.
      * split; [lia|]. exists b'. replace (k - i)%nat with (S (k - S i)) by lia. auto.
    + intros (H1 & b' & H2 & H3). destruct (Nat.eq_dec k i) as [->|Hne].
      * left. rewrite Nat.sub_diag in H2. cbn in H2. injection H2 as <-. rewrite H3. left. reflexivity.
      * right. split; [lia|]. replace (k - i)%nat with (S (k - S i)) in H2 by lia. exists b'. auto.
Qed.
Lemma implementing_sorted {B F} (get : B -> option F) bs : forall i, StronglySorted lt (implementing get i bs).
Proof.
  induction bs as [|b bs IH]; intros i; cbn [implementing]; [constructor|].
  destruct (has get b); cbn [app]; [|apply IH]. constructor; [apply IH|]. apply Forall_forall. intros k Hk.
  apply implementing_spec in Hk. lia.
Qed.

(** the loop over recorded backends *)
Section Recorded.
  Context {W F G : Type} (get : backend W -> option F) (app_ : F -> option Z -> W -> option Z * W).
  Context (get' : backend (W * list (nat * call)) -> option G) (app' : G -> option Z -> W * list (nat * call) -> option Z * (W * list (nat * call))).
  Context (what : call).
  Context (Hrec : forall i b, match get b, get' (recorded i b) with
    | Some f, Some g => forall c s, app' g c s = note (i, what) (app_ f c (fst s)) (snd s)
    | None, None => True
    | _, _ => False end).
  Lemma call_all_recorded bs : forall i c w j,
    call_all get' app' (recorded_from i bs) c (w, j) =
    (fst (call_all get app_ bs c w), (snd (call_all get app_ bs c w), j ++ map (fun k => (k, what)) (implementing get i bs))).
  Proof.
    induction bs as [|b bs IH]; intros i c w j; cbn [call_all recorded_from implementing].
    - cbn. rewrite app_nil_r. reflexivity.
    - specialize (Hrec i b). unfold has. destruct (get b) as [f|], (get' (recorded i b)) as [g|]; try contradiction.
      + rewrite Hrec. unfold note. cbn [fst snd]. destruct (app_ f c w) as [c1 w1]. cbn [fst snd]. rewrite IH.
        cbn [map app]. rewrite <- app_assoc. reflexivity.
      + rewrite IH. reflexivity.
  Qed.
End Recorded.

(** the outcome with the journal added *)
Definition with_journal {W} (r : outcome (Z * W)) (j : list (nat * call)) : outcome (Z * (W * list (nat * call))) :=
  match r with Ok (c, w) => Ok (c, (w, j)) | UB => UB | Exit => Exit | Diverge => Diverge end.
Lemma returned_journal {W} (r : option Z * W) j : returned (fst r, (snd r, j)) = with_journal (returned r) j.
Proof. destruct r as [[c|] w]; reflexivity. Qed.

Lemma arith_recorded {W} (bs : list (backend W)) p o a b w j :
  arith_wrapper (recorded_from 0 bs) p o a b (w, j) =
  with_journal (arith_wrapper bs p o a b w) (j ++ map (fun k => (k, CArith p o a b)) (implementing (fun x => b_arith x p o) 0 bs)).
Proof.
  unfold arith_wrapper. rewrite (call_all_recorded (fun x => b_arith x p o) (fun f => f a b) (fun x => b_arith x p o) (fun f => f a b) (CArith p o a b)).
  - apply returned_journal.
  - intros i x. cbn. destruct (b_arith x p o); auto.
Qed.
Lemma cmp_recorded {W} (bs : list (backend W)) p pr a b w j :
  cmp_wrapper (recorded_from 0 bs) p pr a b (w, j) =
  with_journal (cmp_wrapper bs p pr a b w) (j ++ map (fun k => (k, CCmp p pr a b)) (implementing (fun x => b_cmp x p) 0 bs)).
Proof.
  unfold cmp_wrapper. rewrite (call_all_recorded (fun x => b_cmp x p) (fun f => f pr a b) (fun x => b_cmp x p) (fun f => f pr a b) (CCmp p pr a b)).
  - apply returned_journal.
  - intros i x. cbn. destruct (b_cmp x p); auto.
Qed.
Lemma fma_recorded {W} (bs : list (backend W)) p a b c w j :
  fma_wrapper (recorded_from 0 bs) p a b c (w, j) =
  with_journal (fma_wrapper bs p a b c w) (j ++ map (fun k => (k, CFma p a b c)) (implementing (fun x => b_fma x p) 0 bs)).
Proof.
  unfold fma_wrapper. rewrite (call_all_recorded (fun x => b_fma x p) (fun f => f a b c) (fun x => b_fma x p) (fun f => f a b c) (CFma p a b c)).
  - apply returned_journal.
  - intros i x. cbn. destruct (b_fma x p); auto.
Qed.
Lemma cast_recorded {W} (bs : list (backend W)) a w j :
  cast_wrapper (recorded_from 0 bs) a (w, j) =
  with_journal (cast_wrapper bs a w) (j ++ map (fun k => (k, CCast a)) (implementing b_cast 0 bs)).
Proof.
  unfold cast_wrapper. rewrite (call_all_recorded b_cast (fun f => f a) b_cast (fun f => f a) (CCast a)).
  - apply returned_journal.
  - intros i x. cbn. destruct (b_cast x); auto.
Qed.

(** * The last backend decides *)
Lemma call_all_app {B W F} (get : B -> option F) (app_ : F -> option Z -> W -> option Z * W) bs1 bs2 c w :
  call_all get app_ (bs1 ++ bs2) c w = let r := call_all get app_ bs1 c w in call_all get app_ bs2 (fst r) (snd r).
Proof.
  revert c w. induction bs1 as [|b bs1 IH]; intros c w; [reflexivity|]. cbn [app call_all]. destruct (get b) as [f|]; [|apply IH].
  destruct (app_ f c w) as [c1 w1]. apply IH.
Qed.
Lemma call_all_none {B W F} (get : B -> option F) (app_ : F -> option Z -> W -> option Z * W) bs c w :
  Forall (fun b => get b = None) bs -> call_all get app_ bs c w = (c, w).
Proof. induction 1 as [|b bs Hb H IH]; [reflexivity|]. cbn. rewrite Hb. exact IH. Qed.
Lemma call_all_last {B W F} (get : B -> option F) (app_ : F -> option Z -> W -> option Z * W) bs1 b f bs2 c w :
  get b = Some f -> Forall (fun b => get b = None) bs2 ->
  call_all get app_ (bs1 ++ b :: bs2) c w = app_ f (fst (call_all get app_ bs1 c w)) (snd (call_all get app_ bs1 c w)).
Proof.
  intros Hb H. rewrite call_all_app. cbn zeta. cbn [call_all]. rewrite Hb. destruct (app_ f _ _) as [c1 w1] eqn:E. rewrite call_all_none by exact H. reflexivity.
Qed.
Lemma last_implementing {B F} (get : B -> option F) bs : some_implements get bs = true ->
  exists bs1 b f bs2, bs = bs1 ++ b :: bs2 /\ get b = Some f /\ Forall (fun b => get b = None) bs2.
Proof.
  unfold some_implements. induction bs as [|b bs IH]; [discriminate|]. cbn [existsb]. intros H.
  destruct (existsb (fun b => match get b with Some _ => true | None => false end) bs) eqn:E.
  - destruct (IH eq_refl) as (bs1 & b' & f & bs2 & -> & Hb & Hn). exists (b :: bs1), b', f, bs2. auto.
  - rewrite orb_false_r in H. destruct (get b) as [f|] eqn:Eb; [|discriminate]. exists [], b, f, bs. split; [reflexivity|]. split; [exact Eb|].
    apply Forall_forall. intros x Hx. destruct (get x) eqn:Ex; [|reflexivity]. exfalso.
    assert (X : existsb (fun b => match get b with Some _ => true | None => false end) bs = true); [|congruence].
    apply existsb_exists. exists x. rewrite Ex. auto.
Qed.
(** a loop over backends that always write leaves a written cell *)
Lemma call_all_written {B W F} (get : B -> option F) (app_ : F -> option Z -> W -> option Z * W) bs c w :
  Forall (fun b => forall f c w, get b = Some f -> fst (app_ f c w) <> None) bs -> c <> None \/ some_implements get bs = true ->
  fst (call_all get app_ bs c w) <> None.
Proof.
  intros H. revert c w. induction H as [|b bs Hb H IH]; intros c w Hc; [destruct Hc; [assumption|discriminate]|].
  cbn [call_all]. unfold some_implements in Hc. cbn [existsb] in Hc. destruct (get b) as [f|] eqn:E.
  - specialize (Hb f c w eq_refl). destruct (app_ f c w) as [c1 w1]. apply IH. left. exact Hb.
  - apply IH. exact Hc.
Qed.

(** the backends answer: every function it has writes its result *)
Record writes {W} (x : backend W) : Prop := {
  wr_arith : forall p o f a b c w, b_arith x p o = Some f -> fst (f a b c w) <> None;
  wr_cmp : forall p f pr a b c w, b_cmp x p = Some f -> fst (f pr a b c w) <> None;
  wr_fma : forall p f a b d c w, b_fma x p = Some f -> fst (f a b d c w) <> None;
  wr_cast : forall f a c w, b_cast x = Some f -> fst (f a c w) <> None }.

Lemma init_checks_spec {W} fcmp_ fma_ cast_ (bs : list (backend W)) : init_checks fcmp_ fma_ cast_ bs = Ok tt ->
  (forall p o, some_implements (fun x => b_arith x p o) bs = true) /\
  (fcmp_ = true -> forall p, some_implements (fun x => b_cmp x p) bs = true) /\
  (fma_ = true -> forall p, some_implements (fun x => b_fma x p) bs = true) /\
  (cast_ = true -> some_implements b_cast bs = true).
Proof.
  unfold init_checks. intros H. destruct (_ && _) eqn:E in H; [|discriminate]. clear H. apply andb_prop in E as [E E4]. apply andb_prop in E as [E E3].
  apply andb_prop in E as [E1 E2]. rewrite forallb_forall in E1. split; [|split; [|split]].
  - intros p o. specialize (E1 p ltac:(destruct p; cbn; auto)). rewrite forallb_forall in E1. apply (E1 o). destruct o; cbn; auto.
  - intros ->. cbn [negb orb] in E2. rewrite forallb_forall in E2. intros p. apply E2. destruct p; cbn; auto.
  - intros ->. cbn [negb orb] in E3. rewrite forallb_forall in E3. intros p. apply E3. destruct p; cbn; auto.
  - intros ->. exact E4.
Qed.
Lemma returned_written {W} (r : option Z * W) : fst r <> None -> exists c, returned r = Ok (c, snd r).
Proof. destruct r as [[c|] w]; cbn; [exists c; reflexivity|congruence]. Qed.

Lemma wrappers_defined {W} fcmp_ fma_ cast_ (bs : list (backend W)) w : init_checks fcmp_ fma_ cast_ bs = Ok tt -> Forall writes bs ->
  (forall p o a b, exists c w', arith_wrapper bs p o a b w = Ok (c, w')) /\
  (fcmp_ = true -> forall p pr a b, exists c w', cmp_wrapper bs p pr a b w = Ok (c, w')) /\
  (fma_ = true -> forall p a b d, exists c w', fma_wrapper bs p a b d w = Ok (c, w')) /\
  (cast_ = true -> forall a, exists c w', cast_wrapper bs a w = Ok (c, w')).
Proof.
  intros Hi Hw. destruct (init_checks_spec _ _ _ _ Hi) as (I1 & I2 & I3 & I4).
  assert (G : forall F (get : backend W -> option F) app_ c, Forall (fun b => forall f c w, get b = Some f -> fst (app_ f c w) <> None) bs ->
    some_implements get bs = true -> exists c' w', returned (call_all get app_ bs c w) = Ok (c', w')).
  { intros F get app_ c H1 H2. destruct (returned_written (call_all get app_ bs c w)) as (c' & E); [|eauto].
    apply call_all_written; [exact H1|right; exact H2]. }
  split; [|split; [|split]].
  - intros p o a b. apply G; [|apply I1]. eapply Forall_impl; [|exact Hw]. intros x Hx f c w0 E. eapply wr_arith; eassumption.
  - intros H p pr a b. apply G; [|apply I2; exact H]. eapply Forall_impl; [|exact Hw]. intros x Hx f c w0 E. eapply wr_cmp; eassumption.
  - intros H p a b d. apply G; [|apply I3; exact H]. eapply Forall_impl; [|exact Hw]. intros x Hx f c w0 E. eapply wr_fma; eassumption.
  - intros H a. apply G; [|apply I4; exact H]. eapply Forall_impl; [|exact Hw]. intros x Hx f c w0 E. eapply wr_cast; eassumption.
Qed.

(** * Vectors *)
Lemma set_lane_app l x r v : set_lane (l ++ x :: r) (length l) v = l ++ Some v :: r.
Proof. induction l as [|y l IH]; [reflexivity|]. cbn. rewrite IH. reflexivity. Qed.
(** the lanes one after the other, each on the state left by the one before *)
Inductive in_sequence {W} (scalar : Z -> Z -> W -> outcome (Z * W)) : list Z -> list Z -> W -> list Z -> W -> Prop :=
| seq_nil w : in_sequence scalar [] [] w [] w
| seq_cons x a y b w z w1 c w2 : scalar x y w = Ok (z, w1) -> in_sequence scalar a b w1 c w2 -> in_sequence scalar (x :: a) (y :: b) w (z :: c) w2.

Lemma in_sequence_len {W} (scalar : Z -> Z -> W -> outcome (Z * W)) a b w c w' : in_sequence scalar a b w c w' -> length a = length c /\ length b = length c.
Proof. induction 1 as [|x a y b w z w1 c w2 Hs H [IH1 IH2]]; cbn; [auto|]. rewrite IH1, IH2. auto. Qed.

Lemma lanes_iff {W} (scalar : Z -> Z -> W -> outcome (Z * W)) a' : forall b' a b done w r w', length a' = length b' -> length a = length done -> length b = length done ->
  (lanes scalar (length a') (length done) (a ++ a') (b ++ b') (map Some done ++ repeat None (length a')) w = Ok (r, w') <->
   exists c, in_sequence scalar a' b' w c w' /\ r = map Some (done ++ c)).
Proof.
  induction a' as [|x a' IH]; intros [|y b'] a b done w r w' HL Ha Hb; try discriminate.
  - cbn. rewrite app_nil_r. split.
    + intros [= <- <-]. exists []. split; [constructor|]. rewrite app_nil_r. reflexivity.
    + intros (c & H & ->). inversion H; subst. rewrite app_nil_r. reflexivity.
  - cbn [length lanes repeat].
    replace (nth_error (a ++ x :: a') (length done)) with (Some x) by (rewrite <- Ha, nth_error_app2, Nat.sub_diag by lia; reflexivity).
    replace (nth_error (b ++ y :: b') (length done)) with (Some y) by (rewrite <- Hb, nth_error_app2, Nat.sub_diag by lia; reflexivity).
    destruct (scalar x y w) as [[z w1]| | |] eqn:Es; cbn [bind].
    + replace (set_lane (map Some done ++ None :: repeat None (length a')) (length done) z) with (map Some (done ++ [z]) ++ repeat None (length a')).
      2:{ pose proof (set_lane_app (map Some done) None (repeat None (length a')) z) as X. rewrite map_length in X. rewrite X, map_app, <- app_assoc. reflexivity. }
      replace (S (length done)) with (length (done ++ [z])) by (rewrite app_length; cbn; lia).
      replace (a ++ x :: a') with ((a ++ [x]) ++ a') by (rewrite <- app_assoc; reflexivity).
      replace (b ++ y :: b') with ((b ++ [y]) ++ b') by (rewrite <- app_assoc; reflexivity).
      rewrite IH; [|cbn in HL; lia|rewrite !app_length; cbn; lia|rewrite !app_length; cbn; lia]. split.
      * intros (c & H & ->). exists (z :: c). split; [econstructor; eassumption|]. rewrite <- app_assoc. reflexivity.
      * intros (c & H & ->). inversion H as [|? ? ? ? ? z' w1' c' ? Es' H']; subst. rewrite Es in Es'. injection Es' as <- <-.
        exists c'. split; [exact H'|]. rewrite <- app_assoc. reflexivity.
    + split; [discriminate|]. intros (c & H & _). inversion H; subst. congruence.
    + split; [discriminate|]. intros (c & H & _). inversion H; subst. congruence.
    + split; [discriminate|]. intros (c & H & _). inversion H; subst. congruence.
Qed.
Lemma vector_spec {W} (scalar : Z -> Z -> W -> outcome (Z * W)) a b w r w' : length a = length b ->
  (vector_wrapper scalar (length a) a b w = Ok (r, w') <-> exists c, in_sequence scalar a b w c w' /\ r = map Some c).
Proof. intros H. unfold vector_wrapper. apply (lanes_iff scalar a b [] [] [] w r w'); [exact H|reflexivity|reflexivity]. Qed.

(** * Variadic arguments *)
Lemma user_call_spec {A} (bs : list (option (reader A))) args l : user_call bs args = Ok l ->
  Forall2 (fun r seen => exists rest, consume r args = Ok (seen, rest) /\ args = seen ++ rest)
    (flat_map (fun b => match b with Some r => [r] | None => [] end) bs) l.
Proof.
  assert (C : forall (r : reader A) args seen rest, consume r args = Ok (seen, rest) -> args = seen ++ rest).
  { induction r as [|k IH]; intros args' seen rest H; cbn in H.
    - injection H as <- <-. reflexivity.
    - destruct args' as [|a args']; [discriminate|]. destruct (consume (k a) args') as [[s q]| | |] eqn:E; try discriminate.
      injection H as <- <-. cbn. f_equal. eapply IH. exact E. }
  revert l. induction bs as [|[r|] bs IH]; intros l H; cbn in H |- *.
  - injection H as <-. constructor.
  - destruct (consume r args) as [[s q]| | |] eqn:E; try discriminate. cbn [bind] in H. destruct (user_call bs args) as [l'| | |]; try discriminate.
    injection H as <-. constructor; [|apply IH; reflexivity]. exists q. split; [exact E|]. eapply C. exact E.
  - apply IH. exact H.
Qed.
(** a backend reading within the arguments never fails, whatever the others do *)
Lemma user_call_total {A} (bs : list (option (reader A))) args :
  (forall r, In (Some r) bs -> exists x, consume r args = Ok x) -> exists l, user_call bs args = Ok l.
Proof.
  induction bs as [|[r|] bs IH]; intros H; cbn.
  - eauto.
  - destruct (H r ltac:(left; reflexivity)) as ([s q] & ->). cbn [bind]. destruct IH as (l & ->); [|cbn; eauto]. intros r' Hr. apply H. right. exact Hr.
  - apply IH. intros r' Hr. apply H. right. exact Hr.
Qed.
(** one backend only: sharing the list does not matter *)
Lemma shared_call_single {A} (bs : list (option (reader A))) args :
  (length (flat_map (fun b => match b with Some r => [r] | None => [] end) bs) <= 1)%nat -> shared_call bs args = user_call bs args.
Proof.
  induction bs as [|[r|] bs IH]; intros H; cbn in H |- *; [reflexivity| |apply IH; exact H].
  assert (N : forall bs0 x y, length (flat_map (fun b : option (reader A) => match b with Some r => [r] | None => [] end) bs0) = 0%nat -> @shared_call A bs0 x = @user_call A bs0 y).
  { clear. induction bs0 as [|[r|] bs0 IH]; intros x y H; cbn in H |- *; [reflexivity|discriminate|apply IH; exact H]. }
  destruct (consume r args) as [[s q]| | |]; try reflexivity. cbn [bind]. rewrite (N bs q args) by lia. reflexivity.
Qed.
