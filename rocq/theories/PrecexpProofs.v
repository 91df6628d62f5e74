(** Proofs about precexp.py: the dichotomic search and the exploration. *)
From Coq Require Import ZArith List Bool Lia.
From Verif Require Import Common Text DDModel VfiModel PrecexpModel.
Import ListNotations.
Open Scope Z_scope.
Open Scope py_scope.

(** ** One search, for any oracle *)
Section dichotomy.
  Context (valid : list Z -> bool) (set : Z -> frames) (v : Z -> bool).
  Context (Hv : forall p, check valid (set p) = Ret (v p)).

  Lemma half_log d d' : 1 <= d -> 0 <= d' <= d / 2 -> (Z.to_nat (Z.log2 d') + 1 <= Z.to_nat (Z.log2 d))%nat \/ d' = 0.
  Proof.
    intros Hd H. destruct (Z.eq_dec d' 0); [auto|left].
    assert (E : Z.log2 (2 * d') = Z.log2 d' + 1) by (rewrite Z.log2_double by lia; lia).
    assert (L : Z.log2 (2 * d') <= Z.log2 d). { apply Z.log2_le_mono. pose proof (Z.div_mod d 2). pose proof (Z.mod_pos_bound d 2). lia. }
    pose proof (Z.log2_nonneg d'). lia.
  Qed.

  Lemma loop_ok : forall fuel l r, l <= r -> v r = true -> (Z.to_nat (Z.log2 (r - l)) + 2 <= fuel)%nat \/ (l = r /\ 1 <= fuel)%nat ->
    exists p, dich_loop valid fuel set l r = Ret (set p) /\ l <= p <= r /\ v p = true /\ (p = l \/ v (p - 1) = false).
  Proof.
    induction fuel as [|fuel IH]; intros l r Hlr Hr Hf; [destruct Hf; lia|]. cbn [dich_loop]. rewrite Hv. cbn [pbind].
    set (p := (r + l) / 2). pose proof (Z.div_mod (r + l) 2 ltac:(lia)) as D. pose proof (Z.mod_pos_bound (r + l) 2 ltac:(lia)) as M. fold p in D.
    destruct (Z.eq_dec l r) as [->|N].
    - assert (E : p = r) by lia. rewrite E, Hr, Z.leb_refl. exists r. repeat split; auto; lia.
    - assert (F : (Z.to_nat (Z.log2 (r - l)) + 2 <= S fuel)%nat) by (destruct Hf as [|[]]; [assumption|lia]). clear Hf.
      assert (P : l <= p < r) by lia.
      destruct (v p) eqn:Ep.
      + destruct (Z.leb_spec r l); [lia|]. destruct (IH l p) as (q & Q1 & Q2 & Q3 & Q4); [lia|exact Ep| |exists q; repeat split; auto; lia].
        destruct (half_log (r - l) (p - l)) as [G|G]; [lia| |left; lia|right; lia]. split; [lia|]. apply Z.div_le_lower_bound; lia.
      + destruct (IH (p + 1) r) as (q & Q1 & Q2 & Q3 & Q4); [lia|exact Hr| |exists q; repeat split; auto; try lia; right; destruct Q4 as [->|]; [replace (p + 1 - 1) with p by lia|]; assumption].
        destruct (half_log (r - l) (r - (p + 1))) as [G|G]; [lia| |left; lia|right; lia]. split; [lia|]. apply Z.div_le_lower_bound; lia.
  Qed.

  (** the search ends in a valid value whose predecessor is not valid (or the lowest one), whenever the highest value is valid *)
  Lemma dich_ok fuel l r : l <= r -> v r = true -> (Z.to_nat (Z.log2 (r - l)) + 2 <= fuel)%nat ->
    exists p, dich valid fuel set l r = Ret (set p) /\ l <= p <= r /\ v p = true /\ (p = l \/ v (p - 1) = false).
  Proof.
    intros Hlr Hr Hf. unfold dich. rewrite Hv. cbn [pbind]. destruct (v l) eqn:El; [exists l; repeat split; auto; lia|]. apply loop_ok; auto.
  Qed.
  (** ... the least valid value when validity is monotone *)
  Lemma dich_least fuel l r : l <= r -> v r = true -> (forall p q, l <= p <= q -> q <= r -> v p = true -> v q = true) -> (Z.to_nat (Z.log2 (r - l)) + 2 <= fuel)%nat ->
    exists p, dich valid fuel set l r = Ret (set p) /\ l <= p <= r /\ v p = true /\ forall q, l <= q < p -> v q = false.
  Proof.
    intros Hlr Hr Hm Hf. destruct (dich_ok fuel l r Hlr Hr Hf) as (p & A & B & C & D). exists p. repeat split; auto; try lia.
    intros q Hq. destruct D as [->|D]; [lia|]. destruct (v q) eqn:E; [|reflexivity]. rewrite (Hm q (p - 1)) in D; [discriminate|lia|lia|exact E].
  Qed.

  Lemma loop_diverges : forall fuel l r, l <= r + 1 -> v r = false -> (forall p, l <= p <= r -> v p = false) -> dich_loop valid fuel set l r = NoFuel.
  Proof.
    induction fuel as [|fuel IH]; intros l r Hlr Hr Ha; [reflexivity|]. cbn [dich_loop]. rewrite Hv. cbn [pbind].
    set (p := (r + l) / 2). pose proof (Z.div_mod (r + l) 2 ltac:(lia)) as D. pose proof (Z.mod_pos_bound (r + l) 2 ltac:(lia)) as M. fold p in D.
    assert (E : v p = false). { destruct (Z.eq_dec l (r + 1)); [replace p with r by lia; exact Hr|apply Ha; lia]. }
    rewrite E. apply IH; [lia|exact Hr|]. intros q Hq. apply Ha. lia.
  Qed.
  Lemma dich_diverges fuel l r : l <= r -> (forall p, l <= p <= r -> v p = false) -> dich valid fuel set l r = NoFuel.
  Proof. intros Hlr Ha. unfold dich. rewrite Hv. cbn [pbind]. rewrite Ha by lia. apply loop_diverges; [lia|apply Ha; lia|exact Ha]. Qed.
End dichotomy.

(** ** Frames *)
Definition get_ofield (f : ofield) (o : prow) : Z := match f with FPrec64 => o_prec64 o | FRange64 => o_range64 o | FPrec32 => o_prec32 o | FRange32 => o_range32 o end.
Definition get_afield (f : afield) (r : arow) : Z := match f with FPrec => r_prec r | FRange => r_range r end.
(** everything but the four precisions *)
Definition same_op (a b : prow) : Prop :=
  o_id a = o_id b /\ o_lib a = o_lib b /\ o_int a = o_int b /\ o_float a = o_float b /\ o_double a = o_double b /\ o_nin a = o_nin b /\ o_nout a = o_nout b /\ o_calls a = o_calls b.
Definition same_arg (a b : arow) : Prop :=
  r_id a = r_id b /\ r_arg a = r_arg b /\ r_lib a = r_lib b /\ r_int a = r_int b /\ r_io a = r_io b /\ r_type a = r_type b /\ r_min a = r_min b /\ r_max a = r_max b /\ r_calls a = r_calls b.
Definition ole (a b : prow) : Prop := same_op a b /\ forall f, get_ofield f a <= get_ofield f b.
Definition ale (a b : arow) : Prop := same_arg a b /\ forall f, get_afield f a <= get_afield f b.
(** the same functions and arguments, nowhere more precise *)
Definition fle (x y : frames) : Prop := Forall2 ole (fst x) (fst y) /\ Forall2 ale (snd x) (snd y).

Lemma ole_refl a : ole a a.
Proof. split; [repeat split|intros; lia]. Qed.
Lemma ale_refl a : ale a a.
Proof. split; [repeat split|intros; lia]. Qed.
Lemma ole_trans a b c : ole a b -> ole b c -> ole a c.
Proof. intros [(A1 & A2 & A3 & A4 & A5 & A6 & A7 & A8) A] [(B1 & B2 & B3 & B4 & B5 & B6 & B7 & B8) B]. split; [repeat split; congruence|]. intros f. specialize (A f). specialize (B f). lia. Qed.
Lemma ale_trans a b c : ale a b -> ale b c -> ale a c.
Proof. intros [(A1 & A2 & A3 & A4 & A5 & A6 & A7 & A8 & A9) A] [(B1 & B2 & B3 & B4 & B5 & B6 & B7 & B8 & B9) B]. split; [repeat split; congruence|]. intros f. specialize (A f). specialize (B f). lia. Qed.
Lemma F2_refl {A} (R : A -> A -> Prop) l : (forall a, R a a) -> Forall2 R l l.
Proof. intros H. induction l; constructor; auto. Qed.
Lemma F2_trans {A} (R : A -> A -> Prop) : (forall a b c, R a b -> R b c -> R a c) -> forall x y z, Forall2 R x y -> Forall2 R y z -> Forall2 R x z.
Proof. intros H x y z Hxy. revert z. induction Hxy; intros z Hyz; inversion Hyz; subst; constructor; eauto. Qed.
Lemma fle_refl x : fle x x.
Proof. split; apply F2_refl; auto using ole_refl, ale_refl. Qed.
Lemma fle_trans x y z : fle x y -> fle y z -> fle x z.
Proof. intros [A B] [C D]. split; eapply F2_trans; eauto using ole_trans, ale_trans. Qed.

(** the same functions and arguments *)
Definition same_shape (x y : frames) : Prop := Forall2 same_op (fst x) (fst y) /\ Forall2 same_arg (snd x) (snd y).
Lemma F2_sym {A} (R : A -> A -> Prop) : (forall a b, R a b -> R b a) -> forall x y, Forall2 R x y -> Forall2 R y x.
Proof. intros H x y Hxy. induction Hxy; constructor; auto. Qed.
Lemma F2_weak {A} (R S : A -> A -> Prop) : (forall a b, R a b -> S a b) -> forall x y, Forall2 R x y -> Forall2 S x y.
Proof. intros H x y Hxy. induction Hxy; constructor; auto. Qed.
Lemma shape_fle x y : fle x y -> same_shape x y.
Proof. intros [A B]. split; eapply F2_weak; [| exact A | | exact B]; intros a b H; apply H. Qed.
Lemma shape_sym x y : same_shape x y -> same_shape y x.
Proof.
  intros [A B]. split; (eapply F2_sym; [|eassumption]).
  - intros a b (A1 & A2 & A3 & A4 & A5 & A6 & A7 & A8). repeat split; congruence.
  - intros a b (A1 & A2 & A3 & A4 & A5 & A6 & A7 & A8 & A9). repeat split; congruence.
Qed.
Lemma shape_trans x y z : same_shape x y -> same_shape y z -> same_shape x z.
Proof.
  intros [A B] [C D]. split; (eapply F2_trans; [|eassumption|eassumption]).
  - intros a b c (A1 & A2 & A3 & A4 & A5 & A6 & A7 & A8) (B1 & B2 & B3 & B4 & B5 & B6 & B7 & B8). repeat split; congruence.
  - intros a b c (A1 & A2 & A3 & A4 & A5 & A6 & A7 & A8 & A9) (B1 & B2 & B3 & B4 & B5 & B6 & B7 & B8 & B9). repeat split; congruence.
Qed.

(** *** Coordinates: a field of a row *)
Inductive coord := CO (i : nat) (f : ofield) | CA (j : nat) (f : afield).
Definition cset (c : coord) (v : Z) (x : frames) : frames := match c with CO i f => set_op i f v x | CA j f => set_arg j f v x end.
Definition cget (c : coord) (x : frames) : option Z :=
  match c with CO i f => option_map (get_ofield f) (nth_error (fst x) i) | CA j f => option_map (get_afield f) (nth_error (snd x) j) end.
Definition obounds (f : ofield) : Z * Z := match f with FPrec64 => (1, 52) | FRange64 => (2, 11) | FPrec32 => (1, 23) | FRange32 => (2, 8) end.
(** where the field is searched; None: it is not *)
Definition bounds (c : coord) (x : frames) : option (Z * Z) :=
  match c with
  | CO i f => match nth_error (fst x) i with Some _ => Some (obounds f) | None => None end
  | CA j f => match nth_error (snd x) j with
              | Some r => match arg_bounds (r_type r) with Some (p, e) => Some (match f with FPrec => (1, p) | FRange => (2, e) end) | None => None end
              | None => None
              end
  end.

Lemma nth_update {A} (l : list A) i g k : nth_error (update l i g) k = if Nat.eqb i k then option_map g (nth_error l k) else nth_error l k.
Proof.
  revert i k. induction l as [|a l IH]; intros [|i] [|k]; cbn; try reflexivity; try apply IH. destruct (Nat.eqb i k); reflexivity.
Qed.
Lemma length_update {A} (l : list A) i g : length (update l i g) = length l.
Proof. revert i. induction l as [|a l IH]; intros [|i]; cbn; auto. Qed.
Lemma update_F2 {A} (R : A -> A -> Prop) g h i : forall x y, Forall2 R x y -> (forall a b, nth_error x i = Some a -> nth_error y i = Some b -> R a b -> R (g a) (h b)) -> Forall2 R (update x i g) (update y i h).
Proof.
  intros x y H. revert i. induction H as [|a b x y Hab Hxy IH]; intros i G; destruct i; cbn; constructor; auto.
  all: try (apply G; auto; fail).
Qed.
Lemma update_id {A} (g : A -> A) : forall l i, (forall a, nth_error l i = Some a -> g a = a) -> update l i g = l.
Proof. induction l as [|a l IH]; intros [|i] H; cbn; auto; f_equal; auto. Qed.

Lemma cset_mono c v w x y : v <= w -> fle x y -> fle (cset c v x) (cset c w y).
Proof.
  intros Hvw [A B]. destruct c as [i f|j f]; split; cbn [cset]; unfold set_op, set_arg; cbn [fst snd]; auto; (apply update_F2; [assumption|]); intros a b _ _ [S L]; (split; [destruct f; exact S|]).
  - intros f'. pose proof (L FPrec64) as L1. pose proof (L FRange64) as L2. pose proof (L FPrec32) as L3. pose proof (L FRange32) as L4. destruct f, f'; cbn in *; lia.
  - intros f'. pose proof (L FPrec) as L1. pose proof (L FRange) as L2. destruct f, f'; cbn in *; lia.
Qed.
Lemma cset_same c v x : cget c x = Some v -> cset c v x = x.
Proof.
  destruct x as [os rs]. destruct c as [i f|j f]; cbn [cget cset]; unfold set_op, set_arg; cbn [fst snd]; intros H; f_equal; apply update_id; intros a Ha; rewrite Ha in H; injection H as <-; destruct a, f; reflexivity.
Qed.
Lemma cset_twice c v w x : cset c v (cset c w x) = cset c v x.
Proof.
  assert (U : forall A (g h k : A -> A) l i, (forall a, g (h a) = k a) -> update (update l i h) i g = update l i k).
  { intros A g h k l. induction l as [|a l IH]; intros [|i] H; cbn; auto; f_equal; auto. }
  destruct c as [i f|j f]; cbn [cset]; unfold set_op, set_arg; cbn [fst snd]; f_equal; apply U; intros a; destruct f; reflexivity.
Qed.
Lemma cget_cset c v x : cget c x <> None -> cget c (cset c v x) = Some v.
Proof.
  destruct c as [i f|j f]; cbn [cset cget]; unfold set_op, set_arg; cbn [fst snd]; rewrite nth_update, Nat.eqb_refl.
  - destruct (nth_error (fst x) i); [|cbn; congruence]. intros _. destruct f; reflexivity.
  - destruct (nth_error (snd x) j); [|cbn; congruence]. intros _. destruct f; reflexivity.
Qed.
Lemma cget_other c d v x : c <> d -> cget d (cset c v x) = cget d x.
Proof.
  intros N. destruct c as [i f|j f], d as [i' f'|j' f']; cbn [cset cget]; unfold set_op, set_arg; cbn [fst snd]; try reflexivity; rewrite nth_update.
  - destruct (Nat.eqb_spec i i'); [|reflexivity]. subst. destruct (nth_error (fst x) i') as [o|]; [|reflexivity]. cbn. f_equal. destruct f, f'; try reflexivity; congruence.
  - destruct (Nat.eqb_spec j j'); [|reflexivity]. subst. destruct (nth_error (snd x) j') as [o|]; [|reflexivity]. cbn. f_equal. destruct f, f'; try reflexivity; congruence.
Qed.
Lemma F2_nth {A} (R : A -> A -> Prop) x y i : Forall2 R x y -> match nth_error x i, nth_error y i with Some a, Some b => R a b | None, None => True | _, _ => False end.
Proof. intros H. revert i. induction H; intros [|i]; cbn; auto. apply IHForall2. Qed.
Lemma bounds_fle c x y : fle x y -> bounds c x = bounds c y.
Proof.
  intros [A B]. destruct c as [i f|j f]; cbn.
  - pose proof (F2_nth _ _ _ i A) as N. destruct (nth_error (fst x) i), (nth_error (fst y) i); tauto.
  - pose proof (F2_nth _ _ _ j B) as N. destruct (nth_error (snd x) j), (nth_error (snd y) j); try tauto. destruct N as [(_ & _ & _ & _ & _ & -> & _) _]. reflexivity.
Qed.
Lemma cget_fle c x y : fle x y -> match cget c x, cget c y with Some a, Some b => a <= b | None, None => True | _, _ => False end.
Proof.
  intros [A B]. destruct c as [i f|j f]; cbn.
  - pose proof (F2_nth _ _ _ i A) as N. destruct (nth_error (fst x) i), (nth_error (fst y) i); cbn; try tauto. apply N.
  - pose proof (F2_nth _ _ _ j B) as N. destruct (nth_error (snd x) j), (nth_error (snd y) j); cbn; try tauto. apply N.
Qed.

Lemma F2_length {A} (R : A -> A -> Prop) x y : Forall2 R x y -> length x = length y.
Proof. induction 1; cbn; congruence. Qed.
(** saving succeeds or fails with the shape only *)
Lemma save_shape x y : fle x y -> ((exists t, save x = Ret t) <-> (exists t, save y = Ret t)).
Proof.
  destruct x as [os rs], y as [os' rs']. intros [A B]. unfold save. cbn [fst snd] in *. apply F2_length in B. revert rs rs' B.
  induction A as [|o o' os os' H _ IH]; intros rs rs' L; cbn [save_loop]; [split; eauto|].
  destruct H as [(_ & _ & _ & _ & _ & -> & -> & _) _]. set (n := Z.to_nat (o_nin o' + o_nout o')). rewrite L.
  destruct (Nat.ltb (length rs') n); [split; intros [? ?]; discriminate|].
  specialize (IH (skipn n rs) (skipn n rs')). rewrite !skipn_length, L in IH. specialize (IH eq_refl).
  destruct (save_loop os (skipn n rs)), (save_loop os' (skipn n rs')); cbn [pbind]; split; intros [t E]; eauto; try discriminate.
  all: destruct IH as [I1 I2]; first [destruct (I1 (ex_intro _ _ eq_refl)); discriminate | destruct (I2 (ex_intro _ _ eq_refl)); discriminate].
Qed.

(** ** The exploration *)
Section explore.
  Context (valid : list Z -> bool).
  (** validity of frames *)
  Definition passes (x : frames) : bool := match save x with Ret t => valid t | _ => false end.
  Definition in_range (x : frames) : Prop := forall c lo hi v, bounds c x = Some (lo, hi) -> cget c x = Some v -> lo <= v <= hi.
  Definition minimal (c : coord) (x : frames) : Prop := forall lo hi v w, bounds c x = Some (lo, hi) -> cget c x = Some w -> lo <= v < w -> passes (cset c v x) = false.

  Context (x0 : frames).
  (** the frames the exploration meets: those of the start with other precisions, within the bounds *)
  Definition candidate (x : frames) : Prop := same_shape x x0 /\ in_range x.
  (** more precision never harms *)
  Definition monotone : Prop := forall x y, candidate x -> candidate y -> fle x y -> passes x = true -> passes y = true.
  (** the precisions of a type a function does not use are without effect *)
  Definition unused (c : coord) : Prop :=
    match c with
    | CO i (FPrec64 | FRange64) => exists o, nth_error (fst x0) i = Some o /\ o_double o = 0
    | CO i (FPrec32 | FRange32) => exists o, nth_error (fst x0) i = Some o /\ o_float o = 0
    | CA _ _ => False
    end.
  Definition unused_irrelevant : Prop := forall x c v, candidate x -> candidate (cset c v x) -> unused c -> passes (cset c v x) = passes x.
  Context (Hmono : monotone) (Hunused : unused_irrelevant).
  Definition inv (D : coord -> Prop) (x : frames) : Prop := passes x = true /\ fle x x0 /\ in_range x /\ forall c, D c -> minimal c x.

  Lemma passes_saves x : passes x = true -> exists t, save x = Ret t.
  Proof. unfold passes. destruct (save x); intros H; try discriminate. eauto. Qed.
  Lemma bounds_cset c d v x : bounds d (cset c v x) = bounds d x.
  Proof.
    destruct c as [i f|j f], d as [i' f'|j' f']; cbn [cset bounds]; unfold set_op, set_arg; cbn [fst snd]; try reflexivity; rewrite nth_update.
    - destruct (Nat.eqb i i'); [|reflexivity]. destruct (nth_error (fst x) i'); reflexivity.
    - destruct (Nat.eqb j j'); [|reflexivity]. destruct (nth_error (snd x) j'); [|reflexivity]. destruct f; reflexivity.
  Qed.
  Lemma coord_dec (c d : coord) : c = d \/ c <> d.
  Proof. destruct c as [i f|i f], d as [i' f'|i' f']; try (right; congruence); destruct (Nat.eq_dec i i'), f, f'; try (left; congruence); right; congruence. Qed.
  Lemma candidate_cset c v x lo hi : candidate x -> bounds c x = Some (lo, hi) -> cget c x <> None -> lo <= v <= hi -> candidate (cset c v x).
  Proof.
    intros [S R] Hb Hg Hv. split.
    - eapply shape_trans; [|exact S]. destruct (cget c x) as [w|] eqn:Hw; [|congruence]. rewrite <- (cset_same c w x Hw) at 2. destruct (Z.le_ge_cases v w).
      + apply shape_fle, cset_mono; [assumption|apply fle_refl].
      + apply shape_sym, shape_fle, cset_mono; [assumption|apply fle_refl].
    - intros d lo' hi' u. rewrite bounds_cset. intros Hb' Hu. destruct (coord_dec c d) as [<- | N].
      + rewrite cget_cset in Hu by assumption. injection Hu as <-. rewrite Hb in Hb'. injection Hb' as <- <-. lia.
      + rewrite cget_other in Hu by assumption. eauto.
  Qed.
  Lemma inv_candidate D x : inv D x -> candidate x.
  Proof. intros (P & L & R & _). split; [apply shape_fle; exact L|exact R]. Qed.
  (** lowering a field to a value that passes and that is minimal *)
  Lemma inv_lower D c x v w lo hi : inv D x -> bounds c x = Some (lo, hi) -> cget c x = Some w -> lo <= v <= w -> passes (cset c v x) = true ->
    (forall q, lo <= q < v -> passes (cset c q x) = false) -> inv (fun d => d = c \/ D d) (cset c v x).
  Proof.
    intros I Hb Hw Hv Pv Mv. pose proof (inv_candidate _ _ I) as Cx. destruct I as (P & L & R & Dn).
    assert (Lx : fle (cset c v x) x). { rewrite <- (cset_same c w x Hw) at 2. apply cset_mono; [lia|apply fle_refl]. }
    assert (Hg : cget c x <> None) by congruence. pose proof (R c lo hi w Hb Hw) as Rw.
    assert (Cc : candidate (cset c v x)) by (apply (candidate_cset c v x lo hi); auto; lia).
    split; [exact Pv|]. split; [eapply fle_trans; eauto|]. split; [apply Cc|].
    intros d Hd lo' hi' q u. rewrite bounds_cset. intros Hb' Hu Hq. destruct (coord_dec c d) as [<- | N].
    - rewrite cget_cset in Hu by congruence. injection Hu as <-. rewrite cset_twice. rewrite Hb in Hb'. injection Hb' as <- <-. apply Mv. lia.
    - destruct Hd as [E|Hd]; [congruence|]. rewrite cget_other in Hu by assumption. pose proof (Dn d Hd lo' hi' q u Hb' Hu Hq) as F. pose proof (R d lo' hi' u Hb' Hu) as Ru.
      destruct (passes (cset d q (cset c v x))) eqn:E; [|reflexivity]. rewrite (Hmono (cset d q (cset c v x)) (cset d q x)) in F; [discriminate| | | |exact E].
      + apply (candidate_cset d q _ lo' hi'); [exact Cc|rewrite bounds_cset; exact Hb'|rewrite cget_other by assumption; congruence|lia].
      + apply (candidate_cset d q x lo' hi'); [exact Cx|exact Hb'|congruence|lia].
      + apply cset_mono; [lia|exact Lx].
  Qed.

  Lemma inv_search D c x lo hi fuel : inv D x -> bounds c x = Some (lo, hi) -> cget c x <> None -> hi - lo < 64 -> (7 <= fuel)%nat ->
    exists x', dich valid fuel (fun p => cset c p x) lo hi = Ret x' /\ inv (fun d => d = c \/ D d) x'.
  Proof.
    intros I Hb Hg Hs Hf. pose proof I as (P & L & R & _). destruct (cget c x) as [w|] eqn:Hw; [|congruence]. specialize (R c lo hi w Hb Hw).
    assert (S : exists t, save x = Ret t) by (apply passes_saves; exact P).
    assert (Hc : forall p, check valid (cset c p x) = Ret (passes (cset c p x))).
    { intros p. assert (T : exists t, save (cset c p x) = Ret t).
      { destruct (Z.le_ge_cases p w).
        - apply (save_shape (cset c p x) x); [|exact S]. rewrite <- (cset_same c w x Hw) at 2. apply cset_mono; [assumption|apply fle_refl].
        - apply (save_shape x (cset c p x)); [|exact S]. rewrite <- (cset_same c w x Hw) at 1. apply cset_mono; [assumption|apply fle_refl]. }
      destruct T as [t T]. unfold check, passes. rewrite T. reflexivity. }
    pose proof (inv_candidate _ _ I) as Cx.
    assert (M : forall p q, lo <= p -> p <= q -> q <= hi -> passes (cset c p x) = true -> passes (cset c q x) = true).
    { intros p q H1 H2 H3. apply Hmono; [apply (candidate_cset c p x lo hi); auto; [congruence|lia]|apply (candidate_cset c q x lo hi); auto; [congruence|lia]|apply cset_mono; [assumption|apply fle_refl]]. }
    destruct (dich_least valid (fun p => cset c p x) (fun p => passes (cset c p x)) Hc fuel lo hi) as (p & E & B & V & Mn).
    - lia.
    - apply (M w); [lia|lia|lia|]. rewrite (cset_same c w x Hw). exact P.
    - intros p q H1 H2. apply M; lia.
    - assert (Z.log2 (hi - lo) <= 5); [|lia]. destruct (Z.eq_dec (hi - lo) 0) as [->|]; [cbn; lia|]. apply Z.lt_succ_r. apply Z.log2_lt_pow2; [lia|]. cbn. lia.
    - exists (cset c p x). split; [exact E|]. eapply inv_lower; eauto.
      destruct (Z.lt_ge_cases w p) as [Hlt|Hge]; [|lia]. exfalso.
      specialize (Mn w ltac:(lia)). rewrite (cset_same c w x Hw), P in Mn. discriminate.
  Qed.
  Lemma inv_floor D c x lo hi : inv D x -> bounds c x = Some (lo, hi) -> cget c x <> None -> unused c -> inv (fun d => d = c \/ D d) (cset c lo x).
  Proof.
    intros I Hb Hg U. pose proof (inv_candidate _ _ I) as Cx. pose proof I as (P & L & R & _). destruct (cget c x) as [w|] eqn:Hw; [|congruence]. specialize (R c lo hi w Hb Hw).
    assert (E : passes (cset c lo x) = passes x) by (apply Hunused; [exact Cx| |exact U]; apply (candidate_cset c lo x lo hi); auto; [congruence|lia]).
    apply (inv_lower D c x lo w lo hi I Hb Hw); [lia|rewrite E; exact P|intros q Hq; lia].
  Qed.
  Lemma inv_weaken (D E : coord -> Prop) x : inv D x -> (forall c, E c -> D c) -> inv E x.
  Proof. intros (P & L & R & Dn) H. exact (conj P (conj L (conj R (fun c Hc => Dn c (H c Hc))))). Qed.
  Lemma inv_row D x i : inv D x -> nth_error (fst x0) i <> None -> exists o, nth_error (fst x) i = Some o.
  Proof. intros (_ & [L _] & _) H. pose proof (F2_nth _ _ _ i L) as N. destruct (nth_error (fst x) i) as [o|]; [eauto|]. destruct (nth_error (fst x0) i); [tauto|congruence]. Qed.

  Definition of_op (i : nat) (c : coord) : Prop := exists f, c = CO i f.
  Definition of_arg (j : nat) (c : coord) : Prop := exists f, c = CA j f.

  Lemma search_operations_ok D x i fuel : inv D x -> nth_error (fst x0) i <> None -> (7 <= fuel)%nat ->
    exists x', search_operations valid fuel i x = Ret x' /\ inv (fun c => of_op i c \/ D c) x'.
  Proof.
    intros I H Hf. unfold search_operations. destruct (inv_row _ _ _ I H) as [o Ho]. rewrite Ho.
    assert (G : forall D' y, inv D' y -> forall f, bounds (CO i f) y = Some (obounds f) /\ cget (CO i f) y <> None).
    { intros D' y Iy f. destruct (inv_row _ _ _ Iy H) as [oy Hy]. cbn. rewrite Hy. split; [reflexivity|discriminate]. }
    assert (Ox : exists o0, nth_error (fst x0) i = Some o0 /\ o_double o0 = o_double o /\ o_float o0 = o_float o).
    { destruct I as (_ & [L _] & _). pose proof (F2_nth _ _ _ i L) as N. rewrite Ho in N. destruct (nth_error (fst x0) i) as [o0|]; [|tauto]. exists o0. destruct N as [(_ & _ & _ & N1 & N2 & _) _]. auto. }
    destruct Ox as (o0 & O1 & O2 & O3).
    assert (Ud : o_double o = 0 -> exists o1, nth_error (fst x0) i = Some o1 /\ o_double o1 = 0) by (intros E; exists o0; split; [exact O1|congruence]).
    assert (Uf : o_float o = 0 -> exists o1, nth_error (fst x0) i = Some o1 /\ o_float o1 = 0) by (intros E; exists o0; split; [exact O1|congruence]).
    assert (S1 : exists x1, (if negb (o_double o =? 0) then do x <- search_op valid fuel i FPrec64 1 52 x; search_op valid fuel i FRange64 2 11 x
                 else Ret (set_op i FRange64 2 (set_op i FPrec64 1 x))) = Ret x1 /\ inv (fun c => c = CO i FRange64 \/ c = CO i FPrec64 \/ D c) x1).
    { destruct (Z.eqb_spec (o_double o) 0) as [Z0|Z0]; cbn [negb].
      - eexists. split; [reflexivity|].
        pose proof (inv_floor D (CO i FPrec64) x 1 52 I (proj1 (G _ _ I FPrec64)) (proj2 (G _ _ I FPrec64)) (Ud Z0)) as I1.
        exact (inv_floor _ (CO i FRange64) _ 2 11 I1 (proj1 (G _ _ I1 FRange64)) (proj2 (G _ _ I1 FRange64)) (Ud Z0)).
      - destruct (inv_search D (CO i FPrec64) x 1 52 fuel I (proj1 (G _ _ I FPrec64)) (proj2 (G _ _ I FPrec64)) ltac:(lia) Hf) as (x1 & E1 & I1).
        unfold search_op. cbn [cset] in E1. rewrite E1. cbn [pbind].
        exact (inv_search _ (CO i FRange64) x1 2 11 fuel I1 (proj1 (G _ _ I1 FRange64)) (proj2 (G _ _ I1 FRange64)) ltac:(lia) Hf). }
    destruct S1 as (x1 & E1 & I1). rewrite E1. cbn [pbind]. clear E1.
    assert (S2 : exists x2, (if negb (o_float o =? 0) then do x <- search_op valid fuel i FPrec32 1 23 x1; search_op valid fuel i FRange32 2 8 x
                 else Ret (set_op i FRange32 2 (set_op i FPrec32 1 x1))) = Ret x2 /\ inv (fun c => c = CO i FRange32 \/ c = CO i FPrec32 \/ (c = CO i FRange64 \/ c = CO i FPrec64 \/ D c)) x2).
    { destruct (Z.eqb_spec (o_float o) 0) as [Z0|Z0]; cbn [negb].
      - eexists. split; [reflexivity|].
        pose proof (inv_floor _ (CO i FPrec32) x1 1 23 I1 (proj1 (G _ _ I1 FPrec32)) (proj2 (G _ _ I1 FPrec32)) (Uf Z0)) as I2.
        exact (inv_floor _ (CO i FRange32) _ 2 8 I2 (proj1 (G _ _ I2 FRange32)) (proj2 (G _ _ I2 FRange32)) (Uf Z0)).
      - destruct (inv_search _ (CO i FPrec32) x1 1 23 fuel I1 (proj1 (G _ _ I1 FPrec32)) (proj2 (G _ _ I1 FPrec32)) ltac:(lia) Hf) as (x2 & E2 & I2).
        unfold search_op. cbn [cset] in E2. rewrite E2. cbn [pbind].
        exact (inv_search _ (CO i FRange32) x2 2 8 fuel I2 (proj1 (G _ _ I2 FRange32)) (proj2 (G _ _ I2 FRange32)) ltac:(lia) Hf). }
    destruct S2 as (x2 & E2 & I2). exists x2. split; [exact E2|]. eapply inv_weaken; [exact I2|]. intros c [[f ->]|Hc]; [destruct f; tauto|tauto].
  Qed.

  Lemma search_arguments_ok D x j fuel : inv D x -> nth_error (snd x0) j <> None -> (7 <= fuel)%nat ->
    exists x', search_arguments valid fuel j x = Ret x' /\ inv (fun c => of_arg j c \/ D c) x'.
  Proof.
    intros I H Hf. unfold search_arguments.
    assert (R : forall D' y, inv D' y -> exists r, nth_error (snd y) j = Some r).
    { intros D' y (_ & [_ L] & _). pose proof (F2_nth _ _ _ j L) as N. destruct (nth_error (snd y) j) as [r|]; [eauto|]. destruct (nth_error (snd x0) j); [tauto|congruence]. }
    destruct (R _ _ I) as [r Hr]. rewrite Hr. destruct (arg_bounds (r_type r)) as [[p e]|] eqn:B.
    - assert (Bd : hd 0 [p] <= 52 /\ e <= 11). { unfold arg_bounds in B. repeat (destruct (_ || _) in B; [injection B as <- <-; cbn; lia|]). discriminate. } cbn in Bd.
      assert (G : forall D' y f, inv D' y -> bounds (CA j f) y = Some (match f with FPrec => (1, p) | FRange => (2, e) end) /\ cget (CA j f) y <> None).
      { intros D' y f Iy. assert (Bx : bounds (CA j f) y = bounds (CA j f) x) by (rewrite (bounds_fle _ y x0), (bounds_fle _ x x0); [reflexivity|apply I|apply Iy]).
        rewrite Bx. cbn. rewrite Hr, B. destruct (R _ _ Iy) as [ry Hy]. rewrite Hy. split; [reflexivity|discriminate]. }
      destruct (inv_search D (CA j FPrec) x 1 p fuel I (proj1 (G _ _ FPrec I)) (proj2 (G _ _ FPrec I)) ltac:(lia) Hf) as (x1 & E1 & I1).
      unfold search_arg. cbn [cset] in E1. rewrite E1. cbn [pbind].
      destruct (inv_search _ (CA j FRange) x1 2 e fuel I1 (proj1 (G _ _ FRange I1)) (proj2 (G _ _ FRange I1)) ltac:(lia) Hf) as (x2 & E2 & I2).
      exists x2. split; [exact E2|]. eapply inv_weaken; [exact I2|]. intros c [[f ->]|Hc]; [destruct f; tauto|tauto].
    - exists x. split; [reflexivity|]. destruct I as (P & L & Rg & Dn). split; [exact P|]. split; [exact L|]. split; [exact Rg|]. intros c [[f ->]|Hc]; [|auto]. intros lo hi v w Hb. cbn in Hb. rewrite Hr, B in Hb. discriminate.
  Qed.

  Lemma each_ok {A} (g : A -> frames -> py frames) (E : A -> coord -> Prop) : forall l D x,
    (forall a D' y, In a l -> inv D' y -> exists y', g a y = Ret y' /\ inv (fun c => E a c \/ D' c) y') ->
    inv D x -> exists x', each g l x = Ret x' /\ inv (fun c => (exists a, In a l /\ E a c) \/ D c) x'.
  Proof.
    induction l as [|a l IH]; intros D x H I; cbn [each].
    - exists x. split; [reflexivity|]. eapply inv_weaken; [exact I|]. intros c [(a & [] & _)|Hc]; exact Hc.
    - destruct (H a D x (or_introl eq_refl) I) as (y & Ey & Iy). rewrite Ey. cbn [pbind].
      destruct (IH _ y (fun b D' z Hb => H b D' z (or_intror Hb)) Iy) as (x' & Ex & Ix). exists x'. split; [exact Ex|]. eapply inv_weaken; [exact Ix|].
      intros c [(b & [<-|Hb] & Hc)|Hc]; eauto.
  Qed.
  Lemma args_of_fle x i : fle x x0 -> args_of x i = args_of x0 i.
  Proof.
    intros [A B]. unfold args_of. pose proof (F2_nth _ _ _ i A) as N. destruct (nth_error (fst x) i) as [o|], (nth_error (fst x0) i) as [o'|]; try tauto.
    destruct N as [(-> & _) _]. rewrite (F2_length _ _ _ B). revert B. generalize (snd x) (snd x0). intros l l' B. generalize 0%nat.
    induction B as [|a b l l' [(E & _) _] _ IH]; intros k; cbn [length seq combine filter snd map]; [reflexivity|]. rewrite E. destruct (bytes_eqb (r_id b) (o_id o')); cbn [map fst]; rewrite IH; reflexivity.
  Qed.
  Lemma args_of_in x i j : In j (args_of x i) <-> exists o r, nth_error (fst x) i = Some o /\ nth_error (snd x) j = Some r /\ r_id r = o_id o.
  Proof.
    unfold args_of. destruct (nth_error (fst x) i) as [o|]; [|split; [intros []|intros (o & r & E & _); discriminate]].
    assert (G : forall l k, In j (map fst (filter (fun p => bytes_eqb (r_id (snd p)) (o_id o)) (combine (seq k (length l)) l))) <->
                            exists r, (k <= j)%nat /\ nth_error l (j - k) = Some r /\ r_id r = o_id o).
    { induction l as [|r l IH]; intros k; cbn [length seq combine filter map snd].
      - split; [intros []|intros (r & _ & E & _)]. destruct (j - k)%nat; discriminate.
      - assert (Q : bytes_eqb (r_id r) (o_id o) = true <-> r_id r = o_id o) by (unfold bytes_eqb; destruct (list_eq_dec _ _ _); split; congruence).
        assert (T : (exists r0, (k <= j)%nat /\ nth_error (r :: l) (j - k) = Some r0 /\ r_id r0 = o_id o) <-> (j = k /\ r_id r = o_id o) \/ exists r0, (S k <= j)%nat /\ nth_error l (j - S k) = Some r0 /\ r_id r0 = o_id o).
        { split.
          - intros (r0 & L & N & E). destruct (Nat.eq_dec j k) as [->|Nk]; [rewrite Nat.sub_diag in N; injection N as <-; auto|]. right. exists r0. replace (j - k)%nat with (S (j - S k)) in N by lia. repeat split; auto; lia.
          - intros [[-> E]|(r0 & L & N & E)]; [exists r; rewrite Nat.sub_diag; auto|]. exists r0. replace (j - k)%nat with (S (j - S k)) by lia. repeat split; auto; lia. }
        rewrite T. destruct (bytes_eqb (r_id r) (o_id o)) eqn:Eq; cbn [map fst].
        + cbn [In]. rewrite IH. split; [intros [<-|]; [left; split; [reflexivity|apply Q; reflexivity]|right; assumption]|intros [[-> _]|]; auto].
        + rewrite IH. split; [auto|]. intros [[_ E]|]; [apply Q in E; congruence|assumption]. }
    rewrite G. rewrite Nat.sub_0_r. split; [intros (r & _ & N & E); exists o, r; auto|intros (o' & r & Eo & N & E); injection Eo as <-; exists r; repeat split; auto; lia].
  Qed.

  (** the fields a mode explores *)
  Definition explored (m : emode) (c : coord) : Prop :=
    match c with
    | CO i _ => m <> EArguments /\ exists o, nth_error (fst x0) i = Some o /\ o_lib o = 0 /\ o_int o = 0
    | CA j _ => m <> EOperations /\ exists i o r, nth_error (fst x0) i = Some o /\ nth_error (snd x0) j = Some r /\ r_id r = o_id o
    end.
  Lemma explore_ok m fuel : passes x0 = true -> in_range x0 -> (7 <= fuel)%nat -> exists x', explore valid m fuel x0 = Ret x' /\ inv (explored m) x'.
  Proof.
    intros P R Hf. assert (I0 : inv (fun _ => False) x0) by (split; [exact P|]; split; [apply fle_refl|]; split; [exact R|intros c []]).
    assert (Rows : forall i, In i (seq 0 (length (fst x0))) <-> nth_error (fst x0) i <> None).
    { intros i. rewrite in_seq, nth_error_Some. lia. }
    assert (Cp : forall i, compiled x0 i = true <-> exists o, nth_error (fst x0) i = Some o /\ o_lib o = 0 /\ o_int o = 0).
    { intros i. unfold compiled. destruct (nth_error (fst x0) i) as [o|]; [|split; [discriminate|intros (o & E & _); discriminate]].
      rewrite andb_true_iff, !Z.eqb_eq. split; [intros; exists o; auto|intros (o' & E & H); injection E as <-; auto]. }
    assert (Args : forall D y i, inv D y -> exists y', each (search_arguments valid fuel) (args_of y i) y = Ret y' /\
                     inv (fun c => (exists j, In j (args_of x0 i) /\ of_arg j c) \/ D c) y').
    { intros D y i Iy. rewrite (args_of_fle y i) by apply Iy. apply (each_ok _ of_arg); [|exact Iy]. intros j D' z Hj Iz. apply search_arguments_ok; [exact Iz| |exact Hf].
      apply args_of_in in Hj. destruct Hj as (o & r & _ & E & _). congruence. }
    destruct m; cbn [explore].
    - destruct (each_ok (search_operations valid fuel) of_op (filter (compiled x0) (seq 0 (length (fst x0)))) (fun _ => False) x0) as (x' & E & I); [|exact I0|].
      { intros i D' y Hi Iy. apply filter_In in Hi. apply search_operations_ok; auto. apply Rows. apply Hi. }
      exists x'. split; [exact E|]. eapply inv_weaken; [exact I|]. intros [i f|j f] [M H]; [|congruence]. left. exists i. split; [|exists f; reflexivity].
      apply filter_In. split; [apply Rows; destruct H as (o & E0 & _); congruence|apply Cp; exact H].
    - destruct (each_ok (fun i y => each (search_arguments valid fuel) (args_of y i) y) (fun i c => exists j, In j (args_of x0 i) /\ of_arg j c) (seq 0 (length (fst x0))) (fun _ => False) x0) as (x' & E & I); [|exact I0|].
      { intros i D' y _ Iy. apply Args. exact Iy. }
      exists x'. split; [exact E|]. eapply inv_weaken; [exact I|]. intros [i f|j f] [M H]; [congruence|]. left. destruct H as (i & o & r & E1 & E2 & E3).
      exists i. split; [apply Rows; congruence|]. exists j. split; [|exists f; reflexivity]. apply args_of_in. eauto 6.
    - destruct (each_ok (fun i y => do y <- each (search_arguments valid fuel) (args_of y i) y; if compiled x0 i then search_operations valid fuel i y else Ret y)
                  (fun i c => (compiled x0 i = true /\ of_op i c) \/ exists j, In j (args_of x0 i) /\ of_arg j c) (seq 0 (length (fst x0))) (fun _ => False) x0) as (x' & E & I); [|exact I0|].
      { intros i D' y Hi Iy. destruct (Args _ _ i Iy) as (y1 & E1 & I1). rewrite E1. cbn [pbind]. destruct (compiled x0 i) eqn:C.
        - destruct (search_operations_ok _ y1 i fuel I1) as (y2 & E2 & I2); [apply Rows; exact Hi|exact Hf|]. exists y2. split; [exact E2|]. eapply inv_weaken; [exact I2|]. intros c; tauto.
        - exists y1. split; [reflexivity|]. eapply inv_weaken; [exact I1|]. intros c [[[X _]|H]|H]; [discriminate| |]; auto. }
      exists x'. split; [exact E|]. eapply inv_weaken; [exact I|]. intros [i f|j f] [M H]; left.
      + exists i. split; [apply Rows; destruct H as (o & E0 & _); congruence|]. left. split; [apply Cp; exact H|exists f; reflexivity].
      + destruct H as (i & o & r & E1 & E2 & E3). exists i. split; [apply Rows; congruence|]. right. exists j. split; [|exists f; reflexivity]. apply args_of_in. eauto 6.
  Qed.
End explore.

(** ** What a search can answer, for any oracle, even one that is not a function of the frames' order *)
Lemma loop_bounds valid set : forall fuel l r x, l <= r + 1 -> dich_loop valid fuel set l r = Ret x -> exists p, x = set p /\ Z.min l r <= p <= r.
Proof.
  induction fuel as [|fuel IH]; intros l r x Hlr H; cbn [dich_loop] in H; [discriminate|].
  set (p := (r + l) / 2) in *. pose proof (Z.div_mod (r + l) 2 ltac:(lia)) as D. pose proof (Z.mod_pos_bound (r + l) 2 ltac:(lia)) as M. fold p in D.
  destruct (check valid (set p)) as [ok| | |]; try discriminate. cbn [pbind] in H. destruct ok.
  - destruct (Z.leb_spec r l); [injection H as <-; exists p; split; [reflexivity|lia]|]. destruct (IH l p x ltac:(lia) H) as (q & E & B). exists q. split; [exact E|lia].
  - destruct (IH (p + 1) r x ltac:(lia) H) as (q & E & B). exists q. split; [exact E|lia].
Qed.
Lemma dich_bounds valid fuel set l r x : l <= r -> dich valid fuel set l r = Ret x -> exists p, x = set p /\ l <= p <= r.
Proof.
  intros Hlr H. unfold dich in H. destruct (check valid (set l)) as [ok| | |]; try discriminate. cbn [pbind] in H. destruct ok.
  - injection H as <-. exists l. split; [reflexivity|lia].
  - destruct (loop_bounds valid set fuel l r x ltac:(lia) H) as (p & E & B). exists p. split; [exact E|lia].
Qed.
