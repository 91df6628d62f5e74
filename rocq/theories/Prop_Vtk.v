(** C98: where vfc-vtk puts the accuracy arrays. C99: what they say. *)
From Coq Require Import String ZArith List Bool Lia Reals Lra Permutation.
From Verif Require Import Text VtkModel.
Import ListNotations.
Open Scope Z_scope.

(** * C98: structure *)
Section Structure.
  Context {T : Type} (parse : T -> option (list R)) (print : list R -> T).
  Notation array := (array T).
  Notation section := (section T).
  Notation file := (file T).

  (** ** What the result should be, in one shot *)
  (** sections with their number *)
  Fixpoint imap {A B} (g : nat -> A -> B) (j : nat) (l : list A) : list B := match l with [] => [] | x :: l' => g j x :: imap g (S j) l' end.
  Definition located (f : file) : list (nat * array) := concat (imap (fun j s => map (pair j) (s_arrays _ s)) 0 f).
  (** the Float32 arrays with the number of their section, in document order *)
  Definition floats (f : file) : list (nat * array) := filter (fun p => a_f32 _ (snd p)) (located f).
  (** [home f i j]: the accuracy of an array of section i goes to section j: the same one, but the first PointData for Points *)
  Definition home (f : file) (i j : nat) : Prop :=
    exists s, nth_error f i = Some s /\
    ((s_tag _ s <> bytes "Points" /\ j = i) \/
     (s_tag _ s = bytes "Points" /\ exists d, nth_error f j = Some d /\ s_tag _ d = bytes "PointData" /\
      forall k e, (k < j)%nat -> nth_error f k = Some e -> s_tag _ e <> bytes "PointData")).
  (** the values of an array in the traces, one row for each trace *)
  Definition the_rows (traces : list (option file)) (n : list Z) (rows : list (list R)) : Prop :=
    rows <> [] /\ (exists len, Forall (fun r => length r = len) rows) /\
    Forall2 (fun t r => exists f a before after, t = Some f /\ concat (map (s_arrays _) f) = before ++ a :: after /\
      a_f32 _ a = true /\ a_name _ a = Some n /\ parse (a_text _ a) = Some r /\
      Forall (fun x => ~ (a_f32 _ x = true /\ a_name _ x = Some n)) before) traces rows.
  (** column i of the rows *)
  Definition column (rows : list (list R)) (i : nat) : list R := map (fun r => nth i r 0%R) rows.
  Definition by_column (h : list R -> R) (rows : list (list R)) (l : list R) : Prop :=
    (forall r, In r rows -> length l = length r) /\ forall i, (i < length l)%nat -> nth i l 0%R = h (column rows i).
  (** the accuracy array of a *)
  Definition accuracy_of (h : list R -> R) (traces : list (option file)) (a b : array) : Prop :=
    exists n rows l, a_name _ a = Some n /\ the_rows traces n rows /\ by_column h rows l /\
    b = mk_a T true (Some (n ++ bytes "_vfc_accuracy")) (a_rest _ a) (print l).
  (** an array of the output in place of [a] *)
  Definition kept (use_mean : bool) (traces : list (option file)) (a b : array) : Prop :=
    if use_mean && a_f32 _ a then
      exists n rows l, a_name _ a = Some n /\ the_rows traces n rows /\ by_column mean rows l /\ b = mk_a T (a_f32 _ a) (a_name _ a) (a_rest _ a) (print l)
    else b = a.
  (** [good f traces]: what is asked of the input *)
  Definition good (traces : list (option file)) (f : file) : Prop :=
    (forall i a, In (i, a) (floats f) -> exists n, a_name _ a = Some n /\ ~ In 39 n /\ (exists rows, the_rows traces n rows) /\ (exists j, home f i j)) /\
    NoDup (map (fun p => a_name _ (snd p)) (floats f)) /\
    (forall p q n m, In p (floats f) -> In q (floats f) -> a_name _ (snd p) = Some n -> a_name _ (snd q) = Some m -> n <> m ++ bytes "_vfc_accuracy").

  (** ** The loops of the code *)
  Lemma text_eqb_iff a b : text_eqb a b = true <-> a = b.
  Proof. unfold text_eqb. destruct (list_eq_dec _ a b); split; congruence. Qed.
  Lemma text_eqb_refl a : text_eqb a a = true.
  Proof. apply text_eqb_iff. reflexivity. Qed.
  Lemma matches_iff nm a : matches T nm a = true <-> a_f32 _ a = true /\ a_name _ a = Some nm.
  Proof.
    unfold matches. rewrite andb_true_iff. destruct (a_name _ a) as [n|]; [rewrite text_eqb_iff|]; intuition congruence.
  Qed.

  Lemma imap_length {A B} (g : nat -> A -> B) l : forall j, length (imap g j l) = length l.
  Proof. induction l as [|x l IH]; intros j; cbn; [reflexivity|]. f_equal. apply IH. Qed.
  Lemma nth_error_imap {A B} (g : nat -> A -> B) l : forall j k, nth_error (imap g j l) k = option_map (g (j + k)%nat) (nth_error l k).
  Proof.
    induction l as [|x l IH]; intros j [|k]; cbn; try reflexivity; [rewrite Nat.add_0_r; reflexivity|]. rewrite IH. f_equal. f_equal. lia.
  Qed.
  Lemma imap_ext {A B} (g g' : nat -> A -> B) l : forall j, (forall k x, nth_error l k = Some x -> g (j + k)%nat x = g' (j + k)%nat x) -> imap g j l = imap g' j l.
  Proof.
    induction l as [|x l IH]; intros j H; cbn; [reflexivity|]. f_equal.
    - specialize (H O x eq_refl). rewrite Nat.add_0_r in H. exact H.
    - apply IH. intros k y Hk. specialize (H (S k) y Hk). rewrite Nat.add_succ_r in H. exact H.
  Qed.
  Lemma update_at_imap {A} (g : nat -> A -> section) h l : forall k j, update_at T k h (imap g j l) = imap (fun i x => if Nat.eqb i (j + k) then h (g i x) else g i x) j l.
  Proof.
    induction l as [|x l IH]; intros [|k] j; cbn; try reflexivity.
    - rewrite Nat.add_0_r, Nat.eqb_refl. f_equal. apply imap_ext. intros i y _. destruct (Nat.eqb_spec (S j + i) j); [lia|reflexivity].
    - destruct (Nat.eqb_spec j (j + S k)); [lia|]. f_equal. rewrite IH. apply imap_ext. intros i y _. replace (j + S k)%nat with (S j + k)%nat by lia. reflexivity.
  Qed.
  Lemma find_index_spec p f k s : nth_error f k = Some s -> p s = true -> (forall i e, (i < k)%nat -> nth_error f i = Some e -> p e = false) -> find_index T p f = Some k.
  Proof.
    revert k. induction f as [|x f IH]; intros [|k] H P L; cbn in *; try discriminate; [injection H as ->; rewrite P; reflexivity|].
    rewrite (L O x); [|lia|reflexivity]. rewrite (IH k H P); [reflexivity|]. intros i e Hi He. apply (L (S i) e); [lia|exact He].
  Qed.
  Lemma in_located f i a : In (i, a) (located f) <-> exists s, nth_error f i = Some s /\ In a (s_arrays _ s).
  Proof.
    unfold located. assert (G : forall f j, In (i, a) (concat (imap (fun j s => map (pair j) (s_arrays T s)) j f)) <-> exists k s, i = (j + k)%nat /\ nth_error f k = Some s /\ In a (s_arrays _ s)).
    { clear f. induction f as [|s f IH]; intros j; cbn [imap concat].
      - split; [intros []|intros (k & s & _ & H & _); destruct k; discriminate].
      - rewrite in_app_iff, IH, in_map_iff. split.
        + intros [(x & [= <- <-] & H)|(k & s' & -> & H1 & H2)]; [exists O, s; rewrite Nat.add_0_r; auto|exists (S k), s'; split; [lia|auto]].
        + intros ([|k] & s' & -> & H1 & H2); [left; exists a; injection H1 as ->; rewrite Nat.add_0_r; auto|right; exists k, s'; split; [lia|auto]]. }
    rewrite (G f O). split; [intros (k & s & -> & H); exists s; exact H|intros (s & H); exists i, s; auto].
  Qed.
  Lemma located_arrays f : map snd (located f) = concat (map (s_arrays T) f).
  Proof.
    unfold located. generalize O. induction f as [|s f IH]; intros j; cbn [imap concat map]; [reflexivity|]. rewrite map_app, IH. f_equal. rewrite map_map. cbn. apply map_id.
  Qed.
  Lemma filter_map_snd {A B} (p : B -> bool) (l : list (A * B)) : filter p (map snd l) = map snd (filter (fun q => p (snd q)) l).
  Proof. induction l as [|x l IH]; [reflexivity|]. cbn. destruct (p (snd x)); cbn; rewrite IH; reflexivity. Qed.
  Lemma names_floats f : names T f = map (fun p => a_name _ (snd p)) (floats f).
  Proof. unfold names, floats. rewrite <- located_arrays, filter_map_snd, map_map. reflexivity. Qed.

  Lemma find_first_spec {A} (p : A -> bool) l x : find p l = Some x <-> exists a b, l = a ++ x :: b /\ p x = true /\ Forall (fun y => p y = false) a.
  Proof.
    induction l as [|y l IH]; cbn; [split; [discriminate|intros (a & b & H & _); destruct a; discriminate]|]. destruct (p y) eqn:E.
    - split; [intros [= <-]; exists [], l; auto|]. intros ([|z a] & b & H & P & F); cbn in H; injection H as -> H; [reflexivity|]. inversion F; congruence.
    - rewrite IH. split.
      + intros (a & b & -> & P & F). exists (y :: a), b. auto.
      + intros ([|z a] & b & H & P & F); cbn in H; injection H as -> ->; [congruence|]. inversion F; subst. exists a, b. auto.
  Qed.
  Lemma nodup_app_l {A} (l l' : list A) : NoDup (l ++ l') -> NoDup l.
  Proof. induction l as [|x l IH]; cbn; intros H; [constructor|]. inversion H; subst. constructor; [|auto]. intros I. apply H2. apply in_or_app. auto. Qed.
  Lemma nodup_app_r {A} (l l' : list A) : NoDup (l ++ l') -> NoDup l'.
  Proof. induction l as [|x l IH]; cbn; intros H; [exact H|]. inversion H; subst. auto. Qed.
  (** the rows computed by the code *)
  Lemma row_spec n t r : row T parse n t = Good r <-> exists f a before after, t = Some f /\ concat (map (s_arrays _) f) = before ++ a :: after /\
      a_f32 _ a = true /\ a_name _ a = Some n /\ parse (a_text _ a) = Some r /\
      Forall (fun x => ~ (a_f32 _ x = true /\ a_name _ x = Some n)) before.
  Proof.
    unfold row, find_array. assert (FA : forall l, Forall (fun x => matches T n x = false) l <-> Forall (fun x => ~ (a_f32 _ x = true /\ a_name _ x = Some n)) l).
    { intros l. rewrite !Forall_forall. setoid_rewrite <- matches_iff. setoid_rewrite not_true_iff_false. tauto. }
    split.
    - destruct t as [f|]; [|discriminate]. destruct (find _ _) as [a|] eqn:E; [|discriminate]. destruct (parse (a_text T a)) as [l|] eqn:P; [|discriminate]. intros [= <-].
      apply find_first_spec in E as (u & v & E & M & F). apply matches_iff in M as [M1 M2]. exists f, a, u, v. repeat (split; [first [assumption|reflexivity]|]). apply FA. exact F.
    - intros (f & a & u & v & -> & E & M1 & M2 & P & F). assert (G : find (matches T n) (concat (map (s_arrays T) f)) = Some a).
      { apply find_first_spec. exists u, v. split; [exact E|]. split; [apply matches_iff; auto|apply FA; exact F]. }
      rewrite G, P. reflexivity.
  Qed.
  Lemma sequence_spec {A B} (h : A -> res B) l r : sequence (map h l) = Good r <-> Forall2 (fun x y => h x = Good y) l r.
  Proof.
    revert r. induction l as [|x l IH]; intros r; cbn.
    - split; [intros [= <-]; constructor|intros H; inversion H; reflexivity].
    - destruct (h x) as [y|] eqn:E; cbn; [|split; [discriminate|intros H; inversion H; congruence]].
      destruct (sequence (map h l)) as [r'|]; cbn.
      + split; [intros [= <-]; constructor; [exact E|apply IH; reflexivity]|]. intros H. inversion H as [|? y' ? r2 E2 H2]; subst. apply IH in H2. injection H2 as <-. congruence.
      + split; [discriminate|]. intros H. inversion H as [|? y' ? r2 E2 H2]; subst. apply IH in H2. discriminate.
  Qed.
  Lemma rows_ok traces n rows : the_rows traces n rows <-> rbind (sequence (map (row T parse n) traces)) stack = Good rows.
  Proof.
    unfold the_rows. assert (F2 : Forall2 (fun x y => row T parse n x = Good y) traces rows <-> Forall2 (fun t r => exists f a before after, t = Some f /\ concat (map (s_arrays _) f) = before ++ a :: after /\
      a_f32 _ a = true /\ a_name _ a = Some n /\ parse (a_text _ a) = Some r /\
      Forall (fun x => ~ (a_f32 _ x = true /\ a_name _ x = Some n)) before) traces rows).
    { split; intros H; induction H as [|t r l l' H0 H IH]; constructor; try exact IH; apply row_spec; exact H0. }
    rewrite <- F2, <- sequence_spec. unfold rbind. destruct (sequence _) as [r|]; [|split; [intros (_ & _ & [=])|discriminate]].
    unfold stack. split.
    - intros (N & (len & L) & [= ->]). destruct rows as [|x rows]; [congruence|]. destruct (forallb _ _) eqn:E; [reflexivity|]. exfalso. rewrite Forall_forall in L.
      assert (E' : forallb (fun y => Nat.eqb (length y) (length x)) (x :: rows) = true); [|congruence]. apply forallb_forall. intros y Hy. apply Nat.eqb_eq. rewrite (L y Hy), (L x (or_introl eq_refl)). reflexivity.
    - destruct r as [|x r]; [discriminate|]. destruct (forallb _ _) eqn:E; [|discriminate]. intros [= <-]. split; [discriminate|]. split; [|reflexivity].
      exists (length x). apply Forall_forall. intros y Hy. rewrite forallb_forall in E. apply Nat.eqb_eq, E, Hy.
  Qed.
  Lemma columnwise_ok h traces n rows : the_rows traces n rows -> by_column h rows (columnwise h rows).
  Proof.
    intros (N & (len & L) & _). unfold by_column, columnwise. rewrite map_length, seq_length. rewrite Forall_forall in L. destruct rows as [|x rows]; [congruence|]. cbn [hd]. split.
    - intros r Hr. rewrite (L r Hr), (L x (or_introl eq_refl)). reflexivity.
    - intros i Hi. unfold column. rewrite (nth_indep _ 0%R ((fun i => h (map (fun r => nth i r 0%R) (x :: rows))) O)) by (rewrite map_length, seq_length; exact Hi).
      rewrite (map_nth (fun i => h (map (fun r => nth i r 0%R) (x :: rows))) (seq 0 (length x)) O i). rewrite seq_nth by exact Hi. reflexivity.
  Qed.

  (** ** The state of the loop *)
  Section Loop.
    Variable use_std use_mean : bool.
    Variable traces : list (option file).
    Variable f : file.
    Hypothesis G : good traces f.
    Let h := if use_std then std else digits.

    Definition mat (n : list Z) : list (list R) := match rbind (sequence (map (row T parse n) traces)) stack with Good m => m | Bad => [] end.
    Definition nm_of (a : array) : list Z := match a_name _ a with Some n => n | None => [] end.
    Definition acc_array (a : array) : array := mk_a T true (Some (nm_of a ++ suffix)) (a_rest _ a) (print (columnwise h (mat (nm_of a)))).
    Definition mean_array (a : array) : array := mk_a T (a_f32 _ a) (a_name _ a) (a_rest _ a) (print (columnwise mean (mat (nm_of a)))).
    Definition dest (i : nat) : option nat :=
      match nth_error f i with
      | Some s => if text_eqb (s_tag _ s) (bytes "Points") then find_index T (fun sec => text_eqb (s_tag _ sec) (bytes "PointData")) f else Some i
      | None => None
      end.
    Definition goes (j : nat) (p : nat * array) : bool := match dest (fst p) with Some k => Nat.eqb k j | None => false end.
    Definition processed (P : list (nat * array)) (a : array) : bool := existsb (fun p => matches T (nm_of (snd p)) a) P.
    Definition state (P : list (nat * array)) : file :=
      imap (fun j s => mk_s T (s_tag _ s) (rev (map (fun p => acc_array (snd p)) (filter (goes j) P)) ++
        map (fun a => if use_mean && processed P a then mean_array a else a) (s_arrays _ s))) 0 f.

    Lemma home_dest i j : home f i j -> dest i = Some j.
    Proof.
      intros (s & Hs & H). unfold dest. rewrite Hs. destruct H as [[N ->]|[-> (d & Hd & Td & L)]].
      - destruct (text_eqb _ _) eqn:E; [apply text_eqb_iff in E; contradiction|reflexivity].
      - rewrite text_eqb_refl. apply (find_index_spec _ _ _ d); [exact Hd|apply text_eqb_iff; exact Td|]. intros k e Hk He. specialize (L k e Hk He).
        destruct (text_eqb _ _) eqn:E; [apply text_eqb_iff in E; contradiction|reflexivity].
    Qed.
    Lemma floats_in i a : In (i, a) (floats f) <-> In (i, a) (located f) /\ a_f32 _ a = true.
    Proof. unfold floats. rewrite filter_In. reflexivity. Qed.
    Lemma unique p q : In p (floats f) -> In q (floats f) -> a_name _ (snd p) = a_name _ (snd q) -> p = q.
    Proof.
      destruct G as (_ & ND & _). revert ND. generalize (floats f). induction l as [|x l IH]; intros ND Hp Hq E; [destruct Hp|]. cbn in ND. inversion ND as [|? ? N ND']; subst.
      destruct Hp as [->|Hp], Hq as [->|Hq]; [reflexivity| | |apply IH; assumption].
      - exfalso. apply N. rewrite E. apply in_map_iff. exists q. auto.
      - exfalso. apply N. rewrite <- E. apply in_map_iff. exists p. auto.
    Qed.
    Lemma set_first_map n t l : (length (filter (matches T n) l) <= 1)%nat ->
      set_first T n t l = map (fun a => if matches T n a then mk_a T (a_f32 _ a) (a_name _ a) (a_rest _ a) t else a) l.
    Proof.
      induction l as [|a l IH]; intros H; [reflexivity|]. cbn [set_first map filter] in *. destruct (matches T n a) eqn:E.
      - f_equal. cbn [length] in H. assert (Z0 : filter (matches T n) l = []) by (destruct (filter (matches T n) l); [reflexivity|cbn in H; lia]).
        clear - Z0. induction l as [|b l IH]; [reflexivity|]. cbn in *. destruct (matches T n b); [discriminate|]. f_equal. apply IH, Z0.
      - f_equal. apply IH, H.
    Qed.
    Lemma matches_acc n p : In p (floats f) -> (exists q, In q (floats f) /\ a_name _ (snd q) = Some n) -> matches T n (acc_array (snd p)) = false.
    Proof.
      intros Hp (q & Hq & E). destruct G as (G1 & _ & G3). destruct p as [i a]. destruct (G1 i a Hp) as (m & Em & _). cbn [snd].
      destruct (matches T n (acc_array a)) eqn:M; [|reflexivity]. exfalso. apply matches_iff in M as [_ M]. unfold acc_array, nm_of in M. cbn [a_name] in M. rewrite Em in M. injection M as M.
      exact (G3 q (i, a) n m Hq Hp E Em (eq_sym M)).
    Qed.
    Lemma matches_kept n P a : matches T n (if use_mean && processed P a then mean_array a else a) = matches T n a.
    Proof. destruct (use_mean && processed P a); reflexivity. Qed.
    Lemma filter_none {A} (p : A -> bool) l : (forall x, In x l -> p x = false) -> filter p l = [].
    Proof. induction l as [|x l IH]; intros H; [reflexivity|]. cbn. rewrite (H x (or_introl eq_refl)). apply IH. intros y Hy. apply H. right. exact Hy. Qed.
    Lemma filter_map_eq n P l : filter (matches T n) (map (fun a => if use_mean && processed P a then mean_array a else a) l) = map (fun a => if use_mean && processed P a then mean_array a else a) (filter (matches T n) l).
    Proof. induction l as [|a l IH]; [reflexivity|]. cbn [map filter]. rewrite matches_kept. destruct (matches T n a); cbn [map]; rewrite IH; reflexivity. Qed.
    (** among the arrays of section i, only [a] matches the name of [a]; none in other sections *)
    Lemma nodup_section k s : nth_error f k = Some s -> NoDup (map (a_name T) (filter (a_f32 T) (s_arrays _ s))).
    Proof.
      destruct G as (_ & ND & _). revert ND. unfold floats, located. generalize O. revert k. generalize f. clear. intros f0.
      induction f0 as [|x f0 IH]; intros [|k] j ND Hk; cbn [nth_error] in Hk; try discriminate; cbn [imap concat] in ND; rewrite filter_app, map_app in ND.
      - injection Hk as ->. apply nodup_app_l in ND. revert ND. generalize (s_arrays T s). clear. induction l as [|a l IH]; [constructor|]. cbn [map filter snd]. destruct (a_f32 T a); cbn [map snd]; [|exact IH].
        intros ND. inversion ND as [|? ? N ND']; subst. constructor; [|apply IH, ND']. intros I. apply N. apply in_map_iff in I as (b & Eb & Hb). apply in_map_iff. exists (j, b). split; [exact Eb|].
        apply filter_In in Hb as [Hb1 Hb2]. apply filter_In. split; [apply in_map; exact Hb1|exact Hb2].
      - apply nodup_app_r in ND. eapply IH; eassumption.
    Qed.
    Lemma nodup_filter n a l : NoDup (map (a_name T) (filter (a_f32 T) l)) -> In a l -> a_f32 _ a = true -> a_name _ a = Some n -> filter (matches T n) l = [a].
    Proof.
      intros ND Ha F E. induction l as [|x l IH]; [destruct Ha|]. cbn [filter] in *. destruct (a_f32 T x) eqn:Fx.
      - cbn [map] in ND. inversion ND as [|? ? N ND']; subst. destruct Ha as [->|Ha].
        + rewrite (proj2 (matches_iff n a)) by auto. f_equal. apply filter_none. intros y Hy. destruct (matches T n y) eqn:M; [|reflexivity]. exfalso. apply matches_iff in M as [M1 M2].
          apply N. rewrite E, <- M2. apply in_map, filter_In. auto.
        + destruct (matches T n x) eqn:M; [|apply IH; assumption]. exfalso. apply matches_iff in M as [M1 M2]. apply N. rewrite M2, <- E. apply in_map, filter_In. auto.
      - destruct Ha as [->|Ha]; [congruence|]. unfold matches at 1. rewrite Fx. apply IH; assumption.
    Qed.
    (** among the arrays of section i, only [a] matches the name of [a]; none in other sections *)
    Lemma filter_in_section i a n s k : In (i, a) (floats f) -> a_name _ a = Some n -> nth_error f k = Some s ->
      filter (matches T n) (s_arrays _ s) = if Nat.eqb k i then [a] else [].
    Proof.
      intros Hi En Hk. pose proof (proj1 (floats_in i a) Hi) as [L F]. apply in_located in L as (s' & Hs & Ha). destruct (Nat.eqb_spec k i) as [->|N].
      - rewrite Hs in Hk. injection Hk as ->. apply nodup_filter; auto. eapply nodup_section. exact Hs.
      - apply filter_none. intros x Hx. destruct (matches T n x) eqn:M; [|reflexivity]. exfalso. apply matches_iff in M as [M1 M2]. apply N.
        assert (In (k, x) (floats f)) by (apply floats_in; split; [apply in_located; exists s; auto|exact M1]).
        assert (Q : (k, x) = (i, a)) by (apply unique; [assumption..|cbn; congruence]). injection Q. auto.
    Qed.

    Lemma filter_state i a n P k s : incl P (floats f) -> In (i, a) (floats f) -> a_name _ a = Some n -> nth_error f k = Some s ->
      filter (matches T n) (rev (map (fun p => acc_array (snd p)) (filter (goes k) P)) ++ map (fun a => if use_mean && processed P a then mean_array a else a) (s_arrays _ s)) =
      map (fun a => if use_mean && processed P a then mean_array a else a) (if Nat.eqb k i then [a] else []).
    Proof.
      intros HP Hi En Hk. rewrite filter_app, filter_map_eq, (filter_in_section i a n s k Hi En Hk). rewrite filter_none; [reflexivity|].
      intros x Hx. apply in_rev, in_map_iff in Hx as (p & <- & Hp). apply filter_In in Hp as [Hp _]. apply matches_acc; [apply HP, Hp|exists (i, a); auto].
    Qed.
    Lemma existsb_filter {A} (p : A -> bool) l : existsb p l = match filter p l with [] => false | _ => true end.
    Proof. induction l as [|x l IH]; [reflexivity|]. cbn. destruct (p x); [reflexivity|exact IH]. Qed.
    Lemma find_filter {A} (p : A -> bool) l : find p l = hd_error (filter p l).
    Proof. induction l as [|x l IH]; [reflexivity|]. cbn. destruct (p x); [reflexivity|exact IH]. Qed.
    Lemma filter_concat {A} (p : A -> bool) l : filter p (concat l) = concat (map (filter p) l).
    Proof. induction l as [|x l IH]; [reflexivity|]. cbn. rewrite filter_app, IH. reflexivity. Qed.
    Lemma imap_map {A B C} (g : nat -> A -> B) (q : B -> C) l : forall j, map q (imap g j l) = imap (fun j x => q (g j x)) j l.
    Proof. induction l as [|x l IH]; intros j; cbn; [reflexivity|]. f_equal. apply IH. Qed.
    Lemma concat_single {A B} (l : list A) (i : nat) (b : B) : forall j, (j <= i < j + length l)%nat -> concat (imap (fun k (_ : A) => if Nat.eqb k i then [b] else []) j l) = [b].
    Proof.
      induction l as [|x l IH]; intros j H; cbn [length] in H; [lia|]. cbn [imap concat]. destruct (Nat.eqb_spec j i) as [->|N]; [|apply IH; lia].
      cbn. f_equal. assert (Z : forall l j, (i < j)%nat -> concat (imap (fun k (_ : A) => if Nat.eqb k i then [b] else []) j l) = []); [|apply Z; lia].
      clear. induction l as [|x l IH]; intros j H; [reflexivity|]. cbn. destruct (Nat.eqb_spec j i); [lia|]. apply IH. lia.
    Qed.

    Lemma step_state P i a : incl P (floats f) -> In (i, a) (floats f) -> ~ In (a_name _ a) (map (fun p => a_name _ (snd p)) P) ->
      merge_name T parse print true use_std use_mean traces (state P) (a_name _ a) = Good (state (P ++ [(i, a)])).
    Proof.
      intros HP Hi NP. destruct G as (G1 & _ & _). destruct (G1 i a Hi) as (n & En & Q39 & (rows & HR) & (d & Hd)). pose proof (home_dest _ _ Hd) as Dd.
      pose proof (proj1 (floats_in i a) Hi) as [L F]. apply in_located in L as (s & Hs & Ha).
      assert (NPa : processed P a = false).
      { unfold processed. destruct (existsb _ P) eqn:E; [|reflexivity]. exfalso. apply existsb_exists in E as (p & Hp & M). apply matches_iff in M as [_ M]. apply NP. rewrite M.
        destruct p as [i' a']. destruct (G1 i' a' (HP _ Hp)) as (m & Em & _). cbn [snd] in *. unfold nm_of. rewrite Em. rewrite <- Em. apply in_map_iff. exists (i', a'). auto. }
      unfold merge_name. rewrite En. unfold format_name.
      assert (X : existsb (Z.eqb 39) n = false) by (destruct (existsb _ n) eqn:E; [|reflexivity]; exfalso; apply existsb_exists in E as (c & Hc & Ec); apply Z.eqb_eq in Ec; congruence).
      rewrite X. cbn [rbind]. pose proof (proj1 (rows_ok traces n rows) HR) as RS. assert (MT : mat n = rows) by (unfold mat; rewrite RS; reflexivity).
      unfold rbind in RS. unfold rbind at 1. destruct (sequence _) as [r|]; [|discriminate]. unfold rbind. rewrite RS.
      assert (FI : find_index T (fun sec => existsb (matches T n) (s_arrays T sec)) (state P) = Some i).
      { eapply find_index_spec.
        - unfold state. rewrite nth_error_imap, Hs. cbn [option_map Nat.add]. reflexivity.
        - cbn [s_arrays]. rewrite existsb_filter, (filter_state i a n P i s HP Hi En Hs), Nat.eqb_refl. reflexivity.
        - intros k e Hk He. unfold state in He. rewrite nth_error_imap in He. destruct (nth_error f k) as [sk|] eqn:Ek; [|discriminate]. cbn [option_map Nat.add] in He. injection He as <-. cbn [s_arrays].
          rewrite existsb_filter, (filter_state i a n P k sk HP Hi En Ek). destruct (Nat.eqb_spec k i); [lia|]. reflexivity. }
      rewrite FI.
      assert (FA : find_array T n (state P) = Some a).
      { unfold find_array. rewrite find_filter, filter_concat, map_map. unfold state. rewrite imap_map. cbn [s_arrays].
        rewrite (imap_ext _ (fun k _ => if Nat.eqb k i then [a] else [])).
        - rewrite concat_single; [reflexivity|]. split; [lia|]. cbn. apply nth_error_Some. congruence.
        - intros k sk Hk. cbn [Nat.add]. rewrite (filter_state i a n P k sk HP Hi En Hk). destruct (Nat.eqb k i); [|reflexivity]. cbn. rewrite NPa, andb_false_r. reflexivity. }
      rewrite FA. cbv zeta.
      set (f1 := if use_mean then _ else _).
      assert (PR : forall x, processed (P ++ [(i, a)]) x = processed P x || matches T n x).
      { intros x. unfold processed. rewrite existsb_app. cbn [existsb snd]. unfold nm_of at 2. rewrite En, orb_false_r. reflexivity. }
      assert (E1 : f1 = imap (fun j s => mk_s T (s_tag _ s) (rev (map (fun p => acc_array (snd p)) (filter (goes j) P)) ++
        map (fun x => if use_mean && processed (P ++ [(i, a)]) x then mean_array x else x) (s_arrays _ s))) 0 f).
      { unfold f1. clear f1 FI FA. set (b := use_mean) at 1. assert (UM : use_mean = b) by reflexivity. clearbody b. destruct b.
        - unfold state. rewrite update_at_imap. apply imap_ext. intros k sk Hk. cbn [Nat.add]. pose proof (filter_state i a n P k sk HP Hi En Hk) as FS.
          pose proof (filter_in_section i a n sk k Hi En Hk) as FK. destruct (Nat.eqb_spec k i) as [->|N].
          + cbn [s_tag s_arrays]. f_equal. rewrite set_first_map by (rewrite FS; cbn; lia). rewrite map_app. f_equal.
            * rewrite <- (map_id (rev _)) at 2. apply map_ext_in. intros x Hx. apply in_rev, in_map_iff in Hx as (p & <- & Hp). apply filter_In in Hp as [Hp _].
              rewrite matches_acc; [reflexivity|apply HP, Hp|exists (i, a); auto].
            * rewrite map_map. apply map_ext_in. intros x _. rewrite matches_kept, PR, UM. cbn [andb]. destruct (matches T n x) eqn:M.
              -- rewrite orb_true_r. apply matches_iff in M as [M1 M2]. unfold mean_array, nm_of. rewrite M2, MT. destruct (processed P x); cbn [a_f32 a_name a_rest]; rewrite ?M2; reflexivity.
              -- rewrite orb_false_r. reflexivity.
          + f_equal. f_equal. apply map_ext_in. intros x Hx. rewrite PR. destruct (matches T n x) eqn:M; [|rewrite orb_false_r; reflexivity]. exfalso.
            assert (In x (filter (matches T n) (s_arrays T sk))) as I by (apply filter_In; auto). rewrite FK in I. destruct I.
        - unfold state. apply imap_ext. intros k sk Hk. rewrite UM. reflexivity. }
      rewrite E1. rewrite nth_error_imap, Hs. cbn [option_map Nat.add s_tag].
      assert (FT : forall (g : nat -> section -> list array) q l j, find_index T (fun sec => text_eqb (s_tag _ sec) q) (imap (fun j s => mk_s T (s_tag _ s) (g j s)) j l) = find_index T (fun sec => text_eqb (s_tag _ sec) q) l).
      { clear. intros g q. induction l as [|x l IH]; intros j; [reflexivity|]. cbn. rewrite IH. reflexivity. }
      assert (GO : forall k, goes k (i, a) = Nat.eqb k d) by (intros k; unfold goes; cbn [fst]; rewrite Dd; apply Nat.eqb_sym).
      rewrite FT. unfold dest in Dd. rewrite Hs in Dd. rewrite Dd. f_equal. rewrite update_at_imap. unfold state. apply imap_ext. intros k sk Hk. cbn [Nat.add s_tag s_arrays].
      rewrite filter_app. cbn [filter]. rewrite GO. destruct (Nat.eqb k d); [|rewrite app_nil_r; reflexivity].
      f_equal. rewrite map_app, rev_app_distr. cbn [map rev app snd]. f_equal. unfold acc_array, nm_of. rewrite En, F, MT. reflexivity.
    Qed.
    Lemma merge_state l : forall P, floats f = P ++ l -> merge_names T parse print true use_std use_mean traces (map (fun p => a_name _ (snd p)) l) (state P) = Good (state (floats f)).
    Proof.
      induction l as [|[i a] l IH]; intros P E; [rewrite app_nil_r in E; rewrite E; reflexivity|]. cbn [map merge_names snd]. rewrite (step_state P i a).
      - cbn [rbind]. apply IH. rewrite E, <- app_assoc. reflexivity.
      - intros x Hx. rewrite E. apply in_or_app. auto.
      - rewrite E. apply in_or_app. right. left. reflexivity.
      - destruct G as (_ & ND & _). rewrite E, map_app in ND. cbn in ND. apply NoDup_remove_2 in ND. intros I. apply ND. apply in_or_app. left. exact I.
    Qed.
    Lemma state_nil : state [] = f.
    Proof.
      unfold state. cbn [filter map rev app]. assert (H : forall f j, imap (fun (_ : nat) s => mk_s T (s_tag _ s) (map (fun a => if use_mean && processed [] a then mean_array a else a) (s_arrays _ s))) j f = f); [|apply H].
      clear. intros f0; induction f0 as [|[t l] f0 IH]; intros j; [reflexivity|]. cbn [imap s_tag s_arrays]. rewrite IH. f_equal. f_equal. rewrite <- (map_id l) at 2. apply map_ext. intros x. cbn. rewrite andb_false_r. reflexivity.
    Qed.
    Lemma merge_ok : merge_vtu T parse print true use_std use_mean traces f = Good (state (floats f)).
    Proof. unfold merge_vtu. rewrite names_floats. pose proof (merge_state (floats f) [] eq_refl) as H. rewrite state_nil in H. exact H. Qed.
    Lemma mat_rows n rows : the_rows traces n rows -> mat n = rows.
    Proof. intros H. apply rows_ok in H. unfold mat. rewrite H. reflexivity. Qed.
  End Loop.

  (** For every input file and traces such that the Float32 arrays have distinct names without quotes (and none is the accuracy of
      another), each found with the same number of readable values in all traces, and PointData exists if an array is below Points:
      the Python 2 tool succeeds, and in the output every section has its arrays, in order and unchanged (but for the values
      replaced by the means with --mean), after one accuracy array for each Float32 array that has its home there, last one first,
      and nothing else. *)
  Theorem C98_structure_partial : forall use_std use_mean traces (f : file), good traces f ->
    exists f', merge_vtu T parse print true use_std use_mean traces f = Good f' /\ length f' = length f /\
    forall j s, nth_error f j = Some s -> exists s' new old, nth_error f' j = Some s' /\ s_tag _ s' = s_tag _ s /\ s_arrays _ s' = new ++ old /\
      Forall2 (kept use_mean traces) (s_arrays _ s) old /\
      exists here, Forall2 (fun p b => accuracy_of (if use_std then std else digits) traces (snd p) b) here (rev new) /\
        NoDup here /\ (exists p, here = filter p (floats f)) /\ forall i a, In (i, a) here <-> In (i, a) (floats f) /\ home f i j.
  Proof.
    intros use_std use_mean traces f G. exists (state use_std use_mean traces f (floats f)). split; [apply merge_ok, G|]. split; [apply imap_length|].
    intros j s Hj. unfold state. rewrite nth_error_imap, Hj. cbn [option_map Nat.add]. eexists _, _, _. split; [reflexivity|]. cbn [s_tag s_arrays]. split; [reflexivity|]. split; [reflexivity|].
    split.
    - assert (K : forall l, incl l (s_arrays _ s) -> Forall2 (kept use_mean traces) l (map (fun a => if use_mean && processed (floats f) a then mean_array traces a else a) l)).
      { induction l as [|a l IH]; intros I; [constructor|]. cbn [map]. constructor; [|apply IH; intros x Hx; apply I; right; exact Hx]. unfold kept. destruct use_mean; cbn [andb]; [|reflexivity].
        assert (PF : processed (floats f) a = a_f32 _ a).
        { unfold processed. destruct (a_f32 _ a) eqn:F.
          - apply existsb_exists. exists (j, a). assert (IF : In (j, a) (floats f)) by (apply floats_in; split; [apply in_located; exists s; split; [exact Hj|apply I; left; reflexivity]|exact F]).
            split; [exact IF|]. destruct G as (G1 & _). destruct (G1 j a IF) as (n & En & _). apply matches_iff. cbn [snd]. unfold nm_of. rewrite En. auto.
          - destruct (existsb _ _) eqn:E; [|reflexivity]. apply existsb_exists in E as (p & _ & M). apply matches_iff in M as [M _]. congruence. }
        rewrite PF. destruct (a_f32 _ a) eqn:F; [|reflexivity].
        assert (IF : In (j, a) (floats f)) by (apply floats_in; split; [apply in_located; exists s; split; [exact Hj|apply I; left; reflexivity]|exact F]).
        destruct G as (G1 & _). destruct (G1 j a IF) as (n & En & _ & (rows & HR) & _). exists n, rows, (columnwise mean rows). split; [exact En|]. split; [exact HR|]. split; [eapply columnwise_ok, HR|].
        unfold mean_array, nm_of. rewrite En, (mat_rows _ _ _ HR), F. reflexivity. }
      apply K. intros x Hx. exact Hx.
    - exists (filter (goes f j) (floats f)). rewrite rev_involutive. split; [|split; [|split; [exists (goes f j); reflexivity|]]].
      + assert (K : forall l, incl l (floats f) -> Forall2 (fun p b => accuracy_of (if use_std then std else digits) traces (snd p) b) l (map (fun p => acc_array use_std traces (snd p)) l)).
        { induction l as [|[i a] l IH]; intros I; [constructor|]. cbn [map]. constructor; [|apply IH; intros x Hx; apply I; right; exact Hx]. cbn [snd].
          destruct G as (G1 & _). destruct (G1 i a (I _ (or_introl eq_refl))) as (n & En & _ & (rows & HR) & _). exists n, rows, (columnwise (if use_std then std else digits) rows).
          split; [exact En|]. split; [exact HR|]. split; [eapply columnwise_ok, HR|]. unfold acc_array, nm_of. rewrite En, (mat_rows _ _ _ HR). reflexivity. }
        apply K. intros x Hx. apply filter_In in Hx. apply Hx.
      + apply NoDup_filter. destruct G as (_ & ND & _). eapply NoDup_map_inv. exact ND.
      + intros i a. rewrite filter_In. unfold goes. cbn [fst]. split.
        * intros [I E]. split; [exact I|]. destruct G as (G1 & _). destruct (G1 i a I) as (_ & _ & _ & _ & (d & Hd)). rewrite (home_dest _ _ _ Hd) in E. apply Nat.eqb_eq in E. subst d. exact Hd.
        * intros [I H]. split; [exact I|]. rewrite (home_dest _ _ _ H). apply Nat.eqb_refl.
  Qed.

  (** With Python 3 (vtk/__main__.py, the installed vfc_vtk) no file with a Float32 array can be processed. *)
  Theorem C98_python3_refuted : forall use_std use_mean traces (f : file), (exists j s a, nth_error f j = Some s /\ In a (s_arrays _ s) /\ a_f32 _ a = true) ->
    merge_vtu T parse print false use_std use_mean traces f = Bad.
  Proof.
    intros use_std use_mean traces f (j & s & a & Hj & Ha & F). unfold merge_vtu. destruct (names T f) as [|n l] eqn:E.
    - exfalso. rewrite names_floats in E. assert (I : In (j, a) (floats f)) by (apply filter_In; split; [apply in_located; exists s; auto|exact F]). apply map_eq_nil in E. rewrite E in I. destruct I.
    - cbn [merge_names]. assert (B : merge_name T parse print false use_std use_mean traces f n = Bad); [|rewrite B; reflexivity].
      unfold merge_name. destruct (format_name n) as [nm|]; [|reflexivity]. cbn [rbind]. destruct (sequence _) as [r|]; [|reflexivity]. cbn [rbind]. destruct (stack r); [|reflexivity]. cbn [rbind].
      destruct (find_index _ _ _); [|reflexivity]. destruct (find_array _ _ _); [|reflexivity]. destruct n; reflexivity.
  Qed.

  (** Arrays of another type (Float64) get nothing: a file with no Float32 array is left as it is. *)
  Theorem C98_float64_refuted : forall has_copy use_std use_mean traces (f : file), (forall j s a, nth_error f j = Some s -> In a (s_arrays _ s) -> a_f32 _ a = false) ->
    merge_vtu T parse print has_copy use_std use_mean traces f = Good f.
  Proof.
    intros has_copy use_std use_mean traces f H. unfold merge_vtu. rewrite names_floats. destruct (floats f) as [|[i a] l] eqn:E; [reflexivity|]. exfalso.
    assert (I : In (i, a) (floats f)) by (rewrite E; left; reflexivity). apply filter_In in I as [I F]. apply in_located in I as (s & Hs & Ha). cbn [snd] in F. rewrite (H i s a Hs Ha) in F. discriminate.
  Qed.

  Lemma merge_all_ok has_copy use_std use_mean dirs : forall todo done out, NoDup (map fst (done ++ todo)) -> 
    map fst out = map fst done ->
    let '(st, o) := merge_all T parse print has_copy use_std use_mean dirs todo (out ++ todo) in
    (st = Done -> exists r, o = out ++ r /\ Forall2 (fun p q => fst q = fst p /\ merge_vtu T parse print has_copy use_std use_mean (map (lookup T (fst p)) dirs) (snd p) = Good (snd q)) todo r) /\
    (st <> Done -> st = Exception /\ exists nm f, In (nm, f) todo /\ merge_vtu T parse print has_copy use_std use_mean (map (lookup T nm) dirs) f = Bad).
  Proof.
    induction todo as [|[nm f] todo IH]; intros done out N K; cbn [merge_all].
    - split; [|congruence]. intros _. exists []. split; [reflexivity|constructor].
    - destruct (merge_vtu _ _ _ _ _ _ _ f) as [f'|] eqn:E.
      + assert (U : map (fun p : list Z * file => if text_eqb (fst p) nm then (fst p, f') else p) (out ++ (nm, f) :: todo) = (out ++ [(nm, f')]) ++ todo).
        { rewrite map_app in N. cbn [map fst] in N. apply NoDup_remove_2 in N. rewrite in_app_iff in N.
          assert (Q : forall l : dir T, ~ In nm (map fst l) -> map (fun p : list Z * file => if text_eqb (fst p) nm then (fst p, f') else p) l = l).
          { induction l as [|[k g] l IHl]; intros H; [reflexivity|]. cbn [map fst] in *. unfold text_eqb at 1. destruct (list_eq_dec Z.eq_dec k nm); [exfalso; apply H; left; assumption|]. f_equal. apply IHl. intros J. apply H. right. exact J. }
          rewrite map_app. cbn [map fst]. rewrite (Q todo) by tauto. rewrite (Q out) by (rewrite K; tauto). unfold text_eqb. destruct (list_eq_dec Z.eq_dec nm nm); [|congruence]. rewrite <- app_assoc. reflexivity. }
        rewrite U. specialize (IH (done ++ [(nm, f)]) (out ++ [(nm, f')])). rewrite <- app_assoc in IH. specialize (IH N). rewrite !map_app in IH. rewrite K in IH. specialize (IH eq_refl).
        destruct (merge_all _ _ _ _ _ _ _ todo _) as [st o]. destruct IH as [I1 I2]. split.
        * intros H. destruct (I1 H) as (r & -> & F). exists ((nm, f') :: r). rewrite <- app_assoc. split; [reflexivity|]. constructor; [split; [reflexivity|exact E]|exact F].
        * intros H. destruct (I2 H) as (A & nm' & g & J & B). split; [exact A|]. exists nm', g. split; [right; exact J|exact B].
      + split; [discriminate|]. intros _. split; [reflexivity|]. exists nm, f. split; [left; reflexivity|exact E].
  Qed.
  (** The whole tool: never touches an existing output directory, fails without traces; when it ends well every file of the first
      directory has been merged with the files of its name, and it fails only when one of them cannot be merged. *)
  Theorem C98_postprocess : forall has_copy use_std use_mean reference exists_out (dirs : list (dir T)),
    let '(st, out) := postprocess T parse print has_copy use_std use_mean reference exists_out dirs in
    (dirs = [] -> st = Code 2 /\ out = None) /\ (dirs <> [] -> exists_out = true -> st = Code 3 /\ out = None) /\
    (forall o, out = Some o -> exists_out = false /\ reference = false /\ exists d ds, dirs = d :: ds /\ map fst o = map fst d /\
      (NoDup (map fst d) ->
       (st = Done -> Forall2 (fun p q => fst q = fst p /\ merge_vtu T parse print has_copy use_std use_mean (map (lookup T (fst p)) dirs) (snd p) = Good (snd q)) d o) /\
       (st <> Done -> st = Exception /\ exists nm f, In (nm, f) d /\ merge_vtu T parse print has_copy use_std use_mean (map (lookup T nm) dirs) f = Bad))).
  Proof.
    intros has_copy use_std use_mean reference exists_out dirs. unfold postprocess. destruct dirs as [|d ds]; [split; [auto|split; [congruence|discriminate]]|].
    destruct exists_out; [split; [discriminate|split; [auto|discriminate]]|]. destruct reference; [destruct d; (split; [discriminate|split; [discriminate|discriminate]])|].
    assert (K : forall todo out, map fst (snd (merge_all T parse print has_copy use_std use_mean (d :: ds) todo out)) = map fst out).
    { induction todo as [|[nm f] todo IH]; intros out; [reflexivity|]. cbn [merge_all]. destruct (merge_vtu _ _ _ _ _ _ _ f); [|reflexivity]. rewrite IH, map_map. apply map_ext. intros p. destruct (text_eqb _ _); reflexivity. }
    specialize (K d d). pose proof (fun N => merge_all_ok has_copy use_std use_mean (d :: ds) d [] [] N eq_refl) as G. cbn [app] in G.
    destruct (merge_all _ _ _ _ _ _ _ d d) as [st o]. split; [discriminate|]. split; [discriminate|]. intros o' [= <-]. split; [reflexivity|]. split; [reflexivity|]. exists d, ds. split; [reflexivity|]. split; [exact K|].
    intros N. destruct (G N) as [G1 G2]. split; [|exact G2]. intros H. destruct (G1 H) as (r & -> & F). exact F.
  Qed.
  Theorem C98_reference_refuted : forall has_copy use_std use_mean (dirs : list (dir T)) nm f d ds, dirs = ((nm, f) :: d) :: ds ->
    postprocess T parse print has_copy use_std use_mean true false dirs = (Exception, None).
  Proof. intros; subst; reflexivity. Qed.
End Structure.
Print Assumptions C98_structure_partial.
Print Assumptions C98_python3_refuted.
Print Assumptions C98_float64_refuted.
Print Assumptions C98_postprocess.
Print Assumptions C98_reference_refuted.

(** Two arrays with the same name (in PointData and CellData, or in two pieces): the first one gets two accuracy arrays, the second
    none. *)
Definition u_at (t : nat) : array nat := mk_a nat true (Some (bytes "u")) [] t.
Definition doubled : file nat := [mk_s nat (bytes "PointData") [u_at 1%nat]; mk_s nat (bytes "CellData") [u_at 2%nat]].
Definition twice : file nat := [mk_s nat (bytes "PointData") [u_at 1%nat; u_at 2%nat]].
Theorem C98_same_name_refuted : exists a, a_name _ a = Some (bytes "u_vfc_accuracy") /\
  merge_vtu nat (fun _ => Some []) (fun _ => O) true false false [Some doubled] doubled =
  Good [mk_s nat (bytes "PointData") [a; a; u_at 1%nat]; mk_s nat (bytes "CellData") [u_at 2%nat]] /\
  (** ... and with --mean only the first one is replaced *)
  merge_vtu nat (fun _ => Some []) (fun _ => O) true false true [Some twice] twice = Good [mk_s nat (bytes "PointData") [a; a; u_at 0%nat; u_at 2%nat]].
Proof. exists (mk_a nat true (Some (bytes "u_vfc_accuracy")) [] O). repeat split; reflexivity. Qed.
Print Assumptions C98_same_name_refuted.
(** An array below Points in a file without PointData: the tool fails. *)
Theorem C98_points_refuted : let f := [mk_s nat (bytes "Points") [u_at 1%nat]] in
  merge_vtu nat (fun _ => Some []) (fun _ => O) true false false [Some f] f = Bad.
Proof. reflexivity. Qed.
Print Assumptions C98_points_refuted.

(** a file with coordinates below Points, a scalar in each of PointData and CellData and an array of another type *)
Definition named (n : string) (t : nat) : array nat := mk_a nat true (Some (bytes n)) [(bytes "format", bytes "ascii")] t.
Definition sample : file nat :=
  [mk_s nat (bytes "PointData") [named "p" 1%nat]; mk_s nat (bytes "CellData") [mk_a nat false (Some (bytes "id")) [] 7%nat; named "q" 2%nat]; mk_s nat (bytes "Points") [named "xyz" 3%nat]].
Definition values (t : nat) : option (list R) := Some [INR t].
Example C98_nonvacuous : good values [Some sample; Some sample] sample /\
  exists a b c, merge_vtu nat values (fun _ => O) true false false [Some sample; Some sample] sample =
  Good [mk_s nat (bytes "PointData") [a; b; named "p" 1%nat]; mk_s nat (bytes "CellData") [c; mk_a nat false (Some (bytes "id")) [] 7%nat; named "q" 2%nat]; mk_s nat (bytes "Points") [named "xyz" 3%nat]] /\
  a_name _ a = Some (bytes "xyz_vfc_accuracy") /\ a_name _ b = Some (bytes "p_vfc_accuracy") /\ a_name _ c = Some (bytes "q_vfc_accuracy").
Proof.
  split; [|eexists _, _, _; split; [reflexivity|split; [reflexivity|split; reflexivity]]].
  assert (FL : floats sample = [(0%nat, named "p" 1%nat); (1%nat, named "q" 2%nat); (2%nat, named "xyz" 3%nat)]) by reflexivity. unfold good. rewrite FL. split; [|split].
  - intros i a [H|[H|[H|[]]]]; injection H as <- <-; eexists; (split; [reflexivity|]); (split; [intros I; vm_compute in I; intuition discriminate|]); split.
    + exists [[INR 1%nat]; [INR 1%nat]]. refine (proj2 (rows_ok _ (fun _ : list R => O) _ _ _) _). reflexivity.
    + exists O. eexists. split; [reflexivity|]. left. split; [discriminate|reflexivity].
    + exists [[INR 2%nat]; [INR 2%nat]]. refine (proj2 (rows_ok _ (fun _ : list R => O) _ _ _) _). reflexivity.
    + exists 1%nat. eexists. split; [reflexivity|]. left. split; [discriminate|reflexivity].
    + exists [[INR 3%nat]; [INR 3%nat]]. refine (proj2 (rows_ok _ (fun _ : list R => O) _ _ _) _). reflexivity.
    + exists O. eexists. split; [reflexivity|]. right. split; [reflexivity|]. eexists. split; [reflexivity|]. split; [reflexivity|]. intros k e Hk. lia.
  - cbn. repeat constructor; cbn; intuition discriminate.
  - intros p q n m [<-|[<-|[<-|[]]]] [<-|[<-|[<-|[]]]]; cbn [snd a_name named]; intros [= <-] [= <-]; discriminate.
Qed.

(** * C99: the accuracy of one value *)
Open Scope R_scope.
Lemma rsum_map_ext g h l : (forall x : R, In x l -> g x = h x) -> rsum (map g l) = rsum (map h l).
Proof. intros H. f_equal. apply map_ext_in. exact H. Qed.
Lemma rsum_scale k l : rsum (map (Rmult k) l) = k * rsum l.
Proof. induction l as [|x l IH]; cbn; [ring|]. unfold rsum in *. cbn. rewrite IH. ring. Qed.
Lemma rsum_le g h (l : list R) : (forall x, In x l -> g x <= h x) -> rsum (map g l) <= rsum (map h l).
Proof. induction l as [|x l IH]; intros H; cbn; [lra|]. pose proof (H x (or_introl eq_refl)). assert (rsum (map g l) <= rsum (map h l)) by (apply IH; intros y Hy; apply H; right; exact Hy). unfold rsum in *. cbn. lra. Qed.
Lemma rsum_lt g h (l : list R) : l <> [] -> (forall x, In x l -> g x < h x) -> rsum (map g l) < rsum (map h l).
Proof.
  intros N H. destruct l as [|x l]; [congruence|]. pose proof (H x (or_introl eq_refl)). assert (rsum (map g l) <= rsum (map h l)) by (apply rsum_le; intros y Hy; apply Rlt_le, H; right; exact Hy). unfold rsum in *. cbn. lra.
Qed.
Lemma rsum_const (c : R) (l : list R) : rsum (map (fun _ => c) l) = INR (length l) * c.
Proof. induction l as [|x l IH]; [cbn; ring|]. cbn [map length]. rewrite S_INR. unfold rsum in *. cbn [fold_right]. rewrite IH. ring. Qed.
Lemma rsum_member g (l : list R) x : (forall y, 0 <= g y) -> In x l -> g x <= rsum (map g l).
Proof.
  intros P. induction l as [|y l IH]; [intros []|]. intros [->|H]; unfold rsum in *; cbn.
  - assert (0 <= fold_right Rplus 0 (map g l)) by (clear - P; induction l as [|z l IH]; cbn; [lra|]; specialize (P z); lra). lra.
  - specialize (IH H). specialize (P y). lra.
Qed.
Lemma len_pos (l : list R) : l <> [] -> 0 < INR (length l).
Proof. intros N. apply lt_0_INR. destruct l; [congruence|cbn; lia]. Qed.
Lemma mean_len l : l <> [] -> INR (length l) * mean l = rsum l.
Proof. intros N. unfold mean. field. apply Rgt_not_eq, len_pos, N. Qed.
Definition dev2 (l : list R) (x : R) : R := (x - mean l) * (x - mean l).
Lemma var_nonneg l : 0 <= rsum (map (dev2 l) l).
Proof. assert (H : rsum (map (fun _ => 0) l) <= rsum (map (dev2 l) l)) by (apply rsum_le; intros x _; unfold dev2; apply Rle_0_sqr). rewrite rsum_const, Rmult_0_r in H. exact H. Qed.
Lemma std_sq l : l <> [] -> 0 <= std l /\ INR (length l) * (std l * std l) = rsum (map (dev2 l) l).
Proof.
  intros N. split; [apply sqrt_pos|]. unfold std. fold (dev2 l). rewrite sqrt_sqrt; [field; apply Rgt_not_eq, len_pos, N|].
  apply Rmult_le_pos; [apply var_nonneg|]. apply Rlt_le, Rinv_0_lt_compat, len_pos, N.
Qed.

(** The mean: between the smallest and the largest value, with deviations that sum to 0. The standard deviation: no value is
    further from the mean than sqrt(n) times it, and some value is at least that far. *)
Theorem C99_mean_std : forall l, l <> [] ->
  rsum (map (fun x => x - mean l) l) = 0 /\ (forall lo hi, (forall x, In x l -> lo <= x <= hi) -> lo <= mean l <= hi) /\
  0 <= std l /\ (forall x, In x l -> Rabs (x - mean l) <= sqrt (INR (length l)) * std l) /\ (exists x, In x l /\ std l <= Rabs (x - mean l)).
Proof.
  intros l N. pose proof (len_pos l N) as L. pose proof (mean_len l N) as M. destruct (std_sq l N) as [S0 S2]. split; [|split; [|split; [exact S0|split]]].
  - assert (H : rsum (map (fun x => x - mean l) l) = rsum l - INR (length l) * mean l); [|lra]. clear. generalize (mean l). intros m. induction l as [|x l IH]; [cbn; ring|]. cbn [map length]. rewrite S_INR. unfold rsum in *. cbn [fold_right]. rewrite IH. ring.
  - intros lo hi B. assert (H1 : rsum (map (fun _ => lo) l) <= rsum (map (fun x => x) l)) by (apply rsum_le; intros x Hx; apply B, Hx).
    assert (H2 : rsum (map (fun x => x) l) <= rsum (map (fun _ => hi) l)) by (apply rsum_le; intros x Hx; apply B, Hx). rewrite map_id in *. rewrite rsum_const in H1, H2. rewrite <- M in H1, H2.
    split; apply Rmult_le_reg_l with (INR (length l)); assumption.
  - intros x Hx. pose proof (rsum_member (dev2 l) l x (fun y => ltac:(unfold dev2; apply Rle_0_sqr)) Hx) as D. rewrite <- S2 in D. unfold dev2 in D.
    pose proof (sqrt_pos (INR (length l))) as Q0. pose proof (sqrt_sqrt (INR (length l)) (Rlt_le _ _ L)) as Q2.
    apply Rabs_le. assert (P : 0 <= sqrt (INR (length l)) * std l) by (apply Rmult_le_pos; assumption).
    assert (E : (x - mean l) * (x - mean l) <= (sqrt (INR (length l)) * std l) * (sqrt (INR (length l)) * std l)) by (replace (sqrt (INR (length l)) * std l * (sqrt (INR (length l)) * std l)) with (sqrt (INR (length l)) * sqrt (INR (length l)) * (std l * std l)) by ring; rewrite Q2; exact D).
    split; nra.
  - destruct (existsb (fun x => if Rle_dec (std l) (Rabs (x - mean l)) then true else false) l) eqn:E.
    + apply existsb_exists in E as (x & Hx & E). exists x. split; [exact Hx|]. destruct (Rle_dec _ _); [assumption|discriminate].
    + exfalso. assert (H : rsum (map (dev2 l) l) < rsum (map (fun _ => std l * std l) l)).
      { apply rsum_lt; [exact N|]. intros x Hx. assert (A : Rabs (x - mean l) < std l).
        { destruct (Rle_dec (std l) (Rabs (x - mean l))) as [C|C]; [|lra]. exfalso. assert (T : existsb (fun x => if Rle_dec (std l) (Rabs (x - mean l)) then true else false) l = true); [|congruence].
          apply existsb_exists. exists x. split; [exact Hx|]. destruct (Rle_dec _ _); [reflexivity|contradiction]. }
        unfold dev2. apply Rabs_def2 in A. nra. }
      rewrite rsum_const in H. lra.
Qed.
Print Assumptions C99_mean_std.

Lemma ln10_pos : 0 < ln 10.
Proof. rewrite <- ln_1. apply ln_increasing; lra. Qed.
Lemma log10_power x : 0 < x -> Rpower 10 (log10 x) = x.
Proof. intros H. unfold Rpower, log10. pose proof ln10_pos. replace (ln x / ln 10 * ln 10) with (ln x) by (field; lra). apply exp_ln, H. Qed.
Lemma power_le a b : a <= b -> Rpower 10 a <= Rpower 10 b.
Proof. intros H. apply Rle_Rpower; lra. Qed.

(** The number of digits reported for a value with positive mean: between 0 and 17; every trace is within
    sqrt(n) 10^-s of the mean (relatively) as soon as s > 0, and some trace is at least 10^-s away as soon as s < 17. *)
Theorem C99_digits_partial : forall l, l <> [] -> 0 < mean l ->
  0 <= digits l <= 17 /\
  (0 < digits l -> forall x, In x l -> Rabs (x - mean l) <= sqrt (INR (length l)) * (mean l * Rpower 10 (- digits l))) /\
  (digits l < 17 -> exists x, In x l /\ mean l * Rpower 10 (- digits l) <= Rabs (x - mean l)).
Proof.
  intros l N M. destruct (C99_mean_std l N) as (_ & _ & S0 & S1 & (x0 & Hx0 & S2)). pose proof (sqrt_pos (INR (length l))) as Q0.
  assert (UP : forall s, std l <= mean l * Rpower 10 (- s) -> forall x, In x l -> Rabs (x - mean l) <= sqrt (INR (length l)) * (mean l * Rpower 10 (- s))).
  { intros s H x Hx. eapply Rle_trans; [apply S1, Hx|]. apply Rmult_le_compat_l; assumption. }
  unfold digits. destruct (Req_EM_T (mean l) 0) as [E|_]; [lra|]. destruct (Req_EM_T (std l) 0) as [E|NS].
  - split; [lra|]. split; [|lra]. intros _. apply UP. rewrite E. apply Rmult_le_pos; [lra|]. apply Rlt_le, exp_pos.
  - destruct (Rlt_dec (mean l) 0); [lra|]. cbv zeta. assert (SP : 0 < std l) by lra. assert (QP : 0 < std l / mean l) by (apply Rdiv_lt_0_compat; assumption).
    pose proof (log10_power _ QP) as P. assert (EQ : mean l * Rpower 10 (- - log10 (std l / mean l)) = std l) by (rewrite Ropp_involutive, P; field; lra).
    set (v := - log10 (std l / mean l)) in *. destruct (Rlt_dec v 0) as [V|V].
    + destruct (Rlt_dec 17 0); [lra|]. split; [lra|]. split; [lra|]. intros _. exists x0. split; [exact Hx0|]. eapply Rle_trans; [|exact S2].
      rewrite <- EQ. apply Rmult_le_compat_l; [lra|]. apply power_le. lra.
    + destruct (Rlt_dec 17 v) as [W|W].
      * split; [lra|]. split; [|lra]. intros _. apply UP. rewrite <- EQ. apply Rmult_le_compat_l; [lra|]. apply power_le. lra.
      * split; [lra|]. split; [intros _; apply UP; lra|]. intros _. exists x0. split; [exact Hx0|]. lra.
Qed.
Print Assumptions C99_digits_partial.

(** The result does not depend on the order of the traces nor on the unit of the values. *)
Lemma rsum_perm l l' : Permutation l l' -> rsum l = rsum l'.
Proof. induction 1; unfold rsum in *; cbn; lra. Qed.
Lemma mean_perm l l' : Permutation l l' -> mean l = mean l'.
Proof. intros H. unfold mean. rewrite (rsum_perm _ _ H), (Permutation_length H). reflexivity. Qed.
Lemma std_perm l l' : Permutation l l' -> std l = std l'.
Proof. intros H. unfold std. rewrite (mean_perm _ _ H), (Permutation_length H). rewrite (rsum_perm _ _ (Permutation_map (fun x => (x - mean l') * (x - mean l')) H)). reflexivity. Qed.
Lemma mean_scale k l : mean (map (Rmult k) l) = k * mean l.
Proof. unfold mean. rewrite rsum_scale, map_length. unfold Rdiv. ring. Qed.
Lemma std_scale k l : l <> [] -> 0 <= k -> std (map (Rmult k) l) = k * std l.
Proof.
  intros N K. unfold std. rewrite mean_scale, map_length, map_map. rewrite (rsum_map_ext _ (fun x => (k * k) * ((x - mean l) * (x - mean l)))) by (intros; ring).
  rewrite <- (map_map (fun x => (x - mean l) * (x - mean l)) (Rmult (k * k))), rsum_scale. unfold Rdiv. rewrite Rmult_assoc. rewrite sqrt_mult_alt by (apply Rmult_le_pos; lra). rewrite sqrt_square by lra. reflexivity.
Qed.
Theorem C99_invariant : forall l l' k, l <> [] -> Permutation l l' -> 0 < k -> digits (map (Rmult k) l') = digits l /\ std (map (Rmult k) l') = k * std l /\ mean (map (Rmult k) l') = k * mean l.
Proof.
  intros l l' k N P K. assert (N' : l' <> []) by (intros ->; apply Permutation_sym, Permutation_nil in P; contradiction).
  assert (ES : std (map (Rmult k) l') = k * std l) by (rewrite std_scale by (assumption || lra); rewrite (std_perm _ _ P); reflexivity).
  assert (EM : mean (map (Rmult k) l') = k * mean l) by (rewrite mean_scale, (mean_perm _ _ P); reflexivity). split; [|auto].
  unfold digits. rewrite ES, EM.
  destruct (Req_EM_T (mean l) 0) as [E0|N0]; [rewrite E0; destruct (Req_EM_T (k * 0) 0); [reflexivity|lra]|].
  destruct (Req_EM_T (k * mean l) 0) as [E1|_]; [exfalso; apply Rmult_integral in E1; lra|].
  destruct (Req_EM_T (std l) 0) as [E2|N2]; [rewrite E2; destruct (Req_EM_T (k * 0) 0); [reflexivity|lra]|].
  destruct (Req_EM_T (k * std l) 0) as [E3|_]; [exfalso; apply Rmult_integral in E3; lra|].
  destruct (Rlt_dec (mean l) 0) as [L0|L0]; destruct (Rlt_dec (k * mean l) 0) as [L1|L1]; try reflexivity; try (exfalso; nra).
  cbv zeta. replace (k * std l / (k * mean l)) with (std l / mean l) by (field; split; lra). reflexivity.
Qed.
Print Assumptions C99_invariant.

(** Negative values: the quotient std / mean is negative and has no logarithm; the tool reports no significant digit at all. *)
Theorem C99_negative_refuted : (forall l, l <> [] -> mean l < 0 -> std l <> 0 -> digits l = 0) /\
  digits [999; 1001] = 3 /\ digits [-999; -1001] = 0.
Proof.
  assert (D : forall l, l <> [] -> mean l < 0 -> std l <> 0 -> digits l = 0).
  { intros l N M S. unfold digits. destruct (Req_EM_T (mean l) 0); [lra|]. destruct (Req_EM_T (std l) 0); [contradiction|]. destruct (Rlt_dec (mean l) 0); [reflexivity|contradiction]. }
  assert (M1 : mean [999; 1001] = 1000) by (unfold mean, rsum; cbn; lra). assert (M2 : mean [-999; -1001] = -1000) by (unfold mean, rsum; cbn; lra).
  assert (S1 : std [999; 1001] = 1) by (unfold std; rewrite M1; unfold rsum; cbn; replace (((999 - 1000) * (999 - 1000) + ((1001 - 1000) * (1001 - 1000) + 0)) / (1 + 1)) with 1 by lra; apply sqrt_1).
  assert (S2 : std [-999; -1001] = 1) by (unfold std; rewrite M2; unfold rsum; cbn; replace (((-999 - -1000) * (-999 - -1000) + ((-1001 - -1000) * (-1001 - -1000) + 0)) / (1 + 1)) with 1 by lra; apply sqrt_1).
  split; [exact D|]. split; [|apply D; [discriminate|lra|lra]].
  unfold digits. rewrite M1, S1. destruct (Req_EM_T 1000 0); [lra|]. destruct (Req_EM_T 1 0); [lra|]. destruct (Rlt_dec 1000 0); [lra|]. cbv zeta.
  assert (L : - log10 (1 / 1000) = 3).
  { unfold log10, Rdiv at 2. rewrite Rmult_1_l, ln_Rinv by lra. pose proof ln10_pos. replace 1000 with (10 * (10 * 10)) by lra. rewrite !ln_mult by lra. field. lra. }
  rewrite L. destruct (Rlt_dec 3 0); [lra|]. destruct (Rlt_dec 17 3); lra.
Qed.
Print Assumptions C99_negative_refuted.
(** Exact zeros in all traces are reported with no significant digit. *)
Theorem C99_zero_refuted : forall n, digits (repeat 0 (S n)) = 0 /\ std (repeat 0 (S n)) = 0.
Proof.
  intros n. assert (Z : rsum (repeat 0 (S n)) = 0) by (induction (S n) as [|k IH]; unfold rsum in *; cbn; [reflexivity|rewrite IH; ring]).
  assert (M : mean (repeat 0 (S n)) = 0) by (unfold mean; rewrite Z; unfold Rdiv; ring).
  split; [unfold digits; rewrite M; destruct (Req_EM_T 0 0); [reflexivity|congruence]|].
  unfold std. rewrite M. replace (map (fun x => (x - 0) * (x - 0)) (repeat 0 (S n))) with (repeat 0 (S n)); [rewrite Z; unfold Rdiv; rewrite Rmult_0_l; apply sqrt_0|].
  clear Z M. induction (S n) as [|k IH]; [reflexivity|]. cbn. f_equal; [ring|exact IH].
Qed.
Print Assumptions C99_zero_refuted.
Example C99_nonvacuous : 0 < mean [999; 1001] /\ 0 < digits [999; 1001] < 17.
Proof. destruct C99_negative_refuted as (_ & D & _). rewrite D. unfold mean, rsum. cbn. lra. Qed.
