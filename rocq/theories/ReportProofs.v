(** Proofs about the selection of the runs, their names and the compare view. *)
From Coq Require Import String ZArith List Bool Reals Lia Sorted Permutation.
From Verif Require Import Text DDModel ReportModel.
From Verif Require VfiModel VfiFile CiHex.
Import ListNotations.
Open Scope Z_scope.
Open Scope py_scope.

Lemma text_eqb_spec a b : reflect (a = b) (text_eqb a b).
Proof. unfold text_eqb. destruct (text_dec a b); constructor; assumption. Qed.
Lemma text_eqb_refl a : text_eqb a a = true.
Proof. destruct (text_eqb_spec a a); congruence. Qed.

(** * Chronological order *)
Section Sorting.
  Context {A : Type} (time : A -> Z).
  Fixpoint ins (m : A) (l : list A) : list A :=
    match l with [] => [m] | x :: l' => if time m <=? time x then m :: l else x :: ins m l' end.
  Lemma ins_perm m l : Permutation (ins m l) (m :: l).
  Proof. induction l as [|x l IH]; cbn; [reflexivity|]. destruct (_ <=? _); [reflexivity|]. rewrite IH. constructor. Qed.
  Lemma sort_perm l : Permutation (fold_right ins [] l) l.
  Proof. induction l as [|x l IH]; cbn; [constructor|]. rewrite ins_perm, IH. reflexivity. Qed.
  Lemma ins_sorted m l : StronglySorted Z.le (map time l) -> StronglySorted Z.le (map time (ins m l)).
  Proof.
    induction l as [|x l IH]; cbn; intros S; [repeat constructor|]. inversion S as [|? ? S1 S2]; subst.
    destruct (Z.leb_spec (time m) (time x)); cbn.
    - constructor; [exact S|]. constructor; [assumption|]. eapply Forall_impl; [|exact S2]. cbn. lia.
    - constructor; [auto|]. rewrite Forall_forall in *. intros y Hy. apply in_map_iff in Hy. destruct Hy as (a & <- & Ha).
      apply (Permutation_in _ (ins_perm m l)) in Ha. destruct Ha as [-> | Ha]; [lia|]. apply S2. apply in_map. exact Ha.
  Qed.
  Lemma sort_sorted l : StronglySorted Z.le (map time (fold_right ins [] l)).
  Proof. induction l; cbn; [constructor|]. apply ins_sorted. assumption. Qed.
  Lemma sorted_strict l : StronglySorted Z.le (map time l) -> NoDup (map time l) -> StronglySorted Z.lt (map time l).
  Proof.
    induction l as [|x l IH]; cbn; intros S N; [constructor|]. inversion S as [|? ? S1 S2]; inversion N as [|? ? N1 N2]; subst.
    constructor; [auto|]. rewrite Forall_forall in *. intros y Hy. specialize (S2 y Hy).
    destruct (Z.eq_dec (time x) y) as [E|]; [rewrite E in N1; contradiction|lia].
  Qed.
  Lemma sort_strict l : NoDup (map time l) -> StronglySorted Z.lt (map time (fold_right ins [] l)).
  Proof.
    intros N. apply sorted_strict; [apply sort_sorted|]. eapply Permutation_NoDup; [|exact N].
    apply Permutation_map. symmetry. apply sort_perm.
  Qed.
End Sorting.
Lemma sort_meta_eq l : sort_meta l = fold_right (ins m_time) [] l.
Proof.
  assert (E : forall m k, insert_meta m k = ins m_time m k) by (induction k as [|x k IH]; cbn; [reflexivity|destruct (_ <=? _); congruence]).
  unfold sort_meta. induction l as [|x l IH]; cbn; [reflexivity|]. rewrite E, IH. reflexivity.
Qed.
Lemma sort_rows_eq l : sort_rows l = fold_right (ins w_time) [] l.
Proof.
  assert (E : forall m k, insert_row m k = ins w_time m k) by (induction k as [|x k IH]; cbn; [reflexivity|destruct (_ <=? _); congruence]).
  unfold sort_rows. induction l as [|x l IH]; cbn; [reflexivity|]. rewrite E, IH. reflexivity.
Qed.

(** positions in a strictly increasing list *)

Lemma filter_none {A} (p : A -> bool) l : Forall (fun x => p x = false) l -> filter p l = [].
Proof. induction 1 as [|x l H _ IH]; cbn; [reflexivity|]. rewrite H. exact IH. Qed.
Lemma filter_all {A} (p : A -> bool) l : Forall (fun x => p x = true) l -> filter p l = l.
Proof. induction 1 as [|x l H _ IH]; cbn; [reflexivity|]. rewrite H, IH. reflexivity. Qed.
Lemma count_older l : StronglySorted Z.lt l -> forall i t, nth_error l i = Some t -> length (filter (fun x => x <? t) l) = i.
Proof.
  induction 1 as [|x l S IH F]; intros i t; destruct i; cbn; try discriminate.
  - intros [= ->]. rewrite Z.ltb_irrefl, filter_none; [reflexivity|]. eapply Forall_impl; [|exact F]. cbn. intros; apply Z.ltb_ge; lia.
  - intros E. rewrite Forall_forall in F. pose proof (F t (nth_error_In _ _ E)).
    destruct (Z.ltb_spec x t); [|lia]. cbn. f_equal. apply IH. exact E.
Qed.
Lemma count_newer l : StronglySorted Z.lt l -> forall i t, nth_error l i = Some t -> length (filter (fun x => t <? x) l) = (length l - 1 - i)%nat.
Proof.
  induction 1 as [|x l S IH F]; intros i t; destruct i; cbn; try discriminate.
  - intros [= ->]. rewrite Z.ltb_irrefl, filter_all; [lia|]. eapply Forall_impl; [|exact F]. cbn. intros; apply Z.ltb_lt; lia.
  - intros E. rewrite Forall_forall in F. pose proof (F t (nth_error_In _ _ E)).
    destruct (Z.ltb_spec t x); [lia|]. rewrite (IH _ _ E). assert (i < length l)%nat by (apply nth_error_Some; congruence). lia.
Qed.
Lemma filter_perm_length {A} (p : A -> bool) l k : Permutation l k -> length (filter p l) = length (filter p k).
Proof. induction 1; cbn; repeat (destruct (p _)); cbn; try lia; congruence. Qed.
Lemma filter_map_length {A B} (g : A -> B) (p : B -> bool) l : length (filter p (map g l)) = length (filter (fun x => p (g x)) l).
Proof. induction l; cbn; [reflexivity|]. destruct (p _); cbn; congruence. Qed.
Lemma nodup_disjoint {A} (l k : list A) : NoDup (l ++ k) -> forall x, In x l -> In x k -> False.
Proof.
  induction l as [|y l IH]; cbn; intros N x; [contradiction|]. inversion N as [|? ? N1 N2]; subst.
  intros [-> | H] Hk; [apply N1, in_or_app; right; exact Hk|exact (IH N2 x H Hk)].
Qed.

(** the number of run files older, more recent than a time *)
Definition older (files : list vfcrun) (t : Z) : nat := length (filter (fun f => m_time (f_meta f) <? t) files).
Definition newer (files : list vfcrun) (t : Z) : nat := length (filter (fun f => t <? m_time (f_meta f)) files).
Definition distinct_times (files : list vfcrun) : Prop := NoDup (map (fun f => m_time (f_meta f)) files).

Section Files.
  Variable files : list vfcrun.
  Hypothesis D : distinct_times files.
  Let s := sort_meta (map f_meta files).
  Lemma s_perm : Permutation s (map f_meta files).
  Proof. unfold s. rewrite sort_meta_eq. apply sort_perm. Qed.
  Lemma s_strict : StronglySorted Z.lt (map m_time s).
  Proof. unfold s. rewrite sort_meta_eq. apply sort_strict. rewrite map_map. exact D. Qed.
  Lemma s_length : length s = length files.
  Proof. rewrite (Permutation_length s_perm), map_length. reflexivity. Qed.
  Lemma s_older i m : nth_error s i = Some m -> older files (m_time m) = i.
  Proof.
    intros E. unfold older. rewrite <- (filter_map_length f_meta (fun x => m_time x <? m_time m)).
    rewrite <- (filter_perm_length _ _ _ s_perm). rewrite <- (filter_map_length m_time (fun x => x <? m_time m)).
    apply (count_older _ s_strict). apply map_nth_error. exact E.
  Qed.
  Lemma s_newer i m : nth_error s i = Some m -> newer files (m_time m) = (length files - 1 - i)%nat.
  Proof.
    intros E. unfold newer. rewrite <- (filter_map_length f_meta (fun x => m_time m <? m_time x)).
    rewrite <- (filter_perm_length _ _ _ s_perm). rewrite <- (filter_map_length m_time (fun x => m_time m <? x)).
    rewrite (count_newer _ s_strict i); [|apply map_nth_error; exact E]. rewrite map_length, s_length. reflexivity.
  Qed.
  Lemma s_index f : In f files -> exists i, nth_error s i = Some (f_meta f) /\ (i < length files)%nat.
  Proof.
    intros H. assert (I : In (f_meta f) s) by (eapply Permutation_in; [symmetry; apply s_perm|]; apply in_map; exact H).
    apply In_nth_error in I. destruct I as (i & E). exists i. split; [exact E|]. rewrite <- s_length. apply nth_error_Some. congruence.
  Qed.
  Lemma sorted_nodup l : StronglySorted Z.lt l -> NoDup l.
  Proof. induction 1 as [|x l S IH F]; constructor; [|assumption]. rewrite Forall_forall in F. intros H. specialize (F x H). lia. Qed.
  Lemma s_nodup : NoDup (map m_time s).
  Proof. apply sorted_nodup, s_strict. Qed.
  Lemma drop_recent_eq k : 0 <= k -> drop_recent k s = firstn (length s - Z.to_nat k) s.
  Proof.
    intros Hk. unfold drop_recent. destruct (Z.eqb_spec k 0) as [->|Hk0].
    - rewrite Nat.sub_0_r, firstn_all. reflexivity.
    - set (n := (length s - Z.to_nat k)%nat). pose proof s_nodup as N. rewrite <- (firstn_skipn n s) in N. rewrite map_app in N.
      match goal with |- filter ?P _ = _ => set (Q := P) end. rewrite <- (firstn_skipn n s) at 1. rewrite filter_app. unfold Q. clear Q.
      rewrite filter_all, filter_none; [apply app_nil_r|..]; rewrite Forall_forall; intros m Hm.
      + apply negb_false_iff, existsb_exists. exists m. split; [exact Hm|apply Z.eqb_refl].
      + apply negb_true_iff. destruct (existsb _ _) eqn:E; [|reflexivity]. exfalso. apply existsb_exists in E.
        destruct E as (g & Hg & Eg). apply Z.eqb_eq in Eg. apply (nodup_disjoint _ _ N (m_time m)).
        * apply in_map. exact Hm.
        * rewrite <- Eg. apply in_map. exact Hg.
  Qed.
  Lemma in_firstn_iff n i m : nth_error s i = Some m -> (In m (firstn n s) <-> (i < n)%nat).
  Proof.
    intros E. split.
    - intros H. apply In_nth_error in H. destruct H as (j & Ej).
      assert (j < n)%nat by (assert (j < length (firstn n s))%nat by (apply nth_error_Some; congruence); rewrite firstn_length in *; lia).
      assert (Ej' : nth_error s j = Some m).
      { rewrite <- (firstn_skipn n s), nth_error_app1; [exact Ej|]. apply nth_error_Some. congruence. }
      apply s_older in E. apply s_older in Ej'. lia.
    - intros H. apply (nth_error_In _ i). rewrite <- E at 1.
      assert (i < length s)%nat by (apply nth_error_Some; congruence).
      rewrite <- (firstn_skipn n s) at 2. rewrite nth_error_app1; [reflexivity|]. rewrite firstn_length. lia.
  Qed.
  (** the runs kept: the oldest *)
  Lemma load_eq g : 0 < g_max g -> 0 <= g_ignore g < Z.of_nat (length files) ->
    let n := Nat.min (Z.to_nat (g_max g)) (length files - Z.to_nat (g_ignore g)) in
    load g files = Ret (firstn n s, concat (map f_data (filter (fun f => Nat.ltb (older files (m_time (f_meta f))) n) files)),
                        concat (map f_det (filter (fun f => Nat.ltb (older files (m_time (f_meta f))) n) files))).
  Proof.
    intros Hm Hi n. unfold load. fold s. rewrite drop_recent_eq by lia. rewrite firstn_length, s_length.
    replace (Nat.min (length files - Z.to_nat (g_ignore g)) (length files)) with (length files - Z.to_nat (g_ignore g))%nat by lia.
    fold n. assert (Hn : (1 <= n <= length files)%nat) by lia.
    rewrite firstn_firstn. replace (Nat.min n _) with n by lia.
    assert (L : exists last, nth_error s (n - 1) = Some last).
    { destruct (nth_error s (n - 1)) eqn:E; [eauto|]. apply nth_error_None in E. rewrite s_length in E. lia. }
    destruct L as (last & EL).
    assert (E : nth_error (firstn n s) (n - 1) = Some last).
    { rewrite <- EL. rewrite <- (firstn_skipn n s) at 2. rewrite nth_error_app1; [reflexivity|]. rewrite firstn_length, s_length. lia. }
    rewrite E. pose proof (s_older _ _ EL) as OL.
    assert (F : filter (fun f => m_time (f_meta f) <=? m_time last) files = filter (fun f => Nat.ltb (older files (m_time (f_meta f))) n) files).
    { apply filter_ext_in. intros f Hf. destruct (s_index f Hf) as (i & Ei & _). pose proof (s_older _ _ Ei) as Oi. rewrite Oi.
      assert (P : forall a b ma mb, nth_error s a = Some ma -> nth_error s b = Some mb -> (a < b)%nat -> m_time ma < m_time mb).
      { intros a b ma mb Ea Eb Hab. destruct (Z.lt_ge_cases (m_time ma) (m_time mb)); [assumption|exfalso].
        apply s_older in Ea. apply s_older in Eb.
        assert ((older files (m_time mb) <= older files (m_time ma))%nat); [|lia].
        unfold older. clear -H. induction files as [|f l IH]; cbn; [lia|].
        destruct (Z.ltb_spec (m_time (f_meta f)) (m_time mb)), (Z.ltb_spec (m_time (f_meta f)) (m_time ma)); cbn; lia. }
      destruct (Z.leb_spec (m_time (f_meta f)) (m_time last)) as [H|H], (Nat.ltb_spec i n) as [H'|H']; try reflexivity; exfalso.
      - assert (m_time last < m_time (f_meta f)) by (apply (P _ _ _ _ EL Ei); lia). lia.
      - assert (E2 : i = (n - 1)%nat \/ (i < n - 1)%nat) by lia. destruct E2 as [-> | E2].
        + rewrite Ei in EL. injection EL as <-. lia.
        + pose proof (P _ _ _ _ Ei EL E2). lia. }
    rewrite F. reflexivity.
  Qed.
End Files.

(** * Names *)
Lemma dec_bound n : 0 <= n -> 0 <= n < 10 ^ Z.of_nat (S (Z.to_nat (Z.log2 n))).
Proof.
  intros H. split; [exact H|]. rewrite Nat2Z.inj_succ, Z2Nat.id by apply Z.log2_nonneg.
  destruct (Z.eq_dec n 0) as [->|]; [reflexivity|]. destruct (Z.log2_spec n) as [_ L]; [lia|].
  eapply Z.lt_le_trans; [exact L|]. apply Z.pow_le_mono_l. lia.
Qed.
Lemma dec_inj a b : 0 <= a -> 0 <= b -> dec a = dec b -> a = b.
Proof.
  intros Ha Hb E. rewrite <- (CiHex.fold_udec (S (Z.to_nat (Z.log2 a))) a), <- (CiHex.fold_udec (S (Z.to_nat (Z.log2 b))) b);
    try (apply dec_bound; assumption); try lia. unfold dec in E. rewrite E. reflexivity.
Qed.
Lemma dec_digits n : 0 <= n -> Forall (fun c => 48 <= c <= 57) (dec n).
Proof. intros H. apply VfiFile.udec_digits, dec_bound, H. Qed.
Lemma dec_nonnil n : dec n <> [].
Proof. apply VfiFile.udec_nonnil. Qed.

Definition hash_part (h : text) : text := if text_eqb h [] then [] else bytes " (" ++ h ++ bytes ")".
(** the age without the hash *)
Definition label (age : Z) : text := base_name age [].
Lemma base_name_eq age h : base_name age h = label age ++ hash_part h.
Proof.
  unfold label, base_name, hash_part. rewrite text_eqb_refl. destruct (text_eqb_spec h []) as [->|].
  - rewrite app_nil_r. reflexivity.
  - destruct (age <? 60); [reflexivity|]. destruct (age <? 3600); [reflexivity|]. destruct (age <? 86400); [reflexivity|].
    destruct (age <? 604800); [reflexivity|]. destruct (age <? 2592000); reflexivity.
Qed.
(** the units *)
Definition unit_of (age : Z) : Z * text :=
  if age <? 3600 then (60, bytes "minute") else if age <? 86400 then (3600, bytes "hour") else if age <? 604800 then (86400, bytes "day")
  else if age <? 2592000 then (604800, bytes "week") else (2592000, bytes "month").
Definition plural (n : Z) : text := if n =? 1 then [] else bytes "s".
Lemma label_eq age : label age = if age <? 60 then bytes "Less than a minute ago"
  else dec (age / fst (unit_of age)) ++ space :: (snd (unit_of age) ++ plural (age / fst (unit_of age))) ++ space :: bytes "ago".
Proof.
  unfold label, base_name. rewrite text_eqb_refl. destruct (age <? 60); [reflexivity|]. unfold unit_of, plural.
  destruct (age <? 3600); [|destruct (age <? 86400); [|destruct (age <? 604800); [|destruct (age <? 2592000)]]];
    cbn [fst snd]; rewrite <- !app_assoc; reflexivity.
Qed.
Lemma unit_words : forall age, In (unit_of age) [(60, bytes "minute"); (3600, bytes "hour"); (86400, bytes "day"); (604800, bytes "week"); (2592000, bytes "month")].
Proof. intros age. unfold unit_of. repeat (destruct (_ <? _)); cbn; tauto. Qed.
Lemma unit_nospace age n : ~ In space (snd (unit_of age) ++ plural n).
Proof.
  unfold plural. pose proof (unit_words age) as U. cbn [In] in U.
  destruct U as [<- | [<- | [<- | [<- | [<- | []]]]]]; destruct (n =? 1); vm_compute; intros I; repeat (destruct I as [I|I]; [discriminate|]); exact I.
Qed.
Lemma dec_nospace n : 0 <= n -> ~ In space (dec n).
Proof. intros H I. pose proof (dec_digits n H) as F. rewrite Forall_forall in F. specialize (F _ I). unfold space in F. lia. Qed.
Lemma quotient_nonneg age : 60 <= age -> 0 <= age / fst (unit_of age).
Proof. intros H. pose proof (unit_words age) as U. cbn [In] in U. destruct U as [<- | [<- | [<- | [<- | [<- | []]]]]]; cbn [fst]; apply Z.div_pos; lia. Qed.

(** what a label followed by anything tells *)
Definition same_class (a b : Z) : Prop :=
  (a < 60 /\ b < 60) \/ (60 <= a /\ 60 <= b /\ unit_of a = unit_of b /\ a / fst (unit_of a) = b / fst (unit_of b)).
Lemma label_class a b x y : label a ++ x = label b ++ y -> same_class a b.
Proof.
  intros E. rewrite !label_eq in E. unfold same_class.
  destruct (Z.ltb_spec a 60) as [Ha|Ha], (Z.ltb_spec b 60) as [Hb|Hb]; [left; lia|..].
  1-2: (match goal with Hlt : ?v < 60, Hge : 60 <= ?w |- _ => pose proof (dec_nonnil (w / fst (unit_of w))) as N; pose proof (dec_digits _ (quotient_nonneg w Hge)) as F end;
    destruct (dec _) as [|c l]; [congruence|]; inversion F; subst; change (bytes "Less than a minute ago") with (76 :: bytes "ess than a minute ago") in E;
    apply (f_equal (hd 0)) in E; cbn [app hd] in E; lia).
  right. split; [exact Ha|]. split; [exact Hb|].
  pose proof (quotient_nonneg a Ha) as Qa. pose proof (quotient_nonneg b Hb) as Qb.
  rewrite <- !app_assoc in E. cbn [app] in E. apply (f_equal (split_on space)) in E.
  rewrite !split_on_app in E by (apply dec_nospace; assumption). injection E as E1 E2. apply dec_inj in E1; [|assumption..].
  rewrite <- !app_assoc in E2. cbn [app] in E2. rewrite !app_assoc in E2.
  rewrite !split_on_app in E2 by apply unit_nospace. injection E2 as E2 _. rewrite E1 in E2.
  apply app_inv_tail in E2. split; [|exact E1].
  pose proof (unit_words a) as U. pose proof (unit_words b) as V. cbn [In] in U, V.
  destruct U as [U | [U | [U | [U | [U | []]]]]], V as [V | [V | [V | [V | [V | []]]]]]; rewrite <- U, <- V in *; try reflexivity; discriminate E2.
Qed.
Lemma class_label a b : same_class a b -> label a = label b.
Proof.
  intros [[Ha Hb] | (Ha & Hb & U & Q)]; rewrite !label_eq.
  - destruct (Z.ltb_spec a 60), (Z.ltb_spec b 60); try lia. reflexivity.
  - destruct (Z.ltb_spec a 60), (Z.ltb_spec b 60); try lia. rewrite Q, U. reflexivity.
Qed.
Lemma label_inj a b x y : label a ++ x = label b ++ y -> label a = label b.
Proof. intros E. apply class_label. eapply label_class. exact E. Qed.
Lemma unit_mono a b c : c <= b <= a -> unit_of a = unit_of c -> unit_of b = unit_of a.
Proof.
  intros H. unfold unit_of. intros E.
  destruct (Z.ltb_spec a 3600), (Z.ltb_spec c 3600); try lia; try (destruct (Z.ltb_spec b 3600); try lia; try reflexivity);
  destruct (Z.ltb_spec a 86400), (Z.ltb_spec c 86400); try lia; try discriminate E; try (destruct (Z.ltb_spec b 86400); try lia; try reflexivity);
  destruct (Z.ltb_spec a 604800), (Z.ltb_spec c 604800); try lia; try discriminate E; try (destruct (Z.ltb_spec b 604800); try lia; try reflexivity);
  destruct (Z.ltb_spec a 2592000), (Z.ltb_spec c 2592000); try lia; try discriminate E; try (destruct (Z.ltb_spec b 2592000); try lia; try reflexivity).
Qed.
Lemma label_between a b c : c <= b <= a -> label a = label c -> label b = label a.
Proof.
  intros H E. assert (C : same_class a c) by (apply (label_class a c [] []); rewrite E; reflexivity).
  apply class_label. destruct C as [[Ha Hc] | (Ha & Hc & U & Q)]; [left; lia|right].
  pose proof (unit_mono a b c H U) as V. split; [lia|]. split; [lia|]. split; [exact V|]. rewrite V. rewrite <- U in Q.
  assert (0 < fst (unit_of a)).
  { pose proof (unit_words a) as W. cbn [In] in W. destruct W as [<- | [<- | [<- | [<- | [<- | []]]]]]; reflexivity. }
  pose proof (Z.div_le_mono c b (fst (unit_of a))). pose proof (Z.div_le_mono b a (fst (unit_of a))). lia.
Qed.

(** the counter *)
Definition render (k : text * Z) : text := if snd k =? 0 then fst k else fst k ++ bytes " (" ++ dec (snd k) ++ bytes ")".
Fixpoint keys (st : text * Z) (l : list text) : list (text * Z) :=
  match l with
  | [] => []
  | b :: l' => let k := if text_eqb b (fst st) then (b, snd st + 1) else (b, 0) in k :: keys k l'
  end.
Lemma name_all_keys l : forall st, 0 <= snd st -> name_all st l = map render (keys st l).
Proof.
  induction l as [|b l IH]; intros [p c] H; cbn [name_all keys map fst snd] in *; [reflexivity|]. unfold next_name. cbn [fst snd].
  destruct (text_eqb_spec b p) as [->|].
  - rewrite IH by (cbn; lia). f_equal. unfold render. cbn [fst snd]. destruct (Z.eqb_spec (c + 1) 0); [lia|reflexivity].
  - rewrite IH by (cbn; lia). reflexivity.
Qed.
Lemma keys_base l : forall st, map fst (keys st l) = l.
Proof. induction l as [|b l IH]; intros st; cbn; [reflexivity|]. rewrite IH. destruct (text_eqb _ _); reflexivity. Qed.
Lemma keys_nonneg l : forall st, 0 <= snd st -> Forall (fun k => 0 <= snd k) (keys st l).
Proof.
  induction l as [|b l IH]; intros st H; cbn; constructor; [destruct (text_eqb _ _); cbn; lia|]. apply IH. destruct (text_eqb _ _); cbn; lia.
Qed.
(** equal elements follow one another *)
Definition contiguous (l : list text) : Prop :=
  forall i j k x y, (i < j < k)%nat -> nth_error l i = Some x -> nth_error l k = Some x -> nth_error l j = Some y -> y = x.
Lemma contiguous_tail x l : contiguous (x :: l) -> contiguous l.
Proof. intros C i j k a b H. apply (C (S i) (S j) (S k)). lia. Qed.
Lemma contiguous_skip x y l : contiguous (x :: y :: l) -> contiguous (x :: l).
Proof.
  intros C i j k a b H Ei Ek Ej. destruct j as [|j], k as [|k]; try lia. destruct i as [|i].
  - apply (C 0%nat (S (S j)) (S (S k)) a b); [lia|assumption..].
  - apply (C (S (S i)) (S (S j)) (S (S k)) a b); [lia|assumption..].
Qed.
Lemma keys_nodup l : forall p c, 0 <= c -> contiguous (p :: l) -> NoDup (keys (p, c) l) /\ forall d, In (p, d) (keys (p, c) l) -> c < d.
Proof.
  induction l as [|b l IH]; intros p c Hc C; cbn [keys]; [split; [constructor|intros d []]|]. cbn [fst snd].
  destruct (text_eqb_spec b p) as [->|E].
  - destruct (IH p (c + 1)) as [N G]; [lia|exact (contiguous_tail _ _ C)|]. split.
    + constructor; [|exact N]. intros H. specialize (G _ H). lia.
    + intros d [[= <-] | H]; [lia|]. specialize (G _ H). lia.
  - destruct (IH b 0) as [N G]; [lia|exact (contiguous_tail _ _ C)|]. split.
    + constructor; [|exact N]. intros H. specialize (G _ H). lia.
    + intros d [[= <- _] | H]; [congruence|]. exfalso. apply (in_map fst) in H. rewrite keys_base in H. cbn in H.
      apply In_nth_error in H. destruct H as (k & Ek). apply E. exact (C 0%nat 1%nat (S (S k)) p b ltac:(lia) eq_refl Ek eq_refl).
Qed.
(** oldest first *)
Definition oldest_first (l : list (Z * text)) : Prop := forall i j x y, (i < j)%nat -> nth_error l i = Some x -> nth_error l j = Some y -> fst y <= fst x.
Definition plain_hashes (l : list (Z * text)) : Prop :=
  (forall r, In r l -> snd r = []) \/ (forall r, In r l -> snd r <> [] /\ ~ In 41 (snd r)).
Definition base_of (r : Z * text) : text := base_name (fst r) (snd r).
Lemma count_inj c d : 0 <= c -> 0 <= d -> (if c =? 0 then [] else bytes " (" ++ dec c ++ bytes ")") = (if d =? 0 then [] else bytes " (" ++ dec d ++ bytes ")") -> c = d.
Proof.
  intros Hc Hd. destruct (Z.eqb_spec c 0) as [->|], (Z.eqb_spec d 0) as [->|]; try reflexivity; cbn [app bytes]; try discriminate.
  intros E. apply app_inv_head in E. apply app_inv_tail in E. apply dec_inj; assumption.
Qed.
Lemma render_eq k : render k = fst k ++ (if snd k =? 0 then [] else bytes " (" ++ dec (snd k) ++ bytes ")").
Proof. unfold render. destruct (_ =? _); [rewrite app_nil_r|]; reflexivity. Qed.
Lemma base_inj l r r' x y : plain_hashes l -> In r l -> In r' l -> base_of r ++ x = base_of r' ++ y -> label (fst r) = label (fst r') /\ snd r = snd r' /\ x = y.
Proof.
  intros P H H' E. unfold base_of in E. rewrite !base_name_eq, <- !app_assoc in E. pose proof (label_inj _ _ _ _ E) as L. rewrite L in E.
  apply app_inv_head in E. split; [exact L|]. unfold hash_part in E. destruct P as [P|P].
  - rewrite (P r H), (P r' H') in *. rewrite text_eqb_refl in E. cbn in E. auto.
  - destruct (P r H) as [N1 N2], (P r' H') as [N1' N2']. destruct (text_eqb_spec (snd r) []); [contradiction|].
    destruct (text_eqb_spec (snd r') []); [contradiction|]. rewrite <- !app_assoc in E. apply app_inv_head in E.
    apply (f_equal (fun t => (split_on 41 t, t))) in E. injection E as E E2. cbn [app bytes] in E.
    change (bytes ")" ++ x) with (41 :: x) in E. change (bytes ")" ++ y) with (41 :: y) in E.
    rewrite !split_on_app in E by assumption. injection E as E _. rewrite E in E2. apply app_inv_head in E2.
    injection E2 as E2. auto.
Qed.
Lemma NoDup_map_inj {A B} (f : A -> B) l : (forall x y, In x l -> In y l -> f x = f y -> x = y) -> NoDup l -> NoDup (map f l).
Proof.
  induction l as [|a l IH]; cbn; intros I N; [constructor|]. inversion N as [|? ? N1 N2]; subst. constructor.
  - intros H. apply in_map_iff in H. destruct H as (b & E & Hb). apply N1. rewrite (I a b); auto.
  - apply IH; auto.
Qed.
(** runs of the same age and hash follow one another *)
Definition grouped (l : list (Z * text)) : Prop :=
  forall i j k x y z, (i < j < k)%nat -> nth_error l i = Some x -> nth_error l j = Some y -> nth_error l k = Some z ->
    label (fst x) = label (fst z) -> snd x = snd z -> snd y = snd x.
Lemma names_nodup l : oldest_first l -> plain_hashes l -> grouped l -> NoDup (name_all ([], 0) (map base_of l)).
Proof.
  intros O P G. rewrite name_all_keys by (cbn; lia). apply NoDup_map_inj.
  - intros [b c] [b' c'] H H' E. rewrite !render_eq in E. cbn [fst snd] in E.
    pose proof (keys_nonneg (map base_of l) ([], 0) ltac:(cbn; lia)) as F. rewrite Forall_forall in F. pose proof (F _ H) as F1. pose proof (F _ H') as F2.
    cbn [snd] in F1, F2. apply (in_map fst) in H, H'. rewrite keys_base in H, H'. cbn [fst] in H, H'. apply in_map_iff in H, H'.
    destruct H as (r & <- & Hr), H' as (r' & <- & Hr'). destruct (base_inj l r r' _ _ P Hr Hr' E) as (L & Hh & E2).
    apply count_inj in E2; [|assumption..]. subst. f_equal. unfold base_of. rewrite !base_name_eq, L, Hh. reflexivity.
  - apply keys_nodup; [lia|]. intros i j k x y H Ei Ek Ej. destruct k as [|k]; [lia|]. destruct j as [|j]; [lia|]. cbn [nth_error] in Ek, Ej.
    rewrite nth_error_map in Ek, Ej. destruct (nth_error l k) as [rk|] eqn:Rk; [|discriminate]. destruct (nth_error l j) as [rj|] eqn:Rj; [|discriminate].
    injection Ek as <-. injection Ej as <-. destruct i as [|i].
    + cbn in Ei. injection Ei as Ei. unfold base_of in Ei. rewrite base_name_eq in Ei. exfalso.
      symmetry in Ei. apply app_eq_nil in Ei. destruct Ei as [Ei _]. rewrite label_eq in Ei. destruct (_ <? 60); [discriminate|].
      apply app_eq_nil in Ei. exact (dec_nonnil _ (proj1 Ei)).
    + cbn [nth_error] in Ei. rewrite nth_error_map in Ei. destruct (nth_error l i) as [ri|] eqn:Ri; [|discriminate]. injection Ei as Ei.
      assert (B : base_of ri ++ [] = base_of rk ++ []) by (rewrite Ei; reflexivity).
      destruct (base_inj l ri rk [] [] P (nth_error_In _ _ Ri) (nth_error_In _ _ Rk) B) as (L & Hh & _).
      assert (Oij := O i j _ _ ltac:(lia) Ri Rj). assert (Ojk := O j k _ _ ltac:(lia) Rj Rk).
      unfold base_of. rewrite !base_name_eq. rewrite (label_between (fst ri) (fst rj) (fst rk)) by (try lia; exact L).
      rewrite (G i j k ri rj rk ltac:(lia) Ri Rj Rk L Hh). rewrite L, Hh. reflexivity.
Qed.

(** * The compare view *)
Definition distinct_runs (runs : list named) : Prop := NoDup (map (fun r => m_time (fst r)) runs).
Lemma name_at_in runs r : distinct_runs runs -> In r runs -> name_at runs (m_time (fst r)) = Ret (snd r).
Proof.
  unfold distinct_runs, name_at. induction runs as [|x runs IH]; cbn; intros N H; [contradiction|]. inversion N as [|? ? N1 N2]; subst.
  destruct (Z.eqb_spec (m_time (fst x)) (m_time (fst r))) as [E|E].
  - destruct H as [-> | H]; [reflexivity|]. exfalso. apply N1. rewrite E. apply (in_map (fun r => m_time (fst r))). exact H.
  - destruct H as [-> | H]; [congruence|]. apply IH; assumption.
Qed.
Lemma x_loop_eq runs (l : list (Z * text)) n : forall i acc, (i + n <= length l)%nat -> Forall (fun p => name_at runs (fst p) = Ret (snd p)) l ->
  x_loop runs (map fst l) i n acc = Ret (rev (map snd (firstn n (skipn i (rev l)))) ++ acc).
Proof.
  induction n as [|n IH]; intros i acc Hi F; cbn [x_loop]; [reflexivity|].
  assert (E : exists p, nth_error (rev l) i = Some p).
  { destruct (nth_error (rev l) i) eqn:E; [eauto|]. apply nth_error_None in E. rewrite rev_length in E. lia. }
  destruct E as (p & E). unfold from_end. replace (i + 1 - 1)%nat with i by lia. rewrite <- map_rev, nth_error_map, E. cbn [option_map pbind].
  rewrite Forall_forall in F. rewrite (F p) by (apply in_rev, (nth_error_In _ i), E). cbn [pbind].
  rewrite IH by (try (apply Forall_forall; exact F); lia). f_equal.
  assert (S1 : skipn i (rev l) = p :: skipn (S i) (rev l)).
  { clear -E. revert i E. induction (rev l) as [|x k IHk]; intros [|i] E; cbn [nth_error] in E; try discriminate; [injection E as ->; reflexivity|]. cbn [skipn]. apply IHk. exact E. }
  rewrite S1. cbn [firstn map rev]. rewrite <- app_assoc. reflexivity.
Qed.
Lemma last_n_map {A B} (f : A -> B) n l : last_n n (map f l) = map f (last_n n l).
Proof.
  unfold last_n. destruct (Nat.eqb n 0); [reflexivity|]. rewrite map_length. generalize (length l - n)%nat as k.
  induction l as [|x l IH]; intros [|k]; cbn; auto.
Qed.
Lemma last_n_length {A} n (l : list A) : (n <> 0)%nat -> length (last_n n l) = Nat.min n (length l).
Proof. intros H. unfold last_n. destruct (Nat.eqb_spec n 0); [lia|]. rewrite skipn_length. lia. Qed.
Lemma last_n_idem {A} n (l : list A) : last_n n (last_n n l) = last_n n l.
Proof.
  unfold last_n at 1. destruct (Nat.eqb_spec n 0); [reflexivity|]. rewrite last_n_length by assumption.
  replace (Nat.min n (length l) - n)%nat with 0%nat by lia. reflexivity.
Qed.
Lemma gen_x_series_eq runs (l : list (Z * text)) n : Forall (fun p => name_at runs (fst p) = Ret (snd p)) l ->
  gen_x_series runs (map fst l) n = Ret (map snd (last_n n l)).
Proof.
  intros F. unfold gen_x_series. rewrite map_length.
  assert (G : forall k, (k <= length l)%nat -> x_loop runs (map fst l) 0 k [] = Ret (map snd (skipn (length l - k) l))).
  { intros k Hk. rewrite x_loop_eq by (try assumption; lia). change (skipn 0 (rev l)) with (rev l). rewrite app_nil_r, <- map_rev, firstn_rev, rev_involutive. reflexivity. }
  unfold last_n. destruct (Nat.eqb_spec n 0) as [->|]; cbn [orb].
  - rewrite G by lia. rewrite Nat.sub_diag. reflexivity.
  - destruct (Nat.ltb_spec (length l) n).
    + rewrite G by lia. replace (length l - n)%nat with 0%nat by lia. rewrite Nat.sub_diag. reflexivity.
    + rewrite G by lia. reflexivity.
Qed.
