(** The sample cache behaves like a test with remembered samples. *)
From Coq Require Import List Arith Bool Lia Permutation.
From Verif Require Import DDModel DDProofs.
Import ListNotations.
Open Scope py_scope.

Section samples.
  Context {D K : Type} (Ddec : forall x y : D, {x = y} + {x <> y}) (Kdec : forall x y : K, {x = y} + {x <> y}).
  Context (name : list D -> K) (sample : K -> nat -> bool) (delta0 : list D) (listdir : list entry -> list entry).
  Context (Hls : forall l, Permutation (listdir l) l).

  (** every recorded result is that of the sample; no sample directory is listed twice *)
  Definition entries_ok (k : K) (l : list entry) : Prop :=
    NoDup (map fst l) /\ forall i r, In (i, r) l -> r = Some (sample k i).
  Definition disk_ok (d : disk) : Prop := forall k l, d k = Some l -> entries_ok k l.
  (** the configuration fails: one of the first n samples fails, or a failure was recorded *)
  Definition fails (n : nat) (c : list D) (d : disk) : Prop :=
    (exists i, i < n /\ sample (name c) i = false) \/ (exists l i, d (name c) = Some l /\ In (i, Some false) l).

  Lemma excludes_ok c l : NoDup c -> incl c l -> exists r, excludes Ddec c l = Some r.
  Proof.
    revert l. induction c as [|x c IH]; intros l N I; [eexists; reflexivity|]. cbn [excludes].
    assert (R : exists r, remove_one Ddec x l = Some r /\ forall y, In y l -> y = x \/ In y r).
    { assert (Hx : In x l) by (apply I; left; reflexivity). clear - Hx. induction l as [|a l IH]; [destruct Hx|]. cbn [remove_one].
      destruct (Ddec a x) as [->|Na].
      - exists l. split; [reflexivity|]. intros y [->|Hy]; auto.
      - destruct Hx as [->|Hx]; [congruence|]. destruct (IH Hx) as (r & -> & Hr). exists (a :: r). split; [reflexivity|].
        intros y [->|Hy]; [right; left; reflexivity|]. destruct (Hr y Hy); [auto|right; right; assumption]. }
    destruct R as (r & -> & Hr). apply IH; [inversion N; assumption|]. intros y Hy.
    destruct (Hr y (I y (or_intror Hy))) as [->|H]; [inversion N; contradiction|assumption].
  Qed.

  Lemma scan_ok k l done : (forall i r, In (i, r) l -> r = Some (sample k i)) ->
    (scan l done = Ret None /\ exists i, In (i, Some false) l) \/
    (exists done', scan l done = Ret (Some done') /\ (forall i, In i done' <-> In i done \/ In i (map fst l)) /\ forall i, In i (map fst l) -> sample k i = true).
  Proof.
    revert done. induction l as [|[i r] l IH]; intros done H.
    - right. exists done. split; [reflexivity|]. split; [cbn; tauto|intros i []].
    - pose proof (H i r (or_introl eq_refl)) as Hr. subst r. cbn [scan]. destruct (sample k i) eqn:E.
      + destruct (IH (i :: done) (fun j r Hj => H j r (or_intror Hj))) as [[-> (j & Hj)]|(done' & -> & A & B)].
        * left. split; [reflexivity|]. exists j. right. assumption.
        * right. exists done'. split; [reflexivity|]. split; [intros j; rewrite A; cbn; tauto|]. intros j [<-|Hj]; auto.
      + left. split; [reflexivity|]. exists i. left. reflexivity.
  Qed.

  Lemma to_compute_ok k l n : entries_ok k l ->
    (to_compute listdir l n = Ret None /\ exists i, In (i, Some false) l) \/
    (exists work, to_compute listdir l n = Ret (Some work) /\ NoDup work /\ (forall i, In i work <-> i < n /\ ~ In i (map fst l)) /\ forall i, In i (map fst l) -> sample k i = true).
  Proof.
    intros [N H]. unfold to_compute.
    destruct (scan_ok k (listdir l) []) as [[-> (i & Hi)]|(done & -> & A & B)].
    { intros i r Hi. apply H. eapply Permutation_in; [apply Hls|assumption]. }
    - left. split; [reflexivity|]. exists i. eapply Permutation_in; [apply Hls|assumption].
    - right. cbn [pbind]. eexists. split; [reflexivity|]. split; [apply NoDup_filter, seq_NoDup|].
      assert (P : forall i, In i (map fst (listdir l)) <-> In i (map fst l)).
      { intros i. split; apply Permutation_in; [apply Permutation_map, Hls|apply Permutation_sym, Permutation_map, Hls]. }
      split; [|intros i Hi; apply B, P, Hi]. intros i. rewrite filter_In, in_seq, negb_true_iff, <- not_true_iff_false.
      assert (E : existsb (Nat.eqb i) done = true <-> In i (map fst l)).
      { rewrite existsb_exists. rewrite <- P. split.
        - intros (x & Hx & Ex). apply Nat.eqb_eq in Ex. subst x. apply A in Hx. destruct Hx as [[]|Hx]. assumption.
        - intros Hi. exists i. split; [apply A; auto|apply Nat.eqb_refl]. }
      rewrite E. split; intros [? ?]; split; auto; lia.
  Qed.

  Lemma set_new k i l : ~ In i (map fst l) -> set_result i (sample k i) (l ++ [(i, None)]) = l ++ [(i, Some (sample k i))].
  Proof.
    intros H. unfold set_result. rewrite map_app. cbn [map fst]. rewrite Nat.eqb_refl. f_equal. rewrite <- (map_id l) at 2. apply map_ext_in.
    intros [j r] Hj. cbn [fst]. destruct (Nat.eqb_spec i j) as [->|]; [|reflexivity]. contradiction H. apply (in_map fst) in Hj. assumption.
  Qed.
  Lemma mkdir_new i l : ~ In i (map fst l) -> mkdir i l = Ret (l ++ [(i, None)]).
  Proof.
    intros H. unfold mkdir. destruct (existsb _ l) eqn:E; [|reflexivity]. apply existsb_exists in E. destruct E as ([j r] & Hj & Ej). apply Nat.eqb_eq in Ej. cbn in Ej. subst j.
    contradiction H. apply (in_map fst) in Hj. assumption.
  Qed.
  Lemma run_seq_ok k work l : entries_ok k l -> NoDup work -> (forall i, In i work -> ~ In i (map fst l)) ->
    exists v l', run_seq sample k work l = Ret (v, l') /\ entries_ok k l' /\ incl l l' /\
      (forall i r, In (i, r) l' -> In (i, r) l \/ In i work) /\
      (is_fail v = true <-> exists i, In i work /\ sample k i = false) /\
      (is_fail v = true -> exists i, In (i, Some false) l') /\ (is_fail v = false -> forall i, In i work -> In (i, Some true) l').
  Proof.
    revert l. induction work as [|i work IH]; intros l Hl Nw Hw.
    - exists PASS, l. split; [reflexivity|]. split; [assumption|]. split; [apply incl_refl|]. split; [auto|]. split; [|split; [discriminate|intros _ i []]].
      split; [discriminate|]. intros (i & [] & _).
    - cbn [run_seq]. assert (Hi : ~ In i (map fst l)) by (apply Hw; left; reflexivity). rewrite mkdir_new by assumption. cbn [pbind]. rewrite set_new by assumption.
      set (l1 := l ++ [(i, Some (sample k i))]).
      assert (Hl1 : entries_ok k l1).
      { destruct Hl as [N H]. split.
        - unfold l1. rewrite map_app. cbn [map fst]. apply (Permutation_NoDup (l := i :: map fst l)); [apply Permutation_cons_append|]. constructor; assumption.
        - intros j r Hj. apply in_app_iff in Hj. destruct Hj as [Hj|[Hj|[]]]; [apply H; assumption|]. injection Hj as <- <-. reflexivity. }
      destruct (sample k i) eqn:E.
      + destruct (IH l1 Hl1) as (v & l' & ER & A & B & C & F1 & F2 & F3).
        { inversion Nw; assumption. }
        { intros j Hj. unfold l1. rewrite map_app, in_app_iff. cbn. intros [H|[H|[]]]; [apply (Hw j (or_intror Hj)); assumption|]. subst j. inversion Nw; contradiction. }
        exists v, l'. split; [exact ER|]. split; [assumption|]. split; [intros x Hx; apply B; apply in_app_iff; auto|]. split.
        { intros j r Hj. apply C in Hj. destruct Hj as [Hj|Hj]; [|right; right; assumption]. apply in_app_iff in Hj. destruct Hj as [Hj|[Hj|[]]]; [auto|]. injection Hj as <- _. right. left. reflexivity. }
        split. { rewrite F1. split; [intros (j & Hj & Ej); exists j; split; [right; assumption|assumption]|]. intros (j & [<-|Hj] & Ej); [congruence|exists j; auto]. }
        split; [assumption|]. intros Hv j [<-|Hj]; [|auto]. apply B. apply in_app_iff. right. left. reflexivity.
      + exists FAIL, l1. split; [reflexivity|]. split; [assumption|]. split; [intros x Hx; apply in_app_iff; auto|]. split.
        { intros j r Hj. apply in_app_iff in Hj. destruct Hj as [Hj|[Hj|[]]]; [auto|]. injection Hj as <- _. right. left. reflexivity. }
        split. { split; [intros _; exists i; split; [left; reflexivity|assumption]|reflexivity]. }
        split; [|discriminate]. intros _. exists i. apply in_app_iff. right. left. reflexivity.
  Qed.

  (** sequential sampling *)
  Theorem seq_test_like : test_like (sample_test Ddec Kdec name sample delta0 listdir false) delta0 disk_ok fails.
  Proof.
    split.
    { intros n m c d L [(i & Hi & E)|H]; [left; exists i; split; [lia|assumption]|right; assumption]. }
    intros n c d Hd [Nc Ic]. unfold sample_test. set (k := name c).
    assert (GET : exists l, (match d k with Some l => Ret l | None => match excludes Ddec c delta0 with Some _ => Ret [] | None => Raise end end) = Ret l /\
      entries_ok k l /\ (forall x, In x l -> exists l0, d k = Some l0 /\ In x l0) /\ (forall l0, d k = Some l0 -> l0 = l)).
    { destruct (d k) as [l|] eqn:E.
      - exists l. split; [reflexivity|]. split; [apply Hd; assumption|]. split; [intros x Hx; exists l; auto|]. congruence.
      - destruct (excludes_ok c delta0 Nc Ic) as [r ->]. exists []. split; [reflexivity|]. split; [|split; [intros x []|discriminate]].
        split; [constructor|intros i r0 []]. }
    destruct GET as (l & -> & Hl & Hold & Hsame). cbn [pbind].
    assert (UPD : forall l', entries_ok k l' -> incl l l' -> (forall i r, In (i, r) l' -> In (i, r) l \/ i < n) -> disk_ok (upd Kdec d k l') /\ ext fails n d (upd Kdec d k l')).
    { intros l' Hl' I1 I2. split.
      - intros k' e. unfold upd. destruct (Kdec k k') as [<-|]; [intros [= <-]; assumption|apply Hd].
      - split.
        + intros m c' [H|(l0 & i & E & H)]; [left; assumption|]. right. unfold upd. destruct (Kdec k (name c')) as [Ek|]; [|exists l0, i; auto].
          exists l', i. split; [reflexivity|]. apply I1. rewrite <- (Hsame l0); [assumption|]. rewrite Ek. assumption.
        + intros m c' Lm [H|(l0 & i & E & H)]; [left; assumption|]. unfold upd in E. destruct (Kdec k (name c')) as [Ek|]; [|right; exists l0, i; auto].
          injection E as <-. destruct (I2 i _ H) as [Hi|Hi].
          * right. destruct (Hold _ Hi) as (l1 & E1 & H1). exists l1, i. rewrite <- Ek. auto.
          * left. exists i. split; [lia|]. rewrite <- Ek. destruct Hl' as [_ Hl']. specialize (Hl' i _ H). congruence. }
    destruct (to_compute_ok k l n Hl) as [[-> (i & Hi)]|(work & -> & Nw & Hw & Ht)]; cbn [pbind].
    - destruct (UPD l Hl (incl_refl l)) as [A B]; [auto|]. eexists _, _. split; [reflexivity|]. split; [exact A|]. split; [exact B|]. cbn [is_fail].
      split; [split; [intros _|reflexivity]|].
      + right. destruct (Hold _ Hi) as (l0 & E0 & H0). exists l0, i. auto.
      + intros _ m. right. exists l, i. unfold upd. destruct (Kdec k (name c)); [auto|unfold k in *; congruence].
    - destruct (run_seq_ok k work l Hl Nw) as (v & l' & ER & A & B & C & F1 & F2 & F3). { intros i Hi. apply Hw. assumption. }
      rewrite ER. cbn [pbind]. destruct (UPD l' A B) as [U1 U2]. { intros i r Hi. apply C in Hi. destruct Hi as [Hi|Hi]; [auto|]. right. apply Hw. assumption. }
      eexists _, _. split; [reflexivity|]. split; [exact U1|]. split; [exact U2|]. split.
      + rewrite F1. split.
        * intros (i & Hi & Ei). left. exists i. split; [apply Hw; assumption|exact Ei].
        * intros [(i & Hi & Ei)|(l0 & i & E0 & Hi)].
          -- exists i. split; [|exact Ei]. apply Hw. split; [assumption|]. intros H. apply Ht in H. unfold k in *. congruence.
          -- apply Hsame in E0. subst l0. pose proof (in_map fst _ _ Hi) as Hi'. apply Ht in Hi'. destruct Hl as [_ Hl]. specialize (Hl _ _ Hi). cbn in *. unfold k in *. congruence.
      + intros Hv m. destruct (F2 Hv) as [i Hi]. right. exists l', i. unfold upd. destruct (Kdec k (name c)); [auto|unfold k in *; congruence].
  Qed.
  Notation stest := (sample_test Ddec Kdec name sample delta0 listdir).
  Lemma sample_test_frame par n c d v d' k : stest par n c d = Ret (v, d') -> k <> name c -> d' k = d k.
  Proof.
    unfold sample_test. intros H Nk. assert (U : forall l, upd Kdec d (name c) l k = d k) by (intros l; unfold upd; destruct (Kdec (name c) k); congruence).
    destruct (match d (name c) with Some l => Ret l | None => _ end) as [l| | |]; cbn [pbind] in H; try discriminate.
    destruct (to_compute listdir l n) as [[work|]| | |]; cbn [pbind] in H; try discriminate.
    - destruct (if par then _ else _) as [[v1 l1]| | |]; cbn [pbind] in H; try discriminate. injection H as _ <-. apply U.
    - injection H as _ <-. apply U.
  Qed.
  Lemma fails_name n c c' d : name c = name c' -> fails n c d <-> fails n c' d. Proof. unfold fails. intros ->. reflexivity. Qed.
  (** what a request adds to what is known *)
  Lemma fails_after n c d v d' m c' : disk_ok d -> NoDup c -> incl c delta0 -> stest false n c d = Ret (v, d') ->
    fails m c' d' <-> fails m c' d \/ (name c' = name c /\ exists i, i < n /\ sample (name c) i = false).
  Proof.
    intros Hd Nc Ic H. destruct (tl_test _ _ _ _ seq_test_like n c d Hd (conj Nc Ic)) as (v1 & d1 & E & Hd1 & X & Hv & HR). rewrite H in E. injection E as <- <-. split.
    - intros HF. destruct (Kdec (name c') (name c)) as [Ek|Nk].
      + apply (fails_name m c' c) in HF; [|assumption]. rewrite (fails_name m c' c) by assumption.
        assert (HF' : fails (Nat.max m n) c d). { apply X; [lia|]. eapply (tl_mono _ _ _ _ seq_test_like m); [lia|exact HF]. }
        destruct HF' as [(i & Li & Ei)|HF']; [|left; right; exact HF'].
        destruct (Nat.lt_ge_cases i m) as [L|L]; [left; left; exists i; auto|]. right. split; [assumption|]. exists i. split; [lia|assumption].
      + left. unfold fails in *. rewrite (sample_test_frame _ _ _ _ _ _ _ H Nk) in HF. exact HF.
    - intros [HF|[Ek (i & Li & Ei)]]; [apply X; assumption|]. rewrite (fails_name m c' c) by assumption. apply HR. apply Hv. left. exists i. auto.
  Qed.

  (** a session: requests (number of samples, configuration) one after the other *)
  Fixpoint play (reqs : list (nat * list D)) (d : disk) : py (list verdict * disk) :=
    match reqs with
    | [] => Ret ([], d)
    | (n, c) :: reqs' => do '(v, d) <- stest false n c d; do '(vs, d) <- play reqs' d; Ret (v :: vs, d)
    end.
  Definition request_ok (r : nat * list D) : Prop := NoDup (snd r) /\ incl (snd r) delta0.
  Lemma play_ok reqs d : disk_ok d -> Forall request_ok reqs -> exists vs d', play reqs d = Ret (vs, d') /\ disk_ok d' /\
    forall m c, fails m c d' <-> fails m c d \/ exists n c', In (n, c') reqs /\ name c' = name c /\ exists i, i < n /\ sample (name c) i = false.
  Proof.
    intros Hd Hr. revert d Hd. induction Hr as [|[n c] reqs [Nc Ic] _ IH]; intros d Hd.
    - exists [], d. split; [reflexivity|]. split; [assumption|]. intros m c. split; [auto|]. intros [H|(n & c' & [] & _)]. assumption.
    - cbn [snd] in Nc, Ic. destruct (tl_test _ _ _ _ seq_test_like n c d Hd (conj Nc Ic)) as (v & d1 & E & Hd1 & _).
      destruct (IH d1 Hd1) as (vs & d2 & E2 & Hd2 & F2). exists (v :: vs), d2. cbn [play]. rewrite E. cbn [pbind]. rewrite E2. split; [reflexivity|]. split; [assumption|].
      intros m c'. rewrite F2, (fails_after n c d v d1 m c') by assumption. split.
      + intros [[H|[Ek H]]|(n' & c2 & Hin & Ek & H)]; [auto| |].
        * right. exists n, c. split; [left; reflexivity|]. split; [auto|]. rewrite Ek. exact H.
        * right. exists n', c2. split; [right; assumption|auto].
      + intros [H|(n' & c2 & [Hin|Hin] & Ek & H)]; [auto| |].
        * injection Hin as <- <-. left. right. split; [auto|]. rewrite Ek. exact H.
        * right. exists n', c2. auto.
  Qed.
  Lemma play_app r1 r2 d : play (r1 ++ r2) d = (do '(v1, d) <- play r1 d; do '(v2, d) <- play r2 d; Ret (v1 ++ v2, d)).
  Proof.
    revert d. induction r1 as [|[n c] r1 IH]; intros d.
    - cbn [app play pbind]. destruct (play r2 d) as [[v2 d2]| | |]; reflexivity.
    - cbn [app play]. destruct (stest false n c d) as [[v d1]| | |]; [|reflexivity..]. cbn [pbind]. rewrite IH.
      destruct (play r1 d1) as [[v1 d2]| | |]; [|reflexivity..]. cbn [pbind]. destruct (play r2 d2) as [[v2 d3]| | |]; reflexivity.
  Qed.

  (** killed between the creation of a sample directory and the end of the comparison *)
  Lemma scan_none l done i : In (i, None) l -> scan l done = Raise \/ scan l done = Ret None.
  Proof.
    revert done. induction l as [|[j r] l IH]; intros done H; [destruct H|]. cbn [scan]. destruct H as [H|H].
    - injection H as -> ->. left. reflexivity.
    - destruct r as [[|]|]; [apply IH; assumption|right; reflexivity|left; reflexivity].
  Qed.
  Lemma scan_none_true l done i : In (i, None) l -> (forall j, ~ In (j, Some false) l) -> scan l done = Raise.
  Proof.
    revert done. induction l as [|[j r] l IH]; intros done H H'; [destruct H|]. cbn [scan]. destruct r as [[|]|].
    - apply IH; [destruct H as [H|H]; [discriminate|assumption]|]. intros j' Hj. apply (H' j'). right. assumption.
    - contradiction (H' j). left. reflexivity.
    - reflexivity.
  Qed.
  Lemma killed_seq_ok k done i l : entries_ok k l -> NoDup (done ++ [i]) -> (forall j, In j (done ++ [i]) -> ~ In j (map fst l)) ->
    killed_seq sample k done i l = Ret (l ++ map (fun j => (j, Some (sample k j))) done ++ [(i, None)]).
  Proof.
    revert l. induction done as [|j done IH]; intros l Hl N Hw.
    - cbn [killed_seq map app]. apply mkdir_new. apply Hw. left. reflexivity.
    - cbn [killed_seq app] in *. rewrite mkdir_new by (apply Hw; left; reflexivity). cbn [pbind]. rewrite set_new by (apply Hw; left; reflexivity).
      inversion N as [|? ? N1 N2]. subst. rewrite IH; [cbn [map app]; rewrite <- app_assoc; reflexivity| |assumption|].
      + destruct Hl as [N0 H]. split.
        * rewrite map_app. cbn [map fst]. apply (Permutation_NoDup (l := j :: map fst l)); [apply Permutation_cons_append|]. constructor; [apply Hw; left; reflexivity|assumption].
        * intros j' r Hj. apply in_app_iff in Hj. destruct Hj as [Hj|[Hj|[]]]; [apply H; assumption|]. injection Hj as <- <-. reflexivity.
      + intros j' Hj. rewrite map_app, in_app_iff. cbn. intros [H|[H|[]]]; [apply (Hw j' (or_intror Hj)); assumption|]. subst j'. contradiction.
  Qed.

  Lemma disk0_ok : disk_ok (disk0 (K := K)). Proof. intros k l. discriminate. Qed.

  (** the verdict on an empty cache is about the first n samples only *)
  Lemma fails_disk0 n c : fails n c disk0 <-> exists i, i < n /\ sample (name c) i = false.
  Proof. unfold fails, disk0. split; [|auto]. intros [H|(l & i & E & _)]; [assumption|discriminate]. Qed.
End samples.

(** a deterministic test without memory is one *)
Section det.
  Context {D : Type} (U : list D) (f : list D -> bool).
  Definition det_test (n : nat) (c : list D) (s : unit) : py (verdict * unit) := Ret (if f c then FAIL else PASS, s).
  Theorem det_test_like : test_like det_test U (fun _ => True) (fun _ c _ => f c = true).
  Proof.
    split; [auto|]. intros n c s _ _. exists (if f c then FAIL else PASS), s. split; [reflexivity|]. split; [trivial|]. split; [split; auto|].
    destruct (f c); cbn; split; auto; split; auto; discriminate.
  Qed.
End det.
