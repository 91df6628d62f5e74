(** Proofs about the delta-debugging algorithms, for an arbitrary test that behaves like a test with remembered samples. *)
From Coq Require Import List Arith Bool Lia Permutation.
From Verif Require Import DDModel.
Import ListNotations.
Open Scope py_scope.

(** ** Splitting *)
Section splitting.
  Context {D : Type} (Ddec : forall x y : D, {x = y} + {x <> y}).
  Implicit Types c : list D.

  Lemma split_length c n : length (split c n) = n.
  Proof. revert c. induction n as [|n IH]; intros c; [reflexivity|]. cbn [split length]. rewrite IH. reflexivity. Qed.
  Lemma split_concat c n : n <> 0 -> concat (split c n) = c.
  Proof.
    revert c. induction n as [|n IH]; intros c H; [congruence|]. cbn [split concat]. destruct n as [|n].
    - cbn [split concat]. rewrite app_nil_r, Nat.div_1_r. apply firstn_all.
    - rewrite IH by congruence. apply firstn_skipn.
  Qed.
  Lemma split_sizes c n ci : In ci (split c n) -> length c / n <= length ci /\ length ci <= (length c + n - 1) / n.
  Proof.
    revert c. induction n as [|n IH]; intros c H; [destruct H|]. cbn [split] in H. set (k := length c / S n) in *.
    assert (Hk : k * S n <= length c) by (unfold k; rewrite Nat.mul_comm; apply Nat.mul_div_le; lia).
    assert (Hk' : length c < (k + 1) * S n). { unfold k. pose proof (Nat.mul_succ_div_gt (length c) (S n) ltac:(lia)). nia. }
    assert (Hle : k <= length c) by nia. destruct H as [<-|H].
    - rewrite firstn_length_le by assumption. split; [lia|]. apply Nat.div_le_lower_bound; [lia|]. nia.
    - destruct n as [|n]; [destruct H|]. apply IH in H. rewrite skipn_length in H. destruct H as [L U]. split.
      + etransitivity; [|exact L]. apply Nat.div_le_lower_bound; [lia|]. nia.
      + etransitivity; [exact U|]. replace (length c - k + S n - 1) with (length c - k + n) by lia.
        replace (length c + S (S n) - 1) with (length c + S n) by lia.
        set (q := (length c + S n) / S (S n)). assert (Q : length c + S n < (q + 1) * S (S n)). { unfold q. pose proof (Nat.mul_succ_div_gt (length c + S n) (S (S n)) ltac:(lia)). nia. }
        (* either n+2 divides the length, and q = k, or q = k + 1 *)
        assert (k <= q). { unfold q, k. apply Nat.div_le_mono; lia. }
        assert ((length c - k + n) / S n < q + 1); [|lia]. apply Nat.div_lt_upper_bound; [lia|]. destruct (Nat.eq_dec q k) as [->|N]; nia.
  Qed.
  Lemma split_nonempty c n ci : n <= length c -> In ci (split c n) -> 1 <= length ci.
  Proof.
    intros H I. destruct n as [|n]; [destruct I|]. apply split_sizes in I. destruct I as [L _].
    assert (1 <= length c / S n); [|lia]. apply Nat.div_le_lower_bound; lia.
  Qed.

  Lemma inb_In x l : inb Ddec x l = true <-> In x l.
  Proof. unfold inb. destruct (in_dec Ddec x l); split; intros; congruence || assumption. Qed.
  Lemma minus_In x a b : In x (listminus Ddec a b) <-> In x a /\ ~ In x b.
  Proof. unfold listminus. rewrite filter_In, negb_true_iff, <- not_true_iff_false, inb_In. reflexivity. Qed.
  Lemma inter_In x a b : In x (listintersect Ddec a b) <-> In x a /\ In x b.
  Proof. unfold listintersect. rewrite filter_In, inb_In. reflexivity. Qed.
  Lemma minus_NoDup a b : NoDup a -> NoDup (listminus Ddec a b).
  Proof. apply NoDup_filter. Qed.
  Lemma filter_all (p : D -> bool) l : (forall x, In x l -> p x = true) -> filter p l = l.
  Proof. induction l as [|x l IH]; intros H; [reflexivity|]. cbn. rewrite (H x (or_introl eq_refl)). f_equal. apply IH. intros y Hy. apply H. right. assumption. Qed.
  Lemma filter_none (p : D -> bool) l : (forall x, In x l -> p x = false) -> filter p l = [].
  Proof. induction l as [|x l IH]; intros H; [reflexivity|]. cbn. rewrite (H x (or_introl eq_refl)). apply IH. intros y Hy. apply H. right. assumption. Qed.
  (** removing a segment *)
  Lemma minus_segment l m r : NoDup (l ++ m ++ r) -> listminus Ddec (l ++ m ++ r) m = l ++ r.
  Proof.
    intros H. unfold listminus. rewrite !filter_app. rewrite (filter_none _ m).
    2:{ intros x Hx. rewrite negb_false_iff. apply inb_In. assumption. }
    assert (A : forall x, In x m -> ~ In x l /\ ~ In x r).
    { intros x Hx. split; intros Hy.
      - apply in_split in Hy. destruct Hy as (l1 & l2 & ->). rewrite <- app_assoc in H. cbn in H. apply NoDup_remove_2 in H. apply H.
        rewrite !in_app_iff. tauto.
      - apply in_split in Hx. destruct Hx as (m1 & m2 & ->). rewrite <- app_assoc in H. cbn in H. rewrite app_assoc in H. apply NoDup_remove_2 in H. apply H. rewrite !in_app_iff. tauto. }
    rewrite !filter_all; [reflexivity| |]; intros x Hx; rewrite negb_true_iff; destruct (inb Ddec x m) eqn:E; try reflexivity; apply inb_In in E; apply A in E; tauto.
  Qed.
  (** a double complement inside a larger list *)
  Lemma minus_minus_In x CC c : In x (listminus Ddec CC (listminus Ddec CC c)) <-> In x CC /\ In x c.
  Proof. rewrite !minus_In. destruct (in_dec Ddec x c); tauto. Qed.
  Lemma inter_minus c ci CC : incl c CC -> listintersect Ddec c (listminus Ddec CC (listminus Ddec CC (listminus Ddec c ci))) = listminus Ddec c ci.
  Proof.
    intros H. unfold listintersect. unfold listminus at 4. apply filter_ext_in. intros x Hx.
    apply eq_true_iff_eq. rewrite inb_In, minus_minus_In, minus_In, negb_true_iff, <- not_true_iff_false, inb_In. specialize (H x Hx). tauto.
  Qed.

  Lemma part_segment c n ci : In ci (split c n) ->
    exists l r, c = l ++ ci ++ r /\ (n <= length c -> n - 1 <= length (l ++ r)) /\ (n = 2 -> In (l ++ r) (split c n)).
  Proof.
    intros I. assert (N : n <> 0) by (intros ->; destruct I). pose proof (split_concat c n N) as E. pose proof (split_length c n) as Ln.
    pose proof (fun H ci => split_nonempty c n ci H) as NE. destruct (in_split _ _ I) as (ls & rs & Es). rewrite Es in E, Ln, NE.
    exists (concat ls), (concat rs). rewrite concat_app in E. cbn [concat] in E. split; [symmetry; exact E|]. split.
    - intros H. assert (G : forall X : list (list D), (forall x, In x X -> 1 <= length x) -> length X <= length (concat X)).
      { induction X as [|x X IH]; intros HX; [cbn; lia|]. cbn [concat length]. rewrite app_length. pose proof (HX x (or_introl eq_refl)). specialize (IH (fun y Hy => HX y (or_intror Hy))). lia. }
      rewrite app_length. rewrite app_length in Ln. cbn [length] in Ln.
      pose proof (G ls (fun x Hx => NE H x (in_or_app _ _ _ (or_introl Hx)))). pose proof (G rs (fun x Hx => NE H x (in_or_app ls (ci :: rs) x (or_intror (in_cons ci x rs Hx))))). lia.
    - intros ->. rewrite Es. destruct ls as [|a [|]]; destruct rs as [|b [|]]; cbn in Ln; try (exfalso; rewrite ?app_length in Ln; cbn in Ln; lia); cbn [concat app In]; rewrite ?app_nil_r; tauto.
  Qed.

  Lemma rotation_In off n i : In i (rotation off n) <-> i < n.
  Proof.
    unfold rotation. rewrite in_map_iff. split.
    - intros (j & <- & H). apply in_seq in H. apply Nat.mod_upper_bound. lia.
    - intros H. exists ((i + (n - off mod n)) mod n). split.
      + rewrite Nat.add_mod_idemp_l by lia. rewrite <- (Nat.add_mod_idemp_r _ off) by lia.
        pose proof (Nat.mod_upper_bound off n ltac:(lia)). replace (i + (n - off mod n) + off mod n) with (i + 1 * n) by lia.
        rewrite Nat.mod_add by lia. apply Nat.mod_small. assumption.
      + apply in_seq. pose proof (Nat.mod_upper_bound (i + (n - off mod n)) n ltac:(lia)). lia.
  Qed.
End splitting.

Lemma NoDup_sub {D} (l m r : list D) : NoDup (l ++ m ++ r) -> NoDup m /\ NoDup (l ++ r).
Proof.
  intros H. split.
  - assert (NoDup (m ++ r)) as H1. { revert H. induction l as [|x l IH]; intros H; [assumption|]. apply IH. inversion H; assumption. }
    clear H. induction m as [|x m IH]; [constructor|]. inversion H1; subst. constructor; [rewrite in_app_iff in *; tauto|auto].
  - revert r H. induction m as [|x m IH]; intros r H; [assumption|]. apply IH. cbn in H. apply NoDup_remove_1 in H. assumption.
Qed.

(** ** What is required of a test *)
Section spec.
  Context {D S : Type} (Ddec : forall x y : D, {x = y} + {x <> y}).
  Context (test : nat -> list D -> S -> py (verdict * S)) (U : list D) (Inv : S -> Prop) (F : nat -> list D -> S -> Prop).

  (** s' is a later state than s and only samples below n were computed in between *)
  Definition ext (n : nat) (s s' : S) : Prop :=
    (forall m c, F m c s -> F m c s') /\ (forall m c, n <= m -> F m c s' -> F m c s).
  Definition good (c : list D) : Prop := NoDup c /\ incl c U.
  Record test_like : Prop := {
    tl_mono : forall n m c s, n <= m -> F n c s -> F m c s;
    tl_test : forall n c s, Inv s -> good c -> exists v s', test n c s = Ret (v, s') /\ Inv s' /\ ext n s s' /\ (is_fail v = true <-> F n c s) /\
      (is_fail v = true -> forall m, F m c s')   (* a failure is remembered, whatever number of samples is asked for later *)
  }.

  Context (TL : test_like).
  Lemma ext_refl n s : ext n s s. Proof. split; auto. Qed.
  Lemma ext_trans n s1 s2 s3 : ext n s1 s2 -> ext n s2 s3 -> ext n s1 s3.
  Proof. intros [A B] [C E]. split; auto. Qed.
  Lemma ext_le n m s s' : n <= m -> ext n s s' -> ext m s s'.
  Proof. intros H [A B]. split; [assumption|]. intros k c Hk. apply B. lia. Qed.
  Lemma ext_F n m s s' c : n <= m -> ext n s s' -> F m c s <-> F m c s'.
  Proof. intros H [A B]. split; [apply A|apply B]. assumption. Qed.

  Lemma good_part c n ci : good c -> In ci (split c n) -> good ci.
  Proof.
    intros [N I] H. apply part_segment in H. destruct H as (l & r & -> & _). apply NoDup_sub in N. destruct N as [N _].
    split; [assumption|]. intros x Hx. apply I. rewrite !in_app_iff. tauto.
  Qed.
  Lemma good_minus c x : good c -> good (listminus Ddec c x).
  Proof. intros [N I]. split; [apply minus_NoDup; assumption|]. intros y Hy. apply I. apply minus_In in Hy. tauto. Qed.
  Lemma good_nil : good []. Proof. split; [constructor|intros x []]. Qed.
  Lemma good_incl c c' : good c -> NoDup c' -> incl c' c -> good c'.
  Proof. intros [N I] N' H. split; [assumption|]. intros x Hx. auto. Qed.

  (** sets *)
  Lemma find_subset_spec nb cs s : Inv s -> (forall ci, In ci cs -> good ci) -> exists r s', find_subset test nb cs s = Ret (r, s') /\ Inv s' /\ ext nb s s' /\
    match r with Some ci => In ci cs /\ F nb ci s | None => forall ci, In ci cs -> ~ F nb ci s end.
  Proof.
    revert s. induction cs as [|ci cs IH]; intros s Hs Hg.
    - exists None, s. repeat split; auto.
    - cbn [find_subset]. destruct (tl_test TL nb ci s Hs (Hg ci (or_introl eq_refl))) as (v & s' & -> & Hs' & He & Hv & _). cbn [pbind].
      destruct (is_fail v).
      + exists (Some ci), s'. split; [reflexivity|]. split; [assumption|]. split; [assumption|]. split; [left; reflexivity|]. tauto.
      + destruct (IH s' Hs' (fun c Hc => Hg c (or_intror Hc))) as (r & s2 & -> & H2 & E2 & R). exists r, s2. split; [reflexivity|].
        split; [assumption|]. split; [eapply ext_trans; eassumption|]. destruct r as [c|].
        * destruct R. split; [right; assumption|]. apply (ext_F nb nb s s'); auto.
        * intros c [<-|Hc] HF; [apply Hv in HF; discriminate|]. apply (R c Hc). apply (ext_F nb nb s s'); auto.
  Qed.
  Lemma find_complement_spec nb c cs is s : Inv s -> good c -> exists r s', find_complement Ddec test nb c cs is s = Ret (r, s') /\ Inv s' /\ ext nb s s' /\
    match r with
    | Some (i, cbar) => In i is /\ cbar = listminus Ddec c (nth i cs []) /\ F nb cbar s
    | None => forall i, In i is -> ~ F nb (listminus Ddec c (nth i cs [])) s
    end.
  Proof.
    revert s. induction is as [|i is IH]; intros s Hs Hg.
    - exists None, s. repeat split; auto.
    - cbn [find_complement]. set (cbar := listminus Ddec c (nth i cs [])).
      destruct (tl_test TL nb cbar s Hs (good_minus _ _ Hg)) as (v & s' & -> & Hs' & He & Hv & _). cbn [pbind].
      destruct (is_fail v).
      + exists (Some (i, cbar)), s'. split; [reflexivity|]. split; [assumption|]. split; [assumption|]. split; [left; reflexivity|]. split; [reflexivity|tauto].
      + destruct (IH s' Hs' Hg) as (r & s2 & -> & H2 & E2 & R). exists r, s2. split; [reflexivity|].
        split; [assumption|]. split; [eapply ext_trans; eassumption|]. destruct r as [[j cj]|].
        * destruct R as (A & B & C). split; [right; assumption|]. split; [assumption|]. apply (ext_F nb nb s s'); auto.
        * intros j [<-|Hj] HF; [apply Hv in HF; discriminate|]. apply (R j Hj). apply (ext_F nb nb s s'); auto.
  Qed.

  (** what a minimisation result is *)
  Definition one_minimal (nb : nat) (c : list D) (s : S) : Prop :=
    F nb c s /\ forall x, In x c -> ~ F nb (listminus Ddec c [x]) s.
  Definition mu (c : list D) (n : nat) : nat := length c * (length c + 1) + (length c - n).

  Context (unsafe : bool).

  Lemma ddmin_loop_spec nb first n off c s : Inv s -> good c -> 2 <= n -> n <= length c \/ n = 2 -> F nb c s -> ~ F nb [] s ->
    exists c' s', (forall fuel, mu c n < fuel -> ddmin_loop Ddec test unsafe fuel nb first n off c s = Ret (c', s')) /\
      Inv s' /\ ext nb s s' /\ good c' /\ incl c' c /\ (forall m, F m c' s') /\ one_minimal nb c' s.
  Proof.
    remember (mu c n) as m eqn:Em. revert first n off c s Em. induction m as [m IH] using lt_wf_ind. intros first n off c s Em Hs Hg Hn Hl HF H0.
    destruct (tl_test TL nb c s Hs Hg) as (v & s1 & ET & Hs1 & E1 & Hv & HR). apply Hv in HF as HF'. specialize (HR HF').
    assert (unfold_loop : forall fuel, ddmin_loop Ddec test unsafe (Datatypes.S fuel) nb first n off c s =
      if length c <? n then Ret (c, s1) else
      do '(r, s) <- find_subset test nb (split c n) s1;
      match r with
      | Some ci => ddmin_loop Ddec test unsafe fuel nb false 2 0 ci s
      | None =>
          do '(r, s) <- find_complement Ddec test nb c (split c n) (rotation off n) s;
          match r with
          | Some (i, cbar) => ddmin_loop Ddec test unsafe fuel nb false (n - 1) i cbar s
          | None =>
              if length c <=? n then Ret (c, s)
              else let next_n := Nat.min (length c) (n * 2) in ddmin_loop Ddec test unsafe fuel nb false next_n (off * next_n / n) c s
          end
      end).
    { intros fuel. cbn [ddmin_loop]. rewrite ET. cbn [pbind]. rewrite HF'. reflexivity. }
    assert (F1 : forall x, F nb x s <-> F nb x s1) by (intros x; apply (ext_F nb nb); auto).
    destruct (Nat.ltb_spec (length c) n) as [L|L].
    { (* a single delta *)
      exists c, s1. split. { intros fuel Hfuel. destruct fuel; [lia|]. rewrite unfold_loop. reflexivity. }
      split; [assumption|]. split; [assumption|]. split; [assumption|]. split; [intros x Hx; assumption|]. split; [assumption|]. split; [assumption|].
      intros x Hx. assert (c = [x]) as ->. { destruct c as [|a [|]]; cbn in L, Hl; [destruct Hx| |lia]. destruct Hx as [->|[]]. reflexivity. }
      unfold listminus. cbn [filter]. replace (inb Ddec x [x]) with true by (symmetry; apply inb_In; left; reflexivity). assumption. }
    destruct (find_subset_spec nb (split c n) s1 Hs1 (fun ci Hi => good_part c n ci Hg Hi)) as (r & s2 & E2 & Hs2 & X2 & R2). rewrite E2 in unfold_loop. cbn [pbind] in unfold_loop.
    pose proof (ext_trans _ _ _ _ E1 X2) as X12. assert (F2 : forall x, F nb x s <-> F nb x s2) by (intros x; apply (ext_F nb nb); auto).
    destruct r as [ci|].
    { (* reduce to a subset *)
      destruct R2 as [Ri Rf]. destruct (part_segment c n ci Ri) as (l & r & Ec & Hlen & _). specialize (Hlen L).
      assert (Lc : length ci < length c). { rewrite app_length in Hlen. rewrite Ec, !app_length. lia. }
      destruct (IH (mu ci 2)) with (first := false) (n := 2) (off := 0) (c := ci) (s := s2) as (c' & s' & EL & A1 & A2 & A3 & A4 & AR & A5 & A6); auto.
      - subst m. unfold mu. nia.
      - apply (good_part c n); assumption.
      - apply F2, F1. assumption.
      - rewrite <- F2. assumption.
      - exists c', s'. split. { intros fuel Hf. destruct fuel; [lia|]. rewrite unfold_loop. apply EL. assert (mu ci 2 < m) by (subst m; unfold mu; nia). lia. }
        split; [assumption|]. split; [eapply ext_trans; eassumption|]. split; [assumption|]. split.
        { intros x Hx. apply A4 in Hx. rewrite Ec, !in_app_iff. tauto. }
        split; [assumption|]. split; [apply F2; assumption|]. intros x Hx. rewrite F2. apply A6. assumption. }
    destruct (find_complement_spec nb c (split c n) (rotation off n) s2 Hs2 Hg) as (r & s3 & E3 & Hs3 & X3 & R3). rewrite E3 in unfold_loop. cbn [pbind] in unfold_loop.
    pose proof (ext_trans _ _ _ _ X12 X3) as X13. assert (F3 : forall x, F nb x s <-> F nb x s3) by (intros x; apply (ext_F nb nb); auto).
    destruct r as [[i cbar]|].
    { (* reduce to a complement *)
      destruct R3 as (Ri & Ecb & Rf). apply rotation_In in Ri.
      assert (Ii : In (nth i (split c n) []) (split c n)) by (apply nth_In; rewrite split_length; assumption).
      set (ci := nth i (split c n) []) in *. clearbody ci.
      destruct (part_segment c n _ Ii) as (l & r & Ec & Hlen & H2). specialize (Hlen L). pose proof (split_nonempty c n _ L Ii) as NE.
      rewrite Ec, minus_segment in Ecb by (rewrite <- Ec; apply Hg).
      assert (Lc : length cbar < length c). { rewrite Ecb, Ec, !app_length. lia. }
      assert (n <> 2). { intros N2. apply (R2 (l ++ r)); [apply H2; assumption|]. rewrite <- Ecb. apply F1, F2. assumption. }
      rewrite <- Ecb in Hlen. clear H2.
      assert (IC : incl cbar c). { intros x Hx. rewrite Ecb in Hx. rewrite Ec, !in_app_iff. rewrite in_app_iff in Hx. tauto. }
      assert (MU : mu cbar (n - 1) < m) by (subst m; unfold mu; nia).
      destruct (IH (mu cbar (n - 1)) MU) with (first := false) (n := n - 1) (off := i) (c := cbar) (s := s3) as (c' & s' & EL & A1 & A2 & A3 & A4 & AR & A5 & A6); auto.
      - split; [|intros x Hx; apply Hg, IC, Hx]. destruct Hg as [N _]. rewrite Ec in N. apply NoDup_sub in N. rewrite Ecb. tauto.
      - lia.
      - apply F3, F2. assumption.
      - rewrite <- F3. assumption.
      - exists c', s'. split. { intros fuel Hf. destruct fuel; [lia|]. rewrite unfold_loop. apply EL. lia. }
        split; [assumption|]. split; [eapply ext_trans; eassumption|]. split; [assumption|]. split; [eapply incl_tran; eassumption|].
        split; [assumption|]. split; [apply F3; assumption|]. intros x Hx. rewrite F3. apply A6. assumption. }
    destruct (Nat.leb_spec (length c) n) as [G|G].
    { (* every part is a single delta *)
      exists c, s3. split. { intros fuel Hfuel. destruct fuel; [lia|]. rewrite unfold_loop. reflexivity. }
      split; [assumption|]. split; [assumption|]. split; [assumption|]. split; [intros x Hx; assumption|]. split; [intros m0; apply X3, X2, HR|]. split; [assumption|].
      intros x Hx. rewrite <- (split_concat c n) in Hx by lia. apply in_concat in Hx. destruct Hx as (ci & Hci & Hx).
      destruct (part_segment c n ci Hci) as (l & r & Ec & Hlen & _). specialize (Hlen L).
      assert (length ci <= 1). { rewrite Ec, !app_length in G, L. rewrite app_length in Hlen. lia. }
      assert (ci = [x]) as ->. { destruct ci as [|a [|]]; [destruct Hx| |cbn in *; lia]. destruct Hx as [->|[]]. reflexivity. }
      apply (In_nth _ _ []) in Hci. destruct Hci as (i & Hi & Ei). rewrite split_length in Hi.
      specialize (R3 i). rewrite rotation_In, Ei in R3. rewrite F2. auto. }
    (* finer granularity *)
    set (n' := Nat.min (length c) (n * 2)) in *. assert (MU : mu c n' < m) by (subst m; unfold mu, n'; lia).
    destruct (IH (mu c n') MU) with (first := false) (n := n') (off := off * n' / n) (c := c) (s := s3) as (c' & s' & EL & A1 & A2 & A3 & A4 & AR & A5 & A6); auto.
    - unfold n'. lia.
    - unfold n'. lia.
    - apply F3. assumption.
    - rewrite <- F3. assumption.
    - exists c', s'. split. { intros fuel Hf. destruct fuel; [lia|]. rewrite unfold_loop. apply EL. lia. }
      split; [assumption|]. split; [eapply ext_trans; eassumption|]. split; [assumption|]. split; [assumption|].
      split; [assumption|]. split; [apply F3; assumption|]. intros x Hx. rewrite F3. apply A6. assumption.
  Qed.

  Definition enough (c : list D) : nat := Datatypes.S (length c * (length c + 2)).
  Lemma ddmin_spec nb c s : Inv s -> good c -> F nb c s -> ~ F nb [] s ->
    exists c' s', (forall fuel, enough c <= fuel -> ddmin Ddec test unsafe fuel nb c s = Ret (c', s')) /\
      Inv s' /\ ext nb s s' /\ good c' /\ incl c' c /\ (forall m, F m c' s') /\ one_minimal nb c' s.
  Proof.
    intros Hs Hg HF H0. unfold ddmin. destruct (tl_test TL nb [] s Hs good_nil) as (v & s1 & ET & Hs1 & E1 & Hv & _). rewrite ET. cbn [pbind].
    destruct (is_fail v). { contradiction H0. tauto. }
    assert (F1 : forall x, F nb x s <-> F nb x s1) by (intros x; apply (ext_F nb nb); auto).
    destruct (ddmin_loop_spec nb true 2 0 c s1) as (c' & s' & EL & A1 & A2 & A3 & A4 & AR & A5 & A6); auto.
    - apply F1. assumption.
    - rewrite <- F1. assumption.
    - exists c', s'. split. { intros fuel Hf. apply EL. unfold enough in Hf. unfold mu. nia. }
      split; [assumption|]. split; [eapply ext_trans; eassumption|]. split; [assumption|]. split; [assumption|].
      split; [assumption|]. split; [apply F1; assumption|]. intros x Hx. rewrite F1. apply A6. assumption.
  Qed.

  (** ** ddmax *)
  Context (cfg_nb : nat).
  Lemma nth_restore (cs : list (list D)) i : i < length cs -> firstn i cs ++ nth i cs [] :: skipn (Datatypes.S i) cs = cs.
  Proof.
    revert i. induction cs as [|a cs IH]; intros i H; [cbn in H; lia|]. destruct i as [|i]; [reflexivity|].
    change (nth (Datatypes.S i) (a :: cs) []) with (nth i cs []). change (skipn (Datatypes.S (Datatypes.S i)) (a :: cs)) with (skipn (Datatypes.S i) cs).
    cbn [firstn app]. f_equal. apply IH. cbn in H. lia.
  Qed.
  Lemma find_complement_max_spec CC c cs is s : Inv s -> good CC -> incl c CC -> (forall i, In i is -> i < length cs) ->
    exists r s', find_complement_max Ddec test cfg_nb CC c cs is s = Ret (r, s') /\ Inv s' /\ ext cfg_nb s s' /\
    match r with
    | Some (i, cbar) => In i is /\ cbar = listminus Ddec c (nth i cs []) /\ ~ F cfg_nb (listminus Ddec CC cbar) s
    | None => forall i, In i is -> F cfg_nb (listminus Ddec CC (listminus Ddec c (nth i cs []))) s
    end.
  Proof.
    revert s. induction is as [|i is IH]; intros s Hs Hg Hi Hc.
    - exists None, s. split; [reflexivity|]. split; [assumption|]. split; [apply ext_refl|]. intros i [].
    - cbn [find_complement_max]. set (csi := nth i cs []). set (cbar := listminus Ddec c csi). unfold test_max.
      destruct (tl_test TL cfg_nb (listminus Ddec CC cbar) s Hs (good_minus _ _ Hg)) as (v & s' & -> & Hs' & He & Hv & _). cbn [pbind].
      assert (DB : listintersect Ddec (listminus Ddec CC (listminus Ddec CC cbar)) csi = []).
      { destruct (listintersect Ddec (listminus Ddec CC (listminus Ddec CC cbar)) csi) as [|x l] eqn:E; [reflexivity|]. exfalso.
        assert (Hx : In x (x :: l)) by (left; reflexivity). rewrite <- E in Hx. apply inter_In in Hx. destruct Hx as [Hx1 Hx2].
        apply minus_minus_In in Hx1. unfold cbar in Hx1. rewrite minus_In in Hx1. tauto. }
      rewrite DB. replace (listminus Ddec csi []) with csi.
      2:{ unfold listminus. rewrite filter_all; [reflexivity|]. intros x _. rewrite negb_true_iff, <- not_true_iff_false, inb_In. intros []. }
      pose proof (nth_restore cs i (Hc i (or_introl eq_refl))) as NR. fold csi in NR. rewrite NR.
      pose proof (inter_minus Ddec c csi CC Hi) as IM. fold cbar in IM. rewrite IM.
      destruct (is_fail v); cbn [is_fail].
      + destruct (IH s' Hs' Hg Hi (fun j Hj => Hc j (or_intror Hj))) as (r & s2 & -> & H2 & E2 & R). exists r, s2. split; [reflexivity|].
        split; [assumption|]. split; [eapply ext_trans; eassumption|]. destruct r as [[j cj]|].
        * destruct R as (A & B & C). split; [right; assumption|]. split; [assumption|]. rewrite (ext_F cfg_nb cfg_nb s s'); auto.
        * intros j [<-|Hj]; [fold csi; fold cbar; tauto|]. apply (ext_F cfg_nb cfg_nb s s'); auto.
      + exists (Some (i, cbar)), s'. split; [reflexivity|]. split; [assumption|]. split; [assumption|]. split; [left; reflexivity|]. split; [reflexivity|].
        intros HF. apply Hv in HF. discriminate.
  Qed.

  (** c' is a set of deltas whose removal makes the test pass, and no delta of it can be put back *)
  Definition one_maximal_removal (CC c' : list D) (s : S) : Prop :=
    ~ F cfg_nb (listminus Ddec CC c') s /\ forall x, In x c' -> F cfg_nb (listminus Ddec CC (listminus Ddec c' [x])) s.
  Lemma minus_nil l : listminus Ddec l [] = l.
  Proof. unfold listminus. apply filter_all. intros x _. rewrite negb_true_iff, <- not_true_iff_false, inb_In. intros []. Qed.
  Lemma minus_self l : listminus Ddec l l = [].
  Proof. unfold listminus. apply filter_none. intros x Hx. rewrite negb_false_iff, inb_In. assumption. Qed.

  Lemma ddmax_loop_spec CC first n off c s : Inv s -> good CC -> NoDup c -> incl c CC -> 1 <= n -> n <= length c \/ n = 2 -> F cfg_nb CC s ->
    (first = true -> c = CC) -> ~ F cfg_nb (listminus Ddec CC c) s ->
    exists c' s', (forall fuel, mu c n < fuel -> ddmax_loop Ddec test cfg_nb fuel CC first n off c s = Ret (c', s')) /\
      Inv s' /\ ext cfg_nb s s' /\ NoDup c' /\ incl c' c /\ one_maximal_removal CC c' s.
  Proof.
    intros Hs Hg. remember (mu c n) as m eqn:Em. revert first n off c s Em Hs. induction m as [m IH] using lt_wf_ind. intros first n off c s Em Hs Nc Ic Hn Hl HF Hfirst HG.
    destruct (tl_test TL cfg_nb c s Hs (good_incl _ _ Hg Nc Ic)) as (v & s1 & ET & Hs1 & E1 & Hv & _).
    assert (unfold_loop : forall fuel, ddmax_loop Ddec test cfg_nb (Datatypes.S fuel) CC first n off c s =
      if length c <? n then Ret (c, s1) else
      do '(r, s) <- find_complement_max Ddec test cfg_nb CC c (split c n) (rotation off n) s1;
      match r with
      | Some (i, cbar) => ddmax_loop Ddec test cfg_nb fuel CC false (n - 1) i cbar s
      | None =>
          if length c <=? n then Ret (c, s)
          else let next_n := Nat.min (length c) (n * 2) in ddmax_loop Ddec test cfg_nb fuel CC false next_n (off * next_n / n) c s
      end).
    { intros fuel. cbn [ddmax_loop]. rewrite ET. cbn [pbind]. destruct first; [|rewrite andb_false_r; reflexivity].
      rewrite Hfirst in Hv by reflexivity. apply Hv in HF. rewrite HF. reflexivity. }
    assert (F1 : forall x, F cfg_nb x s <-> F cfg_nb x s1) by (intros x; apply (ext_F cfg_nb cfg_nb); auto).
    destruct (Nat.ltb_spec (length c) n) as [L|L].
    { exists c, s1. split. { intros fuel Hfuel. destruct fuel; [lia|]. rewrite unfold_loop. reflexivity. }
      split; [assumption|]. split; [assumption|]. split; [assumption|]. split; [intros x Hx; assumption|]. split; [assumption|].
      intros x Hx. assert (c = [x]) as ->. { destruct c as [|a [|]]; cbn in L, Hl; [destruct Hx| |lia]. destruct Hx as [->|[]]. reflexivity. }
      rewrite minus_self, minus_nil. assumption. }
    destruct (find_complement_max_spec CC c (split c n) (rotation off n) s1 Hs1 Hg Ic) as (r & s3 & E3 & Hs3 & X3 & R3).
    { intros i Hi. rewrite split_length. apply rotation_In in Hi. assumption. }
    rewrite E3 in unfold_loop. cbn [pbind] in unfold_loop.
    pose proof (ext_trans _ _ _ _ E1 X3) as X13. assert (F3 : forall x, F cfg_nb x s <-> F cfg_nb x s3) by (intros x; apply (ext_F cfg_nb cfg_nb); auto).
    destruct r as [[i cbar]|].
    { destruct R3 as (Ri & Ecb & Rf). apply rotation_In in Ri.
      assert (Ii : In (nth i (split c n) []) (split c n)) by (apply nth_In; rewrite split_length; assumption).
      set (ci := nth i (split c n) []) in *. clearbody ci.
      destruct (part_segment c n _ Ii) as (l & r & Ec & Hlen & _). specialize (Hlen L). pose proof (split_nonempty c n _ L Ii) as NE.
      rewrite Ec, minus_segment in Ecb by (rewrite <- Ec; assumption).
      assert (Lc : length cbar < length c). { rewrite Ecb, Ec, !app_length. lia. }
      rewrite <- Ecb in Hlen.
      assert (cbar <> []). { intros Z. rewrite Z, minus_nil in Rf. apply Rf, F1. assumption. }
      assert (1 <= length cbar) by (destruct cbar; cbn; [congruence|lia]).
      assert (n <> 1). { intros ->. apply split_sizes in Ii. rewrite Nat.div_1_r in Ii. rewrite Ecb, app_length in H0. rewrite Ec, !app_length in Ii. lia. }
      assert (IC : incl cbar c). { intros x Hx. rewrite Ecb in Hx. rewrite Ec, !in_app_iff. rewrite in_app_iff in Hx. tauto. }
      assert (MU : mu cbar (n - 1) < m) by (subst m; unfold mu; nia).
      destruct (IH (mu cbar (n - 1)) MU) with (first := false) (n := n - 1) (off := i) (c := cbar) (s := s3) as (c' & s' & EL & A1 & A2 & A3 & A4 & A5 & A6); auto.
      - rewrite Ec in Nc. apply NoDup_sub in Nc. rewrite Ecb. tauto.
      - eapply incl_tran; eassumption.
      - lia.
      - apply F3. assumption.
      - discriminate.
      - rewrite <- F3, F1. assumption.
      - exists c', s'. split. { intros fuel Hf. destruct fuel; [lia|]. rewrite unfold_loop. apply EL. lia. }
        split; [assumption|]. split; [eapply ext_trans; eassumption|]. split; [assumption|]. split; [eapply incl_tran; eassumption|].
        split; [rewrite F3; assumption|]. intros x Hx. rewrite F3. apply A6. assumption. }
    destruct (Nat.leb_spec (length c) n) as [G|G].
    { exists c, s3. split. { intros fuel Hfuel. destruct fuel; [lia|]. rewrite unfold_loop. reflexivity. }
      split; [assumption|]. split; [assumption|]. split; [assumption|]. split; [intros x Hx; assumption|]. split; [assumption|].
      intros x Hx. rewrite <- (split_concat c n) in Hx by lia. apply in_concat in Hx. destruct Hx as (ci & Hci & Hx).
      destruct (part_segment c n ci Hci) as (l & r & Ec & Hlen & _). specialize (Hlen L).
      assert (length ci <= 1). { rewrite Ec, !app_length in G, L. rewrite app_length in Hlen. lia. }
      assert (ci = [x]) as ->. { destruct ci as [|a [|]]; [destruct Hx| |cbn in *; lia]. destruct Hx as [->|[]]. reflexivity. }
      apply (In_nth _ _ []) in Hci. destruct Hci as (i & Hi & Ei). rewrite split_length in Hi.
      specialize (R3 i). rewrite rotation_In, Ei in R3. rewrite F1. auto. }
    set (n' := Nat.min (length c) (n * 2)) in *. assert (MU : mu c n' < m) by (subst m; unfold mu, n'; lia).
    destruct (IH (mu c n') MU) with (first := false) (n := n') (off := off * n' / n) (c := c) (s := s3) as (c' & s' & EL & A1 & A2 & A3 & A4 & A5 & A6); auto.
    - unfold n'. lia.
    - unfold n'. lia.
    - apply F3. assumption.
    - discriminate.
    - rewrite <- F3. assumption.
    - exists c', s'. split. { intros fuel Hf. destruct fuel; [lia|]. rewrite unfold_loop. apply EL. lia. }
      split; [assumption|]. split; [eapply ext_trans; eassumption|]. split; [assumption|]. split; [assumption|].
      split; [rewrite F3; assumption|]. intros x Hx. rewrite F3. apply A6. assumption.
  Qed.
  Lemma dd_max_spec c s : Inv s -> good c -> F cfg_nb c s -> ~ F cfg_nb [] s ->
    exists c' s', (forall fuel, enough c <= fuel -> dd_max Ddec test cfg_nb fuel c s = Ret (c', s')) /\
      Inv s' /\ ext cfg_nb s s' /\ NoDup c' /\ incl c' c /\ one_maximal_removal c c' s.
  Proof.
    intros Hs Hg HF H0. unfold dd_max. destruct (tl_test TL cfg_nb [] s Hs good_nil) as (v & s1 & ET & Hs1 & E1 & Hv & _). rewrite ET. cbn [pbind].
    destruct (is_fail v). { contradiction H0. tauto. }
    assert (F1 : forall x, F cfg_nb x s <-> F cfg_nb x s1) by (intros x; apply (ext_F cfg_nb cfg_nb); auto).
    destruct (ddmax_loop_spec c true 2 0 c s1) as (c' & s' & EL & A1 & A2 & A3 & A4 & A5 & A6); auto.
    - apply Hg.
    - apply incl_refl.
    - apply F1. assumption.
    - rewrite minus_self, <- F1. assumption.
    - exists c', s'. split. { intros fuel Hf. apply EL. unfold enough in Hf. unfold mu. nia. }
      split; [assumption|]. split; [eapply ext_trans; eassumption|]. split; [assumption|]. split; [assumption|].
      split; [rewrite F1; assumption|]. intros x Hx. rewrite F1. apply A6. assumption.
  Qed.
  Lemma DDMax_spec c s : Inv s -> good c -> F cfg_nb c s -> ~ F cfg_nb [] s ->
    exists kept s', (forall fuel, enough c <= fuel -> DDMax Ddec test cfg_nb fuel c s = Ret (kept, s')) /\ Inv s' /\ ext cfg_nb s s' /\ NoDup kept /\ incl kept c /\
      ~ F cfg_nb kept s /\ forall x, In x c -> ~ In x kept -> exists more, F cfg_nb more s /\ NoDup more /\ incl more c /\ (forall y, In y more <-> In y (x :: kept)).
  Proof.
    intros Hs Hg HF H0. destruct (dd_max_spec c s Hs Hg HF H0) as (c' & s1 & EL & Hs1 & E1 & N' & I' & A & B).
    set (kept := listminus Ddec c c') in *.
    destruct (tl_test TL cfg_nb kept s1 Hs1 (good_minus _ _ Hg)) as (v2 & s2 & ET2 & Hs2 & E2 & _ & _).
    destruct (tl_test TL cfg_nb c' s2 Hs2 (good_incl _ _ Hg N' I')) as (v3 & s3 & ET3 & Hs3 & E3 & _ & _).
    exists kept, s3. split. { intros fuel Hf. unfold DDMax. rewrite EL by assumption. cbn [pbind]. fold kept. rewrite ET2. cbn [pbind]. rewrite ET3. reflexivity. }
    split; [assumption|]. split; [eapply ext_trans; [eassumption|eapply ext_trans; eassumption]|].
    split; [apply minus_NoDup, Hg|]. split; [intros x Hx; apply minus_In in Hx; tauto|]. split; [assumption|].
    intros x Hx Nx. assert (In x c'). { destruct (in_dec Ddec x c'); [assumption|]. contradiction Nx. apply minus_In. tauto. }
    exists (listminus Ddec c (listminus Ddec c' [x])). split; [apply B; assumption|]. split; [apply minus_NoDup, Hg|].
    split; [intros y Hy; apply minus_In in Hy; tauto|]. intros y. unfold kept. rewrite !minus_In. cbn [In]. rewrite !minus_In. cbn [In].
    destruct (Ddec x y) as [<-|N]; [tauto|]. split; [|tauto]. intros [H1 H2]. right. split; [assumption|]. intros H3. apply H2. tauto.
  Qed.

  (** ** rddmin *)
  Definition partition_ok (nb : nat) (deltas : list D) (tab : list (list D)) (s : S) : Prop :=
    (forall conf, In conf tab -> one_minimal nb conf s) /\ NoDup (concat tab) /\ incl (concat tab) deltas /\ ~ F nb (listminus Ddec deltas (concat tab)) s.
  Lemma minus_app l a b : listminus Ddec (listminus Ddec l a) b = listminus Ddec l (a ++ b).
  Proof.
    unfold listminus. induction l as [|x l IH]; [reflexivity|]. cbn [filter]. 
    assert (E : inb Ddec x (a ++ b) = inb Ddec x a || inb Ddec x b) by (apply eq_true_iff_eq; rewrite orb_true_iff, !inb_In, in_app_iff; reflexivity).
    rewrite E. destruct (inb Ddec x a); cbn [negb orb filter]; [exact IH|]. destruct (inb Ddec x b); cbn [negb]; rewrite IH; reflexivity.
  Qed.
  Lemma NoDup_disj (a b : list D) : NoDup a -> NoDup b -> (forall x, In x a -> ~ In x b) -> NoDup (a ++ b).
  Proof.
    intros Ha Hb Hd. induction Ha as [|x a Hx Ha IH]; [assumption|]. cbn. constructor.
    - rewrite in_app_iff. intros [H|H]; [tauto|]. exact (Hd x (or_introl eq_refl) H).
    - apply IH. intros y Hy. apply Hd. right. assumption.
  Qed.
  Lemma minus_length l a : NoDup l -> NoDup a -> incl a l -> length (listminus Ddec l a) + length a = length l.
  Proof.
    intros Hl Ha I. rewrite <- app_length. apply Permutation_length. apply NoDup_Permutation; [|assumption|].
    - apply NoDup_disj; [apply minus_NoDup; assumption|assumption|]. intros x Hx. apply minus_In in Hx. tauto.
    - intros x. rewrite in_app_iff, minus_In. destruct (in_dec Ddec x a) as [i|i]; [split; [auto|tauto]|tauto].
  Qed.
  Lemma enough_le c c' : length c <= length c' -> enough c <= enough c'.
  Proof. intros H. unfold enough. apply le_n_S. apply Nat.mul_le_mono; lia. Qed.
  Lemma one_minimal_nonempty nb c s : ~ F nb [] s -> one_minimal nb c s -> 1 <= length c.
  Proof. intros H [A _]. destruct c; [contradiction|cbn; lia]. Qed.
  Lemma one_minimal_ext nb n s s' c : n <= nb -> ext n s s' -> one_minimal nb c s <-> one_minimal nb c s'.
  Proof. intros H E. unfold one_minimal. rewrite (ext_F n nb s s') by assumption. split; intros [A B]; (split; [assumption|]); intros x Hx; specialize (B x Hx); rewrite (ext_F n nb s s') in *; assumption. Qed.

  Lemma rddmin_loop_spec nb v deltas s : cfg_nb <= nb -> Inv s -> good deltas -> ~ F nb [] s -> (is_fail v = true <-> F nb deltas s) ->
    exists tab s', (forall fuel, enough deltas + length deltas <= fuel -> rddmin_loop Ddec test unsafe cfg_nb fuel nb v deltas s = Ret (tab, s')) /\
      Inv s' /\ ext nb s s' /\ partition_ok nb deltas tab s.
  Proof.
    intros Hcfg. remember (length deltas) as m eqn:Em. revert v deltas s Em. induction m as [m IH] using lt_wf_ind. intros v deltas s Em Hs Hg H0 Hv.
    destruct v; cbn [is_fail] in Hv.
    { exists [], s. split. { intros fuel Hf. destruct fuel; [unfold enough in Hf; lia|]. reflexivity. }
      split; [assumption|]. split; [apply ext_refl|]. split; [intros c []|]. split; [constructor|]. split; [intros x []|].
      cbn [concat]. rewrite minus_nil. intros H. apply Hv in H. discriminate. }
    destruct (ddmin_spec nb deltas s Hs Hg ltac:(tauto) H0) as (conf & s1 & EL & Hs1 & E1 & G1 & I1 & R1 & M1).
    destruct (tl_test TL cfg_nb conf s1 Hs1 G1) as (v2 & s2 & ET2 & Hs2 & E2 & _ & _).
    set (d' := listminus Ddec deltas conf).
    destruct (tl_test TL nb d' s2 Hs2 (good_minus _ _ Hg)) as (v3 & s3 & ET3 & Hs3 & E3 & Hv3 & _).
    assert (X : ext nb s s3). { eapply ext_trans; [exact E1|]. eapply ext_trans; [eapply ext_le; [exact Hcfg|exact E2]|exact E3]. }
    pose proof (one_minimal_nonempty nb conf s H0 M1) as L1. pose proof (minus_length deltas conf (proj1 Hg) (proj1 G1) I1) as Ln. fold d' in Ln.
    assert (F3 : forall c, F nb c s <-> F nb c s3) by (intros c; apply (ext_F nb nb); auto).
    destruct (IH (length d') ltac:(lia) v3 d' s3 eq_refl) as (tab & s' & ER & A1 & A2 & B1 & B2 & B3 & B4).
    - assumption.
    - apply good_minus. assumption.
    - rewrite <- F3. assumption.
    - rewrite Hv3. apply (ext_F nb nb); auto.
    - exists (conf :: tab), s'. split.
      { intros fuel Hf. destruct fuel as [|fuel]; [unfold enough in Hf; lia|]. cbn [rddmin_loop]. rewrite EL by lia. cbn [pbind]. rewrite ET2. cbn [pbind]. fold d'. rewrite ET3. cbn [pbind].
        rewrite ER; [reflexivity|]. pose proof (enough_le d' deltas ltac:(lia)). lia. }
      split; [assumption|]. split; [eapply ext_trans; eassumption|]. split.
      { intros c [<-|Hc]; [assumption|]. apply (one_minimal_ext nb nb s s3); auto. }
      cbn [concat]. split; [apply NoDup_disj; [apply G1|assumption|]|].
      { intros x Hx Hx'. apply B3 in Hx'. apply minus_In in Hx'. tauto. }
      split. { intros x Hx. apply in_app_iff in Hx. destruct Hx as [Hx|Hx]; [auto|]. apply B3 in Hx. apply minus_In in Hx. tauto. }
      rewrite <- minus_app. fold d'. rewrite F3. assumption.
  Qed.
  Lemma RDDMin_spec deltas s : Inv s -> good deltas -> F cfg_nb deltas s -> ~ F cfg_nb [] s ->
    exists tab s', (forall fuel, enough deltas + length deltas <= fuel -> RDDMin Ddec test unsafe cfg_nb fuel deltas cfg_nb s = Ret (tab, s')) /\
      Inv s' /\ ext cfg_nb s s' /\ partition_ok cfg_nb deltas tab s.
  Proof.
    intros Hs Hg HF H0. unfold RDDMin. destruct (tl_test TL cfg_nb deltas s Hs Hg) as (v & s1 & -> & Hs1 & E1 & Hv & _). cbn [pbind].
    apply Hv in HF as Hf. rewrite Hf. assert (F1 : forall x, F cfg_nb x s <-> F cfg_nb x s1) by (intros x; apply (ext_F cfg_nb cfg_nb); auto).
    destruct (rddmin_loop_spec cfg_nb v deltas s1) as (tab & s' & ER & A1 & A2 & B1 & B2 & B3 & B4); auto.
    - rewrite <- F1. assumption.
    - rewrite <- F1. assumption.
    - exists tab, s'. split; [assumption|]. split; [assumption|]. split; [eapply ext_trans; eassumption|]. split.
      { intros c Hc. apply (one_minimal_ext cfg_nb cfg_nb s s1); auto. }
      split; [assumption|]. split; [assumption|]. rewrite F1. assumption.
  Qed.
End spec.
