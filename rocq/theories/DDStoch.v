(** Proofs about srddmin and drddmin (the default algorithm). *)
From Coq Require Import List Arith Bool Lia Permutation.
From Verif Require Import DDModel DDProofs.
Import ListNotations.
Open Scope py_scope.

Section spec.
  Context {D S : Type} (Ddec : forall x y : D, {x = y} + {x <> y}).
  Context (test : nat -> list D -> S -> py (verdict * S)) (U : list D) (Inv : S -> Prop) (F : nat -> list D -> S -> Prop).
  Context (TL : test_like test U Inv F) (unsafe : bool) (cfg_nb : nat).
  Notation ext := (ext F). Notation good := (good U). Notation one_minimal := (one_minimal Ddec F). Notation partition_ok := (partition_ok Ddec F).

  (** remembered: fails for every number of samples *)
  Definition known (c : list D) (s : S) : Prop := forall m, F m c s.
  Lemma known_ext n s s' c : ext n s s' -> known c s -> known c s'.
  Proof. intros [A _] H m. apply A, H. Qed.

  Lemma singleton_minimal nb c s : length c = 1 -> F nb c s -> ~ F nb [] s -> one_minimal nb c s.
  Proof.
    intros L HF H0. split; [assumption|]. intros x Hx. destruct c as [|a [|]]; cbn in L; try lia. destruct Hx as [->|[]]. rewrite minus_self. assumption.
  Qed.

  (** refine: if the last number of samples tried is nb the result is 1-minimal for nb *)
  Lemma refine_spec nb runs conf s : (forall r, In r runs -> r <= nb) -> Inv s -> good conf -> ~ F nb [] s -> known conf s ->
    (runs = [] -> one_minimal nb conf s) -> (runs <> [] -> last runs 0 = nb) ->
    exists c' s', (forall fuel, enough conf <= fuel -> refine Ddec test unsafe fuel runs conf s = Ret (c', s')) /\
      Inv s' /\ ext nb s s' /\ good c' /\ incl c' conf /\ known c' s' /\ one_minimal nb c' s.
  Proof.
    revert conf s. induction runs as [|r runs IH]; intros conf s Hr Hs Hg H0 HK Hnil Hlast.
    - exists conf, s. split; [reflexivity|]. split; [assumption|]. split; [apply ext_refl|]. split; [assumption|]. split; [apply incl_refl|]. split; [assumption|auto].
    - pose proof (Hr r (or_introl eq_refl)) as Lr. cbn [refine].
      assert (H0r : ~ F r [] s) by (intros H; apply H0; apply (tl_mono _ _ _ _ TL r); assumption).
      destruct (ddmin_spec Ddec test U Inv F TL unsafe r conf s Hs Hg (HK r) H0r) as (c1 & s1 & EL & Hs1 & E1 & G1 & I1 & R1 & M1).
      pose proof (ext_le _ _ _ _ _ Lr E1) as E1'.
      assert (F1 : forall x, F nb x s <-> F nb x s1) by (intros x; apply (ext_F F nb nb); auto).
      destruct (Nat.eqb_spec (length c1) 1) as [L1|L1].
      + exists c1, s1. split. { intros fuel Hf. rewrite EL by assumption. cbn [pbind]. rewrite L1. reflexivity. }
        split; [assumption|]. split; [assumption|]. split; [assumption|]. split; [assumption|]. split; [exact R1|].
        apply singleton_minimal; [assumption|apply F1, R1|assumption].
      + destruct (IH c1 s1) as (c' & s' & ER & A1 & A2 & A3 & A4 & A5 & A6).
        * intros x Hx. apply Hr. right. assumption.
        * assumption.
        * assumption.
        * rewrite <- F1. assumption.
        * exact R1.
        * intros ->. specialize (Hlast ltac:(discriminate)). cbn in Hlast. subst r. apply (one_minimal_ext Ddec F nb nb s s1); auto.
        * intros Hne. specialize (Hlast ltac:(discriminate)). destruct runs; [congruence|]. exact Hlast.
        * exists c', s'. split.
          { intros fuel Hf. rewrite EL by assumption. cbn [pbind]. replace (length c1 =? 1) with false by (symmetry; apply Nat.eqb_neq; assumption).
            apply ER. etransitivity; [|exact Hf]. apply enough_le. apply NoDup_incl_length; [apply G1|assumption]. }
          split; [assumption|]. split; [eapply ext_trans; eassumption|]. split; [assumption|]. split; [eapply incl_tran; eassumption|].
          split; [assumption|]. apply (one_minimal_ext Ddec F nb nb s s1); auto.
  Qed.

  Lemma last_filter (p : nat -> bool) l d : l <> [] -> p (last l d) = true -> filter p l <> [] /\ last (filter p l) d = last l d.
  Proof.
    induction l as [|a l IH]; intros H Hp; [congruence|]. destruct l as [|b l].
    - cbn in *. rewrite Hp. split; [discriminate|reflexivity].
    - change (last (a :: b :: l) d) with (last (b :: l) d) in *. destruct (IH ltac:(discriminate) Hp) as [A B].
      change (filter p (a :: b :: l)) with (if p a then a :: filter p (b :: l) else filter p (b :: l)).
      destruct (p a); [|split; assumption]. split; [discriminate|]. destruct (filter p (b :: l)) eqn:E; [congruence|]. rewrite <- B. reflexivity.
  Qed.

  (** partial results of the loops: the sets found so far *)
  Definition found_ok (nb : nat) (deltas : list D) (tab : list (list D)) (rest : list D) (s : S) : Prop :=
    (forall conf, In conf tab -> one_minimal nb conf s) /\ NoDup (concat tab) /\ incl (concat tab) deltas /\ rest = listminus Ddec deltas (concat tab).

  Lemma srddmin_while_spec nb run runTab v deltas s : runTab <> [] -> last runTab 0 = nb -> (forall r, In r runTab -> r <= nb) -> cfg_nb <= nb -> In run runTab ->
    Inv s -> good deltas -> ~ F nb [] s -> (is_fail v = true -> known deltas s) -> (run = nb -> is_fail v = false -> ~ F nb deltas s) ->
    exists tab rest s', (forall fuel, enough deltas + length deltas <= fuel -> srddmin_while Ddec test unsafe cfg_nb fuel nb run runTab v deltas s = Ret (tab, rest, s')) /\
      Inv s' /\ ext nb s s' /\ found_ok nb deltas tab rest s /\ (run = nb -> ~ F nb rest s).
  Proof.
    intros Hne Hlast Hle Hcfg Hrun. pose proof (Hle run Hrun) as Lrun. remember (length deltas) as m eqn:Em. revert v deltas s Em.
    induction m as [m IH] using lt_wf_ind. intros v deltas s Em Hs Hg H0 Hv Hv'.
    destruct v; cbn [is_fail] in Hv, Hv'.
    { exists [], deltas, s. split. { intros fuel Hf. destruct fuel; [unfold enough in Hf; lia|]. reflexivity. }
      split; [assumption|]. split; [apply ext_refl|]. split; [|auto]. split; [intros c []|]. split; [constructor|]. split; [intros x []|].
      cbn [concat]. rewrite minus_nil. reflexivity. }
    specialize (Hv eq_refl).
    assert (H0r : ~ F run [] s) by (intros H; apply H0; apply (tl_mono _ _ _ _ TL run); assumption).
    destruct (ddmin_spec Ddec test U Inv F TL unsafe run deltas s Hs Hg (Hv run) H0r) as (c1 & s1 & EL & Hs1 & E1 & G1 & I1 & R1 & M1).
    pose proof (ext_le _ _ _ _ _ Lrun E1) as E1'. assert (F1 : forall x, F nb x s <-> F nb x s1) by (intros x; apply (ext_F F nb nb); auto).
    (* the refined set *)
    assert (REF : exists conf s2, (forall fuel, enough deltas <= fuel ->
        (if length c1 =? 1 then Ret (c1, s1) else refine Ddec test unsafe fuel (filter (fun x => run <? x) runTab) c1 s1) = Ret (conf, s2)) /\
        Inv s2 /\ ext nb s1 s2 /\ good conf /\ incl conf c1 /\ known conf s2 /\ one_minimal nb conf s1).
    { destruct (Nat.eqb_spec (length c1) 1) as [L1|L1].
      - exists c1, s1. split; [reflexivity|]. split; [assumption|]. split; [apply ext_refl|]. split; [assumption|]. split; [apply incl_refl|]. split; [exact R1|].
        apply singleton_minimal; [assumption|apply R1|rewrite <- F1; assumption].
      - destruct (refine_spec nb (filter (fun x => run <? x) runTab) c1 s1) as (c' & s' & ER & A); auto.
        + intros r Hr. apply filter_In in Hr. apply Hle. tauto.
        + rewrite <- F1. assumption.
        + intros Hn. destruct (Nat.eq_dec run nb) as [Er|Er]; [rewrite <- Er in *; apply (one_minimal_ext Ddec F run run s s1); auto|].
          exfalso. destruct (last_filter (fun x => run <? x) runTab 0 Hne) as [A _]; [apply Nat.ltb_lt; lia|congruence].
        + intros Hn. destruct (Nat.eq_dec run nb) as [Er|Er].
          * exfalso. apply Hn. destruct (filter (fun x => run <? x) runTab) as [|r l] eqn:E; [reflexivity|]. exfalso. assert (In r (r :: l)) as Hr by (left; reflexivity).
            rewrite <- E in Hr. apply filter_In in Hr. destruct Hr as [Hr1 Hr2]. apply Hle in Hr1. apply Nat.ltb_lt in Hr2. lia.
          * rewrite <- Hlast. apply last_filter; [assumption|]. apply Nat.ltb_lt. lia.
        + exists c', s'. split; [|exact A]. intros fuel Hf. apply ER. etransitivity; [|exact Hf]. apply enough_le. apply NoDup_incl_length; [apply G1|assumption]. }
    destruct REF as (conf & s2 & ER & Hs2 & E2 & G2 & I2 & R2 & M2).
    destruct (tl_test _ _ _ _ TL cfg_nb conf s2 Hs2 G2) as (v3 & s3 & ET3 & Hs3 & E3 & _ & _).
    set (d' := listminus Ddec deltas conf).
    destruct (tl_test _ _ _ _ TL nb d' s3 Hs3 (good_minus Ddec U _ _ Hg)) as (v4 & s4 & ET4 & Hs4 & E4 & Hv4 & HR4).
    assert (X : ext nb s s4). { eapply ext_trans; [exact E1'|]. eapply ext_trans; [exact E2|]. eapply ext_trans; [eapply ext_le; [exact Hcfg|exact E3]|exact E4]. }
    assert (M : one_minimal nb conf s) by (apply (one_minimal_ext Ddec F nb nb s s1); auto).
    assert (I : incl conf deltas) by (eapply incl_tran; eassumption).
    pose proof (one_minimal_nonempty Ddec F nb conf s H0 M) as L1. pose proof (minus_length Ddec deltas conf (proj1 Hg) (proj1 G2) I) as Ln. fold d' in Ln.
    assert (F4 : forall c, F nb c s <-> F nb c s4) by (intros c; apply (ext_F F nb nb); auto).
    destruct (IH (length d') ltac:(lia) v4 d' s4 eq_refl) as (tab & rest & s' & EW & A1 & A2 & (B1 & B2 & B3 & B4) & A3).
    - assumption.
    - apply good_minus. assumption.
    - rewrite <- F4. assumption.
    - exact HR4.
    - intros _ HP. assert (~ F nb d' s3). { intros H. apply Hv4 in H. congruence. } rewrite <- (ext_F F nb nb s3 s4); auto.
    - exists (conf :: tab), rest, s'. split.
      { intros fuel Hf. destruct fuel as [|fuel]; [unfold enough in Hf; lia|]. cbn [srddmin_while]. rewrite EL by lia. cbn [pbind].
        rewrite ER by lia. cbn [pbind]. rewrite ET3. cbn [pbind]. fold d'. rewrite ET4. cbn [pbind].
        rewrite EW; [reflexivity|]. pose proof (enough_le d' deltas ltac:(lia)). lia. }
      split; [assumption|]. split; [eapply ext_trans; eassumption|]. split.
      + split. { intros c [<-|Hc]; [assumption|]. apply (one_minimal_ext Ddec F nb nb s s4); auto. }
        cbn [concat]. split; [apply NoDup_disj; [apply G2|assumption|]|].
        { intros x Hx Hx'. apply B3 in Hx'. apply minus_In in Hx'. tauto. }
        split. { intros x Hx. apply in_app_iff in Hx. destruct Hx as [Hx|Hx]; [auto|]. apply B3 in Hx. apply minus_In in Hx. tauto. }
        rewrite <- minus_app. exact B4.
      + intros Er. rewrite F4. auto.
  Qed.

  Lemma found_concat nb deltas tab tab' rest rest' s : found_ok nb deltas tab rest s -> found_ok nb rest tab' rest' s -> found_ok nb deltas (tab ++ tab') rest' s.
  Proof.
    intros (A1 & A2 & A3 & A4) (B1 & B2 & B3 & B4). subst rest rest'. unfold found_ok. rewrite concat_app. split.
    { intros c Hc. apply in_app_iff in Hc. destruct Hc; auto. }
    split. { apply NoDup_disj; auto. intros x Hx Hx'. apply B3 in Hx'. apply minus_In in Hx'. tauto. }
    split. { intros x Hx. apply in_app_iff in Hx. destruct Hx as [Hx|Hx]; [auto|]. apply B3 in Hx. apply minus_In in Hx. tauto. }
    apply minus_app.
  Qed.
  Lemma found_ext nb n deltas tab rest s s' : n <= nb -> ext n s s' -> found_ok nb deltas tab rest s <-> found_ok nb deltas tab rest s'.
  Proof. intros L E. unfold found_ok. split; intros (A & B); (split; [|exact B]); intros c Hc; apply (one_minimal_ext Ddec F nb n s s'); auto. Qed.

  Lemma srddmin_for_spec nb runTab runs deltas s : runTab <> [] -> last runTab 0 = nb -> (forall r, In r runTab -> r <= nb) -> cfg_nb <= nb -> incl runs runTab ->
    Inv s -> good deltas -> ~ F nb [] s ->
    exists tab s', (forall fuel, enough deltas + length deltas <= fuel -> srddmin_for Ddec test unsafe cfg_nb fuel nb runTab runs deltas s = Ret (tab, s')) /\
      Inv s' /\ ext nb s s' /\ exists rest, found_ok nb deltas tab rest s /\ (runs <> [] -> last runs 0 = nb -> ~ F nb rest s).
  Proof.
    intros Hne Hlast Hle Hcfg. revert deltas s. induction runs as [|run runs IH]; intros deltas s Hin Hs Hg H0.
    - exists [], s. split; [reflexivity|]. split; [assumption|]. split; [apply ext_refl|]. exists deltas. split; [|congruence].
      split; [intros c []|]. split; [constructor|]. split; [intros x []|]. cbn [concat]. rewrite minus_nil. reflexivity.
    - pose proof (Hle run (Hin run (or_introl eq_refl))) as Lrun.
      destruct (tl_test _ _ _ _ TL run deltas s Hs Hg) as (v & s1 & ET & Hs1 & E1 & Hv & HR). pose proof (ext_le _ _ _ _ _ Lrun E1) as E1'.
      assert (F1 : forall c, F nb c s <-> F nb c s1) by (intros c; apply (ext_F F nb nb); auto).
      destruct (srddmin_while_spec nb run runTab v deltas s1) as (tab & rest & s2 & EW & Hs2 & E2 & FO & FR); auto.
      { apply Hin. left. reflexivity. }
      { rewrite <- F1. assumption. }
      { intros Er HP. rewrite <- F1, <- Er. intros H. apply Hv in H. congruence. }
      assert (F2 : forall c, F nb c s1 <-> F nb c s2) by (intros c; apply (ext_F F nb nb); auto).
      assert (Gr : good rest) by (destruct FO as (_ & _ & _ & ->); apply good_minus; assumption).
      destruct (IH rest s2) as (tab' & s' & EF & Hs' & E3 & rest' & FO' & FR'); auto.
      { intros x Hx. apply Hin. right. assumption. }
      { rewrite <- F2, <- F1. assumption. }
      exists (tab ++ tab'), s'. split.
      { intros fuel Hf. cbn [srddmin_for]. rewrite ET. cbn [pbind]. rewrite EW by assumption. cbn [pbind]. rewrite EF; [reflexivity|].
        destruct FO as (_ & _ & _ & ->). assert (length (listminus Ddec deltas (concat tab)) <= length deltas).
        { apply NoDup_incl_length; [apply minus_NoDup, Hg|]. intros x Hx. apply minus_In in Hx. tauto. }
        pose proof (enough_le (listminus Ddec deltas (concat tab)) deltas H). lia. }
      split; [assumption|]. split; [eapply ext_trans; [exact E1'|eapply ext_trans; eassumption]|].
      apply (found_ext nb nb _ _ _ s1 s2) in FO; auto. pose proof (found_concat _ _ _ _ _ _ _ FO FO') as FC.
      exists rest'. split. { apply (found_ext nb nb _ _ _ s s1); auto. apply (found_ext nb nb _ _ _ s1 s2); auto. }
      intros _ Hl. destruct runs as [|r' runs].
      + cbn in Hl. cbn in EF. specialize (EF _ (Nat.le_refl _)). injection EF as <- _.
        destruct FO' as (_ & _ & _ & ->). cbn [concat]. rewrite minus_nil, F1. auto.
      + rewrite F1, F2. apply FR'; [discriminate|]. exact Hl.
  Qed.
  Lemma SRDDMin_spec nb runTab deltas s : runTab <> [] -> last runTab 0 = nb -> (forall r, In r runTab -> r <= nb) -> cfg_nb <= nb ->
    Inv s -> good deltas -> ~ F nb [] s -> F nb deltas s ->
    exists tab s', (forall fuel, enough deltas + length deltas <= fuel -> SRDDMin Ddec test unsafe cfg_nb fuel deltas runTab s = Ret (tab, s')) /\
      Inv s' /\ ext nb s s' /\ exists rest, found_ok nb deltas tab rest s /\ ~ F nb rest s.
  Proof.
    intros Hne Hlast Hle Hcfg Hs Hg H0 HF.
    destruct (tl_test _ _ _ _ TL nb deltas s Hs Hg) as (v & s1 & ET & Hs1 & E1 & Hv & HR). apply Hv in HF as Hf.
    assert (F1 : forall c, F nb c s <-> F nb c s1) by (intros c; apply (ext_F F nb nb); auto).
    destruct (srddmin_for_spec nb runTab runTab deltas s1) as (tab & s' & EF & Hs' & E2 & rest & FO & FR); auto.
    { apply incl_refl. } { rewrite <- F1. assumption. }
    exists tab, s'. split. { intros fuel Hfuel. unfold SRDDMin. destruct runTab as [|r0 rt]; [congruence|]. rewrite Hlast, ET. cbn [pbind]. rewrite Hf. apply EF. assumption. }
    split; [assumption|]. split; [eapply ext_trans; eassumption|]. exists rest. split; [apply (found_ext nb nb _ _ _ s s1); auto|].
    rewrite F1. auto.
  Qed.

  (** ** splitDeltas *)
  Definition weight_failed (c : list D) := 3 * length c - 2.
  Definition weight_unknown (c : list D) := 3 * length c - 1.
  Definition total (w : list D -> nat) (l : list (list D)) : nat := list_sum (map w l).

  Lemma treat_parts_spec nb top parts s : nb <= top -> cfg_nb <= top -> Inv s -> (forall p, In p parts -> good p) ->
    exists found push s', treat_parts test cfg_nb nb parts s = Ret (found, push, s') /\ Inv s' /\ ext top s s' /\ (forall c, In c found -> known c s' /\ length c = 1) /\
    match push with
    | None => exists rest, Permutation parts (found ++ rest)
    | Some (ci, tail) => known ci s' /\ length ci <> 1 /\ exists skipped pre, parts = pre ++ ci :: tail /\ Permutation pre (found ++ skipped)
    end.
  Proof.
    intros L1 L2. revert s. induction parts as [|p parts IH]; intros s Hs Hg.
    - exists [], None, s. split; [reflexivity|]. split; [assumption|]. split; [apply ext_refl|]. split; [intros c []|]. exists []. reflexivity.
    - cbn [treat_parts]. destruct (tl_test _ _ _ _ TL nb p s Hs (Hg p (or_introl eq_refl))) as (v & s1 & -> & Hs1 & E1 & _ & HR). cbn [pbind].
      apply (ext_le _ _ _ _ _ L1) in E1. destruct (is_fail v).
      + destruct (Nat.eqb_spec (length p) 1) as [Lp|Lp].
        * destruct (tl_test _ _ _ _ TL cfg_nb p s1 Hs1 (Hg p (or_introl eq_refl))) as (v2 & s2 & -> & Hs2 & E2 & _ & _). cbn [pbind].
          apply (ext_le _ _ _ _ _ L2) in E2.
          destruct (IH s2 Hs2 (fun q Hq => Hg q (or_intror Hq))) as (found & push & s' & -> & Hs' & E3 & HK & HP). cbn [pbind].
          exists (p :: found), push, s'. split; [reflexivity|]. split; [assumption|]. split; [eapply ext_trans; [exact E1|eapply ext_trans; eassumption]|]. split.
          { intros c [<-|Hc]; [|auto]. split; [|assumption]. eapply known_ext; [exact E3|]. eapply known_ext; [exact E2|]. exact (HR eq_refl). }
          destruct push as [[ci tail]|].
          -- destruct HP as (A & B & sk & pre & -> & P). split; [assumption|]. split; [assumption|]. exists sk, (p :: pre). split; [reflexivity|]. cbn. constructor. exact P.
          -- destruct HP as [rest P]. exists rest. cbn. constructor. exact P.
        * exists [], (Some (p, parts)), s1. split; [reflexivity|]. split; [assumption|]. split; [assumption|]. split; [intros c []|].
          split; [exact (HR eq_refl)|]. split; [assumption|]. exists [], []. split; reflexivity.
      + destruct (IH s1 Hs1 (fun q Hq => Hg q (or_intror Hq))) as (found & push & s' & -> & Hs' & E3 & HK & HP).
        exists found, push, s'. split; [reflexivity|]. split; [assumption|]. split; [eapply ext_trans; eassumption|]. split; [assumption|].
        destruct push as [[ci tail]|].
        * destruct HP as (A & B & sk & pre & -> & P). split; [assumption|]. split; [assumption|]. exists (p :: sk), (p :: pre). split; [reflexivity|].
          apply Permutation_cons_app. exact P.
        * destruct HP as [rest P]. exists (p :: rest). apply Permutation_cons_app. exact P.
  Qed.

  Lemma concat_perm (a b : list (list D)) : Permutation a b -> Permutation (concat a) (concat b).
  Proof.
    induction 1; cbn; [constructor|apply Permutation_app_head; assumption| |eapply Permutation_trans; eassumption].
    rewrite !app_assoc. apply Permutation_app_tail. apply Permutation_app_comm.
  Qed.
  Lemma NoDup_perm_sub (a b r : list (list D)) : Permutation a (b ++ r) -> NoDup (concat a) -> NoDup (concat b).
  Proof.
    intros P N. apply concat_perm in P. rewrite concat_app in P. eapply Permutation_NoDup in N; [|exact P]. apply (NoDup_sub [] (concat b) (concat r)). exact N.
  Qed.
  Lemma total_app w a b : total w (a ++ b) = total w a + total w b.
  Proof. unfold total. rewrite map_app, list_sum_app. reflexivity. Qed.
  Lemma total_unknown_le l : (forall c, In c l -> 1 <= length c) -> total weight_unknown l + length l = 3 * length (concat l).
  Proof.
    induction l as [|c l IH]; intros H; [reflexivity|]. specialize (IH (fun x Hx => H x (or_intror Hx))). pose proof (H c (or_introl eq_refl)).
    unfold total in *. cbn [map list_sum concat length]. rewrite app_length. unfold weight_unknown in *. cbn [fold_right] in *. change (list_sum (?a :: ?b)) with (a + list_sum b) in *. lia.
  Qed.
  Lemma NoDup_pieces_drop (P R Q : list D) : NoDup (P ++ R) -> incl Q P -> NoDup Q -> NoDup (Q ++ R).
  Proof.
    intros N I NQ. apply NoDup_disj; [assumption| |].
    - apply (NoDup_sub P R []). rewrite app_nil_r. assumption.
    - intros x Hx Hr. apply I in Hx. apply in_split in Hx. destruct Hx as (p1 & p2 & ->). rewrite <- app_assoc in N. cbn in N. apply NoDup_remove_2 in N. apply N. rewrite !in_app_iff. tauto.
  Qed.

  Definition pieces_ok (deltas : list D) (all : list (list D)) : Prop :=
    NoDup (concat all) /\ incl (concat all) deltas /\ (forall c, In c all -> 1 <= length c).
  Lemma pieces_perm deltas a b : Permutation a b -> pieces_ok deltas a -> pieces_ok deltas b.
  Proof.
    intros P (A & B & C). split; [eapply Permutation_NoDup; [apply concat_perm; exact P|assumption]|]. split.
    - intros x Hx. apply B. eapply Permutation_in; [apply Permutation_sym, concat_perm; exact P|assumption].
    - intros c Hc. apply C. eapply Permutation_in; [apply Permutation_sym; exact P|assumption].
  Qed.
  Lemma pieces_replace deltas f rest X : pieces_ok deltas (f :: rest) -> incl (concat X) f -> NoDup (concat X) -> (forall c, In c X -> 1 <= length c) -> pieces_ok deltas (X ++ rest).
  Proof.
    intros (A & B & C) I N L. cbn [concat] in *. split; [rewrite concat_app; eapply NoDup_pieces_drop; eassumption|]. split.
    - intros x Hx. rewrite concat_app, in_app_iff in Hx. apply B. apply in_app_iff. destruct Hx; auto.
    - intros c Hc. apply in_app_iff in Hc. destruct Hc; [auto|]. apply C. right. assumption.
  Qed.
  Lemma pieces_good deltas all c : good deltas -> pieces_ok deltas all -> In c all -> good c /\ incl c deltas.
  Proof.
    intros G (A & B & C) H. destruct (in_split _ _ H) as (l & r & ->). rewrite concat_app in *. cbn [concat] in *.
    assert (I : incl c deltas) by (intros x Hx; apply B; rewrite !in_app_iff; tauto).
    split; [|assumption]. apply (good_incl U deltas); [assumption| |assumption]. apply NoDup_sub in A. tauto.
  Qed.

  Lemma split_loop_spec top nb g deltas failed unknown res s : 2 <= g -> nb <= top -> cfg_nb <= top -> good deltas -> Inv s ->
    pieces_ok deltas (failed ++ unknown ++ res) -> (forall c, In c (failed ++ res) -> known c s) ->
    exists res' s', (forall fuel, total weight_failed failed + total weight_unknown unknown < fuel ->
        split_loop test cfg_nb fuel nb g (length deltas) failed unknown res s = Ret (res', s')) /\
      Inv s' /\ ext top s s' /\ pieces_ok deltas res' /\ (forall c, In c res' -> known c s').
  Proof.
    intros Hgr L1 L2 Hg. remember (total weight_failed failed + total weight_unknown unknown) as m eqn:Em. revert failed unknown res s Em.
    induction m as [m IH] using lt_wf_ind. intros failed unknown res s Em Hs HP HK.
    (* testing the first unknown task *)
    assert (UNK : forall u unknown', unknown = u :: unknown' ->
      exists res' s', (forall fuel, m <= fuel ->
        (do '(v, s) <- test nb u s; split_loop test cfg_nb fuel nb g (length deltas) (if is_fail v then u :: failed else failed) unknown' res s) = Ret (res', s')) /\
      Inv s' /\ ext top s s' /\ pieces_ok deltas res' /\ (forall c, In c res' -> known c s')).
    { intros u unknown' ->. destruct (pieces_good deltas _ u Hg HP) as [Gu _]; [rewrite !in_app_iff; cbn; tauto|].
      assert (Lu : 1 <= length u) by (apply HP; rewrite !in_app_iff; cbn; tauto).
      destruct (tl_test _ _ _ _ TL nb u s Hs Gu) as (v & s1 & ET & Hs1 & E1 & _ & HR). apply (ext_le _ _ _ _ _ L1) in E1.
      assert (MEAS : total weight_failed (if is_fail v then u :: failed else failed) + total weight_unknown unknown' < m).
      { subst m. unfold total. destruct (is_fail v); cbn [map]; rewrite ?(eq_refl : list_sum (_ :: _) = _ + list_sum _); change (list_sum (?a :: ?b)) with (a + list_sum b); unfold weight_failed, weight_unknown; lia. }
      destruct (IH _ MEAS (if is_fail v then u :: failed else failed) unknown' res s1 eq_refl Hs1) as (res' & s' & EL & A & B & C).
      { destruct (is_fail v).
        - eapply pieces_perm; [|exact HP]. cbn [app]. apply Permutation_sym. apply Permutation_middle.
        - apply (pieces_replace deltas u (failed ++ unknown' ++ res) []).
          + eapply pieces_perm; [|exact HP]. cbn [app]. apply Permutation_sym. apply Permutation_middle.
          + intros x [].
          + constructor.
          + intros c []. }
      { intros c Hc. destruct (is_fail v); [destruct Hc as [<-|Hc]; [exact (HR eq_refl)|]|]; eapply known_ext; [exact E1| |exact E1|]; auto. }
      exists res', s'. split. { intros fuel Hf. rewrite ET. cbn [pbind]. apply EL. lia. }
      split; [assumption|]. split; [eapply ext_trans; [exact E1|apply B]|]. apply C. }
    destruct failed as [|f failed].
    { destruct unknown as [|u unknown].
      - exists res, s. split. { intros fuel Hf. destruct fuel; [lia|]. reflexivity. }
        split; [assumption|]. split; [apply ext_refl|]. split; assumption.
      - destruct (UNK u unknown eq_refl) as (res' & s' & EL & A). exists res', s'. split; [|exact A]. intros fuel Hf. destruct fuel; [lia|]. cbn [split_loop]. apply EL. lia. }
    destruct (pieces_good deltas _ f Hg HP) as [Gf If]; [left; reflexivity|].
    assert (Lf : 1 <= length f) by (apply HP; left; reflexivity).
    destruct (Nat.leb_spec (length f) (match unknown with [] => length deltas | u :: _ => length u end)) as [LE|GT].
    2:{ destruct unknown as [|u unknown].
        - exfalso. pose proof (NoDup_incl_length (proj1 Gf) If). lia.
        - destruct (UNK u unknown eq_refl) as (res' & s' & EL & A). exists res', s'. split; [|exact A]. intros fuel Hf. destruct fuel; [lia|]. cbn [split_loop].
          destruct (Nat.leb_spec (length f) (length u)); [lia|]. apply EL. lia. }
    set (k := Nat.min g (length f)). assert (Hk : k <> 0) by (unfold k; lia). pose proof (split_concat f k Hk) as SC.
    assert (PN : forall p, In p (split f k) -> 1 <= length p) by (intros p Hp; apply (split_nonempty f k); [unfold k; lia|assumption]).
    destruct (treat_parts_spec nb top (split f k) s L1 L2 Hs) as (found & push & s1 & ET & Hs1 & E1 & HF1 & HPUSH).
    { intros p Hp. apply (good_part U f k); assumption. }
    assert (NF : NoDup (concat (split f k))) by (rewrite SC; apply Gf).
    assert (HKr : forall c, In c res -> known c s1) by (intros c Hc; eapply known_ext; [exact E1|]; apply HK; right; apply in_app_iff; auto).
    assert (HKf : forall c, In c failed -> known c s1) by (intros c Hc; eapply known_ext; [exact E1|]; apply HK; right; apply in_app_iff; auto).
    assert (WF : total weight_failed (f :: failed) = weight_failed f + total weight_failed failed) by reflexivity.
    destruct push as [[ci tail]|].
    - destruct HPUSH as (Kci & Nci & skipped & pre & Esp & Pp).
      assert (MEAS : total weight_failed (ci :: failed) + total weight_unknown (tail ++ unknown) < m).
      { subst m. rewrite WF, total_app. change (total weight_failed (ci :: failed)) with (weight_failed ci + total weight_failed failed).
        pose proof (total_unknown_le tail) as TU. specialize (TU (fun c Hc => PN c ltac:(rewrite Esp; apply in_app_iff; right; right; exact Hc))).
        assert (Lci : 1 <= length ci) by (apply PN; rewrite Esp; apply in_app_iff; right; left; reflexivity).
        assert (SL : length f = length (concat pre) + (length ci + length (concat tail))) by (rewrite <- SC at 1; rewrite Esp, concat_app; cbn [concat]; rewrite !app_length; reflexivity).
        pose proof (split_length f k) as KL. rewrite Esp, app_length in KL. cbn [length] in KL.
        assert (length pre <= length (concat pre)).
        { assert (G : forall X : list (list D), (forall x, In x X -> 1 <= length x) -> length X <= length (concat X)).
          { induction X as [|x X IHX]; intros HX; [cbn; lia|]. cbn [concat length]. rewrite app_length. pose proof (HX x (or_introl eq_refl)). specialize (IHX (fun y Hy => HX y (or_intror Hy))). lia. }
          apply G. intros x Hx. apply PN. rewrite Esp. apply in_app_iff. auto. }
        unfold weight_failed at 1 3. unfold k in KL.
        destruct (Nat.eq_dec (length f) 1) as [E1f|E1f]; [lia|]. lia. }
      assert (PP : pieces_ok deltas ((ci :: failed) ++ (tail ++ unknown) ++ res ++ found)).
      { apply (pieces_perm deltas ((ci :: tail ++ found) ++ (failed ++ unknown ++ res))).
        { cbn [app]. constructor. rewrite <- !app_assoc. 
          transitivity (failed ++ unknown ++ res ++ tail ++ found). 
          - rewrite (app_assoc tail found). rewrite Permutation_app_comm. rewrite <- !app_assoc. reflexivity.
          - apply Permutation_app_head. rewrite (app_assoc unknown res), (app_assoc _ tail found), (Permutation_app_comm (unknown ++ res) tail). rewrite <- !app_assoc. reflexivity. }
        apply (pieces_replace deltas f); [exact HP| | |].
        - intros x Hx. rewrite <- SC, Esp, concat_app. cbn [concat] in *. rewrite concat_app, !in_app_iff in Hx. rewrite !in_app_iff.
          destruct Hx as [Hx|[Hx|Hx]]; [tauto|tauto|]. left. eapply Permutation_in; [apply Permutation_sym, concat_perm; exact Pp|]. rewrite concat_app, in_app_iff. tauto.
        - apply (NoDup_perm_sub (split f k) (ci :: tail ++ found) skipped); [|assumption]. rewrite Esp. rewrite Pp. cbn [app].
          rewrite <- Permutation_middle. constructor. rewrite Permutation_app_comm, app_assoc. reflexivity.
        - intros c Hc. apply PN. rewrite Esp. apply in_app_iff. destruct Hc as [<-|Hc]; [right; left; reflexivity|]. apply in_app_iff in Hc.
          destruct Hc as [Hc|Hc]; [right; right; assumption|]. left. eapply Permutation_in; [apply Permutation_sym; exact Pp|]. apply in_app_iff. auto. }
      destruct (IH _ MEAS (ci :: failed) (tail ++ unknown) (res ++ found) s1 eq_refl Hs1 PP) as (res' & s' & EL & A & B & C).
      { intros c Hc. cbn [app] in Hc. destruct Hc as [<-|Hc]; [assumption|]. rewrite !in_app_iff in Hc. destruct Hc as [Hc|[Hc|Hc]]; auto. apply HF1. assumption. }
      exists res', s'. split. { intros fuel Hf. destruct fuel as [|fuel]; [lia|]. cbn [split_loop]. destruct (Nat.leb_spec (length f) (match unknown with [] => length deltas | u :: _ => length u end)); [|lia].
        fold k. rewrite ET. cbn [pbind]. apply EL. lia. }
      split; [assumption|]. split; [eapply ext_trans; eassumption|exact C].
    - destruct HPUSH as [rest Pr]. set (X := match found with [] => [f] | _ => found end).
      assert (MEAS : total weight_failed failed + total weight_unknown unknown < m) by (subst m; rewrite WF; unfold weight_failed at 2; lia).
      assert (XK : forall c, In c X -> known c s1).
      { intros c Hc. unfold X in Hc. destruct found; [|apply HF1; assumption]. destruct Hc as [<-|[]]. eapply known_ext; [exact E1|]. apply HK. left. reflexivity. }
      assert (PP : pieces_ok deltas (failed ++ unknown ++ res ++ X)).
      { apply (pieces_perm deltas (X ++ failed ++ unknown ++ res)). { rewrite Permutation_app_comm. rewrite <- !app_assoc. reflexivity. }
        apply (pieces_replace deltas f); [exact HP| | |].
        - intros x Hx. unfold X in Hx. destruct found as [|a found]; [cbn in Hx; rewrite app_nil_r in Hx; assumption|].
          rewrite <- SC. eapply Permutation_in; [apply Permutation_sym, concat_perm; exact Pr|]. rewrite concat_app, in_app_iff. tauto.
        - unfold X. destruct found as [|a found]; [cbn; rewrite app_nil_r; apply Gf|]. eapply NoDup_perm_sub; eassumption.
        - intros c Hc. unfold X in Hc. destruct found as [|a found]; [destruct Hc as [<-|[]]; assumption|]. apply PN. eapply Permutation_in; [apply Permutation_sym; exact Pr|]. apply in_app_iff. auto. }
      destruct (IH _ MEAS failed unknown (res ++ X) s1 eq_refl Hs1 PP) as (res' & s' & EL & A & B & C).
      { intros c Hc. rewrite !in_app_iff in Hc. destruct Hc as [Hc|[Hc|Hc]]; auto. }
      exists res', s'. split. { intros fuel Hf. destruct fuel as [|fuel]; [lia|]. cbn [split_loop]. destruct (Nat.leb_spec (length f) (match unknown with [] => length deltas | u :: _ => length u end)); [|lia].
        fold k. rewrite ET. cbn [pbind]. apply EL. lia. }
      split; [assumption|]. split; [eapply ext_trans; eassumption|exact C].
  Qed.

  Lemma splitDeltas_spec top nb g deltas s : 2 <= g -> nb <= top -> cfg_nb <= top -> good deltas -> Inv s -> ~ F top [] s ->
    exists res s', (forall fuel, 3 * length deltas <= fuel -> splitDeltas test cfg_nb fuel deltas nb g s = Ret (res, s')) /\
      Inv s' /\ ext top s s' /\ pieces_ok deltas res /\ (forall c, In c res -> known c s').
  Proof.
    intros Hgr L1 L2 Hg Hs H0. unfold splitDeltas. destruct (tl_test _ _ _ _ TL cfg_nb deltas s Hs Hg) as (v & s1 & -> & Hs1 & E1 & Hv & HR). cbn [pbind].
    apply (ext_le _ _ _ _ _ L2) in E1. destruct (is_fail v).
    - assert (1 <= length deltas). { destruct deltas; [|cbn; lia]. contradiction H0. apply (tl_mono _ _ _ _ TL cfg_nb); tauto. }
      destruct (split_loop_spec top nb g deltas [deltas] [] [] s1 Hgr L1 L2 Hg Hs1) as (res & s' & EL & A & B & C).
      + split; [cbn; rewrite app_nil_r; apply Hg|]. split; [cbn; rewrite app_nil_r; apply incl_refl|]. intros c [<-|[]]. assumption.
      + intros c [<-|[]]. exact (HR eq_refl).
      + exists res, s'. split. { intros fuel Hf. apply EL. cbn. unfold weight_failed. lia. }
        split; [assumption|]. split; [eapply ext_trans; eassumption|exact C].
    - exists [], s1. split; [reflexivity|]. split; [assumption|]. split; [assumption|]. split; [|intros c []]. split; [constructor|]. split; [intros x []|intros c []].
  Qed.

  Lemma split_each_spec top run g cands s size : 2 <= g -> run <= top -> cfg_nb <= top -> Inv s -> ~ F top [] s ->
    (forall c, In c cands -> good c /\ 1 <= length c /\ length c <= size /\ known c s) -> NoDup (concat cands) ->
    exists res s', (forall fuel, 3 * size <= fuel -> split_each test cfg_nb fuel run g cands s = Ret (res, s')) /\
      Inv s' /\ ext top s s' /\ pieces_ok (concat cands) res /\ (forall c, In c res -> known c s').
  Proof.
    intros Hgr L1 L2. revert s. induction cands as [|c cands IH]; intros s Hs H0 HC ND.
    - exists [], s. split; [reflexivity|]. split; [assumption|]. split; [apply ext_refl|]. split; [|intros c []]. split; [constructor|]. split; [intros x []|intros c []].
    - cbn [split_each concat] in *. destruct (HC c (or_introl eq_refl)) as (Gc & Lc & Sc & Kc).
      assert (ONE : exists r s1, (forall fuel, 3 * size <= fuel -> (if length c =? 1 then Ret ([c], s) else splitDeltas test cfg_nb fuel c run g s) = Ret (r, s1)) /\
        Inv s1 /\ ext top s s1 /\ pieces_ok c r /\ (forall x, In x r -> known x s1)).
      { destruct (length c =? 1).
        - exists [c], s. split; [reflexivity|]. split; [assumption|]. split; [apply ext_refl|]. split; [|intros x [<-|[]]; assumption].
          split; [cbn; rewrite app_nil_r; apply Gc|]. split; [cbn; rewrite app_nil_r; apply incl_refl|]. intros x [<-|[]]. assumption.
        - destruct (splitDeltas_spec top run g c s Hgr L1 L2 Gc Hs H0) as (r & s1 & E & A). exists r, s1. split; [|exact A]. intros fuel Hf. apply E. lia. }
      destruct ONE as (r & s1 & E1 & Hs1 & X1 & (P1 & P2 & P3) & K1).
      destruct (IH s1 Hs1) as (r' & s' & E2 & Hs2 & X2 & (Q1 & Q2 & Q3) & K2).
      { intros H. apply H0. apply (ext_F F top top s s1); auto. }
      { intros x Hx. destruct (HC x (or_intror Hx)) as (A & B & C & K). split; [assumption|]. split; [assumption|]. split; [assumption|]. eapply known_ext; eassumption. }
      { apply (NoDup_sub c (concat cands) []). rewrite app_nil_r. assumption. }
      exists (r ++ r'), s'. split. { intros fuel Hf. rewrite E1 by assumption. cbn [pbind]. rewrite E2 by assumption. reflexivity. }
      split; [assumption|]. split; [eapply ext_trans; eassumption|]. split.
      + unfold pieces_ok. rewrite concat_app. split.
        { apply (NoDup_pieces_drop c); [|assumption|assumption].
          assert (N : NoDup (concat r' ++ c)). { apply (NoDup_pieces_drop (concat cands)); [|assumption|assumption]. eapply Permutation_NoDup; [apply Permutation_app_comm|exact ND]. }
          eapply Permutation_NoDup; [apply Permutation_app_comm|exact N]. }
        split. { intros x Hx. rewrite in_app_iff in *. destruct Hx; auto. }
        intros x Hx. apply in_app_iff in Hx. destruct Hx; auto.
      + intros x Hx. apply in_app_iff in Hx. destruct Hx as [Hx|Hx]; [eapply known_ext; [exact X2|]|]; auto.
  Qed.

  Lemma ssplit_spec top g runTab deltas current s : 2 <= g -> (forall r, In r runTab -> r <= top) -> cfg_nb <= top -> good deltas -> Inv s -> ~ F top [] s ->
    pieces_ok deltas current -> (forall c, In c current -> known c s) ->
    exists res s', (forall fuel, 3 * length deltas <= fuel -> ssplit Ddec test cfg_nb fuel deltas runTab g current s = Ret (res, s')) /\
      Inv s' /\ ext top s s' /\ pieces_ok deltas res /\ (forall c, In c res -> known c s').
  Proof.
    intros Hgr Hr L2 Hg. revert current s. induction runTab as [|run runTab IH]; intros current s Hs H0 HP HK.
    - exists current, s. split; [reflexivity|]. split; [assumption|]. split; [apply ext_refl|]. split; assumption.
    - cbn [ssplit]. pose proof (Hr run (or_introl eq_refl)) as L1.
      destruct (split_each_spec top run g current s (length deltas) Hgr L1 L2 Hs H0) as (next & s1 & E1 & Hs1 & X1 & (P1 & P2 & P3) & K1).
      { intros c Hc. destruct (pieces_good deltas current c Hg HP Hc) as [Gc Ic]. split; [assumption|]. split; [apply HP; assumption|].
        split; [apply NoDup_incl_length; [apply Gc|assumption]|auto]. }
      { apply HP. }
      assert (H01 : ~ F top [] s1) by (intros H; apply H0; apply (ext_F F top top s s1); auto).
      set (d := listminus Ddec deltas (concat next)).
      destruct (splitDeltas_spec top run g d s1 Hgr L1 L2 (good_minus Ddec U _ _ Hg) Hs1 H01) as (rest & s2 & E2 & Hs2 & X2 & (Q1 & Q2 & Q3) & K2).
      assert (Ld : length d <= length deltas). { apply NoDup_incl_length; [apply minus_NoDup, Hg|]. intros x Hx. apply minus_In in Hx. tauto. }
      assert (IN : incl (concat next) deltas) by (eapply incl_tran; [exact P2|apply HP]).
      destruct (IH (fun r Hx => Hr r (or_intror Hx)) (next ++ rest) s2 Hs2) as (res & s' & E3 & A & B & C).
      { intros H. apply H01. apply (ext_F F top top s1 s2); auto. }
      { unfold pieces_ok. rewrite concat_app. split.
        - apply NoDup_disj; [assumption|assumption|]. intros x Hx Hx'. apply Q2 in Hx'. unfold d in Hx'. apply minus_In in Hx'. tauto.
        - split. { intros x Hx. rewrite in_app_iff in Hx. destruct Hx as [Hx|Hx]; [auto|]. apply Q2 in Hx. unfold d in Hx. apply minus_In in Hx. tauto. }
          intros x Hx. apply in_app_iff in Hx. destruct Hx; auto. }
      { intros c Hc. apply in_app_iff in Hc. destruct Hc; [eapply known_ext; [exact X2|]|]; auto. }
      exists res, s'. split. { intros fuel Hf. rewrite E1 by assumption. cbn [pbind]. fold d. rewrite E2 by lia. cbn [pbind]. apply E3. assumption. }
      split; [assumption|]. split; [eapply ext_trans; [exact X1|eapply ext_trans; eassumption]|exact C].
  Qed.

  Lemma analyze_spec top SrunTab cands deltas s size : SrunTab <> [] -> last SrunTab 0 = top -> (forall r, In r SrunTab -> r <= top) -> cfg_nb <= top ->
    Inv s -> ~ F top [] s -> good deltas -> pieces_ok deltas cands -> (forall c, In c cands -> known c s /\ enough c + length c <= size) ->
    exists res rest s', (forall fuel, size <= fuel -> analyze Ddec test unsafe cfg_nb fuel SrunTab cands deltas s = Ret (res, rest, s')) /\
      Inv s' /\ ext top s s' /\ found_ok top deltas res rest s.
  Proof.
    intros Hne Hlast Hle Hcfg. revert deltas s. induction cands as [|c cands IH]; intros deltas s Hs H0 Hg HP HK.
    - exists [], deltas, s. split; [reflexivity|]. split; [assumption|]. split; [apply ext_refl|].
      split; [intros c []|]. split; [constructor|]. split; [intros x []|]. cbn [concat]. rewrite minus_nil. reflexivity.
    - cbn [analyze]. destruct (pieces_good deltas _ c Hg HP (or_introl eq_refl)) as [Gc Ic]. destruct (HK c (or_introl eq_refl)) as [Kc Sc].
      assert (ONE : exists r s1, (forall fuel, size <= fuel -> (if length c =? 1 then Ret ([c], s) else SRDDMin Ddec test unsafe cfg_nb fuel c SrunTab s) = Ret (r, s1)) /\
        Inv s1 /\ ext top s s1 /\ (forall x, In x r -> one_minimal top x s) /\ NoDup (concat r) /\ incl (concat r) c).
      { destruct (Nat.eqb_spec (length c) 1) as [L|L].
        - exists [c], s. split; [reflexivity|]. split; [assumption|]. split; [apply ext_refl|]. split; [intros x [<-|[]]; apply singleton_minimal; auto|].
          cbn. rewrite app_nil_r. split; [apply Gc|apply incl_refl].
        - destruct (SRDDMin_spec top SrunTab c s Hne Hlast Hle Hcfg Hs Gc H0 (Kc top)) as (r & s1 & E & A & B & rest & (C1 & C2 & C3 & C4) & _).
          exists r, s1. split; [intros fuel Hf; apply E; lia|]. split; [assumption|]. split; [assumption|]. split; [assumption|]. split; assumption. }
      destruct ONE as (r & s1 & E1 & Hs1 & X1 & M1 & N1 & I1).
      set (d := listminus Ddec deltas (concat r)).
      assert (FO : found_ok top deltas r d s). { split; [assumption|]. split; [assumption|]. split; [eapply incl_tran; eassumption|reflexivity]. }
      assert (H01 : ~ F top [] s1) by (intros H; apply H0; apply (ext_F F top top s s1); auto).
      destruct HP as (P1 & P2 & P3). cbn [concat] in P1, P2.
      destruct (IH d s1 Hs1 H01) as (res & rest & s' & E2 & Hs2 & X2 & FO2).
      { apply good_minus. assumption. }
      { split; [apply (NoDup_sub c (concat cands) []); rewrite app_nil_r; assumption|]. split; [|intros x Hx; apply P3; right; assumption].
        intros x Hx. unfold d. apply minus_In. split; [apply P2; apply in_app_iff; auto|]. intros Hr. apply I1 in Hr.
        apply in_split in Hr. destruct Hr as (c1 & c2 & ->). rewrite <- app_assoc in P1. cbn in P1. apply NoDup_remove_2 in P1. apply P1. rewrite !in_app_iff. tauto. }
      { intros x Hx. destruct (HK x (or_intror Hx)). split; [eapply known_ext; eassumption|assumption]. }
      exists (r ++ res), rest, s'. split. { intros fuel Hf. rewrite E1 by assumption. cbn [pbind]. fold d. rewrite E2 by assumption. reflexivity. }
      split; [assumption|]. split; [eapply ext_trans; eassumption|]. eapply found_concat; [exact FO|]. apply (found_ext top top _ _ _ s s1); auto.
  Qed.

  Definition enough_all (deltas : list D) : nat := enough deltas + 4 * length deltas.
  Lemma DRDDMin_spec top SrunTab dicRunTab g deltas s : SrunTab <> [] -> last SrunTab 0 = top -> (forall r, In r SrunTab -> r <= top) -> cfg_nb <= top ->
    (forall r, In r dicRunTab -> r <= top) -> 2 <= g -> Inv s -> good deltas -> ~ F top [] s -> F top deltas s ->
    exists tab s', (forall fuel, enough_all deltas <= fuel -> DRDDMin Ddec test unsafe cfg_nb fuel deltas SrunTab dicRunTab g s = Ret (tab, s')) /\
      Inv s' /\ ext top s s' /\ exists rest, found_ok top deltas tab rest s /\ ~ F top rest s.
  Proof.
    intros Hne Hlast Hle Hcfg Hdic Hgr Hs Hg H0 HF.
    destruct (tl_test _ _ _ _ TL top deltas s Hs Hg) as (v & s1 & ET & Hs1 & E1 & Hv & HR). apply Hv in HF as Hf.
    assert (F1 : forall c, F top c s <-> F top c s1) by (intros c; apply (ext_F F top top); auto).
    assert (Ld : 1 <= length deltas) by (destruct deltas; [contradiction|cbn; lia]).
    destruct (ssplit_spec top g dicRunTab deltas [deltas] s1 Hgr Hdic Hcfg Hg Hs1) as (cands & s2 & ES & Hs2 & E2 & HP & HK).
    { rewrite <- F1. assumption. }
    { split; [cbn; rewrite app_nil_r; apply Hg|]. split; [cbn; rewrite app_nil_r; apply incl_refl|]. intros c [<-|[]]. assumption. }
    { intros c [<-|[]]. exact (HR Hf). }
    assert (F2 : forall c, F top c s1 <-> F top c s2) by (intros c; apply (ext_F F top top); auto).
    destruct (analyze_spec top SrunTab cands deltas s2 (enough deltas + length deltas) Hne Hlast Hle Hcfg Hs2) as (res & rest & s3 & EA & Hs3 & E3 & FO); auto.
    { rewrite <- F2, <- F1. assumption. }
    { intros c Hc. split; [auto|]. destruct (pieces_good deltas cands c Hg HP Hc) as [Gc Ic]. pose proof (NoDup_incl_length (proj1 Gc) Ic) as L. pose proof (enough_le c deltas L). lia. }
    assert (F3 : forall c, F top c s2 <-> F top c s3) by (intros c; apply (ext_F F top top); auto).
    assert (Gr : good rest) by (destruct FO as (_ & _ & _ & ->); apply good_minus; assumption).
    destruct (tl_test _ _ _ _ TL top rest s3 Hs3 Gr) as (v4 & s4 & ET4 & Hs4 & E4 & Hv4 & _).
    assert (F4 : forall c, F top c s3 <-> F top c s4) by (intros c; apply (ext_F F top top); auto).
    assert (FO' : found_ok top deltas res rest s). { apply (found_ext top top _ _ _ s s1); auto. apply (found_ext top top _ _ _ s1 s2); auto. }
    assert (RUN : forall fuel, enough_all deltas <= fuel -> DRDDMin Ddec test unsafe cfg_nb fuel deltas SrunTab dicRunTab g s =
      if negb (is_fail v4) then Ret (res, s4) else do '(res', s) <- SRDDMin Ddec test unsafe cfg_nb fuel rest SrunTab s4; Ret (res ++ res', s)).
    { intros fuel Hfuel. unfold enough_all in Hfuel. unfold DRDDMin. destruct SrunTab as [|r0 rt]; [congruence|]. rewrite Hlast, ET. cbn [pbind]. rewrite Hf. cbn [negb].
      unfold SsplitDeltas. rewrite ES by lia. cbn [pbind]. rewrite EA by lia. cbn [pbind]. rewrite ET4. reflexivity. }
    destruct (is_fail v4).
    - destruct (SRDDMin_spec top SrunTab rest s4 Hne Hlast Hle Hcfg Hs4 Gr) as (tab & s5 & E5 & Hs5 & X5 & rest' & FO5 & NF).
      { rewrite <- F4, <- F3, <- F2, <- F1. assumption. }
      { rewrite <- F4. tauto. }
      assert (Lr : length rest <= length deltas). { destruct FO as (_ & _ & _ & ->). apply NoDup_incl_length; [apply minus_NoDup, Hg|]. intros x Hx. apply minus_In in Hx. tauto. }
      exists (res ++ tab), s5. split. { intros fuel Hfuel. rewrite RUN by assumption. cbn [negb]. rewrite E5; [reflexivity|]. unfold enough_all in Hfuel. pose proof (enough_le rest deltas Lr). lia. }
      split; [assumption|]. split; [eapply ext_trans; [exact E1|eapply ext_trans; [exact E2|eapply ext_trans; [exact E3|eapply ext_trans; eassumption]]]|].
      exists rest'. split; [|rewrite F1, F2, F3, F4; assumption]. eapply found_concat; [exact FO'|].
      apply (found_ext top top _ _ _ s s1); auto. apply (found_ext top top _ _ _ s1 s2); auto. apply (found_ext top top _ _ _ s2 s3); auto. apply (found_ext top top _ _ _ s3 s4); auto.
    - exists res, s4. split. { intros fuel Hfuel. rewrite RUN by assumption. reflexivity. }
      split; [assumption|]. split; [eapply ext_trans; [exact E1|eapply ext_trans; [exact E2|eapply ext_trans; eassumption]]|].
      exists rest. split; [assumption|]. rewrite F1, F2, F3. intros H. apply Hv4 in H. discriminate.
  Qed.
End spec.
