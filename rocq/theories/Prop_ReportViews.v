(** C106: the view "inspect run" shows the selected run, grouped and filtered as selected. C107: the tables of checks. *)
From Coq Require Import String ZArith List Bool Reals Lia Lra Permutation Sorted.
From Verif Require Import Text DDModel ReportModel ReportProofs ReportViews Prop_Report.
Import ListNotations.
Open Scope Z_scope.
Open Scope py_scope.

(** * C106 *)
Lemma drop_duplicates_spec l : forall seen, NoDup (drop_duplicates seen l) /\ forall x, In x (drop_duplicates seen l) <-> In x l /\ ~ In x seen.
Proof.
  induction l as [|y l IH]; intros seen; cbn [drop_duplicates]; [split; [constructor|cbn; tauto]|].
  destruct (existsb (text_eqb y) seen) eqn:E.
  - apply existsb_exists in E. destruct E as (z & Hz & Ez). destruct (text_eqb_spec y z) as [<-|]; [|discriminate].
    destruct (IH seen) as (N & H). split; [exact N|]. intros x. rewrite H. cbn. split; [tauto|]. intros ([<- | Hx] & Hs); [contradiction|tauto].
  - assert (Ny : ~ In y seen).
    { intros H. assert (T : existsb (text_eqb y) seen = true) by (apply existsb_exists; exists y; split; [exact H|apply text_eqb_refl]). congruence. }
    destruct (IH (y :: seen)) as (N & H). split.
    + constructor; [|exact N]. rewrite H. cbn. tauto.
    + intros x. cbn. rewrite H. cbn. destruct (text_dec y x) as [<-|D]; [tauto|]. split; [intros [->|]; tauto|tauto].
Qed.

(** what a plot grouped by g and filtered by the value x of f has to show: one box for each value of g among the rows with value x,
    with the statistics of exactly the rows of that value *)
Definition in_group (f g : factor) (x k : text) (w : row) : bool := text_eqb (level f w) x && text_eqb (level g w) k.
Definition shows (rows : list row) (g f : factor) (x : text) (boxes : list box) : Prop :=
  exists keys, NoDup keys /\ (forall k, In k keys <-> exists w, In w rows /\ level f w = x /\ level g w = k) /\
    boxes = map (fun k => box_of k (filter (in_group f g x k) rows)) keys.
Lemma filter_filter {A} (p q : A -> bool) l : filter q (filter p l) = filter (fun x => p x && q x) l.
Proof. induction l as [|x l IH]; cbn; [reflexivity|]. destruct (p x); cbn; [destruct (q x); rewrite IH; reflexivity|exact IH]. Qed.
Lemma groups_shows rows g f x : shows rows g f x (groups rows g f x).
Proof.
  unfold groups. set (sel := filter _ rows). destruct (drop_duplicates_spec (map (level g) sel) []) as (N & H).
  exists (drop_duplicates [] (map (level g) sel)). split; [exact N|]. split.
  - intros k. rewrite H, in_map_iff. unfold sel. split.
    + intros ((w & E & Hw) & _). apply filter_In in Hw. destruct Hw as (Hw & Ew). exists w. destruct (text_eqb_spec (level f w) x); [auto|discriminate].
    + intros (w & Hw & E & Ek). split; [|intros []]. exists w. split; [exact Ek|]. apply filter_In. split; [exact Hw|]. rewrite E. apply text_eqb_refl.
  - apply map_ext. intros k. f_equal. unfold sel. rewrite filter_filter. reflexivity.
Qed.

(** the state of the widgets after a history: the last selection of each *)
Definition last_run (name : text) (es : list event) : text := fold_left (fun d e => match e with SelectRun n => n | _ => d end) es name.
Definition last_group (es : list event) : nat := fold_left (fun d e => match e with SelectGroup k => k | _ => d end) es 0%nat.
Definition last_filterby (es : list event) : nat := fold_left (fun d e => match e with SelectFilterby k => k | _ => d end) es 0%nat.
Definition last_filtering (es : list event) : bool := fold_left (fun d e => match e with Filtering b => b | _ => d end) es false.

Section Inspect.
  Variables (runs : list named) (data : list row).
  (** what a user can select: the names of the runs, three groups, two filters, the values of the filter *)
  Definition possible (v : inspect) (e : event) : Prop :=
    match e with
    | SelectRun name => In name (map snd runs)
    | SelectGroup k => (k < 3)%nat
    | SelectFilterby k => (k < 2)%nat
    | SelectFilter x => exists f w, nth_error (v_labels v) (v_filterby v) = Some f /\ In w (v_data v) /\ level f w = x
    | Filtering _ => True
    end.
  Inductive session : list event -> inspect -> Prop :=
  | session_start v : start runs data = Ret v -> session [] v
  | session_step es v e v' : session es v -> possible v e -> step runs data v e = Ret v' -> session (es ++ [e]) v'.
  Definition rows_of (name : text) (rows : list row) : Prop :=
    exists r, In r runs /\ snd r = name /\ rows = filter (fun w => w_time w =? m_time (fst r)) data.
  Definition consistent (v : inspect) : Prop :=
    exists g f, rows_of (v_name v) (v_data v) /\ nth_error factors (v_group v) = Some g /\ v_labels v = delete (v_group v) factors /\
      nth_error (v_labels v) (v_filterby v) = Some f /\ f <> g /\ (exists w, In w (v_data v) /\ level f w = v_value v) /\
      shows (v_data v) g f (v_value v) (v_shown v).

  Hypothesis names : NoDup (map snd runs).
  Hypothesis some_run : runs <> [].
  Hypothesis all_data : forall r, In r runs -> exists w, In w data /\ w_time w = m_time (fst r).

  Lemma rows_nonempty name rows : rows_of name rows -> exists w, In w rows.
  Proof. intros (r & Hr & _ & ->). destruct (all_data r Hr) as (w & Hw & E). exists w. apply filter_In. split; [exact Hw|]. apply Z.eqb_eq. exact E. Qed.
  Lemma factor_pair i j : (i < 3)%nat -> (j < 2)%nat -> exists g f, nth_error factors i = Some g /\ nth_error (delete i factors) j = Some f /\ f <> g.
  Proof.
    intros Hi Hj. destruct i as [|[|[|i]]]; [..|lia]; destruct j as [|[|j]]; try lia; cbn; do 2 eexists; repeat split; discriminate.
  Qed.
  Lemma update_plots_ok v x : rows_of (v_name v) (v_data v) -> (v_group v < 3)%nat -> v_labels v = delete (v_group v) factors -> (v_filterby v < 2)%nat ->
    (exists f w, nth_error (v_labels v) (v_filterby v) = Some f /\ In w (v_data v) /\ level f w = x) -> v_value v = x ->
    exists v', update_plots v = Ret v' /\ consistent v' /\ v_name v' = v_name v /\ v_group v' = v_group v /\ v_filterby v' = v_filterby v /\
      v_filtering v' = v_filtering v /\ v_value v' = x.
  Proof.
    intros R G L F (f & w & Ef & Hw & Ew) V. destruct (factor_pair _ _ G F) as (g & f' & Eg & Ef' & D). rewrite <- L in Ef'.
    rewrite Ef in Ef'. injection Ef' as <-. unfold update_plots, nth_py. rewrite Eg, Ef. cbn [pbind]. eexists. split; [reflexivity|].
    split; [|cbn; auto]. exists g, f. cbn [v_name v_data v_group v_labels v_filterby v_value v_shown]. repeat (split; [assumption|]).
    split; [exists w; rewrite V; auto|]. apply groups_shows.
  Qed.
  Lemma update_options_ok v : rows_of (v_name v) (v_data v) -> (v_group v < 3)%nat -> v_labels v = delete (v_group v) factors -> (v_filterby v < 2)%nat ->
    exists v', update_options v = Ret v' /\ consistent v' /\ v_name v' = v_name v /\ v_group v' = v_group v /\ v_filterby v' = v_filterby v /\
      v_filtering v' = v_filtering v.
  Proof.
    intros R G L F. destruct (factor_pair _ _ G F) as (g & f & Eg & Ef & D). rewrite <- L in Ef. unfold update_options, nth_py at 1. rewrite Ef. cbn [pbind].
    destruct (drop_duplicates_spec (map (level f) (v_data v)) []) as (_ & H). set (options := drop_duplicates [] _) in *.
    assert (O : forall x, In x options -> exists f w, nth_error (v_labels v) (v_filterby v) = Some f /\ In w (v_data v) /\ level f w = x).
    { intros x Hx. apply H in Hx. destruct Hx as (Hx & _). apply in_map_iff in Hx. destruct Hx as (w & E & Hw). eauto. }
    destruct (existsb (text_eqb (v_value v)) options) eqn:E.
    - apply existsb_exists in E. destruct E as (x & Hx & Ex). destruct (text_eqb_spec (v_value v) x) as [Ev|]; [|discriminate].
      destruct (update_plots_ok v x R G L F (O x Hx) Ev) as (v' & P). exists v'. tauto.
    - destruct options as [|x os] eqn:Eo.
      + exfalso. destruct (rows_nonempty _ _ R) as (w & Hw). apply (proj2 (H (level f w))). split; [apply in_map; exact Hw|intros []].
      + cbn [nth_py nth_error pbind]. edestruct update_plots_ok as (v' & P); [..|exists v'; split; [apply P|]; cbn in P; tauto]; try eassumption; [|reflexivity].
        cbn. apply O. left. reflexivity.
  Qed.
  Lemma selected_run name : In name (map snd runs) -> exists t, dict_get name (runs_selection runs) = Ret t /\ rows_of name (of_run data t).
  Proof.
    intros H. apply in_map_iff in H. destruct H as (r & <- & Hr). exists (m_time (fst r)). split; [apply (proj1 (C101_selectors runs names)); exact Hr|].
    exists r. auto.
  Qed.
  Lemma consistent_bounds v : consistent v -> (v_group v < 3)%nat /\ (v_filterby v < 2)%nat.
  Proof.
    intros (g & f & _ & Eg & L & Ef & _). assert (G : (v_group v < 3)%nat) by (change 3%nat with (length factors); apply nth_error_Some; congruence).
    split; [exact G|]. rewrite L in Ef. assert (T : (v_filterby v < length (delete (v_group v) factors))%nat) by (apply nth_error_Some; congruence).
    destruct (v_group v) as [|[|[|k]]]; cbn in T; lia.
  Qed.
  Lemma last_name : exists r, from_end (map fst (runs_selection runs)) 1 = Ret (snd r) /\ In r runs /\ exists before, runs = before ++ [r].
  Proof.
    rewrite (proj2 (C101_selectors runs names)). destruct (exists_last some_run) as (b & r & E). exists r. rewrite E. unfold from_end.
    rewrite map_app, rev_app_distr. cbn. split; [reflexivity|]. split; [apply in_or_app; right; left; reflexivity|eauto].
  Qed.
  Lemma start_ok : exists v r before, start runs data = Ret v /\ consistent v /\ runs = before ++ [r] /\ v_name v = snd r /\ v_group v = 0%nat /\ v_filterby v = 0%nat /\ v_filtering v = false.
  Proof.
    destruct last_name as (r & E & Hr & before & Eb). destruct (selected_run (snd r)) as (t & Et & R); [apply in_map; exact Hr|].
    unfold start. rewrite E. cbn [pbind]. rewrite Et. cbn [pbind delete factors nth_py nth_error].
    destruct (of_run data t) as [|w rows] eqn:Ed; [destruct (rows_nonempty _ _ R) as (w & []) |]. rewrite <- Ed in *.
    destruct (drop_duplicates_spec (map (level FBackend) (of_run data t)) []) as (_ & H). destruct (drop_duplicates [] _) as [|x os].
    { exfalso. apply (proj2 (H (level FBackend w))). split; [apply in_map; rewrite Ed; left; reflexivity|intros []]. }
    cbn [nth_error pbind]. edestruct update_plots_ok as (v' & P); [..|exists v', r, before; split; [apply P|]; cbn in P; tauto]; cbn; try (lia || reflexivity || assumption).
    destruct (proj1 (H x) (or_introl eq_refl)) as (Hx & _). apply in_map_iff in Hx. destruct Hx as (w' & Ew & Hw'). exists FBackend, w'. auto.
  Qed.
  Lemma step_ok v e : consistent v -> possible v e -> exists v', step runs data v e = Ret v' /\ consistent v' /\
    v_name v' = match e with SelectRun n => n | _ => v_name v end /\ v_group v' = match e with SelectGroup k => k | _ => v_group v end /\
    v_filterby v' = match e with SelectFilterby k => k | _ => v_filterby v end /\ v_filtering v' = match e with Filtering b => b | _ => v_filtering v end /\
    (forall x, e = SelectFilter x -> v_value v' = x).
  Proof.
    intros C P. pose proof (consistent_bounds v C) as (G & F). pose proof C as (g & f & R & Eg & L & Ef & D & W & _).
    destruct e as [name|k|k|x|b]; cbn [step possible] in *.
    - destruct (text_eqb_spec name (v_name v)) as [->|]; [exists v; repeat split; try assumption; discriminate|].
      destruct (selected_run name P) as (t & Et & Rt). rewrite Et. cbn [pbind].
      edestruct update_options_ok as (v' & Q); [..|exists v'; split; [apply Q|]; cbn in Q; repeat split; try tauto; discriminate]; cbn; assumption.
    - destruct (Nat.eqb_spec k (v_group v)) as [->|]; [exists v; repeat split; try assumption; discriminate|].
      edestruct update_options_ok as (v' & Q); [..|exists v'; split; [apply Q|]; cbn in Q; repeat split; try tauto; discriminate]; cbn; (assumption || reflexivity).
    - destruct (Nat.eqb_spec k (v_filterby v)) as [->|]; [exists v; repeat split; try assumption; discriminate|].
      edestruct update_options_ok as (v' & Q); [..|exists v'; split; [apply Q|]; cbn in Q; repeat split; try tauto; discriminate]; cbn; assumption.
    - destruct (text_eqb_spec x (v_value v)) as [->|]; [exists v; repeat split; try assumption; intros ? [= <-]; reflexivity|].
      edestruct update_plots_ok as (v' & Q); [..|exists v'; split; [apply Q|]; cbn in Q; repeat split; try tauto; intros ? [= <-]; apply Q]; cbn; try eassumption; reflexivity.
    - destruct (Bool.eqb b (v_filtering v)) eqn:Eb; [apply eqb_prop in Eb; subst b; exists v; repeat split; try assumption; discriminate|].
      edestruct update_plots_ok as (v' & Q); [..|exists v'; split; [apply Q|]; cbn in Q; repeat split; try tauto; discriminate]; cbn; try eassumption; [|reflexivity].
      destruct W as (w & Hw & Ew). exists f, w. auto.
  Qed.

  (** if every run has data: the view opens with the most recent run, no selection ever raises, and after every history the widgets
      have their last selections, the factors of grouping and filtering differ, the value of the filter occurs in the run, and the
      plots show exactly the rows of the selected run with that value, grouped *)
  Theorem C106_view_partial :
    (exists v, start runs data = Ret v) /\
    (forall es v e, session es v -> possible v e -> exists v', step runs data v e = Ret v') /\
    forall es v, session es v -> consistent v /\
      (exists r before, runs = before ++ [r] /\ v_name v = last_run (snd r) es) /\ v_group v = last_group es /\ v_filterby v = last_filterby es /\
      v_filtering v = last_filtering es /\ forall x before, es = before ++ [SelectFilter x] -> v_value v = x.
  Proof.
    assert (I : forall es v, session es v -> consistent v /\
      (exists r before, runs = before ++ [r] /\ v_name v = last_run (snd r) es) /\ v_group v = last_group es /\ v_filterby v = last_filterby es /\
      v_filtering v = last_filtering es /\ forall x before, es = before ++ [SelectFilter x] -> v_value v = x).
    { induction 1 as [v E|es v e v' S IH P E].
      - destruct start_ok as (v0 & r & b & E0 & C & Er & En & Eg & Ef & Eb). rewrite E0 in E. injection E as <-. split; [exact C|]. split; [exists r, b; auto|].
        repeat split; try assumption. intros x [|? ?]; discriminate.
      - destruct IH as (C & (r & b & Er & En) & Eg & Ef & Eb & _). destruct (step_ok v e C P) as (v1 & E1 & C1 & N1 & G1 & F1 & B1 & V1).
        rewrite E1 in E. injection E as <-. split; [exact C1|]. unfold last_run, last_group, last_filterby, last_filtering in *. rewrite !fold_left_app. cbn [fold_left].
        split; [exists r, b; split; [exact Er|]; rewrite fold_left_app; cbn [fold_left]; rewrite <- En; exact N1|]. rewrite <- Eg, <- Ef, <- Eb. repeat (split; [assumption|]).
        intros x before Ex. apply app_inj_tail in Ex. destruct Ex as (_ & Ex). exact (V1 x Ex). }
    split; [destruct start_ok as (v & _ & _ & E & _); eauto|]. split; [|exact I].
    intros es v e S P. destruct (step_ok v e (proj1 (I es v S)) P) as (v' & E & _). eauto.
  Qed.
End Inspect.
Print Assumptions C106_view_partial.

(** ** the boxes *)
Section Boxes.
  Open Scope R_scope.
  Lemma insert_real_perm x l : Permutation (insert_real x l) (x :: l).
  Proof. induction l as [|y l IH]; cbn; [constructor; constructor|]. destruct (Rle_dec x y); [reflexivity|]. rewrite IH. apply perm_swap. Qed.
  Lemma sort_real_perm l : Permutation (sort_real l) l.
  Proof. induction l as [|x l IH]; cbn; [constructor|]. rewrite insert_real_perm. constructor. exact IH. Qed.
  Lemma insert_real_sorted x l : StronglySorted Rle l -> StronglySorted Rle (insert_real x l).
  Proof.
    induction 1 as [|y l S IH F]; cbn; [repeat constructor|]. destruct (Rle_dec x y) as [H|H].
    - constructor; [constructor; assumption|]. constructor; [exact H|]. eapply Forall_impl; [|exact F]. intros; cbn in *; lra.
    - constructor; [exact IH|]. rewrite Forall_forall in *. intros z Hz. apply (Permutation_in _ (insert_real_perm x l)) in Hz. destruct Hz as [<- | Hz]; [lra|auto].
  Qed.
  Lemma sort_real_sorted l : StronglySorted Rle (sort_real l).
  Proof. induction l as [|x l IH]; cbn; [constructor|]. apply insert_real_sorted. exact IH. Qed.
  Lemma sorted_nth l : StronglySorted Rle l -> forall i j d, (i <= j)%nat -> (j < length l)%nat -> nth i l d <= nth j l d.
  Proof.
    induction 1 as [|y l S IH F]; intros i j d Hij Hj; cbn in Hj; [lia|]. destruct i as [|i], j as [|j]; cbn; try lia; [lra| |].
    - rewrite Forall_forall in F. apply F. apply nth_In. lia.
    - apply IH; lia.
  Qed.
  Definition at_most (q : R) (l : list R) : nat := length (filter (fun x => if Rle_dec x q then true else false) l).
  Definition at_least (q : R) (l : list R) : nat := length (filter (fun x => if Rle_dec q x then true else false) l).
  Lemma filter_length_le {A} (p : A -> bool) l : (length (filter p l) <= length l)%nat.
  Proof. induction l as [|x l IH]; cbn; [lia|]. destruct (p x); cbn; lia. Qed.
  Lemma at_most_sorted s q i : StronglySorted Rle s -> (i < length s)%nat -> nth i s 0 <= q -> (S i <= at_most q s)%nat.
  Proof.
    intros S Hi H. unfold at_most. rewrite <- (firstn_skipn (Datatypes.S i) s), filter_app, app_length.
    rewrite (filter_all _ (firstn (Datatypes.S i) s)); [rewrite firstn_length; lia|]. apply Forall_forall. intros x Hx.
    apply (In_nth _ _ 0) in Hx. destruct Hx as (j & Hj & <-). rewrite firstn_length in Hj. rewrite <- (firstn_skipn (Datatypes.S i) s) in H, Hi |- *.
    rewrite firstn_skipn in H, Hi. assert (E : nth j (firstn (Datatypes.S i) s) 0 = nth j s 0).
    { rewrite <- (firstn_skipn (Datatypes.S i) s) at 2. rewrite app_nth1; [reflexivity|]. rewrite firstn_length. lia. }
    rewrite firstn_skipn, E. destruct (Rle_dec (nth j s 0) q) as [|N]; [reflexivity|]. exfalso. apply N. apply Rle_trans with (nth i s 0); [|exact H].
    apply sorted_nth; [exact S|lia|lia].
  Qed.
  Lemma at_least_sorted s q i : StronglySorted Rle s -> (i < length s)%nat -> q <= nth i s 0 -> (length s - i <= at_least q s)%nat.
  Proof.
    intros S Hi H. unfold at_least. rewrite <- (firstn_skipn i s) at 2. rewrite filter_app, app_length.
    rewrite (filter_all _ (skipn i s)); [rewrite skipn_length; lia|]. apply Forall_forall. intros x Hx.
    apply (In_nth _ _ 0) in Hx. destruct Hx as (j & Hj & <-). rewrite skipn_length in Hj.
    assert (E : nth j (skipn i s) 0 = nth (i + j) s 0).
    { rewrite <- (firstn_skipn i s) at 2. rewrite app_nth2; rewrite firstn_length; [f_equal; lia|lia]. }
    rewrite E. destruct (Rle_dec q (nth (i + j) s 0)) as [|N]; [reflexivity|]. exfalso. apply N. apply Rle_trans with (nth i s 0); [exact H|].
    apply sorted_nth; [exact S|lia|lia].
  Qed.
  Lemma at_most_perm q l k : Permutation l k -> at_most q l = at_most q k.
  Proof. intros P. apply filter_perm_length. exact P. Qed.
  Lemma at_least_perm q l k : Permutation l k -> at_least q l = at_least q k.
  Proof. intros P. apply filter_perm_length. exact P. Qed.
  (** position of a quantile *)
  Lemma quantile_between a l : (a <= 3)%nat -> l <> [] -> let s := sort_real l in let p := ((length l - 1) * a)%nat in
    nth (p / 4) s 0 <= quantile a l /\ ((p mod 4)%nat = 0%nat -> quantile a l = nth (p / 4) s 0) /\
    ((p mod 4)%nat <> 0%nat -> (p / 4 + 1 < length s)%nat /\ quantile a l <= nth (p / 4 + 1) s 0) /\ (p / 4 < length s)%nat.
  Proof.
    intros Ha NE s p. assert (Ls : length s = length l) by (apply Permutation_length, sort_real_perm). assert (L0 : (0 < length l)%nat) by (destruct l; [congruence|cbn; lia]).
    pose proof (Nat.div_mod p 4 ltac:(lia)) as DM. pose proof (Nat.mod_upper_bound p 4 ltac:(lia)) as MB.
    assert (Pb : (p <= (length l - 1) * 3)%nat) by (unfold p; nia). assert (I : (p / 4 < length s)%nat) by lia.
    pose proof (sort_real_sorted l) as S. fold s in S. unfold quantile. fold s. fold p. set (lo := nth (p / 4) s 0).
    assert (M : 0 <= INR (p mod 4) / 4 <= 1).
    { assert (0 <= INR (p mod 4)) by apply pos_INR. assert (INR (p mod 4) <= INR 4) by (apply le_INR; lia). cbn [INR] in *. lra. }
    destruct (Nat.eq_dec (p mod 4) 0) as [Z0|Z0].
    - rewrite Z0. cbn [INR]. split; [lra|]. split; [lra|]. split; [congruence|exact I].
    - assert (I1 : (p / 4 + 1 < length s)%nat) by lia. rewrite (nth_indep s lo 0 I1).
      assert (O : lo <= nth (p / 4 + 1) s 0) by (apply sorted_nth; [exact S|lia|exact I1]).
      assert (T : 0 <= (nth (p / 4 + 1) s 0 - lo) * (INR (p mod 4) / 4)) by (apply Rmult_le_pos; lra).
      assert (T' : (nth (p / 4 + 1) s 0 - lo) * (INR (p mod 4) / 4) <= (nth (p / 4 + 1) s 0 - lo) * 1) by (apply Rmult_le_compat_l; lra).
      split; [lra|]. split; [congruence|]. split; [intros _; split; [exact I1|lra]|exact I].
  Qed.
  (** more than a quarter (half, three quarters) of the other values are on each side of a quantile *)
  Lemma quantile_counts a l : (a <= 3)%nat -> l <> [] ->
    (a * (length l - 1) < 4 * at_most (quantile a l) l)%nat /\ ((4 - a) * (length l - 1) < 4 * at_least (quantile a l) l)%nat.
  Proof.
    intros Ha NE. destruct (quantile_between a l Ha NE) as (B & E & H & I). set (s := sort_real l) in *. set (p := ((length l - 1) * a)%nat) in *.
    assert (P : Permutation s l) by apply sort_real_perm. pose proof (Permutation_length P) as Ls. pose proof (sort_real_sorted l) as S. fold s in S.
    pose proof (Nat.div_mod p 4 ltac:(lia)) as DM. pose proof (Nat.mod_upper_bound p 4 ltac:(lia)) as MB.
    rewrite <- (at_most_perm _ _ _ P), <- (at_least_perm _ _ _ P). assert (D4 : (4 * (length l - 1) = p + (4 - a) * (length l - 1))%nat) by (unfold p; nia).
    assert (Dp : (a * (length l - 1))%nat = p) by (unfold p; lia). rewrite Dp. split.
    - pose proof (at_most_sorted s (quantile a l) (p / 4) S I B). lia.
    - destruct (Nat.eq_dec (p mod 4) 0) as [Z0|Z0].
      + pose proof (at_least_sorted s (quantile a l) (p / 4) S I ltac:(rewrite (E Z0); lra)). lia.
      + destruct (H Z0) as (I1 & Q). pose proof (at_least_sorted s (quantile a l) (p / 4 + 1) S I1 Q). lia.
  Qed.
  Lemma quantile_mono a b l : (a <= b)%nat -> (b <= 3)%nat -> l <> [] -> quantile a l <= quantile b l.
  Proof.
    intros Hab Hb NE. destruct (quantile_between a l ltac:(lia) NE) as (_ & Ea & Ha & Ia). destruct (quantile_between b l Hb NE) as (Bb & Eb & Hb' & Ib).
    set (s := sort_real l) in *. set (pa := ((length l - 1) * a)%nat) in *. set (pb := ((length l - 1) * b)%nat) in *.
    assert (Hp : (pa <= pb)%nat) by (unfold pa, pb; nia). pose proof (sort_real_sorted l) as S. fold s in S.
    pose proof (Nat.div_mod pa 4 ltac:(lia)) as DMa. pose proof (Nat.div_mod pb 4 ltac:(lia)) as DMb.
    pose proof (Nat.mod_upper_bound pa 4 ltac:(lia)) as MBa. pose proof (Nat.mod_upper_bound pb 4 ltac:(lia)) as MBb.
    destruct (Nat.eq_dec (pa / 4) (pb / 4)) as [Q|Q].
    - unfold quantile. fold s. fold pa. fold pb. rewrite <- Q. set (lo := nth (pa / 4) s 0). apply Rplus_le_compat_l.
      assert (O : 0 <= nth (pa / 4 + 1) s lo - lo).
      { destruct (Nat.lt_ge_cases (pa / 4 + 1) (length s)) as [I1|I1]; [|rewrite nth_overflow by exact I1; lra].
        rewrite (nth_indep s lo 0 I1). assert (lo <= nth (pa / 4 + 1) s 0) by (apply sorted_nth; [exact S|lia|exact I1]). lra. }
      apply Rmult_le_compat_l; [exact O|]. assert (INR (pa mod 4) <= INR (pb mod 4)) by (apply le_INR; lia). lra.
    - assert (Q' : (pa / 4 + 1 <= pb / 4)%nat) by lia. apply Rle_trans with (nth (pb / 4) s 0); [|exact Bb].
      destruct (Nat.eq_dec (pa mod 4) 0) as [Z0|Z0]; [rewrite (Ea Z0); apply sorted_nth; [exact S|lia|exact Ib]|].
      destruct (Ha Z0) as (I1 & Qa). apply Rle_trans with (1 := Qa). apply sorted_nth; [exact S|lia|exact Ib].
  Qed.
  Lemma rsum_bounds l m M : Forall (fun x => m <= x <= M) l -> INR (length l) * m <= rsum l <= INR (length l) * M.
  Proof. induction 1 as [|x l H F IH]; [cbn; lra|]. cbn [rsum fold_right length] in *. rewrite S_INR. unfold rsum in IH. lra. Qed.
  Lemma mean_bounds l m M : l <> [] -> Forall (fun x => m <= x <= M) l -> m <= mean l <= M.
  Proof.
    intros NE F. apply rsum_bounds in F. assert (0 < INR (length l)) by (apply lt_0_INR; destruct l; [congruence|cbn; lia]). unfold mean.
    split; apply Rmult_le_reg_r with (INR (length l)); try assumption; unfold Rdiv; rewrite Rmult_assoc, Rinv_l by lra; lra.
  Qed.
  Lemma weighted_bounds l m M : l <> [] -> Forall (fun p => m <= fst p <= M /\ (0 < snd p)%Z) l -> m <= weighted l <= M.
  Proof.
    intros NE F. assert (G : 0 <= rsum (map (fun p => IZR (snd p)) l) /\ (l <> [] -> 0 < rsum (map (fun p => IZR (snd p)) l)) /\
      rsum (map (fun p => IZR (snd p)) l) * m <= rsum (map (fun p => fst p * IZR (snd p)) l) <= rsum (map (fun p => IZR (snd p)) l) * M).
    { clear NE. induction F as [|p l (B & W) F IH]; [cbn; split; [lra|split; [congruence|lra]]|]. cbn [map rsum fold_right]. unfold rsum in IH. destruct IH as (P & _ & L & U).
      apply IZR_lt in W. assert (IZR (snd p) * m <= fst p * IZR (snd p)) by (rewrite (Rmult_comm (fst p)); apply Rmult_le_compat_l; lra).
      assert (fst p * IZR (snd p) <= IZR (snd p) * M) by (rewrite (Rmult_comm (fst p)); apply Rmult_le_compat_l; lra).
      split; [lra|]. split; [intros _; lra|]. lra. }
    destruct G as (_ & P & L & U). specialize (P NE). unfold weighted.
    split; apply Rmult_le_reg_r with (rsum (map (fun p => IZR (snd p)) l)); try assumption; unfold Rdiv; rewrite Rmult_assoc, Rinv_l by lra; lra.
  Qed.
  (** the box of a nonempty group: its number of rows; minimum and maximum are values of the group and bound all of them; the quartiles
      are ordered between them and have their share of the values on each side; mean and weighted mean are between the bounds *)
  Theorem C106_boxes key (g : list row) s : g <> [] ->
    let b := box_of key g in let f := b_stats b s in let l := map (fun w => w_stat w s) g in
    b_n b = length g /\ In (b_min f) l /\ In (b_max f) l /\ (forall x, In x l -> b_min f <= x <= b_max f) /\
    b_min f <= b_q25 f <= b_q50 f /\ b_q50 f <= b_q75 f <= b_max f /\ b_min f <= b_mean f <= b_max f /\
    (length g - 1 < 4 * at_most (b_q25 f) l /\ 3 * (length g - 1) < 4 * at_least (b_q25 f) l)%nat /\
    (length g - 1 < 2 * at_most (b_q50 f) l /\ length g - 1 < 2 * at_least (b_q50 f) l)%nat /\
    (3 * (length g - 1) < 4 * at_most (b_q75 f) l /\ length g - 1 < 4 * at_least (b_q75 f) l)%nat /\
    forall m M, (forall w, In w g -> m <= w_stat w Mu <= M /\ (0 < w_nsamples w)%Z) -> m <= b_mu b <= M.
  Proof.
    intros NE b f l. assert (NL : l <> []) by (unfold l; destruct g; [congruence|discriminate]). assert (LL : length l = length g) by apply map_length.
    unfold f, b, box_of. cbn [b_stats b_n b_mu]. fold l. unfold five_of. cbn [b_min b_q25 b_q50 b_q75 b_max b_mean].
    pose proof (sort_real_perm l) as P. pose proof (Permutation_length P) as Ls. pose proof (sort_real_sorted l) as S. set (s' := sort_real l) in *.
    assert (L0 : (0 < length s')%nat) by (rewrite Ls; destruct l; [congruence|cbn; lia]).
    assert (Eh : hd 0 s' = nth 0 s' 0) by (destruct s'; reflexivity).
    assert (El : last s' 0 = nth (length s' - 1) s' 0).
    { clear - L0. destruct (exists_last (l := s')) as (k & x & ->); [destruct s'; [cbn in L0; lia|discriminate]|]. rewrite last_last, app_length. cbn. rewrite app_nth2 by lia. replace (length k + 1 - 1 - length k)%nat with 0%nat by lia. reflexivity. }
    assert (B : forall x, In x l -> hd 0 s' <= x <= last s' 0).
    { intros x Hx. apply (Permutation_in _ (Permutation_sym P)) in Hx. apply (In_nth _ _ 0) in Hx. destruct Hx as (i & Hi & <-). rewrite Eh, El. split; apply sorted_nth; (exact S || lia). }
    split; [reflexivity|]. split; [rewrite Eh; apply (Permutation_in _ P), nth_In; lia|]. split; [rewrite El; apply (Permutation_in _ P), nth_In; lia|]. split; [exact B|].
    assert (Q0 : hd 0 s' <= quantile 1 l).
    { destruct (quantile_between 1 l ltac:(lia) NL) as (Q & _ & _ & I). fold s' in Q, I. rewrite Eh. eapply Rle_trans; [|exact Q]. apply sorted_nth; [exact S|lia|exact I]. }
    assert (Q4 : quantile 3 l <= last s' 0).
    { destruct (quantile_between 3 l ltac:(lia) NL) as (_ & E & H & I). fold s' in E, H, I. rewrite El. destruct (Nat.eq_dec (((length l - 1) * 3) mod 4) 0) as [Z0|Z0].
      - rewrite (E Z0). apply sorted_nth; [exact S|lia|lia].
      - destruct (H Z0) as (I1 & Q). eapply Rle_trans; [exact Q|]. apply sorted_nth; [exact S|lia|lia]. }
    pose proof (quantile_mono 1 2 l ltac:(lia) ltac:(lia) NL). pose proof (quantile_mono 2 3 l ltac:(lia) ltac:(lia) NL).
    split; [lra|]. split; [lra|]. split; [apply mean_bounds; [exact NL|apply Forall_forall; exact B]|].
    pose proof (quantile_counts 1 l ltac:(lia) NL) as K1. pose proof (quantile_counts 2 l ltac:(lia) NL) as K2. pose proof (quantile_counts 3 l ltac:(lia) NL) as K3. rewrite LL in *.
    split; [lia|]. split; [lia|]. split; [lia|].
    intros m M H'. apply weighted_bounds; [destruct g; [congruence|discriminate]|]. apply Forall_forall. intros p Hp. apply in_map_iff in Hp. destruct Hp as (w & <- & Hw). exact (H' w Hw).
  Qed.
End Boxes.
Print Assumptions C106_boxes.
(** labels of at most 39 characters are shown as they are; longer ones by 39 characters *)
Theorem C106_labels key : ((length key <= 39)%nat -> short key = key) /\
  ((39 < length key)%nat -> exists a m b, key = a ++ m ++ b /\ short key = a ++ bytes "[...]" ++ b /\ length a = 17%nat /\ length b = 17%nat).
Proof.
  unfold short. split; intros H; destruct (Nat.ltb_spec 39 (length key)); try lia; [reflexivity|].
  exists (firstn 17 key), (firstn (length key - 34) (skipn 17 key)), (skipn (length key - 17) key). split; [|split; [reflexivity|rewrite firstn_length, skipn_length; lia]].
  rewrite <- (firstn_skipn 17 key) at 1. f_equal. rewrite <- (firstn_skipn (length key - 34) (skipn 17 key)) at 1. f_equal.
  assert (G : forall (l : text) a b, skipn a (skipn b l) = skipn (b + a) l).
  { clear. induction l as [|x l IH]; intros a b; [rewrite !skipn_nil; reflexivity|]. destruct b as [|b]; [reflexivity|]. cbn. apply IH. }
  rewrite G. f_equal. lia.
Qed.
Print Assumptions C106_labels.
Definition long_name (c : Z) : text := repeat 97 20 ++ [c] ++ repeat 98 20.
(** two variables with long names get the same label, and so the same place on the axis *)
Theorem C106_labels_refuted : exists rows, let boxes := groups rows FVar FBackend (bytes "ieee") in
  NoDup (map w_var rows) /\ length boxes = 2%nat /\ ~ NoDup (map b_label boxes).
Proof.
  exists (map (fun c => mk_row (bytes "t") (long_name c) (bytes "ieee") 1 true false 3 (fun _ => 0%R)) [120; 121]). cbv zeta.
  split; [vm_compute; repeat constructor; cbn; intuition discriminate|]. split; [vm_compute; reflexivity|].
  assert (E : map b_label (groups (map (fun c => mk_row (bytes "t") (long_name c) (bytes "ieee") 1 true false 3 (fun _ => 0%R)) [120; 121]) FVar FBackend (bytes "ieee")) =
    [short (long_name 120); short (long_name 121)]) by reflexivity.
  rewrite E. replace (short (long_name 121)) with (short (long_name 120)) by (vm_compute; reflexivity). intros N. inversion N as [|? ? H]. apply H. left. reflexivity.
Qed.
Print Assumptions C106_labels_refuted.
(** the selection of a run without data of non-deterministic backends raises, in every state *)
Theorem C106_empty_run_refuted runs data v r : NoDup (map snd runs) -> consistent runs data v -> In r runs -> snd r <> v_name v ->
  (forall w, In w data -> w_time w <> m_time (fst r)) -> step runs data v (SelectRun (snd r)) = Raise.
Proof.
  intros N (g & f & _ & _ & _ & Ef & _) Hr D E. cbn [step]. destruct (text_eqb_spec (snd r) (v_name v)); [contradiction|].
  rewrite (proj1 (C101_selectors runs N) r Hr). cbn [pbind]. unfold update_options, nth_py. cbn [v_labels v_filterby v_data v_value]. rewrite Ef. cbn [pbind].
  replace (of_run data (m_time (fst r))) with (@nil row); [reflexivity|]. symmetry. apply filter_none. apply Forall_forall. intros w Hw. apply Z.eqb_neq. auto.
Qed.
Print Assumptions C106_empty_run_refuted.
(** the boxes are to be filtered by their maximum and then by their minimum, but the minimum never counts: boxes with equal maxima all
    stay, also one whose minimum is an outlier *)
Lemma detect_constant c n : c <> 0%R -> detect_outliers (repeat c n) = repeat true n.
Proof.
  intros Hc. unfold detect_outliers. rewrite repeat_length. destruct (Nat.leb_spec n 2) as [|H]; [reflexivity|].
  assert (S : forall m, rsum (repeat c m) = (INR m * c)%R).
  { induction m as [|m IH]; [cbn; lra|]. rewrite S_INR. cbn [repeat rsum fold_right]. unfold rsum in IH. rewrite IH. lra. }
  assert (Hn : INR n <> 0%R) by (apply not_0_INR; lia).
  assert (M : mean (repeat c n) = c) by (unfold mean; rewrite S, repeat_length; field; exact Hn).
  assert (D : std (repeat c n) = 0%R).
  { unfold std. rewrite M. replace (rsum _) with 0%R; [unfold Rdiv; rewrite Rmult_0_l; apply sqrt_0|].
    clear. induction n as [|n IH]; cbn [repeat map rsum fold_right]; [reflexivity|]. unfold rsum in IH. rewrite <- IH. ring. }
  destruct (Req_EM_T (std (repeat c n)) 0%R); [|contradiction]. clear - Hc. induction n as [|n IH]; cbn; [reflexivity|]. destruct (Req_EM_T c 0); [contradiction|]. rewrite IH. reflexivity.
Qed.
Lemma remove_none {A} (l : list A) : remove_outliers l (repeat true (length l)) = l.
Proof. induction l as [|x l IH]; cbn; [reflexivity|]. rewrite IH. reflexivity. Qed.
Definition m_box (m : R) : box := mk_box [] 2 0%R (fun _ => mk_five m m m m 12%R m).
Theorem C106_minimum_refuted :
  (forall s c l, c <> 0%R -> (forall b, In b l -> b_max (b_stats b s) = c) -> boxplot true s l = l) /\
  exists l, (forall b s, In b l -> (b_min (b_stats b s) <= b_max (b_stats b s))%R) /\
    forall s, detect_outliers (map (fun b => b_min (b_stats b s)) l) = false :: repeat true 10 /\ boxplot true s l = l.
Proof.
  assert (G : forall s c l, c <> 0%R -> (forall b, In b l -> b_max (b_stats b s) = c) -> boxplot true s l = l).
  { intros s c l Hc H. assert (E : map (fun b => b_max (b_stats b s)) l = repeat c (length l)).
    { induction l as [|b l IH]; cbn; [reflexivity|]. rewrite (H b (or_introl eq_refl)), IH; [reflexivity|]. intros; apply H; right; assumption. }
    unfold boxplot, remove_boxplot_outliers. cbv zeta. rewrite E, (detect_constant c _ Hc), !remove_none, E, (detect_constant c _ Hc), remove_none. reflexivity. }
  split; [exact G|]. exists (map m_box eleven). split.
  - intros b s Hb. apply in_map_iff in Hb. destruct Hb as (m & <- & Hm). cbn. unfold eleven in Hm. cbn in Hm. repeat destruct Hm as [<- | Hm]; try lra.
  - intros s. split.
    + rewrite map_map. cbn [m_box b_stats b_min]. rewrite map_id. exact (proj1 C103_nonvacuous).
    + apply (G s 12%R); [lra|]. intros b Hb. apply in_map_iff in Hb. destruct Hb as (m & <- & _). reflexivity.
Qed.
Print Assumptions C106_minimum_refuted.
Definition i_meta (t : Z) (n : string) : named := (mk_meta t [] [] [], bytes n).
Definition i_runs : list named := [i_meta 1 "2 hours ago"; i_meta 2 "1 hour ago"].
Definition i_row (v b : string) (t : Z) : row := mk_row (bytes "t") (bytes v) (bytes b) t true false 3 (fun _ => 1%R).
Definition i_data : list row := [i_row "x" "mca" 1; i_row "y" "mca" 1; i_row "x" "rr" 2; i_row "z" "rr" 2].
Example C106_nonvacuous : NoDup (map snd i_runs) /\ i_runs <> [] /\ (forall r, In r i_runs -> exists w, In w i_data /\ w_time w = m_time (fst r)) /\
  match (do v <- start i_runs i_data; play i_runs i_data v [SelectRun (bytes "2 hours ago"); SelectGroup 1; SelectFilter (bytes "y")]) with
  | Ret v => v_name v = bytes "2 hours ago" /\ v_value v = bytes "y" /\ map b_label (v_shown v) = [bytes "mca"] /\ map b_n (v_shown v) = [1%nat]
  | _ => False
  end.
Proof.
  split; [vm_compute; repeat constructor; cbn; intuition discriminate|]. split; [discriminate|]. split.
  - intros r [<- | [<- | []]]; [exists (i_row "x" "mca" 1)|exists (i_row "x" "rr" 2)]; split; cbn; tauto.
  - vm_compute. repeat split.
Qed.

(** * C107 *)
Definition last_checks (name : text) (es : list select) : text := fold_left (fun d e => match e with SelectChecks n => n | _ => d end) es name.
Definition last_deterministic (name : text) (es : list select) : text := fold_left (fun d e => match e with SelectDeterministic n => n | _ => d end) es name.
Definition select_name (e : select) : text := match e with SelectChecks n | SelectDeterministic n => n end.
(** the rows of a run that have a check *)
Definition checks_of (rows : list row) (r : named) : list row := filter (fun w => (w_time w =? m_time (fst r)) && w_checked w) rows.
Section Checks.
  Variables (before : list named) (latest : named) (data det : list row).
  Let runs := before ++ [latest].
  Hypothesis names : NoDup (map snd runs).
  Lemma checked_eq rows r : checked rows (m_time (fst r)) = checks_of rows r.
  Proof. unfold checked, of_run, checks_of. apply filter_filter. Qed.
  Lemma start_checks_eq : start_checks runs data det = Ret (mk_k (snd latest) (snd latest) (m_time (fst latest)) (checks_of data latest) (checks_of det latest)).
  Proof.
    unfold start_checks. rewrite (proj2 (C101_selectors runs names)). unfold from_end, runs at 1. rewrite map_app, rev_app_distr. cbn [map rev app Nat.sub nth_error pbind].
    rewrite (proj1 (C101_selectors runs names) latest) by (apply in_or_app; right; left; reflexivity). cbn [pbind]. rewrite !checked_eq. reflexivity.
  Qed.
  Lemma play_checks_ok es : forall k, (forall e, In e es -> In (select_name e) (map snd runs)) ->
    (exists r, In r runs /\ snd r = k_name k /\ k_table k = checks_of data r) -> k_current k = m_time (fst latest) -> k_det_table k = checks_of det latest ->
    exists k', play_checks runs data det k es = Ret k' /\ k_name k' = last_checks (k_name k) es /\ k_det_name k' = last_deterministic (k_det_name k) es /\
      (exists r, In r runs /\ snd r = k_name k' /\ k_table k' = checks_of data r) /\ k_det_table k' = checks_of det latest.
  Proof.
    induction es as [|e es IH]; intros k P T C D; [exists k; repeat split; assumption|]. cbn [play_checks].
    assert (G : exists k1, step_checks runs data det k e = Ret k1 /\ k_name k1 = last_checks (k_name k) [e] /\ k_det_name k1 = last_deterministic (k_det_name k) [e] /\
      (exists r, In r runs /\ snd r = k_name k1 /\ k_table k1 = checks_of data r) /\ k_current k1 = m_time (fst latest) /\ k_det_table k1 = checks_of det latest).
    { pose proof (P e (or_introl eq_refl)) as He. apply in_map_iff in He. destruct He as (r & Er & Hr). destruct e as [n|n]; cbn [select_name step_checks] in *; subst n.
      - destruct (text_eqb_spec (snd r) (k_name k)) as [E|E]; [exists k; repeat split; try assumption; symmetry; exact E|].
        rewrite (proj1 (C101_selectors runs names) r Hr). cbn [pbind]. eexists. split; [reflexivity|]. cbn. repeat split; try assumption. exists r. repeat split; [exact Hr|apply checked_eq].
      - destruct (text_eqb_spec (snd r) (k_det_name k)) as [E|E]; [exists k; repeat split; try assumption; symmetry; exact E|].
        rewrite (proj1 (C101_selectors runs names) r Hr). cbn [pbind]. eexists. split; [reflexivity|]. cbn. repeat split; try assumption. rewrite C. apply checked_eq. }
    destruct G as (k1 & E1 & N1 & D1 & T1 & C1 & DT1). rewrite E1. cbn [pbind].
    destruct (IH k1) as (k' & E & N & Dn & T' & DT); try assumption; [intros; apply P; right; assumption|].
    exists k'. rewrite N1 in N. rewrite D1 in Dn. auto.
  Qed.
  (** after every history of selections: the table of non-deterministic checks has exactly the rows with a check of the run selected
      last (at first the most recent one) *)
  Theorem C107_table_partial es : (forall e, In e es -> In (select_name e) (map snd runs)) ->
    exists k0 k r, start_checks runs data det = Ret k0 /\ play_checks runs data det k0 es = Ret k /\
      In r runs /\ snd r = last_checks (snd latest) es /\ k_name k = snd r /\ k_table k = checks_of data r.
  Proof.
    intros P. rewrite start_checks_eq. set (k0 := mk_k _ _ _ _ _).
    destruct (play_checks_ok es k0 P) as (k' & E & N & _ & (r & Hr & Er & T) & _); [|reflexivity|reflexivity|].
    - exists latest. split; [apply in_or_app; right; left; reflexivity|split; reflexivity].
    - cbn [k0 k_name] in N. exists k0, k', r. repeat split; try assumption; congruence.
  Qed.
  (** the table of deterministic checks is always that of the most recent run, whatever run is selected *)
  Theorem C107_deterministic_refuted es : (forall e, In e es -> In (select_name e) (map snd runs)) ->
    exists k0 k, start_checks runs data det = Ret k0 /\ play_checks runs data det k0 es = Ret k /\
      k_det_name k = last_deterministic (snd latest) es /\ k_det_table k = checks_of det latest.
  Proof.
    intros P. rewrite start_checks_eq. set (k0 := mk_k _ _ _ _ _).
    destruct (play_checks_ok es k0 P) as (k' & E & _ & N & _ & T); [|reflexivity|reflexivity|].
    - exists latest. split; [apply in_or_app; right; left; reflexivity|split; reflexivity].
    - exists k0, k'. repeat split; assumption.
  Qed.
End Checks.
Print Assumptions C107_table_partial.
Print Assumptions C107_deterministic_refuted.
(** a click on a point of the deterministic comparison raises for every run *)
Theorem C107_click_refuted runs data det k name : switch_view runs data det k name = Raise.
Proof. unfold switch_view. replace (existsb _ check_widgets) with false by (vm_compute; reflexivity). reflexivity. Qed.
Print Assumptions C107_click_refuted.
Definition c_row (t : Z) (c : bool) : row := mk_row (bytes "t") (bytes "v") (bytes "ieee") t true c 1 (fun _ => 0%R).
(** a history in which the run that is selected has checks and others are shown *)
Example C107_nonvacuous : let data := [c_row 1 true; c_row 1 false; c_row 2 true] in
  exists k, play_checks i_runs data data (mk_k (bytes "1 hour ago") (bytes "1 hour ago") 2 (checks_of data (i_meta 2 "1 hour ago")) (checks_of data (i_meta 2 "1 hour ago")))
    [SelectChecks (bytes "2 hours ago"); SelectDeterministic (bytes "2 hours ago")] = Ret k /\
  k_table k = [c_row 1 true] /\ k_det_name k = bytes "2 hours ago" /\ k_det_table k = [c_row 2 true].
Proof. cbv zeta. eexists. split; [vm_compute; reflexivity|]. vm_compute. repeat split. Qed.
