(** Proofs: grouping of the samples, warnings, deterministic checks. *)
From Coq Require Import String ZArith List Bool Lia Permutation.
From Coq Require Import Reals Lra.
From Flocq Require Import Core.
From Verif Require Import Common Text Bits BitsFacts FloatReal FloatValue FloatOps DDModel ProbesModel CiModel CiHex.
Import ListNotations.
Open Scope Z_scope.
Open Scope py_scope.

(** ** Vocabulary: what the executions leave *)
Definition rows_of (numeric : list Z -> option Z) (file : list Z) : list prow :=
  match read_probes numeric file with Ret (_, rows) => rows | _ => [] end.
Definition same_name (test var : cell) (r : prow) : bool :=
  (if cell_eq_dec (p_test r) test then true else false) && (if cell_eq_dec (p_var r) var then true else false).
(** all the rows of a variable of a test under a backend, in the order of the executions *)
Definition probe_history (numeric : list Z -> option Z) (ts : list task) (test var : cell) (backend : list Z) : list prow :=
  flat_map (fun t => if text_eqb (t_backend t) backend then
                       match t_job t with
                       | Repeated files => flat_map (fun f => filter (same_name test var) (rows_of numeric f)) files
                       | Single _ _ => []
                       end
                     else []) ts.

Lemma text_eqb_eq a b : text_eqb a b = true <-> a = b.
Proof. unfold text_eqb. destruct (list_eq_dec Z.eq_dec a b); split; congruence. Qed.

Section runs.
  Context (numeric : list Z -> option Z) (vsum : list Z -> Z).
  Notation rows_of := (rows_of numeric).

  Lemma zip5_nil a b c d e n : length a = n -> length b = n -> length c = n -> length d = n -> length e = n -> (zip5 a b c d e = [] <-> n = O).
  Proof.
    intros Ha Hb Hc Hd He. split; [|intros ->; destruct a; [reflexivity|discriminate]].
    intros H. destruct n as [|n]; [reflexivity|]. destruct a, b, c, d, e; discriminate.
  Qed.
  Lemma pmap_length {A B} (f : A -> py B) l ys : pmap f l = Ret ys -> length ys = length l.
  Proof.
    revert ys. induction l as [|x l IH]; intros ys; cbn [pmap]; [intros [= <-]; reflexivity|].
    destruct (f x); cbn [pbind]; try discriminate. destruct (pmap f l); cbn [pbind]; try discriminate. intros [= <-]. cbn. rewrite IH; reflexivity.
  Qed.
  Lemma column_length fr name l : column numeric fr name = Ret l -> length l = length (snd fr).
  Proof.
    unfold column. destruct (index_of name (fst fr)); [|discriminate]. intros [= <-]. unfold infer. rewrite !map_length. reflexivity.
  Qed.

  (** a warning is recorded exactly when no record was read *)
  Lemma read_warning file w rows : read_probes numeric file = Ret (w, rows) -> (w = true <-> rows = []).
  Proof.
    unfold read_probes. destruct (read_csv file) as [fr|]; [|intros [= <- <-]; tauto].
    destruct (column numeric fr (bytes "value")) as [c1| | |] eqn:E1; cbn [pbind]; try discriminate.
    destruct (pmap fromhex_cell c1) as [v1| | |] eqn:P1; cbn [pbind]; try discriminate.
    destruct (column numeric fr (bytes "accuracy_threshold")) as [c2| | |] eqn:E2; cbn [pbind]; try discriminate.
    destruct (pmap fromhex_cell c2) as [v2| | |] eqn:P2; cbn [pbind]; try discriminate.
    destruct (column numeric fr (bytes "test")) as [c3| | |] eqn:E3; cbn [pbind]; try discriminate.
    destruct (column numeric fr (bytes "variable")) as [c4| | |] eqn:E4; cbn [pbind]; try discriminate.
    destruct (column numeric fr (bytes "check_mode")) as [c5| | |] eqn:E5; cbn [pbind]; try discriminate.
    intros [= <- <-]. apply pmap_length in P1, P2. apply column_length in E1, E2, E3, E4, E5.
    rewrite (zip5_nil _ _ _ _ _ (length (snd fr))) by congruence. destruct (snd fr); cbn; split; congruence.
  Qed.
  Lemma read_rows file w rows : read_probes numeric file = Ret (w, rows) -> rows = rows_of file.
  Proof. intros H. unfold CiRuns.rows_of. rewrite H. reflexivity. Qed.

  (** ** The rows of the repeated executions *)
  Definition nd_rows (ts : list task) : list nrow :=
    flat_map (fun t => match t_job t with
                       | Repeated files => flat_map (fun f => map (fun r => (r, t_backend t)) (rows_of f)) files
                       | Single _ _ => [] end) ts.
  Definition silent (file : list Z) : bool := match rows_of file with [] => true | _ => false end.
  Fixpoint rep_warnings (t : task) (i : Z) (files : list (list Z)) : list warning :=
    match files with
    | [] => []
    | f :: files' => (if silent f then [(t_exe t, t_backend t, i)] else []) ++ rep_warnings t (i + 1) files'
    end.

  Lemma repetitions_spec t : forall files i ns ws, run_repetitions numeric t i files = Ret (ns, ws) ->
    ns = flat_map (fun f => map (fun r => (r, t_backend t)) (rows_of f)) files /\ ws = rep_warnings t i files /\
    Forall (fun f => exists w rows, read_probes numeric f = Ret (w, rows)) files.
  Proof.
    induction files as [|f files IH]; intros i ns ws; cbn [run_repetitions].
    - intros [= <- <-]. repeat split. constructor.
    - destruct (read_probes numeric f) as [[w rows]| | |] eqn:R; cbn [pbind]; try discriminate.
      destruct (run_repetitions numeric t (i + 1) files) as [[rest ws']| | |] eqn:E; cbn [pbind]; try discriminate.
      intros [= <- <-]. destruct (IH _ _ _ E) as (-> & -> & F). pose proof (read_rows _ _ _ R) as ->. pose proof (read_warning _ _ _ R) as W.
      cbn [flat_map rep_warnings]. split; [reflexivity|]. split; [|constructor; eauto]. f_equal. unfold silent.
      destruct w; [rewrite (proj1 W eq_refl); reflexivity|]. destruct (rows_of f); [destruct W as [_ W]; discriminate (W eq_refl)|reflexivity].
  Qed.

  Lemma run_all_rows ts ns ds ws : run_all numeric vsum ts = Ret (ns, ds, ws) -> ns = nd_rows ts.
  Proof.
    revert ns ds ws. induction ts as [|t ts IH]; intros ns ds ws; cbn [run_all]; [intros [= <- _ _]; reflexivity|].
    destruct (t_job t) as [files|file rf] eqn:J.
    - destruct (run_repetitions numeric t 1 files) as [[n w]| | |] eqn:E; cbn [pbind]; try discriminate.
      destruct (run_all numeric vsum ts) as [[[n' d'] w']| | |] eqn:E'; cbn [pbind]; try discriminate. intros [= <- _ _].
      unfold nd_rows. cbn [flat_map]. rewrite J. rewrite (IH _ _ _ eq_refl). apply repetitions_spec in E as (-> & _). reflexivity.
    - destruct (run_deterministic numeric vsum t file rf) as [[d w]| | |] eqn:E; cbn [pbind]; try discriminate.
      destruct (run_all numeric vsum ts) as [[[n' d'] w']| | |] eqn:E'; cbn [pbind]; try discriminate. intros [= <- _ _].
      unfold nd_rows. cbn [flat_map]. rewrite J. rewrite (IH _ _ _ eq_refl). reflexivity.
  Qed.

  (** the rows with a given key are the history of the variable *)
  Definition with_key (k : key) (r : nrow) : bool := if key_eq_dec (nkey r) k then true else false.
  Lemma with_key_spec test var b r b' : with_key (test, var, b) (r, b') = same_name test var r && text_eqb b' b.
  Proof.
    unfold with_key, nkey, same_name. cbn [fst snd]. destruct (key_eq_dec _ _) as [E|E].
    - injection E as E1 E2 ->. destruct (cell_eq_dec (p_test r) test), (cell_eq_dec (p_var r) var); try congruence. symmetry. apply text_eqb_eq. reflexivity.
    - destruct (cell_eq_dec (p_test r) test), (cell_eq_dec (p_var r) var); try reflexivity. cbn [andb]. symmetry. apply not_true_iff_false.
      rewrite text_eqb_eq. congruence.
  Qed.
  Lemma filter_map {A B} (f : A -> B) (p : B -> bool) l : filter p (map f l) = map f (filter (fun x => p (f x)) l).
  Proof. induction l as [|x l IH]; cbn; [reflexivity|]. rewrite IH. destruct (p (f x)); reflexivity. Qed.
  Lemma filter_flat_map {A B} (f : A -> list B) (p : B -> bool) l : filter p (flat_map f l) = flat_map (fun x => filter p (f x)) l.
  Proof. induction l as [|x l IH]; cbn [flat_map filter]; [reflexivity|]. rewrite filter_app, IH. reflexivity. Qed.
  Lemma map_flat_map {A B C} (f : A -> list B) (g : B -> C) l : map g (flat_map f l) = flat_map (fun x => map g (f x)) l.
  Proof. induction l as [|x l IH]; cbn [flat_map map]; [reflexivity|]. rewrite map_app, IH. reflexivity. Qed.
  Lemma filter_none {A} (p : A -> bool) l : (forall x, p x = false) -> filter p l = [].
  Proof. intros H. induction l as [|x l IH]; cbn; [reflexivity|]. rewrite H. exact IH. Qed.

  Lemma history_rows ts test var b : map fst (filter (with_key (test, var, b)) (nd_rows ts)) = probe_history numeric ts test var b.
  Proof.
    unfold nd_rows, probe_history. rewrite filter_flat_map, map_flat_map. apply flat_map_ext. intros t.
    destruct (t_job t) as [files|]; [|cbn; destruct (text_eqb (t_backend t) b); reflexivity].
    rewrite filter_flat_map, map_flat_map.
    destruct (text_eqb (t_backend t) b) eqn:E.
    - apply flat_map_ext. intros f. rewrite filter_map, map_map, map_id. apply filter_ext. intros r. rewrite with_key_spec, E. apply andb_true_r.
    - induction files as [|f files IH]; cbn [flat_map]; [reflexivity|]. rewrite IH, filter_map, map_map, app_nil_r.
      rewrite filter_none; [reflexivity|]. intros r. rewrite with_key_spec, E. apply andb_false_r.
  Qed.

  Lemma group_keys rows : map g_key (group rows) = filter (fun k => negb (key_na k)) (nodup key_eq_dec (map nkey rows)).
  Proof.
    unfold group. assert (H : forall k, In k (filter (fun k => negb (key_na k)) (nodup key_eq_dec (map nkey rows))) -> filter (with_key k) rows <> []).
    { intros k Hk. apply filter_In in Hk as [Hk _]. apply nodup_In, in_map_iff in Hk as (r & <- & Hr). intros E.
      assert (In r (filter (with_key (nkey r)) rows)) as I; [|rewrite E in I; exact I].
      apply filter_In. split; [exact Hr|]. unfold with_key. destruct (key_eq_dec (nkey r) (nkey r)) as [|NE]; [reflexivity|exfalso; apply NE; reflexivity]. }
    induction (filter (fun k => negb (key_na k)) (nodup key_eq_dec (map nkey rows))) as [|k ks IH]; [reflexivity|]. cbn [flat_map].
    rewrite map_app, IH by (intros k' Hk'; apply H; right; exact Hk').
    pose proof (H k (or_introl eq_refl)) as N. unfold with_key in N. destruct (filter _ rows); [congruence|]. reflexivity.
  Qed.
  Lemma group_in rows g : In g (group rows) -> exists first rest, filter (with_key (g_key g)) rows = first :: rest /\
    g_values g = map (fun r => p_val (fst r)) (first :: rest) /\ g_thr g = p_thr (fst first) /\ g_mode g = p_mode (fst first).
  Proof.
    unfold group. intros H. apply in_flat_map in H as (k & _ & H).
    destruct (filter (fun r => if key_eq_dec (nkey r) k then true else false) rows) as [|first rest] eqn:E; [destruct H|]. destruct H as [<- |[]].
    cbn [g_key g_values g_thr g_mode]. exists first, rest. unfold with_key. auto.
  Qed.

  Lemma nodup_same k (l : list key) : l <> [] -> Forall (eq k) l -> nodup key_eq_dec l = [k].
  Proof.
    intros Hne H. induction l as [|x l IH]; [congruence|]. inversion H; subst. cbn [nodup]. destruct (in_dec key_eq_dec x l) as [I|I].
    - apply IH; [destruct l; [destruct I|discriminate]|assumption].
    - destruct l as [|y l]; [reflexivity|]. exfalso. apply I. left. inversion H3; subst. reflexivity.
  Qed.
  Lemma group_same k rows first rest : rows = first :: rest -> Forall (fun r => nkey r = k) rows -> key_na k = false ->
    group rows = [mk_grow k (map (fun r => p_val (fst r)) rows) (p_thr (fst first)) (p_mode (fst first))].
  Proof.
    intros E H N. unfold group. rewrite (nodup_same k).
    2:{ rewrite E. discriminate. }
    2:{ apply List.Forall_forall. intros x Hx. apply in_map_iff in Hx as (r & <- & Hr). rewrite List.Forall_forall in H. symmetry. apply H. exact Hr. }
    cbn [filter]. rewrite N. cbn [negb flat_map].
    assert (F : filter (fun r => if key_eq_dec (nkey r) k then true else false) rows = rows).
    { clear E. induction rows as [|r rows IH]; [reflexivity|]. inversion H; subst. cbn [filter]. destruct (key_eq_dec (nkey r) (nkey r)); [|congruence]. f_equal. apply IH. assumption. }
    rewrite F. rewrite E at 1. rewrite E. reflexivity.
  Qed.

  Definition missing (c : cell) : bool := match c with CNA => true | _ => false end.
  Lemma key_na_spec test var b : key_na (test, var, b) = missing test || missing var.
  Proof. destruct test, var; reflexivity. Qed.

  Theorem tests_groups ts gs ds ws : run_tests numeric vsum ts = Ret (gs, ds, ws) ->
    NoDup (map g_key gs) /\
    (forall test var b, (exists g, In g gs /\ g_key g = (test, var, b)) <-> missing test = false /\ missing var = false /\ probe_history numeric ts test var b <> []) /\
    (forall g test var b, In g gs -> g_key g = (test, var, b) ->
       g_values g = map p_val (probe_history numeric ts test var b) /\
       exists first rest, probe_history numeric ts test var b = first :: rest /\ g_thr g = p_thr first /\ g_mode g = p_mode first).
  Proof.
    unfold run_tests. destruct (run_all numeric vsum ts) as [[[ns ds'] ws']| | |] eqn:E; cbn [pbind]; try discriminate.
    destruct (negb (has_frames ts)); [discriminate|]. intros [= <- <- <-]. apply run_all_rows in E. subst ns.
    split; [rewrite group_keys; apply NoDup_filter, NoDup_nodup|]. split.
    - intros test var b. split.
      + intros (g & Hg & Ek). assert (Hk : In (g_key g) (map g_key (group (nd_rows ts)))) by (apply in_map; exact Hg).
        rewrite group_keys, Ek in Hk. apply filter_In in Hk as [_ Hn]. rewrite key_na_spec in Hn. apply negb_true_iff, orb_false_elim in Hn as [H1 H2].
        split; [exact H1|]. split; [exact H2|]. destruct (group_in _ _ Hg) as (first & rest & F & _). rewrite <- history_rows, <- Ek, F. discriminate.
      + intros (H1 & H2 & H3). assert (Hk : In (test, var, b) (map g_key (group (nd_rows ts)))).
        { rewrite group_keys. apply filter_In. split; [|rewrite key_na_spec, H1, H2; reflexivity]. apply nodup_In.
          rewrite <- history_rows in H3. destruct (filter (with_key (test, var, b)) (nd_rows ts)) as [|r rs] eqn:F; [exfalso; apply H3; reflexivity|].
          assert (In r (filter (with_key (test, var, b)) (nd_rows ts))) as I by (rewrite F; left; reflexivity).
          apply filter_In in I as [I J]. unfold with_key in J. destruct (key_eq_dec (nkey r) (test, var, b)) as [<- |]; [apply in_map; exact I|discriminate]. }
        apply in_map_iff in Hk as (g & Ek & Hg). eauto.
    - intros g test var b Hg Ek. destruct (group_in _ _ Hg) as (first & rest & F & V & T & M). rewrite Ek in F.
      rewrite <- history_rows, F. rewrite map_map. split; [exact V|]. exists (fst first), (map fst rest). auto.
  Qed.

  (** ** Warnings *)
  Definition task_warnings (t : task) : list warning :=
    match t_job t with
    | Repeated files => rep_warnings t 1 files
    | Single file rf =>
        (if silent file then [(t_exe t, t_backend t, 1)] else []) ++
        (if negb (is_zero binary64 (vsum (map p_thr (rows_of file)))) && silent rf then [(t_exe t, reference_name, 1)] else [])
    end.

  Lemma silent_spec file w rows : read_probes numeric file = Ret (w, rows) -> silent file = w.
  Proof.
    intros R. pose proof (read_warning _ _ _ R) as W. rewrite (read_rows _ _ _ R) in W. unfold silent.
    destruct w; [rewrite (proj1 W eq_refl); reflexivity|]. destruct (rows_of file); [destruct W as [_ W]; discriminate (W eq_refl)|reflexivity].
  Qed.

  Lemma deterministic_cases t file rf ds ws : run_deterministic numeric vsum t file rf = Ret (ds, ws) ->
    ws = (if silent file then [(t_exe t, t_backend t, 1)] else []) ++
        (if negb (is_zero binary64 (vsum (map p_thr (rows_of file)))) && silent rf then [(t_exe t, reference_name, 1)] else []) /\
    length ds = length (rows_of file) /\
    forall i d, nth_error ds i = Some d -> exists row, nth_error (rows_of file) i = Some row /\ d_row d = row /\ d_backend d = t_backend t /\
      if is_zero binary64 (vsum (map p_thr (rows_of file))) then d_check d = true
      else d_ref d = nth_error (map p_val (rows_of rf)) i /\ validate row (d_ref d) = Ret (d_check d).
  Proof.
    unfold run_deterministic. destruct (read_probes numeric file) as [[w rows]| | |] eqn:R; cbn [pbind]; try discriminate.
    pose proof (silent_spec _ _ _ R) as Sw. pose proof (read_rows _ _ _ R) as ->. rewrite Sw. set (rows := rows_of file).
    destruct (is_zero binary64 (vsum (map p_thr rows))) eqn:Z0; cbn [negb andb].
    - intros [= <- <-]. rewrite app_nil_r, map_length. split; [reflexivity|]. split; [reflexivity|]. intros i d Hd. rewrite nth_error_map in Hd.
      destruct (nth_error rows i) as [row|]; [|discriminate]. cbn in Hd. injection Hd as <-. exists row. auto.
    - destruct (read_probes numeric rf) as [[w2 refs]| | |] eqn:R2; cbn [pbind]; try discriminate.
      pose proof (silent_spec _ _ _ R2) as ->. pose proof (read_rows _ _ _ R2) as ->.
      destruct (pmap _ _) as [ds'| | |] eqn:P; cbn [pbind]; try discriminate. intros [= <- <-]. split; [reflexivity|].
      split.
      + apply pmap_length in P. rewrite combine_length, seq_length, Nat.min_id in P. exact P.
      + set (refvals := map p_val (rows_of rf)) in *. intros i d Hd.
        assert (G : forall (l : list prow) k ds', pmap (fun ir : nat * prow => do c <- validate (snd ir) (nth_error refvals (fst ir));
           Ret (mk_drow (snd ir) (t_backend t) (nth_error refvals (fst ir)) c)) (combine (seq k (length l)) l) = Ret ds' ->
           forall i d, nth_error ds' i = Some d -> exists row, nth_error l i = Some row /\ d_row d = row /\ d_backend d = t_backend t /\ d_ref d = nth_error refvals (k + i) /\ validate row (d_ref d) = Ret (d_check d)).
        { clear. induction l as [|x l IH]; intros k ds' P i d Hd; cbn [length seq combine pmap] in P.
          - injection P as <-. destruct i; discriminate.
          - cbn [fst snd] in P. destruct (validate x (nth_error refvals k)) as [c| | |] eqn:V; cbn [pbind] in P; try discriminate.
            destruct (pmap _ _) as [ds2| | |] eqn:P2 in P; cbn [pbind] in P; try discriminate. injection P as <-.
            destruct i as [|i]; cbn [nth_error] in Hd.
            + injection Hd as <-. exists x. rewrite Nat.add_0_r. cbn. auto.
            + destruct (IH (S k) ds2 P2 i d Hd) as (row & H1 & H2 & H3 & H4 & H5). exists row. rewrite Nat.add_succ_r. cbn [nth_error]. auto. }
        destruct (G rows 0%nat ds' P i d Hd) as (row & H1 & H2 & H3 & H4 & H5). exists row. auto.
  Qed.

  Theorem tests_warnings ts gs ds ws : run_tests numeric vsum ts = Ret (gs, ds, ws) -> ws = flat_map task_warnings ts.
  Proof.
    unfold run_tests. destruct (run_all numeric vsum ts) as [[[ns ds'] ws']| | |] eqn:E; cbn [pbind]; try discriminate.
    destruct (negb (has_frames ts)); [discriminate|]. intros [= _ _ <-]. clear gs ds. revert ns ds' ws' E.
    induction ts as [|t ts IH]; intros ns ds' ws'; cbn [run_all]; [intros [= _ _ <-]; reflexivity|].
    cbn [flat_map]. unfold task_warnings at 1. destruct (t_job t) as [files|file rf] eqn:J.
    - destruct (run_repetitions numeric t 1 files) as [[n w]| | |] eqn:E; cbn [pbind]; try discriminate.
      destruct (run_all numeric vsum ts) as [[[n' d'] w']| | |] eqn:E'; cbn [pbind]; try discriminate. intros [= _ _ <-].
      rewrite (IH _ _ _ eq_refl). apply repetitions_spec in E as (_ & -> & _). reflexivity.
    - destruct (run_deterministic numeric vsum t file rf) as [[d w]| | |] eqn:E; cbn [pbind]; try discriminate.
      destruct (run_all numeric vsum ts) as [[[n' d'] w']| | |] eqn:E'; cbn [pbind]; try discriminate. intros [= _ _ <-].
      rewrite (IH _ _ _ eq_refl). apply deterministic_cases in E as (-> & _). reflexivity.
  Qed.
End runs.

(** ** Comparisons of magnitudes *)
Lemma code_code b : code binary64 (code binary64 b) = code binary64 b.
Proof. unfold code. apply Z.mod_mod. vm_compute. discriminate. Qed.
Lemma code_bits b : is_bits binary64 (code binary64 b).
Proof. pose proof (code_range binary64 b64_ok b). unfold is_bits. lia. Qed.
Lemma sgn_code b : sgn binary64 (code binary64 b) = 0.
Proof. unfold sgn. rewrite Z.div_small by apply (code_range binary64 b64_ok b). reflexivity. Qed.
Lemma expf_code_code b : expf binary64 (code binary64 b) = expf binary64 b.
Proof. rewrite (expf_code _ b64_ok (code binary64 b)), code_code, <- (expf_code _ b64_ok). reflexivity. Qed.
Lemma man_code_code b : man binary64 (code binary64 b) = man binary64 b.
Proof. rewrite (man_code _ b64_ok (code binary64 b)), code_code, <- (man_code _ b64_ok). reflexivity. Qed.
Lemma fabs_nan b : is_nan binary64 (fabs b) = is_nan binary64 b.
Proof. unfold is_nan, fabs. rewrite expf_code_code, man_code_code. reflexivity. Qed.
Lemma fabs_finite b : is_finite binary64 (fabs b) = is_finite binary64 b.
Proof. unfold is_finite, fabs. rewrite expf_code_code. reflexivity. Qed.
Lemma fabs_zero b : is_zero binary64 (fabs b) = is_zero binary64 b.
Proof. unfold is_zero, fabs. rewrite code_code. reflexivity. Qed.
Lemma fabs_val b : fval binary64 (fabs b) = Rabs (fval binary64 b).
Proof.
  rewrite (mval_abs _ b64_ok). rewrite (fval_mval _ b64_ok). unfold fabs. rewrite sgn_code. unfold signR. change (0 =? 1) with false.
  rewrite !(mval_cval _ b64_ok), code_code. reflexivity.
Qed.
Lemma flt_abs x t : is_nan binary64 x = false -> is_nan binary64 t = false -> flt (fabs x) (fabs t) = (code binary64 x <? code binary64 t).
Proof.
  intros Hx Ht. unfold flt. rewrite !fabs_nan, Hx, Ht. cbn [negb andb]. unfold order_key, fabs. rewrite !sgn_code, !code_code. reflexivity.
Qed.
Lemma flt_nan_l x t : is_nan binary64 x = true -> flt x t = false.
Proof. intros H. unfold flt. rewrite H. reflexivity. Qed.
Lemma flt_abs_real x t : is_finite binary64 x = true -> is_finite binary64 t = true ->
  (flt (fabs x) (fabs t) = true <-> (Rabs (fval binary64 x) < Rabs (fval binary64 t))%R).
Proof.
  intros Hx Ht. rewrite flt_abs by (apply finite_not_special; assumption). rewrite Z.ltb_lt, !(mval_abs _ b64_ok).
  pose proof (mval_le _ b64_ok t x) as M. destruct (Rlt_or_le (mval binary64 x) (mval binary64 t)) as [R|R].
  - split; [intros _; exact R|]. intros _. destruct (Z.lt_ge_cases (code binary64 x) (code binary64 t)) as [|C]; [assumption|]. apply M in C. lra.
  - apply M in R. split; [lia|]. intros. apply M in R. lra.
Qed.
Lemma inf_code_max x : is_nan binary64 x = false -> code binary64 x <= inf_code binary64.
Proof.
  intros H. destruct (is_finite binary64 x) eqn:F; [apply finite_code in F; [lia|exact b64_ok]|].
  unfold is_finite in F. apply negb_false_iff in F. unfold is_nan in H. rewrite F in H. cbn in H. apply negb_false_iff, Z.eqb_eq in H. apply Z.eqb_eq in F.
  rewrite (code_split _ b64_ok), F, H. unfold inf_code. lia.
Qed.
Lemma flt_inf s x t : s = 0 \/ s = 1 -> x = inf binary64 s -> flt (fabs x) (fabs t) = false.
Proof.
  intros Hs ->. destruct (is_nan binary64 t) eqn:N; [unfold flt; rewrite !fabs_nan, N; apply andb_false_intro1; apply andb_false_r|].
  rewrite flt_abs; [|apply inf_is_inf; [exact b64_ok|exact Hs]|exact N]. apply Z.ltb_ge.
  assert (code binary64 (inf binary64 s) = inf_code binary64) as -> by (destruct Hs as [-> | ->]; reflexivity). apply inf_code_max. exact N.
Qed.

(** the rounding of the reals to binary64 *)
Definition rd (x : R) : R := rnd (femin binary64) (mw binary64) x.
Notation dval64 := (fval binary64).
Definition overflow : R := b2 1024.

Lemma rd_ge_abs x t : is_finite binary64 t = true -> (Rabs (dval64 t) <= Rabs x)%R -> (Rabs (dval64 t) <= Rabs (rd x))%R.
Proof.
  intros Ht H. rewrite <- fabs_val in *. unfold rd, rnd. apply abs_round_ge_generic; [apply FLT_exp_valid; reflexivity|apply valid_rnd_N| |exact H].
  apply (generic_fval binary64 (fabs t) b64_ok).
Qed.

(** the difference of two finite doubles, compared to a finite one *)
Lemma encodes_compare X s y t : (s = 0 \/ s = 1) -> encodes binary64 (DFin s X) y -> is_finite binary64 t = true ->
  (flt (fabs y) (fabs t) = true <-> (Rabs (rd X) < Rabs (dval64 t))%R).
Proof.
  intros Hs [_ [E1 E2]] Ht. fold (rd X) in E1, E2. change (b2 (bias binary64 + 1)) with overflow in *.
  destruct (Rlt_or_le (Rabs (rd X)) overflow) as [O|O].
  - destruct (E1 O) as (F & V & _). rewrite flt_abs_real by assumption. rewrite V. tauto.
  - specialize (E2 O). rewrite (flt_inf (rsign s X) y t) by (try exact E2; apply rsign_01; exact Hs).
    split; [discriminate|]. intros L. rewrite (mval_abs _ b64_ok) in L. pose proof (mval_finite _ b64_ok t Ht) as M.
    change (b2 (bias binary64 + 1)) with overflow in M. lra.
Qed.

Lemma fsub_dec v x : is_bits binary64 v -> is_bits binary64 x -> is_finite binary64 v = true -> is_finite binary64 x = true ->
  exists s, (s = 0 \/ s = 1) /\ encodes binary64 (DFin s (dval64 v - dval64 x)) (fsub binary64 v x).
Proof.
  intros Bv Bx Fv Fx. pose proof (fsub_encodes binary64 v x b64_ok Bv Bx) as E. rewrite !dec_finite in E by assumption. cbn [dsub dneg dadd] in E.
  unfold dsub, dneg, dadd in E. eexists. split; [|exact E]. destruct (_ && _); auto.
Qed.

Lemma absolute_check row x : mode_is (p_mode row) "absolute" = true ->
  is_bits binary64 (p_val row) -> is_bits binary64 x -> is_finite binary64 (p_val row) = true -> is_finite binary64 x = true -> is_finite binary64 (p_thr row) = true ->
  exists b, validate row (Some x) = Ret b /\ (b = true <-> (Rabs (rd (dval64 (p_val row) - dval64 x)) < Rabs (dval64 (p_thr row)))%R).
Proof.
  intros Hm Bv Bx Fv Fx Ft. unfold validate. rewrite Hm. eexists. split; [reflexivity|].
  destruct (fsub_dec _ _ Bv Bx Fv Fx) as (s & Hs & E). apply (encodes_compare _ s); assumption.
Qed.
Lemma mode_exclusive m : mode_is m "relative" = true -> mode_is m "absolute" = false.
Proof. unfold mode_is. destruct m; try discriminate. rewrite text_eqb_eq. intros ->. reflexivity. Qed.
Lemma relative_check row x : mode_is (p_mode row) "relative" = true ->
  is_bits binary64 (p_val row) -> is_bits binary64 x -> is_finite binary64 (p_val row) = true -> is_finite binary64 x = true -> is_finite binary64 (p_thr row) = true ->
  if is_zero binary64 x then validate row (Some x) = Raise
  else exists b, validate row (Some x) = Ret b /\
    (b = true <-> (Rabs (rd (dval64 (p_val row) - dval64 x)) < overflow)%R /\
                  (Rabs (rd (Rabs (rd (dval64 (p_val row) - dval64 x)) / Rabs (dval64 x))) < Rabs (dval64 (p_thr row)))%R).
Proof.
  intros Hm Bv Bx Fv Fx Ft. unfold validate. rewrite Hm, (mode_exclusive _ Hm). destruct (is_zero binary64 x) eqn:Zx; [reflexivity|].
  eexists. split; [reflexivity|]. destruct (fsub_dec _ _ Bv Bx Fv Fx) as (s & Hs & E).
  set (y := fsub binary64 (p_val row) x) in *. set (D := (dval64 (p_val row) - dval64 x)%R) in *.
  assert (Y0 : dval64 (fabs x) <> 0%R).
  { intros H. rewrite <- fabs_zero, zero_fval in Zx by exact b64_ok. rewrite H in Zx. rewrite Raux.Req_bool_true in Zx by reflexivity. discriminate. }
  pose proof (fdiv_encodes binary64 (fabs y) (fabs x) b64_ok (code_bits y) (code_bits x)) as Q.
  rewrite (dec_finite _ (fabs x)) in Q by (rewrite fabs_finite; exact Fx).
  assert (N : flt (fdiv binary64 (fabs y) (fabs x)) (fabs (p_thr row)) = flt (fabs (fdiv binary64 (fabs y) (fabs x))) (fabs (p_thr row)) \/ True) by auto.
  clear N. destruct E as [_ [E1 E2]]. fold (rd D) in E1, E2. change (b2 (bias binary64 + 1)) with overflow in *.
  assert (S0 : forall q, is_bits binary64 q -> sgn binary64 q = 0 -> fabs q = q).
  { intros q Bq Sq. unfold fabs. rewrite (bits_split _ b64_ok q Bq) at 2. rewrite Sq. lia. }
  destruct (Rlt_or_le (Rabs (rd D)) overflow) as [O|O].
  - destruct (E1 O) as (F & V & _). rewrite (dec_finite _ (fabs y)) in Q by (rewrite fabs_finite; exact F).
    cbn [ddiv] in Q. rewrite Raux.Req_bool_false in Q by exact Y0. unfold fabs at 1 2 in Q. rewrite !sgn_code in Q. fold (fabs y) in Q. fold (fabs x) in Q.
    change (sxor 0 0) with 0 in Q. rewrite !fabs_val, V in Q.
    assert (P : (0 <= Rabs (rd D) / Rabs (dval64 x))%R).
    { rewrite fabs_val in Y0. apply Rmult_le_pos; [apply Rabs_pos|]. left. apply Rinv_0_lt_compat. pose proof (Rabs_pos (dval64 x)). lra. }
    assert (Sg : sgn binary64 (fdiv binary64 (fabs y) (fabs x)) = 0).
    { assert (RS : rsign 0 (Rabs (rd D) / Rabs (dval64 x)) = 0).
      { unfold rsign. destruct (Req_bool _ 0); [reflexivity|]. rewrite Rlt_bool_false by exact P. reflexivity. }
      destruct Q as [_ [Q1 Q2]]. change (b2 (bias binary64 + 1)) with overflow in *.
      destruct (Rlt_or_le (Rabs (rnd (femin binary64) (mw binary64) (Rabs (rd D) / Rabs (dval64 x)))) overflow) as [O'|O'].
      - destruct (Q1 O') as (_ & _ & ->). exact RS.
      - rewrite (Q2 O'), RS. reflexivity. }
    rewrite <- (S0 (fdiv binary64 (fabs y) (fabs x))) by (try exact Sg; apply Q).
    rewrite (encodes_compare _ 0 _ (p_thr row) (or_introl eq_refl) Q Ft). tauto.
  - specialize (E2 O). assert (R1 : rsign s D = 0 \/ rsign s D = 1) by (apply rsign_01; exact Hs).
    assert (Y1 : fabs y = inf binary64 0) by (rewrite E2; destruct R1 as [-> | ->]; reflexivity).
    rewrite Y1 in Q |- *. rewrite dec_inf in Q by (try exact b64_ok; auto). cbn [ddiv] in Q. unfold fabs at 1 in Q. rewrite sgn_code in Q.
    change (sxor 0 0) with 0 in Q. destruct Q as [_ Q]. 
    assert (A : fdiv binary64 (inf binary64 0) (fabs x) = fabs (inf binary64 0)) by (rewrite Q; reflexivity).
    rewrite A, (flt_inf 0 (inf binary64 0)) by auto. split; [discriminate|]. intros [L _]. lra.
Qed.

(** ** Sums of thresholds *)
(** a value obtained by adding all the elements of a list in some order *)
Inductive adds : list Z -> Z -> Prop :=
| adds_nil : adds [] 0
| adds_one x : adds [x] x
| adds_app l1 l2 v1 v2 : adds l1 v1 -> adds l2 v2 -> adds (l1 ++ l2) (fadd binary64 v1 v2)
| adds_perm l l' v : Permutation l l' -> adds l v -> adds l' v.

Definition nonneg (x : Z) : Prop := is_bits binary64 x /\ is_nan binary64 x = false /\ (is_zero binary64 x = true \/ sgn binary64 x = 0).

Lemma inf_sign0 s : s = 0 -> nonneg (inf binary64 s) /\ is_zero binary64 (inf binary64 s) = false.
Proof.
  intros ->. split; [|reflexivity]. split; [apply inf_bits; [exact b64_ok|auto]|]. split; [reflexivity|right; reflexivity].
Qed.
Lemma nonneg_dec x : nonneg x -> dec binary64 x = DInf 0 /\ is_zero binary64 x = false \/
  exists s, (s = 0 \/ s = 1) /\ dec binary64 x = DFin s (dval64 x) /\ (0 <= dval64 x)%R /\ is_finite binary64 x = true.
Proof.
  intros (Hb & Hn & Hs). destruct (is_inf binary64 x) eqn:I.
  - left. pose proof (inf_not_zero _ _ b64_ok Hb I) as N. destruct Hs as [Hs|Hs]; [congruence|]. split; [|exact N]. unfold dec. rewrite Hn, I, Hs. reflexivity.
  - right. pose proof (not_special_finite _ _ Hn I) as F. exists (sgn binary64 x). split; [apply sgn_01|]. split; [apply dec_finite; exact F|]. split; [|exact F].
    destruct Hs as [Hs|Hs].
    + rewrite zero_fval in Hs by exact b64_ok. destruct (Req_bool_spec (dval64 x) 0); [lra|discriminate].
    + rewrite (fval_mval _ b64_ok), Hs. unfold signR. change (0 =? 1) with false. cbv iota. apply (mval_nonneg _ b64_ok).
Qed.
Lemma fadd_nonneg a b : nonneg a -> nonneg b ->
  nonneg (fadd binary64 a b) /\ is_zero binary64 (fadd binary64 a b) = is_zero binary64 a && is_zero binary64 b.
Proof.
  intros Ha Hb. pose proof (fadd_encodes binary64 a b b64_ok (proj1 Ha) (proj1 Hb)) as E.
  destruct (nonneg_dec a Ha) as [[Da Za]|(s & Hs & Da & Pa & Fa)], (nonneg_dec b Hb) as [[Db Zb]|(t & Ht & Db & Pb & Fb)]; rewrite Da, Db in E; cbn [dadd] in E.
  - change (0 =? 0) with true in E. cbv iota in E. destruct E as [_ ->]. destruct (inf_sign0 0 eq_refl) as [H1 H2]. rewrite H2, Za. auto.
  - destruct E as [_ ->]. destruct (inf_sign0 0 eq_refl) as [H1 H2]. rewrite H2, Za. auto.
  - destruct E as [_ ->]. destruct (inf_sign0 0 eq_refl) as [H1 H2]. rewrite H2, Zb, andb_false_r. auto.
  - set (z := if (s =? 1) && (t =? 1) then 1 else 0) in E. assert (Hz : z = 0 \/ z = 1) by (unfold z; destruct (_ && _); auto).
    destruct E as [Bits [E1 E2]]. set (r := rnd _ _ _) in *. change (b2 (bias binary64 + 1)) with overflow in *.
    assert (R1 : (dval64 a <= r)%R).
    { unfold r, rnd. apply round_ge_generic; [apply FLT_exp_valid; reflexivity|apply valid_rnd_N|apply (generic_fval binary64 a b64_ok)|lra]. }
    assert (R2 : (dval64 b <= r)%R).
    { unfold r, rnd. apply round_ge_generic; [apply FLT_exp_valid; reflexivity|apply valid_rnd_N|apply (generic_fval binary64 b b64_ok)|lra]. }
    assert (Z0 : is_zero binary64 a && is_zero binary64 b = Req_bool r 0).
    { rewrite !zero_fval by exact b64_ok. destruct (Req_bool_spec r 0) as [H|H].
      - rewrite !Raux.Req_bool_true by lra. reflexivity.
      - apply not_true_iff_false. intros A. apply andb_prop in A as [A1 A2].
        destruct (Req_bool_spec (dval64 a) 0) as [H1|]; [|discriminate]. destruct (Req_bool_spec (dval64 b) 0) as [H2|]; [|discriminate].
        apply H. unfold r. rewrite H1, H2, Rplus_0_l. unfold rnd. apply round_0. apply valid_rnd_N. }
    rewrite Z0. destruct (Rlt_or_le (Rabs r) overflow) as [O|O].
    + destruct (E1 O) as (F & V & S). split.
      * split; [exact Bits|]. split; [apply finite_not_special; exact F|]. rewrite zero_fval by exact b64_ok. rewrite V, S.
        destruct (Req_bool_spec r 0) as [H|H]; [left; reflexivity|right]. unfold rsign.
        destruct (Req_bool_spec (dval64 a + dval64 b) 0) as [H0|H0].
        -- exfalso. apply H. unfold r. rewrite H0. apply round_0. apply valid_rnd_N.
        -- rewrite Rlt_bool_false by lra. reflexivity.
      * rewrite zero_fval by exact b64_ok. rewrite V. reflexivity.
    + rewrite (E2 O). assert (R0 : r <> 0%R).
      { intros H. rewrite H, Rabs_R0 in O. unfold overflow in O. pose proof (bpow_gt_0 radix2 1024). lra. }
      rewrite Raux.Req_bool_false by exact R0. apply inf_sign0. unfold rsign.
      destruct (Req_bool_spec (dval64 a + dval64 b) 0) as [H0|H0].
      * exfalso. apply R0. unfold r. rewrite H0. apply round_0. apply valid_rnd_N.
      * rewrite Rlt_bool_false by lra. reflexivity.
Qed.
Lemma adds_nonneg l v : adds l v -> Forall nonneg l -> nonneg v /\ is_zero binary64 v = forallb (is_zero binary64) l.
Proof.
  induction 1 as [|x|l1 l2 v1 v2 H1 IH1 H2 IH2|l l' v Hp H IH]; intros F.
  - split; [|reflexivity]. split; [split; [lia|reflexivity]|]. split; [reflexivity|left; reflexivity].
  - inversion F; subst. split; [assumption|]. cbn. rewrite andb_true_r. reflexivity.
  - apply Forall_app in F as [F1 F2]. destruct (IH1 F1) as [N1 Z1]. destruct (IH2 F2) as [N2 Z2].
    destruct (fadd_nonneg _ _ N1 N2) as [N Z0]. split; [exact N|]. rewrite Z0, Z1, Z2, forallb_app. reflexivity.
  - destruct IH as [N Z0]; [eapply Permutation_Forall; [apply Permutation_sym; exact Hp|exact F]|]. split; [exact N|]. rewrite Z0.
    clear -Hp. induction Hp; cbn; try congruence; try (rewrite IHHp; reflexivity). rewrite !andb_assoc. f_equal. apply andb_comm.
Qed.

(** ** What is read is a double *)
Lemma take_sign_01 l : fst (take_sign l) = 0 \/ fst (take_sign l) = 1.
Proof. destruct l as [|c l]; cbn; [auto|]. destruct (c =? 45); [auto|]. destruct (c =? 43); auto. Qed.
Lemma hexval_nonneg c d : hexval c = Some d -> 0 <= d.
Proof.
  unfold hexval. destruct (_ && _) eqn:E; [intros [= <-]; lia|]. cbv zeta. destruct ((97 <=? lower c) && (lower c <=? 102)) eqn:E2; [|discriminate]. intros [= <-]. lia.
Qed.
Lemma hexrun_nonneg l : forall acc n, 0 <= acc -> 0 <= fst (fst (hexrun l acc n)).
Proof.
  induction l as [|c l IH]; intros acc n H; cbn [hexrun]; [exact H|]. destruct (hexval c) as [d|] eqn:E; [|exact H]. apply IH. apply hexval_nonneg in E. lia.
Qed.
Lemma round_pack_is_bits s m e : s = 0 \/ s = 1 -> 0 <= m -> is_bits binary64 (round_pack binary64 s m e).
Proof.
  intros Hs Hm. destruct (Z.eq_dec m 0) as [-> |N].
  - rewrite round_pack_zero. apply (pack_bits binary64); [exact Hs|]. vm_compute. split; [discriminate|reflexivity].
  - assert (H : 0 < m) by lia. exact (proj1 (round_pack_encodes binary64 s 0 m e b64_ok Hs H)).
Qed.
Lemma fromhex_bits l v : fromhex l = Ret v -> is_bits binary64 v.
Proof.
  unfold fromhex. pose proof (take_sign_01 (lstrip l)) as Hs. destruct (take_sign (lstrip l)) as [s l1]. cbn [fst] in Hs.
  destruct (after (bytes "inf") l1) as [r|].
  { cbv zeta. destruct (only_spaces _); [|discriminate]. intros [= <-]. apply inf_bits; [exact b64_ok|exact Hs]. }
  destruct (after (bytes "nan") l1) as [r|].
  { destruct (only_spaces r); [|discriminate]. intros [= <-]. destruct Hs as [-> | ->]; (vm_compute; split; [discriminate|reflexivity]). }
  pose proof (hexrun_nonneg (skip_0x l1) 0 0 ltac:(lia)) as Hm. destruct (hexrun (skip_0x l1) 0 0) as [[m n] r]. cbn [fst] in Hm.
  assert (Hm2 : forall m2 n2 k2 r2, (match r with c :: r' => if c =? 46 then let '(m', n', r'') := hexrun r' m n in (m', n', n' - n, r'') else (m, n, 0, r) | [] => (m, n, 0, []) end) = (m2, n2, k2, r2) -> 0 <= m2).
  { intros m2 n2 k2 r2. destruct r as [|c r]; [intros [= <- _ _ _]; exact Hm|]. destruct (c =? 46); [|intros [= <- _ _ _]; exact Hm].
    pose proof (hexrun_nonneg r m n Hm) as H. destruct (hexrun r m n) as [[m' n'] r'']. cbn [fst] in H. intros [= <- _ _ _]. exact H. }
  destruct (match r with c :: r' => if c =? 46 then let '(m', n', r'') := hexrun r' m n in (m', n', n' - n, r'') else (m, n, 0, r) | [] => (m, n, 0, []) end) as [[[m2 n2] k2] r2].
  specialize (Hm2 _ _ _ _ eq_refl). destruct (n2 =? 0); [discriminate|]. destruct (parse_exp r2) as [[e r3]| | |]; cbn [pbind]; try discriminate.
  destruct (negb (only_spaces r3)); [discriminate|]. destruct (is_inf binary64 _); [discriminate|]. intros [= <-]. apply round_pack_is_bits; assumption.
Qed.
Lemma fromhex_cells_bits l vs : pmap fromhex_cell l = Ret vs -> Forall (is_bits binary64) vs.
Proof.
  revert vs. induction l as [|c l IH]; intros vs; cbn [pmap]; [intros [= <-]; constructor|].
  destruct (fromhex_cell c) as [v| | |] eqn:E; cbn [pbind]; try discriminate. destruct (pmap fromhex_cell l) as [vs'| | |]; cbn [pbind]; try discriminate.
  intros [= <-]. constructor; [|apply IH; reflexivity]. destruct c; try discriminate. eapply fromhex_bits. exact E.
Qed.
Lemma zip5_bits a b c d e : Forall (is_bits binary64) c -> Forall (is_bits binary64) d ->
  Forall (fun r => is_bits binary64 (p_val r) /\ is_bits binary64 (p_thr r)) (zip5 a b c d e).
Proof.
  revert b c d e. induction a as [|x a IH]; intros [|y b] [|z c] [|t d] [|u e] Hc Hd; cbn [zip5]; try constructor.
  - inversion Hc; inversion Hd; subst. cbn. auto.
  - inversion Hc; inversion Hd; subst. auto.
Qed.
Lemma rows_bits numeric file : Forall (fun r => is_bits binary64 (p_val r) /\ is_bits binary64 (p_thr r)) (rows_of numeric file).
Proof.
  unfold rows_of. destruct (read_probes numeric file) as [[w rows]| | |] eqn:R; try constructor. revert R. unfold read_probes.
  destruct (read_csv file) as [fr|]; [|intros [= _ <-]; constructor].
  repeat (match goal with
          | |- pbind (pmap fromhex_cell ?l) _ = _ -> _ => let H := fresh "P" in destruct (pmap fromhex_cell l) as [?| | |] eqn:H; cbn [pbind]; try discriminate; apply fromhex_cells_bits in H
          | |- pbind ?x _ = _ -> _ => destruct x as [?| | |]; cbn [pbind]; try discriminate
          end).
  intros [= _ <-]. apply zip5_bits; assumption.
Qed.
