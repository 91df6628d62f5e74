(** vfc_ci serve: which runs are shown, under which names, and the comparison of runs. C100-C103. *)
From Coq Require Import String ZArith List Bool Reals Lia Lra Sorted Permutation.
From Verif Require Import Text DDModel ReportModel ReportProofs.
Import ListNotations.
Open Scope Z_scope.
Open Scope py_scope.

(** * C100 *)
(** [older], [newer]: the number of run files with a smaller (larger) timestamp *)
Theorem C100_selection_partial files g : distinct_times files -> 0 < g_max g -> 0 <= g_ignore g < Z.of_nat (length files) ->
  exists metadata data det,
    load g files = Ret (metadata, data, det) /\
    StronglySorted Z.lt (map m_time metadata) /\
    (forall m, In m metadata <-> exists f, In f files /\ m = f_meta f /\ g_ignore g <= Z.of_nat (newer files (m_time m)) /\
                                           Z.of_nat (older files (m_time m)) < g_max g) /\
    data = concat (map f_data (filter (fun f => existsb (fun m => m_time m =? m_time (f_meta f)) metadata) files)) /\
    det = concat (map f_det (filter (fun f => existsb (fun m => m_time m =? m_time (f_meta f)) metadata) files)).
Proof.
  intros D Hm Hi. set (n := Nat.min (Z.to_nat (g_max g)) (length files - Z.to_nat (g_ignore g))).
  assert (IN : forall m, In m (firstn n (sort_meta (map f_meta files))) <-> exists f, In f files /\ m = f_meta f /\
      g_ignore g <= Z.of_nat (newer files (m_time m)) /\ Z.of_nat (older files (m_time m)) < g_max g).
  { intros m. split.
    - intros H. assert (I : In m (sort_meta (map f_meta files))) by (rewrite <- (firstn_skipn n); apply in_or_app; left; exact H).
      destruct (In_nth_error _ _ I) as (i & Ei). apply (in_firstn_iff files D n i m Ei) in H.
      apply (Permutation_in _ (s_perm files)) in I. apply in_map_iff in I. destruct I as (f & <- & Hf). exists f.
      split; [exact Hf|]. split; [reflexivity|]. rewrite (s_newer files D i _ Ei), (s_older files D i _ Ei). lia.
    - intros (f & Hf & -> & H1 & H2). destruct (s_index files f Hf) as (i & Ei & Hl). apply (in_firstn_iff files D n i _ Ei).
      rewrite (s_newer files D i _ Ei) in H1. rewrite (s_older files D i _ Ei) in H2. lia. }
  exists (firstn n (sort_meta (map f_meta files))). do 2 eexists.
  split; [apply load_eq; assumption|]. split; [|split; [exact IN|]].
  - rewrite <- firstn_map. pose proof (s_strict files D) as S. revert S. generalize (map m_time (sort_meta (map f_meta files))). generalize n. clear.
    intros n l S. revert n. induction S as [|x l S IH F]; intros [|n]; cbn; try constructor; auto.
    rewrite Forall_forall in *. intros y Hy. apply F. rewrite <- (firstn_skipn n l). apply in_or_app. left. exact Hy.
  - assert (F : filter (fun f => Nat.ltb (older files (m_time (f_meta f))) n) files =
                filter (fun f => existsb (fun m => m_time m =? m_time (f_meta f)) (firstn n (sort_meta (map f_meta files)))) files).
    { apply filter_ext_in. intros f Hf. destruct (s_index files f Hf) as (i & Ei & Hl). pose proof (s_older files D i _ Ei) as O.
      apply eq_true_iff_eq. rewrite Nat.ltb_lt, existsb_exists, O, <- (in_firstn_iff files D n i _ Ei). split.
      - intros H. exists (f_meta f). split; [exact H|apply Z.eqb_refl].
      - intros (m & H & E). apply Z.eqb_eq in E. assert (I : In m (sort_meta (map f_meta files))) by (rewrite <- (firstn_skipn n); apply in_or_app; left; exact H).
        destruct (In_nth_error _ _ I) as (j & Ej). apply (in_firstn_iff files D n j m Ej) in H. apply (in_firstn_iff files D n i _ Ei).
        pose proof (s_older files D j _ Ej) as O2. rewrite E in O2. lia. }
    rewrite <- F. split; reflexivity.
Qed.
Print Assumptions C100_selection_partial.
(** the documentation: "If the number of detected files exceeds this value, the most recent ones will be kept." The most recent
    run is never kept in that case *)
Theorem C100_most_recent_refuted files g : distinct_times files -> 0 < g_max g < Z.of_nat (length files) -> g_ignore g = 0 ->
  forall f, In f files -> newer files (m_time (f_meta f)) = 0%nat ->
    exists metadata data det, load g files = Ret (metadata, data, det) /\ ~ In (f_meta f) metadata.
Proof.
  intros D Hm Hi f Hf Hn. destruct (C100_selection_partial files g D) as (m & d & e & L & _ & I & _); [lia..|].
  exists m, d, e. split; [exact L|]. intros H. apply I in H. destruct H as (f' & Hf' & E & _ & O).
  destruct (s_index files f Hf) as (i & Ei & Hl). rewrite (s_newer files D i _ Ei) in Hn. rewrite (s_older files D i _ Ei) in O. lia.
Qed.
Print Assumptions C100_most_recent_refuted.
(** when all files fit, the most recent ones are kept *)
Theorem C100_all files g : distinct_times files -> 0 < g_max g -> 0 <= g_ignore g < Z.of_nat (length files) ->
  Z.of_nat (length files) <= g_max g + g_ignore g ->
  exists metadata data det, load g files = Ret (metadata, data, det) /\
    forall f, In f files -> (In (f_meta f) metadata <-> g_ignore g <= Z.of_nat (newer files (m_time (f_meta f)))).
Proof.
  intros D Hm Hi Hs. destruct (C100_selection_partial files g D Hm Hi) as (m & d & e & L & _ & I & _). exists m, d, e. split; [exact L|].
  intros f Hf. rewrite I. destruct (s_index files f Hf) as (i & Ei & Hl). rewrite (s_newer files D i _ Ei), (s_older files D i _ Ei). split.
  - intros (f' & _ & _ & H & _). exact H.
  - intros H. exists f. repeat split; try assumption. lia.
Qed.
Print Assumptions C100_all.
(** ignoring all the files (or having none) ends in an exception *)
Theorem C100_nothing_left_refuted files g : distinct_times files -> Z.of_nat (length files) <= g_ignore g -> load g files = Raise.
Proof.
  intros D H. unfold load. rewrite drop_recent_eq by (assumption || lia).
  rewrite s_length. replace (length files - Z.to_nat (g_ignore g))%nat with 0%nat by lia. cbn [firstn length]. rewrite Nat.min_0_r. reflexivity.
Qed.
Print Assumptions C100_nothing_left_refuted.
Definition t_file (t : Z) : vfcrun := mk_file (mk_meta t [] [] []) [mk_row (bytes "t") (bytes "v") (bytes "b") t true false 3 (fun _ => 0%R)] [].
Example C100_nonvacuous :
  distinct_times [t_file 30; t_file 10; t_file 20] /\
  match load (mk_cfg [] None 2 0) [t_file 30; t_file 10; t_file 20] with Ret (m, d, e) => (map m_time m, map w_time d, e) = ([10; 20], [10; 20], []) | _ => False end /\
  newer [t_file 30; t_file 10; t_file 20] 30 = 0%nat /\
  match load (mk_cfg [] None 2 1) [t_file 30; t_file 10; t_file 20] with Ret (m, d, e) => map m_time m = [10; 20] | _ => False end.
Proof. split; [repeat constructor; cbn; intuition lia|]. repeat split. Qed.

(** * C101 *)
(** ages: seconds since the run; the unit is the largest one that fits, the number is rounded down *)
Theorem C101_age age : label age = bytes "Less than a minute ago" /\ age < 60 \/
  exists n k unit, In (k, unit) [(60, "minute"); (3600, "hour"); (86400, "day"); (604800, "week"); (2592000, "month")]%string /\
    label age = dec n ++ bytes " " ++ bytes unit ++ (if n =? 1 then [] else bytes "s") ++ bytes " ago" /\ 1 <= n /\
    n * k <= age < (n + 1) * k /\ forall k' unit', In (k', unit') [(60, "minute"); (3600, "hour"); (86400, "day"); (604800, "week"); (2592000, "month")]%string -> k < k' -> age < k'.
Proof.
  rewrite label_eq. destruct (Z.ltb_spec age 60) as [H|H]; [left; auto|right]. unfold unit_of, plural.
  assert (G : forall k unit, In (k, unit) [(60, "minute"); (3600, "hour"); (86400, "day"); (604800, "week"); (2592000, "month")]%string -> k <= age ->
    (forall k' unit', In (k', unit') [(60, "minute"); (3600, "hour"); (86400, "day"); (604800, "week"); (2592000, "month")]%string -> k < k' -> age < k') ->
    exists n k0 unit0, In (k0, unit0) [(60, "minute"); (3600, "hour"); (86400, "day"); (604800, "week"); (2592000, "month")]%string /\
    dec (age / k) ++ space :: (bytes unit ++ (if age / k =? 1 then [] else bytes "s")) ++ space :: bytes "ago" =
      dec n ++ bytes " " ++ bytes unit0 ++ (if n =? 1 then [] else bytes "s") ++ bytes " ago" /\ 1 <= n /\
    n * k0 <= age < (n + 1) * k0 /\ forall k' unit', In (k', unit') [(60, "minute"); (3600, "hour"); (86400, "day"); (604800, "week"); (2592000, "month")]%string -> k0 < k' -> age < k').
  { intros k unit I Hk Hu. assert (0 < k) by (cbn in I; intuition; match goal with E : (_, _) = (_, _) |- _ => injection E as <- <- end; lia). exists (age / k), k, unit. split; [exact I|]. split.
    - rewrite <- !app_assoc. reflexivity.
    - pose proof (Z.div_mod age k). pose proof (Z.mod_pos_bound age k). split; [apply Z.div_le_lower_bound; lia|]. split; [nia|exact Hu]. }
  destruct (Z.ltb_spec age 3600); [|destruct (Z.ltb_spec age 86400); [|destruct (Z.ltb_spec age 604800); [|destruct (Z.ltb_spec age 2592000)]]]; cbn [fst snd].
  - apply (G 60 "minute"%string); [cbn; tauto|lia|]. intros k' u' I Hk. cbn in I. intuition; match goal with E : (_, _) = (_, _) |- _ => injection E as <- <- end; lia.
  - apply (G 3600 "hour"%string); [cbn; tauto|lia|]. intros k' u' I Hk. cbn in I. intuition; match goal with E : (_, _) = (_, _) |- _ => injection E as <- <- end; lia.
  - apply (G 86400 "day"%string); [cbn; tauto|lia|]. intros k' u' I Hk. cbn in I. intuition; match goal with E : (_, _) = (_, _) |- _ => injection E as <- <- end; lia.
  - apply (G 604800 "week"%string); [cbn; tauto|lia|]. intros k' u' I Hk. cbn in I. intuition; match goal with E : (_, _) = (_, _) |- _ => injection E as <- <- end; lia.
  - apply (G 2592000 "month"%string); [cbn; tauto|lia|]. intros k' u' I Hk. cbn in I. intuition; match goal with E : (_, _) = (_, _) |- _ => injection E as <- <- end; lia.
Qed.
Print Assumptions C101_age.
(** [runs]: metadata in chronological order, the age of each run when its name is made *)
Theorem C101_names_partial ages runs names :
  length ages = length runs -> StronglySorted Z.ge ages ->
  ((forall m, In m runs -> m_hash m = []) \/
   (forall m, In m runs -> m_hash m <> [] /\ ~ In 41 (m_hash m)) /\
   ((exists h, forall m, In m runs -> m_hash m = h) \/ NoDup (map m_hash runs))) ->
  run_names ages runs = Ret names ->
  length names = length runs /\ NoDup names /\
  forall i a m nm, nth_error ages i = Some a -> nth_error runs i = Some m -> nth_error names i = Some nm ->
    exists suffix, nm = label a ++ (if text_eqb (m_hash m) [] then [] else bytes " (" ++ m_hash m ++ bytes ")") ++ suffix.
Proof.
  intros L S H E. unfold run_names in E. destruct (forallb _ _); [|discriminate]. injection E as <-.
  set (l := map (fun am : Z * meta => (fst am, m_hash (snd am))) (combine ages runs)).
  assert (EB : map (fun am : Z * meta => base_name (fst am) (m_hash (snd am))) (combine ages runs) = map base_of l).
  { unfold l. rewrite map_map. reflexivity. }
  rewrite EB.
  assert (LL : length l = length runs) by (unfold l; rewrite map_length, combine_length; lia).
  assert (NL : forall i p, nth_error l i = Some p -> nth_error ages i = Some (fst p) /\ exists m, nth_error runs i = Some m /\ snd p = m_hash m).
  { unfold l. clear -L. revert runs L. induction ages as [|a ages IH]; intros [|m runs] L i p; cbn in *; try discriminate; [destruct i; discriminate|].
    destruct i as [|i]; cbn.
    - intros [= <-]. cbn. split; [reflexivity|]. exists m. auto.
    - apply IH. lia. }
  assert (IL : forall p, In p l -> exists m, In m runs /\ snd p = m_hash m).
  { intros p Hp. destruct (In_nth_error _ _ Hp) as (i & Ei). destruct (NL i p Ei) as (_ & m & Em & Es). exists m. split; [eapply nth_error_In; exact Em|exact Es]. }
  split; [|split].
  - rewrite name_all_keys by (cbn; lia). rewrite map_length.
    rewrite <- (map_length fst), keys_base, map_length. exact LL.
  - apply names_nodup.
    + intros i j x y Hij Ei Ej. apply NL in Ei, Ej. destruct Ei as [Ei _], Ej as [Ej _].
      assert (G : forall l i j x y, StronglySorted Z.ge l -> (i < j)%nat -> nth_error l i = Some x -> nth_error l j = Some y -> y <= x).
      { clear. induction l as [|a l IH]; intros [|i] [|j] x y S Hij; cbn; try discriminate; try lia; inversion S as [|? ? S1 S2]; subst.
        - intros [= ->] Ej. rewrite Forall_forall in S2. pose proof (S2 y (nth_error_In _ _ Ej)). lia.
        - apply IH; [assumption|lia]. }
      exact (G ages i j _ _ S Hij Ei Ej).
    + destruct H as [H | [H _]]; [left|right]; intros p Hp; destruct (IL p Hp) as (m & Hm & ->); apply H; exact Hm.
    + intros i j k x y z Hijk Ei Ej Ek _ Exz. destruct (NL i x Ei) as (_ & mi & Mi & Si), (NL j y Ej) as (_ & mj & Mj & Sj), (NL k z Ek) as (_ & mk & Mk & Sk).
      assert (SAME : (forall m m', In m runs -> In m' runs -> m_hash m = m_hash m') -> snd y = snd x).
      { intros G. rewrite Si, Sj. apply G; eapply nth_error_In; eassumption. }
      destruct H as [H | [_ [[h H] | H]]].
      * apply SAME. intros m m' Hm Hm'. rewrite (H m Hm), (H m' Hm'). reflexivity.
      * apply SAME. intros m m' Hm Hm'. rewrite (H m Hm), (H m' Hm'). reflexivity.
      * exfalso. rewrite NoDup_nth_error in H. assert (i = k); [|lia]. apply H.
        -- rewrite map_length. apply nth_error_Some. congruence.
        -- rewrite !nth_error_map, Mi, Mk. cbn. congruence.
  - intros i a m nm Ea Em En. rewrite name_all_keys in En by (cbn; lia). rewrite nth_error_map in En.
    destruct (nth_error (keys _ _) i) as [k|] eqn:Ek; [|discriminate]. injection En as <-.
    assert (B : nth_error (map fst (keys ([], 0) (map base_of l))) i = Some (fst k)) by (rewrite nth_error_map, Ek; reflexivity).
    rewrite keys_base, nth_error_map in B. destruct (nth_error l i) as [p|] eqn:Ep; [|discriminate]. injection B as B.
    destruct (NL i p Ep) as (Ea' & m' & Em' & Es). rewrite render_eq, <- B. unfold base_of. rewrite base_name_eq. unfold hash_part.
    rewrite Ea in Ea'. injection Ea' as <-. rewrite Em in Em'. injection Em' as <-. rewrite Es, <- app_assoc. eexists. reflexivity.
Qed.
Print Assumptions C101_names_partial.
(** the names of runs with distinct timestamps are made *)
Theorem C101_names_made ages runs : NoDup (map m_time runs) -> exists names, run_names ages runs = Ret names.
Proof.
  intros N. unfold run_names. replace (forallb _ _) with true; [eauto|]. symmetry. apply forallb_forall. intros m Hm.
  apply Nat.eqb_eq. apply (proj1 (NoDup_count_occ' Z.eq_dec _) N). apply in_map. exact Hm.
Qed.
Print Assumptions C101_names_made.
(** the selectors of runs: each name leads to its run, and the last name is the most recent one *)
Theorem C101_selectors l : NoDup (map snd l) -> (forall r, In r l -> dict_get (snd r) (runs_selection l) = Ret (m_time (fst r))) /\
  map fst (runs_selection l) = map snd l.
Proof.
  intros N. assert (E : runs_selection l = map (fun r => (snd r, m_time (fst r))) l).
  { unfold runs_selection.
    assert (G : forall l d, NoDup (map fst d ++ map snd l) ->
      fold_left (fun d r => dict_set (snd r) (m_time (fst r)) d) l d = d ++ map (fun r : named => (snd r, m_time (fst r))) l).
    { clear. induction l as [|r l IH]; intros d N; cbn; [rewrite app_nil_r; reflexivity|].
      assert (Q : dict_set (snd r) (m_time (fst r)) d = d ++ [(snd r, m_time (fst r))]).
      { cbn in N. apply NoDup_remove_2 in N. clear IH. induction d as [|[k v] d IHd]; cbn; [reflexivity|].
        destruct (text_eqb_spec (snd r) k) as [E|E]; [exfalso; apply N; left; symmetry; exact E|]. rewrite IHd; [reflexivity|].
        intros H. apply N. right. exact H. }
      rewrite Q, IH.
      - rewrite <- app_assoc. reflexivity.
      - rewrite map_app, <- app_assoc. exact N. }
    apply G. exact N. }
  rewrite E. split.
  - intros r Hr. clear E. induction l as [|x l IH]; cbn in *; [contradiction|]. inversion N as [|? ? N1 N2]; subst.
    destruct Hr as [-> | Hr]; [rewrite text_eqb_refl; reflexivity|]. destruct (text_eqb_spec (snd r) (snd x)) as [E|]; [|auto].
    exfalso. apply N1. rewrite <- E. apply in_map. exact Hr.
  - rewrite map_map. reflexivity.
Qed.
Print Assumptions C101_selectors.
(** a run of a commit between two runs outside git, in the same hour: two runs have the same name, and the first one cannot be
    selected any more *)
Definition r_meta (t : Z) (h : string) : meta := mk_meta t [] [] (bytes h).
Theorem C101_mixed_refuted : exists ages runs names,
  length ages = length runs /\ StronglySorted Z.ge ages /\ StronglySorted Z.lt (map m_time runs) /\
  run_names ages runs = Ret names /\ ~ NoDup names /\
  length (runs_selection (combine runs names)) = 2%nat /\ length runs = 3%nat.
Proof.
  exists [7300; 7290; 7280], [r_meta 0 ""; r_meta 10 "abcdef1"; r_meta 20 ""],
    (map bytes ["2 hours ago"; "2 hours ago (abcdef1)"; "2 hours ago"]%string).
  split; [reflexivity|]. split; [repeat constructor; lia|]. split; [repeat constructor; cbn; lia|]. split; [vm_compute; reflexivity|]. split; [|split; vm_compute; reflexivity].
  intros N. inversion N as [|? ? N1 _]; subst. apply N1. right. left. reflexivity.
Qed.
Print Assumptions C101_mixed_refuted.
(** two commits with the same author date: no report *)
Theorem C101_same_second_refuted : exists runs, NoDup (map m_hash runs) /\ forall ages, run_names ages runs = Raise.
Proof. exists [r_meta 5 "aaaaaaa"; r_meta 5 "bbbbbbb"]. split; [vm_compute; repeat constructor; cbn; intuition discriminate|]. reflexivity. Qed.
Print Assumptions C101_same_second_refuted.
Example C101_nonvacuous :
  run_names [7300; 7290; 100; 3] [r_meta 0 "aaaaaaa"; r_meta 10 "bbbbbbb"; r_meta 7200 "ccccccc"; r_meta 7297 "ddddddd"] =
    Ret (map bytes ["2 hours ago (aaaaaaa)"; "2 hours ago (bbbbbbb)"; "1 minute ago (ccccccc)"; "Less than a minute ago (ddddddd)"]%string) /\
  run_names [7300; 7290; 100] [r_meta 0 ""; r_meta 10 ""; r_meta 7200 ""] =
    Ret (map bytes ["2 hours ago"; "2 hours ago (1)"; "1 minute ago"]%string).
Proof. split; vm_compute; reflexivity. Qed.

(** * C102 *)
(** [history]: the rows of one test, variable and backend, each with its run, in chronological order *)
Definition history_of (runs : list named) (data : list row) (test var backend : text) (h : list (row * named)) : Prop :=
  Permutation (map fst h) (filter (fun w => text_eqb (w_test w) test && text_eqb (w_var w) var && text_eqb (w_backend w) backend) data) /\
  StronglySorted Z.lt (map (fun p => w_time (fst p)) h) /\
  Forall (fun p => In (snd p) runs /\ m_time (fst (snd p)) = w_time (fst p)) h.
(** the last [n] of them, all for 0 *)
Definition latest {A} (n : nat) (h : list A) : list A := match n with O => h | _ => skipn (length h - n) h end.
Lemma latest_last_n {A} n (h : list A) : last_n n h = latest n h.
Proof. unfold last_n, latest. destruct n; reflexivity. Qed.
Section Compare.
  Variables (runs : list named) (data : list row) (test var backend : text).
  Hypothesis R1 : distinct_runs runs.
  Hypothesis R2 : forall w, In w data -> exists r, In r runs /\ m_time (fst r) = w_time w.
  Hypothesis R3 : NoDup (map w_time (filter (selected test var backend) data)).
  Lemma history_exists : exists h, history_of runs data test var backend h /\ map fst h = sort_rows (filter (selected test var backend) data).
  Proof.
    assert (G : forall l, (forall w, In w l -> In w data) -> exists h : list (row * named), map fst h = l /\
              Forall (fun p => In (snd p) runs /\ m_time (fst (snd p)) = w_time (fst p)) h).
    { induction l as [|w l IH]; intros I; [exists []; split; [reflexivity|constructor]|]. destruct IH as (h & E & F); [intros; apply I; right; assumption|].
      destruct (R2 w (I w (or_introl eq_refl))) as (r & Hr & Er). exists ((w, r) :: h). split; [cbn; congruence|]. constructor; [cbn; auto|exact F]. }
    destruct (G (sort_rows (filter (selected test var backend) data))) as (h & E & F).
    { intros w Hw. rewrite sort_rows_eq in Hw. apply (Permutation_in _ (sort_perm w_time _)) in Hw. apply filter_In in Hw. tauto. }
    exists h. split; [|exact E]. split; [|split; [|exact F]].
    - rewrite E, sort_rows_eq. apply sort_perm.
    - rewrite <- (map_map fst w_time), E, sort_rows_eq. apply sort_strict. exact R3.
  Qed.
  (** the series of names *)
  Lemma x_series_history h : Forall (fun p => In (snd p) runs /\ m_time (fst (snd p)) = w_time (fst p)) h -> forall n,
    gen_x_series runs (map w_time (map fst h)) n = Ret (map (fun p : row * named => snd (snd p)) (last_n n h)).
  Proof.
    intros F n. rewrite map_map. replace (map (fun p => w_time (fst p)) h) with (map fst (map (fun p : row * named => (w_time (fst p), snd (snd p))) h)) by (rewrite map_map; reflexivity).
    rewrite gen_x_series_eq.
    - rewrite last_n_map, map_map. reflexivity.
    - apply Forall_forall. intros q Hq. apply in_map_iff in Hq. destruct Hq as (p & <- & Hp). rewrite Forall_forall in F. destruct (F p Hp) as [I E]. cbn [fst snd].
      rewrite <- E. apply name_at_in; assumption.
  Qed.
  Theorem C102_compare : filter (selected test var backend) data <> [] -> exists h, history_of runs data test var backend h /\ h <> [] /\
    forall n s, compare_dots runs data test var backend n false s =
      Ret (mk_dots (map (fun p => snd (snd p)) (latest n h)) (map (fun p => w_stat (fst p) s) (latest n h))
                   (map (fun p => w_nsamples (fst p)) (latest n h)) (map (fun p => negb (w_check (fst p))) (latest n h))).
  Proof.
    intros NE. destruct history_exists as (h & H & E). exists h. split; [exact H|]. split.
    - intros ->. destruct H as (P & _ & _). apply Permutation_nil in P. exact (NE P).
    - intros n s. unfold compare_dots. rewrite <- E. destruct H as (_ & _ & F). rewrite (x_series_history h F). cbn [pbind].
      rewrite <- latest_last_n. destruct (filter _ data); [congruence|]. f_equal. f_equal.
      + rewrite last_n_map, last_n_idem. reflexivity.
      + rewrite last_n_map, map_map. reflexivity.
      + rewrite last_n_map, map_map. reflexivity.
      + rewrite last_n_map, map_map. reflexivity.
  Qed.
  Theorem C102_deterministic : filter (selected test var backend) data <> [] -> exists h, history_of runs data test var backend h /\ h <> [] /\
    forall n, compare_deterministic runs data test var backend n false =
      Ret (mk_dots (map (fun p => snd (snd p)) (latest n h)) (map (fun p => w_stat (fst p) Value) (latest n h))
                   (map (fun p => w_nsamples (fst p)) (latest n h)) (map (fun p => negb (w_check (fst p))) (latest n h)),
           map (fun p => if w_check (fst p) then None else Some (w_stat (fst p) Ref)) (latest n h)).
  Proof.
    intros NE. destruct history_exists as (h & H & E). exists h. split; [exact H|]. split.
    - intros ->. destruct H as (P & _ & _). apply Permutation_nil in P. exact (NE P).
    - intros n. unfold compare_deterministic. rewrite <- E. destruct H as (_ & _ & F). rewrite (x_series_history h F). cbn [pbind].
      rewrite <- latest_last_n. destruct (filter _ data); [congruence|]. f_equal. f_equal; [f_equal|].
      + rewrite last_n_map, last_n_idem. reflexivity.
      + rewrite last_n_map, map_map. reflexivity.
      + rewrite last_n_map, map_map. reflexivity.
      + rewrite last_n_map, map_map. reflexivity.
      + rewrite last_n_map, map_map. reflexivity.
  Qed.
End Compare.
Print Assumptions C102_compare.
Print Assumptions C102_deterministic.
(** the filter of outliers: never in the deterministic view *)
Theorem C102_filter_deterministic_refuted runs data test var backend n :
  distinct_runs runs -> (forall w, In w data -> exists r, In r runs /\ m_time (fst r) = w_time w) ->
  NoDup (map w_time (filter (selected test var backend) data)) -> filter (selected test var backend) data <> [] ->
  compare_deterministic runs data test var backend n true = Raise.
Proof.
  intros R1 R2 R3 NE. destruct (history_exists runs data test var backend R2 R3) as (h & (_ & _ & F) & E). unfold compare_deterministic.
  rewrite <- E, (x_series_history runs R1 h F). destruct (filter _ data); [congruence|]. reflexivity.
Qed.
Print Assumptions C102_filter_deterministic_refuted.

(** * C103 *)
Section Outliers.
  Open Scope R_scope.
  Definition deviations (l : list R) : list R := map (fun x => x - mean l) l.
  Lemma rsum_app a b : rsum (a ++ b) = rsum a + rsum b.
  Proof. unfold rsum. induction a as [|x a IH]; cbn [app fold_right]; [ring|]. rewrite IH. ring. Qed.
  Lemma rsum_const_sub c l : rsum (map (fun x => x - c) l) = rsum l - c * INR (length l).
  Proof. unfold rsum. induction l as [|x l IH]; [cbn; ring|]. cbn [map fold_right length]. rewrite S_INR, IH. ring. Qed.
  Lemma deviations_sum l : l <> [] -> rsum (deviations l) = 0.
  Proof.
    intros H. unfold deviations. rewrite rsum_const_sub. unfold mean. field. apply not_0_INR. destruct l; [congruence|discriminate].
  Qed.
  Lemma squares_nonneg l : 0 <= rsum (map (fun x => x * x) l).
  Proof. induction l as [|x l IH]; cbn; [lra|]. pose proof (Rle_0_sqr x). unfold Rsqr, rsum in *. lra. Qed.
  Lemma cauchy l : rsum l * rsum l <= INR (length l) * rsum (map (fun x => x * x) l).
  Proof.
    induction l as [|a l IH]; [cbn; lra|]. cbn [map length]. rewrite S_INR. change (rsum (a :: l)) with (a + rsum l).
    change (rsum (a * a :: map (fun x => x * x) l)) with (a * a + rsum (map (fun x => x * x) l)).
    set (S := rsum l) in *. set (Q := rsum (map (fun x => x * x) l)) in *. set (m := INR (length l)) in *.
    assert (Hm : 0 <= m) by apply pos_INR. assert (HQ : 0 <= Q) by apply squares_nonneg.
    assert (G : 2 * (a * S) <= m * (a * a) + Q).
    { destruct (Req_dec m 0) as [Z|Z].
      - assert (S = 0). { rewrite Z in IH. destruct (Req_dec S 0) as [|N]; [assumption|]. pose proof (Rsqr_pos_lt S N). unfold Rsqr in *. lra. }
        rewrite H, Z. lra.
      - assert (0 < m) by lra. apply (Rmult_le_reg_l m); [assumption|]. pose proof (Rle_0_sqr (m * a - S)) as P. unfold Rsqr in P.
        replace ((m * a - S) * (m * a - S)) with (m * (m * (a * a)) - 2 * m * (a * S) + S * S) in P by ring. lra. }
    lra.
  Qed.
  (** Samuelson *)
  Lemma samuelson l x : In x l -> INR (length l) * ((x - mean l) * (x - mean l)) <= (INR (length l) - 1) * rsum (map (fun y => (y - mean l) * (y - mean l)) l).
  Proof.
    intros H. assert (N : l <> []) by (intros ->; contradiction). pose proof (deviations_sum l N) as D. unfold deviations in D.
    destruct (in_split _ _ H) as (a & b & E). set (mu := mean l) in *. clearbody mu. subst l.
    rewrite map_app in *. cbn [map] in *. rewrite rsum_app in *. change (rsum (x - mu :: map (fun x0 => x0 - mu) b)) with (x - mu + rsum (map (fun x0 => x0 - mu) b)) in D.
    change (rsum ((x - mu) * (x - mu) :: map (fun y => (y - mu) * (y - mu)) b)) with ((x - mu) * (x - mu) + rsum (map (fun y => (y - mu) * (y - mu)) b)).
    pose proof (cauchy (map (fun y => y - mu) (a ++ b))) as C. rewrite map_length, app_length, plus_INR, map_map, !map_app, !rsum_app in C.
    rewrite app_length. cbn [length]. rewrite plus_INR, S_INR.
    set (sa := rsum (map (fun x0 => x0 - mu) a)) in *. set (sb := rsum (map (fun x0 => x0 - mu) b)) in *.
    set (qa := rsum (map (fun y => (y - mu) * (y - mu)) a)) in *. set (qb := rsum (map (fun y => (y - mu) * (y - mu)) b)) in *.
    set (d := x - mu) in *. assert (Es : sa + sb = - d) by lra. rewrite Es in C. set (m := INR (length a) + INR (length b)) in *.
    replace (INR (length a) + (INR (length b) + 1)) with (m + 1) by (unfold m; ring). replace (m + 1 - 1) with m by ring. lra.
  Qed.
  Definition ssq (l : list R) : R := rsum (map (fun y => (y - mean l) * (y - mean l)) l).
  Lemma ssq_nonneg l : 0 <= ssq l.
  Proof. unfold ssq. rewrite <- (map_map (fun y => y - mean l) (fun d => d * d)). apply squares_nonneg. Qed.
  Lemma std_sqr l : l <> [] -> std l * std l = ssq l / INR (length l).
  Proof.
    intros H. unfold std. apply sqrt_sqrt. apply Rmult_le_pos; [apply ssq_nonneg|]. apply Rlt_le, Rinv_0_lt_compat, lt_0_INR. destruct l; [congruence|cbn; lia].
  Qed.
  Lemma ssq_std l : l <> [] -> ssq l = INR (length l) * (std l * std l).
  Proof. intros H. rewrite (std_sqr l H). field. apply not_0_INR. destruct l; [congruence|discriminate]. Qed.
  Lemma std_nonneg l : 0 <= std l.
  Proof. apply sqrt_pos. Qed.
  (** the number of values removed *)
  Definition removed (mask : list bool) : nat := length (filter negb mask).
  Lemma far_sum l c mu : 0 <= c -> INR (removed (map (fun x => if Rlt_dec (Rabs (x - mu)) c then true else false) l)) * (c * c) <= rsum (map (fun y => (y - mu) * (y - mu)) l).
  Proof.
    intros Hc. unfold removed. induction l as [|x l IH]; [cbn; lra|]. cbn [map filter rsum fold_right].
    pose proof (Rle_0_sqr (x - mu)) as P. unfold Rsqr in P. unfold rsum in IH. destruct (Rlt_dec (Rabs (x - mu)) c) as [H|H]; cbn [negb length].
    - lra.
    - rewrite S_INR. assert (c * c <= (x - mu) * (x - mu)).
      { replace ((x - mu) * (x - mu)) with (Rabs (x - mu) * Rabs (x - mu)) by (rewrite <- Rabs_mult; apply Rabs_pos_eq; exact P).
        apply Rmult_le_compat; lra. }
      lra.
  Qed.
  Lemma not_constant l : std l <> 0 -> exists x, In x l /\ x <> 0.
  Proof.
    intros H. destruct (in_dec Req_EM_T 0 l) as [Z|Z].
    - destruct (Forall_Exists_dec (fun x => x = 0) (fun x => Req_EM_T x 0) l) as [F|F].
      + exfalso. apply H. rewrite Forall_forall in F. assert (E : mean l = 0).
        { unfold mean. replace (rsum l) with 0; [unfold Rdiv; ring|]. clear -F. induction l as [|x l IH]; [reflexivity|]. cbn. rewrite (F x (or_introl eq_refl)).
          unfold rsum in IH. rewrite <- IH; [ring|]. intros; apply F; right; assumption. }
        unfold std. rewrite E. replace (rsum _) with 0; [unfold Rdiv; rewrite Rmult_0_l; apply sqrt_0|].
        clear -F. induction l as [|x l IH]; [reflexivity|]. cbn. rewrite (F x (or_introl eq_refl)). unfold rsum in IH. rewrite <- IH; [ring|]. intros; apply F; right; assumption.
      + apply Exists_exists in F. destruct F as (x & Hx & N). exists x. auto.
    - destruct l as [|x l]; [exfalso; apply H; unfold std; cbn; unfold Rdiv; rewrite Rmult_0_l; apply sqrt_0|].
      exists x. split; [left; reflexivity|]. intros ->. apply Z. left. reflexivity.
  Qed.
  Lemma std_zero l : std l = 0 -> forall x, In x l -> x = mean l.
  Proof.
    intros H x Hx. assert (N : l <> []) by (intros ->; contradiction). pose proof (ssq_std l N) as E. rewrite H in E. pose proof (samuelson l x Hx) as S. fold (ssq l) in S.
    rewrite E in S. assert (P : 0 < INR (length l)) by (apply lt_0_INR; destruct l; [congruence|cbn; lia]).
    pose proof (Rle_0_sqr (x - mean l)) as Q. unfold Rsqr in Q.
    assert ((x - mean l) * (x - mean l) <= 0) by (apply (Rmult_le_reg_l (INR (length l))); lra).
    assert (Z : (x - mean l) * (x - mean l) = 0) by lra. apply Rmult_integral in Z. destruct Z; lra.
  Qed.
  Lemma removed_none l : (forall b, In b l -> b = true) -> removed l = 0%nat.
  Proof. intros H. unfold removed. induction l as [|b l IH]; [reflexivity|]. cbn. rewrite (H b (or_introl eq_refl)). cbn. apply IH. intros; apply H; right; assumption. Qed.

  (** unless all the values are 0: at most one value in nine is removed, none of nine or fewer; what is kept is within three
      standard deviations of the mean, what is removed is not *)
  Theorem C103_outliers_partial l : (exists x, In x l /\ x <> 0) ->
    length (detect_outliers l) = length l /\ (9 * removed (detect_outliers l) <= length l)%nat /\
    ((length l <= 9)%nat -> removed (detect_outliers l) = 0%nat) /\
    forall i x b, nth_error l i = Some x -> nth_error (detect_outliers l) i = Some b ->
      (b = true -> (length l <= 2)%nat \/ x = mean l \/ Rabs (x - mean l) < 3 * std l) /\ (b = false -> 0 < std l /\ 3 * std l <= Rabs (x - mean l)).
  Proof.
    intros (z & Hz & Nz). assert (NE : l <> []) by (intros ->; contradiction). unfold detect_outliers. destruct (Nat.leb_spec (length l) 2) as [H2|H2].
    - rewrite repeat_length. assert (E : removed (repeat true (length l)) = 0%nat) by (apply removed_none; intros b Hb; apply repeat_spec in Hb; exact Hb).
      rewrite E. split; [reflexivity|]. split; [lia|]. split; [auto|]. intros i x b Hx Hb. apply nth_error_In, repeat_spec in Hb. subst b. split; [auto|discriminate].
    - destruct (Req_EM_T (std l) 0) as [Es|Es].
      + assert (M : map (fun x => if Req_EM_T x 0 then false else true) l = map (fun _ => true) l).
        { apply map_ext_in. intros x Hx. destruct (Req_EM_T x 0) as [->|]; [|reflexivity]. exfalso. apply Nz.
          rewrite (std_zero l Es z Hz). symmetry. apply std_zero; assumption. }
        rewrite M. rewrite map_length. assert (E : removed (map (fun _ => true) l) = 0%nat).
        { apply removed_none. intros b Hb. apply in_map_iff in Hb. destruct Hb as (? & <- & _). reflexivity. }
        rewrite E. split; [reflexivity|]. split; [lia|]. split; [auto|]. intros i x b Hx Hb. apply nth_error_In in Hb. apply in_map_iff in Hb. destruct Hb as (? & <- & _).
        split; [|discriminate]. intros _. right. left. apply std_zero; [exact Es|]. eapply nth_error_In. exact Hx.
      + assert (P : 0 < std l) by (pose proof (std_nonneg l); lra). rewrite map_length. split; [reflexivity|].
        assert (PP : 0 < std l * std l) by (apply Rmult_lt_0_compat; assumption). split; [|split].
        * pose proof (far_sum l (3 * std l) (mean l) ltac:(lra)) as F. fold (ssq l) in F. rewrite (ssq_std l NE) in F.
          apply INR_le. rewrite mult_INR. set (k := INR (removed _)) in *. replace (INR 9) with 9 by (cbn; lra).
          apply (Rmult_le_reg_r (std l * std l)); [exact PP|]. lra.
        * intros H9. apply removed_none. intros b Hb. apply in_map_iff in Hb. destruct Hb as (x & <- & Hx). destruct (Rlt_dec _ _) as [|F]; [reflexivity|exfalso].
          pose proof (samuelson l x Hx) as S. fold (ssq l) in S. rewrite (ssq_std l NE) in S.
          assert (Q : (3 * std l) * (3 * std l) <= (x - mean l) * (x - mean l)).
          { replace ((x - mean l) * (x - mean l)) with (Rabs (x - mean l) * Rabs (x - mean l)) by (rewrite <- Rabs_mult; apply Rabs_pos_eq; apply Rle_0_sqr).
            apply Rmult_le_compat; lra. }
          assert (B : INR (length l) <= 9) by (replace 9 with (INR 9) by (cbn; lra); apply le_INR; exact H9).
          assert (B0 : 0 < INR (length l)) by (apply lt_0_INR; lia).
          assert (S2 : (x - mean l) * (x - mean l) <= (INR (length l) - 1) * (std l * std l)).
          { apply (Rmult_le_reg_l (INR (length l))); [exact B0|]. lra. }
          assert ((INR (length l) - 1) * (std l * std l) <= 8 * (std l * std l)) by (apply Rmult_le_compat_r; lra). lra.
        * intros i x b Hx Hb. rewrite nth_error_map, Hx in Hb. cbn in Hb. injection Hb as <-. destruct (Rlt_dec _ _); split; try discriminate; intros _; auto. split; [exact P|lra].
  Qed.
End Outliers.
Print Assumptions C103_outliers_partial.
(** the columns filtered with the same mask stay aligned *)
Theorem C103_aligned {A B} (xs : list A) (ys : list B) mask : length xs = length ys ->
  combine (remove_outliers xs mask) (remove_outliers ys mask) = map fst (filter snd (combine (combine xs ys) mask)).
Proof.
  revert ys mask. induction xs as [|x xs IH]; intros [|y ys] [|b mask]; cbn; try discriminate; try reflexivity. intros [= L].
  destruct b; cbn; rewrite IH by assumption; reflexivity.
Qed.
Print Assumptions C103_aligned.
(** a series of zeros (for example the deviation of a variable that never varies) is removed entirely *)
Theorem C103_zeros_refuted n : (3 <= n)%nat -> remove_outliers (repeat 0%R n) (detect_outliers (repeat 0%R n)) = [].
Proof.
  intros H. unfold detect_outliers. rewrite repeat_length. destruct (Nat.leb_spec n 2); [lia|].
  assert (E : forall m (f : R -> R), f 0%R = 0%R -> rsum (map f (repeat 0%R m)) = 0%R) by (intros m f Hf; induction m as [|m IH]; cbn; [reflexivity|]; unfold rsum in IH; rewrite IH, Hf; ring).
  assert (M : mean (repeat 0%R n) = 0%R).
  { unfold mean. rewrite <- (map_id (repeat 0%R n)) at 1. rewrite E by reflexivity. unfold Rdiv. ring. }
  assert (S : std (repeat 0%R n) = 0%R).
  { unfold std. rewrite M, E by ring. unfold Rdiv. rewrite Rmult_0_l. apply sqrt_0. }
  destruct (Req_EM_T (std (repeat 0%R n)) 0%R); [|contradiction]. clear. induction n as [|n IH]; cbn; [reflexivity|]. destruct (Req_EM_T 0 0); [exact IH|lra].
Qed.
Print Assumptions C103_zeros_refuted.
(** the filter in the compare view *)
Theorem C103_compare runs data test var backend n s d : compare_dots runs data test var backend n false s = Ret d ->
  compare_dots runs data test var backend n true s =
    Ret (mk_dots (remove_outliers (p_x d) (detect_outliers (p_y d))) (remove_outliers (p_y d) (detect_outliers (p_y d))) (p_samples d) (p_red d)).
Proof.
  unfold compare_dots. destruct (filter _ _) as [|w l].
  - destruct data; [|discriminate]. intros [= <-]. reflexivity.
  - destruct (gen_x_series _ _ _); cbn [pbind]; try discriminate. intros [= <-]. reflexivity.
Qed.
Print Assumptions C103_compare.
Section Eleven.
  Definition eleven : list R := 11%R :: repeat 0%R 10.
  Lemma eleven_mean : mean eleven = 1%R.
  Proof. unfold mean, eleven. cbn. field. Qed.
  Lemma eleven_std : (std eleven = sqrt 10)%R.
  Proof. unfold std. rewrite eleven_mean. f_equal. unfold eleven. cbn. field. Qed.
  Example C103_nonvacuous : detect_outliers eleven = false :: repeat true 10 /\ removed (detect_outliers eleven) = 1%nat.
  Proof.
    assert (E : detect_outliers eleven = false :: repeat true 10).
    { unfold detect_outliers. change (Nat.leb (length eleven) 2) with false. cbv iota. rewrite eleven_std, eleven_mean.
      assert (Q : (3 < sqrt 10 < 10 / 3)%R).
      { split; [rewrite <- (sqrt_square 3) by lra; apply sqrt_lt_1; lra|rewrite <- (sqrt_square (10 / 3)) by lra; apply sqrt_lt_1; lra]. }
      destruct (Req_EM_T (sqrt 10) 0%R); [lra|]. unfold eleven. cbn [map repeat].
      destruct (Rlt_dec (Rabs (11 - 1)) (3 * sqrt 10)) as [H|_]; [rewrite Rabs_pos_eq in H by lra; lra|].
      destruct (Rlt_dec (Rabs (0 - 1)) (3 * sqrt 10)) as [_|H]; [reflexivity|]. exfalso. apply H. rewrite Rabs_left by lra. lra. }
    rewrite E. split; reflexivity.
  Qed.
  Definition e_row (t : Z) : row := mk_row [] [] [] t true false t (fun _ => if t =? 1 then 11%R else 0%R).
  Definition e_times : list Z := [1; 2; 3; 4; 5; 6; 7; 8; 9; 10; 11].
  Definition e_runs : list named := map (fun t => (mk_meta t [] [] [], [t])) e_times.
  (** the numbers of samples (and the other columns of the tooltips, and the colours) are not filtered: the first point shown is
      run 2, its tooltip is that of run 1 *)
  Theorem C103_tooltip_refuted : exists d, compare_dots e_runs (map e_row e_times) [] [] [] 0 true Sigma = Ret d /\
    distinct_runs e_runs /\ nth_error (p_x d) 0 = Some [2] /\ nth_error (p_samples d) 0 = Some 1 /\ w_nsamples (e_row 2) = 2 /\
    length (p_y d) = 10%nat /\ length (p_samples d) = 11%nat.
  Proof.
    assert (E : compare_dots e_runs (map e_row e_times) [] [] [] 0 false Sigma = Ret (mk_dots (map (fun t => [t]) e_times) eleven e_times (repeat false 11))) by reflexivity.
    eexists. split; [apply (C103_compare _ _ _ _ _ _ _ _ E)|]. cbn [p_x p_y p_samples]. rewrite (proj1 C103_nonvacuous).
    split; [unfold distinct_runs; cbn; repeat (constructor; [cbn; intuition lia|]); constructor|]. repeat split.
  Qed.
End Eleven.
Print Assumptions C103_tooltip_refuted.
Example C102_nonvacuous : distinct_runs e_runs /\ (forall w, In w (map e_row e_times) -> exists r, In r e_runs /\ m_time (fst r) = w_time w) /\
  NoDup (map w_time (filter (selected [] [] []) (map e_row e_times))) /\ filter (selected [] [] []) (map e_row e_times) <> [] /\
  exists d, compare_dots e_runs (map e_row e_times) [] [] [] 3 false Sigma = Ret d /\ p_x d = [[9]; [10]; [11]].
Proof.
  split; [unfold distinct_runs; cbn; repeat (constructor; [cbn; intuition lia|]); constructor|]. split.
  - intros w H. apply in_map_iff in H. destruct H as (t & <- & Ht). exists (mk_meta t [] [] [], [t]). split; [|reflexivity].
    apply (in_map (fun t => (mk_meta t [] [] [], [t]))). exact Ht.
  - split; [cbn; repeat (constructor; [cbn; intuition lia|]); constructor|]. split; [discriminate|]. eexists. split; reflexivity.
Qed.
