(** Proofs for the vfc_ddebug tool (C93, C94): the tables of sample numbers, the lines of the reference list, and the sites a
    configuration instruments. *)
From Coq Require Import String ZArith List Bool Lia Permutation.
From stdpp Require Import base list numbers.
From Verif Require Import Common HashModel HashTable HashMapProofs Text DdebugModel DdebugProofs DDModel DDSample DDMainModel.
Import ListNotations.
Open Scope Z_scope.

(** * Tables of sample numbers *)
Lemma same_iff x y : same x y = true <-> x = y.
Proof. unfold same. destruct (bytes_dec x y); split; congruence. Qed.
Lemma existsb_same t l : existsb (same t) l = true <-> In t l.
Proof. rewrite existsb_exists. split; [intros (x & H & E); apply same_iff in E; congruence|]. intros H. exists t. split; [exact H|]. apply same_iff. reflexivity. Qed.

(** what the algorithms need of a table: its last entry is the number of runs and is the largest *)
Definition good_table (n : Z) (t : list Z) : Prop := t <> [] /\ last (map Z.to_nat t) 0%nat = Z.to_nat n /\ forall r, In r (map Z.to_nat t) -> (r <= Z.to_nat n)%nat.

Lemma last_snoc_nat (l : list nat) x : List.last (l ++ [x]) 0%nat = x.
Proof. apply List.last_last. Qed.

Lemma exponential_good lg n : 1 <= n -> 0 <= lg n -> exists t, exponential_range lg n = Ret t /\ t <> [] /\ List.last (map Z.to_nat t) 0%nat = Z.to_nat n /\
  (forall r, In r (map Z.to_nat t) -> (r <= Z.to_nat n)%nat).
Proof.
  intros Hn Hl. unfold exponential_range. replace (n <=? 0) with false by (symmetry; apply Z.leb_gt; lia). eexists. split; [reflexivity|].
  replace (Z.to_nat (1 + lg n)) with (S (Z.to_nat (lg n))) by lia. cbn [seq map rev]. split.
  { intros H. apply app_eq_nil in H. destruct H. discriminate. }
  split.
  - rewrite map_app. cbn [map]. rewrite last_snoc_nat. change (Z.of_nat 0) with 0. rewrite Z.pow_0_r, Z.div_1_r. reflexivity.
  - intros r Hr. apply in_map_iff in Hr as (z & <- & Hz). apply in_app_or in Hz as [Hz|[<-|[]]].
    + apply in_rev in Hz. apply in_map_iff in Hz as (i & <- & _). apply Z2Nat.inj_le; [apply Z.div_pos; lia|lia|].
      apply Z.div_le_upper_bound; [lia|]. assert (1 <= 2 ^ Z.of_nat i) by (apply (Z.pow_le_mono_r 2 0); lia). nia.
    + change (Z.of_nat 0) with 0. rewrite Z.pow_0_r, Z.div_1_r. lia.
Qed.

Lemma in_range a b r : In r (range a b) <-> a <= r < b.
Proof.
  unfold range. rewrite in_map_iff. split.
  - intros (i & <- & Hi). apply in_seq in Hi. lia.
  - intros H. exists (Z.to_nat (r - a)). split; [lia|]. apply in_seq. lia.
Qed.
Lemma range_good n : 1 <= n -> range 1 (n + 1) <> [] /\ List.last (map Z.to_nat (range 1 (n + 1))) 0%nat = Z.to_nat n.
Proof.
  intros Hn. unfold range. replace (Z.to_nat (n + 1 - 1)) with (Z.to_nat (n - 1) + 1)%nat by lia. rewrite seq_app, !map_app. cbn [seq map]. split.
  - intros H. apply app_eq_nil in H. destruct H. discriminate.
  - rewrite last_snoc_nat. lia.
Qed.

Section tables.
  Context (lg : Z -> Z) (Hlg : forall n, 1 <= n -> 0 <= lg n).
  Lemma rddmin_table c : 1 <= nb_run c -> In (rddmin_tab c) [bytes "exp"; bytes "all"; bytes "single"] ->
    exists t, get_rddmin_tab lg c = Ret t /\ t <> [] /\ List.last (map Z.to_nat t) 0%nat = Z.to_nat (nb_run c) /\
      (forall r, In r (map Z.to_nat t) -> (r <= Z.to_nat (nb_run c))%nat).
  Proof.
    intros Hn Hin. unfold get_rddmin_tab. cbn [In] in Hin. destruct Hin as [<-|[<-|[<-|[]]]].
    - replace (same (bytes "exp") (bytes "exp")) with true by reflexivity. apply exponential_good; auto.
    - replace (same (bytes "all") (bytes "exp")) with false by reflexivity. replace (same (bytes "all") (bytes "all")) with true by reflexivity.
      eexists. split; [reflexivity|]. destruct (range_good (nb_run c) Hn) as [A B]. split; [exact A|]. split; [exact B|].
      intros r Hr. apply in_map_iff in Hr as (z & <- & Hz). apply in_range in Hz. lia.
    - replace (same (bytes "single") (bytes "exp")) with false by reflexivity. replace (same (bytes "single") (bytes "all")) with false by reflexivity.
      replace (same (bytes "single") (bytes "single")) with true by reflexivity. eexists. split; [reflexivity|]. split; [discriminate|]. split; [reflexivity|].
      intros r [<-|[]]. lia.
  Qed.
  Lemma split_table c : 1 <= nb_run c -> In (dicho_tab c) [bytes "exp"; bytes "all"; bytes "half"; bytes "single"] ->
    exists t, get_split_tab lg c = Ret t /\ forall r, In r (map Z.to_nat t) -> (r <= Z.to_nat (nb_run c))%nat.
  Proof.
    intros Hn Hin. unfold get_split_tab. cbn [In] in Hin. destruct Hin as [<-|[<-|[<-|[<-|[]]]]].
    - replace (same (bytes "exp") (bytes "exp")) with true by reflexivity. destruct (exponential_good lg (nb_run c) Hn (Hlg _ Hn)) as (t & E & _ & _ & H). eauto.
    - replace (same (bytes "all") (bytes "exp")) with false by reflexivity. replace (same (bytes "all") (bytes "all")) with true by reflexivity.
      eexists. split; [reflexivity|]. intros r Hr. apply in_map_iff in Hr as (z & <- & Hz). apply in_range in Hz. lia.
    - replace (same (bytes "half") (bytes "exp")) with false by reflexivity. replace (same (bytes "half") (bytes "all")) with false by reflexivity.
      replace (same (bytes "half") (bytes "single")) with false by reflexivity. replace (same (bytes "half") (bytes "half")) with true by reflexivity.
      eexists. split; [reflexivity|]. intros r [<-|[]]. apply Z2Nat.inj_le; [apply Z.div_pos; lia|lia|]. apply Z.div_le_upper_bound; lia.
    - replace (same (bytes "single") (bytes "exp")) with false by reflexivity. replace (same (bytes "single") (bytes "all")) with false by reflexivity.
      replace (same (bytes "single") (bytes "single")) with true by reflexivity. eexists. split; [reflexivity|]. intros r [<-|[]]. lia.
  Qed.
End tables.

(** * Lines *)
Lemma concat_readlines t : concat (readlines t) = t.
Proof.
  induction t as [|c t IH]; [reflexivity|]. cbn [readlines]. destruct (Z.eqb_spec c newline) as [->|N]; [cbn; rewrite IH; reflexivity|].
  destruct (readlines t) as [|l ls]; cbn in *; rewrite <- IH; reflexivity.
Qed.
Lemma readlines_line p t : Forall (fun c => c <> newline) p -> readlines (p ++ newline :: t) = (p ++ [newline]) :: readlines t.
Proof.
  induction 1 as [|c p Hc Hp IH]; [reflexivity|]. cbn [app readlines]. rewrite IH. destruct (Z.eqb_spec c newline); [contradiction|]. reflexivity.
Qed.
Lemma hexchar_not_newline d : 0 <= d < 16 -> hexchar d <> newline.
Proof. intros H. unfold hexchar, newline. destruct (d <? 10) eqn:E; [apply Z.ltb_lt in E|]; lia. Qed.
Lemma readlines_text es : Forall entry_ok es -> readlines (text_of es) = map entry_line es.
Proof.
  induction 1 as [|e es He Hes IH]; [reflexivity|]. unfold text_of in *. cbn [map concat]. unfold entry_line at 1.
  replace (([48; 120] ++ map hexchar e.1 ++ e.2 ++ [newline]) ++ concat (map entry_line es))
    with (([48; 120] ++ map hexchar e.1 ++ e.2) ++ newline :: concat (map entry_line es)) by (rewrite <- !app_assoc; reflexivity).
  rewrite readlines_line, IH.
  - f_equal. unfold entry_line. rewrite <- !app_assoc. reflexivity.
  - apply Forall_app. split; [repeat constructor; discriminate|]. apply Forall_app. split; [|exact (eo_tail _ He)].
    apply Forall_map. eapply List.Forall_impl; [|exact (eo_digits _ He)]. intros d Hd. apply hexchar_not_newline. exact Hd.
Qed.
Lemma merge_one f : merge_list [f] = Ret f.
Proof. unfold merge_list. cbn. rewrite concat_readlines. reflexivity. Qed.

Lemma insert_line_perm x l : Permutation (insert_line x l) (x :: l).
Proof.
  induction l as [|y l IH]; [reflexivity|]. cbn [insert_line]. destruct (lex_le x y); [reflexivity|].
  rewrite IH. apply Permutation_swap.
Qed.
Lemma sort_lines_perm l : Permutation (sort_lines l) l.
Proof. induction l as [|x l IH]; [reflexivity|]. cbn [sort_lines fold_right]. rewrite insert_line_perm. constructor. exact IH. Qed.

(** * Call sites and their lines *)
Definition in_space (a : Z) : Prop := call_op_size <= a < 2 ^ 64.
Section sites.
  Context (a2l : Z -> list Z) (Ha : answers a2l).
  (** the line addr2line gives for a call site *)
  Definition line_of (a : Z) : list Z := a2l (a - call_op_size).

  Lemma line_entry a : in_space a -> exists e, entry_ok e /\ line_of a = entry_line e /\ entry_site e = a.
  Proof.
    intros H. destruct (Ha (a - call_op_size)) as (e & He & E1 & E2); [unfold in_space, call_op_size in *; lia|].
    exists e. split; [exact He|]. split; [exact E1|]. unfold entry_site. rewrite E2. lia.
  Qed.
  Lemma line_inj a b : in_space a -> in_space b -> line_of a = line_of b -> a = b.
  Proof.
    intros H1 H2 E. destruct (line_entry a H1) as (e & He & E1 & S1). destruct (line_entry b H2) as (f & Hf & E2 & S2).
    pose proof (scan_entry e He) as X. pose proof (scan_entry f Hf) as Y. rewrite <- E1, E, E2, Y in X. injection X as X. unfold entry_site in *. lia.
  Qed.
  Lemma lines_entries g : Forall in_space g -> exists es, Forall entry_ok es /\ map line_of g = map entry_line es /\ map entry_site es = g.
  Proof.
    induction 1 as [|a g H _ IH]; [exists []; repeat split; constructor|]. destruct IH as (es & A & B & C). destruct (line_entry a H) as (e & He & E1 & E2).
    exists (e :: es). split; [constructor; assumption|]. cbn. rewrite E1, E2, B, C. auto.
  Qed.

  (** the file of a configuration instruments exactly its sites *)
  Lemma sites_of_spec g ls : Forall in_space g -> Z.of_nat (length g) <= max_inserts -> Permutation ls (map line_of g) ->
    forall a, sites_of (concat ls) a = true <-> In a g.
  Proof.
    intros Hg Hlen HP a. destruct (lines_entries g Hg) as (es & A & B & C). rewrite B in HP.
    apply Permutation_sym in HP. destruct (Permutation_map_inv _ _ (Permutation_sym HP)) as (es' & -> & HP').
    assert (A' : Forall entry_ok es') by (rewrite <- HP'; exact A).
    assert (L : Z.of_nat (length es') <= max_inserts) by (rewrite <- (Permutation_length HP'), <- (map_length entry_site es), C; exact Hlen).
    destruct (filter_spec None (Some es') I (conj A' L)) as (st & E & Hd). cbn [file_of] in E. unfold sites_of. unfold text_of in E. rewrite E, Hd.
    unfold instrumented. rewrite (bool_decide_eq_false_2 (excluded None a)) by (cbn; tauto). cbn [negb andb]. rewrite bool_decide_eq_true. cbn.
    rewrite <- HP', C. apply elem_of_list_In.
  Qed.

  Context (prog : (Z -> bool) -> nat -> bool) (Hprog : forall f g i, (forall a, f a = g a) -> prog f i = prog g i).
  (** the outcome of run [i] when exactly the sites of a list are instrumented *)
  Definition with_sites (g : list Z) (i : nat) : bool := prog (fun a => existsb (Z.eqb a) g) i.
  Lemma with_sites_ext g h i : (forall a, In a g <-> In a h) -> with_sites g i = with_sites h i.
  Proof.
    intros H. apply Hprog. intros a. apply eq_true_iff_eq. rewrite !existsb_exists. split; intros (x & Hx & Ex); apply Z.eqb_eq in Ex; subst x; exists a; (split; [apply H; exact Hx|apply Z.eqb_refl]).
  Qed.
  Lemma sample_sites g i : Forall in_space g -> Z.of_nat (length g) <= max_inserts -> sample_of prog (config_name (map line_of g)) i = with_sites g i.
  Proof.
    intros Hg L. unfold sample_of, with_sites. apply Hprog. intros a. apply eq_true_iff_eq. unfold config_name.
    rewrite (sites_of_spec g (sort_lines (map line_of g)) Hg L (sort_lines_perm _)). rewrite existsb_exists. split.
    - intros H. exists a. split; [exact H|apply Z.eqb_refl].
    - intros (x & Hx & Ex). apply Z.eqb_eq in Ex. subst x. exact Hx.
  Qed.
  Lemma fails_sites n g : Forall in_space g -> Z.of_nat (length g) <= max_inserts ->
    (fails config_name (sample_of prog) n (map line_of g) disk0 <-> exists i, (i < n)%nat /\ with_sites g i = false).
  Proof.
    intros Hg L. unfold fails, disk0. split.
    - intros [(i & Hi & E)|(l & i & E & _)]; [|discriminate]. exists i. split; [exact Hi|]. rewrite <- (sample_sites g i Hg L). exact E.
    - intros (i & Hi & E). left. exists i. split; [exact Hi|]. rewrite (sample_sites g i Hg L). exact E.
  Qed.

  Context (S : list Z) (HS : Forall in_space S) (NS : List.NoDup S) (LS : Z.of_nat (length S) <= max_inserts).
  Lemma delta0_nodup : List.NoDup (map line_of S).
  Proof.
    clear LS. induction NS as [|a S' Hn N IH]; [constructor|]. inversion HS as [|? ? Ha' HS']; subst. cbn. constructor; [|apply IH; assumption].
    intros Hin. apply in_map_iff in Hin as (b & E & Hb). apply line_inj in E; [subst b; contradiction| |exact Ha'].
    rewrite Forall_forall in HS'. apply HS'. exact Hb.
  Qed.
  Lemma in_space_of g : incl g S -> Forall in_space g.
  Proof. intros H. apply Forall_forall. intros x Hx. rewrite Forall_forall in HS. apply HS, H, Hx. Qed.
  Lemma group_of c : incl c (map line_of S) -> exists g, c = map line_of g /\ incl g S.
  Proof.
    induction c as [|l c IH]; intros H; [exists []; split; [reflexivity|intros x []]|].
    destruct IH as (g & -> & Hg); [intros x Hx; apply H; right; exact Hx|].
    destruct (proj1 (in_map_iff _ _ _) (H l (or_introl eq_refl))) as (a & <- & Hin). exists (a :: g). split; [reflexivity|]. intros x [<-|Hx]; [exact Hin|apply Hg; exact Hx].
  Qed.
  Lemma nodup_lines g : List.NoDup (map line_of g) -> List.NoDup g.
  Proof. apply NoDup_map_inv. Qed.
  Lemma group_length g : List.NoDup g -> incl g S -> Z.of_nat (length g) <= max_inserts.
  Proof. intros N I. pose proof (NoDup_incl_length N I). lia. Qed.
  Lemma in_line a g : incl g S -> In a S -> (In (line_of a) (map line_of g) <-> In a g).
  Proof.
    intros Hg Hin. split; [|apply in_map]. intros H. apply in_map_iff in H as (b & E & Hb).
    pose proof HS as HS'. rewrite Forall_forall in HS'. apply line_inj in E; [subst b; exact Hb|apply HS', Hg, Hb|apply HS', Hin].
  Qed.
  Lemma groups_of tab : incl (concat tab) (map line_of S) -> exists gs, tab = map (map line_of) gs /\ incl (concat gs) S.
  Proof.
    induction tab as [|c tab IH]; intros H; [exists []; split; [reflexivity|intros x []]|].
    destruct IH as (gs & -> & Hgs); [intros x Hx; apply H; cbn; apply in_or_app; right; exact Hx|].
    destruct (group_of c) as (g & -> & Hg); [intros x Hx; apply H; cbn; apply in_or_app; left; exact Hx|].
    exists (g :: gs). split; [reflexivity|]. cbn. intros x Hx. apply in_app_or in Hx as [Hx|Hx]; auto.
  Qed.
  Lemma concat_lines gs : concat (map (map line_of) gs) = map line_of (concat gs).
  Proof. induction gs as [|g gs IH]; [reflexivity|]. cbn. rewrite map_app, IH. reflexivity. Qed.
  Lemma filter_lines (f : list Z -> bool) (h : Z -> bool) l : (forall a, In a l -> f (line_of a) = h a) -> List.filter f (map line_of l) = map line_of (List.filter h l).
  Proof.
    induction l as [|a l IH]; intros H; [reflexivity|]. cbn. rewrite (H a (or_introl eq_refl)), IH by (intros b Hb; apply H; right; exact Hb).
    destruct (h a); reflexivity.
  Qed.
End sites.
