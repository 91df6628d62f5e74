(** Proofs: reading the probes file back (read_probes_csv). *)
From Coq Require Import String ZArith List Bool Lia.
From stdpp Require Import base list.
From Verif Require Import Common Text HashModel Bits BitsFacts FloatOps VfiModel DDModel ProbesModel ProbesProofs CiModel CiHex.
Import ListNotations.
Open Scope Z_scope.
Open Scope py_scope.

(** ** Vocabulary *)
(** a byte that may occur in a name: printable ASCII but the double quote *)
Definition name_byte (c : Z) : Prop := 32 <= c <= 126 /\ c <> 34.
Definition clean_name (s : list Z) : Prop := Forall name_byte s.
Definition na_name (s : list Z) : Prop := In s na_words.
Definition bool_name (s : list Z) : Prop := In s true_words \/ In s false_words.
(** pandas reads no text with a letter x in it as a number *)
Definition hex_not_numeric (numeric : list Z -> option Z) : Prop := forall s, In 120 s -> numeric s = None.
Definition modes_not_numeric (numeric : list Z -> option Z) : Prop := forall m, numeric (mode_text m) = None.
(** some entry of the column makes it a column of texts *)
Definition text_column (numeric : list Z -> option Z) (l : list (list Z)) : Prop :=
  Exists (fun s => ~ na_name s /\ numeric s = None) l /\ Exists (fun s => ~ na_name s /\ ~ bool_name s) l.

(** the row of a request *)
Definition row_of (r : probe_req) : prow :=
  mk_prow (CStr (pr_test r)) (CStr (pr_var r)) (pr_val r) (pr_thr r) (CStr (mode_text (pr_mode r))).

(** ** Helpers *)
Lemma text_eqb_true a b : text_eqb a b = true <-> a = b.
Proof. unfold text_eqb. match goal with |- context [if ?d then _ else _] => destruct d end; split; congruence. Qed.
Lemma memb_in a l : memb a l = true <-> In a l.
Proof.
  unfold memb. rewrite existsb_exists. split.
  - intros (x & Hx & E). apply text_eqb_true in E. subst. exact Hx.
  - intros H. exists a. split; [exact H|]. apply text_eqb_true. reflexivity.
Qed.
Lemma memb_false a l : ~ In a l -> memb a l = false.
Proof. intros H. destruct (memb a l) eqn:E; [|reflexivity]. apply memb_in in E. tauto. Qed.

Lemma words_no_x l : forallb (fun w => negb (existsb (Z.eqb 120) w)) l = true -> forall s, In 120 s -> ~ In s l.
Proof.
  intros H s Hs Hi. rewrite forallb_forall in H. specialize (H s Hi). apply negb_true_iff in H.
  assert (existsb (Z.eqb 120) s = true); [|congruence]. apply existsb_exists. exists 120. auto.
Qed.
Lemma hex_not_na s : In 120 s -> ~ na_name s.
Proof. apply words_no_x. vm_compute. reflexivity. Qed.
Lemma hex_not_bool s : In 120 s -> ~ bool_name s.
Proof. intros H [Hi|Hi]; revert Hi; apply words_no_x; try exact H; vm_compute; reflexivity. Qed.
Lemma mode_not_na m : ~ na_name (mode_text m).
Proof. intros H. apply memb_in in H. destruct m; vm_compute in H; discriminate. Qed.
Lemma mode_not_bool m : ~ bool_name (mode_text m).
Proof. intros [H|H]; apply memb_in in H; destruct m; vm_compute in H; discriminate. Qed.
Lemma fmt_a_not_na b : is_nan binary64 b = false -> ~ na_name (fmt_a b).
Proof.
  intros H. destruct (is_finite binary64 b) eqn:F; [apply hex_not_na, fmt_a_hex; exact F|].
  destruct (is_inf binary64 b) eqn:I.
  - destruct (fmt_a_inf b I) as [-> | ->]; intros N; apply memb_in in N; vm_compute in N; discriminate.
  - rewrite not_special_finite in F by assumption. discriminate.
Qed.

(** ** Type inference *)
Section infer.
  Context (numeric : list Z -> option Z).

  Lemma infer_length l : length (infer numeric l) = length l.
  Proof. unfold infer. apply map_length. Qed.

  Lemma infer_text l :
    text_column numeric l -> infer numeric (map Some l) = map (fun s => if memb s na_words then CNA else CStr s) l.
  Proof.
    intros [H1 H2]. unfold infer.
    assert (E : forall p : list Z -> bool, Exists (fun s => ~ na_name s /\ p s = false) l ->
      forallb (fun x => is_na x || match x with Some s => p s | None => true end) (map Some l) = false).
    { intros p H. apply not_true_iff_false. intros Hf. rewrite forallb_forall in Hf.
      apply List.Exists_exists in H as (s & Hs & Hn & Hp). specialize (Hf (Some s) (in_map Some _ _ Hs)). cbn [is_na] in Hf.
      rewrite memb_false in Hf by exact Hn. rewrite Hp in Hf. discriminate. }
    rewrite (E (is_num numeric)).
    2:{ eapply Exists_impl; [exact H1|]. cbn. intros s [A B]. split; [exact A|]. unfold is_num. rewrite B. reflexivity. }
    rewrite (E is_bool).
    2:{ eapply Exists_impl; [exact H2|]. cbn. intros s [A B]. split; [exact A|]. unfold is_bool. unfold bool_name in B.
        rewrite !memb_false by tauto. reflexivity. }
    rewrite map_map. reflexivity.
  Qed.

  Lemma infer_names l : Forall (fun s => ~ na_name s) l -> (l = [] \/ text_column numeric l) -> infer numeric (map Some l) = map CStr l.
  Proof.
    intros H [-> |Ht]; [reflexivity|]. rewrite infer_text by exact Ht. apply map_ext_in. intros s Hs.
    rewrite List.Forall_forall in H. rewrite memb_false by (apply H; exact Hs). reflexivity.
  Qed.

  (** a missing entry stays missing, whatever the type *)
  Lemma infer_na l i : nth_error l i = Some None \/ (exists s, nth_error l i = Some (Some s) /\ na_name s) -> nth_error (infer numeric l) i = Some CNA.
  Proof.
    intros H. unfold infer. rewrite nth_error_map. destruct H as [-> |(s & -> & Hs)]; cbn [option_map is_na]; [reflexivity|].
    rewrite (proj2 (memb_in _ _) Hs). reflexivity.
  Qed.
  Lemma infer_na_in l s : In (Some s) l -> na_name s -> In CNA (infer numeric l).
  Proof.
    intros H Hs. apply In_nth_error in H as [i Hi]. eapply nth_error_In. apply infer_na with (i := i). right. eauto.
  Qed.
  (** a column of numbers is not a column of texts *)
  Lemma infer_numbers l : Forall (fun x => exists s v, x = Some s /\ numeric s = Some v) l ->
    Forall (fun c => forall s, c <> CStr s) (infer numeric l).
  Proof.
    intros H. unfold infer.
    assert (E : forallb (fun x => is_na x || match x with Some s => is_num numeric s | None => true end) l = true).
    { apply forallb_forall. intros x Hx. rewrite List.Forall_forall in H. destruct (H x Hx) as (s & v & -> & E).
      unfold is_num. rewrite E. apply orb_true_r. }
    rewrite E. apply List.Forall_forall. intros c Hc s. apply in_map_iff in Hc as (x & <- & _).
    destruct (is_na x); [discriminate|]. destruct x as [w|]; [|discriminate]. destruct (numeric w); discriminate.
  Qed.
End infer.

Lemma pmap_ret {A B} (f : A -> py B) (g : A -> B) l : Forall (fun x => f x = Ret (g x)) l -> pmap f l = Ret (map g l).
Proof. induction 1 as [|x l Hx _ IH]; cbn [pmap map]; [reflexivity|]. rewrite Hx, IH. reflexivity. Qed.
Lemma pmap_in {A B} (f : A -> py B) l ys : pmap f l = Ret ys -> Forall2 (fun x y => f x = Ret y) l ys.
Proof.
  revert ys. induction l as [|x l IH]; intros ys; cbn [pmap]; [intros [= <-]; constructor|].
  destruct (f x) as [y| | |] eqn:E; cbn [pbind]; try discriminate. destruct (pmap f l) as [zs| | |]; cbn [pbind]; try discriminate.
  intros [= <-]. constructor; auto.
Qed.
Lemma fromhex_cell_out c : (forall s, c <> CStr s) -> fromhex_cell c = Raise.
Proof. destruct c; intros H; try reflexivity. exfalso. eapply H. reflexivity. Qed.
Lemma fromhex_raises l : (forall s, exists v, fromhex s = Ret v \/ fromhex s = Raise) -> forall c, In c l -> (forall s, c <> CStr s) -> pmap fromhex_cell l = Raise.
Proof.
  intros T c. induction l as [|d l IH]; intros Hi Hc; [destruct Hi|]. cbn [pmap]. destruct Hi as [-> |Hi].
  - rewrite fromhex_cell_out by exact Hc. reflexivity.
  - rewrite (IH Hi Hc). destruct d; cbn [fromhex_cell]; try reflexivity. destruct (T s) as [v [-> | ->]]; reflexivity.
Qed.
Lemma fromhex_total s : exists v, fromhex s = Ret v \/ fromhex s = Raise.
Proof.
  unfold fromhex. destruct (take_sign _) as [g l]. destruct (after _ l) as [r|].
  - destruct (after _ r); destruct (only_spaces _); eauto using 0.
  - destruct (after _ l) as [r|]; [destruct (only_spaces r); eauto using 0|].
    destruct (hexrun _ 0 0) as [[m n] r]. destruct (match r with [] => _ | c :: r' => _ end) as [[[m' n'] k] r'].
    destruct (n' =? 0); [eauto using 0|]. unfold parse_exp. destruct r' as [|c r''].
    + cbn [pbind]. cbn. destruct (is_inf _ _); eauto using 0.
    + destruct (lower c =? 112).
      * destruct (take_sign r'') as [s1 l1]. destruct (decrun l1 0 0) as [[e n1] r1]. destruct (n1 =? 0); cbn [pbind]; [eauto using 0|].
        destruct (negb _); [eauto using 0|]. destruct (is_inf _ _); eauto using 0.
      * cbn [pbind]. destruct (negb _); [eauto using 0|]. destruct (is_inf _ _); eauto using 0.
  Unshelve. all: exact 0.
Qed.

(** ** The file written by vfc_dump_probes *)
Definition header_names : list (list Z) :=
  [bytes "test"; bytes "variable"; bytes "value"; bytes "accuracy_threshold"; bytes "check_mode"]%string.
Definition file_of (ps : list probe_req) : list Z :=
  csv_header ++ [newline] ++ concat (map (fun l => l ++ [newline]) (map (line_of fmt_a) ps)).

Lemma dump_file rs : malloc_ok rs -> Z.of_nat (length rs) <= HashMapProofs.max_inserts ->
  forall st, ofold probe_kernel rs init_probes = Ok st ->
  Forall (fun r => ~ has_comma r) rs /\ exists ps, dump_probes fmt_a st = Ok (file_of ps) /\ ps ≡ₚ rs.
Proof.
  intros Hok HN st Hst. pose proof Hok as [Hnd Hleg].
  destruct (probes_run rs) as [(m & Hrun & Hm & Hnc)|[Hrun _]]; [split; assumption|assumption| |congruence].
  assert (st = mk_pstate m (heap_of rs)) by congruence. subst st. split; [exact Hnc|].
  destruct (HashMapProofs.hashmap_inserts (map req_pair rs)) as (m0 & Hm0 & Hnum & _ & Hperm);
    [rewrite map_length; assumption|apply forall_pairs; assumption|rewrite map_pairs; assumption|].
  assert (m0 = m) by congruence. subst m0.
  assert (Haddr : (filter (fun sl : Z * Z => sl.1 <> 0) (hm_items m)).*1 ≡ₚ map pr_addr rs).
  { rewrite <- map_pairs, <- Hperm. rewrite <- list_fmap_compose. reflexivity. }
  destruct (dump_items_spec fmt_a (hm_items m) rs) as (ps & H1 & H2 & H3); [|assumption|].
  { intros v k Hin Hv. assert (Hv' : v ∈ map pr_addr rs).
    { rewrite <- Haddr. apply elem_of_list_fmap. exists (v, k). split; [reflexivity|].
      apply elem_of_list_filter. auto. }
    apply elem_of_list_In, in_map_iff in Hv' as (r & Er & Hr). eauto. }
  exists ps. split; [|apply addr_perm; [assumption|assumption|rewrite H2; assumption]].
  unfold dump_probes. cbn [ps_map ps_heap]. rewrite H1. cbn [bind]. reflexivity.
Qed.

(** a request whose record can be split again *)
Definition splits (r : probe_req) : Prop := ~ has_comma r /\ no_newline r.
Lemma clean_no_newline r : clean_name (pr_test r) -> clean_name (pr_var r) -> no_newline r.
Proof.
  intros H1 H2. split; intros Hi; [apply (proj1 (List.Forall_forall _ _) H1) in Hi|apply (proj1 (List.Forall_forall _ _) H2) in Hi];
    unfold name_byte, newline in Hi; lia.
Qed.

Lemma line_not_blank r : forallb is_blank (line_of fmt_a r) = false.
Proof.
  apply not_true_iff_false. rewrite forallb_forall. intros H. specialize (H comma). unfold line_of, gen_probe_key in H.
  assert (is_blank comma = true) as E; [|discriminate]. apply H. rewrite !in_app_iff. left. right. left. left. reflexivity.
Qed.
Lemma filter_lines ls : Forall (fun l => forallb is_blank l = false) ls -> List.filter (fun l => negb (forallb is_blank l)) ls = ls.
Proof. induction 1 as [|l ls Hl _ IH]; cbn [List.filter]; [reflexivity|]. rewrite Hl. cbn [negb]. rewrite IH. reflexivity. Qed.

Lemma header_split : split_on comma csv_header = header_names.
Proof. vm_compute. reflexivity. Qed.
Lemma header_no_newline : ~ In newline csv_header.
Proof. vm_compute. intros H. repeat destruct H as [H|H]; try discriminate; assumption. Qed.

Lemma read_csv_file ps : Forall splits ps -> read_csv (file_of ps) = Some (header_names, map (req_fields fmt_a) ps).
Proof.
  intros H. unfold read_csv, lines, file_of. cbn [app]. rewrite split_on_app by exact header_no_newline.
  rewrite split_on_lines.
  2:{ apply List.Forall_forall. intros l Hl. apply in_map_iff in Hl as (r & <- & Hr). rewrite List.Forall_forall in H.
      apply line_no_newline; [apply (H r Hr)|intros v; apply fmt_a_plain]. }
  cbn [List.filter]. change (forallb is_blank csv_header) with false. cbn [negb].
  rewrite List.filter_app. cbn [List.filter forallb negb]. rewrite app_nil_r, filter_lines.
  2:{ apply List.Forall_forall. intros l Hl. apply in_map_iff in Hl as (r & <- & _). apply line_not_blank. }
  rewrite header_split, map_map. do 2 f_equal. apply map_ext_in. intros r Hr. rewrite List.Forall_forall in H.
  apply split_line; [apply (H r Hr)|intros v; apply fmt_a_plain].
Qed.

Lemma zip5_map {A} (f1 f2 f5 : A -> cell) (f3 f4 : A -> Z) l :
  zip5 (map f1 l) (map f2 l) (map f3 l) (map f4 l) (map f5 l) = map (fun x => mk_prow (f1 x) (f2 x) (f3 x) (f4 x) (f5 x)) l.
Proof. induction l as [|x l IH]; cbn; [reflexivity|]. rewrite IH. reflexivity. Qed.

(** the five columns of such a file *)
Lemma columns_file numeric ps :
  column numeric (header_names, map (req_fields fmt_a) ps) (bytes "test"%string) = Ret (infer numeric (map Some (map pr_test ps))) /\
  column numeric (header_names, map (req_fields fmt_a) ps) (bytes "variable"%string) = Ret (infer numeric (map Some (map pr_var ps))) /\
  column numeric (header_names, map (req_fields fmt_a) ps) (bytes "value"%string) = Ret (infer numeric (map Some (map (fun r => fmt_a (pr_val r)) ps))) /\
  column numeric (header_names, map (req_fields fmt_a) ps) (bytes "accuracy_threshold"%string) = Ret (infer numeric (map Some (map (fun r => fmt_a (pr_thr r)) ps))) /\
  column numeric (header_names, map (req_fields fmt_a) ps) (bytes "check_mode"%string) = Ret (infer numeric (map Some (map (fun r => mode_text (pr_mode r)) ps))).
Proof.
  unfold column. cbn [fst snd]. rewrite !map_map.
  repeat split; (match goal with |- context [index_of ?a ?b] => let v := eval vm_compute in (index_of a b) in change (index_of a b) with v end; cbv iota; rewrite map_map; reflexivity).
Qed.

Section read.
  Context (numeric : list Z -> option Z) (Hx : hex_not_numeric numeric) (Hmn : modes_not_numeric numeric).

  Definition some_finite (l : list Z) : Prop := Exists (fun v => is_finite binary64 v = true) l.
  Definition good_double (v : Z) : Prop := is_bits binary64 v /\ is_nan binary64 v = false.

  Lemma doubles_text l : some_finite l -> text_column numeric (map fmt_a l).
  Proof.
    intros H. split; apply List.Exists_exists; apply List.Exists_exists in H as (v & Hv & F); exists (fmt_a v);
      (split; [apply in_map; exact Hv|]); pose proof (fmt_a_hex v F) as X; split; auto using hex_not_na, hex_not_bool.
  Qed.
  Lemma read_doubles l : Forall good_double l -> l = [] \/ some_finite l ->
    pmap fromhex_cell (infer numeric (map Some (map fmt_a l))) = Ret l.
  Proof.
    intros Hg H. rewrite infer_names.
    - rewrite <- (map_id l) at 2. rewrite map_map. erewrite pmap_ret with (g := fun c => match c with CStr s => match fromhex s with Ret v => v | _ => 0 end | _ => 0 end).
      + rewrite map_map. f_equal. apply map_ext_in. intros v Hv. rewrite List.Forall_forall in Hg. destruct (Hg v Hv). rewrite fromhex_fmt by assumption. reflexivity.
      + apply List.Forall_forall. intros c Hc. apply in_map_iff in Hc as (v & <- & Hv). rewrite List.Forall_forall in Hg. destruct (Hg v Hv).
        cbn [fromhex_cell]. rewrite fromhex_fmt by assumption. reflexivity.
    - apply List.Forall_forall. intros s Hs. apply in_map_iff in Hs as (v & <- & Hv). rewrite List.Forall_forall in Hg. apply fmt_a_not_na, (Hg v Hv).
    - destruct H as [-> |H]; [left; reflexivity|right; apply doubles_text; exact H].
  Qed.
  Lemma modes_text ps : ps = [] \/ text_column numeric (map (fun r => mode_text (pr_mode r)) ps).
  Proof.
    destruct ps as [|r ps]; [left; reflexivity|right]. split; constructor; split; auto using mode_not_na, mode_not_bool.
  Qed.

  Definition readable (ps : list probe_req) : Prop :=
    Forall (fun r => ~ na_name (pr_test r) /\ ~ na_name (pr_var r) /\ good_double (pr_val r) /\ good_double (pr_thr r)) ps /\
    (ps = [] \/ text_column numeric (map pr_test ps) /\ text_column numeric (map pr_var ps) /\
                some_finite (map pr_val ps) /\ some_finite (map pr_thr ps)).

  Lemma read_file ps : Forall splits ps -> readable ps ->
    read_probes numeric (file_of ps) = Ret (match ps with [] => true | _ => false end, map row_of ps).
  Proof.
    intros Hs [Hg Hc]. unfold read_probes. rewrite read_csv_file by exact Hs.
    destruct (columns_file numeric ps) as (E1 & E2 & E3 & E4 & E5). rewrite E3. cbn [pbind].
    rewrite <- (map_map pr_val fmt_a), read_doubles.
    2:{ apply List.Forall_map. eapply List.Forall_impl; [|exact Hg]. cbn. tauto. }
    2:{ destruct Hc as [-> |Hc]; [left; reflexivity|right; tauto]. }
    cbn [pbind]. rewrite E4. cbn [pbind]. rewrite <- (map_map pr_thr fmt_a), read_doubles.
    2:{ apply List.Forall_map. eapply List.Forall_impl; [|exact Hg]. cbn. tauto. }
    2:{ destruct Hc as [-> |Hc]; [left; reflexivity|right; tauto]. }
    cbn [pbind]. rewrite E1, E2, E5. cbn [pbind snd]. f_equal. f_equal; [destruct ps; reflexivity|].
    rewrite !infer_names.
    - rewrite !map_map. rewrite zip5_map. reflexivity.
    - apply List.Forall_map, List.Forall_forall. intros r _. apply mode_not_na.
    - destruct (modes_text ps) as [-> |H]; [left; reflexivity|right; exact H].
    - apply List.Forall_map. eapply List.Forall_impl; [|exact Hg]. cbn. tauto.
    - destruct Hc as [-> |Hc]; [left; reflexivity|right; tauto].
    - apply List.Forall_map. eapply List.Forall_impl; [|exact Hg]. cbn. tauto.
    - destruct Hc as [-> |Hc]; [left; reflexivity|right; tauto].
  Qed.
End read.

(** ** What makes the tool stop *)
Lemma read_nan numeric ps r : Forall splits ps -> In r ps -> is_nan binary64 (pr_val r) = true -> read_probes numeric (file_of ps) = Raise.
Proof.
  intros Hs Hr Hn. unfold read_probes. rewrite read_csv_file by exact Hs.
  destruct (columns_file numeric ps) as (_ & _ & -> & _ & _). cbn [pbind].
  rewrite fromhex_raises with (c := CNA); [reflexivity|exact fromhex_total| |discriminate].
  eapply infer_na_in; [apply in_map, in_map_iff; exists r; split; [reflexivity|exact Hr]|].
  cbv beta. destruct (fmt_a_nan _ Hn) as [-> | ->]; apply memb_in; vm_compute; reflexivity.
Qed.
Lemma read_infinite numeric ps : numeric (bytes "inf"%string) <> None -> numeric (bytes "-inf"%string) <> None ->
  Forall splits ps -> ps <> [] -> Forall (fun r => is_inf binary64 (pr_val r) = true) ps -> read_probes numeric (file_of ps) = Raise.
Proof.
  intros H1 H2 Hs Hne Hi. unfold read_probes. rewrite read_csv_file by exact Hs.
  destruct (columns_file numeric ps) as (_ & _ & -> & _ & _). cbn [pbind].
  assert (Forall (fun c => forall s, c <> CStr s) (infer numeric (map Some (map (fun r => fmt_a (pr_val r)) ps)))) as F.
  { apply infer_numbers. apply List.Forall_map, List.Forall_map. eapply List.Forall_impl; [|exact Hi]. intros r Hr. cbv beta in *.
    destruct (fmt_a_inf _ Hr) as [E|E]; rewrite E.
    - destruct (numeric (bytes "inf")) as [v|] eqn:N; [|congruence]. exists (bytes "inf"), v. auto.
    - destruct (numeric (bytes "-inf")) as [v|] eqn:N; [|congruence]. exists (bytes "-inf"), v. auto. }
  destruct ps as [|r ps]; [congruence|].
  pose proof (infer_length numeric (map Some (map (fun r => fmt_a (pr_val r)) (r :: ps)))) as L.
  destruct (infer numeric _) as [|c cs]; [discriminate|].
  rewrite fromhex_raises with (c := c); [reflexivity|exact fromhex_total|left; reflexivity|]. inversion F; assumption.
Qed.
