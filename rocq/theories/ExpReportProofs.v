(** Proofs about the report of the precision exploration (ExpReportModel.v). *)
From Coq Require Import String ZArith List Bool Lia Sorting Permutation.
From Verif Require Import Common Text HashModel WrapParseProofs DDModel VfiModel VfiFile PrecexpModel PrecexpFile ExpReportModel.
Import ListNotations.
Open Scope Z_scope.

(** the ID of a call site, as the pass makes it: path of the file, parent, name, line, number *)
Definition named_as (id : list Z) (i : info) : Prop :=
  exists path, id = full_id path (i_parent i) (i_name i) (i_line i) (i_number i) /\ (path = i_file i \/ exists d, path = d ++ slash :: i_file i) /\
  no slash (i_file i) /\ no slash (i_parent i) /\ no slash (i_name i) /\ int32 (i_line i) /\ int32 (i_number i).

Lemma cut_app a b : no slash b -> cut (a ++ slash :: b) = (a, b).
Proof. intros H. unfold cut. rewrite rcut_app by exact H. reflexivity. Qed.
Lemma info_ok id i : named_as id i -> get_function_info id = Ret i.
Proof.
  intros (path & -> & Hp & H1 & H2 & H3 & H4 & H5). unfold get_function_info, full_id.
  rewrite cut_app by (apply no_slash_zdec; exact H5). rewrite py_int_zdec by exact H5. cbn [pbind].
  rewrite cut_app by (apply no_slash_zdec; exact H4). rewrite py_int_zdec by exact H4. cbn [pbind].
  rewrite !cut_app by assumption. destruct Hp as [-> | [d ->]].
  - unfold cut. rewrite rcut_none by exact H1. destruct i; reflexivity.
  - rewrite cut_app by exact H1. destruct i; reflexivity.
Qed.
Lemma named_inj id i j : named_as id i -> named_as id j -> i = j.
Proof. intros H1 H2. apply info_ok in H1, H2. congruence. Qed.
Lemma split_on_mid c a b : split_on c (a ++ c :: b) = split_on c a ++ split_on c b.
Proof.
  induction a as [|x a IH]; cbn [app split_on]; [rewrite Z.eqb_refl; reflexivity|]. rewrite IH. destruct (Z.eqb_spec x c); [reflexivity|].
  destruct (split_on c a) eqn:E; [|reflexivity]. destruct a; cbn in E; [discriminate|]. destruct (z =? c); [discriminate|]. destruct (split_on c a); discriminate.
Qed.
Lemma name_part id i : named_as id i -> nth 2 (rev (split_on slash id)) [] = i_name i.
Proof.
  intros (path & -> & _ & _ & _ & H3 & H4 & H5). unfold full_id. rewrite !split_on_mid.
  rewrite (split_on_nosep slash (zdec (i_number i))) by (apply no_slash_zdec; exact H5). rewrite (split_on_nosep slash (zdec (i_line i))) by (apply no_slash_zdec; exact H4).
  rewrite (split_on_nosep slash (i_name i)) by exact H3. rewrite !rev_app_distr. reflexivity.
Qed.

Lemma bytes_eqb_true a b : bytes_eqb a b = true <-> a = b.
Proof. unfold bytes_eqb. destruct (list_eq_dec Z.eq_dec a b); split; congruence. Qed.
Lemma bytes_eqb_refl a : bytes_eqb a a = true.
Proof. apply bytes_eqb_true. reflexivity. Qed.

(** ** Files *)
Lemma content_acc (w : list write) name : forall (acc : option picture) p, (acc = Some p \/ In (name, p) w) -> (forall q, acc = Some q -> q = p) -> (forall q, In (name, q) w -> q = p) ->
  fold_left (fun acc x => if bytes_eqb (fst x) name then Some (snd x) else acc) w acc = Some p.
Proof.
  induction w as [|[n q] w IH]; intros acc p H A B; cbn [fold_left].
  - destruct H as [H | []]; exact H.
  - cbn [fst snd]. destruct (bytes_eqb n name) eqn:E.
    + apply bytes_eqb_true in E. subst n. pose proof (B q (or_introl eq_refl)). subst q. apply IH; [left; reflexivity|congruence|].
      intros q' I. apply B. right. exact I.
    + assert (N : n <> name) by (intros ->; rewrite bytes_eqb_refl in E; discriminate).
      apply IH; [|exact A|intros q' I; apply B; right; exact I]. destruct H as [H | [H | H]]; [left; exact H|congruence|right; exact H].
Qed.
Lemma content_ok w name p : In (name, p) w -> (forall q, In (name, q) w -> q = p) -> content w name = Some p.
Proof. intros H B. apply content_acc; [right; exact H|discriminate|exact B]. Qed.

(** ** The dictionaries *)
Definition zsum (l : list Z) : Z := fold_right Z.add 0 l.
Lemma zsum_app a b : zsum (a ++ b) = zsum a + zsum b.
Proof. induction a as [|x a IH]; cbn; [reflexivity|]. unfold zsum in *. rewrite IH. lia. Qed.
(** the name of the called function *)
Definition called (n : list Z) (o : prow) : bool := bytes_eqb (nth 2 (rev (split_on slash (o_id o))) []) n.
Definition entry_ok (pre : list (nat * prow)) (e : entry) : Prop :=
  fst (snd e) = zsum (map (fun x => o_calls (snd x)) (filter (fun x => called (fst e) (snd x)) pre)) /\
  snd (snd e) = map fst (filter (fun x => called (fst e) (snd x)) pre).
Definition dict_ok (pre : list (nat * prow)) (d : list entry) : Prop :=
  NoDup (map fst d) /\ (forall n, In n (map fst d) <-> exists x, In x pre /\ called n (snd x) = true) /\ Forall (entry_ok pre) d.

Lemma add_call_keys name k i d : forall n, In n (map fst (add_call name k i d)) <-> n = name \/ In n (map fst d).
Proof.
  induction d as [|[m [c l]] d IH]; intros n; cbn [add_call].
  - cbn. intuition congruence.
  - destruct (bytes_eqb m name) eqn:E; cbn [map fst].
    + apply bytes_eqb_true in E. subst m. cbn. intuition congruence.
    + cbn [In]. rewrite IH. intuition.
Qed.
Lemma add_call_nodup name k i d : NoDup (map fst d) -> NoDup (map fst (add_call name k i d)).
Proof.
  induction d as [|[m [c l]] d IH]; intros H; cbn [add_call]; [repeat constructor; intros []|].
  cbn [map fst] in H. inversion H as [|? ? H1 H2]; subst. destruct (bytes_eqb m name) eqn:E; cbn [map fst]; constructor; try assumption.
  - rewrite add_call_keys. intros [-> | I]; [rewrite bytes_eqb_refl in E; discriminate|contradiction].
  - apply IH. exact H2.
Qed.
Lemma called_name o n m : called n o = true -> called m o = true -> n = m.
Proof. unfold called. rewrite !bytes_eqb_true. congruence. Qed.
Lemma filter_snoc {A} (f : A -> bool) l x : filter f (l ++ [x]) = filter f l ++ (if f x then [x] else []).
Proof. rewrite filter_app. reflexivity. Qed.
Lemma entry_skip pre x e : called (fst e) (snd x) = false -> entry_ok pre e -> entry_ok (pre ++ [x]) e.
Proof. intros H [A B]. unfold entry_ok. rewrite filter_snoc, H, app_nil_r. split; assumption. Qed.
Lemma add_call_ok pre i o name d : called name o = true -> dict_ok pre d -> dict_ok (pre ++ [(i, o)]) (add_call name (o_calls o) i d).
Proof.
  intros C (ND & K & F). split; [apply add_call_nodup; exact ND|]. split.
  - intros n. rewrite add_call_keys, K. split.
    + intros [-> | (x & I & H)]; [exists (i, o); split; [apply in_app_iff; right; left; reflexivity|exact C]|exists x; split; [apply in_app_iff; left; exact I|exact H]].
    + intros (x & I & H). apply in_app_iff in I. destruct I as [I | [<- | []]]; [right; exists x; tauto|left; eapply called_name; eassumption].
  - assert (Fresh : ~ In name (map fst d) -> filter (fun x : nat * prow => called name (snd x)) pre = []).
    { intros N. destruct (filter (fun x : nat * prow => called name (snd x)) pre) as [|x l] eqn:E; [reflexivity|]. exfalso. apply N, K. exists x.
      assert (I : In x (filter (fun x : nat * prow => called name (snd x)) pre)) by (rewrite E; left; reflexivity). apply filter_In in I. tauto. }
    clear K. induction d as [|[m [c l]] d IH]; cbn [add_call].
    + constructor; [|constructor]. unfold entry_ok. cbn [fst snd]. rewrite filter_snoc, Fresh by (intros []). cbn [snd app]. rewrite C. cbn. split; [lia|reflexivity].
    + cbn [map fst] in ND. inversion ND as [|? ? N1 N2]; subst. inversion F as [|? ? [F1 F2] F3]; subst. cbn [fst snd] in F1, F2.
      destruct (bytes_eqb m name) eqn:E.
      * apply bytes_eqb_true in E. subst m. constructor.
        -- unfold entry_ok. cbn [fst snd]. rewrite filter_snoc. cbn [snd]. rewrite C, !map_app, zsum_app, <- F1, <- F2. cbn. split; [lia|reflexivity].
        -- rewrite List.Forall_forall in *. intros e I. apply entry_skip; [|apply F3; exact I]. cbn [snd]. destruct (called (fst e) o) eqn:D; [|reflexivity]. exfalso.
           apply N1. rewrite (called_name o _ _ C D). apply in_map. exact I.
      * constructor.
        -- apply entry_skip; [|split; assumption]. cbn [fst snd]. destruct (called m o) eqn:D; [|reflexivity]. rewrite (called_name o _ _ C D), bytes_eqb_refl in E. discriminate.
        -- apply IH; [exact N2|exact F3|]. intros N. apply Fresh. intros [I | I]; [|contradiction]. cbn [fst] in I. subst m. rewrite bytes_eqb_refl in E. discriminate.
Qed.
Lemma count_calls_ok rows : forall pre d, Forall (fun x => exists i, named_as (o_id (snd x)) i) rows -> dict_ok pre d ->
  exists d', count_calls rows d = Ret d' /\ dict_ok (pre ++ rows) d'.
Proof.
  induction rows as [|[i o] rows IH]; intros pre d F D; cbn [count_calls]; [exists d; rewrite app_nil_r; tauto|].
  inversion F as [|? ? [f Hf] F']; subst. cbn [snd] in Hf. rewrite (info_ok _ _ Hf). cbn [pbind].
  destruct (IH (pre ++ [(i, o)]) (add_call (i_name f) (o_calls o) i d) F') as (d' & E & D').
  - apply add_call_ok; [|exact D]. unfold called. rewrite (name_part _ _ Hf). apply bytes_eqb_refl.
  - exists d'. split; [exact E|]. rewrite <- app_assoc in D'. exact D'.
Qed.

(** ** Rows of a function *)
Lemma indexed_fst {A} (l : list A) : map fst (indexed l) = seq 0 (length l).
Proof. unfold indexed. assert (H : forall k, map fst (combine (seq k (length l)) l) = seq k (length l)) by (induction l as [|x l IH]; intros k; cbn; [reflexivity|rewrite IH; reflexivity]). apply H. Qed.
Lemma filter_indexed {A} (P : A -> bool) (l : list A) : map snd (filter (fun x => P (snd x)) (indexed l)) = filter P l.
Proof.
  unfold indexed. generalize 0%nat. induction l as [|x l IH]; intros k; cbn [length seq combine filter map]; [reflexivity|]. cbn [snd].
  destruct (P x); cbn [map snd]; rewrite IH; reflexivity.
Qed.
Lemma nodup_fst {A} (l : list (nat * A)) x y : NoDup (map fst l) -> In x l -> In y l -> fst x = fst y -> x = y.
Proof.
  induction l as [|z l IH]; [intros _ []|]. cbn. intros N [-> | H1] [-> | H2] E; try reflexivity; inversion N as [|? ? N1 N2]; subst.
  - exfalso. apply N1. rewrite E. apply in_map. exact H2.
  - exfalso. apply N1. rewrite <- E. apply in_map. exact H1.
  - apply IH; assumption.
Qed.
Lemma rows_of_ok P (l : list prow) : rows_of l (map fst (filter (fun x => P (snd x)) (indexed l))) = filter P l.
Proof.
  unfold rows_of. rewrite <- (filter_indexed P l). f_equal. apply filter_ext_in. intros x I.
  destruct (P (snd x)) eqn:E.
  - apply existsb_exists. exists (fst x). split; [apply in_map, filter_In; tauto|apply Nat.eqb_refl].
  - apply not_true_is_false. intros H. apply existsb_exists in H. destruct H as (k & Hk & Ek). apply Nat.eqb_eq in Ek. apply in_map_iff in Hk. destruct Hk as (y & <- & Iy).
    apply filter_In in Iy. destruct Iy as [Iy Py]. rewrite (nodup_fst (indexed l) x y) in E; [congruence| |exact I|exact Iy|exact Ek]. rewrite indexed_fst. apply seq_NoDup.
Qed.
Lemma in_indexed {A} (l : list A) o : In o l <-> exists i, In (i, o) (indexed l).
Proof.
  unfold indexed. generalize 0%nat. induction l as [|x l IH]; intros k; cbn [length seq combine].
  - split; [intros []|intros [i []]].
  - split.
    + intros [-> | H]; [exists k; left; reflexivity|]. destruct (proj1 (IH (S k)) H) as [i Hi]. exists i. right. exact Hi.
    + intros [i [H | H]]; [injection H; intros; subst; left; reflexivity|right; apply (IH (S k)); exists i; exact H].
Qed.

(** ** Call sites *)
Definition type_word (t : Z) : list Z := if t =? 0 then bytes " Float " else if t =? 1 then bytes " Double " else if t =? 2 then bytes " Float ptr " else bytes " Double ptr ".
Definition bar_for (r : arow) : bar := mk_bar (r_io r ++ type_word (r_type r) ++ r_arg r) (r_min r) (r_max r) (r_range r) (r_prec r).
Section Sites.
  Context (is_text : list Z -> bool) (ops : list prow) (args all_args : list arow).
  Definition row_ok (o : prow) : Prop :=
    (exists i, named_as (o_id o) i) /\ In (o_id o) (map o_id ops) /\ (o_nin o + o_nout o <> 0 -> In (o_id o) (map r_id args) /\ In (o_id o) (map r_id all_args)).
  Hypothesis Hops : NoDup (map o_id ops).
  Hypothesis Htext : forall r, In r (args ++ all_args) -> is_text (r_arg r) = true.
  Definition own (l : list arow) (o : prow) : list arow := filter (fun r => bytes_eqb (r_id r) (o_id o)) l.

  Lemma bars_ok l : (forall r, In r l -> is_text (r_arg r) = true) -> bars is_text l = Ret (map bar_for l).
  Proof.
    induction l as [|r l IH]; intros H; [reflexivity|]. cbn [bars map]. unfold label. rewrite (H r) by (left; reflexivity). cbn [pbind].
    rewrite IH by (intros x I; apply H; right; exact I). reflexivity.
  Qed.
  Lemma plot_args_ok l o t : In (o_id o) (map r_id l) -> (forall r, In r l -> is_text (r_arg r) = true) ->
    plot_args is_text (own l o) t = Ret (Args t (map bar_for (own l o))).
  Proof.
    intros I T. unfold plot_args. rewrite bars_ok.
    - cbn [pbind]. destruct (map bar_for (own l o)) eqn:E; [|reflexivity]. exfalso. apply in_map_iff in I. destruct I as (r & Er & Ir).
      assert (In r (own l o)) by (apply filter_In; split; [exact Ir|apply bytes_eqb_true; exact Er]). destruct (own l o); [contradiction|discriminate].
    - intros r J. apply filter_In in J. apply T. tauto.
  Qed.

  Definition site_for (i : info) (k o : prow) : site :=
    let c := chart_id i in let h := negb (o_nin o + o_nout o =? 0) in let m := (o_int k =? 0) && (o_lib k =? 0) in
    mk_site c (heading i (o_calls o)) (link h (c ++ bytes "_Args")) (link m (c ++ bytes "_Ops")) (link h (c ++ bytes "_ArgsOnly")) (link m (c ++ bytes "_OpsOnly")).
  Definition writes_for (i : info) (k o : prow) : list write :=
    let c := chart_id i in let h := negb (o_nin o + o_nout o =? 0) in let m := (o_int k =? 0) && (o_lib k =? 0) in
    let both := bytes " after arguments and operations research" in
    (if h then [(c ++ bytes "_Args", Args (title args_title i both) (map bar_for (own all_args o)))] else []) ++
    (if m then [(c ++ bytes "_Ops", plot_ops o (title ops_title i both))] else []) ++
    (if h then [(c ++ bytes "_ArgsOnly", Args (title args_title i (bytes " after arguments only research")) (map bar_for (own args o)))] else []) ++
    (if m then [(c ++ bytes "_OpsOnly", plot_ops o (title ops_title i (bytes " after operations only research")))] else []).

  Lemma find_row o k : In k ops -> o_id k = o_id o -> find (fun r => bytes_eqb (o_id r) (o_id o)) ops = Some k.
  Proof.
    clear Htext. induction ops as [|x l IH]; intros I E; [destruct I|]. cbn [find map] in *. inversion Hops as [|? ? N1 N2]; subst. destruct I as [-> | I].
    - rewrite E, bytes_eqb_refl. reflexivity.
    - destruct (bytes_eqb (o_id x) (o_id o)) eqn:B; [|apply IH; assumption]. apply bytes_eqb_true in B. exfalso. apply N1. rewrite B, <- E. apply in_map. exact I.
  Qed.
  Lemma site_of_ok o : row_ok o -> exists i k, named_as (o_id o) i /\ In k ops /\ o_id k = o_id o /\ site_of is_text ops args all_args o = Ret (site_for i k o, writes_for i k o).
  Proof.
    intros ([i Hi] & Ik & Ha). apply in_map_iff in Ik. destruct Ik as (k & Ek & Ik). exists i, k. split; [exact Hi|]. split; [exact Ik|]. split; [exact Ek|].
    unfold site_of. rewrite (info_ok _ _ Hi). cbn [pbind]. rewrite (find_row o k Ik Ek). fold (own all_args o). fold (own args o).
    unfold site_for, writes_for. destruct (Z.eqb_spec (o_nin o + o_nout o) 0) as [Z0|Z0]; cbn [negb pbind].
    - reflexivity.
    - destruct (Ha Z0) as [A1 A2]. rewrite !plot_args_ok; [reflexivity|exact A1| |exact A2|]; intros r I; apply Htext, in_app_iff; [left|right]; exact I.
  Qed.
  Definition for_row (o : prow) (i : info) (k : prow) : Prop := named_as (o_id o) i /\ In k ops /\ o_id k = o_id o.
  Lemma for_row_inj o i k i' k' : for_row o i k -> for_row o i' k' -> i = i' /\ k = k'.
  Proof.
    intros (A & B & C) (A' & B' & C'). split; [eapply named_inj; eassumption|]. pose proof (find_row o k B C). pose proof (find_row o k' B' C'). congruence.
  Qed.
  Lemma sites_of_ok l : Forall row_ok l -> exists ss ws, sites_of is_text ops args all_args l = Ret (ss, ws) /\
    Forall2 (fun o s => exists i k, for_row o i k /\ s = site_for i k o) l ss /\
    (forall w, In w ws <-> exists o i k, In o l /\ for_row o i k /\ In w (writes_for i k o)).
  Proof.
    induction 1 as [|o l Ho _ (ss & ws & E & F & W)]; cbn [sites_of].
    - exists [], []. split; [reflexivity|]. split; [constructor|]. intros w. split; [intros []|intros (o & _ & _ & [] & _)].
    - destruct (site_of_ok o Ho) as (i & k & Hi & Ik & Ek & S). rewrite S. cbn [pbind]. rewrite E. cbn [pbind]. eexists _, _. split; [reflexivity|]. split.
      + constructor; [|exact F]. exists i, k. split; [|reflexivity]. exact (conj Hi (conj Ik Ek)).
      + intros w. rewrite in_app_iff, W. split.
        * intros [I | (o' & i' & k' & I & R)]; [exists o, i, k; split; [left; reflexivity|split; [exact (conj Hi (conj Ik Ek))|exact I]]|exists o', i', k'; split; [right; exact I|exact R]].
        * intros (o' & i' & k' & [<- | I] & R & J).
          -- left. destruct (for_row_inj o i k i' k' (conj Hi (conj Ik Ek)) R) as [<- <-]. exact J.
          -- right. exists o', i', k'. tauto.
  Qed.

  Context (sort : forall A : Type, (A -> Z) -> list A -> list A) (all_ops : list prow).
  Hypothesis Hsort : forall A key l, Permutation (sort A key l) l.
  Hypothesis Hrows : Forall row_ok all_ops.
  Lemma blocks_of_ok fs : Forall (entry_ok (indexed all_ops)) fs -> exists bs ws, blocks_of is_text sort all_ops ops args all_args fs = Ret (bs, ws) /\
    Forall2 (fun e b => fst b = upper (fst e) /\ Forall2 (fun o s => exists i k, for_row o i k /\ s = site_for i k o) (sort prow o_calls (filter (called (fst e)) all_ops)) (snd b)) fs bs /\
    (forall w, In w ws <-> exists e o i k, In e fs /\ In o all_ops /\ called (fst e) o = true /\ for_row o i k /\ In w (writes_for i k o)).
  Proof.
    induction 1 as [|[n [t l]] fs [_ He] _ (bs & ws & E & F & W)]; cbn [blocks_of].
    - exists [], []. split; [reflexivity|]. split; [constructor|]. intros w. split; [intros []|intros (e & o & i & k & [] & _)].
    - cbn [fst snd] in He. subst l. rewrite rows_of_ok.
      destruct (sites_of_ok (sort prow o_calls (filter (called n) all_ops))) as (ss & ws' & E' & F' & W').
      { rewrite List.Forall_forall in *. intros o I. apply (Permutation_in _ (Hsort _ _ _)) in I. apply filter_In in I. apply Hrows. tauto. }
      rewrite E'. cbn [pbind]. rewrite E. cbn [pbind]. eexists _, _. split; [reflexivity|]. split.
      + constructor; [|exact F]. split; [reflexivity|exact F'].
      + intros w. rewrite in_app_iff, W, W'. split.
        * intros [(o & i & k & I & R) | (e & o & i & k & I & R)].
          -- apply (Permutation_in _ (Hsort _ _ _)) in I. apply filter_In in I. exists (n, (t, map fst (filter (fun x => called n (snd x)) (indexed all_ops)))), o, i, k. cbn [fst]. split; [left; reflexivity|tauto].
          -- exists e, o, i, k. split; [right; exact I|exact R].
        * intros (e & o & i & k & [<- | I] & J & C & R).
          -- left. exists o, i, k. split; [|exact R]. apply (Permutation_in _ (Permutation_sym (Hsort _ _ _))). apply filter_In. split; [exact J|exact C].
          -- right. exists e, o, i, k. tauto.
  Qed.
End Sites.
