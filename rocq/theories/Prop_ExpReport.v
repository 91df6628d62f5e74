(** C108, C109: the HTML report of the precision exploration (vfc_report). *)
From Coq Require Import String ZArith List Bool Lia Sorting Permutation.
From Verif Require Import Common Text HashModel WrapParseProofs DDModel VfiModel VfiFile PrecexpModel PrecexpFile ExpReportModel ExpReportProofs.
Import ListNotations.
Open Scope Z_scope.

(** what sort_values(by=key, ascending=False) does *)
Definition sorts (sort : forall A : Type, (A -> Z) -> list A -> list A) : Prop :=
  forall A key l, Permutation (sort A key l) l /\ StronglySorted (fun a b => key b <= key a) (sort A key l).

(** The results of a complete exploration: IDs as verificarlo makes them, each function in OperationsResults.csv, each function with
    arguments in both files of arguments, names of arguments pandas reads as texts. *)
Record explored (is_text : list Z -> bool) (args : list arow) (ops : list prow) (all_args : list arow) (all_ops : list prow) : Prop :=
  { e_ids : forall id, In id (map o_id all_ops ++ map o_id ops ++ map r_id args ++ map r_id all_args) -> exists i, named_as id i;
    e_once : NoDup (map o_id ops);
    e_ops : forall o, In o all_ops -> In (o_id o) (map o_id ops);
    e_args : forall o, In o all_ops -> o_nin o + o_nout o <> 0 -> In (o_id o) (map r_id args) /\ In (o_id o) (map r_id all_args);
    e_text : forall r, In r (args ++ all_args) -> is_text (r_arg r) = true }.

(** The ID of a call site in the page, which begins the names of its images *)
Definition page_id (i : info) : list Z := dots (i_file i) ++ bytes "_" ++ dots (i_name i) ++ bytes "_" ++ zdec (i_number i).
(** A call site as the report presents it: [k] is its row in OperationsResults.csv *)
Definition presents (i : info) (k o : prow) (s : site) : Prop :=
  s_chart s = page_id i /\
  s_heading s = bytes "Call to " ++ upper (i_name i) ++ bytes " in " ++ i_file i ++ bytes " at line " ++ zdec (i_line i) ++ bytes " executed " ++ zdec (o_calls o) ++ bytes " time(s):" /\
  (o_nin o + o_nout o = 0 -> s_args s = None /\ s_args_only s = None) /\
  (o_nin o + o_nout o <> 0 -> s_args s = Some (page_id i ++ bytes "_Args") /\ s_args_only s = Some (page_id i ++ bytes "_ArgsOnly")) /\
  (o_int k = 0 /\ o_lib k = 0 -> s_ops s = Some (page_id i ++ bytes "_Ops") /\ s_ops_only s = Some (page_id i ++ bytes "_OpsOnly")) /\
  (~ (o_int k = 0 /\ o_lib k = 0) -> s_ops s = None /\ s_ops_only s = None).

Lemma filter_functions_all {A} (id : A -> list Z) wanted (whole todo : list A) : (forall r, In r todo -> exists i, named_as (id r) i) -> filter_functions id wanted whole todo = Ret whole.
Proof.
  induction todo as [|r todo IH]; intros H; cbn [filter_functions]; [reflexivity|]. destruct (H r (or_introl eq_refl)) as [i Hi]. rewrite (info_ok _ _ Hi). cbn [pbind].
  apply IH. intros x I. apply H. right. exact I.
Qed.
Lemma presents_ok i k o : presents i k o (site_for i k o).
Proof.
  unfold presents, site_for, link. destruct (Z.eqb_spec (o_nin o + o_nout o) 0), (Z.eqb_spec (o_int k) 0), (Z.eqb_spec (o_lib k) 0); cbn [negb andb s_chart s_heading s_args s_ops s_args_only s_ops_only];
    (split; [reflexivity|]); (split; [reflexivity|]); repeat split; intros; try reflexivity; try tauto; try lia.
Qed.

Lemma dict_start : dict_ok [] [].
Proof. split; [constructor|]. split; [|constructor]. intros n. split; [intros []|intros (x & [] & _)]. Qed.
Lemma run_ok is_text sort argv args ops all_args all_ops : sorts sort -> explored is_text args ops all_args all_ops ->
  exists fs bs ws, vfc_report is_text sort false argv (mk_tables (Some args) (Some ops) (Some all_args) (Some all_ops)) = Ret (mk_report (map (fun e => (upper (fst e), fst (snd e))) fs) bs ws) /\
    dict_ok (indexed all_ops) fs /\ StronglySorted (fun a b : entry => fst (snd b) <= fst (snd a)) fs /\
    Forall2 (fun e b => fst b = upper (fst e) /\ Forall2 (fun o s => exists i k, for_row ops o i k /\ s = site_for i k o) (sort prow o_calls (filter (called (fst e)) all_ops)) (snd b)) fs bs /\
    (forall w, In w ws <-> exists e o i k, In e fs /\ In o all_ops /\ called (fst e) o = true /\ for_row ops o i k /\ In w (writes_for args all_args i k o)).
Proof.
  intros S [E1 E2 E3 E4 E5].
  assert (Rows : Forall (row_ok ops args all_args) all_ops).
  { apply List.Forall_forall. intros o I. split; [|split; [apply E3; exact I|intros Z0; apply E4; assumption]]. apply E1, in_app_iff. left. apply in_map. exact I. }
  destruct (count_calls_ok (indexed all_ops) [] []) as (d & Ed & D); [|exact dict_start|].
  { apply List.Forall_forall. intros [j o] I. cbn [snd]. apply E1, in_app_iff. left. apply in_map. apply in_indexed. exists j. exact I. }
  cbn [app] in D. set (fs := sort entry (fun e => fst (snd e)) d). destruct (S entry (fun e => fst (snd e)) d) as [P1 P2]. fold fs in P1, P2.
  assert (D' : dict_ok (indexed all_ops) fs).
  { destruct D as (N & K & F). pose proof (Permutation_map fst P1) as PM. split; [eapply Permutation_NoDup; [apply Permutation_sym; exact PM|exact N]|]. split.
    - intros n. rewrite <- K. split; intros I; [eapply Permutation_in; [exact PM|exact I]|eapply Permutation_in; [apply Permutation_sym; exact PM|exact I]].
    - rewrite List.Forall_forall in *. intros e I. apply F. eapply Permutation_in; eassumption. }
  destruct (blocks_of_ok is_text ops args all_args E2 E5 sort all_ops (fun A key l => proj1 (S A key l)) Rows fs (proj2 (proj2 D'))) as (bs & ws & EB & FB & WB).
  exists fs, bs, ws. split; [|split; [exact D'|split; [exact P2|split; [exact FB|exact WB]]]].
  unfold vfc_report. cbn [t_args t_ops t_all_args t_all_ops].
  assert (FF : match argv with
           | [] => Ret (args, ops, all_ops, all_args)
           | _ => pbind (filter_functions r_id argv args args) (fun args => pbind (filter_functions o_id argv ops ops) (fun ops =>
                  pbind (filter_functions o_id argv all_ops all_ops) (fun all_ops => pbind (filter_functions r_id argv all_args all_args) (fun all_args =>
                  Ret (args, ops, all_ops, all_args)))))
           end = Ret (args, ops, all_ops, all_args)).
  { destruct argv; [reflexivity|]. rewrite !filter_functions_all; [reflexivity| | | |]; intros r I; apply E1; rewrite !in_app_iff; eauto using in_map. }
  rewrite FF. cbn [pbind]. rewrite Ed. cbn [pbind]. fold fs. rewrite EB. reflexivity.
Qed.

(** C108. Whatever the names given on the command line, the script vfc_report writes a report of a complete exploration. Its chart has
    each called function once, with the sum of the calls of its call sites, by decreasing number of calls. There is one block for each
    function, in this order, with all its call sites, by decreasing number of calls, each with its file, line and number of calls,
    links to arguments exactly when it has arguments and to operations exactly when it is compiled with verificarlo. Missing: the
    report that is installed (refuted below), and keeping only the functions of the command line (refuted below). *)
Theorem C108_report_partial : forall is_text sort argv args ops all_args all_ops, sorts sort -> explored is_text args ops all_args all_ops ->
  exists p names, vfc_report is_text sort false argv (mk_tables (Some args) (Some ops) (Some all_args) (Some all_ops)) = Ret p /\
  NoDup names /\ (forall n, In n names <-> exists o i, In o all_ops /\ named_as (o_id o) i /\ i_name i = n) /\
  p_chart p = map (fun n => (upper n, zsum (map o_calls (filter (called n) all_ops)))) names /\
  StronglySorted (fun a b => snd b <= snd a) (p_chart p) /\
  Forall2 (fun n b => fst b = upper n /\
    exists l, Permutation l (filter (called n) all_ops) /\ StronglySorted (fun a b => o_calls b <= o_calls a) l /\
      Forall2 (fun o s => exists i k, named_as (o_id o) i /\ In k ops /\ o_id k = o_id o /\ presents i k o s) l (snd b)) names (p_blocks p).
Proof.
  intros is_text sort argv args ops all_args all_ops S E. destruct (run_ok is_text sort argv args ops all_args all_ops S E) as (fs & bs & ws & R & (N & K & F) & SS & FB & _).
  exists (mk_report (map (fun e => (upper (fst e), fst (snd e))) fs) bs ws), (map fst fs). split; [exact R|]. split; [exact N|]. split.
  { intros n. rewrite K. split.
    - intros ((j & o) & I & C). cbn [snd] in C. assert (Io : In o all_ops) by (apply in_indexed; exists j; exact I).
      destruct (e_ids _ _ _ _ _ E (o_id o)) as [i Hi]; [apply in_app_iff; left; apply in_map; exact Io|]. exists o, i. split; [exact Io|]. split; [exact Hi|].
      unfold called in C. rewrite (name_part _ _ Hi) in C. apply bytes_eqb_true. exact C.
    - intros (o & i & I & Hi & En). apply in_indexed in I. destruct I as [j I]. exists (j, o). split; [exact I|]. cbn [snd]. unfold called. rewrite (name_part _ _ Hi). apply bytes_eqb_true. exact En. }
  cbn [p_chart p_blocks]. split; [|split].
  - rewrite map_map. apply map_ext_in. intros e I. rewrite List.Forall_forall in F. destruct (F e I) as [A _]. rewrite A. f_equal. f_equal.
    rewrite <- (filter_indexed (called (fst e)) all_ops), map_map. reflexivity.
  - clear - SS. induction SS as [|e l H IH G]; cbn [map]; constructor; [exact IH|]. apply List.Forall_forall. intros x I. apply in_map_iff in I. destruct I as (y & <- & I). cbn [snd].
    rewrite List.Forall_forall in G. exact (G y I).
  - clear - FB S. induction FB as [|e b fs bs (A & G) _ IH]; cbn [map]; constructor; [|exact IH]. split; [exact A|].
    destruct (S prow o_calls (filter (called (fst e)) all_ops)) as [P1 P2]. exists (sort prow o_calls (filter (called (fst e)) all_ops)). split; [exact P1|]. split; [exact P2|].
    clear - G. induction G as [|o s l ss (i & k & (A & B & C) & ->) _ IH]; constructor; [|exact IH]. exists i, k. split; [exact A|]. split; [exact B|]. split; [exact C|]. apply presents_ok.
Qed.
Print Assumptions C108_report_partial.

(** ** The images *)
Lemma zdec_inj a b : int32 a -> int32 b -> zdec a = zdec b -> a = b.
Proof. intros Ha Hb E. pose proof (py_int_zdec a Ha) as A. rewrite E, py_int_zdec in A by exact Hb. congruence. Qed.
Lemma app_tail_inj {A} (x : A) a b c d : ~ In x b -> ~ In x d -> a ++ x :: b = c ++ x :: d -> b = d.
Proof.
  revert c. induction a as [|y a IH]; intros [|z c] Hb Hd E; cbn [app] in E.
  - congruence.
  - injection E as -> E. exfalso. apply Hb. rewrite E. apply in_app_iff. right. left. reflexivity.
  - injection E as -> E. exfalso. apply Hd. rewrite <- E. apply in_app_iff. right. left. reflexivity.
  - injection E as _ E. eapply IH; eassumption.
Qed.
Lemma no_under k : int32 k -> ~ In 95 (zdec k).
Proof. intros H I. pose proof (zdec_bytes k H) as F. rewrite List.Forall_forall in F. apply F in I. lia. Qed.
Lemma page_number i j : int32 (i_number i) -> int32 (i_number j) -> page_id i = page_id j -> i_number i = i_number j.
Proof.
  intros Hi Hj E. unfold page_id in E. change (bytes "_") with [95] in E. cbn [app] in E. apply zdec_inj; [exact Hi|exact Hj|].
  apply (app_tail_inj 95 (dots (i_file i) ++ 95 :: dots (i_name i)) _ (dots (i_file j) ++ 95 :: dots (i_name j))); [apply no_under; exact Hi|apply no_under; exact Hj|].
  rewrite <- !app_assoc. cbn [app]. exact E.
Qed.
Definition sargs := bytes "_Args". Definition sops := bytes "_Ops". Definition sargs1 := bytes "_ArgsOnly". Definition sops1 := bytes "_OpsOnly".
(** the last bytes tell the four endings apart *)
Lemma endings a b s t : In s [sargs; sops; sargs1; sops1] -> In t [sargs; sops; sargs1; sops1] -> a ++ s = b ++ t -> a = b /\ s = t.
Proof.
  intros Hs Ht E. assert (L : s = t); [|subst t; apply app_inv_tail in E; tauto].
  assert (R : rev s ++ rev a = rev t ++ rev b) by (rewrite <- !rev_app_distr, E; reflexivity). clear E. cbn [In] in Hs, Ht.
  destruct Hs as [<- | [<- | [<- | [<- | []]]]], Ht as [<- | [<- | [<- | [<- | []]]]]; try reflexivity; vm_compute in R; exfalso; congruence.
Qed.

(** What an image shows of the row of a call site: the precision and the range of its float operations, if it has any, and of its
    double operations. *)
Definition operations (title : list Z) (o : prow) : picture :=
  Ops title (if o_float o =? 0 then None else Some (o_prec32 o, o_range32 o)) (if o_double o =? 0 then None else Some (o_prec64 o, o_range64 o)).
(** ... and of its rows of arguments, in their order: input or output, type and name; smallest and largest value; exponent and mantissa length *)
Definition arguments (title : list Z) (o : prow) (l : list arow) : picture :=
  Args title (map (fun r => mk_bar (r_io r ++ (if r_type r =? 0 then bytes " Float " else if r_type r =? 1 then bytes " Double " else if r_type r =? 2 then bytes " Float ptr " else bytes " Double ptr ") ++ r_arg r)
                                   (r_min r) (r_max r) (r_range r) (r_prec r)) (filter (fun r => bytes_eqb (r_id r) (o_id o)) l)).
Definition image_title (what : string) (i : info) (search : string) : list Z :=
  bytes what ++ upper (i_name i) ++ bytes " at line " ++ zdec (i_line i) ++ bytes " of " ++ i_file i ++ bytes " after " ++ bytes search ++ bytes " research".

(** C108, images. When the call sites have different numbers (so for a program of one module, C74), each active link of a call site
    opens an image of its own results: of its rows in AllArgsResults.csv, AllOpsResults.csv and ArgumentsResults.csv; "Operations
    Only" opens an image of AllOpsResults.csv too (see C108_operations_only_refuted). *)
Theorem C108_images_partial : forall is_text sort argv args ops all_args all_ops p o i k, sorts sort -> explored is_text args ops all_args all_ops ->
  (forall o o' i i', In o all_ops -> In o' all_ops -> named_as (o_id o) i -> named_as (o_id o') i' -> i_number i = i_number i' -> o = o') ->
  vfc_report is_text sort false argv (mk_tables (Some args) (Some ops) (Some all_args) (Some all_ops)) = Ret p ->
  In o all_ops -> named_as (o_id o) i -> In k ops -> o_id k = o_id o ->
  (o_nin o + o_nout o <> 0 ->
     content (p_images p) (page_id i ++ bytes "_Args") = Some (arguments (image_title "Arguments percisions for " i "arguments and operations") o all_args) /\
     content (p_images p) (page_id i ++ bytes "_ArgsOnly") = Some (arguments (image_title "Arguments percisions for " i "arguments only") o args)) /\
  (o_int k = 0 -> o_lib k = 0 ->
     content (p_images p) (page_id i ++ bytes "_Ops") = Some (operations (image_title "Operations percision for " i "arguments and operations") o) /\
     content (p_images p) (page_id i ++ bytes "_OpsOnly") = Some (operations (image_title "Operations percision for " i "operations only") o)).
Proof.
  intros is_text sort argv args ops all_args all_ops p o i k S E Dist R Io Hi Ik Ek.
  destruct (run_ok is_text sort argv args ops all_args all_ops S E) as (fs & bs & ws & R' & (N & K & F) & SS & FB & W). rewrite R in R'. injection R' as ->. cbn [p_images].
  assert (All : forall s pic, In s [sargs; sops; sargs1; sops1] -> In (page_id i ++ s, pic) (writes_for args all_args i k o) ->
     (forall q, In (page_id i ++ s, q) (writes_for args all_args i k o) -> q = pic) -> content ws (page_id i ++ s) = Some pic).
  { intros s pic Hs I U. apply content_ok.
    - apply W. assert (C : In (i_name i) (map fst fs)).
      { apply K. apply in_indexed in Io. destruct Io as [j Ij]. exists (j, o). split; [exact Ij|]. cbn [snd]. unfold called. rewrite (name_part _ _ Hi). apply bytes_eqb_refl. }
      apply in_map_iff in C. destruct C as (e & Ee & Ie). exists e, o, i, k. split; [exact Ie|]. split; [exact Io|]. split; [rewrite Ee; unfold called; rewrite (name_part _ _ Hi); apply bytes_eqb_refl|].
      split; [exact (conj Hi (conj Ik Ek))|exact I].
    - intros q J. apply W in J. destruct J as (e & o' & i' & k' & Ie & Io' & _ & (Hi' & Ik' & Ek') & J).
      assert (Q : exists s' , In s' [sargs; sops; sargs1; sops1] /\ page_id i ++ s = page_id i' ++ s').
      { unfold writes_for in J. change (chart_id i') with (page_id i') in J. rewrite !in_app_iff in J. cbn [In].
        destruct J as [J | [J | [J | J]]];
        match type of J with In _ (if ?b then _ else _) => destruct b end; cbn [In] in J; try contradiction; destruct J as [J | []]; injection J as J _; symmetry in J.
        - exists sargs. tauto.
        - exists sops. tauto.
        - exists sargs1. tauto.
        - exists sops1. tauto. }
      destruct Q as (s' & Hs' & Q). apply endings in Q; [|exact Hs|exact Hs']. destruct Q as [Q _].
      assert (Num : i_number i = i_number i').
      { destruct Hi as (? & ? & ? & ? & ? & ? & ? & ?), Hi' as (? & ? & ? & ? & ? & ? & ? & ?). apply page_number; assumption. }
      pose proof (Dist o o' i i' Io Io' Hi Hi' Num) as <-.
      destruct (for_row_inj ops (e_once _ _ _ _ _ E) o i k i' k' (conj Hi (conj Ik Ek)) (conj Hi' (conj Ik' Ek'))) as [<- <-]. apply U. exact J. }
  split.
  - intros Ha. split.
    + apply (All sargs); [left; reflexivity| |].
      * unfold writes_for. destruct (Z.eqb_spec (o_nin o + o_nout o) 0) as [Z0|Z0]; [contradiction|]. cbn [negb]. apply in_app_iff. left. left. reflexivity.
      * intros q J. unfold writes_for in J. destruct (Z.eqb_spec (o_nin o + o_nout o) 0) as [Z0|Z0]; [contradiction|]. cbn [negb] in J. change (chart_id i) with (page_id i) in J. rewrite !in_app_iff in J.
        destruct J as [[J | []] | [J | [[J | []] | J]]].
        -- injection J as <-. reflexivity.
        -- destruct (_ && _) in J; [|contradiction]. destruct J as [J | []]. injection J as J _. apply app_inv_head in J. vm_compute in J. discriminate.
        -- injection J as J _. apply app_inv_head in J. vm_compute in J. discriminate.
        -- destruct (_ && _) in J; [|contradiction]. destruct J as [J | []]. injection J as J _. apply app_inv_head in J. vm_compute in J. discriminate.
    + apply (All sargs1); [right; right; left; reflexivity| |].
      * unfold writes_for. destruct (Z.eqb_spec (o_nin o + o_nout o) 0) as [Z0|Z0]; [contradiction|]. cbn [negb]. rewrite !in_app_iff. right. right. left. left. reflexivity.
      * intros q J. unfold writes_for in J. destruct (Z.eqb_spec (o_nin o + o_nout o) 0) as [Z0|Z0]; [contradiction|]. cbn [negb] in J. change (chart_id i) with (page_id i) in J. rewrite !in_app_iff in J.
        destruct J as [[J | []] | [J | [[J | []] | J]]].
        -- injection J as J _. apply app_inv_head in J. vm_compute in J. discriminate.
        -- destruct (_ && _) in J; [|contradiction]. destruct J as [J | []]. injection J as J _. apply app_inv_head in J. vm_compute in J. discriminate.
        -- injection J as <-. reflexivity.
        -- destruct (_ && _) in J; [|contradiction]. destruct J as [J | []]. injection J as J _. apply app_inv_head in J. vm_compute in J. discriminate.
  - intros Hint Hlib. split.
    + apply (All sops); [right; left; reflexivity| |].
      * unfold writes_for. rewrite Hint, Hlib. cbn [Z.eqb andb]. rewrite !in_app_iff. right. left. left. reflexivity.
      * intros q J. unfold writes_for in J. rewrite Hint, Hlib in J. cbn [Z.eqb andb] in J. change (chart_id i) with (page_id i) in J. rewrite !in_app_iff in J.
        destruct J as [J | [[J | []] | [J | [J | []]]]].
        -- destruct (negb _) in J; [|contradiction]. destruct J as [J | []]. injection J as J _. apply app_inv_head in J. vm_compute in J. discriminate.
        -- injection J as <-. reflexivity.
        -- destruct (negb _) in J; [|contradiction]. destruct J as [J | []]. injection J as J _. apply app_inv_head in J. vm_compute in J. discriminate.
        -- injection J as J _. apply app_inv_head in J. vm_compute in J. discriminate.
    + apply (All sops1); [right; right; right; left; reflexivity| |].
      * unfold writes_for. rewrite Hint, Hlib. cbn [Z.eqb andb]. rewrite !in_app_iff. right. right. right. left. reflexivity.
      * intros q J. unfold writes_for in J. rewrite Hint, Hlib in J. cbn [Z.eqb andb] in J. change (chart_id i) with (page_id i) in J. rewrite !in_app_iff in J.
        destruct J as [J | [[J | []] | [J | [J | []]]]].
        -- destruct (negb _) in J; [|contradiction]. destruct J as [J | []]. injection J as J _. apply app_inv_head in J. vm_compute in J. discriminate.
        -- injection J as J _. apply app_inv_head in J. vm_compute in J. discriminate.
        -- destruct (negb _) in J; [|contradiction]. destruct J as [J | []]. injection J as J _. apply app_inv_head in J. vm_compute in J. discriminate.
        -- injection J as <-. reflexivity.
Qed.
Print Assumptions C108_images_partial.

(** ** A sort, and an exploration *)
Section isort.
  Context {A : Type} (key : A -> Z).
  Fixpoint ins (x : A) (l : list A) : list A := match l with [] => [x] | y :: l' => if key y <=? key x then x :: l else y :: ins x l' end.
  Definition isort (l : list A) : list A := fold_right ins [] l.
  Lemma ins_perm x l : Permutation (ins x l) (x :: l).
  Proof. induction l as [|y l IH]; cbn; [reflexivity|]. destruct (key y <=? key x); [reflexivity|]. rewrite IH. apply perm_swap. Qed.
  Lemma ins_sorted x l : StronglySorted (fun a b => key b <= key a) l -> StronglySorted (fun a b => key b <= key a) (ins x l).
  Proof.
    induction 1 as [|y l H IH F]; cbn [ins]; [repeat constructor|]. destruct (Z.leb_spec (key y) (key x)).
    - constructor; [constructor; assumption|]. constructor; [assumption|]. eapply List.Forall_impl; [|exact F]. intros z Hz. cbv beta in *. lia.
    - constructor; [exact IH|]. apply List.Forall_forall. intros z I. apply (Permutation_in _ (ins_perm x l)) in I. rewrite List.Forall_forall in F. destruct I as [<- | I]; [lia|apply F; exact I].
  Qed.
End isort.
Lemma isort_sorts : sorts (fun A key => isort key).
Proof.
  intros A key l. split; induction l as [|x l IH]; cbn [isort fold_right]; [reflexivity| |constructor|].
  - change (fold_right (ins key) [] l) with (isort key l). rewrite ins_perm. constructor. exact IH.
  - apply ins_sorted. exact IH.
Qed.
Definition row (id : string) (p32 calls : Z) : prow := mk_prow (bytes id) 0 0 1 0 52 11 p32 8 1 0 calls.
Definition arg (id : string) (name : string) (prec calls : Z) : arow := mk_arow (bytes id) (bytes name) 0 0 (bytes "input") 0 prec 8 0 4 calls.
Definition texts (_ : list Z) : bool := true.
Definition the_report (argv : list (list Z)) args ops all_args all_ops : py report :=
  vfc_report texts (fun A key => isort key) false argv (mk_tables (Some args) (Some ops) (Some all_args) (Some all_ops)).

(** two call sites of scale, one of norm *)
Definition ids3 : list string := ["src/a.c/main/scale/3/1"; "src/a.c/main/norm/5/2"; "src/b.c/solve/scale/9/3"]%string.
Definition ops3 := [row "src/b.c/solve/scale/9/3" 7 40; row "src/a.c/main/norm/5/2" 20 12; row "src/a.c/main/scale/3/1" 5 10].
Definition all_ops3 := [row "src/b.c/solve/scale/9/3" 9 40; row "src/a.c/main/norm/5/2" 21 12; row "src/a.c/main/scale/3/1" 6 10].
Definition args3 := [arg "src/b.c/solve/scale/9/3" "x" 8 40; arg "src/a.c/main/norm/5/2" "v" 19 12; arg "src/a.c/main/scale/3/1" "x" 4 10].

Lemma named3 : Forall (fun id => exists i, named_as (bytes id) i) ids3.
Proof.
  assert (B : forall k, In k [1; 2; 3; 5; 9] -> int32 k) by (intros k H; unfold int32; cbn in H; lia).
  assert (N : forall s, existsb (Z.eqb slash) (bytes s) = false -> no slash (bytes s)).
  { intros s H I. assert (existsb (Z.eqb slash) (bytes s) = true); [|congruence]. apply existsb_exists. exists slash. split; [exact I|apply Z.eqb_refl]. }
  repeat constructor.
  - exists (mk_info 1 3 (bytes "main") (bytes "scale") (bytes "a.c")), (bytes "src/a.c"). cbn [i_number i_line i_parent i_name i_file].
    split; [vm_compute; reflexivity|]. split; [right; exists (bytes "src"); vm_compute; reflexivity|]. repeat split; try (apply N; vm_compute; reflexivity); apply B; cbn; tauto.
  - exists (mk_info 2 5 (bytes "main") (bytes "norm") (bytes "a.c")), (bytes "src/a.c"). cbn [i_number i_line i_parent i_name i_file].
    split; [vm_compute; reflexivity|]. split; [right; exists (bytes "src"); vm_compute; reflexivity|]. repeat split; try (apply N; vm_compute; reflexivity); apply B; cbn; tauto.
  - exists (mk_info 3 9 (bytes "solve") (bytes "scale") (bytes "b.c")), (bytes "src/b.c"). cbn [i_number i_line i_parent i_name i_file].
    split; [vm_compute; reflexivity|]. split; [right; exists (bytes "src"); vm_compute; reflexivity|]. repeat split; try (apply N; vm_compute; reflexivity); apply B; cbn; tauto.
Qed.
Lemma explored3 : explored texts args3 ops3 args3 all_ops3.
Proof.
  constructor.
  - intros id I. pose proof named3 as N. rewrite List.Forall_forall in N.
    assert (J : exists s, In s ids3 /\ id = bytes s).
    { cbn [map ops3 all_ops3 args3 app row arg o_id r_id] in I. cbn [In] in I. unfold ids3. cbn [In].
      repeat destruct I as [<- | I]; try contradiction; (eexists; split; [|reflexivity]); tauto. }
    destruct J as (s & J & ->). apply N. exact J.
  - cbn. repeat constructor; cbn; intros H; repeat destruct H as [H | H]; try discriminate; contradiction.
  - intros o I. cbn in I. cbn. repeat destruct I as [<- | I]; try contradiction; tauto.
  - intros o I _. cbn in I. cbn. repeat destruct I as [<- | I]; try contradiction; tauto.
  - reflexivity.
Qed.
Example C108_nonvacuous : sorts (fun A key => isort key) /\ explored texts args3 ops3 args3 all_ops3 /\
  match the_report [] args3 ops3 args3 all_ops3 with
  | Ret p => p_chart p = [(bytes "SCALE", 50); (bytes "NORM", 12)] /\ map (fun b => map s_chart (snd b)) (p_blocks p) = [[bytes "b_c_scale_3"; bytes "a_c_scale_1"]; [bytes "a_c_norm_2"]] /\
      map s_heading (concat (map snd (p_blocks p))) = [bytes "Call to SCALE in b.c at line 9 executed 40 time(s):"; bytes "Call to SCALE in a.c at line 3 executed 10 time(s):"; bytes "Call to NORM in a.c at line 5 executed 12 time(s):"] /\
      content (p_images p) (bytes "b_c_scale_3_Ops") = Some (Ops (bytes "Operations percision for SCALE at line 9 of b.c after arguments and operations research") (Some (9, 8)) None) /\
      content (p_images p) (bytes "a_c_scale_1_ArgsOnly") = Some (Args (bytes "Arguments percisions for SCALE at line 3 of a.c after arguments only research") [mk_bar (bytes "input Float x") 0 4 8 4])
  | _ => False
  end.
Proof. split; [exact isort_sorts|]. split; [exact explored3|]. vm_compute. repeat split; reflexivity. Qed.

(** C108, refuted: "You can produce an html report with the vfc_report script" (doc/06-Postprocessing.md). The vfc_report that is
    installed never writes it, whatever the results: main of report.py uses ReportString before it assigns this local variable. *)
Theorem C108_installed_refuted : forall is_text sort argv t p, vfc_report is_text sort true argv t <> Ret p.
Proof.
  intros is_text sort argv t p E. unfold vfc_report in E. destruct (t_args t), (t_ops t), (t_all_args t), (t_all_ops t); try discriminate.
  match type of E with pbind ?m _ = _ => destruct m as [[[[a o] ao] aa]| | |] end; cbn [pbind] in E; try discriminate.
  destruct (count_calls (indexed ao) []); cbn [pbind] in E; try discriminate. destruct (blocks_of _ _ _ _ _ _ _) as [[bs ws]| | |]; discriminate.
Qed.
Print Assumptions C108_installed_refuted.

(** C108, refuted: the functions given on the command line have no effect on the report. *)
Theorem C108_selection_refuted : forall is_text sort argv args ops all_args all_ops, explored is_text args ops all_args all_ops ->
  vfc_report is_text sort false argv (mk_tables (Some args) (Some ops) (Some all_args) (Some all_ops)) = vfc_report is_text sort false [] (mk_tables (Some args) (Some ops) (Some all_args) (Some all_ops)).
Proof.
  intros is_text sort argv args ops all_args all_ops E. unfold vfc_report. cbn [t_args t_ops t_all_args t_all_ops]. destruct argv; [reflexivity|].
  rewrite !filter_functions_all; [reflexivity| | | |]; intros r I; apply (e_ids _ _ _ _ _ E); rewrite !in_app_iff; eauto using in_map.
Qed.
Print Assumptions C108_selection_refuted.
Example C108_selection_nonvacuous : explored texts args3 ops3 args3 all_ops3 /\
  match the_report [bytes "norm"] args3 ops3 args3 all_ops3 with Ret p => map fst (p_chart p) = [bytes "SCALE"; bytes "NORM"] | _ => False end.
Proof. split; [exact explored3|]. vm_compute. reflexivity. Qed.

(** C108, refuted: "Operations Only" does not show what the exploration of operations only found. The precisions in
    OperationsResults.csv appear nowhere in the report: it is the same for any others. *)
Lemma find_same o ops ops' : Forall2 (fun a b => o_id a = o_id b /\ o_int a = o_int b /\ o_lib a = o_lib b) ops ops' ->
  match find (fun r => bytes_eqb (o_id r) (o_id o)) ops, find (fun r => bytes_eqb (o_id r) (o_id o)) ops' with
  | Some a, Some b => o_int a = o_int b /\ o_lib a = o_lib b | None, None => True | _, _ => False end.
Proof. induction 1 as [|a b l l' (H1 & H2 & H3) _ IH]; cbn [find]; [exact I|]. rewrite H1. destruct (bytes_eqb (o_id b) (o_id o)); [tauto|exact IH]. Qed.
Lemma sites_same is_text args all_args ops ops' l : Forall2 (fun a b => o_id a = o_id b /\ o_int a = o_int b /\ o_lib a = o_lib b) ops ops' ->
  sites_of is_text ops args all_args l = sites_of is_text ops' args all_args l.
Proof.
  intros H. induction l as [|o l IH]; cbn [sites_of]; [reflexivity|]. rewrite IH.
  replace (site_of is_text ops args all_args o) with (site_of is_text ops' args all_args o); [reflexivity|].
  unfold site_of. destruct (get_function_info (o_id o)); cbn [pbind]; try reflexivity. pose proof (find_same o ops ops' H) as F.
  destruct (find _ ops), (find _ ops'); try contradiction; [|reflexivity]. destruct F as [-> ->]. reflexivity.
Qed.
Lemma blocks_same is_text sort all_ops args all_args ops ops' fs : Forall2 (fun a b => o_id a = o_id b /\ o_int a = o_int b /\ o_lib a = o_lib b) ops ops' ->
  blocks_of is_text sort all_ops ops args all_args fs = blocks_of is_text sort all_ops ops' args all_args fs.
Proof. intros H. induction fs as [|[n [t l]] fs IH]; cbn [blocks_of]; [reflexivity|]. rewrite IH. rewrite (sites_same is_text args all_args ops ops' _ H). reflexivity. Qed.
Theorem C108_operations_only_refuted : forall is_text sort args ops ops' all_args all_ops,
  Forall2 (fun a b => o_id a = o_id b /\ o_int a = o_int b /\ o_lib a = o_lib b) ops ops' ->
  vfc_report is_text sort false [] (mk_tables (Some args) (Some ops) (Some all_args) (Some all_ops)) = vfc_report is_text sort false [] (mk_tables (Some args) (Some ops') (Some all_args) (Some all_ops)).
Proof.
  intros is_text sort args ops ops' all_args all_ops H. unfold vfc_report. cbn [t_args t_ops t_all_args t_all_ops pbind]. destruct (count_calls (indexed all_ops) []); cbn [pbind]; try reflexivity.
  rewrite (blocks_same is_text sort all_ops args all_args ops ops' _ H). reflexivity.
Qed.
Print Assumptions C108_operations_only_refuted.
Example C108_operations_only_nonvacuous : exists ops', Forall2 (fun a b => o_id a = o_id b /\ o_int a = o_int b /\ o_lib a = o_lib b) ops3 ops' /\ map o_prec32 ops3 <> map o_prec32 ops' /\
  match the_report [] args3 ops3 args3 all_ops3 with Ret p => content (p_images p) (bytes "b_c_scale_3_OpsOnly") = Some (Ops (bytes "Operations percision for SCALE at line 9 of b.c after operations only research") (Some (9, 8)) None) | _ => False end.
Proof. exists all_ops3. split; [repeat constructor|]. split; [discriminate|]. vm_compute. reflexivity. Qed.

(** C108, refuted: images are named after the last component of the path, the function and the number, which starts again in each
    module: two call sites in two files of this name share their images, and those of the first are those of the second. *)
Theorem C108_overwritten_refuted : exists args ops p s1 s2,
  the_report [] args ops args ops = Ret p /\ map o_id ops = [bytes "x/util.c/main/scale/3/2"; bytes "y/util.c/solve/scale/8/2"] /\ map o_prec32 ops = [5; 20] /\
  map snd (p_blocks p) = [[s1; s2]] /\ s_heading s1 = bytes "Call to SCALE in util.c at line 3 executed 40 time(s):" /\ s_ops s1 = s_ops s2 /\
  match s_ops s1 with Some n => exists t, content (p_images p) n = Some (Ops t (Some (20, 8)) None) | None => False end.
Proof.
  exists [arg "x/util.c/main/scale/3/2" "x" 8 40; arg "y/util.c/solve/scale/8/2" "x" 8 12], [row "x/util.c/main/scale/3/2" 5 40; row "y/util.c/solve/scale/8/2" 20 12].
  match goal with |- context [the_report ?a ?b ?c ?d ?e] => let v := eval vm_compute in (the_report a b c d e) in
    match v with Ret ?p => let s := eval vm_compute in (map snd (p_blocks p)) in match s with [[?s1; ?s2]] => exists p, s1, s2 end end end.
  split; [vm_compute; reflexivity|]. split; [reflexivity|]. split; [reflexivity|]. split; [vm_compute; reflexivity|]. split; [vm_compute; reflexivity|]. split; [vm_compute; reflexivity|].
  cbn [s_ops]. eexists. vm_compute. reflexivity.
Qed.
Print Assumptions C108_overwritten_refuted.

(** C108, refuted: one argument whose name pandas does not read as a text (a parameter named nan, or null) and there is no report at all. *)
Theorem C108_argument_name_refuted : forall is_text, is_text (bytes "nan") = false ->
  vfc_report is_text (fun A key => isort key) false [] (mk_tables (Some [arg "a.c/main/f/3/1" "nan" 8 1]) (Some [row "a.c/main/f/3/1" 5 1]) (Some [arg "a.c/main/f/3/1" "nan" 8 1]) (Some [row "a.c/main/f/3/1" 5 1])) = Raise.
Proof. intros is_text H. vm_compute in H. vm_compute. rewrite H. reflexivity. Qed.
Print Assumptions C108_argument_name_refuted.

(** * C109: the page *)
Lemma blocks_names is_text sort all_ops ops args all_args fs : forall bs ws, blocks_of is_text sort all_ops ops args all_args fs = Ret (bs, ws) -> map fst bs = map (fun e => upper (fst e)) fs.
Proof.
  induction fs as [|[n [t l]] fs IH]; intros bs ws E; cbn [blocks_of] in E; [injection E as <- <-; reflexivity|].
  destruct (sites_of _ _ _ _ _) as [[ss w]| | |]; cbn [pbind] in E; try discriminate. destruct (blocks_of _ _ _ _ _ _ fs) as [[bs' ws']| | |]; cbn [pbind] in E; try discriminate.
  injection E as <- <-. cbn [map fst]. rewrite (IH bs' ws' eq_refl). reflexivity.
Qed.
Lemma report_names is_text sort inst argv t p : vfc_report is_text sort inst argv t = Ret p -> map fst (p_blocks p) = map fst (p_chart p).
Proof.
  intros E. unfold vfc_report in E. destruct (t_args t), (t_ops t), (t_all_args t), (t_all_ops t); try discriminate.
  match type of E with pbind ?m _ = _ => destruct m as [[[[a o] ao] aa]| | |] end; cbn [pbind] in E; try discriminate.
  destruct (count_calls (indexed ao) []); cbn [pbind] in E; try discriminate. destruct (blocks_of _ _ _ _ _ _ _) as [[bs ws]| | |] eqn:B; cbn [pbind] in E; try discriminate.
  destruct inst; [discriminate|]. injection E as <-. cbn [p_blocks p_chart]. rewrite (blocks_names _ _ _ _ _ _ _ _ _ B), map_map. reflexivity.
Qed.

Lemma set_first_nodup id f l : NoDup (map fst l) -> In id (map fst l) -> set_first id f l = Some (map (fun x => (fst x, if bytes_eqb (fst x) id then f (snd x) else snd x)) l).
Proof.
  induction l as [|[k v] l IH]; cbn [map fst]; intros N I; [destruct I|]. inversion N as [|? ? N1 N2]; subst. cbn [set_first]. destruct (bytes_eqb k id) eqn:E; cbn [fst snd].
  - apply bytes_eqb_true in E. subst k. f_equal. f_equal. symmetry. rewrite <- (map_id l) at 2. apply map_ext_in. intros [k v'] J. cbn [fst snd].
    destruct (bytes_eqb k id) eqn:E; [|reflexivity]. apply bytes_eqb_true in E. subst k. exfalso. apply N1. apply in_map_iff. exists (id, v'). tauto.
  - destruct I as [-> | I]; [rewrite bytes_eqb_refl in E; discriminate|]. rewrite IH by assumption. reflexivity.
Qed.
Lemma set_first_absent id f l : ~ In id (map fst l) -> set_first id f l = None.
Proof.
  induction l as [|[k v] l IH]; cbn [map fst set_first]; intros N; [reflexivity|]. destruct (bytes_eqb k id) eqn:E; [apply bytes_eqb_true in E; subst k; exfalso; apply N; left; reflexivity|].
  rewrite IH; [reflexivity|]. intros I. apply N. right. exact I.
Qed.

(** the function last chosen, and how often a call site was *)
Definition chosen (p : report) (l : list click) : option nat :=
  fold_left (fun acc c => match c with OnFunction n => if (n <? length (p_chart p))%nat then Some n else acc | OnCall _ => acc end) l None.
Definition times (chart : list Z) (l : list click) : nat := length (filter (fun c => match c with OnCall k => bytes_eqb k chart | OnFunction _ => false end) l).

Definition keys (p : report) : list (list Z) := map fst (p_chart p).
Definition charts (p : report) : list (list Z) := map s_chart (concat (map snd (p_blocks p))).
Definition shows (p : report) (last : option nat) (s : screen) : Prop :=
  actual s = match last with Some n => nth n (keys p) [] | None => [] end /\ (forall n, last = Some n -> (n < length (keys p))%nat) /\
  blocks s = map (fun k => (k, match last with Some n => bytes_eqb k (nth n (keys p) []) | None => false end)) (keys p).

Lemma step_shows p last s c : NoDup (keys p) -> ~ In [] (keys p) -> shows p last s ->
  exists s', on_click p c s = Some s' /\ shows p (match c with OnFunction n => if (n <? length (p_chart p))%nat then Some n else last | OnCall _ => last end) s'.
Proof.
  intros N NE (A & L & B). destruct c as [n | ch]; cbn [on_click].
  - destruct (Nat.ltb_spec n (length (p_chart p))) as [Hn|Hn].
    + destruct (nth_error (p_chart p) n) as [[name t]|] eqn:E; [|apply nth_error_None in E; lia].
      assert (Name : nth n (keys p) [] = name).
      { unfold keys. apply nth_error_nth. rewrite nth_error_map, E. reflexivity. }
      assert (In1 : In name (keys p)) by (rewrite <- Name; apply nth_In; unfold keys; rewrite map_length; exact Hn).
      assert (Cl : (match actual s with [] => Some (blocks s) | a => set_first a (fun _ => false) (blocks s) end) = Some (map (fun k => (k, false)) (keys p))).
      { rewrite A. destruct last as [m|].
        - specialize (L m eq_refl). pose proof (nth_In (keys p) [] L) as Im. destruct (nth m (keys p) []) as [|x y] eqn:Em; [contradiction|].
          rewrite set_first_nodup.
          + f_equal. rewrite B, map_map. apply map_ext. intros k. cbn [fst snd]. destruct (bytes_eqb k (x :: y)); reflexivity.
          + rewrite B, map_map. cbn [fst]. rewrite map_id. exact N.
          + rewrite B, map_map. cbn [fst]. rewrite map_id. exact Im.
        - rewrite B. reflexivity. }
      unfold display_function. rewrite Cl. rewrite set_first_nodup.
      * eexists. split; [reflexivity|]. split; [cbn [actual]; symmetry; exact Name|]. split; [intros m [= <-]; unfold keys; rewrite map_length; exact Hn|].
        cbn [blocks]. rewrite map_map. apply map_ext. intros k. cbn [fst snd]. rewrite Name. destruct (bytes_eqb k name); reflexivity.
      * rewrite map_map. cbn [fst]. rewrite map_id. exact N.
      * rewrite map_map. cbn [fst]. rewrite map_id. exact In1.
    + destruct (nth_error (p_chart p) n) as [[name t]|] eqn:E; [exfalso; assert (nth_error (p_chart p) n <> None) by congruence; apply nth_error_Some in H; lia|].
      exists s. split; [reflexivity|]. split; [exact A|split; [exact L|exact B]].
  - eexists. split; [reflexivity|]. unfold display_call. destruct (set_first ch negb (sites s)); [|split; [exact A|split; [exact L|exact B]]].
    split; [exact A|split; [exact L|exact B]].
Qed.
Lemma nth_blocks p last s n name : NoDup (keys p) -> shows p last s -> (nth_error (blocks s) n = Some (name, true) <-> last = Some n /\ nth_error (keys p) n = Some name).
Proof.
  intros N (_ & L & B). rewrite B, nth_error_map. destruct (nth_error (keys p) n) as [k|] eqn:E; cbn [option_map]; [|split; [discriminate|intros [_ ?]; discriminate]].
  assert (Ln : (n < length (keys p))%nat) by (apply nth_error_Some; congruence).
  destruct last as [m|]; [|split; [discriminate|intros [? _]; discriminate]]. split.
  - intros H. injection H as -> H. apply bytes_eqb_true in H. split; [|reflexivity]. f_equal. symmetry.
    apply (proj1 (NoDup_nth (keys p) []) N n m Ln (L m eq_refl)). rewrite (nth_error_nth _ _ _ E). exact H.
  - intros [H1 H2]. injection H1 as ->. injection H2 as ->. rewrite (nth_error_nth _ _ _ E), bytes_eqb_refl. reflexivity.
Qed.

(** C109. When no two functions have the same name but for the case of letters, clicks never fail, and after any clicks the one block
    displayed is that of the function chosen last in the chart (none before the first choice). *)
Theorem C109_functions_partial : forall is_text sort argv t p l, vfc_report is_text sort false argv t = Ret p -> NoDup (map fst (p_chart p)) -> ~ In [] (map fst (p_chart p)) ->
  exists s, on_clicks p l (hide_all p) = Some s /\ map fst (blocks s) = map fst (p_blocks p) /\
  forall n, (exists name, nth_error (blocks s) n = Some (name, true)) <-> chosen p l = Some n.
Proof.
  intros is_text sort argv t p l R N NE. pose proof (report_names _ _ _ _ _ _ R) as Names.
  assert (G : forall l last s, shows p last s -> exists s', on_clicks p l s = Some s' /\
     shows p (fold_left (fun acc c => match c with OnFunction n => if (n <? length (p_chart p))%nat then Some n else acc | OnCall _ => acc end) l last) s').
  { clear l. induction l as [|c l IH]; intros last s Sh; cbn [on_clicks fold_left]; [exists s; tauto|].
    destruct (step_shows p last s c N NE Sh) as (s1 & E1 & Sh1). rewrite E1. apply IH. exact Sh1. }
  destruct (G l None (hide_all p)) as (s & E & Sh).
  { split; [reflexivity|]. split; [discriminate|]. cbn [hide_all blocks]. unfold keys. rewrite <- Names, map_map. reflexivity. }
  exists s. split; [exact E|]. split.
  - destruct Sh as (_ & _ & B). rewrite B, map_map. cbn [fst]. rewrite map_id. unfold keys. symmetry. exact Names.
  - intros n. fold (chosen p l) in Sh. split.
    + intros [name H]. apply (nth_blocks p (chosen p l) s n name N Sh) in H. tauto.
    + intros H. destruct Sh as (A & L & B). destruct (nth_error (keys p) n) as [k|] eqn:Ek; [|apply nth_error_None in Ek; specialize (L n H); lia].
      exists k. apply (nth_blocks p (chosen p l) s n k N (conj A (conj L B))). tauto.
Qed.
Print Assumptions C109_functions_partial.

(** C109, call sites. When no two call sites have the same ID in the page, the information of a call site is displayed exactly when
    its heading has been clicked an odd number of times. *)
Theorem C109_calls_partial : forall p l s, NoDup (map s_chart (concat (map snd (p_blocks p)))) -> on_clicks p l (hide_all p) = Some s ->
  sites s = map (fun x => (s_chart x, Nat.odd (times (s_chart x) l))) (concat (map snd (p_blocks p))).
Proof.
  intros p l s N. fold (charts p) in N.
  assert (G : forall l f s, sites s = map (fun k => (k, f k)) (charts p) -> forall s', on_clicks p l s = Some s' -> sites s' = map (fun k => (k, xorb (f k) (Nat.odd (times k l)))) (charts p)).
  { clear l s. induction l as [|c l IH]; intros f s H s' E; cbn [on_clicks] in E.
    - injection E as <-. rewrite H. apply map_ext. intros k. cbn. rewrite xorb_false_r. reflexivity.
    - destruct (on_click p c s) as [s1|] eqn:E1; [|discriminate]. destruct c as [n | ch]; cbn [on_click] in E1.
      + assert (H1 : sites s1 = sites s).
        { destruct (nth_error (p_chart p) n) as [[name t]|]; [|injection E1 as <-; reflexivity]. unfold display_function in E1.
          destruct (match actual s with [] => _ | _ => _ end); [|discriminate]. destruct (set_first name _ _); [|discriminate]. injection E1 as <-. reflexivity. }
        rewrite (IH f s1 (eq_trans H1 H) s' E). reflexivity.
      + injection E1 as <-.
        assert (H1 : sites (display_call ch s) = map (fun k => (k, if bytes_eqb k ch then negb (f k) else f k)) (charts p)).
        { unfold display_call. destruct (in_dec (list_eq_dec Z.eq_dec) ch (charts p)) as [I|I].
          - rewrite set_first_nodup; rewrite H; [|rewrite map_map; cbn [fst]; rewrite map_id; assumption|rewrite map_map; cbn [fst]; rewrite map_id; exact I].
            cbn [sites]. rewrite map_map. reflexivity.
          - rewrite set_first_absent by (rewrite H, map_map; cbn [fst]; rewrite map_id; exact I). rewrite H. apply map_ext_in. intros k J.
            destruct (bytes_eqb k ch) eqn:B; [|reflexivity]. apply bytes_eqb_true in B. subst k. contradiction. }
        rewrite (IH _ _ H1 s' E). apply map_ext. intros k. unfold times. cbn [filter].
        destruct (bytes_eqb k ch) eqn:B.
        * apply bytes_eqb_true in B. subst ch. rewrite bytes_eqb_refl. cbn [length]. rewrite Nat.odd_succ, <- Nat.negb_odd. rewrite <- xorb_true_l, xorb_assoc.
          rewrite <- (xorb_true_l (Nat.odd _)). f_equal. destruct (f k), (Nat.odd (length (filter (fun c => match c with OnFunction _ => false | OnCall k0 => bytes_eqb k0 k end) l))); reflexivity.
        * destruct (bytes_eqb ch k) eqn:B'; [apply bytes_eqb_true in B'; subst ch; rewrite bytes_eqb_refl in B; discriminate|]. reflexivity. }
  intros E. rewrite (G l (fun _ => false) (hide_all p)) with (s' := s); [|cbn [hide_all sites]; unfold charts; rewrite map_map; reflexivity|exact E].
  unfold charts. rewrite map_map. apply map_ext. intros x. rewrite xorb_false_l. reflexivity.
Qed.
Print Assumptions C109_calls_partial.
Example C109_nonvacuous : match the_report [] args3 ops3 args3 all_ops3 with
  | Ret p => NoDup (map fst (p_chart p)) /\ ~ In [] (map fst (p_chart p)) /\ NoDup (map s_chart (concat (map snd (p_blocks p)))) /\
      match on_clicks p [OnFunction 0; OnCall (bytes "a_c_scale_1"); OnFunction 1; OnCall (bytes "a_c_norm_2"); OnCall (bytes "a_c_norm_2")] (hide_all p) with
      | Some s => blocks s = [(bytes "SCALE", false); (bytes "NORM", true)] /\ map snd (sites s) = [false; true; false] | None => False end
  | _ => False end.
Proof.
  vm_compute. split; [repeat constructor; cbn; intros H; repeat destruct H as [H | H]; try discriminate; contradiction|].
  split; [intros H; repeat destruct H as [H | H]; try discriminate; contradiction|].
  split; [repeat constructor; cbn; intros H; repeat destruct H as [H | H]; try discriminate; contradiction|]. split; reflexivity.
Qed.

(** C109, refuted: of the two functions f and F the page never displays the block of the one with fewer calls, whatever is clicked. *)
Definition ops_ff := [row "a.c/main/f/3/1" 5 40; row "a.c/main/F/4/2" 7 30].
Definition args_ff := [arg "a.c/main/f/3/1" "x" 5 40; arg "a.c/main/F/4/2" "x" 7 30].
Lemma never_second p a : p_chart p = [(a, 40); (a, 30)] -> map fst (p_blocks p) = [a; a] -> a <> [] ->
  forall l s, (exists v, blocks s = [(a, v); (a, false)]) -> (actual s = [] \/ actual s = a) -> forall s', on_clicks p l s = Some s' -> nth_error (blocks s') 1 = Some (a, false).
Proof.
  intros C B NE. induction l as [|c l IH]; intros s (v & V) A s' E; cbn [on_clicks] in E.
  - injection E as <-. rewrite V. reflexivity.
  - destruct (on_click p c s) as [s1|] eqn:E1; [|discriminate]. destruct c as [n | ch]; cbn [on_click] in E1.
    + destruct (nth_error (p_chart p) n) as [[name t]|] eqn:En; [|injection E1 as <-; apply (IH s (ex_intro _ v V) A s' E)].
      assert (name = a) by (rewrite C in En; destruct n as [|[|n]]; cbn in En; try (destruct n; discriminate); congruence). subst name.
      unfold display_function in E1. destruct A as [A | A]; rewrite A in E1; rewrite V in E1.
      * cbn [set_first] in E1. rewrite bytes_eqb_refl in E1. injection E1 as <-. refine (IH _ _ _ s' E); [exists true; reflexivity|right; reflexivity].
      * destruct a as [|x y]; [contradiction|]. cbn [set_first] in E1. rewrite bytes_eqb_refl in E1. cbn [set_first] in E1. rewrite bytes_eqb_refl in E1. injection E1 as <-.
        refine (IH _ _ _ s' E); [exists true; reflexivity|right; reflexivity].
    + injection E1 as <-. refine (IH _ _ _ s' E); unfold display_call; destruct (set_first ch negb (sites s)); cbn [blocks actual]; first [exists v; exact V|exact A].
Qed.
Theorem C109_case_refuted : exists p, the_report [] args_ff ops_ff args_ff ops_ff = Ret p /\ map s_heading (concat (map snd (p_blocks p))) = [bytes "Call to F in a.c at line 3 executed 40 time(s):"; bytes "Call to F in a.c at line 4 executed 30 time(s):"] /\
  forall l s, on_clicks p l (hide_all p) = Some s -> nth_error (blocks s) 1 = Some (bytes "F", false).
Proof.
  match goal with |- context [the_report ?a ?b ?c ?d ?e] => let v := eval vm_compute in (the_report a b c d e) in match v with Ret ?p => exists p end end.
  split; [vm_compute; reflexivity|]. split; [vm_compute; reflexivity|]. intros l s E.
  match type of E with on_clicks ?p _ _ = _ => refine (never_second p (bytes "F") _ _ _ l (hide_all p) _ _ s E) end.
  - reflexivity.
  - reflexivity.
  - discriminate.
  - exists false. reflexivity.
  - left. reflexivity.
Qed.
Print Assumptions C109_case_refuted.
