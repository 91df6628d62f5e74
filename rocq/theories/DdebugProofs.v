(** Proofs for the delta-debug filters (C36). *)
From Coq Require Import ZArith List Bool Lia.
From stdpp Require Import base list numbers gmap.
From Verif Require Import Common HashModel HashTable HashMapProofs Text Bits FloatOps IeeeModel WrapModel DdebugModel.
Import ListNotations.
Open Scope Z_scope.
Open Scope outcome_scope.

(** * A hash map used as a set of addresses *)
(** inserting a pair again changes nothing *)
Lemma insert_again m L n N k v : mrel m L n N -> legal_value v -> (v, k) ∈ L -> hashmap_insert m k v = Ok m.
Proof.
  intros HR Hv Hin. pose proof (mr_w _ _ _ _ HR) as Hm. pose proof (hw_n _ _ Hm) as Hn.
  pose proof (pow2_range n Hn) as Hp2.
  pose proof (not_overloaded_room _ _ (mr_load _ _ _ _ HR) ltac:(lia)) as Hroom.
  pose proof (mr_live _ _ _ _ HR) as Hperm. unfold legal_value in Hv.
  destruct (add_member_spec m n k v Hm ltac:(lia) ltac:(lia) ltac:(lia)) as (j & old & Hj & Hat & Hpre & Hor).
  unfold hashmap_insert. destruct Hor as [(Hl & E & Hadd)|(Hd & _)].
  - rewrite Hadd. cbn [bind snd]. eapply maybe_rehash_noop; [exact Hm|exact (mr_load _ _ _ _ HR)].
  - exfalso. rewrite <- Hperm in Hin. apply live_at in Hin as (i & Hi & Hati & Hl).
    destruct (ti_reach _ _ _ _ (hw_t _ _ Hm) i (v, k) Hati ltac:(lia) Hl) as (j1 & Hj1 & E1 & Hpre1).
    cbn [snd] in *. destruct (Z.lt_trichotomy j j1) as [Hlt|[Heq|Hgt]].
    + destruct (Hpre1 j ltac:(lia)) as (s & Hs1 & Hs2). rewrite Hat in Hs1. injection Hs1 as <-.
      apply Hd. split; [assumption|]. exact (clean_at _ _ _ (mr_clean _ _ _ _ HR) Hat).
    + subst j1. rewrite <- E1, Hati in Hat. injection Hat as <-. tauto.
    + destruct (Hpre j1 ltac:(lia)) as (s & Hs1 & Hs2 & Hs3). rewrite <- E1, Hati in Hs1. injection Hs1 as <-.
      cbn in Hs3. tauto.
Qed.

(** [m] holds exactly the addresses [S] *)
Definition dup (a : Z) : Z * Z := (a, a).
Definition holds_set (m : hmap) (S : list Z) : Prop := NoDup S /\ exists n, mrel m (map dup S) n (Z.of_nat (length S)).

Lemma dup_fst S : (map dup S).*1 = S.
Proof. induction S as [|a S IH]; [reflexivity|]. cbn. f_equal. exact IH. Qed.
Lemma dup_snd S : (map dup S).*2 = S.
Proof. induction S as [|a S IH]; [reflexivity|]. cbn. f_equal. exact IH. Qed.
Lemma dup_in a S : (a, a) ∈ map dup S <-> a ∈ S.
Proof. rewrite !elem_of_list_In, in_map_iff. unfold dup. split; [intros (x & [= -> _] & H); exact H|intros H; exists a; auto]. Qed.

Lemma create_holds : holds_set hashmap_create [].
Proof. split; [constructor|]. exists 3. exact create_mrel. Qed.

Definition add_addr (S : list Z) (a : Z) : list Z := if decide (a ∈ S) then S else a :: S.
Lemma add_addr_in S a x : x ∈ add_addr S a <-> x = a \/ x ∈ S.
Proof. unfold add_addr. destruct (decide (a ∈ S)); [|rewrite elem_of_cons]; naive_solver. Qed.
Lemma add_addr_len S a : (length (add_addr S a) <= Datatypes.S (length S))%nat.
Proof. unfold add_addr. destruct (decide (a ∈ S)); cbn; lia. Qed.

Lemma insert_holds m S a : holds_set m S -> legal_value a -> Z.of_nat (length S) + 1 <= max_inserts ->
  exists m', hashmap_insert m a a = Ok m' /\ holds_set m' (add_addr S a).
Proof.
  intros [Hnd (n & HR)] Ha HN. unfold add_addr. destruct (decide (a ∈ S)) as [Hin|Hni].
  - exists m. split; [|split; [assumption|exists n; assumption]]. eapply insert_again; [exact HR|exact Ha|]. apply dup_in. exact Hin.
  - destruct (insert_mrel m (map dup S) n (Z.of_nat (length S)) a a HR HN) as (m' & n' & H1 & HR'); auto.
    { rewrite dup_fst. assumption. } { rewrite dup_fst. assumption. }
    exists m'. split; [assumption|]. split; [constructor; assumption|]. exists n'. cbn [map length].
    replace (Z.of_nat (Datatypes.S (length S))) with (Z.of_nat (length S) + 1) by lia. exact HR'.
Qed.

Lemma have_holds m S a : holds_set m S -> hashmap_have m a = Ok (bool_decide (a ∈ S)).
Proof.
  intros [Hnd (n & HR)]. destruct (get_mrel m _ n _ a HR) as (r & _ & Hh & Hc). rewrite Hh. f_equal.
  destruct Hc as [[-> Hni]|[Hr Hin]].
  - rewrite dup_snd in Hni. symmetry. apply bool_decide_eq_false. exact Hni.
  - replace (r =? 0) with false by (symmetry; apply Z.eqb_neq; exact Hr). symmetry. apply bool_decide_eq_true.
    apply elem_of_list_In, in_map_iff in Hin as (x & E & Hx). unfold dup in E. injection E as <- <-. apply elem_of_list_In. exact Hx.
Qed.

Lemma gen_holds m S : holds_set m S -> Permutation (gen_addresses m) (map (fun a => a - call_op_size) S).
Proof.
  intros [Hnd (n & HR)]. unfold gen_addresses.
  assert (E : List.filter (fun sl : Z * Z => negb (sl.1 =? 0) && negb (sl.1 =? 1)) (hm_items m) = llist (hm_items m)).
  { clear. induction (hm_items m) as [|sl l IH]; [reflexivity|]. cbn [List.filter]. unfold live_list. rewrite filter_cons.
    fold (llist l). rewrite IH. destruct (decide (vlive sl)) as [Hl|Hl]; unfold live in Hl;
      destruct (Z.eqb_spec sl.1 0), (Z.eqb_spec sl.1 1); cbn; try reflexivity; exfalso; tauto. }
  rewrite E. rewrite (Permutation_map _ (mr_live _ _ _ _ HR)). rewrite map_map. reflexivity.
Qed.

(** * Lines *)
Definition hexchar (d : Z) : Z := if d <? 10 then 48 + d else 87 + d.
Definition digits_value (ds : list Z) : Z := fold_left (fun v d => 16 * v + d) ds 0.
(** a line: the digits of an address and any text that does not go on with a digit *)
Definition entry := (list Z * list Z)%type.
Definition entry_line (e : entry) : list Z := [48; 120] ++ map hexchar e.1 ++ e.2 ++ [newline].
Definition entry_site (e : entry) : Z := digits_value e.1 + call_op_size.
Record entry_ok (e : entry) : Prop := {
  eo_digits : Forall (fun d => 0 <= d < 16) e.1;
  eo_fits : digits_value e.1 < 2 ^ 64 - call_op_size;
  eo_tail : Forall (fun c => c <> newline) e.2;
  eo_stop : match e.2 with c :: _ => hexval c = None | [] => True end;
  eo_short : (length (entry_line e) <= LINE_MAX)%nat }.

Lemma hexval_hexchar d : 0 <= d < 16 -> hexval (hexchar d) = Some d.
Proof.
  intros H. assert (Hc : d = 0 \/ d = 1 \/ d = 2 \/ d = 3 \/ d = 4 \/ d = 5 \/ d = 6 \/ d = 7 \/ d = 8 \/ d = 9 \/ d = 10 \/ d = 11 \/ d = 12 \/ d = 13 \/ d = 14 \/ d = 15) by lia.
  repeat (destruct Hc as [-> | Hc]; [reflexivity|]). subst. reflexivity.
Qed.
Lemma hexchar_not_newline d : 0 <= d < 16 -> hexchar d <> newline.
Proof. intros H. unfold hexchar, newline. destruct (d <? 10) eqn:E; [|apply Z.ltb_ge in E]; lia. Qed.

Lemma hex_run_digits ds rest v : Forall (fun d => 0 <= d < 16) ds ->
  match rest with c :: _ => hexval c = None | [] => True end ->
  hex_run (map hexchar ds ++ rest) (Some v) = Some (fold_left (fun v d => 16 * v + d) ds v).
Proof.
  intros Hd Hr. revert v. induction Hd as [|d ds Hd Hds IH]; intros v; cbn [map app].
  - cbn. destruct rest as [|c rest]; [reflexivity|]. cbn. rewrite Hr. reflexivity.
  - cbn [hex_run]. rewrite hexval_hexchar by exact Hd. rewrite IH. reflexivity.
Qed.
Lemma digits_nonneg ds : Forall (fun d => 0 <= d < 16) ds -> 0 <= digits_value ds.
Proof.
  unfold digits_value. intros H. assert (G : forall v, 0 <= v -> 0 <= fold_left (fun v d => 16 * v + d) ds v); [|apply G; lia].
  induction H as [|d ds Hd Hds IH]; intros v Hv; cbn; [exact Hv|]. apply IH. lia.
Qed.
Lemma scan_entry e : entry_ok e -> scan_p (entry_line e) = Some (digits_value e.1).
Proof.
  intros H. unfold scan_p, entry_line. cbn [app skip_blanks is_blank Z.eqb Z.leb Pos.eqb orb andb Z.compare Pos.compare Pos.compare_cont].
  change (is_blank 48) with false. cbn [orb].
  rewrite hex_run_digits; [|exact (eo_digits _ H)|destruct (e.2) eqn:E; [reflexivity|]; cbn [app]; pose proof (eo_stop _ H) as X; rewrite E in X; exact X].
  fold (digits_value e.1). f_equal. unfold saturate. replace (2 ^ 64 <=? digits_value e.1) with false; [reflexivity|].
  symmetry. apply Z.leb_gt. pose proof (eo_fits _ H). unfold call_op_size in *. lia.
Qed.

(** fgets on a text beginning with a short line *)
Lemma fgets_line n l rest : Forall (fun c => c <> newline) l -> (length l < n)%nat -> fgets n (l ++ newline :: rest) = (l ++ [newline], rest).
Proof.
  intros H. revert n. induction H as [|c l Hc Hl IH]; intros n Hn; (destruct n as [|n]; [lia|]).
  - reflexivity.
  - cbn [app fgets]. replace (c =? newline) with false by (symmetry; apply Z.eqb_neq; exact Hc). rewrite IH by (cbn in Hn; lia). reflexivity.
Qed.
Lemma fgets_entry e rest : entry_ok e -> fgets LINE_MAX (entry_line e ++ rest) = (entry_line e, rest).
Proof.
  intros H. pose proof (eo_short _ H) as L. unfold entry_line in *.
  replace (([48; 120] ++ map hexchar e.1 ++ e.2 ++ [newline]) ++ rest) with (([48; 120] ++ map hexchar e.1 ++ e.2) ++ newline :: rest)
    by (rewrite <- !app_assoc; reflexivity).
  rewrite fgets_line.
  - rewrite <- !app_assoc. reflexivity.
  - apply Forall_app. split; [repeat constructor; discriminate|]. apply Forall_app. split; [|exact (eo_tail _ H)].
    apply Forall_map. eapply Forall_impl; [exact (eo_digits _ H)|]. intros d Hd. apply hexchar_not_newline. exact Hd.
  - rewrite !app_length in L. rewrite !app_length. cbn [length] in *. lia.
Qed.

(** * Reading a file *)
Definition text_of (es : list entry) : list Z := concat (map entry_line es).
Lemma entry_legal e : entry_ok e -> legal_value (entry_site e) /\ wrap64 (entry_site e) = entry_site e.
Proof.
  intros H. pose proof (digits_nonneg _ (eo_digits _ H)). pose proof (eo_fits _ H).
  unfold legal_value, entry_site, wrap64, call_op_size in *. split; [lia|]. apply Z.mod_small. lia.
Qed.

Lemma read_filter_spec es : Forall entry_ok es -> forall fuel m S, (length (text_of es) < fuel)%nat -> holds_set m S ->
  Z.of_nat (length S + length es) <= max_inserts ->
  exists m' S', read_filter fuel (text_of es) m = Ok m' /\ holds_set m' S' /\ (length S' <= length S + length es)%nat /\
    forall x, x ∈ S' <-> x ∈ S \/ x ∈ map entry_site es.
Proof.
  induction 1 as [|e es He Hes IH]; intros fuel m S Hf Hm HN; (destruct fuel as [|fuel]; [lia|]).
  - exists m, S. cbn. split; [reflexivity|]. split; [exact Hm|]. split; [lia|]. intros x. rewrite elem_of_nil. tauto.
  - destruct (entry_legal e He) as (Hl & Hw). unfold entry_site in Hw, Hl.
    unfold text_of in *. cbn [map concat] in *. cbn [read_filter].
    destruct (entry_line e ++ concat (map entry_line es)) eqn:Et; [discriminate|]. rewrite <- Et.
    rewrite fgets_entry by exact He. rewrite scan_entry by exact He. cbn [length] in HN.
    rewrite !Hw. destruct (insert_holds m S _ Hm Hl ltac:(lia)) as (m1 & E1 & H1). rewrite E1. cbn [bind].
    pose proof (add_addr_len S (digits_value e.1 + call_op_size)) as Hlen.
    destruct (IH fuel m1 (add_addr S (digits_value e.1 + call_op_size))) as (m' & S' & E' & H' & L' & Hx); [|exact H1|lia|].
    { rewrite <- Et, app_length in Hf. unfold entry_line in Hf at 1. cbn [app length] in Hf. lia. }
    exists m', S'. split; [exact E'|]. split; [exact H'|]. split; [cbn [length]; lia|].
    intros x. rewrite Hx, add_addr_in. cbn [map]. rewrite elem_of_cons. unfold entry_site at 2. naive_solver.
Qed.

Lemma read_file_spec es : Forall entry_ok es -> Z.of_nat (length es) <= max_inserts ->
  exists m S, vfc_read_filter_file (Some (text_of es)) hashmap_create = Ok m /\ holds_set m S /\ forall x, x ∈ S <-> x ∈ map entry_site es.
Proof.
  intros H HN. destruct (read_filter_spec es H (S (length (text_of es))) hashmap_create [] ltac:(lia) create_holds) as (m & S' & E & Hm & _ & Hx);
    [cbn; lia|]. exists m, S'. split; [exact E|]. split; [exact Hm|]. intros x. rewrite Hx, elem_of_nil. tauto.
Qed.

(** * Filtering *)
(** the sites of a filter file; None: no filter *)
Definition excluded (E : option (list entry)) (a : Z) : Prop := match E with Some es => a ∈ map entry_site es | None => False end.
Definition included (I : option (list entry)) (a : Z) : Prop := match I with Some es => a ∈ map entry_site es | None => True end.
#[global] Instance excluded_dec E a : Decision (excluded E a).
Proof. destruct E; cbn; apply _. Defined.
#[global] Instance included_dec I a : Decision (included I a).
Proof. destruct I; cbn; apply _. Defined.
Definition file_of (F : option (list entry)) : option (option (list Z)) := match F with Some es => Some (Some (text_of es)) | None => None end.
Definition file_ok (F : option (list entry)) : Prop := match F with Some es => Forall entry_ok es /\ Z.of_nat (length es) <= max_inserts | None => True end.

(** what the initial state knows *)
Definition knows_excluded (st : dd) (E : option (list entry)) : Prop :=
  match E, dd_exclude st with
  | Some es, Some m => exists S, holds_set m S /\ forall x, x ∈ S <-> x ∈ map entry_site es
  | None, None => True
  | _, _ => False
  end.

Lemma dd_init_spec E I gen : file_ok E -> file_ok I -> (I <> None -> gen = false) ->
  exists st, dd_init (file_of E) (file_of I) gen = Ok st /\ knows_excluded st E /\ dd_gen st = gen /\
    match I with
    | Some es => dd_include st = true /\ exists S, holds_set (dd_must st) S /\ forall x, x ∈ S <-> x ∈ map entry_site es
    | None => dd_include st = false /\ dd_must st = hashmap_create
    end.
Proof.
  intros HE HI Hg. unfold dd_init, file_of. destruct I as [is|].
  - rewrite (Hg ltac:(discriminate)). destruct HI as [HI1 HI2].
    destruct (read_file_spec is HI1 HI2) as (m & S & Em & Hm & Hx). rewrite Em. cbn [bind].
    destruct E as [es|].
    + destruct HE as [HE1 HE2]. destruct (read_file_spec es HE1 HE2) as (m' & S' & Em' & Hm' & Hx'). rewrite Em'. cbn [bind].
      eexists. split; [reflexivity|]. cbn. eauto 10.
    + eexists. split; [reflexivity|]. cbn. eauto 10.
  - destruct E as [es|].
    + destruct HE as [HE1 HE2]. destruct (read_file_spec es HE1 HE2) as (m' & S' & Em' & Hm' & Hx'). rewrite Em'. cbn [bind].
      eexists. split; [reflexivity|]. cbn. eauto 10.
    + eexists. split; [reflexivity|]. cbn. auto.
Qed.

Lemma excluded_lookup st E a : knows_excluded st E ->
  match dd_exclude st with Some m => hashmap_have m a | None => Ok false end = Ok (bool_decide (excluded E a)).
Proof.
  unfold knows_excluded. destruct E as [es|], (dd_exclude st) as [m|]; try tauto.
  - intros (S & Hm & Hx). rewrite (have_holds _ _ a Hm). f_equal. cbn. apply bool_decide_ext. apply Hx.
Qed.

(** which sites are instrumented *)
Definition instrumented (E I : option (list entry)) (a : Z) : bool := negb (bool_decide (excluded E a)) && bool_decide (included I a).

Lemma filter_spec E I : file_ok E -> file_ok I ->
  exists st, dd_init (file_of E) (file_of I) false = Ok st /\ forall a, ddebug st a = Ok (instrumented E I a, st).
Proof.
  intros HE HI. destruct (dd_init_spec E I false HE HI ltac:(auto)) as (st & Est & Hk & Hg & Hi). exists st. split; [exact Est|].
  intros a. unfold ddebug, instrumented. rewrite (excluded_lookup st E a Hk). cbn [bind].
  destruct (bool_decide (excluded E a)); [reflexivity|]. cbn [negb andb]. destruct I as [is|].
  - destruct Hi as (-> & S & Hm & Hx). rewrite (have_holds _ _ a Hm). cbn [bind]. do 2 f_equal. cbn. apply bool_decide_ext. apply Hx.
  - destruct Hi as (-> & _). rewrite Hg. reflexivity.
Qed.

(** * Generating *)
Lemma gen_run E trace : forall st S, knows_excluded st E -> dd_include st = false -> dd_gen st = true -> holds_set (dd_must st) S ->
  Forall legal_value trace -> Z.of_nat (length S + length trace) <= max_inserts ->
  exists st' S', dd_run st trace = Ok (map (fun a => negb (bool_decide (excluded E a))) trace, st') /\ holds_set (dd_must st') S' /\
    forall x, x ∈ S' <-> x ∈ S \/ (x ∈ trace /\ ~ excluded E x).
Proof.
  induction trace as [|a trace IH]; intros st S Hk Hi Hg Hm Hl HN.
  - exists st, S. cbn. split; [reflexivity|]. split; [exact Hm|]. intros x. rewrite elem_of_nil. tauto.
  - inversion Hl as [|? ? Ha Hl']; subst. cbn [length] in HN. cbn [dd_run map]. unfold ddebug.
    rewrite (excluded_lookup st E a Hk). cbn [bind]. rewrite Hi, Hg. destruct (bool_decide (excluded E a)) eqn:Ed.
    + apply bool_decide_eq_true in Ed. cbn [bind].
      destruct (IH st S Hk Hi Hg Hm Hl' ltac:(lia)) as (st' & S' & E' & H' & Hx). rewrite E'. cbn [bind negb].
      exists st', S'. split; [reflexivity|]. split; [exact H'|]. intros x. rewrite Hx, elem_of_cons. naive_solver.
    + apply bool_decide_eq_false in Ed.
      destruct (insert_holds (dd_must st) S a Hm Ha ltac:(lia)) as (m1 & E1 & H1). rewrite E1. cbn [bind].
      pose proof (add_addr_len S a).
      destruct (IH (mk_dd (dd_exclude st) (dd_include st) (dd_gen st) m1) (add_addr S a)) as (st' & S' & E' & H' & Hx); auto; [cbn; lia|].
      rewrite Hi, Hg in E'. rewrite E'. cbn [bind negb].
      exists st', S'. split; [reflexivity|]. split; [exact H'|]. intros x. rewrite Hx, add_addr_in, elem_of_cons. naive_solver.
Qed.

Lemma generate_spec E trace : file_ok E -> Forall legal_value trace -> Z.of_nat (length trace) <= max_inserts ->
  exists st st' S, dd_init (file_of E) None true = Ok st /\
    dd_run st trace = Ok (map (fun a => negb (bool_decide (excluded E a))) trace, st') /\
    NoDup S /\ Permutation (gen_addresses (dd_must st')) (map (fun a => a - call_op_size) S) /\
    forall x, x ∈ S <-> x ∈ trace /\ ~ excluded E x.
Proof.
  intros HE Hl HN. destruct (dd_init_spec E None true HE I ltac:(congruence)) as (st & Est & Hk & Hg & Hi & Hm0).
  destruct (gen_run E trace st [] Hk Hi Hg) as (st' & S & E' & Hm & Hx); [rewrite Hm0; exact create_holds|exact Hl|exact HN|].
  exists st, st', S. split; [exact Est|]. split; [exact E'|]. split; [apply Hm|]. split; [apply gen_holds; exact Hm|].
  intros x. rewrite Hx, elem_of_nil. tauto.
Qed.

(** addr2line -pa answers a line beginning with the address *)
Definition answers (a2l : Z -> list Z) : Prop := forall x, 0 <= x < 2 ^ 64 - call_op_size -> exists e, entry_ok e /\ a2l x = entry_line e /\ digits_value e.1 = x.

Lemma answers_all a2l l : answers a2l -> Forall (fun x => 0 <= x < 2 ^ 64 - call_op_size) l ->
  exists es, Forall entry_ok es /\ concat (map a2l l) = text_of es /\ map entry_site es = map (fun x => x + call_op_size) l.
Proof.
  intros Ha. induction 1 as [|x l Hx Hl IH].
  - exists []. split; [constructor|]. split; reflexivity.
  - destruct IH as (es & H1 & H2 & H3). destruct (Ha x Hx) as (e & He & E1 & E2). exists (e :: es).
    split; [constructor; assumption|]. split; [unfold text_of in *; cbn; rewrite E1, H2; reflexivity|].
    cbn. unfold entry_site at 1. rewrite E2, H3. reflexivity.
Qed.

Lemma roundtrip a2l E trace : answers a2l -> file_ok E -> Forall (fun a => call_op_size <= a < 2 ^ 64) trace -> Z.of_nat (length trace) <= max_inserts ->
  exists st st' st2 ds, dd_init (file_of E) None true = Ok st /\ dd_run st trace = Ok (ds, st') /\
    dd_init None (Some (Some (generate a2l (dd_must st') []))) false = Ok st2 /\
    forall a, ddebug st2 a = Ok (bool_decide (a ∈ trace) && negb (bool_decide (excluded E a)), st2).
Proof.
  intros Ha HE Hl HN.
  assert (Hl' : Forall legal_value trace) by (eapply Forall_impl; [exact Hl|]; unfold legal_value, call_op_size; cbn; intros; lia).
  destruct (generate_spec E trace HE Hl' HN) as (st & st' & S & E1 & E2 & Hnd & Hp & Hx).
  assert (HS : Forall (fun a => call_op_size <= a < 2 ^ 64) S).
  { apply Forall_forall. intros x Hin. apply Hx in Hin as [Hin _]. rewrite Forall_forall in Hl. apply Hl. exact Hin. }
  destruct (answers_all a2l (gen_addresses (dd_must st')) Ha) as (es & H1 & H2 & H3).
  { rewrite Hp. apply Forall_map. eapply Forall_impl; [exact HS|]. cbn. intros; lia. }
  assert (Hlen : (length S <= length trace)%nat).
  { apply submseteq_length. apply NoDup_submseteq; [exact Hnd|]. intros x Hin. apply Hx in Hin. tauto. }
  assert (Hes : Z.of_nat (length es) <= max_inserts).
  { assert (length es = length S); [|lia]. rewrite <- (map_length entry_site es), H3, map_length, Hp, map_length. reflexivity. }
  destruct (filter_spec None (Some es) I (conj H1 Hes)) as (st2 & E3 & Hd).
  exists st, st', st2, (map (fun a => negb (bool_decide (excluded E a))) trace).
  split; [exact E1|]. split; [exact E2|]. split.
  { unfold generate, overwrite. rewrite skipn_nil, app_nil_r, H2. exact E3. }
  intros a. rewrite Hd. unfold instrumented. do 2 f_equal. cbn [negb].
  assert (Q : included (Some es) a <-> a ∈ trace /\ ~ excluded E a).
  { cbn. rewrite H3. rewrite <- Hx. rewrite Hp. rewrite map_map. rewrite elem_of_list_In, in_map_iff. split.
    - intros (x & E0 & Hin). replace a with x by (unfold call_op_size in E0; lia). apply elem_of_list_In. exact Hin.
    - intros Hin. exists a. split; [lia|]. apply elem_of_list_In. exact Hin. }
  replace (bool_decide (excluded None a)) with false by (symmetry; apply bool_decide_eq_false; cbn; tauto). cbn [negb andb].
  destruct (bool_decide (included (Some es) a)) eqn:B1.
  - apply bool_decide_eq_true in B1. apply Q in B1 as [B1 B2]. rewrite (bool_decide_eq_true_2 _ B1), (bool_decide_eq_false_2 _ B2). reflexivity.
  - apply bool_decide_eq_false in B1. symmetry. apply andb_false_iff. destruct (decide (a ∈ trace)) as [Y|Y].
    + right. apply negb_false_iff. apply bool_decide_eq_true. destruct (decide (excluded E a)); tauto.
    + left. apply bool_decide_eq_false. exact Y.
Qed.
