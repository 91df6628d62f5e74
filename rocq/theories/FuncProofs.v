(** Proofs for the call stack of funcinstr.c (C39). *)
From Coq Require Import ZArith List Bool Lia.
From stdpp Require Import base list numbers gmap.
From Verif Require Import Common HashModel HashTable HashMapProofs FuncModel.
Import ListNotations.
Open Scope Z_scope.
Open Scope outcome_scope.

(** * What the program does *)
(** the active calls, innermost first; None when the history is not well nested *)
Definition act_step (a : list finfo) (e : fevent) : option (list finfo) :=
  match e with
  | FEnter f => Some (f :: a)
  | FExit f => match a with g :: a' => Some a' | [] => None end
  end.
Fixpoint actives (a : list finfo) (h : list fevent) : option (list finfo) :=
  match h with
  | [] => Some a
  | e :: h' => match act_step a e with Some a' => actives a' h' | None => None end
  end.
(** the active calls at each event a backend is told of, latest first: after entering, before leaving *)
Fixpoint expected (a : list finfo) (h : list fevent) (log : list (list finfo)) : list (list finfo) :=
  match h with
  | [] => log
  | FEnter f :: h' => expected (f :: a) h' (if told f then (f :: a) :: log else log)
  | FExit f :: h' => expected (tl a) h' (if told f then a :: log else log)
  end.
(** the largest depth reached *)
Fixpoint depth (n : nat) (h : list fevent) : nat :=
  match h with
  | [] => n
  | FEnter _ :: h' => Nat.max (S n) (depth (S n) h')
  | FExit _ :: h' => Nat.max n (depth (pred n) h')
  end.
Definition entered (h : list fevent) : list finfo := flat_map (fun e => match e with FEnter f => [f] | FExit _ => [] end) h.

Definition key_of (f : finfo) : Z := hashmap_str_function (f_id f).
(** the first [n] allocations give distinct addresses, neither 0 nor 1 *)
Definition allocator (al : nat -> Z) (n : nat) : Prop :=
  (forall i, (i < n)%nat -> legal_value (al i)) /\ forall i j, (i < n)%nat -> (j < n)%nat -> al i = al j -> i = j.

(** * Invariant *)
Definition cell (st : fstate) (p : Z) (g f : finfo) : Prop := heap_get (fi_heap st) p = Ok g /\ p <> 0 /\ key_of g = key_of f.
Record finv (al : nat -> Z) (seen : list finfo) (st : fstate) (act : list finfo) : Prop := {
  fv_table : exists n, mrel (fi_map st) (map (fun pf => (pf.1, key_of pf.2)) (fi_heap st)) n (Z.of_nat (length (fi_heap st)));
  fv_ptrs : map fst (fi_heap st) = map al (rev (seq 0 (fi_next st)));
  fv_seen : Forall (fun pf => pf.2 ∈ seen) (fi_heap st);
  fv_len : length (fi_arr st) = 4096%nat;
  fv_top : fi_top st = 4095 - Z.of_nat (length act);
  fv_depth : (length act <= 4095)%nat;
  fv_sentinel : fi_arr st !! 4095%nat = Some (Some 0);
  fv_cells : forall i f, act !! i = Some f -> exists p g, fi_arr st !! (4095 - length act + i)%nat = Some (Some p) /\ cell st p g f }.

Lemma ptrs_fst (h : list (Z * finfo)) : (map (fun pf => (pf.1, key_of pf.2)) h).*1 = map fst h.
Proof. induction h as [|x h IH]; [reflexivity|]. cbn. f_equal. exact IH. Qed.
Lemma ptrs_snd (h : list (Z * finfo)) : (map (fun pf => (pf.1, key_of pf.2)) h).*2 = map (fun pf => key_of pf.2) h.
Proof. induction h as [|x h IH]; [reflexivity|]. cbn. f_equal. exact IH. Qed.

Lemma alloc_nodup al N n : allocator al N -> (n <= N)%nat -> NoDup (map al (rev (seq 0 n))).
Proof.
  intros [_ Hinj] Hn. assert (G : forall l, NoDup l -> Forall (fun i => (i < N)%nat) l -> NoDup (map al l)).
  { induction 1 as [|i l Hi Hl IH]; intros HF; cbn; [constructor|]. inversion HF as [|? ? Hi' HF']; subst. constructor; [|apply IH; exact HF'].
    intros Hin. apply elem_of_list_In, in_map_iff in Hin as (j & E & Hj). apply Hi. rewrite Forall_forall in HF'.
    replace i with j; [apply elem_of_list_In; exact Hj|]. apply Hinj; [apply HF'; apply elem_of_list_In; exact Hj|exact Hi'|exact E]. }
  apply G.
  - apply NoDup_ListNoDup. apply List.NoDup_rev. apply seq_NoDup.
  - apply Forall_forall. intros i Hi. apply elem_of_list_In, in_rev, in_seq in Hi. lia.
Qed.

Lemma heap_get_in h p f : NoDup (map fst h) -> In (p, f) h -> heap_get h p = Ok f.
Proof.
  induction h as [|[q g] h IH]; intros Hnd Hin; [destruct Hin|]. cbn in Hnd. apply NoDup_cons in Hnd as [Hq Hnd]. cbn [heap_get].
  destruct Hin as [[= -> ->]|Hin]; [rewrite Z.eqb_refl; reflexivity|].
  destruct (Z.eqb_spec p q) as [->|_]; [|apply IH; assumption].
  exfalso. apply Hq. apply elem_of_list_In, in_map_iff. exists (q, f). auto.
Qed.
Lemma heap_get_sound h p f : heap_get h p = Ok f -> In (p, f) h.
Proof.
  induction h as [|[q g] h IH]; [discriminate|]. cbn [heap_get]. destruct (Z.eqb_spec p q) as [->|_]; [intros [= ->]; left; reflexivity|].
  intros H. right. apply IH. exact H.
Qed.

(** interning gives a structure of the same key *)
Lemma intern_spec al M seen st act f : allocator al M -> (fi_next st < M)%nat -> finv al seen st act -> Z.of_nat (length (fi_heap st)) + 1 <= max_inserts ->
  exists p st' g, func_intern al st f = Ok (p, st') /\ finv al (f :: seen) st' act /\ cell st' p g f /\
    fi_top st' = fi_top st /\ fi_arr st' = fi_arr st /\ (length (fi_heap st') <= S (length (fi_heap st)))%nat /\ (fi_next st' <= S (fi_next st))%nat.
Proof.
  intros Ha HM HI HN. destruct (fv_table _ _ _ _ HI) as (n & HR). pose proof (fv_ptrs _ _ _ _ HI) as Hp.
  pose proof (alloc_nodup al M (fi_next st) Ha ltac:(lia)) as Hnd. rewrite <- Hp in Hnd.
  unfold func_intern. fold (key_of f).
  assert (Hseen : Forall (fun pf : Z * finfo => pf.2 ∈ f :: seen) (fi_heap st)).
  { eapply Forall_impl; [exact (fv_seen _ _ _ _ HI)|]. intros x Hx. cbn in Hx. apply elem_of_cons. right. exact Hx. }
  destruct (get_mrel _ _ _ _ (key_of f) HR) as (r & Hg & _ & Hc). rewrite Hg. cbn [bind].
  destruct Hc as [[-> Hni]|[Hr Hin]].
  - cbn [Z.eqb].
    assert (Hfresh : al (fi_next st) ∉ map fst (fi_heap st)).
    { rewrite Hp. intros Hin. apply elem_of_list_In, in_map_iff in Hin as (i & E & Hi).
      apply in_rev, in_seq in Hi. apply (proj2 Ha) in E; lia. }
    destruct (insert_mrel _ _ _ _ (key_of f) (al (fi_next st)) HR HN) as (m' & n' & E' & HR').
    { rewrite ptrs_fst. exact Hnd. } { apply (proj1 Ha). exact HM. } { rewrite ptrs_fst. exact Hfresh. }
    rewrite E'. cbn [bind]. eexists _, _, f. split; [reflexivity|]. split; [|split].
    + split; cbn [fi_map fi_heap fi_next fi_arr fi_top].
      * exists n'. cbn [map length fst snd]. rewrite Nat2Z.inj_succ. unfold Z.succ. exact HR'.
      * cbn [map fst]. rewrite Hp, seq_S, rev_app_distr. reflexivity.
      * constructor; [cbn; apply elem_of_cons; left; reflexivity|exact Hseen].
      * exact (fv_len _ _ _ _ HI).
      * exact (fv_top _ _ _ _ HI).
      * exact (fv_depth _ _ _ _ HI).
      * exact (fv_sentinel _ _ _ _ HI).
      * intros i f0 Hf0. destruct (fv_cells _ _ _ _ HI i f0 Hf0) as (p & g & E & (C1 & C2 & C3)). exists p, g. split; [exact E|].
        split; [|split; assumption]. cbn [fi_heap heap_get]. destruct (Z.eqb_spec p (al (fi_next st))) as [->|_]; [|exact C1].
        exfalso. apply Hfresh. apply heap_get_sound in C1. apply elem_of_list_In, in_map_iff. exists (al (fi_next st), g). auto.
    + split; [cbn; rewrite Z.eqb_refl; reflexivity|]. split; [|reflexivity]. pose proof (proj1 Ha (fi_next st) HM) as X. unfold legal_value in X. lia.
    + cbn. auto.
  - replace (r =? 0) with false by (symmetry; apply Z.eqb_neq; exact Hr).
    apply elem_of_list_In, in_map_iff in Hin as ([p g] & E & Hin). cbn in E. injection E as -> E.
    exists r, st, g. split; [reflexivity|]. split; [|split; [|auto]].
    + destruct HI. split; eauto.
    + split; [apply heap_get_in; assumption|]. split; [exact Hr|exact E].
Qed.

Lemma push_spec al seen st act f p g : finv al seen st act -> cell st p g f ->
  if (length act =? 4095)%nat then stack_push st p = Exit
  else exists st', stack_push st p = Ok st' /\ finv al seen st' (f :: act) /\ fi_heap st' = fi_heap st /\ fi_next st' = fi_next st.
Proof.
  intros HI Hc. pose proof (fv_top _ _ _ _ HI) as Ht. pose proof (fv_depth _ _ _ _ HI) as Hd. pose proof (fv_len _ _ _ _ HI) as Hlen.
  destruct (Nat.eqb_spec (length act) 4095) as [E|E]; unfold stack_push; rewrite Ht.
  - rewrite E. reflexivity.
  - replace (4095 - Z.of_nat (length act) =? 0) with false by (symmetry; apply Z.eqb_neq; lia).
    replace ((1 <=? 4095 - Z.of_nat (length act)) && (4095 - Z.of_nat (length act) <=? STACK_MAX)) with true
      by (symmetry; apply andb_true_iff; split; apply Z.leb_le; unfold STACK_MAX; lia).
    eexists. split; [reflexivity|]. split; [|split; reflexivity].
    replace (Z.to_nat (4095 - Z.of_nat (length act) - 1)) with (4094 - length act)%nat by lia.
    destruct HI. split; cbn [fi_map fi_heap fi_next fi_arr fi_top]; auto.
    + rewrite insert_length. assumption.
    + cbn [length]. lia.
    + cbn [length]. lia.
    + rewrite list_lookup_insert_ne by lia. assumption.
    + intros i f0 Hf0. cbn [length]. destruct i as [|i].
      * cbn in Hf0. injection Hf0 as <-. exists p, g. split; [|exact Hc].
        replace (4095 - S (length act) + 0)%nat with (4094 - length act)%nat by lia. apply list_lookup_insert. lia.
      * cbn in Hf0. destruct (fv_cells0 i f0 Hf0) as (p0 & g0 & E0 & C0). exists p0, g0. split; [|exact C0].
        rewrite list_lookup_insert_ne by lia. rewrite <- E0. f_equal. lia.
Qed.

Lemma pop_spec al seen st f act : finv al seen st (f :: act) -> finv al seen (stack_pop st) act /\ fi_heap (stack_pop st) = fi_heap st /\ fi_next (stack_pop st) = fi_next st.
Proof.
  intros HI. pose proof (fv_top _ _ _ _ HI) as Ht. pose proof (fv_depth _ _ _ _ HI) as Hd. cbn [length] in *.
  unfold stack_pop. replace (fi_top st <? STACK_MAX) with true by (symmetry; apply Z.ltb_lt; rewrite Ht; unfold STACK_MAX; lia).
  split; [|split; reflexivity]. destruct HI. split; cbn [fi_map fi_heap fi_next fi_arr fi_top]; auto; [lia|lia|].
  intros i f0 Hf0. destruct (fv_cells0 (S i) f0 Hf0) as (p0 & g0 & E0 & C0). exists p0, g0. split; [|exact C0].
  rewrite <- E0. f_equal. cbn [length]. lia.
Qed.

Lemma walk_spec al seen st act : finv al seen st act -> forall l i fuel, drop i act = l -> (i + length l = length act)%nat -> (length l < fuel)%nat ->
  exists v, walk fuel st (4095 - length act + i)%nat = Ok v /\ Forall2 (fun g f => key_of g = key_of f /\ g ∈ seen) v l.
Proof.
  intros HI. pose proof (fv_depth _ _ _ _ HI) as Hd. induction l as [|f l IH]; intros i fuel Hl Hi Hf; (destruct fuel as [|fuel]; [lia|]); cbn [walk].
  - replace (4095 - length act + i)%nat with 4095%nat by (cbn in Hi; lia). rewrite (fv_sentinel _ _ _ _ HI). cbn [Z.eqb].
    exists []. split; [reflexivity|constructor].
  - assert (Hlk : act !! i = Some f).
    { replace i with (i + 0)%nat by lia. rewrite <- lookup_drop, Hl. reflexivity. }
    destruct (fv_cells _ _ _ _ HI i f Hlk) as (p & g & E & (C1 & C2 & C3)). rewrite E.
    replace (p =? 0) with false by (symmetry; apply Z.eqb_neq; exact C2). rewrite C1. cbn [bind].
    destruct (IH (S i) fuel) as (v & Ev & Hv).
    { replace (S i) with (i + 1)%nat by lia. rewrite <- drop_drop, Hl. reflexivity. }
    { cbn [length] in Hi. lia. } { cbn [length] in Hf. lia. }
    replace (4095 - length act + S i)%nat with (S (4095 - length act + i)) in Ev by lia. rewrite Ev. cbn [bind].
    exists (g :: v). split; [reflexivity|]. constructor; [|exact Hv]. split; [exact C3|].
    pose proof (fv_seen _ _ _ _ HI) as Hs. rewrite Forall_forall in Hs. apply heap_get_sound in C1.
    apply (Hs (p, g)). apply elem_of_list_In. exact C1.
Qed.
Lemma view_spec al seen st act : finv al seen st act ->
  exists v, view st = Ok v /\ Forall2 (fun g f => key_of g = key_of f /\ g ∈ seen) v act.
Proof.
  intros HI. pose proof (fv_depth _ _ _ _ HI) as Hd. unfold view. rewrite (fv_top _ _ _ _ HI).
  destruct (walk_spec al seen st act HI act 0 (S (length (fi_arr st))) eq_refl ltac:(lia) ltac:(rewrite (fv_len _ _ _ _ HI); lia)) as (v & E & H). exists v. split; [|exact H].
  rewrite <- E. f_equal. lia.
Qed.

Lemma init_inv al : finv al [] fi_init [].
Proof.
  split; cbn [fi_map fi_heap fi_next fi_arr fi_top fi_init].
  - exists 3. exact create_mrel.
  - reflexivity.
  - constructor.
  - rewrite insert_length, replicate_length. reflexivity.
  - reflexivity.
  - cbn. lia.
  - apply list_lookup_insert. rewrite replicate_length. lia.
  - intros i f H. destruct i; discriminate.
Qed.

Lemma seen_mono {A} (P : A -> A -> Prop) (s1 s2 : list A) v l : (forall x, x ∈ s1 -> x ∈ s2) ->
  Forall2 (fun g f => P g f /\ g ∈ s1) v l -> Forall2 (fun g f => P g f /\ g ∈ s2) v l.
Proof. intros H H2. eapply Forall2_impl; [exact H2|]. cbn. intros ? ? [? ?]. auto. Qed.

Definition similar (seen : list finfo) (v l : list finfo) : Prop := Forall2 (fun g f => key_of g = key_of f /\ g ∈ seen) v l.

(** every well-nested history *)
Lemma run_spec al M : allocator al M -> forall h seen st act act' log elog,
  finv al seen st act -> (fi_next st + length h <= M)%nat -> actives act h = Some act' -> Z.of_nat (length (fi_heap st) + length h) <= max_inserts ->
  Forall2 (similar seen) log elog ->
  if (depth (length act) h <=? 4095)%nat
  then exists st' log' seen', ofold (fi_step al) h (st, log) = Ok (st', log') /\ finv al seen' st' act' /\
    (forall x, x ∈ seen' <-> x ∈ seen \/ x ∈ entered h) /\ Forall2 (similar seen') log' (expected act h elog)
  else ofold (fi_step al) h (st, log) = Exit.
Proof.
  intros Ha. induction h as [|e h IH]; intros seen st act act' log elog HI HM Hact HN Hlog.
  - cbn in Hact. injection Hact as <-. cbn [depth]. replace (length act <=? 4095)%nat with true
      by (symmetry; apply Nat.leb_le; exact (fv_depth _ _ _ _ HI)).
    exists st, log, seen. split; [reflexivity|]. split; [exact HI|]. split; [|exact Hlog]. intros x. cbn. rewrite elem_of_nil. tauto.
  - cbn [length] in HN, HM. destruct e as [f|f]; cbn [actives act_step] in Hact; cbn [ofold depth expected].
    + destruct (intern_spec al M seen st act f Ha ltac:(lia) HI ltac:(lia)) as (p & st1 & g & E1 & HI1 & Hc & _ & _ & Hh & Hnx).
      pose proof (push_spec al _ st1 act f p g HI1 Hc) as Hp. 
      assert (Es : fi_step al (st, log) (FEnter f) = (let* st2 := stack_push st1 p in if told f then let* v := view st2 in Ok (st2, v :: log) else Ok (st2, log)))
        by (cbn [fi_step]; rewrite E1; reflexivity).
      rewrite Es.
      destruct (Nat.eqb_spec (length act) 4095) as [Ed|Ed].
      * rewrite Hp. cbn [bind]. replace (Nat.max (S (length act)) (depth (S (length act)) h) <=? 4095)%nat with false; [reflexivity|].
        symmetry. apply Nat.leb_gt. lia.
      * destruct Hp as (st2 & E2 & HI2 & Hh2 & Hnx2). rewrite E2. cbn [bind].
        assert (Hd2 : (length act < 4095)%nat) by (pose proof (fv_depth _ _ _ _ HI); lia).
        assert (Hlog2 : Forall2 (similar (f :: seen)) log elog).
        { eapply Forall2_impl; [exact Hlog|]. intros v l H. eapply (seen_mono (fun g f => key_of g = key_of f)); [|exact H].
          intros x Hx. apply elem_of_cons. right. exact Hx. }
        destruct (view_spec _ _ _ _ HI2) as (v & Ev & Hv).
        replace (Nat.max (S (length act)) (depth (S (length act)) h) <=? 4095)%nat with (depth (S (length act)) h <=? 4095)%nat
          by (destruct (Nat.leb_spec (depth (S (length act)) h) 4095); symmetry; [apply Nat.leb_le|apply Nat.leb_gt]; lia).
        assert (HN2 : Z.of_nat (length (fi_heap st2) + length h) <= max_inserts) by (rewrite Hh2; lia).
        assert (Hfin : forall log2 elog2, Forall2 (similar (f :: seen)) log2 elog2 ->
          if (depth (S (length act)) h <=? 4095)%nat
          then exists st' log' seen', ofold (fi_step al) h (st2, log2) = Ok (st', log') /\ finv al seen' st' act' /\
            (forall x, x ∈ seen' <-> x ∈ seen \/ x ∈ entered (FEnter f :: h)) /\ Forall2 (similar seen') log' (expected (f :: act) h elog2)
          else ofold (fi_step al) h (st2, log2) = Exit).
        { intros log2 elog2 H2. specialize (IH (f :: seen) st2 (f :: act) act' log2 elog2 HI2 ltac:(lia) Hact HN2 H2). cbn [length] in IH.
          destruct (depth (S (length act)) h <=? 4095)%nat; [|exact IH].
          destruct IH as (st' & log' & seen' & A & B & C & D). exists st', log', seen'. split; [exact A|]. split; [exact B|].
          split; [|exact D]. intros x. rewrite C. cbn. rewrite !elem_of_cons. tauto. }
        destruct (told f).
        -- rewrite Ev. cbn [bind]. apply Hfin. constructor; [exact Hv|exact Hlog2].
        -- apply Hfin. exact Hlog2.
    + destruct act as [|g act]; [discriminate|]. destruct (pop_spec _ _ _ _ _ HI) as (HI2 & Hh2 & Hnx2).
      destruct (view_spec _ _ _ _ HI) as (v & Ev & Hv). cbn [tl length pred].
      assert (Hd2 : (length (g :: act) <= 4095)%nat) by exact (fv_depth _ _ _ _ HI). cbn [length] in Hd2.
      replace (Nat.max (S (length act)) (depth (length act) h) <=? 4095)%nat with (depth (length act) h <=? 4095)%nat
        by (destruct (Nat.leb_spec (depth (length act) h) 4095); symmetry; [apply Nat.leb_le|apply Nat.leb_gt]; lia).
      assert (HN2 : Z.of_nat (length (fi_heap (stack_pop st)) + length h) <= max_inserts) by (rewrite Hh2; lia).
      
      change (fi_step al (st, log) (FExit f)) with (if told f then let* v := view st in Ok (stack_pop st, v :: log) else Ok (stack_pop st, log)).
      destruct (told f).
      * rewrite Ev. cbn [bind]. apply (IH seen (stack_pop st) act act' (v :: log) ((g :: act) :: elog) HI2 ltac:(lia) Hact HN2).
        constructor; [exact Hv|exact Hlog].
      * cbn [bind]. apply (IH seen (stack_pop st) act act' log elog HI2 ltac:(lia) Hact HN2 Hlog).
Qed.

Lemma similar_exact seen v l : (forall f g, f ∈ seen -> g ∈ seen -> key_of f = key_of g -> f = g) ->
  Forall (fun f => f ∈ seen) l -> similar seen v l -> v = l.
Proof.
  intros Hinj Hl H. induction H as [|g f v l [E Hg] H IH]; [reflexivity|]. inversion Hl; subst. f_equal; [apply Hinj; assumption|].
  apply IH. assumption.
Qed.
Lemma similar_all seen log elog : (forall f g, f ∈ seen -> g ∈ seen -> key_of f = key_of g -> f = g) ->
  Forall2 (similar seen) log elog -> Forall (Forall (fun f => f ∈ seen)) elog -> log = elog.
Proof.
  intros Hinj Hl. induction Hl as [|v l log elog Hv Hl IH]; intros Hf; [reflexivity|]. inversion Hf; subst.
  f_equal; [eapply similar_exact; eassumption|]. apply IH. assumption.
Qed.
Lemma expected_entered h : forall act log (seen : list finfo), Forall (fun f => f ∈ seen) act -> Forall (Forall (fun f => f ∈ seen)) log ->
  (forall x, x ∈ entered h -> x ∈ seen) -> Forall (Forall (fun f => f ∈ seen)) (expected act h log).
Proof.
  induction h as [|e h IH]; intros act log seen Ha Hl Hs; [exact Hl|]. destruct e as [f|f]; cbn [expected].
  - assert (f ∈ seen) by (apply Hs; cbn; apply elem_of_cons; left; reflexivity).
    apply IH; [constructor; assumption| |intros x Hx; apply Hs; cbn; apply elem_of_cons; right; exact Hx].
    destruct (told f); [constructor; [constructor; assumption|assumption]|assumption].
  - apply IH; [destruct act; [constructor|inversion Ha; assumption]| |exact Hs].
    destruct (told f); [constructor; assumption|assumption].
Qed.

Lemma call_stack_any al h act' : allocator al (length h) -> actives [] h = Some act' -> Z.of_nat (length h) <= max_inserts ->
  if (depth 0 h <=? 4095)%nat
  then exists st log, fi_run al h = Ok (st, log) /\ Forall2 (similar (entered h)) log (expected [] h [])
  else fi_run al h = Exit.
Proof.
  intros Ha Hact HN. pose proof (run_spec al (length h) Ha h [] fi_init [] act' [] [] (init_inv al) ltac:(cbn; lia) Hact HN ltac:(constructor)) as H.
  cbn [length] in H. unfold fi_run. destruct (depth 0 h <=? 4095)%nat; [|exact H].
  destruct H as (st & log & seen & E & _ & Hs & Hl). exists st, log. split; [exact E|].
  eapply Forall2_impl; [exact Hl|]. intros v l Hv. eapply (seen_mono (fun g f => key_of g = key_of f)); [|exact Hv].
  intros x Hx. apply Hs in Hx. rewrite elem_of_nil in Hx. tauto.
Qed.

Lemma call_stack_exact al h act' : allocator al (length h) -> actives [] h = Some act' -> Z.of_nat (length h) <= max_inserts ->
  (forall f g, f ∈ entered h -> g ∈ entered h -> key_of f = key_of g -> f = g) ->
  (depth 0 h <= 4095)%nat -> exists st, fi_run al h = Ok (st, expected [] h []).
Proof.
  intros Ha Hact HN Hinj Hd. pose proof (call_stack_any al h act' Ha Hact HN) as H.
  replace (depth 0 h <=? 4095)%nat with true in H by (symmetry; apply Nat.leb_le; exact Hd).
  destruct H as (st & log & E & Hl). exists st. rewrite E. do 2 f_equal.
  assert (Hf : Forall (Forall (fun f => f ∈ entered h)) (expected [] h [])) by (apply expected_entered; [constructor|constructor|auto]).
  eapply similar_all; eassumption.
Qed.
