(** C96: the library functions given to the backends. *)
From Coq Require Import String ZArith List Bool Lia.
From Verif Require Import Common Text HandlerModel.
Import ListNotations.
Open Scope Z_scope.

(** * Installing one handler *)
Lemma scan_equal_true n s1 s2 : scan_equal n s1 s2 = true -> s1 = s2.
Proof.
  revert n s2. induction s1 as [|a s1 IH]; intros n [|b s2] H; cbn in H; try discriminate; [reflexivity|].
  destruct (Z.eqb_spec a b) as [->|]; [|discriminate]. destruct n; [discriminate|]. f_equal. eapply IH. exact H.
Qed.
Lemma scan_equal_refl n s : (length s <= n)%nat -> scan_equal n s s = true.
Proof. revert n. induction s as [|a s IH]; intros n H; cbn; [reflexivity|]. rewrite Z.eqb_refl. destruct n; cbn in H; [lia|]. apply IH. lia. Qed.
(** the comparison of names is equality for texts of at most 2049 bytes (one of the two suffices) *)
Theorem C96_string_equal : forall s1 s2, Z.of_nat (length s1) <= 2049 \/ Z.of_nat (length s2) <= 2049 -> (string_equal s1 s2 = true <-> s1 = s2).
Proof.
  intros s1 s2 H. unfold string_equal. split; [apply scan_equal_true|]. intros <-. apply scan_equal_refl. lia.
Qed.
Print Assumptions C96_string_equal.
(** and answers "different" for equal texts of 2050 bytes or more *)
Theorem C96_long_equal_refuted : forall s, 2050 <= Z.of_nat (length s) -> string_equal s s = false.
Proof.
  intros s H. unfold string_equal. assert (G : (Z.to_nat 2049 < length s)%nat) by lia. revert G. generalize (Z.to_nat 2049). clear H.
  induction s as [|a s IH]; intros n G; cbn in G; [lia|]. cbn. rewrite Z.eqb_refl. destruct n; [reflexivity|]. apply IH. lia.
Qed.
Print Assumptions C96_long_equal_refuted.

Lemma bytes_eqb_iff a b : bytes_eqb a b = true <-> a = b.
Proof. unfold bytes_eqb. destruct (list_eq_dec _ a b); split; congruence. Qed.
Lemma known_short : forallb (fun k => Z.of_nat (length k) <=? 2049) known = true.
Proof. vm_compute. reflexivity. Qed.
Lemma find_known s : find (string_equal s) known = if in_dec (list_eq_dec Z.eq_dec) s known then Some s else None.
Proof.
  assert (G : forall l, forallb (fun k => Z.of_nat (length k) <=? 2049) l = true -> find (string_equal s) l = if in_dec (list_eq_dec Z.eq_dec) s l then Some s else None); [|exact (G _ known_short)].
  induction l as [|k l IH]; intros H; [reflexivity|]. cbn [forallb] in H. apply andb_prop in H as [H1 H2]. apply Z.leb_le in H1. cbn [find]. rewrite (IH H2).
  destruct (string_equal s k) eqn:E.
  - apply C96_string_equal in E; [|auto]. subst k. destruct (in_dec _ s (s :: l)) as [_|N]; [reflexivity|exfalso; apply N; left; reflexivity].
  - destruct (in_dec _ s l) as [I|N]; destruct (in_dec _ s (k :: l)) as [I'|N']; try reflexivity; exfalso.
    + apply N'. right. exact I.
    + destruct I' as [->|I']; [|contradiction]. assert (T : string_equal s s = true) by (apply C96_string_equal; auto). congruence.
Qed.

(** For every text: a known name gets the pointer, no other entry changes; any other text (or the null pointer) changes
    nothing. *)
Theorem C96_set_handler : forall h name p k,
  set_handler h (Some name) p k = (if bytes_eqb k name then if in_dec (list_eq_dec Z.eq_dec) name known then p else h k else h k) /\
  set_handler h None p k = h k.
Proof.
  intros h name p k. split; [|reflexivity]. unfold set_handler. rewrite find_known. destruct (in_dec _ name known); [reflexivity|]. destruct (bytes_eqb k name); reflexivity.
Qed.
Print Assumptions C96_set_handler.

(** * The whole program *)
(** entries are never cleared by functions with an address *)
Definition grows (h h' : table) : Prop := forall k, h k <> 0 -> h' k <> 0.
Lemma install_grows h name p : p <> 0 -> grows h (set_handler h (Some name) p).
Proof. intros Hp k Hk. rewrite (proj1 (C96_set_handler h name p k)). destruct (bytes_eqb k name); [|exact Hk]. destruct (in_dec _ name known); assumption. Qed.
Lemma execute_app l1 l2 h : execute (l1 ++ l2) h = match execute l1 h with Ok h' => execute l2 h' | UB => UB | Exit => Exit | Diverge => Diverge end.
Proof. revert h. induction l1 as [|a l1 IH]; intros h; [reflexivity|]. cbn. destruct (step h a); auto. Qed.
Lemma execute_installs addr l : (forall k, addr k <> 0) -> forall h, exists h', execute (installs addr l) h = Ok h' /\ grows h h' /\
  (forall s, In s l -> In (bytes s) known -> h' (bytes s) <> 0).
Proof.
  intros Ha. induction l as [|s l IH]; intros h; [exists h; split; [reflexivity|]; split; [intros k H; exact H|intros s []]|].
  cbn [installs map execute step]. destruct (IH (set_handler h (Some (bytes s)) (addr (bytes s)))) as (h' & E & G & S). fold (installs addr l). exists h'. split; [exact E|].
  split; [intros k Hk; apply G; apply install_grows; [apply Ha|exact Hk]|]. intros t [<-|Ht] Kt; [|apply S; assumption].
  apply G. rewrite (proj1 (C96_set_handler h (bytes s) (addr (bytes s)) (bytes s))). rewrite (proj2 (bytes_eqb_iff _ _) eq_refl). destruct (in_dec _ _ known); [apply Ha|contradiction].
Qed.
Lemma execute_checks l h : (forall s, In s l -> h (bytes s) <> 0) -> execute (checks l) h = Ok h.
Proof.
  induction l as [|s l IH]; intros H; [reflexivity|]. cbn [checks map execute step]. destruct (Z.eqb_spec (h (bytes s)) 0) as [E|_]; [exfalso; exact (H s (or_introl eq_refl) E)|].
  apply IH. intros t Ht. apply H. right. exact Ht.
Qed.
Lemma execute_calls l h : (forall s, In s l -> h (bytes s) <> 0) -> execute (calls l) h = Ok h.
Proof.
  induction l as [|s l IH]; intros H; [reflexivity|]. cbn [calls map execute step]. destruct (Z.eqb_spec (h (bytes s)) 0) as [E|_]; [exfalso; exact (H s (or_introl eq_refl) E)|].
  apply IH. intros t Ht. apply H. right. exact Ht.
Qed.

Definition all_in (l1 l2 : list string) : bool := forallb (fun s => existsb (String.eqb s) l2) l1.
Lemma all_in_spec l1 l2 : all_in l1 l2 = true -> forall s, In s l1 -> In s l2.
Proof.
  unfold all_in. rewrite forallb_forall. intros H s Hs. specialize (H s Hs). apply existsb_exists in H as (t & Ht & E). apply String.eqb_eq in E. congruence.
Qed.
Definition names_known (l : list string) : bool := all_in l handler_names.
Lemma names_known_spec l s : names_known l = true -> In s l -> In (bytes s) known.
Proof. intros H Hs. apply in_map. eapply all_in_spec; eassumption. Qed.

(** the logger, where its handlers are there *)
Lemma logger_ok addr h : (forall k, addr k <> 0) -> (forall s, In s init_names -> h (bytes s) <> 0) ->
  exists h', execute (logger_init_script addr) h = Ok h' /\ grows h h' /\ h' (bytes "panic") <> 0.
Proof.
  intros Ha H. unfold logger_init_script. cbn [execute step]. set (h1 := set_handler h (Some (bytes "panic")) (addr (bytes "panic"))).
  assert (G : grows h h1) by (apply install_grows, Ha). exists h1. rewrite execute_app. rewrite execute_checks, execute_calls; [split; [reflexivity|split; [exact G|]]| |].
  - unfold h1. rewrite (proj1 (C96_set_handler _ _ _ _)). rewrite (proj2 (bytes_eqb_iff _ _) eq_refl). destruct (in_dec _ (bytes "panic") known) as [_|N]; [apply Ha|exfalso; apply N; apply (names_known_spec ["panic"%string]); [reflexivity|left; reflexivity]].
  - intros s Hs. apply G, H. eapply all_in_spec; [|exact Hs]. reflexivity.
  - intros s Hs. apply G, H. eapply all_in_spec; [|exact Hs]. reflexivity.
Qed.
Lemma backend_ok addr b h : (forall k, addr k <> 0) ->
  exists h', execute (installs addr backend_names ++ pre_init addr b ++ cli) h = Ok h' /\ grows h h' /\ (forall s, In s backend_names -> h' (bytes s) <> 0) /\ h' (bytes "panic") <> 0.
Proof.
  intros Ha. rewrite execute_app. destruct (execute_installs addr backend_names Ha h) as (h1 & -> & G1 & S1).
  assert (S1' : forall s, In s backend_names -> h1 (bytes s) <> 0) by (intros s Hs; apply S1; [exact Hs|eapply names_known_spec; [|exact Hs]; reflexivity]).
  unfold pre_init. cbn [app execute step]. set (h2 := set_handler h1 (Some (bytes "panic")) (addr (bytes "panic"))).
  assert (G2 : grows h1 h2) by (apply install_grows, Ha). rewrite <- !app_assoc. rewrite execute_app, execute_checks.
  2:{ intros s Hs. apply G2, S1'. eapply all_in_spec; [|exact Hs]. destruct b; reflexivity. }
  rewrite execute_app. destruct (logger_ok addr h2 Ha) as (h3 & -> & G3 & P3).
  { intros s Hs. apply G2, S1'. eapply all_in_spec; [|exact Hs]. reflexivity. }
  assert (S3 : forall s, In s backend_names -> h3 (bytes s) <> 0) by (intros s Hs; apply G3, G2, S1', Hs).
  rewrite execute_app, execute_calls by (intros s Hs; apply S3; eapply all_in_spec; [|exact Hs]; reflexivity).
  exists h3. split; [|split; [intros k Hk; apply G3, G2, G1, Hk|split; [exact S3|exact P3]]].
  assert (C : execute cli h3 = Ok h3).
  { unfold cli. cbn [execute step]. assert (N : h3 (bytes "argp_parse") <> 0) by (apply S3; eapply all_in_spec with (l1 := ["argp_parse"%string]); [reflexivity|left; reflexivity]).
    rewrite !(proj2 (Z.eqb_neq _ _) N). reflexivity. }
  destruct b; cbn [app execute step]; exact C.
Qed.

(** In a program linked with vfcwrapper, for every list of backends (in any order, with repetitions) and every later sequence
    of calls made by the code of the loaded backends and by the logger: no handler is missing at start-up and no null pointer is
    called. *)
Theorem C96_program : forall addr bs later, (forall k, addr k <> 0) ->
  (forall s, In s later -> In s logger_uses \/ exists b, In b bs /\ In s (uses b)) ->
  exists h, execute (startup addr bs ++ calls later) empty_table = Ok h.
Proof.
  intros addr bs later Ha Hl. unfold startup. rewrite <- !app_assoc. rewrite execute_app.
  destruct (execute_installs addr init_names Ha empty_table) as (h1 & -> & _ & S1).
  assert (S1' : forall s, In s init_names -> h1 (bytes s) <> 0) by (intros s Hs; apply S1; [exact Hs|eapply names_known_spec; [|exact Hs]; reflexivity]).
  rewrite execute_app. destruct (logger_ok addr h1 Ha S1') as (h2 & -> & G2 & P2).
  assert (S2 : forall s, In s init_names -> h2 (bytes s) <> 0) by (intros s Hs; apply G2, S1', Hs).
  assert (B : forall bs h, (forall s, In s init_names -> h (bytes s) <> 0) -> exists h', execute (concat (map (fun b => installs addr backend_names ++ pre_init addr b ++ cli) bs)) h = Ok h' /\
    (forall s, In s init_names -> h' (bytes s) <> 0)).
  { clear - Ha. induction bs as [|b bs IH]; intros h H; [exists h; split; [reflexivity|exact H]|]. cbn [map concat]. rewrite execute_app.
    destruct (backend_ok addr b h Ha) as (h1 & E & G & _). rewrite E. apply IH. intros s Hs. apply G, H, Hs. }
  rewrite execute_app. destruct (B bs h2 S2) as (h3 & -> & S3). exists h3. apply execute_calls. intros s Hs. apply S3.
  destruct (Hl s Hs) as [K|(b & _ & K)]; [eapply all_in_spec; [|exact K]; reflexivity|]. eapply all_in_spec; [|exact K]. destruct b; reflexivity.
Qed.
Print Assumptions C96_program.

(** * Any host *)
(** The backends may be used by other programs, which install the handlers they like. For mcaquad, mcaint, vprec and ieee: if
    pre_init returns then no later call of the backend or its logger is a call of a null pointer. *)
Lemma checks_give l h h' : execute (checks l) h = Ok h' -> h' = h /\ forall s, In s l -> h (bytes s) <> 0.
Proof.
  revert h. induction l as [|s l IH]; intros h H; [injection H as <-; split; [reflexivity|intros s []]|].
  cbn [checks map execute step] in H. destruct (Z.eqb_spec (h (bytes s)) 0) as [E|N]; [destruct (h (bytes "panic") =? 0); discriminate|].
  destruct (IH h H) as [-> S]. split; [reflexivity|]. intros t [<-|Ht]; auto.
Qed.
Theorem C96_checks_sufficient : forall addr b h h' later, b <> Bitmask -> b <> Cancellation -> addr (bytes "panic") <> 0 ->
  execute (pre_init addr b) h = Ok h' -> (forall s, In s later -> In s logger_uses \/ In s (uses b)) -> execute (calls later) h' = Ok h'.
Proof.
  intros addr b h h' later N1 N2 Hp H Hl. unfold pre_init in H. cbn [app execute step] in H. set (h1 := set_handler h (Some (bytes "panic")) (addr (bytes "panic"))) in H.
  rewrite execute_app in H. destruct (execute (checks (checked b)) h1) as [h2| | |] eqn:E; try discriminate. apply checks_give in E as [-> S].
  rewrite execute_app in H. unfold logger_init_script in H. cbn [app execute step] in H. set (h2 := set_handler h1 (Some (bytes "panic")) (addr (bytes "panic"))) in H.
  assert (S2 : forall s, In s (checked b) -> h2 (bytes s) <> 0) by (intros s Hs; apply install_grows; [exact Hp|apply S, Hs]).
  rewrite execute_app, execute_checks, execute_calls in H; [|intros s Hs; apply S2; eapply all_in_spec; [|exact Hs]; destruct b; reflexivity..].
  assert (h' = h2) as ->.
  { rewrite execute_app, execute_calls in H; [|intros s Hs; apply S2; eapply all_in_spec; [|exact Hs]; destruct b; reflexivity].
    destruct b; cbn [execute step] in H; injection H as <-; reflexivity. }
  apply execute_calls. intros s Hs. apply S2. destruct (Hl s Hs) as [K|K]; (eapply all_in_spec; [|exact K]); destruct b; try reflexivity; contradiction.
Qed.
Print Assumptions C96_checks_sufficient.
(** Bitmask and Cancellation do not check gettimeofday (nor strtol): with a host that installs all they check, pre_init
    succeeds and the first draw of a thread without a chosen seed calls a null pointer. *)
Theorem C96_checks_refuted : forall addr b, (forall k, addr k <> 0) -> b = Bitmask \/ b = Cancellation ->
  exists h', execute (installs addr (checked b) ++ pre_init addr b) empty_table = Ok h' /\ In "gettimeofday"%string (uses b) /\
  execute (calls ["gettimeofday"%string]) h' = UB.
Proof.
  intros addr b Ha Hb. rewrite execute_app. destruct (execute_installs addr (checked b) Ha empty_table) as (h1 & E1 & _ & S1). rewrite E1.
  assert (Z1 : h1 (bytes "gettimeofday") = 0).
  { assert (G : forall l h h2, all_in ["gettimeofday"%string] l = false -> execute (installs addr l) h = Ok h2 -> h (bytes "gettimeofday") = 0 -> h2 (bytes "gettimeofday") = 0).
    { induction l as [|s l IH]; intros h h2 HN E H0; [injection E as <-; exact H0|]. cbn [installs map execute step] in E. apply (IH _ _) in E; [exact E| |].
      - cbn [all_in forallb existsb] in HN |- *. rewrite andb_true_r in *. apply orb_false_elim in HN. apply HN.
      - rewrite (proj1 (C96_set_handler _ _ _ _)). destruct (bytes_eqb (bytes "gettimeofday") (bytes s)) eqn:Q; [|exact H0]. destruct (in_dec _ (bytes s) known) as [I|]; [|exact H0].
        exfalso. apply bytes_eqb_iff in Q. assert (s = "gettimeofday"%string).
        { assert (INJ : forall a b, bytes a = bytes b -> a = b).
          { unfold bytes. induction a as [|x a IHa]; intros [|y b']; cbn; try discriminate; [reflexivity|]. intros [= Q1 Q2]. apply Nat2Z.inj in Q1. f_equal; [|apply IHa, Q2].
            rewrite <- (Ascii.ascii_nat_embedding x), <- (Ascii.ascii_nat_embedding y). congruence. }
          apply INJ. symmetry. exact Q. }
        subst s. cbn in HN. discriminate. }
    apply (G (checked b) empty_table h1); [destruct Hb as [-> | ->]; reflexivity|exact E1|reflexivity]. }
  assert (S1' : forall s, In s (checked b) -> h1 (bytes s) <> 0) by (intros s Hs; apply S1; [exact Hs|eapply names_known_spec; [|exact Hs]; destruct b; reflexivity]).
  unfold pre_init. cbn [app execute step]. set (h2 := set_handler h1 (Some (bytes "panic")) (addr (bytes "panic"))).
  assert (G2 : grows h1 h2) by (apply install_grows, Ha). rewrite execute_app, execute_checks by (intros s Hs; apply G2, S1', Hs).
  rewrite execute_app. unfold logger_init_script. cbn [app execute step]. set (h3 := set_handler h2 (Some (bytes "panic")) (addr (bytes "panic"))).
  assert (G3 : grows h2 h3) by (apply install_grows, Ha).
  rewrite execute_app, execute_checks, execute_calls by (intros s Hs; apply G3, G2, S1'; (eapply all_in_spec; [|exact Hs]); destruct b; reflexivity).
  rewrite execute_app, execute_calls by (intros s Hs; apply G3, G2, S1'; (eapply all_in_spec; [|exact Hs]); destruct b; reflexivity).
  exists h3. split; [destruct Hb as [-> | ->]; reflexivity|]. split; [destruct Hb as [-> | ->]; cbn [uses In]; tauto|].
  cbn [calls map execute step]. assert (h3 (bytes "gettimeofday") = 0) as ->; [|reflexivity]. unfold h3, h2. rewrite !(proj1 (C96_set_handler _ _ _ _)).
  change (bytes_eqb (bytes "gettimeofday") (bytes "panic")) with false. exact Z1.
Qed.
Print Assumptions C96_checks_refuted.

Example C96_nonvacuous : exists h, execute (startup (fun _ => 7) [McaQuad; Ieee; McaQuad]) empty_table = Ok h /\ h (bytes "gettimeofday") = 7 /\ h (bytes "debug_print_op") = 0 /\
  (exists h2, execute (installs (fun _ => 7) (checked Vprec) ++ pre_init (fun _ => 7) Vprec) empty_table = Ok h2 /\ h2 (bytes "gettimeofday") = 0) /\
  execute (pre_init (fun _ => 7) Vprec) empty_table = Exit /\ string_equal (bytes "strtol") (bytes "strtod") = false.
Proof. eexists. split; [vm_compute; reflexivity|]. split; [vm_compute; reflexivity|]. split; [vm_compute; reflexivity|]. split; [eexists; split; vm_compute; reflexivity|]. split; vm_compute; reflexivity. Qed.
