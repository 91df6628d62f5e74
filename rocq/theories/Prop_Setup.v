(** C111: what [vfc_ci setup] does to the repository and to the origin, at every point where it may stop.
    C112: the CI branch under any schedule of the jobs of the installed workflow. *)
From Coq Require Import Ascii String ZArith List Bool Lia.
From Verif Require Import Text SetupModel SetupProofs.
Import ListNotations.
Open Scope Z_scope.

(** the file the workflow is written to is not excluded by .gitignore, or is tracked *)
Definition workflow_visible (e : environment) (h : host) (r : repo) : Prop :=
  ignored e (workflow_path h) = false \/ exists c, get (index r) (workflow_path h) = Some c.
Definition untracked (r : repo) (p : name) : Prop := get (index r) p = None.
Definition accepted (e : environment) (r : repo) : Prop :=
  fetch_works e = true /\ clean r /\ upstream e (head r) = Some (head r) /\ in_sync r (head r).

Lemma visible_kept e h r : workflow_visible e h r -> kept e r (workflow_path h) = true.
Proof.
  intros [H | H]; unfold kept; [rewrite H; apply orb_true_r|]. apply has_get in H. now rewrite H.
Qed.
Lemma accepted_result e h r a b :
  accepted e r -> workflow_visible e h r -> answer_dev e = Some a -> answer_ci e = Some b ->
  run_setup e h r = finish (body e h (head r)) (fetched r).
Proof. intros (F & C & U & S) _ _ _. apply checks_pass; eauto. Qed.
Lemma sync_ff e h r : in_sync r (head r) -> fast_forward (server r (head r)) (first e h r :: heads r (head r)) = true.
Proof.
  intros S. destruct (server r (head r)) as [|c l] eqn:E; [reflexivity|]. apply knows_in. right. apply S. rewrite E. left. reflexivity.
Qed.

(** A first setup that the origin accepts *)
Theorem C111_installed e h r :
  accepted e r -> workflow_visible e h r -> answer_dev e = Some true -> answer_ci e = Some true ->
  heads r (bytes "vfc_ci_" ++ head r) = [] -> server r (bytes "vfc_ci_" ++ head r) = [] ->
  exists s c d, run_setup e h r = (s, true)
  (* the development branch has one more commit, here and on the origin *)
  /\ heads s (head r) = c :: heads r (head r) /\ server s (head r) = c :: heads r (head r)
  (* it has the workflow, rendered with this branch and its CI branch, and otherwise the files of the work tree that git sees *)
  /\ (exists url, get (c_tree c) (workflow_path h) = Some (Workflow h (head r) (bytes "vfc_ci_" ++ head r) url))
  /\ (forall p, p <> workflow_path h ->
        get (c_tree c) p = if ignored e p then get (index r) p else get (work r) p)
  (* the CI branch is a single commit with a single file *)
  /\ heads s (bytes "vfc_ci_" ++ head r) = [d] /\ server s (bytes "vfc_ci_" ++ head r) = [d]
  /\ (forall p, get (c_tree d) p <> None <-> p = bytes "README.md")
  (* no other branch changed; the development branch is checked out, clean, with its files *)
  /\ (forall b, b <> head r -> b <> bytes "vfc_ci_" ++ head r -> heads s b = heads r b /\ server s b = server r b)
  /\ head s = head r /\ clean s
  /\ (forall p, p <> workflow_path h -> (p = bytes "README.md" -> ignored e p = true -> get (index r) p <> None) ->
        get (work s) p = get (work r) p).
Proof.
  intros Ac V A B C1 C2.
  destruct (body_result e h r true true) as (s & R & H1 & H2 & H3 & H4 & H5 & H6 & H7); [apply Ac|exact A|exact B|now apply visible_kept|].
  pose proof (accepted_result e h r true true Ac V A B) as E. rewrite R in E.
  change (bytes "vfc_ci_" ++ head r) with (ci_name (head r)) in *. change (bytes "README.md") with readme.
  destruct Ac as (F & Cl & U & S). rewrite (sync_ff e h r S) in H4. rewrite C1 in *. rewrite C2 in H5. cbn in H4, H5.
  pose proof (all_safe e h r s) as Sf.
  assert (Is : In s (setup_states e h r)).
  { replace s with (fst (run_setup e h r)) by (rewrite E; reflexivity). apply states_finish. }
  specialize (Sf Is).
  assert (Gc : forall p, p <> workflow_path h -> get (committed e h r) p = if ignored e p then get (index r) p else get (work r) p).
  { intros p N. rewrite get_committed. destruct (name_dec (workflow_path h) p); [congruence|].
    destruct (ignored e p); rewrite ?orb_true_r; [|reflexivity]. rewrite orb_false_r.
    destruct (has (index r) p) eqn:Hh.
    - apply has_get in Hh. destruct Hh as (c & Hc). rewrite Hc. now apply (proj2 Cl).
    - apply has_false in Hh. now rewrite Hh. }
  assert (Gw : get (committed e h r) (workflow_path h) = Some (workflow e h (head r))).
  { rewrite get_committed. fold (kept e r (workflow_path h)). rewrite (visible_kept _ _ _ V). now destruct name_dec. }
  exists s, (first e h r), (second e (head r)).
  split; [exact E|]. split; [exact H2|]. split; [exact H4|].
  split; [eexists; exact Gw|]. split; [exact Gc|]. split; [exact H3|]. split; [exact H5|].
  split.
  { intros p. cbn [second c_tree get]. destruct (name_dec readme p); split; intros; congruence. }
  split; [intros b N1 N2; split; [apply (sf_heads _ _ _ _ Sf)|apply (sf_server _ _ _ _ Sf)]; auto|].
  split; [exact H1|]. split.
  { split; rewrite H6; [rewrite H1, H2; reflexivity|]. intros p c Hp. rewrite H7.
    rewrite get_committed in Hp. fold (kept e r p) in Hp. destruct (kept e r p); [|discriminate].
    destruct (name_dec (workflow_path h) p); auto. }
  intros p N K. rewrite H7. destruct (name_dec (workflow_path h) p); [congruence|].
  unfold kept. destruct (name_dec readme p) as [<-|]; [|now destruct (_ || _)].
  destruct (ignored e readme); rewrite ?orb_true_r; [|reflexivity]. rewrite orb_false_r.
  assert (Hh : has (index r) readme = true).
  { specialize (K eq_refl eq_refl). unfold has. now destruct (get (index r) readme). }
  now rewrite Hh.
Qed.

(** A setup that cannot be done changes nothing but the remote-tracking branches *)
Theorem C111_refused e h r :
  (fetch_works e = false \/ ~ clean r \/ upstream e (head r) = None
   \/ exists u, upstream e (head r) = Some u /\ ~ in_sync r u) ->
  snd (run_setup e h r) = false
  /\ forall s, In s (setup_states e h r) ->
       head s = head r /\ heads s = heads r /\ server s = server r /\ index s = index r /\ work s = work r.
Proof.
  intros H. destruct (checks_fail e h r) as [A B].
  { intros (F & C & u & U & S). destruct H as [H | [H | [H | (v & H & N)]]].
    - congruence.
    - auto.
    - congruence.
    - rewrite U in H. injection H as <-. auto. }
  split; [exact A|]. intros s Hs. destruct (B s Hs) as [-> | ->]; cbn; auto.
Qed.

(** Wherever the program stops, nothing committed is lost, here or on the origin, and no file is lost: *)
Theorem C111_any_stop e h r s :
  In s (setup_states e h r) ->
  (* a branch of the clone keeps its commits and gains at most one *)
  (forall b, exists l, heads s b = l ++ heads r b /\ (length l <= 1)%nat)
  (* a branch of the origin is unchanged, or moved forward to a branch of the clone that contains its tip *)
  /\ (forall b, server s b = server r b
                \/ exists c, server s b = c :: heads r b
                   /\ match server r b with [] => True | t :: _ => c_id t = c_id c \/ In (c_id t) (ids (heads r b)) end)
  (* only the development branch and its CI branch change *)
  /\ (forall b, b <> head r -> b <> bytes "vfc_ci_" ++ head r -> heads s b = heads r b /\ server s b = server r b)
  (* every file is as it was, except the workflow and README.md *)
  /\ (forall p, p <> workflow_path h -> p <> bytes "README.md" -> get (work s) p = get (work r) p)
  (* README.md is as it was, or git has it on the development branch *)
  /\ (ignored e (bytes "README.md") = false ->
      get (work s) (bytes "README.md") = get (work r) (bytes "README.md")
      \/ get (tip (heads s (head r))) (bytes "README.md") = get (work r) (bytes "README.md")).
Proof.
  intros Hs. apply all_safe in Hs. destruct Hs as [A B C D E F G I].
  change (bytes "vfc_ci_" ++ head r) with (ci_name (head r)) in *. change (bytes "README.md") with readme.
  split; [|split; [|split; [|split]]].
  - intros b. destruct (name_dec b (head r)) as [->|N1].
    { destruct C as [-> | ->]; [exists []|exists [first e h r]]; cbn; auto. }
    destruct (name_dec b (ci_name (head r))) as [->|N2].
    { destruct E as [-> | ->]; [exists []|exists [second e (head r)]]; cbn; auto. }
    exists []. rewrite A; auto.
  - assert (X : forall b c, fast_forward (server r b) (c :: heads r b) = true ->
                match server r b with [] => True | t :: _ => c_id t = c_id c \/ In (c_id t) (ids (heads r b)) end).
    { intros b c Fb. destruct (server r b); [exact Logic.I|]. apply knows_in in Fb. destruct Fb as [Fb | Fb]; [left; symmetry; exact Fb|right; exact Fb]. }
    intros b. destruct (name_dec b (head r)) as [->|N1].
    { destruct D as [-> | [-> Q]]; [auto|]. right. exists (first e h r). split; [reflexivity|]. apply X, Q. }
    destruct (name_dec b (ci_name (head r))) as [->|N2].
    { destruct F as [-> | [-> Q]]; [auto|]. right. exists (second e (head r)). split; [reflexivity|]. apply X, Q. }
    left. auto.
  - auto.
  - exact G.
  - intros Ig. destruct I as [I | I]; [auto|right]. rewrite Ig in I. rewrite orb_true_r in I.
    destruct (I eq_refl) as (rest & ->). cbn [tip first c_tree]. rewrite get_committed, Ig, orb_true_r.
    destruct (name_dec (workflow_path h) readme) as [Q|_]; [exfalso; exact (readme_workflow h Q)|reflexivity].
Qed.

(** The check of L103 does not see the untracked files that L129 adds: every one that is not ignored is committed and published. *)
Theorem C111_untracked_refuted e h r p x :
  accepted e r -> workflow_visible e h r -> answer_dev e = Some true -> answer_ci e = Some true ->
  p <> workflow_path h -> untracked r p -> ignored e p = false -> get (work r) p = Some x ->
  get (tip (server r (head r))) p = None ->
  exists s, run_setup e h r = (s, true) /\ get (tip (server s (head r))) p = Some x.
Proof.
  intros Ac V A B N U I W _.
  destruct (body_result e h r true true) as (s & R & H1 & H2 & H3 & H4 & _); [apply Ac|exact A|exact B|now apply visible_kept|].
  exists s. split; [rewrite <- R; eapply accepted_result; eauto|].
  rewrite (sync_ff e h r) in H4 by apply Ac. cbn in H4. rewrite H4. cbn [tip first c_tree].
  rewrite get_committed, I, orb_true_r. destruct (name_dec (workflow_path h) p); [congruence|exact W].
Qed.

(** The answers of the origin are not read: the program says that the workflow has been set up although the origin has nothing of it. *)
Theorem C111_silent_refuted e h r :
  accepted e r -> workflow_visible e h r -> answer_dev e = Some false -> answer_ci e = Some false ->
  snd (run_setup e h r) = true /\ forall b, server (fst (run_setup e h r)) b = server r b.
Proof.
  intros Ac V A B.
  destruct (body_result e h r false false) as (s & R & H1 & H2 & H3 & H4 & H5 & _); [apply Ac|exact A|exact B|now apply visible_kept|].
  assert (E : run_setup e h r = (s, true)) by (rewrite <- R; eapply accepted_result; eauto).
  rewrite E. split; [reflexivity|]. intros b. cbn [fst].
  assert (Is : In s (setup_states e h r)).
  { replace s with (fst (run_setup e h r)) by (rewrite E; reflexivity). apply states_finish. }
  apply all_safe in Is. destruct (name_dec b (head r)) as [->|N1]; [exact H4|].
  destruct (name_dec b (ci_name (head r))) as [->|N2]; [exact H5|]. now apply (sf_server _ _ _ _ Is).
Qed.

(** Run again from the same clone, it leaves nothing on the tip of the CI branch but the README: the run files are gone from it. *)
Theorem C111_again_refuted e h r :
  accepted e r -> workflow_visible e h r -> answer_dev e = Some true -> answer_ci e = Some true ->
  heads r (ci_name (head r)) = server r (ci_name (head r)) -> server r (ci_name (head r)) <> [] ->
  snd (run_setup e h r) = true
  /\ forall p, p <> bytes "README.md" -> get (tip (server (fst (run_setup e h r)) (ci_name (head r)))) p = None.
Proof.
  intros Ac V A B Q _.
  destruct (body_result e h r true true) as (s & R & H1 & H2 & H3 & H4 & H5 & _); [apply Ac|exact A|exact B|now apply visible_kept|].
  assert (E : run_setup e h r = (s, true)) by (rewrite <- R; eapply accepted_result; eauto).
  rewrite E. split; [reflexivity|]. intros p N. cbn [fst]. rewrite H5, Q, ff_refl. cbn [andb tip second c_tree get].
  destruct (name_dec readme p) as [K|]; [exfalso; apply N; now rewrite <- K|reflexivity].
Qed.
(** From a clone that does not have the CI branch the origin refuses the new one, whatever it would answer, and keeps its results. *)
Theorem C111_other_clone e h r b :
  accepted e r -> workflow_visible e h r -> answer_dev e = Some true -> answer_ci e = Some b ->
  heads r (ci_name (head r)) = [] -> server r (ci_name (head r)) <> [] ->
  ~ In (fresh_ci e) (ids (server r (ci_name (head r)))) ->
  snd (run_setup e h r) = true /\ server (fst (run_setup e h r)) (ci_name (head r)) = server r (ci_name (head r)).
Proof.
  intros Ac V A B Q N Fr.
  destruct (body_result e h r true b) as (s & R & H1 & H2 & H3 & H4 & H5 & _); [apply Ac|exact A|exact B|now apply visible_kept|].
  assert (E : run_setup e h r = (s, true)) by (rewrite <- R; eapply accepted_result; eauto).
  rewrite E. split; [reflexivity|]. cbn [fst]. rewrite H5, Q.
  destruct (server r (ci_name (head r))) as [|c l] eqn:Es; [congruence|].
  replace (fast_forward (c :: l) [second e (head r)]) with false; [now rewrite andb_false_r|].
  symmetry. apply not_true_is_false. intros X. apply knows_in in X. cbn in X. destruct X as [X | []]. apply Fr. left. congruence.
Qed.

(** * The jobs *)
(** Under every schedule of any number of jobs: the branch only gains commits, each the upload of a job that succeeded; a job
    that succeeded has its run file on the branch, one that did not has no commit there; nothing else changes. *)
Theorem C112_branch jobs h0 schedule :
  distinct jobs h0 ->
  let w := run_jobs jobs schedule (at_start h0) in
  (exists l, ci w = l ++ h0
     /\ forall i, In i (ids l) <-> exists k j, nth_error jobs k = Some j /\ phases w k = Success /\ i = j_id j)
  /\ (forall k j, nth_error jobs k = Some j -> phases w k = Success ->
        get (tip (ci w)) (bytes "vfcruns/" ++ j_file j) = Some (File (j_data j)))
  /\ (forall p, (forall j, In j jobs -> p <> bytes "vfcruns/" ++ j_file j) -> get (tip (ci w)) p = get (tip h0) p)
  /\ (forall k j, nth_error jobs k = Some j -> phases w k <> Success ->
        get (tip (ci w)) (bytes "vfcruns/" ++ j_file j) = get (tip h0) (bytes "vfcruns/" ++ j_file j)).
Proof.
  intros Di w. pose proof (inv_run jobs h0 schedule _ Di (inv_start _ _ Di)) as I. fold w in I.
  split; [|split; [|split]].
  - destruct (iv_top _ _ _ I) as (l & El & Hl). exists l. split; [exact El|]. intros i. split.
    + intros H. apply in_map_iff in H. destruct H as (c & <- & Hc). destruct (Hl c Hc) as (k & j & H1 & H2 & H3). eauto.
    + intros (k & j & H1 & H2 & ->). destruct (iv_done _ _ _ I k j H1 H2) as [_ Hin]. rewrite El in Hin.
      unfold ids in Hin. rewrite map_app in Hin. apply in_app_or in Hin. destruct Hin as [Hin | Hin]; [exact Hin|exfalso].
      destruct Di as [N _]. apply nth_error_In, (in_map j_id) in H1. clear -N H1 Hin.
      induction (map j_id jobs) as [|x m IH]; [easy|]. cbn in N. inversion N; subst.
      destruct H1 as [-> | H1]; [apply H2, in_or_app; auto|auto].
  - intros k j H1 H2. apply (iv_done _ _ _ I k j H1 H2).
  - intros p Hp. apply (iv_old _ _ _ I). intros k j H1 _ E. apply (Hp j); [eapply nth_error_In; eauto|]. symmetry. exact E.
  - intros k j H1 H2. apply (iv_old _ _ _ I). intros x y H3 H4 E. apply H2.
    assert (x = k) by (eapply distinct_path; eauto). now subst x.
Qed.

(** Jobs that run one after the other all succeed, on a branch that setup created *)
Theorem C112_one_by_one jobs h0 :
  distinct jobs h0 -> h0 <> [] ->
  (forall j, In j jobs -> j_tests_pass j = true /\ get (tip h0) (bytes "vfcruns/" ++ j_file j) = None) ->
  forall k, (k < length jobs)%nat ->
  phases (run_jobs jobs (flat_map (fun k => [k; k; k]) (seq 0 (length jobs))) (at_start h0)) k = Success.
Proof. intros Di Ne Hj k Hk. apply (sequential jobs h0 (length jobs) Di Ne Hj (le_n _)), Hk. Qed.

(** A job fails, and its results reach no branch, whenever another one has uploaded since it copied the branch. *)
Theorem C112_overtaken jobs h0 schedule k j h :
  distinct jobs h0 -> nth_error jobs k = Some j ->
  let w := run_jobs jobs schedule (at_start h0) in
  phases w k = Ready h -> ci w <> h ->
  let w' := job_step jobs w k in
  phases w' k = Failure /\ ci w' = ci w
  /\ forall more, phases (run_jobs jobs more w') k = Failure
                  /\ ~ In (j_id j) (ids (ci (run_jobs jobs more w'))).
Proof.
  intros Di Hk w Hr Hn w'. pose proof (inv_run jobs h0 schedule _ Di (inv_start _ _ Di)) as I. fold w in I.
  assert (E : w' = set_phase w k Failure).
  { unfold w', job_step. rewrite Hk, Hr. destruct (upload_cases _ _ _ _ _ _ I Hk Hr) as [-> | [Q _]]; [reflexivity|contradiction]. }
  split; [rewrite E, phase_set, Nat.eqb_refl; reflexivity|]. split; [rewrite E; reflexivity|].
  intros more. assert (I' : inv jobs h0 w') by (now apply inv_step).
  assert (P : phases w' k = Failure) by (rewrite E, phase_set, Nat.eqb_refl; reflexivity).
  enough (Q : phases (run_jobs jobs more w') k = Failure).
  { split; [exact Q|]. apply (iv_fresh _ _ _ (inv_run _ _ more _ Di I') k j Hk). rewrite Q. discriminate. }
  clear -P Hk. revert P. generalize w'. unfold run_jobs. induction more as [|x more IH]; intros u P; [exact P|]. cbn. apply IH.
  unfold job_step. destruct (nth_error jobs x) as [y|] eqn:Hx; [|exact P].
  destruct (Nat.eq_dec x k) as [->|N]; [now rewrite P|].
  assert (O : forall p, phases (set_phase u x p) k = Failure).
  { intros p. rewrite phase_set. destruct (Nat.eqb_spec k x); [congruence|exact P]. }
  destruct (phases u x); try exact P; try (destruct (j_host y)); try apply O.
  all: unfold upload; destruct found_dec; [apply O|]; destruct (fast_forward _ _); [|apply O].
  all: rewrite phase_set; cbn [phases]; destruct (Nat.eqb_spec k x); [congruence|exact P].
Qed.

(** So "every job whose tests pass uploads its results" fails for any two jobs that overlap, with either host *)
Theorem C112_overlap_refuted a b h0 :
  distinct [a; b] h0 -> h0 <> [] -> j_tests_pass a = true -> j_tests_pass b = true -> j_host a = j_host b ->
  get (tip h0) (run_path a) = None -> get (tip h0) (run_path b) = None ->
  let w := run_jobs [a; b] [0; 1; 0; 1; 0; 1]%nat (at_start h0) in
  phases w 0%nat = Success /\ phases w 1%nat = Failure /\ get (tip (ci w)) (run_path b) = None.
Proof.
  intros Di Ne Ta Tb Hh Ga Gb w.
  pose proof (C112_branch [a; b] h0 [0; 1; 0; 1; 0; 1]%nat Di) as (_ & _ & _ & K). fold w in K.
  enough (P : phases w 0%nat = Success /\ phases w 1%nat = Failure).
  { destruct P as [P0 P1]. split; [exact P0|]. split; [exact P1|]. unfold run_path. rewrite (K 1%nat b eq_refl) by (rewrite P1; discriminate). exact Gb. }
  pose proof (inv_run [a; b] h0 [0; 1; 0; 1]%nat _ Di (inv_start _ _ Di)) as I4.
  pose proof (inv_run [a; b] h0 [0; 1; 0; 1; 0]%nat _ Di (inv_start _ _ Di)) as I5.
  assert (W4 : let v := run_jobs [a; b] [0; 1; 0; 1]%nat (at_start h0) in
               ci v = h0 /\ phases v 0%nat = Ready h0 /\ phases v 1%nat = Ready h0).
  { destruct h0 as [|c h0]; [congruence|].
    unfold run_jobs. cbn -[bytes]. destruct (j_host a); rewrite <- Hh; cbn -[bytes]; unfold test_then; rewrite ?Ta, ?Tb; cbn -[bytes];
      rewrite <- ?Hh; cbn -[bytes]; unfold test_then; rewrite ?Ta, ?Tb; cbn -[bytes]; auto. }
  cbv zeta in W4. destruct W4 as (C4 & A4 & B4).
  assert (S5 : run_jobs [a; b] [0; 1; 0; 1; 0]%nat (at_start h0) = job_step [a; b] (run_jobs [a; b] [0; 1; 0; 1]%nat (at_start h0)) 0%nat) by reflexivity.
  assert (S6 : w = job_step [a; b] (run_jobs [a; b] [0; 1; 0; 1; 0]%nat (at_start h0)) 1%nat) by reflexivity.
  set (w4 := run_jobs [a; b] [0; 1; 0; 1]%nat (at_start h0)) in *.
  set (w5 := run_jobs [a; b] [0; 1; 0; 1; 0]%nat (at_start h0)) in *.
  assert (E5 : phases w5 0%nat = Success /\ phases w5 1%nat = Ready h0 /\ ci w5 <> h0).
  { rewrite S5. unfold job_step. cbn [nth_error]. rewrite A4. unfold upload. rewrite Ga.
    destruct found_dec as [Q|_]; [discriminate|]. rewrite C4, ff_refl. cbn [ci set_phase]. rewrite !phase_set. cbn [Nat.eqb phases].
    split; [reflexivity|]. split; [exact B4|]. intros Q. apply (f_equal (@length commit)) in Q. cbn in Q. lia. }
  destruct E5 as (P0 & P1 & Nc). rewrite S6. unfold job_step. cbn [nth_error]. rewrite P1.
  destruct (upload_cases [a; b] h0 w5 1%nat b h0 I5 eq_refl P1) as [-> | [Q _]]; [|contradiction].
  rewrite !phase_set. cbn [Nat.eqb]. auto.
Qed.

(** The address of the gitlab template: for an https address written as the address of the project page *)
Theorem C112_gitlab_address_partial x :
  ~ In 58 x -> gitlab_target (bytes "https://" ++ x) = x ++ bytes ".git".
Proof.
  intros N. unfold gitlab_target. f_equal. unfold bare_url.
  assert (St : forall p, In 58 p -> forall l, ~ In 58 l -> starts p l = false).
  { intros p Hp. induction p as [|q p IH]; [easy|]. intros [|y l] Hl; [reflexivity|]. cbn.
    destruct (Z.eqb_spec q y) as [->|]; [|reflexivity]. cbn. destruct Hp as [-> | Hp]; [exfalso; apply Hl; left; reflexivity|].
    apply IH; [exact Hp|]. intros I. apply Hl. right. exact I. }
  assert (No : forall p f, In 58 p -> remove_all f p x = x).
  { intros p f Hp. apply remove_none. intros u v -> _. apply St; [exact Hp|]. intros I. apply N, in_or_app. auto. }
  assert (I1 : In 58 (bytes "http://")) by (vm_compute; tauto).
  assert (I2 : In 58 (bytes "https://")) by (vm_compute; tauto).
  assert (H1 : remove_all (length (bytes "https://" ++ x)) (bytes "http://") (bytes "https://" ++ x) = bytes "https://" ++ x).
  { rewrite app_length. generalize (No (bytes "http://") (length x) I1).
    change (bytes "https://") with [104; 116; 116; 112; 115; 58; 47; 47]. change (bytes "http://") with [104; 116; 116; 112; 58; 47; 47].
    cbn [length app Nat.add remove_all starts Z.eqb Pos.eqb andb]. now intros ->. }
  rewrite H1. rewrite app_length. generalize (No (bytes "https://") (7 + length x)%nat I2).
  change (bytes "https://") with [104; 116; 116; 112; 115; 58; 47; 47].
  cbn [length app Nat.add remove_all starts Z.eqb Pos.eqb andb skipn]. now intros ->.
Qed.
(** for the address that git clone is given, which ends with .git, the suffix is doubled: it is not the origin *)
Theorem C112_gitlab_address_refuted x :
  ~ In 58 x -> gitlab_target (bytes "https://" ++ x ++ bytes ".git") = x ++ bytes ".git.git".
Proof.
  intros N. rewrite C112_gitlab_address_partial.
  - rewrite <- app_assoc. reflexivity.
  - intros I. apply in_app_or in I. destruct I as [I | I]; [auto|]. vm_compute in I. intuition discriminate.
Qed.

(** * A repository with two tracked files, an untracked and an ignored one, set up, then run for two jobs *)
Definition master : name := bytes "master".
Definition code : name := bytes "main.c".
Definition notes : name := bytes "notes.txt".
Definition object : name := bytes "main.o".
Definition files : tree := [(code, File [1]); (readme, File [2])].
Definition past : history := [ {| c_id := 2; c_tree := files |}; {| c_id := 1; c_tree := [(code, File [0])] |} ].
Definition example : repo :=
  {| head := master; heads := fun b => if name_dec b master then past else []; tracking := fun _ => [];
     server := fun b => if name_dec b master then past else []; index := files;
     work := (notes, File [3]) :: (object, File [4]) :: files |}.
Definition env (a b : bool) : environment :=
  {| ignored := fun p => if name_dec p object then true else false;
     upstream := fun b => if name_dec b master then Some master else None; fetch_works := true;
     answer_dev := Some a; answer_ci := Some b; fresh_dev := 3; fresh_ci := 4; origin_url := bytes "https://gitlab.com/u/r.git" |}.
Lemma example_accepted a b : accepted (env a b) example.
Proof.
  split; [reflexivity|]. split; [apply dirty_clean; vm_compute; reflexivity|]. split; [reflexivity|]. intros i. reflexivity.
Qed.
Example C111_nonvacuous h :
  accepted (env true true) example /\ workflow_visible (env true true) h example
  /\ heads example (bytes "vfc_ci_" ++ head example) = [] /\ server example (bytes "vfc_ci_" ++ head example) = []
  /\ untracked example notes /\ ignored (env true true) notes = false /\ get (work example) notes = Some (File [3])
  /\ let s := fst (run_setup (env true true) h example) in
     get (work s) readme = Some (File [2]) /\ get (work s) object = Some (File [4])
     /\ get (tip (server s master)) notes = Some (File [3]) /\ get (tip (server s master)) object = None
     /\ length (setup_states (env true true) h example) = 16%nat.
Proof.
  split; [apply example_accepted|]. split; [left; destruct h; vm_compute; reflexivity|].
  destruct h; vm_compute; intuition reflexivity.
Qed.
(** a second run from the same clone, after a job has uploaded: the hypotheses of the refutations are met *)
Definition results : history :=
  [ {| c_id := 9; c_tree := [(bytes "vfcruns/a", File [7]); (readme, File [5])] |}; {| c_id := 4; c_tree := [(readme, File [5])] |} ].
Definition with_ci (here : history) : repo :=
  {| head := master; heads := fun b => if name_dec b master then past else if name_dec b (ci_name master) then here else [];
     tracking := fun _ => []; server := fun b => if name_dec b master then past else if name_dec b (ci_name master) then results else [];
     index := files; work := files |}.
Definition env2 : environment :=
  {| ignored := fun _ => false; upstream := fun b => if name_dec b master then Some master else None; fetch_works := true;
     answer_dev := Some true; answer_ci := Some true; fresh_dev := 11; fresh_ci := 12; origin_url := [] |}.
Lemma with_ci_accepted here : accepted env2 (with_ci here).
Proof.
  split; [reflexivity|]. split; [apply dirty_clean; vm_compute; reflexivity|]. split; [reflexivity|]. intros i. reflexivity.
Qed.
Example C111_again_nonvacuous :
  accepted env2 (with_ci results) /\ heads (with_ci results) (ci_name master) = server (with_ci results) (ci_name master)
  /\ get (tip (server (with_ci results) (ci_name master))) (bytes "vfcruns/a") = Some (File [7])
  /\ get (tip (server (fst (run_setup env2 Github (with_ci results))) (ci_name master))) (bytes "vfcruns/a") = None
  /\ accepted env2 (with_ci []) /\ ~ In (fresh_ci env2) (ids (server (with_ci []) (ci_name master)))
  /\ get (tip (server (fst (run_setup env2 Github (with_ci []))) (ci_name master))) (bytes "vfcruns/a") = Some (File [7]).
Proof.
  split; [apply with_ci_accepted|]. split; [reflexivity|]. split; [vm_compute; reflexivity|]. split; [vm_compute; reflexivity|].
  split; [apply with_ci_accepted|]. split; [vm_compute; intuition discriminate|vm_compute; reflexivity].
Qed.
(** a branch that is one commit behind, and one that is ahead, are both refused *)
Definition moved (local remote : history) : repo :=
  {| head := master; heads := fun _ => local; tracking := fun _ => []; server := fun _ => remote; index := tip local; work := tip local |}.
Example C111_refused_nonvacuous :
  ~ in_sync (moved past (tl past)) master /\ ~ in_sync (moved (tl past) past) master
  /\ snd (run_setup (env true true) Github (moved past (tl past))) = false
  /\ snd (run_setup (env true true) Github (moved (tl past) past)) = false.
Proof.
  split; [intros H; specialize (proj1 (H 2)); vm_compute; intuition discriminate|].
  split; [intros H; specialize (proj2 (H 2)); vm_compute; intuition discriminate|].
  vm_compute; auto.
Qed.

Definition job_a (h : host) : job := {| j_host := h; j_id := 21; j_file := bytes "x.vfcrun.h5"; j_data := [1]; j_tests_pass := true |}.
Definition job_b (h : host) : job := {| j_host := h; j_id := 22; j_file := bytes "y.vfcrun.h5"; j_data := [2]; j_tests_pass := true |}.
Definition ci0 (h : host) : history := server (fst (run_setup (env true true) h example)) (ci_name master).
Example C112_nonvacuous h :
  distinct [job_a h; job_b h] (ci0 h) /\ ci0 h <> []
  /\ get (tip (ci0 h)) (run_path (job_a h)) = None /\ get (tip (ci0 h)) (run_path (job_b h)) = None
  /\ let w := run_jobs [job_a h; job_b h] [0; 0; 0; 1; 1; 1]%nat (at_start (ci0 h)) in
     get (tip (ci w)) (run_path (job_a h)) = Some (File [1]) /\ get (tip (ci w)) (run_path (job_b h)) = Some (File [2])
     /\ get (tip (ci w)) readme = Some (Readme master (ci_name master)).
Proof.
  split.
  { split; destruct h; vm_compute; repeat constructor; cbn; intuition discriminate. }
  destruct h; vm_compute; intuition (discriminate || reflexivity).
Qed.
(** the situation of [C112_overtaken] occurs with either host *)
Example C112_overtaken_nonvacuous h :
  let w := run_jobs [job_a h; job_b h] [0; 1; 0; 1; 0]%nat (at_start (ci0 h)) in
  phases w 1%nat = Ready (ci0 h) /\ ci w <> ci0 h.
Proof. destruct h; vm_compute; split; (reflexivity || discriminate). Qed.
Example C112_gitlab_nonvacuous :
  ~ In 58 (bytes "gitlab.com/u/r") /\ gitlab_target (bytes "https://gitlab.com/u/r") = bytes "gitlab.com/u/r.git"
  /\ gitlab_target (bytes "https://gitlab.com/u/r.git") = bytes "gitlab.com/u/r.git.git"
  /\ gitlab_target (bytes "git@gitlab.com:u/r.git") = bytes "git@gitlab.com:u/r.git.git".
Proof. vm_compute. intuition discriminate. Qed.

Print Assumptions C111_installed.
Print Assumptions C111_refused.
Print Assumptions C111_any_stop.
Print Assumptions C111_untracked_refuted.
Print Assumptions C111_silent_refuted.
Print Assumptions C111_again_refuted.
Print Assumptions C111_other_clone.
Print Assumptions C112_branch.
Print Assumptions C112_one_by_one.
Print Assumptions C112_overtaken.
Print Assumptions C112_overlap_refuted.
Print Assumptions C112_gitlab_address_partial.
Print Assumptions C112_gitlab_address_refuted.
