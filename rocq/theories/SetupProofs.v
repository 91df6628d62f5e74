(** Proofs about SetupModel.v: every state [vfc_ci setup] goes through, its result, and the CI branch under any schedule of jobs. *)
From Coq Require Import Ascii String ZArith List Bool Lia.
From Verif Require Import Text SetupModel.
Import ListNotations.
Open Scope Z_scope.
Local Arguments ci_name : simpl never.
Local Arguments readme : simpl never.
Local Arguments workflow_path : simpl never.
Local Arguments workflow : simpl never.
Local Arguments name_dec : simpl never.

Lemma get_keep f t p : get (keep f t) p = if f p then get t p else None.
Proof.
  unfold keep. induction t as [|[q c] t IH]; cbn [filter get fst]; [destruct (f p); reflexivity|].
  destruct (f q) eqn:E; cbn [get]; destruct (name_dec q p) as [<-|N]; rewrite ?E; auto.
  rewrite IH, E. reflexivity.
Qed.
Lemma get_app t u p : get (t ++ u) p = match get t p with Some c => Some c | None => get u p end.
Proof. induction t as [|[q c] t IH]; cbn; [reflexivity|]. now destruct (name_dec q p). Qed.
Lemma get_put t p c q : get (put t p c) q = if name_dec p q then Some c else get t q.
Proof. reflexivity. Qed.
Lemma get_in t p c : get t p = Some c -> In p (map fst t).
Proof. induction t as [|[q d] t IH]; cbn; [discriminate|]. destruct (name_dec q p); auto. Qed.
Lemma has_get t p : has t p = true <-> exists c, get t p = Some c.
Proof. unfold has. destruct (get t p); split; intros H; eauto; try discriminate; destruct H; discriminate. Qed.
Lemma has_false t p : has t p = false <-> get t p = None.
Proof. unfold has. destruct (get t p); split; intros H; auto; discriminate. Qed.

Lemma upd_same f b h : upd f b h b = h.
Proof. unfold upd. now destruct (name_dec b b). Qed.
Lemma upd_other f b h x : x <> b -> upd f b h x = f x.
Proof. unfold upd. now destruct (name_dec x b). Qed.
Lemma ci_dev dev : ci_name dev <> dev.
Proof. intros H. apply (f_equal (@length Z)) in H. unfold ci_name in H. rewrite app_length in H. cbn in H. lia. Qed.
Lemma knows_in h i : knows h i = true <-> In i (ids h).
Proof.
  unfold knows. rewrite existsb_exists. split; [intros (x & H & E)|intros H; exists i; split; [easy|apply Z.eqb_refl]].
  apply Z.eqb_eq in E. now subst.
Qed.
Lemma ff_refl c h : fast_forward h (c :: h) = true.
Proof. destruct h as [|d h]; [reflexivity|]. apply knows_in. cbn. auto. Qed.

(** the three checks, stated on paths and commits *)
Definition clean (r : repo) : Prop :=
  (forall p, get (index r) p = get (tip (heads r (head r))) p)
  /\ (forall p c, get (index r) p = Some c -> get (work r) p = Some c).
Definition in_sync (r : repo) (u : name) : Prop :=
  forall i, In i (ids (heads r (head r))) <-> In i (ids (server r u)).

Lemma dirty_clean r : dirty r = false <-> clean r.
Proof.
  unfold dirty, clean. rewrite orb_false_iff. split.
  - intros [A B]. split.
    + intros p. destruct (found_dec (get (index r) p) (get (tip (heads r (head r))) p)) as [E|N]; [exact E|exfalso].
      enough (X : existsb (fun p0 => if found_dec (get (index r) p0) (get (tip (heads r (head r))) p0) then false else true)
                  (map fst (index r) ++ map fst (tip (heads r (head r)))) = true) by congruence.
      apply existsb_exists. exists p. split; [|now destruct found_dec].
      apply in_or_app. destruct (get (index r) p) eqn:E1; [left; eapply get_in; eauto|].
      destruct (get (tip (heads r (head r))) p) eqn:E2; [right; eapply get_in; eauto|congruence].
    + intros p c H. destruct (found_dec (get (work r) p) (get (index r) p)) as [E|N]; [congruence|exfalso].
      enough (X : existsb (fun p0 => if found_dec (get (work r) p0) (get (index r) p0) then false else true) (map fst (index r)) = true) by congruence.
      apply existsb_exists. exists p. split; [eapply get_in; eauto|now destruct found_dec].
  - intros [A B]. split; apply not_true_is_false; intros X; apply existsb_exists in X; destruct X as (p & Hp & X).
    + destruct found_dec as [|N]; [discriminate|]. now apply N.
    + destruct found_dec as [|N]; [discriminate|]. apply N.
      destruct (get (index r) p) eqn:E; [now apply B|].
      exfalso. clear -Hp E. induction (index r) as [|[q c] t IH]; [easy|]. cbn in *.
      destruct (name_dec q p); [discriminate|]. destruct Hp; [congruence|auto].
Qed.
Lemma sync_checked r u :
  forallb (knows (server r u)) (ids (heads r (head r))) && forallb (knows (heads r (head r))) (ids (server r u)) = true <-> in_sync r u.
Proof.
  rewrite andb_true_iff, !forallb_forall. unfold in_sync. split.
  - intros [A B] i. split; intros H; apply knows_in; auto.
  - intros H. split; intros i Hi; apply knows_in, H, Hi.
Qed.

Lemma states_finish l r : In (fst (finish l r)) (states l r).
Proof.
  revert r. induction l as [|s l IH]; intros r; cbn; [auto|].
  destruct (s r) eqn:E; cbn; auto.
Qed.

(** the state after [fetch] *)
Definition fetched (r : repo) : repo :=
  {| head := head r; heads := heads r; tracking := server r; server := server r; index := index r; work := work r |}.
(** the part of the program after the checks *)
Definition body (e : environment) (h : host) (dev : name) : list statement := skipn 4 (setup e h dev).

Lemma checks_pass e h r :
  fetch_works e = true -> clean r -> (exists u, upstream e (head r) = Some u /\ in_sync r u) ->
  run_setup e h r = finish (body e h (head r)) (fetched r).
Proof.
  intros F C (u & U & S). unfold run_setup, setup. cbn [finish]. unfold fetch at 1. rewrite F.
  fold (fetched r). unfold check_clean at 1.
  replace (dirty (fetched r)) with (dirty r) by reflexivity.
  apply dirty_clean in C. rewrite C. unfold check_upstream at 1. rewrite U. unfold check_sync at 1. rewrite U.
  cbn [tracking fetched heads]. apply sync_checked in S. rewrite S. reflexivity.
Qed.
(** otherwise every state is the first one or the fetched one *)
Lemma checks_fail e h r :
  ~ (fetch_works e = true /\ clean r /\ exists u, upstream e (head r) = Some u /\ in_sync r u) ->
  snd (run_setup e h r) = false /\ forall s, In s (setup_states e h r) -> s = r \/ s = fetched r.
Proof.
  intros N. unfold run_setup, setup_states, setup. cbn [finish states]. unfold fetch.
  destruct (fetch_works e) eqn:F; [|split; [reflexivity|intros s [<-|[]]; auto]].
  fold (fetched r). unfold check_clean. replace (dirty (fetched r)) with (dirty r) by reflexivity.
  destruct (dirty r) eqn:D; [split; [reflexivity|intros s [<-|[<-|[]]]; auto]|].
  unfold check_upstream. destruct (upstream e (head r)) as [u|] eqn:U;
    [|split; [reflexivity|intros s [<-|[<-|[<-|[]]]]; auto]].
  unfold check_sync. rewrite U. cbn [tracking fetched heads].
  destruct (_ && _) eqn:S; [|split; [reflexivity|intros s [<-|[<-|[<-|[<-|[]]]]]; auto]].
  exfalso. apply N. apply sync_checked in S. apply dirty_clean in D. eauto.
Qed.

(** the tree committed on the development branch *)
Definition committed (e : environment) (h : host) (r : repo) : tree :=
  keep (fun p => has (index r) p || negb (ignored e p)) (put (work r) (workflow_path h) (workflow e h (head r))).
Lemma get_committed e h r p :
  get (committed e h r) p =
  if has (index r) p || negb (ignored e p)
  then if name_dec (workflow_path h) p then Some (workflow e h (head r)) else get (work r) p
  else None.
Proof. unfold committed. now rewrite get_keep, get_put. Qed.

Local Arguments committed : simpl never.
(** a push leaves the server as it was or gives it the pushed branch *)
Lemma push_spec a b r s : push a b r = Some s ->
  head s = head r /\ heads s = heads r /\ index s = index r /\ work s = work r /\
  (server s = server r
   \/ server s = upd (server r) b (heads r b) /\ fast_forward (server r b) (heads r b) = true).
Proof.
  unfold push. destruct a as [ok|]; [|discriminate].
  destruct (ok && fast_forward (server r b) (heads r b)) eqn:E; intros [= <-]; cbn; auto 8.
  apply andb_true_iff in E. tauto.
Qed.

Definition first (e : environment) (h : host) (r : repo) : commit := {| c_id := fresh_dev e; c_tree := committed e h r |}.
Definition second (e : environment) (dev : name) : commit := {| c_id := fresh_ci e; c_tree := [(readme, Readme dev (ci_name dev))] |}.

Local Arguments first : simpl never.
Local Arguments second : simpl never.
(** what every state of the program satisfies, relative to the first state [r] *)
Record safe (e : environment) (h : host) (r s : repo) : Prop := {
  sf_heads : forall b, b <> head r -> b <> ci_name (head r) -> heads s b = heads r b;
  sf_server : forall b, b <> head r -> b <> ci_name (head r) -> server s b = server r b;
  sf_dev : heads s (head r) = heads r (head r) \/ heads s (head r) = first e h r :: heads r (head r);
  sf_server_dev : server s (head r) = server r (head r)
                  \/ server s (head r) = first e h r :: heads r (head r)
                     /\ fast_forward (server r (head r)) (first e h r :: heads r (head r)) = true;
  sf_ci : heads s (ci_name (head r)) = heads r (ci_name (head r))
          \/ heads s (ci_name (head r)) = second e (head r) :: heads r (ci_name (head r));
  sf_server_ci : server s (ci_name (head r)) = server r (ci_name (head r))
                 \/ server s (ci_name (head r)) = second e (head r) :: heads r (ci_name (head r))
                    /\ fast_forward (server r (ci_name (head r))) (second e (head r) :: heads r (ci_name (head r))) = true;
  sf_work : forall p, p <> workflow_path h -> p <> readme -> get (work s) p = get (work r) p;
  sf_readme : get (work s) readme = get (work r) readme
              \/ (has (index r) readme || negb (ignored e readme) = true ->
                  exists rest, heads s (head r) = first e h r :: rest)
}.

Lemma readme_workflow h : workflow_path h <> readme.
Proof. destruct h; vm_compute; discriminate. Qed.

Lemma safe_refl e h r s :
  heads s = heads r -> server s = server r -> work s = work r -> safe e h r s.
Proof. intros A B C. constructor; rewrite ?A, ?B, ?C; auto. Qed.

Lemma all_safe e h r s : In s (setup_states e h r) -> safe e h r s.
Proof.
  unfold setup_states, setup. cbn [states]. intros [<- | H]; [now apply safe_refl|].
  unfold fetch at 1 in H. destruct (fetch_works e); [|easy]. fold (fetched r) in H.
  destruct H as [<- | H]; [now apply safe_refl|].
  destruct (check_clean (fetched r)) as [s1|] eqn:E; [|easy].
  unfold check_clean in E. destruct (dirty (fetched r)); [discriminate|]. injection E as <-.
  destruct H as [<- | H]; [now apply safe_refl|].
  destruct (check_upstream e (head r) (fetched r)) as [s1|] eqn:E; [|easy].
  unfold check_upstream in E. destruct (upstream e (head r)) eqn:U; [|discriminate]. injection E as <-.
  destruct H as [<- | H]; [now apply safe_refl|].
  destruct (check_sync e (head r) (fetched r)) as [s1|] eqn:E; [|easy].
  unfold check_sync in E. rewrite U in E. destruct (_ && _); [|discriminate]. injection E as <-.
  destruct H as [<- | H]; [now apply safe_refl|].
  (* gen_workflow *)
  unfold gen_workflow in H.
  set (s5 := set_work (fetched r) _) in H.
  assert (W5 : forall p, p <> workflow_path h -> get (work s5) p = get (work r) p).
  { intros p N. cbn. destruct (name_dec (workflow_path h) p); congruence. }
  destruct H as [<- | H].
  { constructor; cbn; auto. intros p N _. now apply W5. left. apply (W5 readme). intros E; symmetry in E; exact (readme_workflow h E). }
  (* add_dot *)
  unfold add_dot at 1 in H. change (keep _ (work s5)) with (committed e h r) in H.
  set (s6 := set_index s5 (committed e h r)) in H.
  destruct H as [<- | H].
  { constructor; cbn; auto. intros p N _. now apply W5. left. apply (W5 readme). intros E; symmetry in E; exact (readme_workflow h E). }
  (* commit *)
  unfold commit_index at 1 in H. set (s7 := Build_repo _ _ _ _ _ _) in H.
  assert (D7 : heads s7 (head r) = first e h r :: heads r (head r)) by (cbn; rewrite upd_same; reflexivity).
  assert (S7 : safe e h r s7).
  { constructor.
    - intros b N _. cbn. now rewrite upd_other.
    - reflexivity.
    - right. exact D7.
    - left. reflexivity.
    - left. cbn. apply upd_other, ci_dev.
    - left. reflexivity.
    - intros p N _. now apply W5.
    - left. apply (W5 readme). intros E; symmetry in E; exact (readme_workflow h E). }
  destruct H as [<- | H]; [exact S7|].
  (* push *)
  destruct (push_dev e (head r) s7) as [s8|] eqn:P; [|easy].
  unfold push_dev in P. rewrite U in P. destruct (name_dec n (head r)) as [->|]; [|discriminate].
  apply push_spec in P. destruct P as (P1 & P2 & P3 & P4 & P5).
  assert (V8 : server s8 (head r) = server r (head r)
               \/ server s8 (head r) = first e h r :: heads r (head r)
                  /\ fast_forward (server r (head r)) (first e h r :: heads r (head r)) = true).
  { destruct P5 as [-> | [-> F]]; [left; reflexivity|right]. rewrite D7 in F. rewrite upd_same, D7. split; [reflexivity|exact F]. }
  assert (O8 : forall b, b <> head r -> server s8 b = server r b).
  { intros b N. destruct P5 as [-> | [-> _]]; [reflexivity|]. now rewrite upd_other. }
  assert (S8 : safe e h r s8).
  { destruct S7. constructor; rewrite ?P2, ?P4; auto. left. apply O8, ci_dev. }
  destruct H as [<- | H]; [exact S8|].
  (* set_head *)
  unfold set_head at 1 in H. set (s9 := Build_repo _ _ _ _ _ _) in H.
  assert (S9 : safe e h r s9) by (destruct S8; constructor; cbn; auto).
  destruct H as [<- | H]; [exact S9|].
  destruct (remove_index s9) as [s10|] eqn:R; [|easy].
  assert (E10 : s10 = set_index s9 []) by (unfold remove_index in R; destruct (index s9); congruence). subst s10.
  destruct H as [<- | H]; [destruct S9; constructor; auto|].
  (* gen_readme *)
  unfold gen_readme at 1 in H. set (s11 := set_work _ _) in H.
  assert (D11 : heads s11 (head r) = first e h r :: heads r (head r)) by (cbn; now rewrite P2).
  assert (S11 : safe e h r s11).
  { destruct S9. constructor; auto.
    - intros p N1 N2. cbn. destruct (name_dec readme p); [congruence|]. now apply sf_work0.
    - right. intros _. eauto. }
  destruct H as [<- | H]; [exact S11|].
  unfold add_readme at 1 in H.
  replace (get (work s11) readme) with (Some (Readme (head r) (ci_name (head r)))) in H
    by (unfold s11; cbn [work set_work]; rewrite get_put; destruct (name_dec readme readme); congruence).
  set (s12 := set_index s11 _) in H.
  assert (S12 : safe e h r s12) by (destruct S11; constructor; auto).
  destruct H as [<- | H]; [exact S12|].
  unfold commit_index at 1 in H. set (s13 := Build_repo _ _ _ _ _ _) in H.
  assert (D13 : heads s13 (head r) = first e h r :: heads r (head r)).
  { unfold s13. cbn [heads]. rewrite upd_other by (cbn; intros E; symmetry in E; exact (ci_dev _ E)). exact D11. }
  assert (C13 : heads s13 (ci_name (head r)) = second e (head r) :: heads r (ci_name (head r))).
  { cbn. rewrite upd_same, P2. cbn. rewrite upd_other by apply ci_dev. reflexivity. }
  assert (S13 : safe e h r s13).
  { destruct S12. constructor; auto.
    - intros b N1 N2. unfold s13. cbn [heads]. rewrite upd_other by exact N2. now apply sf_heads0.
    - right. intros _. eauto. }
  destruct H as [<- | H]; [exact S13|].
  destruct (push (answer_ci e) (ci_name (head r)) s13) as [s14|] eqn:Q; [|easy].
  apply push_spec in Q. destruct Q as (Q1 & Q2 & Q3 & Q4 & Q5).
  assert (S14 : safe e h r s14).
  { destruct S13. constructor; rewrite ?Q2, ?Q4; auto.
    - intros b N1 N2. destruct Q5 as [-> | [-> _]]; [auto|]. rewrite upd_other by exact N2. auto.
    - destruct Q5 as [-> | [-> _]]; [auto|]. rewrite upd_other by (intros E; symmetry in E; exact (ci_dev _ E)). auto.
    - destruct Q5 as [-> | [-> F]]; [auto|]. rewrite upd_same. right. split; [exact C13|].
      rewrite C13 in F. replace (server s13 (ci_name (head r))) with (server r (ci_name (head r))) in F; [exact F|].
      symmetry. apply O8, ci_dev. }
  destruct H as [<- | H]; [exact S14|].
  unfold checkout at 1 in H. rewrite Q2, D13 in H. destruct H as [<- | []].
  destruct S14. rewrite Q2 in sf_heads0, sf_dev0, sf_ci0. constructor.
  - exact sf_heads0.
  - exact sf_server0.
  - exact sf_dev0.
  - exact sf_server_dev0.
  - exact sf_ci0.
  - exact sf_server_ci0.
  - intros p N1 N2. cbn [work]. rewrite get_app. change (c_tree (first e h r)) with (committed e h r).
    rewrite get_committed. destruct (name_dec (workflow_path h) p); [congruence|].
    destruct (has (index r) p || negb (ignored e p)).
    + destruct (get (work r) p) eqn:G; [reflexivity|]. rewrite get_keep.
      destruct (negb (has (index s14) p)); [|reflexivity]. rewrite sf_work0 by auto. exact G.
    + rewrite get_keep, Q3. unfold has. cbn. destruct (name_dec readme p); [congruence|]. cbn. now apply sf_work0.
  - right. intros _. cbn [heads]. eauto.
Qed.

(** ** The result when the checks pass and the pushes are answered *)
Definition kept (e : environment) (r : repo) (p : name) : bool := has (index r) p || negb (ignored e p).
Lemma push_total a b r : exists s, push (Some a) b r = Some s /\
  head s = head r /\ heads s = heads r /\ index s = index r /\ work s = work r /\
  server s = if a && fast_forward (server r b) (heads r b) then upd (server r) b (heads r b) else server r.
Proof. unfold push. destruct (a && _); eexists; (split; [reflexivity|]); cbn; auto. Qed.

Lemma body_result e h r a b :
  upstream e (head r) = Some (head r) -> answer_dev e = Some a -> answer_ci e = Some b ->
  kept e r (workflow_path h) = true ->
  exists s, finish (body e h (head r)) (fetched r) = (s, true)
  /\ head s = head r
  /\ heads s (head r) = first e h r :: heads r (head r)
  /\ heads s (ci_name (head r)) = second e (head r) :: heads r (ci_name (head r))
  /\ server s (head r) = (if a && fast_forward (server r (head r)) (first e h r :: heads r (head r))
                          then first e h r :: heads r (head r) else server r (head r))
  /\ server s (ci_name (head r)) =
       (if b && fast_forward (server r (ci_name (head r))) (second e (head r) :: heads r (ci_name (head r)))
        then second e (head r) :: heads r (ci_name (head r)) else server r (ci_name (head r)))
  /\ index s = committed e h r
  /\ forall p, get (work s) p =
       if name_dec (workflow_path h) p then Some (workflow e h (head r))
       else if kept e r p then get (work r) p
       else if name_dec readme p then None else get (work r) p.
Proof.
  intros U A B K. assert (Ne : head r <> ci_name (head r)) by (intros E; symmetry in E; exact (ci_dev _ E)).
  unfold body, setup. cbn [skipn finish].
  unfold gen_workflow. set (s5 := set_work (fetched r) _).
  unfold add_dot. change (keep _ (work s5)) with (committed e h r). set (s6 := set_index s5 (committed e h r)).
  unfold commit_index at 1. set (s7 := Build_repo _ _ _ _ _ _).
  assert (D7 : heads s7 (head r) = first e h r :: heads r (head r)) by (cbn; rewrite upd_same; reflexivity).
  unfold push_dev. rewrite U. destruct (name_dec (head r) (head r)) as [_|]; [|congruence]. rewrite A.
  destruct (push_total a (head r) s7) as (s8 & -> & P1 & P2 & P3 & P4 & P5).
  unfold set_head. set (s9 := Build_repo _ _ _ _ _ _).
  assert (R : remove_index s9 = Some (set_index s9 [])).
  { unfold remove_index. destruct (index s9) eqn:E; [|reflexivity]. exfalso.
    assert (G : get (committed e h r) (workflow_path h) = Some (workflow e h (head r))).
    { rewrite get_committed. fold (kept e r (workflow_path h)). rewrite K. now destruct name_dec. }
    cbn in E. rewrite P3 in E. cbn in E. rewrite E in G. discriminate. }
  rewrite R. unfold gen_readme. set (s11 := set_work _ _).
  unfold add_readme.
  replace (get (work s11) readme) with (Some (Readme (head r) (ci_name (head r))))
    by (unfold s11; cbn [work set_work]; rewrite get_put; destruct (name_dec readme readme); congruence).
  set (s12 := set_index s11 _). unfold commit_index. set (s13 := Build_repo _ _ _ _ _ _).
  assert (D13 : heads s13 (head r) = first e h r :: heads r (head r)).
  { unfold s13. cbn [heads]. rewrite upd_other by exact Ne. change (heads s12) with (heads s8). now rewrite P2. }
  assert (C13 : heads s13 (ci_name (head r)) = second e (head r) :: heads r (ci_name (head r))).
  { cbn. rewrite upd_same, P2. cbn. rewrite upd_other by apply ci_dev. reflexivity. }
  assert (V13 : server s13 (ci_name (head r)) = server r (ci_name (head r))).
  { change (server s13) with (server s8). rewrite P5. destruct (a && _); [|reflexivity]. now rewrite upd_other by apply ci_dev. }
  rewrite B. destruct (push_total b (ci_name (head r)) s13) as (s14 & -> & Q1 & Q2 & Q3 & Q4 & Q5).
  unfold checkout. rewrite Q2, D13. eexists. split; [reflexivity|]. cbn [head heads server index work].
  split; [reflexivity|]. split; [exact D13|]. split; [exact C13|].
  split; [|split; [|split; [reflexivity|]]].
  - rewrite Q5. replace ((if b && fast_forward (server s13 (ci_name (head r))) (heads s13 (ci_name (head r)))
      then upd (server s13) (ci_name (head r)) (heads s13 (ci_name (head r))) else server s13) (head r)) with (server s13 (head r))
      by (destruct (b && _); [now rewrite upd_other|reflexivity]).
    change (server s13) with (server s8). rewrite P5, D7. change (server s7) with (server r).
    destruct (a && fast_forward (server r (head r)) (first e h r :: heads r (head r))); [apply upd_same|reflexivity].
  - rewrite Q5, C13, V13.
    destruct (b && fast_forward (server r (ci_name (head r))) (second e (head r) :: heads r (ci_name (head r)))); [apply upd_same|exact V13].
  - intros p. rewrite get_app, get_keep. change (c_tree (first e h r)) with (committed e h r). rewrite get_committed.
    fold (kept e r p). rewrite Q3, Q4.
    assert (Wp : get (work s13) p = if name_dec readme p then Some (Readme (head r) (ci_name (head r)))
                 else if name_dec (workflow_path h) p then Some (workflow e h (head r)) else get (work r) p).
    { change (work s13) with (put (work s8) readme (Readme (head r) (ci_name (head r)))). rewrite get_put.
      destruct (name_dec readme p); [reflexivity|]. rewrite P4. reflexivity. }
    assert (Hp : has (index s13) p = if name_dec readme p then true else false).
    { change (index s13) with [(readme, Readme (head r) (ci_name (head r)))]. unfold has. cbn. now destruct (name_dec readme p). }
    rewrite Wp, Hp.
    destruct (name_dec (workflow_path h) p) as [<-|N].
    + rewrite K. reflexivity.
    + destruct (kept e r p).
      * destruct (get (work r) p); [reflexivity|]. destruct (name_dec readme p); reflexivity.
      * destruct (name_dec readme p); reflexivity.
Qed.

(** ** The jobs *)
Definition distinct (jobs : list job) (h0 : history) : Prop :=
  NoDup (map j_id jobs ++ ids h0) /\ NoDup (map j_file jobs).
Record inv (jobs : list job) (h0 : history) (w : world) : Prop := {
  iv_nodup : NoDup (ids (ci w));
  iv_fresh : forall k j, nth_error jobs k = Some j -> phases w k <> Success -> ~ In (j_id j) (ids (ci w));
  iv_copy : forall k h, phases w k = Copied h \/ phases w k = Ready h -> exists l, ci w = l ++ h;
  iv_top : exists l, ci w = l ++ h0 /\
           forall c, In c l -> exists k j, nth_error jobs k = Some j /\ phases w k = Success /\ c_id c = j_id j;
  iv_done : forall k j, nth_error jobs k = Some j -> phases w k = Success ->
            get (tip (ci w)) (run_path j) = Some (File (j_data j)) /\ In (j_id j) (ids (ci w));
  iv_old : forall p, (forall k j, nth_error jobs k = Some j -> phases w k = Success -> run_path j <> p) ->
           get (tip (ci w)) p = get (tip h0) p
}.
Lemma inv_start jobs h0 : distinct jobs h0 -> inv jobs h0 (at_start h0).
Proof.
  intros [N _]. constructor; cbn.
  - clear -N. induction (map j_id jobs); cbn in N; [exact N|]. inversion N; auto.
  - intros k j E _ I. apply nth_error_In in E. apply (in_map j_id) in E.
    clear -N E I. induction (map j_id jobs) as [|x l IH]; [easy|]. cbn in N. inversion N; subst.
    destruct E as [-> | E]; [apply H1, in_or_app; auto|auto].
  - intros k h [H | H]; discriminate.
  - exists []. split; [reflexivity|easy].
  - discriminate.
  - reflexivity.
Qed.
Lemma nth_inj {A B} (f : A -> B) (l : list A) i j x y :
  NoDup (map f l) -> nth_error l i = Some x -> nth_error l j = Some y -> f x = f y -> i = j.
Proof.
  intros N Hx Hy E. apply (proj1 (NoDup_nth_error (map f l)) N).
  - rewrite map_length. apply nth_error_Some. congruence.
  - rewrite !nth_error_map, Hx, Hy. cbn. congruence.
Qed.
Lemma distinct_path jobs h0 i j x y :
  distinct jobs h0 -> nth_error jobs i = Some x -> nth_error jobs j = Some y -> run_path x = run_path y -> i = j.
Proof.
  intros [_ N] Hx Hy E. eapply (nth_inj j_file); eauto. unfold run_path in E. now apply app_inv_head in E.
Qed.
Lemma distinct_id jobs h0 i j x y :
  distinct jobs h0 -> nth_error jobs i = Some x -> nth_error jobs j = Some y -> j_id x = j_id y -> i = j.
Proof.
  intros [N _] Hx Hy E. eapply (nth_inj j_id); eauto. clear -N.
  induction (map j_id jobs) as [|a l IH]; [constructor|]. cbn in N. inversion N; subst. constructor; auto.
  intros I. apply H1, in_or_app; auto.
Qed.

Lemma phase_set w k p x : phases (set_phase w k p) x = if Nat.eqb x k then p else phases w x.
Proof. reflexivity. Qed.
(** a step of job k that uploads nothing *)
Lemma inv_quiet jobs h0 w k p :
  inv jobs h0 w -> phases w k <> Success -> p <> Success ->
  (forall h, p = Copied h \/ p = Ready h -> exists l, ci w = l ++ h) ->
  inv jobs h0 (set_phase w k p).
Proof.
  intros [A B C D E F] N1 N2 N3.
  assert (S : forall x, phases (set_phase w k p) x = Success <-> phases w x = Success).
  { intros x. rewrite phase_set. destruct (Nat.eqb_spec x k) as [->|]; [split; intros; congruence|tauto]. }
  constructor; cbn [ci set_phase]; auto.
  - intros x j Hx Np. apply (B x j Hx). intros Q. apply Np. now apply S.
  - intros x h. rewrite phase_set. destruct (Nat.eqb x k); eauto.
  - destruct D as (l & Dl & Ds). exists l. split; [exact Dl|]. intros c Hc. destruct (Ds c Hc) as (x & j & H1 & H2 & H3).
    exists x, j. split; [exact H1|]. split; [now apply S|exact H3].
  - intros x j Hx Hs. apply E with x; [exact Hx|now apply S].
  - intros q Hq. apply F. intros x j Hx Hs. apply Hq with x; [exact Hx|now apply S].
Qed.
(** a push is a fast-forward only if the copy is the branch of the server *)
Lemma ff_copy jobs h0 w k j h :
  inv jobs h0 w -> nth_error jobs k = Some j -> phases w k = Ready h ->
  forall t, fast_forward (ci w) ({| c_id := j_id j; c_tree := t |} :: h) = true <-> ci w = h.
Proof.
  intros I Hk Hp t. destruct (iv_copy _ _ _ I k h (or_intror Hp)) as (l & El). split.
  - intros F. destruct l as [|c l]; [exact El|exfalso].
    assert (Fr : ~ In (j_id j) (ids (ci w))) by (apply (iv_fresh _ _ _ I k j Hk); congruence).
    pose proof (iv_nodup _ _ _ I) as N. rewrite El in *. cbn [app fast_forward] in F. apply knows_in in F. cbn in N, Fr, F.
    destruct F as [F | F]; [apply Fr; auto|]. inversion N; subst. apply H1. unfold ids. rewrite map_app. apply in_or_app. auto.
  - intros ->. apply ff_refl.
Qed.
Lemma upload_cases jobs h0 w k j h :
  inv jobs h0 w -> nth_error jobs k = Some j -> phases w k = Ready h ->
  upload w k j h = set_phase w k Failure
  \/ ci w = h /\ upload w k j h =
       set_phase {| ci := {| c_id := j_id j; c_tree := put (tip h) (run_path j) (File (j_data j)) |} :: h; phases := phases w |} k Success.
Proof.
  intros I Hk Hp. unfold upload. destruct found_dec; [auto|].
  destruct (fast_forward _ _) eqn:F; [right|auto]. split; [|reflexivity]. eapply ff_copy; eauto.
Qed.
Lemma inv_step jobs h0 w k : distinct jobs h0 -> inv jobs h0 w -> inv jobs h0 (job_step jobs w k).
Proof.
  intros Di I. unfold job_step. destruct (nth_error jobs k) as [j|] eqn:Hk; [|exact I].
  assert (Self : exists l, ci w = l ++ ci w) by (exists []; reflexivity).
  destruct (phases w k) as [|h| |h| |] eqn:Hp; auto.
  - destruct (j_host j); apply inv_quiet; auto; try congruence.
    + intros h [[= <-] | H]; [exact Self|discriminate].
    + unfold test_then. destruct (j_tests_pass j); congruence.
    + unfold test_then. intros h [H | H]; destruct (j_tests_pass j); congruence.
  - pose proof (iv_copy _ _ _ I k h (or_introl Hp)) as Cp.
    apply inv_quiet; auto; try congruence; unfold test_then.
    + destruct (j_tests_pass j), h; congruence.
    + intros g [H | H]; destruct (j_tests_pass j), h; try congruence. injection H as <-. exact Cp.
  - apply inv_quiet; auto; try congruence.
    + destruct (ci w); congruence.
    + intros g [H | H]; destruct (ci w) eqn:Ec; try congruence. injection H as <-. exists []. reflexivity.
  - destruct (upload_cases _ _ _ _ _ _ I Hk Hp) as [-> | [Ec ->]].
    { apply inv_quiet; auto; try congruence. intros g [H | H]; congruence. }
    set (c := Build_commit _ _).
    assert (Fr : ~ In (j_id j) (ids (ci w))) by (apply (iv_fresh _ _ _ I k j Hk); congruence).
    destruct I as [A B C D E F]. subst h. constructor; cbn [ci set_phase].
    + cbn. constructor; assumption.
    + intros x y Hx. rewrite phase_set. destruct (Nat.eqb_spec x k) as [->|Nk]; [congruence|]. cbn [phases]. intros Np [Q | Q].
      * cbn in Q. apply Nk. symmetry. eapply distinct_id; eauto.
      * exact (B x y Hx Np Q).
    + intros x g. rewrite phase_set. destruct (Nat.eqb_spec x k); [intros [H | H]; congruence|]. cbn [phases]. intros H.
      destruct (C x g H) as (l & ->). exists (c :: l). reflexivity.
    + destruct D as (l & -> & Ds). exists (c :: l). split; [reflexivity|]. intros d [<- | Hd].
      * exists k, j. rewrite phase_set, Nat.eqb_refl. auto.
      * destruct (Ds d Hd) as (x & y & H1 & H2 & H3). exists x, y. rewrite phase_set. cbn [phases].
        destruct (Nat.eqb x k); auto.
    + intros x y Hx. rewrite phase_set. cbn [phases tip c c_tree]. rewrite get_put. destruct (Nat.eqb_spec x k) as [->|Nk].
      * intros _. assert (y = j) by congruence. subst y. destruct name_dec; [|congruence]. split; [reflexivity|]. left. reflexivity.
      * intros Hs. destruct (E x y Hx Hs) as [E1 E2]. destruct (name_dec (run_path j) (run_path y)) as [Q|_].
        { exfalso. apply Nk. symmetry. eapply distinct_path; eauto. }
        split; [exact E1|]. right. exact E2.
    + intros p Hq. cbn [tip c c_tree]. rewrite get_put. destruct (name_dec (run_path j) p) as [Q|_].
      { exfalso. apply (Hq k j Hk); [|exact Q]. now rewrite phase_set, Nat.eqb_refl. }
      apply F. intros x y Hx Hs. apply (Hq x y Hx). rewrite phase_set. cbn [phases]. destruct (Nat.eqb x k); auto.
Qed.
Lemma inv_run jobs h0 sch w : distinct jobs h0 -> inv jobs h0 w -> inv jobs h0 (run_jobs jobs sch w).
Proof.
  intros Di. revert w. unfold run_jobs. induction sch as [|k sch IH]; cbn; intros w I; [exact I|]. apply IH. now apply inv_step.
Qed.

(** the three steps of one job alone *)
Lemma one_job jobs h0 w k j :
  distinct jobs h0 -> inv jobs h0 w -> nth_error jobs k = Some j -> j_tests_pass j = true -> phases w k = Waiting ->
  ci w <> [] -> get (tip (ci w)) (run_path j) <> Some (File (j_data j)) ->
  let w' := run_jobs jobs [k; k; k] w in
  phases w' k = Success /\ ci w' = {| c_id := j_id j; c_tree := put (tip (ci w)) (run_path j) (File (j_data j)) |} :: ci w
  /\ forall x, x <> k -> phases w' x = phases w x.
Proof.
  intros Di I Hk Ht Hp Hc Hn. unfold run_jobs. cbn [fold_left].
  assert (R : exists w2, job_step jobs (job_step jobs w k) k = w2 /\ ci w2 = ci w /\ phases w2 k = Ready (ci w)
              /\ (forall x, x <> k -> phases w2 x = phases w x)).
  { eexists. split; [reflexivity|]. unfold job_step at 2 4 6. rewrite Hk, Hp. destruct (j_host j) eqn:Hh;
      unfold job_step; rewrite Hk, phase_set, Nat.eqb_refl; unfold test_then; rewrite ?Ht, ?Hh; cbn [ci set_phase].
    - destruct (ci w) eqn:Ec; [congruence|]. rewrite phase_set, Nat.eqb_refl. repeat split.
      intros x Nx. rewrite !phase_set. apply Nat.eqb_neq in Nx. now rewrite Nx.
    - destruct (ci w) eqn:Ec; [congruence|]. rewrite phase_set, Nat.eqb_refl. repeat split.
      intros x Nx. rewrite !phase_set. apply Nat.eqb_neq in Nx. now rewrite Nx. }
  destruct R as (w2 & -> & R1 & R2 & R3). unfold job_step. rewrite Hk, R2. unfold upload.
  destruct found_dec; [congruence|]. rewrite R1, ff_refl. cbn [ci set_phase]. rewrite phase_set, Nat.eqb_refl.
  split; [reflexivity|]. split; [reflexivity|]. intros x Nx. rewrite phase_set. cbn [phases].
  destruct (Nat.eqb_spec x k); [congruence|]. now apply R3.
Qed.
Definition in_order (n : nat) : list nat := flat_map (fun k => [k; k; k]) (seq 0 n).
Lemma sequential jobs h0 n :
  distinct jobs h0 -> h0 <> [] -> (forall j, In j jobs -> j_tests_pass j = true /\ get (tip h0) (run_path j) = None) ->
  (n <= length jobs)%nat ->
  let w := run_jobs jobs (in_order n) (at_start h0) in
  (forall k, (k < n)%nat -> phases w k = Success) /\ (forall k, (n <= k)%nat -> phases w k = Waiting) /\ ci w <> [].
Proof.
  intros Di Hne Hj. induction n as [|n IH]; intros L.
  - cbn. repeat split; auto. intros k H. lia.
  - unfold in_order. rewrite seq_S, flat_map_app. cbn [flat_map app plus]. unfold run_jobs. rewrite fold_left_app.
    specialize (IH ltac:(lia)). fold (in_order n). fold (run_jobs jobs (in_order n) (at_start h0)).
    pose proof (inv_run jobs h0 (in_order n) (at_start h0) Di (inv_start _ _ Di)) as I.
    set (w := run_jobs jobs (in_order n) (at_start h0)) in *. cbv zeta in IH. destruct IH as (I1 & I2 & I3).
    destruct (nth_error jobs n) as [j|] eqn:Hn; [|apply nth_error_None in Hn; lia].
    destruct (Hj j (nth_error_In _ _ Hn)) as [Ht Hf].
    assert (Hg : get (tip (ci w)) (run_path j) <> Some (File (j_data j))).
    { rewrite (iv_old _ _ _ I (run_path j)), Hf; [discriminate|]. intros x y Hx Hs E.
      assert (x = n) by (eapply distinct_path; eauto). subst x. rewrite I2 in Hs by lia. discriminate. }
    destruct (one_job jobs h0 w n j Di I Hn Ht (I2 n (le_n n)) I3 Hg) as (J1 & J2 & J3).
    unfold run_jobs in J1, J2, J3. split; [|split].
    + intros k Hk. destruct (Nat.eq_dec k n) as [->|Nk]; [exact J1|]. rewrite J3 by exact Nk. apply I1. lia.
    + intros k Hk. rewrite J3 by lia. apply I2. lia.
    + cbv zeta. rewrite J2. discriminate.
Qed.

(** ** The address of the gitlab template *)
Lemma remove_none f old l : (forall a b, l = a ++ b -> b <> [] -> starts old b = false) -> remove_all f old l = l.
Proof.
  revert l. induction f as [|f IH]; intros l H; [reflexivity|]. destruct l as [|x l]; [reflexivity|]. cbn [remove_all].
  rewrite (H [] (x :: l) eq_refl) by discriminate. f_equal. apply IH. intros a b E. apply (H (x :: a) b). cbn. now rewrite E.
Qed.
