(** vfc_ci serve: repositories and the options of the command line. C104, C105. *)
From Coq Require Import String ZArith List Bool Reals Lia Sorted Permutation.
From Verif Require Import Text DDModel ReportModel ReportProofs.
From Verif Require CiHex.
Import ListNotations.
Open Scope Z_scope.
Open Scope py_scope.

(** * C104 *)
Lemma drop_duplicates_in l : forall seen x, In x (drop_duplicates seen l) <-> In x l /\ ~ In x seen.
Proof.
  induction l as [|y l IH]; intros seen x; cbn; [tauto|].
  assert (M : existsb (text_eqb y) seen = true <-> In y seen).
  { rewrite existsb_exists. split; [intros (z & Hz & E); destruct (text_eqb_spec y z); congruence|intros H; exists y; split; [exact H|apply text_eqb_refl]]. }
  destruct (existsb (text_eqb y) seen) eqn:E.
  - rewrite IH. intuition congruence.
  - cbn. rewrite IH. cbn. destruct (text_dec x y) as [->|N].
    + split; [intros _; split; [auto|]|auto]. intros H. apply M in H. discriminate.
    + intuition congruence.
Qed.
Lemma drop_duplicates_nodup l : forall seen, NoDup (drop_duplicates seen l).
Proof.
  induction l as [|y l IH]; intros seen; cbn; [constructor|]. destruct (existsb _ _); [apply IH|]. constructor; [|apply IH].
  intros H. apply drop_duplicates_in in H. destruct H as [_ H]. apply H. left. reflexivity.
Qed.
Lemma drop_duplicates_map (f : text -> text) l : (forall x y, In x l -> In y l -> f x = f y -> x = y) -> forall seen, incl seen l ->
  forall l', incl l' l -> drop_duplicates (map f seen) (map f l') = map f (drop_duplicates seen l').
Proof.
  intros I seen Hs l'. revert seen Hs. induction l' as [|y l' IH]; intros seen Hs Hl; cbn; [reflexivity|].
  assert (E : existsb (text_eqb (f y)) (map f seen) = existsb (text_eqb y) seen).
  { apply eq_true_iff_eq. rewrite !existsb_exists. split.
    - intros (z & Hz & E). apply in_map_iff in Hz. destruct Hz as (w & <- & Hw). exists w. split; [exact Hw|].
      destruct (text_eqb_spec (f y) (f w)) as [E'|]; [|discriminate]. rewrite (I y w); [apply text_eqb_refl|apply Hl; left; reflexivity|apply Hs; exact Hw|exact E'].
    - intros (z & Hz & E). exists (f z). split; [apply in_map; exact Hz|]. destruct (text_eqb_spec y z) as [->|]; [apply text_eqb_refl|discriminate]. }
  rewrite E. destruct (existsb (text_eqb y) seen).
  - apply IH; [exact Hs|]. intros z Hz. apply Hl. right. exact Hz.
  - cbn. f_equal. apply (IH (y :: seen)).
    + intros z [<- | Hz]; [apply Hl; left; reflexivity|apply Hs; exact Hz].
    + intros z Hz. apply Hl. right. exact Hz.
Qed.
(** the last two components of the path of a URL *)
Definition owner_and_project (path : text -> text) (url : text) (a b : text) : Prop := exists l, split_on slash (path url) = l ++ [a; b].
Theorem C104_names_partial path runs (branch_of : text -> text) :
  (forall m, In m runs -> m_branch m = branch_of (m_url m)) ->
  (forall m m', In m runs -> In m' runs -> branch_of (m_url m) = branch_of (m_url m') -> m_url m = m_url m') ->
  (forall m, In m runs -> m_url m <> [] -> exists a b, owner_and_project path (m_url m) a b) ->
  exists repos, repositories path runs = Ret repos /\ NoDup (map fst repos) /\ (forall u, In u (map fst repos) <-> exists m, In m runs /\ m_url m = u) /\
    forall m, In m runs ->
      if text_eqb (m_url m) [] then assoc (m_url m) repos = Some (bytes "None")
      else exists a b, owner_and_project path (m_url m) a b /\ assoc (m_url m) repos = Some (a ++ bytes "/" ++ b ++ bytes ":" ++ m_branch m).
Proof.
  intros B I P. unfold repositories. set (urls := drop_duplicates [] (map m_url runs)).
  assert (E : drop_duplicates [] (map m_branch runs) = map branch_of urls).
  { replace (map m_branch runs) with (map branch_of (map m_url runs)) by (rewrite map_map; apply map_ext_in; intros m Hm; symmetry; apply B; exact Hm).
    apply (drop_duplicates_map branch_of (map m_url runs)) with (seen := []).
    - intros x y Hx Hy. apply in_map_iff in Hx, Hy. destruct Hx as (m & <- & Hm), Hy as (m' & <- & Hm'). apply I; assumption.
    - intros z [].
    - intros z Hz. exact Hz. }
  rewrite E.
  assert (PU : forall u, In u urls -> u <> [] -> exists a b, owner_and_project path u a b).
  { intros u Hu. apply drop_duplicates_in in Hu. destruct Hu as [Hu _]. apply in_map_iff in Hu. destruct Hu as (m & <- & Hm). apply P. exact Hm. }
  assert (G : forall us, (forall u, In u us -> u <> [] -> exists a b, owner_and_project path u a b) -> exists repos, repo_names path us (map branch_of us) = Ret repos /\ map fst repos = us /\
     forall u, In u us -> if text_eqb u [] then assoc u repos = Some (bytes "None") else exists a b, owner_and_project path u a b /\ assoc u repos = Some (a ++ bytes "/" ++ b ++ bytes ":" ++ branch_of u)).
  { clear. induction us as [|u us IH]; intros PU; cbn [repo_names map tl]; [exists []; repeat split; intros u []|].
    destruct IH as (repos & ER & EF & EA); [intros v Hv; apply PU; right; exact Hv|]. rewrite ER. destruct (text_eqb_spec u []) as [->|N]; cbn [pbind].
    - eexists. split; [reflexivity|]. split; [cbn [map fst]; rewrite EF; reflexivity|]. intros v [<- | Hv]; [reflexivity|]. specialize (EA v Hv).
      cbn [assoc]. destruct (text_eqb v []); [reflexivity|exact EA].
    - destruct (PU u (or_introl eq_refl) N) as (a & b & l & S). unfold repo_name. rewrite S. unfold from_end.
      rewrite rev_app_distr. cbn [rev app Nat.sub nth_error pbind].
      eexists. split; [reflexivity|]. split; [cbn [map fst]; rewrite EF; reflexivity|]. intros v Hv. cbn [assoc]. destruct (text_eqb_spec v u) as [->|Nv].
      + destruct (text_eqb_spec u []); [contradiction|]. exists a, b. split; [exists l; exact S|reflexivity].
      + destruct Hv as [<- | Hv]; [contradiction|]. exact (EA v Hv). }
  destruct (G urls PU) as (repos & ER & EF & EA). exists repos. split; [exact ER|]. rewrite EF. split; [apply drop_duplicates_nodup|].
  assert (IU : forall u, In u urls <-> exists m, In m runs /\ m_url m = u).
  { intros u. unfold urls. rewrite drop_duplicates_in, in_map_iff. cbn. split; [intros [(m & E1 & Hm) _]; eauto|intros (m & Hm & E1); split; [eauto|tauto]]. }
  split; [exact IU|]. intros m Hm. specialize (EA (m_url m) (proj2 (IU _) (ex_intro _ m (conj Hm eq_refl)))). rewrite (B m Hm). exact EA.
Qed.
Print Assumptions C104_names_partial.
(** the rows shown for a repository are those of its runs *)
Theorem C104_rows runs repos name rows : (forall w, In w rows -> exists r, In r runs /\ m_time (fst r) = w_time w) -> distinct_runs runs ->
  exists shown, rows_of_repository runs (of_repository repos name runs) rows = Ret shown /\
    forall w, In w shown <-> In w rows /\ exists r, In r runs /\ m_time (fst r) = w_time w /\ assoc (m_url (fst r)) repos = Some name.
Proof.
  intros R D. induction rows as [|w rows IH]; cbn [rows_of_repository]; [exists []; split; [reflexivity|]; cbn; tauto|].
  destruct IH as (shown & E & H); [intros; apply R; right; assumption|].
  destruct (R w (or_introl eq_refl)) as (r & Hr & Er). replace (existsb _ runs) with true by (symmetry; apply existsb_exists; exists r; split; [exact Hr|apply Z.eqb_eq; exact Er]).
  rewrite E. cbn [pbind]. eexists. split; [reflexivity|].
  assert (M : existsb (fun r0 => m_time (fst r0) =? w_time w) (of_repository repos name runs) = true <->
              exists r0, In r0 runs /\ m_time (fst r0) = w_time w /\ assoc (m_url (fst r0)) repos = Some name).
  { rewrite existsb_exists. unfold of_repository. split.
    - intros (r0 & H0 & E0). apply filter_In in H0. destruct H0 as [H0 A0]. exists r0. split; [exact H0|]. split; [apply Z.eqb_eq; exact E0|].
      destruct (assoc _ _) as [n|]; [|discriminate]. destruct (text_eqb_spec n name); congruence.
    - intros (r0 & H0 & E0 & A0). exists r0. split; [apply filter_In; split; [exact H0|rewrite A0; apply text_eqb_refl]|apply Z.eqb_eq; exact E0]. }
  intros v. match goal with |- context [if ?b then _ else _] => change (b = true <-> exists r0 : named, In r0 runs /\ m_time (fst r0) = w_time w /\ assoc (m_url (fst r0)) repos = Some name) in M; destruct b end.
  - cbn. rewrite H. destruct M as [M _]. specialize (M eq_refl). split; [intros [<- | [? ?]]; auto|intros [[<- | ?] ?]; auto].
  - rewrite H. split; [intros [? ?]; split; [right|]; assumption|]. intros [[<- | Hv] X]; [|auto]. apply M in X. discriminate.
Qed.
Print Assumptions C104_rows.
(** two repositories with the same branch name: no report; several branches: the label of a repository can be that of another *)
Definition g_meta (t : Z) (u b : string) : meta := mk_meta t (bytes u) (bytes b) (bytes "abcdef0").
Theorem C104_same_branch_refuted : exists runs, repositories (fun u => u) runs = Raise /\
  (forall m, In m runs -> exists a b, owner_and_project (fun u => u) (m_url m) a b).
Proof.
  exists [g_meta 1 "/u/p" "master"; g_meta 2 "/u/q" "master"]. split; [vm_compute; reflexivity|].
  intros m [<- | [<- | []]]; [exists (bytes "u"), (bytes "p")|exists (bytes "u"), (bytes "q")]; exists [[]]; vm_compute; reflexivity.
Qed.
Print Assumptions C104_same_branch_refuted.
Theorem C104_branch_refuted : exists runs repos, repositories (fun u => u) runs = Ret repos /\
  exists m, In m runs /\ m_url m = bytes "/u/q" /\ m_branch m = bytes "master" /\ assoc (m_url m) repos = Some (bytes "u/q:dev").
Proof.
  exists [g_meta 1 "/u/p" "master"; g_meta 2 "/u/p" "dev"; g_meta 3 "/u/q" "master"]. eexists. split; [vm_compute; reflexivity|].
  exists (g_meta 3 "/u/q" "master"). split; [cbn; tauto|]. repeat split.
Qed.
Print Assumptions C104_branch_refuted.
(** runs outside git (no URL, no branch) together with a repository *)
Example C104_nonvacuous : repositories (fun u => u) [g_meta 1 "/u/p" "master"; mk_meta 2 [] [] []; g_meta 3 "/u/q" "dev"] =
  Ret [(bytes "/u/p", bytes "u/p:master"); ([], bytes "None"); (bytes "/u/q", bytes "u/q:dev")].
Proof. vm_compute. reflexivity. Qed.

(** * C105 *)
(** a path component that normpath leaves alone *)
Definition plain (c : text) : Prop := c <> [] /\ c <> bytes "." /\ c <> bytes "..".
(** no "//", "/./" or "/../" in an option: the components between two slashes are plain *)
Definition quiet (t : text) : Prop := Forall plain (removelast (tl (split_on slash t))).
Definition word (t : text) : Prop := t <> [] /\ ~ In space t.
Definition keyword (t : text) : Prop := In t (map bytes ["logo"; "directory"; "max_files"; "ignore_recent"]%string).

Lemma split_nonnil c l : split_on c l <> [].
Proof. destruct l as [|x l]; cbn; [discriminate|]. destruct (x =? c); [discriminate|]. destruct (split_on c l); discriminate. Qed.
Lemma split_concat c a b : split_on c (a ++ b) = removelast (split_on c a) ++ (last (split_on c a) [] ++ hd [] (split_on c b)) :: tl (split_on c b).
Proof.
  induction a as [|x a IH]; cbn [app].
  - cbn. destruct (split_on c b) eqn:E; [exfalso; exact (split_nonnil _ _ E)|reflexivity].
  - cbn [split_on]. pose proof (split_nonnil c a) as N. destruct (x =? c).
    + rewrite IH. destruct (split_on c a) as [|p ps]; [congruence|]. reflexivity.
    + rewrite IH. destruct (split_on c a) as [|p ps]; [congruence|]. destruct ps as [|q ps]; reflexivity.
Qed.
Lemma join_split l : join [slash] (split_on slash l) = l.
Proof.
  induction l as [|x l IH]; [reflexivity|]. cbn [split_on]. pose proof (split_nonnil slash l) as N. destruct (Z.eqb_spec x slash) as [->|].
  - destruct (split_on slash l) as [|p ps]; [congruence|]. cbn [join app] in *. rewrite IH. reflexivity.
  - destruct (split_on slash l) as [|p ps]; [congruence|]. destruct ps; cbn [join app] in *; rewrite <- IH; reflexivity.
Qed.
Lemma norm_fold b l : Forall plain l -> forall acc, fold_left (norm_step b) l acc = rev l ++ acc.
Proof.
  induction 1 as [|c l (H1 & H2 & H3) F IH]; intros acc; [reflexivity|]. cbn [fold_left]. unfold norm_step at 2.
  destruct (text_eqb_spec c []); [contradiction|]. destruct (text_eqb_spec c (bytes ".")); [contradiction|]. destruct (text_eqb_spec c (bytes "..")); [contradiction|].
  cbn [orb negb]. rewrite IH. cbn [rev]. rewrite <- app_assoc. reflexivity.
Qed.
Lemma normpath_plain x l : x <> slash -> Forall plain (split_on slash (x :: l)) -> normpath (x :: l) = x :: l.
Proof.
  intros Hx F. unfold normpath. assert (S : forall p, starts (slash :: p) (x :: l) = false).
  { intros p. unfold starts. cbn [length firstn]. destruct (text_dec _ _) as [E|]; [congruence|reflexivity]. }
  change (bytes "//") with (slash :: [slash]). change (bytes "/") with (slash :: []). rewrite !S. cbn [andb]. cbv zeta.
  rewrite norm_fold by exact F. rewrite app_nil_r, rev_involutive, join_split. reflexivity.
Qed.
Definition rest_plain (s : text) : Prop := Forall plain (tl (split_on slash s)).
Definition marked (s : text) : Prop := exists c, In c (hd [] (split_on slash s)) /\ c <> 46.
Lemma marked_plain t x : (exists c, In c x /\ c <> 46) -> plain (t ++ x).
Proof.
  intros (c & Hc & N). assert (I : In c (t ++ x)) by (apply in_or_app; right; exact Hc).
  repeat split; intros E; rewrite E in I; vm_compute in I; intuition congruence.
Qed.
Lemma lit_step lit s : ~ In slash lit -> rest_plain s -> rest_plain (lit ++ s).
Proof. intros H R. unfold rest_plain in *. rewrite split_concat, (split_on_nosep slash lit H). exact R. Qed.
Lemma lit_marked lit s : ~ In slash lit -> (exists c, In c lit /\ c <> 46) -> marked (lit ++ s).
Proof. intros H (c & Hc & N). unfold marked. rewrite split_concat, (split_on_nosep slash lit H). cbn. exists c. split; [apply in_or_app; left; exact Hc|exact N]. Qed.
Lemma text_step t s : quiet t -> rest_plain s -> marked s -> rest_plain (t ++ s).
Proof.
  intros Q R M. unfold rest_plain. rewrite split_concat. unfold quiet in Q. pose proof (split_nonnil slash t) as N. destruct (split_on slash t) as [|x xs]; [congruence|].
  destruct xs as [|y ys]; [exact R|]. change (removelast (x :: y :: ys)) with (x :: removelast (y :: ys)). cbn [app tl] in *.
  apply Forall_app. split; [exact Q|]. constructor; [|exact R]. apply marked_plain. exact M.
Qed.

Lemma words_cons w s : word w -> shell_words (w ++ space :: s) = w :: shell_words s.
Proof. intros [N H]. unfold shell_words. rewrite split_on_app by exact H. cbn [filter]. destruct (text_eqb_spec w []); [contradiction|reflexivity]. Qed.
Lemma words_space s : shell_words (space :: s) = shell_words s.
Proof. unfold shell_words. cbn [split_on]. rewrite Z.eqb_refl. reflexivity. Qed.
Lemma words_one w : word w -> shell_words w = [w].
Proof. intros [N H]. unfold shell_words. rewrite split_on_nosep by exact H. cbn [filter]. destruct (text_eqb_spec w []); [contradiction|reflexivity]. Qed.
Ltac literal := split; [discriminate|vm_compute; intros I; repeat (destruct I as [I|I]; [discriminate|]); exact I].
Lemma dec_word n : 0 <= n -> word (dec n).
Proof. intros H. split; [apply dec_nonnil|apply dec_nospace; exact H]. Qed.
Lemma number_dec n : 0 <= n -> number (dec n) = Ret n.
Proof.
  intros H. unfold number. pose proof (dec_nonnil n) as N. pose proof (dec_digits n H) as F. destruct (dec n) as [|c l] eqn:E; [congruence|]. rewrite <- E in *.
  replace (forallb _ _) with true.
  - unfold dec. rewrite CiHex.fold_udec; [reflexivity|lia|apply dec_bound; exact H].
  - symmetry. apply forallb_forall. rewrite Forall_forall in F. intros d Hd. specialize (F d Hd). lia.
Qed.
Lemma read_other g w rest : ~ keyword w -> read_arg g w rest = Ret g.
Proof.
  intros N. unfold keyword in N. cbn [map In] in N. unfold read_arg.
  repeat match goal with |- context [text_eqb w ?k] => destruct (text_eqb_spec w k); [exfalso; apply N; auto|] end. reflexivity.
Qed.
Lemma read_logo g v rest : read_arg g (bytes "logo") (v :: rest) = Ret (mk_cfg (g_dir g) (Some v) (g_max g) (g_ignore g)).
Proof. reflexivity. Qed.
Lemma read_directory g v rest : read_arg g (bytes "directory") (v :: rest) = Ret (mk_cfg v (g_logo g) (g_max g) (g_ignore g)).
Proof. reflexivity. Qed.
Lemma read_max g v n rest : number v = Ret n -> read_arg g (bytes "max_files") (v :: rest) = Ret (mk_cfg (g_dir g) (g_logo g) n (g_ignore g)).
Proof.
  intros H. unfold read_arg. change (text_eqb (bytes "max_files") (bytes "logo")) with false. change (text_eqb (bytes "max_files") (bytes "directory")) with false.
  change (text_eqb (bytes "max_files") (bytes "max_files")) with true. change (text_eqb (bytes "max_files") (bytes "ignore_recent")) with false.
  cbn [pbind]. rewrite H. reflexivity.
Qed.
Lemma read_ignore g v n rest : number v = Ret n -> read_arg g (bytes "ignore_recent") (v :: rest) = Ret (mk_cfg (g_dir g) (g_logo g) (g_max g) n).
Proof.
  intros H. unfold read_arg. change (text_eqb (bytes "ignore_recent") (bytes "logo")) with false. change (text_eqb (bytes "ignore_recent") (bytes "directory")) with false.
  change (text_eqb (bytes "ignore_recent") (bytes "max_files")) with false. change (text_eqb (bytes "ignore_recent") (bytes "ignore_recent")) with true.
  cbn [pbind]. rewrite H. reflexivity.
Qed.
Lemma dec_not_keyword n : 0 <= n -> ~ keyword (dec n).
Proof.
  intros H K. pose proof (dec_digits n H) as F. unfold keyword in K. cbn [map In] in K.
  destruct K as [K | [K | [K | [K | []]]]]; rewrite <- K in F; apply Forall_inv in F; vm_compute in F; destruct F as [_ F]; apply F; reflexivity.
Qed.

(** the options arrive as given *)
Theorem C105_options_partial pkg o :
  word pkg -> quiet (pkg ++ bytes "/vfc_ci_report") ->
  word (o_port o) -> o_port o <> bytes "--args" -> quiet (o_port o) ->
  word (o_origin o) -> quiet (o_origin o) ->
  word (o_dir o) -> quiet (o_dir o) -> ~ keyword (o_dir o) ->
  (forall l, o_logo o = Some l -> word l /\ quiet l /\ ~ keyword l) ->
  (forall n, o_max o = Some n -> 0 < n) -> (forall n, o_ignore o = Some n -> 0 < n) ->
  served pkg o = Ret (mk_cfg (o_dir o) (o_logo o) (match o_max o with Some n => n | None => 100 end) (match o_ignore o with Some n => n | None => 0 end)).
Proof.
  intros Wp Qp Wq Nq Qq Wo Qo Wd Qd Kd Hl Hm Hi. unfold served.
  set (tail := arg_text "logo" (o_logo o) ++ [space] ++ arg_num "max_files" (o_max o) ++ [space] ++ arg_num "ignore_recent" (o_ignore o)).
  set (raw := bytes "bokeh serve " ++ (pkg ++ bytes "/vfc_ci_report") ++ (bytes " " ++ (if o_show o then bytes "--show" else []) ++ bytes " --allow-websocket-origin=") ++
              o_origin o ++ bytes ":" ++ o_port o ++ bytes " --port " ++ o_port o ++ bytes " --args directory " ++ o_dir o ++ [space] ++ tail).
  assert (EC : command pkg o = normpath raw).
  { unfold command, raw, tail. f_equal. rewrite <- !app_assoc. reflexivity. }
  assert (NS : forall n, 0 <= n -> ~ In slash (dec n)).
  { intros n Hn I. pose proof (dec_digits n Hn) as F. rewrite Forall_forall in F. specialize (F _ I). unfold slash in F. lia. }
  assert (NN : forall s v, (forall n, v = Some n -> 0 < n) -> ~ In slash (bytes s) -> ~ In slash (arg_num s v)).
  { intros s [n|] Hn Hs; cbn; [|tauto]. specialize (Hn n eq_refl). destruct (Z.eqb_spec n 0); [lia|]. rewrite !in_app_iff. cbn.
    intros [I | [I | I]]; [contradiction|unfold slash, space in I; lia|apply (NS n); [lia|exact I]]. }
  assert (LIT : forall s, forallb (fun c => negb (c =? slash)) (bytes s) = true -> ~ In slash (bytes s)).
  { intros s F I. rewrite forallb_forall in F. specialize (F _ I). rewrite Z.eqb_refl in F. discriminate. }
  assert (MSP : forall lit, In space lit -> exists c, In c lit /\ c <> 46) by (intros lit H; exists space; split; [exact H|unfold space; lia]).
  assert (T1 : rest_plain (space :: arg_num "max_files" (o_max o) ++ [space] ++ arg_num "ignore_recent" (o_ignore o))).
  { change (space :: ?x) with ([space] ++ x). apply lit_step; [cbn; unfold slash, space; lia|]. apply lit_step; [apply NN; [exact Hm|apply LIT; reflexivity]|].
    apply lit_step; [cbn; unfold slash, space; lia|]. rewrite <- (app_nil_r (arg_num _ _)). apply lit_step; [apply NN; [exact Hi|apply LIT; reflexivity]|]. constructor. }
  assert (T2 : rest_plain tail).
  { unfold tail. unfold arg_text. destruct (o_logo o) as [l|]; [|exact T1]. destruct (Hl l eq_refl) as (Wl & Ql & _).
    destruct (text_eqb_spec l []); [destruct Wl; contradiction|]. rewrite <- !app_assoc. apply lit_step; [apply LIT; reflexivity|]. apply lit_step; [cbn; unfold slash, space; lia|].
    apply text_step; [exact Ql|exact T1|]. apply lit_marked; [cbn; unfold slash, space; lia|]. apply MSP. left. reflexivity. }
  assert (SL : ~ In slash [space]) by (cbn; unfold slash, space; lia).
  assert (SH : ~ In slash (bytes " " ++ (if o_show o then bytes "--show" else []) ++ bytes " --allow-websocket-origin=")).
  { intros I. rewrite !in_app_iff in I. destruct I as [I | [I | I]]; [revert I; apply LIT; reflexivity|destruct (o_show o); [revert I; apply LIT; reflexivity|exact I]|revert I; apply LIT; reflexivity]. }
  assert (RP : rest_plain raw).
  { unfold raw. apply lit_step; [apply LIT; reflexivity|]. apply text_step; [exact Qp| |].
    2: { apply lit_marked; [exact SH|]. apply MSP. left. reflexivity. }
    apply lit_step; [exact SH|]. apply text_step; [exact Qo| |].
    2: { apply lit_marked; [apply LIT; reflexivity|]. exists 58. split; [left; reflexivity|lia]. }
    apply lit_step; [apply LIT; reflexivity|]. apply text_step; [exact Qq| |].
    2: { apply lit_marked; [apply LIT; reflexivity|]. apply MSP. left. reflexivity. }
    apply lit_step; [apply LIT; reflexivity|]. apply text_step; [exact Qq| |].
    2: { apply lit_marked; [apply LIT; reflexivity|]. apply MSP. left. reflexivity. }
    apply lit_step; [apply LIT; reflexivity|]. apply text_step; [exact Qd| |].
    2: { apply lit_marked; [exact SL|]. apply MSP. left. reflexivity. }
    apply lit_step; [exact SL|exact T2]. }
  assert (EN : normpath raw = raw).
  { assert (FP : Forall plain (split_on slash raw)).
    { assert (MR : marked raw). { apply lit_marked; [apply LIT; reflexivity|]. apply MSP. vm_compute. tauto. }
      unfold rest_plain in RP. unfold marked in MR. pose proof (split_nonnil slash raw) as N. destruct (split_on slash raw) as [|x xs]; [congruence|].
      constructor; [apply (marked_plain [] x); exact MR|exact RP]. }
    clearbody tail. unfold raw in *. change (bytes "bokeh serve " ++ ?x) with (98 :: (bytes "okeh serve " ++ x)) in *. apply normpath_plain; [discriminate|exact FP]. }
  rewrite EC, EN. clear EC EN RP T1 T2.
  assert (WORDS : shell_words raw = bytes "bokeh" :: bytes "serve" :: (pkg ++ bytes "/vfc_ci_report") :: (if o_show o then [bytes "--show"] else []) ++
     (bytes "--allow-websocket-origin=" ++ o_origin o ++ bytes ":" ++ o_port o) :: bytes "--port" :: o_port o :: bytes "--args" :: bytes "directory" :: o_dir o :: shell_words tail).
  { unfold raw. change (bytes "bokeh serve " ++ ?x) with (bytes "bokeh" ++ space :: (bytes "serve" ++ space :: x)).
    rewrite words_cons by literal. rewrite words_cons by literal. f_equal. f_equal.
    rewrite <- (app_assoc (bytes " ")). change (bytes " " ++ ?x) with (space :: x).
    rewrite words_cons.
    2: { destruct Wp as [_ Wp]. split; [destruct pkg; discriminate|]. intros I. apply in_app_iff in I. destruct I as [I|I]; [contradiction|].
         vm_compute in I. repeat (destruct I as [I|I]; [discriminate|]). exact I. }
    f_equal. rewrite <- !app_assoc.
    assert (ORD : shell_words (bytes " --allow-websocket-origin=" ++ o_origin o ++ bytes ":" ++ o_port o ++ bytes " --port " ++ o_port o ++ bytes " --args directory " ++ o_dir o ++ [space] ++ tail) =
      (bytes "--allow-websocket-origin=" ++ o_origin o ++ bytes ":" ++ o_port o) :: bytes "--port" :: o_port o :: bytes "--args" :: bytes "directory" :: o_dir o :: shell_words tail).
    { change (bytes " --allow-websocket-origin=" ++ ?x) with (space :: (bytes "--allow-websocket-origin=" ++ x)). rewrite words_space.
      change (bytes " --port " ++ ?x) with (space :: (bytes "--port" ++ space :: x)). change (bytes " --args directory " ++ ?x) with (space :: (bytes "--args" ++ space :: (bytes "directory" ++ space :: x))).
      rewrite (app_assoc (bytes ":")), (app_assoc (o_origin o)), (app_assoc (bytes "--allow-websocket-origin=")).
      rewrite words_cons.
      2: { destruct Wo as [_ Wo], Wq as [_ Wq]. split; [discriminate|]. intros I. rewrite !in_app_iff in I.
           destruct I as [I | [I | [I | I]]]; [|contradiction| |contradiction]; vm_compute in I; repeat (destruct I as [I|I]; [discriminate|]); exact I. }
      f_equal; try (rewrite <- !app_assoc; reflexivity). rewrite words_cons by literal. rewrite words_cons by exact Wq. rewrite words_cons by literal. rewrite words_cons by literal.
      cbn [app]. rewrite words_cons by exact Wd. reflexivity. }
    destruct (o_show o); [|exact ORD]. cbn [app] in *.
    change (bytes " --allow-websocket-origin=" ++ ?x) with (space :: (bytes "--allow-websocket-origin=" ++ x)) in *. rewrite words_space in ORD.
    rewrite words_cons by literal. f_equal. exact ORD. }
  rewrite WORDS. clear WORDS raw.
  assert (AA : after_args (bytes "bokeh" :: bytes "serve" :: (pkg ++ bytes "/vfc_ci_report") :: (if o_show o then [bytes "--show"] else []) ++
     (bytes "--allow-websocket-origin=" ++ o_origin o ++ bytes ":" ++ o_port o) :: bytes "--port" :: o_port o :: bytes "--args" :: bytes "directory" :: o_dir o :: shell_words tail)
     = bytes "directory" :: o_dir o :: shell_words tail).
  { assert (N1 : text_eqb (pkg ++ bytes "/vfc_ci_report") (bytes "--args") = false).
    { destruct (text_eqb_spec (pkg ++ bytes "/vfc_ci_report") (bytes "--args")) as [E|]; [|reflexivity]. apply (f_equal (@length Z)) in E. rewrite app_length in E. change (length (bytes "/vfc_ci_report")) with 14%nat in E. change (length (bytes "--args")) with 6%nat in E. lia. }
    assert (N2 : text_eqb (bytes "--allow-websocket-origin=" ++ o_origin o ++ bytes ":" ++ o_port o) (bytes "--args") = false).
    { destruct (text_eqb_spec (bytes "--allow-websocket-origin=" ++ o_origin o ++ bytes ":" ++ o_port o) (bytes "--args")) as [E|]; [|reflexivity]. apply (f_equal (@length Z)) in E. rewrite app_length in E. change (length (bytes "--allow-websocket-origin=")) with 25%nat in E. change (length (bytes "--args")) with 6%nat in E. lia. }
    assert (N3 : text_eqb (o_port o) (bytes "--args") = false) by (destruct (text_eqb_spec (o_port o) (bytes "--args")); [contradiction|reflexivity]).
    cbn [after_args]. change (text_eqb (bytes "bokeh") (bytes "--args")) with false. change (text_eqb (bytes "serve") (bytes "--args")) with false. cbv iota. rewrite N1.
    destruct (o_show o); cbn [app after_args]; rewrite N2, N3; reflexivity. }
  rewrite AA. clear AA.
  (* the tail *)
  assert (ET : shell_words tail = (match o_logo o with Some l => [bytes "logo"; l] | None => [] end) ++
       (match o_max o with Some n => [bytes "max_files"; dec n] | None => [] end) ++ (match o_ignore o with Some n => [bytes "ignore_recent"; dec n] | None => [] end)).
  { unfold tail.
    assert (E3 : shell_words (arg_num "ignore_recent" (o_ignore o)) = match o_ignore o with Some n => [bytes "ignore_recent"; dec n] | None => [] end).
    { unfold arg_num. destruct (o_ignore o) as [n|]; [|reflexivity]. specialize (Hi n eq_refl). destruct (Z.eqb_spec n 0); [lia|].
      cbn [app]. rewrite words_cons by literal. rewrite words_one by (apply dec_word; lia). reflexivity. }
    assert (E2 : shell_words (arg_num "max_files" (o_max o) ++ [space] ++ arg_num "ignore_recent" (o_ignore o)) =
      (match o_max o with Some n => [bytes "max_files"; dec n] | None => [] end) ++ (match o_ignore o with Some n => [bytes "ignore_recent"; dec n] | None => [] end)).
    { unfold arg_num at 1. destruct (o_max o) as [n|]; [|cbn [app]; rewrite words_space; exact E3]. specialize (Hm n eq_refl). destruct (Z.eqb_spec n 0); [lia|].
      rewrite <- !app_assoc. cbn [app]. rewrite words_cons by literal. rewrite words_cons by (apply dec_word; lia). rewrite E3. reflexivity. }
    unfold arg_text. destruct (o_logo o) as [l|]; [|cbn [app] in *; rewrite words_space; exact E2]. destruct (Hl l eq_refl) as (Wl & _ & _).
    destruct (text_eqb_spec l []); [destruct Wl; contradiction|]. rewrite <- !app_assoc. cbn [app] in *. rewrite words_cons by literal. rewrite words_cons by exact Wl. rewrite E2. reflexivity. }
  rewrite ET. clear ET tail. cbn [read_args]. rewrite read_directory. cbn [pbind]. rewrite read_other by exact Kd. cbn [pbind g_dir g_logo g_max g_ignore default_config].
  assert (R3 : forall g, read_args g (match o_ignore o with Some n => [bytes "ignore_recent"; dec n] | None => [] end) =
               Ret (mk_cfg (g_dir g) (g_logo g) (g_max g) (match o_ignore o with Some n => n | None => g_ignore g end))).
  { intros g. destruct (o_ignore o) as [n|]; [|destruct g; reflexivity]. specialize (Hi n eq_refl). cbn [read_args].
    rewrite (read_ignore _ _ n) by (apply number_dec; lia). cbn [pbind]. rewrite read_other by (apply dec_not_keyword; lia). reflexivity. }
  assert (R2 : forall g, read_args g ((match o_max o with Some n => [bytes "max_files"; dec n] | None => [] end) ++ (match o_ignore o with Some n => [bytes "ignore_recent"; dec n] | None => [] end)) =
               Ret (mk_cfg (g_dir g) (g_logo g) (match o_max o with Some n => n | None => g_max g end) (match o_ignore o with Some n => n | None => g_ignore g end))).
  { intros g. destruct (o_max o) as [n|]; [|exact (R3 g)]. specialize (Hm n eq_refl). cbn [app read_args].
    rewrite (read_max _ _ n) by (apply number_dec; lia). cbn [pbind]. rewrite read_other by (apply dec_not_keyword; lia). cbn [pbind]. rewrite R3. reflexivity. }
  destruct (o_logo o) as [l|]; [|cbn [app]; rewrite R2; reflexivity]. destruct (Hl l eq_refl) as (_ & _ & Kl). cbn [app read_args]. rewrite read_logo. cbn [pbind].
  rewrite read_other by exact Kl. cbn [pbind]. rewrite R2. reflexivity.
Qed.
Print Assumptions C105_options_partial.
(** the whole command is normalised as if it were a path: the URL of a logo loses a slash *)
Definition o_logo_only (l : string) : options := mk_opt (bytes ".") false (bytes "8080") (bytes "*") (Some (bytes l)) None None.
Theorem C105_logo_refuted : served (bytes "/usr/lib/verificarlo/ci") (o_logo_only "https://example.org/logo.png") =
  Ret (mk_cfg (bytes ".") (Some (bytes "https:/example.org/logo.png")) 100 0).
Proof. vm_compute. reflexivity. Qed.
Print Assumptions C105_logo_refuted.
(** a ".." in the directory removes the beginning of the command; a directory named as an option is read as one *)
Definition o_dir_only (d : string) : options := mk_opt (bytes d) false (bytes "8080") (bytes "*") None None None.
Theorem C105_directory_refuted : 
  shell_words (command (bytes "/usr/lib/verificarlo/ci") (o_dir_only "a/../b")) = map bytes ["bokeh"; "serve"; "/usr/lib/verificarlo/ci/b"]%string /\
  served (bytes "/usr/lib/verificarlo/ci") (o_dir_only "max_files") = Raise.
Proof. split; vm_compute; reflexivity. Qed.
Print Assumptions C105_directory_refuted.
Example C105_nonvacuous :
  let o := mk_opt (bytes "../runs/") true (bytes "8080") (bytes "localhost") (Some (bytes "/logo.png")) (Some 20) (Some 3) in
  word (o_dir o) /\ quiet (o_dir o) /\ ~ keyword (o_dir o) /\ quiet (bytes "/usr/lib" ++ bytes "/vfc_ci_report") /\ quiet (bytes "/logo.png") /\
  served (bytes "/usr/lib") o = Ret (mk_cfg (bytes "../runs/") (Some (bytes "/logo.png")) 20 3).
Proof.
  cbn zeta. split; [literal|]. split; [vm_compute; repeat constructor; discriminate|]. split; [vm_compute; intuition discriminate|].
  split; [vm_compute; repeat constructor; discriminate|]. split; [vm_compute; repeat constructor; discriminate|]. vm_compute. reflexivity.
Qed.
