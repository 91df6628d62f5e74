(** C97: the messages of the logger. *)
From Coq Require Import String ZArith List Bool Lia.
From Verif Require Import Common Text IeeeModel LogModel.
Import ListNotations.
Open Scope Z_scope.

(** * Independent description of the environment variables (doc/02-Backends.md L62-105) *)
(** two texts that differ only in the case of the letters a-z *)
Definition same_letter (a b : Z) : Prop := a = b \/ (97 <= a <= 122 /\ b = a - 32) \/ (97 <= b <= 122 /\ a = b - 32).
Definition same_word (a : list Z) (b : string) : Prop := Forall2 same_letter a (bytes b).
Definition switched_on (w : world) : Prop :=
  forall v, w_env w (bytes "VFC_BACKENDS_LOGGER") = Some v -> same_word v "true".
Definition with_colours (w : world) : Prop :=
  exists v, w_env w (bytes "VFC_BACKENDS_COLORED_LOGGER") = Some v /\ same_word v "true".
(** the least severe level displayed *)
Definition asks (w : world) (s : string) : Prop := exists v, w_env w (bytes "VFC_BACKENDS_LOGGER_LEVEL") = Some v /\ same_word v s.
Definition verbosity (w : world) (l : level) : Prop :=
  match l with
  | Debug => asks w "debug" | Warning => asks w "warning" | Error => asks w "error"
  | Info => ~ asks w "debug" /\ ~ asks w "warning" /\ ~ asks w "error"
  end.
Definition as_severe (a b : level) : Prop := (* a is at least as severe as b *)
  match a, b with
  | _, Debug => True | Debug, _ => False | _, Info => True | Info, _ => False | _, Warning => True | Warning, Error => False | Error, Error => True
  end.
Definition displayed (w : world) (l : level) : Prop := switched_on w /\ exists k, verbosity w k /\ as_severe l k.
(** the file of the messages *)
Inductive place (w : world) : stream -> Prop :=
| at_stderr : w_env w (bytes "VFC_BACKENDS_LOGFILE") = None -> place w Stderr
| at_file v : w_env w (bytes "VFC_BACKENDS_LOGFILE") = Some v -> place w (File (v ++ bytes "." ++ bytes (decimal (w_tid w)))).
(** what precedes the text *)
Definition title (l : level) : string := match l with Debug => "Debug" | Info => "Info" | Warning => "Warning" | Error => "Error" end.
Definition plain_prefix (l : level) (h : list Z) : list Z := bytes (title l) ++ bytes " [" ++ h ++ bytes "]: ".
(** a text without its escape sequences ESC [ ... m *)
Fixpoint uncolour (inside : bool) (t : list Z) : list Z :=
  match t with
  | [] => []
  | c :: t' => if inside then if c =? 109 then uncolour false t' else uncolour true t' else if c =? 27 then uncolour true t' else c :: uncolour false t'
  end.

(** the first and the last initialisation of a history *)
Definition first_init (l : list event) (w : world) : Prop := exists a h b, l = a ++ Init w h :: b /\ forall w' h', ~ In (Init w' h') a.
Definition last_init (l : list event) (w : world) (h : list Z) : Prop := exists a b, l = a ++ Init w h :: b /\ forall w' h', ~ In (Init w' h') b.

(** * Correspondence *)
Lemma low_same a b : (low a =? low b) = true <-> same_letter a b.
Proof.
  rewrite Z.eqb_eq. unfold low, same_letter.
  destruct (Z.leb_spec 65 a), (Z.leb_spec a 90), (Z.leb_spec 65 b), (Z.leb_spec b 90); cbn [andb]; lia.
Qed.
Lemma case_equal_iff a b : case_equal a b = true <-> Forall2 same_letter a b.
Proof.
  revert b. induction a as [|x a IH]; intros [|y b]; cbn [case_equal].
  - split; [constructor|reflexivity].
  - split; [discriminate|intros H; inversion H].
  - split; [discriminate|intros H; inversion H].
  - rewrite andb_true_iff, low_same, IH. split; [intros [H1 H2]; constructor; assumption|intros H; inversion H; subst; split; assumption].
Qed.
Lemma same_trans a b c : same_letter a b -> same_letter b c -> same_letter a c.
Proof. rewrite <- !low_same, !Z.eqb_eq. congruence. Qed.
Lemma same_sym a b : same_letter a b -> same_letter b a.
Proof. unfold same_letter. lia. Qed.
Lemma case_true v : case_equal v (bytes "True") = true <-> same_word v "true".
Proof.
  unfold same_word. rewrite <- case_equal_iff.
  replace (case_equal v (bytes "True")) with (case_equal v (bytes "true")); [tauto|].
  change (bytes "true") with (116 :: tl (bytes "true")). change (bytes "True") with (84 :: tl (bytes "true")). destruct v; reflexivity.
Qed.
Lemma enabled_iff w : is_enabled (w_env w) = true <-> switched_on w.
Proof.
  unfold is_enabled, switched_on. destruct (w_env w (bytes "VFC_BACKENDS_LOGGER")) as [v|]; [|split; [discriminate|reflexivity]].
  rewrite case_true. split; [intros H v' [= <-]; exact H|intros H; apply H; reflexivity].
Qed.
Lemma colored_iff w : is_colored (w_env w) = true <-> with_colours w.
Proof.
  unfold is_colored, with_colours. destruct (w_env w (bytes "VFC_BACKENDS_COLORED_LOGGER")) as [v|]; [|split; [discriminate|intros (v & H & _); discriminate]].
  rewrite case_true. split; [intros H; exists v; auto|intros (v' & [= <-] & H); exact H].
Qed.
Lemma words_differ v a b : case_equal (bytes a) (bytes b) = false -> same_word v a -> same_word v b -> False.
Proof.
  intros N H1 H2. assert (T : case_equal (bytes a) (bytes b) = true); [|congruence]. apply case_equal_iff. clear N. revert H1 H2. unfold same_word.
  generalize (bytes a) (bytes b). clear a b. intros a b H1. revert b. induction H1 as [|x y v a H1 _ IH]; intros b H2; inversion H2; subst; constructor.
  - eapply same_trans; [apply same_sym; eassumption|assumption].
  - apply IH. assumption.
Qed.
Lemma asks_iff w s : asks w s <-> exists v, w_env w (bytes "VFC_BACKENDS_LOGGER_LEVEL") = Some v /\ case_equal v (bytes s) = true.
Proof. unfold asks, same_word. split; intros (v & E & H); exists v; (split; [exact E|]); apply case_equal_iff; exact H. Qed.
Lemma level_iff w k : verbosity w k <-> get_level (w_env w) = rank k.
Proof.
  assert (D : forall a b, case_equal (bytes a) (bytes b) = false -> asks w a -> asks w b -> False).
  { intros a b N (v & E & H) (v' & E' & H'). rewrite E in E'. injection E' as <-. exact (words_differ v a b N H H'). }
  unfold get_level. destruct (w_env w (bytes "VFC_BACKENDS_LOGGER_LEVEL")) as [v|] eqn:E.
  2:{ assert (N : forall s, ~ asks w s) by (intros s (v & E' & _); congruence). destruct k; cbn; split; intros H; try lia; try (exfalso; eapply N, H); repeat split; auto. }
  assert (A : forall s, asks w s <-> case_equal v (bytes s) = true).
  { intros s. rewrite asks_iff. split; [intros (v' & E' & H); rewrite E in E'; injection E' as <-; exact H|intros H; exists v; auto]. }
  pose proof (D "debug" "info" eq_refl)%string as D1. pose proof (D "debug" "warning" eq_refl)%string as D2. pose proof (D "debug" "error" eq_refl)%string as D3.
  pose proof (D "info" "warning" eq_refl)%string as D4. pose proof (D "info" "error" eq_refl)%string as D5. pose proof (D "warning" "error" eq_refl)%string as D6.
  rewrite !A in D1, D2, D3, D4, D5, D6. clear D.
  destruct k; cbn [verbosity rank]; rewrite ?A; destruct (case_equal v (bytes "debug")), (case_equal v (bytes "info")), (case_equal v (bytes "warning")), (case_equal v (bytes "error"));
    intuition (try lia; try discriminate).
Qed.
Lemma shown_iff w h f l : shown l (mk_l h (is_enabled (w_env w)) (is_colored (w_env w)) (get_level (w_env w)) f) = true <-> displayed w l.
Proof.
  unfold shown, displayed. cbn [l_enabled l_level]. rewrite andb_true_iff, enabled_iff. apply and_iff_compat_l.
  assert (X : exists k, verbosity w k).
  { assert (G : exists k, get_level (w_env w) = rank k).
    { unfold get_level. destruct (w_env w _) as [v|]; [|exists Info; reflexivity]. destruct (case_equal v _); [exists Debug; reflexivity|]. destruct (case_equal v _); [exists Info; reflexivity|].
      destruct (case_equal v _); [exists Warning; reflexivity|]. destruct (case_equal v _); [exists Error; reflexivity|]. exists Info; reflexivity. }
    destruct G as (k & G). exists k. apply level_iff. exact G. }
  assert (S : forall a b, as_severe a b <-> rank b <= rank a) by (intros [] []; cbn; lia).
  rewrite Z.leb_le. split.
  - intros H. destruct X as (k & X). exists k. split; [exact X|]. apply S. apply level_iff in X. lia.
  - intros (k & K & Sv). apply level_iff in K. apply S in Sv. lia.
Qed.

(** * Histories *)
Section Histories.
  Variable prog success : list Z.
  Notation run := (run prog success).

  Lemma run_app l1 l2 s : run (l1 ++ l2) s =
    match run l1 s with
    | (ws, Some (Running s')) => let '(ws', r) := run l2 (Some s') in (ws ++ ws', r)
    | (ws, None) => let '(ws', r) := run l2 s in (ws ++ ws', r)
    | (ws, r) => (ws, r)
    end.
  Proof.
    revert s. induction l1 as [|e l1 IH]; intros s.
    - cbn [app LogModel.run]. destruct s as [s|]; destruct (run l2 _) as [ws r]; reflexivity.
    - cbn [app LogModel.run]. destruct (step prog success e s) as [ws [s'| |]]; try reflexivity. rewrite IH.
      assert (NN : snd (run l1 (Some s')) <> None).
      { clear. revert s'. induction l1 as [|e l1 IH]; intros s'; [discriminate|]. cbn [LogModel.run]. destruct (step prog success e (Some s')) as [ws [s2| |]]; try discriminate.
        specialize (IH s2). destruct (run l1 (Some s2)). exact IH. }
      destruct (run l1 (Some s')) as [ws1 [[s2|c|]|]]; try reflexivity; [destruct (run l2 (Some s2)) as [ws2 r]; rewrite app_assoc; reflexivity|exfalso; apply NN; reflexivity].
  Qed.

  (** the state after a history: the last initialisation and the first place *)
  Definition after (l : list event) (s : lstate) : Prop :=
    exists w h w0 f, last_init l w h /\ first_init l w0 /\ place w0 f /\
    s = mk_l h (is_enabled (w_env w)) (is_colored (w_env w)) (get_level (w_env w)) (Some f).
  Lemma after_run l : forall ws r, run l None = (ws, Some (Running r)) -> after l r.
  Proof.
    induction l as [|e l IH] using rev_ind; intros ws r H; [discriminate|]. rewrite run_app in H.
    destruct (run l None) as [ws1 [[s|c|]|]] eqn:E; try discriminate.
    - specialize (IH _ _ eq_refl). destruct IH as (w & h & w0 & f & (a & b & L & Lb) & (a0 & h0 & b0 & F & Fb) & P & ->). cbn [LogModel.run] in H. destruct e as [w' h'|lv t]; cbn [step] in H.
      + unfold init, open_log in H. cbn [l_logfile] in H. injection H as <- <-. exists w', h', w0, f. split; [exists l, []; split; [reflexivity|intros ? ? []]|].
        split; [|split; [exact P|reflexivity]]. exists a0, h0, (b0 ++ [Init w' h']). split; [rewrite F, <- app_assoc; reflexivity|exact Fb].
      + assert (r = mk_l h (is_enabled (w_env w)) (is_colored (w_env w)) (get_level (w_env w)) (Some f)) as ->.
        { destruct lv; cbn [message l_logfile] in H; [..|discriminate]; injection H as _ <-; reflexivity. }
        exists w, h, w0, f. split; [|split; [|split; [exact P|reflexivity]]].
        * exists a, (b ++ [Msg lv t]). split; [rewrite L, <- app_assoc; reflexivity|]. intros w1 h1 I. apply in_app_or in I as [I|[I|[]]]; [exact (Lb _ _ I)|discriminate].
        * exists a0, h0, (b0 ++ [Msg lv t]). split; [rewrite F, <- app_assoc; reflexivity|exact Fb].
    - assert (l = []) as ->.
      { destruct l as [|x l]; [reflexivity|]. exfalso. cbn [LogModel.run] in E. destruct (step prog success x None) as [ws2 [s2| |]]; try discriminate.
        assert (NN : forall l s', snd (run l (Some s')) <> None).
        { clear. induction l as [|e l IH]; intros s'; [discriminate|]. cbn [LogModel.run]. destruct (step prog success e (Some s')) as [ws [s2| |]]; try discriminate.
          specialize (IH s2). destruct (run l (Some s2)). exact IH. }
        specialize (NN l s2). destruct (run l (Some s2)) as [ws3 r3]. cbn in NN. injection E as _ ->. apply NN. reflexivity. }
      cbn [app LogModel.run] in H. destruct e as [w h|lv t]; [|discriminate]. cbn [step] in H. unfold init in H.
      destruct (open_log prog success w h None) as [ws2 [f| | |]] eqn:O; try discriminate. injection H as _ <-. exists w, h, w, f.
      split; [exists [], []; split; [reflexivity|intros ? ? []]|]. split; [exists [], h, []; split; [reflexivity|intros ? ? []]|]. split; [|reflexivity].
      unfold open_log in O. destruct (w_env w (bytes "VFC_BACKENDS_LOGFILE")) as [v|] eqn:V; [|injection O as _ <-; constructor; exact V].
      cbv zeta in O. destruct (1024 <=? _); [discriminate|]. destruct (w_open w _); [|discriminate]. injection O as _ <-. constructor. exact V.
  Qed.

  Lemma last_init_unique l w h w' h' : last_init l w h -> last_init l w' h' -> w = w' /\ h = h'.
  Proof.
    intros (a & b & -> & N) (a' & b' & E & N'). revert a' E. induction a as [|x a IH]; intros [|x' a'] E; cbn in E.
    - injection E as -> -> _. auto.
    - injection E as _ E. exfalso. apply (N w' h'). rewrite E. apply in_or_app. right. left. reflexivity.
    - injection E as _ E. exfalso. apply (N' w h). rewrite <- E. apply in_or_app. right. left. reflexivity.
    - injection E as _ E. eapply IH, E.
  Qed.
  Lemma first_init_unique l w w' : first_init l w -> first_init l w' -> w = w'.
  Proof.
    intros (a & h & b & -> & N) (a' & h' & b' & E & N'). revert a' N' E. induction a as [|x a IH]; intros [|x' a'] N' E; cbn in E.
    - injection E as -> _ _. auto.
    - injection E as <- _. exfalso. apply (N' w h). left. reflexivity.
    - injection E as -> _. exfalso. apply (N w' h'). left. reflexivity.
    - injection E as _ E. eapply IH; [|intros w1 h1 I; apply (N' w1 h1); right; exact I|exact E]. intros w1 h1 I. apply (N w1 h1). right. exact I.
  Qed.
  Lemma place_unique w f f' : place w f -> place w f' -> f = f'.
  Proof. intros H H'. inversion H; inversion H'; subst; congruence. Qed.

  Lemma header_colour l s : Forall (fun c => c <> 27) (l_header s) ->
    (l_colored s = false -> header_text l s = plain_prefix l (l_header s)) /\ uncolour false (header_text l s) = plain_prefix l (l_header s) /\
    (l_colored s = true -> header_text l s <> plain_prefix l (l_header s)).
  Proof.
    intros Hh. assert (U : forall h t, Forall (fun c => c <> 27) h -> uncolour false (h ++ t) = h ++ uncolour false t).
    { induction h as [|c h IH]; intros t F; [reflexivity|]. inversion F; subst. cbn. destruct (Z.eqb_spec c 27); [contradiction|]. f_equal. apply IH. assumption. }
    unfold header_text, plain_prefix. destruct (l_colored s); (split; [intros Q; try discriminate; reflexivity|]).
    - split; [|intros _; destruct l; cbn; discriminate].
      transitivity (bytes (title l) ++ bytes " [" ++ uncolour false (l_header s ++ esc "[0m" ++ bytes "]: ")); [destruct l; reflexivity|]. rewrite U by exact Hh. reflexivity.
    - split; [|discriminate]. transitivity (bytes (title l) ++ bytes " [" ++ uncolour false (l_header s ++ bytes "]: ")); [destruct l; reflexivity|]. rewrite U by exact Hh. reflexivity.
  Qed.
  Lemma header_text_ext l s s' : l_header s = l_header s' -> l_colored s = l_colored s' -> header_text l s = header_text l s'.
  Proof. unfold header_text. intros -> ->. reflexivity. Qed.
End Histories.

(** the label and the name between a colour sequence and the sequence that ends it *)
Definition painted (l : level) (h t : list Z) : Prop :=
  exists c1 c2, t = 27 :: bytes "[" ++ c1 ++ bytes "m" ++ bytes (title l) ++ 27 :: bytes "[0m" ++ bytes " [" ++ 27 :: bytes "[" ++ c2 ++ bytes "m" ++ h ++ 27 :: bytes "[0m" ++ bytes "]: ".
(** [prefix w h l t]: [t] is "Level [h]: ", with colours exactly where they are asked for *)
Definition prefix (w : world) (h : list Z) (l : level) (t : list Z) : Prop :=
  uncolour false t = plain_prefix l h /\ (t = plain_prefix l h <-> ~ with_colours w) /\ (with_colours w -> painted l h t).
Lemma prefix_ok w h l f : Forall (fun c => c <> 27) h ->
  prefix w h l (header_text l (mk_l h (is_enabled (w_env w)) (is_colored (w_env w)) (get_level (w_env w)) f)).
Proof.
  intros Hh. pose proof (header_colour l (mk_l h (is_enabled (w_env w)) (is_colored (w_env w)) (get_level (w_env w)) f) Hh) as (H1 & H2 & H3). cbn [l_header l_colored] in *.
  split; [exact H2|]. rewrite <- colored_iff. split.
  - destruct (is_colored (w_env w)); split; intros H; try congruence; [exfalso; exact (H3 eq_refl H)|apply H1; reflexivity].
  - intros C. unfold header_text, painted. cbn [l_colored l_header]. rewrite C. destruct l;
      [exists (bytes "1;38;5;250"), (bytes "32")|exists (bytes "1;34"), (bytes "32")|exists (bytes "1;33"), (bytes "32")|exists (bytes "1;31"), (bytes "32")]; reflexivity.
Qed.

(** For every history of initialisations (of the program and any number of backends, in any environments) and messages after
    which the program still runs: an information or debug message is written exactly when the environment of the last
    initialisation asks for it, to the file named by the environment and thread of the first initialisation (standard error when
    no file is named), after the label of the last initialisation. *)
Theorem C97_info : forall prog success l ws s lv text, run prog success l None = (ws, Some (Running s)) -> lv = Debug \/ lv = Info ->
  exists w h w0 f, last_init l w h /\ first_init l w0 /\ place w0 f /\
  (Forall (fun c => c <> 27) h -> exists out, run prog success (l ++ [Msg lv text]) None = (ws ++ out, Some (Running s)) /\
    (displayed w lv -> exists pre, prefix w h lv pre /\ out = [(f, pre); (f, text)]) /\ (~ displayed w lv -> out = [])).
Proof.
  intros prog success l ws s lv text H Hl. destruct (after_run _ _ _ _ _ H) as (w & h & w0 & f & L & F & P & ->). exists w, h, w0, f. split; [exact L|]. split; [exact F|]. split; [exact P|].
  intros Hh. set (s := mk_l h (is_enabled (w_env w)) (is_colored (w_env w)) (get_level (w_env w)) (Some f)) in *.
  exists (if shown lv s then [(f, header_text lv s); (f, text)] else []). split.
  - rewrite run_app, H. cbn [run step]. destruct Hl as [-> | ->]; cbn [message]; unfold s at 1; cbn [l_logfile]; rewrite app_nil_r; reflexivity.
  - unfold s. pose proof (shown_iff w h (Some f) lv) as S. destruct (shown lv _); split; intros D; try reflexivity; [|exfalso; apply D, S; reflexivity|exfalso; assert (false = true) by (apply S, D); discriminate].
    exists (header_text lv s). split; [apply prefix_ok, Hh|reflexivity].
Qed.
Print Assumptions C97_info.

(** The text of warnings and errors always reaches standard error, whatever the environment (the label only if displayed); an
    error ends the program with status 1 and nothing that follows is written. *)
Theorem C97_warning_error : forall prog success l ws s text later, run prog success l None = (ws, Some (Running s)) ->
  exists w h, last_init l w h /\ (Forall (fun c => c <> 27) h ->
  (exists out, run prog success (l ++ [Msg Warning text]) None = (ws ++ out ++ [(Stderr, prog ++ bytes ": " ++ text ++ [10])], Some (Running s)) /\
    (displayed w Warning -> exists pre, prefix w h Warning pre /\ out = [(Stderr, pre)]) /\ (~ displayed w Warning -> out = [])) /\
  (exists out, run prog success (l ++ Msg Error text :: later) None = (ws ++ out ++ [(Stderr, prog ++ bytes ": " ++ text ++ [10])], Some (Ended 1)) /\
    (displayed w Error -> exists pre, prefix w h Error pre /\ out = [(Stderr, pre)]) /\ (~ displayed w Error -> out = []))).
Proof.
  intros prog success l ws s text later H. destruct (after_run _ _ _ _ _ H) as (w & h & w0 & f & L & F & P & ->). exists w, h. split; [exact L|]. intros Hh.
  set (s := mk_l h (is_enabled (w_env w)) (is_colored (w_env w)) (get_level (w_env w)) (Some f)) in *.
  assert (G : forall lv, (displayed w lv -> exists pre, prefix w h lv pre /\ (if shown lv s then [(Stderr, header_text lv s)] else []) = [(Stderr, pre)]) /\
    (~ displayed w lv -> (if shown lv s then [(Stderr, header_text lv s)] else []) = [])).
  { intros lv. pose proof (shown_iff w h (Some f) lv) as S. fold s in S. destruct (shown lv s); split; intros D; try reflexivity; [|exfalso; apply D, S; reflexivity|exfalso; assert (false = true) by (apply S, D); discriminate].
    exists (header_text lv s). split; [apply prefix_ok, Hh|reflexivity]. }
  split; [exists (if shown Warning s then [(Stderr, header_text Warning s)] else [])|exists (if shown Error s then [(Stderr, header_text Error s)] else [])]; (split; [|apply G]);
    rewrite run_app, H; cbn [run step message]; rewrite ?app_nil_r; reflexivity.
Qed.
Print Assumptions C97_warning_error.

(** Whatever happens, all that is written goes to standard error or to the one place of the first initialisation. *)
Theorem C97_one_place : forall prog success l ws r w0, run prog success l None = (ws, r) -> first_init l w0 ->
  forall f t, In (f, t) ws -> f = Stderr \/ place w0 f.
Proof.
  intros prog success l. induction l as [|e l IH] using rev_ind; intros ws r w0 H F f t I; [destruct F as (a & h & b & E & _); destruct a; discriminate|].
  rewrite run_app in H. destruct (run prog success l None) as [ws1 r1] eqn:E.
  assert (OLD : In (f, t) ws1 -> f = Stderr \/ place w0 f).
  { intros I1. destruct F as (a & h & b & EQ & N). destruct b as [|x b] using rev_ind.
    - apply app_inj_tail in EQ as [-> _]. exfalso. destruct a as [|x a]; [injection E as <- _; destruct I1|]. destruct x as [w h'|lv tx]; [exact (N w h' (or_introl eq_refl))|].
      cbn in E. injection E as <- _. destruct I1.
    - clear IHb. rewrite app_comm_cons, app_assoc in EQ. apply app_inj_tail in EQ as [-> _]. eapply IH; [reflexivity| |exact I1]. exists a, h, b. auto. }
  assert (V : forall x, In (f, t) (vwarnx prog x) -> f = Stderr) by (intros x [[= <- _]|[]]; reflexivity).
  assert (ST : forall s, match s with Some s => after l s | None => True end -> In (f, t) (fst (step prog success e s)) -> f = Stderr \/ place w0 f).
  { intros s A IS. destruct e as [w h|lv tx]; cbn [step] in IS.
    - left. unfold init in IS. assert (K : In (f, t) (fst (open_log prog success w h (match s with Some s => l_logfile s | None => None end)))) by (destruct (open_log prog success w h _) as [wo [fo| | |]]; exact IS).
      unfold open_log in K. destruct (match s with Some s => l_logfile s | None => None end); [destruct K|]. destruct (w_env w _); [|destruct K]. cbv zeta in K. destruct (1024 <=? _); [destruct K|].
      destruct (w_open w _); [destruct K|]. apply (V _ K).
    - destruct s as [s|]; [|destruct IS]. destruct A as (w & h & w1 & f1 & _ & F1 & P1 & ->).
      assert (w1 = w0) as ->.
      { destruct F1 as (a & h1 & b & -> & N). eapply first_init_unique; [|exact F]. exists a, h1, (b ++ [Msg lv tx]). split; [rewrite <- app_assoc; reflexivity|exact N]. }
      destruct lv; cbn [message l_logfile fst] in IS.
      + destruct (shown Debug _); [|destruct IS]. right. destruct IS as [[= <- _]|[[= <- _]|[]]]; exact P1.
      + destruct (shown Info _); [|destruct IS]. right. destruct IS as [[= <- _]|[[= <- _]|[]]]; exact P1.
      + left. apply in_app_or in IS as [IS|IS]; [destruct (shown Warning _); [|destruct IS]; destruct IS as [[= <- _]|[]]; reflexivity|apply (V _ IS)].
      + left. apply in_app_or in IS as [IS|IS]; [destruct (shown Error _); [|destruct IS]; destruct IS as [[= <- _]|[]]; reflexivity|apply (V _ IS)]. }
  assert (ONE : forall s, match s with Some s => after l s | None => True end -> In (f, t) (fst (run prog success [e] s)) -> f = Stderr \/ place w0 f).
  { intros s A IS. apply (ST s A). cbn [run] in IS. destruct (step prog success e s) as [w1 [s2| |]]; cbn [fst] in *; rewrite ?app_nil_r in IS; exact IS. }
  destruct r1 as [[s|c|]|]; [|injection H as <- _; apply OLD, I..|].
  - pose proof (ONE (Some s) (after_run _ _ _ _ _ E)) as K. destruct (run prog success [e] (Some s)) as [w2 r2]. injection H as <- _. apply in_app_or in I as [I|I]; [apply OLD, I|apply K, I].
  - pose proof (ONE None Logic.I) as K. destruct (run prog success [e] None) as [w2 r2]. injection H as <- _. apply in_app_or in I as [I|I]; [apply OLD, I|apply K, I].
Qed.
Print Assumptions C97_one_place.

Lemma place_file w f : place w (File f) -> exists v, w_env w (bytes "VFC_BACKENDS_LOGFILE") = Some v /\ f = v ++ bytes "." ++ bytes (decimal (w_tid w)).
Proof. intros H. remember (File f) as x eqn:X. destruct H as [|v E]; [discriminate|]. injection X as <-. exists v. auto. Qed.
(** The first initialisation: runs on with nothing written if no file is named or the named one opens; exits with status 1
    otherwise; the name must be shorter than 1024 bytes. Later initialisations always run on. *)
Theorem C97_init : forall prog success w h,
  (w_env w (bytes "VFC_BACKENDS_LOGFILE") = None \/
   (exists f, place w (File f) /\ Z.of_nat (length f) <= 1023 /\ w_open w f = true) -> exists s, run prog success [Init w h] None = ([], Some (Running s))) /\
  (forall f, place w (File f) -> Z.of_nat (length f) <= 1023 -> w_open w f = false -> exists t, run prog success [Init w h] None = ([(Stderr, t)], Some (Ended 1))) /\
  (forall l ws s, run prog success l None = (ws, Some (Running s)) -> exists s', run prog success (l ++ [Init w h]) None = (ws, Some (Running s'))).
Proof.
  intros prog success w h. split; [|split].
  - intros [E|(f & P & L & O)]; cbn [run step]; unfold init, open_log.
    + rewrite E. eexists. reflexivity.
    + destruct (place_file _ _ P) as (v & E & ->). rewrite E. cbv zeta. destruct (Z.leb_spec 1024 (Z.of_nat (length (v ++ bytes "." ++ bytes (decimal (w_tid w)))))); [lia|]. rewrite O. eexists. reflexivity.
  - intros f P L O. destruct (place_file _ _ P) as (v & E & ->). cbn [run step]. unfold init, open_log. rewrite E. cbv zeta.
    destruct (Z.leb_spec 1024 (Z.of_nat (length (v ++ bytes "." ++ bytes (decimal (w_tid w)))))); [lia|]. rewrite O. eexists. reflexivity.
  - intros l ws s H. destruct (after_run _ _ _ _ _ H) as (w1 & h1 & w0 & f & _ & _ & _ & ->). rewrite run_app, H. cbn. rewrite app_nil_r. eexists. reflexivity.
Qed.
Print Assumptions C97_init.

(** * What the documentation promises and the code does not do *)
(** "To suppress the messages displayed by the logger, export VFC_BACKENDS_LOGGER=False": warnings are still displayed; and so they
    are with VFC_BACKENDS_LOGGER_LEVEL=error. *)
Definition only (k v : string) : list Z -> option (list Z) := fun x => if list_eq_dec Z.eq_dec x (bytes k) then Some (bytes v) else None.
Theorem C97_suppress_refuted : forall prog success text h tid op env, env = only "VFC_BACKENDS_LOGGER" "False" \/ env = only "VFC_BACKENDS_LOGGER_LEVEL" "error" ->
  exists s, run prog success [Init (mk_w env tid op) h; Msg Warning text] None = ([(Stderr, prog ++ bytes ": " ++ text ++ [10])], Some (Running s)).
Proof. intros prog success text h tid op env [-> | ->]; eexists; reflexivity. Qed.
Print Assumptions C97_suppress_refuted.
(** A message carries the label of the component initialised last, not of the one that speaks: with a second backend loaded,
    whatever the first one says is labelled with the name of the second. *)
Theorem C97_label_refuted : forall prog success h1 h2 text tid op,
  exists s, run prog success [Init (mk_w (fun _ => None) tid op) h1; Init (mk_w (fun _ => None) tid op) h2; Msg Info text] None =
  ([(Stderr, bytes "Info [" ++ h2 ++ bytes "]: "); (Stderr, text)], Some (Running s)).
Proof. intros. eexists. reflexivity. Qed.
Print Assumptions C97_label_refuted.
(** A name of log file of 1024 bytes or more overflows the buffer. *)
Theorem C97_long_name_refuted : forall prog success h v tid op, 1024 <= Z.of_nat (length v) ->
  run prog success [Init (mk_w (fun _ => Some v) tid op) h] None = ([], Some Undefined).
Proof.
  intros. cbn [run step]. unfold init, open_log. cbn [w_env w_tid w_open]. cbv zeta. destruct (Z.leb_spec 1024 (Z.of_nat (length (v ++ bytes "." ++ bytes (decimal tid))))) as [_|L]; [reflexivity|].
  rewrite app_length in L. lia.
Qed.
Print Assumptions C97_long_name_refuted.
(** The message of a log file that cannot be opened says nothing of the cause: it is that of the error number 0. *)
Theorem C97_open_message_refuted : forall prog success h w f, place w (File f) -> Z.of_nat (length f) <= 1023 -> w_open w f = false ->
  run prog success [Init w h] None = ([(Stderr, prog ++ bytes ": " ++ (bytes "Error [" ++ h ++ bytes "]: " ++ success) ++ [10])], Some (Ended 1)).
Proof.
  intros prog success h w f P L O. destruct (place_file _ _ P) as (v & E & ->). cbn [run step]. unfold init, open_log. rewrite E. cbv zeta.
  destruct (Z.leb_spec 1024 (Z.of_nat (length (v ++ bytes "." ++ bytes (decimal (w_tid w)))))); [lia|]. rewrite O. reflexivity.
Qed.
Print Assumptions C97_open_message_refuted.

(** a run with a log file, level warning, then a second backend in an environment with level debug and colours *)
Example C97_nonvacuous :
  let w1 := mk_w (fun x => if list_eq_dec Z.eq_dec x (bytes "VFC_BACKENDS_LOGFILE") then Some (bytes "v.log") else if list_eq_dec Z.eq_dec x (bytes "VFC_BACKENDS_LOGGER_LEVEL") then Some (bytes "WARNING") else None) 42 (fun _ => true) in
  let w2 := mk_w (only "VFC_BACKENDS_COLORED_LOGGER" "true") 43 (fun _ => true) in
  let r := run (bytes "test") (bytes "Success") [Init w1 (bytes "verificarlo"); Msg Info (bytes "hidden"); Msg Warning (bytes "w"); Init w2 (bytes "interflop-ieee"); Msg Info (bytes "seen"); Msg Debug (bytes "no"); Msg Error (bytes "e"); Msg Info (bytes "late")] None in
  map (fun p => (fst p, uncolour false (snd p))) (fst r) =
    [(Stderr, bytes "Warning [verificarlo]: "); (Stderr, bytes "test: w" ++ [10]); (File (bytes "v.log.42"), bytes "Info [interflop-ieee]: "); (File (bytes "v.log.42"), bytes "seen");
     (Stderr, bytes "Error [interflop-ieee]: "); (Stderr, bytes "test: e" ++ [10])] /\ snd r = Some (Ended 1).
Proof. vm_compute. split; reflexivity. Qed.
