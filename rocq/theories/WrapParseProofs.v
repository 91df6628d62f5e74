(** Proofs about reading the list of backends. *)
From Coq Require Import ZArith List Bool Lia.
From Verif Require Import Common Text WrapModel.
Import ListNotations.
Open Scope Z_scope.

(** the non-empty pieces of a text between separators *)
Definition words (d : Z) (l : list Z) : list (list Z) := filter (fun w => match w with [] => false | _ => true end) (split_on d l).

Definition no (c : Z) (l : list Z) : Prop := ~ In c l.
Lemma no_app c l l' : no c (l ++ l') <-> no c l /\ no c l'.
Proof. unfold no. rewrite in_app_iff. tauto. Qed.
Lemma no_cons c x l : no c (x :: l) <-> x <> c /\ no c l.
Proof. unfold no. cbn. intuition congruence. Qed.

(** a text is blanks, or blanks and a last word, or blanks, a word, a separator and the rest *)
Lemma decompose d r : exists ds, Forall (eq d) ds /\
  (r = ds \/ exists w, w <> [] /\ no d w /\ (r = ds ++ w \/ exists r', r = ds ++ w ++ d :: r')).
Proof.
  assert (W : forall l, exists w, no d w /\ (l = w \/ exists r', l = w ++ d :: r')).
  { induction l as [|x l (w & Hw & IH)]; [exists []; split; [intros []|auto]|]. destruct (Z.eq_dec x d) as [->|N].
    - exists []. split; [intros []|]. right. exists l. reflexivity.
    - exists (x :: w). split; [apply no_cons; auto|]. destruct IH as [->|(r' & ->)]; [auto|]. right. exists r'. reflexivity. }
  induction r as [|x r (ds & Hds & IH)]; [exists []; auto|]. destruct (Z.eq_dec x d) as [->|N].
  - exists (d :: ds). split; [constructor; auto|]. destruct IH as [->|(w & H1 & H2 & [->|(r' & ->)])]; [left; reflexivity|right; exists w; auto|].
    right. exists w. repeat (split; [assumption|]). right. exists r'. reflexivity.
  - exists []. split; [constructor|]. right. destruct (W (x :: r)) as (w & Hw & D). exists w. split; [|split; [assumption|exact D]].
    intros ->. destruct D as [|(r' & D)]; [discriminate|]. cbn in D. congruence.
Qed.
Lemma words_blank d ds : Forall (eq d) ds -> words d ds = [].
Proof. induction 1 as [|x ds -> _ IH]; [reflexivity|]. unfold words in *. cbn [split_on]. rewrite Z.eqb_refl. cbn [filter]. exact IH. Qed.
Lemma words_skip d ds l : Forall (eq d) ds -> words d (ds ++ l) = words d l.
Proof. induction 1 as [|x ds -> _ IH]; [reflexivity|]. cbn [app]. unfold words in *. cbn [split_on]. rewrite Z.eqb_refl. cbn [filter]. exact IH. Qed.
Lemma words_last d w : w <> [] -> no d w -> words d w = [w].
Proof. intros N H. unfold words. rewrite split_on_nosep by assumption. destruct w; [congruence|reflexivity]. Qed.
Lemma words_more d w r : w <> [] -> no d w -> words d (w ++ d :: r) = w :: words d r.
Proof. intros N H. unfold words. rewrite split_on_app by assumption. destruct w; [congruence|reflexivity]. Qed.
Lemma words_no d c l w : In w (words d l) -> no c l -> no c w.
Proof.
  intros H. apply filter_In in H. destruct H as [H _]. revert w H. induction l as [|x l IH]; intros w H Hn; cbn [split_on] in H.
  - destruct H as [<-|[]]. intros [].
  - apply no_cons in Hn. destruct Hn as [N1 N2]. destruct (x =? d).
    + destruct H as [<-|H]; [intros []|]. apply (IH w H N2).
    + destruct (split_on d l) as [|p ps] eqn:E.
      * destruct H as [<-|[]]. apply no_cons. split; [assumption|intros []].
      * destruct H as [<-|H]; [|apply IH; [right; assumption|assumption]]. apply no_cons. split; [assumption|]. apply IH; [left; reflexivity|assumption].
Qed.

(** memory *)
Lemma rd_app m c m' : rd (m ++ c :: m') (length m) = Ok c.
Proof. unfold rd. rewrite nth_error_app2 by lia. rewrite Nat.sub_diag. reflexivity. Qed.
Lemma wr_app m c m' x : wr (m ++ c :: m') (length m) x = m ++ x :: m'.
Proof. induction m as [|y m IH]; [reflexivity|]. cbn. rewrite IH. reflexivity. Qed.
Lemma span_spec d ds : forall pre c post fuel, Forall (eq d) ds -> d <> 0 -> c <> d -> (length ds < fuel)%nat ->
  span (pre ++ ds ++ c :: post) (length pre) d fuel = Ok (length (pre ++ ds)).
Proof.
  induction ds as [|x ds IH]; intros pre c post fuel H N0 Nc Hf; (destruct fuel as [|fuel]; [cbn in Hf; lia|]); cbn [span app].
  - rewrite rd_app. cbn [bind]. rewrite app_nil_r. destruct (c =? 0); [reflexivity|]. destruct (Z.eqb_spec c d); [congruence|reflexivity].
  - inversion H; subst. rewrite rd_app. cbn [bind]. destruct (Z.eqb_spec x 0); [congruence|]. rewrite Z.eqb_refl.
    replace (pre ++ x :: ds ++ c :: post) with ((pre ++ [x]) ++ ds ++ c :: post) by (rewrite <- app_assoc; reflexivity).
    replace (S (length pre)) with (length (pre ++ [x])) by (rewrite app_length; cbn; lia). rewrite IH; try assumption; [|cbn in Hf; lia].
    rewrite <- app_assoc. reflexivity.
Qed.
Lemma cspan_spec d w : forall pre c post fuel, no d w -> no 0 w -> c = 0 \/ c = d -> (length w < fuel)%nat ->
  cspan (pre ++ w ++ c :: post) (length pre) d fuel = Ok (length (pre ++ w)).
Proof.
  induction w as [|x w IH]; intros pre c post fuel H H0 Hc Hf; (destruct fuel as [|fuel]; [cbn in Hf; lia|]); cbn [cspan app].
  - rewrite rd_app. cbn [bind]. rewrite app_nil_r. destruct (Z.eqb_spec c 0); [reflexivity|]. destruct (Z.eqb_spec c d); [reflexivity|]. lia.
  - apply no_cons in H, H0. rewrite rd_app. cbn [bind]. destruct (Z.eqb_spec x 0); [lia|]. destruct (Z.eqb_spec x d); [lia|].
    replace (pre ++ x :: w ++ c :: post) with ((pre ++ [x]) ++ w ++ c :: post) by (rewrite <- app_assoc; reflexivity).
    replace (S (length pre)) with (length (pre ++ [x])) by (rewrite app_length; cbn; lia). rewrite IH; try tauto; [|cbn in Hf; lia].
    rewrite <- app_assoc. reflexivity.
Qed.

Definition call_at (s : option nat) (save p : nat) : Prop := match s with Some q => q = p | None => save = p end.
Lemma strtok_blank d ds pre post s save : Forall (eq d) ds -> d <> 0 -> call_at s save (length pre) ->
  strtok_r (pre ++ ds ++ 0 :: post) s d save = Ok (pre ++ ds ++ 0 :: post, None, length (pre ++ ds)).
Proof.
  intros H N Hc. unfold strtok_r. replace (match s with Some p => p | None => save end) with (length pre) by (destruct s; cbn in Hc; congruence).
  rewrite span_spec by (try assumption; try congruence; rewrite !app_length; cbn [length]; rewrite ?app_length; cbn [length]; rewrite ?app_length; cbn [length]; lia). cbn [bind].
  rewrite app_assoc, rd_app. reflexivity.
Qed.
Lemma strtok_last d ds w pre post s save : Forall (eq d) ds -> d <> 0 -> w <> [] -> no d w -> no 0 w -> call_at s save (length pre) ->
  strtok_r (pre ++ ds ++ w ++ 0 :: post) s d save = Ok (pre ++ ds ++ w ++ 0 :: post, Some (length (pre ++ ds)), length (pre ++ ds ++ w)).
Proof.
  intros H N Hw Hd H0 Hc. unfold strtok_r. replace (match s with Some p => p | None => save end) with (length pre) by (destruct s; cbn in Hc; congruence).
  destruct w as [|x w]; [congruence|]. pose proof Hd as Hd'. pose proof H0 as H0'. apply no_cons in Hd', H0'. cbn [app].
  rewrite span_spec by (try assumption; try tauto; rewrite !app_length; cbn [length]; rewrite ?app_length; cbn [length]; rewrite ?app_length; cbn [length]; lia). cbn [bind].
  rewrite app_assoc, rd_app. cbn [bind]. destruct (Z.eqb_spec x 0); [lia|].
  rewrite (cspan_spec d (x :: w) (pre ++ ds) 0 post) by (try assumption; auto; rewrite !app_length; cbn [length]; rewrite ?app_length; cbn [length]; rewrite ?app_length; cbn [length]; lia). cbn [bind].
  rewrite (app_comm_cons w (0 :: post) x), (app_assoc (pre ++ ds)), rd_app. cbn [bind Z.eqb]. rewrite <- !app_assoc. reflexivity.
Qed.
Lemma strtok_more d ds w r pre post s save : Forall (eq d) ds -> d <> 0 -> w <> [] -> no d w -> no 0 w -> call_at s save (length pre) ->
  strtok_r (pre ++ ds ++ w ++ d :: r ++ 0 :: post) s d save =
  Ok (pre ++ ds ++ w ++ 0 :: r ++ 0 :: post, Some (length (pre ++ ds)), length (pre ++ ds ++ w ++ [0])).
Proof.
  intros H N Hw Hd H0 Hc. unfold strtok_r. replace (match s with Some p => p | None => save end) with (length pre) by (destruct s; cbn in Hc; congruence).
  destruct w as [|x w]; [congruence|]. pose proof Hd as Hd'. pose proof H0 as H0'. apply no_cons in Hd', H0'. cbn [app].
  rewrite span_spec by (try assumption; try tauto; rewrite !app_length; cbn [length]; rewrite ?app_length; cbn [length]; rewrite ?app_length; cbn [length]; lia). cbn [bind].
  rewrite app_assoc, rd_app. cbn [bind]. destruct (Z.eqb_spec x 0); [lia|].
  rewrite (cspan_spec d (x :: w) (pre ++ ds) d (r ++ 0 :: post)) by (try assumption; auto; rewrite !app_length; cbn [length]; rewrite ?app_length; cbn [length]; rewrite ?app_length; cbn [length]; lia). cbn [bind].
  rewrite (app_comm_cons w (d :: r ++ 0 :: post) x), (app_assoc (pre ++ ds)), rd_app. cbn [bind]. destruct (Z.eqb_spec d 0); [congruence|].
  rewrite wr_app, <- !app_assoc. cbn [app]. do 3 f_equal. rewrite !app_length. cbn [length]. rewrite app_length. cbn. lia.
Qed.

Lemma Forall2_impl {A B} (P Q : A -> B -> Prop) l l' : (forall a b, P a b -> Q a b) -> Forall2 P l l' -> Forall2 Q l l'.
Proof. intros H. induction 1; constructor; auto. Qed.
Lemma Forall2_len {A B} (P : A -> B -> Prop) l l' : Forall2 P l l' -> length l = length l'.
Proof. induction 1; cbn; congruence. Qed.
(** the string w lies at p within the first n bytes, with its terminating 0 *)
Definition holds (m : list Z) (n p : nat) (w : list Z) : Prop := no 0 w /\ exists a b, m = a ++ w ++ 0 :: b /\ length a = p /\ (p + length w < n)%nat.
Lemma holds_cstr m n p w : holds m n p w -> cstr m p = Ok w.
Proof.
  intros (H0 & a & b & -> & <- & _). unfold cstr. rewrite skipn_app, skipn_all, Nat.sub_diag. cbn [app skipn].
  induction w as [|x w IH]; [reflexivity|]. apply no_cons in H0. cbn [app upto_nul]. destruct (Z.eqb_spec x 0); [lia|]. rewrite IH by tauto. reflexivity.
Qed.
Lemma holds_frame pre t t' n p w : (n <= length pre)%nat -> holds (pre ++ t) n p w -> holds (pre ++ t') (length pre) p w.
Proof.
  intros L (H0 & a & b & E & La & Lw). split; [assumption|]. exists a.
  assert (P : pre = a ++ w ++ 0 :: skipn (p + length w + 1) pre).
  { pose proof (f_equal (firstn (length pre)) E) as F. rewrite firstn_app, Nat.sub_diag, firstn_all in F. cbn [firstn] in F. rewrite app_nil_r in F.
    assert (F2 : firstn (p + length w + 1) pre = a ++ w ++ [0]).
    { rewrite F at 1. rewrite firstn_firstn, Nat.min_l by lia. replace (a ++ w ++ 0 :: b) with ((a ++ w ++ [0]) ++ b) by (rewrite <- !app_assoc; reflexivity).
      rewrite firstn_app, firstn_all2 by (rewrite !app_length; cbn [length]; rewrite ?app_length; cbn [length]; rewrite ?app_length; cbn [length]; lia). replace (p + length w + 1 - length (a ++ w ++ [0%Z]))%nat with O by (rewrite !app_length; cbn [length]; rewrite ?app_length; cbn [length]; rewrite ?app_length; cbn [length]; lia). cbn. apply app_nil_r. }
    rewrite <- (firstn_skipn (p + length w + 1) pre) at 1. rewrite F2, <- !app_assoc. reflexivity. }
  exists (skipn (p + length w + 1) pre ++ t'). split; [rewrite P at 1; rewrite <- !app_assoc; reflexivity|]. lia.
Qed.
Lemma strings_holds m n ps ws : Forall2 (holds m n) ps ws -> strings m ps = Ok ws.
Proof. induction 1 as [|p w ps ws H _ IH]; [reflexivity|]. cbn [strings]. rewrite (holds_cstr _ _ _ _ H), IH. reflexivity. Qed.

(** the inner loop: from a region [r] of the memory it collects the words of [r] *)
Lemma read_args_spec fuel : forall r pre post save arg m1 ps ws s0 save0, no 0 r ->
  strtok_r (pre ++ r ++ 0 :: post) s0 space save0 = Ok (m1, arg, save) -> call_at s0 save0 (length pre) ->
  Forall2 (holds (pre ++ r ++ 0 :: post) (length pre)) ps ws -> (length r < fuel)%nat ->
  (length ps + length (words space r) <= MAX_ARGS)%nat ->
  exists r' qs, length r' = length r /\ read_args fuel m1 save arg ps = Ok (pre ++ r' ++ 0 :: post, ps ++ qs) /\
    Forall2 (holds (pre ++ r' ++ 0 :: post) (length pre + length r + 1)) (ps ++ qs) (ws ++ words space r).
Proof.
  induction fuel as [|fuel IH]; intros r pre post save arg m1 ps ws s0 save0 H0 E Hc Hps Hf Hn; [lia|].
  assert (Sp : space <> 0) by (unfold space; lia).
  destruct (decompose space r) as (ds & Hds & [->|(w & Hw & Hd & [->|(r' & ->)])]).
  - rewrite (strtok_blank space ds) in E by assumption. injection E as <- <- <-. exists ds, []. split; [reflexivity|]. cbn [read_args]. rewrite !app_nil_r.
    split; [reflexivity|]. rewrite words_blank, app_nil_r by assumption. eapply Forall2_impl; [|exact Hps]. intros p v (A & a & b & B & C & D). split; [assumption|]. exists a, b. repeat split; try assumption. lia.
  - apply no_app in H0. rewrite words_skip, words_last in * by assumption. rewrite <- app_assoc in E. rewrite (strtok_last space ds w) in E by tauto. injection E as <- <- <-.
    cbn [read_args]. cbn [length] in Hn. destruct (Nat.leb_spec MAX_ARGS (length ps)); [lia|].
    pose proof (strtok_blank space [] (pre ++ ds ++ w) post None (length (pre ++ ds ++ w)) (Forall_nil _) Sp eq_refl) as E2. cbn [app] in E2. rewrite <- !app_assoc in E2.
    assert (Fw : holds (pre ++ (ds ++ w) ++ 0 :: post) (length pre + length (ds ++ w) + 1) (length (pre ++ ds)) w).
    { split; [tauto|]. exists (pre ++ ds), post. rewrite <- !app_assoc. repeat split. rewrite !app_length. lia. }
    rewrite E2. cbn [bind app]. destruct fuel as [|fuel]; [rewrite app_length in Hf; destruct w; [congruence|cbn in Hf; lia]|]. cbn [read_args].
    exists (ds ++ w), [length (pre ++ ds)]. split; [reflexivity|]. rewrite <- !app_assoc. split; [reflexivity|]. rewrite <- !app_assoc in Fw.
    apply Forall2_app; [|constructor; [exact Fw|constructor]]. rewrite <- !app_assoc in Hps. eapply Forall2_impl; [|exact Hps]. intros p v (A & a & b & B & C & D). split; [assumption|]. exists a, b. repeat split; try assumption. lia.
  - apply no_app in H0. destruct H0 as [H01 H02]. apply no_app in H02. destruct H02 as [H02 H03]. apply no_cons in H03. destruct H03 as [_ H03].
    rewrite words_skip, words_more in * by assumption. rewrite <- !app_assoc in E. cbn [app] in E. rewrite (strtok_more space ds w r') in E by assumption. injection E as <- <- <-.
    cbn [read_args]. cbn [length] in Hn. destruct (Nat.leb_spec MAX_ARGS (length ps)); [lia|].
    set (pre' := pre ++ ds ++ w ++ [0]).
    assert (Em : pre ++ ds ++ w ++ 0 :: r' ++ 0 :: post = pre' ++ r' ++ 0 :: post) by (unfold pre'; rewrite <- !app_assoc; reflexivity).
    rewrite Em. set (save := length pre').
    destruct (strtok_r (pre' ++ r' ++ 0 :: post) None space save) as [[[m2 arg2] save2]| | |] eqn:E2.
    2-4: exfalso; destruct (decompose space r') as (ds2 & Hds2 & [->|(w2 & Hw2 & Hd2 & [->|(r2 & ->)])]); rewrite <- ?app_assoc in E2; cbn [app] in E2; repeat rewrite no_app in H03;
      [rewrite strtok_blank in E2 by (assumption || reflexivity)|rewrite strtok_last in E2 by (tauto || reflexivity)|rewrite <- ?app_assoc in E2; cbn [app] in E2; rewrite strtok_more in E2 by (tauto || reflexivity)]; discriminate.
    cbn [bind].
    assert (Fw : holds (pre' ++ r' ++ 0 :: post) (length pre') (length (pre ++ ds)) w).
    { split; [assumption|]. exists (pre ++ ds), (r' ++ 0 :: post). split; [unfold pre'; rewrite <- !app_assoc; reflexivity|]. split; [reflexivity|]. unfold pre'. rewrite !app_length. cbn. lia. }
    assert (Fps : Forall2 (holds (pre' ++ r' ++ 0 :: post) (length pre')) (ps ++ [length (pre ++ ds)]) (ws ++ [w])).
    { apply Forall2_app; [|constructor; [exact Fw|constructor]]. eapply Forall2_impl; [|exact Hps]. intros p v Hh.
      apply (holds_frame pre _ ((ds ++ w ++ [0]) ++ r' ++ 0 :: post)) in Hh; [|lia]. destruct Hh as (A & a & b & B & C & D). split; [assumption|]. exists a, b. split; [unfold pre'; rewrite <- B, <- !app_assoc; reflexivity|].
      split; [assumption|]. unfold pre'. rewrite app_length. lia. }
    destruct (IH r' pre' post save2 arg2 m2 (ps ++ [length (pre ++ ds)]) (ws ++ [w]) None save H03 E2 eq_refl Fps) as (r'' & qs & L & RA & F2).
    { rewrite !app_length in Hf. cbn in Hf. lia. }
    { rewrite app_length. cbn. lia. }
    exists (ds ++ w ++ [0] ++ r''), (length (pre ++ ds) :: qs). split; [rewrite !app_length; cbn [length]; rewrite L; lia|].
    unfold pre' in RA, F2. rewrite <- !app_assoc in RA, F2. cbn [app] in RA, F2. rewrite <- (app_assoc ws) in F2. rewrite <- !app_assoc. cbn [app] in *. split; [exact RA|].
    eapply Forall2_impl; [|exact F2]. intros p v (A & a & b & B & C & D). split; [assumption|]. exists a, b. repeat split; try assumption. rewrite !app_length in D |- *. rewrite ?app_length in D. cbn [length] in *. rewrite ?app_length in D. cbn [length] in *. lia.
Qed.

Lemma strtok_total d r pre post s save : d <> 0 -> no 0 r -> call_at s save (length pre) -> exists m1 arg save', strtok_r (pre ++ r ++ 0 :: post) s d save = Ok (m1, arg, save').
Proof.
  intros Sp H0 Hc. destruct (decompose d r) as (ds & Hds & [->|(w & Hw & Hd & [->|(r' & ->)])]); rewrite ?no_app in H0.
  - rewrite strtok_blank by assumption. eauto.
  - rewrite <- app_assoc, strtok_last by tauto. eauto.
  - rewrite <- !app_assoc. cbn [app]. rewrite strtok_more by tauto. eauto.
Qed.
(** too many words *)
Lemma read_args_many fuel : forall r pre post save arg m1 ps s0 save0, no 0 r ->
  strtok_r (pre ++ r ++ 0 :: post) s0 space save0 = Ok (m1, arg, save) -> call_at s0 save0 (length pre) -> (length r < fuel)%nat ->
  (length ps <= MAX_ARGS)%nat -> (MAX_ARGS < length ps + length (words space r))%nat -> read_args fuel m1 save arg ps = Exit.
Proof.
  induction fuel as [|fuel IH]; intros r pre post save arg m1 ps s0 save0 H0 E Hc Hf Hp Hn; [lia|].
  assert (Sp : space <> 0) by (unfold space; lia).
  destruct (decompose space r) as (ds & Hds & [->|(w & Hw & Hd & [->|(r' & ->)])]).
  - rewrite words_blank in Hn by assumption. cbn in Hn. lia.
  - apply no_app in H0. rewrite words_skip, words_last in * by assumption. rewrite <- app_assoc in E. rewrite (strtok_last space ds w) in E by tauto. injection E as <- <- <-.
    cbn [length] in Hn. cbn [read_args]. destruct (Nat.leb_spec MAX_ARGS (length ps)); [reflexivity|lia].
  - apply no_app in H0. destruct H0 as [H01 H02]. apply no_app in H02. destruct H02 as [H02 H03]. apply no_cons in H03. destruct H03 as [_ H03].
    rewrite words_skip, words_more in * by assumption. rewrite <- !app_assoc in E. cbn [app] in E. rewrite (strtok_more space ds w r') in E by assumption. injection E as <- <- <-.
    cbn [length] in Hn. cbn [read_args]. destruct (Nat.leb_spec MAX_ARGS (length ps)); [reflexivity|].
    set (pre' := pre ++ ds ++ w ++ [0]).
    assert (Em : pre ++ ds ++ w ++ 0 :: r' ++ 0 :: post = pre' ++ r' ++ 0 :: post) by (unfold pre'; rewrite <- !app_assoc; reflexivity).
    rewrite Em. destruct (strtok_total space r' pre' post None (length pre') Sp H03 eq_refl) as (m2 & arg2 & save2 & E2). rewrite E2. cbn [bind].
    eapply (IH r' pre' post); try eassumption; try reflexivity; rewrite ?app_length in *; cbn [length] in *; lia.
Qed.

(** what the outer loop does with the list of argument vectors *)
Definition load_step (w : world) (loaded : list (list (list Z))) (args : list (list Z)) : outcome (list (list (list Z))) :=
  if Nat.ltb MAX_ARGS (length args) then Exit
  else if Nat.eqb (length args) MAX_ARGS then UB
  else if negb (loads w (hd_error args)) then Exit
  else if Nat.eqb (length loaded) MAX_BACKENDS then Exit
  else if negb (accepts w args) then Exit
  else Ok (loaded ++ [args]).

Lemma load_loop_spec w fuel : forall r pre post save token m1 loaded s0 save0, no 0 r ->
  strtok_r (pre ++ r ++ 0 :: post) s0 semicolon save0 = Ok (m1, token, save) -> call_at s0 save0 (length pre) -> (length r < fuel)%nat ->
  load_loop w fuel m1 save token loaded = ofold (load_step w) (map (words space) (words semicolon r)) loaded.
Proof.
  induction fuel as [|fuel IH]; intros r pre post save token m1 loaded s0 save0 H0 E Hc Hf; [lia|].
  assert (Se : semicolon <> 0) by (unfold semicolon; lia). assert (Sp : space <> 0) by (unfold space; lia).
  (* one token [v] at the end of [pre1], followed by a 0 *)
  assert (TOK : forall pre1 v post1, no 0 v -> exists m' arg sp, strtok_r (pre1 ++ v ++ 0 :: post1) (Some (length pre1)) space 0 = Ok (m', arg, sp) /\
    ((length (words space v) <= MAX_ARGS)%nat -> exists v' qs, length v' = length v /\ read_args (S (length (pre1 ++ v ++ 0 :: post1))) m' sp arg [] = Ok (pre1 ++ v' ++ 0 :: post1, qs) /\
        length qs = length (words space v) /\ strings (pre1 ++ v' ++ 0 :: post1) qs = Ok (words space v)) /\
    ((MAX_ARGS < length (words space v))%nat -> read_args (S (length (pre1 ++ v ++ 0 :: post1))) m' sp arg [] = Exit)).
  { intros pre1 v post1 Hv. destruct (strtok_total space v pre1 post1 (Some (length pre1)) 0 Sp Hv eq_refl) as (m' & arg & sp & E1). exists m', arg, sp. split; [exact E1|].
    assert (Lf : (length v < S (length (pre1 ++ v ++ 0%Z :: post1)))%nat) by (rewrite !app_length; lia). split.
    - intros L. destruct (read_args_spec _ v pre1 post1 sp arg m' [] [] (Some (length pre1)) 0 Hv E1 eq_refl (Forall2_nil _) Lf L) as (v' & qs & L1 & R1 & F1).
      cbn [app] in *. exists v', qs. split; [assumption|]. split; [exact R1|]. split; [eapply Forall2_len; exact F1|]. eapply strings_holds; exact F1.
    - intros L. eapply (read_args_many _ v pre1 post1); try eassumption; try reflexivity; cbn; lia. }
  destruct (decompose semicolon r) as (ds & Hds & [->|(v & Hw & Hd & [->|(r' & ->)])]).
  - rewrite (strtok_blank semicolon ds) in E by assumption. injection E as <- <- <-. rewrite words_blank by assumption. reflexivity.
  - apply no_app in H0. rewrite words_skip, words_last by assumption. rewrite <- app_assoc in E. rewrite (strtok_last semicolon ds v) in E by tauto. injection E as <- <- <-.
    cbn [map ofold load_loop]. destruct (TOK (pre ++ ds) v post ltac:(tauto)) as (m' & arg & sp & E1 & T1 & T2). rewrite <- !app_assoc in E1, T1, T2. rewrite E1. cbn [bind].
    unfold load_step. destruct (Nat.ltb_spec MAX_ARGS (length (words space v))) as [L|L]; [rewrite (T2 L); reflexivity|].
    destruct (T1 L) as (v' & qs & Lv & R1 & Lq & S1). rewrite <- ?app_assoc in R1, S1. rewrite R1. cbn [bind]. rewrite Lq.
    destruct (Nat.leb_spec MAX_ARGS (length (words space v))) as [L2|L2].
    { replace (Nat.eqb (length (words space v)) MAX_ARGS) with true by (symmetry; apply Nat.eqb_eq; lia). reflexivity. }
    replace (Nat.eqb (length (words space v)) MAX_ARGS) with false by (symmetry; apply Nat.eqb_neq; lia). rewrite S1. cbn [bind].
    destruct (negb (loads w _)); [reflexivity|]. destruct (Nat.eqb (length loaded) MAX_BACKENDS); [reflexivity|]. destruct (negb (accepts w _)); [reflexivity|].
    pose proof (strtok_blank semicolon [] (pre ++ ds ++ v') post None (length (pre ++ ds ++ v)) (Forall_nil _) Se) as E2. cbn [app] in E2. rewrite <- !app_assoc in E2.
    rewrite E2 by (cbn; rewrite !app_length; lia). cbn [bind]. destruct fuel as [|fuel]; [rewrite app_length in Hf; destruct v; [congruence|cbn in Hf; lia]|]. reflexivity.
  - apply no_app in H0. destruct H0 as [H01 H02]. apply no_app in H02. destruct H02 as [H02 H03]. apply no_cons in H03. destruct H03 as [_ H03].
    rewrite words_skip, words_more by assumption. rewrite <- !app_assoc in E. cbn [app] in E. rewrite (strtok_more semicolon ds v r') in E by assumption. injection E as <- <- <-.
    cbn [map ofold load_loop]. destruct (TOK (pre ++ ds) v (r' ++ 0 :: post) ltac:(tauto)) as (m' & arg & sp & E1 & T1 & T2). rewrite <- !app_assoc in E1, T1, T2. rewrite E1. cbn [bind].
    unfold load_step at 1. destruct (Nat.ltb_spec MAX_ARGS (length (words space v))) as [L|L]; [rewrite (T2 L); reflexivity|].
    destruct (T1 L) as (v' & qs & Lv & R1 & Lq & S1). rewrite <- ?app_assoc in R1, S1. rewrite R1. cbn [bind]. rewrite Lq.
    destruct (Nat.leb_spec MAX_ARGS (length (words space v))) as [L2|L2].
    { replace (Nat.eqb (length (words space v)) MAX_ARGS) with true by (symmetry; apply Nat.eqb_eq; lia). reflexivity. }
    replace (Nat.eqb (length (words space v)) MAX_ARGS) with false by (symmetry; apply Nat.eqb_neq; lia). rewrite S1. cbn [bind].
    destruct (negb (loads w _)); [reflexivity|]. destruct (Nat.eqb (length loaded) MAX_BACKENDS); [reflexivity|]. destruct (negb (accepts w _)); [reflexivity|]. cbn [bind].
    set (pre' := pre ++ ds ++ v' ++ [0]).
    assert (Em : pre ++ ds ++ v' ++ 0 :: r' ++ 0 :: post = pre' ++ r' ++ 0 :: post) by (unfold pre'; rewrite <- !app_assoc; reflexivity). rewrite Em.
    assert (Lp : length (pre ++ ds ++ v ++ [0]) = length pre') by (unfold pre'; rewrite !app_length; lia). rewrite Lp.
    destruct (strtok_total semicolon r' pre' post None (length pre') Se H03 eq_refl) as (m2 & arg2 & save2 & E2). rewrite E2. cbn [bind].
    eapply (IH r' pre' post); try eassumption; try reflexivity. rewrite !app_length in Hf. cbn [length] in Hf. lia.
Qed.

Lemma load_backends_spec w s : no 0 s ->
  load_backends w (s ++ [0]) = bind (ofold (load_step w) (map (words space) (words semicolon s)) []) (fun l => match l with [] => Exit | _ => Ok l end).
Proof.
  intros H0. unfold load_backends. assert (Se : semicolon <> 0) by (unfold semicolon; lia).
  destruct (strtok_total semicolon s [] [] (Some O) 0 Se H0 eq_refl) as (m1 & token & save & E). cbn [app] in E. rewrite E. cbn [bind].
  rewrite (load_loop_spec w _ s [] [] save token m1 [] (Some O) 0%nat H0 E eq_refl) by (rewrite app_length; cbn; lia). reflexivity.
Qed.

(** consequences *)
Definition good (w : world) (args : list (list Z)) : Prop := (length args < MAX_ARGS)%nat /\ loads w (hd_error args) = true /\ accepts w args = true.
Lemma load_step_good w loaded args : good w args -> (length loaded < MAX_BACKENDS)%nat -> load_step w loaded args = Ok (loaded ++ [args]).
Proof.
  intros (A & B & C) L. unfold load_step. destruct (Nat.ltb_spec MAX_ARGS (length args)); [lia|]. destruct (Nat.eqb_spec (length args) MAX_ARGS); [lia|].
  rewrite B, C. destruct (Nat.eqb_spec (length loaded) MAX_BACKENDS); [lia|]. reflexivity.
Qed.
Lemma load_all_good w bs : forall loaded, Forall (good w) bs -> (length loaded + length bs <= MAX_BACKENDS)%nat -> ofold (load_step w) bs loaded = Ok (loaded ++ bs).
Proof.
  induction bs as [|b bs IH]; intros loaded F L; [rewrite app_nil_r; reflexivity|]. inversion F; subst. cbn [length] in L. cbn [ofold].
  rewrite load_step_good by (assumption || lia). cbn [bind]. rewrite IH by (try assumption; rewrite app_length; cbn; lia). rewrite <- app_assoc. reflexivity.
Qed.
Lemma load_sound w bs : forall loaded l, ofold (load_step w) bs loaded = Ok l -> (length loaded <= MAX_BACKENDS)%nat -> l = loaded ++ bs /\ Forall (good w) bs /\ (length l <= MAX_BACKENDS)%nat.
Proof.
  induction bs as [|b bs IH]; intros loaded l E L; cbn [ofold] in E.
  - injection E as <-. rewrite app_nil_r. auto.
  - unfold load_step at 1 in E. destruct (Nat.ltb_spec MAX_ARGS (length b)) as [|L1]; [discriminate|]. destruct (Nat.eqb_spec (length b) MAX_ARGS) as [|L2]; [discriminate|].
    destruct (loads w (hd_error b)) eqn:B; [|discriminate]. destruct (Nat.eqb_spec (length loaded) MAX_BACKENDS) as [|L3]; [discriminate|]. destruct (accepts w b) eqn:C; [|discriminate].
    cbn [negb bind] in E. apply IH in E; [|rewrite app_length; cbn; lia]. destruct E as (-> & F & K). rewrite <- app_assoc in *. split; [reflexivity|]. split; [|assumption].
    constructor; [|assumption]. repeat split; try assumption. lia.
Qed.
Lemma load_ub w bs : forall loaded, ofold (load_step w) bs loaded = UB -> exists b, In b bs /\ length b = MAX_ARGS.
Proof.
  induction bs as [|b bs IH]; intros loaded E; cbn [ofold] in E; [discriminate|].
  unfold load_step at 1 in E. destruct (Nat.ltb_spec MAX_ARGS (length b)) as [|L1]; [discriminate|]. destruct (Nat.eqb_spec (length b) MAX_ARGS) as [L2|L2]; [exists b; cbn; auto|].
  destruct (negb (loads w _)); [discriminate|]. destruct (Nat.eqb (length loaded) MAX_BACKENDS); [discriminate|]. destruct (negb (accepts w b)); [discriminate|].
  cbn [bind] in E. apply IH in E. destruct E as (b' & H & E). exists b'. cbn. auto.
Qed.
Lemma load_no_diverge w bs : forall loaded, ofold (load_step w) bs loaded <> Diverge.
Proof.
  induction bs as [|b bs IH]; intros loaded E; cbn [ofold] in E; [discriminate|]. unfold load_step at 1 in E.
  repeat match type of E with bind (if ?c then _ else _) _ = _ => destruct c; [discriminate|] end. cbn [bind] in E. exact (IH _ E).
Qed.
