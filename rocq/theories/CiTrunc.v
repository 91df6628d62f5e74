(** Proofs: reading a probes file that was cut short. *)
From Coq Require Import String ZArith List Bool Lia.
From stdpp Require Import base list.
From Verif Require Import Common Text HashModel Bits BitsFacts FloatOps VfiModel DDModel ProbesModel ProbesProofs CiModel CiHex CiReader.
Import ListNotations.
Open Scope Z_scope.
Open Scope py_scope.

(** ** Prefixes of lines and records *)
Lemma prefix_lines c ls : Forall (fun l => ~ In c l) ls -> forall q r, q ++ r = concat (map (fun l => l ++ [c]) ls) ->
  exists k p, split_on c q = firstn k ls ++ [p] /\ (k <= length ls)%nat /\ (p = [] \/ exists l p', nth_error ls k = Some l /\ l = p ++ p').
Proof.
  induction 1 as [|l ls Hl Hls IH]; intros q r E; cbn [map concat] in E.
  - apply app_eq_nil in E as [-> _]. exists O, []. cbn. auto.
  - rewrite <- app_assoc in E. cbn [app] in E. symmetry in E. destruct (app_eq_inv _ _ _ _ E) as [(x & E1 & E2)|(x & E1 & E2)].
    + exists O, q. split; [|split; [lia|right; exists l, x; auto]].
      cbn [firstn app]. apply split_on_nosep. intros Hi. apply Hl. rewrite E1. apply in_or_app. auto.
    + destruct x as [|d x].
      * cbn in E2. exists O, l. rewrite app_nil_r in E1. subst q. split; [cbn; apply split_on_nosep; exact Hl|]. split; [lia|].
        right. exists l, []. rewrite app_nil_r. auto.
      * cbn [app] in E2. injection E2 as <- E2. destruct (IH x r (eq_sym E2)) as (k & p & S1 & S2 & S3).
        exists (S k), p. subst q. rewrite split_on_app by exact Hl. rewrite S1. cbn [firstn app length nth_error]. split; [reflexivity|]. split; [lia|exact S3].
Qed.

Lemma split_prefix c a b p p' : ~ In c a -> a ++ c :: b = p ++ p' ->
  (exists q, p = a ++ c :: q /\ b = q ++ p') \/ split_on c p = [p].
Proof.
  intros Ha E. destruct (app_eq_inv _ _ _ _ E) as [(x & E1 & E2)|(x & E1 & E2)].
  - right. apply split_on_nosep. intros Hi. apply Ha. rewrite E1. apply in_or_app. auto.
  - destruct x as [|d x].
    + right. rewrite app_nil_r in E1. subst. apply split_on_nosep. exact Ha.
    + cbn [app] in E2. injection E2 as <- E2. left. exists x. auto.
Qed.

(** the fields of a record cut short, when it reaches the fourth field *)
Lemma partial_fields r p p' s : splits r -> line_of fmt_a r = p ++ p' -> nth_error (split_on comma p) 3 = Some s ->
  exists fs, split_on comma p = pr_test r :: pr_var r :: fmt_a (pr_val r) :: fs /\
    (fs = [s] \/ (s = fmt_a (pr_thr r) /\ exists m m', fs = [s; m] /\ mode_text (pr_mode r) = m ++ m')).
Proof.
  intros [Hc _] E Hs. unfold has_comma in Hc. assert (Ht : ~ In comma (pr_test r)) by tauto. assert (Hv : ~ In comma (pr_var r)) by tauto. unfold line_of, gen_probe_key in E. rewrite <- !app_assoc in E. cbn [app] in E.
  destruct (split_prefix comma _ _ _ _ Ht E) as [(q1 & -> & E1)|S]; [|rewrite S in Hs; discriminate].
  rewrite split_on_app in Hs |- * by tauto.
  destruct (split_prefix comma _ _ _ _ Hv E1) as [(q2 & -> & E2)|S]; [|rewrite S in Hs; discriminate].
  rewrite split_on_app in Hs |- * by tauto.
  destruct (split_prefix comma _ _ _ _ (proj1 (fmt_a_plain (pr_val r))) E2) as [(q3 & -> & E3)|S]; [|rewrite S in Hs; discriminate].
  rewrite split_on_app in Hs |- * by apply fmt_a_plain. cbn [nth_error] in Hs.
  eexists. split; [reflexivity|].
  destruct (split_prefix comma _ _ _ _ (proj1 (fmt_a_plain (pr_thr r))) E3) as [(q4 & -> & E4)|S].
  - right. rewrite split_on_app in Hs |- * by apply fmt_a_plain. cbn in Hs. injection Hs as <-. split; [reflexivity|].
    exists q4, p'. split; [|exact E4]. rewrite split_on_nosep; [reflexivity|]. intros Hi. apply (proj1 (mode_text_plain (pr_mode r))). rewrite E4. apply in_or_app. auto.
  - left. rewrite S in Hs |- *. cbn in Hs. injection Hs as <-. reflexivity.
Qed.

(** ** Columns *)
Section cells.
  Context (numeric : list Z -> option Z).

  Lemma infer_text_opt l : (exists s, In (Some s) l /\ ~ na_name s /\ numeric s = None) -> (exists s, In (Some s) l /\ ~ na_name s /\ ~ bool_name s) ->
    infer numeric l = map (fun x => if is_na x then CNA else match x with Some s => CStr s | None => CNA end) l.
  Proof.
    intros H1 H2. unfold infer.
    assert (E : forall p : list Z -> bool, (exists s, In (Some s) l /\ ~ na_name s /\ p s = false) ->
      forallb (fun x => is_na x || match x with Some s => p s | None => true end) l = false).
    { intros p (s & Hs & Hn & Hp). apply not_true_iff_false. intros Hf. rewrite forallb_forall in Hf.
      specialize (Hf (Some s) Hs). cbn [is_na] in Hf. rewrite memb_false in Hf by exact Hn. rewrite Hp in Hf. discriminate. }
    rewrite (E (is_num numeric)).
    2:{ destruct H1 as (s & A & B & C). exists s. repeat split; try assumption. unfold is_num. rewrite C. reflexivity. }
    rewrite (E is_bool); [reflexivity|].
    destruct H2 as (s & A & B & C). exists s. repeat split; try assumption. unfold is_bool, bool_name in *. rewrite !memb_false by tauto. reflexivity.
  Qed.

  Lemma infer_str l i s : nth_error (infer numeric l) i = Some (CStr s) -> nth_error l i = Some (Some s).
  Proof.
    unfold infer. rewrite nth_error_map. destruct (nth_error l i) as [x|]; cbn [option_map]; [|discriminate].
    intros [= H]. destruct (is_na x); [discriminate|]. destruct x as [w|]; [|discriminate].
    destruct (forallb _ l) in H; [destruct (numeric w); discriminate|]. destruct (forallb _ l) in H; [discriminate|]. congruence.
  Qed.

  Lemma column_doubles l vs : pmap fromhex_cell (infer numeric l) = Ret vs ->
    length vs = length l /\ forall i v, nth_error vs i = Some v -> exists s, nth_error l i = Some (Some s) /\ fromhex s = Ret v.
  Proof.
    intros H. apply pmap_in in H. split.
    - rewrite <- (infer_length numeric l). clear -H. induction H; cbn; congruence.
    - intros i v Hv. assert (exists c, nth_error (infer numeric l) i = Some c /\ fromhex_cell c = Ret v) as (c & Hc & Ec).
      { clear -H Hv. revert i Hv. induction H as [|c w l1 l2 Hcw _ IH]; intros [|i] Hv; cbn in *; try discriminate; [|auto].
        injection Hv as ->. eauto. }
      destruct c; cbn in Ec; try discriminate. eauto using infer_str.
  Qed.
End cells.

Lemma nth_zip5 a b c d e i r : nth_error (zip5 a b c d e) i = Some r ->
  nth_error a i = Some (p_test r) /\ nth_error b i = Some (p_var r) /\ nth_error c i = Some (p_val r) /\ nth_error d i = Some (p_thr r) /\ nth_error e i = Some (p_mode r).
Proof.
  revert a b c d e. induction i as [|i IH]; intros [|a la] [|b lb] [|c lc] [|d ld] [|e le] H; cbn in H; try discriminate.
  - injection H as <-. cbn. auto.
  - cbn [nth_error]. apply IH. exact H.
Qed.
Lemma length_zip5 a b c d e n : length a = n -> length b = n -> length c = n -> length d = n -> length e = n -> length (zip5 a b c d e) = n.
Proof.
  revert n b c d e. induction a as [|x a IH]; intros n [|y b] [|z c] [|t d] [|u e]; cbn; intros; try congruence.
  destruct n; [discriminate|]. rewrite (IH n); congruence.
Qed.

(** ** The main statement *)
Section trunc.
  Context (numeric : list Z -> option Z) (Hx : hex_not_numeric numeric) (Hmn : modes_not_numeric numeric).

  Definition solid (r : probe_req) : Prop :=
    splits r /\ ~ na_name (pr_test r) /\ ~ na_name (pr_var r) /\ good_double (pr_val r) /\ good_double (pr_thr r) /\
    numeric (pr_test r) = None /\ numeric (pr_var r) = None /\ ~ bool_name (pr_test r) /\ ~ bool_name (pr_var r).

  (** a row against the request it comes from: names and value are those of the request, and so is everything else unless
      its check mode is neither of the two checks *)
  Definition same_probe (row : prow) (r : probe_req) : Prop :=
    p_test row = CStr (pr_test r) /\ p_var row = CStr (pr_var r) /\ p_val row = pr_val r.
  Definition unchecked (row : prow) : Prop := mode_is (p_mode row) "absolute" = false /\ mode_is (p_mode row) "relative" = false.

  Definition frame_rows (qs : list probe_req) (extra : list (list (list Z))) := map (req_fields fmt_a) qs ++ extra.

  Lemma names_column (g : probe_req -> list Z) i l :
    (forall r, In r l -> ~ na_name (g r) /\ numeric (g r) = None /\ ~ bool_name (g r)) ->
    l <> [] -> nth_error (infer numeric (map (fun r => Some (g r)) l)) i = option_map (fun r => CStr (g r)) (nth_error l i).
  Proof.
    intros H Hne. destruct l as [|r0 l0] eqn:El; [congruence|]. rewrite <- El in *.
    assert (Hr0 : In r0 l) by (rewrite El; left; reflexivity).
    rewrite infer_text_opt.
    - rewrite map_map, nth_error_map. destruct (nth_error l i) as [r|] eqn:E; cbn [option_map]; [|reflexivity].
      apply nth_error_In in E. destruct (H r E) as (A & _). cbn [is_na]. rewrite memb_false by exact A. reflexivity.
    - exists (g r0). destruct (H r0 Hr0) as (A & B & C). split; [apply in_map_iff; eauto|auto].
    - exists (g r0). destruct (H r0 Hr0) as (A & B & C). split; [apply in_map_iff; eauto|auto].
  Qed.

  Lemma unchecked_prefix m m' r : mode_text r = m ++ m' -> m' <> [] -> forall c, nth_error (infer numeric [Some m]) 0 = Some c \/ c = CStr m ->
    mode_is c "absolute" = false /\ mode_is c "relative" = false.
  Proof.
    intros E Hne c Hc. assert (N : forall w, In w [bytes "absolute"%string; bytes "relative"%string] -> text_eqb m w = false).
    { intros w Hw. apply not_true_iff_false. rewrite text_eqb_true. intros ->.
      destruct Hw as [<- |[<- |[]]]; destruct r; try (apply (f_equal (firstn 1)) in E; discriminate);
        apply Hne; apply (f_equal (skipn 8)) in E; symmetry; exact E. }
    unfold mode_is. destruct c as [s| | |]; auto.
    assert (s = m) as ->.
    { destruct Hc as [Hc|Hc]; [|congruence]. apply infer_str in Hc. cbn in Hc. congruence. }
    split; apply N; cbn; auto.
  Qed.

  Lemma infer_mode_entry l i m c : nth_error l i = Some (Some m) -> nth_error (infer numeric l) i = Some c -> c = CStr m \/ forall s, c <> CStr s.
  Proof.
    intros Hl Hc. destruct c as [s| | |]; [|right; discriminate..]. left. apply infer_str in Hc. congruence.
  Qed.

  (** reading a frame made of whole records and possibly one cut record *)
  Definition cut_record (ex : option (probe_req * list Z)) : list (list (list Z)) := match ex with None => [] | Some (_, p) => [split_on comma p] end.
  Lemma read_frame qs ex (extra := cut_record ex) w rows : Forall solid qs ->
    (forall r p, ex = Some (r, p) -> solid r /\ exists p', line_of fmt_a r = p ++ p') ->
    (do vals <- column numeric (header_names, frame_rows qs extra) (bytes "value"%string);
     do vs <- pmap fromhex_cell vals;
     do thrs <- column numeric (header_names, frame_rows qs extra) (bytes "accuracy_threshold"%string);
     do ts <- pmap fromhex_cell thrs;
     do test <- column numeric (header_names, frame_rows qs extra) (bytes "test"%string);
     do var <- column numeric (header_names, frame_rows qs extra) (bytes "variable"%string);
     do mode <- column numeric (header_names, frame_rows qs extra) (bytes "check_mode"%string);
     Ret (match snd (header_names, frame_rows qs extra) with [] => true | _ => false end, zip5 test var vs ts mode)) = Ret (w, rows) ->
    length rows = (length qs + length extra)%nat /\ (w = true <-> rows = []) /\
    forall i row, nth_error rows i = Some row ->
      (exists r, nth_error qs i = Some r /\ row = row_of r) \/
      (i = length qs /\ exists r p, ex = Some (r, p) /\ same_probe row r /\ (row = row_of r \/ unchecked row)).
  Proof.
    intros Hq He. unfold column. cbn [fst snd].
    repeat (match goal with |- context [index_of ?a ?b] => let v := eval vm_compute in (index_of a b) in change (index_of a b) with v end; cbv iota).
    cbn [pbind]. set (R := frame_rows qs extra). set (col := fun k : nat => map (fun row : list (list Z) => nth_error row k) R).
    change (map (fun row : list (list Z) => nth_error row 2%nat) R) with (col 2%nat). change (map (fun row : list (list Z) => nth_error row 3%nat) R) with (col 3%nat).
    change (map (fun row : list (list Z) => nth_error row 0%nat) R) with (col 0%nat). change (map (fun row : list (list Z) => nth_error row 1%nat) R) with (col 1%nat).
    change (map (fun row : list (list Z) => nth_error row 4%nat) R) with (col 4%nat).
    destruct (pmap fromhex_cell (infer numeric (col 2%nat))) as [vs| | |] eqn:Ev; cbn [pbind]; try discriminate.
    destruct (pmap fromhex_cell (infer numeric (col 3%nat))) as [ts| | |] eqn:Et; cbn [pbind]; try discriminate.
    intros [= <- <-]. apply column_doubles in Ev as [Lv Ev]. apply column_doubles in Et as [Lt Et].
    assert (LR : length R = (length qs + length extra)%nat) by (unfold R, frame_rows; rewrite app_length, map_length; reflexivity).
    assert (LC : forall k, length (col k) = length R) by (intros k; apply map_length).
    rewrite LC in Lv, Lt.
    assert (LZ : length (zip5 (infer numeric (col 0%nat)) (infer numeric (col 1%nat)) vs ts (infer numeric (col 4%nat))) = length R)
      by (apply length_zip5; rewrite ?infer_length; auto).
    split; [rewrite LZ; exact LR|]. split.
    { split.
      - intros HR. apply length_zero_iff_nil. rewrite LZ. destruct R; [reflexivity|discriminate].
      - intros E. rewrite E in LZ. destruct R; [reflexivity|discriminate]. }
    (* the extra record reaches its fourth field *)
    assert (X : forall r p, ex = Some (r, p) -> solid r /\ exists s fs, split_on comma p = pr_test r :: pr_var r :: fmt_a (pr_val r) :: fs /\
      (fs = [s] \/ (s = fmt_a (pr_thr r) /\ exists m m', fs = [s; m] /\ mode_text (pr_mode r) = m ++ m'))).
    { intros r p Eex. destruct (He r p Eex) as (Hr & p' & E). split; [exact Hr|].
      assert (exists t, nth_error ts (length qs) = Some t) as [t Ht].
      { destruct (nth_error ts (length qs)) eqn:N; [eauto|]. apply nth_error_None in N. rewrite Lt, LR in N. unfold extra in N. rewrite Eex in N. cbn in N. lia. }
      destruct (Et _ _ Ht) as (s & Hs & _). unfold col, R, frame_rows, extra in Hs. rewrite Eex, map_app, nth_error_app2 in Hs by (rewrite !map_length; lia).
      rewrite !map_length, Nat.sub_diag in Hs. cbn in Hs. injection Hs as Hs.
      destruct (partial_fields r p p' s (proj1 Hr) E Hs) as (fs & F1 & F2). exists s, fs. auto. }
    (* the requests the rows come from *)
    set (all := qs ++ match ex with None => [] | Some (r, _) => [r] end).
    assert (Hall : forall r, In r all -> solid r).
    { rewrite List.Forall_forall in Hq. intros r Hr. apply in_app_iff in Hr as [Hr|Hr]; [auto|].
      destruct ex as [[r0 p0]|]; [|destruct Hr]. destruct Hr as [<- |[]]. apply (X r0 p0 eq_refl). }
    assert (Lall : length all = length R) by (unfold all, R, frame_rows, extra, cut_record; rewrite !app_length, map_length; destruct ex as [[r0 p0]|]; reflexivity).
    assert (C : col 0%nat = map (fun r => Some (pr_test r)) all /\ col 1%nat = map (fun r => Some (pr_var r)) all /\ col 2%nat = map (fun r => Some (fmt_a (pr_val r))) all).
    { unfold col, R, frame_rows, all, extra, cut_record. rewrite !map_app, !map_map. destruct ex as [[r0 p0]|]; [|repeat split].
      destruct (X r0 p0 eq_refl) as (_ & s & fs & F & _). cbn [map]. rewrite F. repeat split. }
    destruct C as (C0 & C1 & C2).
    intros i row Hrow. pose proof Hrow as Hrow'. apply nth_zip5 in Hrow as (N1 & N2 & N3 & N4 & N5).
    assert (Hi : (i < length R)%nat) by (rewrite <- LZ; apply nth_error_Some; congruence).
    assert (exists r, nth_error all i = Some r) as [r Hri].
    { destruct (nth_error all i) eqn:N; [eauto|]. apply nth_error_None in N. lia. }
    assert (Hne : all <> []) by (intros ->; destruct i; discriminate).
    assert (Hsol : solid r) by (apply Hall; eapply nth_error_In; exact Hri).
    rewrite C0, names_column in N1 by (try exact Hne; intros r' Hr'; destruct (Hall r' Hr') as (_ & ? & ? & ? & ? & ? & ? & ? & ?); auto).
    rewrite C1, names_column in N2 by (try exact Hne; intros r' Hr'; destruct (Hall r' Hr') as (_ & ? & ? & ? & ? & ? & ? & ? & ?); auto).
    rewrite Hri in N1, N2. cbn in N1, N2. injection N1 as N1. injection N2 as N2.
    assert (V : p_val row = pr_val r).
    { destruct (Ev _ _ N3) as (s & Hs & Es). rewrite C2, nth_error_map, Hri in Hs. cbn in Hs. injection Hs as <-.
      destruct Hsol as (_ & _ & _ & [Hb Hn] & _). rewrite fromhex_fmt in Es by assumption. congruence. }
    destruct (Nat.lt_ge_cases i (length qs)) as [Hlt|Hge].
    - left. assert (Hq' : nth_error qs i = Some r).
      { rewrite <- Hri. unfold all. rewrite nth_error_app1 by exact Hlt. reflexivity. }
      exists r. split; [exact Hq'|].
      assert (FR : nth_error R i = Some (req_fields fmt_a r)).
      { unfold R, frame_rows. rewrite nth_error_app1 by (rewrite map_length; exact Hlt). rewrite nth_error_map, Hq'. reflexivity. }
      assert (T : p_thr row = pr_thr r).
      { destruct (Et _ _ N4) as (s & Hs & Es). unfold col in Hs. rewrite nth_error_map, FR in Hs. cbn in Hs. injection Hs as <-.
        destruct Hsol as (_ & _ & _ & _ & [Hb Hn] & _). rewrite fromhex_fmt in Es by assumption. congruence. }
      assert (M : p_mode row = CStr (mode_text (pr_mode r))).
      { assert (In (Some (mode_text (pr_mode r))) (col 4%nat)) as Hin.
        { unfold col. apply in_map_iff. exists (req_fields fmt_a r). split; [reflexivity|]. eapply nth_error_In. exact FR. }
        rewrite infer_text_opt in N5; [|exists (mode_text (pr_mode r)); auto using mode_not_na..|exists (mode_text (pr_mode r)); auto using mode_not_na, mode_not_bool].
        unfold col in N5. rewrite map_map, nth_error_map, FR in N5. cbn [option_map req_fields nth_error is_na] in N5.
        rewrite memb_false in N5 by apply mode_not_na. congruence. }
      destruct row; cbn in *. unfold row_of. congruence.
    - right. assert (i = length qs) as ->.
      { unfold R, frame_rows, extra, cut_record in Hi. rewrite app_length, map_length in Hi. destruct ex as [[r0 p0]|]; cbn in Hi; lia. }
      split; [reflexivity|]. unfold all in Hri. rewrite nth_error_app2, Nat.sub_diag in Hri by lia.
      destruct ex as [[r0 p]|]; [|discriminate]. cbn in Hri. injection Hri as ->.
      destruct (X r p eq_refl) as (Hr1 & s & fs & F & Fs). exists r, p. split; [reflexivity|].
      assert (FR : nth_error R (length qs) = Some (split_on comma p)).
      { unfold R, frame_rows. rewrite nth_error_app2 by (rewrite map_length; lia). rewrite map_length, Nat.sub_diag. reflexivity. }
      assert (G : forall k, nth_error (col k) (length qs) = Some (nth_error (split_on comma p) k)) by (intros k; unfold col; rewrite nth_error_map, FR; reflexivity).
      split; [unfold same_probe; auto|].
      destruct Fs as [-> |(-> & m & m' & -> & Em)].
      + right. assert (p_mode row = CNA) as M.
        { assert (nth_error (infer numeric (col 4%nat)) (length qs) = Some CNA) as A; [|congruence].
          apply infer_na. left. rewrite G, F. reflexivity. }
        unfold unchecked. rewrite M. auto.
      + pose proof (infer_mode_entry (col 4%nat) (length qs) m (p_mode row) ltac:(rewrite G, F; reflexivity) N5) as D.
        destruct m' as [|c m'].
        * rewrite app_nil_r in Em. destruct D as [D|D]; [left|right; unfold unchecked, mode_is; destruct (p_mode row) as [z| | |]; auto; exfalso; eapply D; reflexivity].
          assert (T : p_thr row = pr_thr r).
          { destruct (Et _ _ N4) as (w & Hw & Ew). rewrite G, F in Hw. cbn in Hw. injection Hw as <-.
            destruct Hr1 as (_ & _ & _ & _ & [Hb Hn] & _). rewrite fromhex_fmt in Ew by assumption. congruence. }
          destruct row; cbn in *. unfold row_of. congruence.
        * right. destruct D as [D|D].
          -- eapply (unchecked_prefix m (c :: m')); [exact Em|discriminate|right; exact D].
          -- unfold unchecked, mode_is. destruct (p_mode row) as [z| | |]; auto. exfalso. eapply D. reflexivity.
  Qed.

  Lemma lines_file ps q q' : Forall solid ps -> q ++ q' = file_of ps ->
    (lines q = [] \/ exists p p', csv_header = p ++ p' /\ lines q = [p]) \/
    exists j p, (j <= length ps)%nat /\ lines q = csv_header :: map (line_of fmt_a) (firstn j ps) ++ (if forallb is_blank p then [] else [p]) /\
      (forallb is_blank p = true \/ exists r p', nth_error ps j = Some r /\ line_of fmt_a r = p ++ p').
  Proof.
    intros Hs E. assert (Hnl : Forall (fun l => ~ In newline l) (csv_header :: map (line_of fmt_a) ps)).
    { constructor; [exact header_no_newline|]. apply List.Forall_map. eapply List.Forall_impl; [|exact Hs].
      intros r [[_ H] _]. apply line_no_newline; [exact H|intros v; apply fmt_a_plain]. }
    destruct (prefix_lines newline _ Hnl q q') as (k & p & S1 & S2 & S3).
    { rewrite E. unfold file_of. cbn [map concat]. rewrite <- app_assoc. reflexivity. }
    unfold lines. rewrite S1, List.filter_app. cbn [List.filter]. destruct k as [|j].
    - left. cbn [firstn List.filter app]. destruct (forallb is_blank p) eqn:B; cbn [negb]; [left; reflexivity|right].
      destruct S3 as [-> |(l & p' & Hl & ->)]; [discriminate|]. cbn in Hl. injection Hl as Hl. exists p, p'. auto.
    - right. exists j, p. split; [cbn in S2; rewrite map_length in S2; lia|]. cbn [firstn List.filter].
      change (forallb is_blank csv_header) with false. cbn [negb app]. rewrite firstn_map, filter_lines.
      2:{ apply List.Forall_map, List.Forall_forall. intros r _. apply line_not_blank. }
      split; [destruct (forallb is_blank p); cbn [negb]; rewrite ?app_nil_r; reflexivity|].
      destruct S3 as [-> |(l & p' & Hl & ->)]; [left; reflexivity|right]. cbn [nth_error] in Hl. rewrite nth_error_map in Hl.
      destruct (nth_error ps j) as [r|]; [|discriminate]. cbn in Hl. injection Hl as Hl. exists r, p'. auto.
  Qed.

  Theorem read_truncated ps q q' w rows : Forall solid ps -> q ++ q' = file_of ps -> read_probes numeric q = Ret (w, rows) ->
    (w = true <-> rows = []) /\
    forall i row, nth_error rows i = Some row -> exists r, nth_error ps i = Some r /\ same_probe row r /\
      (row = row_of r \/ (S i = length rows /\ unchecked row)).
  Proof.
    intros Hs E. unfold read_probes, read_csv. destruct (lines_file ps q q' Hs E) as [[-> |(p & p' & _ & ->)]|(j & p & Hj & -> & Hp)].
    - intros [= <- <-]. split; [tauto|]. intros [|i] row H; discriminate.
    - cbn [map]. unfold column. cbn [fst snd map]. change (infer numeric []) with (@nil cell).
      repeat (match goal with |- context [index_of ?a ?b] => destruct (index_of a b); cbn [pbind pmap]; try discriminate end).
      intros [= <- <-]. cbn [zip5]. split; [tauto|]. intros [|i] row H; discriminate.
    - rewrite header_split, map_app, map_map.
      assert (Hq : Forall solid (firstn j ps)) by (apply List.Forall_forall; intros r Hr; rewrite List.Forall_forall in Hs; apply Hs; revert Hr; clear; revert ps; induction j as [|j IH]; intros [|x ps]; cbn; tauto || (intros [H|H]; auto)).
      replace (map (fun x => split_on comma (line_of fmt_a x)) (firstn j ps)) with (map (req_fields fmt_a) (firstn j ps)).
      2:{ apply map_ext_in. intros r Hr. symmetry. rewrite List.Forall_forall in Hq. apply split_line; [apply (Hq r Hr)|intros v; apply fmt_a_plain]. }
      assert (exists ex, map (split_on comma) (if forallb is_blank p then [] else [p]) = cut_record ex /\
        forall r p, ex = Some (r, p) -> nth_error ps j = Some r /\ solid r /\ exists p', line_of fmt_a r = p ++ p') as (ex & -> & Hex).
      { destruct (forallb is_blank p) eqn:B; [exists None; split; [reflexivity|discriminate]|].
        destruct Hp as [Hp|(r0 & p0' & Hr0 & El0)]; [congruence|]. exists (Some (r0, p)). split; [reflexivity|]. intros r1 p1 [= <- <-].
        split; [exact Hr0|]. split; [|eauto]. rewrite List.Forall_forall in Hs. apply Hs. eapply nth_error_In. exact Hr0. }
      intros H. apply (read_frame (firstn j ps) ex w rows Hq) in H; [|intros r p1 Hr; destruct (Hex r p1 Hr) as (_ & ?); assumption].
      destruct H as (L & Hw & H). split; [exact Hw|]. intros i row Hrow.
      assert (Lj : length (firstn j ps) = j) by (rewrite firstn_length; lia).
      assert (Fn : forall n (l : list probe_req) i r, nth_error (firstn n l) i = Some r -> nth_error l i = Some r).
      { clear. induction n as [|n IH]; intros [|x l] [|i] r; cbn; try discriminate; auto. }
      destruct (H i row Hrow) as [(r & Hr & ->)|(-> & r & p1 & -> & Hsp & Hrow2)].
      + exists r. split; [exact (Fn _ _ _ _ Hr)|]. split; [repeat split|left; reflexivity].
      + exists r. rewrite Lj in *. split; [apply (Hex r p1 eq_refl)|]. split; [exact Hsp|].
        destruct Hrow2 as [|Hu]; [left; assumption|right]. split; [rewrite L; cbn; lia|exact Hu].
  Qed.
End trunc.
