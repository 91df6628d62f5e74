(** Proofs about the files of precexp.py: the profile of VPREC read, the configuration written, the configuration read by VPREC. *)
From Coq Require Import ZArith List Bool Lia Sorting.
From Verif Require Import Common Text HashModel VprecDenormal DdebugModel WrapParseProofs DDModel VfiModel VfiProofs VfiFile PrecexpModel PrecexpProofs.
Import ListNotations.
Open Scope Z_scope.
Open Scope py_scope.

(** ** Text *)
Definition body (ws : list (list Z)) : list Z := match ws with [] => [] | w :: l => w ++ concat (map (fun x => tab :: x) l) end.
Lemma columns_body ws : columns ws = body ws ++ [newline].
Proof. destruct ws; reflexivity. Qed.
Lemma split_body ws : ws <> [] -> Forall (no tab) ws -> split_on tab (body ws) = ws.
Proof.
  destruct ws as [|w ws]; [congruence|]. intros _ H. inversion H as [|? ? Hw Hs]; subst. clear H. cbn [body]. revert w Hw. induction Hs as [|x ws Hx _ IH]; intros w Hw; cbn [map concat].
  - rewrite app_nil_r. apply split_on_nosep. exact Hw.
  - cbn [app]. rewrite split_on_app by exact Hw. f_equal. apply IH. exact Hx.
Qed.
Lemma body_no c ws : c <> tab -> Forall (no c) ws -> no c (body ws).
Proof.
  intros N. destruct 1 as [|w ws Hw Hs]; [intros []|]. cbn [body]. apply no_app. split; [exact Hw|]. induction Hs as [|x ws Hx _ IH]; cbn [map concat app]; [intros []|].
  apply no_cons. split; [congruence|]. apply no_app. auto.
Qed.
Lemma lines_concat ls : Forall (no newline) ls -> py_lines (concat (map (fun b => b ++ [newline]) ls)) = ls.
Proof.
  intros H. unfold py_lines. rewrite split_on_lines by exact H. rewrite last_last, removelast_last. reflexivity.
Qed.

(** a word: not empty, without blanks *)
Definition word (w : list Z) : Prop := w <> [] /\ Forall (fun c => is_space c = false) w.
Lemma py_split_word w : forall r cur, Forall (fun c => is_space c = false) w -> py_split (w ++ r) cur = py_split r (rev w ++ cur).
Proof. induction w as [|c w IH]; intros r cur H; [reflexivity|]. inversion H as [|? ? H1 H2]; subst. cbn [app py_split rev]. rewrite H1, IH by exact H2. rewrite <- app_assoc. reflexivity. Qed.
Lemma rev_nonnil {A} (l : list A) : l <> [] -> rev l <> [].
Proof. intros H E. apply H. rewrite <- (rev_involutive l), E. reflexivity. Qed.
Lemma py_split_body ws : Forall word ws -> py_split (body ws) [] = ws.
Proof.
  destruct 1 as [|w ws Hw Hs]; [reflexivity|]. cbn [body]. revert w Hw. induction Hs as [|x ws Hx _ IH]; intros w [Nw Hw]; cbn [map concat].
  - rewrite py_split_word by exact Hw. cbn [py_split]. rewrite app_nil_r. destruct (rev w) eqn:E; [apply rev_nonnil in Nw; congruence|]. rewrite <- E, rev_involutive. reflexivity.
  - rewrite py_split_word by exact Hw. cbn [app py_split]. change (is_space tab) with true. cbv iota. rewrite app_nil_r.
    destruct (rev w) eqn:E; [apply rev_nonnil in Nw; congruence|]. rewrite <- E, rev_involutive. f_equal. apply IH. exact Hx.
Qed.

(** ** Numbers *)
Lemma zdec_space k : int32 k -> Forall (fun c => is_space c = false) (zdec k).
Proof.
  intros H. eapply List.Forall_impl; [|apply zdec_bytes; exact H]. intros c Hc. cbv beta in Hc. unfold is_space. destruct (Z.eqb_spec c 32), (Z.leb_spec 9 c), (Z.leb_spec c 13); try lia; reflexivity.
Qed.
Lemma skip_none l : Forall (fun c => is_space c = false) l -> skip_spaces l = l.
Proof. destruct 1 as [|c l H _]; [reflexivity|]. cbn. rewrite H. reflexivity. Qed.
Lemma digits_all l : Forall (fun c => 48 <= c <= 57) l -> forallb is_digit l = true.
Proof. induction 1 as [|c l H _ IH]; [reflexivity|]. cbn. rewrite IH. unfold is_digit. destruct (Z.leb_spec 48 c), (Z.leb_spec c 57); try lia; reflexivity. Qed.
Lemma py_int_zdec k : int32 k -> py_int (zdec k) = Ret k.
Proof.
  intros H. unfold int32 in H. assert (B : 2 ^ 31 < 10 ^ Z.of_nat 19) by (cbn; lia). unfold py_int.
  rewrite (skip_none (zdec k)) by (apply zdec_space; exact H). rewrite (skip_none (rev (zdec k))) by (apply List.Forall_rev, zdec_space; exact H). rewrite rev_involutive.
  unfold zdec. destruct (Z.ltb_spec k 0).
  - rewrite Z.eqb_refl. destruct (udec 19 (- k)) eqn:E; [apply udec_nonnil in E; contradiction|]. rewrite <- E. rewrite digits_all by (apply udec_digits; lia).
    cbn [pbind]. f_equal. pose proof (read_udec 19 (- k) [] ltac:(lia) ltac:(lia) I) as R. rewrite app_nil_r in R. rewrite R. lia.
  - pose proof (udec_digits 19 k ltac:(lia)) as D. destruct (udec 19 k) as [|c l] eqn:E; [apply udec_nonnil in E; contradiction|]. inversion D as [|? ? D1 D2]; subst.
    destruct (Z.eqb_spec c 45); [lia|]. destruct (Z.eqb_spec c 43); [lia|]. rewrite <- E. rewrite digits_all by (apply udec_digits; lia).
    f_equal. pose proof (read_udec 19 k [] ltac:(lia) ltac:(lia) I) as R. rewrite app_nil_r in R. exact R.
Qed.
Lemma py_ints_zdec l : Forall int32 l -> py_ints (map zdec l) = Ret l.
Proof. induction 1 as [|k l H _ IH]; [reflexivity|]. cbn [map py_ints]. rewrite py_int_zdec, IH by exact H. reflexivity. Qed.
Lemma word_zdec k : int32 k -> word (zdec k).
Proof. intros H. split; [apply zdec_nonnil|apply zdec_space; exact H]. Qed.

(** ** Function identifiers: File/Parent/Name/Line/Number (libVFCFuncInstrument.cpp) *)
Definition slash : Z := 47.
Definition full_id (file parent name : list Z) (line number : Z) : list Z := (((file ++ slash :: parent) ++ slash :: name) ++ slash :: zdec line) ++ slash :: zdec number.
Lemma rcut_none l : no slash l -> rcut l = None.
Proof. induction l as [|c l IH]; intros H; [reflexivity|]. apply no_cons in H. destruct H as [H1 H2]. cbn [rcut]. rewrite IH by exact H2. unfold slash in H1; destruct (Z.eqb_spec c 47); [contradiction|reflexivity]. Qed.
Lemma rcut_app a b : no slash b -> rcut (a ++ slash :: b) = Some (a, b).
Proof. intros H. induction a as [|c a IH]; cbn [app rcut]; [rewrite rcut_none by exact H; reflexivity|]. rewrite IH. reflexivity. Qed.
Lemma no_slash_zdec k : int32 k -> no slash (zdec k).
Proof.
  intros H I. unfold int32 in H. assert (B : 2 ^ 31 < 10 ^ Z.of_nat 19) by (cbn; lia). unfold zdec, slash in I. destruct (Z.ltb_spec k 0).
  - apply in_inv in I. destruct I as [I|I]; [lia|]. pose proof (udec_digits 19 (- k) ltac:(lia)) as D. rewrite List.Forall_forall in D. apply D in I. lia.
  - pose proof (udec_digits 19 k ltac:(lia)) as D. rewrite List.Forall_forall in D. apply D in I. lia.
Qed.
Lemma function_info_id file parent name line number : no slash parent -> no slash name -> int32 line -> int32 number ->
  function_info (full_id file parent name line number) = Ret (name, parent).
Proof.
  intros Hp Hn Hl Hk. unfold function_info, full_id, cut.
  rewrite rcut_app by (apply no_slash_zdec; exact Hk). rewrite py_int_zdec by exact Hk. cbn [pbind].
  rewrite rcut_app by (apply no_slash_zdec; exact Hl). rewrite py_int_zdec by exact Hl. cbn [pbind].
  rewrite rcut_app by exact Hn. rewrite rcut_app by exact Hp. reflexivity.
Qed.

(** ** A profile written by VPREC *)
(** the rows getProfile makes of a function *)
Definition row_of (v : vfi) : prow :=
  mk_prow (v_id v) (v_lib v) (v_intr v) (v_float v) (v_double v) (v_prec64 v) (v_range64 v) (v_prec32 v) (v_range32 v) (v_nin v) (v_nout v) (v_calls v).
Definition arg_row (v : vfi) (label : list Z) (d : varg) : arow := mk_arow (v_id v) (a_id d) (v_lib v) (v_intr v) label (a_type d) (a_mant d) (a_exp d) (a_min d) (a_max d) (v_calls v).
Definition vargs (l : option (list varg)) : list varg := match l with Some ds => ds | None => [] end.
Definition arg_rows (v : vfi) : list arow := map (arg_row v label_in) (vargs (v_in v)) ++ map (arg_row v label_out) (vargs (v_out v)).

(** a function as verificarlo names it *)
Record named (v : vfi) (file parent name : list Z) (line number : Z) : Prop :=
  { n_id : v_id v = full_id file parent name line number; n_parent : no slash parent; n_name : no slash name; n_line : int32 line; n_number : int32 number }.
Definition profile_ok (v : vfi) : Prop :=
  function_ok v /\ (exists file parent name line number, named v file parent name line number) /\ Forall (fun d => word (a_id d)) (vargs (v_in v) ++ vargs (v_out v)).
(** the name and the parent of the function *)
Definition name_of (v : vfi) : list Z * list Z := match function_info (v_id v) with Ret p => p | _ => ([], []) end.
Definition selected (wanted : list (list Z)) (v : vfi) : bool :=
  match wanted with [] => true | _ => false end || listed (fst (name_of v)) wanted || listed (snd (name_of v)) wanted.

Definition head_line (v : vfi) : list Z := body (v_id v :: map zdec [v_lib v; v_intr v; v_float v; v_double v; v_prec64 v; v_range64 v; v_prec32 v; v_range32 v; v_nin v; v_nout v; v_calls v]).
Definition arg_line (label : list Z) (d : varg) : list Z := body [label; a_id d; zdec (a_type d); zdec (a_mant d); zdec (a_exp d); zdec (a_min d); zdec (a_max d)].
Definition lines_of (v : vfi) : list (list Z) := head_line v :: map (arg_line label_in) (vargs (v_in v)) ++ map (arg_line label_out) (vargs (v_out v)).

Lemma args_count n l : args_ok n l -> Z.to_nat n = length (vargs l) /\ 0 <= n /\ Forall arg_ok (vargs l).
Proof. destruct l as [ds|]; cbn; [intros [-> H]; rewrite Nat2Z.id; repeat split; [lia|exact H]|intros ->; repeat split; [lia|constructor]]. Qed.
Lemma write_lines v : function_ok v -> write_function v = Ok (concat (map (fun b => b ++ [newline]) (lines_of v))).
Proof.
  intros (_ & _ & _ & _ & Hi & Ho). unfold write_function.
  assert (W : forall label n l, args_ok n l -> write_args label n l = Ok (concat (map (fun b => b ++ [newline]) (map (arg_line label) (vargs l))))).
  { intros label n l H. destruct (args_count n l H) as (C & P & _). unfold write_args. fold (vargs l). destruct (Z.leb_spec n (Z.of_nat (length (vargs l)))); [|lia].
    rewrite C, firstn_all, map_map. reflexivity. }
  rewrite (W label_in _ _ Hi), (W label_out _ _ Ho). cbn [bind]. f_equal. unfold lines_of. cbn [map concat]. rewrite map_app, concat_app. reflexivity.
Qed.
Lemma profile_lines t text : Forall (fun kv => function_ok (snd kv)) t -> write_profile t = Ok text -> text = concat (map (fun b => b ++ [newline]) (concat (map (fun kv => lines_of (snd kv)) t))).
Proof.
  revert text. induction t as [|[k v] t IH]; intros text H W; cbn [write_profile] in W; [injection W as <-; reflexivity|]. inversion H as [|? ? H1 H2]; subst. cbn [snd] in *.
  rewrite write_lines in W by exact H1. cbn [bind] in W. destruct (write_profile t) as [b| | |]; try discriminate. cbn [bind] in W. apply Ok_inj in W. subst text. change (concat (map (fun kv => lines_of (snd kv)) ((k, v) :: t))) with (lines_of v ++ concat (map (fun kv => lines_of (snd kv)) t)).
  rewrite map_app, concat_app, <- (IH b H2 eq_refl). reflexivity.
Qed.

Lemma int32_8 c : - 2 ^ 7 <= c < 2 ^ 7 -> int32 c.
Proof. unfold int32. lia. Qed.
Lemma int32_16 c : - 2 ^ 15 <= c < 2 ^ 15 -> int32 c.
Proof. unfold int32. lia. Qed.
Lemma header_ints v : function_ok v -> Forall int32 [v_lib v; v_intr v; v_float v; v_double v; v_prec64 v; v_range64 v; v_prec32 v; v_range32 v; v_nin v; v_nout v; v_calls v].
Proof.
  intros (_ & _ & I3 & I4 & _). change (Forall int32 ([v_lib v; v_intr v; v_float v; v_double v] ++ [v_prec64 v; v_range64 v; v_prec32 v; v_range32 v; v_nin v; v_nout v; v_calls v])).
  apply List.Forall_app. split; [|exact I4]. eapply List.Forall_impl; [|exact I3]. apply int32_8.
Qed.
Lemma no_zdec c k : int32 k -> c < 45 \/ 57 < c -> no c (zdec k).
Proof. intros H N I. pose proof (zdec_bytes k H) as B. rewrite List.Forall_forall in B. apply B in I. lia. Qed.
Lemma head_words v : function_ok v -> split_on tab (head_line v) = v_id v :: map zdec [v_lib v; v_intr v; v_float v; v_double v; v_prec64 v; v_range64 v; v_prec32 v; v_range32 v; v_nin v; v_nout v; v_calls v].
Proof.
  intros H. unfold head_line. apply split_body; [discriminate|]. constructor; [apply H|]. apply List.Forall_map. eapply List.Forall_impl; [|apply header_ints; exact H]. intros k Hk. apply no_zdec; [exact Hk|unfold tab; lia].
Qed.
Lemma lines_no_newline v : function_ok v -> Forall (no newline) (lines_of v).
Proof.
  intros H. pose proof H as ((_ & _ & I1 & _) & _ & _ & _ & Hi & Ho). assert (T : newline <> tab) by discriminate.
  assert (Z0 : forall k, int32 k -> no newline (zdec k)) by (intros k Hk; apply no_zdec; [exact Hk|unfold newline; lia]).
  assert (A : forall label n l, no newline label -> args_ok n l -> Forall (no newline) (map (arg_line label) (vargs l))).
  { intros label n l L Ha. apply args_count in Ha. destruct Ha as (_ & _ & Ha). apply List.Forall_map. eapply List.Forall_impl; [|exact Ha]. intros d (D1 & D2 & D3 & D4 & D5 & D6 & D7).
    unfold arg_line. apply body_no; [exact T|]. repeat (constructor; auto). apply D1. all: try (apply Z0; auto using int32_16). }
  unfold lines_of. constructor.
  - apply body_no; [exact T|]. constructor; [exact I1|]. apply List.Forall_map. eapply List.Forall_impl; [|apply header_ints; exact H]. intros k Hk. apply Z0. exact Hk.
  - apply List.Forall_app. split; eapply A; eauto; [apply plain_label_in|apply plain_label_out].
Qed.

Lemma read_argument_lines v label ds r m : word label -> Forall arg_ok ds -> Forall (fun d => word (a_id d)) ds ->
  read_arguments (v_id v) (v_lib v) (v_intr v) (v_calls v) (length ds + m) (map (arg_line label) ds ++ r) =
  do rest <- read_arguments (v_id v) (v_lib v) (v_intr v) (v_calls v) m r; Ret (map (arg_row v label) ds ++ rest).
Proof.
  intros L H W. induction H as [|d ds Hd _ IH]; cbn [length map app Nat.add]; [destruct (read_arguments _ _ _ _ m r); reflexivity|].
  inversion W as [|? ? W1 W2]; subst. destruct Hd as (D1 & D2 & D3 & D4 & D5 & D6 & D7). cbn [read_arguments]. unfold arg_line at 1.
  rewrite py_split_body by (repeat (constructor; auto using word_zdec, int32_16)).
  change [zdec (a_type d); zdec (a_mant d); zdec (a_exp d); zdec (a_min d); zdec (a_max d)] with (map zdec [a_type d; a_mant d; a_exp d; a_min d; a_max d]).
  rewrite py_ints_zdec by (repeat (constructor; auto using int32_16)). cbn [pbind]. rewrite IH by exact W2.
  destruct (read_arguments _ _ _ _ m r); reflexivity.
Qed.
Lemma word_label_in : word label_in.
Proof. split; [discriminate|]. repeat constructor. Qed.
Lemma word_label_out : word label_out.
Proof. split; [discriminate|]. repeat constructor. Qed.

Lemma read_functions_nofuel : forall f wanted lines r, read_functions f wanted lines = Ret r -> forall f', (f <= f')%nat -> read_functions f' wanted lines = Ret r.
Proof.
  induction f as [|f IH]; intros wanted lines r H f' L; destruct lines as [|l lines]; cbn [read_functions] in H; try discriminate.
  - destruct f'; exact H.
  - destruct f'; exact H.
  - destruct f' as [|f']; [lia|]. cbn [read_functions]. destruct (split_on tab l) as [|id nums]; [discriminate|]. destruct (negb (Nat.eqb (length nums) 11)); [discriminate|].
    destruct (py_ints nums) as [v| | |]; try discriminate. cbn [pbind] in *.
    do 11 (destruct v as [|? v]; [discriminate|]). destruct v; [|discriminate].
    destruct (function_info id) as [[name parent]| | |]; try discriminate. cbn [pbind] in *. destruct (_ <? 0); [discriminate|].
    destruct (_ && _); [eapply IH; [exact H|lia]|].
    destruct (read_arguments _ _ _ _ _ _) as [args| | |]; try discriminate. cbn [pbind] in *.
    destruct (read_functions f wanted _) as [[fs ags]| | |] eqn:E; try discriminate. cbn [pbind] in *. rewrite (IH _ _ _ E) by lia. exact H.
Qed.
Lemma skipn_lines {A} (a b : list A) : skipn (length a) (a ++ b) = b.
Proof. induction a; cbn; auto. Qed.
Lemma read_lines wanted vs : Forall profile_ok vs -> forall f, (length vs <= f)%nat ->
  read_functions f wanted (concat (map lines_of vs)) = Ret (map row_of (filter (selected wanted) vs), concat (map arg_rows (filter (selected wanted) vs))).
Proof.
  induction 1 as [|v vs Hv Hvs IH]; intros f Hf; cbn [map concat filter]; [destruct f; reflexivity|]. destruct f as [|f]; [cbn in Hf; lia|].
  destruct Hv as (H & (file & parent & name & line & number & Nm) & W). unfold lines_of at 1. cbn [app read_functions]. rewrite head_words by exact H.
  cbn [map length Nat.eqb negb].
  change (map zdec [v_lib v; v_intr v; v_float v; v_double v; v_prec64 v; v_range64 v; v_prec32 v; v_range32 v; v_nin v; v_nout v; v_calls v]) with
    [zdec (v_lib v); zdec (v_intr v); zdec (v_float v); zdec (v_double v); zdec (v_prec64 v); zdec (v_range64 v); zdec (v_prec32 v); zdec (v_range32 v); zdec (v_nin v); zdec (v_nout v); zdec (v_calls v)].
  pose proof (py_ints_zdec _ (header_ints v H)) as E. cbn [map] in E. rewrite E. clear E. cbn [pbind].
  assert (F : function_info (v_id v) = Ret (name, parent)) by (rewrite (n_id _ _ _ _ _ _ Nm); apply function_info_id; apply Nm).
  rewrite F. cbn [pbind]. pose proof H as (_ & _ & _ & _ & Hi & Ho). destruct (args_count _ _ Hi) as (Ci & Pi & Ai), (args_count _ _ Ho) as (Co & Po & Ao).
  destruct (Z.ltb_spec (v_nin v + v_nout v) 0); [lia|]. assert (C : Z.to_nat (v_nin v + v_nout v) = (length (vargs (v_in v)) + length (vargs (v_out v)))%nat) by lia. rewrite C.
  set (rest := concat (map lines_of vs)).
  assert (Sk : skipn (length (vargs (v_in v)) + length (vargs (v_out v))) ((map (arg_line label_in) (vargs (v_in v)) ++ map (arg_line label_out) (vargs (v_out v))) ++ rest) = rest).
  { replace (length (vargs (v_in v)) + length (vargs (v_out v)))%nat with (length (map (arg_line label_in) (vargs (v_in v)) ++ map (arg_line label_out) (vargs (v_out v)))) by (rewrite app_length, !map_length; reflexivity). apply skipn_lines. }
  rewrite Sk. assert (Sel : negb match wanted with [] => true | _ => false end && negb (listed name wanted) && negb (listed parent wanted) = negb (selected wanted v)).
  { unfold selected, name_of. rewrite F. cbn [fst snd]. rewrite !negb_orb. reflexivity. }
  cbn [length] in Hf. rewrite Sel. destruct (selected wanted v); cbn [negb]; [|apply IH; lia].
  apply List.Forall_app in W. destruct W as [Wi Wo]. rewrite <- app_assoc. rewrite read_argument_lines by (auto using word_label_in).
  rewrite <- (Nat.add_0_r (length (vargs (v_out v)))). rewrite read_argument_lines by (auto using word_label_out). cbn [read_arguments pbind]. rewrite IH by lia. cbn [pbind].
  rewrite app_nil_r. reflexivity.
Qed.

(** ** Sorting *)
Lemma lex_cotrans a b c : lex_lt a c = true -> lex_lt a b = true \/ lex_lt b c = true.
Proof.
  revert b c. induction a as [|x a IH]; intros [|y b] [|z c]; cbn; try discriminate; auto. intros H.
  destruct (Z.ltb_spec x z); cbn [orb] in H.
  - destruct (Z.ltb_spec x y); [auto|]. destruct (Z.ltb_spec y z); [auto|]. lia.
  - destruct (Z.eqb_spec x z); [|discriminate]. subst. cbn [andb] in H. destruct (Z.ltb_spec z y); [auto|]. destruct (Z.ltb_spec y z); [auto|]. replace y with z by lia. rewrite Z.eqb_refl. cbn. apply IH. exact H.
Qed.
Lemma lex_irrefl a : lex_lt a a = false.
Proof. induction a as [|x a IH]; [reflexivity|]. cbn. rewrite Z.ltb_irrefl, Z.eqb_refl, IH. reflexivity. Qed.
Lemma lex_total a b : lex_lt a b = false -> lex_lt b a = false -> a = b.
Proof.
  revert b. induction a as [|x a IH]; intros [|y b]; cbn; try discriminate; auto. intros H1 H2. apply orb_false_elim in H1, H2. destruct H1 as [A1 B1], H2 as [A2 B2].
  apply Z.ltb_ge in A1, A2. assert (x = y) by lia. subst. rewrite Z.eqb_refl in *. cbn in *. f_equal. auto.
Qed.
Lemma before_cotrans a b c : before a c = true -> before a b = true \/ before b c = true.
Proof.
  destruct a as [x a], b as [y b], c as [z c]. unfold before. cbn [fst snd]. intros H.
  destruct (Z.ltb_spec z x); cbn [orb] in H.
  - destruct (Z.ltb_spec y x); [auto|]. destruct (Z.ltb_spec z y); [auto|]. lia.
  - destruct (Z.eqb_spec x z); [|discriminate]. subst. cbn [andb] in H. destruct (Z.ltb_spec y z); [auto|]. destruct (Z.ltb_spec z y); [auto|]. assert (y = z) by lia. subst. rewrite Z.eqb_refl. cbn.
    destruct (lex_cotrans c b a H); auto.
Qed.
Lemma before_irrefl a : before a a = false.
Proof. unfold before. rewrite Z.ltb_irrefl, Z.eqb_refl, lex_irrefl. reflexivity. Qed.
Lemma lex_asym a b : lex_lt a b = true -> lex_lt b a = false.
Proof.
  revert b. induction a as [|x a IH]; intros [|y b]; cbn; try discriminate; auto. intros H. destruct (Z.ltb_spec y x), (Z.ltb_spec x y); cbn [orb] in *; try lia; try reflexivity.
  - destruct (Z.eqb_spec x y); [subst|discriminate]. rewrite Z.eqb_refl. cbn in *. auto.
Qed.
Lemma before_asym a b : before a b = true -> before b a = false.
Proof.
  destruct a as [x a], b as [y b]. unfold before. cbn [fst snd]. intros H. destruct (Z.ltb_spec y x), (Z.ltb_spec x y); cbn [orb] in *; try lia; try reflexivity.
  - destruct (Z.eqb_spec x y); [subst|discriminate]. rewrite Z.eqb_refl. cbn in *. apply lex_asym. exact H.
Qed.
(** at most as early: a is not after b *)
Definition ordered (a b : Z * list Z) : Prop := before b a = false.
Lemma ordered_trans a b c : ordered a b -> ordered b c -> ordered a c.
Proof. unfold ordered. intros H1 H2. destruct (before c a) eqn:E; [|reflexivity]. destruct (before_cotrans c b a E); congruence. Qed.

Section sorting.
  Context {A : Type} (key : A -> Z * list Z).
  Notation sorted := (StronglySorted (fun x y => ordered (key x) (key y))).
  Lemma insert_in x l y : In y (insert key x l) <-> y = x \/ In y l.
  Proof. induction l as [|z l IH]; cbn [insert]; [cbn; intuition|]. destruct (before (key z) (key x)); cbn [In]; [rewrite IH|]; cbn [In]; intuition. Qed.
  Lemma insert_sorted x l : sorted l -> sorted (insert key x l).
  Proof.
    induction 1 as [|y l S IH F]; cbn [insert]; [repeat constructor|]. destruct (before (key y) (key x)) eqn:E.
    - constructor; [exact IH|]. rewrite List.Forall_forall in *. intros z Hz. apply insert_in in Hz. destruct Hz as [-> | Hz]; [apply before_asym; exact E|auto].
    - constructor; [constructor; assumption|]. constructor; [exact E|]. rewrite List.Forall_forall in *. intros z Hz. eapply ordered_trans; [exact E|apply F; exact Hz].
  Qed.
  Lemma sort_sorted l : sorted (sort_rows key l).
  Proof. induction l as [|x l IH]; [constructor|]. apply insert_sorted. exact IH. Qed.
  Lemma insert_perm x l : Permutation.Permutation (insert key x l) (x :: l).
  Proof. induction l as [|y l IH]; cbn [insert]; [reflexivity|]. destruct (before (key y) (key x)); [|reflexivity]. rewrite IH. apply Permutation.perm_swap. Qed.
  Lemma sort_perm l : Permutation.Permutation (sort_rows key l) l.
  Proof. induction l as [|x l IH]; [constructor|]. cbn [sort_rows fold_right]. rewrite insert_perm. constructor. exact IH. Qed.
End sorting.
Lemma insert_map {A B} (g : A -> B) (key : B -> Z * list Z) x l : insert key (g x) (map g l) = map g (insert (fun a => key (g a)) x l).
Proof. induction l as [|y l IH]; [reflexivity|]. cbn [map insert]. destruct (before _ _); cbn [map]; [rewrite IH|]; reflexivity. Qed.
Lemma sort_map {A B} (g : A -> B) (key : B -> Z * list Z) l : sort_rows key (map g l) = map g (sort_rows (fun a => key (g a)) l).
Proof. induction l as [|x l IH]; [reflexivity|]. cbn [map sort_rows fold_right]. fold (sort_rows key (map g l)). rewrite IH. apply insert_map. Qed.

(** sorting rows that come in blocks of equal key, in order of the blocks *)
Section blocks.
  Context {A B : Type} (key : A -> Z * list Z) (rk : B -> Z * list Z) (rows : A -> list B).
  Context (Hk : forall a r, In r (rows a) -> rk r = key a).
  Lemma insert_pass x l r : Forall (fun y => before (rk y) (rk x) = true) l -> insert rk x (l ++ r) = l ++ insert rk x r.
  Proof. induction 1 as [|y l H _ IH]; [reflexivity|]. cbn [app insert]. rewrite H, IH. reflexivity. Qed.
  Lemma insert_stop x l : Forall (fun y => before (rk y) (rk x) = false) l -> insert rk x l = x :: l.
  Proof. destruct 1 as [|y l H _]; [reflexivity|]. cbn [insert]. rewrite H. reflexivity. Qed.
  Definition insert_all (l r : list B) : list B := fold_right (insert rk) r l.
  Lemma all_pass l b r : (forall x y, In x l -> In y b -> before (rk y) (rk x) = true) -> insert_all l (b ++ r) = b ++ insert_all l r.
  Proof.
    induction l as [|x l IH]; intros H; [reflexivity|]. cbn [insert_all fold_right]. fold (insert_all l (b ++ r)). rewrite IH by (intros; apply H; cbn; auto). apply insert_pass.
    apply List.Forall_forall. intros y Hy. apply H; cbn; auto.
  Qed.
  Lemma all_stop k l r : (forall x, In x l -> rk x = k) -> (forall y, In y r -> before (rk y) k = false) -> insert_all l r = l ++ r.
  Proof.
    induction l as [|x l IH]; intros Hl Hr; [reflexivity|]. cbn [insert_all fold_right app]. fold (insert_all l r). rewrite IH by (auto; intros; apply Hl; cbn; auto). apply insert_stop.
    apply List.Forall_forall. intros y Hy. rewrite (Hl x) by (cbn; auto). apply in_app_or in Hy. destruct Hy as [Hy|Hy]; [rewrite (Hl y) by (cbn; auto); apply before_irrefl|auto].
  Qed.
  Lemma insert_block a S : StronglySorted (fun x y => ordered (key x) (key y)) S -> insert_all (rows a) (concat (map rows S)) = concat (map rows (insert key a S)).
  Proof.
    induction 1 as [|b S Hs IH F]; cbn [map concat insert].
    - apply (all_stop (key a)); [intros x; apply Hk|intros y []].
    - destruct (before (key b) (key a)) eqn:E; cbn [map concat].
      + rewrite all_pass by (intros x y Hx Hy; rewrite (Hk a x Hx), (Hk b y Hy); exact E). rewrite IH. reflexivity.
      + apply (all_stop (key a)); [intros x; apply Hk|]. intros y Hy. apply in_app_or in Hy. destruct Hy as [Hy|Hy]; [rewrite (Hk b y Hy); exact E|].
        apply in_concat in Hy. destruct Hy as (l & Hl & Hy). apply in_map_iff in Hl. destruct Hl as (c & <- & Hc). rewrite (Hk c y Hy). rewrite List.Forall_forall in F.
        exact (ordered_trans _ _ _ E (F c Hc)).
  Qed.
  Lemma sort_blocks l : sort_rows rk (concat (map rows l)) = concat (map rows (sort_rows key l)).
  Proof.
    induction l as [|a l IH]; [reflexivity|]. change (fold_right (insert rk) [] (rows a ++ concat (map rows l)) = concat (map rows (insert key a (sort_rows key l)))).
    rewrite fold_right_app. change (fold_right (insert rk) [] (concat (map rows l))) with (sort_rows rk (concat (map rows l))). rewrite IH.
    apply insert_block, sort_sorted.
  Qed.
End blocks.

(** ** getProfile of what VPREC wrote *)
Definition vkey (v : vfi) : Z * list Z := (v_calls v, v_id v).
Lemma get_profile_written wanted t text : Forall (fun kv => profile_ok (snd kv)) t -> write_profile t = Ok text ->
  let vs := sort_rows vkey (filter (selected wanted) (map snd t)) in
  get_profile wanted text = Ret (map row_of vs, concat (map arg_rows vs)).
Proof.
  intros H W vs. assert (Hf : Forall (fun kv => function_ok (snd kv)) t) by (eapply List.Forall_impl; [|exact H]; intros kv Hkv; apply Hkv).
  rewrite (profile_lines t text Hf W). unfold get_profile. rewrite <- (map_map snd lines_of). rewrite lines_concat.
  2:{ apply List.Forall_concat. rewrite map_map. apply List.Forall_map. eapply List.Forall_impl; [|exact Hf]. intros kv Hkv. apply lines_no_newline. exact Hkv. }
  rewrite read_lines.
  - cbn [pbind]. rewrite sort_map. rewrite (sort_blocks vkey rkey arg_rows); [reflexivity|].
    intros v r Hr. unfold arg_rows in Hr. apply in_app_or in Hr. destruct Hr as [Hr|Hr]; apply in_map_iff in Hr; destruct Hr as (d & <- & _); reflexivity.
  - apply List.Forall_map. exact H.
  - generalize (map snd t). induction l as [|v l IH]; [cbn; lia|]. cbn [map concat]. rewrite app_length. unfold lines_of at 1. cbn [length]. lia.
Qed.

(** ** The configuration written *)
Definition config_of (v : vfi) : list Z := write_header v ++ concat (map save_arg (arg_rows v)).
Lemma save_blocks vs : Forall function_ok vs -> save (map row_of vs, concat (map arg_rows vs)) = Ret (concat (map config_of vs)).
Proof.
  unfold save. cbn [fst snd]. induction 1 as [|v vs H _ IH]; [reflexivity|]. cbn [map save_loop concat]. pose proof H as (_ & _ & _ & _ & Hi & Ho).
  destruct (args_count _ _ Hi) as (Ci & Pi & Ai), (args_count _ _ Ho) as (Co & Po & Ao). change (o_nin (row_of v)) with (v_nin v). change (o_nout (row_of v)) with (v_nout v).
  assert (C : Z.to_nat (v_nin v + v_nout v) = length (arg_rows v)) by (unfold arg_rows; rewrite app_length, !map_length; lia). rewrite C.
  destruct (Nat.ltb_spec (length (arg_rows v ++ concat (map arg_rows vs))) (length (arg_rows v))) as [L|_]; [rewrite app_length in L; lia|].
  rewrite skipn_lines, IH. cbn [pbind]. f_equal. unfold config_of at 2. rewrite firstn_app, Nat.sub_diag, firstn_all. cbn [firstn]. rewrite app_nil_r, <- app_assoc. reflexivity.
Qed.

(** ** The configuration read by VPREC *)
Open Scope outcome_scope.
Definition vfi_of (o : prow) : vfi :=
  mk_vfi (o_id o) (o_lib o) (o_int o) (o_float o) (o_double o) (o_prec64 o) (o_range64 o) (o_prec32 o) (o_range32 o) (o_nin o) None (o_nout o) None (o_calls o).
Definition row_ok (o : prow) : Prop :=
  plain (o_id o) /\ (length (o_id o) < 256)%nat /\ Forall (fun c => - 2 ^ 7 <= c < 2 ^ 7) [o_lib o; o_int o; o_float o; o_double o] /\
  Forall int32 [o_prec64 o; o_range64 o; o_prec32 o; o_range32 o; o_nin o; o_nout o; o_calls o] /\ 0 <= o_nin o /\ 0 <= o_nout o.
(** the same row with no arguments: what scan_header reads depends on the numbers only *)
Lemma scan_row stale o r : row_ok o -> scan_header stale (save_row o ++ r) = Ok (Some (vfi_of o, r)).
Proof.
  intros (I1 & I2 & I3 & I4 & P1 & P2).
  pose (v := mk_vfi (o_id o) (o_lib o) (o_int o) (o_float o) (o_double o) (o_prec64 o) (o_range64 o) (o_prec32 o) (o_range32 o)
     (o_nin o) (Some (repeat (mk_varg [88] 0 0 0 0 0) (Z.to_nat (o_nin o)))) (o_nout o) (Some (repeat (mk_varg [88] 0 0 0 0 0) (Z.to_nat (o_nout o)))) (o_calls o)).
  assert (A : forall n, 0 <= n -> args_ok n (Some (repeat (mk_varg [88] 0 0 0 0 0) (Z.to_nat n)))).
  { intros n Hn. split; [rewrite repeat_length; lia|]. apply List.Forall_forall. intros d Hd. apply repeat_spec in Hd. subst d. unfold arg_ok, int32, plain, no, tab, newline. cbn. repeat split; try lia; try discriminate; intuition lia. }
  change (save_row o) with (write_header v). rewrite scan_header_spec; [reflexivity|]. unfold function_ok. cbn [v v_id v_lib v_intr v_float v_double v_prec64 v_range64 v_prec32 v_range32 v_nin v_in v_nout v_out v_calls]. auto 10.
Qed.
Definition arow_ok (r : arow) : Prop := plain (r_io r) /\ short (r_io r) /\ plain (r_arg r) /\ short (r_arg r) /\ int32 (r_type r) /\ int32 (r_prec r) /\ int32 (r_range r).
(** an argument line of the configuration is never accepted: it has five words *)
Lemma scan_saved_arg stale r rest : arow_ok r -> scan_arg stale (save_arg r ++ rest) = UB.
Proof.
  intros (A1 & A2 & A3 & A4 & A5 & A6 & A7). unfold scan_arg, save_arg.
  change [r_io r; r_arg r; zdec (r_type r); zdec (r_prec r); zdec (r_range r)] with ([r_io r; r_arg r; zdec (r_type r); zdec (r_prec r)] ++ [zdec (r_range r)]).
  rewrite columns_line, scan_line_spec; [reflexivity| | | | |cbn; lia|].
  - repeat (constructor; auto using plain_zdec).
  - apply plain_zdec. exact A7.
  - repeat (constructor; auto using short_zdec).
  - pose proof (zdec_length (r_range r)). lia.
  - eapply Nat.le_trans; [apply line_length|].
    + repeat (constructor; auto using short_zdec).
    + apply short_zdec.
    + cbn; lia.
    + unfold LINE_MAX. lia.
Qed.
Lemma scan_args_first n stale text : scan_arg stale text = UB -> scan_args (S n) stale text = UB.
Proof. intros H. cbn [scan_args]. rewrite H. reflexivity. Qed.

Lemma read_config stale os : Forall row_ok os -> forall rs text, save (os, rs) = Ret text -> Forall arow_ok rs -> (exists o, In o os /\ 0 < o_nin o + o_nout o) ->
  forall fuel t, read_loop fuel stale text t = UB \/ read_loop fuel stale text t = Diverge.
Proof.
  induction 1 as [|o os Ho _ IH]; intros rs text S Hr (o' & Io & Po) fuel t; [destruct Io|]. unfold save in S. cbn [fst snd save_loop] in S.
  set (n := Z.to_nat (o_nin o + o_nout o)) in *. destruct (Nat.ltb_spec (length rs) n) as [|Ln]; [discriminate|].
  destruct (save_loop os (skipn n rs)) as [rest| | |] eqn:E; try discriminate. cbn [pbind] in S. injection S as <-.
  destruct fuel as [|fuel]; [right; reflexivity|]. cbn [read_loop]. rewrite scan_row by exact Ho. cbn [bind]. change (v_nin (vfi_of o)) with (o_nin o). change (v_nout (vfi_of o)) with (o_nout o).
  destruct Ho as (_ & _ & _ & _ & P1 & P2).
  destruct n as [|m] eqn:En.
  - assert (o_nin o = 0 /\ o_nout o = 0) as [Z1 Z2] by lia. rewrite Z1, Z2. cbn [Z.to_nat scan_args bind firstn map concat app].
    destruct Io as [<-|Io]; [lia|]. apply (IH rs); [exact E|exact Hr|eauto].
  - left. destruct rs as [|r rs]; [cbn in Ln; lia|]. inversion Hr as [|? ? Hr1 Hr2]; subst. cbn [firstn map concat]. rewrite <- !app_assoc.
    pose proof (scan_saved_arg stale r (concat (map save_arg (firstn m rs)) ++ rest) Hr1) as U.
    destruct (Z.to_nat (o_nin o)) as [|k] eqn:Ek.
    + cbn [scan_args bind]. destruct (Z.to_nat (o_nout o)) as [|k'] eqn:Ek'; [lia|]. rewrite (scan_args_first _ _ _ U). reflexivity.
    + rewrite (scan_args_first _ _ _ U). reflexivity.
Qed.

(** without arguments VPREC reads the configuration: each function with the precisions the search gave *)
Definition read_row (o : prow) : vfi :=
  mk_vfi (o_id o) (o_lib o) (o_int o) (o_float o) (o_double o) (o_prec64 o) (o_range64 o) (o_prec32 o) (o_range32 o) 0 (Some []) 0 (Some []) (o_calls o).
Lemma read_config_operations stale os : Forall row_ok os -> Forall (fun o => o_nin o = 0 /\ o_nout o = 0) os -> NoDup (map (fun o => hashmap_str_function (o_id o)) os) -> eof_ok stale ->
  exists text, save (os, []) = Ret text /\ read_profile stale text = Ok (map (fun o => (hashmap_str_function (o_id o), read_row o)) os).
Proof.
  intros H Hz N He. set (t := map (fun o => (hashmap_str_function (o_id o), vfi_of o)) os : vtab).
  assert (F : Forall (fun kv => function_ok (snd kv)) t).
  { apply List.Forall_map. rewrite List.Forall_forall in *. intros o Io. destruct (H o Io) as (I1 & I2 & I3 & I4 & _). destruct (Hz o Io) as [Z1 Z2].
    unfold function_ok, vfi_of. cbn [snd v_id v_lib v_intr v_float v_double v_prec64 v_range64 v_prec32 v_range32 v_nin v_in v_nout v_out v_calls args_ok]. auto 10. }
  assert (K : keyed t). { split; [apply List.Forall_map, List.Forall_forall; intros; reflexivity|]. unfold t. rewrite map_map. exact N. }
  destruct (round_trip stale t He K F) as (text & W & R). exists text. split.
  - assert (G : forall l text, Forall (fun o => o_nin o = 0 /\ o_nout o = 0) l -> write_profile (map (fun o => (hashmap_str_function (o_id o), vfi_of o)) l) = Ok text -> save_loop l [] = Ret text).
    { clear. induction l as [|o l IH]; intros text Hz W; [cbn in W; injection W as <-; reflexivity|]. inversion Hz as [|? ? [Z1 Z2] Hz']; subst. cbn [map write_profile] in W. unfold write_function in W.
      change (v_nin (vfi_of o)) with (o_nin o) in W. change (v_nout (vfi_of o)) with (o_nout o) in W. change (v_in (vfi_of o)) with (@None (list varg)) in W. change (v_out (vfi_of o)) with (@None (list varg)) in W.
      rewrite Z1, Z2 in W. change (write_args label_in 0 None) with (Ok (@nil Z)) in W. change (write_args label_out 0 None) with (Ok (@nil Z)) in W. cbn [bind app] in W. rewrite app_nil_r in W.
      destruct (write_profile _) as [b| | |] eqn:E; try discriminate. cbn [bind] in W. apply Ok_inj in W. subst text. cbn [save_loop]. rewrite Z1, Z2. change (Z.to_nat (0 + 0)) with 0%nat. cbn [skipn firstn map concat app].
      change (Nat.ltb (length (@nil arow)) 0) with false. cbv iota. rewrite (IH b Hz' eq_refl). reflexivity. }
    exact (G os text Hz W).
  - rewrite R. f_equal. unfold t. rewrite map_map. cbn [fst snd]. apply map_ext_in. intros o Io. rewrite List.Forall_forall in Hz. destruct (Hz o Io) as [Z1 Z2].
    unfold reread, vfi_of, read_row. cbn [v_id v_lib v_intr v_float v_double v_prec64 v_range64 v_prec32 v_range32 v_nin v_in v_nout v_out v_calls]. rewrite Z1, Z2. reflexivity.
Qed.

(** ** With arguments the exploration never ends *)
Close Scope outcome_scope.
Section never.
  Context (valid : list Z -> bool) (stale : list Z).
  Context (Hvalid : forall text, valid text = true -> exists t, read_profile stale text = Ok t).
  Definition unreadable (x : frames) : Prop :=
    Forall row_ok (fst x) /\ Forall arow_ok (snd x) /\ (exists o, In o (fst x) /\ 0 < o_nin o + o_nout o) /\ exists text, save x = Ret text.
  Lemma unreadable_fails x : unreadable x -> check valid x = Ret false.
  Proof.
    intros (R & A & O & text & Sv). unfold check. rewrite Sv. cbn [pbind]. f_equal. destruct (valid text) eqn:V; [|reflexivity]. destruct (Hvalid text V) as [t T]. exfalso.
    destruct x as [os rs]. cbn [fst snd] in *. unfold read_profile in T. destruct (read_config stale os R rs text Sv A O (S (S (length text))) []) as [U|U]; rewrite U in T; discriminate.
  Qed.
  Lemma unreadable_shape x y : same_shape x y -> unreadable x -> Forall row_ok (fst y) -> Forall arow_ok (snd y) -> unreadable y.
  Proof.
    intros Sh (R & A & (o & Io & Po) & Sv) R' A'. split; [exact R'|]. split; [exact A'|]. split.
    - destruct Sh as [Sh _]. apply In_nth_error in Io. destruct Io as [i Hi]. pose proof (F2_nth _ _ _ i Sh) as N. rewrite Hi in N. destruct (nth_error (fst y) i) as [o'|] eqn:E; [|tauto].
      exists o'. split; [eapply nth_error_In; exact E|]. destruct N as (_ & _ & _ & _ & _ & N1 & N2 & _). lia.
    - destruct x as [os rs], y as [os' rs']. destruct Sh as [Sh1 Sh2]. cbn [fst snd] in *. destruct Sv as [t Sv]. clear -Sh1 Sh2 Sv. unfold save in *. cbn [fst snd] in *.
      apply F2_length in Sh2. revert rs rs' t Sh2 Sv. induction Sh1 as [|a b os os' H _ IH]; intros rs rs' t L Sv; cbn [save_loop] in *; [eauto|].
      destruct H as (_ & _ & _ & _ & _ & <- & <- & _). rewrite <- L. destruct (Nat.ltb _ _); [discriminate|].
      destruct (save_loop os (skipn _ rs)) as [r| | |] eqn:E; try discriminate. destruct (IH (skipn (Z.to_nat (o_nin a + o_nout a)) rs) (skipn (Z.to_nat (o_nin a + o_nout a)) rs') r) as [t' T']; [rewrite !skipn_length, L; reflexivity|exact E|].
      rewrite T'. cbn [pbind]. eauto.
  Qed.
  Lemma update_Forall {A} (P : A -> Prop) g l i : Forall P l -> (forall a, P a -> P (g a)) -> Forall P (update l i g).
  Proof. intros H G. revert i. induction H; intros [|i]; cbn; constructor; auto. Qed.
  Lemma update_same {A} (R : A -> A -> Prop) g l i : (forall a, R a a) -> (forall a, R a (g a)) -> Forall2 R l (update l i g).
  Proof. intros H G. revert i. induction l; intros [|i]; cbn; constructor; auto using F2_refl. Qed.
  Lemma unreadable_cset c v x : 1 <= v <= 52 -> unreadable x -> unreadable (cset c v x).
  Proof.
    intros Hv U. apply (unreadable_shape x); [|exact U| |].
    - destruct c as [i f|j f]; split; cbn [cset]; unfold set_op, set_arg; cbn [fst snd]; try (apply F2_refl; intros; repeat split); apply update_same; intros; try destruct f; repeat split.
    - destruct U as (R & _). destruct c as [i f|j f]; cbn [cset]; unfold set_op, set_arg; cbn [fst snd]; [|exact R]. apply update_Forall; [exact R|]. intros o (I1 & I2 & I3 & I4 & P1 & P2).
      assert (B : int32 v) by (unfold int32; lia). repeat match goal with H : Forall int32 (_ :: _) |- _ => inversion_clear H end. destruct f; unfold row_ok; cbn; auto 20.
    - destruct U as (_ & R & _). destruct c as [i f|j f]; cbn [cset]; unfold set_op, set_arg; cbn [fst snd]; [exact R|]. apply update_Forall; [exact R|]. intros r (I1 & I2 & I3 & I4 & I5 & I6 & I7).
      assert (B : int32 v) by (unfold int32; lia). destruct f; unfold arow_ok; cbn; auto 20.
  Qed.
  Lemma unreadable_search c x fuel l r : unreadable x -> 1 <= l -> l <= r -> r <= 52 -> dich valid fuel (fun p => cset c p x) l r = NoFuel.
  Proof.
    intros U H1 H2 H3. pose proof (unreadable_cset c) as Uc. unfold dich. rewrite unreadable_fails by (apply Uc; [lia|exact U]). cbn [pbind].
    assert (G : forall fuel l, 1 <= l -> l <= r + 1 -> dich_loop valid fuel (fun p => cset c p x) l r = NoFuel).
    { induction fuel0 as [|fuel0 IH]; intros l0 B1 B2; [reflexivity|]. cbn [dich_loop].
      pose proof (Z.div_mod (r + l0) 2 ltac:(lia)) as D. pose proof (Z.mod_pos_bound (r + l0) 2 ltac:(lia)) as M.
      rewrite unreadable_fails by (apply Uc; [lia|exact U]). cbn [pbind]. apply IH; lia. }
    apply G; lia.
  Qed.
  Lemma unreadable_op i f x fuel l r : unreadable x -> 1 <= l -> l <= r -> r <= 52 -> dich valid fuel (fun p => set_op i f p x) l r = NoFuel.
  Proof. exact (unreadable_search (CO i f) x fuel l r). Qed.
  Lemma unreadable_arg j f x fuel l r : unreadable x -> 1 <= l -> l <= r -> r <= 52 -> dich valid fuel (fun p => set_arg j f p x) l r = NoFuel.
  Proof. exact (unreadable_search (CA j f) x fuel l r). Qed.
  Lemma never_operations x i o fuel : unreadable x -> nth_error (fst x) i = Some o ->
    search_operations valid fuel i x = NoFuel \/
    (o_double o = 0 /\ o_float o = 0 /\ exists x', search_operations valid fuel i x = Ret x' /\ unreadable x' /\ same_shape x x').
  Proof.
    intros U Ho. unfold search_operations. rewrite Ho. unfold search_op. destruct (Z.eqb_spec (o_double o) 0) as [Z0|Z0]; cbn [negb].
    2:{ left. rewrite unreadable_op by (auto; lia). reflexivity. }
    cbn [pbind]. pose proof (unreadable_cset (CO i FPrec64) 1 x ltac:(lia) U) as U1. pose proof (unreadable_cset (CO i FRange64) 2 _ ltac:(lia) U1) as U2.
    cbn [cset] in U1, U2. destruct (Z.eqb_spec (o_float o) 0) as [F0|F0]; cbn [negb].
    2:{ left. rewrite unreadable_op by (auto; lia). reflexivity. }
    right. split; [exact Z0|]. split; [exact F0|]. eexists. split; [reflexivity|].
    pose proof (unreadable_cset (CO i FPrec32) 1 _ ltac:(lia) U2) as U3. pose proof (unreadable_cset (CO i FRange32) 2 _ ltac:(lia) U3) as U4. cbn [cset] in U3, U4. split; [exact U4|].
    assert (Sf : forall f v y, same_shape y (set_op i f v y)).
    { intros f v y. split; unfold set_op; cbn [fst snd]; [|apply F2_refl; intros; repeat split]. apply update_same; intros; try destruct f; repeat split. }
    eapply shape_trans; [apply (Sf FPrec64 1)|]. eapply shape_trans; [apply (Sf FRange64 2)|]. eapply shape_trans; [apply (Sf FPrec32 1)|]. apply Sf.
  Qed.
  Lemma never_arguments x j r fuel : unreadable x -> nth_error (snd x) j = Some r ->
    search_arguments valid fuel j x = match arg_bounds (r_type r) with Some _ => NoFuel | None => Ret x end.
  Proof.
    intros U Hr. unfold search_arguments. rewrite Hr. destruct (arg_bounds (r_type r)) as [[p e]|] eqn:B; [|reflexivity]. unfold search_arg.
    rewrite unreadable_arg; [reflexivity|exact U|lia| |]; unfold arg_bounds in B; repeat (destruct (_ || _) in B; [injection B as <- <-; lia|]); discriminate.
  Qed.
  (** steps that go nowhere: each does not end, or changes nothing that matters *)
  Lemma each_never {A} (g : A -> frames -> py frames) (x0 : frames) : forall l,
    (forall a x, In a l -> unreadable x -> same_shape x0 x -> g a x = NoFuel \/ exists x', g a x = Ret x' /\ unreadable x' /\ same_shape x x') ->
    forall x, unreadable x -> same_shape x0 x ->
    each g l x = NoFuel \/ ((forall a, In a l -> exists y, unreadable y /\ same_shape x0 y /\ g a y <> NoFuel) /\ exists x', each g l x = Ret x' /\ unreadable x' /\ same_shape x x').
  Proof.
    induction l as [|a l IH]; intros H x U Sh; cbn [each].
    - right. split; [intros a []|]. exists x. split; [reflexivity|]. split; [exact U|]. split; apply F2_refl; intros; repeat split.
    - destruct (H a x (or_introl eq_refl) U Sh) as [E|(x1 & E & U1 & S1)]; rewrite E; [left; reflexivity|]. cbn [pbind].
      destruct (IH (fun b y Hb => H b y (or_intror Hb)) x1 U1 (shape_trans _ _ _ Sh S1)) as [E1|(G & x' & E1 & U' & S')]; [left; exact E1|].
      right. split; [|exists x'; split; [exact E1|]; split; [exact U'|eapply shape_trans; eassumption]].
      intros b [<-|Hb]; [|apply G; exact Hb]. exists x. rewrite E. split; [exact U|]. split; [exact Sh|discriminate].
  Qed.
  Lemma args_of_shape x y i : same_shape x y -> args_of y i = args_of x i.
  Proof.
    intros [A B]. unfold args_of. pose proof (F2_nth _ _ _ i A) as N. destruct (nth_error (fst x) i) as [o|], (nth_error (fst y) i) as [o'|]; try tauto.
    destruct N as (-> & _). rewrite <- (F2_length _ _ _ B). revert B. generalize (snd x) (snd y). intros l l' B. generalize 0%nat.
    induction B as [|a b l l' (E & _) _ IH]; intros k; cbn [length seq combine filter snd map]; [reflexivity|]. rewrite E. destruct (bytes_eqb (r_id b) (o_id o')); cbn [map fst]; rewrite IH; reflexivity.
  Qed.
  (** what a mode searches *)
  Definition searched (m : emode) (x : frames) : Prop :=
    match m with
    | EOperations => exists i o, nth_error (fst x) i = Some o /\ o_lib o = 0 /\ o_int o = 0 /\ (o_double o <> 0 \/ o_float o <> 0)
    | EArguments | EAll => exists i o j r, nth_error (fst x) i = Some o /\ nth_error (snd x) j = Some r /\ r_id r = o_id o /\ arg_bounds (r_type r) <> None
    end.
  Lemma never_ends m x fuel : unreadable x -> searched m x -> explore valid m fuel x = NoFuel.
  Proof.
    intros U0 Hs. assert (R0 : same_shape x x) by (split; apply F2_refl; intros; repeat split).
    assert (Rows : forall i, In i (seq 0 (length (fst x))) <-> nth_error (fst x) i <> None) by (intros i; rewrite in_seq, nth_error_Some; lia).
    assert (SO : forall i y, In i (seq 0 (length (fst x))) -> unreadable y -> same_shape x y ->
              search_operations valid fuel i y = NoFuel \/ exists x', search_operations valid fuel i y = Ret x' /\ unreadable x' /\ same_shape y x').
    { intros i y Hi U Sh. apply Rows in Hi. destruct Sh as [Sh _]. pose proof (F2_nth _ _ _ i Sh) as N. destruct (nth_error (fst y) i) as [o|] eqn:Ho.
      - destruct (never_operations y i o fuel U Ho) as [E|(_ & _ & H)]; [left; exact E|right; exact H].
      - destruct (nth_error (fst x) i); tauto. }
    assert (SA : forall i y, unreadable y -> same_shape x y ->
              each (search_arguments valid fuel) (args_of y i) y = NoFuel \/
              ((forall j, In j (args_of x i) -> exists r, nth_error (snd x) j = Some r /\ arg_bounds (r_type r) = None) /\
               exists x', each (search_arguments valid fuel) (args_of y i) y = Ret x' /\ unreadable x' /\ same_shape y x')).
    { intros i y U Sh. rewrite (args_of_shape x y i Sh).
      assert (St : forall j z, In j (args_of x i) -> unreadable z -> same_shape x z -> exists r, nth_error (snd x) j = Some r /\ search_arguments valid fuel j z = match arg_bounds (r_type r) with Some _ => NoFuel | None => Ret z end).
      { intros j z Hj Uz Sz. apply args_of_in in Hj. destruct Hj as (o & r & _ & Er & _). exists r. split; [exact Er|]. pose proof (F2_nth _ _ _ j (proj2 Sz)) as N. rewrite Er in N.
        destruct (nth_error (snd z) j) as [r'|] eqn:E'; [|tauto]. rewrite (never_arguments z j r' fuel Uz E'). destruct N as (_ & _ & _ & _ & _ & -> & _). reflexivity. }
      destruct (each_never (search_arguments valid fuel) x (args_of x i)) with (x := y) as [E|[G E]]; auto.
      - intros j z Hj Uz Sz. destruct (St j z Hj Uz Sz) as (r & _ & E). rewrite E. destruct (arg_bounds (r_type r)); [left; reflexivity|]. right. exists z. split; [reflexivity|]. split; [exact Uz|]. split; apply F2_refl; intros; repeat split.
      - right. split; [|exact E]. intros j Hj. destruct (G j Hj) as (z & Uz & Sz & Ne). destruct (St j z Hj Uz Sz) as (r & Er & E'). exists r. split; [exact Er|]. rewrite E' in Ne. destruct (arg_bounds (r_type r)); [congruence|reflexivity]. }
    destruct m; cbn [explore searched] in *.
    - destruct Hs as (i & o & Ho & Hl & Hi & Hd).
      destruct (each_never (search_operations valid fuel) x (filter (compiled x) (seq 0 (length (fst x))))) with (x := x) as [E|[G _]]; auto.
      + intros a y Ha. apply filter_In in Ha. apply SO. apply Ha.
      + exfalso. destruct (G i) as (y & Uy & Sy & Ne).
        * apply filter_In. split; [apply Rows; congruence|]. unfold compiled. rewrite Ho, Hl, Hi. reflexivity.
        * pose proof (F2_nth _ _ _ i (proj1 Sy)) as N. rewrite Ho in N. destruct (nth_error (fst y) i) as [o'|] eqn:Eo; [|tauto].
          destruct (never_operations y i o' fuel Uy Eo) as [E|(D1 & D2 & _)]; [congruence|]. destruct N as (_ & _ & _ & N1 & N2 & _). destruct Hd as [Hd|Hd]; [apply Hd|apply Hd]; congruence.
    - destruct Hs as (i & o & j & r & Ho & Hr & Hid & Hb).
      destruct (each_never (fun i y => each (search_arguments valid fuel) (args_of y i) y) x (seq 0 (length (fst x)))) with (x := x) as [E|[G _]]; auto.
      + intros a y _ Uy Sy. destruct (SA a y Uy Sy) as [E|[_ E]]; auto.
      + exfalso. destruct (G i) as (y & Uy & Sy & Ne); [apply Rows; congruence|]. destruct (SA i y Uy Sy) as [E|[H _]]; [congruence|].
        destruct (H j) as (r' & Er & B); [apply args_of_in; eauto 6|]. congruence.
    - destruct Hs as (i & o & j & r & Ho & Hr & Hid & Hb).
      destruct (each_never (fun i y => do y <- each (search_arguments valid fuel) (args_of y i) y; if compiled x i then search_operations valid fuel i y else Ret y) x (seq 0 (length (fst x)))) with (x := x) as [E|[G _]]; auto.
      + intros a y Ha Uy Sy. destruct (SA a y Uy Sy) as [E|(_ & y1 & E & U1 & S1)]; rewrite E; [left; reflexivity|]. cbn [pbind]. destruct (compiled x a); [|right; eauto].
        destruct (SO a y1 Ha U1 (shape_trans _ _ _ Sy S1)) as [E2|(y2 & E2 & U2 & S2)]; [left; exact E2|]. right. exists y2. split; [exact E2|]. split; [exact U2|eapply shape_trans; eassumption].
      + exfalso. destruct (G i) as (y & Uy & Sy & Ne); [apply Rows; congruence|]. destruct (SA i y Uy Sy) as [E|[H _]]; [rewrite E in Ne; cbn in Ne; congruence|].
        destruct (H j) as (r' & Er & B); [apply args_of_in; eauto 6|]. congruence.
  Qed.
End never.
