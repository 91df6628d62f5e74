(** Proofs about the profile file: what is written is read back. *)
From Coq Require Import ZArith List Bool Lia.
From Verif Require Import Common Text HashModel Bits VprecDenormal VprecConfig FuncModel DdebugModel WrapParseProofs VfiModel VfiProofs.
Import ListNotations.
Open Scope Z_scope.
Open Scope outcome_scope.

Ltac bsplit := repeat match goal with H : _ && _ = true |- _ => apply andb_prop in H; destruct H end.

(** ** Numbers *)
Lemma udec_digits n : forall k, 0 <= k < 10 ^ Z.of_nat n -> Forall (fun c => 48 <= c <= 57) (udec n k).
Proof.
  induction n as [|n IH]; intros k Hk; cbn [udec]; [constructor|]. destruct (Z.ltb_spec k 10); [repeat constructor; lia|].
  apply Forall_app. split.
  - apply IH. rewrite Nat2Z.inj_succ, Z.pow_succ_r in Hk by lia. split; [apply Z.div_pos; lia|]. apply Z.div_lt_upper_bound; lia.
  - repeat constructor; pose proof (Z.mod_pos_bound k 10); lia.
Qed.
Lemma udec_nonnil n k : udec (S n) k <> [].
Proof. cbn [udec]. destruct (k <? 10); [discriminate|]. intros H. apply app_eq_nil in H. destruct H; discriminate. Qed.
Lemma udec_length n : forall k, (length (udec n k) <= n)%nat.
Proof. induction n as [|n IH]; intros k; cbn [udec]; [reflexivity|]. destruct (k <? 10); [cbn; lia|]. rewrite app_length. cbn [length]. pose proof (IH (k / 10)). lia. Qed.

Lemma read_digits_app l c acc r : Forall (fun c => 48 <= c <= 57) l -> 48 <= c <= 57 ->
  read_digits (l ++ [c] ++ r) acc = read_digits r (read_digits l acc * 10 + (c - 48)).
Proof.
  intros H Hc. revert acc. induction H as [|x l Hx _ IH]; intros acc; cbn [app read_digits].
  - unfold is_digit. destruct (Z.leb_spec 48 c), (Z.leb_spec c 57); try lia. reflexivity.
  - unfold is_digit. destruct (Z.leb_spec 48 x), (Z.leb_spec x 57); try lia. cbn [andb]. apply IH.
Qed.
Definition ends (r : list Z) : Prop := match r with [] => True | c :: _ => is_digit c = false end.
Lemma read_udec n : forall k r, (0 < n)%nat -> 0 <= k < 10 ^ Z.of_nat n -> ends r -> read_digits (udec n k ++ r) 0 = k.
Proof.
  assert (E : forall r a, ends r -> read_digits r a = a) by (intros [|c r] a H; cbn in *; [reflexivity|rewrite H; reflexivity]).
  induction n as [|n IH]; intros k r Hn Hk Hr; [lia|]. cbn [udec]. destruct (Z.ltb_spec k 10).
  - cbn [app read_digits]. unfold is_digit. destruct (Z.leb_spec 48 (48 + k)), (Z.leb_spec (48 + k) 57); try lia. cbn [andb]. rewrite E by assumption. lia.
  - rewrite Nat2Z.inj_succ, Z.pow_succ_r in Hk by lia.
    assert (B : 0 <= k / 10 < 10 ^ Z.of_nat n) by (split; [apply Z.div_pos; lia|apply Z.div_lt_upper_bound; lia]).
    destruct n as [|n]; [cbn in Hk; lia|].
    rewrite <- app_assoc. rewrite read_digits_app; [|apply udec_digits; exact B|pose proof (Z.mod_pos_bound k 10); lia].
    rewrite E by assumption. pose proof (IH (k / 10) [] ltac:(lia) B I) as D. rewrite app_nil_r in D. rewrite D.
    pose proof (Z.div_mod k 10). lia.
Qed.
Lemma zdec_bytes k : - 2 ^ 31 <= k < 2 ^ 31 -> Forall (fun c => 45 <= c <= 57) (zdec k).
Proof.
  intros H. assert (B : 2 ^ 31 < 10 ^ Z.of_nat 19) by (cbn; lia). unfold zdec. destruct (Z.ltb_spec k 0).
  - constructor; [lia|]. eapply List.Forall_impl; [|apply udec_digits; lia]. cbn. lia.
  - eapply List.Forall_impl; [|apply udec_digits; lia]. cbn. lia.
Qed.
Lemma zdec_nonnil k : zdec k <> [].
Proof. unfold zdec. destruct (k <? 0); [discriminate|]. apply udec_nonnil. Qed.
Lemma zdec_length k : (length (zdec k) <= 20)%nat.
Proof. unfold zdec. destruct (k <? 0); cbn [length]; pose proof (udec_length 19 k); pose proof (udec_length 19 (- k)); lia. Qed.

Lemma strtoll_zdec k r : - 2 ^ 31 <= k < 2 ^ 31 -> ends r -> strtoll (zdec k ++ r) = (k, false).
Proof.
  intros H Hr. assert (B : 2 ^ 31 < 10 ^ Z.of_nat 19) by (cbn; lia).
  assert (V : match skip_spaces (zdec k ++ r) with
           | c :: l' => if c =? 45 then - read_digits l' 0 else if c =? 43 then read_digits l' 0 else read_digits (c :: l') 0
           | [] => 0
           end = k).
  { unfold zdec. destruct (Z.ltb_spec k 0).
    - cbn [app]. change (skip_spaces (45 :: udec 19 (- k) ++ r)) with (45 :: (udec 19 (- k) ++ r)). cbv beta iota. rewrite Z.eqb_refl. rewrite read_udec; [lia|lia|lia|assumption].
    - pose proof (udec_digits 19 k ltac:(lia)) as D. pose proof (udec_nonnil 18 k) as N. pose proof (read_udec 19 k r ltac:(lia) ltac:(lia) Hr) as R.
      destruct (udec 19 k) as [|c l]; [congruence|]. inversion D as [|? ? Dc _]; subst. cbn [app skip_spaces].
      assert (S : is_space c = false) by (unfold is_space; destruct (Z.eqb_spec c 32), (Z.leb_spec 9 c), (Z.leb_spec c 13); try lia; reflexivity).
      rewrite S. destruct (Z.eqb_spec c 45), (Z.eqb_spec c 43); first [exact R | lia]. }
  unfold strtoll. cbv zeta. rewrite V. destruct (Z.ltb_spec k (- 2 ^ 63)); [lia|]. destruct (Z.ltb_spec (2 ^ 63 - 1) k); [lia|]. reflexivity.
Qed.
Lemma to_signed_id w v : 0 < w -> - 2 ^ (w - 1) <= v < 2 ^ (w - 1) -> to_signed_int w v = v.
Proof.
  intros Hw H. unfold to_signed_int. assert (E : 2 ^ w = 2 * 2 ^ (w - 1)) by (rewrite <- Z.pow_succ_r by lia; f_equal; lia).
  rewrite Z.mod_small; lia.
Qed.

(** ** Lines *)
(** text that may stand between tabs *)
Definition plain (w : list Z) : Prop := w <> [] /\ no tab w /\ no newline w /\ no 0 w.
Lemma plain_zdec k : - 2 ^ 31 <= k < 2 ^ 31 -> plain (zdec k).
Proof.
  intros H. pose proof (zdec_bytes k H) as B. rewrite List.Forall_forall in B.
  split; [apply zdec_nonnil|]. unfold no, tab, newline. repeat split; intros I; apply B in I; lia.
Qed.
Definition line_of (ws : list (list Z)) (w : list Z) : list Z := concat (map (fun x => x ++ [tab]) ws) ++ w ++ [newline].
Lemma columns_line ws w : columns (ws ++ [w]) = line_of ws w.
Proof.
  assert (L : forall ws, concat (map (fun y => tab :: y) (ws ++ [w])) = [tab] ++ concat (map (fun y => y ++ [tab]) ws) ++ w).
  { induction ws0 as [|y l IH]; cbn [app map concat]; [rewrite app_nil_r; reflexivity|]. rewrite IH. cbn [app]. f_equal. rewrite <- !app_assoc. reflexivity. }
  unfold columns, line_of. destruct ws as [|x ws]; cbn [app]; [cbn; rewrite app_nil_r; reflexivity|].
  rewrite L. cbn [map concat]. rewrite <- !app_assoc. reflexivity.
Qed.
Lemma words_line ws w : Forall plain ws -> plain w -> words tab (line_of ws w) = ws ++ [w ++ [newline]].
Proof.
  intros H (W1 & W2 & W3 & W4). unfold line_of. induction H as [|x ws (X1 & X2 & _) _ IH]; cbn [map concat app].
  - apply words_last; [intros E; apply app_eq_nil in E; destruct E; discriminate|]. apply no_app. split; [exact W2|]. intros [E|[]]. discriminate.
  - rewrite <- !app_assoc. cbn [app]. rewrite words_more by assumption. rewrite IH. reflexivity.
Qed.
Lemma line_body ws w : exists b, line_of ws w = b ++ [newline] /\ (Forall plain ws -> plain w -> no newline b /\ no 0 b).
Proof.
  exists (concat (map (fun x => x ++ [tab]) ws) ++ w). split; [unfold line_of; rewrite <- app_assoc; reflexivity|]. intros H (W1 & W2 & W3 & W4).
  assert (N : no newline (concat (map (fun x => x ++ [tab]) ws)) /\ no 0 (concat (map (fun x => x ++ [tab]) ws))).
  { induction H as [|x ws (X1 & X2 & X3 & X4) _ [A B]]; cbn [map concat]; [split; intros []|]. rewrite !no_app.
    repeat split; auto; intros [E|[]]; discriminate. }
  rewrite !no_app. tauto.
Qed.
Lemma fgets_line n b r : (length b < n)%nat -> no newline b -> fgets n (b ++ newline :: r) = (b ++ [newline], r).
Proof.
  revert n. induction b as [|c b IH]; intros n Hn H; destruct n as [|n]; cbn [length] in Hn; try lia; cbn [app fgets].
  - rewrite Z.eqb_refl. reflexivity.
  - apply no_cons in H. destruct H as [H1 H2]. destruct (Z.eqb_spec c newline); [congruence|]. rewrite IH by (auto; lia). reflexivity.
Qed.
Lemma c_string_id l : no 0 l -> c_string l = l.
Proof. induction l as [|c l IH]; intros H; cbn; [reflexivity|]. apply no_cons in H. destruct H as [H1 H2]. destruct (Z.eqb_spec c 0); [congruence|]. rewrite IH by assumption. reflexivity. Qed.

Definition short (w : list Z) : Prop := (length w < STRING_BUFF)%nat.
Lemma line_length ws w : Forall short ws -> short w -> (length ws <= 6)%nat -> (length (line_of ws w) <= 256 * 7 + 1)%nat.
Proof.
  intros H Hw L. unfold line_of. rewrite app_length, app_length. cbn [length].
  assert (E : (length (concat (map (fun x => x ++ [tab]) ws)) <= 256 * length ws)%nat).
  { clear L. induction H as [|x ws Hx _ IH]; cbn [map concat length]; [lia|]. rewrite !app_length. cbn [length]. unfold short, STRING_BUFF in Hx. lia. }
  unfold short, STRING_BUFF in Hw. lia.
Qed.

Lemma scan_line_spec stale n ws w r : Forall plain ws -> plain w -> Forall short ws -> (length w < 255)%nat -> (length ws < n)%nat -> (length (line_of ws w) <= LINE_MAX)%nat ->
  scan_line stale n (line_of ws w ++ r) = Ok (ws ++ [w ++ [newline]], r).
Proof.
  intros P Pw S Sw Hn L. unfold scan_line. destruct (line_body ws w) as (b & E & N). destruct (N P Pw) as [N1 N2].
  assert (T : line_of ws w ++ r = b ++ newline :: r) by (rewrite E, <- app_assoc; reflexivity).
  assert (F : (match line_of ws w ++ r with [] => (stale, []) | _ => fgets LINE_MAX (line_of ws w ++ r) end) = (line_of ws w, r)).
  { rewrite T. rewrite E in L. rewrite app_length in L. cbn [length] in L. rewrite fgets_line by (auto; lia). rewrite E. destruct b; reflexivity. }
  rewrite F. rewrite c_string_id by (rewrite E; apply no_app; split; [exact N2|]; intros [X|[]]; discriminate).
  rewrite words_line by assumption.
  assert (A : forallb (fun w => Nat.ltb (length w) STRING_BUFF) (ws ++ [w ++ [newline]]) = true).
  { rewrite forallb_app. apply andb_true_intro. split.
    - apply forallb_forall. intros x I. rewrite List.Forall_forall in S. apply Nat.ltb_lt, S, I.
    - cbn [forallb]. rewrite andb_true_r. apply Nat.ltb_lt. rewrite app_length. cbn [length]. unfold STRING_BUFF. lia. }
  rewrite A. rewrite app_length. cbn [length andb]. destruct (Nat.leb_spec (length ws + 1) n); [reflexivity|lia].
Qed.

(** ** Functions *)
Definition int32 (v : Z) : Prop := - 2 ^ 31 <= v < 2 ^ 31.
Definition arg_ok (d : varg) : Prop :=
  plain (a_id d) /\ (length (a_id d) < 128)%nat /\ - 2 ^ 15 <= a_type d < 2 ^ 15 /\ int32 (a_mant d) /\ int32 (a_exp d) /\ int32 (a_min d) /\ int32 (a_max d).
Definition args_ok (n : Z) (l : option (list varg)) : Prop :=
  match l with Some ds => n = Z.of_nat (length ds) /\ Forall arg_ok ds | None => n = 0 end.
(** a table entry whose text can be read back: names without tab, newline and NUL, fields within their C types *)
Definition function_ok (v : vfi) : Prop :=
  plain (v_id v) /\ (length (v_id v) < 256)%nat /\
  Forall (fun c => - 2 ^ 7 <= c < 2 ^ 7) [v_lib v; v_intr v; v_float v; v_double v] /\
  Forall int32 [v_prec64 v; v_range64 v; v_prec32 v; v_range32 v; v_nin v; v_nout v; v_calls v] /\
  args_ok (v_nin v) (v_in v) /\ args_ok (v_nout v) (v_out v).

Lemma scan_int_zdec k r : int32 k -> ends r -> scan_int (zdec k ++ r) = Ok k.
Proof. intros H Hr. unfold scan_int. rewrite strtoll_zdec by assumption. reflexivity. Qed.
Lemma scan_int_zdec0 k : int32 k -> scan_int (zdec k) = Ok k.
Proof. intros H. rewrite <- (app_nil_r (zdec k)). apply scan_int_zdec; [exact H|exact I]. Qed.
Lemma ends_newline : ends [newline].
Proof. reflexivity. Qed.
Lemma short_zdec k : short (zdec k).
Proof. unfold short, STRING_BUFF. pose proof (zdec_length k). lia. Qed.

Lemma scan_arg_spec stale label d r : plain label -> short label -> arg_ok d -> scan_arg stale (write_arg label d ++ r) = Ok (d, r).
Proof.
  intros PL SL (I1 & I2 & I3 & I4 & I5 & I6 & I7). unfold scan_arg, write_arg.
  change [label; a_id d; zdec (a_type d); zdec (a_mant d); zdec (a_exp d); zdec (a_min d); zdec (a_max d)]
    with ([label; a_id d; zdec (a_type d); zdec (a_mant d); zdec (a_exp d); zdec (a_min d)] ++ [zdec (a_max d)]). rewrite columns_line.
  assert (It : int32 (a_type d)) by (unfold int32; lia).
  assert (Ps : Forall plain [label; a_id d; zdec (a_type d); zdec (a_mant d); zdec (a_exp d); zdec (a_min d)]) by (repeat constructor; auto using plain_zdec; try apply plain_zdec; try assumption; try apply I1; try apply PL).
  assert (Ss : Forall short [label; a_id d; zdec (a_type d); zdec (a_mant d); zdec (a_exp d); zdec (a_min d)]).
  { apply List.Forall_cons; [exact SL|]. apply List.Forall_cons; [unfold short, STRING_BUFF; lia|]. repeat (apply List.Forall_cons; [apply short_zdec|]). apply List.Forall_nil. }
  rewrite scan_line_spec; [|exact Ps|apply plain_zdec; exact I7|exact Ss|pose proof (zdec_length (a_max d)); lia|cbn [length]; lia|].
  2:{ pose proof (line_length _ (zdec (a_max d)) Ss (short_zdec _)) as L. specialize (L (le_n 6)). unfold LINE_MAX. lia. }
  cbn [bind app]. unfold strcpy, ARG_ID_MAX. destruct (Z.ltb_spec (Z.of_nat (length (a_id d))) 128); [|lia]. cbn [bind].
  unfold scan_ints. cbn [fold_right]. rewrite !scan_int_zdec0 by assumption. rewrite scan_int_zdec by (auto using ends_newline). cbn [bind].
  rewrite (to_signed_id 16) by first [lia | exact I3]. rewrite !(to_signed_id 32) by first [lia | assumption]. destruct d; reflexivity.
Qed.
Lemma scan_args_spec stale label ds r : plain label -> short label -> Forall arg_ok ds ->
  scan_args (length ds) stale (concat (map (write_arg label) ds) ++ r) = Ok (ds, r).
Proof.
  intros PL SL. induction 1 as [|d ds Hd _ IH]; [reflexivity|]. cbn [map concat length scan_args]. rewrite <- app_assoc.
  rewrite scan_arg_spec by assumption. cbn [bind]. rewrite IH. reflexivity.
Qed.
Lemma plain_label_in : plain label_in.
Proof. split; [discriminate|]. repeat split; unfold no, label_in, tab, newline; cbn; intuition lia. Qed.
Lemma plain_label_out : plain label_out.
Proof. split; [discriminate|]. repeat split; unfold no, label_out, tab, newline; cbn; intuition lia. Qed.
Lemma write_args_ok label n l : args_ok n l -> exists ds, write_args label n l = Ok (concat (map (write_arg label) ds)) /\ Z.to_nat n = length ds /\ Forall arg_ok ds /\
  ds = match l with Some ds => ds | None => [] end.
Proof.
  intros H. destruct l as [ds|]; cbn [args_ok] in H.
  - destruct H as [-> H]. exists ds. unfold write_args. rewrite Z.leb_refl, Nat2Z.id, firstn_all. auto.
  - subst n. exists []. auto.
Qed.

Definition header_of (v : vfi) : vfi := mk_vfi (v_id v) (v_lib v) (v_intr v) (v_float v) (v_double v) (v_prec64 v) (v_range64 v) (v_prec32 v) (v_range32 v) (v_nin v) None (v_nout v) None (v_calls v).
Lemma scan_header_spec stale v r : function_ok v -> scan_header stale (write_header v ++ r) = Ok (Some (header_of v, r)).
Proof.
  intros (I1 & I2 & I3 & I4 & _). unfold scan_header, write_header.
  pose (ws := v_id v :: map zdec [v_lib v; v_intr v; v_float v; v_double v; v_prec64 v; v_range64 v; v_prec32 v; v_range32 v; v_nin v; v_nout v]).
  change (v_id v :: map zdec [v_lib v; v_intr v; v_float v; v_double v; v_prec64 v; v_range64 v; v_prec32 v; v_range32 v; v_nin v; v_nout v; v_calls v])
    with (ws ++ [zdec (v_calls v)]). rewrite columns_line.
  assert (C3 : Forall int32 [v_lib v; v_intr v; v_float v; v_double v]) by (eapply List.Forall_impl; [|exact I3]; unfold int32; cbn; lia).
  rewrite List.Forall_forall in C3, I4, I3.
  assert (Z3 : forall x, In x [v_lib v; v_intr v; v_float v; v_double v; v_prec64 v; v_range64 v; v_prec32 v; v_range32 v; v_nin v; v_nout v; v_calls v] -> int32 x).
  { intros x Hx. cbn [In] in Hx, C3, I4. destruct Hx as [H|[H|[H|[H|H]]]]; [apply C3; auto..|apply I4; exact H]. }
  assert (Ps : Forall plain ws).
  { constructor; [exact I1|]. apply List.Forall_forall. intros x Hx. apply in_map_iff in Hx. destruct Hx as (k & <- & K). apply plain_zdec, Z3. cbn [In] in *. tauto. }
  assert (Ss : Forall short ws).
  { constructor; [exact I2|]. apply List.Forall_forall. intros x Hx. apply in_map_iff in Hx. destruct Hx as (k & <- & K). apply short_zdec. }
  assert (LL : (length (line_of ws (zdec (v_calls v))) <= LINE_MAX)%nat).
  { unfold line_of, ws. cbn [map concat]. rewrite !app_length. cbn [length].
    repeat match goal with |- context [length (zdec ?x)] => let L := fresh in pose proof (zdec_length x) as L; generalize dependent (length (zdec x)); intros end.
    unfold LINE_MAX. lia. }
  rewrite scan_line_spec; [|exact Ps|apply plain_zdec, Z3; cbn [In]; tauto|exact Ss|pose proof (zdec_length (v_calls v)); lia|cbn; lia|exact LL].
  cbn [bind]. unfold ws. cbn [map app]. cbn [length Nat.eqb]. unfold scan_ints. cbn [fold_right].
  rewrite !scan_int_zdec0 by (apply Z3; cbn [In]; tauto). rewrite scan_int_zdec by (auto using ends_newline; apply Z3; cbn [In]; tauto). cbn [bind].
  rewrite !(to_signed_id 8) by first [lia | apply I3; cbn [In]; tauto].
  rewrite !(to_signed_id 32) by first [lia | apply Z3; cbn [In]; tauto]. reflexivity.
Qed.

(** what reading makes of an entry: no argument list becomes an empty one *)
Definition reread (v : vfi) : vfi :=
  mk_vfi (v_id v) (v_lib v) (v_intr v) (v_float v) (v_double v) (v_prec64 v) (v_range64 v) (v_prec32 v) (v_range32 v)
    (v_nin v) (Some (match v_in v with Some ds => ds | None => [] end)) (v_nout v) (Some (match v_out v with Some ds => ds | None => [] end)) (v_calls v).
Definition id_key (v : vfi) : Z := hashmap_str_function (v_id v).

Lemma args_nonneg n l : args_ok n l -> n <? 0 = false.
Proof. destruct l; cbn; [intros [-> _]|intros ->]; apply Z.ltb_ge; lia. Qed.
Lemma read_one fuel stale v r t text : function_ok v -> write_function v = Ok text ->
  read_loop (S fuel) stale (text ++ r) t = read_loop fuel stale r (tset t (id_key v) (reread v)).
Proof.
  intros H W. pose proof H as (_ & _ & _ & _ & Hi & Ho). unfold write_function in W.
  destruct (write_args_ok label_in _ _ Hi) as (di & Wi & Li & Fi & Di). destruct (write_args_ok label_out _ _ Ho) as (d2 & Wo & Lo & Fo & Do).
  rewrite Wi, Wo in W. cbn [bind] in W. apply Ok_inj in W. subst text. cbn [read_loop]. rewrite <- !app_assoc. rewrite scan_header_spec by assumption. cbn [bind header_of].
  change (v_nin (header_of v)) with (v_nin v). change (v_nout (header_of v)) with (v_nout v).
  rewrite Li, scan_args_spec; [|apply plain_label_in|unfold short; cbn; unfold STRING_BUFF; lia|exact Fi]. cbn [bind].
  rewrite Lo, scan_args_spec; [|apply plain_label_out|unfold short; cbn; unfold STRING_BUFF; lia|exact Fo]. cbn [bind].
  rewrite (args_nonneg _ _ Hi), (args_nonneg _ _ Ho). subst di d2. reflexivity.
Qed.

Definition eof_ok (stale : list Z) : Prop := let ws := words tab (c_string stale) in (length ws < 12)%nat /\ Forall short ws.
Lemma scan_eof stale : eof_ok stale -> scan_header stale [] = Ok None.
Proof.
  intros [L S]. unfold scan_header, scan_line. cbv beta iota zeta.
  assert (A : forallb (fun w => Nat.ltb (length w) STRING_BUFF) (words tab (c_string stale)) = true).
  { apply forallb_forall. intros x I. rewrite List.Forall_forall in S. apply Nat.ltb_lt, S, I. }
  rewrite A. destruct (Nat.leb_spec (length (words tab (c_string stale))) 12); [|lia]. cbn [andb bind].
  destruct (words tab (c_string stale)) as [|w1 [|w2 [|w3 [|w4 [|w5 l]]]]] eqn:E; try reflexivity. destruct (Nat.eqb_spec (length (w1 :: w2 :: w3 :: w4 :: w5 :: l)) 12); [lia|reflexivity].
Qed.
Lemma write_header_pos v : (1 <= length (write_header v))%nat.
Proof. unfold write_header, columns. rewrite !app_length. cbn. lia. Qed.

Lemma read_written stale t : eof_ok stale -> Forall (fun kv => function_ok (snd kv)) t -> forall text, write_profile t = Ok text ->
  forall fuel acc, (S (length text) <= fuel)%nat ->
  read_loop fuel stale text acc = Ok (fold_left (fun t v => tset t (id_key v) (reread v)) (map snd t) acc).
Proof.
  intros He. induction 1 as [|[k v] t Hv _ IH]; intros text W fuel acc Hf.
  - apply Ok_inj in W. subst text. destruct fuel as [|fuel]; [cbn in Hf; lia|]. cbn [read_loop]. rewrite scan_eof by assumption. reflexivity.
  - cbn [write_profile] in W. bo W. bo W. apply Ok_inj in W. subst text. cbn [snd] in *. destruct fuel as [|fuel]; [lia|].
    rewrite (read_one _ _ _ _ _ _ Hv E). cbn [map fold_left]. apply IH; [exact E0|].
    assert (1 <= length a)%nat; [|rewrite app_length in Hf; lia].
    unfold write_function in E. bo E. bo E. apply Ok_inj in E. subst a. rewrite app_length. pose proof (write_header_pos v). lia.
Qed.
Lemma write_total t : Forall (fun kv => function_ok (snd kv)) t -> exists text, write_profile t = Ok text.
Proof.
  induction 1 as [|[k v] t Hv _ [text IH]]; [exists []; reflexivity|]. cbn [write_profile]. destruct Hv as (_ & _ & _ & _ & Hi & Ho). unfold write_function.
  destruct (write_args_ok label_in _ _ Hi) as (di & Wi & _). destruct (write_args_ok label_out _ _ Ho) as (d2 & Wo & _). cbn [snd] in *. rewrite Wi, Wo, IH. cbn [bind]. eauto.
Qed.

(** a table as the backend builds it: each entry under the hash of its id *)
Definition keyed (t : vtab) : Prop := Forall (fun kv => fst kv = id_key (snd kv)) t /\ NoDup (map fst t).
Lemma tset_new t k v : ~ In k (map fst t) -> tset t k v = t ++ [(k, v)].
Proof.
  induction t as [|[q w] t IH]; intros H; cbn [tset app]; [reflexivity|]. cbn [map fst In] in H. destruct (Z.eqb_spec k q); [exfalso; apply H; auto|].
  rewrite IH by tauto. reflexivity.
Qed.
Lemma fold_reread t : keyed t -> forall acc, (forall k, In k (map fst t) -> ~ In k (map fst acc)) ->
  fold_left (fun t v => tset t (id_key v) (reread v)) (map snd t) acc = acc ++ map (fun kv => (fst kv, reread (snd kv))) t.
Proof.
  intros [K N]. induction K as [|[k v] t Hk _ IH]; intros acc D; cbn [map fold_left fst snd] in *; [rewrite app_nil_r; reflexivity|].
  inversion N as [|? ? N1 N2]; subst. rewrite tset_new by (apply D; left; reflexivity). rewrite IH; [rewrite <- app_assoc; reflexivity|exact N2|].
  intros q Hq Ha. rewrite map_app, in_app_iff in Ha. destruct Ha as [Ha|[Ha|[]]]; [apply (D q); [right; exact Hq|exact Ha]|]. cbn in Ha. subst q. contradiction.
Qed.
Lemma round_trip stale t : eof_ok stale -> keyed t -> Forall (fun kv => function_ok (snd kv)) t ->
  exists text, write_profile t = Ok text /\ read_profile stale text = Ok (map (fun kv => (fst kv, reread (snd kv))) t).
Proof.
  intros He K F. destruct (write_total t F) as [text W]. exists text. split; [exact W|]. unfold read_profile.
  rewrite (read_written stale t He F text W) by lia. rewrite fold_reread; [reflexivity|exact K|]. intros k _ [].
Qed.
Lemma tget_map t g k : tget (map (fun kv : Z * vfi => (fst kv, g (snd kv))) t) k = option_map g (tget t k).
Proof. induction t as [|[q w] t IH]; cbn; [reflexivity|]. destruct (k =? q); [reflexivity|exact IH]. Qed.

(** ** The tables of a run can be written and read back *)
Definition parg_ok (a : parg) : Prop := plain (p_id a) /\ - 2 ^ 15 <= p_type a < 2 ^ 15.
Definition finfo_ok (f : finfo) : Prop :=
  plain (f_id f) /\ (length (f_id f) < 256)%nat /\ Forall (fun c => - 2 ^ 7 <= c < 2 ^ 7) [f_library f; f_intrinsic f; f_float f; f_double f].
Definition event_ok (e : vevent) : Prop :=
  match e with
  | EvEnter (f :: _) args | EvExit (f :: _) args => finfo_ok f /\ Forall parg_ok args /\ Z.of_nat (length args) < 2 ^ 31
  | _ => False
  end.
Definition table_ok (t : vtab) : Prop := keyed t /\ Forall (fun kv => function_ok (snd kv)) t.

Lemma int_op_ok x y : StdlibModel.int_op x = Ok y -> y = x /\ int32 x.
Proof.
  unfold StdlibModel.int_op, StdlibModel.in_int, int32. destruct (Z.leb_spec (- 2 ^ 31) x); [|discriminate]. destruct (Z.ltb_spec x (2 ^ 31)); [|discriminate].
  cbn. intros [= <-]. auto.
Qed.
Lemma update_bounds_arg_ok x d new t d' : update_bounds x d new t = Ok d' -> arg_ok d -> arg_ok d'.
Proof.
  intros H (A1 & A2 & A3 & A4 & A5 & A6 & A7). unfold update_bounds in H. destruct (is_float t || is_double t); [|discriminate]. bo H. bo H.
  unfold int_floor, int_ceil in *. destruct (is_finite (arg_fmt t) x); [|discriminate]. apply int_op_ok in E, E0. destruct E as [-> B1], E0 as [-> B2].
  destruct (_ || _) in H; apply Ok_inj in H; subst d'; [unfold arg_ok; tauto|]. split; [exact A1|]. split; [exact A2|]. split; [exact A3|].
  split; [exact A4|]. split; [exact A5|]. cbn [a_min a_max]. split; destruct (_ || new); assumption.
Qed.
Lemma do_arg_arg_ok sem inp new mode ctx d a d' a' : do_arg sem inp new mode ctx d a = Ok (d', a') -> parg_ok a -> (new = false -> arg_ok d) -> arg_ok d'.
Proof.
  intros H (P1 & P2) Hd. unfold do_arg in H. bo H. rename a0 into d0.
  assert (K : arg_ok d0).
  { destruct new; [|apply Ok_inj in E; subst; auto]. unfold init_arg in E. bo E. unfold strcpy, ARG_ID_MAX in E0.
    destruct (Z.ltb_spec (Z.of_nat (length (p_id a))) 128); [|discriminate]. apply Ok_inj in E, E0. subst a0 d0. unfold arg_ok, int32.
    destruct (is_double (p_type a)); cbn [a_id a_type a_mant a_exp a_min a_max]; repeat split; try apply P1; try apply P2; lia. }
  assert (C : forall x y e e', do_cell sem inp (a_exp d) (a_mant d) new mode (p_type a) ctx (x, e) = Ok (y, e') -> arg_ok e -> arg_ok e').
  { intros x y e e' K1 K2. unfold do_cell in K1. bo K1. bo K1. apply Ok_inj in K1. injection K1 as <- <-. eapply update_bounds_arg_ok; eassumption. }
  destruct (is_scalar (p_type a)).
  - destruct (p_cells a) as [[|x l]|]; try discriminate. bo H. destruct a0 as [y d1]. apply Ok_inj in H. injection H as <- <-. apply C in E0; auto.
  - destruct (is_pointer (p_type a)); [|apply Ok_inj in H; injection H as <- <-; exact K].
    destruct (p_cells a) as [l|]; [|apply Ok_inj in H; injection H as <- <-; exact K].
    destruct (p_size a <=? 0); [apply Ok_inj in H; injection H as <- <-; exact K|].
    destruct l as [|x l]; [discriminate|]. bo H. destruct a0 as [y d1]. apply Ok_inj in H. injection H as <- <-.
    apply (iterate_inv (fun s => arg_ok (snd s)) _ _ (x, d0) (y, d1)) in E0; [exact E0| |exact K].
    intros [x1 e1] [x2 e2] Q R. apply C in R; auto.
Qed.
Lemma do_args_arg_ok sem inp new mode ctx : forall args ds ds' args', do_args sem inp new mode ctx ds args = Ok (ds', args') -> Forall parg_ok args ->
  (new = false -> Forall arg_ok ds) -> (new = true -> length ds = length args) -> Forall arg_ok ds'.
Proof.
  induction args as [|a args IH]; intros ds ds' args' H P D L; cbn [do_args] in H.
  - apply Ok_inj in H. injection H as <- <-. destruct new; [|auto]. destruct ds; [constructor|]. specialize (L eq_refl). discriminate.
  - destruct ds as [|d ds]; [discriminate|]. bo H. destruct a0 as [d1 a1]. bo H. destruct a0 as [ds1 args1]. apply Ok_inj in H. injection H as <- <-.
    inversion P as [|? ? P1 P2]; subst. constructor.
    + apply (do_arg_arg_ok _ _ _ _ _ _ _ _ _ E P1). intros N. specialize (D N). inversion D; assumption.
    + apply (IH _ _ _ E0 P2); [intros N; specialize (D N); inversion D; assumption|]. intros N. specialize (L N). cbn [length] in L. lia.
Qed.
Lemma calloc_length n : length (calloc (Z.of_nat n)) = n.
Proof. unfold calloc. rewrite repeat_length, Nat2Z.id. reflexivity. Qed.

Lemma tget_in t k v : tget t k = Some v -> In (k, v) t.
Proof. induction t as [|[q w] t IH]; cbn; [discriminate|]. destruct (Z.eqb_spec k q) as [->|N]; [intros [= <-]; auto|auto]. Qed.
Lemma tset_keys t k v : map fst (tset t k v) = if existsb (Z.eqb k) (map fst t) then map fst t else map fst t ++ [k].
Proof.
  induction t as [|[q w] t IH]; cbn [tset map fst existsb app]; [reflexivity|]. destruct (Z.eqb_spec k q) as [->|N]; cbn [map fst orb]; [reflexivity|].
  rewrite IH. destruct (existsb (Z.eqb k) (map fst t)); reflexivity.
Qed.
Lemma tset_forall (P : Z * vfi -> Prop) t k v : Forall P t -> P (k, v) -> Forall P (tset t k v).
Proof. intros H K. induction H as [|[q w] t Hq Ht IH]; cbn [tset]; [repeat constructor; exact K|]. destruct (k =? q); constructor; assumption. Qed.
Lemma table_set t k v : table_ok t -> k = id_key v -> function_ok v -> table_ok (tset t k v).
Proof.
  intros ([K N] & F) -> H. split; [split|].
  - apply tset_forall; [exact K|reflexivity].
  - rewrite tset_keys. destruct (existsb (Z.eqb (id_key v)) (map fst t)) eqn:E; [exact N|].
    rewrite <- (rev_involutive (map fst t ++ [id_key v])). apply NoDup_rev. rewrite rev_app_distr. cbn [rev app]. constructor; [|apply NoDup_rev; exact N].
    rewrite <- in_rev. intros I. assert (X : existsb (Z.eqb (id_key v)) (map fst t) = true) by (apply existsb_exists; exists (id_key v); split; [exact I|apply Z.eqb_refl]). congruence.
  - apply tset_forall; [exact F|exact H].
Qed.

Lemma event_table_ok sem m s e s' : event_ok e -> table_ok (vs_tab s) -> vfi_event sem m s e = Ok s' -> table_ok (vs_tab s').
Proof.
  intros Oe T H. destruct e as [[|f st] args|[|f st] args]; cbn [event_ok] in Oe; try contradiction; destruct Oe as (Of & Oa & On); cbn [vfi_event] in H; bo H; destruct a as [s1 args']; apply Ok_inj in H; subst s1.
  - unfold vfi_enter in E. bo E. bo E. bo E. bo E. destruct a2 as [ds args1]. apply Ok_inj in E. injection E as <- <-. cbn [vs_tab].
    assert (Hv : fkey f = id_key a /\ function_ok a).
    { destruct (tget (vs_tab s) (fkey f)) as [v|] eqn:G.
      - apply Ok_inj in E0. subst a. apply tget_in in G. destruct T as ([K _] & F). rewrite List.Forall_forall in K, F. split; [apply (K _ G)|apply (F _ G)].
      - unfold new_function in E0. bo E0. unfold strcpy in E. destruct (_ <? _) in E; [|discriminate]. apply Ok_inj in E, E0. subst a2 a. split; [reflexivity|].
        destruct Of as (O1 & O2 & O3). split; [exact O1|]. split; [exact O2|]. split; [exact O3|]. split; [repeat constructor; unfold int32; cbn; lia|]. split; reflexivity. }
    destruct Hv as [Hk (F1 & F2 & F3 & F4 & F5 & F6)]. apply int_op_ok in E1. destruct E1 as [-> Ic].
    apply table_set; [exact T|exact Hk|]. split; [exact F1|]. split; [exact F2|]. split; [exact F3|].
    inversion F4 as [|? ? G1 F4a]; subst. inversion F4a as [|? ? G2 F4b]; subst. inversion F4b as [|? ? G3 F4c]; subst. inversion F4c as [|? ? G4 F4d]; subst.
    inversion F4d as [|? ? G5 F4e]; subst. inversion F4e as [|? ? G6 _]; subst.
    destruct (do_args_length _ _ _ _ _ _ _ _ _ E3) as [Ld _].
    destruct (v_in a) as [l|] eqn:Vi; cbn [args_ok] in F5.
    + destruct F5 as [Fn Fl]. cbn -[int32]. split; [repeat apply List.Forall_cons; auto; apply List.Forall_nil|].
      assert (AA : args_ok (v_nin a) (Some ds)) by (split; [lia|]; apply (do_args_arg_ok _ _ _ _ _ _ _ _ _ E3 Oa); auto; discriminate). auto.
    + destruct (Z.ltb_spec 0 (Z.of_nat (length args))) as [Z0|Z0]; cbn -[int32].
      * assert (LL : length ds = length args) by (rewrite Ld; apply calloc_length).
        assert (In : int32 (Z.of_nat (length args))) by (unfold int32; lia).
        split; [repeat apply List.Forall_cons; auto; apply List.Forall_nil|].
        assert (AA : args_ok (Z.of_nat (length args)) (Some ds)) by (split; [lia|]; apply (do_args_arg_ok _ _ _ _ _ _ _ _ _ E3 Oa); [discriminate|]; intros _; apply calloc_length). auto.
      * split; [repeat apply List.Forall_cons; auto; apply List.Forall_nil|]. auto.
  - unfold vfi_exit in E. bo E. destruct (tget (vs_tab s) (fkey f)) as [v|] eqn:G; [|discriminate].
    bo E. destruct a0 as [ds args1]. apply Ok_inj in E. injection E as <- <-. cbn [vs_tab].
    assert (Hv : fkey f = id_key v /\ function_ok v).
    { apply tget_in in G. destruct T as ([K _] & F). rewrite List.Forall_forall in K, F. split; [apply (K _ G)|apply (F _ G)]. }
    destruct Hv as [Hk (F1 & F2 & F3 & F4 & F5 & F6)].
    apply table_set; [exact T|exact Hk|]. split; [exact F1|]. split; [exact F2|]. split; [exact F3|].
    inversion F4 as [|? ? G1 F4a]; subst. inversion F4a as [|? ? G2 F4b]; subst. inversion F4b as [|? ? G3 F4c]; subst. inversion F4c as [|? ? G4 F4d]; subst.
    inversion F4d as [|? ? G5 F4e]; subst. inversion F4e as [|? ? G6 F4f]; subst. inversion F4f as [|? ? G7 _]; subst.
    destruct (do_args_length _ _ _ _ _ _ _ _ _ E1) as [Ld _].
    destruct (v_out v) as [l|] eqn:Vi; cbn [args_ok] in F6.
    + destruct F6 as [Fn Fl]. cbn -[int32]. split; [repeat apply List.Forall_cons; auto; apply List.Forall_nil|].
      assert (AA : args_ok (v_nout v) (Some ds)) by (split; [lia|]; apply (do_args_arg_ok _ _ _ _ _ _ _ _ _ E1 Oa); auto; discriminate). auto.
    + destruct (Z.ltb_spec 0 (Z.of_nat (length args))) as [Z0|Z0]; cbn -[int32].
      * assert (LL : length ds = length args) by (rewrite Ld; apply calloc_length).
        assert (In : int32 (Z.of_nat (length args))) by (unfold int32; lia).
        split; [repeat apply List.Forall_cons; auto; apply List.Forall_nil|].
        assert (AA : args_ok (Z.of_nat (length args)) (Some ds)) by (split; [lia|]; apply (do_args_arg_ok _ _ _ _ _ _ _ _ _ E1 Oa); [discriminate|]; intros _; apply calloc_length). auto.
      * split; [repeat apply List.Forall_cons; auto; apply List.Forall_nil|]. auto.
Qed.
Lemma events_table_ok sem m h : forall s s', Forall event_ok h -> table_ok (vs_tab s) -> vfi_events sem m h s = Ok s' -> table_ok (vs_tab s').
Proof.
  induction h as [|e h IH]; intros s s' O T H; cbn in H; [apply Ok_inj in H; subst; exact T|].
  bo H. inversion O as [|? ? O1 O2]; subst. eapply IH; [exact O2| |exact H]. eapply event_table_ok; eassumption.
Qed.

Lemma tget_spec t k v : NoDup (map fst t) -> tget t k = Some v <-> In (k, v) t.
Proof.
  intros N. split; [apply tget_in|]. induction t as [|[q w] t IH]; cbn; [intros []|]. inversion N as [|? ? N1 N2]; subst. intros [[= -> ->]|I].
  - rewrite Z.eqb_refl. reflexivity.
  - destruct (Z.eqb_spec k q) as [->|_]; [|apply IH; assumption]. exfalso. apply N1. apply in_map_iff. exists (q, v). auto.
Qed.
Lemma tget_perm t t' k : NoDup (map fst t) -> Permutation.Permutation t' t -> tget t' k = tget t k.
Proof.
  intros N P. assert (N' : NoDup (map fst t')) by (apply (Permutation.Permutation_NoDup (l := map fst t)); [apply Permutation.Permutation_map, Permutation.Permutation_sym, P|exact N]).
  destruct (tget t k) as [v|] eqn:E.
  - apply tget_spec; [exact N'|]. apply tget_in in E. apply (Permutation.Permutation_in _ (Permutation.Permutation_sym P) E).
  - destruct (tget t' k) as [v|] eqn:E'; [|reflexivity]. apply tget_in in E'. apply (Permutation.Permutation_in _ P) in E'. apply tget_spec in E'; [congruence|exact N].
Qed.
Lemma table_perm t t' : Permutation.Permutation t' t -> table_ok t -> table_ok t'.
Proof.
  intros P ([K N] & F). split; [split|].
  - apply (Permutation.Permutation_Forall (Permutation.Permutation_sym P) K).
  - apply (Permutation.Permutation_NoDup (l := map fst t)); [apply Permutation.Permutation_map, Permutation.Permutation_sym, P|exact N].
  - apply (Permutation.Permutation_Forall (Permutation.Permutation_sym P) F).
Qed.
