(** C48, C66: which functions are instrumented (libVFCInstrument.cpp L145-312). *)
From Coq Require Import String ZArith List Bool Lia.
From Verif Require Import Text SelectModel SelectProofs.
Import ListNotations.
Open Scope Z_scope.

(** * C48: the list files *)
(** For list files made of comments, blank lines and entries whose patterns have no character special to regular expressions
    other than '.' and '*': a function is kept iff it is in the inclusion list, or it is not in the exclusion list and (there
    is no inclusion list or there is an exclusion list). [listed] reads patterns as globs ([Glob]: '*' is any text, every other
    character itself). Missing: the special characters (false, see below). *)
Theorem C48_selection_partial :
  forall inc exc modname names,
  list_ok inc -> list_ok exc -> one_line modname -> Forall (fun n => one_line n /\ n <> []) names ->
  exists kept, select (mk_options [] (file_opt inc) (file_opt exc)) modname names = Sel (filter kept names) /\
  forall n, In n names ->
    (kept n = true <-> in_list inc modname n \/ ~ in_list exc modname n /\ (inc = None \/ exc <> None)).
Proof.
  intros inc exc modname names Hi He Hm Hn. eexists. split; [apply select_lists; assumption|].
  intros n Hin. rewrite Forall_forall in Hn. destruct (Hn n Hin). apply keep_spec; assumption.
Qed.
Print Assumptions C48_selection_partial.

(** decisions for the examples *)
Definition glob (p s : list Z) : bool := match_items (map item_of p) s.
Ltac no_in := let h := fresh in intros h; vm_compute in h; repeat (destruct h as [h|h]; [discriminate h|]); exact h.
Ltac all_in := repeat (first [apply Forall_nil | apply Forall_cons]); try no_in; try (cbn; tauto).

Definition main_f1 : entry := Entry (bytes "main") [] (bytes "f1") [].
Definition dir_any : entry := Entry (bytes "dir/*") [32] (bytes "g*") [].
Definition any_f3 : entry := Entry (bytes "*") [] (bytes "f3") [32].
Lemma ends_black_dec f : match f with [] => false | c :: _ => negb (is_white c) && negb (is_white (last f 0)) end = true -> ends_black f.
Proof.
  destruct f as [|c f]; [discriminate|]. rewrite andb_true_iff, !negb_true_iff. intros [H1 H2]. split; [discriminate|]. split.
  - intros x l E. injection E as <- _. intros h. apply is_white_spec in h. congruence.
  - intros x l E. rewrite E, last_last in H2. intros h. apply is_white_spec in h. congruence.
Qed.
Lemma examples_ok : Forall entry_ok [Comment (bytes " list"); main_f1; Blank []; dir_any; any_f3].
Proof.
  repeat (first [apply Forall_nil | apply Forall_cons]).
  - split; [no_in|exact I].
  - split; [no_in|]. repeat split; try discriminate; try (all_in; fail); try (apply ends_black_dec; reflexivity).
  - split; [no_in|]. constructor.
  - split; [no_in|]. repeat split; try discriminate; try (all_in; fail); try (apply ends_black_dec; reflexivity).
  - split; [no_in|]. repeat split; try discriminate; try (all_in; fail); try (apply ends_black_dec; reflexivity).
Qed.
(** the documentation's examples (doc/03-inclusion-exclusion.md) *)
Example C48_nonvacuous :
  select (mk_options [] (Some (Some (file_of [Comment (bytes " list"); main_f1; Blank []; dir_any]))) None) (bytes "/src/main.c") [bytes "f1"; bytes "f2"; bytes "g"]
    = Sel [bytes "f1"] /\
  select (mk_options [] (Some (Some (file_of [main_f1; dir_any]))) None) (bytes "/src/dir/util.c") [bytes "f1"; bytes "f2"; bytes "g"; bytes "g.part"]
    = Sel [bytes "g"; bytes "g.part"] /\
  select (mk_options [] None (Some (Some (file_of [any_f3])))) (bytes "/src/dir/util.c") [bytes "f1"; bytes "f3"]
    = Sel [bytes "f1"] /\
  select (mk_options [] (Some (Some (file_of [main_f1]))) (Some (Some (file_of [any_f3])))) (bytes "/src/main.c") [bytes "f1"; bytes "f2"; bytes "f3"]
    = Sel [bytes "f1"; bytes "f2"].
Proof. vm_compute. repeat split; reflexivity. Qed.
Example C48_listed_nonvacuous : listed [main_f1] (bytes "/src/main.c") (bytes "f1") /\ ~ listed [main_f1] (bytes "/src/main.c") (bytes "f2").
Proof.
  assert (Hok : Forall entry_ok [main_f1]) by (pose proof examples_ok as H; inversion H; subst; inversion H3; subst; constructor; [assumption|constructor]).
  assert (Hm : one_line (bytes "/src/main.c")) by (split; no_in).
  split.
  - apply picks_listed; [exact Hok|exact Hm|]. apply (regex_match_joined _ (bytes "f1")); [split; no_in|discriminate|]. vm_compute. reflexivity.
  - intros H. apply picks_listed in H; [|exact Hok|exact Hm]. apply (regex_match_joined _ (bytes "f2")) in H; [|split; no_in|discriminate].
    vm_compute in H. discriminate.
Qed.

(** A line that is neither blank nor a comment and has no blank in it is a syntax error, wherever it stands and whatever
    follows; a list file that cannot be opened too: no module is instrumented. *)
Theorem C48_errors :
  forall es bad rest modname names o,
  Forall entry_ok es -> bad <> [] -> ~ In 32 bad -> ~ In 10 bad -> hd 0 bad <> 35 -> (exists c, In c bad /\ ~ white c) ->
  (o_include o = Some (Some (file_of es ++ bad ++ 10 :: rest)) \/ o_include o = Some None -> select o modname names = Fatal) /\
  (o_include o = None -> o_exclude o = Some (Some (file_of es ++ bad ++ 10 :: rest)) \/ o_exclude o = Some None -> select o modname names = Fatal).
Proof.
  intros es bad rest modname names o He Hn Hs Hl Hh Hw.
  assert (Hf : parse_function_set_file modname (Some (Some (file_of es ++ bad ++ 10 :: rest))) = Fatal).
  { cbn [parse_function_set_file].
    assert (Hsp : split_on newline (file_of es ++ bad ++ 10 :: rest) = map render es ++ bad :: split_on newline rest).
    { unfold file_of, newline. induction He as [|e es [Hnl He] Hes IH]; cbn [map concat app]; [apply split_on_app; exact Hl|].
      rewrite <- !app_assoc. cbn [app]. rewrite split_on_app by exact Hnl. rewrite IH. reflexivity. }
    rewrite Hsp. generalize (@nil Z) as acc. clear Hsp.
    induction He as [|e es He Hes IH]; intros acc; cbn [map app read_entries].
    - unfold read_entry.
      assert (Hst : starts [hash_sign] bad = false).
      { destruct bad as [|c b]; [congruence|]. cbn [hd] in Hh. cbn [starts]. unfold hash_sign. rewrite eqb_false by congruence. reflexivity. }
      assert (Hsf : split_first bad = (bad, [])).
      { clear - Hs. induction bad as [|c b IH]; [reflexivity|]. cbn [split_first]. unfold blank.
        rewrite eqb_false by (intros ->; apply Hs; left; reflexivity). rewrite IH by (intros h; apply Hs; right; exact h). reflexivity. }
      assert (Ht : trim bad <> []).
      { destruct Hw as (c & Hc & Hb). unfold trim. intros E. apply (f_equal (@rev Z)) in E. rewrite rev_involutive in E. cbn in E.
        assert (G : forall l, In c l -> In c (ltrim l)).
        { clear - Hb. induction l as [|x l IH]; intros h; [exact h|]. cbn [ltrim]. destruct (is_white x) eqn:E; [|exact h].
          destruct h as [->|h]; [apply is_white_spec in E; contradiction|auto]. }
        apply G in Hc. apply in_rev in Hc. apply G in Hc. rewrite E in Hc. exact Hc. }
      rewrite Hst, Hsf. destruct (trim bad); [congruence|reflexivity].
    - rewrite read_entry_spec by exact He. cbn [sbind]. apply IH. }
  split.
  - intros [H|H]; unfold select; rewrite H; [rewrite Hf|]; reflexivity.
  - intros H0 [H|H]; unfold select; rewrite H0, H; cbn [parse_function_set_file] in *; [rewrite Hf|]; reflexivity.
Qed.
Print Assumptions C48_errors.
Example C48_errors_nonvacuous : select (mk_options [] (Some (Some (file_of [main_f1] ++ bytes "util" ++ 9 :: bytes "f1" ++ 10 :: []))) None) (bytes "/src/main.c") [bytes "f1"] = Fatal.
Proof. vm_compute. reflexivity. Qed.

(** Characters special to regular expressions are not literal: the entry "* a$b" does not select a$b, and "* fo+" selects
    foo but not fo+. *)
Theorem C48_special_characters_refuted :
  select (mk_options [] (Some (Some (bytes "* a$b"))) None) (bytes "/src/main.c") [bytes "a$b"] = Sel [] /\
  Glob (bytes "a$b") (bytes "a$b") /\
  select (mk_options [] (Some (Some (bytes "* fo+"))) None) (bytes "/src/main.c") [bytes "foo"; bytes "fo+"] = Sel [bytes "foo"] /\
  ~ Glob (bytes "fo+") (bytes "foo").
Proof.
  split; [vm_compute; reflexivity|]. split; [apply (match_items_glob (bytes "a$b") (bytes "a$b")); [split; no_in|vm_compute; reflexivity]|].
  split; [vm_compute; reflexivity|].
  intros H. apply (match_items_glob (bytes "fo+") (bytes "foo")) in H; [vm_compute in H; discriminate|split; no_in].
Qed.
Print Assumptions C48_special_characters_refuted.

(** An indented entry is accepted and selects nothing (its module is taken to be empty and its function "main f1"). *)
Theorem C48_indented_entry_refuted :
  select (mk_options [] (Some (Some (bytes " main f1"))) None) (bytes "/src/main.c") [bytes "f1"] = Sel [] /\
  select (mk_options [] (Some (Some (bytes "main f1"))) None) (bytes "/src/main.c") [bytes "f1"] = Sel [bytes "f1"].
Proof. vm_compute. split; reflexivity. Qed.
Print Assumptions C48_indented_entry_refuted.

(** The module '*' is not any module: a source without '.' in its path is not matched (a '.' is required by the completion). *)
Theorem C48_any_module_refuted :
  select (mk_options [] None (Some (Some (bytes "* f3")))) (bytes "/src/prog") [bytes "f3"] = Sel [bytes "f3"] /\
  select (mk_options [] None (Some (Some (bytes "* f3")))) (bytes "/src/prog.c") [bytes "f3"] = Sel [].
Proof. vm_compute. split; reflexivity. Qed.
Print Assumptions C48_any_module_refuted.

(** * C66: --function *)
(** --function=f, f without any character special to regular expressions: exactly the functions named f are kept, whatever the
    list files. Missing: other names (false, see below). *)
Theorem C66_function_partial :
  forall f inc exc modname names,
  plain_name f -> list_ok inc -> list_ok exc -> one_line modname -> Forall one_line names ->
  exists kept, select (mk_options f (file_opt inc) (file_opt exc)) modname names = Sel kept /\
  (forall n, In n kept <-> In n names /\ n = f) /\
  Datatypes.length kept = count_occ (list_eq_dec Z.eq_dec) names f.
Proof.
  intros f inc exc modname names Hf Hi He Hm Hn. eexists. split; [apply select_function; assumption|]. split.
  - intros n. rewrite filter_In. destruct (list_eq_dec Z.eq_dec n f); intuition congruence.
  - clear. induction names as [|n names IH]; [reflexivity|]. cbn [filter count_occ]. destruct (list_eq_dec Z.eq_dec n f); cbn; congruence.
Qed.
Print Assumptions C66_function_partial.
Example C66_nonvacuous :
  plain_name (bytes "f1") /\
  select (mk_options (bytes "f1") None None) (bytes "/src/main.c") [bytes "f1"; bytes "f10"; bytes "main"] = Sel [bytes "f1"].
Proof. split; [|vm_compute; reflexivity]. split; [discriminate|]. repeat (first [apply Forall_nil | apply Forall_cons]); (split; [no_in|split; discriminate]). Qed.

(** The option is used as a regular expression without being escaped: --function=f.a also instruments fxa (names with a dot:
    static or cloned functions), and a '+' or a leading '*' ends the compiler with an exception or matches something else. *)
Theorem C66_function_dot_refuted :
  select (mk_options (bytes "f.a") None None) (bytes "/src/main.c") [bytes "f.a"; bytes "fxa"] = Sel [bytes "f.a"; bytes "fxa"] /\
  select (mk_options (bytes "*_init") None None) (bytes "/src/main.c") [bytes "a_init"] = Throws.
Proof. vm_compute. split; reflexivity. Qed.
Print Assumptions C66_function_dot_refuted.
