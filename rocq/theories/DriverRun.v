(** Proofs about the compiler driver *)
From Coq Require Import String ZArith List Bool Lia.
From Verif Require Import Text DriverModel.
Import ListNotations.
Open Scope Z_scope.

(** * The shell *)
Definition plain (w : list Z) : Prop := w <> [] /\ forallb ordinary w = true.
Definition prepend (ws : list (list Z)) (r : option (list (list Z))) : option (list (list Z)) := match r with Some l => Some (ws ++ l) | None => None end.
Definition sep (k : list Z) : Prop := k = [] \/ exists k', k = 32 :: k'.
(** a text that stands for some words, whatever follows; or provided that a blank follows *)
Definition seg (s : list Z) (ws : list (list Z)) : Prop := forall k, lex false None (s ++ k) = prepend ws (lex false None k).
Definition oseg (s : list Z) (ws : list (list Z)) : Prop := forall k, sep k -> lex false None (s ++ k) = prepend ws (lex false None k).

Lemma ordinary_facts : forall x, ordinary x = true -> is_blank x = false /\ (x =? quote) = false.
Proof.
  intros x H. unfold is_blank, quote, ordinary, is_digit in *. cbn [existsb] in H.
  destruct (x =? 32) eqn:E1; [apply Z.eqb_eq in E1; subst; vm_compute in H; discriminate |].
  destruct (x =? 9) eqn:E2; [apply Z.eqb_eq in E2; subst; vm_compute in H; discriminate |].
  destruct (x =? 39) eqn:E3; [apply Z.eqb_eq in E3; subst; vm_compute in H; discriminate |]. split; reflexivity.
Qed.
Lemma lex_ordinary : forall w u k, forallb ordinary w = true -> lex false (Some u) (w ++ k) = lex false (Some (u ++ w)) k.
Proof.
  induction w as [| x w IH]; intros u k H; cbn [app].
  - rewrite app_nil_r. reflexivity.
  - cbn [forallb] in H. apply andb_prop in H. destruct H as [H1 H2]. destruct (ordinary_facts x H1) as [E1 E2]. cbn [lex]. rewrite E1, E2, H1.
    rewrite IH by exact H2. rewrite <- app_assoc. reflexivity.
Qed.
Lemma lex_close : forall w k, sep k -> lex false (Some w) k = prepend [w] (lex false None k).
Proof. intros w k [-> | [k' ->]]; cbn; [reflexivity |]. destruct (lex false None k'); reflexivity. Qed.
Lemma oseg_plain : forall w, plain w -> oseg w [w].
Proof.
  intros w [Hn H] k Hk. destruct w as [| x w]; [congruence |]. cbn [forallb] in H. apply andb_prop in H. destruct H as [H1 H2].
  destruct (ordinary_facts x H1) as [E1 E2]. cbn [app lex]. rewrite E1, E2, H1. rewrite lex_ordinary by exact H2. cbn [app]. apply lex_close. exact Hk.
Qed.
Lemma lex_quoted : forall w u k, ~ In quote w -> lex true (Some u) (w ++ quote :: k) = lex false (Some (u ++ w)) k.
Proof.
  induction w as [| x w IH]; intros u k H; cbn [app lex].
  - rewrite Z.eqb_refl. rewrite app_nil_r. reflexivity.
  - destruct (x =? quote) eqn:E; [apply Z.eqb_eq in E; exfalso; apply H; left; symmetry; congruence |].
    rewrite IH by (intro Hi; apply H; right; exact Hi). rewrite <- app_assoc. reflexivity.
Qed.
Lemma oseg_quoted : forall w, ~ In quote w -> oseg (shell_escape w) [w].
Proof.
  intros w H k Hk. unfold shell_escape. change (b_ "'") with [quote]. rewrite <- !app_assoc. cbn [app]. cbn [lex].
  replace (is_blank quote) with false by reflexivity. rewrite Z.eqb_refl. rewrite lex_quoted by exact H. cbn [app]. apply lex_close. exact Hk.
Qed.

Lemma prepend_app : forall a b r, prepend a (prepend b r) = prepend (a ++ b) r.
Proof. intros a b [l |]; cbn; [rewrite app_assoc |]; reflexivity. Qed.
Lemma prepend_nil : forall r, prepend [] r = r.
Proof. intros [l |]; reflexivity. Qed.
Lemma seg_nil : seg [] [].
Proof. intro k. rewrite prepend_nil. reflexivity. Qed.
Lemma seg_app : forall s1 w1 s2 w2, seg s1 w1 -> seg s2 w2 -> seg (s1 ++ s2) (w1 ++ w2).
Proof. intros s1 w1 s2 w2 H1 H2 k. rewrite <- app_assoc, H1, H2, prepend_app. reflexivity. Qed.
Lemma seg_blank : forall s ws, seg s ws -> seg (32 :: s) ws.
Proof. intros s ws H k. cbn [app lex]. apply H. Qed.
Lemma oseg_blank : forall s ws, oseg s ws -> oseg (32 :: s) ws.
Proof. intros s ws H k Hk. cbn [app lex]. apply H. exact Hk. Qed.
Lemma seg_close : forall s ws, oseg s ws -> seg (s ++ [32]) ws.
Proof. intros s ws H k. rewrite <- app_assoc. rewrite H by (right; eexists; reflexivity). cbn [app lex]. reflexivity. Qed.
Lemma seg_oseg : forall s ws, seg s ws -> oseg s ws.
Proof. intros s ws H k _. apply H. Qed.
Lemma oseg_app : forall s1 w1 s2 w2, seg s1 w1 -> oseg s2 w2 -> oseg (s1 ++ s2) (w1 ++ w2).
Proof. intros s1 w1 s2 w2 H1 H2 k Hk. rewrite <- app_assoc, H1, H2 by exact Hk. rewrite prepend_app. reflexivity. Qed.
(** an open text, a blank, the rest *)
Lemma seg_cons : forall s1 w1 s2 w2, oseg s1 w1 -> seg s2 w2 -> seg (s1 ++ 32 :: s2) (w1 ++ w2).
Proof. intros. replace (s1 ++ 32 :: s2) with ((s1 ++ [32]) ++ s2) by (rewrite <- app_assoc; reflexivity). apply seg_app; [apply seg_close |]; assumption. Qed.
Lemma oseg_cons : forall s1 w1 s2 w2, oseg s1 w1 -> oseg s2 w2 -> oseg (s1 ++ 32 :: s2) (w1 ++ w2).
Proof. intros. replace (s1 ++ 32 :: s2) with ((s1 ++ [32]) ++ s2) by (rewrite <- app_assoc; reflexivity). apply oseg_app; [apply seg_close |]; assumption. Qed.
Lemma seg_words : forall s ws, seg s ws -> sh_words s = Some ws.
Proof. intros s ws H. specialize (H []). rewrite app_nil_r in H. unfold sh_words. rewrite H. cbn. rewrite app_nil_r. reflexivity. Qed.
Lemma oseg_words : forall s ws, oseg s ws -> sh_words s = Some ws.
Proof. intros s ws H. specialize (H [] (or_introl eq_refl)). rewrite app_nil_r in H. unfold sh_words. rewrite H. cbn. rewrite app_nil_r. reflexivity. Qed.
Lemma oseg_nil : oseg [] [].
Proof. apply seg_oseg, seg_nil. Qed.

Lemma oseg_join : forall (f : list Z -> list Z) l, Forall (fun x => oseg (f x) [x]) l -> oseg (join (map f l)) l.
Proof.
  intros f l H. induction H as [| x l Hx Hl IH]; [apply oseg_nil |]. cbn [map join]. destruct l as [| y l]; [exact Hx |].
  cbn [map] in *. change (b_ " " ++ join (f y :: map f l)) with (32 :: join (f y :: map f l)). apply (oseg_cons _ [x] _ (y :: l)); assumption.
Qed.

(** ordinary texts *)
Lemma plain_app : forall a b, plain a -> forallb ordinary b = true -> plain (a ++ b).
Proof. intros a b [H1 H2] H. split; [destruct a; [congruence | discriminate] |]. rewrite forallb_app, H2, H. reflexivity. Qed.
Lemma plain_app2 : forall a b, forallb ordinary a = true -> plain b -> plain (a ++ b).
Proof. intros a b H [H1 H2]. split; [destruct a; [exact H1 | discriminate] |]. rewrite forallb_app, H, H2. reflexivity. Qed.

(** * What each command is, as a list of arguments *)
Definition on {A} (b : bool) (ws : list A) : list A := if b then ws else [].
Definition plain_config (c : config) : Prop :=
  Forall plain [c_clang c; c_clangxx c; c_opt c; c_llvm_link c; c_libdir c; c_prismdir c; c_root c; c_incdir c; c_stdlib c; c_cwd c] /\ forallb ordinary (c_march c) = true.
(** the options of the command line, as completed by the driver *)
Definition all_options (a : args) (opts : list (list Z)) : list (list Z) :=
  opts ++ match a_linker a with Flang => [] | _ => [b_ "-Wno-unused-command-line-argument"] end.
Definition pass_words (c : config) (pass lib : list Z) : list (list Z) :=
  if 17 <=? c_version c then [b_ "-load-pass-plugin"; lib; b_ "-passes=" ++ pass]
  else on (13 <=? c_version c) [b_ "-enable-new-pm=0"] ++ [b_ "-load"; lib; b_ "-" ++ pass].
(** the wrappers, compiled to LLVM or to an object *)
Definition wrapper_words (c : config) (a : args) (emit : bool) (out : list Z) : list (list Z) :=
  [c_clang c; b_ "-O3"] ++ match c_march c with [] => [] | m => [m] end ++ [b_ "-g"] ++ on emit (on (a_temps a) [b_ "-S"] ++ [b_ "-emit-llvm"]) ++
  [b_ "-c"; b_ "-Wno-varargs"; b_ "-I"; includes c] ++ [if a_static a then b_ "-static" else b_ "-fPIC"] ++
  on (a_fcmp a) [b_ "-DINST_FCMP"] ++ on (a_ddebug a) [b_ "-DDDEBUG"] ++ on (a_func a) [b_ "-DINST_FUNC"] ++ on (a_fma a) [b_ "-DINST_FMA"] ++
  on (a_cast a) [b_ "-DINST_CAST"] ++ [vfcwrapper c; b_ "-I" ++ c_incdir c; b_ "-o"; out].
(** the front end: source to LLVM *)
Definition front_words (c : config) (a : args) (opts : list (list Z)) (source out : list Z) : list (list Z) :=
  [linker_path c (a_linker a); b_ "-c"] ++ on (a_temps a) [b_ "-S"] ++ [b_ "-emit-llvm"] ++ on (a_func a || a_ddebug a) [b_ "-g"] ++
  [source; b_ "-I"; includes c] ++ all_options a opts ++ [b_ "-o"; out].
(** the instrumentation of functions *)
Definition func_words (c : config) (a : args) (input out : list Z) : list (list Z) :=
  [c_opt c] ++ on (a_temps a) [b_ "-S"] ++ pass_words c (b_ "vfclibfunc") (c_libdir c ++ b_ "/libvfcfuncinstrument.so") ++ [input; b_ "-o"; out].
(** the instrumentation of the operations *)
Definition select_words (a : args) : list (list Z) :=
  if given (a_function a) then [b_ "-vfclibinst-function"; value (a_function a)]
  else on (given (a_include a)) [b_ "-vfclibinst-include-file"; value (a_include a)] ++ on (given (a_exclude a)) [b_ "-vfclibinst-exclude-file"; value (a_exclude a)].
Definition prism_words (c : config) (a : args) (mode : list Z) : list (list Z) :=
  [b_ "-vfclibinst-mode"; mode; b_ "-vfclibinst-dispatch"; if a_dynamic a then b_ "dynamic" else b_ "static";
   b_ "-vfclibinst-prism-static-ir-file"; c_prismdir c ++ b_ "/prism-static.ll"; b_ "-vfclibinst-prism-dynamic-ir-file"; c_prismdir c ++ b_ "/prism-dynamic.ll"] ++
  on (a_strict a) [b_ "-vfclibinst-strict-abi"] ++
  match a_debug a with [] => [] | l => b_ "-vfclibinst-debug" :: concat (map (fun d => match d with [] => [] | _ => [b_ "-vfclibinst-debug-" ++ d] end) l) end.
Definition mca_words (c : config) (a : args) (wrapper input out : list Z) : list (list Z) :=
  [c_opt c] ++ on (a_temps a) [b_ "-S"] ++
  pass_words c (b_ "vfclibinst") (c_libdir c ++ (match a_prism a with Some _ => b_ "/libvfcinstrumentprism.so" | None => b_ "/libvfcinstrument.so" end)) ++
  on (a_verbose a) [b_ "-vfclibinst-verbose"] ++ on (a_fcmp a) [b_ "-vfclibinst-inst-fcmp"] ++ on (a_fma a) [b_ "-vfclibinst-inst-fma"] ++
  on (a_cast a) [b_ "-vfclibinst-inst-cast"] ++
  match a_prism a with Some mode => prism_words c a mode | None => [b_ "-vfclibinst-vfcwrapper-file"; wrapper] end ++
  select_words a ++ [input; b_ "-o"; out].
(** the back end: instrumented LLVM to an object, or to LLVM with the wrappers *)
Definition back_words (c : config) (a : args) (opts : list (list Z)) (wrapper input out : list Z) : list (list Z) :=
  if a_emit a then [c_llvm_link c; input] ++ match wrapper with [] => [] | w => [w] end ++ [b_ "-o"; out]
  else [linker_path c (a_linker a); b_ "-c"; b_ "-o"; out; input] ++ all_options a opts.
Definition assembly_words (c : config) (a : args) (opts : list (list Z)) (source out : list Z) : list (list Z) :=
  [linker_path c (a_linker a); source; b_ "-c"] ++ all_options a opts ++ [b_ "-o"; out].
Definition link_words (c : config) (a : args) (opts libs objects : list (list Z)) (wrapper : list Z) : list (list Z) :=
  [linker_path c (a_linker a)] ++ on (given (a_o a)) [b_ "-o"; value (a_o a)] ++ objects ++ all_options a opts ++ on (a_ddebug a || a_func a) [b_ "-no-pie"] ++
  libs ++ match a_prism a with
          | Some _ => [(if a_dynamic a then b_ "-lprism-dynamic" else b_ "-lprism-static") ++ (match a_debug a with [] => [] | _ => b_ "-dbg" end); b_ "-lhwy"; b_ "-lstdc++"]
          | None => [wrapper]
          end ++
  (if a_static a then [b_ "-static"; b_ "-lgmp"; b_ "-lm"; b_ "-ldl"] else [b_ "-rpath"; c_libdir c; b_ "-L"; c_libdir c; b_ "-ldl"]) ++
  [b_ "-L" ++ c_stdlib c; b_ "-linterflop_stdlib"; b_ "-linterflop_hashmap"; b_ "-linterflop_logger"].

Definition bfirst (s : list Z) : Prop := exists k, s = 32 :: k.
Lemma seg_then : forall s1 w1 s2 w2, oseg s1 w1 -> bfirst s2 -> seg s2 w2 -> seg (s1 ++ s2) (w1 ++ w2).
Proof. intros s1 w1 s2 w2 H1 [k Hk] H2 r. rewrite <- app_assoc. rewrite H1 by (right; rewrite Hk; eexists; reflexivity). rewrite H2, prepend_app. reflexivity. Qed.
Lemma oseg_then : forall s1 w1 s2 w2, oseg s1 w1 -> bfirst s2 -> oseg s2 w2 -> oseg (s1 ++ s2) (w1 ++ w2).
Proof.
  intros s1 w1 s2 w2 H1 [k Hk] H2 r Hr. rewrite <- app_assoc. rewrite H1 by (right; rewrite Hk; eexists; reflexivity). rewrite H2 by exact Hr. rewrite prepend_app.
  reflexivity.
Qed.
Lemma seg_if : forall (b : bool) s ws, seg s ws -> seg (if b then s else []) (on b ws).
Proof. intros [|] s ws H; [exact H | apply seg_nil]. Qed.
Lemma seg_eq : forall s ws ws', seg s ws -> ws = ws' -> seg s ws'.
Proof. intros s ws ws' H ->. exact H. Qed.
Lemma oseg_eq : forall s ws ws', oseg s ws -> ws = ws' -> oseg s ws'.
Proof. intros s ws ws' H ->. exact H. Qed.

Lemma lex_split : forall t q cur l k, lex q cur t = Some l -> sep k -> lex q cur (t ++ k) = prepend l (lex false None k).
Proof.
  induction t as [| x t IH]; intros q cur l k H Hk; cbn [app].
  - cbn [lex] in H. destruct q; [discriminate |]. injection H as <-. destruct cur as [w |]; [apply lex_close; exact Hk | rewrite prepend_nil; reflexivity].
  - cbn [lex] in *. destruct q.
    + destruct (x =? quote); apply IH; assumption.
    + destruct (is_blank x).
      * destruct cur as [w |]; [| apply IH; assumption]. destruct (lex false None t) as [l' |] eqn:E; [| discriminate]. injection H as <-.
        rewrite (IH false None l' k E Hk). destruct (lex false None k); reflexivity.
      * destruct (x =? quote); [apply IH; assumption |]. destruct (ordinary x); [apply IH; assumption | discriminate].
Qed.
Lemma oseg_lit : forall t l, sh_words t = Some l -> oseg t l.
Proof. intros t l H k Hk. apply lex_split; assumption. Qed.
Lemma seg_lit : forall t l, sh_words (removelast t) = Some l -> removelast t ++ [32] = t -> seg t l.
Proof. intros t l H <-. apply seg_close, oseg_lit, H. Qed.
Ltac lit :=
  lazymatch goal with
  | |- seg (b_ ?t) ?w => let r := eval vm_compute in (sh_words (removelast (b_ t))) in lazymatch r with Some ?l => unify w l; apply seg_lit; vm_compute; reflexivity end
  | |- oseg (b_ ?t) ?w => let r := eval vm_compute in (sh_words (b_ t)) in lazymatch r with Some ?l => unify w l; apply oseg_lit; vm_compute; reflexivity end
  | |- seg [] _ => apply seg_nil
  | |- oseg [] _ => apply oseg_nil
  | |- seg (opt_text _ _) _ => unfold opt_text; eapply seg_if; lit
  end.
Ltac ord := first [ assumption | reflexivity ].
(* closes [oseg]/[seg] goals on a right-nested concatenation; [tac] proves the pieces *)
Ltac segs tac :=
  lazymatch goal with
  | |- oseg (?x ++ _) _ => first [ eapply oseg_app; [ solve [lit | tac] | segs tac ] | eapply oseg_then; [ solve [lit | tac] | solve [eexists; reflexivity] | segs tac ] ]
  | |- seg (?x ++ _) _ => first [ eapply seg_app; [ solve [lit | tac] | segs tac ] | eapply seg_then; [ solve [lit | tac] | solve [eexists; reflexivity] | segs tac ] ]
  | |- _ => solve [lit | tac]
  end.

Section words.
  Context (c : config) (HC : plain_config c).
  Lemma cfg : plain (c_clang c) /\ plain (c_clangxx c) /\ plain (c_opt c) /\ plain (c_llvm_link c) /\ plain (c_libdir c) /\ plain (c_prismdir c) /\
    plain (c_root c) /\ plain (c_incdir c) /\ plain (c_stdlib c) /\ plain (c_cwd c) /\ forallb ordinary (c_march c) = true.
  Proof. destruct HC as [H H']. repeat rewrite Forall_cons_iff in H. tauto. Qed.
  Lemma plain_includes : plain (includes c).
  Proof. apply plain_app; [apply cfg | reflexivity]. Qed.
  Lemma plain_wrapper : plain (vfcwrapper c).
  Proof. apply plain_app; [apply plain_includes | reflexivity]. Qed.

  Lemma oseg_pass : forall pass lib, forallb ordinary pass = true -> plain lib -> oseg (pass_args c pass lib) (pass_words c pass lib).
  Proof.
    intros pass lib Hp Hl. unfold pass_args, pass_words.
    assert (H1 : plain (b_ "-passes=" ++ pass)) by (apply plain_app; [split; [discriminate | reflexivity] | exact Hp]).
    assert (H2 : plain (b_ "-" ++ pass)) by (apply plain_app; [split; [discriminate | reflexivity] | exact Hp]).
    destruct (17 <=? c_version c).
    - change (b_ " -passes=" ++ pass) with (32 :: (b_ "-passes=" ++ pass)).
      eapply oseg_eq; [segs ltac:(first [apply oseg_plain; assumption | apply oseg_blank, oseg_plain; assumption]) | reflexivity].
    - change (b_ " -" ++ pass) with (32 :: (b_ "-" ++ pass)).
      destruct (13 <=? c_version c); (eapply oseg_eq; [segs ltac:(first [apply oseg_plain; assumption | apply oseg_blank, oseg_plain; assumption]) | reflexivity]).
  Qed.

  Context (a : args).
  Lemma seg_emit : seg (emit_format a) (on (a_temps a) [b_ "-S"]).
  Proof. unfold emit_format. lit. Qed.
  Lemma oseg_march : oseg (c_march c) (match c_march c with [] => [] | m => [m] end).
  Proof. destruct (c_march c) as [| x m] eqn:E; [apply oseg_nil |]. apply oseg_plain. split; [discriminate |]. rewrite <- E. apply cfg. Qed.

  Lemma wrapper_text : forall (emit : bool) out, plain out ->
    sh_words (c_clang c ++ b_ " -O3 " ++ c_march c ++ b_ " -g " ++
      ((if emit then b_ " " ++ emit_format a ++ b_ " -emit-llvm " else []) ++ b_ " -c -Wno-varargs -I " ++ includes c ++ b_ " ") ++ b_ " " ++
      ((if a_static a then b_ "-static " else b_ "-fPIC ") ++ opt_text (a_fcmp a) "-DINST_FCMP " ++ opt_text (a_ddebug a) "-DDDEBUG " ++
      opt_text (a_func a) "-DINST_FUNC " ++ opt_text (a_fma a) "-DINST_FMA " ++ opt_text (a_cast a) "-DINST_CAST ") ++ b_ " " ++ vfcwrapper c ++ b_ " -I" ++ c_incdir c ++
           b_ " -o " ++ out ++ b_ " ")
    = Some (wrapper_words c a emit out).
  Proof.
    intros emit out Ho. destruct cfg as (K1 & K2 & K3 & K4 & K5 & K6 & K7 & K8 & K9 & K10 & K11). pose proof plain_includes as HI. pose proof plain_wrapper as HW.
    replace (b_ " -I" ++ c_incdir c ++ b_ " -o " ++ out ++ b_ " ") with ((32 :: b_ "-I" ++ c_incdir c) ++ b_ " -o " ++ out ++ b_ " ")
      by (change (32 :: b_ "-I" ++ c_incdir c) with (b_ " -I" ++ c_incdir c); rewrite <- !app_assoc; reflexivity).
    assert (HD : oseg (32 :: b_ "-I" ++ c_incdir c) [b_ "-I" ++ c_incdir c])
      by (apply oseg_blank, oseg_plain, plain_app2; [reflexivity | assumption]).
    assert (HE : seg (if emit then b_ " " ++ emit_format a ++ b_ " -emit-llvm " else []) (on emit (on (a_temps a) [b_ "-S"] ++ [b_ "-emit-llvm"]))).
    { destruct emit; cbn [on]; [| apply seg_nil]. eapply seg_eq; [segs ltac:(apply seg_emit) | reflexivity]. }
    assert (HS : seg (if a_static a then b_ "-static " else b_ "-fPIC ") [if a_static a then b_ "-static" else b_ "-fPIC"]) by (destruct (a_static a); lit).
    rewrite <- !app_assoc. apply oseg_words. eapply oseg_eq.
    - segs ltac:(first [exact HE | exact HS | exact HD | apply oseg_march | apply oseg_plain; assumption]).
    - unfold wrapper_words. rewrite <- ?app_assoc. reflexivity.
  Qed.

  Definition opts_text (opts : list (list Z)) : list Z :=
    join (map shell_escape opts) ++ match a_linker a with Flang => [] | _ => b_ " -Wno-unused-command-line-argument " end.
  Definition unquoted (opts : list (list Z)) : Prop := Forall (fun o => ~ In quote o) opts.
  Lemma oseg_opts : forall opts, unquoted opts -> oseg (opts_text opts) (all_options a opts).
  Proof.
    intros opts H. unfold opts_text, all_options.
    assert (H1 : oseg (join (map shell_escape opts)) opts) by (apply oseg_join; eapply Forall_impl; [| exact H]; intros o Ho; apply oseg_quoted; exact Ho).
    destruct (a_linker a); [| rewrite !app_nil_r; exact H1 |]; (eapply oseg_then; [exact H1 | eexists; reflexivity | lit]).
  Qed.

  Context (HL : plain (linker_path c (a_linker a))).
  Lemma front_text : forall opts source out, unquoted opts -> plain source -> plain out ->
    sh_words (linker_path c (a_linker a) ++ b_ " -c " ++ emit_format a ++ b_ " -emit-llvm " ++ opt_text (a_func a || a_ddebug a) " -g " ++ b_ " " ++ source ++ b_ " " ++
                      b_ " -I " ++ includes c ++ b_ " " ++ b_ " " ++ b_ " " ++ opts_text opts ++ b_ " -o " ++ out)
    = Some (front_words c a opts source out).
  Proof.
    intros opts source out Hq Hs Ho. destruct cfg as (K1 & K2 & K3 & K4 & K5 & K6 & K7 & K8 & K9 & K10 & K11). pose proof plain_includes as HI. apply oseg_words. eapply oseg_eq.
    - segs ltac:(first [apply seg_emit | apply oseg_opts; exact Hq | apply oseg_plain; assumption]).
    - unfold front_words. rewrite <- ?app_assoc. reflexivity.
  Qed.
  Lemma func_text : forall input out, plain input -> plain out ->
    sh_words (c_opt c ++ b_ " " ++ emit_format a ++ b_ " " ++ pass_args c (b_ "vfclibfunc") (c_libdir c ++ b_ "/libvfcfuncinstrument.so") ++ b_ " " ++ input ++ b_ " -o " ++ out)
    = Some (func_words c a input out).
  Proof.
    intros input out Hi Ho. destruct cfg as (K1 & K2 & K3 & K4 & K5 & K6 & K7 & K8 & K9 & K10 & K11). apply oseg_words. eapply oseg_eq.
    - segs ltac:(first [apply seg_emit | apply oseg_pass; [reflexivity | apply plain_app; [assumption | reflexivity]] | apply oseg_plain; assumption]).
    - unfold func_words. rewrite <- ?app_assoc. reflexivity.
  Qed.
  Definition nice (x : option (list Z)) : Prop := given x = true -> plain (value x).
  Lemma oseg_select : nice (a_function a) -> nice (a_include a) -> nice (a_exclude a) -> oseg (select_text a) (select_words a).
  Proof.
    intros H1 H2 H3. unfold select_text, select_words. destruct (given (a_function a)) eqn:E1.
    - eapply oseg_eq; [segs ltac:(apply oseg_plain; apply H1; exact E1) | reflexivity].
    - destruct (given (a_include a)) eqn:E2, (given (a_exclude a)) eqn:E3; cbn [on app]; rewrite ?app_nil_r.
      + rewrite <- app_assoc. eapply oseg_eq; [segs ltac:(apply oseg_plain; first [apply H2; exact E2 | apply H3; exact E3]) | reflexivity].
      + eapply oseg_eq; [segs ltac:(apply oseg_plain; apply H2; exact E2) | reflexivity].
      + eapply oseg_eq; [segs ltac:(apply oseg_plain; apply H3; exact E3) | reflexivity].
      + apply oseg_nil.
  Qed.
  Lemma seg_flags : seg (flags_text a)
    (on (a_verbose a) [b_ "-vfclibinst-verbose"] ++ on (a_fcmp a) [b_ "-vfclibinst-inst-fcmp"] ++ on (a_fma a) [b_ "-vfclibinst-inst-fma"] ++ on (a_cast a) [b_ "-vfclibinst-inst-cast"]).
  Proof. unfold flags_text. segs fail. Qed.
  Lemma seg_debug : forall l, Forall (fun d => oneof d debug_choices = true) l ->
    seg (concat (map (fun d => match d with [] => [] | _ => b_ " -vfclibinst-debug-" ++ d ++ b_ " " end) l)) (concat (map (fun d => match d with [] => [] | _ => [b_ "-vfclibinst-debug-" ++ d] end) l)).
  Proof.
    intros l H. induction H as [| d l Hd Hl IH]; [apply seg_nil |]. cbn [map concat]. apply seg_app; [| exact IH].
    destruct d as [| x d]; [apply seg_nil |]. rewrite app_assoc.
    change (b_ " -vfclibinst-debug-" ++ x :: d) with (32 :: (b_ "-vfclibinst-debug-" ++ x :: d)).
    assert (Ho : forallb ordinary (x :: d) = true).
    { unfold oneof in Hd. apply existsb_exists in Hd. destruct Hd as [y [Hy E]]. unfold same in E. destruct (list_eq_dec Z.eq_dec (x :: d) y) as [-> |]; [| discriminate].
      unfold debug_choices in Hy. cbn [map In] in Hy. intuition (subst; first [rewrite <- H; reflexivity | idtac]). all: rewrite <- H0 || rewrite <- H1 || idtac; reflexivity. }
    apply (seg_then _ [b_ "-vfclibinst-debug-" ++ x :: d] _ []); [apply oseg_blank, oseg_plain, plain_app; [split; [discriminate | reflexivity] | exact Ho] | eexists; reflexivity | lit].
  Qed.

  (** a PRISM mode and its debugging options, as argparse lets them through *)
  Definition good_prism : Prop :=
    Forall (fun d => oneof d debug_choices = true) (a_debug a) /\ (forall mode, a_prism a = Some mode -> mode = b_ "up-down" \/ mode = b_ "stochastic-rounding").
  Lemma seg_prism : good_prism -> forall mode, a_prism a = Some mode ->
    seg (b_ " -vfclibinst-mode " ++ mode ++ b_ " " ++ b_ " -vfclibinst-dispatch " ++ (if a_dynamic a then b_ "dynamic" else b_ "static") ++ b_ " " ++
           b_ " -vfclibinst-prism-static-ir-file " ++ c_prismdir c ++ b_ "/prism-static.ll" ++ b_ " " ++
           b_ " -vfclibinst-prism-dynamic-ir-file " ++ c_prismdir c ++ b_ "/prism-dynamic.ll" ++ b_ " " ++
           opt_text (a_strict a) " -vfclibinst-strict-abi " ++
           (match a_debug a with
            | [] => []
            | l => b_ " -vfclibinst-debug " ++ concat (map (fun d => match d with [] => [] | _ => b_ " -vfclibinst-debug-" ++ d ++ b_ " " end) l)
            end)) (prism_words c a mode).
  Proof.
    intros [Hd Hm] mode Em. destruct cfg as (K1 & K2 & K3 & K4 & K5 & K6 & K7 & K8 & K9 & K10 & K11).
    assert (HM : plain mode) by (destruct (Hm mode Em) as [-> | ->]; split; (discriminate || reflexivity)).
    assert (HY : plain (if a_dynamic a then b_ "dynamic" else b_ "static")) by (destruct (a_dynamic a); split; (discriminate || reflexivity)).
    assert (HB : seg (match a_debug a with
            | [] => []
            | l => b_ " -vfclibinst-debug " ++ concat (map (fun d => match d with [] => [] | _ => b_ " -vfclibinst-debug-" ++ d ++ b_ " " end) l)
            end) (match a_debug a with [] => [] | l => b_ "-vfclibinst-debug" :: concat (map (fun d => match d with [] => [] | _ => [b_ "-vfclibinst-debug-" ++ d] end) l) end)).
    { pose proof (seg_debug _ Hd) as HD. destruct (a_debug a) as [| d l]; [apply seg_nil |]. eapply seg_eq; [eapply seg_app; [lit | exact HD] | reflexivity]. }
    assert (P1 : plain (c_prismdir c ++ b_ "/prism-static.ll")) by (apply plain_app; [assumption | reflexivity]).
    assert (P2 : plain (c_prismdir c ++ b_ "/prism-dynamic.ll")) by (apply plain_app; [assumption | reflexivity]).
    rewrite (app_assoc (c_prismdir c) (b_ "/prism-static.ll")), (app_assoc (c_prismdir c) (b_ "/prism-dynamic.ll")).
    eapply seg_eq; [segs ltac:(first [exact HB | apply oseg_plain; assumption]) |]. unfold prism_words. rewrite <- ?app_assoc. reflexivity.
  Qed.

  Lemma mca_text : forall wrapper input out, nice (a_function a) -> nice (a_include a) -> nice (a_exclude a) -> good_prism ->
    (a_prism a = None -> plain wrapper) -> plain input -> plain out ->
    sh_words (let '(lib, extra) :=
      match a_prism a with
      | Some mode =>
          (c_libdir c ++ b_ "/libvfcinstrumentprism.so",
           flags_text a ++ b_ " -vfclibinst-mode " ++ mode ++ b_ " " ++ b_ " -vfclibinst-dispatch " ++ (if a_dynamic a then b_ "dynamic" else b_ "static") ++ b_ " " ++
           b_ " -vfclibinst-prism-static-ir-file " ++ c_prismdir c ++ b_ "/prism-static.ll" ++ b_ " " ++
           b_ " -vfclibinst-prism-dynamic-ir-file " ++ c_prismdir c ++ b_ "/prism-dynamic.ll" ++ b_ " " ++
           opt_text (a_strict a) " -vfclibinst-strict-abi " ++
           (match a_debug a with
            | [] => []
            | l => b_ " -vfclibinst-debug " ++ concat (map (fun d => match d with [] => [] | _ => b_ " -vfclibinst-debug-" ++ d ++ b_ " " end) l)
            end))
      | None => (c_libdir c ++ b_ "/libvfcinstrument.so", flags_text a ++ b_ " -vfclibinst-vfcwrapper-file " ++ wrapper ++ b_ " ")
      end in
      c_opt c ++ b_ " " ++ emit_format a ++ b_ " " ++ pass_args c (b_ "vfclibinst") lib ++ b_ " " ++ extra ++ b_ " " ++ select_text a ++ b_ "  " ++ input ++ b_ " -o " ++ out)
    = Some (mca_words c a wrapper input out).
  Proof.
    intros wrapper input out H1 H2 H3 Hp Hw Hi Ho. destruct cfg as (K1 & K2 & K3 & K4 & K5 & K6 & K7 & K8 & K9 & K10 & K11).
    pose proof (oseg_select H1 H2 H3) as HS. pose proof seg_flags as HF. pose proof (seg_prism Hp) as HP. unfold mca_words.
    destruct (a_prism a) as [mode |].
    - specialize (HP mode eq_refl). match type of HP with seg ?t _ => set (pt := t) in * end. apply oseg_words. rewrite <- (app_assoc (flags_text a)).
      eapply oseg_eq.
      + segs ltac:(first [exact HF | exact HP | exact HS | apply seg_emit | apply oseg_pass; [reflexivity | apply plain_app; [assumption | reflexivity]] | apply oseg_plain; assumption]).
      + rewrite <- ?app_assoc. reflexivity.
    - specialize (Hw eq_refl). apply oseg_words. rewrite <- (app_assoc (flags_text a)), <- (app_assoc (b_ " -vfclibinst-vfcwrapper-file ")), <- (app_assoc wrapper). eapply oseg_eq.
      + segs ltac:(first [exact HF | exact HP | exact HS | apply seg_emit | apply oseg_pass; [reflexivity | apply plain_app; [assumption | reflexivity]] | apply oseg_plain; assumption]).
      + rewrite <- ?app_assoc. reflexivity.
  Qed.

  (** the text of -o: given, or made from the name of the source *)
  Definition out_text (o : option (list Z)) : list Z := if given o then b_ "-o " ++ value o else [].
  Lemma oseg_out : forall o, nice o -> oseg (out_text o) (on (given o) [b_ "-o"; value o]).
  Proof. intros o H. unfold out_text. destruct (given o) eqn:E; cbn [on]; [| apply oseg_nil]. eapply oseg_eq; [segs ltac:(apply oseg_plain; apply H; exact E) | reflexivity]. Qed.
  Lemma back_text : forall opts wrapper input out (pre : list Z), unquoted opts -> (wrapper = [] \/ plain wrapper) -> plain input -> plain out -> pre = b_ "-o " \/ pre = b_ " -o " ->
    sh_words (if negb (a_emit a) then linker_path c (a_linker a) ++ b_ " -c " ++ (pre ++ out) ++ b_ " " ++ input ++ b_ " " ++ opts_text opts
              else c_llvm_link c ++ b_ " " ++ input ++ b_ " " ++ wrapper ++ b_ " " ++ pre ++ out)
    = Some (back_words c a opts wrapper input out).
  Proof.
    intros opts wrapper input out pre Hq Hw Hi Ho Hp. destruct cfg as (K1 & K2 & K3 & K4 & K5 & K6 & K7 & K8 & K9 & K10 & K11). unfold back_words.
    assert (HW : oseg wrapper (match wrapper with [] => [] | w => [w] end)) by (destruct Hw as [-> | Hw]; [apply oseg_nil |]; destruct wrapper; [apply oseg_nil | apply oseg_plain; exact Hw]).
    destruct (a_emit a); cbn [negb]; apply oseg_words; rewrite <- ?app_assoc; destruct Hp as [-> | ->].
    all: eapply oseg_eq; [segs ltac:(first [exact HW | apply oseg_opts; assumption | apply oseg_plain; assumption]) | rewrite <- ?app_assoc; reflexivity].
  Qed.
  Lemma assembly_text : forall opts source out, unquoted opts -> plain source -> plain out ->
    sh_words (linker_path c (a_linker a) ++ b_ " " ++ join [source] ++ b_ " " ++ (b_ " -c " ++ opts_text opts) ++ b_ " " ++ (b_ "-o " ++ out)) = Some (assembly_words c a opts source out).
  Proof.
    intros opts source out Hq Hs Ho. cbn [join]. apply oseg_words. rewrite <- ?app_assoc.
    eapply oseg_eq; [segs ltac:(first [apply oseg_opts; assumption | apply oseg_plain; assumption]) | unfold assembly_words; rewrite <- ?app_assoc; reflexivity].
  Qed.
  Lemma oseg_names : forall l, Forall plain l -> oseg (join l) l.
  Proof. intros l H. rewrite <- (map_id l) at 1. apply oseg_join. eapply Forall_impl; [| exact H]. intros x Hx. apply oseg_plain. exact Hx. Qed.

  Lemma link_text : forall opts libs objects wrapper, unquoted opts -> Forall plain libs -> Forall plain objects -> nice (a_o a) -> (a_prism a = None -> plain wrapper) ->
    sh_words (linker_path c (a_linker a) ++ b_ " " ++ (out_text (a_o a) ++ b_ " " ++ join objects ++ b_ " " ++ (opts_text opts ++ opt_text (a_ddebug a || a_func a) " -no-pie ") ++ b_ " " ++
      (match a_prism a with
       | Some _ => join libs ++ b_ " " ++ (if a_dynamic a then b_ "-lprism-dynamic" else b_ "-lprism-static") ++ (match a_debug a with [] => [] | _ => b_ "-dbg" end) ++ b_ " -lhwy -lstdc++ "
       | None => join libs end) ++ b_ " " ++ (match a_prism a with Some _ => [] | None => wrapper end) ++ b_ " " ++
      (if a_static a then b_ " -static -lgmp -lm -ldl " ++ (b_ " -L" ++ c_stdlib c ++ b_ " -linterflop_stdlib -linterflop_hashmap -linterflop_logger ") ++ b_ " "
       else b_ " -rpath " ++ c_libdir c ++ b_ " -L " ++ c_libdir c ++ b_ " -ldl " ++ (b_ " -L" ++ c_stdlib c ++ b_ " -linterflop_stdlib -linterflop_hashmap -linterflop_logger ") ++ b_ " ")))
    = Some (link_words c a opts libs objects wrapper).
  Proof.
    intros opts libs objects wrapper Hq Hl Hobj Ho Hw. destruct cfg as (K1 & K2 & K3 & K4 & K5 & K6 & K7 & K8 & K9 & K10 & K11).
    pose proof (oseg_names libs Hl) as L1. pose proof (oseg_names objects Hobj) as L2. pose proof (oseg_opts opts Hq) as L3. pose proof (oseg_out _ Ho) as L4.
    unfold link_words. set (pr := a_prism a) in *.
    set (lt := match pr with Some _ => _ | None => join libs end).
    set (wt := match pr with Some _ => [] | None => wrapper end).
    set (lw := match pr with Some _ => [_; _; _] | None => [wrapper] end).
    set (st := if a_static a then _ else _).
    set (sw := (if a_static a then _ else _) ++ [_; _; _; _]).
    assert (HT : seg (lt ++ b_ " " ++ wt ++ b_ " ") (libs ++ lw)).
    { unfold lt, wt, lw. destruct pr as [mode |].
      - set (px := (if a_dynamic a then _ else _)). set (py := match a_debug a with [] => [] | _ => b_ "-dbg" end).
        assert (HX : plain (px ++ py)) by (unfold px, py; destruct (a_dynamic a), (a_debug a); split; (discriminate || reflexivity)).
        rewrite <- !app_assoc. rewrite (app_assoc px py). eapply seg_eq; [segs ltac:(first [exact L1 | apply oseg_plain; assumption]) | reflexivity].
      - specialize (Hw eq_refl). eapply seg_eq; [segs ltac:(first [exact L1 | apply oseg_plain; assumption]) | reflexivity]. }
    assert (HST : oseg st sw).
    { unfold st, sw. assert (HI : oseg (b_ " -L" ++ c_stdlib c) [b_ "-L" ++ c_stdlib c]).
      { change (b_ " -L" ++ c_stdlib c) with (32 :: (b_ "-L" ++ c_stdlib c)). apply oseg_blank, oseg_plain, plain_app2; [reflexivity | assumption]. }
      destruct (a_static a); rewrite (app_assoc (b_ " -L") (c_stdlib c)), <- (app_assoc (b_ " -L" ++ c_stdlib c));
        (eapply oseg_eq; [segs ltac:(first [exact HI | apply oseg_plain; assumption]) | reflexivity]). }
    assert (HN : oseg (opts_text opts ++ opt_text (a_ddebug a || a_func a) " -no-pie ") (all_options a opts ++ on (a_ddebug a || a_func a) [b_ "-no-pie"])).
    { destruct (a_ddebug a || a_func a); cbn [on opt_text]; [| rewrite !app_nil_r; exact L3]. eapply oseg_then; [exact L3 | eexists; reflexivity | lit]. }
    set (ot := opts_text opts ++ opt_text (a_ddebug a || a_func a) " -no-pie ") in *.
    replace (linker_path c (a_linker a) ++ b_ " " ++ (out_text (a_o a) ++ b_ " " ++ join objects ++ b_ " " ++ ot ++ b_ " " ++ lt ++ b_ " " ++ wt ++ b_ " " ++ st))
      with (linker_path c (a_linker a) ++ b_ " " ++ out_text (a_o a) ++ b_ " " ++ join objects ++ b_ " " ++ ot ++ b_ " " ++ (lt ++ b_ " " ++ wt ++ b_ " ") ++ st)
      by (rewrite <- !app_assoc; reflexivity).
    set (lwt := lt ++ b_ " " ++ wt ++ b_ " ") in *.
    apply oseg_words. eapply oseg_eq; [segs ltac:(first [exact HT | exact HST | exact HN | exact L2 | exact L4 | apply oseg_plain; assumption]) |].
    unfold sw. rewrite <- ?app_assoc. reflexivity.
  Qed.
End words.
