(** Proofs about the compiler driver: who writes which file, which option is in which command *)
From Coq Require Import String ZArith List Bool Lia.
From Verif Require Import Text DriverModel DriverRun DriverTrace.
Import ListNotations.
Open Scope Z_scope.

(** a command (as the list of its words) writes the file that follows -o *)
Definition writes (w : list (list Z)) (f : list Z) : Prop := exists l r, w = l ++ b_ "-o" :: f :: r.
(** paths of the installation are absolute; the values of the driver's own options do not look like options *)
Record tidy (c : config) (a : args) : Prop := mk_tidy {
  td_paths : Forall (fun p => hd 0 p = 47) [c_clang c; c_clangxx c; c_opt c; c_llvm_link c; c_libdir c; c_prismdir c; c_root c; c_incdir c; c_stdlib c; c_cwd c];
  td_linker : hd 0 (linker_path c (a_linker a)) = 47;
  td_march : c_march c = [] \/ exists r, c_march c = b_ "-m" ++ r;
  td_values : Forall (fun v => given v = true -> hd 0 (value v) <> 45) [a_o a; a_function a; a_include a; a_exclude a] }.

(** * Words that are not a given option *)
Definition other (t : list Z) (x : list Z) : Prop := x <> t.
Definition dashed (t : list Z) : Prop := hd 0 t = 45.
Lemma other_path : forall t x, dashed t -> hd 0 x = 47 -> other t x.
Proof. intros t x Ht Hx ->. unfold dashed in Ht. rewrite Ht in Hx. discriminate. Qed.
Lemma other_value : forall t x, dashed t -> hd 0 x <> 45 -> other t x.
Proof. intros t x Ht Hx ->. exact (Hx Ht). Qed.
Lemma hd_app : forall (x y : list Z) k, hd 0 x = k -> k <> 0 -> hd 0 (x ++ y) = k.
Proof. intros [| z x] y k H Hk; cbn in *; [congruence | exact H]. Qed.
Lemma Forall_on : forall A (P : A -> Prop) b l, Forall P l -> Forall P (on b l).
Proof. intros A P [|] l H; [exact H | apply Forall_nil]. Qed.
Lemma not_in_other : forall t l, Forall (other t) l -> ~ In t l.
Proof. intros t l H Hi. rewrite Forall_forall in H. exact (H t Hi eq_refl). Qed.
Lemma writes_single : forall l out r f, ~ In (b_ "-o") l -> ~ In (b_ "-o") (out :: r) -> writes (l ++ b_ "-o" :: out :: r) f -> f = out.
Proof.
  intros l out r f Hl Hr (l' & r' & E). revert l' E. induction l as [| x l IH]; intros l' E; destruct l' as [| y l'].
  - cbn [app] in E. injection E as <- _. reflexivity.
  - cbn [app] in E. injection E as _ E. exfalso. apply Hr. rewrite E. apply in_or_app. right. left. reflexivity.
  - cbn [app] in E. injection E as -> _. exfalso. apply Hl. left. reflexivity.
  - cbn [app] in E. injection E as _ E. apply (IH (fun Hi => Hl (or_intror Hi)) l'). exact E.
Qed.

Ltac lits := let H := fresh in intro H; vm_compute in H; discriminate H.
Ltac others tac := repeat first [ assumption | apply Forall_app; split | apply Forall_on | apply Forall_cons | apply Forall_nil | solve [tac] | solve [lits] ].

Section words.
  Context (c : config) (a : args) (T : tidy c a).
  Lemma paths : hd 0 (c_clang c) = 47 /\ hd 0 (c_clangxx c) = 47 /\ hd 0 (c_opt c) = 47 /\ hd 0 (c_llvm_link c) = 47 /\ hd 0 (c_libdir c) = 47 /\ hd 0 (c_prismdir c) = 47 /\
    hd 0 (c_root c) = 47 /\ hd 0 (c_incdir c) = 47 /\ hd 0 (c_stdlib c) = 47 /\ hd 0 (c_cwd c) = 47.
  Proof. destruct T as [H _ _ _]. repeat rewrite Forall_cons_iff in H. tauto. Qed.
  Lemma hd_includes : hd 0 (includes c) = 47.
  Proof. apply hd_app; [apply paths | lia]. Qed.
  Lemma hd_wrapper : hd 0 (vfcwrapper c) = 47.
  Proof. apply hd_app; [apply hd_includes | lia]. Qed.

  Ltac go := others ltac:(first
    [ apply other_path; [reflexivity | first [assumption | apply hd_includes | apply hd_wrapper | apply hd_app; [assumption | lia]]]
    | apply other_value; [reflexivity | assumption] | assumption ]).
  Ltac go_paths := destruct paths as (K1 & K2 & K3 & K4 & K5 & K6 & K7 & K8 & K9 & K10); pose proof (td_linker c a T) as KL.

  Context (opts : list (list Z)) (NO : Forall (other (b_ "-o")) opts).
  Lemma options_o : Forall (other (b_ "-o")) (all_options a opts).
  Proof. unfold all_options. destruct (a_linker a); go. Qed.
  Lemma wrapper_writes : forall e out f, hd 0 out = 47 -> writes (wrapper_words c a e out) f -> f = out.
  Proof.
    intros e out f Ho H. go_paths. unfold wrapper_words in H. apply (writes_single ([c_clang c; b_ "-O3"] ++ match c_march c with [] => [] | m => [m] end ++ [b_ "-g"] ++ on e (on (a_temps a) [b_ "-S"] ++ [b_ "-emit-llvm"]) ++
      [b_ "-c"; b_ "-Wno-varargs"; b_ "-I"; includes c] ++ [if a_static a then b_ "-static" else b_ "-fPIC"] ++
      on (a_fcmp a) [b_ "-DINST_FCMP"] ++ on (a_ddebug a) [b_ "-DDDEBUG"] ++ on (a_func a) [b_ "-DINST_FUNC"] ++ on (a_fma a) [b_ "-DINST_FMA"] ++
      on (a_cast a) [b_ "-DINST_CAST"] ++ [vfcwrapper c; b_ "-I" ++ c_incdir c]) out [] f).
    - apply not_in_other. assert (M : Forall (other (b_ "-o")) (match c_march c with [] => [] | m => [m] end)).
      { destruct (c_march c) as [| z m] eqn:E; [apply Forall_nil |]. apply Forall_cons; [| apply Forall_nil]. destruct (td_march c a T) as [Hm | [r Hm]]; [congruence |]. rewrite <- E, Hm. lits. }
      destruct (a_static a); go.
    - apply not_in_other. go.
    - rewrite <- !app_assoc. exact H.
  Qed.
  Lemma front_writes : forall src out f, src <> b_ "-o" -> hd 0 out = 47 -> writes (front_words c a opts src out) f -> f = out.
  Proof.
    intros src out f Hs Ho H. go_paths. pose proof options_o as HO. unfold front_words in H.
    apply (writes_single ([linker_path c (a_linker a); b_ "-c"] ++ on (a_temps a) [b_ "-S"] ++ [b_ "-emit-llvm"] ++ on (a_func a || a_ddebug a) [b_ "-g"] ++
      [src; b_ "-I"; includes c] ++ all_options a opts) out [] f).
    - apply not_in_other. go.
    - apply not_in_other. go.
    - rewrite <- !app_assoc. exact H.
  Qed.
  Lemma pass_o : forall (pass : string) lib, hd 0 lib = 47 -> b_ "-" ++ b_ pass <> b_ "-o" -> Forall (other (b_ "-o")) (pass_words c (b_ pass) lib).
  Proof. intros pass lib Hl Hp. unfold pass_words. destruct (17 <=? c_version c); go. Qed.
  Lemma func_writes : forall input out f, hd 0 input = 47 -> hd 0 out = 47 -> writes (func_words c a input out) f -> f = out.
  Proof.
    intros input out f Hi Ho H. go_paths. unfold func_words in H.
    assert (HP : Forall (other (b_ "-o")) (pass_words c (b_ "vfclibfunc") (c_libdir c ++ b_ "/libvfcfuncinstrument.so"))) by (apply pass_o; [apply hd_app; [assumption | lia] | lits]).
    apply (writes_single ([c_opt c] ++ on (a_temps a) [b_ "-S"] ++ pass_words c (b_ "vfclibfunc") (c_libdir c ++ b_ "/libvfcfuncinstrument.so") ++ [input]) out [] f).
    - apply not_in_other. go.
    - apply not_in_other. go.
    - rewrite <- !app_assoc. exact H.
  Qed.
  Lemma values : (given (a_o a) = true -> hd 0 (value (a_o a)) <> 45) /\ (given (a_function a) = true -> hd 0 (value (a_function a)) <> 45) /\
    (given (a_include a) = true -> hd 0 (value (a_include a)) <> 45) /\ (given (a_exclude a) = true -> hd 0 (value (a_exclude a)) <> 45).
  Proof. pose proof (td_values c a T) as H. repeat rewrite Forall_cons_iff in H. tauto. Qed.
  Lemma select_other : forall t, dashed t -> b_ "-vfclibinst-function" <> t -> b_ "-vfclibinst-include-file" <> t -> b_ "-vfclibinst-exclude-file" <> t -> Forall (other t) (select_words a).
  Proof.
    intros t Ht N1 N2 N3. destruct values as (V1 & V2 & V3 & V4). unfold select_words.
    destruct (given (a_function a)) eqn:E1; [repeat apply Forall_cons; try apply Forall_nil; [exact N1 | apply other_value; [exact Ht | apply V2; reflexivity]] |].
    destruct (given (a_include a)) eqn:E2, (given (a_exclude a)) eqn:E3; cbn [on app]; repeat apply Forall_cons; try apply Forall_nil;
      first [exact N2 | exact N3 | apply other_value; [exact Ht | first [apply V3; reflexivity | apply V4; reflexivity]]].
  Qed.
  (** the options of PRISM all begin with -vfclibinst-mode, -dispatch, -prism, -strict or -debug *)
  Lemma prism_other : forall mode t, (mode = b_ "up-down" \/ mode = b_ "stochastic-rounding") -> dashed t ->
    Forall (other t) (map b_ ["-vfclibinst-mode"; "-vfclibinst-dispatch"; "-vfclibinst-prism-static-ir-file"; "-vfclibinst-prism-dynamic-ir-file"; "-vfclibinst-strict-abi"; "-vfclibinst-debug"]%string) ->
    (forall d, t <> b_ "-vfclibinst-debug-" ++ d) -> Forall (other t) (prism_words c a mode).
  Proof.
    intros mode t Hm Ht HN HD. go_paths. cbn [map] in HN. repeat rewrite Forall_cons_iff in HN. destruct HN as (N1 & N2 & N3 & N4 & N5 & N6 & _). unfold prism_words.
    assert (HX : forall l, Forall (other t) (concat (map (fun d : list Z => match d with [] => [] | _ => [b_ "-vfclibinst-debug-" ++ d] end) l))).
    { induction l as [| d l IH]; cbn [map concat]; [apply Forall_nil |]. apply Forall_app. split; [| exact IH]. destruct d as [| z d]; [apply Forall_nil |].
      apply Forall_cons; [| apply Forall_nil]. intro H. apply (HD (z :: d)). symmetry. exact H. }
    apply Forall_app. split; [| apply Forall_app; split].
    - repeat apply Forall_cons; try apply Forall_nil; try assumption.
      + destruct Hm as [-> | ->]; apply other_value; first [exact Ht | discriminate].
      + destruct (a_dynamic a); apply other_value; first [exact Ht | discriminate].
      + apply other_path; [exact Ht | apply hd_app; [assumption | lia]].
      + apply other_path; [exact Ht | apply hd_app; [assumption | lia]].
    - apply Forall_on. apply Forall_cons; [exact N5 | apply Forall_nil].
    - destruct (a_debug a) as [| d l]; [apply Forall_nil |]. apply Forall_cons; [exact N6 |]. apply HX.
  Qed.
  Lemma mca_writes : forall wr input out f, good_prism a -> (a_prism a = None -> hd 0 wr = 47) -> hd 0 input = 47 -> hd 0 out = 47 -> writes (mca_words c a wr input out) f -> f = out.
  Proof.
    intros wr input out f [_ Hg] Hw Hi Ho H. go_paths. unfold mca_words in H.
    set (lib := c_libdir c ++ _) in H. set (pw := match a_prism a with Some mode => prism_words c a mode | None => _ end) in H.
    assert (HP : Forall (other (b_ "-o")) (pass_words c (b_ "vfclibinst") lib)) by (apply pass_o; [apply hd_app; [assumption | lia] | lits]).
    assert (HW : Forall (other (b_ "-o")) pw).
    { unfold pw. destruct (a_prism a) as [mode |].
      - apply prism_other; [apply Hg; reflexivity | reflexivity | go | intro; lits].
      - specialize (Hw eq_refl). go. }
    assert (HS : Forall (other (b_ "-o")) (select_words a)) by (apply select_other; [reflexivity | lits | lits | lits]).
    apply (writes_single ([c_opt c] ++ on (a_temps a) [b_ "-S"] ++ pass_words c (b_ "vfclibinst") lib ++
      on (a_verbose a) [b_ "-vfclibinst-verbose"] ++ on (a_fcmp a) [b_ "-vfclibinst-inst-fcmp"] ++ on (a_fma a) [b_ "-vfclibinst-inst-fma"] ++
      on (a_cast a) [b_ "-vfclibinst-inst-cast"] ++ pw ++ select_words a ++ [input]) out [] f).
    - apply not_in_other. go.
    - apply not_in_other. go.
    - rewrite <- !app_assoc. exact H.
  Qed.
  Lemma back_writes : forall wr input out f, (wr = [] \/ hd 0 wr = 47) -> hd 0 input = 47 -> out <> b_ "-o" -> writes (back_words c a opts wr input out) f -> f = out.
  Proof.
    intros wr input out f Hw Hi Ho H. go_paths. pose proof options_o as HO. unfold back_words in H. destruct (a_emit a).
    - apply (writes_single ([c_llvm_link c; input] ++ match wr with [] => [] | w => [w] end) out [] f).
      + apply not_in_other. destruct Hw as [-> | Hw]; [go |]. destruct wr as [| z wr]; go.
      + apply not_in_other. go.
      + rewrite <- !app_assoc. exact H.
    - apply (writes_single [linker_path c (a_linker a); b_ "-c"] out (input :: all_options a opts) f).
      + apply not_in_other. go.
      + apply not_in_other. go.
      + exact H.
  Qed.
  Lemma assembly_writes : forall src out f, src <> b_ "-o" -> out <> b_ "-o" -> writes (assembly_words c a opts src out) f -> f = out.
  Proof.
    intros src out f Hs Ho H. go_paths. pose proof options_o as HO. unfold assembly_words in H.
    apply (writes_single ([linker_path c (a_linker a); src; b_ "-c"] ++ all_options a opts) out [] f).
    - apply not_in_other. go.
    - apply not_in_other. go.
    - rewrite <- !app_assoc. exact H.
  Qed.
End words.

Section files.
  Context (c : config) (a : args) (T : tidy c a) (G : good_prism a) (opts : list (list Z)) (NO : Forall (other (b_ "-o")) opts).
  Lemma temp_hd : forall n, temp_name c n -> hd 0 n = 47.
  Proof. intros n [_ [r ->]]. apply hd_app; [apply (paths c a T) | lia]. Qed.
  Definition wrapper_ok (wr : list Z) : Prop := if no_prism a then temp_name c wr else wr = [].
  Lemma wrapper_ok_hd : forall wr, wrapper_ok wr -> (wr = [] \/ hd 0 wr = 47) /\ (a_prism a = None -> hd 0 wr = 47).
  Proof. intros wr H. unfold wrapper_ok, no_prism in H. destruct (a_prism a); [split; [left; exact H | intro; discriminate] |]. split; [right |intros _]; apply temp_hd; exact H. Qed.
  Lemma block_writes : forall wr out src tm ws w f, wrapper_ok wr -> Forall (temp_name c) tm -> src <> b_ "-o" -> out <> b_ "-o" ->
    block c a opts wr out src tm ws -> In w ws -> writes w f -> f = out \/ In f tm.
  Proof.
    intros wr out src tm ws w f Hwr Ht Hs Ho Hb Hi Hw. destruct (wrapper_ok_hd wr Hwr) as [W1 W2]. unfold block in Hb. destruct (is_assembly src).
    - destruct Hb as [_ ->]. destruct Hi as [<- | []]. left. exact (assembly_writes c a T opts NO src out f Hs Ho Hw).
    - destruct (a_func a).
      + destruct Hb as (ir & mid & ins & -> & ->). repeat rewrite Forall_cons_iff in Ht. destruct Ht as (T1 & T2 & T3 & _). apply temp_hd in T1. apply temp_hd in T2. apply temp_hd in T3.
        destruct Hi as [<- | [<- | [<- | [<- | []]]]].
        * right. left. symmetry. exact (front_writes c a T opts NO src ir f Hs T1 Hw).
        * right. right. left. symmetry. exact (func_writes c a T ir mid f T1 T2 Hw).
        * right. right. right. left. symmetry. exact (mca_writes c a T wr mid ins f G W2 T2 T3 Hw).
        * left. exact (back_writes c a T opts NO wr ins out f W1 T3 Ho Hw).
      + destruct Hb as (ir & ins & -> & ->). repeat rewrite Forall_cons_iff in Ht. destruct Ht as (T1 & T2 & _). apply temp_hd in T1. apply temp_hd in T2.
        destruct Hi as [<- | [<- | [<- | []]]].
        * right. left. symmetry. exact (front_writes c a T opts NO src ir f Hs T1 Hw).
        * right. right. left. symmetry. exact (mca_writes c a T wr ir ins f G W2 T1 T2 Hw).
        * left. exact (back_writes c a T opts NO wr ins out f W1 T2 Ho Hw).
  Qed.
  Lemma blocks_writes : forall wr o srcs tms wss, wrapper_ok wr -> blocks c a opts wr o srcs tms wss -> Forall (temp_name c) tms -> Forall (fun s => s <> b_ "-o" /\ destination o s <> b_ "-o") srcs ->
    forall w f, In w wss -> writes w f -> In f tms \/ In f (map (destination o) srcs).
  Proof.
    intros wr o srcs tms wss Hwr H. induction H as [| src srcs tm tms ws wss Hb Hbs IH]; intros Ht Hs w f Hi Hw; [destruct Hi |].
    apply Forall_app in Ht. destruct Ht as [Ht1 Ht2]. apply Forall_cons_iff in Hs. destruct Hs as [[Hs1 Hs2] Hs3]. apply in_app_or in Hi. destruct Hi as [Hi | Hi].
    - destruct (block_writes wr _ src tm ws w f Hwr Ht1 Hs1 Hs2 Hb Hi Hw) as [-> | Hf]; [right; left; reflexivity | left; apply in_or_app; left; exact Hf].
    - destruct (IH Ht2 Hs3 w f Hi Hw) as [Hf | Hf]; [left; apply in_or_app; right; exact Hf | right; right; exact Hf].
  Qed.
  Lemma blocks_split : forall wr o s1 src s2 tms wss, blocks c a opts wr o (s1 ++ src :: s2) tms wss ->
    exists t1 tm t2 w1 ws w2, tms = t1 ++ tm ++ t2 /\ wss = w1 ++ ws ++ w2 /\ blocks c a opts wr o s1 t1 w1 /\ block c a opts wr (destination o src) src tm ws /\ blocks c a opts wr o s2 t2 w2.
  Proof.
    intros wr o s1. induction s1 as [| x s1 IH]; intros src s2 tms wss H; cbn [app] in H; inversion H; subst.
    - exists [], tm, tms0, [], ws, wss0. repeat split; try assumption. apply blocks_nil.
    - destruct (IH _ _ _ _ H5) as (t1 & tm' & t2 & w1 & ws' & w2 & -> & -> & B1 & B2 & B3). exists (tm ++ t1), tm', t2, (ws ++ w1), ws', w2.
      rewrite <- !app_assoc. repeat split; try assumption. apply blocks_cons; assumption.
  Qed.
  Lemma source_not_o : forall s, source s -> s <> b_ "-o" /\ object_of s <> b_ "-o".
  Proof.
    intros s (stem & e & He & _). split.
    - intros ->. destruct He as (E & (e' & -> & _) & _). assert (Hi : In 46 (b_ "-o")) by (rewrite E; apply in_or_app; right; left; reflexivity). vm_compute in Hi. intuition discriminate.
    - rewrite (object_stem s stem e He). intro E. assert (Hi : In 46 (b_ "-o")) by (rewrite <- E; apply in_or_app; right; left; reflexivity). vm_compute in Hi. intuition discriminate.
  Qed.
  Lemma destination_not_o : forall o s, source s -> (given o = true -> hd 0 (value o) <> 45) -> destination o s <> b_ "-o".
  Proof. intros o s Hs Ho. unfold destination. destruct (given o); [| apply source_not_o; exact Hs]. intros E. apply (Ho eq_refl). rewrite E. reflexivity. Qed.
End files.
