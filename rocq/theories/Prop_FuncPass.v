(** Properties of function instrumentation (--inst-func), libVFCFuncInstrument.cpp. The specification of the marked program is
    in FuncPassRun.v (site_of, sited_func, run_sites) and FuncPassProofs.v (call_through). *)
From Coq Require Import String ZArith List Bool Lia Sorted.
From Verif Require Import Common Text FuncModel HashModel Bits VprecModel VprecConfig VfiModel SelectModel InstrModel InstrProofs ModuleModel ModuleProofs FuncPassModel FuncPassProofs FuncPassRun.
From Verif Require Prop_Instr Prop_Module.
Import ListNotations.
Open Scope Z_scope.
Open Scope outcome_scope.

(** * Modules *)
Definition instr_of (m : list (func instr)) (i : instr) : Prop := exists f b, In f m /\ In b (f_blocks f) /\ In i (k_body b).
Definition calls (m : list (func instr)) (n : list Z) : Prop := exists i, instr_of m i /\ i_op i = Call (Some n).
(** names: functions have different names, none is vfc_..._hook, nobody calls main; fewer than 2^64 - 2 instructions *)
Definition plain (m : list (func instr)) : Prop :=
  NoDup (map f_name m) /\ (forall f, In f m -> ~ hook_form (f_name f)) /\ (forall n, calls m n -> n <> bytes "main" /\ ~ hook_form n) /\ msize m + 2 < 2 ^ 64.
(** main, if there is one, has a body and neither takes nor gives a float or a double *)
Definition plain_main (m : list (func instr)) (ret : ty) : Prop :=
  forall f, In f m -> f_name f = bytes "main" -> f_blocks f <> [] /\ Forall (fun p => scalar_fp (fst p) = false) (f_params f) /\ scalar_fp ret = false.
Definition main_in (m : list (func instr)) (f : func instr) : Prop := In f m /\ f_name f = bytes "main".
(** main between two calls of the backends, told of no value *)
Definition through_main {W} (enter exit : told_fun (W := W)) (f : finfo) (ret : ty) (target : list (list Z) -> W -> outcome (list Z * W)) (args : list (list Z)) (w : W) : outcome (list Z * W) :=
  let* '(vs, w) := enter f [] w in
  match vs with
  | [] => let* '(r, w) := target args w in
          let* '(vs, w) := exit f [] w in
          match vs with [] => Ok (if ty_eqb ret void then [] else r, w) | _ => UB end
  | _ => UB
  end.

(** * Proofs *)
Lemma call_through_ext {W} (enter exit : told_fun (W := W)) f ret ps t1 t2 args w : (forall a w, t1 a w = t2 a w) -> call_through enter exit f ret ps t1 args w = call_through enter exit f ret ps t2 args w.
Proof.
  intros H. unfold call_through. destruct (enter f (inputs ps args) w) as [[vs w1]| | |]; cbn [bind]; try reflexivity. destruct (received ps args vs) as [a| | |]; cbn [bind]; try reflexivity. rewrite H. reflexivity.
Qed.
Definition callable (n : list Z) : Prop := n <> bytes "main" /\ ~ hook_form n.
Section bodies.
  Context {W : Type} (enter exit : told_fun (W := W)) (H : list hook).
  Hypothesis (Hn : NoDup (map h_name H)) (Hf : Forall (fun h => h_name h = bytes "main" \/ hook_form (h_name h)) H).
  Lemma body_sim is xs : Forall2 (becomes H) is xs -> (forall i x, In (i, x) xs -> good callable i) -> forall o1 o2 e w, oracles (fun w : W => w) callable o1 o2 ->
    run_hooked enter exit H o1 e is w = run_sites enter exit o2 e xs w.
  Proof.
    intros B G o1 o2 e w Ho. unfold run_hooked. revert e w. induction B as [|i' [i x] is xs Hb B IH]; intros e w; [reflexivity|]. cbn [map run_block run_step run_sites].
    assert (E : run_native (hooked enter exit H o1) e i' w = run_native (match x with None => o2 | Some s => fun i => call_through enter exit (t_fun s) (i_ty i) (t_params s) (o2 i) end) e i w).
    { unfold becomes in Hb. cbn [fst snd] in Hb. specialize (G i x (or_introl eq_refl)). unfold run_native.
      assert (Eo : forall vs w, o1 i vs w = o2 i vs w) by (intros vs w0; rewrite <- (Ho i vs w0 G); symmetry; apply seen_id).
      destruct x as [s|].
      - destruct Hb as (-> & T & d & Hd & Hp). cbn [i_args i_dst]. destruct (read_all e (i_args i)) as [vs| | |] eqn:Er; cbn [bind]; try reflexivity.
        assert (Ea : hooked enter exit H o1 (mk_instr (i_dst i) (Call (Some (site_name s))) (i_ty i) (i_args i)) vs w = call_through enter exit (t_fun s) (i_ty i) (t_params s) (o2 i) vs w); [|rewrite Ea; reflexivity].
        unfold hooked. cbn [i_op]. change (site_name s) with (h_name (site_hook i s d)). rewrite (find_hook_in H _ Hn Hd).
        transitivity (call_through enter exit (t_fun s) (i_ty i) (t_params s) (o1 i) vs w); [|apply call_through_ext; exact Eo].
        apply (hook_runs enter exit); [|exact Hp]. apply Prop_Instr.read_all_typed in Er. rewrite <- T in Er. clear - Er. unfold typed_args.
        revert vs Er. induction (t_params s) as [|p l IH]; intros vs Er; inversion Er; subst; constructor; auto.
      - subst i'. destruct (read_all e (i_args i)) as [vs| | |]; cbn [bind]; try reflexivity.
        assert (Ea : hooked enter exit H o1 i vs w = o2 i vs w); [|rewrite Ea; reflexivity].
        unfold hooked. destruct (i_op i) as [| | | | |[c|]| |] eqn:Ei; try apply Eo. unfold good in G. rewrite Ei in G. rewrite find_hook_none; [apply Eo|].
        intros Hi. apply in_map_iff in Hi. destruct Hi as (h & Eh & Hh). rewrite Forall_forall in Hf. destruct (Hf h Hh) as [E|E]; rewrite Eh in E; destruct G; contradiction. }
    rewrite E. destruct (run_native _ e i w) as [[e' w']| | |]; cbn [bind]; try reflexivity. apply IH. intros j y Hj. apply (G j y). right. exact Hj.
  Qed.
End bodies.

(** instructions of the marked module are those of the module *)
Definition main_last_in m (f : func instr) : In f (main_last m) -> In f m.
Proof. unfold main_last. rewrite in_app_iff, !filter_In. tauto. Qed.
Lemma sited_instrs nf m m0 g : Forall2 (sited_func nf m) m0 g -> forall h, In h g -> exists f, In f m0 /\ sited_func nf m f h.
Proof. intros H. induction H as [|f h m0 g Hf H IH]; intros x []; [subst; exists f; split; [left; reflexivity|exact Hf]|]. destruct (IH x H0) as (f' & A & B). exists f'. split; [right; exact A|exact B]. Qed.
Lemma nth_In {A} (l : list A) x : In x l -> exists j, nth_error l j = Some x.
Proof. apply In_nth_error. Qed.
Lemma sited_bodies nf m f h b xs : sited_func nf m f h -> In b (f_blocks h) -> xs = k_body b -> exists k, In k (f_blocks f) /\ map fst xs = k_body k.
Proof.
  intros (_ & _ & L & S) Hb ->. destruct (nth_In _ _ Hb) as [j Ej]. assert (Lj : (j < length (f_blocks f))%nat) by (rewrite <- L; apply nth_error_Some; congruence).
  destruct (nth_error (f_blocks f) j) as [k|] eqn:Ek; [|apply nth_error_None in Ek; lia]. exists k. split; [eapply nth_error_In; exact Ek|].
  destruct (S j k b Ek Ej) as (_ & _ & Sb). destruct (n_sub nf (f_name f)) as [[[p ?] ?]|]; [destruct Sb as [E _]; exact E|]. rewrite Sb, map_map. apply map_id.
Qed.

(** main's hook *)
Lemma get_plain W (s : hstate (W := W)) : forall params pre args slot tmp, Forall (fun t => is_fp t = false) params -> length params = length args ->
  fst (reloads params (length pre) slot tmp) = [] /\ hget_all (pre ++ args) s (snd (reloads params (length pre) slot tmp)) = Ok args.
Proof.
  intros params. induction params as [|t params IH]; intros pre [|a args] slot tmp F L; try discriminate; [split; reflexivity|].
  inversion F as [|? ? Ft F']; subst. injection L as L. cbn [reloads]. rewrite Ft. destruct (IH (pre ++ [a]) args slot tmp F' L) as [A B]. rewrite app_length in A, B. cbn [length] in A, B. rewrite Nat.add_1_r in A, B. rewrite <- app_assoc in B. cbn [app] in B.
  destruct (reloads params (S (length pre)) slot tmp) as [l v]. cbn [fst snd] in *. split; [exact A|]. cbn [hget_all hget]. rewrite nth_error_mid. cbn [bind]. rewrite B. reflexivity.
Qed.
Lemma no_stores d : forall params k slot, Forall (fun t => is_fp t = false) params -> fst (input_args false params k slot d) = [].
Proof.
  intros params. induction params as [|t params IH]; intros k slot F; [reflexivity|]. inversion F as [|? ? Ft F']; subst. cbn [input_args]. rewrite Ft. specialize (IH (S k) slot F').
  destruct (input_args false params (S k) slot d). exact IH.
Qed.
Lemma main_runs W (enter exit : told_fun (W := W)) target name call f ret params d args w : Forall (fun t => is_fp t = false) params -> is_fp ret = false -> length params = length args ->
  run_hook enter exit target (mk_hook name call f (hook_code false ret params d 0)) args w = through_main enter exit f ret target args w.
Proof.
  intros F Fr L. assert (Ff : filter is_fp params = []) by (clear - F; induction F as [|t l Ht F IH]; [reflexivity|]; cbn [filter]; rewrite Ht; exact IH).
  assert (Fi : filter (fun t => is_fp t || (is_ptr t && false)) params = []) by (clear - F; induction F as [|t l Ht F IH]; [reflexivity|]; cbn [filter]; rewrite Ht, andb_false_r; exact IH).
  assert (Fo : filter (fun t => is_ptr t && false) params = []) by (clear; induction params as [|t l IH]; [reflexivity|]; cbn [filter]; rewrite andb_false_r; exact IH).
  unfold run_hook, through_main. cbn [h_fun h_code]. unfold hook_code.
  pose proof (no_stores d params 0 (out_slots ret) F) as S0. destruct (input_args false params 0 (out_slots ret) d) as [st ins]. cbn [fst] in S0. subst st.
  assert (G := fun s => get_plain W s params [] args (out_slots ret) 0 F L). cbn [length app] in G.
  destruct (reloads params 0 (out_slots ret) 0) as [lo vals]. cbn [fst snd] in G. destruct (G (mk_hstate [] [] None w)) as [Gl _]. subst lo.
  unfold output_args, allocs, out_slots, input_cpt, output_cpt. rewrite Fr, Ff, Fi, Fo, andb_false_r. cbn [length Nat.add repeat app orb run_ops]. change (Z.of_nat 0) with 0. change (0 + 0) with 0. unfold tell at 1. change (Z.to_nat 0) with O. cbn [read_groups bind map hs_w].
  destruct (enter f [] w) as [[vs w1]| | |]; cbn [bind]; try reflexivity. destruct vs as [|v vs]; [|reflexivity]. cbn [write_back bind hs_slots hs_tmps hs_ret hs_w].
  destruct (G (mk_hstate [] [] None w1)) as [_ Gv]. rewrite Gv. cbn [bind]. destruct (target args w1) as [[r w2]| | |]; cbn [bind]; try reflexivity.
  unfold tell. change (Z.to_nat 0) with O. cbn [read_groups bind map hs_w]. destruct (exit f [] w2) as [[vs w3]| | |]; cbn [bind]; try reflexivity. destruct vs as [|v vs]; [|reflexivity].
  cbn [write_back bind hs_slots hs_tmps hs_ret hs_w run_ops hget]. unfold is_ty. destruct (ty_eqb ret void); reflexivity.
Qed.
Lemma find_is_main m f : List.find is_main m = Some f -> In f m /\ f_name f = bytes "main".
Proof. intros E. apply find_some in E. destruct E as [A B]. split; [exact A|]. apply byte_eqb_eq in B. exact B. Qed.

(** * C72: the instrumented program *)
(** Every module ([plain], [plain_main]), every debug information: if the pass succeeds, there is a marking of the module (each
    direct call that is not a debug call, has a location in a function with debug information, and is not an intrinsic
    without floating point: id, flags, names and sizes as [site_of] says, numbers growing) such that the program made by the
    pass, called at any function with any arguments and state, does what the marked program does: around each marked call
    the backends are told of the arguments before and of the results after, the callee receives and the caller gets the
    values they leave, pointers are passed on; main runs between two calls of the backends. Missing: calls of main; main
    with float or double parameters; function attributes; invoke instructions. *)
Theorem C72_function_pass_partial : forall nf fuel ret m m', plain m -> plain_main m ret -> func_pass nf fuel ret m = Ok m' ->
  exists g, Forall2 (sited_func nf m) (main_last m) g /\ StronglySorted Z.lt (map t_number (all_sites g)) /\ Forall (fun s => 1 <= t_number s < 10 ^ 20) (all_sites g) /\
  forall W (enter exit : told_fun (W := W)) ext n args w,
  (forall name, name <> bytes "main" -> ~ hook_form name ->
     run_entry enter exit ext (pm_hooks m') (pm_funcs m') n name args w = run_fun (run_sites enter exit) ext g n name args w) /\
  (forall f, main_in m f -> length args = length (f_params f) ->
     exists fi file p line, n_sub nf (bytes "main") = Some (p, file, line) /\ f_id fi = file ++ bytes "//main/" ++ dec line ++ bytes "/1" /\ Forall (fun s => 2 <= t_number s) (all_sites g) /\
     run_entry enter exit ext (pm_hooks m') (pm_funcs m') n (bytes "main") args w = through_main enter exit fi ret (run_fun (run_sites enter exit) ext g n (bytes "main")) args w).
Proof.
  intros nf fuel ret m m' (Nd & Nh & Nc & Sz) Pm H.
  destruct (func_pass_spec nf fuel ret m m' Nd ltac:(lia) Nh H) as (g & Sg & [Gr Gb] & Hn & Hk & Al & Mn). exists g. split; [exact Sg|]. split; [exact Gr|].
  split; [eapply List.Forall_impl; [|exact Gb]; cbn; intros; destruct (List.find is_main m); lia|].
  intros W enter exit ext n args w.
  assert (Hk' : Forall (fun h => h_name h = bytes "main" \/ hook_form (h_name h)) (pm_hooks m')) by (eapply List.Forall_impl; [|exact Hk]; cbn; tauto).
  assert (Lf : forall f1 f2, In f2 g -> func_becomes (pm_hooks m') f1 f2 -> like_func (fun w : W => w) (run_hooked enter exit (pm_hooks m')) (run_sites enter exit) callable (fun _ => True) f1 f2).
  { intros f1 f2 H2 [Ep Eb]. split; [exact Ep|]. destruct (sited_instrs _ _ _ _ Sg f2 H2) as (f & Hf & Sf). assert (Hin : forall b, In b (f_blocks f2) -> In b (f_blocks f2)) by auto.
    remember (f_blocks f2) as l eqn:El in Hin at 1, Eb |- *. clear El. induction Eb as [|b1 b2 l1 l2 (K1 & K2 & K3) Eb IH]; constructor; [|apply IH; intros b Hb; apply Hin; right; exact Hb].
    split; [exact K1|]. split; [exact K2|]. intros o1 o2 e w0 _ Ho. rewrite seen_id. apply body_sim; [exact Hn|exact Hk'|exact K3| |exact Ho].
    intros i x Hx. destruct (sited_bodies nf m f f2 b2 _ Sf (Hin b2 (or_introl eq_refl)) eq_refl) as (k & Hk2 & Ek). unfold good. destruct (i_op i) as [| | | | |[c|]| |] eqn:Ei; try exact I.
    apply Nc. exists i. split; [|exact Ei]. exists f, k. split; [apply main_last_in; exact Hf|]. split; [exact Hk2|]. rewrite <- Ek. apply in_map_iff. exists (i, x). auto. }
  assert (Fd : forall n1 n2, alike (pm_hooks m') (pm_funcs m') g n1 n2 -> found (fun w : W => w) (run_hooked enter exit (pm_hooks m')) (run_sites enter exit) callable (fun _ => True) (pm_funcs m') g n1 n2).
  { intros n1 n2 A. unfold alike in A. unfold found. destruct (find_func (pm_funcs m') n1) as [f1|]; destruct (find_func g n2) as [f2|] eqn:E2; try exact A. apply Lf; [|exact A]. unfold find_func in E2. apply find_some in E2. tauto. }
  assert (Sim : forall n1 n2 args w, alike (pm_hooks m') (pm_funcs m') g n1 n2 -> run_fun (run_hooked enter exit (pm_hooks m')) ext (pm_funcs m') n n1 args w = run_fun (run_sites enter exit) ext g n n2 args w).
  { intros n1 n2 a w0 A. rewrite <- (seen_id (run_fun (run_hooked enter exit (pm_hooks m')) ext (pm_funcs m') n n1 a w0)).
    apply (fun_sim (fun w : W => w) _ _ callable (fun _ => True)); [intros i vs w1 _; apply seen_id| |intros; exact I|apply Fd; exact A]. intros c [C1 C2]. apply Fd, Al; assumption. }
  split.
  - intros name N1 N2. unfold run_entry. rewrite find_hook_none; [apply Sim, Al; assumption|]. intros Hi. apply in_map_iff in Hi. destruct Hi as (h & Eh & Hh).
    rewrite Forall_forall in Hk'. destruct (Hk' h Hh) as [E|E]; rewrite Eh in E; contradiction.
  - intros f [Hf Ef] La. destruct (Pm f Hf Ef) as (Pb & Pp & Pr).
    destruct (List.find is_main m) as [f'|] eqn:Em; [|exfalso; pose proof (find_none _ _ Em f Hf) as E; unfold is_main in E; rewrite Ef in E; discriminate].
    destruct (find_is_main m f' Em) as [Hf' Ef']. assert (f' = f).
    { clear - Nd Hf Hf' Ef Ef'. induction m as [|x l IH]; [destruct Hf|]. inversion Nd as [|? ? Hx Nd']; subst. destruct Hf as [<-|Hf], Hf' as [<-|Hf']; auto; exfalso; apply Hx; [rewrite Ef, <- Ef'|rewrite Ef', <- Ef]; apply in_map; assumption. }
    subst f'. destruct Mn as (file & line & d & (p & Es) & Eh & A). set (id := file ++ bytes "//main/" ++ dec line ++ bytes "/1") in *. exists (main_info nf m ret id), file, p, line.
    split; [exact Es|]. split; [unfold main_info; destruct (have_fp m ret [] main_name); reflexivity|]. split; [eapply List.Forall_impl; [|exact Gb]; cbn; intros; lia|].
    unfold run_entry. change (bytes "main") with main_name at 1. rewrite Eh. rewrite main_runs; [|rewrite Forall_map; eapply List.Forall_impl; [|exact Pp]; cbn; intros; rewrite is_fp_scalar; assumption|rewrite is_fp_scalar; exact Pr|rewrite map_length; symmetry; exact La].
    unfold through_main. destruct (enter (main_info nf m ret id) [] w) as [[vs w1]| | |]; cbn [bind]; try reflexivity. destruct vs; [|reflexivity]. cbn [h_callee].
    assert (Et : with_calls ext (pm_funcs m') (run_fun (run_hooked enter exit (pm_hooks m')) ext (pm_funcs m') n) (mk_instr 0 (Call (Some (bytes "vfc_" ++ id ++ bytes "_hook"))) ret (map (fun p => (fst p, Reg (snd p))) (f_params f))) args w1
      = run_fun (run_sites enter exit) ext g n main_name args w1); [|rewrite Et; reflexivity].
    unfold with_calls. cbn [i_op]. rewrite (defined_like _ _ _ _ _ _ _ _ _ (Fd _ _ A)). assert (Dm : is_defined g main_name = true); [|rewrite Dm; apply Sim; exact A].
    clear - Sg Hf Ef Pb Nd. unfold is_defined. assert (Hl : exists h, In h g /\ sited_func nf m f h).
    { assert (Hf2 : In f (main_last m)) by (unfold main_last; rewrite in_app_iff, !filter_In; destruct (is_main f); auto). clear - Sg Hf2. induction Sg as [|x h l g Hx Sg IH]; [destruct Hf2|]. destruct Hf2 as [<-|Hf2]; [exists h; split; [left; reflexivity|exact Hx]|]. destruct (IH Hf2) as (h' & A & B). exists h'. split; [right; exact A|exact B]. }
    destruct Hl as (h & Hh & Sh). destruct (find_func g main_name) as [h'|] eqn:E.
    + assert (h' = h \/ f_blocks h' <> []).
      { unfold find_func in E. apply find_some in E. destruct E as [Hh' E]. apply byte_eqb_eq in E. right. destruct (sited_instrs _ _ _ _ Sg h' Hh') as (f' & Hf' & (N1 & _ & L1 & _)). apply main_last_in in Hf'.
        assert (f' = f). { assert (Ef' : f_name f' = bytes "main") by (rewrite <- N1; exact E). clear - Nd Hf Hf' Ef Ef'. induction m as [|x l IH]; [destruct Hf|]. inversion Nd as [|? ? Hx Nd']; subst. destruct Hf as [<-|Hf], Hf' as [<-|Hf']; auto; exfalso; apply Hx; [rewrite Ef, <- Ef'|rewrite Ef', <- Ef]; apply in_map; assumption. }
        subst f'. destruct (f_blocks h'); [destruct (f_blocks f); [congruence|discriminate]|discriminate]. }
      destruct H as [-> | H]; [|destruct (f_blocks h'); [congruence|reflexivity]]. destruct Sh as (_ & _ & L & _). destruct (f_blocks h), (f_blocks f); try discriminate; congruence.
    + unfold find_func in E. pose proof (find_none _ _ E h Hh) as E'. destruct Sh as [N _]. cbn in E'. rewrite N, Ef in E'. discriminate.
Qed.
Print Assumptions C72_function_pass_partial.

(** * C73: backends that look and do not touch *)
(** vfc_enter_function or vfc_exit_function leaves the values as they are and does not touch the program's memory [pi w] *)
Definition passive {W M} (pi : W -> M) (hk : told_fun (W := W)) : Prop :=
  forall f ds w, exists vs w', hk f ds w = Ok (vs, w') /\ pi w' = pi w /\ Forall2 (fun d v => match d_place d with Value x => v = x | Address _ => True end) ds vs.
(** a call gives a value of the type of the call *)
Definition result_ok (t : ty) (r : list Z) : Prop := (t = void -> r = []) /\ (scalar_fp t = true -> length r = 1%nat).
Definition ext_typed {M} (ext : oracle (W := M)) : Prop := forall i vs w r w', is_call i = true -> ext i vs w = Ok (r, w') -> result_ok (i_ty i) r.
Definition calls_typed (m : list (func instr)) : Prop := forall i c f b, instr_of m i -> i_op i = Call (Some c) -> find_func m c = Some f -> In b (f_blocks f) ->
  match k_term b with TRet (Some a) => fst a = i_ty i /\ i_ty i <> void | TRet None => i_ty i = void | _ => True end.

Lemma returned {B W} (rb : oracle (W := W) -> env -> list B -> W -> outcome (env * W)) o n bs : forall prev cur e w v w', run_blocks rb o n bs prev cur e w = Ok (v, w') -> exists b e', In b bs /\ next e' (k_term b) = Ok (inl v).
Proof.
  induction n as [|n IH]; intros prev cur e w v w' H; [discriminate|]. cbn [run_blocks] in H. destruct (nth_error bs cur) as [b|] eqn:Eb; [|discriminate].
  destruct (enter_block e prev b) as [e1| | |]; try discriminate. cbn [bind] in H. destruct (rb o e1 (k_body b) w) as [[e2 w2]| | |]; try discriminate. cbn [bind] in H.
  destruct (next e2 (k_term b)) as [[x|l]| | |] eqn:En; try discriminate; cbn [bind] in H; [|eapply IH; exact H]. injection H as -> ->. exists b, e2. split; [eapply nth_error_In; exact Eb|exact En].
Qed.
Lemma received_same ps args vs : typed_args ps args -> Forall2 (fun d v => match d_place d with Value x => v = x | Address _ => True end) (inputs ps args) vs -> received ps args vs = Ok args.
Proof.
  intros T. revert vs. induction T as [|p a ps args Ta T IH]; intros vs H; cbn [inputs received] in *; [inversion H; reflexivity|].
  unfold describe in H. destruct (kind (p_ty p)) as [| | |t K1 K2 K3 K4].
  - apply typed_scalar in Ta. destruct Ta as [x ->]. cbn [app] in H. inversion H as [|? v ? vs' Hv H']; subst. cbn in Hv. subst v. rewrite (IH vs' H'). reflexivity.
  - apply typed_scalar in Ta. destruct Ta as [x ->]. cbn [app] in H. inversion H as [|? v ? vs' Hv H']; subst. cbn in Hv. subst v. rewrite (IH vs' H'). reflexivity.
  - cbn [app] in H. inversion H as [|? v ? vs' Hv H']; subst. rewrite (IH vs' H'). reflexivity.
  - destruct t as [[| | | |]| |]; try contradiction; cbn [app] in H; rewrite (IH vs H); reflexivity.
Qed.
Lemma forall2_len {A B} (R : A -> B -> Prop) l m : Forall2 R l m -> length l = length m.
Proof. intros H. induction H; [reflexivity|]. cbn [length]. congruence. Qed.
Section passive.
  Context {W M : Type} (pi : W -> M) (enter exit : told_fun (W := W)) (He : passive pi enter) (Hx : passive pi exit).
  Lemma passive_call f ret ps t1 t2 args w : typed_args ps args -> (forall a w, seen pi (t1 a w) = t2 a (pi w)) -> (forall a w r w', t2 a w = Ok (r, w') -> result_ok ret r) ->
    seen pi (call_through enter exit f ret ps t1 args w) = t2 args (pi w).
  Proof.
    intros T Ht Hr. unfold call_through. destruct (He f (inputs ps args) w) as (vs & w1 & E & Ep & F). rewrite E. cbn [bind]. rewrite (received_same ps args vs T F). cbn [bind].
    rewrite <- Ep, <- (Ht args w1). specialize (Hr args (pi w1)). rewrite <- Ht in Hr. destruct (t1 args w1) as [[r w2]| | |]; cbn [bind seen]; try reflexivity.
    destruct (Hr r (pi w2) eq_refl) as [R1 R2]. clear Hr.
    replace (negb (scalar_fp ret) || Nat.eqb (length r) 1) with true by (destruct (scalar_fp ret); [rewrite R2; reflexivity|reflexivity]).
    destruct (Hx f (outputs ret r ps args) w2) as (vs2 & w3 & E2 & Ep2 & F2). rewrite E2. cbn [bind]. unfold answer, same_length.
    rewrite (forall2_len _ _ _ F2), Nat.eqb_refl. cbn [bind seen]. rewrite Ep2. do 2 f_equal.
    unfold outputs, describe in F2. cbn [p_ty result_param] in F2. destruct (kind ret) as [| | |t K1 K2 K3 K4].
    - specialize (R2 eq_refl). destruct r as [|x [|]]; try discriminate. cbn [app] in F2. inversion F2 as [|? v ? l Hv _]; subst. cbn in Hv. subst v. reflexivity.
    - specialize (R2 eq_refl). destruct r as [|x [|]]; try discriminate. cbn [app] in F2. inversion F2 as [|? v ? l Hv _]; subst. cbn in Hv. subst v. reflexivity.
    - reflexivity.
    - rewrite is_fp_scalar in K1. rewrite K1. destruct (is_ty t void) eqn:Ev; [|reflexivity]. apply is_ty_eq in Ev. symmetry. apply R1. exact Ev.
  Qed.
  (** what is known of calls in the module *)
  Definition calls_ok (m : list (func instr)) (o : oracle (W := M)) : Prop := forall i c vs w r w', instr_of m i -> i_op i = Call (Some c) -> o i vs w = Ok (r, w') -> result_ok (i_ty i) r.
  Lemma calls_ok_module m ext n : ext_typed ext -> calls_typed m -> calls_ok m (with_calls ext m (run_fun Prop_Module.run_original ext m n)).
  Proof.
    intros Hex Hc i c vs w r w' Hi Eo E. unfold with_calls in E. rewrite Eo in E. destruct (is_defined m c) eqn:Ed; [|apply (Hex i vs w r w'); [unfold is_call; rewrite Eo; reflexivity|exact E]].
    destruct n as [|n]; [discriminate|]. cbn [run_fun] in E. unfold is_defined in Ed. destruct (find_func m c) as [f|] eqn:Ef; [|discriminate].
    destruct (bind_params (f_params f) vs (fun _ => None)) as [e| | |]; try discriminate. cbn [bind] in E. destruct (returned _ _ _ _ _ _ _ _ _ _ E) as (b & e' & Hb & Hn).
    specialize (Hc i c f b Hi Eo Ef Hb). destruct (k_term b) as [[a|]| | |]; try discriminate; cbn [next] in Hn.
    - destruct Hc as [Ht Hv]. destruct (read e' a) as [x| | |] eqn:Er; try discriminate. cbn [bind] in Hn. injection Hn as ->. apply read_typed in Er. rewrite Ht in Er.
      split; [intros E'; contradiction|]. intros Hs. unfold scalar_fp in Hs. destruct (i_ty i) as [[| | | |]| |]; try discriminate; apply typed_scalar in Er; destruct Er as [y ->]; reflexivity.
    - injection Hn as <-. split; [reflexivity|]. rewrite Hc. discriminate.
    - destruct (read e' a) as [[|x [|]]| | |]; discriminate.
  Qed.
  Lemma passive_body m xs : (forall i x, In (i, x) xs -> instr_of m i /\ match x with Some s => (exists c, i_op i = Call (Some c)) /\ map p_ty (t_params s) = map fst (i_args i) | None => True end) ->
    forall o1 o2 e w, calls_ok m o2 -> (forall i vs w, seen pi (o1 i vs w) = o2 i vs (pi w)) ->
    seen pi (run_sites enter exit o1 e xs w) = Prop_Module.run_original o2 e (map fst xs) (pi w).
  Proof.
    intros Hi o1 o2 e w Hc Ho. unfold Prop_Module.run_original. revert e w. induction xs as [|[i x] xs IH]; intros e w; [reflexivity|]. cbn [run_sites map fst run_block run_step].
    unfold run_native. destruct (read_all e (i_args i)) as [vs| | |] eqn:Er; cbn [bind seen]; try reflexivity.
    assert (E : seen pi ((match x with None => o1 | Some s => fun i => call_through enter exit (t_fun s) (i_ty i) (t_params s) (o1 i) end) i vs w) = o2 i vs (pi w)).
    { destruct (Hi i x (or_introl eq_refl)) as [Ii Hs]. destruct x as [s|]; [|apply Ho]. destruct Hs as [[c Ec] Ht]. apply passive_call; [|intros; apply Ho|].
      - apply Prop_Instr.read_all_typed in Er. rewrite <- Ht in Er. clear - Er. revert vs Er. unfold typed_args. induction (t_params s) as [|p l IH]; intros vs Er; inversion Er; subst; constructor; auto.
      - intros a w0 r w' E. eapply Hc; eassumption. }
    rewrite <- E. destruct ((match x with None => o1 | Some s => fun i => call_through enter exit (t_fun s) (i_ty i) (t_params s) (o1 i) end) i vs w) as [[v w']| | |]; cbn [bind seen]; try reflexivity.
    apply IH. intros j y Hj. apply (Hi j y). right. exact Hj.
  Qed.
End passive.

Lemma nth_combine_types nf m F parent b k i s : site_of nf m F parent b k i (Some s) -> (exists c, i_op i = Call (Some c)) /\ map p_ty (t_params s) = map fst (i_args i).
Proof.
  intros (f & file & line & E & _ & _ & _ & _ & _ & _ & _ & _ & L & P). split; [exists f; exact E|].
  assert (Q : forall j a p, nth_error (i_args i) j = Some a -> nth_error (t_params s) j = Some p -> p_ty p = fst a) by (intros j a p A B; apply (P j a p A B)). clear - L Q. revert L Q.
  generalize (t_params s). induction (i_args i) as [|a l IH]; intros [|p ps] L Q; try discriminate; [reflexivity|]. cbn [map]. f_equal; [apply (Q O a p); reflexivity|]. apply IH; [injection L as L; exact L|]. intros j a' p'. apply (Q (S j)).
Qed.
(** Every [plain] module whose calls have the types of their callees, every passive pair of hooks (an instrumented program
    run with backends that do not change arguments: IEEE, MCA, bitmask, cancellation have no such hooks at all), external
    functions that do not look at the state of the backends: the program made by the pass computes what the original
    computes, at any function, main included: same result, same memory, same undefined behaviour, exit or non-termination. *)
Theorem C73_passive_transparent_partial : forall nf fuel ret m m' W M (pi : W -> M) (enter exit : told_fun (W := W)) (ext1 : oracle (W := W)) (ext2 : oracle (W := M)),
  plain m -> plain_main m ret -> ret <> void -> calls_typed m -> func_pass nf fuel ret m = Ok m' ->
  passive pi enter -> passive pi exit -> ext_typed ext2 -> (forall i vs w, seen pi (ext1 i vs w) = ext2 i vs (pi w)) ->
  forall n name args w, ~ hook_form name -> (forall f, In f m -> f_name f = name -> length args = length (f_params f)) ->
  seen pi (run_entry enter exit ext1 (pm_hooks m') (pm_funcs m') n name args w) = run_fun Prop_Module.run_original ext2 m n name args (pi w).
Proof.
  intros nf fuel ret m m' W M pi enter exit ext1 ext2 Pl Pm Rv Ct H Pe Px Et Hext n name args w Hname Hargs.
  destruct (C72_function_pass_partial nf fuel ret m m' Pl Pm H) as (g & Sg & _ & _ & R). destruct (R W enter exit ext1 n args w) as [R1 R2]. clear R.
  destruct Pl as (Nd & Nh & Nc & Sz).
  assert (Fd : forall c, found pi (run_sites enter exit) (Prop_Module.run_original (M := M)) (fun _ => True) (calls_ok m) g m c c).
  { intros c.
    assert (L : forall f h, In f m -> sited_func nf m f h -> like_func pi (run_sites enter exit) (Prop_Module.run_original (M := M)) (fun _ => True) (calls_ok m) h f).
    { intros f h Hf Sf. assert (Sf' := Sf). destruct Sf' as (_ & Ep & L & Sb). split; [exact Ep|].
      assert (Q : forall l l' j0, length l' = length l -> (forall j k k', nth_error l j = Some k -> nth_error l' j = Some k' -> nth_error (f_blocks f) (j0 + j) = Some k /\ nth_error (f_blocks h) (j0 + j) = Some k') -> Forall2 (like_block pi (run_sites enter exit) (Prop_Module.run_original (M := M)) (fun _ => True) (calls_ok m)) l' l).
      { induction l as [|k l IH]; intros [|k' l'] j0 Ll Hl; try discriminate; constructor.
        - destruct (Hl O k k' eq_refl eq_refl) as [H1 H2]. destruct (Sb _ _ _ H1 H2) as (K1 & K2 & K3). split; [exact K1|]. split; [exact K2|]. intros o1 o2 e w0 Hok Ho.
          assert (Em : map fst (k_body k') = k_body k) by (destruct (n_sub nf (f_name f)) as [[[p ?] ?]|]; [apply K3|rewrite K3, map_map; apply map_id]). rewrite <- Em.
          apply (passive_body pi enter exit Pe Px m); [|exact Hok|intros i vs w1; apply Ho; unfold good; destruct (i_op i) as [| | | | |[?|]| |]; exact I].
          intros i x Hx. split; [exists f, k; split; [exact Hf|]; split; [eapply nth_error_In; exact H1|]; rewrite <- Em; apply in_map_iff; exists (i, x); auto|].
          destruct x as [s|]; [|exact I]. destruct (n_sub nf (f_name f)) as [[[p ?] ?]|].
          + destruct K3 as [_ K3]. destruct (nth_In _ _ Hx) as [q Eq]. eapply nth_combine_types. eapply K3. exact Eq.
          + rewrite K3 in Hx. apply in_map_iff in Hx. destruct Hx as (i0 & Ei & _). discriminate.
        - apply (IH l' (S j0)); [injection Ll as Ll; exact Ll|]. intros j k0 k0' A B. rewrite Nat.add_succ_comm. apply Hl; assumption. }
      apply (Q (f_blocks f) (f_blocks h) O L). intros j k k' A B. auto. }
    unfold found. assert (In_m : forall f, In f (main_last m) <-> In f m) by (intros f; unfold main_last; rewrite in_app_iff, !filter_In; destruct (is_main f); tauto).
    destruct (find_func g c) as [h|] eqn:Eg.
    - unfold find_func in Eg. apply find_some in Eg. destruct Eg as [Hh E]. apply byte_eqb_eq in E. destruct (sited_instrs _ _ _ _ Sg h Hh) as (f & Hf & Sf). apply In_m in Hf.
      assert (Ff : find_func m c = Some f).
      { assert (Ef : f_name f = c) by (destruct Sf as [<- _]; exact E). clear - Nd Hf Ef. unfold find_func. induction m as [|x l IH]; [destruct Hf|]. inversion Nd as [|? ? Hx Nd']; subst. cbn [List.find].
        destruct Hf as [-> | Hf]; [rewrite (proj2 (byte_eqb_eq _ _) eq_refl); reflexivity|]. destruct (byte_eqb (f_name x) (f_name f)) eqn:E; [|apply IH; auto].
        apply byte_eqb_eq in E. destruct Hx. rewrite E. apply in_map. exact Hf. }
      rewrite Ff. apply L; assumption.
    - destruct (find_func m c) as [f|] eqn:Ef; [|exact I]. unfold find_func in Ef. apply find_some in Ef. destruct Ef as [Hf E]. apply byte_eqb_eq in E. apply In_m in Hf.
      assert (X : exists h, In h g /\ f_name h = c).
      { clear - Sg Hf E. induction Sg as [|x h l g Hx Sg IH]; [destruct Hf|]. destruct Hf as [<-|Hf]; [exists h; split; [left; reflexivity|destruct Hx as [-> _]; exact E]|]. destruct (IH Hf) as (h' & A & B). exists h'. split; [right; exact A|exact B]. }
      destruct X as (h & Hh & Eh). unfold find_func in Eg. pose proof (find_none _ _ Eg h Hh) as E'. cbn in E'. apply byte_eqb_eq in Eh. congruence. }
  assert (Sim : forall c args w, seen pi (run_fun (run_sites enter exit) ext1 g n c args w) = run_fun Prop_Module.run_original ext2 m n c args (pi w)).
  { intros c a w0. apply (fun_sim pi _ _ (fun _ => True) (calls_ok m)); [intros i vs w1 _; apply Hext|intros; apply Fd|intros k; apply calls_ok_module; assumption|apply Fd]. }
  destruct (list_eq_dec Z.eq_dec name (bytes "main")) as [-> | Hnm]; [|rewrite R1 by assumption; apply Sim].
  destruct (List.find is_main m) as [f|] eqn:Em.
  - destruct (find_is_main m f Em) as [Hf Ef]. destruct (R2 f (conj Hf Ef) (Hargs f Hf Ef)) as (fi & file & p & line & _ & _ & _ & E). rewrite E. unfold through_main.
    destruct (Pe fi [] w) as (vs & w1 & E1 & Ep1 & F1). rewrite E1. cbn [bind]. inversion F1; subst. rewrite <- Ep1, <- Sim.
    destruct (run_fun (run_sites enter exit) ext1 g n (bytes "main") args w1) as [[r w2]| | |]; cbn [bind seen]; try reflexivity.
    destruct (Px fi [] w2) as (vs2 & w3 & E2 & Ep2 & F2). rewrite E2. cbn [bind]. inversion F2; subst. cbn [seen bind]. rewrite Ep2. do 2 f_equal. destruct (ty_eqb ret void) eqn:Ev; [apply ty_eqb_eq in Ev; contradiction|reflexivity].
  - assert (Ng : find_func m (bytes "main") = None).
    { apply find_absent. intros f Hf Ef. pose proof (find_none _ _ Em f Hf) as E. unfold is_main in E. rewrite Ef in E. discriminate. }
    destruct (func_pass_spec nf fuel ret m m' Nd ltac:(lia) Nh H) as (g' & _ & _ & _ & Hk & _). unfold run_entry. rewrite find_hook_none.
    + assert (Nm : find_func (pm_funcs m') (bytes "main") = None).
      { clear - H Em. unfold func_pass in H. rewrite Em in H. destruct (pass_funcs nf m fuel (filter (fun f => negb (is_main f)) m) (mk_pstate 1 [])) as [[fs s]| | |] eqn:E; try discriminate. cbn [bind] in H. injection H as <-. cbn [pm_funcs].
        assert (X : forall l s fs s', pass_funcs nf m fuel l s = Ok (fs, s') -> (forall f, In f l -> is_main f = false) -> find_func fs (bytes "main") = None).
        { clear. induction l as [|f l IH]; intros s fs s' H Hl; cbn [pass_funcs] in H; [injection H as <- <-; reflexivity|].
          destruct (pass_func nf m fuel (f_name f) f s) as [[f1 s1]| | |] eqn:E1; try discriminate. cbn [bind] in H. destruct (pass_funcs nf m fuel l s1) as [[fs1 s2]| | |] eqn:E2; try discriminate. cbn [bind] in H. injection H as <- <-.
          unfold find_func. cbn [List.find]. assert (En : f_name f1 = f_name f) by (unfold pass_func in E1; destruct (n_sub nf (f_name f)) as [[[? ?] ?]|]; [destruct (pass_blocks _ _ _ _ _ _ _ _) as [[? ?]| | |]; try discriminate; injection E1 as <- <-; reflexivity|injection E1 as <- <-; reflexivity]).
          rewrite En. pose proof (Hl f (or_introl eq_refl)) as Hm. unfold is_main, main_name in Hm. rewrite Hm. eapply IH; [exact E2|]. intros f' Hf'. apply Hl. right. exact Hf'. }
        eapply X; [exact E|]. intros f Hf. apply filter_In in Hf. destruct Hf as [_ Hf]. apply negb_true_iff in Hf. exact Hf. }
      destruct n as [|n]; [reflexivity|]. cbn [run_fun]. rewrite Nm, Ng. reflexivity.
    + intros Hi. apply in_map_iff in Hi. destruct Hi as (h & Eh & Hh). rewrite Forall_forall in Hk. destruct (Hk h Hh) as [[_ E]|E]; [congruence|]. rewrite Eh in E. destruct E as [x E]. discriminate.
Qed.
Print Assumptions C73_passive_transparent_partial.

(** * C74: identifiers *)
Definition id_numbers (s : pstate) (ns : list Z) : Prop := Forall2 (fun h n => exists p, f_id (h_fun h) = p ++ bytes "/" ++ dec n) (ps_hooks s) ns /\ StronglySorted Z.gt ns /\ Forall (fun n => 1 <= n < ps_cpt s) ns.
Definition counts (s s' : pstate) (k : Z) : Prop := (exists ns, id_numbers s' ns) /\ 1 <= ps_cpt s <= ps_cpt s' /\ ps_cpt s' <= ps_cpt s + k.
Lemma counts_instr nf m fuel D parent b k i s i' s' : (exists ns, id_numbers s ns) -> 1 <= ps_cpt s -> pass_instr nf m fuel D parent b k i s = Ok (i', s') -> counts s s' 1.
Proof.
  intros [ns N] P. unfold pass_instr, counts. assert (X : (exists ns, id_numbers s ns) /\ 1 <= ps_cpt s <= ps_cpt s /\ ps_cpt s <= ps_cpt s + 1) by (split; [eauto|lia]). destruct N as (A & B & C).
  destruct (i_op i) as [| | | | |[f|]| |]; try (intros [= _ <-]; exact X). destruct (is_debug f); [intros [= _ <-]; exact X|]. destruct (n_dbg nf D b k) as [[file line]|]; [|intros [= _ <-]; exact X].
  destruct (have_fp m (i_ty i) (map fst (i_args i)) f) as [fl db]. destruct (n_intrinsic nf f && negb (fl || db)).
  { intros [= _ <-]. cbn [ps_cpt]. split; [|lia]. exists ns. split; [exact A|]. split; [exact B|]. cbn [ps_cpt]. eapply List.Forall_impl; [|exact C]. intros n; cbv beta; lia. }
  destruct (descriptions nf m fuel f D true (i_args i) 0) as [d| | |]; cbn [bind]; try discriminate. intros [= _ <-]. cbn [ps_cpt]. split; [|lia].
  exists (ps_cpt s :: ns). split; [|split]; cbn [ps_hooks ps_cpt].
  - constructor; [|exact A]. cbn [h_fun f_id]. exists (file ++ slash ++ parent ++ slash ++ f ++ slash ++ to_string line). unfold slash, to_string, dec. rewrite <- !app_assoc. reflexivity.
  - constructor; [exact B|]. eapply List.Forall_impl; [|exact C]. intros n; cbv beta; lia.
  - constructor; [lia|]. eapply List.Forall_impl; [|exact C]. intros n; cbv beta; lia.
Qed.
Lemma counts_body nf m fuel D parent b : forall is k s is' s', (exists ns, id_numbers s ns) -> 1 <= ps_cpt s -> pass_body nf m fuel D parent b k is s = Ok (is', s') -> counts s s' (Z.of_nat (length is)).
Proof.
  induction is as [|i is IH]; intros k s is' s' N P; cbn [pass_body].
  - intros [= _ <-]. split; [exact N|cbn; lia].
  - destruct (pass_instr nf m fuel D parent b k i s) as [[i1 s1]| | |] eqn:E1; try discriminate. cbn [bind]. destruct (pass_body nf m fuel D parent b (S k) is s1) as [[is1 s2]| | |] eqn:E2; try discriminate. cbn [bind]. intros [= _ <-].
    apply counts_instr in E1 as (N1 & P1); [|exact N|exact P]. apply IH in E2 as (N2 & P2); [|exact N1|lia]. split; [exact N2|]. cbn [length]. lia.
Qed.
Lemma counts_blocks nf m fuel D parent : forall bs b s bs' s', (exists ns, id_numbers s ns) -> 1 <= ps_cpt s -> pass_blocks nf m fuel D parent b bs s = Ok (bs', s') -> counts s s' (size bs).
Proof.
  induction bs as [|x bs IH]; intros b s bs' s' N P; cbn [pass_blocks].
  - intros [= _ <-]. split; [exact N|cbn; lia].
  - destruct (pass_body nf m fuel D parent b 0 (k_body x) s) as [[i1 s1]| | |] eqn:E1; try discriminate. cbn [bind]. destruct (pass_blocks nf m fuel D parent (S b) bs s1) as [[is1 s2]| | |] eqn:E2; try discriminate. cbn [bind]. intros [= _ <-].
    apply counts_body in E1 as (N1 & P1); [|exact N|exact P]. apply IH in E2 as (N2 & P2); [|exact N1|lia]. split; [exact N2|]. change (size (x :: bs)) with (Z.of_nat (length (k_body x)) + size bs). lia.
Qed.
Lemma counts_func nf m fuel D f s f' s' : (exists ns, id_numbers s ns) -> 1 <= ps_cpt s -> pass_func nf m fuel D f s = Ok (f', s') -> counts s s' (size (f_blocks f)).
Proof.
  intros N P. unfold pass_func. pose proof (size_pos (f_blocks f)). destruct (n_sub nf D) as [[[p fl] l]|]; [|intros [= _ <-]; split; [exact N|lia]].
  destruct (pass_blocks nf m fuel D p 0 (f_blocks f) s) as [[bs s1]| | |] eqn:E; try discriminate. cbn [bind]. intros [= _ <-]. eapply counts_blocks; eassumption.
Qed.
Lemma counts_funcs nf m fuel : forall fs s fs' s', (exists ns, id_numbers s ns) -> 1 <= ps_cpt s -> pass_funcs nf m fuel fs s = Ok (fs', s') -> counts s s' (msize fs).
Proof.
  induction fs as [|f fs IH]; intros s fs' s' N P; cbn [pass_funcs].
  - intros [= _ <-]. split; [exact N|cbn; lia].
  - destruct (pass_func nf m fuel (f_name f) f s) as [[i1 s1]| | |] eqn:E1; try discriminate. cbn [bind]. destruct (pass_funcs nf m fuel fs s1) as [[is1 s2]| | |] eqn:E2; try discriminate. cbn [bind]. intros [= _ <-].
    apply counts_func in E1 as (N1 & P1); [|exact N|exact P]. apply IH in E2 as (N2 & P2); [|exact N1|lia]. split; [exact N2|]. change (msize (f :: fs)) with (size (f_blocks f) + msize fs). lia.
Qed.
Lemma ids_distinct s ns : id_numbers s ns -> ps_cpt s <= 10 ^ 20 -> NoDup (map (fun h => f_id (h_fun h)) (ps_hooks s)).
Proof.
  intros (A & B & C) H. induction A as [|h n hs ns Hh A IH]; [constructor|]. inversion B as [|? ? B1 B2]; subst. inversion C as [|? ? C1 C2]; subst. cbn [map]. constructor; [|apply IH; assumption].
  intros Hi. apply in_map_iff in Hi. destruct Hi as (h' & E & Hh'). apply In_nth_error in Hh'. destruct Hh' as [j Ej].
  assert (Hn : exists n', In n' ns /\ exists p, f_id (h_fun h') = p ++ bytes "/" ++ dec n').
  { clear - A Ej. revert j Ej. induction A as [|x y l l' Hx A IH]; intros [|j] Ej; try discriminate; cbn [nth_error] in Ej; [injection Ej as ->; exists y; split; [left; reflexivity|exact Hx]|]. destruct (IH j Ej) as (n' & I & E). exists n'. split; [right; exact I|exact E]. }
  destruct Hn as (n' & I & p' & Ep'). destruct Hh as [p Ep]. rewrite Ep, Ep' in E. rewrite List.Forall_forall in B2, C2. specialize (B2 n' I). specialize (C2 n' I). cbv beta in *.
  apply numbered_inj in E; lia.
Qed.
(** In one module, the identifiers given to the backends by the hooks are all different, that of main included. *)
Theorem C74_ids_unique : forall nf fuel ret m m', msize m + 2 < 2 ^ 64 -> func_pass nf fuel ret m = Ok m' -> NoDup (map (fun h => f_id (h_fun h)) (pm_hooks m')).
Proof.
  intros nf fuel ret m m' Hs. unfold func_pass. assert (Hm := filter_size is_main m).
  assert (Pm : forall l, 0 <= msize l) by (induction l as [|x l IH]; [reflexivity|]; change (msize (x :: l)) with (size (f_blocks x) + msize l); pose proof (size_pos (f_blocks x)); lia).
  assert (B64 : 2 ^ 64 <= 10 ^ 20) by (vm_compute; discriminate).
  pose proof (Pm (filter is_main m)) as Pmm.
  destruct (List.find is_main m) as [f|] eqn:Ef.
  - assert (Sf : size (f_blocks f) <= msize (filter is_main m)).
    { apply find_some in Ef. destruct Ef as [I E]. assert (J : In f (filter is_main m)) by (apply filter_In; auto). clear - J Pm. induction (filter is_main m) as [|x l IH]; [destruct J|].
      change (msize (x :: l)) with (size (f_blocks x) + msize l). destruct J as [->|J]; [specialize (Pm l); lia|]. specialize (IH J). pose proof (size_pos (f_blocks x)). lia. }
    unfold main_hook. destruct (n_sub nf main_name) as [[[p file] line]|]; [|discriminate]. destruct (have_fp m ret [] main_name) as [fl db].
    destruct (descriptions nf m 1 main_name main_name false _ 0) as [d| | |]; try discriminate. cbn [bind].
    match goal with |- context [mk_pstate 2 [?h]] => set (h0 := h) end.
    assert (N0 : exists ns, id_numbers (mk_pstate 2 [h0]) ns).
    { exists [1]. split; [|split]; cbn [ps_hooks ps_cpt]; [|repeat constructor|constructor; [lia|constructor]]. constructor; [|constructor].
      exists (file ++ slash ++ slash ++ main_name ++ slash ++ to_string line). cbn [h_fun f_id]. unfold slash, to_string, dec. rewrite <- !app_assoc. reflexivity. }
    destruct (pass_funcs nf m fuel _ (mk_pstate 2 [h0])) as [[fs s]| | |] eqn:E; try discriminate. cbn [bind]. apply counts_funcs in E as (N1 & P1); [|exact N0|cbn; lia]. cbn [ps_cpt] in P1.
    match goal with |- context [pass_func nf m fuel main_name ?c s] => destruct (pass_func nf m fuel main_name c s) as [[c' s']| | |] eqn:E2 end; try discriminate. cbn [bind]. intros [= <-]. cbn [pm_hooks].
    apply counts_func in E2 as ([ns N2] & P2); [|exact N1|lia]. cbn [f_blocks] in P2. apply (ids_distinct s' ns); [exact N2|lia].
  - destruct (pass_funcs nf m fuel _ (mk_pstate 1 [])) as [[fs s]| | |] eqn:E; try discriminate. cbn [bind]. intros [= <-]. cbn [pm_hooks].
    apply counts_funcs in E as ([ns N1] & P1); [|exists []; split; [constructor|split; constructor]|cbn; lia]. cbn [ps_cpt] in P1. apply (ids_distinct s ns); [exact N1|lia].
Qed.
Print Assumptions C74_ids_unique.
(** The calls marked in C72 get different identifiers, and none that of main. *)
Theorem C74_call_ids_unique : forall nf m m0 g, Forall2 (sited_func nf m) m0 g -> StronglySorted Z.lt (map t_number (all_sites g)) -> Forall (fun s => 1 <= t_number s < 10 ^ 20) (all_sites g) ->
  NoDup (map (fun s => f_id (t_fun s)) (all_sites g)) /\
  forall file line, Forall (fun s => 2 <= t_number s) (all_sites g) -> ~ In (file ++ bytes "//main/" ++ dec line ++ bytes "/1") (map (fun s => f_id (t_fun s)) (all_sites g)).
Proof.
  intros nf m m0 g Sg Gr Gb.
  assert (Id : Forall (fun s => exists p, f_id (t_fun s) = p ++ bytes "/" ++ dec (t_number s)) (all_sites g)).
  { apply Forall_forall. intros s Hs. unfold all_sites in Hs. apply in_flat_map in Hs. destruct Hs as (h & Hh & Hs). unfold blocks_sites in Hs. apply in_flat_map in Hs. destruct Hs as (b & Hb & Hs).
    unfold body_sites in Hs. apply in_flat_map in Hs. destruct Hs as ([i x] & Hx & Hs). destruct x as [s'|]; [|destruct Hs]. destruct Hs as [<-|[]].
    destruct (sited_instrs _ _ _ _ Sg h Hh) as (f & _ & (_ & _ & L & S)). destruct (nth_In _ _ Hb) as [j Ej]. assert (Lj : (j < length (f_blocks f))%nat) by (rewrite <- L; apply nth_error_Some; congruence).
    destruct (nth_error (f_blocks f) j) as [k|] eqn:Ek; [|apply nth_error_None in Ek; lia]. destruct (S j k b Ek Ej) as (_ & _ & Sb). destruct (n_sub nf (f_name f)) as [[[p ?] ?]|].
    - destruct Sb as [_ Sb]. destruct (nth_In _ _ Hx) as [q Eq]. destruct (Sb q i (Some s') Eq) as (c & file & line & _ & _ & _ & _ & E & _). exists (file ++ bytes "/" ++ p ++ bytes "/" ++ c ++ bytes "/" ++ dec line). rewrite E, <- !app_assoc. reflexivity.
    - rewrite Sb in Hx. apply in_map_iff in Hx. destruct Hx as (i0 & Ei & _). discriminate. }
  clear Sg. split.
  - induction (all_sites g) as [|s l IH]; [constructor|]. cbn [map] in *. inversion Gr as [|? ? Gr' Gl]; subst. inversion Gb as [|? ? Hs Gb']; subst. inversion Id as [|? ? [p Ep] Id']; subst. constructor; [|apply IH; assumption].
    intros Hi. apply in_map_iff in Hi. destruct Hi as (s' & E & Hs'). rewrite Forall_forall in Id', Gb', Gl. destruct (Id' s' Hs') as [p' Ep']. rewrite Ep, Ep' in E.
    apply numbered_inj in E; [|specialize (Gb' s' Hs'); lia|lia]. specialize (Gl (t_number s') (in_map _ _ _ Hs')). lia.
  - intros file line G2 Hi. apply in_map_iff in Hi. destruct Hi as (s & E & Hs). rewrite Forall_forall in Id, Gb, G2. destruct (Id s Hs) as [p Ep]. rewrite Ep in E.
    assert (E' : p ++ bytes "/" ++ dec (t_number s) = (file ++ bytes "//main/" ++ dec line) ++ bytes "/" ++ dec 1) by (rewrite E, <- !app_assoc; reflexivity).
    apply numbered_inj in E'; [specialize (G2 s Hs); lia|specialize (Gb s Hs); lia|lia].
Qed.
Print Assumptions C74_call_ids_unique.

(** * C75: when the pass succeeds, and what it says of pointers *)
Definition told_type (t : ty) : Prop := t = Sca Float \/ t = Sca Double \/ t = Sca Pointer.
Definition no_indirect (m : list (func instr)) (f : list Z) : Prop := forall i, In i (body_of m f) -> i_op i <> Call None.
(** each call that may be instrumented: its callee makes no indirect call if it has an argument told to the backends, and the search for the origin of its pointers ends *)
Definition ready_call (nf : info) (m : list (func instr)) (F : list Z) (i : instr) : Prop :=
  forall c a, i_op i = Call (Some c) -> ~ debug_call c -> In a (i_args i) -> (told_type (fst a) -> no_indirect m c) /\ (fst a = Sca Pointer -> exists n, elements nf m F (snd a) n).
Definition ready (nf : info) (m : list (func instr)) : Prop :=
  (forall f b i, In f m -> n_sub nf (f_name f) <> None -> In b (f_blocks f) -> In i (k_body b) -> ready_call nf m (f_name f) i) /\
  (forall f, main_in m f -> n_sub nf (bytes "main") <> None /\ (Exists (fun p => told_type (fst p)) (f_params f) -> no_indirect m (bytes "main"))).

Lemma name_found nf m f k : no_indirect m f -> exists s, arg_name nf m f k = Ok s.
Proof.
  unfold no_indirect, arg_name, body_of. generalize (match find_func m f with Some g => flat_map k_body (f_blocks g) | None => [] end) as is. induction is as [|i is IH]; intros H; cbn [arg_name_in]; [eexists; reflexivity|].
  assert (IH' := IH (fun j Hj => H j (or_intror Hj))). destruct (i_op i) as [| | | | |[c|]| |] eqn:E; try exact IH'; [|destruct (H i (or_introl eq_refl) E)].
  destruct (existsb (byte_eqb c) dbg_names); [|exact IH']. destruct (n_var nf f (i_dst i)) as [[p nm]|]; [|exact IH']. destruct (Nat.eqb p (S k)); [eexists; reflexivity|exact IH'].
Qed.
Lemma size_found nf m F V n : elements nf m F V n -> exists k0, forall k, (k0 <= k)%nat -> size_of k nf m F V = Ok n.
Proof.
  intros H. induction H as [v|r n Hi Ho|r b n Hi Ho H [k0 IH]|r Hi Ho|r k Hi Hu|r k c l l' t a n Hi Hu Hl Hc Ha H [k0 IH]|r k c l l' Hi Hu Hl Hc Ha].
  all: try (assert (Ei : (match find_func m F with Some g => index_of r (f_params g) 0 | None => None end) = index_of r (match find_func m F with Some g => f_params g | None => [] end) 0) by (destruct (find_func m F); reflexivity)).
  all: try (assert (Ef : List.find is_call (n_users nf F r) = Some c) by (rewrite Hu; clear - Hl Hc; induction l as [|x l IH]; cbn [app List.find]; [rewrite Hc; reflexivity|rewrite (Hl x (or_introl eq_refl)); apply IH; intros y Hy; apply Hl; right; exact Hy])).
  - exists 1%nat. intros [|k] Hk; [lia|]. reflexivity.
  - exists 1%nat. intros [|k] Hk; [lia|]. cbn [size_of]. rewrite Ei, Hi, Ho. reflexivity.
  - exists (S k0). intros [|k] Hk; [lia|]. cbn [size_of]. rewrite Ei, Hi, Ho. apply IH. lia.
  - exists 1%nat. intros [|k] Hk; [lia|]. cbn [size_of]. rewrite Ei, Hi, Ho. reflexivity.
  - exists 1%nat. intros [|j] Hk; [lia|]. cbn [size_of]. rewrite Ei, Hi. assert (Ef : List.find is_call (n_users nf F r) = None); [|rewrite Ef; reflexivity].
    revert Hu. generalize (n_users nf F r). intros l Hl. induction l as [|x l IH]; [reflexivity|]. cbn [List.find]. rewrite (Hl x (or_introl eq_refl)). apply IH. intros c Hc. apply Hl. right. exact Hc.
  - exists (S k0). intros [|j] Hk; [lia|]. cbn [size_of]. rewrite Ei, Hi, Ef, Ha. apply IH. lia.
  - exists 1%nat. intros [|j] Hk; [lia|]. cbn [size_of]. rewrite Ei, Hi, Ef. assert (En : nth_error (i_args c) k = None) by (apply nth_error_None; lia). rewrite En, <- Ha, Nat.eqb_refl. reflexivity.
Qed.
Lemma told_ftype t n : ftype t = Some n -> told_type t.
Proof. destruct t as [[| | | |]| |]; try discriminate; intros _; unfold told_type; auto. Qed.
Lemma described_ok nf m F c args : (forall a, In a args -> (told_type (fst a) -> no_indirect m c) /\ (fst a = Sca Pointer -> exists n, elements nf m F (snd a) n)) ->
  exists k0, forall k call j, (k0 <= k)%nat -> exists d, descriptions nf m k c F call args j = Ok d.
Proof.
  induction args as [|[t a] args IH]; intros H; [exists O; intros; eexists; reflexivity|].
  destruct IH as [k1 IH]; [intros x Hx; apply H; right; exact Hx|]. destruct (H (t, a) (or_introl eq_refl)) as [H1 H2]. cbn [fst snd] in H1, H2.
  assert (Z : exists k2, forall k call, (k2 <= k)%nat -> exists sz, (if is_ptr t && call then size_of k nf m F a else Ok 1) = Ok sz).
  { destruct (is_ptr t) eqn:Ep; [|exists O; intros; eexists; reflexivity]. apply is_ptr_eq in Ep. destruct (H2 Ep) as [n Hn]. destruct (size_found _ _ _ _ _ Hn) as [k2 K]. exists k2. intros k [|] Hk; cbn [andb]; [rewrite K by exact Hk|]; eexists; reflexivity. }
  destruct Z as [k2 Z]. exists (Nat.max k1 k2). intros k call j Hk. cbn [descriptions].
  assert (N : exists nm, (match ftype t with Some _ => arg_name nf m c j | None => Ok [] end) = Ok nm) by (destruct (ftype t) eqn:E; [apply name_found, H1; eapply told_ftype; exact E|eexists; reflexivity]).
  destruct N as [nm ->]. cbn [bind]. destruct (Z k call ltac:(lia)) as [sz ->]. cbn [bind]. destruct (IH k call (S j) ltac:(lia)) as [d ->]. eexists. reflexivity.
Qed.
Section success.
  Context (nf : info) (m : list (func instr)).
  Lemma instr_ok D i : ready_call nf m D i -> exists k0, forall k parent b j s, (k0 <= k)%nat -> exists r, pass_instr nf m k D parent b j i s = Ok r.
  Proof.
    intros R. destruct (i_op i) as [| | | | |[c|]| |] eqn:E; try (exists O; intros; unfold pass_instr; rewrite E; eexists; reflexivity).
    destruct (is_debug c) eqn:Ed; [exists O; intros; unfold pass_instr; rewrite E, Ed; eexists; reflexivity|].
    destruct (described_ok nf m D c (i_args i)) as [k0 K]; [intros a Ha; apply R; [assumption|rewrite <- is_debug_iff, Ed; discriminate|assumption]|]. exists k0. intros k parent b j s Hk. unfold pass_instr. rewrite E, Ed.
    destruct (n_dbg nf D b j) as [[file line]|]; [|eexists; reflexivity]. destruct (have_fp m (i_ty i) (map fst (i_args i)) c) as [fl db]. destruct (n_intrinsic nf c && negb (fl || db)); [eexists; reflexivity|].
    destruct (K k true O Hk) as [d ->]. eexists. reflexivity.
  Qed.
  Lemma body_ok D is : (forall i, In i is -> ready_call nf m D i) -> exists k0, forall k parent b j s, (k0 <= k)%nat -> exists r, pass_body nf m k D parent b j is s = Ok r.
  Proof.
    induction is as [|i is IH]; intros H; [exists O; intros; eexists; reflexivity|]. destruct IH as [k1 IH]; [intros x Hx; apply H; right; exact Hx|]. destruct (instr_ok D i (H i (or_introl eq_refl))) as [k2 K].
    exists (Nat.max k1 k2). intros k parent b j s Hk. cbn [pass_body]. destruct (K k parent b j s ltac:(lia)) as [[i' s1] ->]. cbn [bind]. destruct (IH k parent b (S j) s1 ltac:(lia)) as [[is' s2] ->]. eexists. reflexivity.
  Qed.
  Lemma blocks_ok D bs : (forall b i, In b bs -> In i (k_body b) -> ready_call nf m D i) -> exists k0, forall k parent b s, (k0 <= k)%nat -> exists r, pass_blocks nf m k D parent b bs s = Ok r.
  Proof.
    induction bs as [|x bs IH]; intros H; [exists O; intros; eexists; reflexivity|]. destruct IH as [k1 IH]; [intros b i Hb Hi; apply (H b); [right; exact Hb|exact Hi]|]. destruct (body_ok D (k_body x) (fun i Hi => H x i (or_introl eq_refl) Hi)) as [k2 K].
    exists (Nat.max k1 k2). intros k parent b s Hk. cbn [pass_blocks]. destruct (K k parent b O s ltac:(lia)) as [[is s1] ->]. cbn [bind]. destruct (IH k parent (S b) s1 ltac:(lia)) as [[bs' s2] ->]. eexists. reflexivity.
  Qed.
  Lemma func_ok D f : (n_sub nf D <> None -> forall b i, In b (f_blocks f) -> In i (k_body b) -> ready_call nf m D i) -> exists k0, forall k s, (k0 <= k)%nat -> exists r, pass_func nf m k D f s = Ok r.
  Proof.
    intros H. unfold pass_func. destruct (n_sub nf D) as [[[p a] l]|]; [|exists O; intros; eexists; reflexivity]. destruct (blocks_ok D (f_blocks f) (H ltac:(discriminate))) as [k0 K]. exists k0. intros k s Hk. destruct (K k p O s Hk) as [[bs s1] ->]. eexists. reflexivity.
  Qed.
  Lemma funcs_ok fs : (forall f, In f fs -> n_sub nf (f_name f) <> None -> forall b i, In b (f_blocks f) -> In i (k_body b) -> ready_call nf m (f_name f) i) -> exists k0, forall k s, (k0 <= k)%nat -> exists r, pass_funcs nf m k fs s = Ok r.
  Proof.
    induction fs as [|f fs IH]; intros H; [exists O; intros; eexists; reflexivity|]. destruct IH as [k1 IH]; [intros x Hx; apply H; right; exact Hx|]. destruct (func_ok (f_name f) f (H f (or_introl eq_refl))) as [k2 K].
    exists (Nat.max k1 k2). intros k s Hk. cbn [pass_funcs]. destruct (K k s ltac:(lia)) as [[f' s1] ->]. cbn [bind]. destruct (IH k s1 ltac:(lia)) as [[fs' s2] ->]. eexists. reflexivity.
  Qed.
End success.
(** The pass ends and makes a module whenever the module is [ready]. *)
Theorem C75_pass_succeeds : forall nf ret m, ready nf m -> exists k0, forall k, (k0 <= k)%nat -> exists m', func_pass nf k ret m = Ok m'.
Proof.
  intros nf ret m [R1 R2]. destruct (funcs_ok nf m (filter (fun f => negb (is_main f)) m)) as [k1 K1].
  { intros f Hf Hs b i Hb Hi. apply filter_In in Hf. apply (R1 f b i); tauto. }
  unfold func_pass. destruct (List.find is_main m) as [f|] eqn:Em.
  - destruct (find_is_main m f Em) as [Hf Ef]. destruct (R2 f (conj Hf Ef)) as [Hs Hp].
    destruct (func_ok nf m main_name f) as [k2 K2]; [intros Hn b i Hb Hi; change main_name with (bytes "main"); rewrite <- Ef; apply (R1 f b i); try assumption; rewrite Ef; exact Hs|].
    assert (Md : exists d, descriptions nf m 1 main_name main_name false (map (fun p => (fst p, Reg (snd p))) (f_params f)) 0 = Ok d).
    { clear K1 K2. generalize 1%nat as fu. generalize O as j. revert Hp. induction (f_params f) as [|[t r] ps IH]; intros Hp j fu; [eexists; reflexivity|]. cbn [map fst snd descriptions]. rewrite andb_false_r.
      assert (N : exists nm, (match ftype t with Some _ => arg_name nf m main_name j | None => Ok [] end) = Ok nm) by (destruct (ftype t) eqn:E; [apply name_found, Hp; left; eapply told_ftype; exact E|eexists; reflexivity]).
      destruct N as [nm ->]. cbn [bind]. destruct (IH (fun X => Hp (Exists_cons_tl _ X)) (S j) fu) as [d ->]. eexists. reflexivity. }
    destruct Md as [d Md].
    assert (Mh : exists c h, main_hook nf m ret f 1 = Ok (c, h) /\ f_blocks c = f_blocks f).
    { unfold main_hook. change main_name with (bytes "main") in *. destruct (n_sub nf (bytes "main")) as [[[p fi] l]|]; [|congruence]. destruct (have_fp m ret [] (bytes "main")). rewrite Md. eexists _, _. split; reflexivity. }
    destruct Mh as (c & h & Mh & Eb). exists (Nat.max k1 k2). intros k Hk. rewrite Mh. cbn [bind]. destruct (K1 k (mk_pstate 2 [h]) ltac:(lia)) as [[fs s] ->]. cbn [bind].
    assert (Ec : exists r, pass_func nf m k main_name c s = Ok r).
    { destruct (K2 k s ltac:(lia)) as [[f1 s1] E]. unfold pass_func in *. rewrite Eb. destruct (n_sub nf main_name) as [[[p fi] l]|]; [|eexists; reflexivity]. destruct (pass_blocks nf m k main_name p 0 (f_blocks f) s) as [[bs s2]| | |]; try discriminate. eexists. reflexivity. }
    destruct Ec as [[c' s'] ->]. eexists. reflexivity.
  - exists k1. intros k Hk. destruct (K1 k (mk_pstate 1 []) Hk) as [[fs s] ->]. eexists. reflexivity.
Qed.
Print Assumptions C75_pass_succeeds.
(** A function that hands a pointer parameter on at the same position (double f(double *p) { return g(p); }, optimised): the
    search for the origin of p never ends. *)
Theorem C75_pass_through_refuted : forall nf m F g r k l c l' t, find_func m F = Some g -> index_of r (f_params g) 0 = Some k ->
  n_users nf F r = l ++ c :: l' -> (forall x, In x l -> is_call x = false) -> is_call c = true -> nth_error (i_args c) k = Some (t, Reg r) ->
  forall fuel, size_of fuel nf m F (Reg r) = Diverge.
Proof.
  intros nf m F g r k l c l' t Hf Hi Hu Hl Hc Ha. assert (Ef : List.find is_call (n_users nf F r) = Some c) by (rewrite Hu; clear - Hl Hc; induction l as [|x l IH]; cbn [app List.find]; [rewrite Hc; reflexivity|rewrite (Hl x (or_introl eq_refl)); apply IH; intros y Hy; apply Hl; right; exact Hy]).
  induction fuel as [|fuel IH]; [reflexivity|]. cbn [size_of]. rewrite Hf, Hi, Ef, Ha. exact IH.
Qed.
Print Assumptions C75_pass_through_refuted.
Definition forward : func instr :=
  mk_func (bytes "f") [(Sca Pointer, 0%nat)] [mk_block [] [mk_instr 1 (Call (Some (bytes "g"))) (Sca Double) [(Sca Pointer, Reg 0)]] (TRet (Some (Sca Double, Reg 1)))].
Definition debug_of (users : list Z -> nat -> list instr) (org : list Z -> nat -> origin) : info :=
  mk_info (fun f => Some (f, bytes "t.c", 3)) (fun _ b k => Some (bytes "t.c", Z.of_nat (10 * b + k) + 5)) (fun _ _ => None) (fun f => byte_eqb f (bytes "sqrt")) (fun f => starts_with (bytes "llvm.") f) org users.
Example C75_pass_through_example : forall fuel, func_pass (debug_of (fun _ _ => flat_map k_body (f_blocks forward)) (fun _ _ => Elsewhere)) fuel (Sca (Int 32)) [forward] = Diverge.
Proof.
  intros fuel. pose proof (C75_pass_through_refuted (debug_of (fun _ _ => flat_map k_body (f_blocks forward)) (fun _ _ => Elsewhere)) [forward] (bytes "f") forward 0 0 []
    (mk_instr 1 (Call (Some (bytes "g"))) (Sca Double) [(Sca Pointer, Reg 0)]) [] (Sca Pointer) eq_refl eq_refl eq_refl (fun _ H => match H with end) eq_refl eq_refl fuel) as D.
  revert D. vm_compute. intros D. rewrite D. reflexivity.
Qed.
(** A callee that makes an indirect call before the debug variable of a parameter told to the backends (with LLVM 19 and later
    there is no such call at all): the pass dereferences a null pointer. *)
Theorem C75_indirect_call_refuted : forall nf m f k l i l', body_of m f = l ++ i :: l' -> i_op i = Call None -> (forall j t, In j l -> ~ names nf f k j t) -> arg_name nf m f k = UB.
Proof.
  intros nf m f k l i l' E Ei Hl. unfold arg_name. change (match find_func m f with Some g => flat_map k_body (f_blocks g) | None => [] end) with (body_of m f). rewrite E. clear E.
  induction l as [|j l IH]; cbn [app arg_name_in]; [rewrite Ei; reflexivity|]. assert (IH' := IH (fun x t Hx => Hl x t (or_intror Hx))). clear IH. specialize (Hl j). destruct (i_op j) as [| | | | |[c|]| |] eqn:Ej; try exact IH'; [|reflexivity].
  destruct (existsb (byte_eqb c) dbg_names) eqn:Ex; [|exact IH']. destruct (n_var nf f (i_dst j)) as [[p nm]|] eqn:Ev; [|exact IH']. destruct (Nat.eqb_spec p (S k)); [|exact IH'].
  exfalso. apply (Hl nm (or_introl eq_refl)). subst p. split; [|exact Ev]. exists c. split; [exact Ej|]. apply existsb_exists in Ex. destruct Ex as (x & Hx & E). apply byte_eqb_eq in E. subst. exact Hx.
Qed.
Print Assumptions C75_indirect_call_refuted.
Example C75_indirect_call_nonvacuous :   (* double apply(fun op, double x) { return op(x); } called by run *)
  let apply_ := mk_func (bytes "apply") [(Sca Pointer, 0%nat); (Sca Double, 1%nat)] [mk_block [] [mk_instr 2 (Call None) (Sca Double) [(Sca Double, Reg 1); (Sca Pointer, Reg 0)]] (TRet (Some (Sca Double, Reg 2)))] in
  let run := mk_func (bytes "run") [(Sca Double, 0%nat)] [mk_block [] [mk_instr 1 (Call (Some (bytes "apply"))) (Sca Double) [(Sca Pointer, Const [7]); (Sca Double, Reg 0)]] (TRet (Some (Sca Double, Reg 1)))] in
  func_pass (debug_of (fun _ _ => []) (fun _ _ => Elsewhere)) 10 (Sca (Int 32)) [apply_; run] = UB.
Proof. vm_compute. reflexivity. Qed.

(** Types told to the backends: never an array of doubles. *)
Theorem C75_never_double_array : forall ps args ret r d, In d (inputs ps args ++ outputs ret r ps args) -> In (d_type d) [FFLOAT; FDOUBLE; FFLOAT_PTR].
Proof.
  assert (D : forall p v d, In d (describe p v) -> In (d_type d) [FFLOAT; FDOUBLE; FFLOAT_PTR]).
  { intros p v d. unfold describe. destruct (p_ty p) as [[| | | |]| |]; try (intros []); destruct v as [|x [|y v]]; cbn; intuition (subst; auto). }
  intros ps args ret r d Hd. unfold outputs in Hd. rewrite !in_app_iff in Hd. destruct Hd as [H|[H|H]]; [|apply (D _ _ _ H)|].
  - revert args H. induction ps as [|p ps IH]; intros [|a args] H; try destruct H. cbn [inputs] in H. apply in_app_iff in H. destruct H as [H|H]; [exact (D _ _ _ H)|exact (IH _ H)].
  - revert args H. induction ps as [|p ps IH]; intros [|a args] H; try destruct H. cbn [addresses] in H. apply in_app_iff in H. destruct H as [H|H]; [|exact (IH _ H)].
    destruct (p_ty p) as [[| | | |]| |]; try destruct H; eapply D; (left; eassumption) || (right; eassumption) || eassumption.
Qed.
Print Assumptions C75_never_double_array.

(** * Examples *)
Definition d_2 : Z := 4611686018427387904.   (* 2.0 *)
Definition scale_f : func instr := mk_func (bytes "scale") [(Sca Double, 0%nat)] [mk_block [] [mk_instr 1 (Call (Some (bytes "sqrt"))) (Sca Double) [(Sca Double, Reg 0)]] (TRet (Some (Sca Double, Reg 1)))].
Definition main_f : func instr := mk_func (bytes "main") [(Sca (Int 32), 0%nat); (Sca Pointer, 1%nat)] [mk_block [] [mk_instr 2 (Call (Some (bytes "scale"))) (Sca Double) [(Sca Double, Const [d_2])]] (TRet (Some (Sca (Int 32), Const [0])))].
Definition prog_ex : list (func instr) := [main_f; scale_f].
Definition nf_ex : info := debug_of (fun _ _ => []) (fun _ _ => Elsewhere).
Definition made : pmodule := match func_pass nf_ex 5 (Sca (Int 32)) prog_ex with Ok m => m | _ => mk_pmodule [] [] end.
Lemma not_hook n : firstn 4 n <> bytes "vfc_" -> ~ hook_form n.
Proof. intros H [x ->]. apply H. reflexivity. Qed.
Lemma prog_calls n : calls prog_ex n -> n = bytes "scale" \/ n = bytes "sqrt".
Proof.
  intros (i & (f & b & [<-|[<-|[]]] & Hb & Hi) & E); destruct Hb as [<-|[]]; destruct Hi as [<-|[]]; injection E as <-; auto.
Qed.
Lemma prog_plain : plain prog_ex /\ plain_main prog_ex (Sca (Int 32)) /\ calls_typed prog_ex.
Proof.
  split; [|split].
  - split; [repeat constructor; cbn; intuition discriminate|]. split; [intros f [<-|[<-|[]]]; apply not_hook; discriminate|]. split; [intros n Hn; destruct (prog_calls n Hn) as [-> | ->]; (split; [discriminate|apply not_hook; discriminate])|vm_compute; reflexivity].
  - intros f [<-|[<-|[]]] E; [|discriminate]. split; [discriminate|]. split; [repeat constructor|reflexivity].
  - intros i c f b Hi E Hf Hb. destruct (prog_calls c) as [-> | ->]; [exists i; split; assumption| |discriminate].
    injection Hf as <-. destruct Hb as [<-|[]]. cbn [k_term]. destruct Hi as (g & b' & [<-|[<-|[]]] & Hb & Hi); destruct Hb as [<-|[]]; destruct Hi as [<-|[]]; try discriminate. split; [reflexivity|discriminate].
Qed.
(** the state: what the backends were told *)
Definition log_hook (k : Z) (f : finfo) (ds : list desc) (w : list (Z * list Z * list Z)) : outcome (list Z * list (Z * list Z * list Z)) :=
  let vs := map (fun d => match d_place d with Value x => x | Address _ => 0 end) ds in Ok (vs, w ++ [(k, f_id f, vs)]).
Definition add_hook (k : Z) (f : finfo) (ds : list desc) (w : list (Z * list Z * list Z)) : outcome (list Z * list (Z * list Z * list Z)) :=
  let vs := map (fun d => match d_place d with Value x => x | Address _ => 0 end) ds in Ok (map (fun x => x + k) vs, w ++ [(k, f_id f, vs)]).
Definition sqrt_ext {M} (i : instr) (vs : list (list Z)) (w : M) : outcome (list Z * M) := match i_op i, vs with Call (Some _), [[x]] => if ty_eqb (i_ty i) (Sca Double) then Ok ([x - 100], w) else UB | _, _ => UB end.
Example C72_nonvacuous : plain prog_ex /\ plain_main prog_ex (Sca (Int 32)) /\ func_pass nf_ex 5 (Sca (Int 32)) prog_ex = Ok made /\ main_in prog_ex main_f /\
  run_entry (add_hook 1) (add_hook 10) sqrt_ext (pm_hooks made) (pm_funcs made) 10 (bytes "main") [[1]; [77]] [] =
    Ok ([0], [(1, bytes "t.c//main/3/1", []); (1, bytes "t.c/main/scale/5/3", [d_2]); (1, bytes "t.c/scale/sqrt/5/2", [d_2 + 1]); (10, bytes "t.c/scale/sqrt/5/2", [d_2 - 98]); (10, bytes "t.c/main/scale/5/3", [d_2 - 88]); (10, bytes "t.c//main/3/1", [])]) /\
  run_entry (add_hook 1) (add_hook 10) sqrt_ext (pm_hooks made) (pm_funcs made) 10 (bytes "scale") [[500]] [] = Ok ([411], [(1, bytes "t.c/scale/sqrt/5/2", [500]); (10, bytes "t.c/scale/sqrt/5/2", [401])]).
Proof. destruct prog_plain as (A & B & _). split; [exact A|]. split; [exact B|]. split; [vm_compute; reflexivity|]. split; [split; [left; reflexivity|reflexivity]|]. split; vm_compute; reflexivity. Qed.
Example C73_nonvacuous : calls_typed prog_ex /\ passive (fun _ => tt) (log_hook 1) /\ ext_typed (sqrt_ext (M := unit)) /\ (forall i vs w, seen (fun _ : list (Z * list Z * list Z) => tt) (sqrt_ext i vs w) = sqrt_ext i vs tt) /\
  run_fun Prop_Module.run_original sqrt_ext prog_ex 10 (bytes "scale") [[500]] tt = Ok ([400], tt) /\
  run_entry (log_hook 1) (log_hook 10) sqrt_ext (pm_hooks made) (pm_funcs made) 10 (bytes "scale") [[500]] [] = Ok ([400], [(1, bytes "t.c/scale/sqrt/5/2", [500]); (10, bytes "t.c/scale/sqrt/5/2", [400])]).
Proof.
  split; [apply prog_plain|]. split.
  { intros f ds w. eexists _, _. split; [reflexivity|]. split; [reflexivity|]. induction ds as [|d ds IH]; constructor; [destruct (d_place d); reflexivity || exact I|exact IH]. }
  split. { intros i vs w r w' _ H. unfold sqrt_ext in H. destruct (i_op i) as [| | | | |[c|]| |]; try discriminate. destruct vs as [|[|x [|]] [|]]; try discriminate. destruct (ty_eqb (i_ty i) (Sca Double)) eqn:E; [|discriminate]. apply ty_eqb_eq in E. injection H as <- _. split; [intros E'; rewrite E in E'; discriminate|reflexivity]. }
  split. { intros i vs w. unfold sqrt_ext, seen. destruct (i_op i) as [| | | | |[c|]| |]; try reflexivity. destruct vs as [|[|x [|]] [|]]; try reflexivity. destruct (ty_eqb (i_ty i) (Sca Double)); reflexivity. }
  split; vm_compute; reflexivity.
Qed.
Example C74_nonvacuous : msize prog_ex + 2 < 2 ^ 64 /\ exists m', func_pass nf_ex 5 (Sca (Int 32)) prog_ex = Ok m' /\ length (pm_hooks m') = 3%nat.
Proof. split; [reflexivity|]. eexists. split; [vm_compute; reflexivity|reflexivity]. Qed.
Example C74_call_nonvacuous : exists g, Forall2 (sited_func nf_ex prog_ex) (main_last prog_ex) g /\ StronglySorted Z.lt (map t_number (all_sites g)) /\ Forall (fun s => 1 <= t_number s < 10 ^ 20) (all_sites g) /\ Forall (fun s => 2 <= t_number s) (all_sites g) /\ length (all_sites g) = 2%nat.
Proof.
  destruct prog_plain as (A & B & _). destruct (C72_function_pass_partial nf_ex 5 (Sca (Int 32)) prog_ex made A B) as (g & S & G & N & R); [vm_compute; reflexivity|]. exists g. split; [exact S|]. split; [exact G|]. split; [exact N|].
  split. { destruct (R unit (fun _ _ _ => UB) (fun _ _ _ => UB) (fun _ _ _ => UB) O [[0]; [0]] tt) as [_ R2]. destruct (R2 main_f (conj (or_introl eq_refl) eq_refl) eq_refl) as (? & ? & ? & ? & _ & _ & H & _). exact H. }
  assert (One : forall f h c ar d t, In f prog_ex -> sited_func nf_ex prog_ex f h -> f_blocks f = [mk_block [] [mk_instr d (Call (Some c)) (Sca Double) ar] t] -> is_debug c = false -> n_intrinsic nf_ex c = false -> length (blocks_sites (f_blocks h)) = 1%nat).
  { intros f h c ar d t _ (_ & _ & L & Sb) E D Ni. rewrite E in L, Sb. destruct (f_blocks h) as [|k' [|]]; try discriminate. destruct (Sb O _ k' eq_refl eq_refl) as (_ & _ & Sk). cbn [n_sub nf_ex debug_of] in Sk. destruct Sk as [Em Sk]. cbn [k_body] in Em.
    unfold blocks_sites. cbn [flat_map]. unfold body_sites. destruct (k_body k') as [|[i x] [|]] eqn:Ek; try discriminate. injection Em as ->. specialize (Sk O _ x eq_refl). destruct x as [s|]; [reflexivity|].
    destruct (Sk c eq_refl) as [Q|[Q|[Q _]]]; [apply is_debug_iff in Q; congruence|discriminate|congruence]. }
  inversion S as [|f1 h1 l1 g1 S1 S' E1 E2]; subst. inversion S' as [|f2 h2 l2 g2 S2 S'' E3 E4]; subst. inversion S''; subst. unfold all_sites. cbn [flat_map]. rewrite !app_length.
  rewrite (One _ _ (bytes "sqrt") [(Sca Double, Reg 0)] 1%nat (TRet (Some (Sca Double, Reg 1))) ltac:(right; left; reflexivity) S1); [|reflexivity..].
  rewrite (One _ _ (bytes "scale") [(Sca Double, Const [d_2])] 2%nat (TRet (Some (Sca (Int 32), Const [0]))) ltac:(left; reflexivity) S2); reflexivity.
Qed.
Example C75_nonvacuous : ready nf_ex prog_ex.
Proof.
  split.
  - intros f b i [<-|[<-|[]]] _ Hb Hi c a E _ Ha; destruct Hb as [<-|[]]; destruct Hi as [<-|[]]; injection E as <-; destruct Ha as [<-|[]]; (split; [intros _ j Hj; vm_compute in Hj|discriminate]).
    + destruct Hj as [<-|[]]. discriminate.
    + destruct Hj.
  - intros f _. split; [discriminate|]. intros _ j Hj. vm_compute in Hj. destruct Hj as [<-|[]]. discriminate.
Qed.

(** ** Further refuted properties *)
(** A double array is not rounded as asked: in void f(double *x); double a[2]; f(a), the hook describes a as two floats, so
    with x set to 10 bits of mantissa, VPREC rounds the low half of a[0] as a float: a[0] = 1.1 becomes neither 1.1 nor 1.1
    rounded to 10 bits (memory of a as 32-bit words, little-endian). *)
Definition array_f : func instr := mk_func (bytes "g") [] [mk_block [] [mk_instr 0 (OtherOp 0) (Sca Pointer) []; mk_instr 1 (Call (Some (bytes "f"))) (Sca (Int 0)) [(Sca Pointer, Reg 0)]] (TRet None)].
Definition words (x : Z) : list Z := [x mod 2 ^ 32; x / 2 ^ 32].
Definition of_words (l : list Z) : Z := match l with [a; b] => b * 2 ^ 32 + a | _ => 0 end.
Definition d_1_1 : Z := 4607632778762754458.
Definition wished (name : string) (t mant e : Z) : Z * vfi := (hashmap_str_function (bytes name), mk_vfi (bytes name) 0 0 0 1 52 11 23 8 1 (Some [mk_varg (bytes "parameter_1") t mant e 0 0]) 0 (Some []) 1).
Definition full_ctx : vctx := upd_mode vctx_init mode_full.
Theorem C75_double_array_refuted :
  exists mm h, func_pass (debug_of (fun _ _ => []) (fun _ r => if Nat.eqb r 0 then FromAlloca 2 else Elsewhere)) 5 (Sca (Int 32)) [array_f] = Ok mm /\ pm_hooks mm = [h] /\
  (forall W (enter exit : told_fun (W := W)) target w, run_hook enter exit target h [[4096]] w = call_through enter exit (h_fun h) (Sca (Int 0)) [mk_param (Sca Pointer) (bytes "parameter_1") 2] target [[4096]] w) /\
  inputs [mk_param (Sca Pointer) (bytes "parameter_1") 2] [[4096]] = [mk_desc FFLOAT_PTR (bytes "parameter_1") 2 (Address [4096])] /\
  exists s cells, vfi_enter Strict inst_all [h_fun h] [mk_parg FFLOAT_PTR (bytes "parameter_1") 2 (Some (words d_1_1))] (mk_vstate full_ctx [wished "t.c/g/f/6/1" FFLOAT_PTR 10 8]) = Ok (s, [mk_parg FFLOAT_PTR (bytes "parameter_1") 2 (Some cells)]) /\
  of_words cells <> d_1_1 /\ vprec_round Strict binary64 d_1_1 true (vs_ctx s) 8 10 <> Ok (of_words cells).
Proof.
  eexists _, _. split; [vm_compute; reflexivity|]. split; [reflexivity|]. split.
  { intros W enter exit target w. refine (hook_runs enter exit target _ _ _ (Sca (Int 0)) (fun _ => (bytes "parameter_1", 2)) [mk_param (Sca Pointer) (bytes "parameter_1") 2] [[4096]] w _ _); [repeat constructor|]. intros [|[|j]] p0 E; try discriminate. injection E as <-. reflexivity. }
  split; [reflexivity|]. eexists _, _. split; [vm_compute; reflexivity|]. split; vm_compute; discriminate.
Qed.
Print Assumptions C75_double_array_refuted.

(** --function main with --inst-func (the function pass runs first, verificarlo.in.in): the option selects the hook, which has no
    floating-point operation, not the clone vfc_t.c//main/3/1_hook that has the body of main. *)
Theorem C75_main_not_selected_refuted : exists clone, In clone (pm_funcs made) /\ f_blocks clone <> [] /\ f_name clone = bytes "vfc_t.c//main/3/1_hook" /\ map i_dst (flat_map k_body (f_blocks clone)) = map i_dst (flat_map k_body (f_blocks main_f)) /\
  select (mk_options (bytes "main") None None) (bytes "/src/t.c") (map f_name prog_ex) = Sel [bytes "main"] /\
  select (mk_options (bytes "main") None None) (bytes "/src/t.c") (map f_name (pm_funcs made) ++ map h_name (pm_hooks made)) = Sel [bytes "main"] /\ f_name clone <> bytes "main".
Proof. eexists. split; [right; left; reflexivity|]. split; [discriminate|]. split; [vm_compute; reflexivity|]. split; [vm_compute; reflexivity|]. split; [vm_compute; reflexivity|]. split; [vm_compute; reflexivity|discriminate]. Qed.
Print Assumptions C75_main_not_selected_refuted.
(** Identifiers are not unique in a program: two modules (a/t.c and b/t.c, each compiled in its directory) with a static function of
    the same name calling functions of the same name at the same line; VPREC keeps one configuration for both calls. *)
Definition other_scale : func instr := mk_func (bytes "scale") [(Sca Float, 0%nat)] [mk_block [] [mk_instr 1 (Call (Some (bytes "sqrt"))) (Sca Float) [(Sca Float, Reg 0)]] (TRet (Some (Sca Float, Reg 1)))].
Theorem C74_across_modules_refuted : exists m1 m2 h1 h2, func_pass nf_ex 5 (Sca (Int 32)) [scale_f] = Ok m1 /\ func_pass nf_ex 5 (Sca (Int 32)) [other_scale] = Ok m2 /\
  pm_hooks m1 = [h1] /\ pm_hooks m2 = [h2] /\ f_id (h_fun h1) = f_id (h_fun h2) /\ h_fun h1 <> h_fun h2.
Proof. eexists _, _, _, _. split; [vm_compute; reflexivity|]. split; [vm_compute; reflexivity|]. split; [reflexivity|]. split; [reflexivity|]. split; [reflexivity|discriminate]. Qed.
Print Assumptions C74_across_modules_refuted.
