(** C70-C71: whole instrumented modules (libVFCInstrument.cpp L264-312, L382-394). *)
From Coq Require Import String ZArith List Bool Lia.
From Verif Require Import Common Text Bits FloatOps IeeeModel WrapModel VfiModel InstrModel InstrProofs SelectModel Prop_Ieee Prop_Instr ModuleModel ModuleProofs.
Import ListNotations.
Open Scope Z_scope.
Open Scope outcome_scope.

(** every block of every function; the pass is given a worklist for each *)
Definition typed_module (m : list (func instr)) : Prop := Forall (fun f => Forall (fun b => Forall well_typed (k_body b)) (f_blocks f)) m.
Definition worklists (fl : flags) (order : list Z -> nat -> list nat) (m : list (func instr)) : Prop :=
  forall f k b, In f m -> nth_error (f_blocks f) k = Some b -> worklist fl (k_body b) (order (f_name f) k).

(** The same module in which each instruction is marked with the operation the backends have to do: in a chosen function the
    operations covered by the flags, elsewhere nothing. *)
Definition marked_block (fl : flags) (in_chosen : bool) (b : block instr) (c : block (instr * option role)) : Prop :=
  k_phis c = k_phis b /\ k_term c = k_term b /\
  Forall2 (fun i x => fst x = i /\ if in_chosen then has_role fl i (snd x) else snd x = None) (k_body b) (k_body c).
Definition marked (fl : flags) (chosen : list (list Z)) (f : func instr) (g : func (instr * option role)) : Prop :=
  f_name g = f_name f /\ f_params g = f_params f /\
  exists c, (c = true <-> In (f_name f) chosen) /\ Forall2 (marked_block fl c) (f_blocks f) (f_blocks g).

Lemma unmarked_block W (bs : list (backend W)) b x : Forall2 (fun (i : instr) (x : instr * option role) => fst x = i /\ snd x = None) b x ->
  forall o e w, run_block bs o e (map Keep b) w = run_reference bs o e x w.
Proof.
  intros H. induction H as [|i [j r] b x [Hi Hn] H IH]; intros o e w; [reflexivity|]. cbn [fst snd] in *. subst j r.
  cbn [map run_block run_reference run_step run_reference_step]. destruct (run_native o e i w) as [[e' w']| | |]; cbn [bind]; try reflexivity. apply IH.
Qed.
Lemma combine_marked fl b roles x : Forall2 (has_role fl) b roles -> Forall2 (fun i (x : instr * option role) => fst x = i /\ has_role fl i (snd x)) b x -> combine b roles = x.
Proof.
  intros H. revert x. induction H as [|i r b roles Hi H IH]; intros x Hx; inversion Hx as [|? [j s] ? x' [Hj Hs] Hx']; subst; [reflexivity|].
  cbn [combine]. cbn [fst snd] in *. rewrite (IH x' Hx'). rewrite (C67_role_unique fl j r s Hi Hs). reflexivity.
Qed.
Lemma reference_ext W (bs : list (backend W)) o o' : (forall i vs w, o i vs w = o' i vs w) -> forall x e w, run_reference bs o e x w = run_reference bs o' e x w.
Proof.
  intros H. induction x as [|[i r] x IH]; intros e w; [reflexivity|]. cbn [run_reference].
  assert (E : run_reference_step bs o e i r w = run_reference_step bs o' e i r w).
  { destruct r; [reflexivity|]. cbn [run_reference_step]. unfold run_native. destruct (read_all e (i_args i)); cbn [bind]; try reflexivity. rewrite H. reflexivity. }
  rewrite E. destruct (run_reference_step bs o' e i r w) as [[e' w']| | |]; cbn [bind]; try reflexivity. apply IH.
Qed.
(** what the pass does to a function *)
Definition treated (fl : flags) (chosen : list (list Z)) (f : func instr) (g : func step) : Prop :=
  f_name g = f_name f /\ f_params g = f_params f /\
  Forall2 (fun b c => k_phis c = k_phis b /\ k_term c = k_term b /\
    if member (f_name f) chosen
    then exists roles, Forall2 (has_role fl) (k_body b) roles /\ forall W (bs : list (backend W)) o e w, run_block bs o e (k_body c) w = run_reference bs o e (combine (k_body b) roles) w
    else k_body c = map Keep (k_body b)) (f_blocks f) (f_blocks g).
Lemma pass_treats sigs fl order chosen m : sigs_ok sigs -> typed_module m -> worklists fl order m ->
  exists m', run_on_module sigs fl order chosen m = Ok m' /\ Forall2 (treated fl chosen) m m'.
Proof.
  intros Hs Ht Hw. unfold run_on_module. apply (omapi_spec _ (treated fl chosen)). intros j f Hj. cbn beta.
  assert (Hf := nth_error_In _ _ Hj). unfold treated. destruct (member (f_name f) chosen) eqn:Em.
  - unfold run_on_function.
    match goal with |- context [omapi ?F 0 _] => destruct (omapi_spec F (fun b c => k_phis c = k_phis b /\ k_term c = k_term b /\
      exists roles, Forall2 (has_role fl) (k_body b) roles /\ forall W (bs : list (backend W)) o e w, run_block bs o e (k_body c) w = run_reference bs o e (combine (k_body b) roles) w) (f_blocks f) 0) as (l' & Hl & Rl) end.
    { intros k b Hb. cbn beta. assert (Hwk := Hw f k b Hf Hb). unfold typed_module in Ht. rewrite Forall_forall in Ht. specialize (Ht f Hf). rewrite Forall_forall in Ht.
      assert (Hb' := nth_error_In _ _ Hb). destruct (C67_block_partial sigs fl (order (f_name f) k) (k_body b) Hs Hwk (Ht b Hb')) as (roles & steps & R1 & R2 & R3).
      rewrite Nat.add_0_l, R2. cbn [bind]. eexists. split; [reflexivity|]. cbn [k_phis k_term k_body]. repeat split. exists roles. split; assumption. }
    rewrite Hl. cbn [bind]. eexists. split; [reflexivity|]. cbn [f_name f_params f_blocks]. repeat split. exact Rl.
  - eexists. split; [reflexivity|]. unfold untouched. cbn [f_name f_params f_blocks]. repeat split.
    clear. induction (f_blocks f) as [|b l IH]; cbn [map]; constructor; [repeat split|exact IH].
Qed.
Lemma marking_exists fl chosen m : typed_module m -> exists g, Forall2 (marked fl chosen) m g.
Proof.
  intros Ht. induction Ht as [|f m Hf Ht IH]; [exists []; constructor|]. destruct IH as [g IH].
  assert (B : exists l, Forall2 (marked_block fl (member (f_name f) chosen)) (f_blocks f) l).
  { induction Hf as [|b l Hb Hl IHl]; [exists []; constructor|]. destruct IHl as [l' IHl].
    assert (X : exists x, Forall2 (fun i (x : instr * option role) => fst x = i /\ if member (f_name f) chosen then has_role fl i (snd x) else snd x = None) (k_body b) x).
    { clear - Hb. induction Hb as [|i is Hi Hb IH]; [exists []; constructor|]. destruct IH as [x IH].
      destruct (member (f_name f) chosen); [destruct (role_exists fl i Hi) as [r Hr]; exists ((i, r) :: x)|exists ((i, None) :: x)]; constructor; auto. }
    destruct X as [x X]. exists (mk_block (k_phis b) x (k_term b) :: l'). constructor; [|exact IHl]. repeat split. exact X. }
  destruct B as [l B]. exists (mk_func (f_name f) (f_params f) l :: g). constructor; [|exact IH].
  split; [reflexivity|]. split; [reflexivity|]. exists (member (f_name f) chosen). split; [apply member_in|exact B].
Qed.

(** * C70: the instrumented module *)
(** Every module of typed functions (loops, phi nodes, recursion, calls), every choice of functions (here the one the options
    select), every order of the worklists, signatures as in C67: the pass succeeds and the module it makes, run with any backends
    from any function, any arguments and any state, does exactly what the original does with the covered operations of the
    chosen functions, and no others, done by the backends. Missing: as in C67; calls back from external functions. *)
Theorem C70_module_partial :
  forall sigs fl order opts modname chosen m,
  sigs_ok sigs -> typed_module m -> worklists fl order m -> select opts modname (map f_name m) = Sel chosen ->
  exists m', run_on_module sigs fl order chosen m = Ok m' /\
  (exists g, Forall2 (marked fl chosen) m g) /\
  forall g, Forall2 (marked fl chosen) m g -> forall W (bs : list (backend W)) ext fuel name args w,
  run_fun (run_block bs) ext m' fuel name args w = run_fun (run_reference bs) ext g fuel name args w.
Proof.
  intros sigs fl order opts modname chosen m Hs Ht Hw _. destruct (pass_treats sigs fl order chosen m Hs Ht Hw) as (m' & Hm & Ft).
  exists m'. split; [exact Hm|]. split; [apply marking_exists; exact Ht|]. intros g Hg W bs ext fuel name args w.
  rewrite <- (seen_id (run_fun (run_block bs) ext m' fuel name args w)).
  assert (X : Forall2 (fun f1 f2 => f_name f1 = f_name f2 /\ like_func (fun w : W => w) (run_block bs) (run_reference bs) (fun _ => True) (fun _ => True) f1 f2) m' g).
  2: { apply (fun_sim (fun w : W => w) (run_block bs) (run_reference bs) (fun _ => True) (fun _ => True)); [intros i vs w' _; apply seen_id| |intros; exact I|]; intros; apply find_like; exact X. }
  clear Hm Ht Hw. revert g Hg. induction Ft as [|f f' m m' Hf Ft IH]; intros g Hg; inversion Hg as [|? h ? g' Hh Hg']; subst; constructor; [|apply IH; exact Hg'].
  destruct Hf as (F1 & F2 & F3). destruct Hh as (H1 & H2 & c & Hc & H3). split; [congruence|]. split; [congruence|].
  assert (Ec : c = member (f_name f) chosen) by (apply eq_true_iff_eq; rewrite Hc, member_in; reflexivity). subst c. clear Hc H1 H2 F1 F2 IH Ft Hg Hg'.
  revert H3. generalize (f_blocks h). induction F3 as [|b c bs1 bs2 (K1 & K2 & K3) F3 IH]; intros l H3; inversion H3 as [|? d ? l' (D1 & D2 & D3) H3']; subst; constructor; [|apply IH; exact H3'].
  split; [congruence|]. split; [congruence|]. intros o1 o2 e w' _ Ho. rewrite seen_id.
  rewrite <- (reference_ext W bs o1 o2) by (intros i; intros; rewrite <- Ho; [symmetry; apply seen_id|unfold good; destruct (i_op i) as [| | | | |[?|]| |]; exact I]).
  destruct (member (f_name f) chosen).
  - destruct K3 as (roles & R1 & R2). rewrite R2. rewrite (combine_marked fl _ _ _ R1 D3). reflexivity.
  - rewrite K3. apply unmarked_block. exact D3.
Qed.
Print Assumptions C70_module_partial.

(** the marking is determined by the module *)
Theorem C70_marking_unique : forall fl chosen m g1 g2, Forall2 (marked fl chosen) m g1 -> Forall2 (marked fl chosen) m g2 -> g1 = g2.
Proof.
  intros fl chosen m g1 g2 H. revert g2. induction H as [|f h1 m g1 Hf H IH]; intros g2 H2; inversion H2 as [|? h2 ? g2' Hf2 H2']; subst; [reflexivity|].
  f_equal; [|apply IH; exact H2']. destruct h1 as [n1 p1 l1], h2 as [n2 p2 l2]. destruct Hf as (N1 & P1 & c1 & C1 & L1), Hf2 as (N2 & P2 & c2 & C2 & L2).
  cbn [f_name f_params f_blocks] in *. f_equal; [congruence|congruence|]. assert (c1 = c2) by (apply eq_true_iff_eq; rewrite C1, C2; reflexivity). subst c2.
  clear - L1 L2. revert l2 L2. induction L1 as [|b x bs xs Hb L1 IH]; intros l2 L2; inversion L2 as [|? y ? ys Hb2 L2']; subst; [reflexivity|].
  f_equal; [|apply IH; exact L2']. destruct x as [f1 y1 t1], y as [f2 y2 t2]. destruct Hb as (A1 & A2 & A3), Hb2 as (D1 & D2 & D3). cbn [k_phis k_body k_term] in *.
  f_equal; [congruence| |congruence]. clear - A3 D3. revert y2 D3. induction A3 as [|i [j r] is xs [E1 E2] A3 IH]; intros y2 D3; inversion D3 as [|? [k s] ? ys [G1 G2] D3']; subst; [reflexivity|].
  cbn [fst snd] in *. subst. f_equal; [|apply IH; exact D3']. f_equal. destruct c1; [eapply C67_role_unique; eassumption|congruence].
Qed.
Print Assumptions C70_marking_unique.

(** a computation that ends is not changed by a larger budget *)
Theorem C70_budget : forall W (bs : list (backend W)) ext m fuel fuel' name args w, (fuel <= fuel')%nat ->
  run_fun (run_block bs) ext m fuel name args w <> Diverge -> run_fun (run_block bs) ext m fuel' name args w = run_fun (run_block bs) ext m fuel name args w.
Proof. intros W bs ext m fuel fuel' name args w H. apply fun_more; [apply run_block_monotone|exact H]. Qed.
Print Assumptions C70_budget.

(** * C71: with the IEEE backend the instrumented program is the original program *)
(** the original module: its bodies run instruction by instruction *)
Definition run_original {M} : oracle (W := M) -> env -> list instr -> M -> outcome (env * M) := fun o e b w => run_block [] o e (map Keep b) w.
(** a computation ends with result r *)
Definition ends {B W} (rb : oracle (W := W) -> env -> list B -> W -> outcome (env * W)) ext m name args w (r : outcome (list Z * W)) : Prop :=
  r <> Diverge /\ exists fuel, run_fun rb ext m fuel name args w = r.
Definition no_unordered_or (fl : flags) (chosen : list (list Z)) (m : list (func instr)) : Prop :=
  forall f b i p pr, In f m -> In (f_name f) chosen -> In b (f_blocks f) -> In i (k_body b) -> plays fl i (RCmp p pr) -> ~ or_predicate pr.
(** the program does not define functions called llvm.fma... (names reserved by LLVM) *)
Definition intrinsics_external (m : list (func instr)) : Prop := forall n, In n fma_names -> is_defined m n = false.

Lemma kept_transparent M (o1 : oracle (W := counters * M)) (o2 : oracle (W := M)) bs b : (forall i vs w, seen snd (o1 i vs w) = o2 i vs (snd w)) ->
  forall e w, seen snd (run_block bs o1 e (map Keep b) w) = run_block [] o2 e (map Keep b) (snd w).
Proof.
  intros Ho. induction b as [|i b IH]; intros e w; [reflexivity|]. cbn [map run_block run_step]. unfold run_native.
  destruct (read_all e (i_args i)) as [vs| | |]; cbn [bind seen]; try reflexivity.
  rewrite <- (Ho i vs w). destruct (o1 i vs w) as [[v w']| | |]; cbn [bind seen]; try reflexivity. apply IH.
Qed.
Lemma C71_same_fuel : forall M n cmp (ext : oracle (W := M)) sigs fl order chosen m on,
  sigs_ok sigs -> typed_module m -> worklists fl order m -> llvm_cmp cmp -> machine n cmp ext -> no_unordered_or fl chosen m -> intrinsics_external m ->
  exists m', run_on_module sigs fl order chosen m = Ok m' /\
  forall fuel name args w, seen snd (run_fun (run_block [ieee_backend n on]) (beside ext) m' fuel name args w) = run_fun run_original ext m fuel name args (snd w).
Proof.
  intros M n cmp ext sigs fl order chosen m on Hs Ht Hw Hc Hm Hp Hi. destruct (pass_treats sigs fl order chosen m Hs Ht Hw) as (m' & Hr & Ft).
  exists m'. split; [exact Hr|]. clear Hr. intros fuel name args w.
  set (okm := fun o : oracle (W := M) => forall i r vs mem, plays fl i r -> o i vs mem = match machine_result n cmp r vs with Some v => Ok (v, mem) | None => UB end).
  assert (Gd : forall i, good (fun _ => True) i) by (intros i; unfold good; destruct (i_op i) as [| | | | |[c|]| |]; exact I).
  assert (X : Forall2 (fun f1 f2 => f_name f1 = f_name f2 /\ like_func (W1 := counters * M) snd (run_block [ieee_backend n on]) run_original (fun _ => True) okm f1 f2) m' m).
  { assert (G : forall f f', In f m -> treated fl chosen f f' -> f_name f' = f_name f /\ like_func (W1 := counters * M) snd (run_block [ieee_backend n on]) run_original (fun _ => True) okm f' f).
    { intros f f' Hf (F1 & F2 & F3). split; [exact F1|]. split; [exact F2|]. subst okm.
      unfold typed_module in Ht. rewrite Forall_forall in Ht. specialize (Ht f Hf). assert (Hp' := Hp f). 
      assert (Hb : forall b, In b (f_blocks f) -> In b (f_blocks f)) by auto. remember (f_blocks f) as l eqn:El in Hb at 1, F3 |- *. clear El.
      induction F3 as [|b c l l' (K1 & K2 & K3) F3 IH]; constructor; [|apply IH; intros b' Hb'; apply Hb; right; exact Hb'].
      split; [exact K1|]. split; [exact K2|]. intros o1 o2 e w' Hok Ho. unfold run_original. destruct (member (f_name f) chosen) eqn:Em.
      - destruct K3 as (roles & R1 & R2). rewrite R2. destruct w' as [cs mem]. rewrite Forall_forall in Ht.
        apply (reference_transparent M n cmp o1 o2 fl (k_body b) roles on).
        + apply Ht. apply Hb. left. reflexivity.
        + exact Hc.
        + intros i r vs mem' _ Hpl. apply Hok. exact Hpl.
        + intros i p pr Hi' Hpl. apply (Hp' b i p pr Hf); auto. apply member_in. exact Em. apply Hb. left. reflexivity.
        + exact R1.
        + intros i vs cs' mem'. apply (Ho i vs (cs', mem')). apply Gd.
      - rewrite K3. apply kept_transparent. intros i vs w2. apply Ho. apply Gd. }
    clear - G Ft. induction Ft as [|f f' m m' Hf Ft IH]; constructor; [apply G; [left; reflexivity|exact Hf]|apply IH; intros; apply G; [right|]; assumption]. }
  apply (fun_sim (W1 := counters * M) snd (run_block [ieee_backend n on]) run_original (fun _ => True) okm).
  - intros i vs [cs mem] _. apply (beside_follows ext i vs cs mem).
  - intros. apply find_like. exact X.
  - intros fu i r vs mem Hpl. unfold with_calls.
    assert (E : match i_op i with Call (Some c) => is_defined m c = false | _ => True end).
    { destruct Hpl as [p o t A1 A2 A3|p pr t A0 A1 A2 A3|p f t A0 A1 A4 A2 A3|A0 A1 A2 A3]; rewrite A1; try exact I; [destruct o; exact I|].
      apply Hi. unfold fma_intrinsic in A4. unfold fma_names. destruct p, A4 as [A4|A4]; rewrite A4; cbn [In]; tauto. }
    destruct (i_op i) as [| | | | |[c|]| |] eqn:Eo; try (apply Hm; apply (plays_all fl); exact Hpl). rewrite E. apply Hm. apply (plays_all fl). exact Hpl.
  - apply find_like. exact X.
Qed.

(** Under the hypotheses of C68 for the chosen functions, the program instrumented and run with the IEEE backend ends (with a
    result and a memory, or by undefined behaviour, or by exit) exactly when the original program does, and with the same
    result and the same memory: loops, recursion, functions left alone. Missing: as in C68. *)
Theorem C71_ieee_program_partial : forall M n cmp (ext : oracle (W := M)) sigs fl order opts modname chosen m on,
  sigs_ok sigs -> typed_module m -> worklists fl order m -> select opts modname (map f_name m) = Sel chosen ->
  llvm_cmp cmp -> machine n cmp ext -> no_unordered_or fl chosen m -> intrinsics_external m ->
  exists m', run_on_module sigs fl order chosen m = Ok m' /\
  forall name args cs mem,
  (forall r, ends (run_block [ieee_backend n on]) (beside ext) m' name args (cs, mem) r -> ends run_original ext m name args mem (seen snd r)) /\
  (forall r, ends run_original ext m name args mem r -> exists r', ends (run_block [ieee_backend n on]) (beside ext) m' name args (cs, mem) r' /\ seen snd r' = r).
Proof.
  intros M n cmp ext sigs fl order opts modname chosen m on Hs Ht Hw _ Hc Hm Hp Hi.
  destruct (C71_same_fuel M n cmp ext sigs fl order chosen m on Hs Ht Hw Hc Hm Hp Hi) as (m' & Hr & H). exists m'. split; [exact Hr|].
  assert (D : forall r : outcome (list Z * (counters * M)), seen snd r = Diverge <-> r = Diverge) by (intros [[v w]| | |]; cbn; split; congruence).
  intros name args cs mem. split.
  - intros r [Hd [fuel Hf]]. split; [rewrite D; exact Hd|]. exists fuel. rewrite <- Hf. symmetry. apply (H fuel name args (cs, mem)).
  - intros r [Hd [fuel Hf]]. pose proof (H fuel name args (cs, mem)) as E. cbn [snd] in E. eexists. split; [split; [|exists fuel; reflexivity]|rewrite E; exact Hf].
    rewrite <- D, E, Hf. exact Hd.
Qed.
Print Assumptions C71_ieee_program_partial.

(** * A module: double power(double x, int n) with a loop, and a function calling it *)
Definition f64_1 : Z := 0x3FF0000000000000.
Definition power : func instr :=
  mk_func (bytes "power") [(Sca Double, 0%nat); (Sca (Int 32), 1%nat)]
    [mk_block [] [] (TBr 1);
     mk_block [(2%nat, [(0%nat, (Sca Double, Const [f64_1])); (2%nat, (Sca Double, Reg 4))]); (3%nat, [(0%nat, (Sca (Int 32), Reg 1)); (2%nat, (Sca (Int 32), Reg 5))])]
       [] (TSwitch (Sca (Int 32), Reg 3) [(0, 3%nat)] 2%nat);
     mk_block [] [mk_instr 4 FMul (Sca Double) [(Sca Double, Reg 2); (Sca Double, Reg 0)]; mk_instr 5 (OtherOp 1) (Sca (Int 32)) [(Sca (Int 32), Reg 3)]] (TBr 1);
     mk_block [] [] (TRet (Some (Sca Double, Reg 2)))].
Definition top : func instr :=
  mk_func (bytes "top") []
    [mk_block [] [mk_instr 0 (Call (Some (bytes "power"))) (Sca Double) [(Sca Double, Const [f64_1_5]); (Sca (Int 32), Const [2])];
                  mk_instr 1 FAdd (Sca Double) [(Sca Double, Reg 0); (Sca Double, Reg 0)]] (TRet (Some (Sca Double, Reg 1)))].
Definition module : list (func instr) := [power; top].
Definition ext_ex {M} (i : instr) (vs : list (list Z)) (w : M) : outcome (list Z * M) :=
  match i_op i, vs with OtherOp 1, [[x]] => Ok ([(x - 1) mod 2 ^ 32], w) | _, _ => machine_native i vs w end.
Lemma ext_ex_ok {M} : machine soft machine_cmp (@ext_ex M).
Proof.
  intros i r vs m H. rewrite <- (machine_native_ok i r vs m H). unfold ext_ex.
  assert (Q : forall k, i_op i <> OtherOp k) by (intros k E; destruct H as [p o t A1 A2 A3|p pr t A0 A1 A2 A3|p f t A0 A1 A4 A2 A3|A0 A1 A2 A3]; rewrite A1 in E; try destruct o; discriminate).
  destruct (i_op i); try reflexivity. destruct (Q k eq_refl).
Qed.
Definition order_ex (n : list Z) (k : nat) : list nat := if byte_eqb n (bytes "power") then match k with 2%nat => [0%nat] | _ => [] end else match k with O => [1%nat] | _ => [] end.
Definition opts_ex : options := mk_options (bytes "power") None None.
Example C70_nonvacuous :
  sigs_ok plain_sigs /\ typed_module module /\ worklists all_flags order_ex module /\ llvm_cmp machine_cmp /\ machine soft machine_cmp (@ext_ex unit) /\
  intrinsics_external module /\ select opts_ex (bytes "/src/main.c") (map f_name module) = Sel [bytes "power"] /\ no_unordered_or all_flags [bytes "power"] module /\
  exists m', run_on_module plain_sigs all_flags order_ex [bytes "power"] module = Ok m' /\
  (let* '(v, (cs, _)) := run_fun (run_block [ieee_backend soft true]) ext_ex m' 20 (bytes "top") [] (counters0, tt) in Ok (v, map cs [CAdd; CMul])) = Ok ([0x4012000000000000], [0; 2]) /\
  run_fun (run_block [zero_backend]) ext_ex m' 20 (bytes "top") [] 0 = Ok ([0], 2) /\
  run_fun run_original ext_ex module 20 (bytes "top") [] tt = Ok ([0x4012000000000000], tt).
Proof.
  split; [exact plain_sigs_ok|]. split; [|split; [|split; [exact machine_cmp_ok|split; [exact ext_ex_ok|split; [|split; [vm_compute; reflexivity|split]]]]]].
  - unfold typed_module, module, power, top. repeat (apply Forall_cons || apply Forall_nil); cbn [f_blocks]; repeat (apply Forall_cons || apply Forall_nil); cbn [k_body]; repeat (apply Forall_cons || apply Forall_nil); unfold well_typed; cbn [i_op i_args i_ty map fst]; try exact I.
    + exists (Sca Double). repeat split.
    + intros q H. exfalso. destruct q, H as [H|H]; revert H; vm_compute; discriminate.
    + exists (Sca Double). repeat split.
  - intros f k b Hf Hk.
    assert (E : order_ex (f_name f) k = positions all_flags (k_body b)); [|rewrite E; apply positions_ok].
    destruct Hf as [<- | [<- | []]]; do 5 (destruct k as [|k]; [cbn in Hk; try discriminate; injection Hk as <-; vm_compute; reflexivity|cbn in Hk; try discriminate]).
  - intros n H. repeat (destruct H as [<- | H]; [vm_compute; reflexivity|]). destruct H.
  - intros f b i p pr Hf _ Hb Hi Hpl. exfalso. assert (E : i_op i = FCmp pr) by (inversion Hpl; assumption).
    destruct Hf as [<- | [<- | []]]; cbn [f_blocks power top In] in Hb; repeat (destruct Hb as [<- | Hb]; [cbn [k_body In] in Hi; repeat (destruct Hi as [<- | Hi]; [discriminate E|]); exact Hi|]); exact Hb.
  - eexists. split; [vm_compute; reflexivity|]. split; [vm_compute; reflexivity|]. split; vm_compute; reflexivity.
Qed.
