(** C67-C68: the instrumentation of a block (libVFCInstrument.cpp L318-674) with the wrappers of vfcwrapper/main.c.in. *)
From Coq Require Import String ZArith List Bool Lia Permutation.
From Verif Require Import Common Text Bits BitsFacts FloatReal FloatValue FloatOps IeeeModel IeeeProofs Prop_Ieee WrapModel VfiModel InstrModel InstrProofs.
Import ListNotations.
Open Scope Z_scope.
Open Scope outcome_scope.

(** * C67: the instrumented block *)
(** For every block of typed instructions, every order of the worklist and every set of signatures that pass the operands in
    their type, bit cast or by pointer and return the result in its own type: the pass succeeds and the instrumented block, run
    with any backends, any behaviour of the other instructions and any state, does what the original does with every covered
    operation (add, sub, mul, div; comparisons, scalar fma, double to float casts when asked) done lane by lane by the
    backends, operands in order, everything else untouched. Missing: signatures returning another type (false, see below);
    scalable vectors (the pass stops). *)
Theorem C67_block_partial :
  forall sigs fl order b, sigs_ok sigs -> worklist fl b order -> Forall well_typed b ->
  exists roles steps, Forall2 (has_role fl) b roles /\ run_on_block sigs fl order b = Ok steps /\
  forall W (bs : list (backend W)) native e w, run_block bs native e steps w = run_reference bs native e (combine b roles) w.
Proof.
  intros sigs fl order b Hs Hw Ht.
  assert (Hr : exists roles, Forall2 (has_role fl) b roles).
  { clear Hw. induction Ht as [|i b Hi Hb IH]; [exists []; constructor|]. destruct IH as [roles IH]. destruct (role_exists fl i Hi) as [r Hr].
    exists (r :: roles). constructor; assumption. }
  destruct Hr as [roles Hr]. destruct (block_runs sigs fl order b roles Hs Hw Ht Hr) as (steps & H1 & H2).
  exists roles, steps. auto.
Qed.
Print Assumptions C67_block_partial.

(** the role of an instruction is unique: the statement above determines what is computed *)
Theorem C67_role_unique : forall fl i r1 r2, has_role fl i r1 -> has_role fl i r2 -> r1 = r2.
Proof.
  assert (F : forall t p q, fp_type t p -> fp_type t q -> p = q).
  { intros t p q (n & Hn & ->) (m & Hm & E). destruct n, m, p, q; cbn in E; congruence. }
  assert (P : forall fl i r1 r2, plays fl i r1 -> plays fl i r2 -> r1 = r2).
  { intros fl i r1 r2 H1 H2. destruct H1 as [p o t A1 A2 A3|p pr t A0 A1 A2 A3|p f t A0 A1 A4 A2 A3|A0 A1 A2 A3];
      destruct H2 as [p' o' t' B1 B2 B3|p' pr' t' B0 B1 B2 B3|p' f' t' B0 B1 B4 B2 B3|B0 B1 B2 B3];
      try (rewrite A1 in B1; try destruct o; try destruct o'; discriminate).
    - assert (o = o') by (rewrite A1 in B1; destruct o, o'; cbn in B1; congruence). assert (t = t') by congruence. subst t'. rewrite (F t p p' A3 B3). congruence.
    - assert (pr = pr') by congruence. assert (t = t') by congruence. subst t'. rewrite (F t p p' A3 B3). congruence.
    - assert (t = t') by congruence. subst t'. rewrite (F t p p' A3 B3). reflexivity.
    - reflexivity. }
  intros fl i [r1|] [r2|]; cbn [has_role]; intros H1 H2; [f_equal; eapply P; eassumption|elim (H2 r1 H1)|elim (H1 r2 H2)|reflexivity].
Qed.
Print Assumptions C67_role_unique.

(** the order of the worklist (addresses of the instructions) has no effect *)
Theorem C67_order_independent :
  forall sigs fl o1 o2 b, sigs_ok sigs -> worklist fl b o1 -> worklist fl b o2 -> Forall well_typed b ->
  run_on_block sigs fl o1 b = run_on_block sigs fl o2 b.
Proof.
  intros sigs fl o1 o2 b Hs H1 H2 Ht.
  assert (Hb : Forall (fun i => match must_replace fl i with Some o => exists s, replace_instr sigs i o = Ok s | None => True end) b).
  { eapply Forall_impl; [|exact Ht]. intros i Hi. destruct (role_exists fl i Hi) as [[r|] Hr]; cbn [has_role] in Hr.
    - destruct (replace_role sigs fl i r Hs Hi Hr) as (o & s & Ho & Hrep & _). rewrite Ho. exists s. exact Hrep.
    - pose proof (no_role fl i Hi Hr) as Hn. destruct (must_replace fl i); [|exact I]. exists (Keep i). apply Hn. }
  destruct (run_on_block_spec sigs fl o1 b H1 Hb) as (r1 & -> & D1). destruct (run_on_block_spec sigs fl o2 b H2 Hb) as (r2 & -> & D2).
  f_equal. clear - D1 D2. revert r2 D2. induction D1 as [|i s b r1 Hs D1 IH]; intros r2 D2; inversion D2; subst; [reflexivity|].
  f_equal; [|apply IH; assumption]. unfold done_at in *. destruct (must_replace fl i); congruence.
Qed.
Print Assumptions C67_order_independent.

(** worklists exist, in any order *)
Definition positions (fl : flags) (b : list instr) : list nat :=
  filter (fun k => match nth_error b k with Some i => match must_replace fl i with Some _ => true | None => false end | None => false end) (seq 0 (Datatypes.length b)).
Lemma positions_ok fl b : worklist fl b (positions fl b).
Proof.
  intros k. unfold positions. rewrite filter_In, in_seq. split.
  - intros [_ H]. destruct (nth_error b k) as [i|]; [|discriminate]. exists i. split; [reflexivity|]. destruct (must_replace fl i); congruence.
  - intros (i & Hi & Hm). rewrite Hi. split; [|destruct (must_replace fl i); congruence].
    assert (k < Datatypes.length b)%nat by (apply nth_error_Some; congruence). lia.
Qed.
Lemma worklist_perm fl b o1 o2 : worklist fl b o1 -> Permutation o2 o1 -> worklist fl b o2.
Proof. intros H P k. rewrite <- (H k). split; intros h; eapply Permutation_in; try exact h; [exact P|apply Permutation_sym; exact P]. Qed.

(** signatures in which nothing is coerced *)
Definition plain_sigs (name : list Z) : option signature :=
  match defined name with Some k => Some (mk_sig (map (fun t => (t, false)) (c_params k)) (c_result k)) | None => None end.
Lemma plain_sigs_ok : sigs_ok plain_sigs.
Proof.
  intros name k H. exists (mk_sig (map (fun t => (t, false)) (c_params k)) (c_result k)). split; [unfold plain_sigs; rewrite H; reflexivity|].
  assert (P : forall l, Forall2 passes l (map (fun t => (t, false)) l)) by (induction l; cbn; constructor; [left; reflexivity|assumption]).
  split; [reflexivity|]. cbn [s_params]. destruct k; try apply P. eexists. split; [reflexivity|]. apply P.
Qed.
(** signatures as clang makes them on x86-64 for the parameters: two floats in a double, sixteen doubles in memory *)
Definition coerced (t : ty) : ty * bool :=
  if ty_eqb t (Vec 2 Float) then (Sca Double, false) else if ty_eqb t (Vec 16 Double) then (Sca Pointer, true) else (t, false).
Definition coerced_sigs (name : list Z) : option signature :=
  match defined name with Some k => Some (mk_sig (map coerced (c_params k)) (c_result k)) | None => None end.
Lemma coerced_sigs_ok : sigs_ok coerced_sigs.
Proof.
  intros name k H. exists (mk_sig (map coerced (c_params k)) (c_result k)). split; [unfold coerced_sigs; rewrite H; reflexivity|].
  assert (P : forall l, Forall2 passes l (map coerced l)).
  { induction l as [|t l IH]; cbn [map]; constructor; [|exact IH]. unfold coerced, passes. destruct (ty_eqb t (Vec 2 Float)) eqn:E1; [|destruct (ty_eqb t (Vec 16 Double))].
    - apply ty_eqb_eq in E1. subst. right. left. reflexivity.
    - right. right. split; reflexivity.
    - left. reflexivity. }
  split; [reflexivity|]. cbn [s_params]. destruct k; try apply P. eexists. split; [reflexivity|]. apply P.
Qed.

(** * The IEEE backend *)
(** interflop_ieee.c L282-400 as a backend; the state is the counters and the rest of the machine *)
Definition count {M} (on : bool) (o : iop) (w : counters * M) : counters * M :=
  (snd (fold_left (fun r a => do_action a (fst r) (snd r)) (ieee_actions on o) (0, fst w)), snd w).
Definition iop_of (o : wop) : iop := match o with WAdd => OpAdd | WSub => OpSub | WMul => OpMul | WDiv => OpDiv end.
Definition ieee_backend {M} (n : arith) (on : bool) : backend (counters * M) :=
  mk_backend
    (fun p o => Some (fun a b _ w => (Some (ieee_result n (wfmt p) (iop_of o) a b 0), count on (iop_of o) w)))
    (fun p => Some (fun pr a b _ w => (Some (if ieee_cmp (wfmt p) pr a b then 1 else 0), w)))
    (fun p => Some (fun a b c _ w => (Some (ieee_result n (wfmt p) OpFma a b c), count on OpFma w)))
    (Some (fun a _ w => (Some (ieee_result n binary64 OpCast a 0 0), w))).

(** an example block: %2 = fadd <2 x float> %0, %1; %5 = fmul double %3, %4; %6 = fneg (kept); %7 = fcmp olt double %5, %4 *)
Definition f32_1 : Z := 0x3F800000. Definition f32_2 : Z := 0x40000000. Definition f32_3 : Z := 0x40400000.
Definition f64_1_5 : Z := 0x3FF8000000000000. Definition f64_2 : Z := 0x4000000000000000. Definition f64_3 : Z := 0x4008000000000000.
Definition block : list instr :=
  [mk_instr 2 FAdd (Vec 2 Float) [(Vec 2 Float, Reg 0); (Vec 2 Float, Reg 1)];
   mk_instr 5 FMul (Sca Double) [(Sca Double, Reg 3); (Sca Double, Const [f64_2])];
   mk_instr 6 (OtherOp 12) (Sca Double) [(Sca Double, Reg 5)];
   mk_instr 7 (FCmp FCMP_OLT) (Sca (Int 1)) [(Sca Double, Const [f64_2]); (Sca Double, Reg 5)]].
Definition env0 : env := fun r => match r with O => Some [f32_1; f32_2] | 1%nat => Some [f32_2; f32_1] | 3%nat => Some [f64_1_5] | _ => None end.
Definition all_flags : flags := mk_flags true true true.
Definition fneg : instr -> list (list Z) -> counters * unit -> outcome (list Z * (counters * unit)) :=
  fun i vs w => match i_op i, vs with OtherOp 12, [[x]] => Ok ([Z.lxor x (2 ^ 63)], w) | _, _ => UB end.
Definition observe (r : outcome (env * (counters * unit))) : outcome (list (option (list Z)) * list Z) :=
  let* '(e, (cs, _)) := r in Ok (map e [2; 5; 6; 7]%nat, map cs [CAdd; CMul]).
Example C67_nonvacuous :
  worklist all_flags block [3; 0; 1]%nat /\ Forall well_typed block /\
  exists steps, run_on_block coerced_sigs all_flags [3; 0; 1]%nat block = Ok steps /\
  observe (run_block [ieee_backend soft true] fneg env0 steps (counters0, tt)) =
    Ok ([Some [f32_3; f32_3]; Some [f64_3]; Some [Z.lxor f64_3 (2 ^ 63)]; Some [1]], [2; 1]).
Proof.
  split; [|split].
  - apply (worklist_perm _ _ (positions all_flags block)); [apply positions_ok|]. vm_compute. apply (Permutation_middle [0; 1]%nat [] 3%nat).
  - repeat constructor; unfold well_typed; cbn [i_op i_args i_ty map fst block].
    + exists (Vec 2 Float). repeat split.
    + exists (Sca Double). repeat split.
    + exists (Sca Double). repeat split.
  - eexists. split; [vm_compute; reflexivity|]. vm_compute. reflexivity.
Qed.

(** The signature clang gives to _2xfloatadd on x86-64 is double(double, double): the result must be bit cast, and the pass then
    forgets it (dyn_cast<CallInst> of a bit cast): the wrapper is called, the backend counts the operation, but the program
    uses the result of the original instruction. Here a backend that always answers 0 does not change 1+2. *)
Definition x86_sigs (name : list Z) : option signature :=
  match defined name with Some k => Some (mk_sig (map coerced (c_params k)) (fst (coerced (c_result k)))) | None => None end.
Definition zero_backend : backend Z :=
  mk_backend (fun _ _ => Some (fun _ _ _ w => (Some 0, w + 1))) (fun _ => Some (fun _ _ _ _ w => (Some 0, w))) (fun _ => None) None.
Definition native_add : instr -> list (list Z) -> Z -> outcome (list Z * Z) :=
  fun i vs w => match i_op i, vs with FAdd, [[a1; a2]; [b1; b2]] => Ok ([fadd binary32 a1 b1; fadd binary32 a2 b2], w) | _, _ => UB end.
Definition add2 : instr := mk_instr 2 FAdd (Vec 2 Float) [(Vec 2 Float, Reg 0); (Vec 2 Float, Reg 1)].
Theorem C67_two_floats_refuted :
  exists steps, run_on_block x86_sigs (mk_flags false false false) [0%nat] [add2] = Ok steps /\
  (let* '(e, w) := run_block [zero_backend] native_add env0 steps 0 in Ok (e 2%nat, w)) = Ok (Some [f32_3; f32_3], 2) /\
  has_role (mk_flags false false false) add2 (Some (RArith PFloat WAdd)) /\
  (let* '(e, w) := run_reference [zero_backend] native_add env0 [(add2, Some (RArith PFloat WAdd))] 0 in Ok (e 2%nat, w)) = Ok (Some [0; 0], 2).
Proof.
  eexists. split; [vm_compute; reflexivity|]. split; [vm_compute; reflexivity|]. split; [|vm_compute; reflexivity].
  cbn [has_role]. eapply (plays_arith _ _ PFloat WAdd (Vec 2 Float)); [reflexivity|reflexivity|]. exists (Some 2%nat). split; [right; left; reflexivity|reflexivity].
Qed.
Print Assumptions C67_two_floats_refuted.
(** with --inst-fcmp a comparison of two vectors of two floats makes the pass itself undefined (integer cast of a double) *)
Definition cmp2 : instr := mk_instr 2 (FCmp FCMP_OLT) (Vec 2 (Int 1)) [(Vec 2 Float, Reg 0); (Vec 2 Float, Reg 1)].
Definition x86_sigs_cmp (name : list Z) : option signature :=
  match defined name with
  | Some (KCmp PFloat (Some 2%nat)) => Some (mk_sig [(Sca (Int 32), false); (Sca Double, false); (Sca Double, false)] (Sca Double))
  | _ => x86_sigs name
  end.
Theorem C67_two_floats_comparison_refuted : well_typed cmp2 /\ run_on_block x86_sigs_cmp all_flags [0%nat] [cmp2] = UB.
Proof. split; [exists (Vec 2 Float); repeat split|vm_compute; reflexivity]. Qed.
Print Assumptions C67_two_floats_comparison_refuted.

(** * C68: with the IEEE backend an instrumented block computes what it computed before *)
Fixpoint zip_with (f : Z -> Z -> Z) (a b : list Z) : list Z :=
  match a, b with x :: a', y :: b' => f x y :: zip_with f a' b' | _, _ => [] end.
Definition machine_op (n : arith) (f : fmt) (o : wop) : Z -> Z -> Z :=
  match o with WAdd => n_add n f | WSub => n_sub n f | WMul => n_mul n f | WDiv => n_div n f end.
(** what the processor computes: n for arithmetic (fused for both fma intrinsics), [cmp] for comparisons *)
Definition machine_result (n : arith) (cmp : fmt -> fcmp -> Z -> Z -> bool) (r : role) (vs : list (list Z)) : option (list Z) :=
  match r, vs with
  | RArith p o, [a; b] => Some (zip_with (machine_op n (wfmt p) o) a b)
  | RCmp p pr, [a; b] => Some (zip_with (fun x y => if cmp (wfmt p) pr x y then 1 else 0) a b)
  | RFma p, [[a]; [b]; [c]] => Some [n_fma n (wfmt p) a b c]
  | RCast, [[a]] => Some [fconv binary64 binary32 a]
  | _, _ => None
  end.
Definition machine {M} (n : arith) cmp (native : instr -> list (list Z) -> M -> outcome (list Z * M)) : Prop :=
  forall i r vs m, plays all_flags i r -> native i vs m = match machine_result n cmp r vs with Some v => Ok (v, m) | None => UB end.
Definition llvm_cmp (cmp : fmt -> fcmp -> Z -> Z -> bool) : Prop :=
  forall f p a b, f = binary32 \/ f = binary64 -> is_bits f a -> is_bits f b -> (cmp f p a b = true <-> llvm_fcmp p (dec f a) (dec f b)).
(** the other instructions do not see the counters of the backend *)
Definition beside {M} (native : instr -> list (list Z) -> M -> outcome (list Z * M)) (i : instr) (vs : list (list Z)) (w : counters * M) : outcome (list Z * (counters * M)) :=
  let* '(v, m) := native i vs (snd w) in Ok (v, (fst w, m)).
Definition forget {M} (r : outcome (env * (counters * M))) : outcome (env * M) := let* '(e, w) := r in Ok (e, snd w).

Lemma plays_all fl i r : plays fl i r -> plays all_flags i r.
Proof. intros [p o t A1 A2 A3|p pr t A0 A1 A2 A3|p f t A0 A1 A4 A2 A3|A0 A1 A2 A3]; [eapply plays_arith|eapply plays_cmp|eapply plays_fma|eapply plays_cast]; eauto; reflexivity. Qed.
Lemma in_lane_bits p x : in_lane (prec_ty p) x = true -> is_bits (wfmt p) x.
Proof. unfold in_lane. rewrite andb_true_iff. intros [H1 H2]. apply Z.leb_le in H1. apply Z.ltb_lt in H2. destruct p; split; assumption. Qed.
Lemma typed_bits n p v : typed (shape n (prec_ty p)) v = true -> Forall (is_bits (wfmt p)) v.
Proof.
  intros H. assert (G : forall l, forallb (in_lane (prec_ty p)) l = true -> Forall (is_bits (wfmt p)) l).
  { intros l Hl. rewrite forallb_forall in Hl. rewrite Forall_forall. intros x Hx. apply in_lane_bits. auto. }
  destruct n as [n|]; cbn [shape typed] in H.
  - apply andb_true_iff in H. apply G. tauto.
  - destruct v as [|x [|]]; try discriminate. apply G. cbn. rewrite H. reflexivity.
Qed.
Lemma lanewise_arith {M} n on p o a b (cs : counters) (m : M) :
  exists cs', lanewise (arith_wrapper [ieee_backend n on] p o) a b (cs, m) = Ok (zip_with (machine_op n (wfmt p) o) a b, (cs', m)).
Proof.
  revert b cs. induction a as [|x a IH]; intros b cs; [exists cs; reflexivity|]. destruct b as [|y b]; [exists cs; reflexivity|].
  cbn [lanewise zip_with]. unfold arith_wrapper at 1. cbn [call_all ieee_backend b_arith].
  unfold returned. cbn [fst snd bind]. destruct (IH b (fst (count on (iop_of o) (cs, m)))) as [cs' E]. unfold count in *. cbn [fst snd] in *. rewrite E. cbn [bind].
  exists cs'. destruct o; reflexivity.
Qed.
Lemma lanewise_cmp {M} n on cmp p pr a b (cs : counters) (m : M) : llvm_cmp cmp -> ~ or_predicate pr ->
  Forall (is_bits (wfmt p)) a -> Forall (is_bits (wfmt p)) b ->
  lanewise (cmp_wrapper [ieee_backend n on] p pr) a b (cs, m) = Ok (zip_with (fun x y => if cmp (wfmt p) pr x y then 1 else 0) a b, (cs, m)).
Proof.
  intros Hc Hp Ha. revert b. induction Ha as [|x a Hx Ha IH]; intros b Hb; [reflexivity|]. inversion Hb as [|y b' Hy Hb']; subst; [reflexivity|].
  cbn [lanewise zip_with]. unfold cmp_wrapper at 1. cbn [call_all ieee_backend b_cmp]. unfold returned. cbn [fst snd bind].
  rewrite (IH b' Hb'). cbn [bind].
  assert (Hf : wfmt p = binary32 \/ wfmt p = binary64) by (destruct p; auto).
  assert (E : ieee_cmp (wfmt p) pr x y = cmp (wfmt p) pr x y).
  { apply eq_true_iff_eq. rewrite (C26_predicates_partial (wfmt p) pr x y Hf Hx Hy Hp), (Hc (wfmt p) pr x y Hf Hx Hy). reflexivity. }
  rewrite E. reflexivity.
Qed.
Lemma read_all_typed e l vs : read_all e l = Ok vs -> Forall2 (fun t v => typed t v = true) (map fst l) vs.
Proof.
  revert vs. induction l as [|a l IH]; intros vs H; cbn [read_all map] in *.
  - injection H as <-. constructor.
  - destruct (read e a) as [v| | |] eqn:E; try discriminate. cbn [bind] in H. destruct (read_all e l) as [vs'| | |]; try discriminate. cbn [bind] in H.
    injection H as <-. constructor; [apply (read_typed e); exact E|apply IH; reflexivity].
Qed.

(** [native'] does what [native] does, whatever it does with the counters *)
Definition follows {M} (native' : instr -> list (list Z) -> counters * M -> outcome (list Z * (counters * M))) (native : instr -> list (list Z) -> M -> outcome (list Z * M)) : Prop :=
  forall i vs cs m, (let* '(v, w) := native' i vs (cs, m) in Ok (v, snd w)) = native i vs m.
Lemma beside_follows {M} (native : instr -> list (list Z) -> M -> outcome (list Z * M)) : follows (beside native) native.
Proof. intros i vs cs m. unfold beside. cbn [fst snd]. destruct (native i vs m) as [[v m']| | |]; reflexivity. Qed.
Lemma reference_transparent M n cmp native' (native : instr -> list (list Z) -> M -> outcome (list Z * M)) fl b roles on :
  Forall well_typed b -> llvm_cmp cmp -> (forall i r vs m, In i b -> plays fl i r -> native i vs m = match machine_result n cmp r vs with Some v => Ok (v, m) | None => UB end) ->
  (forall i p pr, In i b -> plays fl i (RCmp p pr) -> ~ or_predicate pr) -> Forall2 (has_role fl) b roles -> follows native' native ->
  forall e cs m, forget (run_reference [ieee_backend n on] native' e (combine b roles) (cs, m)) = run_block [] native e (map Keep b) m.
Proof.
  intros Ht Hc Hm Hp Hr Hfo. induction Hr as [|i r b roles Hir Hr IH]; intros e cs m; [reflexivity|].
  inversion Ht; subst. assert (IH' := IH H2 (fun j r' vs m' Hj => Hm j r' vs m' (or_intror Hj)) (fun j p pr Hj => Hp j p pr (or_intror Hj))). clear IH.
  cbn [combine run_reference map run_block].
  assert (E : forget (run_reference_step [ieee_backend n on] native' e i r (cs, m)) = run_step [] native e (Keep i) m).
  { cbn [run_step]. unfold run_native.
    destruct r as [r|]; cbn [run_reference_step has_role] in *.
    - destruct (read_all e (i_args i)) as [vs| | |] eqn:Er; cbn [bind]; try reflexivity.
      apply read_all_typed in Er. rewrite (Hm i r vs m (or_introl eq_refl) Hir).
      assert (G : (exists v cs', run_role [ieee_backend n on] r vs (cs, m) = Ok (v, (cs', m)) /\ machine_result n cmp r vs = Some v) ).
      { assert (Hp' := Hp i). destruct Hir as [p o t A1 A2 A3|p pr t A0 A1 A2 A3|p f t A0 A1 A4 A2 A3|A0 A1 A2 A3].
        - rewrite A2 in Er. inversion Er as [|? va ? ? Ta Er' Q1 Q2]; subst. inversion Er' as [|? vb ? ? Tb Er'' Q3 Q4]; subst. inversion Er''; subst.
          cbn [run_role machine_result]. destruct (lanewise_arith n on p o va vb cs m) as [cs' E]. rewrite E. eexists _, cs'. split; reflexivity.
        - rewrite A2 in Er. inversion Er as [|? va ? ? Ta Er' Q1 Q2]; subst. inversion Er' as [|? vb ? ? Tb Er'' Q3 Q4]; subst. inversion Er''; subst.
          assert (Hpl := plays_cmp fl i p pr t A0 A1 A2 A3). destruct A3 as (k & _ & Et). rewrite Et in Ta, Tb.
          cbn [run_role machine_result]. rewrite (lanewise_cmp n on cmp p pr va vb cs m Hc).
          + cbn [bind]. eexists _, cs. split; [|reflexivity]. do 2 f_equal. clear. revert vb. induction va as [|x va IH]; intros [|y vb]; try reflexivity.
            cbn [zip_with map]. rewrite IH. destruct (cmp (wfmt p) pr x y); reflexivity.
          + apply (Hp' p pr); [left; reflexivity|exact Hpl].
          + eapply typed_bits. exact Ta.
          + eapply typed_bits. exact Tb.
        - assert (Hwt := H1). unfold well_typed in Hwt. rewrite A1 in Hwt. destruct (Hwt p A4) as [A2' _]. rewrite A2' in Er.
          inversion Er as [|? va ? ? Ta Er' Q1 Q2]; subst. inversion Er' as [|? vb ? ? Tb Er'' Q3 Q4]; subst. inversion Er'' as [|? vc ? ? Tc Er3 Q5 Q6]; subst. inversion Er3; subst.
          apply (typed_shape None) in Ta, Tb, Tc. destruct Ta as [x ->], Tb as [y ->], Tc as [z ->].
          cbn [run_role machine_result]. unfold fma_wrapper. cbn [call_all ieee_backend b_fma]. unfold returned. cbn [fst snd bind]. eexists _, _. split; reflexivity.
        - rewrite A2 in Er. inversion Er as [|? va ? ? Ta Er' Q1 Q2]; subst. inversion Er'; subst.
          apply (typed_shape None) in Ta. destruct Ta as [x ->].
          cbn [run_role machine_result]. unfold cast_wrapper. cbn [call_all ieee_backend b_cast]. unfold returned. cbn [fst snd bind]. eexists _, _. split; reflexivity. }
      destruct G as (v & cs' & G1 & G2). rewrite G1, G2. reflexivity.
    - unfold run_native. destruct (read_all e (i_args i)) as [vs| | |]; cbn [bind]; try reflexivity.
      rewrite <- (Hfo i vs cs m). destruct (native' i vs (cs, m)) as [[v [cs' m']]| | |]; reflexivity. }
  rewrite <- E. destruct (run_reference_step [ieee_backend n on] native' e i r (cs, m)) as [[e' [cs' m']]| | |]; cbn [bind forget snd]; try reflexivity.
  apply IH'.
Qed.

(** n is the arithmetic of the machine, cmp its comparisons; no comparison with a predicate "unordered or ..." is instrumented
    (C26: they are wrong in the IEEE backend; see below). The results, the memory and everything else are the same; only the
    counters of the backend differ. *)
Theorem C68_ieee_transparent_partial :
  forall M n cmp (native : instr -> list (list Z) -> M -> outcome (list Z * M)) sigs fl order b on,
  sigs_ok sigs -> worklist fl b order -> Forall well_typed b -> llvm_cmp cmp -> machine n cmp native ->
  (forall i p pr, In i b -> plays fl i (RCmp p pr) -> ~ or_predicate pr) ->
  exists steps, run_on_block sigs fl order b = Ok steps /\
  forall e cs m, forget (run_block [ieee_backend n on] (beside native) e steps (cs, m)) = run_block [] native e (map Keep b) m.
Proof.
  intros M n cmp native sigs fl order b on Hs Hw Ht Hc Hm Hp.
  destruct (C67_block_partial sigs fl order b Hs Hw Ht) as (roles & steps & Hr & Hst & Hrun). exists steps. split; [exact Hst|].
  intros e cs m. rewrite Hrun. apply (reference_transparent M n cmp (beside native) native fl b roles on); auto using beside_follows.
  intros i r vs m' _ H. apply Hm. eapply plays_all. exact H.
Qed.
Print Assumptions C68_ieee_transparent_partial.

(** such a machine exists *)
Definition machine_cmp (f : fmt) (p : fcmp) (a b : Z) : bool :=
  ieee_cmp f p a b ||
  match p with
  | FCMP_UEQ => ieee_cmp f FCMP_OEQ a b | FCMP_UGT => ieee_cmp f FCMP_OGT a b | FCMP_UGE => ieee_cmp f FCMP_OGE a b
  | FCMP_ULT => ieee_cmp f FCMP_OLT a b | FCMP_ULE => ieee_cmp f FCMP_OLE a b | FCMP_UNE => ieee_cmp f FCMP_ONE a b
  | _ => false
  end.
Lemma machine_cmp_ok : llvm_cmp machine_cmp.
Proof.
  intros f p a b Hf Ha Hb. unfold machine_cmp. rewrite orb_true_iff.
  destruct p; try (rewrite (C26_predicates_partial f _ a b Hf Ha Hb) by (cbn; tauto); cbn [llvm_fcmp]; split; [intros [H|H]; [exact H|discriminate]|tauto]).
  all: match goal with |- ieee_cmp ?f ?u ?a ?b = true \/ ieee_cmp _ ?o _ _ = true <-> _ =>
    rewrite (proj1 (C26_unordered_predicates f u a b ltac:(assumption) ltac:(assumption) ltac:(assumption) I)), (C26_predicates_partial f o a b ltac:(assumption) ltac:(assumption) ltac:(assumption)) by (cbn; tauto) end; cbn [llvm_fcmp]; tauto.
Qed.
Definition prec_of (t : ty) : option wprec :=
  match t with Sca Float | Vec _ Float => Some PFloat | Sca Double | Vec _ Double => Some PDouble | _ => None end.
Definition role_of (i : instr) : option role :=
  match map fst (i_args i) with
  | t :: _ => option_map (fun p => match i_op i with
      | FAdd => RArith p WAdd | FSub => RArith p WSub | FMul => RArith p WMul | FDiv => RArith p WDiv | FCmp pr => RCmp p pr | Call _ => RFma p | _ => RCast end) (prec_of t)
  | [] => None
  end.
Definition machine_native {M} (i : instr) (vs : list (list Z)) (m : M) : outcome (list Z * M) :=
  match i_op i, vs with
  | OtherOp _, [[x]] => Ok ([Z.lxor x (2 ^ 63)], m)
  | _, _ => match role_of i with Some r => match machine_result soft machine_cmp r vs with Some v => Ok (v, m) | None => UB end | None => UB end
  end.
Lemma machine_native_ok {M} : machine soft machine_cmp (@machine_native M).
Proof.
  intros i r vs m H. assert (P : forall t p, fp_type t p -> prec_of t = Some p) by (intros t p (k & _ & ->); destruct k, p; reflexivity).
  assert (R : role_of i = Some r).
  { unfold role_of. destruct H as [p o t A1 A2 A3|p pr t A0 A1 A2 A3|p f t A0 A1 A4 A2 A3|A0 A1 A2 A3]; rewrite A1, A2; try rewrite (P t p A3); try destruct o; reflexivity. }
  unfold machine_native. rewrite R.
  assert (Q : forall k, i_op i <> OtherOp k) by (intros k E; destruct H as [p o t A1 A2 A3|p pr t A0 A1 A2 A3|p f t A0 A1 A4 A2 A3|A0 A1 A2 A3]; rewrite A1 in E; try destruct o; discriminate).
  destruct (i_op i); try reflexivity. destruct (Q k eq_refl).
Qed.
Example C68_nonvacuous :
  (forall i p pr, In i block -> plays all_flags i (RCmp p pr) -> ~ or_predicate pr) /\
  (let* '(e, m) := run_block [] machine_native env0 (map Keep block) tt in Ok (map e [2; 5; 6; 7]%nat)) =
    Ok [Some [f32_3; f32_3]; Some [f64_3]; Some [Z.lxor f64_3 (2 ^ 63)]; Some [1]].
Proof.
  split; [|vm_compute; reflexivity].
  intros i p pr H Hp. assert (E : i_op i = FCmp pr) by (inversion Hp; assumption).
  repeat (destruct H as [<- | H]; [cbn [i_op] in E; try discriminate; injection E as <-; intros []|]). destruct H.
Qed.

(** with --inst-fcmp and "unordered or equal" the instrumented program says that 2 and 2 are different *)
Definition ueq : instr := mk_instr 7 (FCmp FCMP_UEQ) (Sca (Int 1)) [(Sca Double, Const [f64_2]); (Sca Double, Const [f64_2])].
Theorem C68_unordered_or_equal_refuted :
  well_typed ueq /\ exists steps, run_on_block plain_sigs all_flags [0%nat] [ueq] = Ok steps /\
  (let* '(e, w) := run_block [ieee_backend soft true] (beside machine_native) env0 steps (counters0, tt) in Ok (e 7%nat)) = Ok (Some [0]) /\
  (let* '(e, w) := run_block [] machine_native env0 [Keep ueq] tt in Ok (e 7%nat)) = Ok (Some [1]).
Proof.
  split; [exists (Sca Double); repeat split|]. eexists. split; [vm_compute; reflexivity|]. split; vm_compute; reflexivity.
Qed.
Print Assumptions C68_unordered_or_equal_refuted.
