(** Proofs about the instrumentation of a block: an instrumented block computes what the original block computes when each
    instrumented scalar operation is done by the backends. *)
From Coq Require Import String ZArith List Bool Lia Permutation.
From Verif Require Import Common Text Bits FloatOps IeeeModel WrapModel VfiModel InstrModel.
Import ListNotations.
Open Scope Z_scope.
Open Scope outcome_scope.

(** * The reference *)
(** types whose operations are covered *)
Definition lanes_ok (n : option nat) : Prop := n = None \/ n = Some 2%nat \/ n = Some 4%nat \/ n = Some 8%nat \/ n = Some 16%nat.
Definition fp_type (t : ty) (p : wprec) : Prop := exists n, lanes_ok n /\ t = shape n (match p with PFloat => Float | PDouble => Double end).
(** what an instruction becomes *)
Inductive role := RArith (p : wprec) (o : wop) | RCmp (p : wprec) (pr : fcmp) | RFma (p : wprec) | RCast.
Definition arith_opcode (o : wop) : opcode := match o with WAdd => FAdd | WSub => FSub | WMul => FMul | WDiv => FDiv end.
Definition fma_intrinsic (p : wprec) (f : list Z) : Prop :=
  match p with
  | PFloat => f = bytes "llvm.fma.f32" \/ f = bytes "llvm.fmuladd.f32"
  | PDouble => f = bytes "llvm.fma.f64" \/ f = bytes "llvm.fmuladd.f64"
  end.
Inductive plays (fl : flags) (i : instr) : role -> Prop :=
| plays_arith p o t : i_op i = arith_opcode o -> map fst (i_args i) = [t; t] -> fp_type t p -> plays fl i (RArith p o)
| plays_cmp p pr t : inst_fcmp fl = true -> i_op i = FCmp pr -> map fst (i_args i) = [t; t] -> fp_type t p -> plays fl i (RCmp p pr)
| plays_fma p f t : inst_fma fl = true -> i_op i = Call (Some f) -> fma_intrinsic p f -> map fst (i_args i) = [t; t; t] -> fp_type t p -> plays fl i (RFma p)
| plays_cast : inst_cast fl = true -> i_op i = FPTrunc -> map fst (i_args i) = [Sca Double] -> i_ty i = Sca Float -> plays fl i RCast.

(** the typing rules of LLVM IR for these instructions; scalable vectors excluded *)
Definition floating (t : ty) : Prop :=
  match t with
  | Sca s | Vec _ s => match s with Float | Double | OtherFP _ => True | _ => False end
  | Scalable _ _ => False
  end.
Definition same_shape (t : ty) (s : scalar_ty) : ty := match t with Sca _ => Sca s | Vec n _ => Vec n s | Scalable n _ => Scalable n s end.
Definition well_typed (i : instr) : Prop :=
  match i_op i with
  | FAdd | FSub | FMul | FDiv => exists t, floating t /\ map fst (i_args i) = [t; t] /\ i_ty i = t
  | FCmp _ => exists t, floating t /\ map fst (i_args i) = [t; t] /\ i_ty i = same_shape t (Int 1)
  | FPTrunc => exists t, floating t /\ map fst (i_args i) = [t] /\ floating (i_ty i)
  | Call (Some f) => forall p, fma_intrinsic p f -> map fst (i_args i) = [Sca (prec_ty p); Sca (prec_ty p); Sca (prec_ty p)] /\ i_ty i = Sca (prec_ty p)
  | _ => True
  end.

(** one scalar operation after the other *)
Fixpoint lanewise {W} (f : Z -> Z -> W -> outcome (Z * W)) (a b : list Z) (w : W) : outcome (list Z * W) :=
  match a, b with
  | x :: a', y :: b' =>
      let* '(z, w) := f x y w in
      let* '(l, w) := lanewise f a' b' w in
      Ok (z :: l, w)
  | _, _ => Ok ([], w)
  end.
Definition run_role {W} (bs : list (backend W)) (r : role) (vs : list (list Z)) (w : W) : outcome (list Z * W) :=
  match r, vs with
  | RArith p o, [a; b] => lanewise (arith_wrapper bs p o) a b w
  | RCmp p pr, [a; b] => let* '(v, w) := lanewise (cmp_wrapper bs p pr) a b w in Ok (map (fun x => x mod 2) v, w)
  | RFma p, [[a]; [b]; [c]] => let* '(d, w) := fma_wrapper bs p a b c w in Ok ([d], w)
  | RCast, [[a]] => let* '(d, w) := cast_wrapper bs a w in Ok ([d], w)
  | _, _ => UB
  end.
Definition run_reference_step {W} (bs : list (backend W)) native (e : env) (i : instr) (r : option role) (w : W) : outcome (env * W) :=
  match r with
  | None => run_native native e i w
  | Some r =>
      let* vs := read_all e (i_args i) in
      let* '(v, w) := run_role bs r vs w in
      Ok (set_env e (i_dst i) v, w)
  end.
Fixpoint run_reference {W} (bs : list (backend W)) native (e : env) (b : list (instr * option role)) (w : W) : outcome (env * W) :=
  match b with
  | [] => Ok (e, w)
  | (i, r) :: b' => let* '(e, w) := run_reference_step bs native e i r w in run_reference bs native e b' w
  end.
Definition has_role (fl : flags) (i : instr) (r : option role) : Prop :=
  match r with Some r => plays fl i r | None => forall r, ~ plays fl i r end.

(** signatures: every parameter is passed in its own type, in a type of the same size, or by a byval pointer; the result has
    its own type *)
Definition passes (c : ty) (s : ty * bool) : Prop :=
  fst s = c \/ bitcastable c (fst s) = true \/ snd s = true /\ fst s = Sca Pointer.
Definition sig_ok (k : wrapper) (sg : signature) : Prop :=
  s_ret sg = c_result k /\
  match k with
  | KCmp _ _ => exists rest, s_params sg = (Sca (Int 32), false) :: rest /\ Forall2 passes (tl (c_params k)) rest
  | _ => Forall2 passes (c_params k) (s_params sg)
  end.
Definition sigs_ok (sigs : list Z -> option signature) : Prop :=
  forall name k, defined name = Some k -> exists sg, sigs name = Some sg /\ sig_ok k sg.
(** the instructions considered by the pass, in the order of their addresses *)
Definition worklist (fl : flags) (b : list instr) (order : list nat) : Prop :=
  forall k, In k order <-> exists i, nth_error b k = Some i /\ must_replace fl i <> None.

(** * Bit casts *)
Lemma pack_bound w v : 0 <= w -> Forall (fun x => 0 <= x < 2 ^ w) v -> 0 <= pack w v < 2 ^ (w * Z.of_nat (length v)).
Proof.
  intros Hw. induction 1 as [|x v Hx Hv IH]; [cbn [pack length]; rewrite Z.mul_0_r; lia|].
  cbn [pack length]. rewrite Nat2Z.inj_succ, Z.mul_succ_r, Z.add_comm, Z.pow_add_r by lia.
  assert (0 < 2 ^ w) by (apply Z.pow_pos_nonneg; lia). assert (0 < 2 ^ (w * Z.of_nat (length v))) by (apply Z.pow_pos_nonneg; lia). nia.
Qed.
Lemma unpack_pack w v : 0 <= w -> Forall (fun x => 0 <= x < 2 ^ w) v -> unpack w (length v) (pack w v) = v.
Proof.
  intros Hw. induction 1 as [|x v Hx Hv IH]; [reflexivity|]. cbn [pack length unpack].
  assert (0 < 2 ^ w) by (apply Z.pow_pos_nonneg; lia).
  rewrite (Z.mul_comm (2 ^ w)), Z.mod_add, Z.div_add by lia. rewrite Z.mod_small, Z.div_small by lia. rewrite Z.add_0_l, IH. reflexivity.
Qed.
Lemma pack_unpack w n : 0 <= w -> forall x, 0 <= x < 2 ^ (w * Z.of_nat n) -> pack w (unpack w n x) = x.
Proof.
  intros Hw. assert (0 < 2 ^ w) by (apply Z.pow_pos_nonneg; lia).
  induction n as [|n IH]; intros x Hx; [cbn [unpack pack]; rewrite Z.mul_0_r in Hx; change (2 ^ 0) with 1 in Hx; lia|].
  cbn [unpack pack]. rewrite IH.
  - rewrite Z.add_comm, <- Z.div_mod by lia. reflexivity.
  - rewrite Nat2Z.inj_succ, Z.mul_succ_r, Z.pow_add_r in Hx by lia. split; [apply Z.div_pos; lia|]. apply Z.div_lt_upper_bound; [lia|]. nia.
Qed.
Lemma typed_lanes t v : (forall n s, t <> Scalable n s) -> typed t v = true ->
  length v = lane_count t /\ Forall (fun x => 0 <= x < 2 ^ lane_bits (scalar_of t)) v.
Proof.
  intros Hn H. assert (G : forall s l, forallb (in_lane s) l = true -> Forall (fun x => 0 <= x < 2 ^ lane_bits s) l).
  { intros s l Hl. rewrite Forall_forall. rewrite forallb_forall in Hl. intros x Hx. apply Hl in Hx. unfold in_lane in Hx.
    apply andb_true_iff in Hx. destruct Hx. lia. }
  destruct t as [s|n s|n s]; cbn [typed lane_count scalar_of] in *.
  - destruct v as [|x [|y v]]; try discriminate. split; [reflexivity|]. apply G. cbn. rewrite H. reflexivity.
  - apply andb_true_iff in H. destruct H as [H1 H2]. apply Nat.eqb_eq in H1. auto.
  - elim (Hn n s). reflexivity.
Qed.
Lemma ty_bits_lanes t : (forall n s, t <> Scalable n s) -> ty_bits t = lane_bits (scalar_of t) * Z.of_nat (lane_count t).
Proof. intros H. destruct t as [s|n s|n s]; cbn [ty_bits scalar_of lane_count]; [lia|lia|]. elim (H n s). reflexivity. Qed.
Lemma bitcast_back a b v : bitcastable a b = true -> typed a v = true -> bitcast b a (bitcast a b v) = v.
Proof.
  unfold bitcastable. rewrite !andb_true_iff. intros [[[H1 H2] _] _] Hv. apply Z.eqb_eq in H1. apply Z.ltb_lt in H2.
  assert (Ha : forall n s, a <> Scalable n s) by (intros n s ->; cbn in H2; lia).
  assert (Hb : forall n s, b <> Scalable n s) by (intros n s ->; rewrite H1 in H2; cbn in H2; lia).
  destruct (typed_lanes a v Ha Hv) as [Hl Hr]. unfold bitcast.
  rewrite (ty_bits_lanes a Ha) in H1, H2. rewrite (ty_bits_lanes b Hb) in H1.
  set (wa := lane_bits (scalar_of a)) in *. set (wb := lane_bits (scalar_of b)) in *.
  assert (0 < wa) by nia. assert (0 < wb) by nia.
  rewrite pack_unpack; [|lia|].
  - rewrite <- Hl. apply unpack_pack; [lia|exact Hr].
  - rewrite <- H1, <- Hl. apply pack_bound; [lia|exact Hr].
Qed.

(** * Types and names *)
Lemma scalar_eqb_refl s : scalar_eqb s s = true. Proof. destruct s; cbn; rewrite ?Z.eqb_refl; reflexivity. Qed.
Lemma ty_eqb_refl t : ty_eqb t t = true. Proof. destruct t; cbn; rewrite ?Nat.eqb_refl, scalar_eqb_refl; reflexivity. Qed.
Lemma scalar_eqb_eq a b : scalar_eqb a b = true -> a = b.
Proof. destruct a, b; cbn; try discriminate; try reflexivity; intros H; apply Z.eqb_eq in H; subst; reflexivity. Qed.
Lemma ty_eqb_eq a b : ty_eqb a b = true -> a = b.
Proof.
  destruct a, b; cbn; try discriminate; rewrite ?andb_true_iff.
  - intros H; apply scalar_eqb_eq in H; subst; reflexivity.
  - intros [H1 H2]. apply Nat.eqb_eq in H1. apply scalar_eqb_eq in H2. subst. reflexivity.
  - intros [H1 H2]. apply Nat.eqb_eq in H1. apply scalar_eqb_eq in H2. subst. reflexivity.
Qed.
Lemma ty_eqb_neq a b : a <> b -> ty_eqb a b = false.
Proof. intros H. destruct (ty_eqb a b) eqn:E; [apply ty_eqb_eq in E; contradiction|reflexivity]. Qed.

Definition fop_of (o : wop) : fop := match o with WAdd => FOP_ADD | WSub => FOP_SUB | WMul => FOP_MUL | WDiv => FOP_DIV end.
Definition named (t rt : ty) (o : fop) : list Z := mca_name (mk_instr 0 (OtherOp 0) rt [(t, Reg 0)]) o.
Lemma mca_name_named i o t a l : i_args i = (t, a) :: l -> mca_name i o = named t (i_ty i) o.
Proof. intros H. unfold named, mca_name, operand0_ty. rewrite H. reflexivity. Qed.
Lemma named_arith n p rt o : lanes_ok n -> defined (named (shape n (prec_ty p)) rt (fop_of o)) = Some (KArith p o n).
Proof. intros [-> | [-> | [-> | [-> | ->]]]]; destruct p, o; vm_compute; reflexivity. Qed.
Lemma named_cmp n p rt : lanes_ok n -> defined (named (shape n (prec_ty p)) rt FOP_CMP) = Some (KCmp p n).
Proof. intros [-> | [-> | [-> | [-> | ->]]]]; destruct p; vm_compute; reflexivity. Qed.
Lemma named_fma p rt : defined (named (Sca (prec_ty p)) rt FOP_FMA) = Some (KFma p).
Proof. destruct p; vm_compute; reflexivity. Qed.
Lemma named_cast : defined (named (Sca Double) (Sca Float) FOP_CAST) = Some KCast.
Proof. vm_compute. reflexivity. Qed.
Lemma fcmp_of_number p : fcmp_of (llvm_number p) = Ok p.
Proof. destruct p; reflexivity. Qed.

(** * Vectors *)
Lemma lanes_lanewise {W} (f : Z -> Z -> W -> outcome (Z * W)) a' : forall b' a b done w, length a' = length b' -> length a = length done -> length b = length done ->
  vector_result (lanes f (length a') (length done) (a ++ a') (b ++ b') (map Some done ++ repeat None (length a')) w) =
  (let* '(l, w) := lanewise f a' b' w in Ok (done ++ l, w)).
Proof.
  induction a' as [|x a' IH]; intros b' a b done w H1 H2 H3.
  - destruct b' as [|y b']; [|discriminate]. cbn [length lanes repeat lanewise bind vector_result]. rewrite app_nil_r.
    assert (E : all_some (map Some done) = Some done) by (clear; induction done as [|x l IH]; [reflexivity|cbn; rewrite IH; reflexivity]).
    rewrite E, app_nil_r. reflexivity.
  - destruct b' as [|y b']; [discriminate|]. cbn [length lanes lanewise repeat].
    rewrite !nth_error_app2, H2, H3, Nat.sub_diag by lia. cbn [nth_error].
    destruct (f x y w) as [[z w1]| | |]; cbn [bind]; try reflexivity.
    assert (Es : set_lane (map Some done ++ None :: repeat None (length a')) (length done) z = map Some (done ++ [z]) ++ repeat None (length a')).
    { rewrite map_app, <- app_assoc. cbn [map app]. clear. induction done as [|x l IH]; [reflexivity|]. cbn. rewrite IH. reflexivity. }
    rewrite Es.
    replace (S (length done)) with (length (done ++ [z])) by (rewrite app_length; cbn; lia).
    change (x :: a') with ([x] ++ a'). change (y :: b') with ([y] ++ b'). rewrite !app_assoc.
    rewrite IH by (rewrite ?app_length; cbn in *; lia).
    destruct (lanewise f a' b' w1) as [[l w2]| | |]; cbn [bind]; try reflexivity. rewrite <- app_assoc. reflexivity.
Qed.
Lemma vector_lanewise {W} (f : Z -> Z -> W -> outcome (Z * W)) n a b w : length a = n -> length b = n ->
  vector_result (vector_wrapper f n a b w) = lanewise f a b w.
Proof.
  intros <- H. unfold vector_wrapper. etransitivity; [apply (lanes_lanewise f a b [] [] [] w); cbn; congruence|].
  destruct (lanewise f a b w) as [[l w']| | |]; reflexivity.
Qed.

(** * Operands *)
Lemma update_passes sg a n c : nth_error (s_params sg) n = Some c -> passes (fst a) c ->
  exists p, update_operand sg a n = Ok (a, p) /\ (forall v, typed (fst a) v = true -> received (fst a) (a, p) v = v).
Proof.
  intros Hn Hp. unfold update_operand. rewrite Hn. destruct c as [st byval]. cbn [fst snd] in *. destruct a as [t o]. cbn [fst] in *.
  destruct (ty_eqb t st) eqn:E1.
  - exists AsIs. split; [reflexivity|]. intros v _. cbn. rewrite ty_eqb_refl. reflexivity.
  - destruct (bitcastable t st) eqn:E2.
    + exists (BitCasted st). split; [reflexivity|]. intros v Hv. cbn. apply bitcast_back; assumption.
    + destruct Hp as [Hp|[Hp|[Hp1 Hp2]]]; cbn [fst snd] in *.
      * subst. rewrite ty_eqb_refl in E1. discriminate.
      * congruence.
      * subst. exists ByVal. split; [reflexivity|]. reflexivity.
Qed.
Lemma read_typed e a v : read e a = Ok v -> typed (fst a) v = true.
Proof.
  unfold read. destruct (match snd a with Reg r => e r | Const v => Some v end) as [x|]; [|discriminate].
  destruct (typed (fst a) x) eqn:E; [|discriminate]. intros H. injection H as <-. exact E.
Qed.

(** * One instruction *)
Lemma typed_shape n s v : typed (shape n s) v = true -> match n with None => exists x, v = [x] | Some n => length v = n end.
Proof.
  destruct n as [n|]; cbn.
  - rewrite andb_true_iff. intros [H _]. apply Nat.eqb_eq. exact H.
  - destruct v as [|x [|y v]]; try discriminate. exists x. reflexivity.
Qed.
Lemma is_valid_shape n p : lanes_ok n -> forall i a l, i_args i = (shape n (prec_ty p), a) :: l -> is_valid i = Ok true.
Proof. intros Hn i a l H. unfold is_valid, operand0_ty. rewrite H. destruct Hn as [-> | [-> | [-> | [-> | ->]]]], p; reflexivity. Qed.
Lemma shape_neq_pointer n p : shape n (prec_ty p) <> Sca Pointer.
Proof. destruct n, p; discriminate. Qed.

Ltac bind_all := match goal with
  | |- context [lanewise ?f ?a ?b ?w] => destruct (lanewise f a b w) as [[? ?]| | |]
  | |- context [arith_wrapper ?bs ?p ?o ?x ?y ?w] => destruct (arith_wrapper bs p o x y w) as [[? ?]| | |]
  | |- context [cmp_wrapper ?bs ?p ?o ?x ?y ?w] => destruct (cmp_wrapper bs p o x y w) as [[? ?]| | |]
  | |- context [fma_wrapper ?bs ?p ?x ?y ?z ?w] => destruct (fma_wrapper bs p x y z w) as [[? ?]| | |]
  | |- context [cast_wrapper ?bs ?x ?w] => destruct (cast_wrapper bs x w) as [[? ?]| | |]
  end; cbn [bind].

Lemma replace_role sigs fl i r : sigs_ok sigs -> well_typed i -> plays fl i r ->
  exists o s, must_replace fl i = Some o /\ replace_instr sigs i o = Ok s /\
  forall W (bs : list (backend W)) native e w, run_step bs native e s w = run_reference_step bs native e i (Some r) w.
Proof.
  intros Hs Ht Hp. destruct Hp as [p o t Ho Ha Ht'|p pr t Hf Ho Ha Ht'|p f t Hf Ho Hi Ha Ht'|Hf Ho Ha Hr].
  - destruct Ht' as (n & Hn & Et).
    assert (E : t = shape n (prec_ty p)) by (rewrite Et; destruct p; reflexivity). clear Et. subst t.
    destruct (i_args i) as [|[t1 a] [|[t2 b] [|]]] eqn:Ea; try discriminate. cbn in Ha. injection Ha as -> ->.
    assert (Ety : i_ty i = shape n (prec_ty p)).
    { unfold well_typed in Ht. rewrite Ho, Ea in Ht. destruct o; cbn in Ht; destruct Ht as (u & _ & Hu & Hv); congruence. }
    destruct (Hs _ _ (named_arith n p (i_ty i) o Hn)) as (sg & Hsg & Hret & Hpar). cbn [c_params c_result] in *.
    inversion Hpar as [|? p1 ? ? Hp1 Hpar' Q1 Q2]; subst. inversion Hpar' as [|? p2 ? ? Hp2 Hpar'' Q3 Q4]; subst. inversion Hpar''; subst. clear Hpar Hpar' Hpar''.
    destruct (update_passes sg (shape n (prec_ty p), a) 0 p1) as (q1 & U1 & V1); [rewrite <- Q2; reflexivity|exact Hp1|].
    destruct (update_passes sg (shape n (prec_ty p), b) 1 p2) as (q2 & U2 & V2); [rewrite <- Q2; reflexivity|exact Hp2|].
    exists (fop_of o). eexists. split; [unfold must_replace; rewrite Ho; destruct o; reflexivity|]. split.
    + unfold replace_instr. rewrite (is_valid_shape n p Hn i a _ Ea). cbn [bind].
      rewrite (mca_name_named i (fop_of o) _ _ _ Ea), Hsg.
      assert (Er : replace_call sg (named (shape n (prec_ty p)) (i_ty i) (fop_of o)) i (fop_of o) =
        Ok (Replace (i_dst i) (i_ty i) (mk_wcall (named (shape n (prec_ty p)) (i_ty i) (fop_of o)) None [((shape n (prec_ty p), a), q1); ((shape n (prec_ty p), b), q2)] (s_ret sg)))).
      { unfold replace_call. rewrite Ea. unfold same_count. rewrite <- Q2.
        destruct o; cbn [fop_of]; rewrite U1, U2; cbn [bind length Nat.eqb]; unfold finish; cbn [w_ret]; rewrite Hret, Ety, ty_eqb_refl; reflexivity. }
      exact Er.
    + intros W bs native e w. cbn [run_step run_reference_step]. unfold run_call. cbn [w_name w_args w_pred w_ret map fst].
      rewrite (named_arith n p (i_ty i) o Hn), Ea. cbn [c_params c_result].
      cbn [read_all]. destruct (read e (shape n (prec_ty p), a)) as [va| | |] eqn:Ra; cbn [bind]; try reflexivity.
      destruct (read e (shape n (prec_ty p), b)) as [vb| | |] eqn:Rb; cbn [bind]; try reflexivity.
      apply read_typed in Ra, Rb. cbn [fst] in Ra, Rb.
      cbn [receive_all]. cbn [fst] in V1, V2. rewrite V1, V2 by assumption.
      unfold returned_as. rewrite Hret, ty_eqb_refl.
      apply typed_shape in Ra, Rb. unfold run_role. destruct n as [n|]; cbn [run_wrapper].
      * rewrite vector_lanewise by assumption. bind_all; reflexivity.
      * destruct Ra as [x ->], Rb as [y ->]. unfold one_lane. cbn [lanewise]. bind_all; reflexivity.
  - destruct Ht' as (n & Hn & Et).
    assert (E : t = shape n (prec_ty p)) by (rewrite Et; destruct p; reflexivity). clear Et. subst t.
    destruct (i_args i) as [|[t1 a] [|[t2 b] [|]]] eqn:Ea; try discriminate. cbn in Ha. injection Ha as -> ->.
    assert (Ety : i_ty i = shape n (Int 1)).
    { unfold well_typed in Ht. rewrite Ho, Ea in Ht. destruct Ht as (u & _ & Hu & ->). cbn in Hu. injection Hu as <-. destruct n; reflexivity. }
    destruct (Hs _ _ (named_cmp n p (i_ty i) Hn)) as (sg & Hsg & Hret & rest & Hpar0 & Hpar). cbn [c_params c_result tl] in *.
    inversion Hpar as [|? p1 ? ? Hp1 Hpar' Q1 Q2]; subst. inversion Hpar' as [|? p2 ? ? Hp2 Hpar'' Q3 Q4]; subst. inversion Hpar''; subst. clear Hpar Hpar' Hpar''.
    destruct (update_passes sg (shape n (prec_ty p), a) 1 p1) as (q1 & U1 & V1); [rewrite Hpar0; reflexivity|exact Hp1|].
    destruct (update_passes sg (shape n (prec_ty p), b) 2 p2) as (q2 & U2 & V2); [rewrite Hpar0; reflexivity|exact Hp2|].
    exists FOP_CMP. eexists. split; [unfold must_replace; rewrite Ho, Hf; reflexivity|]. split.
    + unfold replace_instr. rewrite (is_valid_shape n p Hn i a _ Ea). cbn [bind].
      rewrite (mca_name_named i FOP_CMP _ _ _ Ea), Hsg.
      assert (Er : replace_call sg (named (shape n (prec_ty p)) (i_ty i) FOP_CMP) i FOP_CMP =
        Ok (ReplaceInt (i_dst i) (i_ty i) (mk_wcall (named (shape n (prec_ty p)) (i_ty i) FOP_CMP) (Some (llvm_number pr)) [((shape n (prec_ty p), a), q1); ((shape n (prec_ty p), b), q2)] (s_ret sg)))).
      { unfold replace_call. rewrite Ea. unfold same_count. rewrite U1, U2, Hpar0, Ho, Hret, Ety. cbn [bind length Nat.eqb].
        destruct n; reflexivity. }
      exact Er.
    + intros W bs native e w. cbn [run_step run_reference_step]. unfold run_call. cbn [w_name w_args w_pred w_ret map fst].
      rewrite (named_cmp n p (i_ty i) Hn), Ea. cbn [c_params c_result tl].
      cbn [read_all]. destruct (read e (shape n (prec_ty p), a)) as [va| | |] eqn:Ra; cbn [bind]; try reflexivity.
      destruct (read e (shape n (prec_ty p), b)) as [vb| | |] eqn:Rb; cbn [bind]; try reflexivity.
      apply read_typed in Ra, Rb. cbn [fst] in Ra, Rb.
      cbn [receive_all]. cbn [fst] in V1, V2. rewrite V1, V2 by assumption.
      unfold returned_as. rewrite Hret, ty_eqb_refl. unfold int_cast. rewrite Ety.
      apply typed_shape in Ra, Rb. unfold run_role. destruct n as [n|]; cbn [run_wrapper shape scalar_of lane_bits].
      * rewrite fcmp_of_number. cbn [bind]. rewrite vector_lanewise by assumption. bind_all; reflexivity.
      * destruct Ra as [x ->], Rb as [y ->]. rewrite fcmp_of_number. cbn [bind]. unfold one_lane. cbn [lanewise]. bind_all; reflexivity.
  - assert (Hw := Ht). unfold well_typed in Hw. rewrite Ho in Hw. destruct (Hw p Hi) as [Ha' Ety]. clear Hw Ha Ht' t.
    destruct (i_args i) as [|[t1 a] [|[t2 b] [|[t3 c] [|]]]] eqn:Ea; try discriminate. cbn in Ha'. injection Ha' as -> -> ->.
    destruct (Hs _ _ (named_fma p (i_ty i))) as (sg & Hsg & Hret & Hpar). cbn [c_params c_result] in *.
    inversion Hpar as [|? p1 ? ? Hp1 Hpar' Q1 Q2]; subst. inversion Hpar' as [|? p2 ? ? Hp2 Hpar'' Q3 Q4]; subst. inversion Hpar'' as [|? p3 ? ? Hp3 Hpar3 Q5 Q6]; subst. inversion Hpar3; subst. clear Hpar Hpar' Hpar'' Hpar3.
    destruct (update_passes sg (Sca (prec_ty p), a) 0 p1) as (q1 & U1 & V1); [rewrite <- Q2; reflexivity|exact Hp1|].
    destruct (update_passes sg (Sca (prec_ty p), b) 1 p2) as (q2 & U2 & V2); [rewrite <- Q2; reflexivity|exact Hp2|].
    destruct (update_passes sg (Sca (prec_ty p), c) 2 p3) as (q3 & U3 & V3); [rewrite <- Q2; reflexivity|exact Hp3|].
    exists FOP_FMA. eexists. split.
    { unfold must_replace. rewrite Ho, Hf. cbn [andb]. assert (Hk : is_fma (Some f) = true); [|rewrite Hk; reflexivity].
      unfold fma_intrinsic in Hi. destruct p; destruct Hi as [-> | ->]; vm_compute; reflexivity. }
    split.
    + unfold replace_instr. rewrite (is_valid_shape None p (or_introl eq_refl) i a _ Ea). cbn [bind].
      rewrite (mca_name_named i FOP_FMA _ _ _ Ea), Hsg.
      assert (Er : replace_call sg (named (Sca (prec_ty p)) (i_ty i) FOP_FMA) i FOP_FMA =
        Ok (Replace (i_dst i) (i_ty i) (mk_wcall (named (Sca (prec_ty p)) (i_ty i) FOP_FMA) None [((Sca (prec_ty p), a), q1); ((Sca (prec_ty p), b), q2); ((Sca (prec_ty p), c), q3)] (s_ret sg)))).
      { unfold replace_call. rewrite Ea. unfold same_count. rewrite <- Q2. rewrite U1, U2, U3. cbn [bind length Nat.eqb].
        unfold finish; cbn [w_ret]; rewrite Hret, Ety, ty_eqb_refl; reflexivity. }
      exact Er.
    + intros W bs native e w. cbn [run_step run_reference_step]. unfold run_call. cbn [w_name w_args w_pred w_ret map fst].
      rewrite (named_fma p (i_ty i)), Ea. cbn [c_params c_result].
      cbn [read_all]. destruct (read e (Sca (prec_ty p), a)) as [va| | |] eqn:Ra; cbn [bind]; try reflexivity.
      destruct (read e (Sca (prec_ty p), b)) as [vb| | |] eqn:Rb; cbn [bind]; try reflexivity.
      destruct (read e (Sca (prec_ty p), c)) as [vc| | |] eqn:Rc; cbn [bind]; try reflexivity.
      apply read_typed in Ra, Rb, Rc. cbn [fst] in Ra, Rb, Rc.
      cbn [receive_all]. cbn [fst] in V1, V2, V3. rewrite V1, V2, V3 by assumption.
      unfold returned_as. rewrite Hret, ty_eqb_refl.
      apply (typed_shape None) in Ra, Rb, Rc. destruct Ra as [x ->], Rb as [y ->], Rc as [z ->].
      cbn [run_wrapper run_role]. unfold one_lane. bind_all; reflexivity.
  - destruct (i_args i) as [|[t1 a] [|]] eqn:Ea; try discriminate. cbn in Ha. injection Ha as ->.
    destruct (Hs _ _ named_cast) as (sg & Hsg & Hret & Hpar). cbn [c_params c_result] in *.
    inversion Hpar as [|? p1 ? ? Hp1 Hpar' Q1 Q2]; subst. inversion Hpar'; subst. clear Hpar Hpar'.
    destruct (update_passes sg (Sca Double, a) 0 p1) as (q1 & U1 & V1); [rewrite <- Q2; reflexivity|exact Hp1|].
    exists FOP_CAST. eexists. split.
    { unfold must_replace, is_valid_cast, operand0_ty. rewrite Ho, Hf, Ea, Hr. reflexivity. }
    split.
    + unfold replace_instr. rewrite (is_valid_shape None PDouble (or_introl eq_refl) i a _ Ea). cbn [bind].
      rewrite (mca_name_named i FOP_CAST _ _ _ Ea), Hr, Hsg.
      assert (Er : replace_call sg (named (Sca Double) (Sca Float) FOP_CAST) i FOP_CAST =
        Ok (Replace (i_dst i) (i_ty i) (mk_wcall (named (Sca Double) (Sca Float) FOP_CAST) None [((Sca Double, a), q1)] (s_ret sg)))).
      { unfold replace_call. rewrite Ea. unfold same_count. rewrite <- Q2. rewrite U1. cbn [bind length Nat.eqb].
        unfold finish; cbn [w_ret]; rewrite Hret, Hr, ty_eqb_refl; reflexivity. }
      exact Er.
    + intros W bs native e w. cbn [run_step run_reference_step]. unfold run_call. cbn [w_name w_args w_pred w_ret map fst].
      rewrite named_cast, Ea. cbn [c_params c_result].
      cbn [read_all]. destruct (read e (Sca Double, a)) as [va| | |] eqn:Ra; cbn [bind]; try reflexivity.
      apply read_typed in Ra. cbn [fst] in Ra.
      cbn [receive_all]. cbn [fst] in V1. rewrite V1 by assumption.
      unfold returned_as. rewrite Hret, ty_eqb_refl.
      apply (typed_shape None) in Ra. destruct Ra as [x ->].
      cbn [run_wrapper run_role]. unfold one_lane. bind_all; reflexivity.
Qed.

(** an instruction of no role is left as it is *)
Lemma valid_type t : floating t -> (exists p, fp_type t p) \/
  match t with Sca s => match valid_name s with Some _ => true | None => false end
             | Vec n s => existsb (Nat.eqb n) valid_sizes && match valid_name s with Some _ => true | None => false end
             | Scalable _ _ => true end = false.
Proof.
  destruct t as [s|n s|n s]; cbn [floating].
  - destruct s; intros H; try destruct H; [left; exists PFloat|left; exists PDouble|right; reflexivity]; exists None; (split; [left; reflexivity|reflexivity]).
  - intros H. destruct (existsb (Nat.eqb n) valid_sizes) eqn:E; [|right; reflexivity]. cbn [andb].
    apply existsb_exists in E. destruct E as (m & Hm & E). apply Nat.eqb_eq in E. subst m.
    assert (Hn : lanes_ok (Some n)) by (unfold lanes_ok; cbn in Hm; intuition subst; tauto).
    destruct s; try destruct H; [left; exists PFloat|left; exists PDouble|right; reflexivity]; exists (Some n); (split; [exact Hn|reflexivity]).
  - intros [].
Qed.
Lemma byte_eqb_eq a b : byte_eqb a b = true <-> a = b.
Proof. unfold byte_eqb. destruct (list_eq_dec Z.eq_dec a b); split; congruence. Qed.
Lemma is_fma_intrinsic f : is_fma (Some f) = true -> exists p, fma_intrinsic p f.
Proof.
  unfold is_fma, fma_names. rewrite existsb_exists. intros (x & Hx & E). apply byte_eqb_eq in E. subst x.
  destruct Hx as [<-|[<-|[<-|[<-|[]]]]]; [exists PFloat; right|exists PDouble; right|exists PFloat; left|exists PDouble; left]; reflexivity.
Qed.
Lemma no_role fl i : well_typed i -> (forall r, ~ plays fl i r) ->
  match must_replace fl i with None => True | Some o => forall sigs, replace_instr sigs i o = Ok (Keep i) end.
Proof.
  intros Ht Hn.
  assert (G : forall t l, floating t -> map fst (i_args i) = t :: l -> (forall p, ~ fp_type t p) -> forall o sigs, replace_instr sigs i o = Ok (Keep i)).
  { intros t l Hf Ha Hno o sigs. unfold replace_instr, is_valid, operand0_ty. destruct (i_args i) as [|[t1 a] r]; [discriminate|].
    cbn in Ha. injection Ha as -> _. destruct (valid_type t Hf) as [[p Hp]|E]; [elim (Hno p Hp)|].
    destruct t as [s|n s|n s]; [rewrite E; reflexivity|rewrite E; reflexivity|discriminate]. }
  unfold must_replace. unfold well_typed in Ht. destruct (i_op i) as [| | | |pr|callee| |k] eqn:Eo.
  1-4: destruct Ht as (t & Hf & Ha & _); intros sigs; apply (G t [t] Hf Ha); intros p Hp.
  - apply (Hn (RArith p WAdd)). eapply plays_arith; [exact Eo|exact Ha|exact Hp].
  - apply (Hn (RArith p WSub)). eapply plays_arith; [exact Eo|exact Ha|exact Hp].
  - apply (Hn (RArith p WMul)). eapply plays_arith; [exact Eo|exact Ha|exact Hp].
  - apply (Hn (RArith p WDiv)). eapply plays_arith; [exact Eo|exact Ha|exact Hp].
  - destruct (inst_fcmp fl) eqn:Ef; [|exact I]. destruct Ht as (t & Hf & Ha & _); intros sigs; apply (G t [t] Hf Ha); intros p Hp.
    apply (Hn (RCmp p pr)). eapply plays_cmp; [exact Ef|exact Eo|exact Ha|exact Hp].
  - destruct (inst_fma fl) eqn:Ef; [|exact I]. cbn [andb]. destruct (is_fma callee) eqn:Ec; [|exact I]. intros sigs. exfalso.
    destruct callee as [f|]; [|discriminate]. destruct (is_fma_intrinsic f Ec) as [p Hp]. destruct (Ht p Hp) as [Ha _].
    apply (Hn (RFma p)). eapply plays_fma; [exact Ef|exact Eo|exact Hp|exact Ha|]. exists None. split; [left; reflexivity|destruct p; reflexivity].
  - destruct (inst_cast fl) eqn:Ef; [|exact I]. cbn [andb]. destruct (is_valid_cast i) eqn:Ec; [|exact I]. intros sigs. exfalso.
    unfold is_valid_cast in Ec. apply andb_true_iff in Ec. destruct Ec as [E1 E2]. apply ty_eqb_eq in E1, E2.
    destruct Ht as (t & Hf & Ha & _). apply (Hn RCast). apply plays_cast; [exact Ef|exact Eo| |exact E2].
    unfold operand0_ty in E1. destruct (i_args i) as [|[t1 a] l]; [discriminate|]. cbn in *. congruence.
  - exact I.
Qed.

(** * The worklist in any order *)
Lemma set_nth_length {A} (l : list A) k x : length (set_nth l k x) = length l.
Proof. revert k. induction l as [|y l IH]; intros [|k]; cbn; congruence. Qed.
Lemma set_nth_same {A} (l : list A) k x : (k < length l)%nat -> nth_error (set_nth l k x) k = Some x.
Proof. revert k. induction l as [|y l IH]; intros [|k] H; cbn in *; [lia|lia|reflexivity|]. apply IH. lia. Qed.
Lemma set_nth_other {A} (l : list A) k j x : j <> k -> nth_error (set_nth l k x) j = nth_error l j.
Proof. revert k j. induction l as [|y l IH]; intros [|k] [|j] H; cbn; try reflexivity; try congruence. apply IH. congruence. Qed.
Definition done_at sigs fl (i : instr) (s : step) : Prop :=
  match must_replace fl i with Some o => replace_instr sigs i o = Ok s | None => s = Keep i end.
Lemma process_total sigs fl b order : forall acc, length acc = length b ->
  (forall k, In k order -> exists i o s, nth_error b k = Some i /\ must_replace fl i = Some o /\ replace_instr sigs i o = Ok s) ->
  exists res, process sigs fl b order acc = Ok res /\ length res = length b /\
  forall k i, nth_error b k = Some i ->
    (In k order -> exists o s, must_replace fl i = Some o /\ replace_instr sigs i o = Ok s /\ nth_error res k = Some s) /\
    (~ In k order -> nth_error res k = nth_error acc k).
Proof.
  induction order as [|k order IH]; intros acc Hl H.
  - exists acc. cbn. split; [reflexivity|]. split; [exact Hl|]. intros k i _. split; [intros []|reflexivity].
  - destruct (H k (or_introl eq_refl)) as (i & o & s & Hi & Ho & Hs). cbn [process]. rewrite Hi, Ho, Hs. cbn [bind].
    destruct (IH (set_nth acc k s)) as (res & Hr & Hlr & Hres); [rewrite set_nth_length; exact Hl|intros j Hj; apply H; right; exact Hj|].
    exists res. split; [exact Hr|]. split; [exact Hlr|]. intros j ij Hj. destruct (Hres j ij Hj) as [R1 R2]. split.
    + intros [<-|Hin]; [|apply R1; exact Hin]. destruct (in_dec Nat.eq_dec k order) as [Hin|Hin]; [apply R1; exact Hin|].
      assert (ij = i) by congruence. subst ij. exists o, s. split; [exact Ho|]. split; [exact Hs|]. rewrite (R2 Hin). apply set_nth_same.
      rewrite Hl. apply nth_error_Some. congruence.
    + intros Hno. rewrite R2 by (intros h; apply Hno; right; exact h). apply set_nth_other. intros ->. apply Hno. left. reflexivity.
Qed.
Lemma Forall2_nth {A B} (P : A -> B -> Prop) l m : length l = length m ->
  (forall k x y, nth_error l k = Some x -> nth_error m k = Some y -> P x y) -> Forall2 P l m.
Proof.
  revert m. induction l as [|x l IH]; intros [|y m] Hl H; try discriminate; constructor.
  - apply (H 0%nat); reflexivity.
  - apply IH; [cbn in Hl; congruence|]. intros k a b Ha Hb. apply (H (S k)); assumption.
Qed.
Lemma run_on_block_spec sigs fl order b : worklist fl b order ->
  Forall (fun i => match must_replace fl i with Some o => exists s, replace_instr sigs i o = Ok s | None => True end) b ->
  exists res, run_on_block sigs fl order b = Ok res /\ Forall2 (done_at sigs fl) b res.
Proof.
  intros Hw Hb. destruct (process_total sigs fl b order (map Keep b)) as (res & Hr & Hl & Hres).
  - apply map_length.
  - intros k Hk. apply Hw in Hk. destruct Hk as (i & Hi & Hm). rewrite Forall_forall in Hb. specialize (Hb i (nth_error_In _ _ Hi)).
    destruct (must_replace fl i) as [o|] eqn:E; [|congruence]. destruct Hb as [s Hs]. exists i, o, s. auto.
  - exists res. split; [exact Hr|]. apply Forall2_nth; [congruence|]. intros k i s Hi Hs. destruct (Hres k i Hi) as [R1 R2].
    unfold done_at. destruct (must_replace fl i) as [o|] eqn:E.
    + destruct R1 as (o' & s' & E1 & E2 & E3); [apply Hw; exists i; split; [exact Hi|congruence]|]. congruence.
    + rewrite R2 in Hs by (intros h; apply Hw in h; destruct h as (i' & E1 & E2); congruence).
      rewrite nth_error_map, Hi in Hs. cbn in Hs. congruence.
Qed.

(** * The block *)
Definition opcode_fma (i : instr) : bool := match i_op i with Call (Some f) => is_fma (Some f) | _ => false end.
Ltac no_fp Hp := match goal with H : fp_type ?t' ?p |- _ =>
  apply (Hp p); match type of Hp with forall p, ~ fp_type ?t p => replace t with t' by congruence; exact H end end.
Lemma role_exists fl i : well_typed i -> exists r, has_role fl i r.
Proof.
  intros Ht.
  assert (D : (exists r, plays fl i r) \/ (forall r, ~ plays fl i r)).
  { assert (T : forall t, floating t -> (exists p, fp_type t p) \/ (forall p, ~ fp_type t p)).
    { intros t Hf. destruct (valid_type t Hf) as [H|H]; [left; exact H|]. right. intros p (n & Hn & ->).
      destruct Hn as [-> | [-> | [-> | [-> | ->]]]], p; vm_compute in H; discriminate. }
    unfold well_typed in Ht. destruct (i_op i) as [| | | |pr|callee| |k] eqn:Eo.
    1-4: destruct Ht as (t & Hf & Ha & _); destruct (T t Hf) as [[p Hp]|Hp].
    1: left; exists (RArith p WAdd); eapply plays_arith; [exact Eo|exact Ha|exact Hp].
    2: left; exists (RArith p WSub); eapply plays_arith; [exact Eo|exact Ha|exact Hp].
    3: left; exists (RArith p WMul); eapply plays_arith; [exact Eo|exact Ha|exact Hp].
    4: left; exists (RArith p WDiv); eapply plays_arith; [exact Eo|exact Ha|exact Hp].
    1-4: right; intros r Hr; inversion Hr; subst; try congruence; no_fp Hp.
    - destruct (inst_fcmp fl) eqn:Ef; [|right; intros r Hr; inversion Hr; try congruence; subst; destruct o; cbn [arith_opcode] in *; congruence].
      destruct Ht as (t & Hf & Ha & _). destruct (T t Hf) as [[p Hp]|Hp].
      + left. exists (RCmp p pr). eapply plays_cmp; [exact Ef|exact Eo|exact Ha|exact Hp].
      + right; intros r Hr; inversion Hr; subst; try congruence; [destruct o; cbn [arith_opcode] in *; congruence|]. no_fp Hp.
    - destruct (inst_fma fl) eqn:Ef; [|right; intros r Hr; inversion Hr; try congruence; subst; destruct o; cbn [arith_opcode] in *; congruence].
      destruct (is_fma callee) eqn:Ec.
      + destruct callee as [f|]; [|discriminate]. destruct (is_fma_intrinsic f Ec) as [p Hp]. destruct (Ht p Hp) as [Ha _].
        left. exists (RFma p). eapply plays_fma; [exact Ef|exact Eo|exact Hp|exact Ha|]. exists None. split; [left; reflexivity|destruct p; reflexivity].
      + right; intros r Hr; inversion Hr as [? o ? H| |p f ? H1 H2 H3|]; subst; try congruence; [destruct o; cbn [arith_opcode] in *; congruence|].
        assert (callee = Some f) by congruence. subst callee.
        assert (Hk : is_fma (Some f) = true); [|congruence].
        unfold fma_intrinsic in H3. destruct p; destruct H3 as [-> | ->]; vm_compute; reflexivity.
    - destruct (inst_cast fl) eqn:Ef; [|right; intros r Hr; inversion Hr; try congruence; subst; destruct o; cbn [arith_opcode] in *; congruence].
      destruct (is_valid_cast i) eqn:Ec.
      + left. exists RCast. unfold is_valid_cast in Ec. apply andb_true_iff in Ec. destruct Ec as [E1 E2]. apply ty_eqb_eq in E1, E2.
        destruct Ht as (t & Hf & Ha & _). apply plays_cast; [exact Ef|exact Eo| |exact E2].
        unfold operand0_ty in E1. destruct (i_args i) as [|[t1 a] l]; [discriminate|]. cbn in *. congruence.
      + right; intros r Hr; inversion Hr as [? o ? H| | |H1 H2 H3 H4]; subst; try congruence; [destruct o; cbn [arith_opcode] in *; congruence|].
        unfold is_valid_cast, operand0_ty in Ec. destruct (i_args i) as [|[t1 a] [|]]; try discriminate. cbn in H3. injection H3 as ->.
        rewrite H4 in Ec. discriminate.
    - right; intros r Hr; inversion Hr; try congruence; subst; destruct o; cbn [arith_opcode] in *; congruence. }
  destruct D as [[r Hr]|Hn]; [exists (Some r); exact Hr|exists None; exact Hn].
Qed.
Lemma block_runs sigs fl order b roles : sigs_ok sigs -> worklist fl b order -> Forall well_typed b -> Forall2 (has_role fl) b roles ->
  exists steps, run_on_block sigs fl order b = Ok steps /\
  forall W (bs : list (backend W)) native e w, run_block bs native e steps w = run_reference bs native e (combine b roles) w.
Proof.
  intros Hs Hw Ht Hr.
  assert (Hb : Forall (fun i => match must_replace fl i with Some o => exists s, replace_instr sigs i o = Ok s | None => True end) b).
  { clear Hw. induction Hr as [|i r b roles Hir Hr IH]; [constructor|]. inversion Ht; subst. constructor; [|apply IH; assumption].
    destruct r as [r|]; cbn [has_role] in Hir.
    - destruct (replace_role sigs fl i r Hs H1 Hir) as (o & s & Ho & Hrep & _). rewrite Ho. exists s. exact Hrep.
    - pose proof (no_role fl i H1 Hir) as Hn. destruct (must_replace fl i); [|exact I]. exists (Keep i). apply Hn. }
  destruct (run_on_block_spec sigs fl order b Hw Hb) as (steps & Hst & Hd). exists steps. split; [exact Hst|]. clear Hw Hst Hb order.
  intros W bs native. revert steps Hd. induction Hr as [|i r b roles Hir Hr IH]; intros steps Hd e w.
  - inversion Hd; subst. reflexivity.
  - inversion Hd as [|? s ? steps' Hds Hd' Q1 Q2]; subst. inversion Ht; subst. cbn [run_block combine run_reference].
    assert (E : run_step bs native e s w = run_reference_step bs native e i r w).
    { destruct r as [r|]; cbn [has_role] in Hir.
      - destruct (replace_role sigs fl i r Hs H1 Hir) as (o & s' & Ho & Hrep & Hrun). unfold done_at in Hds. rewrite Ho in Hds.
        assert (s = s') by congruence. subst s'. apply Hrun.
      - pose proof (no_role fl i H1 Hir) as Hn. unfold done_at in Hds. destruct (must_replace fl i) as [o|].
        + rewrite Hn in Hds. injection Hds as <-. reflexivity.
        + subst s. reflexivity. }
    rewrite E. destruct (run_reference_step bs native e i r w) as [[e' w']| | |]; cbn [bind]; try reflexivity. apply IH; assumption.
Qed.
