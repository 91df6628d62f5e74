(** Model of the instrumentation of a basic block, src/libvfcinstrument/libVFCInstrument.cpp L318-674, and of what the
    instrumented block computes. An instruction has a destination (its SSA name), a type and typed operands; values are lists of
    bit patterns, one per lane. The signatures of the wrappers in vfcwrapper.ll depend on the ABI used by clang: they are a
    parameter. New instructions (bit casts of the operands, call, cast of the result) are kept together in one [step], at the
    place of the old instruction (IRBuilder<> Builder(I)); ReplaceInstWithValue gives the new value the uses and the name of
    the old one. Not modelled: attributes, target features (L566-573), messages, the ddebug filter (see WrapModel.v). *)
From Coq Require Import String ZArith List Bool.
From Verif Require Import Common Text Bits FloatOps IeeeModel WrapModel VfiModel.
Import ListNotations.
Open Scope Z_scope.
Open Scope outcome_scope.

(** * Instructions *)
Inductive scalar_ty := Float | Double | OtherFP (bits : Z) | Int (w : Z) | Pointer.
Inductive ty := Sca (s : scalar_ty) | Vec (n : nat) (s : scalar_ty) | Scalable (n : nat) (s : scalar_ty).
Definition scalar_eqb (a b : scalar_ty) : bool :=
  match a, b with
  | Float, Float | Double, Double | Pointer, Pointer => true
  | OtherFP x, OtherFP y | Int x, Int y => x =? y
  | _, _ => false
  end.
Definition ty_eqb (a b : ty) : bool :=
  match a, b with
  | Sca s, Sca t => scalar_eqb s t
  | Vec n s, Vec m t | Scalable n s, Scalable m t => Nat.eqb n m && scalar_eqb s t
  | _, _ => false
  end.

Inductive operand := Reg (r : nat) | Const (v : list Z).
(** [OtherOp]: every other opcode (FNeg, FRem, FPExt, Load, Br, ...) *)
Inductive opcode := FAdd | FSub | FMul | FDiv | FCmp (p : fcmp) | Call (callee : option (list Z)) | FPTrunc | OtherOp (k : Z).
Record instr := mk_instr { i_dst : nat; i_op : opcode; i_ty : ty; i_args : list (ty * operand) }.

(** llvm/IR/InstrTypes.h, CmpInst::Predicate *)
Definition llvm_number (p : fcmp) : Z :=
  match p with
  | FCMP_FALSE => 0 | FCMP_OEQ => 1 | FCMP_OGT => 2 | FCMP_OGE => 3 | FCMP_OLT => 4 | FCMP_OLE => 5 | FCMP_ONE => 6 | FCMP_ORD => 7
  | FCMP_UNO => 8 | FCMP_UEQ => 9 | FCMP_UGT => 10 | FCMP_UGE => 11 | FCMP_ULT => 12 | FCMP_ULE => 13 | FCMP_UNE => 14 | FCMP_TRUE => 15
  end.
(** interflop.h L27-44, enum FCMP_PREDICATE: the values in order *)
Definition enum_fcmp : list fcmp :=
  [FCMP_FALSE; FCMP_OEQ; FCMP_OGT; FCMP_OGE; FCMP_OLT; FCMP_OLE; FCMP_ONE; FCMP_ORD; FCMP_UNO; FCMP_UEQ; FCMP_UGT; FCMP_UGE; FCMP_ULT; FCMP_ULE; FCMP_UNE; FCMP_TRUE].
Definition fcmp_of (n : Z) : outcome fcmp :=
  if n <? 0 then UB else match nth_error enum_fcmp (Z.to_nat n) with Some p => Ok p | None => UB end.

(** * The wrappers of vfcwrapper/main.c.in *)
(** None: scalar, Some n: vector of n *)
Inductive wrapper := KArith (p : wprec) (o : wop) (n : option nat) | KCmp (p : wprec) (n : option nat) | KFma (p : wprec) | KCast.
Definition prec_name (p : wprec) : list Z := match p with PFloat => bytes "float" | PDouble => bytes "double" end.
Definition op_name (o : wop) : list Z := match o with WAdd => bytes "add" | WSub => bytes "sub" | WMul => bytes "mul" | WDiv => bytes "div" end.
Definition both {A} (f : wprec -> list A) : list A := f PFloat ++ f PDouble.
Definition four {A} (f : wop -> A) : list A := [f WAdd; f WSub; f WMul; f WDiv].
(** L600-620, L643-692, L695-715, L622-640, L717-730, L732: names pasted by the macros *)
Definition vfcwrapper : list (list Z * wrapper) :=
  both (fun p => four (fun o => (bytes "_" ++ prec_name p ++ op_name o, KArith p o None))) ++
  both (fun p => [(bytes "_" ++ prec_name p ++ bytes "cmp", KCmp p None)]) ++
  flat_map (fun n => both (fun p => four (fun o => (bytes "_" ++ snd n ++ bytes "x" ++ prec_name p ++ op_name o, KArith p o (Some (fst n))))))
    [(2%nat, bytes "2"); (4%nat, bytes "4"); (8%nat, bytes "8"); (16%nat, bytes "16")] ++
  flat_map (fun n => both (fun p => [(bytes "_" ++ snd n ++ bytes "x" ++ prec_name p ++ bytes "cmp", KCmp p (Some (fst n)))]))
    [(2%nat, bytes "2"); (4%nat, bytes "4"); (8%nat, bytes "8"); (16%nat, bytes "16")] ++
  both (fun p => [(bytes "_" ++ prec_name p ++ bytes "fma", KFma p)]) ++
  [(bytes "_doubletofloatcast", KCast)].
Definition byte_eqb (a b : list Z) : bool := if list_eq_dec Z.eq_dec a b then true else false.
Definition defined (name : list Z) : option wrapper := option_map snd (find (fun d => byte_eqb (fst d) name) vfcwrapper).

(** the C types of parameters and result *)
Definition prec_ty (p : wprec) : scalar_ty := match p with PFloat => Float | PDouble => Double end.
Definition shape (n : option nat) (s : scalar_ty) : ty := match n with None => Sca s | Some n => Vec n s end.
Definition c_params (k : wrapper) : list ty :=
  match k with
  | KArith p _ n => [shape n (prec_ty p); shape n (prec_ty p)]
  | KCmp p n => [Sca (Int 32); shape n (prec_ty p); shape n (prec_ty p)]
  | KFma p => [Sca (prec_ty p); Sca (prec_ty p); Sca (prec_ty p)]
  | KCast => [Sca Double]
  end.
Definition c_result (k : wrapper) : ty :=
  match k with
  | KArith p _ n => shape n (prec_ty p)
  | KCmp _ n => shape n (Int 32)
  | KFma p => Sca (prec_ty p)
  | KCast => Sca Float
  end.
(** their signature in vfcwrapper.ll: parameter types (byval or not) and return type *)
Record signature := mk_sig { s_params : list (ty * bool); s_ret : ty }.

(** * The pass *)
Record flags := mk_flags { inst_fcmp : bool; inst_fma : bool; inst_cast : bool }.
Inductive fop := FOP_ADD | FOP_SUB | FOP_MUL | FOP_DIV | FOP_CMP | FOP_FMA | FOP_CAST.   (* L107-116 without FOP_IGNORE *)
Definition fop_name (o : fop) : list Z :=
  match o with
  | FOP_ADD => bytes "add" | FOP_SUB => bytes "sub" | FOP_MUL => bytes "mul" | FOP_DIV => bytes "div"
  | FOP_CMP => bytes "cmp" | FOP_FMA => bytes "fma" | FOP_CAST => bytes "cast"
  end.
(** validTypesMap L123-124 *)
Definition valid_name (s : scalar_ty) : option (list Z) := match s with Float => Some (bytes "float") | Double => Some (bytes "double") | _ => None end.
Definition valid_sizes : list nat := [2; 4; 8; 16]%nat.   (* L127 *)

(** isFMAOperation L580-597 *)
Definition fma_names : list (list Z) := [bytes "llvm.fmuladd.f32"; bytes "llvm.fmuladd.f64"; bytes "llvm.fma.f32"; bytes "llvm.fma.f64"].
Definition is_fma (callee : option (list Z)) : bool := match callee with Some f => existsb (byte_eqb f) fma_names | None => false end.
Definition operand0_ty (i : instr) : ty := match i_args i with (t, _) :: _ => t | [] => Sca Pointer end.
(** isValidCastOperation L601-610 *)
Definition is_valid_cast (i : instr) : bool := ty_eqb (operand0_ty i) (Sca Double) && ty_eqb (i_ty i) (Sca Float).
(** mustReplace L612-647; None: FOP_IGNORE *)
Definition must_replace (fl : flags) (i : instr) : option fop :=
  match i_op i with
  | FAdd => Some FOP_ADD
  | FSub => Some FOP_SUB
  | FMul => Some FOP_MUL
  | FDiv => Some FOP_DIV
  | FCmp _ => if inst_fcmp fl then Some FOP_CMP else None
  | Call f => if inst_fma fl && is_fma f then Some FOP_FMA else None
  | FPTrunc => if inst_cast fl && is_valid_cast i then Some FOP_CAST else None
  | OtherOp _ => None
  end.
(** isValidInstruction L347-380; scalable vectors: report_fatal_error *)
Definition is_valid (i : instr) : outcome bool :=
  match operand0_ty i with
  | Sca s => Ok (match valid_name s with Some _ => true | None => false end)
  | Vec n s => Ok (existsb (Nat.eqb n) valid_sizes && match valid_name s with Some _ => true | None => false end)
  | Scalable _ _ => Exit
  end.
(** getMCAFunctionName L318-345; std::map::operator[] gives "" for a type not in the map *)
Definition map_name (s : scalar_ty) : list Z := match valid_name s with Some n => n | None => [] end.
Definition scalar_of (t : ty) : scalar_ty := match t with Sca s | Vec _ s | Scalable _ s => s end.
Definition mca_name (i : instr) (o : fop) : list Z :=
  let size := match operand0_ty i with Vec n _ => zdec (Z.of_nat n) ++ bytes "x" | _ => [] end in
  let precision := match o with
                   | FOP_CAST => map_name (scalar_of (operand0_ty i)) ++ bytes "to" ++ map_name (scalar_of (i_ty i))
                   | _ => map_name (scalar_of (operand0_ty i))
                   end in
  bytes "_" ++ size ++ precision ++ fop_name o.

Definition lane_bits (s : scalar_ty) : Z := match s with Float => 32 | Double => 64 | OtherFP b => b | Int w => w | Pointer => 64 end.
Definition ty_bits (t : ty) : Z := match t with Sca s => lane_bits s | Vec n s => Z.of_nat n * lane_bits s | Scalable _ _ => 0 end.
(** CastInst::isBitCastable for these types *)
Definition has_pointer (t : ty) : bool := match scalar_of t with Pointer => true | _ => false end.
Definition bitcastable (a b : ty) : bool := (ty_bits a =? ty_bits b) && (0 <? ty_bits a) && negb (has_pointer a) && negb (has_pointer b).

(** an argument of the call: the operand, and how it is passed *)
Inductive passing := AsIs | BitCasted (t : ty) | ByVal.
(** updateOperand L402-428; an operand of the wrong type in a call is rejected by LLVM (assertion or invalid IR) *)
Definition update_operand (sg : signature) (op : ty * operand) (argNo : nat) : outcome (ty * operand * passing) :=
  match nth_error (s_params sg) argNo with
  | None => UB
  | Some (st, byval) =>
      if ty_eqb (fst op) st then Ok (op, AsIs)
      else if bitcastable (fst op) st then Ok (op, BitCasted st)
      else if byval && ty_eqb st (Sca Pointer) then Ok (op, ByVal)
      else UB
  end.
(** the call: name, leading constant (the predicate), operands, type of the result *)
Record wcall := mk_wcall { w_name : list Z; w_pred : option Z; w_args : list (ty * operand * passing); w_ret : ty }.
Inductive step :=
| Keep (i : instr)
| Replace (dst : nat) (rty : ty) (c : wcall)            (* the call takes the place of the instruction *)
| ReplaceInt (dst : nat) (rty : ty) (c : wcall)         (* the same with CreateIntCast of the result *)
| Orphan (c : wcall) (i : instr).                       (* the call is made, its result unused; the instruction stays *)

(** L441-457 with updateReturn L431-439: dyn_cast<CallInst> of a bit cast is nullptr, and the caller then keeps the
    instruction (L664-667); a result that cannot be bit cast would replace a value of another type *)
Definition finish (i : instr) (c : wcall) : outcome step :=
  if ty_eqb (i_ty i) (w_ret c) then Ok (Replace (i_dst i) (i_ty i) c)
  else if bitcastable (w_ret c) (i_ty i) then Ok (Orphan c i)
  else UB.
Definition same_count (sg : signature) (n : nat) : outcome unit := if Nat.eqb (length (s_params sg)) n then Ok tt else UB.
(** replaceArithmeticWithMCACall L441-457, replaceArithmeticFMAWithMCACall L460-479, replaceCastWithMCACall L507-523,
    replaceComparisonWithMCACall L482-504 *)
Definition replace_call (sg : signature) (name : list Z) (i : instr) (o : fop) : outcome step :=
  match o, i_args i with
  | FOP_CMP, a :: b :: _ =>
      let* a := update_operand sg a 1 in
      let* b := update_operand sg b 2 in
      let* _ := same_count sg 3 in
      match s_params sg, i_op i, scalar_of (s_ret sg), scalar_of (i_ty i) with
      | (Sca (Int 32), _) :: _, FCmp p, Int _, Int _ => Ok (ReplaceInt (i_dst i) (i_ty i) (mk_wcall name (Some (llvm_number p)) [a; b] (s_ret sg)))
      | _, _, _, _ => UB
      end
  | FOP_FMA, a :: b :: c :: _ =>
      let* a := update_operand sg a 0 in
      let* b := update_operand sg b 1 in
      let* c := update_operand sg c 2 in
      let* _ := same_count sg 3 in
      finish i (mk_wcall name None [a; b; c] (s_ret sg))
  | FOP_CAST, a :: _ =>
      let* a := update_operand sg a 0 in
      let* _ := same_count sg 1 in
      finish i (mk_wcall name None [a] (s_ret sg))
  | (FOP_ADD | FOP_SUB | FOP_MUL | FOP_DIV), a :: b :: _ =>
      let* a := update_operand sg a 0 in
      let* b := update_operand sg b 1 in
      let* _ := same_count sg 2 in
      finish i (mk_wcall name None [a; b] (s_ret sg))
  | _, _ => UB
  end.
(** replaceWithMCACall L548-578 with getMCAFunction L526-534 (a missing wrapper is a null pointer) and L660-668 *)
Definition replace_instr (sigs : list Z -> option signature) (i : instr) (o : fop) : outcome step :=
  let* valid := is_valid i in
  if valid then
    match sigs (mca_name i o) with
    | Some sg => replace_call sg (mca_name i o) i o
    | None => UB
    end
  else Ok (Keep i).

(** runOnBasicBlock L649-672: the worklist is a std::set ordered by the addresses of the instructions; [order] lists the
    positions of the worklist in that order *)
Fixpoint set_nth {A} (l : list A) (k : nat) (x : A) : list A :=
  match l, k with
  | [], _ => []
  | _ :: l', O => x :: l'
  | y :: l', S k' => y :: set_nth l' k' x
  end.
Fixpoint process (sigs : list Z -> option signature) (fl : flags) (b : list instr) (order : list nat) (acc : list step) : outcome (list step) :=
  match order with
  | [] => Ok acc
  | k :: order' =>
      match nth_error b k with
      | None => UB
      | Some i => match must_replace fl i with
                  | None => UB
                  | Some o => let* s := replace_instr sigs i o in process sigs fl b order' (set_nth acc k s)
                  end
      end
  end.
Definition run_on_block (sigs : list Z -> option signature) (fl : flags) (order : list nat) (b : list instr) : outcome (list step) :=
  process sigs fl b order (map Keep b).

(** * What blocks compute *)
Definition env := nat -> option (list Z).
Definition set_env (e : env) (r : nat) (v : list Z) : env := fun x => if Nat.eqb x r then Some v else e x.
Definition in_lane (s : scalar_ty) (x : Z) : bool := (0 <=? x) && (x <? 2 ^ lane_bits s).
Definition typed (t : ty) (v : list Z) : bool :=
  match t with
  | Sca s => match v with [x] => in_lane s x | _ => false end
  | Vec n s => Nat.eqb (length v) n && forallb (in_lane s) v
  | Scalable _ s => forallb (in_lane s) v
  end.
(** reading an operand; LLVM IR is typed, so a value of another type is never met *)
Definition read (e : env) (a : ty * operand) : outcome (list Z) :=
  match (match snd a with Reg r => e r | Const v => Some v end) with
  | Some v => if typed (fst a) v then Ok v else UB
  | None => UB
  end.
Fixpoint read_all (e : env) (l : list (ty * operand)) : outcome (list (list Z)) :=
  match l with
  | [] => Ok []
  | a :: l' => let* v := read e a in let* vs := read_all e l' in Ok (v :: vs)
  end.

(** bit casts, little endian *)
Fixpoint pack (w : Z) (v : list Z) : Z := match v with [] => 0 | x :: v' => x + 2 ^ w * pack w v' end.
Fixpoint unpack (w : Z) (n : nat) (x : Z) : list Z := match n with O => [] | S n => x mod 2 ^ w :: unpack w n (x / 2 ^ w) end.
Definition lane_count (t : ty) : nat := match t with Sca _ => 1%nat | Vec n _ | Scalable n _ => n end.
Definition bitcast (a b : ty) (v : list Z) : list Z := unpack (lane_bits (scalar_of b)) (lane_count b) (pack (lane_bits (scalar_of a)) v).

Fixpoint all_some {A} (l : list (option A)) : option (list A) :=
  match l with
  | [] => Some []
  | Some x :: l' => option_map (cons x) (all_some l')
  | None :: _ => None
  end.
Definition vector_result {W} (r : outcome (list (option Z) * W)) : outcome (list Z * W) :=
  let* '(c, w) := r in match all_some c with Some v => Ok (v, w) | None => UB end.
Definition one_lane {W} (r : outcome (Z * W)) : outcome (list Z * W) := let* '(c, w) := r in Ok ([c], w).
(** a wrapper on its C parameters *)
Definition run_wrapper {W} (bs : list (backend W)) (k : wrapper) (args : list (list Z)) (w : W) : outcome (list Z * W) :=
  match k, args with
  | KArith p o None, [[a]; [b]] => one_lane (arith_wrapper bs p o a b w)
  | KArith p o (Some n), [a; b] => vector_result (vector_wrapper (arith_wrapper bs p o) n a b w)
  | KCmp p None, [[pr]; [a]; [b]] => let* pr := fcmp_of pr in one_lane (cmp_wrapper bs p pr a b w)
  | KCmp p (Some n), [[pr]; a; b] => let* pr := fcmp_of pr in vector_result (vector_wrapper (cmp_wrapper bs p pr) n a b w)
  | KFma p, [[a]; [b]; [c]] => one_lane (fma_wrapper bs p a b c w)
  | KCast, [[a]] => one_lane (cast_wrapper bs a w)
  | _, _ => UB
  end.
(** passing a parameter: the bits arrive in the signature's type, the compiled wrapper gives them back their C type *)
Definition received (c : ty) (a : ty * operand * passing) (v : list Z) : list Z :=
  match a with
  | (t, _, AsIs) => if ty_eqb t c then v else bitcast t c v
  | (t, _, BitCasted s) => bitcast s c (bitcast t s v)
  | (_, _, ByVal) => v
  end.
Fixpoint receive_all (cs : list ty) (args : list (ty * operand * passing)) (vs : list (list Z)) : list (list Z) :=
  match cs, args, vs with
  | c :: cs, a :: args, v :: vs => received c a v :: receive_all cs args vs
  | _, _, _ => []
  end.
Definition returned_as (c r : ty) (v : list Z) : list Z := if ty_eqb c r then v else bitcast c r v.
Definition run_call {W} (bs : list (backend W)) (e : env) (c : wcall) (w : W) : outcome (list Z * W) :=
  match defined (w_name c) with
  | None => UB
  | Some k =>
      let* vs := read_all e (map fst (w_args c)) in
      let args := match w_pred c with
                  | Some n => [n] :: receive_all (tl (c_params k)) (w_args c) vs
                  | None => receive_all (c_params k) (w_args c) vs
                  end in
      let* '(r, w) := run_wrapper bs k args w in
      Ok (returned_as (c_result k) (w_ret c) r, w)
  end.
(** [native i operands w]: what the processor does for an instruction left as it is *)
Definition run_native {W} (native : instr -> list (list Z) -> W -> outcome (list Z * W)) (e : env) (i : instr) (w : W) : outcome (env * W) :=
  let* vs := read_all e (i_args i) in
  let* '(v, w) := native i vs w in
  Ok (set_env e (i_dst i) v, w).
(** CreateIntCast to a narrower type *)
Definition int_cast (t : ty) (v : list Z) : list Z := map (fun x => x mod 2 ^ lane_bits (scalar_of t)) v.
Definition run_step {W} (bs : list (backend W)) native (e : env) (s : step) (w : W) : outcome (env * W) :=
  match s with
  | Keep i => run_native native e i w
  | Replace dst _ c => let* '(v, w) := run_call bs e c w in Ok (set_env e dst v, w)
  | ReplaceInt dst t c => let* '(v, w) := run_call bs e c w in Ok (set_env e dst (int_cast t v), w)
  | Orphan c i => let* '(_, w) := run_call bs e c w in run_native native e i w
  end.
Fixpoint run_block {W} (bs : list (backend W)) native (e : env) (b : list step) (w : W) : outcome (env * W) :=
  match b with
  | [] => Ok (e, w)
  | s :: b' => let* '(e, w) := run_step bs native e s w in run_block bs native e b' w
  end.
