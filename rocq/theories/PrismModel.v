(** Model of the PRISM instrumentation pass, src/libvfcinstrumentprism/libVFCInstrumentPRISM.cpp, TargetFeatures.hpp and
    libVFCInstrumentPRISMOptions.hpp, on the functions of ModuleModel.v. The PRISM library itself is not in /repo: its two IR files
    are lists of function signatures, and what its functions do is a parameter. The list files are read by the code of
    libVFCInstrument.cpp, repeated (L504-610): SelectModel.v. Not modelled: messages, debug options, attributes other than
    target-features, a module that already contains functions with the mangled names of the library (getOrInsertFunction L272-278
    would return those). *)
From Coq Require Import String ZArith List Bool.
From Verif Require Import Common Text Bits FloatOps IeeeModel WrapModel VfiModel InstrModel SelectModel ModuleModel.
Import ListNotations.
Open Scope Z_scope.
Open Scope outcome_scope.

(** * Options (libVFCInstrumentPRISMOptions.hpp) *)
Inductive rounding := StochasticRounding | UpDown.
Inductive dispatch := Static | Dynamic.
(** RoundingMode L20-29, DispatchMode L51-60; report_fatal_error otherwise *)
Definition rounding_of (mode : list Z) : outcome rounding :=
  if byte_eqb mode (bytes "up-down") then Ok UpDown else if byte_eqb mode (bytes "stochastic-rounding") then Ok StochasticRounding else Exit.
Definition dispatch_of (mode : list Z) : outcome dispatch :=
  if byte_eqb mode (bytes "static") then Ok Static else if byte_eqb mode (bytes "dynamic") then Ok Dynamic else Exit.
(** get_namespace L31-40, L62-71 *)
Definition rounding_ns (r : rounding) : list Z := match r with UpDown => bytes "ud" | StochasticRounding => bytes "sr" end.
Definition dispatch_ns (d : dispatch) : list Z := match d with Static => bytes "static" ++ bytes "_dispatch" | Dynamic => bytes "dynamic" ++ bytes "_dispatch" end.
(** the names of the options the pass declares, L90-152 *)
Definition declared_options : list (list Z) :=
  map bytes ["vfclibinst-function"; "vfclibinst-include-file"; "vfclibinst-exclude-file"; "vfclibinst-prism-dynamic-ir-file";
    "vfclibinst-prism-static-ir-file"; "vfclibinst-verbose"; "vfclibinst-mode"; "vfclibinst-dispatch"; "vfclibinst-inst-fma"; "vfclibinst-debug";
    "vfclibinst-strict-abi"; "vfclibinst-debug-getoperands"; "vfclibinst-debug-targetfeatures"; "vfclibinst-debug-abi"]%string.

(** * The target features (TargetFeatures.hpp) *)
Definition comma : Z := 44.
(** split L29-38: std::getline gives the pieces between the delimiters, and no empty piece at the end *)
Definition split_pieces (s : list Z) : list (list Z) :=
  match rev (split_on comma s) with [] :: r => rev r | _ => split_on comma s end.
(** TargetFeature L82-93; (enabled, name) *)
Definition feature : Type := bool * list Z.
Definition feature_of (s : list Z) : feature :=
  match s with
  | c :: r => if c =? 45 then (false, r) else if c =? 43 then (true, r) else (true, s)
  | [] => (true, [])
  end.
(** getAsString L95-100, by which the std::set compares (L102-106) *)
Definition feature_text (f : feature) : list Z := (if fst f then 43 else 45) :: snd f.
(** TargetFeatures L145-165; None: the function has no such attribute *)
Definition features (attribute : option (list Z)) : list feature := match attribute with Some s => map feature_of (split_pieces s) | None => [] end.
Definition has_feature (fs : list feature) (f : feature) : bool := existsb (fun g => byte_eqb (feature_text g) (feature_text f)) fs.
(** isIncludeIn L214-219 *)
Definition included (a b : list feature) : bool := forallb (has_feature b) a.
(** getHighestSupportedISA_X86_64 L276-300, with the values of the enum L45-54 *)
Definition highest_isa (fs : list feature) : Z :=
  let has s := has_feature fs (feature_of (bytes s)) in
  if has "avx512f"%string then 7 else if has "avx2"%string then 6 else if has "avx"%string then 5 else if has "sse4.2"%string then 4
  else if has "sse3"%string then 3 else if has "sse2"%string then 2 else if has "sse"%string then 1 else 0.
(** areABICompatible L317-365 *)
Definition abi_compatible (caller callee : option (list Z)) : bool :=
  match features caller with
  | [] => true
  | fs => if included (features callee) fs then true else highest_isa (features callee) <=? highest_isa fs
  end.

(** * The operations (namespace fops, L100-203) *)
Inductive pop := PAdd | PSub | PMul | PDiv | PFma.
Definition pop_name (o : pop) : list Z := match o with PAdd => bytes "add" | PSub => bytes "sub" | PMul => bytes "mul" | PDiv => bytes "div" | PFma => bytes "fma" end.
(** isFMA L133-142 *)
Definition prism_fma (callee : option (list Z)) : bool := match callee with Some (c :: f) => starts (bytes "llvm.fma") (c :: f) | _ => false end.
(** getOpCode L144-163, mustReplace L165-167; None: IGNORE *)
Definition get_op (i : instr) : option pop :=
  match i_op i with
  | FAdd => Some PAdd
  | FSub => Some PSub
  | FMul => Some PMul
  | FDiv => Some PDiv
  | Call f => if prism_fma f then Some PFma else None
  | _ => None
  end.
(** getArity L169-184 *)
Definition arity (o : pop) : nat := match o with PFma => 3 | _ => 2 end.
(** isValidFpType L186-188, getFpTypeName L190-198 (llvm_unreachable otherwise), isValidVectorSize L200-203 *)
Definition fp_name (s : scalar_ty) : option (list Z) := match s with Float => Some (bytes "f32") | Double => Some (bytes "f64") | _ => None end.
Definition prism_sizes : list nat := [2; 4; 8; 16; 32; 64]%nat.
(** isValidInstruction L694-700 with L670-691 *)
Definition prism_valid (i : instr) : outcome bool :=
  match operand0_ty i with
  | Sca s => Ok (match fp_name s with Some _ => true | None => false end)
  | Vec n s => Ok (existsb (Nat.eqb n) prism_sizes && match fp_name s with Some _ => true | None => false end)
  | Scalable _ _ => Exit
  end.

(** * The library *)
Record lib_fun := mk_lib { l_name : list Z; l_declaration : bool; l_params : list ty; l_ret : option ty; l_features : option (list Z) }.
Inductive passing_mode := ByValue | ByPointer.
Definition passing_ns (p : passing_mode) : list Z := match p with ByValue => bytes "fixed" | ByPointer => bytes "variable" end.
Record config := mk_config {
  p_rounding : rounding; p_dispatch : dispatch; p_strict : bool;
  p_static : list lib_fun; p_dynamic : list lib_fun;              (* the two IR files *)
  p_demangle : list Z -> option (list Z) }.                       (* abi::__cxa_demangle; None: status other than 0 *)
(** get_demangled_name L222-230 and the text before '(' (L304-311) *)
Fixpoint before (c : Z) (l : list Z) : list Z := match l with [] => [] | x :: l' => if x =? c then [] else x :: before c l' end.
Definition short_name (demangle : list Z -> option (list Z)) (mangled : list Z) : list Z :=
  before 40 (match demangle mangled with Some d => d | None => mangled end).
(** getDemangledNames L296-317: a later function with the same short name replaces the earlier one *)
Definition short_names (c : config) (lib : list lib_fun) : list (list Z * list Z) :=
  fold_left (fun m f => if l_declaration f then m else (short_name (p_demangle c) (l_name f), l_name f) :: m) lib [].
Definition defined_names (lib : list lib_fun) : list (list Z) := map l_name (filter (fun f => negb (l_declaration f)) lib).
(** functionsToExclude L207, filled from the two libraries *)
Definition to_exclude (c : config) : list (list Z) := defined_names (p_static c) ++ defined_names (p_dynamic c).
(** IRModule::getFunction L266-270, PrismModule::getFunction L373-378 *)
Definition lib_function (c : config) (name : list Z) : option lib_fun :=
  let lib := match p_dispatch c with Static => p_static c | Dynamic => p_dynamic c end in
  match List.find (fun p => byte_eqb (fst p) name) (short_names c lib) with
  | Some p => List.find (fun f => byte_eqb (l_name f) (snd p)) lib
  | None => None
  end.
(** getFloatingPointTypeName L388-397 *)
Definition type_name (t : ty) : outcome (list Z) :=
  match t with
  | Sca s => match fp_name s with Some n => Ok n | None => UB end
  | Vec n s => match fp_name s with Some m => Ok (m ++ bytes "x" ++ zdec (Z.of_nat n)) | None => UB end
  | Scalable _ _ => UB
  end.
Definition is_vector (t : ty) : bool := match t with Sca _ => false | _ => true end.
(** getFunctionName L399-437; the type is the type of the instruction *)
Definition function_name (c : config) (i : instr) (o : pop) (p : passing_mode) : outcome (list Z) :=
  let* t := type_name (i_ty i) in
  let name := pop_name o ++ t in
  Ok (if is_vector (i_ty i)
      then bytes "prism::" ++ rounding_ns (p_rounding c) ++ bytes "::vector::" ++ dispatch_ns (p_dispatch c) ++ bytes "::" ++ passing_ns p ++ bytes "::" ++ name
      else bytes "prism::" ++ rounding_ns (p_rounding c) ++ bytes "::scalar::" ++ dispatch_ns (p_dispatch c) ++ bytes "::" ++ name).
(** getPrismFunction L450-478; None: skipped with a warning *)
Definition prism_function (c : config) (i : instr) (o : pop) : outcome (option (lib_fun * passing_mode)) :=
  let* fixed := function_name c i o ByValue in
  match lib_function c fixed with
  | Some f => Ok (Some (f, ByValue))
  | None =>
      let* variable := function_name c i o ByPointer in
      match lib_function c variable with
      | Some f => Ok (Some (f, ByPointer))
      | None => if p_strict c then Exit else Ok None
      end
  end.

(** * The new instructions *)
(** an argument of a call: an operand, an operand cast to another type of the same size, the address of an alloca *)
Inductive parg := AVal (a : ty * operand) | ACast (a : ty * operand) (t : ty) | ASlot (slot : nat).
(** what becomes of the result of the call *)
Inductive pret := RNone | RDst (dst : nat) | RCast (dst : nat) (from to : ty).
Inductive pstep :=
| PKeep (i : instr)
| PAlloca (slot : nat) (t : ty)
| PStore (slot : nat) (a : ty * operand)
| PCall (f : list Z) (args : list parg) (r : pret)
| PLoad (dst : nat) (t : ty) (slot : nat).

(** prismAllocaMap L485-486: the key is (function, type, argument), -1 for the result; the allocas are numbered *)
Definition akey : Type := nat * ty * Z.
Definition akey_eqb (a b : akey) : bool := let '(f, t, k) := a in let '(g, u, l) := b in Nat.eqb f g && ty_eqb t u && (k =? l).
Record pstate := mk_pstate { st_map : list (akey * nat); st_allocas : list (nat * ty) }.   (* [st_allocas]: of the current function, the last one first *)
Definition return_index : Z := -1.
(** getAllocaForVec L750-772 *)
Definition get_alloca (st : pstate) (key : akey) : nat * pstate :=
  match List.find (fun p => akey_eqb (fst p) key) (st_map st) with
  | Some p => (snd p, st)
  | None => let n := length (st_map st) in (n, mk_pstate ((key, n) :: st_map st) ((n, snd (fst key)) :: st_allocas st))
  end.
Definition is_f32x2 (t : ty) : bool := match t with Vec 2 Float => true | _ => false end.
(** getOperandVector L774-817: stores to insert, the argument *)
Definition operand_vector (fidx : nat) (f : lib_fun) (p : passing_mode) (k : nat) (op : ty * operand) (st : pstate) : outcome (list pstep * parg * pstate) :=
  match nth_error (l_params f) k with
  | None => UB
  | Some param =>
      if match p with ByPointer => true | ByValue => false end && ty_eqb param (Sca Pointer)
      then let '(slot, st) := get_alloca st (fidx, fst op, Z.of_nat k) in Ok ([PStore slot op], ASlot slot, st)
      else if is_f32x2 (fst op) then Ok ([], ACast op (Sca Double), st)
      else Ok ([], AVal op, st)
  end.
(** getOperandScalar L819-833 *)
Definition operand_scalar (f : lib_fun) (k : nat) (op : ty * operand) (st : pstate) : outcome (list pstep * parg * pstate) :=
  match nth_error (l_params f) k with None => UB | Some _ => Ok ([], AVal op, st) end.
(** the loop of getOperands L845-854 *)
Fixpoint get_operands (fidx : nat) (f : lib_fun) (p : passing_mode) (vector : bool) (n k : nat) (ops : list (ty * operand)) (st : pstate)
  : outcome (list pstep * list parg * pstate) :=
  match n, ops with
  | O, _ => Ok ([], [], st)
  | S n, [] => UB
  | S n, op :: ops =>
      let* '(s, a, st) := if vector then operand_vector fidx f p k op st else operand_scalar f k op st in
      let* '(ss, l, st) := get_operands fidx f p vector n (S k) ops st in
      Ok (s ++ ss, a :: l, st)
  end.
(** the call: LLVM rejects arguments of other types than the parameters *)
Definition parg_ty (a : parg) : ty := match a with AVal a => fst a | ACast _ t => t | ASlot _ => Sca Pointer end.
Definition same_types (args : list parg) (f : lib_fun) : bool :=
  Nat.eqb (length args) (length (l_params f)) && forallb (fun p => ty_eqb (parg_ty (fst p)) (snd p)) (combine args (l_params f)).
(** replaceArithmeticWithPRCall L901-929 with L835-898; None: not instrumented *)
Definition replace_prism (c : config) (fidx : nat) (feat : option (list Z)) (i : instr) (o : pop) (st : pstate) : outcome (option (list pstep) * pstate) :=
  let* found := prism_function c i o in
  match found with
  | None => Ok (None, st)
  | Some (f, p) =>
      if abi_compatible feat (l_features f) then
        let* '(stores, args, st) := get_operands fidx f p (is_vector (i_ty i)) (arity o) 0 (i_args i) st in
        match p, is_vector (i_ty i) with
        | ByPointer, true =>
            let '(slot, st) := get_alloca st (fidx, i_ty i, return_index) in
            match nth_error (l_params f) (arity o) with
            | None => UB
            | Some _ =>
                let args := args ++ [ASlot slot] in
                if same_types args f then Ok (Some (stores ++ [PCall (l_name f) args RNone; PLoad (i_dst i) (i_ty i) slot]), st) else UB
            end
        | _, _ =>
            if same_types args f then
              match l_ret f with
              | None => UB
              | Some r =>
                  if is_f32x2 (i_ty i) && ty_eqb r (Sca Double) then Ok (Some (stores ++ [PCall (l_name f) args (RCast (i_dst i) r (i_ty i))]), st)
                  else if ty_eqb r (i_ty i) then Ok (Some (stores ++ [PCall (l_name f) args (RDst (i_dst i))]), st)
                  else UB
              end
            else UB
        end
      else Ok (None, st)
  end.
(** replaceWithPRCall L931-950 *)
Definition replace_with_call c fidx feat (i : instr) (o : pop) (st : pstate) : outcome (option (list pstep) * pstate) :=
  let* valid := prism_valid i in
  if valid then replace_prism c fidx feat i o st else Ok (None, st).
(** runOnBasicBlock L952-973, the worklist in the order of the addresses; the new instructions of a position replace the old one.
    The value returned is [modified], which nothing sets. *)
Fixpoint pprocess c fidx feat (b : list instr) (order : list nat) (acc : list (list pstep)) (st : pstate) : outcome (list (list pstep) * pstate) :=
  match order with
  | [] => Ok (acc, st)
  | k :: order' =>
      match nth_error b k with
      | None => UB
      | Some i =>
          match get_op i with
          | None => UB
          | Some o =>
              let* '(new, st) := replace_with_call c fidx feat i o st in
              pprocess c fidx feat b order' (match new with Some l => set_nth acc k l | None => acc end) st
          end
      end
  end.
Definition prism_block c fidx feat (order : list nat) (b : list instr) (st : pstate) : outcome (list pstep * bool * pstate) :=
  let* '(l, st) := pprocess c fidx feat b order (map (fun i => [PKeep i]) b) st in
  Ok (concat l, false, st).
(** runOnFunction L702-714; the allocas are inserted at the beginning of the entry block *)
Fixpoint prism_blocks c fidx feat (order : nat -> list nat) (k : nat) (bs : list (block instr)) (st : pstate) : outcome (list (block pstep) * bool * pstate) :=
  match bs with
  | [] => Ok ([], false, st)
  | b :: bs' =>
      let* '(l, modified, st) := prism_block c fidx feat (order k) (k_body b) st in
      let* '(r, more, st) := prism_blocks c fidx feat order (S k) bs' st in
      Ok (mk_block (k_phis b) l (k_term b) :: r, modified || more, st)
  end.
Definition at_entry (allocas : list pstep) (bs : list (block pstep)) : list (block pstep) :=
  match bs with [] => [] | b :: bs' => mk_block (k_phis b) (allocas ++ k_body b) (k_term b) :: bs' end.
Definition prism_on_function c fidx feat order (f : func instr) (map0 : list (akey * nat)) : outcome (func pstep * bool * list (akey * nat)) :=
  let* '(bs, modified, st) := prism_blocks c fidx feat order 0 (f_blocks f) (mk_pstate map0 []) in
  Ok (mk_func (f_name f) (f_params f) (at_entry (map (fun a => PAlloca (fst a) (snd a)) (st_allocas st)) bs), modified, st_map st).
Definition pkeep (f : func instr) : func pstep := mk_func (f_name f) (f_params f) (map (map_body (map PKeep)) (f_blocks f)).
(** runOnModule L612-667: the functions to instrument (L632-659) *)
Definition prism_select (c : config) (o : options) (modname : list Z) (names : list (list Z)) : sel (list (list Z)) :=
  got inc := parse_function_set_file modname (o_include o) in
  got exc := parse_function_set_file modname (o_exclude o) in
  got rs := match o_function o with [] => Sel (inc, exc) | f => got inc := regex f in got exc := regex [dot; star] in Sel (inc, exc) end in
  Sel (filter (fun n => if member n (to_exclude c) then false
                        else if regex_match n (fst rs) then true
                        else if regex_match n (snd rs) then false
                        else if negb (given (o_exclude o)) && given (o_include o) then false
                        else true) names).
(** L661-666; [feat]: the target-features attribute of the functions of the module *)
Fixpoint prism_functions c (feat : list Z -> option (list Z)) (order : nat -> nat -> list nat) (chosen : list (list Z)) (k : nat) (m : list (func instr))
  (map0 : list (akey * nat)) : outcome (list (func pstep) * bool) :=
  match m with
  | [] => Ok ([], false)
  | f :: m' =>
      if member (f_name f) chosen then
        let* '(f', modified, map1) := prism_on_function c k (feat (f_name f)) (order k) f map0 in
        let* '(r, more) := prism_functions c feat order chosen (S k) m' map1 in
        Ok (f' :: r, modified || more)
      else
        let* '(r, more) := prism_functions c feat order chosen (S k) m' map0 in
        Ok (pkeep f :: r, more)
  end.
Definition prism_module c feat order chosen m : outcome (list (func pstep) * bool) := prism_functions c feat order chosen 0 m [].

(** * What an instrumented module computes *)
(** an argument of a library function: a value, or a pointer to an alloca with its contents (None: never written) *)
Inductive carg := CVal (v : list Z) | CPtr (address : nat) (v : option (list Z)).
(** a library function returns a value and the new contents of what its arguments point to (None: not written) *)
Definition library W : Type := list Z -> list carg -> W -> outcome (list Z * list (option (list Z)) * W).
(** a frame: registers, and the contents of the allocas; None: there is no such alloca *)
Definition slots : Type := nat -> option (option (list Z)).
Definition set_slot (s : slots) (k : nat) (v : option (list Z)) : slots := fun x => if Nat.eqb x k then Some v else s x.
Definition frame : Type := env * slots.
Definition eval_arg (fr : frame) (a : parg) : outcome carg :=
  match a with
  | AVal a => let* v := read (fst fr) a in Ok (CVal v)
  | ACast a t => let* v := read (fst fr) a in Ok (CVal (bitcast (fst a) t v))
  | ASlot k => match snd fr k with Some v => Ok (CPtr k v) | None => UB end
  end.
Fixpoint eval_args (fr : frame) (l : list parg) : outcome (list carg) :=
  match l with
  | [] => Ok []
  | a :: l' => let* v := eval_arg fr a in let* vs := eval_args fr l' in Ok (v :: vs)
  end.
Fixpoint write_back (s : slots) (args : list parg) (wr : list (option (list Z))) : slots :=
  match args, wr with
  | ASlot k :: args', Some v :: wr' => write_back (set_slot s k (Some v)) args' wr'
  | _ :: args', _ :: wr' => write_back s args' wr'
  | _, _ => s
  end.
Definition run_pstep {W} (lib : library W) (native : oracle (W := W)) (fr : frame) (s : pstep) (w : W) : outcome (frame * W) :=
  match s with
  | PKeep i => let* '(e, w) := run_native native (fst fr) i w in Ok ((e, snd fr), w)
  | PAlloca k _ => Ok ((fst fr, set_slot (snd fr) k None), w)
  | PStore k a =>
      let* v := read (fst fr) a in
      match snd fr k with Some _ => Ok ((fst fr, set_slot (snd fr) k (Some v)), w) | None => UB end
  | PCall f args r =>
      let* vs := eval_args fr args in
      let* '(v, wr, w) := lib f vs w in
      let sl := write_back (snd fr) args wr in
      Ok (match r with
          | RNone => (fst fr, sl)
          | RDst d => (set_env (fst fr) d v, sl)
          | RCast d from to => (set_env (fst fr) d (bitcast from to v), sl)
          end, w)
  | PLoad d t k => match snd fr k with Some (Some v) => if typed t v then Ok ((set_env (fst fr) d v, snd fr), w) else UB | _ => UB end
  end.
Fixpoint run_psteps {W} (lib : library W) (native : oracle (W := W)) (fr : frame) (b : list pstep) (w : W) : outcome (frame * W) :=
  match b with
  | [] => Ok (fr, w)
  | s :: b' => let* '(fr, w) := run_pstep lib native fr s w in run_psteps lib native fr b' w
  end.
(** [run_blocks] and [run_fun] of ModuleModel.v on frames: every call has its own allocas *)
Fixpoint run_pblocks {W} (lib : library W) (o : oracle (W := W)) (n : nat) (bs : list (block pstep)) (prev : option nat) (cur : nat) (fr : frame) (w : W)
  : outcome (list Z * W) :=
  match n with
  | O => Diverge
  | S n =>
      match nth_error bs cur with
      | None => UB
      | Some b =>
          let* e := enter_block (fst fr) prev b in
          let* '(fr, w) := run_psteps lib o (e, snd fr) (k_body b) w in
          let* nx := next (fst fr) (k_term b) in
          match nx with
          | inl v => Ok (v, w)
          | inr l => run_pblocks lib o n bs (Some cur) l fr w
          end
      end
  end.
Fixpoint run_pfun {W} (lib : library W) (ext : oracle (W := W)) (m : list (func pstep)) (fuel : nat) (name : list Z) (args : list (list Z)) (w : W) : outcome (list Z * W) :=
  match fuel with
  | O => Diverge
  | S n =>
      match find_func m name with
      | None => UB
      | Some f =>
          let* e := bind_params (f_params f) args (fun _ => None) in
          run_pblocks lib (with_calls ext m (run_pfun lib ext m n)) fuel (f_blocks f) None 0 (e, fun _ => None) w
      end
  end.
