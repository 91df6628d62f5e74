(** Function instrumentation: src/libvfcfuncinstrument/libVFCFuncInstrument.cpp (all of it) on the modules of ModuleModel.v,
    and the hooks it creates. configure.ac L28 requires LLVM 17 to 21, where pointers are opaque: FloatPtrTy, DoublePtrTy and
    Int8PtrTy (L424-432) are one type, [Sca Pointer]. Hooks are executed as part of the call they replace (they take no budget
    of their own). Not modelled: function attributes (L579-580), which may let LLVM remove a call of a hook. *)
From Coq Require Import String ZArith List Bool.
From Verif Require Import Common Text FuncModel VfiModel InstrModel ModuleModel.
Import ListNotations.
Open Scope Z_scope.
Open Scope outcome_scope.

(** * What the pass reads in the module besides the instructions *)
Inductive origin := FromAlloca (n : Z) | FromGep (base : operand) | Elsewhere.
Record info := mk_info {
  n_sub : list Z -> option (list Z * list Z * Z);      (* getSubprogram: name, file, line *)
  n_dbg : list Z -> nat -> nat -> option (list Z * Z); (* function, block, instruction: file and line of the !dbg location *)
  n_var : list Z -> nat -> option (nat * list Z);      (* function, llvm.dbg call: number (from 1) and name of the parameter it describes *)
  n_library : list Z -> bool;                          (* TargetLibraryInfo::getLibFunc *)
  n_intrinsic : list Z -> bool;                        (* Function::isIntrinsic *)
  n_origin : list Z -> nat -> origin;                  (* function, register: alloca of n elements, getelementptr, anything else *)
  n_users : list Z -> nat -> list instr }.             (* function, parameter: its users, in the order of the use list *)

Definition starts_with (p s : list Z) : bool := byte_eqb (firstn (length p) s) p.
(** isLLVMDebugFunction L396-399 *)
Definition is_debug (f : list Z) : bool := starts_with (bytes "llvm.dbg.") f || starts_with (bytes "llvm.lifetime.") f.
Definition slash : list Z := bytes "/".
(** std::to_string of a size_t *)
Definition to_string (n : Z) : list Z := udec 20 n.

(** ** haveFloatingPointArithmetic L94-139: (use_float, use_double) *)
Definition operand_types (f : func instr) : list ty :=
  flat_map (fun b => flat_map (fun p : phi => map (fun x => fst (snd x)) (snd p)) (k_phis b) ++ flat_map (fun i => map fst (i_args i)) (k_body b) ++
                     match k_term b with TRet (Some a) => [fst a] | TSwitch a _ _ => [fst a] | _ => [] end) (f_blocks f).
Definition element (t : ty) : ty := match t with Vec _ s | Scalable _ s => Sca s | _ => t end.
Definition is_ty (t u : ty) : bool := ty_eqb t u.
Definition FloatTy : ty := Sca Float.
Definition DoubleTy : ty := Sca Double.
Definition PtrTy : ty := Sca Pointer.
Definition have_fp (m : list (func instr)) (ret : ty) (args : list ty) (f : list Z) : bool * bool :=
  let fl := is_ty ret FloatTy in
  let db := is_ty ret DoubleTy in
  match find_func m f with
  | Some g => if is_defined m f then (fl || existsb (fun t => is_ty (element t) FloatTy) (operand_types g), db || existsb (fun t => is_ty (element t) DoubleTy) (operand_types g))
              else (fl || existsb (fun t => is_ty t FloatTy || is_ty t PtrTy) args, db || existsb (fun t => is_ty t DoubleTy || is_ty t PtrTy) args)
  | None => (fl || existsb (fun t => is_ty t FloatTy || is_ty t PtrTy) args, db || existsb (fun t => is_ty t DoubleTy || is_ty t PtrTy) args)
  end.

(** ** getArgName L181-202; getCalledFunction() is null for an indirect call *)
Definition dbg_names : list (list Z) := [bytes "llvm.dbg.declare"; bytes "llvm.dbg.value"; bytes "llvm.dbg.addr"].
Fixpoint arg_name_in (nf : info) (f : list Z) (is : list instr) (k : nat) : outcome (list Z) :=
  match is with
  | [] => Ok (bytes "parameter_" ++ to_string (Z.of_nat k + 1))
  | i :: is' =>
      match i_op i with
      | Call None => UB
      | Call (Some c) =>
          if existsb (byte_eqb c) dbg_names then
            match n_var nf f (i_dst i) with
            | Some (p, name) => if Nat.eqb p (S k) then Ok name else arg_name_in nf f is' k
            | None => arg_name_in nf f is' k
            end
          else arg_name_in nf f is' k
      | _ => arg_name_in nf f is' k
      end
  end.
Definition arg_name (nf : info) (m : list (func instr)) (f : list Z) (k : nat) : outcome (list Z) :=
  arg_name_in nf f (match find_func m f with Some g => flat_map k_body (f_blocks g) | None => [] end) k.

(** ** getSizeOf L142-178; the recursion is not bounded in the code *)
Fixpoint index_of (r : nat) (ps : list (ty * nat)) (k : nat) : option nat :=
  match ps with [] => None | (_, x) :: ps' => if Nat.eqb x r then Some k else index_of r ps' (S k) end.
Definition is_call (i : instr) : bool := match i_op i with Call _ => true | _ => false end.
Fixpoint size_of (fuel : nat) (nf : info) (m : list (func instr)) (F : list Z) (V : operand) : outcome Z :=
  match fuel with
  | O => Diverge
  | S n =>
      match V with
      | Const _ => Ok 0
      | Reg r =>
          let arg := match find_func m F with Some g => index_of r (f_params g) 0 | None => None end in
          match arg with
          | Some k =>
              match List.find is_call (n_users nf F r) with
              | Some c => match nth_error (i_args c) k with
                          | Some (_, a) => size_of n nf m F a
                          | None => if Nat.eqb k (length (i_args c)) then Ok 0 else UB
                          end
              | None => Ok 0
              end
          | None => match n_origin nf F r with FromAlloca k => Ok k | FromGep b => size_of n nf m F b | Elsewhere => Ok 0 end
          end
      end
  end.

(** * The code of a hook *)
Inductive hval := HArg (k : nat) | HTmp (k : nat) | HRet.
Inductive vararg := VInt (z : Z) | VStr (s : list Z) | VSlot (k : nat) | VPtr (v : hval).
Inductive hop := OAlloca | OStore (v : hval) (slot : nat) | OEnter (n : Z) (va : list vararg) | OLoad (slot : nat) | OCall (args : list hval) | OExit (n : Z) (va : list vararg) | ORet (v : option hval).
(** [h_callee]: the call it makes, a clone of the original call (L367-371) or a call of the clone of main (L373-377) *)
Record hook := mk_hook { h_name : list Z; h_callee : instr; h_fun : finfo; h_code : list hop }.

Definition void : ty := Sca (Int 0).
Definition is_fp (t : ty) : bool := is_ty t DoubleTy || is_ty t FloatTy.
Definition is_ptr (t : ty) : bool := is_ty t PtrTy.
(** ftypesFromType L231-241; None is FTYPES_END *)
Definition ftype (t : ty) : option Z := if is_ty t FloatTy then Some FFLOAT else if is_ty t DoubleTy then Some FDOUBLE else if is_ty t PtrTy then Some FFLOAT_PTR else None.

(** allocateMemoryForPointers L204-229 *)
Definition out_slots (ret : ty) : nat := if is_fp ret then 1 else 0.
Definition allocs (ret : ty) (params : list ty) : list hop := repeat OAlloca (out_slots ret + length (filter is_fp params)).
Definition input_cpt (call : bool) (params : list ty) : Z := Z.of_nat (length (filter (fun t => is_fp t || (is_ptr t && call)) params)).
Definition output_cpt (call : bool) (ret : ty) (params : list ty) : Z :=
  (if is_fp ret || (is_ptr ret && call) then 1 else 0) + Z.of_nat (length (filter (fun t => is_ptr t && call) params)).
(** initializeInputArgs L243-272: the stores and the arguments; [d]: name and size of each parameter *)
Fixpoint input_args (call : bool) (params : list ty) (k slot : nat) (d : nat -> list Z * Z) : list hop * list vararg :=
  match params with
  | [] => ([], [])
  | t :: params' =>
      let head := match ftype t with Some n => [VInt n; VStr (fst (d k))] | None => [] end in
      if is_fp t then
        let '(st, va) := input_args call params' (S k) (S slot) d in (OStore (HArg k) slot :: st, head ++ [VInt 1; VSlot slot] ++ va)
      else
        let '(st, va) := input_args call params' (S k) slot d in
        (st, head ++ (if is_ptr t && call then [VInt (snd (d k)); VPtr (HArg k)] else []) ++ va)
  end.
(** L354-363: the values loaded back *)
Fixpoint reloads (params : list ty) (k slot tmp : nat) : list hop * list hval :=
  match params with
  | [] => ([], [])
  | t :: params' =>
      if is_fp t then let '(l, v) := reloads params' (S k) (S slot) (S tmp) in (OLoad slot :: l, HTmp tmp :: v)
      else let '(l, v) := reloads params' (S k) slot tmp in (l, HArg k :: v)
  end.
(** initializeOutputArgs L274-319 *)
Fixpoint pointer_outputs (call : bool) (params : list ty) (k : nat) (d : nat -> list Z * Z) : list vararg :=
  match params with
  | [] => []
  | t :: params' => (if is_ptr t && call then [VInt FFLOAT_PTR; VStr (fst (d k)); VInt (snd (d k)); VPtr (HArg k)] else []) ++ pointer_outputs call params' (S k) d
  end.
Definition output_args (call : bool) (ret : ty) (params : list ty) (d : nat -> list Z * Z) (ret_size : Z) : list hop * list vararg :=
  let head := match ftype ret with Some n => [VInt n; VStr (bytes "return_value")] | None => [] end in
  if is_fp ret then ([OStore HRet 0], head ++ [VInt 1; VSlot 0] ++ pointer_outputs call params 0 d)
  else ([], head ++ (if is_ptr ret && call then [VInt ret_size; VPtr HRet] else []) ++ pointer_outputs call params 0 d).
(** InstrumentFunction L321-394 *)
Definition hook_code (call : bool) (ret : ty) (params : list ty) (d : nat -> list Z * Z) (ret_size : Z) : list hop :=
  let off := out_slots ret in
  let '(stores, ins) := input_args call params 0 off d in
  let '(loads, args) := reloads params 0 off 0 in
  let '(store, outs) := output_args call ret params d ret_size in
  let back := if is_fp ret then [OLoad 0] else [] in
  let result := if is_ty ret void then None else if is_fp ret then Some (HTmp (length loads)) else Some HRet in
  allocs ret params ++ stores ++ [OEnter (input_cpt call params) ins] ++ loads ++ [OCall args] ++ store ++ [OExit (output_cpt call ret params) outs] ++ back ++ [ORet result].

(** the name and the size of each parameter of the hook, for the parameters described (L249-268, L302-317) *)
Fixpoint descriptions (nf : info) (m : list (func instr)) (fuel : nat) (callee caller : list Z) (call : bool) (args : list (ty * operand)) (k : nat) : outcome (list (list Z * Z)) :=
  match args with
  | [] => Ok []
  | (t, a) :: args' =>
      let* name := match ftype t with Some _ => arg_name nf m callee k | None => Ok [] end in
      let* size := if is_ptr t && call then size_of fuel nf m caller a else Ok 1 in
      let* l := descriptions nf m fuel callee caller call args' (S k) in
      Ok ((name, size) :: l)
  end.
Definition described (l : list (list Z * Z)) (k : nat) : list Z * Z := nth k l ([], 0).

(** * The pass *)
Definition b2z (b : bool) : Z := if b then 1 else 0.
Record pstate := mk_pstate { ps_cpt : Z; ps_hooks : list hook }.   (* inst_cpt; the hooks, latest first *)
(** L522-600, one instruction of function [F] (its debug information under the name [D]: the clone of main has that of main) *)
Definition pass_instr (nf : info) (m : list (func instr)) (fuel : nat) (D : list Z) (parent : list Z) (b k : nat) (i : instr) (s : pstate) : outcome (instr * pstate) :=
  match i_op i with
  | Call (Some f) =>
      if is_debug f then Ok (i, s)
      else match n_dbg nf D b k with
           | None => Ok (i, s)
           | Some (file, line) =>
               let id := file ++ slash ++ parent ++ slash ++ f ++ slash ++ to_string line ++ slash ++ to_string (ps_cpt s) in
               let name := bytes "vfc_" ++ id ++ bytes "_hook" in
               let '(fl, db) := have_fp m (i_ty i) (map fst (i_args i)) f in
               if n_intrinsic nf f && negb (fl || db) then Ok (i, mk_pstate (ps_cpt s + 1) (ps_hooks s))
               else
                 let* d := descriptions nf m fuel f D true (i_args i) 0 in
                 let h := mk_hook name i (mk_finfo id (b2z (n_library nf f)) (b2z (n_intrinsic nf f)) (b2z fl) (b2z db))
                            (hook_code true (i_ty i) (map fst (i_args i)) (described d) 0) in
                 Ok (mk_instr (i_dst i) (Call (Some name)) (i_ty i) (i_args i), mk_pstate (ps_cpt s + 1) (h :: ps_hooks s))
           end
  | _ => Ok (i, s)
  end.
Fixpoint pass_body nf m fuel D parent (b k : nat) (is : list instr) (s : pstate) : outcome (list instr * pstate) :=
  match is with
  | [] => Ok ([], s)
  | i :: is' =>
      let* '(i, s) := pass_instr nf m fuel D parent b k i s in
      let* '(is', s) := pass_body nf m fuel D parent b (S k) is' s in
      Ok (i :: is', s)
  end.
Fixpoint pass_blocks nf m fuel D parent (b : nat) (bs : list (block instr)) (s : pstate) : outcome (list (block instr) * pstate) :=
  match bs with
  | [] => Ok ([], s)
  | x :: bs' =>
      let* '(is, s) := pass_body nf m fuel D parent b 0 (k_body x) s in
      let* '(bs', s) := pass_blocks nf m fuel D parent (S b) bs' s in
      Ok (mk_block (k_phis x) is (k_term x) :: bs', s)
  end.
(** L508-511 *)
Definition pass_func nf m fuel (D : list Z) (f : func instr) (s : pstate) : outcome (func instr * pstate) :=
  match n_sub nf D with
  | None => Ok (f, s)
  | Some (parent, _, _) => let* '(bs, s) := pass_blocks nf m fuel D parent 0 (f_blocks f) s in Ok (mk_func (f_name f) (f_params f) bs, s)
  end.
Fixpoint pass_funcs nf m fuel (fs : list (func instr)) (s : pstate) : outcome (list (func instr) * pstate) :=
  match fs with
  | [] => Ok ([], s)
  | f :: fs' => let* '(f, s) := pass_func nf m fuel (f_name f) f s in let* '(fs', s) := pass_funcs nf m fuel fs' s in Ok (f :: fs', s)
  end.
Definition main_name : list Z := bytes "main".
Definition is_main (f : func instr) : bool := byte_eqb (f_name f) main_name.
(** L457-505: the clone of main and its hook, which keeps the name of main; None: no main in this module *)
Definition main_hook (nf : info) (m : list (func instr)) (main_ret : ty) (f : func instr) (cpt : Z) : outcome (func instr * hook) :=
  match n_sub nf main_name with
  | None => UB                                           (* Sub->getFilename() *)
  | Some (_, file, line) =>
      let id := file ++ slash ++ slash ++ main_name ++ slash ++ to_string line ++ slash ++ to_string cpt in
      let name := bytes "vfc_" ++ id ++ bytes "_hook" in
      let '(fl, db) := have_fp m main_ret [] main_name in
      let args := map (fun p => (fst p, Reg (snd p))) (f_params f) in
      let* d := descriptions nf m 1 main_name main_name false args 0 in
      Ok (mk_func name (f_params f) (f_blocks f),
          mk_hook main_name (mk_instr 0 (Call (Some name)) main_ret args) (mk_finfo id 0 0 (b2z fl) (b2z db))
            (hook_code false main_ret (map fst (f_params f)) (described d) 0))
  end.
Record pmodule := mk_pmodule { pm_funcs : list (func instr); pm_hooks : list hook }.
(** runOnModule L415-608. Declarations are kept *)
Definition func_pass (nf : info) (fuel : nat) (main_ret : ty) (m : list (func instr)) : outcome pmodule :=
  let others := filter (fun f => negb (is_main f)) m in
  match List.find is_main m with
  | None => let* '(fs, s) := pass_funcs nf m fuel others (mk_pstate 1 []) in Ok (mk_pmodule fs (ps_hooks s))
  | Some f =>
      let* '(clone, h) := main_hook nf m main_ret f 1 in
      let* '(fs, s) := pass_funcs nf m fuel others (mk_pstate 2 [h]) in
      let* '(c, s) := pass_func nf m fuel main_name clone s in
      Ok (mk_pmodule (fs ++ [c]) (ps_hooks s))
  end.

(** * Running hooks and instrumented modules *)
(** an argument as a backend sees it: type, name, size, and the value it may change or the address *)
Inductive place := Value (v : Z) | Address (p : list Z).
Record desc := mk_desc { d_type : Z; d_name : list Z; d_size : Z; d_place : place }.
Section run.
  Context {W : Type}.
  (** vfc_enter_function and vfc_exit_function: the new values of the arguments described, one for each (those of addresses are not used) *)
  Definition told_fun : Type := finfo -> list desc -> W -> outcome (list Z * W).
  Context (enter exit : told_fun).
  (** the callee *)
  Context (target : list (list Z) -> W -> outcome (list Z * W)).

  Record hstate := mk_hstate { hs_slots : list (option Z); hs_tmps : list Z; hs_ret : option (list Z); hs_w : W }.
  Definition hget (args : list (list Z)) (s : hstate) (v : hval) : outcome (list Z) :=
    match v with
    | HArg k => match nth_error args k with Some x => Ok x | None => UB end
    | HTmp k => match nth_error (hs_tmps s) k with Some x => Ok [x] | None => UB end
    | HRet => match hs_ret s with Some x => Ok x | None => UB end
    end.
  Definition slot_get (s : hstate) (k : nat) : outcome Z := match nth_error (hs_slots s) k with Some (Some x) => Ok x | _ => UB end.
  Definition slot_set (s : hstate) (k : nat) (x : Z) : outcome hstate :=
    if Nat.ltb k (length (hs_slots s)) then Ok (mk_hstate (set_nth (hs_slots s) k (Some x)) (hs_tmps s) (hs_ret s) (hs_w s)) else UB.
  (** va_arg: n times a type, a name, a size and a pointer; what follows is not read *)
  Fixpoint read_groups (args : list (list Z)) (s : hstate) (n : nat) (va : list vararg) : outcome (list (desc * option nat)) :=
    match n with
    | O => Ok []
    | S n =>
        match va with
        | VInt t :: VStr name :: VInt size :: p :: va' =>
            let* d := match p with
                      | VSlot k => let* x := slot_get s k in Ok (mk_desc t name size (Value x), Some k)
                      | VPtr v => let* x := hget args s v in Ok (mk_desc t name size (Address x), None)
                      | _ => UB
                      end in
            let* l := read_groups args s n va' in
            Ok (d :: l)
        | _ => UB
        end
    end.
  Fixpoint write_back (gs : list (desc * option nat)) (vs : list Z) (s : hstate) : outcome hstate :=
    match gs, vs with
    | [], [] => Ok s
    | (_, None) :: gs', _ :: vs' => write_back gs' vs' s
    | (_, Some k) :: gs', x :: vs' => let* s := slot_set s k x in write_back gs' vs' s
    | _, _ => UB
    end.
  Definition tell (hk : told_fun) (f : finfo) (args : list (list Z)) (n : Z) (va : list vararg) (s : hstate) : outcome hstate :=
    let* gs := read_groups args s (Z.to_nat n) va in
    let* '(vs, w) := hk f (map fst gs) (hs_w s) in
    write_back gs vs (mk_hstate (hs_slots s) (hs_tmps s) (hs_ret s) w).
  Fixpoint hget_all (args : list (list Z)) (s : hstate) (vs : list hval) : outcome (list (list Z)) :=
    match vs with [] => Ok [] | v :: vs' => let* x := hget args s v in let* l := hget_all args s vs' in Ok (x :: l) end.
  Fixpoint run_ops (f : finfo) (args : list (list Z)) (ops : list hop) (s : hstate) : outcome (list Z * W) :=
    match ops with
    | [] => UB
    | o :: ops' =>
        match o with
        | OAlloca => run_ops f args ops' (mk_hstate (hs_slots s ++ [None]) (hs_tmps s) (hs_ret s) (hs_w s))
        | OStore v k => let* x := hget args s v in match x with [z] => let* s := slot_set s k z in run_ops f args ops' s | _ => UB end
        | OEnter n va => let* s := tell enter f args n va s in run_ops f args ops' s
        | OLoad k => let* x := slot_get s k in run_ops f args ops' (mk_hstate (hs_slots s) (hs_tmps s ++ [x]) (hs_ret s) (hs_w s))
        | OCall vs => let* l := hget_all args s vs in let* '(r, w) := target l (hs_w s) in run_ops f args ops' (mk_hstate (hs_slots s) (hs_tmps s) (Some r) w)
        | OExit n va => let* s := tell exit f args n va s in run_ops f args ops' s
        | ORet None => Ok ([], hs_w s)
        | ORet (Some v) => let* x := hget args s v in Ok (x, hs_w s)
        end
    end.
  Definition run_hook (h : hook) (args : list (list Z)) (w : W) : outcome (list Z * W) := run_ops (h_fun h) args (h_code h) (mk_hstate [] [] None w).
End run.

Section program.
  Context {W : Type} (enter exit : told_fun (W := W)) (ext : oracle (W := W)) (hooks : list hook).
  Definition find_hook (n : list Z) : option hook := List.find (fun h => byte_eqb (h_name h) n) hooks.
  (** a call of a hook runs its code; the call it makes is an ordinary one *)
  Definition hooked (o : oracle (W := W)) : oracle (W := W) :=
    fun i vs w => match i_op i with
                  | Call (Some n) => match find_hook n with
                                     | Some h => run_hook enter exit (o (h_callee h)) h vs w
                                     | None => o i vs w
                                     end
                  | _ => o i vs w
                  end.
  Definition run_hooked : oracle (W := W) -> env -> list instr -> W -> outcome (env * W) := fun o e b w => run_block [] (hooked o) e (map Keep b) w.
  (** calling a function from outside: main is a hook *)
  Definition run_entry (m : list (func instr)) (fuel : nat) (name : list Z) (args : list (list Z)) (w : W) : outcome (list Z * W) :=
    match find_hook name with
    | Some h => run_hook enter exit (with_calls ext m (run_fun run_hooked ext m fuel) (h_callee h)) h args w
    | None => run_fun run_hooked ext m fuel name args w
    end.
End program.
