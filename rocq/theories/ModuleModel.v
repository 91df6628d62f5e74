(** Whole modules: libVFCInstrument.cpp runOnModule L264-312 and runOnFunction L382-394 on functions made of blocks, and what a
    module computes. A block has phi nodes, a body (InstrModel.v) and a terminator; the pass changes bodies only. Calls of
    functions of the module are executed; every other instruction, calls of external functions and indirect calls included, is
    the parameter [ext], which cannot call back. Exceptions, setjmp and threads are not modelled. A module computation is run
    with a budget for nested calls and for the blocks of each call; [Diverge] says that it was not enough. *)
From Coq Require Import String ZArith List Bool.
From Verif Require Import Common Text Bits FloatOps IeeeModel WrapModel VfiModel InstrModel SelectModel.
Import ListNotations.
Open Scope Z_scope.
Open Scope outcome_scope.

(** destination, then for each predecessor the incoming value *)
Definition phi : Type := nat * list (nat * (ty * operand)).
Inductive terminator := TRet (a : option (ty * operand)) | TBr (l : nat) | TSwitch (a : ty * operand) (cases : list (Z * nat)) (default : nat) | TUnreachable.
Record block B := mk_block { k_phis : list phi; k_body : list B; k_term : terminator }.
Arguments mk_block {B}. Arguments k_phis {B}. Arguments k_body {B}. Arguments k_term {B}.
(** a declaration has no blocks; the first block is the entry *)
Record func B := mk_func { f_name : list Z; f_params : list (ty * nat); f_blocks : list (block B) }.
Arguments mk_func {B}. Arguments f_name {B}. Arguments f_params {B}. Arguments f_blocks {B}.

(** * The pass *)
Fixpoint omapi {A B} (f : nat -> A -> outcome B) (k : nat) (l : list A) : outcome (list B) :=
  match l with
  | [] => Ok []
  | x :: l' => let* y := f k x in let* ys := omapi f (S k) l' in Ok (y :: ys)
  end.
Definition map_body {A B} (f : list A -> list B) (b : block A) : block B := mk_block (k_phis b) (f (k_body b)) (k_term b).
(** L390-392; [order] gives the addresses of the instructions of each block *)
Definition run_on_function (sigs : list Z -> option signature) (fl : flags) (order : list Z -> nat -> list nat) (f : func instr) : outcome (func step) :=
  let* bs := omapi (fun k b => let* s := run_on_block sigs fl (order (f_name f) k) (k_body b) in Ok (mk_block (k_phis b) s (k_term b))) 0 (f_blocks f) in
  Ok (mk_func (f_name f) (f_params f) bs).
Definition untouched (f : func instr) : func step := mk_func (f_name f) (f_params f) (map (map_body (map Keep)) (f_blocks f)).
Definition member (n : list Z) (l : list (list Z)) : bool := existsb (byte_eqb n) l.
(** L306-309; functions of a module have different names *)
Definition run_on_module sigs fl order (chosen : list (list Z)) (m : list (func instr)) : outcome (list (func step)) :=
  omapi (fun _ f => if member (f_name f) chosen then run_on_function sigs fl order f else Ok (untouched f)) 0 m.

(** * What a module computes *)
Fixpoint assoc (n : nat) (l : list (nat * (ty * operand))) : option (ty * operand) :=
  match l with [] => None | (k, a) :: l' => if Nat.eqb k n then Some a else assoc n l' end.
(** phi nodes are read together, then written *)
Fixpoint read_phis (e : env) (prev : nat) (ps : list phi) : outcome (list (nat * list Z)) :=
  match ps with
  | [] => Ok []
  | (d, ins) :: ps' =>
      match assoc prev ins with
      | None => UB
      | Some a => let* v := read e a in let* vs := read_phis e prev ps' in Ok ((d, v) :: vs)
      end
  end.
Fixpoint set_all (e : env) (l : list (nat * list Z)) : env := match l with [] => e | (d, v) :: l' => set_all (set_env e d v) l' end.
Definition enter_block {B} (e : env) (prev : option nat) (b : block B) : outcome env :=
  match prev, k_phis b with
  | None, [] => Ok e
  | None, _ => UB
  | Some p, ps => let* vs := read_phis e p ps in Ok (set_all e vs)
  end.
Fixpoint pick (x : Z) (cases : list (Z * nat)) (default : nat) : nat :=
  match cases with [] => default | (v, l) :: c => if v =? x then l else pick x c default end.
(** None: the function returns *)
Definition next (e : env) (t : terminator) : outcome (list Z + nat) :=
  match t with
  | TRet None => Ok (inl [])
  | TRet (Some a) => let* v := read e a in Ok (inl v)
  | TBr l => Ok (inr l)
  | TSwitch a cases d => let* v := read e a in match v with [x] => Ok (inr (pick x cases d)) | _ => UB end
  | TUnreachable => UB
  end.
Fixpoint bind_params (ps : list (ty * nat)) (args : list (list Z)) (e : env) : outcome env :=
  match ps, args with
  | [], [] => Ok e
  | (t, r) :: ps', v :: args' => if typed t v then bind_params ps' args' (set_env e r v) else UB
  | _, _ => UB
  end.
Definition find_func {B} (m : list (func B)) (n : list Z) : option (func B) := List.find (fun f => byte_eqb (f_name f) n) m.
(** a function with a body *)
Definition is_defined {B} (m : list (func B)) (n : list Z) : bool :=
  match find_func m n with Some f => match f_blocks f with [] => false | _ => true end | None => false end.

Section run.
  Context {B W : Type}.
  Definition oracle : Type := instr -> list (list Z) -> W -> outcome (list Z * W).
  (** how a body is run, given what instructions left as they are do *)
  Context (run_body : oracle -> env -> list B -> W -> outcome (env * W)) (ext : oracle) (m : list (func B)).

  Definition with_calls (call : list Z -> list (list Z) -> W -> outcome (list Z * W)) : oracle :=
    fun i vs w => match i_op i with
                  | Call (Some n) => if is_defined m n then call n vs w else ext i vs w
                  | _ => ext i vs w
                  end.
  Fixpoint run_blocks (o : oracle) (n : nat) (bs : list (block B)) (prev : option nat) (cur : nat) (e : env) (w : W) : outcome (list Z * W) :=
    match n with
    | O => Diverge
    | S n =>
        match nth_error bs cur with
        | None => UB
        | Some b =>
            let* e := enter_block e prev b in
            let* '(e, w) := run_body o e (k_body b) w in
            let* nx := next e (k_term b) in
            match nx with
            | inl v => Ok (v, w)
            | inr l => run_blocks o n bs (Some cur) l e w
            end
        end
    end.
  Fixpoint run_fun (fuel : nat) (name : list Z) (args : list (list Z)) (w : W) : outcome (list Z * W) :=
    match fuel with
    | O => Diverge
    | S n =>
        match find_func m name with
        | None => UB
        | Some f => let* e := bind_params (f_params f) args (fun _ => None) in run_blocks (with_calls (run_fun n)) fuel (f_blocks f) None 0 e w
        end
    end.
End run.
