(** Model of the call stack of src/vfcwrapper/funcinstr.c in a program with several threads. _vfc_call_stack (L75-76) is
    one variable of the process without lock: each access to [top] and to the array is a step, the threads take steps in any
    order. Memory is sequentially consistent (the C standard gives such races no meaning at all). vfc_call_stack_push and
    vfc_call_stack_pop read [top] in their test and again in their change; a compiler may read it once: [once] says which. The table of functions (L28-48) is not
    modelled: an event has the address of its structure. The value loaded by vfc_call_stack_pop is not used by its caller
    (L175) and is not modelled. *)
From Coq Require Import ZArith List Bool.
From stdpp Require Import base list.
From Verif Require Import Common FuncModel.
Import ListNotations.
Open Scope Z_scope.

(** size_t top (interflop.h, interflop_function_stack_t) *)
Definition SIZE_MOD : Z := 2 ^ 64.
(** a call of vfc_enter_function with the structure at [p], or of vfc_exit_function; [tell]: useFloat or useDouble is set
    (L140, L161) and a backend that reads the stack is loaded *)
Inductive sevent := SEnter (p : Z) (tell : bool) | SLeave (tell : bool).
(** where a thread is. Push1: past the test L87; Push2: has read top in L93; Push3: has written top in L93, the store remains;
    Tell: before L146-149; Quit: before L98; Pop1: past the test L98; Pop2: has read top in L99 *)
Inductive spc :=
  | Idle | Push1 (p : Z) (tell : bool) | Push2 (p : Z) (tell : bool) (r : Z) | Push3 (p : Z) (tell : bool) (i : Z) | Tell
  | Quit | Pop1 | Pop2 (r : Z).
(** [th_depth]: how many pushes minus pops of this thread are done, only used to state properties *)
Record thread := mk_thread { th_pc : spc; th_todo : list sevent; th_depth : nat }.
(** array[top] as a backend reads it (interflop_vprec_function_instrumentation.c L553, L708): an address (0: NULL), a cell
    never written, or outside of the array *)
Inductive shown := SPtr (p : Z) | SUninit | SOutside.
Record sstate := mk_sstate { s_top : Z; s_arr : list (option Z); s_threads : list thread; s_log : list (nat * shown) }.

(** vfc_call_stack_init L79-83, then one thread per program *)
Definition s_init (progs : list (list sevent)) : sstate :=
  mk_sstate (STACK_MAX - 1) (<[Z.to_nat (STACK_MAX - 1) := Some 0]> (replicate (Z.to_nat STACK_MAX) None)) (map (fun l => mk_thread Idle l 0) progs) [].

Definition look (top : Z) (arr : list (option Z)) : shown :=
  match arr !! Z.to_nat top with Some (Some p) => SPtr p | Some None => SUninit | None => SOutside end.
Definition upd (s : sstate) (t : nat) (th : thread) : sstate := mk_sstate (s_top s) (s_arr s) (<[t := th]> (s_threads s)) (s_log s).
Definition with_top (s : sstate) (z : Z) : sstate := mk_sstate z (s_arr s) (s_threads s) (s_log s).
Definition with_arr (s : sstate) (a : list (option Z)) : sstate := mk_sstate (s_top s) a (s_threads s) (s_log s).
Definition noted (s : sstate) (t : nat) : sstate :=
  mk_sstate (s_top s) (s_arr s) (s_threads s) (s_log s ++ [(t, look (s_top s) (s_arr s))]).

(** one step of thread [t]: vfc_enter_function L123-153 with vfc_call_stack_push L86-94, vfc_exit_function L156-176 with
    vfc_call_stack_pop L97-102; a thread without anything left, or that does not exist, does nothing *)
Definition s_step (once : bool) (s : sstate) (t : nat) : outcome sstate :=
  match s_threads s !! t with
  | None => Ok s
  | Some (mk_thread pc todo d) =>
      match pc with
      | Idle => match todo with
                | [] => Ok s
                | SEnter p b :: k => if s_top s =? 0 then Exit else Ok (upd s t (mk_thread (if once then Push2 p b (s_top s) else Push1 p b) k d))
                | SLeave b :: k => Ok (upd (if b then noted s t else s) t (mk_thread Quit k d))
                end
      | Push1 p b => Ok (upd s t (mk_thread (Push2 p b (s_top s)) todo d))
      | Push2 p b r => let i := (r - 1) mod SIZE_MOD in Ok (upd (with_top s i) t (mk_thread (Push3 p b i) todo (S d)))
      | Push3 p b i => if i <? STACK_MAX
                       then Ok (upd (with_arr s (<[Z.to_nat i := Some p]> (s_arr s))) t (mk_thread (if b then Tell else Idle) todo d))
                       else UB
      | Tell => Ok (upd (noted s t) t (mk_thread Idle todo d))
      | Quit => if s_top s <? STACK_MAX then Ok (upd s t (mk_thread (if once then Pop2 (s_top s) else Pop1) todo d))
                else Ok (upd s t (mk_thread Idle todo d))
      | Pop1 => Ok (upd s t (mk_thread (Pop2 (s_top s)) todo d))
      | Pop2 r => Ok (upd (with_top s ((r + 1) mod SIZE_MOD)) t (mk_thread Idle todo (d - 1)))
      end
  end.
Definition s_run (once : bool) (progs : list (list sevent)) (sched : list nat) : outcome sstate := ofold (s_step once) sched (s_init progs).

(** * Notions used in the statements *)
(** a thread between the start and the end of a change of the stack *)
Definition critical (th : thread) : bool :=
  match th_pc th with Push1 _ _ | Push2 _ _ _ | Push3 _ _ _ | Pop1 | Pop2 _ => true | _ => false end.
(** the schedules in which a thread never takes a step during a change of the stack by another thread *)
Definition alone (s : sstate) (t : nat) : Prop := forall u th, s_threads s !! u = Some th -> u <> t -> critical th = false.
Fixpoint serial (once : bool) (s : sstate) (sched : list nat) : Prop :=
  match sched with
  | [] => True
  | t :: sched => alone s t /\ match s_step once s t with Ok s' => serial once s' sched | _ => True end
  end.
(** a program of a thread leaves only functions that it entered; the depth it reaches *)
Fixpoint bracketed (d : nat) (l : list sevent) : bool :=
  match l with
  | [] => true
  | SEnter _ _ :: l => bracketed (S d) l
  | SLeave _ :: l => match d with O => false | S d => bracketed d l end
  end.
Fixpoint deepest (d : nat) (l : list sevent) : nat :=
  match l with
  | [] => d
  | SEnter _ _ :: l => Nat.max d (deepest (S d) l)
  | SLeave _ :: l => Nat.max d (deepest (pred d) l)
  end.
(** where a program ends when run to its end from depth [d] *)
Fixpoint ends (d : nat) (l : list sevent) : nat :=
  match l with [] => d | SEnter _ _ :: l => ends (S d) l | SLeave _ :: l => ends (pred d) l end.
Fixpoint enters (l : list sevent) : nat :=
  match l with [] => O | SEnter _ _ :: l => S (enters l) | SLeave _ :: l => enters l end.
Fixpoint leaves (l : list sevent) : nat :=
  match l with [] => O | SEnter _ _ :: l => leaves l | SLeave _ :: l => S (leaves l) end.
Fixpoint sum (l : list nat) : nat := match l with [] => O | n :: l => (n + sum l)%nat end.
Definition finished (s : sstate) : Prop := Forall (fun th => th_pc th = Idle /\ th_todo th = []) (s_threads s).
(** how often a program tells the backends; how often the backends were told by thread [t] *)
Definition tell_count (b : bool) : nat := if b then 1 else 0.
Fixpoint tells (l : list sevent) : nat :=
  match l with [] => O | SEnter _ b :: l | SLeave b :: l => (tell_count b + tells l)%nat end.
Definition told_by (t : nat) (log : list (nat * shown)) : nat := length (List.filter (fun e => Nat.eqb (fst e) t) log).
