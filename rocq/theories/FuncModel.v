(** Model of src/vfcwrapper/funcinstr.c: the function table and the call stack handed to the backends. Pointers are Z (0 is
    NULL); [al i] is the address the i-th malloc returns. Not modelled: threads (table and stack are process-wide and have
    no lock), failing malloc. *)
From Coq Require Import ZArith List Bool.
From stdpp Require Import base list.
From Verif Require Import Common HashModel.
Import ListNotations.
Open Scope Z_scope.
Open Scope outcome_scope.

(** interflop_function_info_t (interflop.h L78-91) *)
Record finfo := mk_finfo { f_id : list Z; f_library : Z; f_intrinsic : Z; f_float : Z; f_double : Z }.
(** _VFC_CALL_STACK_MAXSIZE L20 *)
Definition STACK_MAX : Z := 4096.

(** _vfc_func_map, the allocated structures, the number of malloc, _vfc_call_stack (None: uninitialised cell) *)
Record fstate := mk_fstate { fi_map : hmap; fi_heap : list (Z * finfo); fi_next : nat; fi_arr : list (option Z); fi_top : Z }.
(** vfc_init_func_inst L182-188: vfc_call_stack_init L79-83, vfc_func_table_init L64 *)
Definition fi_init : fstate :=
  mk_fstate hashmap_create [] 0 (<[4095%nat := Some 0]> (replicate 4096 None)) (STACK_MAX - 1).

(** vfc_func_table_get L44-48 then, when NULL, vfc_func_table_add L28-41 (as called by vfc_enter_function L127-136) *)
Definition func_intern (al : nat -> Z) (st : fstate) (f : finfo) : outcome (Z * fstate) :=
  let key := hashmap_str_function (f_id f) in
  let* p := hashmap_get (fi_map st) key in
  if p =? 0 then
    let q := al (fi_next st) in
    let* m := hashmap_insert (fi_map st) key q in
    Ok (q, mk_fstate m ((q, f) :: fi_heap st) (S (fi_next st)) (fi_arr st) (fi_top st))
  else Ok (p, st).
(** vfc_call_stack_push L86-94 *)
Definition stack_push (st : fstate) (p : Z) : outcome fstate :=
  if fi_top st =? 0 then Exit
  else if (1 <=? fi_top st) && (fi_top st <=? STACK_MAX) then
    Ok (mk_fstate (fi_map st) (fi_heap st) (fi_next st) (<[Z.to_nat (fi_top st - 1) := Some p]> (fi_arr st)) (fi_top st - 1))
  else UB.
(** vfc_call_stack_pop L97-102 (its result is not used) *)
Definition stack_pop (st : fstate) : fstate :=
  if fi_top st <? STACK_MAX then mk_fstate (fi_map st) (fi_heap st) (fi_next st) (fi_arr st) (fi_top st + 1) else st.

(** what a backend reads in the stack it is given: the structures from array[top] up to the NULL sentinel *)
Fixpoint heap_get (h : list (Z * finfo)) (p : Z) : outcome finfo :=
  match h with [] => UB | (q, f) :: h' => if p =? q then Ok f else heap_get h' p end.
Fixpoint walk (fuel : nat) (st : fstate) (i : nat) : outcome (list finfo) :=
  match fuel with
  | O => Diverge
  | S fuel => match fi_arr st !! i with
              | Some (Some p) => if p =? 0 then Ok [] else let* f := heap_get (fi_heap st) p in let* l := walk fuel st (S i) in Ok (f :: l)
              | _ => UB
              end
  end.
Definition view (st : fstate) : outcome (list finfo) := walk (S (length (fi_arr st))) st (Z.to_nat (fi_top st)).

(** are the backends told (L140, L161) *)
Definition told (f : finfo) : bool := negb (f_float f =? 0) || negb (f_double f =? 0).
Inductive fevent := FEnter (f : finfo) | FExit (f : finfo).
(** vfc_enter_function L123-153 and vfc_exit_function L156-176; [log]: the stacks the backends are given, latest first *)
Definition fi_step (al : nat -> Z) (s : fstate * list (list finfo)) (e : fevent) : outcome (fstate * list (list finfo)) :=
  let '(st, log) := s in
  match e with
  | FEnter f =>
      let* '(p, st1) := func_intern al st f in
      let* st2 := stack_push st1 p in
      if told f then let* v := view st2 in Ok (st2, v :: log) else Ok (st2, log)
  | FExit f =>
      if told f then let* v := view st in Ok (stack_pop st, v :: log) else Ok (stack_pop st, log)
  end.
Definition fi_run (al : nat -> Z) (h : list fevent) : outcome (fstate * list (list finfo)) := ofold (fi_step al) h (fi_init, []).
