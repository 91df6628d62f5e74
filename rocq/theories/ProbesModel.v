(** Model of the variable probes, src/common/vfc_probes.c.
    A [double] is an opaque [Z] token here (its bit pattern); [fmt_a] stands for printf's %a. The heap is an
    association list from node addresses to nodes. malloc is modelled by passing the address it returns with the
    request ([pr_addr]).  Text encoding: strings are byte lists without the terminating NUL. *)
From Coq Require Import String ZArith List Bool.
From stdpp Require Import base list.
From Verif Require Import Common HashModel Text.
Import ListNotations.
Open Scope Z_scope.
Open Scope outcome_scope.

(** the three modes written by vfc_probe L191, vfc_probe_check L199, vfc_probe_check_relative L207 *)
Inductive check_mode := CheckNone | CheckAbsolute | CheckRelative.
Definition mode_text (m : check_mode) : list Z :=
  match m with
  | CheckNone => bytes "none"%string
  | CheckAbsolute => bytes "absolute"%string
  | CheckRelative => bytes "relative"%string
  end.

(** struct vfc_probe_node (vfc_probes.c L40-50) *)
Record node := mk_node { nd_key : list Z; nd_val : Z; nd_thr : Z; nd_mode : list Z }.

(** A call of one of the three insertion functions, with the address malloc returns at L177 *)
Record probe_req := mk_req {
  pr_test : list Z; pr_var : list Z; pr_val : Z; pr_thr : Z; pr_mode : check_mode; pr_addr : Z }.

Record pstate := mk_pstate { ps_map : hmap; ps_heap : list (Z * node) }.

(** vfc_init_probes L92-97 *)
Definition init_probes : pstate := mk_pstate hashmap_create [].

Fixpoint heap_get (h : list (Z * node)) (a : Z) : option node :=
  match h with
  | [] => None
  | (a', n) :: h' => if a' =? a then Some n else heap_get h' a
  end.

(** gen_probe_key L121-128 *)
Definition gen_probe_key (test var : list Z) : list Z := test ++ [comma] ++ var.

(** validate_probe_key L131-143: true when the check passes *)
Definition validate_probe_key (s : list Z) : bool := negb (existsb (Z.eqb comma) s).

(** vfc_probe_kernel L147-187 (probes <> NULL) *)
Definition probe_kernel (st : pstate) (r : probe_req) : outcome pstate :=
  if negb (validate_probe_key (pr_test r)) then Exit
  else if negb (validate_probe_key (pr_var r)) then Exit
  else
    let key := gen_probe_key (pr_test r) (pr_var r) in
    let* old := hashmap_get (ps_map st) (hashmap_str_function key) in
    let insert :=
      let* m := hashmap_insert (ps_map st) (hashmap_str_function key) (pr_addr r) in
      Ok (mk_pstate m ((pr_addr r, mk_node key (pr_val r) (pr_thr r) (mode_text (pr_mode r))) :: ps_heap st)) in
    if old =? 0 then insert
    else match heap_get (ps_heap st) old with
         | None => UB
         | Some n => if decide (key = nd_key n) then Exit else insert
         end.

(** vfc_num_probes L214-216 *)
Definition num_probes (st : pstate) : Z := hashmap_num_items (ps_map st).

Section dump.
  Context (fmt_a : Z -> list Z).

  (** the fprintf of L253-254 *)
  Definition probe_line (n : node) : list Z :=
    nd_key n ++ [comma] ++ fmt_a (nd_val n) ++ [comma] ++ fmt_a (nd_thr n) ++ [comma] ++ nd_mode n ++ [newline].

  (** loop L250-256 *)
  Fixpoint dump_items (items : list (Z * Z)) (h : list (Z * node)) : outcome (list Z) :=
    match items with
    | [] => Ok []
    | (v, _) :: items' =>
        if v =? 0 then dump_items items' h
        else match heap_get h v with
             | None => UB
             | Some n => let* rest := dump_items items' h in Ok (probe_line n ++ rest)
             end
    end.

  Definition csv_header : list Z := bytes "test,variable,value,accuracy_threshold,check_mode"%string.

  (** vfc_dump_probes L220-264: contents of the file when VFC_PROBES_OUTPUT names a writable file
      (the final vfc_free_probes only releases memory: ProbesLifeModel.v) *)
  Definition dump_probes (st : pstate) : outcome (list Z) :=
    let* body := dump_items (hm_items (ps_map st)) (ps_heap st) in
    Ok (csv_header ++ [newline] ++ body).
End dump.
