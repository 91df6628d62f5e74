(** Model of the memory of the probes, src/common/vfc_probes.c, over any history of calls on one [vfc_probes], and of the
    names that a Fortran program passes (src/common/vfc_probes_f.f90).
    ProbesModel.v has the contents; here each block that malloc gave is alive or not, and an access to a block that is not, or
    freeing it, is undefined. The key and the mode of a node are named after the address of the node.
    Simplified: malloc succeeds; the table and its items are the two blocks of vfc_hashmap_create, the growth of the items
    (vfc_hashmap.c: maybe_rehash_map) frees the old ones and is not followed. *)
From Coq Require Import String ZArith List Bool.
From stdpp Require Import base list.
From Verif Require Import Common HashModel Text ProbesModel.
Import ListNotations.
Open Scope Z_scope.
Open Scope outcome_scope.

Inductive block := Table | Items | Node (a : Z) | Key (a : Z) | Mode (a : Z).
Global Instance block_dec : EqDecision block.
Proof. solve_decision. Defined.
Definition memory := block -> bool.
Definition set (m : memory) (b : block) (v : bool) : memory := fun x => if decide (x = b) then v else m x.
Definition free (b : block) (m : memory) : outcome memory := if m b then Ok (set m b false) else UB.

Record life := mk_life { contents : pstate; mem : memory }.
(** vfc_init_probes L92-97, vfc_init_probes_f L289 *)
Definition start : life := mk_life init_probes (fun b => match b with Table | Items => true | _ => false end).

(** vfc_probe_kernel L147-187: strcmp reads the key of the node found under the same hash (L166-167) *)
Definition probe (l : life) (r : probe_req) : outcome life :=
  if negb (validate_probe_key (pr_test r)) || negb (validate_probe_key (pr_var r)) then Exit
  else
    let* old := hashmap_get (ps_map (contents l)) (hashmap_str_function (gen_probe_key (pr_test r) (pr_var r))) in
    if negb (old =? 0) && negb (mem l (Node old) && mem l (Key old)) then UB
    else
      let* st := probe_kernel (contents l) r in
      Ok (mk_life st (set (set (set (mem l) (Node (pr_addr r)) true) (Key (pr_addr r)) true) (Mode (pr_addr r)) true)).

(** the loop of vfc_free_probes L104-115: probe->key is read, then the key and the mode are freed *)
Fixpoint free_keys (items : list (Z * Z)) (m : memory) : outcome memory :=
  match items with
  | [] => Ok m
  | (v, _) :: items' =>
      if (v =? 0) || (v =? 1) then free_keys items' m
      else if m (Node v) then let* m1 := free (Key v) m in let* m2 := free (Mode v) m1 in free_keys items' m2 else UB
  end.
(** vfc_hashmap_free (vfc_hashmap.c L248-252): the values, neither the items nor the table; L250 tests twice for 0 *)
Fixpoint free_nodes (items : list (Z * Z)) (m : memory) : outcome memory :=
  match items with
  | [] => Ok m
  | (v, _) :: items' => if v =? 0 then free_nodes items' m else let* m1 := free (Node v) m in free_nodes items' m1
  end.
(** vfc_free_probes L100-118: the table still has the addresses of the nodes *)
Definition free_probes (l : life) : outcome life :=
  let items := hm_items (ps_map (contents l)) in
  let* m1 := free_keys items (mem l) in
  let* m2 := free_nodes items m1 in
  Ok (mk_life (contents l) m2).
(** the reads of the loop of vfc_dump_probes L250-256 *)
Definition readable (m : memory) (items : list (Z * Z)) : bool :=
  forallb (fun it => (fst it =? 0) || m (Node (fst it)) && m (Key (fst it)) && m (Mode (fst it))) items.
(** vfc_dump_probes L220-264; [output]: VFC_PROBES_OUTPUT is set, to a file that can be opened *)
Definition dump (output : bool) (l : life) : outcome life :=
  if output && negb (readable (mem l) (hm_items (ps_map (contents l)))) then UB else free_probes l.

Inductive call := Probe (r : probe_req) | Free | Dump (output : bool).
Definition step (l : life) (c : call) : outcome life :=
  match c with Probe r => probe l r | Free => free_probes l | Dump o => dump o l end.

(** A character argument of the Fortran interface (vfc_probes_f.f90 L49-50) is the address of its bytes, without length:
    strlen and strcpy (vfc_probes.c L122-132) read up to the first 0, in the argument or in what follows it in memory *)
Fixpoint c_string (m : list Z) : option (list Z) :=
  match m with [] => None | x :: m' => if x =? 0 then Some [] else match c_string m' with Some s => Some (x :: s) | None => None end end.
(** vfc_num_probes returns unsigned int (vfc_probes.c L214), Fortran reads a C_SIZE_T (vfc_probes_f.f90 L54): the upper half of
    the register is not specified by the x86-64 calling convention *)
Definition fortran_num_probes (upper : Z) (l : life) : Z := upper * 2 ^ 32 + num_probes (contents l) mod 2 ^ 32.
