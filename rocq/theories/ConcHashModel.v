(** The delta-debug tables used by several threads: the same code as HashModel.v and DdebugModel.v (src/interflop-stdlib/hashmap/
    vfc_hashmap.c and macro ddebug of src/vfcwrapper/main.c.in), one memory access at a time. There is no lock in this code.
    Memory is sequentially consistent and each access of a size_t is one step; C11 makes every such race undefined, so the real
    behaviours include these. Not modelled: calloc that fails, a block given again by calloc after free. *)
From Coq Require Import ZArith List Bool.
From stdpp Require Import base list.
From Verif Require Import Common HashModel DdebugModel.
Import ListNotations.
Open Scope Z_scope.

(** * Memory *)
(** struct vfc_hashmap_st, vfc_hashmap.c L28-36 *)
Inductive field := Nbits | Mask | Capacity | Items | Nitems | Ndel.
(** [Fld w f]: field of dd_mustnot_instrument (w = true) or dd_must_instrument (main.c.in L164-165). [Cell b i]: item i of block b *)
Inductive loc := Fld (w : bool) (f : field) | Cell (b i : Z).
(** a pointer is the number of a block; None: the block was freed *)
Record mem := mk_mem { fld : bool -> field -> Z; heap : list (option (list Z)) }.

Definition block (m : mem) (b : Z) : option (list Z) :=
  if b <? 0 then None else match heap m !! Z.to_nat b with Some (Some cells) => Some cells | _ => None end.
(** None: outside of a block, or in a freed block *)
Definition read (m : mem) (l : loc) : option Z :=
  match l with
  | Fld w f => Some (fld m w f)
  | Cell b i => match block m b with Some cells => if i <? 0 then None else cells !! Z.to_nat i | None => None end
  end.
Definition field_eq (f g : field) : bool :=
  match f, g with Nbits, Nbits | Mask, Mask | Capacity, Capacity | Items, Items | Nitems, Nitems | Ndel, Ndel => true | _, _ => false end.
Definition write (m : mem) (l : loc) (v : Z) : option mem :=
  match l with
  | Fld w f => Some (mk_mem (fun w' f' => if Bool.eqb w w' && field_eq f f' then v else fld m w' f') (heap m))
  | Cell b i => match read m l, block m b with
                | Some _, Some cells => Some (mk_mem (fld m) (<[Z.to_nat b := Some (<[Z.to_nat i := v]> cells)]> (heap m)))
                | _, _ => None
                end
  end.

(** * Programs *)
(** [Fault]: an operation other than an access is undefined. [Spin]: the loop was still running when its fuel ended *)
Inductive prog (A : Type) :=
| Done (a : A)
| Rd (l : loc) (k : Z -> prog A)
| Wr (l : loc) (v : Z) (k : prog A)
| Calloc (n : Z) (k : Z -> prog A)
| Free (b : Z) (k : prog A)
| Fault
| Spin.
Arguments Done {A}. Arguments Rd {A}. Arguments Wr {A}. Arguments Calloc {A}. Arguments Free {A}. Arguments Fault {A}. Arguments Spin {A}.

Fixpoint seqp {A B} (p : prog A) (f : A -> prog B) : prog B :=
  match p with
  | Done a => f a
  | Rd l k => Rd l (fun v => seqp (k v) f)
  | Wr l v k => Wr l v (seqp k f)
  | Calloc n k => Calloc n (fun b => seqp (k b) f)
  | Free b k => Free b (seqp k f)
  | Fault => Fault
  | Spin => Spin
  end.
Declare Scope prog_scope.
Notation "'let!' x := p 'in' f" := (seqp p (fun x => f)) (at level 200, x name, p at level 100, f at level 200, right associativity) : prog_scope.
Open Scope prog_scope.
Definition rd (l : loc) : prog Z := Rd l Done.
Definition wr (l : loc) (v : Z) : prog unit := Wr l v (Done tt).

(** * vfc_hashmap.c *)
(** get_value_at(map->items, ii) and get_key_at(map->items, ii), L112-114: map->items is read at each call *)
Definition get_value (w : bool) (ii : Z) : prog Z := let! b := rd (Fld w Items) in rd (Cell b (2 * ii)).
Definition get_key (w : bool) (ii : Z) : prog Z := let! b := rd (Fld w Items) in rd (Cell b (2 * ii + 1)).
(** set_value_at(map->items, value, ii) and set_key_at(map->items, key, ii), L116-122 *)
Definition set_value (w : bool) (value ii : Z) : prog unit := let! b := rd (Fld w Items) in wr (Cell b (2 * ii)) value.
Definition set_key (w : bool) (key ii : Z) : prog unit := let! b := rd (Fld w Items) in wr (Cell b (2 * ii + 1)) key.

(** the loop of hashmap_add_member L135-143: None when the value is there (L138), else the free slot *)
Fixpoint add_walk (fuel : nat) (w : bool) (value ii : Z) : prog (option Z) :=
  match fuel with
  | O => Spin
  | S fuel =>
      let! a := get_value w ii in
      if a =? 0 then Done (Some ii) else
      let! b := get_value w ii in
      if b =? 1 then Done (Some ii) else
      let! c := get_value w ii in
      if c =? value then Done None else
      let! mask := rd (Fld w Mask) in add_walk fuel w value (probe_next mask ii)
  end.
(** hashmap_add_member, L125-153; nitems++ and n_deleted_items-- are a read and a write *)
Definition add_member (fuel : nat) (w : bool) (key value : Z) : prog Z :=
  if (value =? 0) || (value =? 1) then Done (-1) else
  let! mask := rd (Fld w Mask) in
  let! r := add_walk fuel w value (probe_start mask key) in
  match r with
  | None => Done 0
  | Some ii =>
      let! n := rd (Fld w Nitems) in
      let! _ := wr (Fld w Nitems) (wrap64 (n + 1)) in
      let! a := get_value w ii in
      let! _ := (if a =? 1 then let! d := rd (Fld w Ndel) in wr (Fld w Ndel) (wrap64 (d - 1)) else Done tt) in
      let! _ := set_value w value ii in
      let! _ := set_key w key ii in
      Done 1
  end.
(** the loop of maybe_rehash_map L170-173, [n] turns from index [ii] *)
Fixpoint rehash_loop (fuel : nat) (w : bool) (old : Z) (n : nat) (ii : Z) : prog unit :=
  match n with
  | O => Done tt
  | S n =>
      let! key := rd (Cell old (2 * ii + 1)) in
      let! value := rd (Cell old (2 * ii)) in
      let! _ := add_member fuel w key value in
      rehash_loop fuel w old n (ii + 1)
  end.
(** maybe_rehash_map, L156-176 *)
Definition maybe_rehash (fuel : nat) (w : bool) : prog unit :=
  let! n := rd (Fld w Nitems) in
  let! d := rd (Fld w Ndel) in
  let! c := rd (Fld w Capacity) in
  if overloaded (wrap64 (n + d)) c then
    let! old := rd (Fld w Items) in
    let! old_capacity := rd (Fld w Capacity) in
    let! nb := rd (Fld w Nbits) in
    let! _ := wr (Fld w Nbits) (nb + 1) in
    let! nb := rd (Fld w Nbits) in
    match shift_capacity nb with
    | Ok cap =>
        let! _ := wr (Fld w Capacity) cap in
        let! c := rd (Fld w Capacity) in
        let! _ := wr (Fld w Mask) (c - 1) in
        let! c := rd (Fld w Capacity) in
        let! b := Calloc (2 * c) Done in
        let! _ := wr (Fld w Items) b in
        let! _ := wr (Fld w Nitems) 0 in
        let! _ := wr (Fld w Ndel) 0 in
        let! _ := rehash_loop fuel w old (Z.to_nat old_capacity) 0 in
        Free old (Done tt)
    | _ => Fault
    end
  else Done tt.
(** vfc_hashmap_insert, L179-182 *)
Definition insert_prog (fuel : nat) (w : bool) (key value : Z) : prog unit :=
  let! _ := add_member fuel w key value in maybe_rehash fuel w.
(** the loop of vfc_hashmap_have L204-210 *)
Fixpoint have_walk (fuel : nat) (w : bool) (key ii : Z) : prog bool :=
  match fuel with
  | O => Spin
  | S fuel =>
      let! a := get_value w ii in
      if a =? 0 then Done false else
      let! k := get_key w ii in
      if k =? key then Done true else
      let! mask := rd (Fld w Mask) in have_walk fuel w key (probe_next mask ii)
  end.
(** vfc_hashmap_have, L201-212 *)
Definition have_prog (fuel : nat) (w : bool) (key : Z) : prog bool :=
  let! mask := rd (Fld w Mask) in have_walk fuel w key (probe_start mask key).

(** * main.c.in *)
(** whether VFC_DDEBUG_EXCLUDE, VFC_DDEBUG_INCLUDE and VFC_DDEBUG_GEN are set, L539-541: not written after vfc_init *)
Record paths := mk_paths { p_exclude : bool; p_include : bool; p_gen : bool }.
(** macro ddebug L565-580 for the return address [addr]: true when the backends are called *)
Definition ddebug_prog (fuel : nat) (c : paths) (addr : Z) : prog bool :=
  let! excluded := (if p_exclude c then have_prog fuel true addr else Done false) in
  if (excluded : bool) then Done false
  else if p_include c then have_prog fuel false addr
  else if p_gen c then let! _ := insert_prog fuel false addr addr in Done true
  else Done true.
(** a thread: the return addresses of its operations in order; result: which went to the backends *)
Fixpoint thread (fuel : nat) (c : paths) (trace : list Z) : prog (list bool) :=
  match trace with
  | [] => Done []
  | a :: trace => let! b := ddebug_prog fuel c a in let! bs := thread fuel c trace in Done (b :: bs)
  end.

(** * Running *)
(** one access of a thread; None: undefined behaviour *)
Definition step1 {A} (m : mem) (p : prog A) : option (mem * prog A) :=
  match p with
  | Done a => Some (m, Done a)
  | Rd l k => match read m l with Some v => Some (m, k v) | None => None end
  | Wr l v k => match write m l v with Some m' => Some (m', k) | None => None end
  | Calloc n k => Some (mk_mem (fld m) (heap m ++ [Some (replicate (Z.to_nat n) 0)]), k (Z.of_nat (length (heap m))))
  | Free b k => match block m b with Some _ => Some (mk_mem (fld m) (<[Z.to_nat b := None]> (heap m)), k) | None => None end
  | Fault => None
  | Spin => Some (m, Spin)
  end.
Definition stepj {A} (j : nat) (s : mem * list (prog A)) : option (mem * list (prog A)) :=
  match s.2 !! j with
  | None => Some s
  | Some p => match step1 s.1 p with Some (m', p') => Some (m', <[j := p']> s.2) | None => None end
  end.
(** a schedule: the thread that makes the next access, any number of times in any order *)
Fixpoint run {A} (sched : list nat) (s : mem * list (prog A)) : option (mem * list (prog A)) :=
  match sched with
  | [] => Some s
  | j :: sched => match stepj j s with Some s' => run sched s' | None => None end
  end.

(** the items of a table as L112-122 lays them out *)
Definition flat (items : list (Z * Z)) : list Z := concat (map (fun sl => [sl.1; sl.2]) items).
Definition fields_of (m : hmap) (items : Z) (f : field) : Z :=
  match f with Nbits => hm_nbits m | Mask => hm_mask m | Capacity => hm_capacity m | Items => items | Nitems => hm_nitems m | Ndel => hm_ndel m end.
(** memory after vfc_init L537-556: block 0 is the table of dd_must_instrument, block 1 that of dd_mustnot_instrument *)
Definition mustnot (st : dd) : hmap := match dd_exclude st with Some m => m | None => hashmap_create end.
Definition mem_of (st : dd) : mem :=
  mk_mem (fun w => if w then fields_of (mustnot st) 1 else fields_of (dd_must st) 0)
    [Some (flat (hm_items (dd_must st))); Some (flat (hm_items (mustnot st)))].
Definition paths_of (st : dd) : paths :=
  mk_paths (match dd_exclude st with Some _ => true | None => false end) (dd_include st) (dd_gen st).

(** the addresses ddebug_generate_inclusion L167-193 gives to addr2line, in the memory left by the threads; None: a read outside *)
Fixpoint reads (m : mem) (b : Z) (n : nat) (ii : Z) : option (list Z) :=
  match n with
  | O => Some []
  | S n => match read m (Cell b (2 * ii)), reads m b n (ii + 1) with Some v, Some l => Some (v :: l) | _, _ => None end
  end.
Definition recorded (m : mem) : option (list Z) :=
  match reads m (fld m false Items) (Z.to_nat (fld m false Capacity)) 0 with
  | Some l => Some (map (fun v => v - call_op_size) (List.filter (fun v => negb (v =? 0) && negb (v =? 1)) l))
  | None => None
  end.
