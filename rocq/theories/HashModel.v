(** Model of the open-addressing tables of Verificarlo:
    - src/interflop-stdlib/hashmap/vfc_hashmap.c (hash map, keys and values are size_t),
    - src/vfcwrapper/hashset.c (hash set).
    Simplifications: calloc/free always succeed and are not modelled (the L95-97, L103-106
    failure branches never run); the array [items] is a Gallina list; reading or writing
    outside of it is the outcome [UB]. *)
From Coq Require Import ZArith List Bool.
From stdpp Require Import base list.
From Verif Require Import Common.
Import ListNotations.
Open Scope Z_scope.
Open Scope outcome_scope.

(** vfc_hashmap.c L23-24, hashset.c L18-19 *)
Definition prime_1 : Z := 73.
Definition prime_2 : Z := 5009.

(** First probe index  [mask & (prime_1 * key)]  (vfc_hashmap.c L133, L186, L202, L216;
    hashset.c L57, L104, L121); the product is a size_t product. *)
Definition probe_start (mask key : Z) : Z := Z.land mask (wrap64 (prime_1 * key)).

(** Next probe index [mask & (ii + prime_2)] (vfc_hashmap.c L141, L195, L208, L222; hashset.c L64, L113, L127). *)
Definition probe_next (mask ii : Z) : Z := Z.land mask (wrap64 (ii + prime_2)).

(** The while loops of all table functions: walk from [ii] until [stop] holds for the slot.
    [fuel] is the capacity: the walk is a cycle through the slots, so running for that many
    steps without stopping means that the C loop never ends. *)
Fixpoint probe {A} (stop : A -> bool) (items : list A) (mask ii : Z) (fuel : nat) : outcome (Z * A) :=
  match fuel with
  | O => Diverge
  | S fuel' =>
      match items !! (Z.to_nat ii) with
      | None => UB
      | Some sl => if stop sl then Ok (ii, sl)
                   else probe stop items mask (probe_next mask ii) fuel'
      end
  end.

(** [(nitems + n_deleted >= (double)capacity * 0.85)] (vfc_hashmap.c L160, hashset.c L79).
    The double 0.85 is 7656119366529843 * 2^-53; [capacity] is a power of two, so the product is
    exact, and so is the conversion of the left operand as long as it is below 2^53. *)
Definition overloaded (n capacity : Z) : bool :=
  capacity * 7656119366529843 <=? n * 2 ^ 53.

(** [(size_t)(1 << nbits)] (vfc_hashmap.c L99, L164; hashset.c L28, L83): int shift, undefined from 31 on. *)
Definition shift_capacity (nbits : Z) : outcome Z :=
  if (0 <=? nbits) && (nbits <? 31) then Ok (2 ^ nbits) else UB.

(** ** Hash map *)

(** struct vfc_hashmap_st, vfc_hashmap.c L28-36; a slot is (value, key), L112-122. *)
Record hmap := mk_hmap {
  hm_nbits : Z;
  hm_mask : Z;
  hm_capacity : Z;
  hm_items : list (Z * Z);
  hm_nitems : Z;
  hm_ndel : Z }.

(** vfc_hashmap_create, L91-110 *)
Definition hashmap_create : hmap :=
  mk_hmap 3 7 8 (replicate 8 (0, 0)) 0 0.

(** hashmap_add_member, L125-153 (result: return code and new map) *)
Definition hashmap_add_member (m : hmap) (key value : Z) : outcome (Z * hmap) :=
  if (value =? 0) || (value =? 1) then Ok (-1, m)
  else
    let* '(ii, sl) := probe (fun sl => (sl.1 =? 0) || (sl.1 =? 1) || (sl.1 =? value))
                        (hm_items m) (hm_mask m) (probe_start (hm_mask m) key)
                        (length (hm_items m)) in
    if (sl.1 =? 0) || (sl.1 =? 1) then
      Ok (1, mk_hmap (hm_nbits m) (hm_mask m) (hm_capacity m)
               (<[Z.to_nat ii := (value, key)]> (hm_items m))
               (wrap64 (hm_nitems m + 1))
               (if sl.1 =? 1 then wrap64 (hm_ndel m - 1) else hm_ndel m))
    else Ok (0, m).

(** loop L170-173 of maybe_rehash_map *)
Definition rehash_items (old : list (Z * Z)) (m : hmap) : outcome hmap :=
  ofold (fun m sl => omap snd (hashmap_add_member m sl.2 sl.1)) old m.

(** maybe_rehash_map, L156-176 *)
Definition maybe_rehash_map (m : hmap) : outcome hmap :=
  if overloaded (wrap64 (hm_nitems m + hm_ndel m)) (hm_capacity m) then
    let* cap := shift_capacity (hm_nbits m + 1) in
    rehash_items (hm_items m)
      (mk_hmap (hm_nbits m + 1) (cap - 1) cap (replicate (Z.to_nat cap) (0, 0)) 0 0)
  else Ok m.

(** vfc_hashmap_insert, L179-182 *)
Definition hashmap_insert (m : hmap) (key value : Z) : outcome hmap :=
  let* r := hashmap_add_member m key value in maybe_rehash_map (snd r).

(** the walk shared by vfc_hashmap_remove / have / get (L186-197, L202-211, L216-225) *)
Definition hashmap_find (m : hmap) (key : Z) : outcome (Z * (Z * Z)) :=
  probe (fun sl => (sl.1 =? 0) || (sl.2 =? key)) (hm_items m) (hm_mask m)
    (probe_start (hm_mask m) key) (length (hm_items m)).

(** vfc_hashmap_remove, L185-198 *)
Definition hashmap_remove (m : hmap) (key : Z) : outcome hmap :=
  let* '(ii, sl) := hashmap_find m key in
  if sl.1 =? 0 then Ok m
  else Ok (mk_hmap (hm_nbits m) (hm_mask m) (hm_capacity m)
             (<[Z.to_nat ii := (1, sl.2)]> (hm_items m))
             (wrap64 (hm_nitems m - 1)) (wrap64 (hm_ndel m + 1))).

(** vfc_hashmap_have, L201-212 *)
Definition hashmap_have (m : hmap) (key : Z) : outcome bool :=
  let* '(_, sl) := hashmap_find m key in Ok (negb (sl.1 =? 0)).

(** vfc_hashmap_get, L215-226; Null is 0 *)
Definition hashmap_get (m : hmap) (key : Z) : outcome Z :=
  let* '(_, sl) := hashmap_find m key in Ok (if sl.1 =? 0 then 0 else sl.1).

(** vfc_hashmap_num_items, L229 *)
Definition hashmap_num_items (m : hmap) : Z := hm_nitems m.

(** vfc_hashmap_str_function, L232-245, on the bytes of the string *)
Definition hashmap_str_function (s : list Z) : Z :=
  fold_left (fun index c => wrap64 (index * 31 + c)) s 0.

(** ** Hash set *)

(** struct hashset_st (fields used in hashset.c L27-36) *)
Record hset := mk_hset {
  hs_nbits : Z;
  hs_mask : Z;
  hs_capacity : Z;
  hs_items : list Z;
  hs_nitems : Z;
  hs_ndel : Z }.

(** hashset_create, hashset.c L21-38 *)
Definition hashset_create : hset := mk_hset 3 7 8 (replicate 8 0) 0 0.

(** hashset_num_items, hashset.c L40 *)
Definition hashset_num_items (s : hset) : Z := hs_nitems s.

(** hashset_add_member, hashset.c L49-73 *)
Definition hashset_add_member (s : hset) (value : Z) : outcome (Z * hset) :=
  if (value =? 0) || (value =? 1) then Ok (-1, s)
  else
    let* '(ii, sl) := probe (fun v => (v =? 0) || (v =? 1) || (v =? value))
                        (hs_items s) (hs_mask s) (probe_start (hs_mask s) value)
                        (length (hs_items s)) in
    if (sl =? 0) || (sl =? 1) then
      Ok (1, mk_hset (hs_nbits s) (hs_mask s) (hs_capacity s)
               (<[Z.to_nat ii := value]> (hs_items s))
               (wrap64 (hs_nitems s + 1))
               (if sl =? 1 then wrap64 (hs_ndel s - 1) else hs_ndel s))
    else Ok (0, s).

(** maybe_rehash, hashset.c L75-94 *)
Definition hashset_maybe_rehash (s : hset) : outcome hset :=
  if overloaded (wrap64 (hs_nitems s + hs_ndel s)) (hs_capacity s) then
    let* cap := shift_capacity (hs_nbits s + 1) in
    ofold (fun s v => omap snd (hashset_add_member s v)) (hs_items s)
      (mk_hset (hs_nbits s + 1) (cap - 1) cap (replicate (Z.to_nat cap) 0) 0 0)
  else Ok s.

(** hashset_add, hashset.c L96-100 *)
Definition hashset_add (s : hset) (value : Z) : outcome (Z * hset) :=
  let* r := hashset_add_member s value in
  let* s' := hashset_maybe_rehash (snd r) in
  Ok (fst r, s').

(** walk shared by hashset_remove / hashset_is_member (hashset.c L103-116, L121-130) *)
Definition hashset_find (s : hset) (value : Z) : outcome (Z * Z) :=
  probe (fun v => (v =? 0) || (v =? value)) (hs_items s) (hs_mask s)
    (probe_start (hs_mask s) value) (length (hs_items s)).

(** hashset_remove, hashset.c L102-117 *)
Definition hashset_remove (s : hset) (value : Z) : outcome (Z * hset) :=
  let* '(ii, sl) := hashset_find s value in
  if sl =? 0 then Ok (0, s)
  else Ok (1, mk_hset (hs_nbits s) (hs_mask s) (hs_capacity s)
                (<[Z.to_nat ii := 1]> (hs_items s))
                (wrap64 (hs_nitems s - 1)) (wrap64 (hs_ndel s + 1))).

(** hashset_is_member, hashset.c L119-131 *)
Definition hashset_is_member (s : hset) (value : Z) : outcome bool :=
  let* '(_, sl) := hashset_find s value in Ok (negb (sl =? 0)).
