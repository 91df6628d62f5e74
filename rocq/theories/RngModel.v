(** Random number generation (src/interflop-stdlib/rng). 64-bit words are [Z] in [0, 2^64). *)
From Coq Require Import ZArith List Bool.
From Verif Require Import Common Bits.
Import ListNotations.
Open Scope Z_scope.

(** splitmix64.c L23-28 *)
Definition next_seed (s : Z) : Z :=
  let z := wrap64 (s + 0x9E3779B97F4A7C15) in
  let z := wrap64 (Z.lxor z (Z.shiftr z 30) * 0xBF58476D1CE4E5B9) in
  let z := wrap64 (Z.lxor z (Z.shiftr z 27) * 0x94D049BB133111EB) in
  Z.lxor z (Z.shiftr z 31).

(** xoroshiro128.c L25-27 *)
Definition rotl (x k : Z) : Z := Z.lor (wrap64 (Z.shiftl x k)) (Z.shiftr x (64 - k)).

(** xoroshiro_state: two words *)
Definition xstate : Type := Z * Z.

(** xoroshiro128.c L29-39: the value returned, the state left *)
Definition xresult (s : xstate) : Z := wrap64 (rotl (wrap64 (fst s + snd s)) 17 + fst s).
Definition xstep (s : xstate) : xstate :=
  let s1 := Z.lxor (snd s) (fst s) in
  (Z.lxor (Z.lxor (rotl (fst s) 49) s1) (wrap64 (Z.shiftl s1 21)), rotl s1 28).

(** the literals 1.0 and -1.0 as binary64 patterns *)
Definition one64 : Z := 0x3FF0000000000000.
Definition minus_one64 : Z := 0xBFF0000000000000.

(** xoroshiro128.c L49-55: bits of a double in [1,2), minus 1.0 *)
Definition to_double (x : Z) : Z :=
  fadd binary64 (Z.lor (Z.shiftl 0x3FF 52) (Z.shiftr x 12)) minus_one64.

(** vfc_rng.h: rng_state_t *)
Record rng := mk_rng { choose : bool; seed : Z; valid : bool; words : xstate }.
(** static TLS storage: zero initialised *)
Definition rng0 : rng := mk_rng false 0 false (0, 0).

(** vfc_rng.c L40-55, _set_seed: the time based seed is an input *)
Definition set_seed (r : rng) (choose_seed : bool) (s clock : Z) : rng :=
  let s' := if choose_seed then s else clock in
  mk_rng (choose r) s' (valid r) (next_seed s', next_seed s').

(** vfc_rng.c L40-55, the time based seed tv_sec ^ tv_usec ^ gettid() *)
Definition clock_seed (sec usec tid : Z) : Z := wrap64 (Z.lxor (Z.lxor sec usec) tid).

(** pid_t arithmetic: __atomic_add_fetch on a 32-bit int wraps *)
Definition int_wrap (x : Z) : Z := (x + 2 ^ 31) mod 2 ^ 32 - 2 ^ 31.
(** vfc_rng.c L23-34 and L61-63, _INIT_RANDOM_STATE with _get_new_tid: the global counter is read only when a seed is fixed;
    the int is converted to uint64_t by the exclusive or *)
Definition init_random_state (r : rng) (gtid clock : Z) : rng * Z :=
  if valid r then (r, gtid)
  else if choose r then
    let t := int_wrap (gtid + 1) in
    let r := set_seed r true (Z.lxor (seed r) (wrap64 t)) clock in
    (mk_rng (choose r) (seed r) true (words r), t)
  else
    let r := set_seed r false 0 clock in
    (mk_rng (choose r) (seed r) true (words r), gtid).

(** vfc_rng.c L67-74, _init_rng_state_struct *)
Definition init_rng_state_struct (r : rng) (choose_seed : bool) (s : Z) (v : bool) : rng :=
  if valid r then r else mk_rng choose_seed s v (words r).

(** vfc_rng.c L77-96, get_rand_uint64 / get_rand_uint32 (little endian) / get_rand_double01 *)
Definition draw64 (r : rng) (gtid clock : Z) : Z * rng * Z :=
  let '(r, g) := init_random_state r gtid clock in
  (xresult (words r), mk_rng (choose r) (seed r) (valid r) (xstep (words r)), g).
Definition get_rand_uint32 (r : rng) (gtid clock : Z) : Z * rng * Z :=
  let '(u, r, g) := draw64 r gtid clock in (wrap32 u, r, g).
Definition get_rand_double01 (r : rng) (gtid clock : Z) : Z * rng * Z :=
  let '(u, r, g) := draw64 r gtid clock in (to_double u, r, g).

(** The generators of all threads of one process: TLS states, one global counter (e.g. mcaquad_global_tid). A thread's
    perturbed operation first calls _init_rng_state_struct with the backend's seed (_INEXACT of every backend), then draws. *)
Record rngs := mk_rngs { tls : nat -> rng; gtid : Z }.
Definition rngs0 : rngs := mk_rngs (fun _ => rng0) 0.
Definition tls_set (m : nat -> rng) (i : nat) (r : rng) : nat -> rng := fun j => if Nat.eqb i j then r else m j.

Definition thread_draw (choose_seed : bool) (s clock : Z) (m : rngs) (i : nat) : Z * rngs :=
  let r := init_rng_state_struct (tls m i) choose_seed s false in
  let '(u, r, g) := draw64 r (gtid m) clock in
  (u, mk_rngs (tls_set (tls m) i r) g).

(** a schedule: which thread performs each successive draw; [clock i] is the time based seed thread i would read *)
Fixpoint run_draws (choose_seed : bool) (s : Z) (clock : nat -> Z) (m : rngs) (sch : list nat) : list (nat * Z) * rngs :=
  match sch with
  | [] => ([], m)
  | i :: sch' =>
      let '(u, m) := thread_draw choose_seed s (clock i) m i in
      let '(l, m) := run_draws choose_seed s clock m sch' in
      ((i, u) :: l, m)
  end.

(** mcaquad_push_seed / mcaquad_pop_seed, interflop_mca.c L248-254 (the other backends have the same two functions):
    (state in use, saved copy) *)
Definition push_seed (p : rng * rng) (s : Z) : rng * rng := (init_rng_state_struct (fst p) true s false, fst p).
Definition pop_seed (p : rng * rng) : rng * rng := (snd p, snd p).
