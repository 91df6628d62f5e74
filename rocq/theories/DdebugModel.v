(** Model of the delta-debug filters of src/vfcwrapper/main.c.in: reading filter files, filtering call sites, generating the
    list of sites. Text is a byte list without 0. An address is a Z. Not here: concurrent calls (ConcHashModel.v),
    fork/exec of addr2line, whose output for an address is a parameter. *)
From Coq Require Import ZArith List Bool.
From stdpp Require Import base list.
From Verif Require Import Common HashModel Text Bits FloatOps IeeeModel WrapModel.
Import ListNotations.
Open Scope Z_scope.
Open Scope outcome_scope.

(** CALL_OP_SIZE L47-53 on x86-64 *)
Definition call_op_size : Z := 5.

(** * sscanf(line, "%p", &addr) (C library): blanks, a sign, 0x, hexadecimal digits; or "(nil)" *)
Definition is_blank (c : Z) : bool := (c =? 32) || ((9 <=? c) && (c <=? 13)).
Fixpoint skip_blanks (l : list Z) : list Z := match l with [] => [] | c :: l' => if is_blank c then skip_blanks l' else l end.
Definition hexval (c : Z) : option Z :=
  if (48 <=? c) && (c <=? 57) then Some (c - 48)
  else if (97 <=? c) && (c <=? 102) then Some (c - 87)
  else if (65 <=? c) && (c <=? 70) then Some (c - 55) else None.
(** value of the longest run of digits; None when there is no digit *)
Fixpoint hex_run (l : list Z) (acc : option Z) : option Z :=
  match l with
  | [] => acc
  | c :: l' => match hexval c with
               | Some d => hex_run l' (Some (16 * match acc with Some v => v | None => 0 end + d))
               | None => acc
               end
  end.
Definition saturate (neg : bool) (v : Z) : Z := if 2 ^ 64 <=? v then 2 ^ 64 - 1 else if neg then wrap64 (- v) else v.
Definition scan_p (line : list Z) : option Z :=
  let l := skip_blanks line in
  let '(neg, l) := match l with 45 :: l' => (true, l') | 43 :: l' => (false, l') | _ => (false, l) end in
  let number := match l with
                | 48 :: x :: l' => if (x =? 120) || (x =? 88) then hex_run l' (Some 0) else hex_run l None
                | _ => hex_run l None
                end in
  match number with
  | Some v => Some (saturate neg v)
  | None => match l with 40 :: 110 :: 105 :: 108 :: 41 :: _ => Some 0 | _ => None end
  end.

(** fgets(line, 2048, input): at most 2047 bytes, up to and including a newline *)
Fixpoint fgets (n : nat) (l : list Z) : list Z * list Z :=
  match n, l with
  | O, _ => ([], l)
  | _, [] => ([], [])
  | S n', c :: l' => if c =? newline then ([c], l') else let '(a, b) := fgets n' l' in (c :: a, b)
  end.
Definition LINE_MAX : nat := 2047.
(** the loop of vfc_read_filter_file L244-254; each turn uses at least one byte *)
Fixpoint read_filter (fuel : nat) (text : list Z) (m : hmap) : outcome hmap :=
  match fuel with
  | O => Diverge
  | S fuel =>
      match text with
      | [] => Ok m
      | _ => let '(line, rest) := fgets LINE_MAX text in
             match scan_p line with
             | Some a => let* m' := hashmap_insert m (wrap64 (a + call_op_size)) (wrap64 (a + call_op_size)) in read_filter fuel rest m'
             | None => Exit
             end
      end
  end.
(** vfc_read_filter_file L237-256; None: the file cannot be opened *)
Definition vfc_read_filter_file (file : option (list Z)) (m : hmap) : outcome hmap :=
  match file with None => Ok m | Some text => read_filter (S (length text)) text m end.

(** * Filtering *)
(** dd_mustnot_instrument when VFC_DDEBUG_EXCLUDE is set, whether VFC_DDEBUG_INCLUDE and VFC_DDEBUG_GEN are set, dd_must_instrument *)
Record dd := mk_dd { dd_exclude : option hmap; dd_include : bool; dd_gen : bool; dd_must : hmap }.
(** vfc_init L534-557. A file is given by Some content when its variable is set (Some None: it does not exist) *)
Definition dd_init (exclude include : option (option (list Z))) (gen : bool) : outcome dd :=
  match include with
  | Some _ => if gen then Exit else
      let* must := match include with Some f => vfc_read_filter_file f hashmap_create | None => Ok hashmap_create end in
      match exclude with
      | Some f => let* mn := vfc_read_filter_file f hashmap_create in Ok (mk_dd (Some mn) true false must)
      | None => Ok (mk_dd None true false must)
      end
  | None =>
      match exclude with
      | Some f => let* mn := vfc_read_filter_file f hashmap_create in Ok (mk_dd (Some mn) false gen hashmap_create)
      | None => Ok (mk_dd None false gen hashmap_create)
      end
  end.
(** macro ddebug L565-580 for the return address [addr]: true when the backends are called *)
Definition ddebug (st : dd) (addr : Z) : outcome (bool * dd) :=
  let* excluded := match dd_exclude st with Some m => hashmap_have m addr | None => Ok false end in
  if (excluded : bool) then Ok (false, st)
  else if dd_include st then let* h := hashmap_have (dd_must st) addr in Ok (h, st)
  else if dd_gen st then let* m := hashmap_insert (dd_must st) addr addr in Ok (true, mk_dd (dd_exclude st) (dd_include st) (dd_gen st) m)
  else Ok (true, st).

(** the arithmetic wrappers L600-611 and L717-730 with the filter; an unfiltered operation is the C expression *)
Definition native_op (n : arith) (p : wprec) (o : wop) (a b : Z) : Z :=
  match o with WAdd => n_add n (wfmt p) a b | WSub => n_sub n (wfmt p) a b | WMul => n_mul n (wfmt p) a b | WDiv => n_div n (wfmt p) a b end.
Definition dd_arith {W} (n : arith) (bs : list (backend W)) (addr : Z) (p : wprec) (o : wop) (a b : Z) (w : W) (st : dd) : outcome (Z * W * dd) :=
  let* '(call, st') := ddebug st addr in
  if (call : bool) then let* '(c, w') := arith_wrapper bs p o a b w in Ok (c, w', st') else Ok (native_op n p o a b, w, st').
(** L719: a * b + c, two operations (no contraction on the default x86-64 target) *)
Definition dd_fma {W} (n : arith) (bs : list (backend W)) (addr : Z) (p : wprec) (a b c : Z) (w : W) (st : dd) : outcome (Z * W * dd) :=
  let* '(call, st') := ddebug st addr in
  if (call : bool) then let* '(d, w') := fma_wrapper bs p a b c w in Ok (d, w', st') else Ok (n_add n (wfmt p) (n_mul n (wfmt p) a b) c, w, st').

(** an execution: the sites of the arithmetic operations in order; result: which were instrumented *)
Fixpoint dd_run (st : dd) (trace : list Z) : outcome (list bool * dd) :=
  match trace with
  | [] => Ok ([], st)
  | a :: trace' => let* '(b, st') := ddebug st a in let* '(bs, st'') := dd_run st' trace' in Ok (b :: bs, st'')
  end.

(** * Generating: ddebug_generate_inclusion L167-193 *)
Definition gen_addresses (m : hmap) : list Z :=
  map (fun sl => sl.1 - call_op_size) (List.filter (fun sl => negb (sl.1 =? 0) && negb (sl.1 =? 1)) (hm_items m)).
(** open without O_TRUNC, then the outputs of addr2line one after the other: what was in the file beyond them stays *)
Definition overwrite (old new : list Z) : list Z := new ++ skipn (length new) old.
Definition generate (addr2line : Z -> list Z) (m : hmap) (old : list Z) : list Z := overwrite old (concat (map addr2line (gen_addresses m))).
