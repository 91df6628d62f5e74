(** Model of the IEEE backend: src/backends/interflop-backend-ieee/interflop_ieee.c and common/printf_specifier.c.
    Not modelled: the decimal debug output (%g), the header, options parsing, the handlers of the C library. *)
From Coq Require Import ZArith Ascii String DecimalString List Bool.
From Verif Require Import Common Bits StdlibModel FloatOps.
Import ListNotations.
Open Scope Z_scope.

(** * Comparisons *)
(** enum FCMP_PREDICATE (interflop.h L28-45) *)
Inductive fcmp := FCMP_FALSE | FCMP_OEQ | FCMP_OGT | FCMP_OGE | FCMP_OLT | FCMP_OLE | FCMP_ONE | FCMP_ORD
                | FCMP_UNO | FCMP_UEQ | FCMP_UGT | FCMP_UGE | FCMP_ULT | FCMP_ULE | FCMP_UNE | FCMP_TRUE.

(** the C comparisons on bit patterns: patterns that are not NaN are ordered by sign and magnitude, the zeros being equal *)
Definition key (f : fmt) (b : Z) : Z := if sgn f b =? 1 then - code f b else code f b.
Definition isunordered (f : fmt) (a b : Z) : bool := is_nan f a || is_nan f b.
Definition c_eq (f : fmt) (a b : Z) : bool := negb (isunordered f a b) && (key f a =? key f b).
Definition isgreater (f : fmt) (a b : Z) : bool := negb (isunordered f a b) && (key f b <? key f a).
Definition isgreaterequal (f : fmt) (a b : Z) : bool := negb (isunordered f a b) && (key f b <=? key f a).
Definition isless (f : fmt) (a b : Z) : bool := negb (isunordered f a b) && (key f a <? key f b).
Definition islessequal (f : fmt) (a b : Z) : bool := negb (isunordered f a b) && (key f a <=? key f b).
Definition islessgreater (f : fmt) (a b : Z) : bool := negb (isunordered f a b) && ((key f a <? key f b) || (key f b <? key f a)).

(** SELECT_FLOAT_CMP L214-280, used by cmp_float L324-329 and cmp_double L371-376 *)
Definition ieee_cmp (f : fmt) (p : fcmp) (a b : Z) : bool :=
  match p with
  | FCMP_FALSE => false
  | FCMP_OEQ => c_eq f a b
  | FCMP_OGT => isgreater f a b
  | FCMP_OGE => isgreaterequal f a b
  | FCMP_OLT => isless f a b
  | FCMP_OLE => islessequal f a b
  | FCMP_ONE => islessgreater f a b
  | FCMP_ORD => negb (isunordered f a b)
  | FCMP_UEQ => isunordered f a b
  | FCMP_UGT => isunordered f a b
  | FCMP_UGE => isunordered f a b
  | FCMP_ULT => isunordered f a b
  | FCMP_ULE => isunordered f a b
  | FCMP_UNE => isunordered f a b
  | FCMP_UNO => isunordered f a b
  | FCMP_TRUE => true
  end.

(** * Operations and counters *)
Inductive iop := OpAdd | OpSub | OpMul | OpDiv | OpFma | OpCmp | OpCast.
(** the five counters of ieee_context_t (interflop_ieee.h L21-26) *)
Inductive counter := CMul | CDiv | CAdd | CSub | CFma.
Definition counter_eqb (a b : counter) : bool :=
  match a, b with CMul, CMul | CDiv, CDiv | CAdd, CAdd | CSub, CSub | CFma, CFma => true | _, _ => false end.

(** what a call does to the shared context, as actions between which other threads may run.
    AtomicInc is __atomic_add_fetch; Load and StoreInc are the two halves of a plain increment (not used by the code). *)
Inductive action := AtomicInc (c : counter) | Load (c : counter) | StoreInc (c : counter).
(** L282-400: the result does not depend on the context; comparisons and casts are not counted *)
Definition ieee_actions (count_op : bool) (o : iop) : list action :=
  if count_op then
    match o with
    | OpAdd => [AtomicInc CAdd] | OpSub => [AtomicInc CSub] | OpMul => [AtomicInc CMul] | OpDiv => [AtomicInc CDiv]
    | OpFma => [AtomicInc CFma] | OpCmp => [] | OpCast => []
    end
  else [].
Definition ieee_result (n : arith) (f : fmt) (o : iop) (a b c : Z) : Z :=
  match o with
  | OpAdd => n_add n f a b | OpSub => n_sub n f a b | OpMul => n_mul n f a b | OpDiv => n_div n f a b
  | OpFma => n_fma n f a b c                      (* interflop_fma.c L16-22: the native fma *)
  | OpCast => fconv binary64 binary32 a | OpCmp => 0
  end.

(** a thread: its register and the actions it has still to do *)
Record thread := mk_thread { reg : Z; todo : list action }.
Definition counters := counter -> Z.
Definition cset (cs : counters) (c : counter) (v : Z) : counters := fun c' => if counter_eqb c c' then v else cs c'.
Definition incr (v : Z) : Z := (v + 1) mod 2 ^ 64.
Definition do_action (a : action) (r : Z) (cs : counters) : Z * counters :=
  match a with
  | AtomicInc c => (r, cset cs c (incr (cs c)))
  | Load c => (cs c, cs)
  | StoreInc c => (r, cset cs c (incr r))
  end.
(** thread number i does its next action, if it has one *)
Fixpoint step (i : nat) (ts : list thread) (cs : counters) : list thread * counters :=
  match ts, i with
  | [], _ => ([], cs)
  | t :: ts', O => match todo t with
                   | [] => (ts, cs)
                   | a :: rest => let '(r, cs') := do_action a (reg t) cs in (mk_thread r rest :: ts', cs')
                   end
  | t :: ts', S i' => let '(ts'', cs') := step i' ts' cs in (t :: ts'', cs')
  end.
Fixpoint run_threads (sched : list nat) (ts : list thread) (cs : counters) : list thread * counters :=
  match sched with
  | [] => (ts, cs)
  | i :: sched' => let '(ts', cs') := step i ts cs in run_threads sched' ts' cs'
  end.
(** _ieee_init_context L421-433 and the calls made by each thread *)
Definition start_thread (count_op : bool) (calls : list iop) : thread := mk_thread 0 (concat (map (ieee_actions count_op) calls)).
Definition counters0 : counters := fun _ => 0.
(** %ld of a 64-bit unsigned counter *)
Definition to_signed (w v : Z) : Z := if v <? 2 ^ (w - 1) then v else v - 2 ^ w.
(** finalize L402-413: what is printed, in order *)
Definition ieee_report (count_op : bool) (cs : counters) : list (counter * Z) :=
  if count_op then map (fun c => (c, to_signed 64 (cs c))) [CMul; CDiv; CAdd; CSub; CFma] else [].

(** * Binary output *)
(** hex_to_bit L42-45: most significant bit first *)
Definition hex_to_bit (nib : Z) : list bool := [Z.testbit nib 3; Z.testbit nib 2; Z.testbit nib 1; Z.testbit nib 0].
(** the loop of UINTN_TO_BIT L58-65 for i = 4j: [size] is the word size, [ft] = size - FFS(X) + 1 *)
Fixpoint bit_loop (fuel : nat) (i size ft x : Z) : list bool :=
  match fuel with
  | O => []
  | S fuel => if i <? ft then hex_to_bit (Z.shiftr (Z.land x (Z.shiftr (Z.shiftl 15 (size - 4)) i)) (size - (i + 4))) ++ bit_loop fuel (i + 4) size ft x else []
  end.
(** L66-69: cut after the last 1 *)
Fixpoint strip_zeros (l : list bool) : list bool :=
  match l with
  | [] => []
  | b :: l' => match strip_zeros l' with [] => if b then [true] else [] | r => b :: r end
  end.
(** number of trailing zeros of a non-zero word (FFS - 1): [ctz] of StdlibModel; number of leading zeros: *)
Definition clz (size x : Z) : Z := size - 1 - Z.log2 x.
(** UINTN_TO_BIT L50-72 *)
Definition uint_to_bit (size x : Z) : list bool :=
  if x =? 0 then [false] else strip_zeros (bit_loop (Z.to_nat size) 0 size (size - ctz x) x).

Definition digit (b : bool) : ascii := if b then "1"%char else "0"%char.
Fixpoint digits (l : list bool) (rest : string) : string := match l with [] => rest | b :: l' => String (digit b) (digits l' rest) end.
(** %d and %ld *)
Definition decimal (z : Z) : string := NilZero.string_of_int (Z.to_int z).
(** GET_BINARY_FMT L38-39: "%c%c.%s x 2^%d" *)
Definition binary_text (sign lead : ascii) (frac : list bool) (exponent : Z) : string :=
  String sign (String lead (String "."%char (digits frac (append " x 2^" (decimal exponent))))).

(** REAL_TO_BINARY L113-164 with PRINT_SUBNORMAL_DENORMALIZED L80-88 and PRINT_SUBNORMAL_NORMALIZED L96-106. Words of the size
    of the format; [alt] is info->alt (the # flag, option --print-subnormal-normalized); GET_EXP_MIN = bias - 1. *)
Definition real_to_binary (f : fmt) (alt : bool) (b : Z) : string :=
  let size := mw f + ew f + 1 in
  let sign := if sgn f b =? 1 then "-"%char else "+"%char in
  let word z := z mod 2 ^ size in
  let shown z := to_signed size (word z) in
  match fpclassify f b with
  | FP_ZERO => binary_text sign "0"%char [false] 0
  | FP_INFINITE => String sign "inf"
  | FP_NAN => "+nan"%string
  | FP_SUBNORMAL =>
      let m := word (Z.shiftl (man f b) (ew f + 1)) in
      if alt then
        let offset := clz size m + 1 in
        binary_text sign "1"%char (uint_to_bit size (word (Z.shiftl m offset))) (shown (- (bias f - 1) - offset))
      else binary_text sign "0"%char (uint_to_bit size m) (shown (expf f b - bias f + 1))
  | FP_NORMAL => binary_text sign "1"%char (uint_to_bit size (word (Z.shiftl (man f b) (ew f + 1)))) (shown (expf f b - bias f))
  end.
