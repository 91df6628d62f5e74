(** Model of src/backends/interflop-backend-vprec/interflop_vprec_function_instrumentation.c: the per-function precisions, the
    rounding of arguments and the profile file.
    Simplified: the hash table of functions is the finite map it implements (C29), an association list from the 31-hash of the
    function id; the call stack is the list of active functions, innermost first, which the wrapper hands over (C39). The number
    of arguments of a call is the length of the list the wrapper passes. calloc(0) returns a non-NULL pointer (glibc).
    Not modelled: the log file, failing malloc, several threads, the options. *)
From Coq Require Import ZArith List Bool.
From Verif Require Import Common Text HashModel Bits StdlibModel VprecModel VprecConfig FuncModel DdebugModel WrapParseProofs.
Import ListNotations.
Open Scope Z_scope.
Open Scope outcome_scope.

(** enum FTYPES (interflop.h L48-56) *)
Definition FFLOAT : Z := 0.
Definition FDOUBLE : Z := 1.
Definition FFLOAT_PTR : Z := 3.
Definition FDOUBLE_PTR : Z := 4.
Definition is_float (t : Z) : bool := (t =? FFLOAT) || (t =? FFLOAT_PTR).
Definition is_double (t : Z) : bool := (t =? FDOUBLE) || (t =? FDOUBLE_PTR).
Definition is_scalar (t : Z) : bool := (t =? FFLOAT) || (t =? FDOUBLE).
Definition is_pointer (t : Z) : bool := (t =? FFLOAT_PTR) || (t =? FDOUBLE_PTR).
Definition arg_fmt (t : Z) : fmt := if is_float t then binary32 else binary64.

(** vprec_inst_mode (…_instrumentation.h L28-34) *)
Inductive inst_mode := inst_arg | inst_op | inst_all | inst_none.
Definition sets_operations (m : inst_mode) : bool := match m with inst_op | inst_all => true | _ => false end.
Definition rounds_arguments (m : inst_mode) : bool := match m with inst_arg | inst_all => true | _ => false end.

(** _vfi_argument_data_t L37-50 and _vfi_t L53-80 of the header *)
Record varg := mk_varg { a_id : list Z; a_type : Z; a_mant : Z; a_exp : Z; a_min : Z; a_max : Z }.
Record vfi := mk_vfi { v_id : list Z; v_lib : Z; v_intr : Z; v_float : Z; v_double : Z;
                       v_prec64 : Z; v_range64 : Z; v_prec32 : Z; v_range32 : Z;
                       v_nin : Z; v_in : option (list varg); v_nout : Z; v_out : option (list varg); v_calls : Z }.
Definition ARG_ID_MAX : Z := 128.
Definition FUNCTION_ID_MAX : Z := 512.
(** strcpy into a buffer of n bytes *)
Definition strcpy (n : Z) (s : list Z) : outcome (list Z) := if Z.of_nat (length s) <? n then Ok s else UB.

(** ctx->vfi->map *)
Definition vtab := list (Z * vfi).
Fixpoint tget (t : vtab) (k : Z) : option vfi :=
  match t with [] => None | (k', v) :: t' => if k =? k' then Some v else tget t' k end.
Fixpoint tset (t : vtab) (k : Z) (v : vfi) : vtab :=
  match t with [] => [(k, v)] | (k', v') :: t' => if k =? k' then (k, v) :: t' else (k', v') :: tset t' k v end.

(** one intercepted argument: type, name, number of elements, memory pointed to (None is NULL) *)
Record parg := mk_parg { p_type : Z; p_id : list Z; p_size : Z; p_cells : option (list Z) }.

(** ** Arguments *)

(** _init_function_inst_arg L423-436 *)
Definition init_arg (id : list Z) (t : Z) : outcome varg :=
  let* id := strcpy ARG_ID_MAX id in
  Ok (if is_double t then mk_varg id t 52 11 (2 ^ 31 - 1) (- 2 ^ 31) else mk_varg id t 23 8 (2 ^ 31 - 1) (- 2 ^ 31)).

(** interflop_floor and interflop_ceil (interflop_stdlib.c L231-237) then the conversion to int (undefined when out of range) *)
Definition zfloor (f : fmt) (x : Z) : Z :=
  if 0 <=? sexp f x then ssig f x * 2 ^ sexp f x else ssig f x / 2 ^ (- sexp f x).
Definition zceil (f : fmt) (x : Z) : Z :=
  if 0 <=? sexp f x then ssig f x * 2 ^ sexp f x else - ((- ssig f x) / 2 ^ (- sexp f x)).
Definition int_floor (f : fmt) (x : Z) : outcome Z := if is_finite f x then int_op (zfloor f x) else UB.
Definition int_ceil (f : fmt) (x : Z) : outcome Z := if is_finite f x then int_op (zceil f x) else UB.

(** _update_range_bounds L438-467 *)
Definition update_bounds (x : Z) (d : varg) (new : bool) (t : Z) : outcome varg :=
  if is_float t || is_double t then
    let f := arg_fmt t in
    let* fl := int_floor f x in
    let* ce := int_ceil f x in
    if interflop_isnan f x || interflop_isinf f x then Ok d
    else Ok (mk_varg (a_id d) (a_type d) (a_mant d) (a_exp d)
               (if (fl <? a_min d) || new then fl else a_min d) (if (a_max d <? ce) || new then ce else a_max d))
  else Exit.

Section sem.
  Context (sem : shift_sem).

  (** _vprec_round_binary L469-485 *)
  Definition round_cell (is_input : bool) (x exponent_length mantissa_length : Z) (new mode : bool) (t : Z) (ctx : vctx) : outcome Z :=
    if negb new && mode then
      if is_float t || is_double t then vprec_round sem (arg_fmt t) x is_input ctx exponent_length mantissa_length else Exit
    else Ok x.

  (** one element: L635-640 and L645-649 (enter), L777-780 and L785-789 (exit) *)
  Definition do_cell (is_input : bool) (el ml : Z) (new mode : bool) (t : Z) (ctx : vctx) (s : Z * varg) : outcome (Z * varg) :=
    let '(x, d) := s in
    let* y := round_cell is_input x el ml new mode t ctx in
    let* d' := update_bounds y d new t in
    Ok (y, d').
  Fixpoint iterate {A} (n : nat) (g : A -> outcome A) (a : A) : outcome A :=
    match n with O => Ok a | S n => let* b := g a in iterate n g b end.

  (** the body of the loops L618-694 and L759-840. For pointers the element handed over is raw_value, the first one, at every turn *)
  Definition do_arg (is_input : bool) (new mode : bool) (ctx : vctx) (d : varg) (a : parg) : outcome (varg * parg) :=
    let el := a_exp d in
    let ml := a_mant d in
    let* d0 := if new then init_arg (p_id a) (p_type a) else Ok d in
    let t := p_type a in
    if is_scalar t then
      match p_cells a with
      | Some (x :: l) => let* '(y, d') := do_cell is_input el ml new mode t ctx (x, d0) in
                         Ok (d', mk_parg t (p_id a) (p_size a) (Some (y :: l)))
      | _ => UB
      end
    else if is_pointer t then
      match p_cells a with
      | None => Ok (d0, a)
      | Some l =>
          if p_size a <=? 0 then Ok (d0, a)
          else match l with
               | x :: l' => let* '(y, d') := iterate (Z.to_nat (p_size a)) (do_cell is_input el ml new mode t ctx) (x, d0) in
                            Ok (d', mk_parg t (p_id a) (p_size a) (Some (y :: l')))
               | [] => UB
               end
      end
    else Ok (d0, a).
  Fixpoint do_args (is_input : bool) (new mode : bool) (ctx : vctx) (ds : list varg) (args : list parg) {struct args} : outcome (list varg * list parg) :=
    match args with
    | [] => Ok (ds, [])
    | a :: args' =>
        match ds with
        | [] => UB
        | d :: ds' =>
            let* '(d1, a1) := do_arg is_input new mode ctx d a in
            let* '(ds1, args1) := do_args is_input new mode ctx ds' args' in
            Ok (d1 :: ds1, a1 :: args1)
        end
    end.
  Definition calloc (n : Z) : list varg := repeat (mk_varg [] 0 0 0 0 0) (Z.to_nat n).

  (** ** Enter and exit *)
  Record vstate := mk_vstate { vs_ctx : vctx; vs_tab : vtab }.
  Definition set_precisions (v : vfi) (c : vctx) : outcome vctx :=   (* L593-596, L733-736 *)
    let* c := set_prec64 (v_prec64 v) c in
    let* c := set_range64 (v_range64 v) c in
    let* c := set_prec32 (v_prec32 v) c in
    set_range32 (v_range32 v) c.
  (** the structure of a function met for the first time L563-584 *)
  Definition new_function (f : finfo) : outcome vfi :=
    let* id := strcpy FUNCTION_ID_MAX (f_id f) in
    Ok (mk_vfi id (f_library f) (f_intrinsic f) (f_float f) (f_double f) 52 11 23 8 0 None 0 None 0).
  Definition user_function (f : finfo) : bool := (f_library f =? 0) && (f_intrinsic f =? 0).
  Definition fkey (f : finfo) : Z := hashmap_str_function (f_id f).

  (** _vfi_enter_function L549-699 *)
  Definition vfi_enter (m : inst_mode) (stack : list finfo) (args : list parg) (s : vstate) : outcome (vstate * list parg) :=
    match stack with
    | [] => Exit
    | f :: _ =>
        let* v := match tget (vs_tab s) (fkey f) with Some v => Ok v | None => new_function f end in
        let* calls := int_op (v_calls v + 1) in
        let* ctx := if user_function f && sets_operations m then set_precisions v (vs_ctx s) else Ok (vs_ctx s) in
        let nb_args := Z.of_nat (length args) in
        let new := match v_in v with None => 0 <? nb_args | Some _ => false end in
        let ins := if new then Some (calloc nb_args) else v_in v in
        let nin := if new then nb_args else v_nin v in
        let mode := rounds_inputs (vmode_of ctx) && rounds_arguments m in
        let* '(ds, args') := do_args true new mode ctx (match ins with Some ds => ds | None => [] end) args in
        Ok (mk_vstate ctx (tset (vs_tab s) (fkey f)
              (mk_vfi (v_id v) (v_lib v) (v_intr v) (v_float v) (v_double v) (v_prec64 v) (v_range64 v) (v_prec32 v) (v_range32 v)
                 nin (match ins with Some _ => Some ds | None => None end) (v_nout v) (v_out v) calls)), args')
    end.

  (** _vfi_exit_function L704-842 *)
  Definition vfi_exit (m : inst_mode) (stack : list finfo) (args : list parg) (s : vstate) : outcome (vstate * list parg) :=
    match stack with
    | [] => Exit
    | f :: rest =>
        let* ctx := match rest with
                    | [] => Ok (vs_ctx s)
                    | parent :: _ =>
                        if user_function parent && sets_operations m then
                          match tget (vs_tab s) (fkey parent) with Some w => set_precisions w (vs_ctx s) | None => Ok (vs_ctx s) end
                        else Ok (vs_ctx s)
                    end in
        match tget (vs_tab s) (fkey f) with
        | None => UB
        | Some v =>
            let nb_args := Z.of_nat (length args) in
            let new := match v_out v with None => 0 <? nb_args | Some _ => false end in
            let outs := if new then Some (calloc nb_args) else v_out v in
            let nout := if new then nb_args else v_nout v in
            let mode := rounds_output (vmode_of ctx) && rounds_arguments m in
            let* '(ds, args') := do_args false new mode ctx (match outs with Some ds => ds | None => [] end) args in
            Ok (mk_vstate ctx (tset (vs_tab s) (fkey f)
                  (mk_vfi (v_id v) (v_lib v) (v_intr v) (v_float v) (v_double v) (v_prec64 v) (v_range64 v) (v_prec32 v) (v_range32 v)
                     (v_nin v) (v_in v) nout (match outs with Some _ => Some ds | None => None end) (v_calls v))), args')
        end
    end.

  (** A run of an instrumented program: operations and calls. The wrapper (funcinstr.c L123-176, FuncModel) keeps the stack and
      tells the backend about a function iff it uses float or double ([told]). [Op]: an operation executed by the active function;
      the log keeps the stack and the (precision, range) of binary64 and binary32 then in force, latest first. *)
  Inductive item := Op | Call (f : finfo) (ins : list parg) (body : list item) (outs : list parg).
  Definition precisions (c : vctx) : Z * Z * Z * Z := (prec64 c, range64 c, prec32 c, range32 c).
  Definition vlog := list (list finfo * (Z * Z * Z * Z)).
  Fixpoint run_item (m : inst_mode) (stack : list finfo) (it : item) (s : vstate * vlog) : outcome (vstate * vlog) :=
    match it with
    | Op => Ok (fst s, (stack, precisions (vs_ctx (fst s))) :: snd s)
    | Call f ins body outs =>
        let* s1 := if told f then let* '(s1, _) := vfi_enter m (f :: stack) ins (fst s) in Ok (s1, snd s) else Ok s in
        let* s2 := (fix run_body b s := match b with [] => Ok s | it :: b' => let* s' := run_item m (f :: stack) it s in run_body b' s' end) body s1 in
        if told f then let* '(s3, _) := vfi_exit m (f :: stack) outs (fst s2) in Ok (s3, snd s2) else Ok s2
    end.
  Fixpoint run_body (m : inst_mode) (stack : list finfo) (b : list item) (s : vstate * vlog) : outcome (vstate * vlog) :=
    match b with [] => Ok s | it :: b' => let* s' := run_item m stack it s in run_body m stack b' s' end.
End sem.

(** ** The profile file *)
Definition tab : Z := 9.
(** %d: the decimal digits of a number below 10^fuel *)
Fixpoint udec (fuel : nat) (n : Z) : list Z :=
  match fuel with
  | O => []
  | S fuel => if n <? 10 then [48 + n] else udec fuel (n / 10) ++ [48 + n mod 10]
  end.
Definition zdec (n : Z) : list Z := if n <? 0 then 45 :: udec 19 (- n) else udec 19 n.

Definition columns (l : list (list Z)) : list Z := match l with [] => [] | w :: l' => w ++ concat (map (fun x => tab :: x) l') end ++ [newline].
(** _vfi_write_hasmap L170-203 *)
Definition write_arg (label : list Z) (d : varg) : list Z :=
  columns [label; a_id d; zdec (a_type d); zdec (a_mant d); zdec (a_exp d); zdec (a_min d); zdec (a_max d)].
Definition write_args (label : list Z) (n : Z) (l : option (list varg)) : outcome (list Z) :=
  let ds := match l with Some ds => ds | None => [] end in
  if n <=? Z.of_nat (length ds) then Ok (concat (map (write_arg label) (firstn (Z.to_nat n) ds))) else UB.
Definition label_in : list Z := [105; 110; 112; 117; 116; 58].            (* input: *)
Definition label_out : list Z := [111; 117; 116; 112; 117; 116; 58].      (* output: *)
Definition write_header (v : vfi) : list Z :=
  columns (v_id v :: map zdec [v_lib v; v_intr v; v_float v; v_double v; v_prec64 v; v_range64 v; v_prec32 v; v_range32 v; v_nin v; v_nout v; v_calls v]).
Definition write_function (v : vfi) : outcome (list Z) :=
  let* i := write_args label_in (v_nin v) (v_in v) in
  let* o := write_args label_out (v_nout v) (v_out v) in
  Ok (write_header v ++ i ++ o).
(** the functions in the order of the slots of the table *)
Fixpoint write_profile (t : vtab) : outcome (list Z) :=
  match t with
  | [] => Ok []
  | (_, v) :: t' => let* a := write_function v in let* b := write_profile t' in Ok (a ++ b)
  end.

(** strtoll base 10 as called by _vfc_strtol (vfcwrapper/main.c.in L299-307): value and error *)
Definition is_space (c : Z) : bool := (c =? 32) || ((9 <=? c) && (c <=? 13)).
Fixpoint skip_spaces (l : list Z) : list Z := match l with c :: l' => if is_space c then skip_spaces l' else l | [] => [] end.
Definition is_digit (c : Z) : bool := (48 <=? c) && (c <=? 57).
Fixpoint read_digits (l : list Z) (acc : Z) : Z :=
  match l with c :: l' => if is_digit c then read_digits l' (acc * 10 + (c - 48)) else acc | [] => acc end.
Definition strtoll (l : list Z) : Z * bool :=
  let v := match skip_spaces l with
           | c :: l' => if c =? 45 then - read_digits l' 0 else if c =? 43 then read_digits l' 0 else read_digits (c :: l') 0
           | [] => 0
           end in
  if v <? - 2 ^ 63 then (- 2 ^ 63, true) else if 2 ^ 63 - 1 <? v then (2 ^ 63 - 1, true) else (v, false).
(** _vfi_scan_int L208-217 *)
Definition scan_int (l : list Z) : outcome Z := let '(v, e) := strtoll l in if e then Exit else Ok v.
(** conversions of a long to a signed integer of w bits *)
Definition to_signed_int (w v : Z) : Z := (v + 2 ^ (w - 1)) mod 2 ^ w - 2 ^ (w - 1).

(** the C string a buffer holds *)
Fixpoint c_string (l : list Z) : list Z := match l with c :: l' => if c =? 0 then [] else c :: c_string l' | [] => [] end.
Definition STRING_BUFF : nat := 256.
(** _vfi_scan_line L218-231 with an array of n token buffers. [stale]: what the uninitialised local buffer holds when fgets finds
    the end of the file (its result is not tested). strtok_r yields the words between tabs (C37 proves it of its model) *)
Definition scan_line (stale : list Z) (n : nat) (text : list Z) : outcome (list (list Z) * list Z) :=
  let '(line, rest) := match text with [] => (stale, []) | _ => fgets LINE_MAX text end in
  let ws := words tab (c_string line) in
  if forallb (fun w => Nat.ltb (length w) STRING_BUFF) ws && Nat.leb (length ws) n then Ok (ws, rest) else UB.

Definition scan_ints (w : Z) (l : list (list Z)) : outcome (list Z) :=
  fold_right (fun x r => let* v := scan_int x in let* r := r in Ok (to_signed_int w v :: r)) (Ok []) l.
(** _vfi_scan_header L233-260: None when the line has not twelve words *)
Definition scan_header (stale text : list Z) : outcome (option (vfi * list Z)) :=
  let* '(ws, rest) := scan_line stale 12 text in
  match ws with
  | id :: l1 :: l2 :: l3 :: l4 :: l =>
      if Nat.eqb (length ws) 12 then
        let* c := scan_ints 8 [l1; l2; l3; l4] in
        let* i := scan_ints 32 l in
        match c, i with
        | [b1; b2; b3; b4], [p64; r64; p32; r32; nin; nout; calls] =>
            Ok (Some (mk_vfi id b1 b2 b3 b4 p64 r64 p32 r32 nin None nout None calls, rest))
        | _, _ => UB
        end
      else Ok None
  | _ => Ok None
  end.
(** _vfi_scan_input L262-277, _vfi_scan_output L279-294. A line of less than seven words makes the code use words of an earlier
    line, or uninitialised memory, before the count is tested: undefined *)
Definition scan_arg (stale text : list Z) : outcome (varg * list Z) :=
  let* '(ws, rest) := scan_line stale 7 text in
  match ws with
  | [_; id; ty; m; e; mn; mx] =>
      let* id := strcpy ARG_ID_MAX id in
      let* t := scan_ints 16 [ty] in
      let* i := scan_ints 32 [m; e; mn; mx] in
      match t, i with
      | [ty], [m; e; mn; mx] => Ok (mk_varg id ty m e mn mx, rest)
      | _, _ => UB
      end
  | _ => UB
  end.
Fixpoint scan_args (n : nat) (stale text : list Z) : outcome (list varg * list Z) :=
  match n with
  | O => Ok ([], text)
  | S n => let* '(d, rest) := scan_arg stale text in let* '(ds, rest) := scan_args n stale rest in Ok (d :: ds, rest)
  end.
(** _vfi_read_hasmap L297-327 *)
Fixpoint read_loop (fuel : nat) (stale text : list Z) (t : vtab) : outcome vtab :=
  match fuel with
  | O => Diverge
  | S fuel =>
      let* h := scan_header stale text in
      match h with
      | None => Ok t
      | Some (v, rest) =>
          let* '(ins, rest) := scan_args (Z.to_nat (v_nin v)) stale rest in
          let* '(outs, rest) := scan_args (Z.to_nat (v_nout v)) stale rest in
          read_loop fuel stale rest
            (tset t (hashmap_str_function (v_id v))
               (mk_vfi (v_id v) (v_lib v) (v_intr v) (v_float v) (v_double v) (v_prec64 v) (v_range64 v) (v_prec32 v) (v_range32 v)
                  (v_nin v) (if v_nin v <? 0 then None else Some ins) (v_nout v) (if v_nout v <? 0 then None else Some outs) (v_calls v)))
      end
  end.
(** each turn uses a line; at the end of the file one turn is enough to repeat itself *)
Definition read_profile (stale text : list Z) : outcome vtab := read_loop (S (S (length text))) stale text [].
