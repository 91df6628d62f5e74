(** Model of src/tools/optimize/precexp.py (vfc_precexp): reading a VPREC profile, writing configurations, the dichotomic search.
    Text is ASCII, a byte list. What running the program with a configuration file and comparing its output gives is an oracle on
    the content of the file: the program is taken to be deterministic (VPREC is). pandas frames are lists of rows.
    Not modelled: messages, directories, the CSV results, environment variables, timeouts. *)
From Coq Require Import ZArith List Bool.
From Verif Require Import Common Text DDModel VfiModel.
Import ListNotations.
Open Scope Z_scope.
Open Scope py_scope.

(** the rows of FunctionsFrame and ArgumentsFrame L197-256 *)
Record prow := mk_prow { o_id : list Z; o_lib : Z; o_int : Z; o_float : Z; o_double : Z; o_prec64 : Z; o_range64 : Z; o_prec32 : Z; o_range32 : Z;
                         o_nin : Z; o_nout : Z; o_calls : Z }.
Record arow := mk_arow { r_id : list Z; r_arg : list Z; r_lib : Z; r_int : Z; r_io : list Z; r_type : Z; r_prec : Z; r_range : Z; r_min : Z; r_max : Z; r_calls : Z }.
Definition frames : Type := list prow * list arow.

(** ** Python text functions *)
(** int(s): blanks around, a sign, digits; ValueError otherwise (underscores between digits, which Python allows, are refused) *)
Definition py_int (s : list Z) : py Z :=
  let digits l := match l with [] => Raise | _ => if forallb is_digit l then Ret (read_digits l 0) else Raise end in
  match rev (skip_spaces (rev (skip_spaces s))) with
  | c :: l => if c =? 45 then do v <- digits l; Ret (- v) else if c =? 43 then digits l else digits (c :: l)
  | [] => Raise
  end.
Fixpoint py_ints (l : list (list Z)) : py (list Z) :=
  match l with [] => Ret [] | s :: l' => do v <- py_int s; do r <- py_ints l'; Ret (v :: r) end.
(** s.split() : the words between blanks; [cur]: the present word, backwards *)
Fixpoint py_split (l cur : list Z) : list (list Z) :=
  match l with
  | [] => match cur with [] => [] | _ => [rev cur] end
  | c :: l' => if is_space c then match cur with [] => py_split l' [] | _ => rev cur :: py_split l' [] end else py_split l' (c :: cur)
  end.
(** readlines: the lines, without their terminator (what is done with the last field of a line ignores blanks at its end) *)
Definition py_lines (text : list Z) : list (list Z) :=
  let l := split_on newline text in match last l [] with [] => removelast l | _ => l end.
(** s[:s.rfind("/")] and s[s.rfind("/") + 1:]; without a slash rfind is -1 *)
Fixpoint rcut (s : list Z) : option (list Z * list Z) :=
  match s with
  | [] => None
  | c :: s' => match rcut s' with Some (a, b) => Some (c :: a, b) | None => if c =? 47 then Some ([], s') else None end
  end.
Definition cut (s : list Z) : list Z * list Z := match rcut s with Some p => p | None => (removelast s, s) end.

(** getFunctionInfo L86-98: function name and parent *)
Definition function_info (id : list Z) : py (list Z * list Z) :=
  let '(id, call) := cut id in
  do _ <- py_int call;
  let '(id, line) := cut id in
  do _ <- py_int line;
  let '(id, name) := cut id in
  let '(_, parent) := cut id in
  Ret (name, parent).

(** ** getProfile L101-257 *)
(** L163-186; the line numbers past the end of the file raise IndexError *)
Fixpoint read_arguments (id : list Z) (lib int calls : Z) (n : nat) (lines : list (list Z)) : py (list arow) :=
  match n with
  | O => Ret []
  | S n =>
      match lines with
      | [] => Raise
      | l :: lines' =>
          match py_split l [] with
          | io :: arg :: (([_; _; _; _; _]) as nums) =>
              do v <- py_ints nums;
              match v with
              | [t; p; r; mn; mx] => do rest <- read_arguments id lib int calls n lines'; Ret (mk_arow id arg lib int io t p r mn mx calls :: rest)
              | _ => Raise
              end
          | _ => Raise
          end
      end
  end.
Definition bytes_eqb (a b : list Z) : bool := if list_eq_dec Z.eq_dec a b then true else false.
Definition listed (name : list Z) (l : list (list Z)) : bool := existsb (bytes_eqb name) l.
(** the loop L115-188. VPREC never writes a negative number of arguments; the model refuses it. *)
Fixpoint read_functions (fuel : nat) (wanted : list (list Z)) (lines : list (list Z)) : py frames :=
  match fuel, lines with
  | _, [] => Ret ([], [])
  | O, _ => NoFuel
  | S fuel, l :: lines' =>
      match split_on tab l with
      | id :: nums =>
          if negb (Nat.eqb (length nums) 11) then Raise else
          do v <- py_ints nums;
          match v with
          | [lib; int; fl; db; p64; r64; p32; r32; nin; nout; calls] =>
              do '(name, parent) <- function_info id;
              if nin + nout <? 0 then Raise else
              let n := Z.to_nat (nin + nout) in
              if negb (match wanted with [] => true | _ => false end) && negb (listed name wanted) && negb (listed parent wanted)
              then read_functions fuel wanted (skipn n lines')
              else
                do args <- read_arguments id lib int calls n lines';
                do '(fs, ags) <- read_functions fuel wanted (skipn n lines');
                Ret (mk_prow id lib int fl db p64 r64 p32 r32 nin nout calls :: fs, args ++ ags)
          | _ => Raise
          end
      | [] => Raise
      end
  end.
(** sort_values(["Ncalls", "ID"], ascending=False) L214, L253: a stable sort *)
Fixpoint lex_lt (a b : list Z) : bool :=
  match a, b with
  | _, [] => false
  | [], _ :: _ => true
  | x :: a', y :: b' => (x <? y) || ((x =? y) && lex_lt a' b')
  end.
Definition before (k1 k2 : Z * list Z) : bool := (fst k2 <? fst k1) || ((fst k1 =? fst k2) && lex_lt (snd k2) (snd k1)).
Section sort.
  Context {A : Type} (key : A -> Z * list Z).
  Fixpoint insert (x : A) (l : list A) : list A :=
    match l with [] => [x] | y :: l' => if before (key y) (key x) then y :: insert x l' else x :: l end.
  Definition sort_rows (l : list A) : list A := fold_right insert [] l.
End sort.
Definition okey (o : prow) : Z * list Z := (o_calls o, o_id o).
Definition rkey (r : arow) : Z * list Z := (r_calls r, r_id r).
Definition get_profile (wanted : list (list Z)) (text : list Z) : py frames :=
  let lines := py_lines text in
  do '(fs, ags) <- read_functions (length lines) wanted lines;
  Ret (sort_rows okey fs, sort_rows rkey ags).

(** ** save L260-300 *)
Definition save_row (o : prow) : list Z :=
  columns (o_id o :: map zdec [o_lib o; o_int o; o_float o; o_double o; o_prec64 o; o_range64 o; o_prec32 o; o_range32 o; o_nin o; o_nout o; o_calls o]).
Definition save_arg (r : arow) : list Z := columns [r_io r; r_arg r; zdec (r_type r); zdec (r_prec r); zdec (r_range r)].
Fixpoint save_loop (fs : list prow) (ags : list arow) : py (list Z) :=
  match fs with
  | [] => Ret []
  | o :: fs' =>
      let n := Z.to_nat (o_nin o + o_nout o) in
      if Nat.ltb (length ags) n then Raise            (* KeyError *)
      else do rest <- save_loop fs' (skipn n ags); Ret (save_row o ++ concat (map save_arg (firstn n ags)) ++ rest)
  end.
Definition save (x : frames) : py (list Z) := save_loop (fst x) (snd x).

(** ** Search *)
Inductive ofield := FPrec64 | FRange64 | FPrec32 | FRange32.
Inductive afield := FPrec | FRange.
Definition set_ofield (f : ofield) (v : Z) (o : prow) : prow :=
  match f with
  | FPrec64 => mk_prow (o_id o) (o_lib o) (o_int o) (o_float o) (o_double o) v (o_range64 o) (o_prec32 o) (o_range32 o) (o_nin o) (o_nout o) (o_calls o)
  | FRange64 => mk_prow (o_id o) (o_lib o) (o_int o) (o_float o) (o_double o) (o_prec64 o) v (o_prec32 o) (o_range32 o) (o_nin o) (o_nout o) (o_calls o)
  | FPrec32 => mk_prow (o_id o) (o_lib o) (o_int o) (o_float o) (o_double o) (o_prec64 o) (o_range64 o) v (o_range32 o) (o_nin o) (o_nout o) (o_calls o)
  | FRange32 => mk_prow (o_id o) (o_lib o) (o_int o) (o_float o) (o_double o) (o_prec64 o) (o_range64 o) (o_prec32 o) v (o_nin o) (o_nout o) (o_calls o)
  end.
Definition set_afield (f : afield) (v : Z) (r : arow) : arow :=
  match f with
  | FPrec => mk_arow (r_id r) (r_arg r) (r_lib r) (r_int r) (r_io r) (r_type r) v (r_range r) (r_min r) (r_max r) (r_calls r)
  | FRange => mk_arow (r_id r) (r_arg r) (r_lib r) (r_int r) (r_io r) (r_type r) (r_prec r) v (r_min r) (r_max r) (r_calls r)
  end.
(** Frame.at[i, field] = v *)
Fixpoint update {A} (l : list A) (i : nat) (g : A -> A) : list A :=
  match l, i with [], _ => [] | x :: l', O => g x :: l' | x :: l', S i' => x :: update l' i' g end.
Definition set_op (i : nat) (f : ofield) (v : Z) (x : frames) : frames := (update (fst x) i (set_ofield f v), snd x).
Definition set_arg (j : nat) (f : afield) (v : Z) (x : frames) : frames := (fst x, update (snd x) j (set_afield f v)).

Section search.
  Context (valid : list Z -> bool).      (* run and compare with this configuration file *)

  (** Check L303-322 *)
  Definition check (x : frames) : py bool := do text <- save x; Ret (valid text).

  (** dich_search_operations L325-372, dich_search_arguments L462-506 (the same text): [set p] is the frames with the field set to p *)
  Fixpoint dich_loop (fuel : nat) (set : Z -> frames) (l r : Z) : py frames :=
    match fuel with
    | O => NoFuel
    | S fuel =>
        let p := (r + l) / 2 in
        do ok <- check (set p);
        if (ok : bool) then if r <=? l then Ret (set p) else dich_loop fuel set l p
        else dich_loop fuel set (p + 1) r
    end.
  Definition dich (fuel : nat) (set : Z -> frames) (l r : Z) : py frames :=
    do ok <- check (set l);
    if (ok : bool) then Ret (set l) else dich_loop fuel set l r.

  (** search_minimum_operations L375-459 *)
  Definition search_op (fuel : nat) (i : nat) (f : ofield) (l r : Z) (x : frames) : py frames := dich fuel (fun p => set_op i f p x) l r.
  Definition search_operations (fuel : nat) (i : nat) (x : frames) : py frames :=
    match nth_error (fst x) i with
    | None => Raise
    | Some o =>
        do x <- (if negb (o_double o =? 0) then do x <- search_op fuel i FPrec64 1 52 x; search_op fuel i FRange64 2 11 x
                 else Ret (set_op i FRange64 2 (set_op i FPrec64 1 x)));
        if negb (o_float o =? 0) then do x <- search_op fuel i FPrec32 1 23 x; search_op fuel i FRange32 2 8 x
        else Ret (set_op i FRange32 2 (set_op i FPrec32 1 x))
    end.

  (** search_minimum_arguments L509-588 *)
  Definition search_arg (fuel : nat) (j : nat) (f : afield) (l r : Z) (x : frames) : py frames := dich fuel (fun p => set_arg j f p x) l r.
  Definition arg_bounds (t : Z) : option (Z * Z) :=
    if (t =? 0) || (t =? 2) then Some (23, 8) else if (t =? 1) || (t =? 3) then Some (52, 11) else None.
  Definition search_arguments (fuel : nat) (j : nat) (x : frames) : py frames :=
    match nth_error (snd x) j with
    | None => Raise
    | Some r => match arg_bounds (r_type r) with
                | Some (p, e) => do x <- search_arg fuel j FPrec 1 p x; search_arg fuel j FRange 2 e x
                | None => Ret x
                end
    end.

  (** main L590-805 after the profile run *)
  Inductive emode := EOperations | EArguments | EAll.
  Fixpoint each {A} (g : A -> frames -> py frames) (l : list A) (x : frames) : py frames :=
    match l with [] => Ret x | a :: l' => do x <- g a x; each g l' x end.
  (** the rows j of the arguments whose ID is the one of function i *)
  Definition args_of (x : frames) (i : nat) : list nat :=
    match nth_error (fst x) i with
    | None => []
    | Some o => map fst (filter (fun p => bytes_eqb (r_id (snd p)) (o_id o)) (combine (seq 0 (length (snd x))) (snd x)))
    end.
  (** FunctionsFilter L217-221 *)
  Definition compiled (x : frames) (i : nat) : bool :=
    match nth_error (fst x) i with Some o => (o_lib o =? 0) && (o_int o =? 0) | None => false end.
  Definition explore (m : emode) (fuel : nat) (x : frames) : py frames :=
    let all := seq 0 (length (fst x)) in
    match m with
    | EOperations => each (search_operations fuel) (filter (compiled x) all) x
    | EArguments => each (fun i x => each (search_arguments fuel) (args_of x i) x) all x
    | EAll => each (fun i y => do y <- each (search_arguments fuel) (args_of y i) y;
                               if compiled x i then search_operations fuel i y else Ret y) all x
    end.
End search.
