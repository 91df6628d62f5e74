(** Model of src/vfcwrapper/main.c.in (first part): reading the list of backends, calling the backends, vector wrappers,
    variadic arguments. Strings are byte lists; a C string in memory ends with the byte 0; a pointer is an index into the
    memory block. Not modelled: the handlers passed to the backends, messages. *)
From Coq Require Import ZArith List Bool.
From Verif Require Import Common Bits FloatOps IeeeModel.
Import ListNotations.
Open Scope Z_scope.
Open Scope outcome_scope.

(** * The list of backends *)
Notation mem := (list Z).
(** reading a byte; outside the block: undefined *)
Definition rd (m : mem) (p : nat) : outcome Z := match nth_error m p with Some c => Ok c | None => UB end.
Fixpoint wr (m : mem) (p : nat) (c : Z) : mem :=
  match m, p with
  | [], _ => []
  | _ :: m', O => c :: m'
  | x :: m', S p' => x :: wr m' p' c
  end.
(** the C string at p *)
Fixpoint upto_nul (m : mem) : outcome (list Z) :=
  match m with
  | [] => UB
  | c :: m' => if c =? 0 then Ok [] else let* s := upto_nul m' in Ok (c :: s)
  end.
Definition cstr (m : mem) (p : nat) : outcome (list Z) := upto_nul (skipn p m).

(** C library: s + strspn(s, d) and s + strcspn(s, d) for a one-character set *)
Fixpoint span (m : mem) (p : nat) (d : Z) (fuel : nat) : outcome nat :=
  match fuel with
  | O => Diverge
  | S fuel => let* c := rd m p in if c =? 0 then Ok p else if c =? d then span m (S p) d fuel else Ok p
  end.
Fixpoint cspan (m : mem) (p : nat) (d : Z) (fuel : nat) : outcome nat :=
  match fuel with
  | O => Diverge
  | S fuel => let* c := rd m p in if c =? 0 then Ok p else if c =? d then Ok p else cspan m (S p) d fuel
  end.
(** C library: strtok_r for a one-character set (glibc string/strtok_r.c); None is NULL *)
Definition strtok_r (m : mem) (s : option nat) (d : Z) (save : nat) : outcome (mem * option nat * nat) :=
  let p := match s with Some p => p | None => save end in
  let* b := span m p d (S (length m)) in
  let* c := rd m b in
  if c =? 0 then Ok (m, None, b)
  else
    let* e := cspan m b d (S (length m)) in
    let* c := rd m e in
    if c =? 0 then Ok (m, Some b, e) else Ok (wr m e 0, Some b, S e).

Definition MAX_BACKENDS : nat := 16.   (* L80 *)
Definition MAX_ARGS : nat := 256.      (* L81 *)
Definition semicolon : Z := 59.
Definition space : Z := 32.

(** inner loop L462-469: backend_argv (pointers, in order) when the words are exhausted *)
Fixpoint read_args (fuel : nat) (m : mem) (save : nat) (arg : option nat) (argv : list nat) : outcome (mem * list nat) :=
  match fuel with
  | O => Diverge
  | S fuel =>
      match arg with
      | None => Ok (m, argv)
      | Some a =>
          if Nat.leb MAX_ARGS (length argv) then Exit
          else let* '(m', arg', save') := strtok_r m None space save in read_args fuel m' save' arg' (argv ++ [a])
      end
  end.
Fixpoint strings (m : mem) (ps : list nat) : outcome (list (list Z)) :=
  match ps with
  | [] => Ok []
  | p :: ps' => let* s := cstr m p in let* l := strings m ps' in Ok (s :: l)
  end.

(** what the outside world answers: [loads name] tells whether dlopen of that name (None: the NULL pointer) and the four
    dlsym succeed (L473-491); [accepts argv] whether the backend's interflop_cli returns (L499) *)
Record world := mk_world { loads : option (list Z) -> bool; accepts : list (list Z) -> bool }.

(** outer loop L457-507; the result lists, for each backend loaded, the arguments its interflop_cli got *)
Fixpoint load_loop (w : world) (fuel : nat) (m : mem) (save : nat) (token : option nat) (loaded : list (list (list Z))) : outcome (list (list (list Z))) :=
  match fuel with
  | O => Diverge
  | S fuel =>
      match token with
      | None => Ok loaded
      | Some t =>
          let* '(m1, arg, sp) := strtok_r m (Some t) space 0 in
          let* '(m2, argv) := read_args (S (length m)) m1 sp arg [] in
          if Nat.leb MAX_ARGS (length argv) then UB                (* L470: backend_argv[backend_argc] = NULL *)
          else
            let* args := strings m2 argv in
            if negb (loads w (hd_error args)) then Exit
            else if Nat.eqb (length loaded) MAX_BACKENDS then Exit (* L494-497 *)
            else if negb (accepts w args) then Exit
            else let* '(m3, token', save') := strtok_r m2 None semicolon save in load_loop w fuel m3 save' token' (loaded ++ [args])
      end
  end.

(** L455-512 on a memory block holding the variable *)
Definition load_backends (w : world) (m : mem) : outcome (list (list (list Z))) :=
  let* '(m1, token, save) := strtok_r m (Some O) semicolon 0 in
  let* l := load_loop w (S (length m)) m1 save token [] in
  match l with [] => Exit | _ => Ok l end.

(** parse_vfc_backends_env L264-297: VFC_BACKENDS, else the first line of the file named by VFC_BACKENDS_FROM_FILE (None:
    the variable is not set; Some None: the file cannot be opened). NULL: L439-444 *)
Fixpoint first_line (l : list Z) : list Z := match l with [] => [] | c :: l' => if c =? 10 then [] else c :: first_line l' end.
Definition backends_variable (var : option (list Z)) (file : option (option (list Z))) : outcome (list Z) :=
  match var, file with
  | Some s, _ => Ok s
  | None, None => Exit
  | None, Some None => Exit
  | None, Some (Some []) => Exit
  | None, Some (Some text) => Ok (first_line text)
  end.
Definition read_configuration (w : world) (var : option (list Z)) (file : option (option (list Z))) : outcome (list (list (list Z))) :=
  let* s := backends_variable var file in load_backends w (s ++ [0]).

(** * Calling the backends *)
Inductive wprec := PFloat | PDouble.
Definition wfmt (p : wprec) : fmt := match p with PFloat => binary32 | PDouble => binary64 end.
Inductive wop := WAdd | WSub | WMul | WDiv.

(** struct interflop_backend_interface_t (interflop.h L98-130), the functions called by the wrappers. [W] is the state of all
    contexts and of everything else; a function gets its operands, the present content of the result cell (None:
    uninitialised) and the state, and returns the new ones. *)
Record backend (W : Type) := mk_backend {
  b_arith : wprec -> wop -> option (Z -> Z -> option Z -> W -> option Z * W);
  b_cmp : wprec -> option (fcmp -> Z -> Z -> option Z -> W -> option Z * W);
  b_fma : wprec -> option (Z -> Z -> Z -> option Z -> W -> option Z * W);
  b_cast : option (Z -> option Z -> W -> option Z * W) }.
Arguments mk_backend {W}. Arguments b_arith {W}. Arguments b_cmp {W}. Arguments b_fma {W}. Arguments b_cast {W}.

(** the loops "for each loaded backend: if it has the function, call it" *)
Fixpoint call_all {B W F} (get : B -> option F) (app : F -> option Z -> W -> option Z * W) (bs : list B) (c : option Z) (w : W) : option Z * W :=
  match bs with
  | [] => (c, w)
  | b :: bs' => match get b with
                | Some f => let '(c', w') := app f c w in call_all get app bs' c' w'
                | None => call_all get app bs' c w
                end
  end.
(** the value of an uninitialised local: undefined *)
Definition returned {W} (r : option Z * W) : outcome (Z * W) := match fst r with Some c => Ok (c, snd r) | None => UB end.

(** define_arithmetic_wrapper L600-611 after the ddebug filter; define_fma L717-730; cmp L622-640; cast L732-740 *)
Definition arith_wrapper {W} (bs : list (backend W)) (p : wprec) (o : wop) (a b : Z) (w : W) : outcome (Z * W) :=
  returned (call_all (fun x => b_arith x p o) (fun f => f a b) bs (Some (qnan (wfmt p))) w).
Definition fma_wrapper {W} (bs : list (backend W)) (p : wprec) (a b c : Z) (w : W) : outcome (Z * W) :=
  returned (call_all (fun x => b_fma x p) (fun f => f a b c) bs (Some (qnan (wfmt p))) w).
Definition cmp_wrapper {W} (bs : list (backend W)) (p : wprec) (pr : fcmp) (a b : Z) (w : W) : outcome (Z * W) :=
  returned (call_all (fun x => b_cmp x p) (fun f => f pr a b) bs None w).
Definition cast_wrapper {W} (bs : list (backend W)) (a : Z) (w : W) : outcome (Z * W) :=
  returned (call_all b_cast (fun f => f a) bs None w).

(** check_backends_implements L219-232 and its uses L515-532; [inst_fcmp] etc. are the compilation flags *)
Definition some_implements {B F} (get : B -> option F) (bs : list B) : bool := existsb (fun b => match get b with Some _ => true | None => false end) bs.
Definition init_checks {W} (inst_fcmp inst_fma inst_cast : bool) (bs : list (backend W)) : outcome unit :=
  if forallb (fun p => forallb (fun o => some_implements (fun x => b_arith x p o) bs) [WAdd; WSub; WMul; WDiv]) [PFloat; PDouble] &&
     (negb inst_fcmp || forallb (fun p => some_implements (fun x => b_cmp x p) bs) [PFloat; PDouble]) &&
     (negb inst_fma || forallb (fun p => some_implements (fun x => b_fma x p) bs) [PFloat; PDouble]) &&
     (negb inst_cast || some_implements b_cast bs)
  then Ok tt else Exit.

(** * Vector wrappers *)
(** define_vectorized_arithmetic_wrapper L643-652, comparisons L695-705: c[i] = scalar(a[i], b[i]) for i = 0 .. size-1 *)
Fixpoint set_lane (l : list (option Z)) (i : nat) (v : Z) : list (option Z) :=
  match l, i with
  | [], _ => []
  | _ :: l', O => Some v :: l'
  | x :: l', S i' => x :: set_lane l' i' v
  end.
Fixpoint lanes {W} (scalar : Z -> Z -> W -> outcome (Z * W)) (count i : nat) (a b : list Z) (c : list (option Z)) (w : W) : outcome (list (option Z) * W) :=
  match count with
  | O => Ok (c, w)
  | S count => match nth_error a i, nth_error b i with
               | Some x, Some y => let* '(z, w') := scalar x y w in lanes scalar count (S i) a b (set_lane c i z) w'
               | _, _ => UB
               end
  end.
Definition vector_wrapper {W} (scalar : Z -> Z -> W -> outcome (Z * W)) (size : nat) (a b : list Z) (w : W) : outcome (list (option Z) * W) :=
  lanes scalar size 0 a b (repeat None size) w.

(** * Variadic arguments *)
(** what a backend does with a va_list: it reads arguments one by one, going on as it likes *)
Inductive reader (A : Type) := Stop | Read (k : A -> reader A).
Arguments Stop {A}. Arguments Read {A}.
(** the arguments read and the new position; reading past the end is undefined *)
Fixpoint consume {A} (r : reader A) (args : list A) : outcome (list A * list A) :=
  match r with
  | Stop => Ok ([], args)
  | Read k => match args with
              | [] => UB
              | a :: args' => let* '(seen, rest) := consume (k a) args' in Ok (a :: seen, rest)
              end
  end.
(** interflop_call L589-598: va_start before, va_end after each backend. The result lists what each backend saw. *)
Fixpoint user_call {A} (bs : list (option (reader A))) (args : list A) : outcome (list (list A)) :=
  match bs with
  | [] => Ok []
  | None :: bs' => user_call bs' args
  | Some r :: bs' => let* '(seen, _) := consume r args in let* l := user_call bs' args in Ok (seen :: l)
  end.
(** vfc_enter_function and vfc_exit_function (funcinstr.c L137-152, L161-173): one va_start for all backends; the va_list of
    the x86-64 and aarch64 ABIs keeps its position when passed to a function *)
Fixpoint shared_call {A} (bs : list (option (reader A))) (args : list A) : outcome (list (list A)) :=
  match bs with
  | [] => Ok []
  | None :: bs' => shared_call bs' args
  | Some r :: bs' => let* '(seen, rest) := consume r args in let* l := shared_call bs' rest in Ok (seen :: l)
  end.
