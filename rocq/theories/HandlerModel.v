(** The table of library functions given to the backends (src/interflop-stdlib/interflop_stdlib.c, interflop_stdlib.h), how
    vfcwrapper fills it (src/vfcwrapper/main.c.in) and what the backends check and call. *)
From Coq Require Import String ZArith List Bool.
From Verif Require Import Common Text.
Import ListNotations.
Open Scope Z_scope.

(** __string_equal (interflop_stdlib.c L22-40). Strings as bytes without the final zero; [n] is how many times the index may
    still grow: i <= 2048 allows 2049 times. Reading stops at the first zero of either string, so it never leaves them *)
Fixpoint scan_equal (n : nat) (s1 s2 : list Z) {struct s1} : bool :=
  match s1, s2 with
  | [], [] => true
  | a :: s1', b :: s2' => if a =? b then match n with O => false | S n' => scan_equal n' s1' s2' end else false
  | _, _ => false
  end.
Definition string_equal (s1 s2 : list Z) : bool := scan_equal (Z.to_nat 2049) s1 s2.

(** the names of SET_HANDLER, in order (L80-117) *)
Definition handler_names : list string :=
  ["malloc"; "fopen"; "panic"; "strcmp"; "strcasecmp"; "strtol"; "strtod"; "getenv"; "fprintf"; "strcpy"; "strncpy"; "fclose";
   "gettid"; "strerror"; "sprintf"; "vwarnx"; "vfprintf"; "exit"; "strtok_r"; "fgets"; "free"; "calloc"; "argp_parse";
   "nanHandler"; "infHandler"; "maxHandler"; "cancellationHandler"; "denormalHandler"; "debug_print_op"; "gettimeofday";
   "register_printf_specifier"]%string.
Definition known : list (list Z) := map bytes handler_names.

(** the variables interflop_<name> (L46-78): the address of a function, 0 for Null. There is one table for the whole process
    (libinterflop_stdlib is one shared object) *)
Definition table := list Z -> Z.
Definition empty_table : table := fun _ => 0.
Definition bytes_eqb (a b : list Z) : bool := if list_eq_dec Z.eq_dec a b then true else false.
Definition put (h : table) (k : list Z) (p : Z) : table := fun x => if bytes_eqb x k then p else h x.
(** interflop_set_handler L80-117: [None] is the null pointer; a chain of else-if, the first name equal to the argument *)
Definition set_handler (h : table) (name : option (list Z)) (p : Z) : table :=
  match name with
  | None => h
  | Some s => match find (string_equal s) known with Some k => put h k p | None => h end
  end.

(** What code does with the table *)
Inductive action :=
| Install (name : list Z) (p : Z)  (* interflop_set_handler(name, p) *)
| Check (name : list Z)            (* INTERFLOP_CHECK_IMPL(name), interflop_stdlib.h L45-48 *)
| Call (name : list Z)             (* interflop_name(...) *)
| CallIfSet (name : list Z).       (* if (interflop_name != Null) interflop_name(...) *)
(** Calling a null pointer is undefined; the panic handler of vfcwrapper (_vfc_panic, main.c.in L381-384) ends the program *)
Definition step (h : table) (a : action) : outcome table :=
  match a with
  | Install name p => Ok (set_handler h (Some name) p)
  | Check k => if h k =? 0 then if h (bytes "panic") =? 0 then UB else Exit else Ok h
  | Call k => if h k =? 0 then UB else Ok h
  | CallIfSet k => Ok h
  end.
Fixpoint execute (l : list action) (h : table) : outcome table :=
  match l with [] => Ok h | a :: l' => match step h a with Ok h' => execute l' h' | UB => UB | Exit => Exit | Diverge => Diverge end end.

(** vfc_init L404-427: the handlers of the wrapper. [addr]: the address of the function given for a name *)
Definition init_names : list string :=
  ["getenv"; "sprintf"; "strerror"; "gettid"; "fopen"; "strcasecmp"; "vwarnx"; "fprintf"; "exit"; "vfprintf"; "malloc"; "strcmp";
   "strtol"; "strtod"; "strcpy"; "strncpy"; "fclose"; "fgets"; "strtok_r"; "free"; "calloc"; "gettimeofday";
   "register_printf_specifier"]%string.
(** vfc_set_handlers L347-379 *)
Definition backend_names : list string :=
  ["getenv"; "sprintf"; "strerror"; "gettid"; "fopen"; "strcasecmp"; "vwarnx"; "fprintf"; "exit"; "vfprintf"; "malloc"; "strcmp";
   "strtol"; "strtod"; "strcpy"; "strncpy"; "fclose"; "fgets"; "strtok_r"; "free"; "calloc"; "argp_parse"; "gettimeofday";
   "register_printf_specifier"; "infHandler"; "nanHandler"; "cancellationHandler"; "denormalHandler"; "maxHandler"]%string.
Definition installs (addr : list Z -> Z) (l : list string) : list action := map (fun s => Install (bytes s) (addr (bytes s))) l.
Definition checks (l : list string) : list action := map (fun s => Check (bytes s)) l.
Definition calls (l : list string) : list action := map (fun s => Call (bytes s)) l.

(** logger_init (logger.c L303-317) with _logger_check_stdlib L290-301, then the handlers its four readers may call
    (L123-171, L187-210) *)
Definition logger_checks : list string :=
  ["exit"; "fopen"; "fprintf"; "getenv"; "gettid"; "sprintf"; "strcasecmp"; "strerror"; "vfprintf"; "vwarnx"]%string.
Definition logger_init_script (addr : list Z -> Z) : list action :=
  Install (bytes "panic") (addr (bytes "panic")) :: checks logger_checks ++
  calls ["getenv"; "strcasecmp"; "getenv"; "strcasecmp"; "getenv"; "strcasecmp"; "getenv"; "gettid"; "sprintf"; "fopen"; "strerror"; "vwarnx"; "exit"]%string.
(** messages (logger.c L174-185, L212-288) *)
Definition logger_uses : list string := ["fprintf"; "vfprintf"; "vwarnx"; "exit"]%string.

Inductive backend := Ieee | McaQuad | McaInt | Vprec | Bitmask | Cancellation.
(** _*_check_stdlib: ieee L415-427, mcaquad L702-718, mcaint L586-602, vprec L804-825, bitmask L639-651, cancellation L269-281 *)
Definition checked (b : backend) : list string :=
  match b with
  | Ieee | Bitmask | Cancellation =>
      ["malloc"; "exit"; "fopen"; "fprintf"; "getenv"; "gettid"; "sprintf"; "strcasecmp"; "strerror"; "vfprintf"; "vwarnx"]
  | McaQuad | McaInt =>
      ["exit"; "fopen"; "fprintf"; "getenv"; "gettid"; "malloc"; "sprintf"; "strcasecmp"; "strerror"; "strtod"; "strtol"; "vfprintf";
       "vwarnx"; "gettimeofday"]
  | Vprec =>
      ["calloc"; "exit"; "fclose"; "fgets"; "fopen"; "fprintf"; "free"; "getenv"; "gettid"; "malloc"; "sprintf"; "strcasecmp"; "strcmp";
       "strcpy"; "strncpy"; "strerror"; "strtok_r"; "strtol"; "vfprintf"; "vwarnx"]
  end%string.
(** pre_init: ieee L447-465, mcaquad L738-751, mcaint L622-635, vprec L850-863, bitmask L668-681, cancellation L295-306 *)
Definition pre_init (addr : list Z -> Z) (b : backend) : list action :=
  Install (bytes "panic") (addr (bytes "panic")) :: checks (checked b) ++ logger_init_script addr ++ calls ["malloc"%string] ++
  match b with Ieee => [CallIfSet (bytes "register_printf_specifier")] | _ => [] end.
(** the handlers that the code of a backend calls without testing them, its generator (vfc_rng.c L40-54) and hash map
    (vfc_hashmap.c) included: the occurrences of interflop_<name>( in its sources. argp_parse is tested before its call
    (for instance mcaint L738-748); the panic handler is given to pre_init *)
Definition uses (b : backend) : list string :=
  match b with
  | Ieee => ["fprintf"; "getenv"; "malloc"; "strcasecmp"; "vfprintf"; "sprintf"]
  | McaQuad => ["getenv"; "malloc"; "strcasecmp"; "strtod"; "strtol"; "gettid"; "gettimeofday"]
  | McaInt => ["malloc"; "strcasecmp"; "strtod"; "strtol"; "gettid"; "gettimeofday"]
  | Vprec => ["getenv"; "malloc"; "strcasecmp"; "strcmp"; "strtol"; "calloc"; "fclose"; "fgets"; "fopen"; "fprintf"; "free"; "strcpy";
              "strerror"; "strtok_r"]
  | Bitmask | Cancellation => ["getenv"; "malloc"; "strcasecmp"; "strtol"; "gettid"; "gettimeofday"]
  end%string.
(** cli (for instance mcaint L738-748): argp_parse when it is there, otherwise panic *)
Definition cli : list action := [Check (bytes "argp_parse"); Call (bytes "argp_parse")].

(** vfc_init: the wrapper's handlers and logger, then for each backend of the list vfc_set_handlers, pre_init and cli
    (L386-505) *)
Definition startup (addr : list Z -> Z) (bs : list backend) : list action :=
  installs addr init_names ++ logger_init_script addr ++
  concat (map (fun b => installs addr backend_names ++ pre_init addr b ++ cli) bs).
