(** Model of the compiler driver, verificarlo.in.in.

    A text is a list of bytes. The values filled in by configure (paths, versions) are the fields of [config]. The commands
    are built as texts, as the driver does; [sh_words] is what the shell makes of such a text, for the characters that the
    shell does not treat specially. The exit status of each command is an oracle, and so is the random part of the
    names of temporary files. argparse is modelled for command lines without a "--" argument (see [Outside]).
    Not modelled: messages, --show-cmd output, removal of the temporary files. *)
From Coq Require Import String ZArith List Bool.
From Verif Require Import Text.
Import ListNotations.
Open Scope Z_scope.

Definition same (a b : list Z) : bool := if list_eq_dec Z.eq_dec a b then true else false.
Definition oneof (a : list Z) (l : list (list Z)) : bool := existsb (same a) l.
Definition b_ (s : string) : list Z := bytes s.

(** [Stop code]: the driver exits with that status; [Outside]: not covered by the model *)
Inductive res (A : Type) : Type := Got (a : A) | Stop (code : Z) | Outside.
Arguments Got {A} a. Arguments Stop {A} code. Arguments Outside {A}.

(** * Configuration, L30-59 *)
Record config := mk_config {
  c_clang : list Z; c_clangxx : list Z; c_flang : list Z; c_opt : list Z; c_llvm_link : list Z;
  c_libdir : list Z; c_prismdir : list Z; c_root : list Z; c_incdir : list Z; c_stdlib : list Z; c_march : list Z;
  c_version : Z; c_cwd : list Z }.
Definition includes (c : config) : list Z := c_root c ++ b_ "/../include/".
Definition vfcwrapper (c : config) : list Z := includes c ++ b_ "vfcwrapper.c".
Inductive linker := Clang | Flang | Clangxx.
Definition linker_path (c : config) (l : linker) : list Z := match l with Clang => c_clang c | Flang => c_flang c | Clangxx => c_clangxx c end.

(** * File names: os.path.splitext and os.path.basename *)
(** position of the last [x], if any *)
Fixpoint rfind (x : Z) (l : list Z) : option nat :=
  match l with
  | [] => None
  | c :: l' => match rfind x l' with Some i => Some (S i) | None => if c =? x then Some O else None end
  end.
Definition basename (p : list Z) : list Z := match rfind 47 p with Some i => skipn (S i) p | None => p end.
Definition dirpart (p : list Z) : list Z := match rfind 47 p with Some i => firstn (S i) p | None => [] end.
(** genericpath._splitext: the leading dots of the last component do not start an extension *)
Definition splitext (p : list Z) : list Z * list Z :=
  let d := dirpart p in let b := basename p in
  match rfind 46 b with
  | None => (p, [])
  | Some i => if forallb (Z.eqb 46) (firstn i b) then (p, []) else (d ++ firstn i b, skipn i b)
  end.
Definition lower (s : list Z) : list Z := map (fun c => if (65 <=? c) && (c <=? 90) then c + 32 else c) s.
(** L50-54, L106-123 *)
Definition has_extension (name : list Z) (l : list string) : bool := oneof (lower (snd (splitext name))) (map b_ l).
Definition is_fortran (name : list Z) : bool := has_extension name [".f"; ".f90"; ".f77"]%string.
Definition is_c (name : list Z) : bool := has_extension name [".c"]%string.
Definition is_cpp (name : list Z) : bool := has_extension name [".cc"; ".cp"; ".cpp"; ".cxx"; "c++"]%string.
Definition is_assembly (name : list Z) : bool := has_extension name [".s"]%string.
Definition is_llvm_bitcode (name : list Z) : bool := has_extension name [".bc"; ".ll"]%string.

(** * Parsed options, L413-501 *)
Record args := mk_args {
  a_E : bool; a_S : bool; a_c : bool; a_o : option (list Z); a_ddebug : bool;
  a_function : option (list Z); a_include : option (list Z); a_exclude : option (list Z);
  a_static : bool; a_verbose : bool; a_fcmp : bool; a_fma : bool; a_cast : bool; a_func : bool; a_show : bool; a_temps : bool;
  a_linker : linker; a_emit : bool; a_prism : option (list Z); a_dynamic : bool; a_debug : list (list Z); a_strict : bool }.
Definition no_args : args :=
  mk_args false false false None false None None None false false false false false false false false Clang false None true [] false.

Inductive flag := FE | FS | FC | FDdebug | FStatic | FVerbose | FFcmp | FFma | FCast | FFunc | FShow | FTemps | FEmit | FStrict.
Inductive valued := VO | VFunction | VInclude | VExclude | VLinker | VPrism | VDispatch.
Inductive option_kind := KFlag (f : flag) | KValue (v : valued) | KDebug | KHelp.
Definition option_table : list (string * option_kind) :=
  [("-h", KHelp); ("--help", KHelp); ("-E", KFlag FE); ("-S", KFlag FS); ("-c", KFlag FC); ("-o", KValue VO); ("--ddebug", KFlag FDdebug);
   ("--function", KValue VFunction); ("--include-file", KValue VInclude); ("--exclude-file", KValue VExclude);
   ("-static", KFlag FStatic); ("--static", KFlag FStatic); ("--verbose", KFlag FVerbose); ("--inst-fcmp", KFlag FFcmp);
   ("--inst-fma", KFlag FFma); ("--inst-cast", KFlag FCast); ("--inst-func", KFlag FFunc); ("--show-cmd", KFlag FShow);
   ("--save-temps", KFlag FTemps); ("--version", KHelp); ("--linker", KValue VLinker); ("--emit-llvm", KFlag FEmit);
   ("--prism-backend", KValue VPrism); ("--prism-backend-dispatch", KValue VDispatch); ("--prism-backend-debug", KDebug);
   ("--prism-backend-strict-abi", KFlag FStrict)]%string.
Definition lookup (x : list Z) : option option_kind :=
  match List.find (fun p => same (b_ (fst p)) x) option_table with Some p => Some (snd p) | None => None end.

Definition set_flag (f : flag) (a : args) : args :=
  match a with mk_args e s c o dd fn inc exc st vb fc fm ca fu sh tm lk em pr dy db ab =>
  let t (g : flag) (old : bool) : bool := match f, g with
    | FE, FE | FS, FS | FC, FC | FDdebug, FDdebug | FStatic, FStatic | FVerbose, FVerbose | FFcmp, FFcmp | FFma, FFma | FCast, FCast
    | FFunc, FFunc | FShow, FShow | FTemps, FTemps | FEmit, FEmit | FStrict, FStrict => true | _, _ => old end in
  mk_args (t FE e) (t FS s) (t FC c) o (t FDdebug dd) fn inc exc (t FStatic st) (t FVerbose vb) (t FFcmp fc) (t FFma fm) (t FCast ca)
          (t FFunc fu) (t FShow sh) (t FTemps tm) lk (t FEmit em) pr dy db (t FStrict ab) end.
(** the choices of --linker, --prism-backend (with its aliases, L62-83) and --prism-backend-dispatch; exit status 2 otherwise *)
Definition set_value (v : valued) (x : list Z) (a : args) : res args :=
  match a with mk_args e s c o dd fn inc exc st vb fc fm ca fu sh tm lk em pr dy db ab =>
  match v with
  | VO => Got (mk_args e s c (Some x) dd fn inc exc st vb fc fm ca fu sh tm lk em pr dy db ab)
  | VFunction => Got (mk_args e s c o dd (Some x) inc exc st vb fc fm ca fu sh tm lk em pr dy db ab)
  | VInclude => Got (mk_args e s c o dd fn (Some x) exc st vb fc fm ca fu sh tm lk em pr dy db ab)
  | VExclude => Got (mk_args e s c o dd fn inc (Some x) st vb fc fm ca fu sh tm lk em pr dy db ab)
  | VLinker =>
      if same x (b_ "clang") then Got (mk_args e s c o dd fn inc exc st vb fc fm ca fu sh tm Clang em pr dy db ab)
      else if same x (b_ "flang") then Got (mk_args e s c o dd fn inc exc st vb fc fm ca fu sh tm Flang em pr dy db ab)
      else if same x (b_ "clang++") then Got (mk_args e s c o dd fn inc exc st vb fc fm ca fu sh tm Clangxx em pr dy db ab)
      else Stop 2
  | VPrism =>
      if same x (b_ "ud") || same x (b_ "up-down") then Got (mk_args e s c o dd fn inc exc st vb fc fm ca fu sh tm lk em (Some (b_ "up-down")) dy db ab)
      else if same x (b_ "sr") || same x (b_ "stochastic-rounding") then
        Got (mk_args e s c o dd fn inc exc st vb fc fm ca fu sh tm lk em (Some (b_ "stochastic-rounding")) dy db ab)
      else Stop 2
  | VDispatch =>
      if same x (b_ "dynamic") then Got (mk_args e s c o dd fn inc exc st vb fc fm ca fu sh tm lk em pr true db ab)
      else if same x (b_ "static") then Got (mk_args e s c o dd fn inc exc st vb fc fm ca fu sh tm lk em pr false db ab)
      else Stop 2
  end end.
Definition set_debug (l : list (list Z)) (a : args) : args :=
  match a with mk_args e s c o dd fn inc exc st vb fc fm ca fu sh tm lk em pr dy db ab =>
  mk_args e s c o dd fn inc exc st vb fc fm ca fu sh tm lk em pr dy l ab end.

(** * argparse: parse_known_args with the prefix completion switched off (L86-89) *)
Inductive kind := Plain | Option (k : option_kind) (explicit : option (list Z)) | Unknown.
(** the name and the value of --name=value *)
Fixpoint cut_equal (x : list Z) : option (list Z * list Z) :=
  match x with
  | [] => None
  | c :: x' => if c =? 61 then Some ([], x') else match cut_equal x' with Some (n, v) => Some (c :: n, v) | None => None end
  end.
Definition is_digit (c : Z) : bool := (48 <=? c) && (c <=? 57).
(** -digits or -digits.digits *)
Definition negative_number (x : list Z) : bool :=
  match x with
  | 45 :: r =>
      let fix digits (l : list Z) := match l with c :: l' => if is_digit c then digits l' else l | [] => [] end in
      match digits r with
      | [] => match r with [] => false | _ => true end
      | 46 :: r' => match r' with [] => false | _ => match digits r' with [] => true | _ => false end end
      | _ => false
      end
  | _ => false
  end.
(** ArgumentParser._parse_optional *)
Definition classify (x : list Z) : kind :=
  match x with
  | 45 :: x' =>
      match lookup x with
      | Some k => Option k None
      | None =>
          match x' with
          | [] => Plain
          | _ =>
              match match cut_equal x with Some (n, v) => match lookup n with Some k => Some (k, v) | None => None end | None => None end with
              | Some (k, v) => Option k (Some v)
              | None => if negative_number x || existsb (Z.eqb 32) x then Plain else Unknown
              end
          end
      end
  | _ => Plain
  end.
Definition debug_choices : list (list Z) := map b_ ["getoperands"; "abi"; "targetfeatures"; ""]%string.

(** the loop of _parse_known_args. [db]: the arguments of a --prism-backend-debug being read (nargs="*") *)
Fixpoint parse (l : list (list Z)) (db : option (list (list Z))) (a : args) (extras : list (list Z)) : res (args * list (list Z)) :=
  let close (a : args) := match db with Some d => set_debug d a | None => a end in
  match l with
  | [] => Got (close a, extras)
  | x :: l' =>
      if same x (b_ "--") then Outside
      else
      match classify x, db with
      | Plain, Some d => if oneof x debug_choices then parse l' (Some (d ++ [x])) a extras else Stop 2
      | Plain, None => parse l' None a (extras ++ [x])
      | Unknown, _ => parse l' None (close a) (extras ++ [x])
      | Option KHelp None, _ => Stop 0
      | Option KHelp (Some _), _ => Outside
      | Option (KFlag f) None, _ => parse l' None (set_flag f (close a)) extras
      | Option (KFlag f) (Some _), _ => match x with 45 :: 45 :: _ => Stop 2 | _ => Outside end
      | Option (KValue v) (Some y), _ => match set_value v y (close a) with Got a' => parse l' None a' extras | Stop n => Stop n | Outside => Outside end
      | Option (KValue v) None, _ =>
          match l' with
          | y :: l'' =>
              if same y (b_ "--") then Outside
              else match classify y with
                   | Plain => match set_value v y (close a) with Got a' => parse l'' None a' extras | Stop n => Stop n | Outside => Outside end
                   | _ => Stop 2
                   end
          | [] => Stop 2
          end
      | Option KDebug None, _ => parse l' (Some []) (close a) extras
      | Option KDebug (Some y), _ => if oneof y debug_choices then parse l' None (set_debug [y] (close a)) extras else Stop 2
      end
  end.

(** shell_escape L126-128 *)
Definition shell_escape (x : list Z) : list Z := b_ "'" ++ x ++ b_ "'".
Fixpoint join (l : list (list Z)) : list Z :=
  match l with [] => [] | [x] => x | x :: l' => x ++ b_ " " ++ join l' end.
Definition is_library (x : list Z) : bool := match x with 45 :: 108 :: _ => true | _ => false end.
(** parse_extra_args L131-157 *)
Fixpoint sort_extras (flang : list Z) (l : list (list Z)) : res (list (list Z) * list (list Z) * list (list Z)) :=
  match l with
  | [] => Got ([], [], [])
  | x :: l' =>
      match sort_extras flang l' with
      | Got (s, o, b) =>
          if is_fortran x then match flang with [] => Stop 1 | _ => Got (x :: s, o, b) end
          else if is_c x || is_cpp x || is_assembly x || is_llvm_bitcode x then Got (x :: s, o, b)
          else if is_library x then Got (s, o, x :: b)
          else Got (s, shell_escape x :: o, b)
      | Stop n => Stop n
      | Outside => Outside
      end
  end.

(** * Running commands *)
Record state := mk_state { commands : list (list Z); temps : list (list Z) }.   (* in the order of execution, of creation *)
Section driver.
  Context (c : config).
  Context (rnd : nat -> list Z).                   (* the random part of the name of each temporary file *)
  Context (ok : nat -> list Z -> bool).            (* does the n-th command succeed *)
  Definition M (A : Type) : Type := state -> res A * state.
  Definition ret {A} (x : A) : M A := fun s => (Got x, s).
  Definition stop {A} (code : Z) : M A := fun s => (Stop code, s).
  Definition mbind {A B} (m : M A) (k : A -> M B) : M B :=
    fun s => match m s with (Got x, s') => k x s' | (Stop n, s') => (Stop n, s') | (Outside, s') => (Outside, s') end.
  Notation "'run' x <- m ; k" := (mbind m (fun x => k)) (at level 200, x name, m at level 100, k at level 200).
  Notation "m ;; k" := (mbind m (fun _ => k)) (at level 199, right associativity).

  (** shell L160-166 *)
  Definition shell (cmd : list Z) : M unit :=
    fun s => let s' := mk_state (commands s ++ [cmd]) (temps s) in
             (if ok (length (commands s)) cmd then Got tt else Stop 1, s').
  (** get_tmp_filename L242-251; the name *)
  Definition get_tmp (prefix suffix : list Z) : M (list Z) :=
    fun s => let name := c_cwd c ++ b_ "/" ++ fst (splitext (basename prefix)) ++ b_ "." ++ rnd (length (temps s)) ++ suffix in
             (Got name, mk_state (commands s) (temps s ++ [name])).

  Definition opt_text (b : bool) (s : string) : list Z := if b then b_ s else [].
  (** get_emit_format L271-273 *)
  Definition emit_format (a : args) : list Z := opt_text (a_temps a) " -S ".

  (** compile_vfcwrapper L169-185 *)
  Definition compile_vfcwrapper (source output : list Z) (a : args) (emit_llvm : bool) : M unit :=
    let extra := (if a_static a then b_ "-static " else b_ "-fPIC ") ++ opt_text (a_fcmp a) "-DINST_FCMP " ++ opt_text (a_ddebug a) "-DDDEBUG " ++
      opt_text (a_func a) "-DINST_FUNC " ++ opt_text (a_fma a) "-DINST_FMA " ++ opt_text (a_cast a) "-DINST_CAST " in
    let internal := (if emit_llvm then b_ " " ++ emit_format a ++ b_ " -emit-llvm " else []) ++ b_ " -c -Wno-varargs -I " ++ includes c ++ b_ " " in
    shell (c_clang c ++ b_ " -O3 " ++ c_march c ++ b_ " -g " ++ internal ++ b_ " " ++ extra ++ b_ " " ++ source ++ b_ " -I" ++ c_incdir c ++
           b_ " -o " ++ output ++ b_ " ").

  (** L207 *)
  Definition object_of (s : list Z) : list Z := fst (splitext s) ++ b_ ".o".

  (** linker_mode L188-232 *)
  Definition linker_mode (sources : list (list Z)) (options libraries output : list Z) (a : args) : M unit :=
    run w <- (match a_prism a with
              | Some _ => ret ([], libraries ++ b_ " " ++ (if a_dynamic a then b_ "-lprism-dynamic" else b_ "-lprism-static") ++
                                   (match a_debug a with [] => [] | _ => b_ "-dbg" end) ++ b_ " -lhwy -lstdc++ ")
              | None => run o <- get_tmp (b_ ".vfcwrapper.") (b_ ".o");
                        run _ <- compile_vfcwrapper (vfcwrapper c) o a false;
                        ret (o, libraries)
              end);
    let vfcwrapper_o := fst w in let libraries := snd w in
    let objects := join (map object_of sources) in
    let stdlib_flags := b_ " -L" ++ c_stdlib c ++ b_ " -linterflop_stdlib -linterflop_hashmap -linterflop_logger " in
    let options := options ++ opt_text (a_ddebug a || a_func a) " -no-pie " in
    let cmd := output ++ b_ " " ++ objects ++ b_ " " ++ options ++ b_ " " ++ libraries ++ b_ " " ++ vfcwrapper_o ++ b_ " " ++
      (if a_static a then b_ " -static -lgmp -lm -ldl " ++ stdlib_flags ++ b_ " "
       else b_ " -rpath " ++ c_libdir c ++ b_ " -L " ++ c_libdir c ++ b_ " -ldl " ++ stdlib_flags ++ b_ " ") in
    shell (linker_path c (a_linker a) ++ b_ " " ++ cmd).

  (** compile_only L235-239 *)
  Definition compile_only (sources : list (list Z)) (options output : list Z) (a : args) : M unit :=
    shell (linker_path c (a_linker a) ++ b_ " " ++ join sources ++ b_ " " ++ options ++ b_ " " ++ output).

  (** get_opt_pass_args L254-268 *)
  Definition pass_args (pass lib : list Z) : list Z :=
    if 17 <=? c_version c then b_ "-load-pass-plugin " ++ lib ++ b_ " -passes=" ++ pass
    else (if 13 <=? c_version c then b_ "-enable-new-pm=0" else []) ++ b_ " -load " ++ lib ++ b_ " -" ++ pass.

  (** apply_function_instrumentation_pass L276-283 *)
  Definition function_pass (ir ins : list Z) (a : args) : M unit :=
    shell (c_opt c ++ b_ " " ++ emit_format a ++ b_ " " ++ pass_args (b_ "vfclibfunc") (c_libdir c ++ b_ "/libvfcfuncinstrument.so") ++ b_ " " ++ ir ++ b_ " -o " ++ ins).

  (** apply_mca_instrumentation_pass L286-320; [wrapper]: None with a PRISM backend *)
  Definition mca_pass (ir ins : list Z) (wrapper : list Z) (extra select : list Z) (a : args) : M unit :=
    let '(lib, extra) :=
      match a_prism a with
      | Some mode =>
          (c_libdir c ++ b_ "/libvfcinstrumentprism.so",
           extra ++ b_ " -vfclibinst-mode " ++ mode ++ b_ " " ++ b_ " -vfclibinst-dispatch " ++ (if a_dynamic a then b_ "dynamic" else b_ "static") ++ b_ " " ++
           b_ " -vfclibinst-prism-static-ir-file " ++ c_prismdir c ++ b_ "/prism-static.ll" ++ b_ " " ++
           b_ " -vfclibinst-prism-dynamic-ir-file " ++ c_prismdir c ++ b_ "/prism-dynamic.ll" ++ b_ " " ++
           opt_text (a_strict a) " -vfclibinst-strict-abi " ++
           (match a_debug a with
            | [] => []
            | l => b_ " -vfclibinst-debug " ++ concat (map (fun d => match d with [] => [] | _ => b_ " -vfclibinst-debug-" ++ d ++ b_ " " end) l)
            end))
      | None => (c_libdir c ++ b_ "/libvfcinstrument.so", extra ++ b_ " -vfclibinst-vfcwrapper-file " ++ wrapper ++ b_ " ")
      end in
    shell (c_opt c ++ b_ " " ++ emit_format a ++ b_ " " ++ pass_args (b_ "vfclibinst") lib ++ b_ " " ++ extra ++ b_ " " ++ select ++ b_ "  " ++ ir ++ b_ " -o " ++ ins).

  Definition given (x : option (list Z)) : bool := match x with Some (_ :: _) => true | _ => false end.
  Definition value (x : option (list Z)) : list Z := match x with Some v => v | None => [] end.
  (** L358-365 *)
  Definition select_text (a : args) : list Z :=
    if given (a_function a) then b_ " -vfclibinst-function " ++ value (a_function a)
    else (if given (a_include a) then b_ " -vfclibinst-include-file " ++ value (a_include a) else []) ++
         (if given (a_exclude a) then b_ " -vfclibinst-exclude-file " ++ value (a_exclude a) else []).
  (** L373-389 *)
  Definition flags_text (a : args) : list Z :=
    opt_text (a_verbose a) " -vfclibinst-verbose " ++ opt_text (a_fcmp a) " -vfclibinst-inst-fcmp " ++
    opt_text (a_fma a) " -vfclibinst-inst-fma " ++ opt_text (a_cast a) " -vfclibinst-inst-cast ".
  (** L325 *)
  Definition ir_ext (a : args) : list Z := if a_emit a || a_temps a then b_ "ll" else b_ "bc".

  (** the body of the loop of compiler_mode, L333-410 *)
  Definition compile_source (options output wrapper : list Z) (a : args) (source : list Z) : M unit :=
    let base := fst (splitext source) in
    run ir <- get_tmp base (b_ ".1." ++ ir_ext a);
    run ins <- get_tmp base (b_ ".2." ++ ir_ext a);
    let compiler := linker_path c (a_linker a) in
    if is_assembly source then
      compile_only [source] (b_ " -c " ++ options) (match output with [] => b_ "-o " ++ base ++ b_ ".o" | _ => output end) a
    else
      run _ <- shell (compiler ++ b_ " -c " ++ emit_format a ++ b_ " -emit-llvm " ++ opt_text (a_func a || a_ddebug a) " -g " ++ b_ " " ++ source ++ b_ " " ++
                      b_ " -I " ++ includes c ++ b_ " " ++ b_ " " ++ b_ " " ++ options ++ b_ " -o " ++ ir);
      run p <- (if a_func a then run _ <- function_pass ir ins a; run ins' <- get_tmp base (b_ ".3." ++ ir_ext a); ret (ins, ins') else ret (ir, ins));
      let ir := fst p in let ins := snd p in
      run _ <- mca_pass ir ins wrapper (flags_text a) (select_text a) a;
      let cmd_output := match output with [] => b_ " -o " ++ base ++ b_ ".o" | _ => output end in
      if negb (a_emit a) then shell (compiler ++ b_ " -c " ++ cmd_output ++ b_ " " ++ ins ++ b_ " " ++ options)
      else shell (c_llvm_link c ++ b_ " " ++ ins ++ b_ " " ++ wrapper ++ b_ " " ++ cmd_output).
  Fixpoint each (f : list Z -> M unit) (l : list (list Z)) : M unit :=
    match l with [] => ret tt | x :: l' => run _ <- f x; each f l' end.
  (** compiler_mode L323-410 *)
  Definition compiler_mode (sources : list (list Z)) (options output : list Z) (a : args) : M unit :=
    run w <- (match a_prism a with
              | None => run w <- get_tmp (b_ ".vfcwrapper") (b_ "." ++ ir_ext a); run _ <- compile_vfcwrapper (vfcwrapper c) w a true; ret w
              | Some _ => ret []
              end);
    each (compile_source options output w a) sources.

  (** main L504-535 *)
  Definition main (argv : list (list Z)) : M unit :=
    match parse argv None no_args [] with
    | Stop n => stop n
    | Outside => fun s => (Outside, s)
    | Got (a, extras) =>
        match sort_extras (c_flang c) extras with
        | Stop n => stop n
        | Outside => fun s => (Outside, s)
        | Got (sources, opts, libs) =>
            let options := join opts in let libraries := join libs in
            if (a_E a || a_S a || a_c a) && (1 <? Z.of_nat (length sources)) && given (a_o a) then stop 1
            else if given (a_function a) && (given (a_include a) || given (a_exclude a)) then stop 1
            else
              let output := if given (a_o a) then b_ "-o " ++ value (a_o a) else [] in
              let options := options ++ match a_linker a with Flang => [] | _ => b_ " -Wno-unused-command-line-argument " end in
              if a_E a then compile_only sources (options ++ b_ " -E ") output a
              else if a_S a then compile_only sources (options ++ b_ " -S ") output a
              else if a_c a || a_emit a then
                match sources with [] => stop 1 | _ => compiler_mode sources options output a end
              else
                match sources, options with
                | [], [] => stop 1
                | _, _ => run _ <- compiler_mode sources options [] a; linker_mode sources options libraries output a
                end
        end
    end.
  (** how the driver ends (status 0 when main returns), the commands it ran and the temporary files it created *)
  Definition verificarlo (argv : list (list Z)) : res unit * list (list Z) * list (list Z) :=
    let r := main argv (mk_state [] []) in (fst r, commands (snd r), temps (snd r)).
End driver.

(** * The shell: the words of a command. Blanks separate words, single quotes protect everything. None: a character with
    another meaning outside quotes, or an open quote *)
Definition quote : Z := 39.
Definition is_blank (x : Z) : bool := (x =? 32) || (x =? 9).
(** letters, digits, + , - . / : = @ _ % ^ and the bytes above 127 *)
Definition ordinary (x : Z) : bool :=
  ((97 <=? x) && (x <=? 122)) || ((65 <=? x) && (x <=? 90)) || is_digit x || existsb (Z.eqb x) [43; 44; 45; 46; 47; 58; 61; 64; 95; 37; 94] || (128 <=? x).
Fixpoint lex (inq : bool) (cur : option (list Z)) (s : list Z) : option (list (list Z)) :=
  match s with
  | [] => if inq then None else Some (match cur with Some w => [w] | None => [] end)
  | x :: s' =>
      let w := match cur with Some w => w | None => [] end in
      if inq then if x =? quote then lex false (Some w) s' else lex true (Some (w ++ [x])) s'
      else if is_blank x then
        match cur with
        | Some w => match lex false None s' with Some l => Some (w :: l) | None => None end
        | None => lex false None s'
        end
      else if x =? quote then lex true (Some w) s'
      else if ordinary x then lex false (Some (w ++ [x])) s'
      else None
  end.
Definition sh_words (s : list Z) : option (list (list Z)) := lex false None s.
