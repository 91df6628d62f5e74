(** Model of the vfc_ddebug tool around the delta-debugging algorithms: the configuration read from the environment
    (src/tools/ddebug/dd_config.py), the reference run and its list of call sites, and the choice of the algorithm
    (src/tools/ddebug/DD_stoch.py, src/tools/ddebug/main.py). The algorithms are in DDModel.v, the filters of the program under
    test in DdebugModel.v. Text is a byte list; lines end with a line feed (Python's text mode also ends a line at a carriage
    return: not modelled). Not modelled: disable_ASLR (main.py L36-43: the addresses of the reference run are those of the
    samples), exec_stat, symbolic links to the results, messages. *)
From Coq Require Import String ZArith List Bool Arith.
From Verif Require Import Common Text HashModel DDModel DdebugModel.
Import ListNotations.
Open Scope Z_scope.
Open Scope py_scope.

Definition bytes_dec : forall x y : list Z, {x = y} + {x <> y} := list_eq_dec Z.eq_dec.
Definition same (x y : list Z) : bool := if bytes_dec x y then true else false.

(** * ddConfig (dd_config.py) *)
Section config.
  Context (py_int : list Z -> option Z).   (* int(text); None: ValueError *)
  Context (lg : Z -> Z).                   (* math.floor(math.log(n, 2)), of a positive n *)

  (** the attributes set by defaultValue L20-29 *)
  Record settings := mk_settings {
    nb_run : Z;
    max_proc : option Z;
    dd_algo : list Z;
    rddmin_variant : list Z;
    rddmin_tab : list Z;
    dicho_tab : list Z;
    split_granularity : Z;
    dd_sym : bool;
    dd_quiet : bool }.
  Definition default_settings : settings :=
    mk_settings 5 None (bytes "rddmin") (bytes "d") (bytes "exp") (bytes "half") 2 false false.

  (** readOneOption L104-145. An absent variable leaves the attribute (KeyError); "int" converts, and ValueError is not caught;
      a value outside the accepted ones ends the program (failure, L46-47). No call has conv_type "string/int": the only mixed
      option is declared "int/string" (L96), hence treated as a string. *)
  Definition read_int (env : list Z -> option (list Z)) (key : string) (old : Z) : py Z :=
    match env (bytes "INTERFLOP_" ++ bytes key)%list with
    | None => Ret old
    | Some t => match py_int t with Some n => Ret n | None => Raise end
    end.
  Definition read_int_or_none (env : list Z -> option (list Z)) (key : string) (old : option Z) : py (option Z) :=
    match env (bytes "INTERFLOP_" ++ bytes key)%list with
    | None => Ret old
    | Some t => match py_int t with Some n => Ret (Some n) | None => Raise end
    end.
  Definition read_word (env : list Z -> option (list Z)) (key : string) (accepted : list (list Z)) (old : list Z) : py (list Z) :=
    match env (bytes "INTERFLOP_" ++ bytes key)%list with
    | None => Ret old
    | Some t => if existsb (same t) accepted then Ret t else Quit
    end.
  Definition read_flag (env : list Z -> option (list Z)) (key : string) (old : bool) : bool :=
    match env (bytes "INTERFLOP_" ++ bytes key)%list with None => old | Some _ => true end.

  (** read_environ L64-102, with the prefix "INTERFLOP" (L13, main.py L49) *)
  Definition read_environ (env : list Z -> option (list Z)) (c : settings) : py settings :=
    do nb <- read_int env "DD_NRUNS" (nb_run c);
    do procs <- read_int_or_none env "DD_NUM_THREADS" (max_proc c);
    let procs := match procs with Some p => if p <? nb then None else Some p | None => None end in
    do algo <- read_word env "DD_ALGO" [bytes "ddmax"; bytes "rddmin"] (dd_algo c);
    do variant <- read_word env "DD_RDDMIN" [bytes "s"; bytes "stoch"; bytes "d"; bytes "dicho"; bytes ""; bytes "strict"] (rddmin_variant c);
    let variant := if same variant (bytes "stoch") then bytes "s" else variant in
    let variant := if same variant (bytes "dicho") then bytes "d" else variant in
    let variant := if same variant (bytes "strict") then bytes "" else variant in
    do rtab <- read_word env "DD_RDDMIN_TAB" [bytes "exp"; bytes "all"; bytes "single"] (rddmin_tab c);
    do dtab <- read_word env "DD_DICHO_TAB" [bytes "exp"; bytes "all"; bytes "half"; bytes "single"] (dicho_tab c);
    do gran <- read_int env "DD_DICHO_GRANULARITY" (split_granularity c);
    Ret (mk_settings nb procs algo variant rtab dtab gran (read_flag env "DD_SYM" (dd_sym c)) (read_flag env "DD_QUIET" (dd_quiet c))).

  (** checkScriptPath L49-56 and parseArgv L31-41; [executable f]: a file with the execute permission *)
  Definition parse_argv (executable : list Z -> bool) (argv : list (list Z)) : py (list Z * list Z) :=
    if existsb (same (bytes "-h")) argv || existsb (same (bytes "--help")) argv then Quit else
    match argv with
    | [_; run; cmp] => if executable run then if executable cmp then Ret (run, cmp) else Quit else Quit
    | _ => Quit
    end.

  (** ddConfig.__init__ L13-18 *)
  Definition ddconfig (executable : list Z -> bool) (argv : list (list Z)) (env : list Z -> option (list Z)) : py settings :=
    do _ <- parse_argv executable argv; read_environ env default_settings.

  (** exponentialRange L6-9. math.log raises for n <= 0; nbRun / 2**i is a float division truncated to an integer, exact for
      nbRun < 2^53 (larger values are not modelled) *)
  Definition exponential_range (n : Z) : py (list Z) :=
    if n <=? 0 then Raise
    else Ret (rev (map (fun i => n / 2 ^ Z.of_nat i) (seq 0 (Z.to_nat (1 + lg n))))).
  (** range(a, b) *)
  Definition range (a b : Z) : list Z := map (fun i => a + Z.of_nat i) (seq 0 (Z.to_nat (b - a))).

  (** get_rddMinTab L170-178 and get_splitTab L180-192; a text outside the accepted ones gives None, on which the callers raise.
      L190-191 is only reached with a text that is a number, which L94-99 refuses *)
  Definition get_rddmin_tab (c : settings) : py (list Z) :=
    if same (rddmin_tab c) (bytes "exp") then exponential_range (nb_run c)
    else if same (rddmin_tab c) (bytes "all") then Ret (range 1 (nb_run c + 1))
    else if same (rddmin_tab c) (bytes "single") then Ret [nb_run c]
    else Raise.
  Definition get_split_tab (c : settings) : py (list Z) :=
    if same (dicho_tab c) (bytes "exp") then exponential_range (nb_run c)
    else if same (dicho_tab c) (bytes "all") then Ret (range 0 (nb_run c))
    else if same (dicho_tab c) (bytes "single") then Ret [nb_run c]
    else if same (dicho_tab c) (bytes "half") then Ret [(nb_run c + 1) / 2]
    else Raise.

  (** endswith, startswith (Python) *)
  Fixpoint starts_with (p l : list Z) : bool :=
    match p, l with [], _ => true | x :: p', y :: l' => (x =? y) && starts_with p' l' | _, [] => false end.
  Definition ends_with (p l : list Z) : bool := starts_with (rev p) (rev l).
  (** get_ddAlgo L156-159 *)
  Definition get_dd_algo (c : settings) : list Z :=
    if ends_with (bytes "rddmin") (dd_algo c) then (rddmin_variant c ++ dd_algo c)%list else dd_algo c.
End config.

(** * The lines of a file: readlines() (Python); the last one may lack its line feed *)
Fixpoint readlines (t : list Z) : list (list Z) :=
  match t with
  | [] => []
  | c :: t' =>
      if c =? newline then [newline] :: readlines t'
      else match readlines t' with [] => [[c]] | l :: ls => (c :: l) :: ls end
  end.

(** mergeList (DD_stoch.py L189-210), of the contents of the files dd.line.* of the reference directory in the order of
    os.listdir: the text of the file dd.line *)
Definition merge_list (files : list (list Z)) : py (list Z) :=
  match files with
  | [] => Quit
  | f :: fs => Ret (concat (fold_left (fun acc line => if in_dec bytes_dec line acc then acc else acc ++ [line])
                                      (concat (map readlines fs)) (readlines f)))
  end.

(** list.sort() on lines: by code points *)
Fixpoint lex_le (x y : list Z) : bool :=
  match x, y with [], _ => true | _ :: _, [] => false | a :: x', b :: y' => (a <? b) || ((a =? b) && lex_le x' y') end.
Fixpoint insert_line (x : list Z) (l : list (list Z)) : list (list Z) :=
  match l with [] => [x] | y :: l' => if lex_le x y then x :: l else y :: insert_line x l' end.
Definition sort_lines (l : list (list Z)) : list (list Z) := fold_right insert_line [] l.
(** md5Name L152-155 without the hash function: two configurations are taken to share a directory when their sorted lines
    are the same text. A collision of MD5 is not modelled *)
Definition config_name (deltas : list (list Z)) : list Z := concat (sort_lines deltas).

(** runOneSample and cmpOneSample L68-88 with sampleRunEnv (main.py L25-30): sample [i] of the configuration named [k]. The
    program under test reads the inclusion file (main.c.in) and its wrappers are told by [ddebug] which operations to
    instrument; [prog f i] is whether the comparison script accepts the result of run [i] when the instrumented sites are those
    of [f]. The file holds the lines in the order of the first request, the name holds them sorted *)
Definition sites_of (k : list Z) (a : Z) : bool :=
  match dd_init None (Some (Some k)) false with
  | Ok st => match ddebug st a with Ok (b, _) => b | _ => false end
  | _ => false
  end.
Definition sample_of (prog : (Z -> bool) -> nat -> bool) (k : list Z) (i : nat) : bool := prog (sites_of k) i.

(** * DDStoch.__init__ L174-187 and run L244-267 *)
Inductive report := Minimal (tab : list (list (list Z))) | Maximal (kept : list (list Z)).

Section session.
  Context (py_int : list Z -> option Z) (lg : Z -> Z).
  Context (executable : list Z -> bool).
  Context (prog : (Z -> bool) -> nat -> bool).
  Context (listdir : list entry -> list entry).   (* os.listdir in a sample directory *)

  (** run L244-267: [delta0] are the lines of the file dd.line (getDelta0 L524-526), re-read at each test (L530). The final
      configuration_found (L265) tests the rest once more. [unsafe]: INTERFLOP_DD_UNSAFE is set (DD.py L757) *)
  Definition run_dd (c : settings) (unsafe : bool) (delta0 : list (list Z)) (fuel : nat) (d : disk) : py (report * disk) :=
    let nb := Z.to_nat (nb_run c) in
    let par := match max_proc c with Some _ => true | None => false end in
    let test := sample_test bytes_dec bytes_dec config_name (sample_of prog) delta0 listdir par in
    let algo := get_dd_algo c in
    let complete (r : list (list (list Z)) * disk) :=
      let '(tab, d) := r in
      do '(_, d) <- test nb (listminus bytes_dec delta0 (concat tab)) d; Ret (Minimal tab, d) in
    if same algo (bytes "rddmin") then do r <- RDDMin bytes_dec test unsafe nb fuel delta0 nb d; complete r
    else if starts_with (bytes "srddmin") algo then
      do t <- get_rddmin_tab lg c;
      do r <- SRDDMin bytes_dec test unsafe nb fuel delta0 (map Z.to_nat t) d; complete r
    else if starts_with (bytes "drddmin") algo then
      do t <- get_rddmin_tab lg c; do u <- get_split_tab lg c;
      do r <- DRDDMin bytes_dec test unsafe nb fuel delta0 (map Z.to_nat t) (map Z.to_nat u) (Z.to_nat (split_granularity c)) d; complete r
    else if same algo (bytes "ddmax") then
      do '(kept, d) <- DDMax bytes_dec test nb fuel delta0 d; Ret (Maximal kept, d)
    else Raise.

  (** main (main.py L46-52). [ref_ok]: the reference run succeeds (L519-522, assert); [files]: what it leaves in ref/dd.line.*;
      [cmp_ok]: the comparison script accepts the reference against itself (L212-226). [d]: the sample directories left under
      dd.line by earlier sessions: prepareOutput (L158-160, L184) only clears dd.line/ref *)
  Definition vfc_ddebug (argv : list (list Z)) (env : list Z -> option (list Z)) (ref_ok : bool) (files : list (list Z)) (cmp_ok : bool)
    (fuel : nat) (d : disk) : py (report * disk) :=
    do c <- ddconfig py_int executable argv env;
    if negb ref_ok then Raise else
    do merged <- merge_list files;
    if negb cmp_ok then Quit else
    run_dd c (match env (bytes "INTERFLOP_DD_UNSAFE") with Some _ => true | None => false end) (readlines merged) fuel d.
End session.
