(** The logger of the program and its backends: src/interflop-stdlib/iostream/logger.c. It is one shared library
    (iostream/Makefile.am, the Makefile.am of the backends and verificarlo.in.in L209), so its static variables are shared by the
    program and all its backends. *)
From Coq Require Import String ZArith List Bool.
From Verif Require Import Common Text IeeeModel.
Import ListNotations.
Open Scope Z_scope.

(** strcasecmp(a, b) == 0 in the C locale *)
Definition low (c : Z) : Z := if (65 <=? c) && (c <=? 90) then c + 32 else c.
Fixpoint case_equal (a b : list Z) : bool :=
  match a, b with [], [] => true | x :: a', y :: b' => (low x =? low y) && case_equal a' b' | _, _ => false end.

Inductive stream := Stderr | File (name : list Z).
Inductive level := Debug | Info | Warning | Error.
(** logger_level_t L101-106 *)
Definition rank (l : level) : Z := match l with Debug => 0 | Info => 1 | Warning => 2 | Error => 3 end.
(** the static variables L30, L120-124; logger_logfile is [None] when Null. logger_stderr is the stream given to logger_init:
    stderr in vfc_init and every pre_init (main.c.in L430, L500) *)
Record lstate := mk_l { l_header : list Z; l_enabled : bool; l_colored : bool; l_level : Z; l_logfile : option stream }.

(** the world of one call of logger_init: the environment, the thread, and whether fopen(name, "a") succeeds *)
Record world := mk_w { w_env : list Z -> option (list Z); w_tid : Z; w_open : list Z -> bool }.
Inductive event := Init (w : world) (header : list Z) | Msg (l : level) (text : list Z).
Definition write := (stream * list Z)%type.
(** how a history ends: still running, exit(code), or undefined behaviour *)
Inductive ending := Running (s : lstate) | Ended (code : Z) | Undefined.

Section Logger.
  (** program name of vwarnx and the text of strerror(0) *)
  Variable prog success : list Z.
  (** warnx(3): "prog: text\n" on standard error *)
  Definition vwarnx (text : list Z) : list write := [(Stderr, prog ++ bytes ": " ++ text ++ [10])].

  (** is_logger_enabled L127-136 *)
  Definition is_enabled (e : list Z -> option (list Z)) : bool :=
    match e (bytes "VFC_BACKENDS_LOGGER") with None => true | Some v => case_equal v (bytes "True") end.
  (** is_logger_colored L139-149 *)
  Definition is_colored (e : list Z -> option (list Z)) : bool :=
    match e (bytes "VFC_BACKENDS_COLORED_LOGGER") with None => false | Some v => case_equal v (bytes "True") end.
  (** get_logger_level L151-166 *)
  Definition get_level (e : list Z -> option (list Z)) : Z :=
    match e (bytes "VFC_BACKENDS_LOGGER_LEVEL") with
    | None => 1
    | Some v => if case_equal v (bytes "debug") then 0 else if case_equal v (bytes "info") then 1
                else if case_equal v (bytes "warning") then 2 else if case_equal v (bytes "error") then 3 else 1
    end.
  (** set_logger_logfile L182-208. The name is built by sprintf in 1024 bytes. fopen is the libc function with two arguments, so
      [error] stays 0 (main.c.in L409) and the message of a failure is that of strerror(0) *)
  Definition open_log (w : world) (header : list Z) (old : option stream) : list write * outcome stream :=
    match old with
    | Some f => ([], Ok f)
    | None =>
        match w_env w (bytes "VFC_BACKENDS_LOGFILE") with
        | None => ([], Ok Stderr)
        | Some v =>
            let name := v ++ bytes "." ++ bytes (decimal (w_tid w)) in
            if 1024 <=? Z.of_nat (length name) then ([], UB)
            else if w_open w name then ([], Ok (File name))
            else (vwarnx (bytes "Error [" ++ header ++ bytes "]: " ++ success), Exit)
        end
    end.
  (** logger_init L307-317. The state before any call: [None]; the handlers are there (C96) *)
  Definition init (w : world) (header : list Z) (s : option lstate) : list write * ending :=
    match open_log w header (match s with Some s => l_logfile s | None => None end) with
    | (ws, Ok f) => (ws, Running (mk_l header (is_enabled (w_env w)) (is_colored (w_env w)) (get_level (w_env w)) (Some f)))
    | (ws, Exit) => (ws, Ended 1)
    | (ws, _) => (ws, Undefined)
    end.

  (** logger_header L210-221, colours L50-97 *)
  Definition esc (s : string) : list Z := 27 :: bytes s.
  Definition level_name (l : level) : list Z := bytes match l with Debug => "Debug" | Info => "Info" | Warning => "Warning" | Error => "Error" end.
  Definition level_color (l : level) : list Z := esc match l with Debug => "[1;38;5;250m" | Info => "[1;34m" | Warning => "[1;33m" | Error => "[1;31m" end.
  Definition header_text (l : level) (s : lstate) : list Z :=
    if l_colored s then level_color l ++ level_name l ++ esc "[0m" ++ bytes " [" ++ esc "[32m" ++ l_header s ++ esc "[0m" ++ bytes "]: "
    else level_name l ++ bytes " [" ++ l_header s ++ bytes "]: ".
  Definition shown (l : level) (s : lstate) : bool := l_enabled s && (l_level s <=? rank l).
  (** logger_debug, logger_info, logger_warning, logger_error L224-268; vlogger_... L270-302 do the same. [text]: the formatted
      message. A message before any logger_init calls a null pointer *)
  Definition message (l : level) (text : list Z) (s : lstate) : list write * ending :=
    match l with
    | Debug | Info =>
        match l_logfile s with
        | Some f => (if shown l s then [(f, header_text l s); (f, text)] else [], Running s)
        | None => if shown l s then ([], Undefined) else ([], Running s)
        end
    | Warning => ((if shown l s then [(Stderr, header_text l s)] else []) ++ vwarnx text, Running s)
    | Error => ((if shown l s then [(Stderr, header_text l s)] else []) ++ vwarnx text, Ended 1)
    end.

  Definition step (e : event) (s : option lstate) : list write * ending :=
    match e with Init w h => init w h s | Msg l t => match s with Some s => message l t s | None => ([], Undefined) end end.
  Fixpoint run (l : list event) (s : option lstate) : list write * option ending :=
    match l with
    | [] => ([], match s with Some s => Some (Running s) | None => None end)
    | e :: l' =>
        match step e s with
        | (ws, Running s') => let '(ws', r) := run l' (Some s') in (ws ++ ws', r)
        | (ws, r) => (ws, Some r)
        end
    end.
End Logger.
