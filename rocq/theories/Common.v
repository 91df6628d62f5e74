(** Shared vocabulary of all models. *)
From Coq Require Import ZArith List Bool.
Import ListNotations.
Open Scope Z_scope.

(** Outcome of running a piece of C code.
    [UB]: a C operation with undefined behaviour was executed.
    [Exit]: the process terminated through exit()/logger_error
            (logger.c L176-179, L252-260: logger_error always ends in interflop_exit(EXIT_FAILURE)).
    [Diverge]: a loop was shown to run forever (fuel equal to the size of the state space of the loop). *)
Inductive outcome (A : Type) : Type :=
| Ok (a : A)
| UB
| Exit
| Diverge.
Arguments Ok {A} a.
Arguments UB {A}.
Arguments Exit {A}.
Arguments Diverge {A}.

Definition bind {A B} (m : outcome A) (f : A -> outcome B) : outcome B :=
  match m with
  | Ok a => f a
  | UB => UB
  | Exit => Exit
  | Diverge => Diverge
  end.

Declare Scope outcome_scope.
Notation "'let*' x := m 'in' f" := (bind m (fun x => f))
  (at level 200, x name, m at level 100, f at level 200, right associativity) : outcome_scope.
Notation "'let*' ' p := m 'in' f" := (bind m (fun x => let p := x in f))
  (at level 200, p pattern, m at level 100, f at level 200, right associativity) : outcome_scope.

Definition omap {A B} (f : A -> B) (m : outcome A) : outcome B :=
  bind m (fun a => Ok (f a)).

(** size_t / uint64_t arithmetic *)
Definition wrap64 (x : Z) : Z := x mod 2 ^ 64.
Definition wrap32 (x : Z) : Z := x mod 2 ^ 32.
Definition is_u64 (x : Z) : Prop := 0 <= x < 2 ^ 64.
Definition is_u32 (x : Z) : Prop := 0 <= x < 2 ^ 32.

(** Run a list of state transformers with outcomes. *)
Fixpoint ofold {S O} (f : S -> O -> outcome S) (os : list O) (s : S) : outcome S :=
  match os with
  | [] => Ok s
  | o :: os' => bind (f s o) (ofold f os')
  end.
