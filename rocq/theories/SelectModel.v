(** Model of the choice of the functions to instrument, src/libvfcinstrument/libVFCInstrument.cpp L145-312. Strings are byte
    lists. [None] for a file name option: the option is not given (cl::init("")).
    std::regex (libstdc++, default ECMAScript grammar) is modelled for the expressions made of ordinary characters, '.', the
    end assertion '$', escaped punctuation, one quantifier per atom and top-level alternatives; an expression with groups,
    classes, counted or doubled quantifiers, '^' or other escapes is [Outside]. llvm::StringRef and llvm::sys::path (POSIX
    style) are modelled as documented by LLVM. Not modelled: messages, a working directory that cannot be read. *)
From Coq Require Import ZArith List Bool.
From Verif Require Import Text.
Import ListNotations.
Open Scope Z_scope.

(** [Fatal]: report_fatal_error; [Throws]: std::regex_error leaves the pass; [Outside]: not covered by the model *)
Inductive sel (A : Type) : Type := Sel (a : A) | Fatal | Throws | Outside.
Arguments Sel {A} a. Arguments Fatal {A}. Arguments Throws {A}. Arguments Outside {A}.
Definition sbind {A B} (m : sel A) (k : A -> sel B) : sel B :=
  match m with Sel a => k a | Fatal => Fatal | Throws => Throws | Outside => Outside end.
Notation "'got' x := m 'in' k" := (sbind m (fun x => k)) (at level 200, x name, m at level 100, k at level 200, right associativity).

(** * findAndReplaceAll (L145-157) and escape_regex (L159-164) *)
Fixpoint starts (p l : list Z) : bool :=
  match p, l with
  | [], _ => true
  | x :: p', y :: l' => (x =? y) && starts p' l'
  | _ :: _, [] => false
  end.
(** std::string::find from the beginning, and from a position *)
Fixpoint find (p l : list Z) : option nat :=
  if starts p l then Some O else match l with [] => None | _ :: l' => option_map S (find p l') end.
Definition find_from (p l : list Z) (pos : nat) : option nat := option_map (plus pos) (find p (skipn pos l)).
Definition replace (l : list Z) (pos n : nat) (r : list Z) : list Z := firstn pos l ++ r ++ skipn (pos + n) l.
(** the loop L150-156 *)
Fixpoint replace_loop (fuel : nat) (p r data : list Z) (pos : option nat) : list Z :=
  match fuel, pos with
  | S fuel, Some k =>
      let data' := replace data k (length p) r in
      replace_loop fuel p r data' (find_from p data' (k + length r))
  | _, _ => data
  end.
Definition find_and_replace_all (data p r : list Z) : list Z := replace_loop (S (length data)) p r data (find_from p data 0).

Definition dot : Z := 46.
Definition star : Z := 42.
Definition backslash : Z := 92.
Definition bar : Z := 124.
Definition slash : Z := 47.
Definition blank : Z := 32.
Definition hash_sign : Z := 35.
Definition escape_regex (s : list Z) : list Z :=
  let s := find_and_replace_all s [dot] [backslash; dot] in
  find_and_replace_all s [star] [dot; star].

(** * std::regex *)
Inductive atom := Lit (c : Z) | AnyChar.
Inductive quant := One | Many | AtLeastOne | Optional.
Inductive item := It (a : atom) (q : quant) | End.

Definition is_quantifier (c : Z) : option quant :=
  if c =? 42 then Some Many else if c =? 43 then Some AtLeastOne else if c =? 63 then Some Optional else None.
(** ^ ( ) [ ] { } *)
Definition is_unmodelled (c : Z) : bool := existsb (Z.eqb c) [94; 40; 41; 91; 93; 123; 125].
(** characters whose escape is themselves *)
Definition is_escapable (c : Z) : bool := existsb (Z.eqb c) [94; 36; 92; 46; 42; 43; 63; 40; 41; 91; 93; 123; 125; 124].

(** the scanner *)
Inductive token := TAtom (a : atom) | TQuant (q : quant) | TBar | TEnd.
Fixpoint scan (s : list Z) : sel (list token) :=
  match s with
  | [] => Sel []
  | c :: l =>
      if c =? backslash then
        match l with
        | [] => Throws
        | e :: l' => if is_escapable e then got ts := scan l' in Sel (TAtom (Lit e) :: ts) else Outside
        end
      else if is_unmodelled c then Outside
      else
        got ts := scan l in
        Sel ((if c =? bar then TBar
              else if c =? 36 then TEnd
              else match is_quantifier c with
                   | Some q => TQuant q
                   | None => TAtom (if c =? dot then AnyChar else Lit c)
                   end) :: ts)
  end.
(** the compiler: the top-level alternatives *)
Definition push (i : item) (m : sel (list (list item))) : sel (list (list item)) :=
  got alts := m in match alts with a :: alts' => Sel ((i :: a) :: alts') | [] => Sel [[i]] end.
Fixpoint compile (ts : list token) : sel (list (list item)) :=
  match ts with
  | [] => Sel [[]]
  | TBar :: ts => got alts := compile ts in Sel ([] :: alts)
  | TEnd :: ts => push End (compile ts)
  | TQuant _ :: _ => Throws
  | TAtom a :: ts =>
      match ts with
      | TQuant q :: ts' => match ts' with TQuant _ :: _ => Outside | _ => push (It a q) (compile ts') end
      | _ => push (It a One) (compile ts)
      end
  end.
(** std::regex(s) *)
Definition regex (s : list Z) : sel (list (list item)) := got ts := scan s in compile ts.

(** '.' does not match line terminators *)
Definition accepts (a : atom) (c : Z) : bool := match a with Lit x => c =? x | AnyChar => negb (c =? 10) && negb (c =? 13) end.
Fixpoint match_items (its : list item) (s : list Z) : bool :=
  match its with
  | [] => match s with [] => true | _ => false end
  | End :: its => match s with [] => match_items its s | _ => false end
  | It a q :: its =>
      let many := fix many (s : list Z) : bool :=
        match_items its s || match s with c :: s' => accepts a c && many s' | [] => false end in
      match q with
      | One => match s with c :: s' => accepts a c && match_items its s' | [] => false end
      | Many => many s
      | AtLeastOne => match s with c :: s' => accepts a c && many s' | [] => false end
      | Optional => match_items its s || match s with c :: s' => accepts a c && match_items its s' | [] => false end
      end
  end.
(** std::regex_match(s, r) *)
Definition regex_match (s : list Z) (r : list (list item)) : bool := existsb (fun its => match_items its s) r.

(** * Paths and lines *)
(** sys::path::is_absolute: the path has a root directory ("//net" alone is a root name without root directory) *)
Definition is_absolute (p : list Z) : bool :=
  match p with
  | a :: b :: c :: r => (a =? slash) && (if (b =? slash) && negb (c =? slash) then existsb (Z.eqb slash) r else true)
  | a :: _ => a =? slash
  | [] => false
  end.
(** the part after the last separator *)
Fixpoint last_component (p : list Z) : list Z :=
  match p with
  | [] => []
  | c :: p' => if existsb (Z.eqb slash) p then last_component p' else p
  end.
(** sys::path::has_extension: a trailing separator makes the file name "." *)
Definition has_extension (p : list Z) : bool :=
  let f := last_component p in
  existsb (Z.eqb dot) f && negb (starts [dot] f && Nat.eqb (length f) 1) && negb (starts [dot; dot] f && Nat.eqb (length f) 2).

(** StringRef::trim *)
Definition is_white (c : Z) : bool := existsb (Z.eqb c) [32; 9; 10; 11; 12; 13].
Fixpoint ltrim (l : list Z) : list Z := match l with c :: l' => if is_white c then ltrim l' else l | [] => [] end.
Definition trim (l : list Z) : list Z := rev (ltrim (rev (ltrim l))).
(** StringRef::split(" ") *)
Fixpoint split_first (l : list Z) : list Z * list Z :=
  match l with
  | [] => ([], [])
  | c :: l' => if c =? blank then ([], l') else let '(a, b) := split_first l' in (c :: a, b)
  end.

(** getSourceFileNameAbsPath (L166-180); [cwd] is the working directory, [src] M.getSourceFileName() *)
Definition module_name (cwd src : list Z) : list Z := if is_absolute src then src else cwd ++ slash :: src.

(** L222-234 *)
Definition complete_module (m : list Z) : list Z :=
  let m := if is_absolute m then m else star :: slash :: m in
  if has_extension m then m else m ++ [dot; star].

(** body of the loop L205-241 *)
Definition read_entry (modname acc line : list Z) : sel (list Z) :=
  if starts [hash_sign] line then Sel acc
  else if match trim line with [] => true | _ => false end then Sel acc
  else
    let '(first, second) := split_first line in
    match second with
    | [] => Fatal
    | _ =>
        let m := escape_regex (complete_module (trim first)) in
        let f := escape_regex (trim second) in
        got r := regex m in
        if regex_match modname r then Sel (acc ++ f ++ [bar]) else Sel acc
    end.
Fixpoint read_entries (modname acc : list Z) (lines : list (list Z)) : sel (list Z) :=
  match lines with
  | [] => Sel acc
  | l :: lines' => got acc := read_entry modname acc l in read_entries modname acc lines'
  end.
(** parseFunctionSetFile (L182-250). The file: None: no option; Some None: cannot be opened. std::getline gives the pieces
    between newlines; the piece after the last newline is blank or a line, and blank lines are ignored. *)
Definition parse_function_set_file (modname : list Z) (file : option (option (list Z))) : sel (list (list item)) :=
  match file with
  | None => regex []
  | Some None => Fatal
  | Some (Some text) => got r := read_entries modname [] (split_on newline text) in regex (removelast r)
  end.

(** * runOnModule (L264-312) *)
Record options := mk_options {
  o_function : list Z;                        (* -vfclibinst-function *)
  o_include : option (option (list Z));       (* -vfclibinst-include-file *)
  o_exclude : option (option (list Z)) }.     (* -vfclibinst-exclude-file *)
Definition given {A} (o : option A) : bool := match o with Some _ => true | None => false end.
(** L286-305: is the function kept? *)
Definition keep (o : options) (inc exc : list (list item)) (name : list Z) : bool :=
  if regex_match name inc then true
  else if regex_match name exc then false
  else if negb (given (o_exclude o)) && given (o_include o) then false
  else true.
Definition select (o : options) (modname : list Z) (names : list (list Z)) : sel (list (list Z)) :=
  got inc := parse_function_set_file modname (o_include o) in
  got exc := parse_function_set_file modname (o_exclude o) in
  match o_function o with
  | [] => Sel (filter (keep o inc exc) names)
  | f => got inc := regex f in got exc := regex [dot; star] in Sel (filter (keep o inc exc) names)
  end.
