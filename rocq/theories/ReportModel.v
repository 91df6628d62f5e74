(** vfc_ci serve: the selection of the runs and the views of the report. src/tools/ci/serve.py, src/tools/ci/vfc_ci_report/
    main.py, helper.py, compare_runs.py, deterministic_compare.py, inspect_runs.py, checks.py.
    Dataframes are lists of rows; a Python exception is [Raise]. Widgets call back when their value changes and only then (Bokeh).
    Not modelled: the layout, the tooltips, the JavaScript callbacks and the filters by a text, HDF5 files, the order in which
    rows and options with different keys are listed (sort_index), numbers that are not finite. Arithmetic on the statistics is
    exact. *)
From Coq Require Import String ZArith List Bool Reals.
From Verif Require Import Text DDModel.
From Verif Require VfiModel.
Import ListNotations.
Open Scope Z_scope.
Open Scope py_scope.

Definition text := list Z.
Definition text_dec : forall a b : text, {a = b} + {a <> b} := list_eq_dec Z.eq_dec.
Definition text_eqb (a b : text) : bool := if text_dec a b then true else false.

(** * vfc_ci serve (serve.py L27-62) and its arguments (main.py L50-75) *)
Definition slash : Z := 47.
Definition space : Z := 32.
(** posixpath.normpath L60 of serve.py: no empty or "." component, a ".." removes the component before it. The result of an
    empty list of components is "." *)
Definition norm_step (initial : bool) (acc : list text) (comp : text) : list text :=    (* acc: reversed *)
  if text_eqb comp [] || text_eqb comp (bytes ".") then acc
  else if negb (text_eqb comp (bytes "..")) then comp :: acc
  else match acc with
       | [] => if initial then acc else comp :: acc
       | c :: acc' => if text_eqb c (bytes "..") then comp :: acc else acc'
       end.
Fixpoint join (sep : text) (l : list text) : text :=
  match l with [] => [] | [p] => p | p :: l' => p ++ sep ++ join sep l' end.
Definition starts (p l : text) : bool := if text_dec (firstn (length p) l) p then true else false.
Definition normpath (path : text) : text :=
  match path with
  | [] => bytes "."
  | _ =>
      let initial : text := if starts (bytes "//") path && negb (starts (bytes "///") path) then bytes "//"
                            else if starts (bytes "/") path then bytes "/" else [] in
      let comps := rev (fold_left (norm_step (negb (text_eqb initial []))) (split_on slash path) []) in
      match initial ++ join [slash] comps with [] => bytes "." | p => p end
  end.
(** decimal digits of a number that is not negative; __main__.py L209, L219 accepts positive values of the options only *)
Definition dec (n : Z) : text   := VfiModel.udec (S (Z.to_nat (Z.log2 n))) n.
Record options := mk_opt { o_dir : text; o_show : bool; o_port : text; o_origin : text; o_logo : option text;
                           o_max : option Z; o_ignore : option Z }.
(** "word value" when the option is given (None and 0 are not: Python's truth values) *)
Definition arg_text (word : string) (v : option text) : text :=
  match v with Some t => if text_eqb t [] then [] else bytes word ++ [space] ++ t | None => [] end.
Definition arg_num (word : string) (v : option Z) : text :=
  match v with Some n => if n =? 0 then [] else bytes word ++ [space] ++ dec n | None => [] end.
(** the command, serve.py L31-60; pkg: the directory of serve.py *)
Definition command (pkg : text) (o : options) : text :=
  normpath (bytes "bokeh serve " ++ pkg ++ bytes "/vfc_ci_report " ++ (if o_show o then bytes "--show" else []) ++
            bytes " --allow-websocket-origin=" ++ o_origin o ++ bytes ":" ++ o_port o ++ bytes " --port " ++ o_port o ++
            bytes " --args " ++ (bytes "directory " ++ o_dir o) ++ [space] ++ arg_text "logo" (o_logo o) ++ [space] ++
            arg_num "max_files" (o_max o) ++ [space] ++ arg_num "ignore_recent" (o_ignore o)).
(** os.system: the words of a command without quotes and special characters of the shell *)
Definition shell_words (cmd : text) : list text := filter (fun w => negb (text_eqb w [])) (split_on space cmd).
(** bokeh serve sets sys.argv to the program followed by the words after --args *)
Fixpoint after_args (ws : list text) : list text :=
  match ws with [] => [] | w :: ws' => if text_eqb w (bytes "--args") then ws' else after_args ws' end.
(** int(text) of digits *)
Definition number (t : text) : py Z :=
  match t with
  | [] => Raise
  | _ => if forallb (fun c => (48 <=? c) && (c <=? 57)) t then Ret (fold_left (fun a c => a * 10 + (c - 48)) t 0) else Raise
  end.
Record config := mk_cfg { g_dir : text; g_logo : option text; g_max : Z; g_ignore : Z }.
(** main.py L58-75: every word is looked at, also the values; the value is the next word (IndexError at the end) *)
Definition read_arg (g : config) (w : text) (rest : list text) : py config :=
  let value := match rest with [] => Raise | v :: _ => Ret v end in
  do g <- (if text_eqb w (bytes "logo") then do v <- value; Ret (mk_cfg (g_dir g) (Some v) (g_max g) (g_ignore g)) else Ret g);
  do g <- (if text_eqb w (bytes "directory") then do v <- value; Ret (mk_cfg v (g_logo g) (g_max g) (g_ignore g)) else Ret g);
  do g <- (if text_eqb w (bytes "max_files") then do v <- value; do n <- number v; Ret (mk_cfg (g_dir g) (g_logo g) n (g_ignore g))
           else Ret g);
  if text_eqb w (bytes "ignore_recent") then do v <- value; do n <- number v; Ret (mk_cfg (g_dir g) (g_logo g) (g_max g) n)
  else Ret g.
Fixpoint read_args (g : config) (ws : list text) : py config :=
  match ws with [] => Ret g | w :: ws' => do g <- read_arg g w ws'; read_args g ws' end.
(** main.py L50-56 *)
Definition default_config : config := mk_cfg (bytes ".") None 100 0.
Definition served (pkg : text) (o : options) : py config := read_args default_config (after_args (shell_words (command pkg o))).

(** * The runs (main.py) *)
(** the statistics of a row *)
Inductive stat := Sigma | S10 | S2 | Mu | Min | Q25 | Q50 | Q75 | Max | Value | Ref.
(** a row of data or deterministic_data: its index (test, variable, vfc_backend), timestamp, check, whether its
    accuracy_threshold differs from 0, nsamples and statistics *)
Record row := mk_row { w_test : text; w_var : text; w_backend : text; w_time : Z; w_check : bool; w_checked : bool;
                       w_nsamples : Z; w_stat : stat -> R }.
(** a row of metadata (the one of a run file) *)
Record meta := mk_meta { m_time : Z; m_url : text; m_branch : text; m_hash : text }.
(** a run file: metadata, data, deterministic_data *)
Record vfcrun := mk_file { f_meta : meta; f_data : list row; f_det : list row }.

(** pd.concat(metadata).sort_index(), main.py L105 *)
Fixpoint insert_meta (m : meta) (l : list meta) : list meta :=
  match l with [] => [m] | x :: l' => if m_time m <=? m_time x then m :: l else x :: insert_meta m l' end.
Definition sort_meta (l : list meta) : list meta := fold_right insert_meta [] l.
(** main.py L121-123: drop by label *)
Definition drop_recent (k : Z) (l : list meta) : list meta :=
  if k =? 0 then l
  else let gone := skipn (length l - Z.to_nat k) l in
       filter (fun m => negb (existsb (fun g => m_time g =? m_time m) gone)) l.
(** main.py L86-149: the metadata, the data and the deterministic data of the report. concat of no frame raises, and so does iloc[-1]
    of an empty one *)
Definition load (g : config) (files : list vfcrun) : py (list meta * list row * list row) :=
  let sorted := sort_meta (map f_meta files) in
  let kept := drop_recent (g_ignore g) sorted in
  let n := Nat.min (Z.to_nat (g_max g)) (length kept) in
  let metadata := firstn n kept in
  match nth_error metadata (n - 1) with
  | None => Raise
  | Some last =>
      let chosen := filter (fun f => m_time (f_meta f) <=? m_time last) files in
      Ret (metadata, concat (map f_data chosen), concat (map f_det chosen))
  end.

(** get_run_name, helper.py L128-197. [age]: now - timestamp. int(diff / k) on integers below 2^53 *)
Definition base_name (age : Z) (hash : text) : text :=
  let with_hash (s : text) : text := if text_eqb hash [] then s else s ++ bytes " (" ++ hash ++ bytes ")" in
  if age <? 60 then with_hash (bytes "Less than a minute ago")
  else
    let '(k, unit) := if age <? 3600 then (60, bytes "minute")
                      else if age <? 86400 then (3600, bytes "hour")
                      else if age <? 604800 then (86400, bytes "day")
                      else if age <? 2592000 then (604800, bytes "week")
                      else (2592000, bytes "month") in
    let n := age / k in
    with_hash (dec n ++ [space] ++ unit ++ (if n =? 1 then [] else bytes "s") ++ bytes " ago").
(** the static variables previous and counter *)
Definition next_name (st : text * Z) (base : text) : text * (text * Z) :=
  if text_eqb base (fst st) then let c := snd st + 1 in (base ++ bytes " (" ++ dec c ++ bytes ")", (fst st, c))
  else (base, (base, 0)).
Fixpoint name_all (st : text * Z) (l : list text) : list text :=
  match l with [] => [] | b :: l' => let '(n, st') := next_name st b in n :: name_all st' l' end.
(** main.py L193-196: the names of the runs; two runs with the same timestamp give a frame instead of a row, whose comparison
    with "" has no truth value (ValueError). [age]: of each call, as the clock advances *)
Definition run_names (ages : list Z) (l : list meta) : py (list text) :=
  if forallb (fun m => Nat.eqb (count_occ Z.eq_dec (map m_time l) (m_time m)) 1) l then
    Ret (name_all ([], 0) (map (fun am => base_name (fst am) (m_hash (snd am))) (combine ages l)))
  else Raise.
(** a run of the report: its metadata and its name *)
Definition named := (meta * text)%type.
(** gen_runs_selection, helper.py L276-293: a dictionary in insertion order *)
Fixpoint dict_set (k : text) (v : Z) (d : list (text * Z)) : list (text * Z) :=
  match d with [] => [(k, v)] | (k', v') :: d' => if text_eqb k k' then (k', v) :: d' else (k', v') :: dict_set k v d' end.
Definition runs_selection (l : list named) : list (text * Z) :=
  fold_left (fun d r => dict_set (snd r) (m_time (fst r)) d) l [].
Fixpoint dict_get (k : text) (d : list (text * Z)) : py Z :=
  match d with [] => Raise | (k', v) :: d' => if text_eqb k k' then Ret v else dict_get k d' end.

(** * Repositories *)
Fixpoint drop_duplicates (seen l : list text) : list text :=
  match l with
  | [] => []
  | x :: l' => if existsb (text_eqb x) seen then drop_duplicates seen l' else x :: drop_duplicates (x :: seen) l'
  end.
(** negative subscripts *)
Definition from_end {A} (l : list A) (i : nat) : py A := match nth_error (rev l) (i - 1) with Some x => Ret x | None => Raise end.
(** gen_repo_names, helper.py L37-56; [path]: urlparse(url).path *)
Definition repo_name (path : text -> text) (url branch : text) : py text :=
  let comps := split_on slash (path url) in
  do a <- from_end comps 2;
  do b <- from_end comps 1;
  Ret (a ++ bytes "/" ++ b ++ bytes ":" ++ branch).
Fixpoint repo_names (path : text -> text) (urls branches : list text) : py (list (text * text)) :=
  match urls with
  | [] => Ret []
  | u :: urls' =>
      do n <- (if text_eqb u [] then Ret (bytes "None")
               else match branches with [] => Raise | b :: _ => repo_name path u b end);
      do rest <- repo_names path urls' (tl branches);
      Ret ((u, n) :: rest)
  end.
(** main.py L271-276: the name of the repository of each run *)
Fixpoint assoc (k : text) (d : list (text * text)) : option text :=
  match d with [] => None | (k', v) :: d' => if text_eqb k k' then Some v else assoc k d' end.
Definition repositories (path : text -> text) (l : list meta) : py (list (text * text)) :=
  repo_names path (drop_duplicates [] (map m_url l)) (drop_duplicates [] (map m_branch l)).
(** metadata[metadata["repo_name"] == name], main.py L304 *)
Definition of_repository (repos : list (text * text)) (name : text) (l : list named) : list named :=
  filter (fun r => match assoc (m_url (fst r)) repos with Some n => text_eqb n name | None => false end) l.
(** filterby_repo, helper.py L101-109: the rows of the runs of a repository; KeyError for a row of no run *)
Fixpoint rows_of_repository (runs mine : list named) (rows : list row) : py (list row) :=
  match rows with
  | [] => Ret []
  | w :: rows' =>
      if existsb (fun r => m_time (fst r) =? w_time w) runs then
        do rest <- rows_of_repository runs mine rows';
        Ret (if existsb (fun r => m_time (fst r) =? w_time w) mine then w :: rest else rest)
      else Raise
  end.

(** * Compare runs (compare_runs.py, deterministic_compare.py) *)
(** get_metadata(...)["name"] *)
Definition name_at (runs : list named) (t : Z) : py text :=
  match find (fun r => m_time (fst r) =? t) runs with Some r => Ret (snd r) | None => Raise end.
(** gen_x_series, helper.py L65-98: the loop inserts at the front *)
Fixpoint x_loop (runs : list named) (ts : list Z) (i n : nat) (acc : list text) : py (list text) :=
  match n with
  | O => Ret acc
  | S n' => do t <- from_end ts (i + 1); do nm <- name_at runs t; x_loop runs ts (S i) n' (nm :: acc)
  end.
Definition gen_x_series (runs : list named) (ts : list Z) (n : nat) : py (list text) :=
  let n := if Nat.eqb n 0 || Nat.ltb (length ts) n then length ts else n in
  x_loop runs ts 0 n [].
(** value[-n:], compare_runs.py L116-118, deterministic_compare.py L79-81 *)
Definition last_n {A} (n : nat) (l : list A) : list A := if Nat.eqb n 0 then l else skipn (length l - n) l.
(** sort_values(by=["timestamp"]), compare_runs.py L101, deterministic_compare.py L64 *)
Fixpoint insert_row (w : row) (l : list row) : list row :=
  match l with [] => [w] | x :: l' => if w_time w <=? w_time x then w :: l else x :: insert_row w l' end.
Definition sort_rows (l : list row) : list row := fold_right insert_row [] l.
Definition selected (test var backend : text) (w : row) : bool :=
  text_eqb (w_test w) test && text_eqb (w_var w) var && text_eqb (w_backend w) backend.

Section Numbers.
  Open Scope R_scope.
  Definition rsum (l : list R) : R := fold_right Rplus 0 l.
  Definition mean (l : list R) : R := rsum l / INR (length l).
  Definition std (l : list R) : R := sqrt (rsum (map (fun x => (x - mean l) * (x - mean l)) l) / INR (length l)).
  (** detect_outliers, helper.py L231-248, as truth values *)
  Definition detect_outliers (l : list R) : list bool :=
    if Nat.leb (length l) 2 then repeat true (length l)
    else if Req_EM_T (std l) 0 then map (fun x => if Req_EM_T x 0 then false else true) l
    else map (fun x => if Rlt_dec (Rabs (x - mean l)) (3 * std l) then true else false) l.
End Numbers.
(** remove_outliers, helper.py L251-252: itertools.compress *)
Fixpoint remove_outliers {A} (l : list A) (mask : list bool) : list A :=
  match l, mask with
  | x :: l', b :: mask' => if b then x :: remove_outliers l' mask' else remove_outliers l' mask'
  | _, _ => []
  end.

(** a ColumnDataSource: the names on the axis, the plotted statistic, the tooltip column nsamples and the colours (red: failed
    check) of one of the dot plots; the columns are not the same length in general *)
Record dots := mk_dots { p_x : list text; p_y : list R; p_samples : list Z; p_red : list bool }.
(** CompareRuns.update_plots, compare_runs.py L47-152, one of sigma, s10, s2 *)
Definition compare_dots (runs : list named) (data : list row) (test var backend : text) (n : nat) (filtering : bool) (s : stat) : py dots :=
  let rows := filter (selected test var backend) data in
  match rows with
  | [] => match data with [] => Ret (mk_dots [] [] [] []) | _ => Raise end          (* L48-91; L95 loc: KeyError *)
  | _ =>
      let rows := sort_rows rows in
      do x <- gen_x_series runs (map w_time rows) n;
      let x := last_n n x in
      let shown := last_n n rows in
      let y := map (fun w => w_stat w s) shown in
      let mask := detect_outliers y in
      Ret (mk_dots (if filtering then remove_outliers x mask else x) (if filtering then remove_outliers y mask else y)
                   (map w_nsamples shown) (map (fun w => negb (w_check w)) shown))
  end.
(** DeterministicCompare.update_plots, deterministic_compare.py L48-105: the values and the reference values, None for nan. L92 reads the column
    "%value_x", which does not exist (KeyError) *)
Definition compare_deterministic (runs : list named) (data : list row) (test var backend : text) (n : nat) (filtering : bool)
  : py (dots * list (option R)) :=
  let rows := filter (selected test var backend) data in
  match rows with
  | [] => match data with [] => Ret (mk_dots [] [] [] [], []) | _ => Raise end
  | _ =>
      let rows := sort_rows rows in
      do x <- gen_x_series runs (map w_time rows) n;
      let x := last_n n x in
      let shown := last_n n rows in
      if filtering then Raise
      else Ret (mk_dots x (map (fun w => w_stat w Value) shown) (map w_nsamples shown) (map (fun w => negb (w_check w)) shown),
                map (fun w => if w_check w then None else Some (w_stat w Ref)) shown)
  end.
