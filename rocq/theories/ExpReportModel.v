(** vfc_report: the HTML report of the precision exploration. src/tools/optimize/report.py (installed as vfc_report, pyproject.toml
    L61) and src/tools/vfc_report (the same program as a script: its main part is not in a function). Line numbers are those of
    src/tools/optimize/report.py. The rows of the CSV files are those precexp wrote (PrecexpModel.prow, PrecexpModel.arow).
    Not modelled: the style sheet, the layout of the charts, reading and writing CSV (pandas), browsers other than what is said here. *)
From Coq Require Import String ZArith List Bool.
From Verif Require Import Common Text DDModel HashModel VfiModel PrecexpModel.
Import ListNotations.
Open Scope Z_scope.
Open Scope py_scope.

(** GetFunctionInfo L200-211: the five parts of an ID, from its end; int() may raise ValueError *)
Record info := mk_info { i_number : Z; i_line : Z; i_parent : list Z; i_name : list Z; i_file : list Z }.
Definition get_function_info (id : list Z) : py info :=
  let '(id, call) := cut id in
  do number <- py_int call;
  let '(id, line) := cut id in
  do line <- py_int line;
  let '(id, name) := cut id in
  let '(id, parent) := cut id in
  let '(_, file) := cut id in
  Ret (mk_info number line parent name file).

(** str.upper (ASCII) and str.replace(".", "_") *)
Definition upper (s : list Z) : list Z := map (fun c => if (97 <=? c) && (c <=? 122) then c - 32 else c) s.
Definition dots (s : list Z) : list Z := map (fun c => if c =? 46 then 95 else c) s.

(** FilterFunctions L214-226: the frames drop and reset_index return are not kept *)
Fixpoint filter_functions {A} (id : A -> list Z) (wanted : list (list Z)) (whole todo : list A) : py (list A) :=
  match todo with
  | [] => Ret whole
  | r :: todo' =>
      do i <- get_function_info (id r);
      let _dropped := if match wanted with [] => false | _ => true end && negb (listed (i_name i) wanted) && negb (listed (i_parent i) wanted)
                      then filter (fun r' => negb (bytes_eqb (id r') (id r))) whole else whole in
      filter_functions id wanted whole todo'
  end.

(** what a picture shows. PlotArgs L293-381: for each argument its label, interval, exponent and mantissa length; PlotOps L384-467:
    a bar for float and a bar for double, when there are such operations, with mantissa and exponent length *)
Record bar := mk_bar { b_label : list Z; b_min : Z; b_max : Z; b_range : Z; b_prec : Z }.
Inductive picture :=
| Args (title : list Z) (bars : list bar)
| Ops (title : list Z) (float double : option (Z * Z)).
(** plt.savefig: image name and what is saved; a second savefig with this name overwrites the first *)
Definition write : Type := list Z * picture.
Definition content (w : list write) (name : list Z) : option picture :=
  fold_left (fun acc x => if bytes_eqb (fst x) name then Some (snd x) else acc) w None.

Section ExpReport.
  (** whether pandas.read_csv reads the name of an argument as a text (and not, say, as a missing value) *)
  Variable is_text : list Z -> bool.
  (** DataFrame.sort_values(by, ascending=False): the order of rows with the same key is not specified *)
  Variable sort : forall A : Type, (A -> Z) -> list A -> list A.

  (** L320-327; str + float raises TypeError *)
  Definition label (r : arow) : py (list Z) :=
    if is_text (r_arg r) then
      Ret (r_io r ++ (if r_type r =? 0 then bytes " Float " else if r_type r =? 1 then bytes " Double " else if r_type r =? 2 then bytes " Float ptr " else bytes " Double ptr ") ++ r_arg r)
    else Raise.
  Fixpoint bars (l : list arow) : py (list bar) :=
    match l with
    | [] => Ret []
    | r :: l' => do t <- label r; do b <- bars l'; Ret (mk_bar t (r_min r) (r_max r) (r_range r) (r_prec r) :: b)
    end.
  (** PlotArgs; 72 / len(Data.index) L353 raises ZeroDivisionError without a row *)
  Definition plot_args (l : list arow) (title : list Z) : py picture :=
    do b <- bars l; match b with [] => Raise | _ => Ret (Args title b) end.
  (** PlotOps *)
  Definition plot_ops (o : prow) (title : list Z) : picture :=
    Ops title (if o_float o =? 0 then None else Some (o_prec32 o, o_range32 o)) (if o_double o =? 0 then None else Some (o_prec64 o, o_range64 o)).

  (** a call site in the report: its ID in the page, its heading, and its four links (the image a link opens; [None]: inactive) *)
  Record site := mk_site { s_chart : list Z; s_heading : list Z; s_args : option (list Z); s_ops : option (list Z); s_args_only : option (list Z); s_ops_only : option (list Z) }.

  (** ChartID L561-567 *)
  Definition chart_id (i : info) : list Z := dots (i_file i) ++ [95] ++ dots (i_name i) ++ [95] ++ zdec (i_number i).
  Definition title (what : list Z) (i : info) (search : list Z) : list Z :=
    what ++ upper (i_name i) ++ bytes " at line " ++ zdec (i_line i) ++ bytes " of " ++ i_file i ++ search.
  Definition heading (i : info) (calls : Z) : list Z :=
    bytes "Call to " ++ upper (i_name i) ++ bytes " in " ++ i_file i ++ bytes " at line " ++ zdec (i_line i) ++ bytes " executed " ++ zdec calls ++ bytes " time(s):".
  Definition args_title := bytes "Arguments percisions for ".
  Definition ops_title := bytes "Operations percision for ".
  Definition link (on : bool) (name : list Z) : option (list Z) := if on then Some name else None.

  (** the body of the loop of the call sites L558-705: what it adds to the page and the images it saves. L598: IndexError when the
      ID is not in OperationsResults.csv. The images of "Operations Only" L682-703 are plotted from tmp_ops as well *)
  Definition site_of (ops : list prow) (args all_args : list arow) (o : prow) : py (site * list write) :=
    do i <- get_function_info (o_id o);
    let c := chart_id i in
    let has_args := negb (o_nin o + o_nout o =? 0) in
    match find (fun r => bytes_eqb (o_id r) (o_id o)) ops with
    | None => Raise
    | Some k =>
        let compiled := (o_int k =? 0) && (o_lib k =? 0) in
        let both := bytes " after arguments and operations research" in
        do w1 <- (if has_args then do p <- plot_args (filter (fun r => bytes_eqb (r_id r) (o_id o)) all_args) (title args_title i both); Ret [(c ++ bytes "_Args", p)] else Ret []);
        let w2 := if compiled then [(c ++ bytes "_Ops", plot_ops o (title ops_title i both))] else [] in
        do w3 <- (if has_args then do p <- plot_args (filter (fun r => bytes_eqb (r_id r) (o_id o)) args) (title args_title i (bytes " after arguments only research")); Ret [(c ++ bytes "_ArgsOnly", p)] else Ret []);
        let w4 := if compiled then [(c ++ bytes "_OpsOnly", plot_ops o (title ops_title i (bytes " after operations only research")))] else [] in
        Ret (mk_site c (heading i (o_calls o)) (link has_args (c ++ bytes "_Args")) (link compiled (c ++ bytes "_Ops"))
                     (link has_args (c ++ bytes "_ArgsOnly")) (link compiled (c ++ bytes "_OpsOnly")),
             w1 ++ w2 ++ w3 ++ w4)
    end.
  Fixpoint sites_of (ops : list prow) (args all_args : list arow) (l : list prow) : py (list site * list write) :=
    match l with
    | [] => Ret ([], [])
    | o :: l' => do '(s, w) <- site_of ops args all_args o; do '(ss, ws) <- sites_of ops args all_args l'; Ret (s :: ss, w ++ ws)
    end.

  (** the dictionaries dict and dict_index L512-523, in insertion order: name, number of calls, rows *)
  Definition entry : Type := list Z * (Z * list nat).
  Fixpoint add_call (name : list Z) (calls : Z) (i : nat) (d : list entry) : list entry :=
    match d with
    | [] => [(name, (calls, [i]))]
    | (n, (k, l)) :: d' => if bytes_eqb n name then (n, (k + calls, l ++ [i])) :: d' else (n, (k, l)) :: add_call name calls i d'
    end.
  Fixpoint count_calls (rows : list (nat * prow)) (d : list entry) : py (list entry) :=
    match rows with
    | [] => Ret d
    | (i, o) :: rows' => do f <- get_function_info (o_id o); count_calls rows' (add_call (i_name f) (o_calls o) i d)
    end.
  Definition indexed {A} (l : list A) : list (nat * A) := combine (seq 0 (length l)) l.

  (** the functions of the page L541-707: the ID of the div and its call sites. tmp_ops L548-556: the rows of the function, sorted *)
  Definition block : Type := list Z * list site.
  Definition rows_of (all_ops : list prow) (l : list nat) : list prow :=
    map snd (filter (fun x => existsb (Nat.eqb (fst x)) l) (indexed all_ops)).
  Fixpoint blocks_of (all_ops ops : list prow) (args all_args : list arow) (fs : list entry) : py (list block * list write) :=
    match fs with
    | [] => Ret ([], [])
    | (n, (_, l)) :: fs' =>
        do '(ss, w) <- sites_of ops args all_args (sort prow o_calls (rows_of all_ops l));
        do '(bs, ws) <- blocks_of all_ops ops args all_args fs';
        Ret ((upper n, ss) :: bs, w ++ ws)
    end.

  (** the report: the chart of the functions (DataMain L529-535), the blocks, the images *)
  Record report := mk_report { p_chart : list (list Z * Z); p_blocks : list block; p_images : list write }.
  Record tables := mk_tables { t_args : option (list arow); t_ops : option (list prow); t_all_args : option (list arow); t_all_ops : option (list prow) }.

  (** main L470-718, with [argv] the arguments after the name of the program. A missing file: exit(0). [installed]: the body is in
      the function main, where ReportString is a local variable as it is assigned L711 (there is no global statement): its use there
      raises UnboundLocalError *)
  Definition vfc_report (installed : bool) (argv : list (list Z)) (t : tables) : py report :=
    match t_args t, t_ops t, t_all_args t, t_all_ops t with
    | Some args, Some ops, Some all_args, Some all_ops =>
        do '(args, ops, all_ops, all_args) <-
          (match argv with
           | [] => Ret (args, ops, all_ops, all_args)
           | _ => do args <- filter_functions r_id argv args args;
                  do ops <- filter_functions o_id argv ops ops;
                  do all_ops <- filter_functions o_id argv all_ops all_ops;
                  do all_args <- filter_functions r_id argv all_args all_args;
                  Ret (args, ops, all_ops, all_args)
           end);
        do d <- count_calls (indexed all_ops) [];
        let fs := sort entry (fun e => fst (snd e)) d in
        do '(bs, w) <- blocks_of all_ops ops args all_args fs;
        if installed then Raise else Ret (mk_report (map (fun e => (upper (fst e), fst (snd e))) fs) bs w)
    | _, _, _, _ => Quit
    end.
End ExpReport.

(** the page in the browser L35-75: whether each block and each call site is displayed (in document order, with their IDs), and
    actualFunction. document.getElementById gives the first element with this ID; the IDs of blocks are names in capital letters and
    those of call sites end with _Precisions, taken not to be confused *)
Record screen := mk_screen { blocks : list (list Z * bool); sites : list (list Z * bool); actual : list Z }.
Fixpoint set_first (id : list Z) (f : bool -> bool) (l : list (list Z * bool)) : option (list (list Z * bool)) :=
  match l with
  | [] => None
  | (k, v) :: l' => if bytes_eqb k id then Some ((k, f v) :: l') else option_map (cons (k, v)) (set_first id f l')
  end.
(** HideAll L63-75, called once the page is loaded *)
Definition hide_all (r : report) : screen :=
  mk_screen (map (fun b => (fst b, false)) (p_blocks r)) (map (fun s => (s_chart s, false)) (concat (map snd (p_blocks r)))) [].
(** DisplayFunctionInformations L37-47; [None]: an exception (style of null) *)
Definition display_function (id : list Z) (s : screen) : option screen :=
  match (match actual s with [] => Some (blocks s) | a => set_first a (fun _ => false) (blocks s) end) with
  | None => None
  | Some b => match set_first id (fun _ => true) b with None => None | Some b => Some (mk_screen b (sites s) id) end
  end.
(** DisplayCallInformations L49-61 *)
Definition display_call (chart : list Z) (s : screen) : screen :=
  match set_first chart negb (sites s) with None => s | Some l => mk_screen (blocks s) l (actual s) end.
(** a click on the label of the n-th function in the chart (L276-285), or on the heading of a call site *)
Inductive click := OnFunction (n : nat) | OnCall (chart : list Z).
Definition on_click (r : report) (c : click) (s : screen) : option screen :=
  match c with
  | OnFunction n => match nth_error (p_chart r) n with None => Some s | Some (name, _) => display_function name s end
  | OnCall chart => Some (display_call chart s)
  end.
Fixpoint on_clicks (r : report) (l : list click) (s : screen) : option screen :=
  match l with [] => Some s | c :: l' => match on_click r c s with None => None | Some s => on_clicks r l' s end end.
