(** Model of the continuous integration tool: src/tools/ci/test.py and src/tools/ci/test_data_processing.py, together with
    printf's %a (used by vfc_dump_probes, vfc_probes.c L253-254), Python's float.fromhex and the part of pandas the tool
    relies on.

    A double is its bit pattern ([Z], binary64); a text is a list of bytes.
    Running a program is an oracle: what a run leaves in the file named by VFC_PROBES_OUTPUT is part of the input, so a
    crash, a timeout or a full disk is just another content.
    pandas.read_csv is modelled for texts made of printable ASCII without the double quote, read in one chunk:
    lines are separated by newline bytes, blank lines are skipped, the first line is the header, short rows are padded
    with missing values, and each column gets the type all its entries can be given (missing, number, boolean, text).
    Which texts are numbers is an oracle ([numeric]); the words read as missing values are those of pandas 2.
    Not modelled: the order of the groups (sort_index), metadata, HDF5 output, printing, the quantiles, the significant
    digits; mean, standard deviation and the p-value are oracles. *)
From Coq Require Import String ZArith List Bool.
From Verif Require Import Common Text Bits FloatOps VfiModel DDModel ProbesModel.
Import ListNotations.
Open Scope Z_scope.
Open Scope py_scope.

(** * printf "%a" of a double, glibc: 0x1.hhhp+d for normal numbers, 0x0.hhhp-1022 for subnormal ones, trailing zeros of
    the fraction removed (vfc_probes.c L253-254) *)
Definition hexdigit (d : Z) : Z := if d <? 10 then 48 + d else 87 + d.
Fixpoint hexdigits (n : nat) (v : Z) : list Z :=
  match n with
  | O => []
  | S n' => hexdigits n' (v / 16) ++ [hexdigit (v mod 16)]
  end.
Fixpoint strip0 (l : list Z) : list Z :=
  match l with
  | [] => []
  | c :: l' => match strip0 l' with [] => if c =? 48 then [] else [c] | r => c :: r end
  end.
Definition fmt_exp (e : Z) : list Z := if e <? 0 then 45 :: udec 5 (- e) else 43 :: udec 5 e.
Definition fmt_a (b : Z) : list Z :=
  let f := binary64 in
  (if sgn f b =? 1 then [45] else []) ++
  (if is_nan f b then bytes "nan"%string
   else if is_inf f b then bytes "inf"%string
   else
     let frac := strip0 (hexdigits 13 (man f b)) in
     bytes "0x"%string ++ (if expf f b =? 0 then [48] else [49]) ++
     (match frac with [] => [] | _ => 46 :: frac end) ++ 112 ::
     fmt_exp (if is_zero f b then 0 else if expf f b =? 0 then -1022 else expf f b - 1023)).

(** * Python's float.fromhex (called at test.py L111 and L115): CPython's float_fromhex *)
Definition is_space (c : Z) : bool := (c =? 32) || ((9 <=? c) && (c <=? 13)).
Fixpoint lstrip (l : list Z) : list Z := match l with c :: l' => if is_space c then lstrip l' else l | [] => [] end.
Definition take_sign (l : list Z) : Z * list Z :=
  match l with
  | c :: l' => if c =? 45 then (1, l') else if c =? 43 then (0, l') else (0, l)
  | [] => (0, [])
  end.
Definition lower (c : Z) : Z := if (65 <=? c) && (c <=? 90) then c + 32 else c.
(** the rest of [l] after the word [w], letters in either case *)
Fixpoint after (w l : list Z) : option (list Z) :=
  match w, l with
  | [], _ => Some l
  | c :: w', d :: l' => if lower d =? c then after w' l' else None
  | _ :: _, [] => None
  end.
Definition hexval (c : Z) : option Z :=
  if (48 <=? c) && (c <=? 57) then Some (c - 48)
  else let c := lower c in if (97 <=? c) && (c <=? 102) then Some (c - 87) else None.
(** longest run of hexadecimal digits: value, number of digits, rest *)
Fixpoint hexrun (l : list Z) (acc n : Z) : Z * Z * list Z :=
  match l with
  | c :: l' => match hexval c with Some d => hexrun l' (acc * 16 + d) (n + 1) | None => (acc, n, l) end
  | [] => (acc, n, [])
  end.
Fixpoint decrun (l : list Z) (acc n : Z) : Z * Z * list Z :=
  match l with
  | c :: l' => if (48 <=? c) && (c <=? 57) then decrun l' (acc * 10 + (c - 48)) (n + 1) else (acc, n, l)
  | [] => (acc, n, [])
  end.
Definition skip_0x (l : list Z) : list Z :=
  match l with
  | a :: b :: l' => if (a =? 48) && (lower b =? 120) then l' else l
  | _ => l
  end.
Definition only_spaces (l : list Z) : bool := match lstrip l with [] => true | _ => false end.
Definition parse_exp (l : list Z) : py (Z * list Z) :=
  match l with
  | c :: l' =>
      if lower c =? 112 then
        let '(s, l1) := take_sign l' in
        let '(e, n, r) := decrun l1 0 0 in
        if n =? 0 then Raise else Ret (if s =? 1 then - e else e, r)
      else Ret (0, l)
  | [] => Ret (0, [])
  end.
Definition fromhex (l : list Z) : py Z :=
  let f := binary64 in
  let '(s, l) := take_sign (lstrip l) in
  match after (bytes "inf"%string) l with
  | Some r =>
      let r := match after (bytes "inity"%string) r with Some r' => r' | None => r end in
      if only_spaces r then Ret (inf f s) else Raise
  | None =>
      match after (bytes "nan"%string) l with
      | Some r => if only_spaces r then Ret (s * sbit f + qnan f) else Raise
      | None =>
          let '(m, n, r) := hexrun (skip_0x l) 0 0 in
          let '(m, n, k, r) :=
            match r with
            | c :: r' => if c =? 46 then let '(m', n', r'') := hexrun r' m n in (m', n', n' - n, r'') else (m, n, 0, r)
            | [] => (m, n, 0, [])
            end in
          if n =? 0 then Raise
          else
            do '(e, r) <- parse_exp r;
            if negb (only_spaces r) then Raise
            else
              let b := round_pack f s m (e - 4 * k) in
              if is_inf f b then Raise (* OverflowError *) else Ret b
      end
  end.

(** * pandas.read_csv *)
Inductive cell := CStr (s : list Z) | CNum (v : Z) | CBool (b : bool) | CNA.
Definition text_eqb (a b : list Z) : bool := if list_eq_dec Z.eq_dec a b then true else false.
Definition memb (a : list Z) (l : list (list Z)) : bool := existsb (text_eqb a) l.
(** pandas' default missing-value words *)
Definition na_words : list (list Z) :=
  map bytes [""; "#N/A"; "#N/A N/A"; "#NA"; "-1.#IND"; "-1.#QNAN"; "-NaN"; "-nan"; "1.#IND"; "1.#QNAN"; "<NA>"; "N/A"; "NA";
             "NULL"; "NaN"; "None"; "n/a"; "nan"; "null"]%string.
Definition true_words : list (list Z) := map bytes ["True"; "TRUE"; "true"]%string.
Definition false_words : list (list Z) := map bytes ["False"; "FALSE"; "false"]%string.

Section reader.
  Context (numeric : list Z -> option Z).    (* the number a text is read as by pandas, if any *)

  (** a field, None when the row is too short *)
  Definition is_na (x : option (list Z)) : bool := match x with None => true | Some s => memb s na_words end.
  Definition is_num (s : list Z) : bool := match numeric s with Some _ => true | None => false end.
  Definition is_bool (s : list Z) : bool := memb s true_words || memb s false_words.
  (** type inference of a column *)
  Definition infer (l : list (option (list Z))) : list cell :=
    let every (p : list Z -> bool) := forallb (fun x => is_na x || match x with Some s => p s | None => true end) l in
    let conv : list Z -> cell :=
      if every is_num then fun s => match numeric s with Some v => CNum v | None => CNA end
      else if every is_bool then fun s => CBool (memb s true_words)
      else CStr in
    map (fun x => if is_na x then CNA else match x with Some s => conv s | None => CNA end) l.

  Definition is_blank (c : Z) : bool := (c =? 32) || (c =? 9).
  Definition lines (text : list Z) : list (list Z) := filter (fun l => negb (forallb is_blank l)) (split_on newline text).

  (** header and rows; None: EmptyDataError. A row longer than the header does not occur in the texts considered. *)
  Definition read_csv (text : list Z) : option (list (list Z) * list (list (list Z))) :=
    match lines text with
    | [] => None
    | h :: rows => Some (split_on comma h, map (split_on comma) rows)
    end.

  Fixpoint index_of (name : list Z) (hdr : list (list Z)) : option nat :=
    match hdr with
    | [] => None
    | h :: hdr' => if text_eqb h name then Some O else match index_of name hdr' with Some i => Some (S i) | None => None end
    end.
  (** results[name]: KeyError when there is no such column *)
  Definition column (frame : list (list Z) * list (list (list Z))) (name : list Z) : py (list cell) :=
    match index_of name (fst frame) with
    | None => Raise
    | Some i => Ret (infer (map (fun row => nth_error row i) (snd frame)))
    end.

  (** float.fromhex of a cell (L111, L115): only texts are accepted (TypeError otherwise) *)
  Definition fromhex_cell (c : cell) : py Z := match c with CStr s => fromhex s | _ => Raise end.
  Fixpoint pmap {A B} (f : A -> py B) (l : list A) : py (list B) :=
    match l with
    | [] => Ret []
    | x :: l' => do y <- f x; do ys <- pmap f l'; Ret (y :: ys)
    end.

  (** a row of the dataframe built by read_probes_csv *)
  Record prow := mk_prow { p_test : cell; p_var : cell; p_val : Z; p_thr : Z; p_mode : cell }.
  Fixpoint zip5 (a b : list cell) (c d : list Z) (e : list cell) : list prow :=
    match a, b, c, d, e with
    | a :: la, b :: lb, c :: lc, d :: ld, e :: le => mk_prow a b c d e :: zip5 la lb lc ld le
    | _, _, _, _, _ => []
    end.

  (** read_probes_csv L52-128: is a warning recorded, and the rows *)
  Definition read_probes (text : list Z) : py (bool * list prow) :=
    match read_csv text with
    | None => Ret (true, [])                                                  (* L81-101 *)
    | Some frame =>
        do vals <- column frame (bytes "value"%string);
        do vs <- pmap fromhex_cell vals;                                      (* L111 *)
        do thrs <- column frame (bytes "accuracy_threshold"%string);
        do ts <- pmap fromhex_cell thrs;                                      (* L114-116 *)
        do test <- column frame (bytes "test"%string);
        do var <- column frame (bytes "variable"%string);
        do mode <- column frame (bytes "check_mode"%string);                  (* L121-123 *)
        Ret (match snd frame with [] => true | _ => false end,                (* L103-108 *)
             zip5 test var vs ts mode)
    end.
End reader.

(** * Comparisons on doubles (Python and numpy: IEEE, false on NaN) *)
Definition order_key (b : Z) : Z := if sgn binary64 b =? 1 then - code binary64 b else code binary64 b.
Definition flt (a b : Z) : bool :=
  negb (is_nan binary64 a) && negb (is_nan binary64 b) && (order_key a <? order_key b).
Definition fabs (b : Z) : Z := code binary64 b.

(** * validate_deterministic_probe, test_data_processing.py L164-185. The reference is None when the row has none (NaN).
    The row holds Python floats, so a division by zero raises ZeroDivisionError. *)
Definition mode_is (m : cell) (w : string) : bool := match m with CStr s => text_eqb s (bytes w) | _ => false end.
Definition validate (r : prow) (ref : option Z) : py bool :=
  let f := binary64 in
  if mode_is (p_mode r) "absolute"%string then
    Ret (match ref with None => false | Some x => flt (fabs (fsub f (p_val r) x)) (fabs (p_thr r)) end)
  else if mode_is (p_mode r) "relative"%string then
    match ref with
    | None => Ret false
    | Some x =>
        if is_zero f x then Raise
        else Ret (flt (fdiv f (fabs (fsub f (p_val r) x)) (fabs x)) (fabs (p_thr r)))
    end
  else Ret true.

(** the result of one deterministic probe *)
Record drow := mk_drow { d_row : prow; d_backend : list Z; d_ref : option Z; d_check : bool }.

(** what is executed: one backend of one executable (run_tests L313-352). [Repeated]: the content of the probes file after
    each repetition; [Single]: after the run, and after the reference run if one is made *)
Inductive job := Repeated (files : list (list Z)) | Single (file ref_file : list Z).
Record task := mk_task { t_exe : list Z; t_backend : list Z; t_job : job }.
(** execution_data *)
Definition warning : Type := list Z * list Z * Z.
Definition reference_name : list Z := bytes "libinterflop_ieee.so (reference run)"%string.

Section runs.
  Context (numeric : list Z -> option Z).
  Context (vsum : list Z -> Z).               (* Series.sum: the order of the additions is not specified *)

  (** run_deterministic L227-288 *)
  Definition run_deterministic (t : task) (file ref_file : list Z) : py (list drow * list warning) :=
    do '(w, rows) <- read_probes numeric file;
    let ws := if (w : bool) then [(t_exe t, t_backend t, 1)] else [] in
    if negb (is_zero binary64 (vsum (map p_thr rows))) then                      (* L253 *)
      do '(w2, refs) <- read_probes numeric ref_file;
      let ws2 := if (w2 : bool) then [(t_exe t, reference_name, 1)] else [] in
      let refvals := map p_val refs in
      do ds <- pmap (fun ir => let ref := nth_error refvals (fst ir) in      (* L277: aligned on the row numbers *)
                               do c <- validate (snd ir) ref; Ret (mk_drow (snd ir) (t_backend t) ref c))
                    (combine (seq 0 (length rows)) rows);
      Ret (ds, ws ++ ws2)
    else Ret (map (fun r => mk_drow r (t_backend t) (Some 0) true) rows, ws).    (* L283-284 *)

  (** a row of the concatenated dataframes, with its vfc_backend *)
  Definition nrow : Type := prow * list Z.

  (** run_non_deterministic L192-224 *)
  Fixpoint run_repetitions (t : task) (i : Z) (files : list (list Z)) : py (list nrow * list warning) :=
    match files with
    | [] => Ret ([], [])
    | file :: files' =>
        do '(w, rows) <- read_probes numeric file;
        do '(rest, ws) <- run_repetitions t (i + 1) files';
        Ret (map (fun r => (r, t_backend t)) rows ++ rest, (if (w : bool) then [(t_exe t, t_backend t, i)] else []) ++ ws)
    end.

  (** the loops of run_tests L313-352 *)
  Fixpoint run_all (ts : list task) : py (list nrow * list drow * list warning) :=
    match ts with
    | [] => Ret ([], [], [])
    | t :: ts' =>
        do '(ns, ds, ws) <-
          (match t_job t with
           | Repeated files => do '(ns, ws) <- run_repetitions t 1 files; Ret (ns, [], ws)
           | Single file ref_file => do '(ds, ws) <- run_deterministic t file ref_file; Ret ([], ds, ws)
           end);
        do '(ns', ds', ws') <- run_all ts';
        Ret (ns ++ ns', ds ++ ds', ws ++ ws')
    end.

  Definition cell_eq_dec (a b : cell) : {a = b} + {a <> b}.
  Proof. decide equality; [apply (list_eq_dec Z.eq_dec)|apply Z.eq_dec|apply bool_dec]. Defined.
  (** the grouping key (test, variable, vfc_backend) *)
  Definition key : Type := cell * cell * list Z.
  Definition key_eq_dec (a b : key) : {a = b} + {a <> b}.
  Proof. repeat decide equality. Defined.
  Definition nkey (r : nrow) : key := (p_test (fst r), p_var (fst r), snd r).
  Definition key_na (k : key) : bool :=
    match k with (CNA, _, _) => true | (_, CNA, _) => true | _ => false end.

  (** a row of the final dataframe of non-deterministic results *)
  Record grow := mk_grow { g_key : key; g_values : list Z; g_thr : Z; g_mode : cell }.

  (** L362-382: groupby drops missing keys and keeps the values in order; drop_duplicates keeps the first of the checks *)
  Definition group (rows : list nrow) : list grow :=
    flat_map (fun k =>
      let mine := filter (fun r => if key_eq_dec (nkey r) k then true else false) rows in
      match mine with
      | [] => []
      | first :: _ => [mk_grow k (map (fun r => p_val (fst r)) mine) (p_thr (fst first)) (p_mode (fst first))]
      end)
      (filter (fun k => negb (key_na k)) (nodup key_eq_dec (map nkey rows))).

  Definition has_frames (ts : list task) : bool :=
    existsb (fun t => match t_job t with Repeated [] => false | _ => true end) ts.

  (** run_tests L291-396 *)
  Definition run_tests (ts : list task) : py (list grow * list drow * list warning) :=
    do '(ns, ds, ws) <- run_all ts;
    if negb (has_frames ts) then Raise                                            (* assert L355-358 *)
    else Ret (group ns, ds, ws).
End runs.

(** * apply_data_pocessing, test_data_processing.py L118-135: the check of a group of samples. numpy's division does not
    raise. [mean], [std]: numpy.average, numpy.std *)
Section process.
  Context (mean std : list Z -> Z).
  Definition sample_check (g : grow) : bool :=
    let sigma := std (g_values g) in
    let mu := mean (g_values g) in
    if mode_is (g_mode g) "absolute"%string then flt sigma (fabs (g_thr g))
    else if mode_is (g_mode g) "relative"%string then flt (fabs (fdiv binary64 sigma mu)) (fabs (g_thr g))
    else true.
End process.
