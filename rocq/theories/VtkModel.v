(** vfc-vtk: accuracy information for VTK outputs. src/tools/vtk/__main__.py (Python 3, installed as vfc_vtk, pyproject.toml L62) and
    src/tools/vfc-vtk.py (Python 2); the two merge_vtu are the same. Line numbers are those of src/tools/vtk/__main__.py. *)
From Coq Require Import String ZArith List Bool Reals.
From Verif Require Import Text.
Import ListNotations.
Open Scope Z_scope.

(** a Python exception is [Bad] *)
Inductive res (A : Type) := Good (a : A) | Bad.
Arguments Good {A} a. Arguments Bad {A}.
Definition rbind {A B} (m : res A) (k : A -> res B) : res B := match m with Good a => k a | Bad => Bad end.
Fixpoint sequence {A} (l : list (res A)) : res (list A) :=
  match l with [] => Good [] | x :: l' => rbind x (fun a => rbind (sequence l') (fun r => Good (a :: r))) end.

Definition text_eqb (a b : list Z) : bool := if list_eq_dec Z.eq_dec a b then true else false.

Section Vtk.
  (** the texts of elements, np.fromstring(text, np.float64, sep=" ") ([None] when it fails) and np_to_string L61-65 *)
  Variable T : Type.
  Variable parse : T -> option (list R).
  Variable print : list R -> T.
  (** whether Element has a method copy: so in Python 2 (pure Python class), not in Python 3 (C class: AttributeError) *)
  Variable has_copy : bool.

  (** an element DataArray: is its type Float32, its Name, its other attributes, its text *)
  Record array := mk_a { a_f32 : bool; a_name : option (list Z); a_rest : list (list Z * list Z); a_text : T }.
  (** the elements PointData and those with DataArray children, in document order, each with its DataArray children. The rest of
      the tree is never touched. These elements are taken not to contain one another *)
  Record section := mk_s { s_tag : list Z; s_arrays : list array }.
  Definition file := list section.

  (** the xpath L89: DataArray elements of type Float32 with a given Name *)
  Definition matches (nm : list Z) (a : array) : bool := a_f32 a && match a_name a with Some n => text_eqb n nm | None => false end.
  (** "...{}...".format(name): a missing Name gives None. A quote in the name makes the xpath invalid (SyntaxError) *)
  Definition format_name (nm : option (list Z)) : res (list Z) :=
    match nm with None => Good (bytes "None") | Some n => if existsb (Z.eqb 39) n then Bad else Good n end.
  Definition find_array (nm : list Z) (f : file) : option array := find (matches nm) (concat (map s_arrays f)).
  (** L83-85 *)
  Definition names (f : file) : list (option (list Z)) := map a_name (filter a_f32 (concat (map s_arrays f))).

  (** L92-97: one row for each trace; a trace without the file, without the array (assert) or with an unreadable text fails *)
  Definition row (nm : list Z) (trace : option file) : res (list R) :=
    match trace with
    | None => Bad
    | Some f => match find_array nm f with None => Bad | Some a => match parse (a_text a) with Some l => Good l | None => Bad end end
    end.
  (** np.stack L100: rows of different lengths (or no row) fail *)
  Definition stack (rows : list (list R)) : res (list (list R)) :=
    match rows with [] => Bad | r :: _ => if forallb (fun x => Nat.eqb (length x) (length r)) rows then Good rows else Bad end.
  (** a function of the columns, axis=0 *)
  Definition columnwise (h : list R -> R) (rows : list (list R)) : list R :=
    map (fun i => h (map (fun r => nth i r 0%R) rows)) (seq 0 (length (hd [] rows))).

  Open Scope R_scope.
  Definition rsum (l : list R) : R := fold_right Rplus 0 l.
  (** np.mean and np.std L101-102 (the division by the number of traces; computed exactly here) *)
  Definition mean (l : list R) : R := rsum l / INR (length l).
  Definition std (l : list R) : R := sqrt (rsum (map (fun x => (x - mean l) * (x - mean l)) l) / INR (length l)).
  Definition log10 (x : R) : R := ln x / ln 10.
  (** L107-110 on one column, with the special values of the division and of np.log10: x/0 and 0/0, log10 of 0 (-inf), of a
      negative number (NaN) and of -0 (-inf) *)
  Definition digits (l : list R) : R :=
    let sd := std l in let m := mean l in
    if Req_EM_T m 0 then 0                       (* 0/0: NaN -> 0; sd/0 = inf: -inf -> 0 *)
    else if Req_EM_T sd 0 then 17                (* log10 (+-0) = -inf: +inf -> 17 *)
    else if Rlt_dec m 0 then 0                   (* log10 of a negative number: NaN -> 0 *)
    else let s := - log10 (sd / m) in
         let s := if Rlt_dec s 0 then 0 else s in if Rlt_dec 17 s then 17 else s.
  Close Scope R_scope.

  Definition suffix : list Z := bytes "_vfc_accuracy".
  Fixpoint set_first (nm : list Z) (t : T) (l : list array) : list array :=
    match l with
    | [] => []
    | a :: l' => if matches nm a then mk_a (a_f32 a) (a_name a) (a_rest a) t :: l' else a :: set_first nm t l'
    end.
  Fixpoint find_index (p : section -> bool) (f : file) : option nat :=
    match f with [] => None | s :: f' => if p s then Some O else option_map S (find_index p f') end.
  Fixpoint update_at (k : nat) (h : section -> section) (f : file) : file :=
    match f, k with [], _ => [] | s :: f', O => h s :: f' | s :: f', S k' => s :: update_at k' h f' end.

  (** the body of the loop of merge_vtu L87-137 for one name; [use_std], [use_mean]: options --std and --mean *)
  Definition merge_name (use_std use_mean : bool) (traces : list (option file)) (f : file) (name : option (list Z)) : res file :=
    rbind (format_name name) (fun nm =>
    rbind (sequence (map (row nm) traces)) (fun rows =>
    rbind (stack rows) (fun mat =>
    let s := columnwise (if use_std then std else digits) mat in
    match find_index (fun sec => existsb (matches nm) (s_arrays sec)) f, find_array nm f, name with
    | Some i, Some original, Some n =>
        if has_copy then
          let accuracy := mk_a (a_f32 original) (Some (n ++ suffix)) (a_rest original) (print s) in
          let f := if use_mean then update_at i (fun sec => mk_s (s_tag sec) (set_first nm (print (columnwise mean mat)) (s_arrays sec))) f else f in
          let parent_tag := match nth_error f i with Some sec => s_tag sec | None => [] end in
          match (if text_eqb parent_tag (bytes "Points") then find_index (fun sec => text_eqb (s_tag sec) (bytes "PointData")) f else Some i) with
          | Some k => Good (update_at k (fun sec => mk_s (s_tag sec) (accuracy :: s_arrays sec)) f)
          | None => Bad
          end
        else Bad
    | _, _, _ => Bad
    end))).
  (** merge_vtu L68-140 *)
  Fixpoint merge_names (use_std use_mean : bool) (traces : list (option file)) (l : list (option (list Z))) (f : file) : res file :=
    match l with [] => Good f | n :: l' => rbind (merge_name use_std use_mean traces f n) (merge_names use_std use_mean traces l') end.
  Definition merge_vtu (use_std use_mean : bool) (traces : list (option file)) (f : file) : res file :=
    merge_names use_std use_mean traces (names f) f.

  (** postprocess L143-173. A directory: its .vtu files, in the order of os.listdir. The result: exit status and the output
      directory ([None]: not created) *)
  Definition dir := list (list Z * file).
  Fixpoint lookup (nm : list Z) (d : dir) : option file :=
    match d with [] => None | (k, f) :: d' => if text_eqb k nm then Some f else lookup nm d' end.
  Inductive status := Done | Code (c : Z) | Exception.
  Fixpoint merge_all (use_std use_mean : bool) (dirs : list dir) (todo : dir) (out : dir) : status * dir :=
    match todo with
    | [] => (Done, out)
    | (nm, f) :: todo' =>
        match merge_vtu use_std use_mean (map (lookup nm) dirs) f with
        | Good f' => merge_all use_std use_mean dirs todo' (map (fun p => if text_eqb (fst p) nm then (fst p, f') else p) out)
        | Bad => (Exception, out)
        end
    end.
  (** [reference]: the option -r is given. copyfile writes a file in place of the output directory, so the first .vtu file below it
      cannot be opened (or copyfile itself fails on a directory) *)
  Definition postprocess (use_std use_mean reference : bool) (exists_out : bool) (dirs : list dir) : status * option dir :=
    match dirs with
    | [] => (Code 2, None)
    | d :: _ =>
        if exists_out then (Code 3, None)
        else if reference then match d with [] => (Done, None) | _ => (Exception, None) end
        else let '(s, o) := merge_all use_std use_mean dirs d d in (s, Some o)
    end.
End Vtk.
