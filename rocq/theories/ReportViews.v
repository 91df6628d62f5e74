(** The views "inspect run" and "checks" of the report: inspect_runs.py, checks.py and the part of helper.py they use. *)
From Coq Require Import String ZArith List Bool Reals.
From Verif Require Import Text DDModel ReportModel.
Import ListNotations.
Open Scope Z_scope.
Open Scope py_scope.

(** * inspect_runs.py *)
(** factors_dict, inspect_runs.py L479-483, in this order; level: the level of the index of a row *)
Inductive factor := FVar | FBackend | FTest.
Definition factors : list factor := [FVar; FBackend; FTest].
Definition level (f : factor) (w : row) : text := match f with FVar => w_var w | FBackend => w_backend w | FTest => w_test w end.
(** del filterby_list[active] L295, L534 *)
Fixpoint delete {A} (i : nat) (l : list A) : list A :=
  match l, i with [], _ => [] | _ :: l', O => l' | x :: l', S i' => x :: delete i' l' end.

Section Numbers.
  Open Scope R_scope.
  Fixpoint insert_real (x : R) (l : list R) : list R :=
    match l with [] => [x] | y :: l' => if Rle_dec x y then x :: l else y :: insert_real x l' end.
  Definition sort_real (l : list R) : list R := fold_right insert_real [] l.
  (** np.quantile(l, a / 4): linear interpolation at (n - 1) a / 4 *)
  Definition quantile (a : nat) (l : list R) : R :=
    let s := sort_real l in
    let p := ((length l - 1) * a)%nat in
    let lo := nth (p / 4) s 0 in
    lo + (nth (p / 4 + 1) s lo - lo) * (INR (p mod 4) / 4).
  (** np.average with weights *)
  Definition weighted (l : list (R * Z)) : R :=
    rsum (map (fun p => fst p * IZR (snd p)) l) / rsum (map (fun p => IZR (snd p)) l).
  (** the columns <prefix>_min, _quantile25, _quantile50, _quantile75, _max, _mu L91-108 *)
  Record five := mk_five { b_min : R; b_q25 : R; b_q50 : R; b_q75 : R; b_max : R; b_mean : R }.
  Definition five_of (l : list R) : five :=
    mk_five (hd 0 (sort_real l)) (quantile 1 l) (quantile 2 l) (quantile 3 l) (last (sort_real l) 0) (mean l).
End Numbers.
(** L87-89 *)
Definition short (x : text) : text :=
  if Nat.ltb 39 (length x) then firstn 17 x ++ bytes "[...]" ++ skipn (length x - 17) x else x.
(** a line of the groups of data_processing L75-111 *)
Record box := mk_box { b_label : text; b_n : nat; b_mu : R; b_stats : stat -> five }.
Definition box_of (key : text) (g : list row) : box :=
  mk_box (short key) (length g) (weighted (map (fun w => (w_stat w Mu, w_nsamples w)) g)) (fun s => five_of (map (fun w => w_stat w s) g)).
(** update_plots L126-175: the groups. Their order (sorted keys) is not modelled *)
Definition groups (rows : list row) (groupby filterby : factor) (value : text) : list box :=
  let sel := filter (fun w => text_eqb (level filterby w) value) rows in
  map (fun k => box_of k (filter (fun w => text_eqb (level groupby w) k) sel)) (drop_duplicates [] (map (level groupby) sel)).
(** remove_boxplot_outliers, helper.py L255-273: the argument outliers is not used; all columns are filtered alike *)
Definition remove_boxplot_outliers (s : stat) (l : list box) (outliers : list bool) : list box :=
  remove_outliers l (detect_outliers (map (fun b => b_max (b_stats b s)) l)).
(** inspect_runs.py L179-201: what the box plot of sigma, s10 or s2 shows *)
Definition boxplot (filtering : bool) (s : stat) (l : list box) : list box :=
  if filtering then
    let top := detect_outliers (map (fun b => b_max (b_stats b s)) l) in
    let l := remove_boxplot_outliers s l top in
    let bottom := detect_outliers (map (fun b => b_min (b_stats b s)) l) in
    remove_boxplot_outliers s l bottom
  else l.

(** the widgets and the data of the view *)
Record inspect := mk_v { v_name : text; v_data : list row; v_group : nat; v_labels : list factor; v_filterby : nat; v_value : text;
                         v_filtering : bool; v_shown : list box }.
Inductive event := SelectRun (name : text) | SelectGroup (k : nat) | SelectFilterby (k : nat) | SelectFilter (value : text) | Filtering (b : bool).
Definition nth_py {A} (l : list A) (i : nat) : py A := match nth_error l i with Some x => Ret x | None => Raise end.
(** update_plots, inspect_runs.py L115-254 *)
Definition update_plots (v : inspect) : py inspect :=
  do g <- nth_py factors (v_group v);
  do f <- nth_py (v_labels v) (v_filterby v);
  Ret (mk_v (v_name v) (v_data v) (v_group v) (v_labels v) (v_filterby v) (v_value v) (v_filtering v) (groups (v_data v) g f (v_value v))).
(** the common end of update_run, update_groupby and update_filterby: L272-288, L303-319, L329-345. The assignment of a new value
    calls update_filter, which calls update_plots *)
Definition update_options (v : inspect) : py inspect :=
  do f <- nth_py (v_labels v) (v_filterby v);
  let options := drop_duplicates [] (map (level f) (v_data v)) in
  if existsb (text_eqb (v_value v)) options then update_plots v
  else do x <- nth_py options 0;
       update_plots (mk_v (v_name v) (v_data v) (v_group v) (v_labels v) (v_filterby v) x (v_filtering v) (v_shown v)).
Definition of_run (data : list row) (t : Z) : list row := filter (fun w => w_time w =? t) data.
Definition step (runs : list named) (data : list row) (v : inspect) (e : event) : py inspect :=
  match e with
  | SelectRun name =>                                                                            (* update_run L260-288 *)
      if text_eqb name (v_name v) then Ret v
      else do t <- dict_get name (runs_selection runs);
           update_options (mk_v name (of_run data t) (v_group v) (v_labels v) (v_filterby v) (v_value v) (v_filtering v) (v_shown v))
  | SelectGroup k =>                                                                             (* update_groupby L292-319 *)
      if Nat.eqb k (v_group v) then Ret v
      else update_options (mk_v (v_name v) (v_data v) k (delete k factors) (v_filterby v) (v_value v) (v_filtering v) (v_shown v))
  | SelectFilterby k =>                                                                          (* update_filterby L323-345 *)
      if Nat.eqb k (v_filterby v) then Ret v
      else update_options (mk_v (v_name v) (v_data v) (v_group v) (v_labels v) k (v_value v) (v_filtering v) (v_shown v))
  | SelectFilter value =>                                                                        (* update_filter L349-350 *)
      if text_eqb value (v_value v) then Ret v
      else update_plots (mk_v (v_name v) (v_data v) (v_group v) (v_labels v) (v_filterby v) value (v_filtering v) (v_shown v))
  | Filtering b =>                                                                               (* L354-357 *)
      if Bool.eqb b (v_filtering v) then Ret v
      else update_plots (mk_v (v_name v) (v_data v) (v_group v) (v_labels v) (v_filterby v) (v_value v) b (v_shown v))
  end.
(** setup_widgets L469-579 and the first update_plots: the most recent run, by variable, filtered by backend *)
Definition start (runs : list named) (data : list row) : py inspect :=
  let dict := runs_selection runs in
  do name <- from_end (map fst dict) 1;
  do t <- dict_get name dict;
  let rows := of_run data t in
  do f <- nth_py (delete 0 factors) 0;
  let options := match rows with [] => [bytes "None"] | _ => drop_duplicates [] (map (level f) rows) end in
  do x <- nth_py options 0;
  update_plots (mk_v name rows 0 (delete 0 factors) 0 x false []).
Fixpoint play (runs : list named) (data : list row) (v : inspect) (es : list event) : py inspect :=
  match es with [] => Ret v | e :: es' => do v <- step runs data v e; play runs data v es' end.

(** * checks.py *)
(** the selected names, current_run, and the two tables *)
Record checks := mk_k { k_name : text; k_det_name : text; k_current : Z; k_table : list row; k_det_table : list row }.
Definition checked (data : list row) (t : Z) : list row := filter w_checked (of_run data t).
(** setup_widgets, checks.py L106-169 *)
Definition start_checks (runs : list named) (data det : list row) : py checks :=
  let dict := runs_selection runs in
  do name <- from_end (map fst dict) 1;
  do t <- dict_get name dict;
  Ret (mk_k name name t (checked data t) (checked det t)).
Inductive select := SelectChecks (name : text) | SelectDeterministic (name : text).
(** update_non_deterministic_run L38-68, update_deterministic_run L70-102 (which filters with current_run, L76, an attribute that
    only setup_widgets and change_repo set) *)
Definition step_checks (runs : list named) (data det : list row) (k : checks) (e : select) : py checks :=
  match e with
  | SelectChecks name =>
      if text_eqb name (k_name k) then Ret k
      else do t <- dict_get name (runs_selection runs);
           Ret (mk_k name (k_det_name k) (k_current k) (checked data t) (k_det_table k))
  | SelectDeterministic name =>
      if text_eqb name (k_det_name k) then Ret k
      else do t <- dict_get name (runs_selection runs);
           Ret (mk_k (k_name k) name (k_current k) (k_table k) (checked det (k_current k)))
  end.
Fixpoint play_checks (runs : list named) (data det : list row) (k : checks) (es : list select) : py checks :=
  match es with [] => Ret k | e :: es' => do k <- step_checks runs data det k e; play_checks runs data det k es' end.
(** switch_view, checks.py L315-319, called by a click on a point of the deterministic comparison (checks_callback,
    deterministic_compare.py L391-404; go_to_checks, main.py L256-257). The widgets of the view: L176, L205, L244, L266 *)
Definition check_widgets : list text :=
  map bytes ["select_check_run_non_deterministic"; "select_check_run_deterministic"; "non_deterministic_checks_table"; "deterministic_checks_table"]%string.
Definition switch_view (runs : list named) (data det : list row) (k : checks) (run_name : text) : py checks :=
  if existsb (text_eqb (bytes "select_check_run")) check_widgets then step_checks runs data det k (SelectChecks run_name) else Raise.
