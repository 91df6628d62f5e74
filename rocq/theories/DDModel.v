(** Model of the delta-debugging tool: src/tools/ddebug/DD.py and DD_stoch.py.

    A Python computation ends by returning, by an uncaught exception, by sys.exit, or does not end (out of fuel: the while
    loops carry a fuel argument; a theorem about them gives a fuel from which the result no longer changes).
    Not modelled: printing, symbolic links, report_progress, the debug flags, run scripts (their outcome is an oracle). *)
From Coq Require Import List Arith Bool.
Import ListNotations.

Inductive verdict := PASS | FAIL.
Definition is_fail (v : verdict) : bool := match v with FAIL => true | PASS => false end.

Inductive py (A : Type) :=
| Ret : A -> py A
| Raise : py A      (* uncaught exception *)
| Quit : py A       (* sys.exit *)
| NoFuel : py A.
Arguments Ret {A}. Arguments Raise {A}. Arguments Quit {A}. Arguments NoFuel {A}.
Definition pbind {A B} (m : py A) (k : A -> py B) : py B :=
  match m with Ret a => k a | Raise => Raise | Quit => Quit | NoFuel => NoFuel end.
Declare Scope py_scope.
Delimit Scope py_scope with py.
Notation "'do' x <- m ; k" := (pbind m (fun x => k)) (at level 200, x name, m at level 100, k at level 200) : py_scope.
Notation "'do' ' p <- m ; k" := (pbind m (fun p => k)) (at level 200, p strict pattern, m at level 100, k at level 200) : py_scope.
Open Scope py_scope.

Section lists.
  Context {D : Type} (Ddec : forall x y : D, {x = y} + {x <> y}).
  Definition inb (x : D) (l : list D) : bool := if in_dec Ddec x l then true else false.
  (** __listminus (DD.py L225-236), also [delta for delta in deltas if delta not in conf] *)
  Definition listminus (c1 c2 : list D) : list D := filter (fun d => negb (inb d c2)) c1.
  (** __listintersect (DD.py L238-249) *)
  Definition listintersect (c1 c2 : list D) : list D := filter (fun d => inb d c2) c1.
  (** _split (DD.py L341-349): part i takes (len(c) - start) // (n - i) elements *)
  Fixpoint split (c : list D) (n : nat) : list (list D) :=
    match n with
    | O => []
    | S n' => let k := length c / n in firstn k c :: split (skipn k c) n'
    end.
End lists.

(** ** The sample cache: InterflopTask (DD_stoch.py L42-149) and DDStoch._test (L546-559) *)
Section samples.
  Context {D K : Type} (Ddec : forall x y : D, {x = y} + {x <> y}) (Kdec : forall x y : K, {x = y} + {x <> y}).
  Context (name : list D -> K).                 (* md5Name of a configuration, L152-155 *)
  Context (sample : K -> nat -> bool).          (* what running and comparing sample i of a configuration gives; true = success *)
  Context (delta0 : list D).                    (* getDelta0: the lines of the reference list *)

  (** one dd.run<i+1> directory: its number and the content of returnVal (None: no such file yet; Some true: 0) *)
  Definition entry : Type := nat * option bool.
  (** the cache on disk: the sub-directories of each configuration directory, None if the directory does not exist *)
  Definition disk : Type := K -> option (list entry).
  Definition disk0 : disk := fun _ => None.
  Definition upd (d : disk) (k : K) (e : list entry) : disk := fun k' => if Kdec k k' then Some e else d k'.
  (** the order in which os.listdir returns the entries is not specified *)
  Context (listdir : list entry -> list entry).

  (** sampleToComputeToGetFailure L92-109: None means a failure is recorded; reading a missing returnVal raises *)
  Fixpoint scan (l : list entry) (done : list nat) : py (option (list nat)) :=
    match l with
    | [] => Ret (Some done)
    | (_, None) :: _ => Raise
    | (_, Some false) :: _ => Ret None
    | (i, Some true) :: l' => scan l' (i :: done)
    end.
  Definition to_compute (l : list entry) (nbRun : nat) : py (option (list nat)) :=
    do r <- scan (listdir l) [];
    match r with
    | None => Ret None
    | Some done => Ret (Some (filter (fun x => negb (existsb (Nat.eqb x) done)) (seq 0 nbRun)))
    end.

  (** mkdir raises if the directory exists *)
  Definition mkdir (i : nat) (l : list entry) : py (list entry) :=
    if existsb (fun e => Nat.eqb i (fst e)) l then Raise else Ret (l ++ [(i, None)]).
  (** cmpOneSample L72-85: writes returnVal *)
  Definition set_result (i : nat) (b : bool) (l : list entry) : list entry :=
    map (fun e : entry => if Nat.eqb i (fst e) then (i, Some b) else e) l.

  (** runSeq L129-138 *)
  Fixpoint run_seq (k : K) (work : list nat) (l : list entry) : py (verdict * list entry) :=
    match work with
    | [] => Ret (PASS, l)
    | i :: work' =>
        do l <- mkdir i l;
        let l := set_result i (sample k i) l in
        if sample k i then run_seq k work' l else Ret (FAIL, l)
    end.
  (** runPar L140-149 *)
  Fixpoint mkdirs (work : list nat) (l : list entry) : py (list entry) :=
    match work with [] => Ret l | i :: work' => do l <- mkdir i l; mkdirs work' l end.
  Fixpoint compare_all (k : K) (work : list nat) (l : list entry) : verdict * list entry :=
    match work with
    | [] => (PASS, l)
    | i :: work' =>
        let l := set_result i (sample k i) l in
        if sample k i then compare_all k work' l else (FAIL, l)
    end.
  Definition run_par (k : K) (work : list nat) (l : list entry) : py (verdict * list entry) :=
    do l <- mkdirs work l; Ret (compare_all k work l).

  (** what is left on disk when the process is killed during runSeq, right after creating the directory of a sample (before
      its returnVal is written) *)
  Fixpoint killed_seq (k : K) (done : list nat) (i : nat) (l : list entry) : py (list entry) :=
    match done with
    | [] => mkdir i l
    | j :: done' => do l <- mkdir j l; killed_seq k done' i (set_result j (sample k j) l)
    end.

  (** genExcludeIncludeFile L528-544: every delta is removed from the reference list; list.remove raises if it is absent *)
  Fixpoint remove_one (d : D) (l : list D) : option (list D) :=
    match l with [] => None | x :: l' => if Ddec x d then Some l' else match remove_one d l' with Some r => Some (x :: r) | None => None end end.
  Fixpoint excludes (deltas l : list D) : option (list D) :=
    match deltas with [] => Some l | d :: ds => match remove_one d l with Some l' => excludes ds l' | None => None end end.

  (** DDStoch._test L546-559 with InterflopTask.run L111-127; [par] = maxNbPROC given *)
  Definition sample_test (par : bool) (nbRun : nat) (c : list D) (d : disk) : py (verdict * disk) :=
    let k := name c in
    do l <- match d k with
            | Some l => Ret l
            | None => match excludes c delta0 with Some _ => Ret [] | None => Raise end
            end;
    do w <- to_compute l nbRun;
    match w with
    | None => Ret (FAIL, upd d k l)
    | Some work => do '(v, l) <- (if par then run_par k work l else run_seq k work l); Ret (v, upd d k l)
    end.
End samples.

(** ** The algorithms, for an arbitrary stateful test *)
Section algorithms.
  Context {D S : Type} (Ddec : forall x y : D, {x = y} + {x <> y}).
  Context (test : nat -> list D -> S -> py (verdict * S)).   (* self._test(deltas, nbRun) *)
  Context (unsafe : bool).                                     (* INTERFLOP_DD_UNSAFE in the environment *)
  Context (cfg_nb : nat).                                      (* config.get_nbRUN(), the default of _test *)
  Notation listminus := (listminus Ddec).

  (** "Check subsets" L781-805: the first failing part *)
  Fixpoint find_subset (nb : nat) (cs : list (list D)) (s : S) : py (option (list D) * S) :=
    match cs with
    | [] => Ret (None, s)
    | ci :: cs' => do '(v, s) <- test nb ci s; if is_fail v then Ret (Some ci, s) else find_subset nb cs' s
    end.
  (** "Check complements" L807-835: i = (j + cbar_offset) % n *)
  Fixpoint find_complement (nb : nat) (c : list D) (cs : list (list D)) (is : list nat) (s : S) : py (option (nat * list D) * S) :=
    match is with
    | [] => Ret (None, s)
    | i :: is' =>
        let cbar := listminus c (nth i cs []) in
        do '(v, s) <- test nb cbar s; if is_fail v then Ret (Some (i, cbar), s) else find_complement nb c cs is' s
    end.
  Definition rotation (off n : nat) : list nat := map (fun j => (j + off) mod n) (seq 0 n).

  (** the loop of interflop_dd_min L751-849; [first] is run == 1. allDeltaFailedMsg raises NameError (L498-509 of DD_stoch.py
      uses the undefined name delta). *)
  Fixpoint ddmin_loop (fuel : nat) (nb : nat) (first : bool) (n off : nat) (c : list D) (s : S) : py (list D * S) :=
    match fuel with
    | O => NoFuel
    | Datatypes.S fuel =>
        do '(tc, s) <- test nb c s;
        if negb (is_fail tc) && first then Quit
        else if negb (is_fail tc) && negb unsafe then Raise
        else if length c <? n then Ret (c, s)
        else
          let cs := split c n in
          do '(r, s) <- find_subset nb cs s;
          match r with
          | Some ci => ddmin_loop fuel nb false 2 0 ci s
          | None =>
              do '(r, s) <- find_complement nb c cs (rotation off n) s;
              match r with
              | Some (i, cbar) => ddmin_loop fuel nb false (n - 1) i cbar s
              | None =>
                  if length c <=? n then Ret (c, s)
                  else let next_n := Nat.min (length c) (n * 2) in ddmin_loop fuel nb false next_n (off * next_n / n) c s
              end
          end
    end.
  (** interflop_dd_min L737-849 *)
  Definition ddmin (fuel nb : nat) (c : list D) (s : S) : py (list D * S) :=
    do '(t, s) <- test nb [] s;
    if is_fail t then Quit else ddmin_loop fuel nb true 2 0 c s.

  (** test_mix L474-499 with minimize = 0, maximize = 1 and test_and_resolve L391-432 for a test that is never UNRESOLVED: the
      complement of csub in CC is tested and the verdict negated *)
  Definition test_max (CC csub : list D) (s : S) : py (verdict * list D * S) :=
    let csubbar := listminus CC csub in
    do '(v, s) <- test cfg_nb csubbar s;
    Ret (if is_fail v then PASS else FAIL, listminus CC csubbar, s).
  (** complements in interflop_dd_max L684-720; [doubled] removes from cs[i] what cbars[i] still contains *)
  Fixpoint find_complement_max (CC c : list D) (cs : list (list D)) (is : list nat) (s : S) : py (option (nat * list D) * S) :=
    match is with
    | [] => Ret (None, s)
    | i :: is' =>
        let csi := nth i cs [] in
        do '(v, cbar, s) <- test_max CC (listminus c csi) s;
        let doubled := listintersect Ddec cbar csi in
        let cs := firstn i cs ++ listminus csi doubled :: skipn (Datatypes.S i) cs in
        if is_fail v then Ret (Some (i, listintersect Ddec c cbar), s) else find_complement_max CC c cs is' s
    end.
  (** interflop_dd_max L641-735 *)
  Fixpoint ddmax_loop (fuel : nat) (CC : list D) (first : bool) (n off : nat) (c : list D) (s : S) : py (list D * S) :=
    match fuel with
    | O => NoFuel
    | Datatypes.S fuel =>
        do '(tc, s) <- test cfg_nb c s;
        if negb (is_fail tc) && first then Quit
        else if length c <? n then Ret (c, s)
        else
          let cs := split c n in
          do '(r, s) <- find_complement_max CC c cs (rotation off n) s;
          match r with
          | Some (i, cbar) => ddmax_loop fuel CC false (n - 1) i cbar s
          | None =>
              if length c <=? n then Ret (c, s)
              else let next_n := Nat.min (length c) (n * 2) in ddmax_loop fuel CC false next_n (off * next_n / n) c s
          end
    end.
  Definition dd_max (fuel : nat) (c : list D) (s : S) : py (list D * S) :=
    do '(t, s) <- test cfg_nb [] s;
    if is_fail t then Quit else ddmax_loop fuel c true 2 0 c s.
  (** DDMax (DD_stoch.py L269-275); configuration_found tests the configuration once more *)
  Definition DDMax (fuel : nat) (deltas : list D) (s : S) : py (list D * S) :=
    do '(res, s) <- dd_max fuel deltas s;
    let cmp := listminus deltas res in
    do '(_, s) <- test cfg_nb cmp s; do '(_, s) <- test cfg_nb res s; Ret (cmp, s).

  (** RDDMin L277-294 *)
  Fixpoint rddmin_loop (fuel nb : nat) (v : verdict) (deltas : list D) (s : S) : py (list (list D) * S) :=
    match fuel with
    | O => NoFuel
    | Datatypes.S fuel' =>
        match v with
        | PASS => Ret ([], s)
        | FAIL =>
            do '(conf, s) <- ddmin fuel nb deltas s;
            do '(_, s) <- test cfg_nb conf s;
            let deltas := listminus deltas conf in
            do '(v, s) <- test nb deltas s;
            do '(tab, s) <- rddmin_loop fuel' nb v deltas s;
            Ret (conf :: tab, s)
        end
    end.
  Definition RDDMin (fuel : nat) (deltas : list D) (nb : nat) (s : S) : py (list (list D) * S) :=
    do '(v, s) <- test cfg_nb deltas s;
    if is_fail v then rddmin_loop fuel nb v deltas s else Quit.

  (** SRDDMin L449-484 *)
  (** for runIncValue in [x for x in runTab if x > run]: conf = ddmin(conf, runIncValue); break when one delta is left *)
  Fixpoint refine (fuel : nat) (runs : list nat) (conf : list D) (s : S) : py (list D * S) :=
    match runs with
    | [] => Ret (conf, s)
    | r :: runs' => do '(conf, s) <- ddmin fuel r conf s; if length conf =? 1 then Ret (conf, s) else refine fuel runs' conf s
    end.
  (** the while loop for one value of run *)
  Fixpoint srddmin_while (fuel : nat) (nb run : nat) (runTab : list nat) (v : verdict) (deltas : list D) (s : S) : py (list (list D) * list D * S) :=
    match fuel with
    | O => NoFuel
    | Datatypes.S fuel' =>
        match v with
        | PASS => Ret ([], deltas, s)
        | FAIL =>
            do '(conf, s) <- ddmin fuel run deltas s;
            do '(conf, s) <- (if length conf =? 1 then Ret (conf, s) else refine fuel (filter (fun x => run <? x) runTab) conf s);
            do '(_, s) <- test cfg_nb conf s;
            let deltas := listminus deltas conf in
            do '(v, s) <- test nb deltas s;
            do '(tab, deltas, s) <- srddmin_while fuel' nb run runTab v deltas s;
            Ret (conf :: tab, deltas, s)
        end
    end.
  Fixpoint srddmin_for (fuel : nat) (nb : nat) (runTab runs : list nat) (deltas : list D) (s : S) : py (list (list D) * S) :=
    match runs with
    | [] => Ret ([], s)
    | run :: runs' =>
        do '(v, s) <- test run deltas s;
        do '(tab, deltas, s) <- srddmin_while fuel nb run runTab v deltas s;
        do '(tab', s) <- srddmin_for fuel nb runTab runs' deltas s;
        Ret (tab ++ tab', s)
    end.
  Definition SRDDMin (fuel : nat) (deltas : list D) (runTab : list nat) (s : S) : py (list (list D) * S) :=
    match runTab with
    | [] => Raise
    | _ =>
        let nb := last runTab 0 in
        do '(v, s) <- test nb deltas s;
        if is_fail v then srddmin_for fuel nb runTab runTab deltas s else Quit
    end.

  (** splitDeltas L296-376 *)
  (** treatFailedCandidat: the parts are tested in order; failing singletons go to the result; the first failing larger part
      goes to the failed tasks and the parts after it to the unknown tasks *)
  Fixpoint treat_parts (nb : nat) (parts : list (list D)) (s : S) : py (list (list D) * option (list D * list (list D)) * S) :=
    match parts with
    | [] => Ret ([], None, s)
    | ci :: parts' =>
        do '(v, s) <- test nb ci s;
        if is_fail v then
          if length ci =? 1 then
            do '(_, s) <- test cfg_nb ci s;
            do '(res, push, s) <- treat_parts nb parts' s; Ret (ci :: res, push, s)
          else Ret ([], Some (ci, parts'), s)
        else treat_parts nb parts' s
    end.
  (** the task loop; [size] is len(deltas) *)
  Fixpoint split_loop (fuel nb g size : nat) (failed unknown : list (list D)) (res : list (list D)) (s : S) : py (list (list D) * S) :=
    match fuel with
    | O => NoFuel
    | Datatypes.S fuel =>
        let treat_unknown u unknown' := do '(v, s) <- test nb u s; split_loop fuel nb g size (if is_fail v then u :: failed else failed) unknown' res s in
        match failed, unknown with
        | [], [] => Ret (res, s)
        | [], u :: unknown' => treat_unknown u unknown'
        | f :: failed', _ =>
            if length f <=? (match unknown with [] => size | u :: _ => length u end) then
              do '(found, push, s) <- treat_parts nb (split f (Nat.min g (length f))) s;
              match push with
              | Some (ci, tail) => split_loop fuel nb g size (ci :: failed') (tail ++ unknown) (res ++ found) s
              | None => split_loop fuel nb g size failed' unknown (res ++ match found with [] => [f] | _ => found end) s
              end
            else match unknown with
                 | u :: unknown' => treat_unknown u unknown'
                 | [] => Raise (* toTreatUnknown[0] of an empty list *)
                 end
        end
    end.
  Definition splitDeltas (fuel : nat) (deltas : list D) (nb g : nat) (s : S) : py (list (list D) * S) :=
    do '(v, s) <- test cfg_nb deltas s;
    if is_fail v then split_loop fuel nb g (length deltas) [deltas] [] [] s else Ret ([], s).

  (** SsplitDeltas L379-410 *)
  Fixpoint split_each (fuel : nat) (run g : nat) (cands : list (list D)) (s : S) : py (list (list D) * S) :=
    match cands with
    | [] => Ret ([], s)
    | c :: cands' =>
        do '(r, s) <- (if length c =? 1 then Ret ([c], s) else splitDeltas fuel c run g s);
        do '(r', s) <- split_each fuel run g cands' s; Ret (r ++ r', s)
    end.
  Fixpoint ssplit (fuel : nat) (deltas : list D) (runTab : list nat) (g : nat) (current : list (list D)) (s : S) : py (list (list D) * S) :=
    match runTab with
    | [] => Ret (current, s)
    | run :: runTab' =>
        do '(next, s) <- split_each fuel run g current s;
        do '(rest, s) <- splitDeltas fuel (listminus deltas (concat next)) run g s;
        ssplit fuel deltas runTab' g (next ++ rest) s
    end.
  Definition SsplitDeltas (fuel : nat) (deltas : list D) (runTab : list nat) (g : nat) (s : S) := ssplit fuel deltas runTab g [deltas] s.

  (** DRDDMin L413-447 *)
  Fixpoint analyze (fuel : nat) (SrunTab : list nat) (cands : list (list D)) (deltas : list D) (s : S) : py (list (list D) * list D * S) :=
    match cands with
    | [] => Ret ([], deltas, s)
    | c :: cands' =>
        do '(r, s) <- (if length c =? 1 then Ret ([c], s) else SRDDMin fuel c SrunTab s);
        do '(r', deltas, s) <- analyze fuel SrunTab cands' (listminus deltas (concat r)) s;
        Ret (r ++ r', deltas, s)
    end.
  Definition DRDDMin (fuel : nat) (deltas : list D) (SrunTab dicRunTab : list nat) (g : nat) (s : S) : py (list (list D) * S) :=
    match SrunTab with
    | [] => Raise
    | _ =>
        let nb := last SrunTab 0 in
        do '(v, s) <- test nb deltas s;
        if negb (is_fail v) then Quit else
        do '(cands, s) <- SsplitDeltas fuel deltas dicRunTab g s;
        do '(res, deltas, s) <- analyze fuel SrunTab cands deltas s;
        do '(v, s) <- test nb deltas s;
        if negb (is_fail v) then Ret (res, s)
        else do '(res', s) <- SRDDMin fuel deltas SrunTab s; Ret (res ++ res', s)
    end.
End algorithms.
