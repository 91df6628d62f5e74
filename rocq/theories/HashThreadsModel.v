(** Model of src/interflop-stdlib/hashmap/vfc_hashmap.c used by several threads at once, as the tables of functions are
    (vfcwrapper/funcinstr.c L28-48 and L127-136 and the VPREC backend, no lock): each access to a cell and to nitems is a
    step, the threads take steps in any order. Memory is sequentially consistent. The reads of one value in the condition
    and the body of the loop L135-143 are one step. Not modelled: removals; growth of the table while other threads use
    it: an insertion that would rehash the table is [UB] here, and the theorems are about tables with enough room;
    what another thread can see of a table that grows is given apart, at the end. *)
From Coq Require Import ZArith List Bool.
From stdpp Require Import base list.
From Verif Require Import Common HashModel.
Import ListNotations.
Open Scope Z_scope.

(** a call of vfc_hashmap_insert or of vfc_hashmap_get *)
Inductive hop := HInsert (k v : Z) | HGet (k : Z).
(** where a thread is. HProbe: before the reads L135-137; HCount, HCount2: before the read and the write of nitems L144;
    HVal: before L149; HKey: before L150; HFind: before the read L218; HCmp: before L219; HRet: before L220 *)
Inductive hpc :=
  | HIdle | HProbe (k v ii : Z) | HCount (k v ii : Z) | HCount2 (k v ii n : Z) | HVal (k v ii : Z) | HKey (k v ii : Z)
  | HFind (k ii : Z) | HCmp (k ii : Z) | HRet (k ii : Z).
Record hthread := mk_hthread { ht_pc : hpc; ht_todo : list hop }.
(** the cells are (value, key) as in HashModel.v; [ts_log]: the answers of vfc_hashmap_get, 0 is NULL *)
Record tstate := mk_tstate { ts_cells : list (Z * Z); ts_nitems : Z; ts_threads : list hthread; ts_log : list (nat * Z * Z) }.

(** an empty table of 2^nbits cells *)
Definition t_init (nbits : Z) (progs : list (list hop)) : tstate :=
  mk_tstate (replicate (Z.to_nat (2 ^ nbits)) (0, 0)) 0 (map (mk_hthread HIdle) progs) [].

Definition tupd (s : tstate) (t : nat) (pc : hpc) (todo : list hop) : tstate :=
  mk_tstate (ts_cells s) (ts_nitems s) (<[t := mk_hthread pc todo]> (ts_threads s)) (ts_log s).
Definition answer (s : tstate) (t : nat) (k v : Z) : tstate :=
  mk_tstate (ts_cells s) (ts_nitems s) (ts_threads s) (ts_log s ++ [(t, k, v)]).
Definition set_nitems (s : tstate) (n : Z) : tstate := mk_tstate (ts_cells s) n (ts_threads s) (ts_log s).
Definition set_cell (s : tstate) (i : nat) (c : Z * Z) : tstate :=
  mk_tstate (<[i := c]> (ts_cells s)) (ts_nitems s) (ts_threads s) (ts_log s).

(** one step of thread [t]: hashmap_add_member L125-153 with the test of maybe_rehash_map L160, vfc_hashmap_get L215-226 *)
Definition t_step (nbits : Z) (s : tstate) (t : nat) : outcome tstate :=
  let mask := 2 ^ nbits - 1 in
  match ts_threads s !! t with
  | None => Ok s
  | Some (mk_hthread pc todo) =>
      let cell ii (f : Z * Z -> outcome tstate) := match ts_cells s !! Z.to_nat ii with Some c => f c | None => UB end in
      match pc with
      | HIdle => match todo with
                 | [] => Ok s
                 | HInsert k v :: l => if (v =? 0) || (v =? 1) then Ok (tupd s t HIdle l)
                                       else Ok (tupd s t (HProbe k v (probe_start mask k)) l)
                 | HGet k :: l => Ok (tupd s t (HFind k (probe_start mask k)) l)
                 end
      | HProbe k v ii => cell ii (fun c =>
          if (c.1 =? 0) || (c.1 =? 1) then Ok (tupd s t (HCount k v ii) todo)
          else if c.1 =? v then Ok (tupd s t HIdle todo)
          else Ok (tupd s t (HProbe k v (probe_next mask ii)) todo))
      | HCount k v ii => Ok (tupd s t (HCount2 k v ii (ts_nitems s)) todo)
      | HCount2 k v ii n => Ok (tupd (set_nitems s (wrap64 (n + 1))) t (HVal k v ii) todo)
      | HVal k v ii => cell ii (fun c => Ok (tupd (set_cell s (Z.to_nat ii) (v, c.2)) t (HKey k v ii) todo))
      | HKey k v ii => cell ii (fun c =>
          if overloaded (ts_nitems s) (2 ^ nbits) then UB
          else Ok (tupd (set_cell s (Z.to_nat ii) (c.1, k)) t HIdle todo))
      | HFind k ii => cell ii (fun c =>
          if c.1 =? 0 then Ok (tupd (answer s t k 0) t HIdle todo) else Ok (tupd s t (HCmp k ii) todo))
      | HCmp k ii => cell ii (fun c =>
          if c.2 =? k then Ok (tupd s t (HRet k ii) todo) else Ok (tupd s t (HFind k (probe_next mask ii)) todo))
      | HRet k ii => cell ii (fun c => Ok (tupd (answer s t k c.1) t HIdle todo))
      end
  end.
Definition t_run (nbits : Z) (progs : list (list hop)) (sched : list nat) : outcome tstate :=
  ofold (t_step nbits) sched (t_init nbits progs).

(** * Notions used in the statements *)
(** the insertions of a program *)
Fixpoint ins (l : list hop) : list (Z * Z) :=
  match l with [] => [] | HInsert k v :: l => (k, v) :: ins l | HGet _ :: l => ins l end.
Definition all_ins (progs : list (list hop)) : list (Z * Z) := concat (map ins progs).
Definition t_finished (s : tstate) : Prop := Forall (fun th => ht_pc th = HIdle /\ ht_todo th = []) (ts_threads s).
(** the table that is left, as a table of HashModel.v *)
Definition left_table (nbits : Z) (s : tstate) : hmap :=
  mk_hmap nbits (2 ^ nbits - 1) (2 ^ nbits) (ts_cells s) (ts_nitems s) 0.

(** * Growth: the map as another thread finds it during maybe_rehash_map *)
(** after mask is written (L165) and before items is (L166-167) *)
Definition view_mask (m : hmap) : hmap :=
  mk_hmap (hm_nbits m + 1) (2 ^ (hm_nbits m + 1) - 1) (2 ^ (hm_nbits m + 1)) (hm_items m) (hm_nitems m) (hm_ndel m).
(** after items is written, before the first entry is added again (L170) *)
Definition view_new (m : hmap) : hmap :=
  mk_hmap (hm_nbits m + 1) (2 ^ (hm_nbits m + 1) - 1) (2 ^ (hm_nbits m + 1))
    (replicate (Z.to_nat (2 ^ (hm_nbits m + 1))) (0, 0)) 0 0.
