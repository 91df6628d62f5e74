(** C114: the call stack of the wrapper (vfcwrapper/funcinstr.c) in a program with threads. *)
From Coq Require Import ZArith List Bool Lia.
From stdpp Require Import base list.
From Verif Require Import Common FuncModel StackThreadsModel StackThreadsProofs.
Import ListNotations.
Open Scope Z_scope.

(** Any number of threads, any programs that leave what they enter, any schedule in which two changes of the stack never
    overlap: nothing is out of the array, the stack is as deep as the threads are together, its last cell stays NULL, what a
    backend is shown is the structure of a function that some thread entered, and at the end the stack has as many cells as
    there are calls not left. Missing: that the backend is shown the function of its own thread (refuted below), and
    overlapping changes (refuted below). *)
Theorem C114_no_overlap_partial :
  forall once (progs : list (list sevent)) (sched : list nat),
  Forall (fun l => bracketed 0 l = true) progs -> Z.of_nat (sum (map (deepest 0) progs)) <= 4095 ->
  serial once (s_init progs) sched ->
  exists s, s_run once progs sched = Ok s /\
    s_top s + Z.of_nat (sum (map th_depth (s_threads s))) = 4095 /\
    s_arr s !! Z.to_nat 4095 = Some (Some 0) /\
    (forall t x, (t, x) ∈ s_log s -> exists p l b, x = SPtr p /\ l ∈ progs /\ SEnter p b ∈ l) /\
    (finished s -> s_top s = 4095 - Z.of_nat (sum (map (ends 0) progs))).
Proof.
  intros once progs sched HB HD HS.
  destruct (SI_run once _ _ sched _ (SI_init progs HB HD) HS) as (s & E & _ & Hs & Ht & _ & He & _ & _ & Hl).
  exists s. split; [exact E|]. split; [exact Ht|]. split; [exact Hs|]. split.
  - intros t x I. rewrite Forall_forall in Hl. destruct (Hl (t, x) I) as (p & Ex & l & b & I1 & I2). exists p, l, b. auto.
  - intros F. assert (X : map endd (s_threads s) = map th_depth (s_threads s)).
    { apply map_ext_in. intros th I. unfold finished in F. rewrite Forall_forall in F. apply elem_of_list_In in I.
      destruct (F th I) as (F1 & F2). unfold endd, nextd. rewrite F1, F2. reflexivity. }
    rewrite X in He. lia.
Qed.
Print Assumptions C114_no_overlap_partial.

(** Any schedule at all, when the compiler reads top once in each change: no store is out of the array; and the process
    stops only when there are more than 4095 calls. *)
Theorem C114_read_once :
  forall (progs : list (list sevent)) (sched : list nat),
  match s_run true progs sched with Ok s => 0 <= s_top s <= 4096 | Exit => 4095 < Z.of_nat (sum (map enters progs)) | _ => False end.
Proof.
  intros progs sched. pose proof (AI_run sched _ (AI_init progs)) as A. unfold s_run.
  destruct (ofold (s_step true) sched (s_init progs)) as [s| | |] eqn:E; [exact (proj1 (proj2 A))|exact A| |exact A].
  destruct (Z.lt_ge_cases 4095 (Z.of_nat (sum (map enters progs)))) as [H|H]; [exact H|].
  destruct (BI_run sched _ (BI_init progs H)) as (s & E' & _). congruence.
Qed.
Print Assumptions C114_read_once.

(** Any schedule, top read once or twice: the backends are told by each thread exactly as often as its calls ask for. *)
Theorem C114_told :
  forall once (progs : list (list sevent)) (sched : list nat) s, s_run once progs sched = Ok s ->
  forall t l, progs !! t = Some l ->
  (told_by t (s_log s) <= tells l)%nat /\ (finished s -> told_by t (s_log s) = tells l).
Proof.
  intros once progs sched s E t l H. destruct (TI_run once progs sched _ s (TI_init progs) E t l H) as (th & L & X).
  split; [lia|]. intros F. unfold finished in F. rewrite Forall_forall in F.
  apply elem_of_list_lookup_2 in L. destruct (F th L) as (F1 & F2). unfold left_tells in X. rewrite F1, F2 in X. cbn [tells] in X. lia.
Qed.
Print Assumptions C114_told.

(** a thread that is not disturbed does exactly what the model of C39 does *)
Definition as_fstate (s : sstate) : fstate := mk_fstate HashModel.hashmap_create [] 0 (s_arr s) (s_top s).
Theorem C114_undisturbed :
  forall (s : sstate) (t : nat) (k : list sevent) (d : nat) (p : Z),
  0 <= s_top s <= 4096 ->
  (s_threads s !! t = Some (mk_thread Idle (SEnter p false :: k) d) ->
   match stack_push (as_fstate s) p with
   | Ok st => exists s', ofold (s_step false) [t; t; t; t] s = Ok s' /\ s_top s' = fi_top st /\ s_arr s' = fi_arr st /\
                         s_threads s' !! t = Some (mk_thread Idle k (S d))
   | r => r = Exit /\ forall n, ofold (s_step false) (replicate (S n) t) s = Exit
   end) /\
  (s_threads s !! t = Some (mk_thread Idle (SLeave false :: k) d) -> s_top s < 4096 ->
   exists s', ofold (s_step false) [t; t; t; t] s = Ok s' /\ s_top s' = fi_top (stack_pop (as_fstate s)) /\
              s_arr s' = fi_arr (stack_pop (as_fstate s)) /\ s_threads s' !! t = Some (mk_thread Idle k (d - 1))).
Proof.
  intros s t k d p Hr. pose proof SIZE_MOD_val as SM. split.
  - intros L. assert (Lt : (t < length (s_threads s))%nat) by (apply lookup_lt_Some in L; exact L).
    unfold stack_push, as_fstate, STACK_MAX. cbn [fi_top fi_arr fi_map fi_heap fi_next].
    destruct (Z.eqb_spec (s_top s) 0) as [E|N].
    + split; [reflexivity|]. intros n. cbn [replicate ofold]. unfold s_step at 1. rewrite L, E. reflexivity.
    + destruct (Z.leb_spec 1 (s_top s)); [|lia]. destruct (Z.leb_spec (s_top s) 4096); [|lia]. cbn [andb].
      cbn [ofold]. unfold s_step at 1. rewrite L. destruct (Z.eqb_spec (s_top s) 0); [lia|]. cbn [bind].
      unfold s_step at 1. unfold upd at 1. cbn [s_threads]. rewrite list_lookup_insert by exact Lt. cbn [bind].
      unfold s_step at 1. unfold upd at 1. cbn [s_threads]. rewrite list_lookup_insert by (unfold upd; cbn [s_threads]; rewrite insert_length; exact Lt).
      unfold upd, with_top. cbn [s_top s_arr s_threads s_log bind]. rewrite (mod_small (s_top s - 1)) by lia.
      unfold s_step. cbn [s_threads]. rewrite list_lookup_insert by (rewrite !insert_length; exact Lt).
      destruct (Z.ltb_spec (s_top s - 1) STACK_MAX); [|unfold STACK_MAX in *; lia]. cbn [bind].
      eexists. split; [reflexivity|]. unfold upd, with_arr. cbn [s_top s_arr s_threads fi_top fi_arr].
      split; [reflexivity|]. split; [reflexivity|]. apply list_lookup_insert. rewrite !insert_length. exact Lt.
  - intros L Hlt. assert (Lt : (t < length (s_threads s))%nat) by (apply lookup_lt_Some in L; exact L).
    unfold stack_pop, as_fstate, STACK_MAX. cbn [fi_top fi_arr fi_map fi_heap fi_next].
    destruct (Z.ltb_spec (s_top s) 4096); [|lia]. cbn [fi_top fi_arr].
    cbn [ofold]. unfold s_step at 1. rewrite L. cbn [bind].
    unfold s_step at 1. unfold upd at 1. cbn [s_threads]. rewrite list_lookup_insert by exact Lt.
    unfold upd at 1. cbn [s_top]. destruct (Z.ltb_spec (s_top s) STACK_MAX); [|unfold STACK_MAX in *; lia]. cbn [bind].
    unfold s_step at 1. unfold upd at 1. cbn [s_threads]. rewrite list_lookup_insert by (unfold upd; cbn [s_threads]; rewrite insert_length; exact Lt). cbn [bind].
    unfold s_step. unfold upd at 1. cbn [s_threads].
    rewrite list_lookup_insert by (unfold upd; cbn [s_threads]; rewrite !insert_length; exact Lt). cbn [bind].
    eexists. split; [reflexivity|]. unfold upd, with_top. cbn [s_top s_arr s_threads]. rewrite (mod_small (s_top s + 1)) by lia.
    split; [reflexivity|]. split; [reflexivity|]. apply list_lookup_insert. rewrite !insert_length. exact Lt.
Qed.
Print Assumptions C114_undisturbed.

Definition ex_enter_leave (p : Z) : list sevent := [SEnter p true; SLeave true].
Definition steps (once : bool) (t : nat) (ops : nat) : list nat := replicate ((if once then 4 else 5) * ops) t.
(** even when changes never overlap: two threads, each in its function; the backend is told of the end of the first with the
    function of the second, and of the end of the second with the function of the first *)
Theorem C114_own_function_refuted :
  forall once (p q : Z), exists sched, serial once (s_init [ex_enter_leave p; ex_enter_leave q]) sched /\
  match s_run once [ex_enter_leave p; ex_enter_leave q] sched with
  | Ok s => finished s /\ s_log s = [(0%nat, SPtr p); (1%nat, SPtr q); (0%nat, SPtr q); (1%nat, SPtr p)]
  | _ => False
  end.
Proof.
  intros once p q. exists (steps once 0 1 ++ steps once 1 1 ++ steps once 0 1 ++ steps once 1 1). split.
  - apply serialb_sound. destruct once; vm_compute; reflexivity.
  - destruct once; vm_compute; (split; [|reflexivity]); repeat constructor.
Qed.
Print Assumptions C114_own_function_refuted.

(** a backend can be shown a cell that nobody has written: the other thread has moved top and not stored yet *)
Theorem C114_unwritten_refuted :
  forall once (p q : Z), exists sched,
  match s_run once [ex_enter_leave p; ex_enter_leave q] sched with Ok s => s_log s = [(0%nat, SUninit)] | _ => False end.
Proof.
  intros once p q. exists (if once then [0; 0; 0; 1; 1; 0]%nat else [0; 0; 0; 0; 1; 1; 1; 0]%nat).
  destruct once; vm_compute; reflexivity.
Qed.
Print Assumptions C114_unwritten_refuted.

(** a push lost during a pop: a backend is shown NULL at the end of q (VPREC then stops the program), and after all calls
    have ended the stack has lost the cell of its NULL *)
Theorem C114_lost_push_refuted :
  forall once (p q : Z), exists sched,
  match s_run once [ex_enter_leave p; ex_enter_leave q] sched with
  | Ok s => finished s /\ s_log s = [(0%nat, SPtr p); (0%nat, SPtr p); (1%nat, SPtr 0); (1%nat, SPtr 0)] /\ s_top s = 4096
  | _ => False
  end.
Proof.
  intros once p q.
  exists (if once then [0; 0; 0; 0; 0; 0; 1; 1; 1; 0; 1; 1; 1; 1]%nat else [0; 0; 0; 0; 0; 0; 0; 0; 1; 1; 1; 1; 0; 1; 1; 1; 1; 1]%nat).
  destruct once; vm_compute; (split; [repeat constructor|]); split; reflexivity.
Qed.
Print Assumptions C114_lost_push_refuted.

(** with top read twice, as written, six calls made by three threads are enough for a store out of the array *)
Definition ex_three : list (list sevent) :=
  [[SEnter 1000 false; SLeave false; SEnter 1000 false; SLeave false];
   [SEnter 2000 false; SEnter 2000 false; SLeave false; SLeave false];
   [SEnter 3000 false; SEnter 3000 false; SLeave false; SLeave false]].
Theorem C114_read_twice_refuted :
  exists (progs : list (list sevent)) sched, Forall (fun l => bracketed 0 l = true /\ ends 0 l = O) progs /\
  (sum (map enters progs) = 6)%nat /\ s_run false progs sched = UB.
Proof.
  exists ex_three. eexists (replicate 4 0 ++ replicate 4 1 ++ replicate 4 2 ++ (* depth 3, top 4092 *)
    [0; 0; 0] ++ replicate 4 1 ++ replicate 4 2 ++ [0] ++                      (* the pop of 0 reads 4092, two pushes, it writes 4093 *)
    replicate 4 1 ++ replicate 4 2 ++                                          (* top 4095, two calls remain *)
    [1; 1; 2; 2; 1; 1; 2; 2] ++                                                (* both pops pass the test: top 4097 *)
    replicate 4 0)%nat.
  split; [repeat constructor|]. split; [reflexivity|]. vm_compute. reflexivity.
Qed.
Print Assumptions C114_read_twice_refuted.

Example C114_nonvacuous :
  let progs := [[SEnter 10 true; SEnter 11 true; SLeave true; SLeave true]; [SEnter 20 true; SLeave true]; [SEnter 30 false]] in
  let sched := steps true 0 2 ++ steps true 1 1 ++ steps true 2 1 ++ steps true 0 2 ++ steps true 1 1 in
  Forall (fun l => bracketed 0 l = true) progs /\ (sum (map (deepest 0) progs) = 4)%nat /\ serial true (s_init progs) sched /\
  (sum (map (ends 0) progs) = 1)%nat /\
  match s_run true progs sched with
  | Ok s => finished s /\ s_top s = 4094 /\
            s_log s = [(0%nat, SPtr 10); (0%nat, SPtr 11); (1%nat, SPtr 20); (0%nat, SPtr 30); (0%nat, SPtr 20); (1%nat, SPtr 11)]
  | _ => False
  end.
Proof.
  split; [repeat constructor|]. split; [reflexivity|]. split; [apply serialb_sound; vm_compute; reflexivity|]. split; [reflexivity|].
  vm_compute. split; [repeat constructor|]. split; reflexivity.
Qed.
