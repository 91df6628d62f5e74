(** C46, C47, C64, C65: the precision exploration (precexp.py). *)
From Coq Require Import String ZArith List Bool Lia Sorting Permutation.
From Verif Require Import Common Text HashModel DdebugModel WrapParseProofs DDModel VfiModel VfiFile PrecexpModel PrecexpProofs PrecexpFile.
Import ListNotations.
Open Scope Z_scope.

(** C46. The dichotomic search of a field of a function. [v p] is the outcome of running the program with the field set to p. When
    validity is monotone and the highest value is valid, the search ends, after at most log2(r - l) + 2 turns of its loop, with the
    smallest valid value. *)
Theorem C46_search_operations :
  forall valid i f l r x v fuel, (forall p, check valid (set_op i f p x) = Ret (v p)) -> l <= r -> v r = true ->
  (forall p q, l <= p <= q -> q <= r -> v p = true -> v q = true) -> (Z.to_nat (Z.log2 (r - l)) + 2 <= fuel)%nat ->
  exists p, search_op valid fuel i f l r x = Ret (set_op i f p x) /\ l <= p <= r /\ v p = true /\ forall q, l <= q < p -> v q = false.
Proof. intros valid i f l r x v fuel Hv. exact (dich_least valid (fun p => set_op i f p x) v Hv fuel l r). Qed.
Print Assumptions C46_search_operations.

(** ... and of a field of an argument *)
Theorem C46_search_arguments :
  forall valid j f l r x v fuel, (forall p, check valid (set_arg j f p x) = Ret (v p)) -> l <= r -> v r = true ->
  (forall p q, l <= p <= q -> q <= r -> v p = true -> v q = true) -> (Z.to_nat (Z.log2 (r - l)) + 2 <= fuel)%nat ->
  exists p, search_arg valid fuel j f l r x = Ret (set_arg j f p x) /\ l <= p <= r /\ v p = true /\ forall q, l <= q < p -> v q = false.
Proof. intros valid j f l r x v fuel Hv. exact (dich_least valid (fun p => set_arg j f p x) v Hv fuel l r). Qed.
Print Assumptions C46_search_arguments.

(** without monotony: a valid value whose predecessor, if any, is not *)
Theorem C46_search_any_oracle :
  forall valid i f l r x v fuel, (forall p, check valid (set_op i f p x) = Ret (v p)) -> l <= r -> v r = true -> (Z.to_nat (Z.log2 (r - l)) + 2 <= fuel)%nat ->
  exists p, search_op valid fuel i f l r x = Ret (set_op i f p x) /\ l <= p <= r /\ v p = true /\ (p = l \/ v (p - 1) = false).
Proof. intros valid i f l r x v fuel Hv. exact (dich_ok valid (fun p => set_op i f p x) v Hv fuel l r). Qed.
Print Assumptions C46_search_any_oracle.

(** "if the maximal precision is not valid it terminates with an error": when no value is valid the search never ends *)
Theorem C46_no_valid_value_refuted :
  forall valid i f l r x v, (forall p, check valid (set_op i f p x) = Ret (v p)) -> l <= r -> (forall p, l <= p <= r -> v p = false) ->
  forall fuel, search_op valid fuel i f l r x = NoFuel.
Proof. intros valid i f l r x v Hv Hlr Ha fuel. exact (dich_diverges valid (fun p => set_op i f p x) v Hv fuel l r Hlr Ha). Qed.
Print Assumptions C46_no_valid_value_refuted.

(** The whole exploration. [candidate]: the frames of the profile with other precisions, within the bounds of the search. If the
    starting precisions are valid and within the bounds, if more precision never harms and if the precisions of a type that a function
    does not use are irrelevant, it ends (each search within seven turns) in a configuration that is valid, nowhere above the start,
    and where no explored field can be lowered alone. *)
Theorem C46_exploration :
  forall valid x0 m fuel, monotone valid x0 -> unused_irrelevant valid x0 -> passes valid x0 = true -> in_range x0 -> (7 <= fuel)%nat ->
  exists x, explore valid m fuel x0 = Ret x /\ passes valid x = true /\ fle x x0 /\ in_range x /\
    forall c, explored x0 m c -> forall lo hi v w, bounds c x = Some (lo, hi) -> cget c x = Some w -> lo <= v < w -> passes valid (cset c v x) = false.
Proof.
  intros valid x0 m fuel Hm Hu P R Hf. destruct (explore_ok valid x0 Hm Hu m fuel P R Hf) as (x & E & I1 & I2 & I3 & I4). exists x. auto 10.
Qed.
Print Assumptions C46_exploration.

Definition id_f : list Z := bytes "main.c/main/f/12/3".
Definition row_f (p64 r64 p32 r32 : Z) : prow := mk_prow id_f 0 0 0 1 p64 r64 p32 r32 0 0 7.
(** a program that needs 10 bits of precision and 5 of range from f, in double *)
Definition needs (text : list Z) : bool :=
  match split_on tab text with
  | [_; _; _; _; _; p; r; _; _; _; _; _] => match py_int p, py_int r with Ret p, Ret r => (10 <=? p) && (5 <=? r) | _, _ => false end
  | _ => false
  end.
Lemma needs_row p64 r64 p32 r32 : int32 p64 -> int32 r64 -> int32 p32 -> int32 r32 -> passes needs ([row_f p64 r64 p32 r32], []) = (10 <=? p64) && (5 <=? r64).
Proof.
  intros H1 H2 H3 H4. assert (S : save ([row_f p64 r64 p32 r32], []) = Ret (save_row (row_f p64 r64 p32 r32) ++ [] ++ [])) by reflexivity.
  unfold passes. rewrite S. cbn [app]. rewrite app_nil_r. unfold needs. clear S.
  assert (E : save_row (row_f p64 r64 p32 r32) = body [id_f; zdec 0; zdec 0; zdec 0; zdec 1; zdec p64; zdec r64; zdec p32; zdec r32; zdec 0; zdec 0; zdec 7 ++ [newline]]).
  { unfold save_row, row_f. rewrite columns_body. cbn [body map concat app o_id o_lib o_int o_float o_double o_prec64 o_range64 o_prec32 o_range32 o_nin o_nout o_calls].
    repeat first [rewrite <- app_assoc | rewrite app_nil_r | progress (cbn [app])]. reflexivity. }
  rewrite E. rewrite split_body; [rewrite (py_int_zdec p64 H1), (py_int_zdec r64 H2); reflexivity|discriminate|].
  repeat constructor; try (apply no_zdec; [assumption|unfold tab; lia]); unfold no; vm_compute; intuition discriminate.
Qed.
Example C46_nonvacuous :
  let x0 := ([row_f 52 11 23 8], []) in
  monotone needs x0 /\ unused_irrelevant needs x0 /\ passes needs x0 = true /\ in_range x0 /\
  explore needs EAll 7 x0 = Ret ([row_f 10 5 1 2], []).
Proof.
  assert (C : forall x, candidate ([row_f 52 11 23 8], []) x -> exists a b c d, x = ([row_f a b c d], []) /\ 1 <= a <= 52 /\ 2 <= b <= 11 /\ 1 <= c <= 23 /\ 2 <= d <= 8).
  { intros [os rs] [[S1 S2] R]. cbn [fst snd] in *. inversion S1 as [|o ? os' ? H S1']; subst. inversion S1'; subst. inversion S2; subst. destruct o as [i1 i2 i3 i4 i5 a b c d i6 i7 i8].
    destruct H as (A1 & A2 & A3 & A4 & A5 & A6 & A7 & A8). cbn in A1, A2, A3, A4, A5, A6, A7, A8. subst. exists a, b, c, d. split; [reflexivity|].
    split; [exact (R (CO 0 FPrec64) 1 52 a eq_refl eq_refl)|]. split; [exact (R (CO 0 FRange64) 2 11 b eq_refl eq_refl)|]. split; [exact (R (CO 0 FPrec32) 1 23 c eq_refl eq_refl)|exact (R (CO 0 FRange32) 2 8 d eq_refl eq_refl)]. }
  assert (V : forall a b c d, 1 <= a <= 52 -> 2 <= b <= 11 -> 1 <= c <= 23 -> 2 <= d <= 8 -> passes needs ([row_f a b c d], []) = (10 <=? a) && (5 <=? b)) by (intros; apply needs_row; unfold int32; lia).
  split; [|split; [|split; [|split]]].
  - intros x y Cx Cy [L _]. destruct (C x Cx) as (a & b & c & d & -> & Ha & Hb & Hc & Hd), (C y Cy) as (a' & b' & c' & d' & -> & Ha' & Hb' & Hc' & Hd'). rewrite !V by assumption.
    cbn [fst] in L. inversion L as [|? ? ? ? [_ G] _]; subst. pose proof (G FPrec64) as G1. pose proof (G FRange64) as G2. cbn in G1, G2. rewrite !andb_true_iff, !Z.leb_le. lia.
  - intros x c v Cx Cc U. destruct (C _ Cc) as (a' & b' & c' & d' & E & Ha' & Hb' & Hc' & Hd'). destruct (C x Cx) as (a & b & c0 & d & -> & Ha & Hb & Hc & Hd). rewrite E, !V by assumption.
    destruct c as [i f|j f]; [|destruct U]. destruct i as [|i]; [|destruct f, U as (o & Ho & _); destruct i; discriminate Ho].
    destruct f; cbn in U; destruct U as (o & Ho & Hd0); injection Ho as <-; cbn in Hd0; try discriminate Hd0; cbn in E; injection E as <- <- <- <-; reflexivity.
  - vm_compute. reflexivity.
  - intros c lo hi v B G. destruct c as [i f|j f]; destruct i as [|i] || destruct j as [|j]; try (cbn in B; destruct i; discriminate B); try (cbn in B; destruct j; discriminate B); try discriminate B.
    destruct f; cbn in B, G; injection B as <- <-; injection G as <-; lia.
  - vm_compute. reflexivity.
Qed.
Example C46_never_nonvacuous : forall fuel, search_op (fun _ => false) fuel 0 FPrec64 1 52 ([row_f 52 11 23 8], []) = NoFuel.
Proof. apply (C46_no_valid_value_refuted _ _ _ _ _ _ (fun _ => false)); [intros p; reflexivity|lia|auto]. Qed.

(** C47. Whatever the outcomes, the search of a float (double) argument answers within 1..23 and 2..8 (1..52 and 2..11). *)
Definition type_bounds (t : Z) : Z * Z := if is_float t then (23, 8) else (52, 11).
Theorem C47_scalar_bounds_partial :
  forall valid fuel j x r x', nth_error (snd x) j = Some r -> is_scalar (r_type r) = true -> search_arguments valid fuel j x = Ret x' ->
  exists p e, x' = set_arg j FRange e (set_arg j FPrec p x) /\ 1 <= p <= fst (type_bounds (r_type r)) /\ 2 <= e <= snd (type_bounds (r_type r)).
Proof.
  intros valid fuel j x r x' Hr Hs H. unfold search_arguments in H. rewrite Hr in H. unfold is_scalar, FFLOAT, FDOUBLE in Hs. apply orb_prop in Hs. unfold type_bounds, is_float, arg_bounds in *.
  destruct Hs as [Hs|Hs]; apply Z.eqb_eq in Hs; rewrite Hs in *; cbn in H |- *.
  - unfold search_arg in H. destruct (dich valid fuel (fun p => set_arg j FPrec p x) 1 23) as [x1| | |] eqn:E; try discriminate. cbn [pbind] in H.
    apply dich_bounds in E; [|lia]. destruct E as (p & -> & Bp). apply dich_bounds in H; [|lia]. destruct H as (e & -> & Be). exists p, e. auto.
  - unfold search_arg in H. destruct (dich valid fuel (fun p => set_arg j FPrec p x) 1 52) as [x1| | |] eqn:E; try discriminate. cbn [pbind] in H.
    apply dich_bounds in E; [|lia]. destruct E as (p & -> & Bp). apply dich_bounds in H; [|lia]. destruct H as (e & -> & Be). exists p, e. auto.
Qed.
Print Assumptions C47_scalar_bounds_partial.
(** and it finds the least values of the type's own range *)
Theorem C47_scalar_minimum_partial :
  forall valid fuel j x r v, nth_error (snd x) j = Some r -> is_scalar (r_type r) = true ->
  (forall p e, check valid (set_arg j FRange e (set_arg j FPrec p x)) = Ret (v p e)) -> (forall p q e f, p <= q -> e <= f -> v p e = true -> v q f = true) ->
  v (fst (type_bounds (r_type r))) (r_range r) = true -> 2 <= r_range r <= snd (type_bounds (r_type r)) -> (7 <= fuel)%nat ->
  exists p e, search_arguments valid fuel j x = Ret (set_arg j FRange e (set_arg j FPrec p x)) /\ v p e = true /\
    (forall q, 1 <= q < p -> v q e = false) /\ (forall f, 2 <= f < e -> v p f = false).
Proof.
  intros valid fuel j x r v Hr Hs Hv Hm Hmax Hrg Hf.
  assert (Bt : arg_bounds (r_type r) = Some (type_bounds (r_type r)) /\ 1 <= fst (type_bounds (r_type r)) <= 52 /\ 2 <= snd (type_bounds (r_type r)) <= 11).
  { unfold is_scalar, FFLOAT, FDOUBLE in Hs. apply orb_prop in Hs. destruct Hs as [Hs|Hs]; apply Z.eqb_eq in Hs; rewrite Hs; cbn; repeat split; lia. }
  destruct Bt as (Bt & B1 & B2). set (mp := fst (type_bounds (r_type r))) in *. set (me := snd (type_bounds (r_type r))) in *.
  assert (Sz : forall d, d < 64 -> (Z.to_nat (Z.log2 d) + 2 <= 7)%nat).
  { intros d Hd. assert (Z.log2 d <= 5); [|lia]. destruct (Z.le_gt_cases d 0) as [H|H]; [rewrite Z.log2_nonpos by lia; lia|]. apply Z.lt_succ_r, Z.log2_lt_pow2; [lia|]. cbn. lia. }
  assert (S0 : forall p, set_arg j FRange (r_range r) (set_arg j FPrec p x) = set_arg j FPrec p x).
  { intros p. apply (cset_same (CA j FRange)). cbn. rewrite nth_update, Nat.eqb_refl, Hr. reflexivity. }
  unfold search_arguments. rewrite Hr, Bt. rewrite (surjective_pairing (type_bounds (r_type r))). fold mp me.
  destruct (dich_least valid (fun p => set_arg j FPrec p x) (fun p => v p (r_range r))) with (fuel := fuel) (l := 1) (r := mp) as (p & E & P1 & P2 & P3); [|lia|exact Hmax| |pose proof (Sz (mp - 1)); lia|].
  { intros p. rewrite <- (Hv p (r_range r)), S0. reflexivity. }
  { intros p q H1 H2. apply Hm; lia. }
  unfold search_arg. rewrite E. cbn [pbind].
  destruct (dich_least valid (fun e => set_arg j FRange e (set_arg j FPrec p x)) (v p)) with (fuel := fuel) (l := 2) (r := me) as (e & E' & Q1 & Q2 & Q3); [intros e; apply Hv|lia| | |pose proof (Sz (me - 2)); lia|].
  { apply (Hm p p (r_range r) me); [lia|lia|exact P2]. }
  { intros a b H1 H2. apply Hm; lia. }
  exists p, e. split; [exact E'|]. split; [exact Q2|]. split; [|exact Q3].
  intros q Hq. destruct (v q e) eqn:Eq; [|reflexivity]. destruct (Z.le_gt_cases e (r_range r)) as [Le|Gt].
  - pose proof (P3 q Hq) as N. rewrite (Hm q q e (r_range r)) in N; [discriminate|lia|exact Le|exact Eq].
  - pose proof (Q3 (r_range r) ltac:(lia)) as N. rewrite N in P2. discriminate.
Qed.
Print Assumptions C47_scalar_minimum_partial.

Definition float_arg (t p e : Z) : arow := mk_arow id_f (bytes "x") 0 0 label_in t p e (-3) 7 7.
Definition row_g (n : Z) : prow := mk_prow id_f 0 0 1 0 52 11 23 8 n 0 7.
(** the precision of the argument of the first argument line of a configuration *)
Definition first_argument (text : list Z) : Z * Z :=
  match split_on newline text with
  | _ :: l :: _ => match split_on tab l with [_; _; _; p; e] => match py_int p, py_int e with Ret p, Ret e => (p, e) | _, _ => (0, 0) end | _ => (0, 0) end
  | _ => (0, 0)
  end.
Definition needs_argument (p e : Z) (text : list Z) : bool := (p <=? fst (first_argument text)) && (e <=? snd (first_argument text)).
Example C47_nonvacuous :
  search_arguments (needs_argument 9 4) 7 0 ([row_g 1], [float_arg FFLOAT 23 8]) = Ret ([row_g 1], [float_arg FFLOAT 9 4]) /\
  search_arguments (needs_argument 30 9) 7 0 ([row_g 1], [float_arg FDOUBLE 52 11]) = Ret ([row_g 1], [float_arg FDOUBLE 30 9]).
Proof. split; vm_compute; reflexivity. Qed.

(** C47 for arrays is false: the codes the script compares with (2 and 3) are not those VPREC writes (FFLOAT_PTR = 3,
    FDOUBLE_PTR = 4). A float array is searched with the bounds of a double ... *)
Theorem C47_float_array_refuted :
  exists valid x x' r, nth_error (snd x) 0 = Some r /\ r_type r = FFLOAT_PTR /\ search_arguments valid 7 0 x = Ret x' /\
  exists r', nth_error (snd x') 0 = Some r' /\ 23 < r_prec r'.
Proof.
  exists (needs_argument 30 6), ([row_g 1], [float_arg FFLOAT_PTR 23 8]), ([row_g 1], [float_arg FFLOAT_PTR 30 6]), (float_arg FFLOAT_PTR 23 8).
  split; [reflexivity|]. split; [reflexivity|]. split; [vm_compute; reflexivity|]. exists (float_arg FFLOAT_PTR 30 6). split; [reflexivity|]. cbn. lia.
Qed.
Print Assumptions C47_float_array_refuted.
(** ... and a double array is never searched *)
Theorem C47_double_array_refuted :
  forall valid fuel j x r, nth_error (snd x) j = Some r -> r_type r = FDOUBLE_PTR -> search_arguments valid fuel j x = Ret x.
Proof. intros valid fuel j x r Hr Ht. unfold search_arguments. rewrite Hr, Ht. reflexivity. Qed.
Print Assumptions C47_double_array_refuted.

(** C64. VPREC can read the configuration files precexp writes. True when no function has arguments: every function gets the
    precisions of the search. [eof_ok]: as in C15. *)
Theorem C64_operations_readable_partial :
  forall stale os, Forall row_ok os -> Forall (fun o => o_nin o = 0 /\ o_nout o = 0) os -> NoDup (map (fun o => hashmap_str_function (o_id o)) os) -> eof_ok stale ->
  exists text t, save (os, []) = Ret text /\ read_profile stale text = Ok t /\
    forall o, In o os -> exists v, In (hashmap_str_function (o_id o), v) t /\ v_id v = o_id o /\
      (v_prec64 v, v_range64 v, v_prec32 v, v_range32 v) = (o_prec64 o, o_range64 o, o_prec32 o, o_range32 o).
Proof.
  intros stale os H Hz N He. destruct (read_config_operations stale os H Hz N He) as (text & S & R). exists text, (map (fun o => (hashmap_str_function (o_id o), read_row o)) os). split; [exact S|]. split; [exact R|].
  intros o Io. exists (read_row o). split; [apply in_map_iff; exists o; auto|]. split; reflexivity.
Qed.
Print Assumptions C64_operations_readable_partial.

(** as soon as one function has an argument the file cannot be read, whatever the frames: argument lines have five words, VPREC
    reads seven *)
Theorem C64_arguments_refuted :
  forall stale os rs text, Forall row_ok os -> Forall arow_ok rs -> (exists o, In o os /\ 0 < o_nin o + o_nout o) -> save (os, rs) = Ret text ->
  forall t, read_profile stale text <> Ok t.
Proof.
  intros stale os rs text R A O S t E. unfold read_profile in E. destruct (read_config stale os R rs text S A O (Datatypes.S (Datatypes.S (Datatypes.length text))) []) as [U|U]; rewrite U in E; discriminate.
Qed.
Print Assumptions C64_arguments_refuted.

(** so that if a configuration VPREC cannot read is not valid, the exploration of a program with arguments never ends *)
Theorem C64_exploration_never_ends_refuted :
  forall valid stale m x, (forall text, valid text = true -> exists t, read_profile stale text = Ok t) ->
  Forall row_ok (fst x) -> Forall arow_ok (snd x) -> (exists o, In o (fst x) /\ 0 < o_nin o + o_nout o) -> (exists text, save x = Ret text) -> searched m x ->
  forall fuel, explore valid m fuel x = NoFuel.
Proof. intros valid stale m x V R A O S Hs fuel. apply (never_ends valid stale V); [|exact Hs]. split; [exact R|]. split; [exact A|]. split; assumption. Qed.
Print Assumptions C64_exploration_never_ends_refuted.

Definition is_ok {A} (o : outcome A) : bool := match o with Ok _ => true | _ => false end.
Example C64_nonvacuous :
  let x := ([row_g 1], [float_arg FFLOAT 23 8]) in
  let valid text := is_ok (read_profile [] text) in
  (forall m fuel, explore valid m fuel x = NoFuel) /\
  explore valid EAll 7 ([row_f 52 11 23 8], []) = Ret ([row_f 1 2 1 2], []).
Proof.
  cbv zeta. assert (R : row_ok (row_g 1)) by (unfold row_ok, int32, plain, no; cbn; repeat split; try lia; try discriminate; repeat constructor; try lia; intuition discriminate).
  assert (A : arow_ok (float_arg FFLOAT 23 8)) by (unfold arow_ok, int32, plain, short, no, FFLOAT; cbn; repeat split; try lia; try discriminate; unfold STRING_BUFF; try lia; intuition discriminate).
  split; [|vm_compute; reflexivity]. intros m. apply (C64_exploration_never_ends_refuted _ [] m).
  - intros text H. unfold is_ok in H. destruct (read_profile [] text) as [t| | |]; try discriminate. eauto.
  - constructor; [exact R|constructor].
  - constructor; [exact A|constructor].
  - exists (row_g 1). split; [left; reflexivity|]. cbn. lia.
  - eexists. vm_compute. reflexivity.
  - destruct m; cbn [searched].
    + exists 0%nat, (row_g 1). repeat split. right. discriminate.
    + exists 0%nat, (row_g 1), 0%nat, (float_arg FFLOAT 23 8). repeat split. discriminate.
    + exists 0%nat, (row_g 1), 0%nat, (float_arg FFLOAT 23 8). repeat split. discriminate.
Qed.

(** C65. The profile VPREC wrote is read as it is: one row per function named (or whose parent is named) in the list, with its own
    argument rows, by decreasing number of calls, then by decreasing identifier; the arguments in the order of their functions. *)
Theorem C65_profile_read :
  forall wanted t text, Forall (fun kv => profile_ok (snd kv)) t -> write_profile t = Ok text ->
  exists vs, get_profile wanted text = Ret (map row_of vs, concat (map arg_rows vs)) /\
    (exists kept, Permutation vs kept /\ kept = filter (selected wanted) (map snd t)) /\
    (forall v file parent name line number, named v file parent name line number -> (In v vs <-> In v (map snd t) /\ (wanted = [] \/ In name wanted \/ In parent wanted))) /\
    StronglySorted (fun v w => v_calls w < v_calls v \/ (v_calls w = v_calls v /\ lex_lt (v_id v) (v_id w) = false)) vs.
Proof.
  intros wanted t text H W. exists (sort_rows vkey (filter (selected wanted) (map snd t))). split; [apply get_profile_written; assumption|].
  split; [exists (filter (selected wanted) (map snd t)); split; [apply sort_perm|reflexivity]|]. split.
  - intros v file parent name line number Nm.
    assert (E : In v (sort_rows vkey (filter (selected wanted) (map snd t))) <-> In v (filter (selected wanted) (map snd t))).
    { split; intros I; (eapply Permutation_in; [|exact I]); [|apply Permutation_sym]; apply sort_perm. }
    rewrite E, filter_In. assert (F : name_of v = (name, parent)). { unfold name_of. rewrite (n_id _ _ _ _ _ _ Nm), function_info_id by apply Nm. reflexivity. }
    unfold selected. rewrite F. cbn [fst snd]. assert (L : forall n, listed n wanted = true <-> In n wanted).
    { intros n. unfold listed. rewrite existsb_exists. unfold bytes_eqb. split.
      - intros (y & Iy & Ey). destruct (list_eq_dec Z.eq_dec n y) as [->|]; [exact Iy|discriminate].
      - intros I. exists n. split; [exact I|]. destruct (list_eq_dec Z.eq_dec n n); [reflexivity|congruence]. }
    rewrite !orb_true_iff, !L. destruct wanted; [tauto|]. split; [intros [I [[D|D]|D]]; [discriminate|auto|auto]|]. intros [I [D|[D|D]]]; [discriminate|auto|auto].
  - assert (S : forall l, StronglySorted (fun x y => ordered (vkey x) (vkey y)) l -> StronglySorted (fun v w => v_calls w < v_calls v \/ (v_calls w = v_calls v /\ lex_lt (v_id v) (v_id w) = false)) l).
    { induction 1 as [|a l S IH F]; constructor; [exact IH|]. eapply List.Forall_impl; [|exact F]. intros b O. unfold ordered, before, vkey in O. cbn [fst snd] in O. apply orb_false_elim in O. destruct O as [O1 O2].
      apply Z.ltb_ge in O1. destruct (Z.eqb_spec (v_calls b) (v_calls a)) as [E|E]; [right; split; [exact E|exact O2]|left; lia]. }
    apply S, sort_sorted.
Qed.
Print Assumptions C65_profile_read.

(** The configuration precexp writes from it: each function followed by its own arguments. *)
Theorem C65_configuration_written :
  forall wanted t text, Forall (fun kv => profile_ok (snd kv)) t -> write_profile t = Ok text ->
  exists vs x, Permutation vs (filter (selected wanted) (map snd t)) /\ get_profile wanted text = Ret x /\
    save x = Ret (concat (map (fun v => write_header v ++
       concat (map (fun d => columns [label_in; a_id d; zdec (a_type d); zdec (a_mant d); zdec (a_exp d)]) (vargs (v_in v))) ++
       concat (map (fun d => columns [label_out; a_id d; zdec (a_type d); zdec (a_mant d); zdec (a_exp d)]) (vargs (v_out v)))) vs)).
Proof.
  intros wanted t text H W. set (vs := sort_rows vkey (filter (selected wanted) (map snd t))). exists vs, (map row_of vs, concat (map arg_rows vs)).
  split; [apply sort_perm|]. split; [apply get_profile_written; assumption|]. rewrite save_blocks.
  - f_equal. f_equal. apply map_ext. intros v. unfold config_of, arg_rows. rewrite map_app, concat_app, !map_map. reflexivity.
  - apply List.Forall_forall. intros v Hv. apply (Permutation_in v (sort_perm vkey _)) in Hv. apply filter_In in Hv. destruct Hv as [Hv _]. apply in_map_iff in Hv. destruct Hv as (kv & <- & Ikv).
    rewrite List.Forall_forall in H. apply (H kv Ikv).
Qed.
Print Assumptions C65_configuration_written.

Lemma no_dec c l : existsb (Z.eqb c) l = false -> no c l.
Proof. intros H I. assert (E : existsb (Z.eqb c) l = true) by (apply existsb_exists; exists c; split; [exact I|apply Z.eqb_refl]). congruence. Qed.
Definition vf (name : string) (calls : Z) (ins : list varg) : Z * vfi :=
  let id := (bytes "dir/a.c/main/" ++ bytes name ++ bytes "/12/3")%list in (hashmap_str_function id, mk_vfi id 0 0 0 1 52 11 23 8 (Z.of_nat (Datatypes.length ins)) (Some ins) 0 (Some []) calls).
Example C65_nonvacuous :
  let t := [vf "f" 2 [mk_varg (bytes "x") FDOUBLE 52 11 0 5]; vf "g" 9 []; vf "h" 2 [mk_varg (bytes "y") FDOUBLE 52 11 0 5]] in
  Forall (fun kv => profile_ok (snd kv)) t /\ exists text, write_profile t = Ok text /\
  match get_profile [bytes "f"; bytes "h"] text with Ret (os, rs) => map o_id os = map (fun k => (bytes "dir/a.c/main/" ++ bytes k ++ bytes "/12/3")%list) ["h"; "f"]%string /\ map r_arg rs = [bytes "y"; bytes "x"] | _ => False end.
Proof.
  cbv zeta. split.
  - assert (G : forall name calls ins, In name ["f"; "g"; "h"]%string -> 0 <= calls < 100 -> In ins [[]; [mk_varg (bytes "x") FDOUBLE 52 11 0 5]; [mk_varg (bytes "y") FDOUBLE 52 11 0 5]] -> profile_ok (snd (vf name calls ins))).
    { intros name calls ins Hn Hc Hi. split; [|split].
      - assert (A : Forall arg_ok ins).
        { cbn in Hi. destruct Hi as [<-|[<-|[<-|[]]]]; [constructor|constructor; [|constructor]|constructor; [|constructor]];
          (split; [split; [discriminate|repeat split; apply no_dec; reflexivity]|unfold int32, FDOUBLE; cbn; repeat split; lia]). }
        assert (L : (Datatypes.length ins <= 1)%nat) by (cbn in Hi; destruct Hi as [<-|[<-|[<-|[]]]]; cbn; lia).
        cbn in Hn. destruct Hn as [<-|[<-|[<-|[]]]]; (split; [split; [discriminate|repeat split; apply no_dec; reflexivity]|]; split; [cbn; lia|];
          split; [cbn; repeat (apply @List.Forall_cons; [lia|]); apply @List.Forall_nil|]; split; [unfold int32; cbn -[Z.pow Z.of_nat]; repeat (apply @List.Forall_cons; [lia|]); apply @List.Forall_nil|]; split; [split; [reflexivity|exact A]|split; [reflexivity|constructor]]).
      - exists (bytes "dir/a.c"), (bytes "main"), (bytes name), 12, 3. cbn in Hn. destruct Hn as [<-|[<-|[<-|[]]]]; constructor; try reflexivity; try (apply no_dec; reflexivity); unfold int32; lia.
      - cbn in Hi. destruct Hi as [<-|[<-|[<-|[]]]]; cbn; repeat constructor; discriminate. }
    repeat apply @List.Forall_cons; try apply @List.Forall_nil; apply G; cbn; auto; lia.
  - eexists. split; [vm_compute; reflexivity|]. vm_compute. auto.
Qed.
