(** C13-C15: VPREC function instrumentation (interflop_vprec_function_instrumentation.c). *)
From Coq Require Import String ZArith Reals List Bool Lia Permutation.
From Flocq Require Import Core.
From Verif Require Import Common Text HashModel Bits BitsFacts FloatReal FloatValue StdlibModel VprecModel VprecDenormal VprecConfig FuncModel DdebugModel WrapParseProofs VfiModel VfiProofs VfiFile.
Import ListNotations.
Open Scope Z_scope.

(** C13. Every operation of a run is executed with the precision and range configured for the innermost active function the
    backend manages ([setter]: not library, not intrinsic, using float or double): those of the profile, or 52/11/23/8 for a function
    the profile does not have. Partial: [sane] excludes runs where a function that is not managed calls one that is; for these, and
    for what follows the return of the outermost function, see the refutations below. *)
Theorem C13_precision_in_force_partial :
  forall sem m ctx0 t0 prog s log, m = inst_op \/ m = inst_all -> forallb sane prog = true ->
  run_body sem m [] prog (mk_vstate ctx0 t0, []) = Ok (s, log) ->
  forall stack prec f, In (stack, prec) log -> find setter stack = Some f ->
  prec = match tget t0 (fkey f) with Some v => (v_prec64 v, v_range64 v, v_prec32 v, v_range32 v) | None => (52, 11, 23, 8) end.
Proof.
  intros sem m ctx0 t0 prog s log Hm0 S R stack prec f I F. assert (Hm : sets_operations m = true) by (destruct Hm0 as [-> | ->]; reflexivity).
  destruct (sane_body sem m t0 Hm prog [] (mk_vstate ctx0 t0) [] s log S) as [_ L]; [auto| |constructor|exact R|].
  - split; [reflexivity|]. split; [intros g []|exact Logic.I].
  - rewrite List.Forall_forall in L. specialize (L _ I). unfold in_force in L. cbn [fst snd] in L. rewrite F in L. exact L.
Qed.
Print Assumptions C13_precision_in_force_partial.

(** on return to a managed function the precisions are those it had before its calls, whatever it calls; the active functions of
    the stack have been entered, so that they are in the table *)
Theorem C13_return_partial :
  forall sem m f stack ins s0 s args body s' log', setter f = true -> (forall g, In g stack -> setter g = true -> tget (vs_tab s0) (fkey g) <> None) ->
  vfi_enter sem m (f :: stack) ins s0 = Ok (s, args) -> forallb sane body = true -> run_body sem m (f :: stack) body (s, []) = Ok (s', log') ->
  precisions (vs_ctx s') = precisions (vs_ctx s).
Proof.
  intros sem m f stack ins s0 s args body s' log' Sf St En S R. destruct (sets_operations m) eqn:Hm.
  - pose proof (enter_ok _ _ _ _ _ _ _ _ En) as ([A A2] & B & C). rewrite (setter_user f Sf), Hm in C. cbn [andb] in C.
    destruct (sane_body sem m (vs_tab s0) Hm body (f :: stack) s [] s' log' S) as [(_ & _ & J) _]; auto.
    + right. exists f, stack. auto.
    + split; [exact A|]. split; [intros g [<-|G] Sg; auto|]. unfold in_force. cbn [fst snd find]. rewrite Sf. exact C.
    + unfold in_force in J. cbn [fst snd find] in J. rewrite Sf in J. rewrite J, C. reflexivity.
  - clear En St. revert s log' R. generalize (@nil (list finfo * (Z * Z * Z * Z))). induction body as [|it b IH]; intros l s log' R; cbn [run_body] in R.
    + apply Ok_inj in R. congruence.
    + bo R. destruct a as [s1 l1]. cbn [forallb] in S. apply andb_prop in S. rewrite (IH (proj2 S) _ _ _ R). apply item_other in E; [congruence|exact Hm].
Qed.
Print Assumptions C13_return_partial.

(** with --instrument=arguments or none the precisions never change *)
Theorem C13_other_modes :
  forall sem m st it s log s' log', m = inst_arg \/ m = inst_none -> run_item sem m st it (s, log) = Ok (s', log') -> vs_ctx s' = vs_ctx s.
Proof. intros sem m st it s log s' log' Hm. assert (Hm' : sets_operations m = false) by (destruct Hm as [-> | ->]; reflexivity). exact (item_other sem m Hm' it st s log s' log'). Qed.
Print Assumptions C13_other_modes.

Definition user (name : string) : finfo := mk_finfo (bytes name) 0 0 0 1.
Definition library (name : string) (d : Z) : finfo := mk_finfo (bytes name) 1 0 0 d.
Definition integer_user (name : string) : finfo := mk_finfo (bytes name) 0 0 0 0.
Definition configured (name : string) (p : Z) : Z * vfi := (hashmap_str_function (bytes name), mk_vfi (bytes name) 0 0 0 1 p 11 23 8 0 (Some []) 0 (Some []) 1).
Definition profile : vtab := [configured "main" 40; configured "helper" 10].
Example C13_nonvacuous :
  let prog := [Call (user "main") [] [Op; Call (user "helper") [] [Op; Call (user "new") [] [Op; Call (library "sin" 1) [] [Op] []; Op] []; Op] [];
                                      Call (integer_user "count") [] [Op] []; Op] []] in
  forallb sane prog = true /\
  exists s, run_body Strict inst_op [] prog (mk_vstate vctx_init profile, []) =
    Ok (s, map (fun x => (map user (fst x), (snd x, 11, 23, 8))) [(["main"%string], 40)] ++
           [([integer_user "count"; user "main"], (40, 11, 23, 8)); ([user "helper"; user "main"], (10, 11, 23, 8));
            ([user "new"; user "helper"; user "main"], (52, 11, 23, 8)); ([library "sin" 1; user "new"; user "helper"; user "main"], (52, 11, 23, 8));
            ([user "new"; user "helper"; user "main"], (52, 11, 23, 8)); ([user "helper"; user "main"], (10, 11, 23, 8)); ([user "main"], (40, 11, 23, 8))]).
Proof. split; [vm_compute; reflexivity|]. eexists. vm_compute. reflexivity. Qed.

(** The full property fails: a function without float or double operands (a driver loop, say) that calls a managed function leaves
    the callee's precision in force in its own caller ... *)
Theorem C13_untold_caller_refuted :
  exists s log, run_body Strict inst_op [] [Call (user "main") [] [Op; Call (integer_user "loop") [] [Call (user "helper") [] [Op] []] []; Op] []]
      (mk_vstate vctx_init profile, []) = Ok (s, log) /\
    conf profile (fkey (user "main")) = (40, 11, 23, 8) /\ log = [([user "main"], (10, 11, 23, 8)); ([user "helper"; integer_user "loop"; user "main"], (10, 11, 23, 8)); ([user "main"], (40, 11, 23, 8))].
Proof. eexists _, _. split; [vm_compute; reflexivity|]. split; [vm_compute; reflexivity|]. vm_compute; reflexivity. Qed.
Print Assumptions C13_untold_caller_refuted.
(** ... so does a library function that calls back (qsort, bsearch, atexit ...) *)
Theorem C13_library_caller_refuted :
  exists s log, run_body Strict inst_op [] [Call (user "main") [] [Op; Call (library "qsort" 0) [] [Call (user "helper") [] [Op] []] []; Op] []]
      (mk_vstate vctx_init profile, []) = Ok (s, log) /\
    conf profile (fkey (user "main")) = (40, 11, 23, 8) /\ log = [([user "main"], (10, 11, 23, 8)); ([user "helper"; library "qsort" 0; user "main"], (10, 11, 23, 8)); ([user "main"], (40, 11, 23, 8))].
Proof. eexists _, _. split; [vm_compute; reflexivity|]. split; [vm_compute; reflexivity|]. vm_compute; reflexivity. Qed.
Print Assumptions C13_library_caller_refuted.
(** ... when the outermost instrumented function returns to a caller that is not instrumented the precision given by the options
    (here 52/11/23/8) is not restored *)
Theorem C13_outermost_refuted :
  exists s log, run_body Strict inst_op [] [Op; Call (user "helper") [] [Op] []; Op]
      (mk_vstate vctx_init profile, []) = Ok (s, log) /\
    log = [([], (10, 11, 23, 8)); ([user "helper"], (10, 11, 23, 8)); ([], (52, 11, 23, 8))].
Proof. eexists _, _. split; [vm_compute; reflexivity|]. vm_compute; reflexivity. Qed.
Print Assumptions C13_outermost_refuted.
(** ... and functions whose ids have the same 31-hash share one configuration *)
Theorem C13_collision_refuted :
  exists t0 s log, run_body Strict inst_op [] [Call (user "f/BB/1") [] [Op] []] (mk_vstate vctx_init t0, []) = Ok (s, log) /\
    t0 = [configured "f/Aa/1" 10] /\ log = [([user "f/BB/1"], (10, 11, 23, 8))].
Proof. exists [configured "f/Aa/1" 10]. eexists _, _. split; [vm_compute; reflexivity|]. split; [reflexivity|vm_compute; reflexivity]. Qed.
Print Assumptions C13_collision_refuted.

(** C14. At the entry of a function whose arguments are known (second call, or profile given), in a mode that rounds arguments
    ([--instrument=arguments|all], modes ib and full), the first element of each argument is replaced by its VPREC rounding in the format
    of the argument's type with the configured exponent and mantissa lengths; C01-C05 say what this rounding is. Scalars and one-element
    arrays are thus treated as documented. Partial: the other elements of an array are left alone (refuted below). *)
Theorem C14_inputs_partial :
  forall sem m f st args s s' args' v ds, vfi_enter sem m (f :: st) args s = Ok (s', args') ->
  tget (vs_tab s) (fkey f) = Some v -> v_in v = Some ds -> vmode_of (vs_ctx s) = mode_ib \/ vmode_of (vs_ctx s) = mode_full -> m = inst_arg \/ m = inst_all -> abs_err (vs_ctx s) = false ->
  (forall i d a, nth_error ds i = Some d -> nth_error args i = Some a -> arg_legal sem d a) ->
  forall i a, nth_error args i = Some a -> exists d a', nth_error ds i = Some d /\ nth_error args' i = Some a' /\ first_rounded sem true (vs_ctx s') d a a'.
Proof. intros sem m f st args s s' args' v ds En T V M1 M2. apply (enter_rounded sem m f st args s s' args' v ds En T V); [destruct M1 as [-> | ->]; reflexivity|destruct M2 as [-> | ->]; reflexivity]. Qed.
Print Assumptions C14_inputs_partial.
(** the same at the exit (modes ob and full) *)
Theorem C14_outputs_partial :
  forall sem m f st args s s' args' v ds, vfi_exit sem m (f :: st) args s = Ok (s', args') ->
  tget (vs_tab s) (fkey f) = Some v -> v_out v = Some ds -> vmode_of (vs_ctx s) = mode_ob \/ vmode_of (vs_ctx s) = mode_full -> m = inst_arg \/ m = inst_all -> abs_err (vs_ctx s) = false ->
  (forall i d a, nth_error ds i = Some d -> nth_error args i = Some a -> arg_legal sem d a) ->
  forall i a, nth_error args i = Some a -> exists d a', nth_error ds i = Some d /\ nth_error args' i = Some a' /\ first_rounded sem false (vs_ctx s') d a a'.
Proof. intros sem m f st args s s' args' v ds En T V M1 M2. apply (exit_rounded sem m f st args s s' args' v ds En T V); [destruct M1 as [-> | ->]; reflexivity|destruct M2 as [-> | ->]; reflexivity]. Qed.
Print Assumptions C14_outputs_partial.

(** The bounds recorded for an argument cover every value passed at any call of the function, whatever happens before and after,
    calls of other functions included. Partial: of an array only the first element. *)
Theorem C14_input_bounds_partial :
  forall sem m f st args s s1 args' h s2 i a a' y, vfi_enter sem m (f :: st) args s = Ok (s1, args') -> vfi_events sem m h s1 = Ok s2 ->
  nth_error args i = Some a -> nth_error args' i = Some a' -> touched a = true -> head_cell a' = Some y -> 0 <= y ->
  exists v ds d, tget (vs_tab s2) (fkey f) = Some v /\ v_in v = Some ds /\ nth_error ds i = Some d /\
    (IZR (a_min d) <= fval (arg_fmt (p_type a)) y <= IZR (a_max d))%R.
Proof. exact enter_covered. Qed.
Print Assumptions C14_input_bounds_partial.
Theorem C14_output_bounds_partial :
  forall sem m f st args s s1 args' h s2 i a a' y, vfi_exit sem m (f :: st) args s = Ok (s1, args') -> vfi_events sem m h s1 = Ok s2 ->
  nth_error args i = Some a -> nth_error args' i = Some a' -> touched a = true -> head_cell a' = Some y -> 0 <= y ->
  exists v ds d, tget (vs_tab s2) (fkey f) = Some v /\ v_out v = Some ds /\ nth_error ds i = Some d /\
    (IZR (a_min d) <= fval (arg_fmt (p_type a)) y <= IZR (a_max d))%R.
Proof. exact exit_covered. Qed.
Print Assumptions C14_output_bounds_partial.
(** and they are tight: a value x moves them to include its floor and its ceiling, no further *)
Theorem C14_bounds_exact :
  forall x d new t d', update_bounds x d new t = Ok d' -> 0 <= x ->
  a_id d' = a_id d /\ a_type d' = a_type d /\ a_mant d' = a_mant d /\ a_exp d' = a_exp d /\
  a_min d' = (if new : bool then Zfloor (fval (arg_fmt t) x) else Z.min (a_min d) (Zfloor (fval (arg_fmt t) x))) /\
  a_max d' = (if new then Zceil (fval (arg_fmt t) x) else Z.max (a_max d) (Zceil (fval (arg_fmt t) x))).
Proof. exact update_bounds_ok. Qed.
Print Assumptions C14_bounds_exact.

Definition d_3_3 : Z := 4614613358185178726.    (* 3.3 *)
Definition d_m7_6 : Z := 13843614894574167654.   (* -7.6 *)
Definition known (name : string) (t mant e : Z) : Z * vfi :=
  (hashmap_str_function (bytes name), mk_vfi (bytes name) 0 0 0 1 52 11 23 8 1 (Some [mk_varg (bytes "x") t mant e 0 0]) 0 (Some []) 1).
Definition full_ctx : vctx := upd_mode vctx_init mode_full.
Example C14_nonvacuous :
  exists s', vfi_enter Strict inst_all [user "f"] [mk_parg FDOUBLE (bytes "x") 1 (Some [d_m7_6])] (mk_vstate full_ctx [known "f" FDOUBLE 3 5]) =
      Ok (s', [mk_parg FDOUBLE (bytes "x") 1 (Some [13843502304583483392])]) /\   (* -7.5 *)
    tget (vs_tab s') (fkey (user "f")) = Some (mk_vfi (bytes "f") 0 0 0 1 52 11 23 8 1 (Some [mk_varg (bytes "x") FDOUBLE 3 5 (-8) 0]) 0 (Some []) 2) /\
    arg_legal Strict (mk_varg (bytes "x") FDOUBLE 3 5 0 0) (mk_parg FDOUBLE (bytes "x") 1 (Some [d_m7_6])).
Proof.
  eexists. split; [vm_compute; reflexivity|]. split; [vm_compute; reflexivity|]. unfold arg_legal, is_bits. cbn -[Z.mul]. repeat split; try lia; vm_compute; congruence.
Qed.

(** A two-element array [3.3, 3.3] rounded to 3 bits of mantissa: only the first element changes (to 3.25), the second is still 3.3;
    for [3.3, -7.6] the recorded bounds 3..4 do not cover -7.6. *)
Theorem C14_array_refuted :
  exists s1 s2 a, vfi_enter Strict inst_all [user "f"] [mk_parg FDOUBLE_PTR (bytes "x") 2 (Some [d_3_3; d_3_3])] (mk_vstate full_ctx [known "f" FDOUBLE_PTR 3 5]) =
      Ok (s1, [mk_parg FDOUBLE_PTR (bytes "x") 2 (Some [4614500768194494464; d_3_3])]) /\
    vprec_round Strict binary64 d_3_3 true (vs_ctx s1) 5 3 = Ok 4614500768194494464 /\ d_3_3 <> 4614500768194494464 /\
    vfi_enter Strict inst_all [user "g"] [mk_parg FDOUBLE_PTR (bytes "x") 2 (Some [d_3_3; d_m7_6])] (mk_vstate full_ctx []) = Ok (s2, a) /\
    option_map v_in (tget (vs_tab s2) (fkey (user "g"))) = Some (Some [mk_varg (bytes "x") FDOUBLE_PTR 52 11 3 4]) /\ zfloor binary64 d_m7_6 = -8.
Proof.
  eexists _, _, _. split; [vm_compute; reflexivity|]. split; [vm_compute; reflexivity|]. split; [discriminate|]. split; [vm_compute; reflexivity|]. split; [vm_compute; reflexivity|]. vm_compute; reflexivity.
Qed.
Print Assumptions C14_array_refuted.
(** NaN, an infinity or a value of magnitude 2^31 as an argument makes the recording of the bounds undefined, whatever the mode:
    the conversion to int precedes the (ineffective) tests for NaN and infinity *)
Theorem C14_special_value_refuted :
  forall sem m f st name t s x, let a := mk_parg t name 1 (Some [x]) in t = FFLOAT \/ t = FDOUBLE -> tget (vs_tab s) (fkey f) = None ->
  vs_ctx s = vctx_init -> (length (f_id f) < 512)%nat -> (length name < 128)%nat ->
  is_finite (arg_fmt t) x = false \/ 2 ^ 31 <= zfloor (arg_fmt t) x ->
  vfi_enter sem m (f :: st) [a] s = UB.
Proof.
  intros sem m f st name t s x a Ht G Hc L1 L2 Hx. unfold vfi_enter. rewrite G. unfold new_function, strcpy, FUNCTION_ID_MAX.
  destruct (Z.ltb_spec (Z.of_nat (length (f_id f))) 512); [|lia]. cbn [bind]. change (int_op (v_calls _ + 1)) with (@Ok Z 1). cbn [bind].
  assert (C : exists c, (if user_function f && sets_operations m then set_precisions (mk_vfi (f_id f) (f_library f) (f_intrinsic f) (f_float f) (f_double f) 52 11 23 8 0 None 0 None 0) (vs_ctx s) else Ok (vs_ctx s)) = Ok c).
  { rewrite Hc. destruct (_ && _); eexists; reflexivity. }
  destruct C as [c ->]. cbn [bind].
  match goal with |- bind ?A _ = UB => assert (E : A = UB); [|rewrite E; reflexivity] end.
  cbn [v_in length]. change (0 <? Z.of_nat 1) with true. cbn iota. change (calloc (Z.of_nat 1)) with [mk_varg [] 0 0 0 0 0]. cbn [do_args].
  match goal with |- bind ?A _ = UB => assert (E : A = UB); [|rewrite E; reflexivity] end.
  unfold do_arg, a. cbn [p_id p_type p_cells]. unfold init_arg, strcpy, ARG_ID_MAX. destruct (Z.ltb_spec (Z.of_nat (length name)) 128); [|lia]. cbn [bind].
  assert (S : is_scalar t = true) by (destruct Ht as [-> | ->]; reflexivity). rewrite S. unfold do_cell, round_cell. cbn [negb andb bind].
  unfold update_bounds. rewrite (scalar_float t S). unfold int_floor, int_op. destruct (is_finite (arg_fmt t) x); [|reflexivity].
  destruct Hx as [Hx|Hx]; [discriminate|]. assert (N : in_int (zfloor (arg_fmt t) x) = false). { unfold in_int. apply andb_false_intro2. apply Z.ltb_ge. exact Hx. }
  rewrite N. reflexivity.
Qed.
Print Assumptions C14_special_value_refuted.
Example C14_special_nonvacuous : is_finite (arg_fmt FDOUBLE) (qnan binary64) = false /\ 2 ^ 31 <= zfloor (arg_fmt FDOUBLE) (make binary64 0 (1023 + 40) 0).
Proof. split; vm_compute; congruence. Qed.

(** C15. The table left by any run (any history of enters and exits from an empty table) whose names have no tab, newline or NUL and fit
    the readers' buffers (255 bytes for a function, 127 for an argument) is written, in whatever slot order [t], and read back entry by entry:
    identifiers, flags, precisions, ranges, argument descriptors, bounds, numbers of calls. [reread]: a function without argument
    descriptors gets empty ones. [eof_ok]: the reader recognises the end of the file by counting the words of a buffer that fgets did not
    fill; its content is assumed not to have twelve. *)
Theorem C15_round_trip_partial :
  forall sem m h ctx0 s t stale, Forall event_ok h -> vfi_events sem m h (mk_vstate ctx0 []) = Ok s -> Permutation t (vs_tab s) -> eof_ok stale ->
  exists text t', write_profile t = Ok text /\ read_profile stale text = Ok t' /\ forall k, tget t' k = option_map reread (tget (vs_tab s) k).
Proof.
  intros sem m h ctx0 s t stale Oh R P He.
  assert (T : table_ok (vs_tab s)) by (apply (events_table_ok _ _ _ _ _ Oh) in R; [exact R|]; split; [split; constructor|constructor]).
  destruct (table_perm _ _ P T) as [K F]. destruct (round_trip stale t He K F) as (text & W & Rd). exists text. eexists. split; [exact W|]. split; [exact Rd|].
  intros k. rewrite tget_map. f_equal. apply tget_perm; [apply T|exact P].
Qed.
Print Assumptions C15_round_trip_partial.
(** reading and writing again changes nothing: profiles can be edited and reused any number of times *)
Theorem C15_stable_partial :
  forall t stale, keyed t -> Forall (fun kv => function_ok (snd kv)) t -> eof_ok stale ->
  exists text t', write_profile t = Ok text /\ read_profile stale text = Ok t' /\ write_profile t' = Ok text /\ read_profile stale text = Ok t'.
Proof.
  intros t stale K F He. destruct (round_trip stale t He K F) as (text & W & R). exists text. eexists. split; [exact W|]. split; [exact R|]. split; [|exact R].
  clear R K. revert text W. induction F as [|[k v] t Hv _ IH]; intros text W; cbn [map write_profile fst snd] in *; [exact W|].
  bo W. bo W. apply Ok_inj in W. subst text. rewrite (IH _ E0).
  assert (E2 : write_function (reread v) = Ok a); [|rewrite E2; reflexivity].
  rewrite <- E. unfold write_function, write_header, write_args, reread. cbn. reflexivity.
Qed.
Print Assumptions C15_stable_partial.

Example C15_nonvacuous :
  let h := [EvEnter [user "main.c//main/3/1"] []; EvEnter [user "main.c/main/f/9/2"; user "main.c//main/3/1"] [mk_parg FDOUBLE (bytes "x") 1 (Some [d_m7_6]); mk_parg FFLOAT_PTR (bytes "v") 3 None];
            EvExit [user "main.c/main/f/9/2"; user "main.c//main/3/1"] [mk_parg FDOUBLE (bytes "return_value") 1 (Some [d_3_3])]] in
  Forall event_ok h /\ eof_ok [] /\ exists s, vfi_events Strict inst_all h (mk_vstate full_ctx []) = Ok s /\
    exists text t', write_profile (vs_tab s) = Ok text /\ read_profile [] text = Ok t' /\ length t' = 2%nat.
Proof.
  assert (D : forall l : list Z, forallb (fun c => (c <? 9) || (10 <? c)) l = true -> forallb (fun c => negb (c =? 0)) l = true -> l <> [] -> plain l).
  { intros l H H0 N. rewrite forallb_forall in H, H0. split; [exact N|]. unfold no, tab, newline. split; [intros I; apply H in I; vm_compute in I; discriminate|].
    split; [intros I; apply H in I; vm_compute in I; discriminate|]. intros I. apply H0 in I. vm_compute in I. discriminate. }
  cbv zeta. split.
  - repeat apply List.Forall_cons; try apply List.Forall_nil; (split; [split; [apply D; [reflexivity|reflexivity|discriminate]|split; [vm_compute; lia|repeat constructor; cbn; lia]]|]);
      (split; [repeat apply List.Forall_cons; try apply List.Forall_nil; (split; [apply D; [reflexivity|reflexivity|discriminate]|cbn; unfold FDOUBLE, FFLOAT_PTR; lia])|cbn; lia]).
  - split; [split; [cbn; lia|constructor]|]. eexists. split; [vm_compute; reflexivity|]. eexists _, _. split; [vm_compute; reflexivity|]. split; [vm_compute; reflexivity|]. reflexivity.
Qed.

(** Outside these limits reading fails. An id of 256 to 511 bytes is recorded and written, but overflows the 256 bytes the reader has ... *)
Definition long_name : list Z := repeat 97 300.
Theorem C15_long_name_refuted :
  exists s text, vfi_events Strict inst_all [EvEnter [mk_finfo long_name 0 0 0 1] []] (mk_vstate vctx_init []) = Ok s /\
    write_profile (vs_tab s) = Ok text /\ read_profile [] text = UB.
Proof. eexists _, _. split; [vm_compute; reflexivity|]. split; [vm_compute; reflexivity|]. vm_compute; reflexivity. Qed.
Print Assumptions C15_long_name_refuted.
(** ... an argument without a name makes a line of six words, which the reader cannot handle ... *)
Theorem C15_unnamed_argument_refuted :
  exists s text, vfi_events Strict inst_all [EvEnter [user "f"] [mk_parg FDOUBLE [] 1 (Some [d_3_3])]] (mk_vstate vctx_init []) = Ok s /\
    write_profile (vs_tab s) = Ok text /\ read_profile [] text = UB.
Proof. eexists _, _. split; [vm_compute; reflexivity|]. split; [vm_compute; reflexivity|]. vm_compute; reflexivity. Qed.
Print Assumptions C15_unnamed_argument_refuted.
(** ... a function that had not returned when the profile was written (exit() in the middle) is read back with an empty list of
    outputs, and its first return then writes out of bounds, where the original table would have grown ... *)
Theorem C15_unfinished_function_refuted :
  exists s text t' s1 o, let out := [mk_parg FDOUBLE (bytes "return_value") 1 (Some [d_3_3])] in
    vfi_events Strict inst_all [EvEnter [user "f"] []] (mk_vstate vctx_init []) = Ok s /\
    write_profile (vs_tab s) = Ok text /\ read_profile [] text = Ok t' /\
    vfi_exit Strict inst_all [user "f"] out s = Ok (s1, o) /\
    vfi_exit Strict inst_all [user "f"] out (mk_vstate vctx_init t') = UB.
Proof. eexists _, _, _, _, _. split; [vm_compute; reflexivity|]. split; [vm_compute; reflexivity|]. split; [vm_compute; reflexivity|]. split; [vm_compute; reflexivity|]. vm_compute; reflexivity. Qed.
Print Assumptions C15_unfinished_function_refuted.
(** ... and with twelve words in the unfilled buffer the reader never stops *)
Theorem C15_end_of_file_refuted :
  exists stale text, write_profile [] = Ok text /\ read_profile stale text = Diverge.
Proof. exists (columns (repeat [48] 12)), []. split; [vm_compute; reflexivity|]. vm_compute; reflexivity. Qed.
Print Assumptions C15_end_of_file_refuted.
