(** Configuration of the VPREC backend: setters, command line options, user calls and the configure hook,
    src/backends/interflop-backend-vprec/interflop_vprec.c L86-235, L771-791, L836-848, L893-1112.
    Not modelled: argp's splitting of the command line into (key, argument) pairs, the options of the function
    instrumentation child parser, and the text of the messages. The string-to-integer conversion handler
    (interflop_strtol, main.c.in L299-307) is the universally quantified [strtol : string -> Z * bool]
    (value as a long, error flag). *)
From Coq Require Import String Ascii ZArith List Bool Lia.
From Verif Require Import Common Bits StdlibModel VprecModel.
Import ListNotations.
Open Scope Z_scope.
Open Scope outcome_scope.

(** conversion long -> int (implementation-defined, modular in gcc and clang) *)
Definition to_int (x : Z) : Z := (x + 2 ^ 31) mod 2 ^ 32 - 2 ^ 31.

Definition upd_prec32 (c : vctx) v := mk_vctx v (range32 c) (prec64 c) (range64 c) (abs_exp c) (vmode_of c) (rel_err c) (abs_err c) (daz c) (ftz c).
Definition upd_range32 (c : vctx) v := mk_vctx (prec32 c) v (prec64 c) (range64 c) (abs_exp c) (vmode_of c) (rel_err c) (abs_err c) (daz c) (ftz c).
Definition upd_prec64 (c : vctx) v := mk_vctx (prec32 c) (range32 c) v (range64 c) (abs_exp c) (vmode_of c) (rel_err c) (abs_err c) (daz c) (ftz c).
Definition upd_range64 (c : vctx) v := mk_vctx (prec32 c) (range32 c) (prec64 c) v (abs_exp c) (vmode_of c) (rel_err c) (abs_err c) (daz c) (ftz c).
Definition upd_mode (c : vctx) v := mk_vctx (prec32 c) (range32 c) (prec64 c) (range64 c) (abs_exp c) v (rel_err c) (abs_err c) (daz c) (ftz c).
Definition upd_err (c : vctx) r a := mk_vctx (prec32 c) (range32 c) (prec64 c) (range64 c) (abs_exp c) (vmode_of c) r a (daz c) (ftz c).
Definition upd_exp (c : vctx) v := mk_vctx (prec32 c) (range32 c) (prec64 c) (range64 c) v (vmode_of c) (rel_err c) (abs_err c) (daz c) (ftz c).
Definition upd_daz (c : vctx) v := mk_vctx (prec32 c) (range32 c) (prec64 c) (range64 c) (abs_exp c) (vmode_of c) (rel_err c) (abs_err c) v (ftz c).
Definition upd_ftz (c : vctx) v := mk_vctx (prec32 c) (range32 c) (prec64 c) (range64 c) (abs_exp c) (vmode_of c) (rel_err c) (abs_err c) (daz c) v.

(** the bounded setters L95-152: below the minimum or above the maximum is logger_error, which exits *)
Definition bounded (lo hi v : Z) : outcome vctx -> outcome vctx :=
  fun k => if v <? lo then Exit else if hi <? v then Exit else k.
Definition set_prec32 (v : Z) (c : vctx) : outcome vctx := bounded 1 23 v (Ok (upd_prec32 c v)).    (* L95-107 *)
Definition set_range32 (v : Z) (c : vctx) : outcome vctx := bounded 2 8 v (Ok (upd_range32 c v)).   (* L109-121 *)
Definition set_prec64 (v : Z) (c : vctx) : outcome vctx := bounded 1 52 v (Ok (upd_prec64 c v)).    (* L123-135 *)
Definition set_range64 (v : Z) (c : vctx) : outcome vctx := bounded 2 11 v (Ok (upd_range64 c v)).  (* L137-149 *)

(** enumerators, interflop_vprec.h L71-86, L97-126; an enum is an unsigned int *)
Definition mode_of_enum (m : Z) : option vmode :=
  if m =? 0 then Some mode_ieee else if m =? 1 then Some mode_full
  else if m =? 2 then Some mode_ib else if m =? 3 then Some mode_ob else None.
(** _set_vprec_mode L86-93 *)
Definition set_mode (m : Z) (c : vctx) : outcome vctx :=
  match mode_of_enum m with Some v => Ok (upd_mode c v) | None => Exit end.
(** _set_vprec_error_mode L151-172 *)
Definition set_err_mode (m : Z) (c : vctx) : outcome vctx :=
  if m =? 0 then Ok (upd_err c true false) else if m =? 1 then Ok (upd_err c false true)
  else if m =? 2 then Ok (upd_err c true true) else Exit.
(** _set_vprec_max_abs_err_exp L174-176 *)
Definition set_abs_exp (v : Z) (c : vctx) : outcome vctx := Ok (upd_exp c (to_int v)).
(** _get_vprec_preset_precision/_range L191-235: (precision, range) *)
Definition preset_of_enum (p : Z) : option (Z * Z) :=
  if p =? 0 then Some (10, 5) else if p =? 1 then Some (23, 8) else if p =? 2 then Some (7, 8)
  else if p =? 3 then Some (10, 8) else if p =? 4 then Some (16, 7) else if p =? 5 then Some (15, 8) else None.

(** _vprec_init_context L836-848 *)
Definition vctx_init : vctx := mk_vctx 23 8 52 11 (-1022) mode_ob true false false false.

(** strcasecmp in the C locale: equality up to ASCII case *)
Definition lower_ascii (a : ascii) : ascii :=
  let n := nat_of_ascii a in if (65 <=? n)%nat && (n <=? 90)%nat then ascii_of_nat (n + 32) else a.
Fixpoint lower (s : string) : string :=
  match s with EmptyString => EmptyString | String a s' => String (lower_ascii a) (lower s') end.
Definition str_eq (a b : string) : bool := if string_dec a b then true else false.
Definition strcase_eq (a b : string) : bool := str_eq (lower a) (lower b).

(** a parsed command-line option *)
Inductive vopt :=
| OptPrec32 (arg : string) | OptPrec64 (arg : string) | OptRange32 (arg : string) | OptRange64 (arg : string)
| OptMode (arg : string) | OptErrMode (arg : string) | OptErrExp (arg : string)
| OptDaz | OptFtz | OptPreset (arg : string) | OptUnknown.

(** vprec_conf_t, interflop_vprec.h L145-156 (unsigned fields, a long exponent) *)
Record vconf := mk_vconf {
  cf_prec32 : Z; cf_range32 : Z; cf_prec64 : Z; cf_range64 : Z;
  cf_mode : Z; cf_preset : Z; cf_err_mode : Z; cf_abs_exp : Z; cf_daz : Z; cf_ftz : Z }.

(** interflop_call ids handled by user_call *)
Inductive vcall := CallPrec32 (v : Z) | CallPrec64 (v : Z) | CallRange32 (v : Z) | CallRange64 (v : Z) | CallOther.

Inductive vreq := ROpt (o : vopt) | RCall (c : vcall) | RConf (f : vconf).

Section config.
  Context (strtol : string -> Z * bool).

  (** the numeric options L903-958: the long is truncated to int before the comparisons *)
  Definition opt_num (arg : string) (lo hi : Z) (set : Z -> vctx -> outcome vctx) (c : vctx) : outcome vctx :=
    let '(l, error) := strtol arg in
    let val := to_int l in
    if error || (val <? lo) then Exit else if hi <? val then Exit else set val c.

  (** the KEY_PRESET chain L1016-1046; an unknown name is logger_error *)
  Definition preset_of_name (arg : string) : option (Z * Z) :=
    if str_eq "binary16" arg then Some (10, 5) else if str_eq "binary32" arg then Some (23, 8)
    else if str_eq "bfloat16" arg then Some (7, 8) else if str_eq "tensorfloat" arg then Some (10, 8)
    else if str_eq "fp24" arg then Some (16, 7) else if str_eq "PXR24" arg then Some (15, 8) else None.

  Definition set_all (p r : Z) (c : vctx) : outcome vctx :=   (* L1048-1054 *)
    let* c := set_prec32 p c in let* c := set_prec64 p c in let* c := set_range32 r c in set_range64 r c.

  (** parse_opt L893-1060 *)
  Definition parse_opt (o : vopt) (c : vctx) : outcome vctx :=
    match o with
    | OptPrec32 a => opt_num a 1 23 set_prec32 c
    | OptPrec64 a => opt_num a 1 52 set_prec64 c
    | OptRange32 a => opt_num a 2 8 set_range32 c
    | OptRange64 a => opt_num a 2 11 set_range64 c
    | OptMode a => if strcase_eq "ieee" a then set_mode 0 c else if strcase_eq "full" a then set_mode 1 c
                   else if strcase_eq "ib" a then set_mode 2 c else if strcase_eq "ob" a then set_mode 3 c else Exit
    | OptErrMode a => if strcase_eq "rel" a then set_err_mode 0 c else if strcase_eq "abs" a then set_err_mode 1 c
                      else if strcase_eq "all" a then set_err_mode 2 c else Exit
    | OptErrExp a => let '(l, error) := strtol a in if error : bool then Exit else set_abs_exp l c
    | OptDaz => Ok (upd_daz c true)
    | OptFtz => Ok (upd_ftz c true)
    | OptPreset a => match preset_of_name a with Some (p, r) => set_all p r c | None => Exit end
    | OptUnknown => Ok c      (* ARGP_ERR_UNKNOWN: the context is left alone, argp reports the error *)
    end.

  (** INTERFLOP_VPREC_API(user_call) L771-791; arguments are read as int *)
  Definition user_call (q : vcall) (c : vctx) : outcome vctx :=
    match q with
    | CallPrec32 v => set_prec32 v c | CallPrec64 v => set_prec64 v c
    | CallRange32 v => set_range32 v c | CallRange64 v => set_range64 v c
    | CallOther => Ok c
    end.

  (** INTERFLOP_VPREC_API(configure) L1084-1112 *)
  Definition configure (k : vconf) (c : vctx) : outcome vctx :=
    let* q := (if cf_preset k =? 2 ^ 32 - 1 then
                 Ok (to_int (cf_prec32 k), to_int (cf_prec64 k), to_int (cf_range32 k), to_int (cf_range64 k))
               else match preset_of_enum (cf_preset k) with
                    | Some (p, r) => Ok (p, p, r, r) | None => Exit end) in
    let '(p32, p64, r32, r64) := q in
    let* c := set_prec32 p32 c in
    let* c := set_prec64 p64 c in
    let* c := set_range32 r32 c in
    let* c := set_range64 r64 c in
    let* c := set_mode (cf_mode k) c in
    let* c := set_err_mode (cf_err_mode k) c in
    let* c := (if cf_abs_exp k =? 2 ^ 32 - 1 then Ok c else set_abs_exp (cf_abs_exp k) c) in
    let* c := (if cf_daz k =? 0 then Ok c else Ok (upd_daz c true)) in
    if cf_ftz k =? 0 then Ok c else Ok (upd_ftz c true).

  Definition vstep (c : vctx) (q : vreq) : outcome vctx :=
    match q with ROpt o => parse_opt o c | RCall u => user_call u c | RConf k => configure k c end.

  (** the state after any sequence of requests from initialisation *)
  Definition vrun (qs : list vreq) : outcome vctx := ofold vstep qs vctx_init.

  Definition in_bounds (c : vctx) : Prop :=
    1 <= prec32 c <= 23 /\ 2 <= range32 c <= 8 /\ 1 <= prec64 c <= 52 /\ 2 <= range64 c <= 11.

  Lemma bind_ok {A B} (m : outcome A) (k : A -> outcome B) b : bind m k = Ok b -> exists a, m = Ok a /\ k a = Ok b.
  Proof. destruct m; cbn; try discriminate. eauto. Qed.

  Lemma bounded_ok lo hi v k c' : bounded lo hi v (Ok k) = Ok c' -> c' = k /\ lo <= v <= hi.
  Proof.
    unfold bounded. destruct (Z.ltb_spec v lo); [discriminate|]. destruct (Z.ltb_spec hi v); [discriminate|].
    intros [= <-]. split; [reflexivity|lia].
  Qed.
  Lemma opt_num_ok a lo hi set c c' : opt_num a lo hi set c = Ok c' ->
    snd (strtol a) = false /\ lo <= to_int (fst (strtol a)) <= hi /\ set (to_int (fst (strtol a))) c = Ok c'.
  Proof.
    unfold opt_num. destruct (strtol a) as [l e]. cbn [fst snd]. destruct e; cbn [orb]; [discriminate|].
    destruct (Z.ltb_spec (to_int l) lo); [discriminate|]. destruct (Z.ltb_spec hi (to_int l)); [discriminate|]. intros H'. repeat split; auto; lia.
  Qed.

  Ltac inv_bind H := let c := fresh "c" in let E := fresh "E" in apply bind_ok in H as (c & E & H).

  (** what each setter does to the nine fields *)
  Definition same_except (c c' : vctx) (p32 r32 p64 r64 e m err d f : bool) : Prop :=
    (p32 = false -> prec32 c' = prec32 c) /\ (r32 = false -> range32 c' = range32 c) /\
    (p64 = false -> prec64 c' = prec64 c) /\ (r64 = false -> range64 c' = range64 c) /\
    (e = false -> abs_exp c' = abs_exp c) /\ (m = false -> vmode_of c' = vmode_of c) /\
    (err = false -> rel_err c' = rel_err c /\ abs_err c' = abs_err c) /\
    (d = false -> daz c' = daz c) /\ (f = false -> ftz c' = ftz c).

  (** the effect of a request, written out field by field *)
  Definition effect (q : vreq) (c c' : vctx) : Prop :=
    match q with
    | RCall (CallPrec32 v) => prec32 c' = v /\ same_except c c' true false false false false false false false false
    | RCall (CallRange32 v) => range32 c' = v /\ same_except c c' false true false false false false false false false
    | RCall (CallPrec64 v) => prec64 c' = v /\ same_except c c' false false true false false false false false false
    | RCall (CallRange64 v) => range64 c' = v /\ same_except c c' false false false true false false false false false
    | RCall CallOther | ROpt OptUnknown => c' = c
    | ROpt (OptPrec32 a) => prec32 c' = to_int (fst (strtol a)) /\ same_except c c' true false false false false false false false false
    | ROpt (OptRange32 a) => range32 c' = to_int (fst (strtol a)) /\ same_except c c' false true false false false false false false false
    | ROpt (OptPrec64 a) => prec64 c' = to_int (fst (strtol a)) /\ same_except c c' false false true false false false false false false
    | ROpt (OptRange64 a) => range64 c' = to_int (fst (strtol a)) /\ same_except c c' false false false true false false false false false
    | ROpt (OptMode a) => same_except c c' false false false false false true false false false /\
        (lower a = "ieee"%string /\ vmode_of c' = mode_ieee \/ lower a = "full"%string /\ vmode_of c' = mode_full \/
         lower a = "ib"%string /\ vmode_of c' = mode_ib \/ lower a = "ob"%string /\ vmode_of c' = mode_ob)
    | ROpt (OptErrMode a) => same_except c c' false false false false false false true false false /\
        (lower a = "rel"%string /\ rel_err c' = true /\ abs_err c' = false \/
         lower a = "abs"%string /\ rel_err c' = false /\ abs_err c' = true \/
         lower a = "all"%string /\ rel_err c' = true /\ abs_err c' = true)
    | ROpt (OptErrExp a) => abs_exp c' = to_int (fst (strtol a)) /\ same_except c c' false false false false true false false false false
    | ROpt OptDaz => daz c' = true /\ same_except c c' false false false false false false false true false
    | ROpt OptFtz => ftz c' = true /\ same_except c c' false false false false false false false false true
    | ROpt (OptPreset a) => same_except c c' true true true true false false false false false /\
        exists p r, (prec32 c' = p /\ prec64 c' = p /\ range32 c' = r /\ range64 c' = r) /\
          In (a, p, r) [("binary16"%string, 10, 5); ("binary32"%string, 23, 8); ("bfloat16"%string, 7, 8);
                        ("tensorfloat"%string, 10, 8); ("fp24"%string, 16, 7); ("PXR24"%string, 15, 8)]
    | RConf k =>
        (if cf_preset k =? 2 ^ 32 - 1 then
           prec32 c' = to_int (cf_prec32 k) /\ prec64 c' = to_int (cf_prec64 k) /\
           range32 c' = to_int (cf_range32 k) /\ range64 c' = to_int (cf_range64 k)
         else exists p r, In (cf_preset k, p, r) [(0, 10, 5); (1, 23, 8); (2, 7, 8); (3, 10, 8); (4, 16, 7); (5, 15, 8)] /\
              prec32 c' = p /\ prec64 c' = p /\ range32 c' = r /\ range64 c' = r) /\
        In (cf_mode k, vmode_of c') [(0, mode_ieee); (1, mode_full); (2, mode_ib); (3, mode_ob)] /\
        (cf_err_mode k = 0 /\ rel_err c' = true /\ abs_err c' = false \/
         cf_err_mode k = 1 /\ rel_err c' = false /\ abs_err c' = true \/
         cf_err_mode k = 2 /\ rel_err c' = true /\ abs_err c' = true) /\
        abs_exp c' = (if cf_abs_exp k =? 2 ^ 32 - 1 then abs_exp c else to_int (cf_abs_exp k)) /\
        daz c' = (daz c || negb (cf_daz k =? 0)) /\ ftz c' = (ftz c || negb (cf_ftz k =? 0))
    end.

  Lemma preset_of_enum_in z p r : preset_of_enum z = Some (p, r) ->
    In (z, p, r) [(0, 10, 5); (1, 23, 8); (2, 7, 8); (3, 10, 8); (4, 16, 7); (5, 15, 8)].
  Proof.
    unfold preset_of_enum. intros E.
    repeat match type of E with (if ?x =? ?y then _ else _) = _ => destruct (Z.eqb_spec x y) as [->|_] in E;
      [injection E as <- <-; cbn; tauto|] end. discriminate.
  Qed.
  Lemma mode_of_enum_in z m : mode_of_enum z = Some m ->
    In (z, m) [(0, mode_ieee); (1, mode_full); (2, mode_ib); (3, mode_ob)].
  Proof.
    unfold mode_of_enum. intros E.
    repeat match type of E with (if ?x =? ?y then _ else _) = _ => destruct (Z.eqb_spec x y) as [->|_] in E;
      [injection E as <-; cbn; tauto|] end. discriminate.
  Qed.

  Lemma str_eq_ok a b : str_eq a b = true -> b = a.
  Proof. unfold str_eq. destruct (string_dec a b); congruence. Qed.

  Lemma vstep_effect c q c' : vstep c q = Ok c' -> effect q c c'.
  Proof.
    unfold vstep. destruct q as [o|u|k].
    - destruct o as [a|a|a|a|a|a|a| | |a|]; cbn [parse_opt effect].
      1-4: intros H; apply opt_num_ok in H as (_ & _ & H); apply bounded_ok in H as [-> _]; unfold same_except; cbn; intuition congruence.
      + unfold strcase_eq. intros H.
        destruct (str_eq _ _) eqn:E1 in H; [apply str_eq_ok in E1; injection H as <-; unfold same_except; cbn; intuition congruence|].
        destruct (str_eq _ _) eqn:E2 in H; [apply str_eq_ok in E2; injection H as <-; unfold same_except; cbn; intuition congruence|].
        destruct (str_eq _ _) eqn:E3 in H; [apply str_eq_ok in E3; injection H as <-; unfold same_except; cbn; intuition congruence|].
        destruct (str_eq _ _) eqn:E4 in H; [apply str_eq_ok in E4; injection H as <-; unfold same_except; cbn; intuition congruence|discriminate].
      + unfold strcase_eq. intros H.
        destruct (str_eq _ _) eqn:E1 in H; [apply str_eq_ok in E1; injection H as <-; unfold same_except; cbn; intuition congruence|].
        destruct (str_eq _ _) eqn:E2 in H; [apply str_eq_ok in E2; injection H as <-; unfold same_except; cbn; intuition congruence|].
        destruct (str_eq _ _) eqn:E3 in H; [apply str_eq_ok in E3; injection H as <-; unfold same_except; cbn; intuition congruence|discriminate].
      + destruct (strtol a) as [l e]. destruct e; [discriminate|]. intros [= <-]. unfold same_except; cbn. repeat split; congruence.
      + intros [= <-]. unfold same_except; cbn; intuition congruence.
      + intros [= <-]. unfold same_except; cbn; intuition congruence.
      + intros H. destruct (preset_of_name a) as [[p r]|] eqn:E; [|discriminate]. unfold set_all in H.
        inv_bind H. inv_bind H. inv_bind H. apply bounded_ok in E0 as [-> _], E1 as [-> _], E2 as [-> _], H as [-> _].
        split; [unfold same_except; cbn; intuition congruence|]. exists p, r. split; [cbn; auto|]. unfold preset_of_name in E.
        repeat match type of E with (if str_eq ?x a then _ else _) = _ => destruct (str_eq x a) eqn:?S in E;
          [apply str_eq_ok in S; injection E as <- <-; subst a; cbn; tauto|clear S] end. discriminate.
      + intros [= <-]. reflexivity.
    - destruct u as [v|v|v|v|]; cbn [user_call effect]; [| | | |intros [= <-]; reflexivity];
        intros H; apply bounded_ok in H as [-> _]; unfold same_except; cbn; intuition congruence.
    - cbn [effect]. unfold configure. intros H. inv_bind H. destruct c0 as [[[p32 p64] r32] r64].
      do 8 inv_bind H. apply bounded_ok in E0 as [-> _], E1 as [-> _], E2 as [-> _], E3 as [-> _].
      unfold set_mode in E4. destruct (mode_of_enum (cf_mode k)) as [m|] eqn:Em; [|discriminate]. injection E4 as <-.
      assert (Hq : if cf_preset k =? 2 ^ 32 - 1
              then p32 = to_int (cf_prec32 k) /\ p64 = to_int (cf_prec64 k) /\ r32 = to_int (cf_range32 k) /\ r64 = to_int (cf_range64 k)
              else exists p r : Z, In (cf_preset k, p, r) [(0, 10, 5); (1, 23, 8); (2, 7, 8); (3, 10, 8); (4, 16, 7); (5, 15, 8)] /\ p32 = p /\ p64 = p /\ r32 = r /\ r64 = r).
      { destruct (cf_preset k =? 2 ^ 32 - 1); [injection E as <- <- <- <-; auto|].
        destruct (preset_of_enum (cf_preset k)) as [[p r]|] eqn:Ep; [|discriminate]. injection E as <- <- <- <-.
        apply preset_of_enum_in in Ep. exists p, r. auto. }
      clear E. apply mode_of_enum_in in Em. unfold set_err_mode in E5.
      assert (He : exists a b, c5 = upd_err (upd_mode (upd_range64 (upd_range32 (upd_prec64 (upd_prec32 c p32) p64) r32) r64) m) a b /\
         (cf_err_mode k = 0 /\ a = true /\ b = false \/ cf_err_mode k = 1 /\ a = false /\ b = true \/ cf_err_mode k = 2 /\ a = true /\ b = true)).
      { destruct (Z.eqb_spec (cf_err_mode k) 0); [injection E5 as <-; eauto 10|].
        destruct (Z.eqb_spec (cf_err_mode k) 1); [injection E5 as <-; eauto 10|].
        destruct (Z.eqb_spec (cf_err_mode k) 2); [injection E5 as <-; eauto 10|discriminate]. }
      destruct He as (ra & aa & -> & He). clear E5.
      destruct (cf_abs_exp k =? 2 ^ 32 - 1), (cf_daz k =? 0), (cf_ftz k =? 0); unfold set_abs_exp in *;
        injection E6 as <-; injection E7 as <-; injection H as <-; cbn -[Z.pow In];
        rewrite ?orb_false_r, ?orb_true_r; (split; [exact Hq|]); (split; [exact Em|]); (split; [exact He|]); auto.
  Qed.

  Lemma vstep_bounds c q c' : in_bounds c -> vstep c q = Ok c' -> in_bounds c'.
  Proof.
    unfold vstep, in_bounds. intros Hc. destruct q as [o|u|k].
    - destruct o as [a|a|a|a|a|a|a| | |a|]; cbn [parse_opt].
      1-4: intros H; apply opt_num_ok in H as (_ & _ & H); apply bounded_ok in H as [-> ?]; cbn; lia.
      + unfold set_mode. cbn [mode_of_enum Z.eqb Pos.eqb]. do 4 (destruct (strcase_eq _ _); [intros [= <-]; exact Hc|]). discriminate.
      + unfold set_err_mode. cbn [Z.eqb Pos.eqb]. do 3 (destruct (strcase_eq _ _); [intros [= <-]; exact Hc|]). discriminate.
      + destruct (strtol a) as [l e]. destruct e; [discriminate|]. intros [= <-]. exact Hc.
      + intros [= <-]. exact Hc.
      + intros [= <-]. exact Hc.
      + destruct (preset_of_name a) as [[p r]|]; [|discriminate]. unfold set_all. intros H.
        inv_bind H. inv_bind H. inv_bind H. apply bounded_ok in E as [-> ?], E0 as [-> ?], E1 as [-> ?], H as [-> ?]. cbn. lia.
      + intros [= <-]. exact Hc.
    - destruct u as [v|v|v|v|]; cbn [user_call]; [| | | |intros [= <-]; exact Hc];
        intros H; apply bounded_ok in H as [-> ?]; cbn; lia.
    - unfold configure. intros H. inv_bind H. destruct c0 as [[[p32 p64] r32] r64].
      do 8 inv_bind H. apply bounded_ok in E0 as [-> ?], E1 as [-> ?], E2 as [-> ?], E3 as [-> ?].
      unfold set_mode in E4. destruct (mode_of_enum (cf_mode k)) as [m|] eqn:Em; [|discriminate]. injection E4 as <-.
      unfold set_err_mode in E5.
      repeat match type of E5 with (if ?b then _ else _) = _ => destruct b; [injection E5 as <-|] end; try discriminate;
      destruct (cf_abs_exp k =? 2 ^ 32 - 1), (cf_daz k =? 0), (cf_ftz k =? 0); unfold set_abs_exp in *;
        injection E6 as <-; injection E7 as <-; injection H as <-; cbn -[Z.pow]; lia.
  Qed.

  Lemma vrun_bounds qs c : vrun qs = Ok c -> in_bounds c.
  Proof.
    unfold vrun. assert (H0 : in_bounds vctx_init) by (unfold in_bounds; cbn; lia). revert H0. generalize vctx_init.
    induction qs as [|q qs IH]; intros c0 H0; cbn; [intros [= <-]; exact H0|].
    intros H. inv_bind H. eapply IH; [|exact H]. eapply vstep_bounds; eauto.
  Qed.

  (** no request can run into undefined behaviour or loop; the only failure is an exit with an error message *)
  Lemma vstep_total c q : (exists c', vstep c q = Ok c') \/ vstep c q = Exit.
  Proof.
    unfold vstep. destruct q as [o|u|k].
    - destruct o as [a|a|a|a|a|a|a| | |a|]; cbn [parse_opt]; unfold opt_num, set_all, set_prec32, set_range32, set_prec64, set_range64, set_mode, set_err_mode, set_abs_exp, bounded;
        repeat match goal with |- context [if ?b then _ else _] => destruct b | |- context [let '(_, _) := ?s in _] => destruct s
          | |- context [match ?s with Some _ => _ | None => _ end] => destruct s as [[]|] end; cbn [bind]; eauto.
    - destruct u; cbn [user_call]; unfold set_prec32, set_range32, set_prec64, set_range64, bounded;
        repeat match goal with |- context [if ?b then _ else _] => destruct b end; eauto.
    - unfold configure, set_prec32, set_range32, set_prec64, set_range64, set_mode, set_err_mode, set_abs_exp, bounded.
      destruct (if cf_preset k =? 2 ^ 32 - 1 then _ else _) as [[[[p32 p64] r32] r64]| | |] eqn:E; cbn [bind]; auto;
        try (destruct (cf_preset k =? 2 ^ 32 - 1); [discriminate|destruct (preset_of_enum _) as [[]|]; discriminate]).
      repeat match goal with |- context [if ?b then Exit else _] => destruct b; cbn [bind]; auto end.
      destruct (mode_of_enum (cf_mode k)); cbn [bind]; auto.
      do 3 (match goal with |- context [if ?b then _ else _] => destruct b; cbn [bind]; auto end).
      all: destruct (cf_abs_exp k =? 2 ^ 32 - 1), (cf_daz k =? 0), (cf_ftz k =? 0); cbn [bind]; eauto.
  Qed.
  Lemma opt_num_iff a lo hi f c : (exists c', opt_num a lo hi (fun v c => bounded lo hi v (Ok (f c v))) c = Ok c') <->
    snd (strtol a) = false /\ lo <= to_int (fst (strtol a)) <= hi.
  Proof.
    unfold opt_num, bounded. destruct (strtol a) as [l e]. cbn [fst snd].
    destruct e; cbn [orb]; [split; [intros [c' H]; discriminate|intros [H _]; discriminate]|].
    destruct (Z.ltb_spec (to_int l) lo); [split; [intros [c' H']; discriminate H'|lia]|].
    destruct (Z.ltb_spec hi (to_int l)); [split; [intros [c' H']; discriminate H'|lia]|].
    split; [intros _; split; [reflexivity|lia]|eauto].
  Qed.
  Lemma bounded_iff lo hi v k : (exists c' : vctx, bounded lo hi v (Ok k) = Ok c') <-> lo <= v <= hi.
  Proof.
    unfold bounded. destruct (Z.ltb_spec v lo); [split; [intros [c' H']; discriminate H'|lia]|].
    destruct (Z.ltb_spec hi v); [split; [intros [c' H']; discriminate H'|lia]|]. split; [lia|eauto].
  Qed.
  Lemma str_eq_false a b : str_eq a b = false -> b <> a.
  Proof. unfold str_eq. destruct (string_dec a b); congruence. Qed.

  Lemma vstep_accepted c q : (exists c', vstep c q = Ok c') <->
    match q with
    | ROpt (OptPrec32 a) => snd (strtol a) = false /\ 1 <= to_int (fst (strtol a)) <= 23
    | ROpt (OptPrec64 a) => snd (strtol a) = false /\ 1 <= to_int (fst (strtol a)) <= 52
    | ROpt (OptRange32 a) => snd (strtol a) = false /\ 2 <= to_int (fst (strtol a)) <= 8
    | ROpt (OptRange64 a) => snd (strtol a) = false /\ 2 <= to_int (fst (strtol a)) <= 11
    | ROpt (OptMode a) => In (lower a) ["ieee"; "full"; "ib"; "ob"]%string
    | ROpt (OptErrMode a) => In (lower a) ["rel"; "abs"; "all"]%string
    | ROpt (OptErrExp a) => snd (strtol a) = false
    | ROpt (OptPreset a) => In a ["binary16"; "binary32"; "bfloat16"; "tensorfloat"; "fp24"; "PXR24"]%string
    | ROpt OptDaz | ROpt OptFtz | ROpt OptUnknown | RCall CallOther => True
    | RCall (CallPrec32 v) => 1 <= v <= 23
    | RCall (CallPrec64 v) => 1 <= v <= 52
    | RCall (CallRange32 v) => 2 <= v <= 8
    | RCall (CallRange64 v) => 2 <= v <= 11
    | RConf k =>
        (if cf_preset k =? 2 ^ 32 - 1 then
           1 <= to_int (cf_prec32 k) <= 23 /\ 1 <= to_int (cf_prec64 k) <= 52 /\
           2 <= to_int (cf_range32 k) <= 8 /\ 2 <= to_int (cf_range64 k) <= 11
         else In (cf_preset k) [0; 1; 2; 3; 4; 5]) /\
        In (cf_mode k) [0; 1; 2; 3] /\ In (cf_err_mode k) [0; 1; 2]
    end.
  Proof.
    unfold vstep. destruct q as [o|u|k].
    - destruct o as [a|a|a|a|a|a|a| | |a|]; cbn [parse_opt].
      + apply (opt_num_iff a 1 23 upd_prec32).
      + apply (opt_num_iff a 1 52 upd_prec64).
      + apply (opt_num_iff a 2 8 upd_range32).
      + apply (opt_num_iff a 2 11 upd_range64).
      + unfold strcase_eq, set_mode. cbn [mode_of_enum Z.eqb Pos.eqb].
        repeat match goal with |- context [str_eq ?x ?y] => let S := fresh "S" in destruct (str_eq x y) eqn:S;
          [apply str_eq_ok in S; split; [intros _; rewrite S; cbn; tauto|intros _; eexists; reflexivity]|apply str_eq_false in S] end.
        split; [intros [c' H']; discriminate H'|]. intros H. exfalso. cbn [In] in H. cbn [lower] in *.
        repeat destruct H as [H|H]; try (symmetry in H; contradiction); contradiction.
      + unfold strcase_eq, set_err_mode. cbn [Z.eqb Pos.eqb].
        repeat match goal with |- context [str_eq ?x ?y] => let S := fresh "S" in destruct (str_eq x y) eqn:S;
          [apply str_eq_ok in S; split; [intros _; rewrite S; cbn; tauto|intros _; eexists; reflexivity]|apply str_eq_false in S] end.
        split; [intros [c' H']; discriminate H'|]. intros H. exfalso. cbn [In] in H. cbn [lower] in *.
        repeat destruct H as [H|H]; try (symmetry in H; contradiction); contradiction.
      + destruct (strtol a) as [l e]. cbn [snd]. destruct e; [split; [intros [c' H']; discriminate H'|discriminate]|]. unfold set_abs_exp. split; eauto.
      + split; eauto.
      + split; eauto.
      + unfold preset_of_name.
        repeat match goal with |- context [str_eq ?x ?y] => let S := fresh "S" in destruct (str_eq x y) eqn:S;
          [apply str_eq_ok in S; split; [intros _; rewrite S; cbn; tauto|intros _; unfold set_all; cbn; eauto]|apply str_eq_false in S] end.
        split; [intros [c' H']; discriminate H'|]. intros H. exfalso. cbn [In] in H.
        repeat destruct H as [H|H]; try (symmetry in H; contradiction); contradiction.
      + split; eauto.
    - destruct u as [v|v|v|v|]; cbn [user_call]; [apply bounded_iff..|split; eauto].
    - split.
      + intros [c' H]. pose proof (vstep_effect c (RConf k) c' H) as He. cbn [effect] in He.
        pose proof (vstep_bounds vctx_init (RConf k)) as Hb. unfold configure in H.
        inv_bind H. destruct c0 as [[[p32 p64] r32] r64]. do 8 inv_bind H.
        apply bounded_ok in E0 as [-> ?], E1 as [-> ?], E2 as [-> ?], E3 as [-> ?]. clear Hb.
        destruct He as (He1 & He2 & He3 & _). split; [|split].
        * destruct (cf_preset k =? 2 ^ 32 - 1); [injection E as <- <- <- <-; auto|].
          destruct He1 as (p & r & Hin & _). apply (in_map (fun x => fst (fst x))) in Hin. exact Hin.
        * apply (in_map fst) in He2. exact He2.
        * cbn. intuition.
      + intros (Hp & Hm & He). unfold configure.
        assert (Q : exists p32 p64 r32 r64, (if cf_preset k =? 2 ^ 32 - 1 then
                 Ok (to_int (cf_prec32 k), to_int (cf_prec64 k), to_int (cf_range32 k), to_int (cf_range64 k))
               else match preset_of_enum (cf_preset k) with
                    | Some (p, r) => Ok (p, p, r, r) | None => Exit end) = Ok (p32, p64, r32, r64) /\
            1 <= p32 <= 23 /\ 1 <= p64 <= 52 /\ 2 <= r32 <= 8 /\ 2 <= r64 <= 11).
        { destruct (cf_preset k =? 2 ^ 32 - 1); [eauto 10|]. cbn [In] in Hp.
          repeat destruct Hp as [<-|Hp]; try contradiction; cbn; repeat eexists; lia. }
        destruct Q as (p32 & p64 & r32 & r64 & -> & B1 & B2 & B3 & B4). cbn [bind].
        unfold set_prec32, set_prec64, set_range32, set_range64, bounded.
        repeat match goal with |- context [?a <? ?b] => destruct (Z.ltb_spec a b); [lia|] end. cbn [bind].
        unfold set_mode, mode_of_enum, set_err_mode, set_abs_exp. cbn [In] in Hm, He.
        repeat destruct Hm as [<-|Hm]; try contradiction; cbn [Z.eqb Pos.eqb bind];
          repeat destruct He as [<-|He]; try contradiction; cbn [Z.eqb Pos.eqb bind];
          destruct (cf_abs_exp k =? 2 ^ 32 - 1), (cf_daz k =? 0), (cf_ftz k =? 0); cbn [bind]; eauto.
  Qed.
End config.
