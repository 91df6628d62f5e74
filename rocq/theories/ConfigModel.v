(** Configuration of the MCA, bitmask and cancellation backends: command line options, configure hooks and user calls.
    - src/backends/interflop-backend-mcaquad/interflop_mca.c L139-215, L684-700, L773-885, L901-915 ([QuadB])
    - src/backends/interflop-backend-mcaint/interflop_mca_int.c L104-191, L651-735, L751-766 ([IntB])
    - src/backends/interflop-backend-bitmask/interflop_bitmask.c L125-183, L544-635, L693-703
    - src/backends/interflop-backend-cancellation/interflop_cancellation.c L69-82, L213-245, L261-267
    As in VprecConfig.v, argp has already split the command line into options with their argument; interflop_strtol and
    interflop_strtod (value and error flag; the double is a bit pattern) are universally quantified; logger_error ends the
    program; warnings and information are not modelled. *)
From Coq Require Import String ZArith List Bool.
From Verif Require Import Common Bits FloatOps StdlibModel RngModel McaModel CancelModel BitmaskModel VprecConfig.
Import ListNotations.
Open Scope Z_scope.
Open Scope outcome_scope.

Inductive mbackend := QuadB | IntB.

(** the setters, mcaquad L139-215 and mcaint L104-191 (those of the precisions are in McaModel.v) *)
Definition upd_mmode (c : mctx) (m : mcamode) : mctx :=
  mk_mctx m (m_p32 c) (m_p64 c) (m_rel c) (m_abs c) (m_absexp c) (m_daz c) (m_ftz c) (m_choose c) (m_seed c) (m_sparsity c).
Definition upd_merr (c : mctx) (rel abs : bool) : mctx :=
  mk_mctx (m_mode c) (m_p32 c) (m_p64 c) rel abs (m_absexp c) (m_daz c) (m_ftz c) (m_choose c) (m_seed c) (m_sparsity c).
Definition upd_mexp (c : mctx) (e : Z) : mctx :=
  mk_mctx (m_mode c) (m_p32 c) (m_p64 c) (m_rel c) (m_abs c) (to_int e) (m_daz c) (m_ftz c) (m_choose c) (m_seed c) (m_sparsity c).
Definition upd_mdaz (c : mctx) (d : bool) : mctx :=
  mk_mctx (m_mode c) (m_p32 c) (m_p64 c) (m_rel c) (m_abs c) (m_absexp c) d (m_ftz c) (m_choose c) (m_seed c) (m_sparsity c).
Definition upd_mftz (c : mctx) (t : bool) : mctx :=
  mk_mctx (m_mode c) (m_p32 c) (m_p64 c) (m_rel c) (m_abs c) (m_absexp c) (m_daz c) t (m_choose c) (m_seed c) (m_sparsity c).
Definition upd_mseed (c : mctx) (s : Z) : mctx :=
  mk_mctx (m_mode c) (m_p32 c) (m_p64 c) (m_rel c) (m_abs c) (m_absexp c) (m_daz c) (m_ftz c) true s (m_sparsity c).
Definition upd_msparsity (c : mctx) (x : Z) : mctx :=
  mk_mctx (m_mode c) (m_p32 c) (m_p64 c) (m_rel c) (m_abs c) (m_absexp c) (m_daz c) (m_ftz c) (m_choose c) (m_seed c) x.
Definition set_mmode (c : mctx) (m : Z) : outcome mctx :=
  if m =? 0 then Ok (upd_mmode c mca_ieee) else if m =? 1 then Ok (upd_mmode c mca_mca)
  else if m =? 2 then Ok (upd_mmode c mca_pb) else if m =? 3 then Ok (upd_mmode c mca_rr) else Exit.
Definition set_merr (c : mctx) (m : Z) : outcome mctx :=
  if m =? 0 then Ok (upd_merr c true false) else if m =? 1 then Ok (upd_merr c false true)
  else if m =? 2 then Ok (upd_merr c true true) else Exit.
(** x <= 0 and x > 1 on floats: both false for a NaN *)
Definition not_positive (x : Z) : bool := fge binary32 0 x.
Definition above_one (x : Z) : bool := fgt binary32 x one32.
Definition set_msparsity (c : mctx) (x : Z) : outcome mctx := if not_positive x then Exit else Ok (upd_msparsity c x).

(** an unsigned long holding the signed value of strtol *)
Definition to_u64 (v : Z) : Z := v mod 2 ^ 64.

Inductive mopt := MPrec32 (a : string) | MPrec64 (a : string) | MMode (a : string) | MErrMode (a : string) | MErrExp (a : string)
                | MSeed (a : string) | MDaz | MFtz | MSparsity (a : string).
(** mcaquad_conf_t, mcaint_conf_t; the sparsity is a float *)
Record mconf := mk_mconf { mf_seed : Z; mf_sparsity : Z; mf_p32 : Z; mf_p64 : Z; mf_mode : Z; mf_err : Z; mf_absexp : Z; mf_daz : Z; mf_ftz : Z }.
Inductive mreq := MOpt (o : mopt) | MConf (k : mconf) | MCall32 (v : Z) | MCall64 (v : Z).

Section config.
  Context (strtol strtod : string -> Z * bool).

  (** parse_opt, mcaquad L773-885 *)
  Definition quad_option (c : mctx) (o : mopt) : outcome mctx :=
    match o with
    | MPrec32 a => let '(l, e) := strtol a in if (e : bool) || (to_int l <=? 0) then Exit else set_precision32 c (to_int l)
    | MPrec64 a => let '(l, e) := strtol a in if (e : bool) || (to_int l <=? 0) then Exit else set_precision64 c (to_int l)
    | MMode a => if strcase_eq "ieee" a then set_mmode c 0 else if strcase_eq "mca" a then set_mmode c 1
                 else if strcase_eq "pb" a then set_mmode c 2 else if strcase_eq "rr" a then set_mmode c 3 else Exit
    | MErrMode a => if strcase_eq "rel" a then set_merr c 0 else if strcase_eq "abs" a then set_merr c 1
                    else if strcase_eq "all" a then set_merr c 2 else Exit
    | MErrExp a => let '(l, e) := strtol a in if e : bool then Exit else Ok (upd_mexp c l)
    | MSeed a => let '(l, e) := strtol a in if e : bool then Exit else Ok (upd_mseed c (to_u64 l))
    | MDaz => Ok (upd_mdaz c true)
    | MFtz => Ok (upd_mftz c true)
    | MSparsity a => let '(d, e) := strtod a in let x := fconv binary64 binary32 d in
                     if not_positive x || e then Exit else set_msparsity c x
    end.
  (** parse_opt, mcaint L651-735; the error options do not exist (argp ends the program) *)
  Definition int_option (c : mctx) (o : mopt) : outcome mctx :=
    match o with
    | MPrec32 a => let '(l, e) := strtol a in if (e : bool) || negb (to_int l =? 24) then Exit else set_precision32 c (to_int l)
    | MPrec64 a => let '(l, e) := strtol a in if (e : bool) || negb (to_int l =? 53) then Exit else set_precision64 c (to_int l)
    | MErrMode _ | MErrExp _ => Exit
    | MSparsity a => let '(d, e) := strtod a in let x := fconv binary64 binary32 d in
                     if not_positive x || above_one x || e then Exit else set_msparsity c x
    | _ => quad_option c o
    end.

  (** configure, mcaquad L901-915 and mcaint L751-766 *)
  Definition mca_configure (b : mbackend) (c : mctx) (k : mconf) : outcome mctx :=
    let* c := set_msparsity (upd_mseed c (mf_seed k)) (mf_sparsity k) in
    let* c := set_precision32 c (to_int (mf_p32 k)) in
    let* c := set_precision64 c (to_int (mf_p64 k)) in
    let* c := set_mmode c (mf_mode k) in
    let* c := set_merr c (mf_err k) in
    let c := match b with
             | QuadB => if mf_absexp k =? 2 ^ 32 - 1 then c else upd_mexp c (mf_absexp k)
             | IntB => if (mf_err k =? 1) || (mf_err k =? 2) then upd_mexp c (mf_absexp k) else c
             end in
    Ok (upd_mftz (upd_mdaz c (negb (mf_daz k =? 0))) (negb (mf_ftz k =? 0))).

  (** user_call, mcaquad L684-700 (the two calls that change the context); mcaint has no user call *)
  Definition mstep (b : mbackend) (c : mctx) (q : mreq) : outcome mctx :=
    match q with
    | MOpt o => match b with QuadB => quad_option c o | IntB => int_option c o end
    | MConf k => mca_configure b c k
    | MCall32 v => match b with QuadB => set_precision32 c v | IntB => Ok c end
    | MCall64 v => match b with QuadB => set_precision64 c v | IntB => Ok c end
    end.
  Definition mrun (b : mbackend) (qs : list mreq) : outcome mctx := ofold (mstep b) qs mca_defaults.

  (** bitmask: parse_opt L544-635 *)
  Inductive bopt := BPrec32 (a : string) | BPrec64 (a : string) | BMode (a : string) | BOper (a : string) | BSeed (a : string) | BDaz | BFtz.
  Definition bm_option (c : bctx) (o : bopt) : outcome bctx :=
    match o with
    | BPrec32 a => let '(l, e) := strtol a in if (e : bool) || (to_int l <=? 0) then Exit else BitmaskModel.set_prec32 c (to_int l)
    | BPrec64 a => let '(l, e) := strtol a in if (e : bool) || (to_int l <=? 0) then Exit else BitmaskModel.set_prec64 c (to_int l)
    | BMode a => if strcase_eq "ieee" a then Ok (BitmaskModel.set_mode c bm_ieee) else if strcase_eq "full" a then Ok (BitmaskModel.set_mode c bm_full)
                 else if strcase_eq "ib" a then Ok (BitmaskModel.set_mode c bm_ib) else if strcase_eq "ob" a then Ok (BitmaskModel.set_mode c bm_ob) else Exit
    | BOper a => if strcase_eq "zero" a then Ok (set_oper c bop_zero) else if strcase_eq "one" a then Ok (set_oper c bop_one)
                 else if strcase_eq "rand" a then Ok (set_oper c bop_rand) else Exit
    | BSeed a => let '(l, e) := strtol a in if e : bool then Exit else Ok (set_bseed c (to_u64 l))
    | BDaz => Ok (set_flush c true (b_ftz c))
    | BFtz => Ok (set_flush c (b_daz c) true)
    end.
  Definition bm_run (os : list bopt) : outcome bctx := ofold bm_option os bitmask_defaults.

  (** cancellation: the context with its warning flag; parse_opt L213-245, configure L261-267 *)
  Inductive copt := CTolerance (a : string) | CWarning (a : string) | CSeed (a : string).
  Definition cc_option (c : cctx * bool) (o : copt) : outcome (cctx * bool) :=
    match o with
    | CTolerance a => let '(l, e) := strtol a in if e : bool then Exit else let* t := set_tolerance (fst c) l in Ok (t, snd c)
    | CWarning _ => Ok (fst c, true)
    | CSeed a => let '(l, e) := strtol a in if e : bool then Exit else Ok (mk_cctx (c_tolerance (fst c)) true (to_u64 l), snd c)
    end.
  Definition cc_run (os : list copt) : outcome (cctx * bool) := ofold cc_option os (cancel_defaults, false).
  Definition cc_configure (tolerance : Z) (warning : Z) (seed : Z) : cctx * bool := (mk_cctx tolerance true seed, negb (warning =? 0)).
End config.
