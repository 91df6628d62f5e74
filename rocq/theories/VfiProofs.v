(** Proofs about function instrumentation: precisions in force, rounding of arguments, bounds. *)
From Coq Require Import ZArith Reals List Bool Lia Lra.
From Flocq Require Import Core.
From Verif Require Import Common Text HashModel Bits BitsFacts FloatReal FloatValue StdlibModel StdlibProofs VprecModel VprecRound VprecValue VprecDenormal
  VprecMain VprecProps VprecConfig FuncModel DdebugModel WrapParseProofs VfiModel.
Import ListNotations.
Open Scope Z_scope.
Open Scope outcome_scope.

Ltac bo H := let a := fresh "a" in let E := fresh "E" in apply bind_ok in H; destruct H as (a & E & H); cbv beta in H.

Definition cfg (v : vfi) : Z * Z * Z * Z := (v_prec64 v, v_range64 v, v_prec32 v, v_range32 v).
(** the configuration of a function: the one of the table, the largest precisions for a function met for the first time *)
Definition conf (t : vtab) (k : Z) : Z * Z * Z * Z := match tget t k with Some v => cfg v | None => (52, 11, 23, 8) end.

Lemma tget_tset t k v k' : tget (tset t k v) k' = if k' =? k then Some v else tget t k'.
Proof.
  induction t as [|[q w] t IH]; cbn [tset tget]; [destruct (k' =? k); reflexivity|].
  destruct (Z.eqb_spec k q) as [->|N]; cbn [tget].
  - destruct (Z.eqb_spec k' q); reflexivity.
  - destruct (Z.eqb_spec k' q) as [->|N']; [|exact IH]. destruct (Z.eqb_spec q k); [congruence|reflexivity].
Qed.

Lemma set_precisions_ok v c c' : set_precisions v c = Ok c' ->
  precisions c' = cfg v /\ vmode_of c' = vmode_of c /\ abs_err c' = abs_err c /\ daz c' = daz c /\ ftz c' = ftz c /\ abs_exp c' = abs_exp c /\ rel_err c' = rel_err c.
Proof.
  intros H. unfold set_precisions in H. bo H. bo H. bo H.
  apply bounded_ok in E, E0, E1, H. destruct E as [-> _], E0 as [-> _], E1 as [-> _], H as [-> _]. repeat split; reflexivity.
Qed.

Definition tables_agree (t t' : vtab) : Prop :=
  (forall k, conf t' k = conf t k) /\ (forall k, tget t k <> None -> tget t' k <> None).
Lemma agree_set t k v : conf t k = cfg v -> tables_agree t (tset t k v).
Proof.
  intros H. split; intros q; unfold conf; rewrite tget_tset; destruct (Z.eqb_spec q k) as [->|N]; try reflexivity; try discriminate; auto.
Qed.

Section sem.
  Context (sem : shift_sem) (m : inst_mode).

  Lemma enter_ok f st args s s' args' : vfi_enter sem m (f :: st) args s = Ok (s', args') ->
    tables_agree (vs_tab s) (vs_tab s') /\ tget (vs_tab s') (fkey f) <> None /\
    (if user_function f && sets_operations m then precisions (vs_ctx s') = conf (vs_tab s) (fkey f) else vs_ctx s' = vs_ctx s).
  Proof.
    intros H. unfold vfi_enter in H. bo H. bo H. bo H. bo H. destruct a2 as [ds args1]. apply Ok_inj in H. injection H as <- <-. cbn [vs_ctx vs_tab].
    assert (C : conf (vs_tab s) (fkey f) = cfg a).
    { unfold conf. destruct (tget (vs_tab s) (fkey f)); [apply Ok_inj in E; congruence|].
      unfold new_function in E. bo E. apply Ok_inj in E. subst a. reflexivity. }
    split; [|split].
    - apply agree_set. exact C.
    - rewrite tget_tset, Z.eqb_refl. discriminate.
    - destruct (user_function f && sets_operations m); [|apply Ok_inj in E1; congruence].
      apply set_precisions_ok in E1. rewrite C. apply E1.
  Qed.

  Lemma exit_ok f st args s s' args' : vfi_exit sem m (f :: st) args s = Ok (s', args') ->
    tables_agree (vs_tab s) (vs_tab s') /\
    match st with
    | p :: _ => if user_function p && sets_operations m then tget (vs_tab s) (fkey p) <> None -> precisions (vs_ctx s') = conf (vs_tab s) (fkey p)
                else vs_ctx s' = vs_ctx s
    | [] => vs_ctx s' = vs_ctx s
    end.
  Proof.
    intros H. unfold vfi_exit in H. bo H. destruct (tget (vs_tab s) (fkey f)) as [v|] eqn:G; [|discriminate].
    bo H. destruct a0 as [ds args1]. apply Ok_inj in H. injection H as <- <-. cbn [vs_ctx vs_tab]. split.
    - apply agree_set. unfold conf. rewrite G. reflexivity.
    - destruct st as [|p st]; [apply Ok_inj in E; congruence|]. destruct (user_function p && sets_operations m); [|apply Ok_inj in E; congruence].
      unfold conf. destruct (tget (vs_tab s) (fkey p)); [|congruence]. intros _. apply set_precisions_ok in E. apply E.
  Qed.

  (** the functions whose precision the backend manages *)
  Definition setter (f : finfo) : bool := told f && user_function f.
  Fixpoint quiet (it : item) : bool := match it with Op => true | Call f _ body _ => negb (told f) && forallb quiet body end.
  (** functions that are not managed (library, intrinsic, or without float and double) do not call managed ones *)
  Fixpoint sane (it : item) : bool := match it with Op => true | Call f _ body _ => if setter f then forallb sane body else forallb quiet body end.

  Fixpoint item_ind' (P : item -> Prop) (HO : P Op) (HC : forall f ins body outs, Forall P body -> P (Call f ins body outs)) (it : item) : P it :=
    match it with
    | Op => HO
    | Call f ins body outs => HC f ins body outs ((fix go (b : list item) : Forall P b := match b with [] => @List.Forall_nil item P | it :: b' => @List.Forall_cons item P it b' (item_ind' P HO HC it) (go b') end) body)
    end.

  Lemma run_call f ins body outs st s : run_item sem m st (Call f ins body outs) s =
    let* s1 := if told f then let* '(s1, _) := vfi_enter sem m (f :: st) ins (fst s) in Ok (s1, snd s) else Ok s in
    let* s2 := run_body sem m (f :: st) body s1 in
    if told f then let* '(s3, _) := vfi_exit sem m (f :: st) outs (fst s2) in Ok (s3, snd s2) else Ok s2.
  Proof.
    cbn [run_item]. destruct (if told f then _ else _) as [s1| | |]; cbn [bind]; try reflexivity.
    match goal with |- bind ?x _ = bind ?y _ => replace x with y; [reflexivity|] end.
    revert s1. induction body as [|it b IH]; intros s1; [reflexivity|]. cbn [run_body]. destruct (run_item sem m (f :: st) it s1); cbn [bind]; auto.
  Qed.

  Notation entry := (list finfo * (Z * Z * Z * Z))%type.
  Lemma quiet_item it : forall st s log s' log', quiet it = true -> run_item sem m st it (s, log) = Ok (s', log') ->
    s' = s /\ exists new, log' = new ++ log /\ Forall (fun e : entry => snd e = precisions (vs_ctx s) /\ find setter (fst e) = find setter st) new.
  Proof.
    induction it as [|f ins body outs IH] using item_ind'; intros st s log s' log' Q H.
    - cbn in H. apply Ok_inj in H. injection H as <- <-. split; [reflexivity|]. exists [(st, precisions (vs_ctx s))]. split; [reflexivity|]. repeat constructor.
    - cbn [quiet] in Q. apply andb_prop in Q. destruct Q as [T Q]. apply negb_true_iff in T. rewrite run_call, T in H. cbn [bind] in H. bo H. apply Ok_inj in H. subst a.
      assert (F : find setter (f :: st) = find setter st) by (cbn [find]; unfold setter; rewrite T; reflexivity).
      clear T outs ins. revert s log s' log' E Q. induction IH as [|it body IHit _ IH]; intros s log s' log' E Q.
      + apply Ok_inj in E. injection E as <- <-. split; [reflexivity|]. exists []. split; [reflexivity|constructor].
      + cbn [forallb] in Q. apply andb_prop in Q. destruct Q as [Q1 Q2]. cbn [run_body] in E. bo E. destruct a as [s1 log1].
        apply IHit in E0; [|exact Q1]. destruct E0 as (-> & n1 & -> & N1). apply IH in E; [|exact Q2]. destruct E as (-> & n2 & -> & N2).
        split; [reflexivity|]. exists (n2 ++ n1). rewrite app_assoc. split; [reflexivity|]. apply Forall_app. split; [exact N2|].
        eapply List.Forall_impl; [|exact N1]. intros e [A B]. rewrite F in B. auto.
  Qed.
  Lemma quiet_body b : forall st s log s' log', forallb quiet b = true -> run_body sem m st b (s, log) = Ok (s', log') ->
    s' = s /\ exists new, log' = new ++ log /\ Forall (fun e : entry => snd e = precisions (vs_ctx s) /\ find setter (fst e) = find setter st) new.
  Proof.
    induction b as [|it b IH]; intros st s log s' log' Q E.
    - apply Ok_inj in E. injection E as <- <-. split; [reflexivity|]. exists []. split; [reflexivity|constructor].
    - cbn [forallb] in Q. apply andb_prop in Q. destruct Q as [Q1 Q2]. cbn [run_body] in E. bo E. destruct a as [s1 log1].
      apply quiet_item in E0; [|exact Q1]. destruct E0 as (-> & n1 & -> & N1). apply IH in E; [|exact Q2]. destruct E as (-> & n2 & -> & N2).
      split; [reflexivity|]. exists (n2 ++ n1). rewrite app_assoc. split; [reflexivity|]. apply Forall_app. split; assumption.
  Qed.

  Section ops.
    Context (t0 : vtab) (Hm : sets_operations m = true).
    Definition in_force (e : entry) : Prop := match find setter (fst e) with Some f => snd e = conf t0 (fkey f) | None => True end.
    Definition vinv (st : list finfo) (s : vstate) : Prop :=
      (forall k, conf (vs_tab s) k = conf t0 k) /\ (forall g, In g st -> setter g = true -> tget (vs_tab s) (fkey g) <> None) /\
      in_force (st, precisions (vs_ctx s)).

    Lemma setter_user f : setter f = true -> user_function f = true.
    Proof. unfold setter. intros H. apply andb_prop in H. apply H. Qed.

    Lemma sane_item it : forall st s log s' log', sane it = true -> (st = [] \/ exists p st', st = p :: st' /\ setter p = true) ->
      vinv st s -> Forall in_force log -> run_item sem m st it (s, log) = Ok (s', log') -> vinv st s' /\ Forall in_force log'.
    Proof.
      induction it as [|f ins body outs IH] using item_ind'; intros st s log s' log' S T I L H.
      - cbn in H. apply Ok_inj in H. injection H as <- <-. split; [exact I|]. constructor; [exact (proj2 (proj2 I))|exact L].
      - rewrite run_call in H. cbn [sane] in S. bo H. bo H. destruct a0 as [s2 log2].
        destruct (setter f) eqn:Sf.
        + assert (Tf : told f = true) by (unfold setter in Sf; apply andb_prop in Sf; apply Sf).
          rewrite Tf in E, H. cbn [fst snd] in E, H. bo E. destruct a0 as [s1 x1]. apply Ok_inj in E. subst a.
          apply enter_ok in E1. destruct E1 as ([A1 A2] & A3 & A4). rewrite (setter_user f Sf), Hm in A4. cbn [andb] in A4.
          destruct I as (I1 & I2 & I3).
          assert (I' : vinv (f :: st) s1).
          { split; [|split].
            - intros k. rewrite A1. apply I1.
            - intros g [<-|G] Sg; [exact A3|]. apply A2, I2; assumption.
            - unfold in_force. cbn [fst snd find]. rewrite Sf, A4. apply I1. }
          assert (B : vinv (f :: st) s2 /\ Forall in_force log2).
          { assert (T' : f :: st = [] \/ exists p st', f :: st = p :: st' /\ setter p = true) by (right; exists f, st; auto).
            clear H A1 A2 A3 A4 I1 I2 I3. revert s1 log s2 log2 E0 I' L S. induction IH as [|it body IHit _ IH]; intros s1 log s2 log2 E0 I' L S.
            - apply Ok_inj in E0. injection E0 as <- <-. auto.
            - cbn [forallb] in S. apply andb_prop in S. destruct S as [S1 S2]. cbn [run_body] in E0. bo E0. destruct a as [sa la].
              destruct (IHit _ _ _ _ _ S1 T' I' L E) as [J K]. apply (IH _ _ _ _ E0 J K S2). }
          destruct B as [(B1 & B2 & B3) LB]. bo H. destruct a as [s3 x3]. apply Ok_inj in H. injection H as <- <-.
          apply exit_ok in E. destruct E as ([C1 C2] & C3). split; [|exact LB]. split; [|split].
          * intros k. rewrite C1. apply B1.
          * intros g G Sg. apply C2, B2; [right; exact G|exact Sg].
          * destruct T as [->|(p & st' & -> & Sp)]; [exact I|]. rewrite (setter_user p Sp), Hm in C3. cbn [andb] in C3.
            unfold in_force. cbn [fst snd find]. rewrite Sp, C3; [apply B1|]. apply B2; [right; left; reflexivity|exact Sp].
        + assert (F : find setter (f :: st) = find setter st) by (cbn [find]; rewrite Sf; reflexivity).
          destruct (told f) eqn:Tf.
          * cbn [fst snd] in E, H. bo E. destruct a0 as [s1 x1]. apply Ok_inj in E. subst a.
            assert (U : user_function f = false) by (unfold setter in Sf; rewrite Tf in Sf; exact Sf).
            apply enter_ok in E1. destruct E1 as ([A1 A2] & A3 & A4). rewrite U in A4. cbn [andb] in A4.
            destruct I as (I1 & I2 & I3).
            apply quiet_body in E0; [|exact S]. destruct E0 as (-> & new & -> & N).
            bo H. destruct a as [s3 x3]. apply Ok_inj in H. injection H as <- <-. apply exit_ok in E. destruct E as ([C1 C2] & C3).
            split; [split; [|split]|].
            -- intros k. rewrite C1, A1. apply I1.
            -- intros g G Sg. apply C2, A2, I2; assumption.
            -- destruct T as [->|(p & st' & -> & Sp)]; [exact I|]. rewrite (setter_user p Sp), Hm in C3. cbn [andb] in C3.
               unfold in_force. cbn [fst snd find]. rewrite Sp, C3; [rewrite A1; apply I1|]. apply A2, I2; [left; reflexivity|exact Sp].
            -- apply Forall_app. split; [|exact L]. eapply List.Forall_impl; [|exact N]. intros e [X Y]. unfold in_force in *. rewrite Y, X, F, A4. exact I3.
          * apply Ok_inj in E. subst a. apply Ok_inj in H. injection H as <- <-. apply quiet_body in E0; [|exact S]. destruct E0 as (-> & new & -> & N).
            split; [exact I|]. apply Forall_app. split; [|exact L]. eapply List.Forall_impl; [|exact N].
            intros e [X Y]. unfold in_force in *. rewrite Y, X, F. exact (proj2 (proj2 I)).
    Qed.
    Lemma sane_body b : forall st s log s' log', forallb sane b = true -> (st = [] \/ exists p st', st = p :: st' /\ setter p = true) ->
      vinv st s -> Forall in_force log -> run_body sem m st b (s, log) = Ok (s', log') -> vinv st s' /\ Forall in_force log'.
    Proof.
      induction b as [|it b IH]; intros st s log s' log' S T I L E.
      - apply Ok_inj in E. injection E as <- <-. auto.
      - cbn [forallb] in S. apply andb_prop in S. destruct S as [S1 S2]. cbn [run_body] in E. bo E. destruct a as [sa la].
        destruct (sane_item _ _ _ _ _ _ S1 T I L E0) as [J K]. apply (IH _ _ _ _ _ S2 T J K E).
    Qed.
  End ops.

  (** other modes never touch the precisions *)
  Lemma item_other (Hm : sets_operations m = false) it : forall st s log s' log', run_item sem m st it (s, log) = Ok (s', log') -> vs_ctx s' = vs_ctx s.
  Proof.
    induction it as [|f ins body outs IH] using item_ind'; intros st s log s' log' H; [cbn in H; apply Ok_inj in H; injection H as <- <-; reflexivity|].
    rewrite run_call in H. bo H. bo H. destruct a as [s1 log1], a0 as [s2 log2].
    assert (B : vs_ctx s2 = vs_ctx s1).
    { clear H E. revert s1 log1 E0. induction IH as [|it body IHit _ IH]; intros s1 log1 E0; [apply Ok_inj in E0; congruence|].
      cbn [run_body] in E0. bo E0. destruct a as [sa la]. apply IH in E0. apply IHit in E. congruence. }
    assert (A : vs_ctx s1 = vs_ctx s).
    { destruct (told f); [|apply Ok_inj in E; congruence]. bo E. destruct a as [sa la]. apply Ok_inj in E. apply enter_ok in E1.
      rewrite Hm, andb_false_r in E1. cbn [fst] in E1. injection E as <- _. apply E1. }
    destruct (told f); [|apply Ok_inj in H; congruence]. bo H. destruct a as [sa la]. apply Ok_inj in H. apply exit_ok in E1. cbn [fst] in E1.
    rewrite Hm in E1. destruct E1 as [_ E1]. destruct st as [|p st]; [|rewrite andb_false_r in E1]; injection H as <- _; congruence.
  Qed.
End sem.

(** ** Arguments *)
Lemma zfloor_spec f x : zfloor f x = Zfloor (fval f x).
Proof.
  unfold zfloor, fval. destruct (Z.leb_spec 0 (sexp f x)).
  - rewrite <- IZR_Zpower by assumption. rewrite <- mult_IZR, Zfloor_IZR. reflexivity.
  - assert (P : (bpow radix2 (sexp f x) = / IZR (2 ^ (- sexp f x)))%R).
    { replace (sexp f x) with (- - sexp f x)%Z at 1 by lia. rewrite bpow_opp. f_equal. symmetry. apply (IZR_Zpower radix2). lia. }
    rewrite P. symmetry. apply Zfloor_div. apply Z.pow_nonzero; lia.
Qed.
Lemma zceil_spec f x : zceil f x = Zceil (fval f x).
Proof.
  unfold Zceil. rewrite <- (Z.opp_involutive (zceil f x)). f_equal. unfold zceil, fval. destruct (Z.leb_spec 0 (sexp f x)).
  - rewrite <- IZR_Zpower by assumption. rewrite <- mult_IZR, <- opp_IZR, Zfloor_IZR. reflexivity.
  - rewrite Z.opp_involutive.
    assert (P : (bpow radix2 (sexp f x) = / IZR (2 ^ (- sexp f x)))%R).
    { replace (sexp f x) with (- - sexp f x)%Z at 1 by lia. rewrite bpow_opp. f_equal. symmetry. apply (IZR_Zpower radix2). lia. }
    rewrite P, Ropp_mult_distr_l, <- opp_IZR. symmetry. apply Zfloor_div. apply Z.pow_nonzero; lia.
Qed.
Lemma arg_fmt_cfmt t : arg_fmt t = binary32 \/ arg_fmt t = binary64.
Proof. unfold arg_fmt. destruct (is_float t); auto. Qed.

(** bounds only grow, except at the first call *)
Definition wider (d d' : varg) : Prop := a_min d' <= a_min d /\ a_max d <= a_max d'.
Definition covers (d : varg) (X : R) : Prop := (IZR (a_min d) <= X <= IZR (a_max d))%R.
Lemma covers_wider d d' X : covers d X -> wider d d' -> covers d' X.
Proof. intros [A B] [C D]. apply IZR_le in C, D. split; lra. Qed.

Lemma update_bounds_ok x d new t d' : update_bounds x d new t = Ok d' -> 0 <= x ->
  a_id d' = a_id d /\ a_type d' = a_type d /\ a_mant d' = a_mant d /\ a_exp d' = a_exp d /\
  a_min d' = (if new then Zfloor (fval (arg_fmt t) x) else Z.min (a_min d) (Zfloor (fval (arg_fmt t) x))) /\
  a_max d' = (if new then Zceil (fval (arg_fmt t) x) else Z.max (a_max d) (Zceil (fval (arg_fmt t) x))).
Proof.
  intros H Hx. unfold update_bounds in H. destruct (is_float t || is_double t); [|discriminate]. bo H. bo H.
  assert (N : interflop_isnan (arg_fmt t) x = false /\ interflop_isinf (arg_fmt t) x = false).
  { apply ifp_no_special; [|apply cfmt_ok, arg_fmt_cfmt|exact Hx]. destruct (arg_fmt_cfmt t) as [-> | ->]; cbn; lia. }
  destruct N as [N1 N2]. rewrite N1, N2 in H. cbn [orb] in H. apply Ok_inj in H. subst d'. cbn.
  unfold int_floor, int_ceil, int_op in *. destruct (is_finite (arg_fmt t) x); [|discriminate].
  destruct (in_int (zfloor (arg_fmt t) x)); [|discriminate]. destruct (in_int (zceil (arg_fmt t) x)); [|discriminate].
  apply Ok_inj in E, E0. rewrite zfloor_spec in E. rewrite zceil_spec in E0. subst a a0. repeat split.
  - destruct new; [rewrite orb_true_r; reflexivity|]. rewrite orb_false_r. destruct (Z.ltb_spec (Zfloor (fval (arg_fmt t) x)) (a_min d)); lia.
  - destruct new; [rewrite orb_true_r; reflexivity|]. rewrite orb_false_r. destruct (Z.ltb_spec (a_max d) (Zceil (fval (arg_fmt t) x))); lia.
Qed.
Lemma update_bounds_covers x d new t d' : update_bounds x d new t = Ok d' -> 0 <= x ->
  covers d' (fval (arg_fmt t) x) /\ (new = false -> wider d d').
Proof.
  intros H Hx. apply update_bounds_ok in H; [|exact Hx]. destruct H as (_ & _ & _ & _ & A & B).
  pose proof (Zfloor_lb (fval (arg_fmt t) x)) as F. pose proof (Zceil_ub (fval (arg_fmt t) x)) as C. split.
  - unfold covers. rewrite A, B. destruct new; [lra|]. split.
    + eapply Rle_trans; [|exact F]. apply IZR_le. lia.
    + eapply Rle_trans; [exact C|]. apply IZR_le. lia.
  - intros ->. split; [rewrite A|rewrite B]; lia.
Qed.
Lemma update_bounds_wider x d t d' : update_bounds x d false t = Ok d' -> wider d d'.
Proof.
  intros H. unfold update_bounds in H. destruct (is_float t || is_double t); [|discriminate]. bo H. bo H.
  destruct (_ || _) in H; apply Ok_inj in H; subst d'; [split; lia|]. split; cbn; rewrite orb_false_r.
  - destruct (Z.ltb_spec a (a_min d)); lia.
  - destruct (Z.ltb_spec (a_max d) a0); lia.
Qed.

Section args.
  Context (sem : shift_sem).

  Lemma iterate_inv {A} (P : A -> Prop) n g (a b : A) : (forall x y, P x -> g x = Ok y -> P y) -> P a -> iterate n g a = Ok b -> P b.
  Proof.
    intros HP. revert a. induction n as [|n IH]; intros a Pa H; cbn [iterate] in H; [apply Ok_inj in H; congruence|].
    bo H. apply (IH a0); [apply (HP a); assumption|exact H].
  Qed.
  Lemma iterate_last {A} n g (a b : A) : iterate (S n) g a = Ok b -> exists x, g x = Ok b.
  Proof.
    revert a. induction n as [|n IH]; intros a H; cbn [iterate] in H.
    - bo H. apply Ok_inj in H. subst. eauto.
    - bo H. apply (IH a0). exact H.
  Qed.

  (** the element that is read and written *)
  Definition touched (a : parg) : bool := is_scalar (p_type a) || (is_pointer (p_type a) && (0 <? p_size a)).
  Definition head_cell (a : parg) : option Z := match p_cells a with Some (x :: _) => Some x | _ => None end.

  Lemma do_arg_bounds inp new mode ctx d a d' a' : do_arg sem inp new mode ctx d a = Ok (d', a') ->
    p_type a' = p_type a /\ p_size a' = p_size a /\ (new = false -> wider d d') /\
    (forall y, touched a = true -> head_cell a' = Some y -> 0 <= y -> covers d' (fval (arg_fmt (p_type a)) y)).
  Proof.
    intros H. unfold do_arg in H. bo H. rename a0 into d0.
    assert (W : new = false -> wider d d0) by (intros ->; apply Ok_inj in E; subst; split; lia).
    assert (W2 : forall x d, new = false -> forall y d1, do_cell sem inp (a_exp d) (a_mant d) new mode (p_type a) ctx (x, d) = Ok (y, d1) -> wider d d1).
    { intros x dd -> y d1 K. unfold do_cell in K. bo K. bo K. apply Ok_inj in K. injection K as _ <-. apply update_bounds_wider in E1. exact E1. }
    unfold touched. destruct (is_scalar (p_type a)) eqn:Sc.
    - destruct (p_cells a) as [[|x l]|] eqn:C; try discriminate. bo H. destruct a0 as [y d1]. apply Ok_inj in H. injection H as <- <-.
      cbn [p_type p_size]. split; [reflexivity|]. split; [reflexivity|]. unfold do_cell in E0. bo E0. bo E0. apply Ok_inj in E0. injection E0 as <- <-. split.
      + intros ->. apply update_bounds_wider in E2. destruct (W eq_refl), E2. split; lia.
      + intros z _ Hz Hp. cbn in Hz. injection Hz as <-. apply update_bounds_covers in E2; [|exact Hp]. apply E2.
    - cbn [orb]. destruct (is_pointer (p_type a)) eqn:Po; [|apply Ok_inj in H; injection H as <- <-; split; [reflexivity|]; split; [reflexivity|]; split; [exact W|]; intros y K; discriminate].
      destruct (p_cells a) as [l|] eqn:C.
      2:{ apply Ok_inj in H. injection H as <- <-. split; [reflexivity|]. split; [reflexivity|]. split; [exact W|]. intros y _ Hy. unfold head_cell in Hy. rewrite C in Hy. discriminate. }
      destruct (Z.leb_spec (p_size a) 0).
      { apply Ok_inj in H. injection H as <- <-. split; [reflexivity|]. split; [reflexivity|]. split; [exact W|]. cbn [andb].
        destruct (Z.ltb_spec 0 (p_size a)); [lia|discriminate]. }
      destruct l as [|x l]; [discriminate|]. bo H. destruct a0 as [y d1]. apply Ok_inj in H. injection H as <- <-.
      cbn [p_type p_size]. split; [reflexivity|]. split; [reflexivity|]. split.
      + intros ->. assert (I : wider d0 d1).
        { apply (iterate_inv (fun s => wider d0 (snd s)) _ _ (x, d0) (y, d1)) in E0; [exact E0| |split; cbn; lia].
          intros [x1 e1] [x2 e2] [Wa Wb] K. unfold do_cell in K. bo K. bo K. apply Ok_inj in K. injection K as _ <-. apply update_bounds_wider in E2.
          cbn [snd] in *. destruct E2. split; lia. }
        destruct (W eq_refl), I. split; lia.
      + intros z _ Hz Hp. cbn in Hz. injection Hz as <-. destruct (Z.to_nat (p_size a)) as [|n] eqn:Nn; [lia|].
        apply iterate_last in E0. destruct E0 as [[x0 e0] K]. unfold do_cell in K. bo K. bo K. apply Ok_inj in K. injection K as <- <-.
        apply update_bounds_covers in E1; [|exact Hp]. apply E1.
  Qed.

  Lemma do_args_length inp new mode ctx : forall args ds ds' args', do_args sem inp new mode ctx ds args = Ok (ds', args') ->
    length ds' = length ds /\ length args' = length args.
  Proof.
    induction args as [|a args IH]; intros ds ds' args' H; cbn [do_args] in H; [apply Ok_inj in H; injection H as <- <-; auto|].
    destruct ds as [|d ds]; [discriminate|]. bo H. destruct a0 as [d1 a1]. bo H. destruct a0 as [ds1 args1]. apply Ok_inj in H. injection H as <- <-.
    apply IH in E0. cbn [length]. lia.
  Qed.
  Lemma do_args_bounds inp new mode ctx : forall args ds ds' args', do_args sem inp new mode ctx ds args = Ok (ds', args') ->
    (new = false -> Forall2 wider ds ds') /\
    forall i a a' y, nth_error args i = Some a -> nth_error args' i = Some a' -> touched a = true -> head_cell a' = Some y -> 0 <= y ->
      exists d', nth_error ds' i = Some d' /\ covers d' (fval (arg_fmt (p_type a)) y).
  Proof.
    induction args as [|a args IH]; intros ds ds' args' H; cbn [do_args] in H.
    - apply Ok_inj in H. injection H as <- <-. split; [intros _; induction ds; constructor; [split; lia|assumption]|]. intros [|i]; discriminate.
    - destruct ds as [|d ds]; [discriminate|]. bo H. destruct a0 as [d1 a1]. bo H. destruct a0 as [ds1 args1]. apply Ok_inj in H. injection H as <- <-.
      apply do_arg_bounds in E. destruct E as (_ & _ & E1 & E2). apply IH in E0. destruct E0 as [E3 E4]. split; [intros N; constructor; auto|].
      intros [|i] b b' y; cbn [nth_error]; [|apply E4]. intros [= <-] [= <-] T Hy Hp. exists d1. split; [reflexivity|]. apply E2; assumption.
  Qed.

  Lemma enter_inputs m f st args s s' args' : vfi_enter sem m (f :: st) args s = Ok (s', args') -> length args' = length args /\
    exists v, tget (vs_tab s') (fkey f) = Some v /\
      (match option_map v_in (tget (vs_tab s) (fkey f)) with
       | Some (Some ds) => exists ds', v_in v = Some ds' /\ Forall2 wider ds ds'
       | _ => True end) /\
      forall i a a' y, nth_error args i = Some a -> nth_error args' i = Some a' -> touched a = true -> head_cell a' = Some y -> 0 <= y ->
        exists ds d', v_in v = Some ds /\ nth_error ds i = Some d' /\ covers d' (fval (arg_fmt (p_type a)) y).
  Proof.
    intros H. unfold vfi_enter in H. bo H. bo H. bo H. bo H. destruct a2 as [ds args1]. apply Ok_inj in H. injection H as <- <-. cbn [vs_tab].
    split; [apply do_args_length in E2; lia|]. rewrite tget_tset, Z.eqb_refl. eexists. split; [reflexivity|]. cbn [v_in].
    destruct (do_args_bounds _ _ _ _ _ _ _ _ E2) as [W C]. split.
    - destruct (tget (vs_tab s) (fkey f)) as [v|]; cbn [option_map]; [|exact I]. apply Ok_inj in E. subst a.
      destruct (v_in v) as [l|]; [|exact I]. exists ds. split; [reflexivity|]. apply W. reflexivity.
    - intros i b b' y N1 N2 T Hy Hp. destruct (C i b b' y N1 N2 T Hy Hp) as (d' & D1 & D2).
      destruct (v_in a) as [l|] eqn:Va; [exists ds, d'; auto|]. destruct (0 <? Z.of_nat (length args)) eqn:Z0; [exists ds, d'; auto|].
      destruct args; [destruct i; discriminate|]. cbn [length] in Z0. apply Z.ltb_ge in Z0. lia.
  Qed.
  Lemma exit_outputs m f st args s s' args' : vfi_exit sem m (f :: st) args s = Ok (s', args') -> length args' = length args /\
    exists v, tget (vs_tab s') (fkey f) = Some v /\
      (match option_map v_out (tget (vs_tab s) (fkey f)) with
       | Some (Some ds) => exists ds', v_out v = Some ds' /\ Forall2 wider ds ds'
       | _ => True end) /\ option_map v_in (tget (vs_tab s) (fkey f)) = Some (v_in v) /\
      forall i a a' y, nth_error args i = Some a -> nth_error args' i = Some a' -> touched a = true -> head_cell a' = Some y -> 0 <= y ->
        exists ds d', v_out v = Some ds /\ nth_error ds i = Some d' /\ covers d' (fval (arg_fmt (p_type a)) y).
  Proof.
    intros H. unfold vfi_exit in H. bo H. destruct (tget (vs_tab s) (fkey f)) as [v|] eqn:G; [|discriminate].
    bo H. destruct a0 as [ds args1]. apply Ok_inj in H. injection H as <- <-. cbn [vs_tab].
    split; [apply do_args_length in E0; lia|]. rewrite tget_tset, Z.eqb_refl. eexists. split; [reflexivity|]. cbn [v_out v_in option_map].
    destruct (do_args_bounds _ _ _ _ _ _ _ _ E0) as [W C]. split; [|split; [reflexivity|]].
    - destruct (v_out v) as [l|]; [|exact I]. exists ds. split; [reflexivity|]. apply W. reflexivity.
    - intros i b b' y N1 N2 T Hy Hp. destruct (C i b b' y N1 N2 T Hy Hp) as (d' & D1 & D2).
      destruct (v_out v) as [l|] eqn:Va; [exists ds, d'; auto|]. destruct (0 <? Z.of_nat (length args)) eqn:Z0; [exists ds, d'; auto|].
      destruct args; [destruct i; discriminate|]. cbn [length] in Z0. apply Z.ltb_ge in Z0. lia.
  Qed.
End args.

(** ** Histories of enters and exits *)
Inductive vevent := EvEnter (stack : list finfo) (args : list parg) | EvExit (stack : list finfo) (args : list parg).
Definition vfi_event (sem : shift_sem) (m : inst_mode) (s : vstate) (e : vevent) : outcome vstate :=
  match e with
  | EvEnter st args => let* '(s', _) := vfi_enter sem m st args s in Ok s'
  | EvExit st args => let* '(s', _) := vfi_exit sem m st args s in Ok s'
  end.
Definition vfi_events (sem : shift_sem) (m : inst_mode) (h : list vevent) (s : vstate) : outcome vstate := ofold (vfi_event sem m) h s.

Lemma wider_refl ds : Forall2 wider ds ds.
Proof. induction ds; constructor; [split; lia|assumption]. Qed.
Lemma wider_trans ds1 ds2 ds3 : Forall2 wider ds1 ds2 -> Forall2 wider ds2 ds3 -> Forall2 wider ds1 ds3.
Proof.
  intros H. revert ds3. induction H as [|a b l l' W _ IH]; intros ds3 K; inversion K as [|? c ? l2 W2 K2]; subst; constructor; auto.
  destruct W, W2. split; lia.
Qed.
Lemma wider_nth ds ds' i d : Forall2 wider ds ds' -> nth_error ds i = Some d -> exists d', nth_error ds' i = Some d' /\ wider d d'.
Proof.
  intros H. revert i d. induction H as [|a b l l' W _ IH]; intros [|i] d N; cbn in N; try discriminate; [|apply IH; exact N].
  injection N as <-. exists b. auto.
Qed.

(** the descriptors of a function only grow *)
Definition keeps (t t' : vtab) : Prop := forall k v, tget t k = Some v -> exists v', tget t' k = Some v' /\
  (forall ds, v_in v = Some ds -> exists ds', v_in v' = Some ds' /\ Forall2 wider ds ds') /\
  (forall ds, v_out v = Some ds -> exists ds', v_out v' = Some ds' /\ Forall2 wider ds ds').
Lemma keeps_refl t : keeps t t.
Proof. intros k v H. exists v. split; [exact H|]. split; intros ds E; exists ds; split; auto using wider_refl. Qed.
Lemma keeps_trans t1 t2 t3 : keeps t1 t2 -> keeps t2 t3 -> keeps t1 t3.
Proof.
  intros A B k v H. destruct (A k v H) as (v2 & H2 & A1 & A2). destruct (B k v2 H2) as (v3 & H3 & B1 & B2). exists v3. split; [exact H3|]. split; intros ds E.
  - destruct (A1 ds E) as (d2 & E2 & W2). destruct (B1 d2 E2) as (d3 & E3 & W3). exists d3. split; [exact E3|]. eapply wider_trans; eassumption.
  - destruct (A2 ds E) as (d2 & E2 & W2). destruct (B2 d2 E2) as (d3 & E3 & W3). exists d3. split; [exact E3|]. eapply wider_trans; eassumption.
Qed.
Lemma event_keeps sem m s e s' : vfi_event sem m s e = Ok s' -> keeps (vs_tab s) (vs_tab s').
Proof.
  intros H. destruct e as [[|f st] args|[|f st] args]; cbn [vfi_event] in H; bo H; try discriminate; destruct a as [s1 args']; apply Ok_inj in H; subst s1.
  - unfold vfi_enter in E. bo E. bo E. bo E. bo E. destruct a2 as [ds args1]. apply Ok_inj in E. injection E as <- <-. cbn [vs_tab].
    intros k v G. rewrite tget_tset. destruct (Z.eqb_spec k (fkey f)) as [->|N].
    + rewrite G in E0. apply Ok_inj in E0. subst a. eexists. split; [reflexivity|]. cbn. split; intros dd V; rewrite V in *.
      * exists ds. split; [reflexivity|]. apply do_args_bounds in E3. apply E3. reflexivity.
      * exists dd. split; [reflexivity|apply wider_refl].
    + apply (keeps_refl _ k v G).
  - unfold vfi_exit in E. bo E. destruct (tget (vs_tab s) (fkey f)) as [w|] eqn:G; [|discriminate].
    bo E. destruct a0 as [ds args1]. apply Ok_inj in E. injection E as <- <-. cbn [vs_tab].
    intros k v G'. rewrite tget_tset. destruct (Z.eqb_spec k (fkey f)) as [->|N].
    + rewrite G in G'. injection G' as <-. eexists. split; [reflexivity|]. cbn. split; intros dd V; rewrite V in *.
      * exists dd. split; [reflexivity|apply wider_refl].
      * exists ds. split; [reflexivity|]. apply do_args_bounds in E1. apply E1. reflexivity.
    + apply (keeps_refl _ k v G').
Qed.
Lemma events_keep sem m h : forall s s', vfi_events sem m h s = Ok s' -> keeps (vs_tab s) (vs_tab s').
Proof.
  induction h as [|e h IH]; intros s s' H; cbn in H; [apply Ok_inj in H; subst; apply keeps_refl|].
  bo H. eapply keeps_trans; [eapply event_keeps; exact E|apply IH; exact H].
Qed.

Lemma enter_covered sem m f st args s s1 args' h s2 i a a' y :
  vfi_enter sem m (f :: st) args s = Ok (s1, args') -> vfi_events sem m h s1 = Ok s2 ->
  nth_error args i = Some a -> nth_error args' i = Some a' -> touched a = true -> head_cell a' = Some y -> 0 <= y ->
  exists v ds d, tget (vs_tab s2) (fkey f) = Some v /\ v_in v = Some ds /\ nth_error ds i = Some d /\ covers d (fval (arg_fmt (p_type a)) y).
Proof.
  intros H K N N' T Hy Hp. apply enter_inputs in H. destruct H as (_ & v & G & _ & C). destruct (C i a a' y N N' T Hy Hp) as (ds & d & V & D & X).
  destruct (events_keep _ _ _ _ _ K _ _ G) as (v' & G' & W & _). destruct (W ds V) as (ds' & V' & Wd). destruct (wider_nth _ _ _ _ Wd D) as (d' & D' & Wi).
  exists v', ds', d'. repeat split; auto; apply (covers_wider _ _ _ X Wi).
Qed.
Lemma exit_covered sem m f st args s s1 args' h s2 i a a' y :
  vfi_exit sem m (f :: st) args s = Ok (s1, args') -> vfi_events sem m h s1 = Ok s2 ->
  nth_error args i = Some a -> nth_error args' i = Some a' -> touched a = true -> head_cell a' = Some y -> 0 <= y ->
  exists v ds d, tget (vs_tab s2) (fkey f) = Some v /\ v_out v = Some ds /\ nth_error ds i = Some d /\ covers d (fval (arg_fmt (p_type a)) y).
Proof.
  intros H K N N' T Hy Hp. apply exit_outputs in H. destruct H as (_ & v & G & _ & _ & C). destruct (C i a a' y N N' T Hy Hp) as (ds & d & V & D & X).
  destruct (events_keep _ _ _ _ _ K _ _ G) as (v' & G' & _ & W). destruct (W ds V) as (ds' & V' & Wd). destruct (wider_nth _ _ _ _ Wd D) as (d' & D' & Wi).
  exists v', ds', d'. repeat split; auto; apply (covers_wider _ _ _ X Wi).
Qed.

(** ** What rounding does to the arguments of a known function *)
Definition arg_legal (sem : shift_sem) (d : varg) (a : parg) : Prop :=
  let f := arg_fmt (p_type a) in
  2 <= a_exp d <= ew f /\ 1 <= a_mant d <= mw f /\ (sem = Strict -> a_mant d <= mw f - 1) /\
  match head_cell a with Some x => is_bits f x | None => True end.
(** the first element is replaced by its rounding; nothing else changes *)
Definition first_rounded (sem : shift_sem) (inp : bool) (ctx : vctx) (d : varg) (a a' : parg) : Prop :=
  p_type a' = p_type a /\ p_id a' = p_id a /\ p_size a' = p_size a /\
  match p_cells a with
  | Some (x :: l) => if touched a then exists y, vprec_round sem (arg_fmt (p_type a)) x inp ctx (a_exp d) (a_mant d) = Ok y /\ p_cells a' = Some (y :: l)
                     else p_cells a' = p_cells a
  | c => p_cells a' = c
  end.
Lemma scalar_float t : is_scalar t = true -> is_float t || is_double t = true.
Proof. unfold is_scalar, is_float, is_double, FFLOAT, FDOUBLE. destruct (t =? 0), (t =? 1); cbn; rewrite ?orb_true_r; cbn; congruence. Qed.
Lemma pointer_float t : is_pointer t = true -> is_float t || is_double t = true.
Proof. unfold is_pointer, is_float, is_double, FFLOAT_PTR, FDOUBLE_PTR. destruct (t =? 3), (t =? 4); cbn; rewrite ?orb_true_r; cbn; congruence. Qed.

Lemma do_arg_rounded sem inp ctx d a d' a' : arg_legal sem d a -> abs_err ctx = false -> do_arg sem inp false true ctx d a = Ok (d', a') ->
  first_rounded sem inp ctx d a a'.
Proof.
  intros (L1 & L2 & L3 & L4) Ab H. unfold do_arg in H. cbn [bind] in H. unfold first_rounded, touched.
  destruct (is_scalar (p_type a)) eqn:Sc.
  - destruct (p_cells a) as [[|x l]|] eqn:C; try discriminate. bo H. destruct a0 as [y d1]. apply Ok_inj in H. injection H as <- <-. cbn.
    repeat (split; [reflexivity|]). unfold do_cell in E. bo E. bo E. apply Ok_inj in E. injection E as <- <-.
    unfold round_cell in E0. cbn in E0. rewrite (scalar_float _ Sc) in E0. eauto.
  - cbn [orb]. destruct (is_pointer (p_type a)) eqn:Po.
    2:{ apply Ok_inj in H. injection H as <- <-. repeat (split; [reflexivity|]). cbn. destruct (p_cells a) as [[|]|]; reflexivity. }
    destruct (p_cells a) as [l|] eqn:C; [|apply Ok_inj in H; injection H as <- <-; auto].
    destruct (Z.leb_spec (p_size a) 0).
    { apply Ok_inj in H. injection H as <- <-. repeat (split; [reflexivity|]). destruct l; [exact C|]. destruct (Z.ltb_spec 0 (p_size a)); [lia|]. exact C. }
    destruct l as [|x l]; [discriminate|]. bo H. destruct a0 as [y d1]. apply Ok_inj in H. injection H as <- <-. cbn [p_type p_id p_size p_cells].
    repeat (split; [reflexivity|]). destruct (Z.ltb_spec 0 (p_size a)); [|lia]. cbn [andb]. exists y. split; [|reflexivity].
    unfold head_cell in L4. rewrite C in L4. destruct (Z.to_nat (p_size a)) as [|n] eqn:Nn; [lia|]. cbn [iterate] in E. bo E. destruct a0 as [y1 e1].
    assert (R1 : forall x0 e0 y0 e2, do_cell sem inp (a_exp d) (a_mant d) false true (p_type a) ctx (x0, e0) = Ok (y0, e2) ->
                 vprec_round sem (arg_fmt (p_type a)) x0 inp ctx (a_exp d) (a_mant d) = Ok y0).
    { intros x0 e0 y0 e2 K. unfold do_cell in K. bo K. bo K. apply Ok_inj in K. injection K as <- <-. unfold round_cell in E1. cbn in E1.
      rewrite (pointer_float _ Po) in E1. exact E1. }
    pose proof (R1 _ _ _ _ E0) as F.
    pose proof (vround_idempotent sem (arg_fmt (p_type a)) (arg_fmt_cfmt _) (a_exp d) (a_mant d) L1 (conj L2 L3) ctx Ab inp x y1 L4 F) as Id. cbv beta in Id.
    assert (Y : y = y1).
    { apply (iterate_inv (fun s => fst s = y1) _ _ (y1, e1) (y, d1)) in E; [exact E| |reflexivity].
      intros [x2 e2] [x3 e3] Hx K. cbn [fst] in *. subst x2. apply R1 in K. rewrite Id in K. apply Ok_inj in K. congruence. }
    subst y1. exact F.
Qed.
Lemma do_args_rounded sem inp ctx : abs_err ctx = false -> forall args ds ds' args', do_args sem inp false true ctx ds args = Ok (ds', args') ->
  (forall i d a, nth_error ds i = Some d -> nth_error args i = Some a -> arg_legal sem d a) ->
  forall i a, nth_error args i = Some a -> exists d a', nth_error ds i = Some d /\ nth_error args' i = Some a' /\ first_rounded sem inp ctx d a a'.
Proof.
  intros Ab. induction args as [|a args IH]; intros ds ds' args' H L i b N; [destruct i; discriminate|]. cbn [do_args] in H.
  destruct ds as [|d ds]; [discriminate|]. bo H. destruct a0 as [d1 a1]. bo H. destruct a0 as [ds1 args1]. apply Ok_inj in H. injection H as <- <-.
  destruct i as [|i]; cbn [nth_error] in *.
  - injection N as <-. exists d, a1. split; [reflexivity|]. split; [reflexivity|]. apply (do_arg_rounded _ _ _ _ _ _ _ (L 0%nat d a eq_refl eq_refl) Ab E).
  - apply (IH _ _ _ E0 (fun j => L (S j)) i b N).
Qed.

Lemma enter_rounded sem m f st args s s' args' v ds : vfi_enter sem m (f :: st) args s = Ok (s', args') ->
  tget (vs_tab s) (fkey f) = Some v -> v_in v = Some ds -> rounds_inputs (vmode_of (vs_ctx s)) = true -> rounds_arguments m = true -> abs_err (vs_ctx s) = false ->
  (forall i d a, nth_error ds i = Some d -> nth_error args i = Some a -> arg_legal sem d a) ->
  forall i a, nth_error args i = Some a -> exists d a', nth_error ds i = Some d /\ nth_error args' i = Some a' /\ first_rounded sem true (vs_ctx s') d a a'.
Proof.
  intros H G V Mo Ma Ab L. unfold vfi_enter in H. rewrite G in H. cbn [bind] in H. bo H. bo H. rewrite V in H. bo H. destruct a1 as [ds1 args1].
  apply Ok_inj in H. injection H as <- <-. cbn [vs_ctx].
  assert (K : vmode_of a0 = vmode_of (vs_ctx s) /\ abs_err a0 = abs_err (vs_ctx s)).
  { destruct (user_function f && sets_operations m); [|apply Ok_inj in E0; subst; auto]. apply set_precisions_ok in E0. tauto. }
  destruct K as [K1 K2]. rewrite K1, Mo, Ma in E1. cbn [andb] in E1. apply (do_args_rounded sem true a0 ltac:(congruence) args ds ds1 args1 E1 L).
Qed.
Lemma exit_rounded sem m f st args s s' args' v ds : vfi_exit sem m (f :: st) args s = Ok (s', args') ->
  tget (vs_tab s) (fkey f) = Some v -> v_out v = Some ds -> rounds_output (vmode_of (vs_ctx s)) = true -> rounds_arguments m = true -> abs_err (vs_ctx s) = false ->
  (forall i d a, nth_error ds i = Some d -> nth_error args i = Some a -> arg_legal sem d a) ->
  forall i a, nth_error args i = Some a -> exists d a', nth_error ds i = Some d /\ nth_error args' i = Some a' /\ first_rounded sem false (vs_ctx s') d a a'.
Proof.
  intros H G V Mo Ma Ab L. unfold vfi_exit in H. bo H. rewrite G in H. rewrite V in H. bo H. destruct a0 as [ds1 args1].
  apply Ok_inj in H. injection H as <- <-. cbn [vs_ctx].
  assert (K : vmode_of a = vmode_of (vs_ctx s) /\ abs_err a = abs_err (vs_ctx s)).
  { destruct st as [|p st]; [apply Ok_inj in E; subst; auto|]. destruct (user_function p && sets_operations m); [|apply Ok_inj in E; subst; auto].
    destruct (tget (vs_tab s) (fkey p)); [|apply Ok_inj in E; subst; auto]. apply set_precisions_ok in E. tauto. }
  destruct K as [K1 K2]. rewrite K1, Mo, Ma in E0. cbn [andb] in E0. apply (do_args_rounded sem false a ltac:(congruence) args ds ds1 args1 E0 L).
Qed.
