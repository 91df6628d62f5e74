(** Proofs about FuncPassModel.v: what a hook does. *)
From Coq Require Import String ZArith List Bool Lia.
From Verif Require Import Common Text FuncModel VfiModel InstrModel InstrProofs ModuleModel ModuleProofs FuncPassModel.
Import ListNotations.
Open Scope Z_scope.
Open Scope outcome_scope.

(** * What a hook should do *)
(** a parameter: its type, its name, the number of elements found for a pointer *)
Record param := mk_param { p_ty : ty; p_name : list Z; p_elements : Z }.
(** the description of a value: scalars by value, pointers by address, nothing for the rest *)
Definition describe (p : param) (v : list Z) : list desc :=
  match p_ty p, v with
  | Sca Float, [x] => [mk_desc FFLOAT (p_name p) 1 (Value x)]
  | Sca Double, [x] => [mk_desc FDOUBLE (p_name p) 1 (Value x)]
  | Sca Pointer, _ => [mk_desc FFLOAT_PTR (p_name p) (p_elements p) (Address v)]
  | _, _ => []
  end.
Fixpoint inputs (ps : list param) (args : list (list Z)) : list desc :=
  match ps, args with p :: ps', a :: args' => describe p a ++ inputs ps' args' | _, _ => [] end.
(** the arguments with the values the backends leave: one per description, used for float and double only *)
Fixpoint received (ps : list param) (args : list (list Z)) (vs : list Z) : outcome (list (list Z)) :=
  match ps, args with
  | [], [] => match vs with [] => Ok [] | _ => UB end
  | p :: ps', a :: args' =>
      match p_ty p with
      | Sca Float | Sca Double => match vs with x :: vs' => let* l := received ps' args' vs' in Ok ([x] :: l) | [] => UB end
      | Sca Pointer => match vs with _ :: vs' => let* l := received ps' args' vs' in Ok (a :: l) | [] => UB end
      | _ => let* l := received ps' args' vs in Ok (a :: l)
      end
  | _, _ => UB
  end.
Fixpoint addresses (ps : list param) (args : list (list Z)) : list desc :=
  match ps, args with
  | p :: ps', a :: args' => (match p_ty p with Sca Pointer => describe p a | _ => [] end) ++ addresses ps' args'
  | _, _ => []
  end.
Definition result_param (ret : ty) : param := mk_param ret (bytes "return_value") 0.
Definition outputs (ret : ty) (r : list Z) (ps : list param) (args : list (list Z)) : list desc := describe (result_param ret) r ++ addresses ps args.
Definition scalar_fp (t : ty) : bool := match t with Sca Float | Sca Double => true | _ => false end.
Definition same_length {A B} (l : list A) (m : list B) : bool := Nat.eqb (length l) (length m).
(** the value the caller receives *)
Definition answer (ret : ty) (r : list Z) (ds : list desc) (vs : list Z) : outcome (list Z) :=
  if same_length ds vs then Ok (if scalar_fp ret then firstn 1 vs else r) else UB.
Definition call_through {W} (enter exit : told_fun (W := W)) (f : finfo) (ret : ty) (ps : list param) (target : list (list Z) -> W -> outcome (list Z * W)) (args : list (list Z)) (w : W) : outcome (list Z * W) :=
  let* '(vs, w) := enter f (inputs ps args) w in
  let* args' := received ps args vs in
  let* '(r, w) := target args' w in
  if negb (scalar_fp ret) || Nat.eqb (length r) 1 then
    let* '(vs, w) := exit f (outputs ret r ps args) w in
    let* r := answer ret (if is_ty ret void then [] else r) (outputs ret r ps args) vs in
    Ok (r, w)
  else UB.

(** * Types *)
Lemma is_ty_eq t u : is_ty t u = true <-> t = u.
Proof. unfold is_ty. split; [apply ty_eqb_eq|intros ->; apply ty_eqb_refl]. Qed.
Lemma is_fp_scalar t : is_fp t = scalar_fp t.
Proof.
  apply eq_true_iff_eq. unfold is_fp. rewrite orb_true_iff, !is_ty_eq. unfold DoubleTy, FloatTy, scalar_fp.
  split; [intros [-> | ->]; reflexivity|destruct t as [[| | | |]| |]; try discriminate; auto].
Qed.
Lemma is_ptr_eq t : is_ptr t = true <-> t = Sca Pointer.
Proof. unfold is_ptr, PtrTy. apply is_ty_eq. Qed.
Inductive kind_of : ty -> Prop := KF : kind_of (Sca Float) | KD : kind_of (Sca Double) | KP : kind_of (Sca Pointer) | KO t : is_fp t = false -> is_ptr t = false -> ftype t = None -> match t with Sca Float | Sca Double | Sca Pointer => False | _ => True end -> kind_of t.
Lemma kind t : kind_of t.
Proof. destruct t as [[| | | |]| |]; try constructor; try exact I; try reflexivity. Qed.

(** values of the float and double arguments *)
Fixpoint fp_vals (ps : list param) (args : list (list Z)) : list Z :=
  match ps, args with p :: ps', a :: args' => (if scalar_fp (p_ty p) then match a with x :: _ => [x] | [] => [] end else []) ++ fp_vals ps' args' | _, _ => [] end.
Fixpoint new_vals (ps : list param) (vs : list Z) : list Z :=
  match ps, vs with
  | [], _ => []
  | p :: ps', _ => match p_ty p with
                   | Sca Float | Sca Double => match vs with x :: vs' => x :: new_vals ps' vs' | [] => [] end
                   | Sca Pointer => match vs with _ :: vs' => new_vals ps' vs' | [] => [] end
                   | _ => new_vals ps' vs
                   end
  end.
Fixpoint groups (ps : list param) (args : list (list Z)) (slot : nat) : list (desc * option nat) :=
  match ps, args with
  | p :: ps', a :: args' =>
      if scalar_fp (p_ty p) then map (fun d => (d, Some slot)) (describe p a) ++ groups ps' args' (S slot)
      else map (fun d => (d, None)) (describe p a) ++ groups ps' args' slot
  | _, _ => []
  end.
Lemma groups_inputs ps args slot : map fst (groups ps args slot) = inputs ps args.
Proof.
  revert args slot. induction ps as [|p ps IH]; intros [|a args] slot; try reflexivity. cbn [groups inputs].
  destruct (scalar_fp (p_ty p)); rewrite map_app, map_map, map_id, IH; reflexivity.
Qed.
Definition typed_args (ps : list param) (args : list (list Z)) : Prop := Forall2 (fun p a => typed (p_ty p) a = true) ps args.
Lemma typed_scalar s v : typed (Sca s) v = true -> exists x, v = [x].
Proof. cbn [typed]. destruct v as [|x [|]]; try discriminate. eauto. Qed.
Definition desc_fun (ps : list param) (k : nat) : list Z * Z := match nth_error ps k with Some p => (p_name p, p_elements p) | None => ([], 0) end.
Lemma fp_count ps args : typed_args ps args -> length (fp_vals ps args) = length (filter is_fp (map p_ty ps)).
Proof.
  intros H. induction H as [|p a ps args Ha H IH]; [reflexivity|]. cbn [fp_vals map filter]. rewrite app_length, IH, is_fp_scalar.
  destruct (p_ty p) as [[| | | |]| |]; cbn [scalar_fp]; try reflexivity; apply typed_scalar in Ha; destruct Ha as [x ->]; reflexivity.
Qed.
Lemma set_nth_app {A} (l1 : list A) x y l2 : set_nth (l1 ++ y :: l2) (length l1) x = l1 ++ x :: l2.
Proof. induction l1 as [|z l1 IH]; [reflexivity|]. cbn. rewrite IH. reflexivity. Qed.
Lemma nth_error_mid {A} (l1 : list A) x l2 : nth_error (l1 ++ x :: l2) (length l1) = Some x.
Proof. induction l1; [reflexivity|assumption]. Qed.

Section hook.
  Context {W : Type} (enter exit : told_fun (W := W)) (target : list (list Z) -> W -> outcome (list Z * W)) (f : finfo).
  Notation run_ops := (run_ops enter exit target f).

  Lemma run_allocs args n ops sl tm r w : run_ops args (repeat OAlloca n ++ ops) (mk_hstate sl tm r w) = run_ops args ops (mk_hstate (sl ++ repeat None n) tm r w).
  Proof.
    revert sl. induction n as [|n IH]; intros sl; cbn [repeat app]; [rewrite app_nil_r; reflexivity|]. cbn [FuncPassModel.run_ops hs_slots hs_tmps hs_ret hs_w].
    rewrite IH. rewrite <- app_assoc. reflexivity.
  Qed.
  Lemma slot_set_mid l1 y l2 tm r (w : W) x : slot_set (mk_hstate (l1 ++ y :: l2) tm r w) (length l1) x = Ok (mk_hstate (l1 ++ Some x :: l2) tm r w).
  Proof.
    unfold slot_set. cbn [hs_slots hs_tmps hs_ret hs_w]. rewrite app_length. cbn [length].
    replace (Nat.ltb (length l1) (length l1 + S (length l2))) with true by (symmetry; apply Nat.ltb_lt; lia). rewrite set_nth_app. reflexivity.
  Qed.
  Lemma slot_get_mid l1 y l2 tm r (w : W) : slot_get (mk_hstate (l1 ++ Some y :: l2) tm r w) (length l1) = Ok y.
  Proof. unfold slot_get. cbn [hs_slots]. rewrite nth_error_mid. reflexivity. Qed.

  Lemma run_stores call d done args pre ops tm r w ps rest : typed_args ps args ->
    run_ops (done ++ args) (fst (input_args call (map p_ty ps) (length done) (length pre) d) ++ ops) (mk_hstate (pre ++ repeat None (length (fp_vals ps args)) ++ rest) tm r w) =
    run_ops (done ++ args) ops (mk_hstate (pre ++ map Some (fp_vals ps args) ++ rest) tm r w).
  Proof.
    intros H. revert done pre. induction H as [|p a ps args Ha H IH]; intros done pre; [reflexivity|]. cbn [map input_args fp_vals].
    destruct (kind (p_ty p)) as [| | |t K1 K2 K3 K4]; cbn [is_fp is_ty ty_eqb FloatTy DoubleTy scalar_eqb orb andb].
    1,2: cbn [is_fp is_ty ty_eqb FloatTy DoubleTy scalar_eqb orb scalar_fp]; apply typed_scalar in Ha; destruct Ha as [x ->]; change (is_fp (Sca Float)) with true; change (is_fp (Sca Double)) with true; cbv iota;
      specialize (IH (done ++ [[x]]) (pre ++ [Some x])); rewrite !app_length in IH; cbn [length] in IH; rewrite !Nat.add_1_r in IH;
      destruct (input_args call (map p_ty ps) (S (length done)) (S (length pre)) d) as [st va]; cbn [fst app length repeat map] in *;
      cbn [FuncPassModel.run_ops hget]; rewrite nth_error_mid; cbn [bind]; rewrite slot_set_mid; cbn [bind];
      rewrite <- !app_assoc in IH; cbn [app] in IH; rewrite IH; rewrite <- ?app_assoc; reflexivity.
    - change (is_fp (Sca Pointer)) with false. cbv iota. cbn [scalar_fp app]. specialize (IH (done ++ [a]) pre). rewrite app_length in IH. cbn [length] in IH. rewrite Nat.add_1_r in IH.
      destruct (input_args call (map p_ty ps) (S (length done)) (length pre) d) as [st va]. cbn [fst] in *. rewrite <- !app_assoc in IH. cbn [app] in IH. exact IH.
    - rewrite K1. assert (scalar_fp t = false) by (rewrite <- is_fp_scalar; exact K1). rewrite H0. cbn [app]. specialize (IH (done ++ [a]) pre). rewrite app_length in IH. cbn [length] in IH. rewrite Nat.add_1_r in IH.
      destruct (input_args call (map p_ty ps) (S (length done)) (length pre) d) as [st va]. cbn [fst] in *. rewrite <- !app_assoc in IH. cbn [app] in IH. exact IH.
  Qed.

  Lemma read_inputs d done args pre tm r (w : W) ps rest more : typed_args ps args -> (forall j p, nth_error ps j = Some p -> d (length done + j)%nat = (p_name p, p_elements p)) ->
    read_groups (done ++ args) (mk_hstate (pre ++ map Some (fp_vals ps args) ++ rest) tm r w) (length (filter (fun t => is_fp t || (is_ptr t && true)) (map p_ty ps)))
      (snd (input_args true (map p_ty ps) (length done) (length pre) d) ++ more) = Ok (groups ps args (length pre)).
  Proof.
    intros H. revert done pre. induction H as [|p a ps args Ha H IH]; intros done pre Hd; [reflexivity|]. cbn [map input_args fp_vals groups filter].
    pose proof (Hd O p eq_refl) as D. rewrite Nat.add_0_r in D. rewrite D. cbn [fst snd].
    destruct p as [t nm el]. cbn [p_ty p_name p_elements] in *.
    destruct (kind t) as [| | |t K1 K2 K3 K4].
    1,2: apply typed_scalar in Ha; destruct Ha as [x ->]; change (is_fp (Sca Float)) with true; change (is_fp (Sca Double)) with true; cbn [orb scalar_fp]; cbv iota;
      specialize (IH (done ++ [[x]]) (pre ++ [Some x])); rewrite !app_length in IH; cbn [length] in IH; rewrite !Nat.add_1_r in IH;
      destruct (input_args true (map p_ty ps) (S (length done)) (S (length pre)) d) as [st va]; cbn [fst snd app length map] in *;
      change (ftype (Sca Float)) with (Some FFLOAT); change (ftype (Sca Double)) with (Some FDOUBLE); cbn [read_groups app]; rewrite slot_get_mid; cbn [bind]; rewrite <- !app_assoc in IH; cbn [app] in IH; rewrite IH by (intros j p Hj; rewrite <- (Hd (S j) p Hj); f_equal; lia); reflexivity.
    - change (is_fp (Sca Pointer)) with false. change (is_ptr (Sca Pointer)) with true. cbn [orb andb scalar_fp app length]. cbv iota.
      specialize (IH (done ++ [a]) pre). rewrite !app_length in IH. cbn [length] in IH. rewrite !Nat.add_1_r in IH.
      destruct (input_args true (map p_ty ps) (S (length done)) (length pre) d) as [st va]. cbn [fst snd app length map] in *.
      change (ftype (Sca Pointer)) with (Some FFLOAT_PTR). cbn [read_groups hget app]. rewrite nth_error_mid. cbn [bind]. rewrite <- !app_assoc in IH. cbn [app] in IH. rewrite IH by (intros j p Hj; rewrite <- (Hd (S j) p Hj); f_equal; lia). reflexivity.
    - assert (Es : scalar_fp t = false) by (rewrite <- is_fp_scalar; exact K1). rewrite K1, K2, K3, Es. cbn [orb andb app].
      specialize (IH (done ++ [a]) pre). rewrite !app_length in IH. cbn [length] in IH. rewrite !Nat.add_1_r in IH.
      destruct (input_args true (map p_ty ps) (S (length done)) (length pre) d) as [st va]. cbn [fst snd app length map] in *.
      rewrite <- !app_assoc in IH. cbn [app] in IH. rewrite IH by (intros j p Hj; rewrite <- (Hd (S j) p Hj); f_equal; lia).
      assert (Ed : describe (mk_param t nm el) a = []) by (unfold describe; cbn [p_ty]; destruct t as [[| | | |]| |]; try contradiction; reflexivity). rewrite Ed. reflexivity.
  Qed.
  Lemma write_inputs args pre tm r (w : W) ps rest vs : typed_args ps args ->
    write_back (groups ps args (length pre)) vs (mk_hstate (pre ++ map Some (fp_vals ps args) ++ rest) tm r w) =
    if same_length (inputs ps args) vs then Ok (mk_hstate (pre ++ map Some (new_vals ps vs) ++ rest) tm r w) else UB.
  Proof.
    intros H. revert pre vs. induction H as [|p a ps args Ha H IH]; intros pre vs; [destruct vs; reflexivity|]. cbn [map fp_vals groups inputs new_vals].
    destruct p as [t nm el]. unfold describe. cbn [p_ty p_name p_elements] in *.
    destruct (kind t) as [| | |t K1 K2 K3 K4].
    1,2: apply typed_scalar in Ha; destruct Ha as [x ->]; cbn [scalar_fp map app write_back]; destruct vs as [|v vs]; [reflexivity|]; rewrite slot_set_mid; cbn [bind];
      specialize (IH (pre ++ [Some v]) vs); rewrite !app_length in IH; cbn [length] in IH; rewrite !Nat.add_1_r in IH; rewrite <- !app_assoc in IH; cbn [app] in IH;
      rewrite IH; reflexivity.
    - cbn [scalar_fp map app write_back]. destruct vs as [|v vs]; [reflexivity|]. rewrite IH. reflexivity.
    - assert (Es : scalar_fp t = false) by (rewrite <- is_fp_scalar; exact K1). rewrite Es.
      destruct t as [[| | | |]| |]; try contradiction; cbn [map app]; apply IH.
  Qed.
  Lemma run_loads args pre l ops tm r w tys k rest : length l = length (filter is_fp tys) ->
    run_ops args (fst (reloads tys k (length pre) (length tm)) ++ ops) (mk_hstate (pre ++ map Some l ++ rest) tm r w) = run_ops args ops (mk_hstate (pre ++ map Some l ++ rest) (tm ++ l) r w).
  Proof.
    revert l k pre tm. induction tys as [|t tys IH]; intros l k pre tm H; cbn [filter reloads] in *.
    - destruct l; [|discriminate]. rewrite app_nil_r. reflexivity.
    - destruct (is_fp t) eqn:E.
      + destruct l as [|x l]; [discriminate|]. cbn [length] in H. injection H as H. specialize (IH l (S k) (pre ++ [Some x]) (tm ++ [x]) H).
        rewrite !app_length in IH. cbn [length] in IH. rewrite !Nat.add_1_r in IH. destruct (reloads tys (S k) (S (length pre)) (S (length tm))) as [ls vs]. cbn [fst app map] in *.
        cbn [FuncPassModel.run_ops]. rewrite slot_get_mid. cbn [bind hs_slots hs_tmps hs_ret hs_w]. rewrite <- !app_assoc in IH. cbn [app] in IH. rewrite IH. reflexivity.
      + specialize (IH l (S k) pre tm H). destruct (reloads tys (S k) (length pre) (length tm)) as [ls vs]. exact IH.
  Qed.
  Lemma received_total ps args vs : typed_args ps args -> same_length (inputs ps args) vs = true -> exists l, received ps args vs = Ok l.
  Proof.
    intros H. revert vs. induction H as [|p a ps args Ha H IH]; intros vs E; cbn [inputs received] in *.
    - destruct vs; [eexists; reflexivity|discriminate].
    - unfold describe in E. destruct p as [t nm el]. cbn [p_ty] in *. destruct t as [[| | | |]| |]; try (destruct (IH vs E) as [l ->]; cbn [bind]; eexists; reflexivity);
        try (apply typed_scalar in Ha; destruct Ha as [x ->]); (destruct vs as [|v vs]; [discriminate|]); destruct (IH vs E) as [l ->]; cbn [bind]; eexists; reflexivity.
  Qed.
  Lemma received_none ps args vs : typed_args ps args -> same_length (inputs ps args) vs = false -> received ps args vs = UB.
  Proof.
    intros H. revert vs. induction H as [|p a ps args Ha H IH]; intros vs E; cbn [inputs received] in *.
    - destruct vs; [discriminate|reflexivity].
    - unfold describe in E. destruct p as [t nm el]. cbn [p_ty] in *. destruct t as [[| | | |]| |]; try (rewrite (IH vs E); reflexivity);
        try (apply typed_scalar in Ha; destruct Ha as [x ->]); (destruct vs as [|v vs]; [reflexivity|]); rewrite (IH vs E); reflexivity.
  Qed.
  Lemma get_args done args slots tm tm' r (w : W) ps vs l slot : typed_args ps args -> received ps args vs = Ok l ->
    hget_all (done ++ args) (mk_hstate slots (tm ++ new_vals ps vs ++ tm') r w) (snd (reloads (map p_ty ps) (length done) slot (length tm))) = Ok l.
  Proof.
    intros H. revert done tm vs l slot. induction H as [|p a ps args Ha H IH]; intros done tm vs l slot E; cbn [received map reloads new_vals] in *.
    - destruct vs; [injection E as <-; reflexivity|discriminate].
    - destruct p as [t nm el]. cbn [p_ty] in *.
      destruct (kind t) as [| | |t K1 K2 K3 K4].
      1,2: destruct vs as [|v vs]; [discriminate|]; destruct (received ps args vs) as [l'| | |] eqn:E'; try discriminate; cbn [bind] in E; injection E as <-;
        change (is_fp (Sca Float)) with true; change (is_fp (Sca Double)) with true; cbv iota;
        specialize (IH (done ++ [a]) (tm ++ [v]) vs l' (S slot) E'); rewrite !app_length in IH; cbn [length] in IH; rewrite !Nat.add_1_r in IH;
        destruct (reloads (map p_ty ps) (S (length done)) (S slot) (S (length tm))) as [ls hs]; cbn [snd] in *; cbn [hget_all hget hs_tmps app]; rewrite nth_error_mid; cbn [bind];
        rewrite <- !app_assoc in IH; cbn [app] in IH; rewrite IH; reflexivity.
      + destruct vs as [|v vs]; [discriminate|]. destruct (received ps args vs) as [l'| | |] eqn:E'; try discriminate. cbn [bind] in E. injection E as <-.
        change (is_fp (Sca Pointer)) with false. cbv iota. specialize (IH (done ++ [a]) tm vs l' slot E'). rewrite !app_length in IH. cbn [length] in IH. rewrite !Nat.add_1_r in IH.
        destruct (reloads (map p_ty ps) (S (length done)) slot (length tm)) as [ls hs]. cbn [snd] in *. cbn [hget_all hget]. rewrite nth_error_mid. cbn [bind].
        rewrite <- !app_assoc in IH. cbn [app] in IH. rewrite IH. reflexivity.
      + rewrite K1. assert (E2 : exists l', received ps args vs = Ok l' /\ l = a :: l') by (destruct t as [[| | | |]| |]; try contradiction; destruct (received ps args vs) as [l'| | |]; try discriminate; cbn [bind] in E; injection E as <-; eauto).
        destruct E2 as (l' & E' & ->). specialize (IH (done ++ [a]) tm vs l' slot E'). rewrite !app_length in IH. cbn [length] in IH. rewrite !Nat.add_1_r in IH.
        assert (En : match t with Sca Float | Sca Double => match vs with x :: vs' => x :: new_vals ps vs' | [] => [] end | Sca Pointer => match vs with _ :: vs' => new_vals ps vs' | [] => [] end | _ => new_vals ps vs end = new_vals ps vs) by (destruct t as [[| | | |]| |]; try contradiction; reflexivity).
        rewrite En. destruct (reloads (map p_ty ps) (S (length done)) slot (length tm)) as [ls hs]. cbn [snd] in *. cbn [hget_all hget]. rewrite nth_error_mid. cbn [bind].
        rewrite <- !app_assoc in IH. cbn [app] in IH. rewrite IH. reflexivity.
  Qed.
  Lemma new_count ps args vs : typed_args ps args -> same_length (inputs ps args) vs = true -> length (new_vals ps vs) = length (filter is_fp (map p_ty ps)).
  Proof.
    intros H. revert vs. induction H as [|p a ps args Ha H IH]; intros vs E; cbn [inputs new_vals map filter] in *; [reflexivity|].
    unfold describe in E. rewrite is_fp_scalar. destruct p as [t nm el]. cbn [p_ty] in *. destruct t as [[| | | |]| |]; try (apply IH; exact E);
      try (apply typed_scalar in Ha; destruct Ha as [x ->]); (destruct vs as [|v vs]; [discriminate|]); cbn [scalar_fp length]; rewrite ?(IH vs E); try reflexivity. 
  Qed.
  Lemma reload_count tys k slot tmp : length (fst (reloads tys k slot tmp)) = length (filter is_fp tys).
  Proof.
    revert k slot tmp. induction tys as [|t tys IH]; intros k slot tmp; [reflexivity|]. cbn [reloads filter]. destruct (is_fp t).
    - specialize (IH (S k) (S slot) (S tmp)). destruct (reloads tys (S k) (S slot) (S tmp)). cbn in *. lia.
    - specialize (IH (S k) slot tmp). destruct (reloads tys (S k) slot tmp). exact IH.
  Qed.
  Definition unslotted (d : desc) : desc * option nat := (d, None).
  Lemma read_addresses d done args st ps : typed_args ps args -> (forall j p, nth_error ps j = Some p -> d (length done + j)%nat = (p_name p, p_elements p)) ->
    read_groups (W := W) (done ++ args) st (length (filter (fun t => is_ptr t && true) (map p_ty ps))) (pointer_outputs true (map p_ty ps) (length done) d) = Ok (map unslotted (addresses ps args)).
  Proof.
    intros H. revert done. induction H as [|p a ps args Ha H IH]; intros done Hd; [reflexivity|]. cbn [map pointer_outputs addresses filter].
    pose proof (Hd O p eq_refl) as D. rewrite Nat.add_0_r in D. rewrite D. cbn [fst snd].
    specialize (IH (done ++ [a])). rewrite !app_length in IH. cbn [length] in IH. rewrite !Nat.add_1_r in IH. rewrite <- !app_assoc in IH. cbn [app] in IH.
    assert (IH' : forall j p, nth_error ps j = Some p -> d (S (length done) + j)%nat = (p_name p, p_elements p)) by (intros j q Hj; rewrite <- (Hd (S j) q Hj); f_equal; lia).
    specialize (IH IH'). destruct p as [t nm el]. cbn [p_ty p_name p_elements] in *. rewrite andb_true_r.
    destruct (kind t) as [| | |t K1 K2 K3 K4]; [exact IH|exact IH| |].
    - change (is_ptr (Sca Pointer)) with true. cbv iota. cbn [length app read_groups hget]. rewrite nth_error_mid. cbn [bind]. rewrite IH. reflexivity.
    - rewrite K2. destruct t as [[| | | |]| |]; try contradiction; exact IH.
  Qed.
  Lemma write_addresses ds vs (s : hstate (W := W)) : write_back (map unslotted ds) vs s = if same_length ds vs then Ok s else UB.
  Proof. revert vs. induction ds as [|d ds IH]; intros [|v vs]; try reflexivity. cbn [map write_back unslotted]. apply IH. Qed.

  (** ** The hook *)
  Theorem hook_runs name call ret d ps args w : typed_args ps args -> (forall j p, nth_error ps j = Some p -> d j = (p_name p, p_elements p)) ->
    run_hook enter exit target (mk_hook name call f (hook_code true ret (map p_ty ps) d 0)) args w = call_through enter exit f ret ps target args w.
  Proof.
    intros Ht Hd. unfold run_hook, call_through. cbn [h_fun h_code]. unfold hook_code.
    pose proof (fp_count ps args Ht) as Hc.
    set (pre := repeat (@None Z) (out_slots ret)).
    assert (Hp : out_slots ret = length pre) by (symmetry; apply repeat_length). 
    assert (Q1 := run_stores true d [] args pre). assert (Q2 := read_inputs d [] args pre). cbn [length app] in Q1, Q2.
    assert (Q3 := run_loads args pre). assert (Q4 := reload_count (map p_ty ps) 0 (out_slots ret) 0).
    rewrite Hp in *. destruct (input_args true (map p_ty ps) 0 (length pre) d) as [stores ins] eqn:Ei.
    destruct (reloads (map p_ty ps) 0 (length pre) 0) as [loads vals] eqn:El. destruct (output_args true ret (map p_ty ps) d 0) as [store outs] eqn:Eo.
    unfold allocs. rewrite run_allocs. cbn [app].
    rewrite Hp, repeat_app, <- Hp. fold pre. rewrite <- Hc.
    specialize (Q1 ([OEnter (input_cpt true (map p_ty ps)) ins] ++ loads ++ [OCall vals] ++ store ++ [OExit (output_cpt true ret (map p_ty ps)) outs] ++ (if is_fp ret then [OLoad 0] else []) ++ [ORet (if is_ty ret void then None else if is_fp ret then Some (HTmp (length loads)) else Some HRet)]) [] None w ps [] Ht).
    rewrite !app_nil_r in Q1. rewrite Ei in Q1. cbn [fst app] in Q1. cbn [app]. rewrite Q1. clear Q1.
    cbn [app FuncPassModel.run_ops]. unfold tell at 1. unfold input_cpt. rewrite Nat2Z.id.
    specialize (Q2 [] None w ps [] [] Ht Hd). rewrite Ei in Q2. cbn [snd] in Q2. rewrite !app_nil_r in Q2. rewrite Q2. clear Q2. cbn [bind hs_w hs_slots hs_tmps hs_ret].
    rewrite groups_inputs. destruct (enter f (inputs ps args) w) as [[vs w1]| | |]; cbn [bind]; try reflexivity.
    pose proof (write_inputs args pre [] None w1 ps [] vs Ht) as Q5. rewrite !app_nil_r in Q5. rewrite Q5. clear Q5.
    destruct (same_length (inputs ps args) vs) eqn:Es; [|rewrite (received_none ps args vs Ht Es); reflexivity].
    destruct (received_total ps args vs Ht Es) as [args' Er]. rewrite Er. cbn [bind].
    pose proof (new_count ps args vs Ht Es) as Hn.
    specialize (Q3 (new_vals ps vs)). specialize (Q3 ([OCall vals] ++ store ++ [OExit (output_cpt true ret (map p_ty ps)) outs] ++ (if is_fp ret then [OLoad 0] else []) ++ [ORet (if is_ty ret void then None else if is_fp ret then Some (HTmp (length loads)) else Some HRet)]) [] None w1 (map p_ty ps) 0%nat [] Hn).
    cbn [length] in Q3. rewrite El in Q3. cbn [fst app] in Q3. rewrite !app_nil_r in Q3. rewrite Q3. clear Q3.
    cbn [FuncPassModel.run_ops].
    pose proof (get_args [] args (pre ++ map Some (new_vals ps vs)) [] [] None w1 ps vs args' (length pre) Ht Er) as Q6. cbn [length app] in Q6. rewrite El in Q6. cbn [snd] in Q6. rewrite app_nil_r in Q6.
    rewrite Q6. clear Q6. cbn [bind hs_w hs_slots hs_tmps hs_ret]. destruct (target args' w1) as [[r w2]| | |]; cbn [bind]; try reflexivity.
    assert (Q7 := read_addresses d [] args). cbn [length app] in Q7.
    unfold output_args in Eo. unfold output_cpt. rewrite is_fp_scalar in *.
    destruct (kind ret) as [| | |t K1 K2 K3 K4].
    1,2: cbn [scalar_fp negb orb] in *; cbn [ftype is_ty ty_eqb scalar_eqb FloatTy DoubleTy] in Eo; injection Eo as <- <-; subst pre;
      change (out_slots (Sca Float)) with 1%nat in *; change (out_slots (Sca Double)) with 1%nat in *; cbn [repeat app FuncPassModel.run_ops hget hs_ret]; cbn [bind];
      (destruct r as [|x [|x2 r]]; [reflexivity| |reflexivity]); cbn [length Nat.eqb];
      unfold slot_set; cbn [hs_slots length Nat.ltb Nat.leb set_nth hs_tmps hs_ret hs_w bind];
      unfold tell; replace (Z.to_nat (1 + Z.of_nat (length (filter (fun t => is_ptr t && true) (map p_ty ps))))) with (S (length (filter (fun t => is_ptr t && true) (map p_ty ps)))) by lia;
      cbn [read_groups app]; unfold slot_get at 1; cbn [hs_slots nth_error bind]; rewrite (Q7 _ ps Ht Hd); cbn [bind hs_w map fst];
      rewrite map_map; cbn [fst unslotted]; rewrite map_id; unfold outputs, describe, result_param; cbn [p_ty p_name p_elements app];
      match goal with |- context [exit f ?D ?ww] => destruct (exit f D ww) as [[vs2 w3]| | |]; cbn [bind]; try reflexivity end;
      cbn [write_back hs_slots hs_tmps hs_ret]; unfold answer; (destruct vs2 as [|y vs2]; [reflexivity|]);
      unfold slot_set; cbn [hs_slots length Nat.ltb Nat.leb set_nth hs_tmps hs_ret hs_w bind]; rewrite write_addresses;
      match goal with |- context [same_length (?a :: ?b) (?c :: ?e)] => change (same_length (a :: b) (c :: e)) with (same_length b e) end;
      destruct (same_length (addresses ps args) vs2); [|reflexivity]; cbn [bind FuncPassModel.run_ops]; unfold slot_get; cbn [hs_slots nth_error bind];
      cbn [is_ty ty_eqb scalar_eqb void hget hs_tmps FuncPassModel.run_ops]; cbn [fst] in Q4; rewrite Q4, <- Hn, nth_error_mid; reflexivity.
    - change (is_fp (Sca Pointer)) with false in *. change (is_ptr (Sca Pointer)) with true in *. change (ftype (Sca Pointer)) with (Some FFLOAT_PTR) in Eo.
      change (is_ty (Sca Pointer) void) with false. cbn [scalar_fp negb orb andb] in *. injection Eo as <- <-. cbn [app FuncPassModel.run_ops].
      unfold tell. replace (Z.to_nat (1 + Z.of_nat (length (filter (fun t => is_ptr t && true) (map p_ty ps))))) with (S (length (filter (fun t => is_ptr t && true) (map p_ty ps)))) by lia.
      cbn [read_groups app hget hs_ret bind]. rewrite (Q7 _ ps Ht Hd). cbn [bind hs_w map fst]. rewrite map_map. cbn [fst unslotted]. rewrite map_id.
      unfold outputs, describe, result_param. cbn [p_ty p_name p_elements app].
      match goal with |- context [exit f ?D ?ww] => destruct (exit f D ww) as [[vs2 w3]| | |]; cbn [bind]; try reflexivity end.
      cbn [write_back hs_slots hs_tmps hs_ret]. unfold answer. destruct vs2 as [|y vs2]; [reflexivity|]. rewrite write_addresses.
      match goal with |- context [same_length (?a :: ?b) (?c :: ?e)] => change (same_length (a :: b) (c :: e)) with (same_length b e) end.
      destruct (same_length (addresses ps args) vs2); reflexivity.
    - assert (Es' : scalar_fp t = false) by (rewrite <- is_fp_scalar; exact K1). rewrite ?K2, ?K3, ?Es' in *. cbn [negb orb andb app] in *. injection Eo as <- <-. cbn [app FuncPassModel.run_ops].
      unfold tell. rewrite Z.add_0_l, Nat2Z.id. cbn [app]. rewrite (Q7 _ ps Ht Hd). cbn [bind hs_w]. rewrite map_map. cbn [fst unslotted]. rewrite map_id.
      assert (Ed : outputs t r ps args = addresses ps args) by (unfold outputs, describe, result_param; cbn [p_ty]; destruct t as [[| | | |]| |]; try contradiction; reflexivity). rewrite Ed.
      destruct (exit f (addresses ps args) w2) as [[vs2 w3]| | |]; cbn [bind]; try reflexivity. rewrite write_addresses. unfold answer. rewrite Es'.
      destruct (same_length (addresses ps args) vs2); [|reflexivity]. cbn [bind FuncPassModel.run_ops]. destruct (is_ty t void); reflexivity.
  Qed.
End hook.
