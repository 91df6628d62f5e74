(** Proofs about FuncPassModel.v: the pass and the programs it makes. *)
From Coq Require Import String ZArith List Bool Lia Sorted.
From Verif Require Import Common Text FuncModel VfiModel VfiFile InstrModel InstrProofs ModuleModel ModuleProofs FuncPassModel FuncPassProofs.
From Verif Require Prop_Instr.
Import ListNotations.
Open Scope Z_scope.
Open Scope outcome_scope.

(** * A program whose calls go through the backends *)
(** an instrumented call: its number, what the backends are told of the callee, its parameters *)
Record site := mk_site { t_number : Z; t_fun : finfo; t_params : list param }.
Definition marked_instr : Type := instr * option site.
Fixpoint run_sites {W} (enter exit : told_fun (W := W)) (o : oracle (W := W)) (e : env) (b : list marked_instr) (w : W) : outcome (env * W) :=
  match b with
  | [] => Ok (e, w)
  | (i, x) :: b' =>
      let o' := match x with None => o | Some s => fun i => call_through enter exit (t_fun s) (i_ty i) (t_params s) (o i) end in
      let* '(e, w) := run_native o' e i w in
      run_sites enter exit o e b' w
  end.

(** * Which calls, and what the backends are told *)
Definition dec (n : Z) : list Z := udec 20 n.
(** a debug variable of the callee says that its k-th parameter (from 0) is called s *)
Definition names (nf : info) (f : list Z) (k : nat) (i : instr) (s : list Z) : Prop :=
  (exists c, i_op i = Call (Some c) /\ In c [bytes "llvm.dbg.declare"; bytes "llvm.dbg.value"; bytes "llvm.dbg.addr"]) /\ n_var nf f (i_dst i) = Some (S k, s).
Definition body_of (m : list (func instr)) (f : list Z) : list instr := match find_func m f with Some g => flat_map k_body (f_blocks g) | None => [] end.
(** the name of the parameter: the first debug variable, or parameter_k *)
Definition named (nf : info) (m : list (func instr)) (f : list Z) (k : nat) (s : list Z) : Prop :=
  (exists l i l', body_of m f = l ++ i :: l' /\ names nf f k i s /\ forall j t, In j l -> ~ names nf f k j t) \/
  ((forall j t, In j (body_of m f) -> ~ names nf f k j t) /\ s = bytes "parameter_" ++ dec (Z.of_nat k + 1)).
(** the number of elements found for a pointer *)
Inductive elements (nf : info) (m : list (func instr)) (F : list Z) : operand -> Z -> Prop :=
| ElConst v : elements nf m F (Const v) 0
| ElAlloca r n : index_of r (match find_func m F with Some g => f_params g | None => [] end) 0 = None -> n_origin nf F r = FromAlloca n -> elements nf m F (Reg r) n
| ElGep r b n : index_of r (match find_func m F with Some g => f_params g | None => [] end) 0 = None -> n_origin nf F r = FromGep b -> elements nf m F b n -> elements nf m F (Reg r) n
| ElOther r : index_of r (match find_func m F with Some g => f_params g | None => [] end) 0 = None -> n_origin nf F r = Elsewhere -> elements nf m F (Reg r) 0
| ElUnused r k : index_of r (match find_func m F with Some g => f_params g | None => [] end) 0 = Some k -> (forall c, In c (n_users nf F r) -> is_call c = false) -> elements nf m F (Reg r) 0
| ElPassed r k c l l' t a n : index_of r (match find_func m F with Some g => f_params g | None => [] end) 0 = Some k ->
    n_users nf F r = l ++ c :: l' -> (forall x, In x l -> is_call x = false) -> is_call c = true -> nth_error (i_args c) k = Some (t, a) -> elements nf m F a n -> elements nf m F (Reg r) n
| ElCallee r k c l l' : index_of r (match find_func m F with Some g => f_params g | None => [] end) 0 = Some k ->
    n_users nf F r = l ++ c :: l' -> (forall x, In x l -> is_call x = false) -> is_call c = true -> length (i_args c) = k -> elements nf m F (Reg r) 0.
(** the callee works on values of type s: its result, the operands in its body, or the arguments of a function without body *)
Definition works_on (m : list (func instr)) (i : instr) (f : list Z) (s : scalar_ty) : Prop :=
  i_ty i = Sca s \/
  (exists g, find_func m f = Some g /\ f_blocks g <> [] /\ exists t, In t (operand_types g) /\ (t = Sca s \/ exists n, t = Vec n s \/ t = Scalable n s)) \/
  ((forall g, find_func m f = Some g -> f_blocks g = []) /\ exists a, In a (i_args i) /\ (fst a = Sca s \/ fst a = Sca Pointer)).
Definition flag (z : Z) (P : Prop) : Prop := (P /\ z = 1) \/ (~ P /\ z = 0).
Definition parameter (nf : info) (m : list (func instr)) (F f : list Z) (k : nat) (a : ty * operand) (p : param) : Prop :=
  p_ty p = fst a /\
  (match fst a with Sca Float | Sca Double | Sca Pointer => named nf m f k (p_name p) | _ => True end) /\
  (fst a = Sca Pointer -> elements nf m F (snd a) (p_elements p)).
(** a call of an intrinsic for debuggers or of a lifetime marker *)
Definition debug_call (f : list Z) : Prop := exists r, f = bytes "llvm.dbg." ++ r \/ f = bytes "llvm.lifetime." ++ r.
(** F: the caller, parent: its name in the debug information; b, k: the place of the call *)
Definition site_of (nf : info) (m : list (func instr)) (F parent : list Z) (b k : nat) (i : instr) (x : option site) : Prop :=
  match x with
  | Some s => exists f file line, i_op i = Call (Some f) /\ ~ debug_call f /\ n_dbg nf F b k = Some (file, line) /\
      (n_intrinsic nf f = true -> works_on m i f Float \/ works_on m i f Double) /\
      f_id (t_fun s) = file ++ bytes "/" ++ parent ++ bytes "/" ++ f ++ bytes "/" ++ dec line ++ bytes "/" ++ dec (t_number s) /\
      flag (f_library (t_fun s)) (n_library nf f = true) /\ flag (f_intrinsic (t_fun s)) (n_intrinsic nf f = true) /\
      flag (f_float (t_fun s)) (works_on m i f Float) /\ flag (f_double (t_fun s)) (works_on m i f Double) /\
      length (t_params s) = length (i_args i) /\
      forall j a p, nth_error (i_args i) j = Some a -> nth_error (t_params s) j = Some p -> parameter nf m F f j a p
  | None => forall f, i_op i = Call (Some f) -> debug_call f \/ n_dbg nf F b k = None \/ (n_intrinsic nf f = true /\ ~ works_on m i f Float /\ ~ works_on m i f Double)
  end.
(** a body, a function *)
Definition sited_body nf m F parent (b : nat) (is : list instr) (xs : list marked_instr) : Prop :=
  map fst xs = is /\ forall k i x, nth_error xs k = Some (i, x) -> site_of nf m F parent b k i x.
Definition sited_func nf m (f : func instr) (g : func marked_instr) : Prop :=
  f_name g = f_name f /\ f_params g = f_params f /\ length (f_blocks g) = length (f_blocks f) /\
  forall b k k', nth_error (f_blocks f) b = Some k -> nth_error (f_blocks g) b = Some k' ->
    k_phis k' = k_phis k /\ k_term k' = k_term k /\
    match n_sub nf (f_name f) with
    | Some (parent, _, _) => sited_body nf m (f_name f) parent b (k_body k) (k_body k')
    | None => k_body k' = map (fun i => (i, None)) (k_body k)
    end.
Definition opt_list {A} (x : option A) : list A := match x with Some a => [a] | None => [] end.
Definition body_sites (xs : list marked_instr) : list site := flat_map (fun x => opt_list (snd x)) xs.
Definition blocks_sites (bs : list (block marked_instr)) : list site := flat_map (fun b => body_sites (k_body b)) bs.
Definition all_sites (g : list (func marked_instr)) : list site := flat_map (fun f => blocks_sites (f_blocks f)) g.
(** the order of the work: main last *)
Definition main_last (m : list (func instr)) : list (func instr) := filter (fun f => negb (is_main f)) m ++ filter is_main m.
(** numbers grow *)
Definition growing (lo hi : Z) (l : list site) : Prop := StronglySorted Z.lt (map t_number l) /\ Forall (fun s => lo <= t_number s < hi) l.

(** * Helpers *)
Lemma byte_eqb_eq a b : byte_eqb a b = true <-> a = b.
Proof. unfold byte_eqb. destruct (list_eq_dec Z.eq_dec a b); split; congruence. Qed.
Lemma starts_with_iff p f : starts_with p f = true <-> exists r, f = p ++ r.
Proof.
  unfold starts_with. rewrite byte_eqb_eq. split.
  - intros E. exists (skipn (length p) f). rewrite <- E at 1. symmetry. apply firstn_skipn.
  - intros [r ->]. rewrite firstn_app, firstn_all, Nat.sub_diag. cbn [firstn]. apply app_nil_r.
Qed.
Lemma is_debug_iff f : is_debug f = true <-> debug_call f.
Proof.
  unfold is_debug, debug_call. rewrite orb_true_iff, !starts_with_iff. split; [intros [[r E]|[r E]]; eauto|intros [r [E|E]]; eauto].
Qed.
Lemma arg_name_named nf m f k s : arg_name nf m f k = Ok s -> named nf m f k s.
Proof.
  unfold arg_name, named, body_of. generalize (match find_func m f with Some g => flat_map k_body (f_blocks g) | None => [] end) as is.
  induction is as [|i is IH]; cbn [arg_name_in]; intros H.
  - right. split; [intros j t []|]. injection H as <-. reflexivity.
  - assert (C : forall c, i_op i = Call (Some c) -> existsb (byte_eqb c) dbg_names = true <-> In c [bytes "llvm.dbg.declare"; bytes "llvm.dbg.value"; bytes "llvm.dbg.addr"]).
    { intros c _. change dbg_names with [bytes "llvm.dbg.declare"; bytes "llvm.dbg.value"; bytes "llvm.dbg.addr"]. rewrite existsb_exists. split.
      - intros (x & Hx & E). apply byte_eqb_eq in E. subst. exact Hx.
      - intros Hx. exists c. split; [exact Hx|apply byte_eqb_eq; reflexivity]. }
    assert (N : (forall t, ~ names nf f k i t) -> arg_name_in nf f is k = Ok s -> (exists l i' l', i :: is = l ++ i' :: l' /\ names nf f k i' s /\ forall j t, In j l -> ~ names nf f k j t) \/
        ((forall j t, In j (i :: is) -> ~ names nf f k j t) /\ s = bytes "parameter_" ++ dec (Z.of_nat k + 1))).
    { intros Hn Ha. destruct (IH Ha) as [(l & i' & l' & E & N1 & N2)|[N1 N2]].
      - left. exists (i :: l), i', l'. split; [rewrite E; reflexivity|]. split; [exact N1|]. intros j t [<-|Hj]; [apply Hn|apply N2; exact Hj].
      - right. split; [|exact N2]. intros j t [<-|Hj]; [apply Hn|apply N1; exact Hj]. }
    destruct (i_op i) as [| | | | |[c|]| |] eqn:Eo; try discriminate; try (apply N; [intros t [(c' & Ec & _) _]; rewrite Eo in Ec; discriminate|exact H]).
    specialize (C c eq_refl). destruct (existsb (byte_eqb c) dbg_names) eqn:Ex.
    + destruct (n_var nf f (i_dst i)) as [[p nm]|] eqn:Ev.
      * destruct (Nat.eqb_spec p (S k)).
        -- injection H as <-. subst p. left. exists [], i, is. split; [reflexivity|]. split; [|intros j t []]. split; [|exact Ev]. exists c. split; [exact Eo|]. apply C. reflexivity.
        -- apply N; [|exact H]. intros t [_ E]. rewrite Ev in E. injection E as E _. contradiction.
      * apply N; [|exact H]. intros t [_ E]. rewrite Ev in E. discriminate.
    + apply N; [|exact H]. intros t [(c' & Ec & Hc) _]. rewrite Eo in Ec. injection Ec as <-. apply C in Hc. discriminate.
Qed.
Lemma find_split {A} (p : A -> bool) l x : List.find p l = Some x -> exists l1 l2, l = l1 ++ x :: l2 /\ p x = true /\ forall y, In y l1 -> p y = false.
Proof.
  induction l as [|a l IH]; cbn [List.find]; [discriminate|]. destruct (p a) eqn:E.
  - intros H. injection H as <-. exists [], l. split; [reflexivity|]. split; [exact E|intros y []].
  - intros H. destruct (IH H) as (l1 & l2 & -> & Hx & Hy). exists (a :: l1), l2. split; [reflexivity|]. split; [exact Hx|]. intros y [<-|Hi]; auto.
Qed.
Lemma size_of_elements fuel nf m F V n : size_of fuel nf m F V = Ok n -> elements nf m F V n.
Proof.
  revert V n. induction fuel as [|fuel IH]; intros V n H; [discriminate|]. cbn [size_of] in H. destruct V as [r|v]; [|injection H as <-; constructor].
  replace (match find_func m F with Some g => index_of r (f_params g) 0 | None => None end) with (index_of r (match find_func m F with Some g => f_params g | None => [] end) 0) in H by (destruct (find_func m F); reflexivity).
  destruct (index_of r _ 0) as [k|] eqn:Ei.
  - destruct (List.find is_call (n_users nf F r)) as [c|] eqn:Ef.
    + destruct (find_split _ _ _ Ef) as (l & l' & E & Hc & Hl). destruct (nth_error (i_args c) k) as [[t a]|] eqn:En.
      * eapply ElPassed; eauto.
      * destruct (Nat.eqb_spec k (length (i_args c))); [|discriminate]. injection H as <-. eapply ElCallee; eauto.
    + injection H as <-. eapply ElUnused; eauto. intros c Hc. eapply find_none; eassumption.
  - destruct (n_origin nf F r) as [k|b|] eqn:Eo.
    + injection H as <-. apply ElAlloca; assumption.
    + eapply ElGep; eauto.
    + injection H as <-. apply ElOther; assumption.
Qed.
Lemma descriptions_spec nf m fuel f F args : forall k d, descriptions nf m fuel f F true args k = Ok d ->
  length d = length args /\ forall j a, nth_error args j = Some a -> exists nm sz, nth_error d j = Some (nm, sz) /\
    (match fst a with Sca Float | Sca Double | Sca Pointer => named nf m f (k + j) nm | _ => True end) /\ (fst a = Sca Pointer -> elements nf m F (snd a) sz).
Proof.
  induction args as [|[t a] args IH]; intros k d H; cbn [descriptions] in H.
  - injection H as <-. split; [reflexivity|]. intros [|j] a H; discriminate.
  - destruct (match ftype t with Some _ => arg_name nf m f k | None => Ok [] end) as [nm| | |] eqn:En; try discriminate. cbn [bind] in H.
    destruct (if is_ptr t && true then size_of fuel nf m F a else Ok 1) as [sz| | |] eqn:Es; try discriminate. cbn [bind] in H.
    destruct (descriptions nf m fuel f F true args (S k)) as [l| | |] eqn:El; try discriminate. injection H as <-.
    destruct (IH _ _ El) as [L N]. split; [cbn [length]; rewrite L; reflexivity|]. intros [|j] a' Ha.
    + injection Ha as <-. exists nm, sz. split; [reflexivity|]. cbn [fst snd]. rewrite Nat.add_0_r. split.
      * destruct t as [[| | | |]| |]; try exact I; apply arg_name_named; exact En.
      * intros ->. apply (size_of_elements fuel). exact Es.
    + destruct (N j a' Ha) as (nm' & sz' & E & P). exists nm', sz'. split; [exact E|]. rewrite Nat.add_succ_r. exact P.
Qed.
Lemma flag_b2z b (P : Prop) : (b = true <-> P) -> flag (b2z b) P.
Proof. intros H. unfold flag, b2z. destruct b; [left; split; [apply H; reflexivity|reflexivity]|right; split; [rewrite <- H; discriminate|reflexivity]]. Qed.
Lemma element_eq t s : is_ty (element t) (Sca s) = true <-> t = Sca s \/ exists n, t = Vec n s \/ t = Scalable n s.
Proof.
  rewrite is_ty_eq. destruct t as [u|n u|n u]; cbn [element]; split.
  - intros E. left. exact E.
  - intros [E|[n [E|E]]]; congruence.
  - intros E. injection E as ->. right. exists n. left. reflexivity.
  - intros [E|[k [E|E]]]; congruence.
  - intros E. injection E as ->. right. exists n. right. reflexivity.
  - intros [E|[k [E|E]]]; congruence.
Qed.
Lemma have_fp_works m i f fl db : have_fp m (i_ty i) (map fst (i_args i)) f = (fl, db) -> (fl = true <-> works_on m i f Float) /\ (db = true <-> works_on m i f Double).
Proof.
  unfold have_fp. intros H. split.
  all: unfold works_on; destruct (find_func m f) as [g|] eqn:Ef; [unfold is_defined in H; rewrite Ef in H; destruct (f_blocks g) as [|b bs] eqn:Eb|]; injection H as <- <-;
    rewrite orb_true_iff, is_ty_eq, existsb_exists; unfold FloatTy, DoubleTy, PtrTy; split.
  all: try (intros [E|(t & Ht & E)]; [left; exact E|right]).
  all: try (right; split; [intros g' Eg; injection Eg as <-; exact Eb || discriminate|]; apply in_map_iff in Ht; destruct Ht as (a & <- & Ha); exists a; split; [exact Ha|]; rewrite orb_true_iff, !is_ty_eq in E; exact E).
  all: try (right; split; [intros g' Eg; discriminate|]; apply in_map_iff in Ht; destruct Ht as (a & <- & Ha); exists a; split; [exact Ha|]; rewrite orb_true_iff, !is_ty_eq in E; exact E).
  all: try (left; exists g; split; [reflexivity|]; split; [congruence|]; exists t; split; [exact Ht|]; apply element_eq; exact E).
  all: intros [E|[(g' & Eg & Hb & t & Ht & E)|(Hb & a & Ha & E)]]; [left; exact E| |].
  all: try (injection Eg as <-; congruence).
  all: try discriminate.
  all: try (right; exists (fst a); split; [apply in_map; exact Ha|rewrite orb_true_iff, !is_ty_eq; exact E]).
  all: try (right; injection Eg as <-; exists t; split; [exact Ht|apply element_eq; exact E]).
  all: specialize (Hb g eq_refl); congruence.
Qed.
Lemma works_dec m i f : exists fl db, have_fp m (i_ty i) (map fst (i_args i)) f = (fl, db) /\ (fl = true <-> works_on m i f Float) /\ (db = true <-> works_on m i f Double).
Proof. destruct (have_fp m (i_ty i) (map fst (i_args i)) f) as [fl db] eqn:E. exists fl, db. split; [reflexivity|]. apply have_fp_works. exact E. Qed.

(** * Names of hooks *)
Definition hook_form (n : list Z) : Prop := exists x, n = bytes "vfc_" ++ x ++ bytes "_hook".
Definition numbered_name (p : list Z) (N : Z) : list Z := bytes "vfc_" ++ (p ++ bytes "/" ++ dec N) ++ bytes "_hook".
Lemma last_part (d1 d2 a b : list Z) : ~ In 47 d1 -> ~ In 47 d2 -> a ++ 47 :: d1 = b ++ 47 :: d2 -> d1 = d2 /\ a = b.
Proof.
  intros H1 H2. revert b. induction a as [|x a IH]; intros [|y b] E; cbn [app] in E.
  - injection E as <-. auto.
  - injection E as <- E. destruct H1. rewrite E. apply in_or_app. right. left. reflexivity.
  - injection E as -> E. destruct H2. rewrite <- E. apply in_or_app. right. left. reflexivity.
  - injection E as <- E. destruct (IH b E). split; [assumption|congruence].
Qed.
Lemma dec_inj N1 N2 : 0 <= N1 < 10 ^ 20 -> 0 <= N2 < 10 ^ 20 -> dec N1 = dec N2 -> N1 = N2.
Proof.
  intros H1 H2 E. unfold dec in E. rewrite <- (read_udec 20 N1 []), <- (read_udec 20 N2 []), E; [reflexivity|lia|exact H2|exact I|lia|exact H1|exact I].
Qed.
Lemma dec_no_slash N : 0 <= N < 10 ^ 20 -> ~ In 47 (dec N).
Proof. intros H Hi. pose proof (udec_digits 20 N H) as F. rewrite Forall_forall in F. specialize (F _ Hi). lia. Qed.
Lemma numbered_inj p1 N1 p2 N2 : 0 <= N1 < 10 ^ 20 -> 0 <= N2 < 10 ^ 20 -> p1 ++ bytes "/" ++ dec N1 = p2 ++ bytes "/" ++ dec N2 -> N1 = N2.
Proof. intros H1 H2 E. apply dec_inj; [assumption..|]. apply (last_part (dec N1) (dec N2) p1 p2); [apply dec_no_slash; assumption..|exact E]. Qed.
Lemma hook_name_inj x y : bytes "vfc_" ++ x ++ bytes "_hook" = bytes "vfc_" ++ y ++ bytes "_hook" -> x = y.
Proof. intros E. apply app_inv_head in E. apply app_inv_tail in E. exact E. Qed.
Lemma hook_form_main : ~ hook_form main_name.
Proof. intros [x E]. discriminate. Qed.
Lemma numbered_form p N : hook_form (numbered_name p N). Proof. eexists. reflexivity. Qed.

(** * The pass *)
Definition site_name (s : site) : list Z := bytes "vfc_" ++ f_id (t_fun s) ++ bytes "_hook".
Definition site_hook (i : instr) (s : site) d : hook := mk_hook (site_name s) i (t_fun s) (hook_code true (i_ty i) (map p_ty (t_params s)) d 0).
(** what the pass makes of a marked instruction, with the hooks H *)
Definition becomes (H : list hook) (i' : instr) (x : marked_instr) : Prop :=
  match snd x with
  | None => i' = fst x
  | Some s => i' = mk_instr (i_dst (fst x)) (Call (Some (site_name s))) (i_ty (fst x)) (i_args (fst x)) /\ map p_ty (t_params s) = map fst (i_args (fst x)) /\
              exists d, In (site_hook (fst x) s d) H /\ forall j p, nth_error (t_params s) j = Some p -> d j = (p_name p, p_elements p)
  end.
Definition fresh (s : pstate) : Prop :=
  NoDup (map h_name (ps_hooks s)) /\ 1 <= ps_cpt s /\
  Forall (fun h => h_name h = main_name \/ exists p N, h_name h = numbered_name p N /\ 0 <= N < ps_cpt s) (ps_hooks s).
Lemma becomes_incl H H' i' x : incl H H' -> becomes H i' x -> becomes H' i' x.
Proof. intros Hi. unfold becomes. destruct (snd x) as [s|]; [|auto]. intros (E & T & d & Hd & Hp). split; [exact E|]. split; [exact T|]. exists d. auto. Qed.
Definition size (bs : list (block instr)) : Z := fold_right (fun b n => Z.of_nat (length (k_body b)) + n) 0 bs.
Definition msize (m : list (func instr)) : Z := fold_right (fun f n => size (f_blocks f) + n) 0 m.
Lemma size_pos bs : 0 <= size bs. Proof. unfold size. induction bs as [|b bs IH]; cbn [fold_right]; lia. Qed.
Lemma growing_nil a b : growing a b []. Proof. split; constructor. Qed.
Lemma growing_app a b c l1 l2 : a <= b <= c -> growing a b l1 -> growing b c l2 -> growing a c (l1 ++ l2).
Proof.
  intros Hb [S1 F1] [S2 F2]. split.
  - rewrite map_app. induction l1 as [|s l1 IH]; [exact S2|]. cbn [map app]. inversion S1 as [|? ? S1' F']; subst. inversion F1 as [|? ? Hs F1']; subst. constructor; [apply IH; assumption|].
    rewrite Forall_app. split; [exact F'|]. rewrite Forall_map. eapply List.Forall_impl; [|exact F2]. cbn. intros; lia.
  - apply Forall_app. split; eapply List.Forall_impl; try eassumption; cbn; intros; lia.
Qed.

Section pass.
  Context (nf : info) (m : list (func instr)) (fuel : nat) (D : list Z).
  Definition steps (s s' : pstate) (l : list site) (n : Z) : Prop :=
    fresh s' /\ incl (ps_hooks s) (ps_hooks s') /\ ps_cpt s <= ps_cpt s' <= ps_cpt s + n /\ growing (ps_cpt s) (ps_cpt s') l /\ (In main_name (map h_name (ps_hooks s')) -> In main_name (map h_name (ps_hooks s))).
  Lemma steps_refl s n : 0 <= n -> fresh s -> steps s s [] n.
  Proof. intros Hn F. split; [exact F|]. split; [apply incl_refl|]. split; [lia|]. split; [apply growing_nil|auto]. Qed.
  Lemma steps_trans s1 s2 s3 l1 l2 n1 n2 : steps s1 s2 l1 n1 -> steps s2 s3 l2 n2 -> steps s1 s3 (l1 ++ l2) (n1 + n2).
  Proof.
    intros (F1 & I1 & C1 & G1 & M1) (F2 & I2 & C2 & G2 & M2). split; [exact F2|]. split; [eapply incl_tran; eassumption|]. split; [lia|]. split; [|auto].
    apply (growing_app _ (ps_cpt s2)); [lia|assumption..].
  Qed.
  Lemma pass_instr_spec parent b k i s i' s' : fresh s -> ps_cpt s < 10 ^ 20 -> pass_instr nf m fuel D parent b k i s = Ok (i', s') ->
    exists x, site_of nf m D parent b k i x /\ steps s s' (opt_list x) 1 /\ becomes (ps_hooks s') i' (i, x).
  Proof.
    intros F Hc H. unfold pass_instr in H.
    assert (None_case : (forall f, i_op i = Call (Some f) -> debug_call f \/ n_dbg nf D b k = None \/ (n_intrinsic nf f = true /\ ~ works_on m i f Float /\ ~ works_on m i f Double)) ->
      Ok (i, s) = Ok (i', s') -> exists x, site_of nf m D parent b k i x /\ steps s s' (opt_list x) 1 /\ becomes (ps_hooks s') i' (i, x)).
    { intros Hn E. injection E as <- <-. exists None. split; [exact Hn|]. split; [apply steps_refl; [lia|exact F]|reflexivity]. }
    destruct (i_op i) as [| | | | |[f|]| |] eqn:Eo; try (apply None_case; [intros f' Ef; discriminate|exact H]).
    destruct (is_debug f) eqn:Ed; [apply None_case; [intros f' Ef; injection Ef as <-; left; apply is_debug_iff; exact Ed|exact H]|].
    assert (Ed' : ~ debug_call f) by (rewrite <- is_debug_iff, Ed; discriminate).
    destruct (n_dbg nf D b k) as [[file line]|] eqn:En; [|apply None_case; [intros f' Ef; auto|exact H]]. clear None_case.
    destruct (works_dec m i f) as (fl & db & Ef & Wf & Wd). rewrite Ef in H.
    destruct F as (Fn & F1 & F2).
    destruct (n_intrinsic nf f && negb (fl || db)) eqn:Ei.
    - injection H as <- <-. apply andb_true_iff in Ei. destruct Ei as [Ei Ej]. apply negb_true_iff, orb_false_iff in Ej. destruct Ej as [-> ->].
      exists None. split; [|split].
      + intros f' Ef'. rewrite Eo in Ef'. injection Ef' as <-. right. right. split; [exact Ei|]. split; [rewrite <- Wf|rewrite <- Wd]; discriminate.
      + split; [|split; [apply incl_refl|split; [cbn [ps_cpt]; lia|split; [apply growing_nil|auto]]]]. split; [exact Fn|]. cbn [ps_cpt]. split; [lia|].
        eapply List.Forall_impl; [|exact F2]. cbn [ps_hooks]. intros h [E|(p & N & E & HN)]; [left; exact E|right; exists p, N; split; [exact E|lia]].
      + reflexivity.
    - destruct (descriptions nf m fuel f D true (i_args i) 0) as [d| | |] eqn:Edd; try discriminate. cbn [bind] in H. injection H as <- <-.
      destruct (descriptions_spec nf m fuel f D (i_args i) 0 d Edd) as [Ld Nd].
      set (ps := map (fun x => mk_param (fst (fst x)) (fst (snd x)) (snd (snd x))) (combine (i_args i) d)).
      set (id := file ++ slash ++ parent ++ slash ++ f ++ slash ++ to_string line ++ slash ++ to_string (ps_cpt s)).
      set (fi := mk_finfo id (b2z (n_library nf f)) (b2z (n_intrinsic nf f)) (b2z fl) (b2z db)).
      assert (Lp : length ps = length (i_args i)) by (subst ps; rewrite map_length, combine_length; lia).
      assert (Np : forall j p, nth_error ps j = Some p -> exists a, nth_error (i_args i) j = Some a /\ nth_error d j = Some (p_name p, p_elements p) /\ p_ty p = fst a).
      { intros j p Hp. subst ps. clear - Hp Ld. revert d Ld j Hp. induction (i_args i) as [|a l IH]; intros [|y d] Ld [|j] Hp; try discriminate.
        - injection Hp as <-. exists a. destruct y. auto.
        - apply (IH d) in Hp; [|injection Ld as Ld; exact Ld]. exact Hp. }
      assert (Tp : map p_ty ps = map fst (i_args i)).
      { subst ps. clear - Ld. revert d Ld. induction (i_args i) as [|a l IH]; intros [|y d] Ld; try discriminate; [reflexivity|]. cbn [combine map fst p_ty]. f_equal. apply IH. injection Ld as Ld. exact Ld. }
      assert (Eid : id = (file ++ slash ++ parent ++ slash ++ f ++ slash ++ to_string line) ++ bytes "/" ++ dec (ps_cpt s)) by (subst id; unfold slash, to_string, dec; rewrite <- !app_assoc; reflexivity).
      exists (Some (mk_site (ps_cpt s) fi ps)). split; [|split].
      + cbn [site_of t_fun t_number t_params]. exists f, file, line. split; [exact Eo|]. split; [exact Ed'|]. split; [exact En|].
        split; [intros Hi; rewrite Hi in Ei; cbn [andb] in Ei; apply negb_false_iff, orb_true_iff in Ei; destruct Ei as [-> | ->]; [left; apply Wf; reflexivity|right; apply Wd; reflexivity]|].
        split; [reflexivity|]. cbn [f_library f_intrinsic f_float f_double]. split; [apply flag_b2z; tauto|]. split; [apply flag_b2z; tauto|]. split; [apply flag_b2z; exact Wf|]. split; [apply flag_b2z; exact Wd|].
        split; [exact Lp|]. intros j a p Ha Hp. destruct (Np j p Hp) as (a' & Ha' & Hd & Ht). rewrite Ha in Ha'. injection Ha' as <-.
        destruct (Nd j a Ha) as (nm & sz & E & N1 & N2). rewrite Hd in E. injection E as <- <-. split; [exact Ht|]. split; [exact N1|exact N2].
      + split; [|split; [apply incl_tl, incl_refl|split; [cbn [ps_cpt]; lia|split]]].
        * split; [|split; [cbn [ps_cpt]; lia|]].
          -- cbn [ps_hooks map h_name]. constructor; [|exact Fn]. intros Hin. apply in_map_iff in Hin. destruct Hin as (h & Eh & Hh). rewrite Forall_forall in F2. destruct (F2 h Hh) as [Em|(p & N & Ep & HN)].
             ++ apply hook_form_main. exists id. rewrite <- Em, Eh. reflexivity.
             ++ rewrite Ep in Eh. apply hook_name_inj in Eh. assert (Eh' : p ++ bytes "/" ++ dec N = id) by exact Eh. rewrite Eid in Eh'. apply numbered_inj in Eh'; lia.
          -- cbn [ps_hooks ps_cpt]. constructor; [right; exists (file ++ slash ++ parent ++ slash ++ f ++ slash ++ to_string line), (ps_cpt s); split; [transitivity (bytes "vfc_" ++ id ++ bytes "_hook"); [reflexivity|rewrite Eid; reflexivity]|lia]|].
             eapply List.Forall_impl; [|exact F2]. intros h [E|(p & N & E & HN)]; [left; exact E|right; exists p, N; split; [exact E|lia]].
        * cbn [opt_list ps_cpt]. split; [repeat constructor|constructor; [cbn [t_number]; lia|constructor]].
        * cbn [ps_hooks map h_name In]. intros [E|Hi]; [|exact Hi]. destruct hook_form_main. exists id. symmetry. exact E.
      + unfold becomes. cbn [snd fst]. split; [reflexivity|]. cbn [t_params]. split; [exact Tp|]. exists (described d). split; [left; unfold site_hook; cbn [t_params t_fun]; rewrite Tp; reflexivity|].
        intros j p Hp. destruct (Np j p Hp) as (a & _ & Hd & _). unfold described. erewrite nth_error_nth by exact Hd. reflexivity.
  Qed.
  Lemma pass_body_spec parent b is : forall k s is' s', fresh s -> ps_cpt s + Z.of_nat (length is) <= 10 ^ 20 -> pass_body nf m fuel D parent b k is s = Ok (is', s') ->
    exists xs, map fst xs = is /\ (forall j i x, nth_error xs j = Some (i, x) -> site_of nf m D parent b (k + j) i x) /\
      steps s s' (body_sites xs) (Z.of_nat (length is)) /\ Forall2 (becomes (ps_hooks s')) is' xs.
  Proof.
    induction is as [|i is IH]; intros k s is' s' F Hc H; cbn [pass_body] in H.
    - injection H as <- <-. exists []. split; [reflexivity|]. split; [intros [|j] i x E; discriminate|]. split; [apply steps_refl; [reflexivity|exact F]|constructor].
    - cbn [length] in Hc. destruct (pass_instr nf m fuel D parent b k i s) as [[i1 s1]| | |] eqn:E1; try discriminate. cbn [bind] in H.
      destruct (pass_body nf m fuel D parent b (S k) is s1) as [[is1 s2]| | |] eqn:E2; try discriminate. cbn [bind] in H. injection H as <- <-.
      destruct (pass_instr_spec parent b k i s i1 s1 F ltac:(lia) E1) as (x & Sx & St & B).
      assert (F' := St). destruct F' as (F1 & _ & C1 & _). destruct (IH (S k) s1 is1 s2 F1 ltac:(lia) E2) as (xs & Ex & Sxs & St2 & B2).
      exists ((i, x) :: xs). split; [cbn [map fst]; f_equal; exact Ex|]. split; [|split].
      + intros [|j] i' x' E; [injection E as <- <-; rewrite Nat.add_0_r; exact Sx|rewrite Nat.add_succ_r; apply (Sxs j); exact E].
      + replace (Z.of_nat (length (i :: is))) with (1 + Z.of_nat (length is)) by (cbn [length]; lia). change (body_sites ((i, x) :: xs)) with (opt_list x ++ body_sites xs). eapply steps_trans; eassumption.
      + constructor; [|exact B2]. eapply becomes_incl; [|exact B]. apply St2.
  Qed.
  Definition block_becomes (H : list hook) (k : block instr) (g : block marked_instr) : Prop :=
    k_phis k = k_phis g /\ k_term k = k_term g /\ Forall2 (becomes H) (k_body k) (k_body g).
  Lemma block_becomes_incl H H' k g : incl H H' -> block_becomes H k g -> block_becomes H' k g.
  Proof. intros Hi (A & B & C). split; [exact A|]. split; [exact B|]. induction C; constructor; [eapply becomes_incl; eassumption|assumption]. Qed.
  Lemma pass_blocks_spec parent bs : forall b s bs' s', fresh s -> ps_cpt s + size bs <= 10 ^ 20 -> pass_blocks nf m fuel D parent b bs s = Ok (bs', s') ->
    exists gs, length gs = length bs /\
      (forall j k g, nth_error bs j = Some k -> nth_error gs j = Some g -> k_phis g = k_phis k /\ k_term g = k_term k /\ sited_body nf m D parent (b + j) (k_body k) (k_body g)) /\
      steps s s' (blocks_sites gs) (size bs) /\ Forall2 (block_becomes (ps_hooks s')) bs' gs.
  Proof.
    induction bs as [|x bs IH]; intros b s bs' s' F Hc H; cbn [pass_blocks] in H.
    - injection H as <- <-. exists []. split; [reflexivity|]. split; [intros [|j] k g E; discriminate|]. split; [apply steps_refl; [reflexivity|exact F]|constructor].
    - change (size (x :: bs)) with (Z.of_nat (length (k_body x)) + size bs) in *. pose proof (size_pos bs) as Sz.
      destruct (pass_body nf m fuel D parent b 0 (k_body x) s) as [[is s1]| | |] eqn:E1; try discriminate. cbn [bind] in H.
      destruct (pass_blocks nf m fuel D parent (S b) bs s1) as [[bs1 s2]| | |] eqn:E2; try discriminate. cbn [bind] in H. injection H as <- <-.
      destruct (pass_body_spec parent b (k_body x) 0 s is s1 F ltac:(lia) E1) as (xs & Ex & Sx & St & B).
      assert (F' := St). destruct F' as (F1 & _ & C1 & _). destruct (IH (S b) s1 bs1 s2 F1 ltac:(lia) E2) as (gs & Lg & Sg & St2 & B2).
      exists (mk_block (k_phis x) xs (k_term x) :: gs). split; [cbn [length]; rewrite Lg; reflexivity|]. split; [|split].
      + intros [|j] k g Ek Eg; cbn [nth_error] in *.
        * injection Ek as <-. injection Eg as <-. cbn [k_phis k_term k_body]. split; [reflexivity|]. split; [reflexivity|]. rewrite Nat.add_0_r. split; [exact Ex|]. intros k i y Ey. apply (Sx k i y Ey).
        * rewrite Nat.add_succ_r. apply (Sg j); assumption.
      + change (blocks_sites (mk_block (k_phis x) xs (k_term x) :: gs)) with (body_sites xs ++ blocks_sites gs). eapply steps_trans; eassumption.
      + constructor; [|exact B2]. split; [reflexivity|]. split; [reflexivity|]. cbn [k_body]. clear - B St2. induction B; constructor; [eapply becomes_incl; [apply St2|assumption]|assumption].
  Qed.
End pass.

(** * All functions *)
Definition func_becomes (H : list hook) (f : func instr) (g : func marked_instr) : Prop := f_params f = f_params g /\ Forall2 (block_becomes H) (f_blocks f) (f_blocks g).
Lemma func_becomes_incl H H' f g : incl H H' -> func_becomes H f g -> func_becomes H' f g.
Proof. intros Hi (A & C). split; [exact A|]. induction C; constructor; [eapply block_becomes_incl; eassumption|assumption]. Qed.
Lemma unmarked_sites (bs : list (block instr)) : blocks_sites (map (map_body (map (fun i => (i, None)))) bs) = [].
Proof.
  induction bs as [|b bs IH]; [reflexivity|]. cbn [map]. change (blocks_sites (?x :: ?l)) with (body_sites (k_body x) ++ blocks_sites l). rewrite IH, app_nil_r. cbn [map_body k_body].
  induction (k_body b) as [|i is IHi]; [reflexivity|exact IHi].
Qed.
(** [f0]: the function in the module; [f]: the function treated, the clone for main *)
Lemma pass_func_spec nf m fuel f0 f s f' s' : f_params f = f_params f0 -> f_blocks f = f_blocks f0 -> fresh s -> ps_cpt s + size (f_blocks f0) <= 10 ^ 20 -> pass_func nf m fuel (f_name f0) f s = Ok (f', s') ->
  f_name f' = f_name f /\ exists g, sited_func nf m f0 g /\ steps s s' (blocks_sites (f_blocks g)) (size (f_blocks f0)) /\ func_becomes (ps_hooks s') f' g.
Proof.
  intros Ep Eb F Hc H. unfold pass_func in H. destruct (n_sub nf (f_name f0)) as [[[parent fi] ln]|] eqn:En.
  - destruct (pass_blocks nf m fuel (f_name f0) parent 0 (f_blocks f) s) as [[bs s1]| | |] eqn:E; try discriminate. cbn [bind] in H. injection H as <- <-. split; [reflexivity|].
    rewrite Eb in E. destruct (pass_blocks_spec nf m fuel (f_name f0) parent _ 0 s bs s1 F Hc E) as (gs & L & Sg & St & B).
    exists (mk_func (f_name f0) (f_params f0) gs). split; [|split; [exact St|split; [exact Ep|exact B]]].
    split; [reflexivity|]. split; [reflexivity|]. split; [exact L|]. intros b k k' Hk Hk'. rewrite En. exact (Sg b k k' Hk Hk').
  - injection H as <- <-. split; [reflexivity|]. exists (mk_func (f_name f0) (f_params f0) (map (map_body (map (fun i => (i, None)))) (f_blocks f0))). split; [|split].
    + split; [reflexivity|]. split; [reflexivity|]. cbn [f_blocks]. split; [apply map_length|]. intros b k k' Hk Hk'. rewrite En. rewrite nth_error_map, Hk in Hk'. injection Hk' as <-. repeat split.
    + cbn [f_blocks]. rewrite unmarked_sites. apply steps_refl; [apply size_pos|exact F].
    + split; [exact Ep|]. rewrite Eb. cbn [f_blocks]. clear. induction (f_blocks f0) as [|b bs IH]; cbn [map]; constructor; [|exact IH].
      * split; [reflexivity|]. split; [reflexivity|]. cbn [map_body k_body]. induction (k_body b); cbn [map]; constructor; [reflexivity|assumption].
Qed.

Definition alike (H : list hook) (m' : list (func instr)) (g : list (func marked_instr)) (n1 n2 : list Z) : Prop :=
  match find_func m' n1, find_func g n2 with Some f', Some f => func_becomes H f' f | None, None => True | _, _ => False end.
Lemma pass_funcs_spec nf m fuel fs : forall s fs' s', fresh s -> ps_cpt s + msize fs <= 10 ^ 20 -> pass_funcs nf m fuel fs s = Ok (fs', s') ->
  exists gs, Forall2 (sited_func nf m) fs gs /\ steps s s' (all_sites gs) (msize fs) /\ Forall2 (fun f' g => f_name f' = f_name g /\ func_becomes (ps_hooks s') f' g) fs' gs.
Proof.
  induction fs as [|f fs IH]; intros s fs' s' F Hc H; cbn [pass_funcs] in H.
  - injection H as <- <-. exists []. split; [constructor|]. split; [apply steps_refl; [reflexivity|exact F]|constructor].
  - change (msize (f :: fs)) with (size (f_blocks f) + msize fs) in *.
    assert (P : 0 <= msize fs) by (clear; induction fs as [|x l IH]; [reflexivity|]; change (msize (x :: l)) with (size (f_blocks x) + msize l); pose proof (size_pos (f_blocks x)); lia).
    destruct (pass_func nf m fuel (f_name f) f s) as [[f1 s1]| | |] eqn:E1; try discriminate. cbn [bind] in H.
    destruct (pass_funcs nf m fuel fs s1) as [[fs1 s2]| | |] eqn:E2; try discriminate. cbn [bind] in H. injection H as <- <-.
    destruct (pass_func_spec nf m fuel f f s f1 s1 eq_refl eq_refl F ltac:(lia) E1) as (Ef & g & Sg & St & B).
    assert (F' := St). destruct F' as (F1 & _ & C1 & _). destruct (IH s1 fs1 s2 F1 ltac:(lia) E2) as (gs & Sgs & St2 & B2).
    exists (g :: gs). split; [constructor; assumption|]. split; [change (all_sites (g :: gs)) with (blocks_sites (f_blocks g) ++ all_sites gs); eapply steps_trans; eassumption|].
    constructor; [|exact B2]. split; [destruct Sg as [Eg _]; congruence|]. eapply func_becomes_incl; [apply St2|exact B].
Qed.
Lemma find_app {B} (l1 l2 : list (func B)) n : find_func (l1 ++ l2) n = match find_func l1 n with Some f => Some f | None => find_func l2 n end.
Proof. unfold find_func. induction l1 as [|f l1 IH]; [reflexivity|]. cbn [app List.find]. destruct (byte_eqb (f_name f) n); [reflexivity|exact IH]. Qed.
Lemma find_absent {B} (l : list (func B)) n : (forall f, In f l -> f_name f <> n) -> find_func l n = None.
Proof.
  unfold find_func. induction l as [|f l IH]; intros H; [reflexivity|]. cbn [List.find]. destruct (byte_eqb (f_name f) n) eqn:E; [apply byte_eqb_eq in E; destruct (H f (or_introl eq_refl) E)|].
  apply IH. intros g Hg. apply H. right. exact Hg.
Qed.
Lemma find_here {B} (f : func B) n : f_name f = n -> find_func [f] n = Some f.
Proof. intros E. unfold find_func. cbn [List.find]. rewrite (proj2 (byte_eqb_eq _ _) E). reflexivity. Qed.
Lemma filter_size (p : func instr -> bool) m : msize (filter (fun f => negb (p f)) m) + msize (filter p m) = msize m.
Proof.
  induction m as [|f m IH]; [reflexivity|]. cbn [filter]. change (msize (f :: m)) with (size (f_blocks f) + msize m).
  destruct (p f); cbn [negb]; [change (msize (f :: filter p m)) with (size (f_blocks f) + msize (filter p m))|change (msize (f :: filter (fun f => negb (p f)) m)) with (size (f_blocks f) + msize (filter (fun f => negb (p f)) m))]; lia.
Qed.
Lemma filter_main m : NoDup (map f_name m) -> filter is_main m = opt_list (List.find is_main m).
Proof.
  induction m as [|f m IH]; intros H; [reflexivity|]. cbn [filter List.find]. inversion H as [|? ? Hn H']; subst. destruct (is_main f) eqn:E; [|apply IH; exact H'].
  cbn [opt_list]. f_equal. apply byte_eqb_eq in E. clear IH. induction m as [|h m IH]; [reflexivity|]. cbn [filter]. destruct (is_main h) eqn:Eh.
  - apply byte_eqb_eq in Eh. destruct Hn. left. congruence.
  - apply IH; [constructor; [|inversion H'; assumption]|intros Hi; apply Hn; right; exact Hi|inversion H'; assumption]. intros Hi. apply Hn. right. exact Hi.
Qed.
Lemma find_hook_in hooks h : NoDup (map h_name hooks) -> In h hooks -> find_hook hooks (h_name h) = Some h.
Proof.
  unfold find_hook. induction hooks as [|x l IH]; intros N Hin; [destruct Hin|]. destruct Hin as [-> | Hi]; cbn [List.find].
  - rewrite (proj2 (byte_eqb_eq _ _) eq_refl). reflexivity.
  - inversion N as [|? ? Hn N']; subst. destruct (byte_eqb (h_name x) (h_name h)) eqn:E; [|apply IH; assumption].
    apply byte_eqb_eq in E. destruct Hn. rewrite E. apply in_map. exact Hi.
Qed.
Lemma find_hook_none hooks n : ~ In n (map h_name hooks) -> find_hook hooks n = None.
Proof.
  unfold find_hook. induction hooks as [|x l IH]; intros H; [reflexivity|]. cbn [List.find map In] in *. destruct (byte_eqb (h_name x) n) eqn:E; [apply byte_eqb_eq in E; tauto|]. apply IH. tauto.
Qed.
(** what main calls instead of the backends being told of values *)
Definition main_info (nf : info) (m : list (func instr)) (ret : ty) (id : list Z) : finfo := let '(fl, db) := have_fp m ret [] main_name in mk_finfo id 0 0 (b2z fl) (b2z db).
Theorem func_pass_spec nf fuel main_ret m m' : NoDup (map f_name m) -> msize m + 2 <= 10 ^ 20 -> (forall f, In f m -> ~ hook_form (f_name f)) -> func_pass nf fuel main_ret m = Ok m' ->
  exists g, Forall2 (sited_func nf m) (main_last m) g /\
    growing (match List.find is_main m with Some _ => 2 | None => 1 end) (10 ^ 20) (all_sites g) /\
    NoDup (map h_name (pm_hooks m')) /\ Forall (fun h => (h_name h = main_name /\ List.find is_main m <> None) \/ hook_form (h_name h)) (pm_hooks m') /\
    (forall n, n <> main_name -> ~ hook_form n -> alike (pm_hooks m') (pm_funcs m') g n n) /\
    match List.find is_main m with
    | None => True
    | Some f => exists file line d, (exists p, n_sub nf main_name = Some (p, file, line)) /\
        let id := file ++ bytes "//main/" ++ dec line ++ bytes "/1" in let clone := bytes "vfc_" ++ id ++ bytes "_hook" in
        find_hook (pm_hooks m') main_name = Some (mk_hook main_name (mk_instr 0 (Call (Some clone)) main_ret (map (fun p => (fst p, Reg (snd p))) (f_params f))) (main_info nf m main_ret id)
          (hook_code false main_ret (map fst (f_params f)) d 0)) /\
        alike (pm_hooks m') (pm_funcs m') g clone main_name
    end.
Proof.
  intros Nd Hs Hf H. unfold func_pass in H. pose proof (filter_main m Nd) as Fm. pose proof (filter_size is_main m) as Fs. unfold main_last. rewrite Fm in *.
  assert (Ho : forall f, In f (filter (fun f => negb (is_main f)) m) -> f_name f <> main_name /\ ~ hook_form (f_name f)).
  { intros f Hi. apply filter_In in Hi. destruct Hi as [Hi E]. split; [|apply Hf; exact Hi]. intros E'. apply byte_eqb_eq in E'. unfold is_main in E. rewrite E' in E. discriminate. }
  assert (Names : forall s fs' gs, Forall2 (fun f' g => f_name f' = f_name g /\ func_becomes s f' g) fs' gs -> forall n, alike s fs' gs n n).
  { intros s fs' gs A n. unfold alike. induction A as [|f' g fs' gs [A1 A2] A IH]; [exact I|]. unfold find_func. cbn [List.find]. rewrite A1. destruct (byte_eqb (f_name g) n); [exact A2|exact IH]. }
  destruct (List.find is_main m) as [f|] eqn:Em.
  - cbn [opt_list] in *. change (msize [f]) with (size (f_blocks f) + 0) in Fs.
    destruct (find_split _ _ _ Em) as (l1 & l2 & El & Efm & _). apply byte_eqb_eq in Efm.
    assert (P : 0 <= msize (filter (fun f => negb (is_main f)) m)) by (clear; induction (filter (fun f => negb (is_main f)) m) as [|x l IH]; [reflexivity|]; change (msize (x :: l)) with (size (f_blocks x) + msize l); pose proof (size_pos (f_blocks x)); lia).
    pose proof (size_pos (f_blocks f)) as Pf.
    destruct (main_hook nf m main_ret f 1) as [[c h]| | |] eqn:Eh; try discriminate. cbn [bind] in H.
    unfold main_hook in Eh. destruct (n_sub nf main_name) as [[[pn file] line]|] eqn:En; [|discriminate].
    destruct (have_fp m main_ret [] main_name) as [fl db] eqn:Efp.
    destruct (descriptions nf m 1 main_name main_name false (map (fun p => (fst p, Reg (snd p))) (f_params f)) 0) as [d| | |] eqn:Ed; try discriminate. cbn [bind] in Eh. injection Eh as Ec Eh.
    set (id := file ++ bytes "//main/" ++ dec line ++ bytes "/1").
    set (clone := bytes "vfc_" ++ id ++ bytes "_hook").
    assert (Ec' : mk_func clone (f_params f) (f_blocks f) = c) by exact Ec. clear Ec. rename Ec' into Ec.
    assert (Eh' : mk_hook main_name (mk_instr 0 (Call (Some clone)) main_ret (map (fun p => (fst p, Reg (snd p))) (f_params f))) (mk_finfo id 0 0 (b2z fl) (b2z db)) (hook_code false main_ret (map fst (f_params f)) (described d) 0) = h) by exact Eh.
    clear Eh. rename Eh' into Eh.
    assert (F0 : fresh (mk_pstate 2 [h])).
    { split; [|split]; cbn [ps_hooks ps_cpt map]; [constructor; [intros []|constructor]|lia|]. constructor; [left; subst h; reflexivity|constructor]. }
    destruct (pass_funcs nf m fuel (filter (fun f => negb (is_main f)) m) (mk_pstate 2 [h])) as [[fs s]| | |] eqn:E1; try discriminate. cbn [bind] in H.
    destruct (pass_func nf m fuel main_name c s) as [[c' s2]| | |] eqn:E2; try discriminate. cbn [bind] in H. injection H as <-. cbn [pm_funcs pm_hooks].
    destruct (pass_funcs_spec nf m fuel (filter (fun f => negb (is_main f)) m) _ _ _ F0 ltac:(cbn [ps_cpt]; lia) E1) as (gs & S1 & St1 & B1).
    assert (F1 := St1). destruct F1 as (F1 & _ & C1 & _). cbn [ps_cpt] in C1. rewrite <- Efm in E2.
    destruct (pass_func_spec nf m fuel f c s c' s2 ltac:(subst c; reflexivity) ltac:(subst c; reflexivity) F1 ltac:(lia) E2) as (Ecn & gm & S2 & St2 & B2).
    assert (T := steps_trans _ _ _ _ _ _ _ St1 St2). destruct T as (T1 & T2 & T3 & T4 & _). cbn [ps_cpt] in T3, T4.
    assert (Bg : Forall2 (fun f' g => f_name f' = f_name g /\ func_becomes (ps_hooks s2) f' g) fs gs).
    { clear - B1 St2. induction B1 as [|? ? ? ? [A1 A2] ? IH]; constructor; [|exact IH]. split; [exact A1|]. eapply func_becomes_incl; [apply St2|exact A2]. }
    assert (Ngs : forall g, In g gs -> f_name g <> main_name /\ ~ hook_form (f_name g)).
    { clear - S1 Ho. induction S1 as [|f0 g l gs Hfg S1 IH]; [intros g []|]. intros x [<-|Hx]; [destruct Hfg as [-> _]; apply Ho; left; reflexivity|]. apply IH; [|exact Hx]. intros f' Hf'. apply Ho. right. exact Hf'. }
    assert (Nfs : forall f', In f' fs -> ~ hook_form (f_name f')).
    { clear - Bg Ngs. induction Bg as [|f0 g l gs [Hfg _] S1 IH]; [intros g []|]. intros x [<-|Hx]; [rewrite Hfg; apply Ngs; left; reflexivity|]. apply IH; [|exact Hx]. intros f' Hf'. apply Ngs. right. exact Hf'. }
    assert (Ecl : f_name c' = clone) by (rewrite Ecn, <- Ec; reflexivity).
    assert (Egm : f_name gm = main_name) by (destruct S2 as [-> _]; exact Efm).
    exists (gs ++ [gm]). split; [apply Forall2_app; [exact S1|constructor; [exact S2|constructor]]|].
    split; [replace (all_sites (gs ++ [gm])) with (all_sites gs ++ blocks_sites (f_blocks gm)) by (unfold all_sites; rewrite flat_map_app; cbn [flat_map]; rewrite app_nil_r; reflexivity)|].
    { destruct T4 as [T4 T5]. split; [exact T4|]. eapply List.Forall_impl; [|exact T5]. cbn. intros; lia. }
    destruct T1 as (T1 & T6 & T7). split; [exact T1|]. split; [|split].
    + eapply List.Forall_impl; [|exact T7]. intros h' [E|(p & N & E & _)]; [left; split; [exact E|discriminate]|right; rewrite E; apply numbered_form].
    + intros n Hn Hh. unfold alike. rewrite !find_app. specialize (Names _ _ _ Bg n). unfold alike in Names. destruct (find_func fs n), (find_func gs n); try contradiction; [exact Names|].
      rewrite !find_absent; [exact I| |]; intros f' [<-|[]]; [rewrite Egm; congruence|rewrite Ecl]. intros E. apply Hh. rewrite <- E. exists id. reflexivity.
    + exists file, line, (described d). split; [exists pn; reflexivity|]. cbv zeta. fold id. fold clone. split.
      * assert (E : find_hook (ps_hooks s2) (h_name h) = Some h) by (apply find_hook_in; [exact T1|apply T2; left; reflexivity]).
        unfold main_info. rewrite Efp. rewrite <- Eh in E at 1. cbn [h_name] in E. rewrite E, <- Eh. reflexivity.
      * unfold alike. rewrite !find_app, !(find_absent fs), !(find_absent gs), !find_here; [exact B2|exact Egm|exact Ecl|intros g Hg; apply Ngs; exact Hg|intros f' Hf' E; apply (Nfs f' Hf'); rewrite E; exists id; reflexivity].
  - cbn [opt_list] in *. change (msize []) with 0 in Fs. rewrite app_nil_r.
    assert (F0 : fresh (mk_pstate 1 [])) by (split; [constructor|split; [cbn [ps_cpt]; lia|constructor]]).
    destruct (pass_funcs nf m fuel (filter (fun f => negb (is_main f)) m) (mk_pstate 1 [])) as [[fs s]| | |] eqn:E1; try discriminate. cbn [bind] in H. injection H as <-. cbn [pm_funcs pm_hooks].
    destruct (pass_funcs_spec nf m fuel (filter (fun f => negb (is_main f)) m) _ _ _ F0 ltac:(cbn [ps_cpt]; lia) E1) as (gs & S1 & (T1 & T2 & T3 & T4 & T5) & B1). exists gs. cbn [ps_cpt] in *.
    split; [exact S1|]. split; [destruct T4 as [T4 T6]; split; [exact T4|]; eapply List.Forall_impl; [|exact T6]; cbn; intros; lia|].
    destruct T1 as (T1 & T6 & T7). split; [exact T1|]. split; [|split; [intros n _ _; apply Names; exact B1|exact I]].
    cbn [ps_hooks map] in T5. apply Forall_forall. rewrite Forall_forall in T7. intros h Hh. destruct (T7 h Hh) as [E|(p & N & E & _)]; [destruct T5; rewrite <- E; apply in_map; exact Hh|right; rewrite E; apply numbered_form].
Qed.
