(** Proofs about PrismModel.v: an instrumented module computes what the original computes when the functions of the PRISM library do
    the supported operations. *)
From Coq Require Import String ZArith List Bool Lia.
From Verif Require Import Common Text Bits FloatOps IeeeModel WrapModel VfiModel InstrModel InstrProofs SelectModel ModuleModel ModuleProofs PrismModel.
Import ListNotations.
Open Scope Z_scope.
Open Scope outcome_scope.

(** * The reference *)
Definition supported (t : ty) : Prop := exists n p, (n = None \/ exists k, n = Some k /\ In k [2; 4; 8; 16; 32; 64]%nat) /\ t = shape n (prec_ty p).
Definition pop_of (o : wop) : pop := match o with WAdd => PAdd | WSub => PSub | WMul => PMul | WDiv => PDiv end.
(** instruction [i] does operation [o] on values of type [t] *)
Inductive performs (i : instr) : pop -> ty -> Prop :=
| performs_arith w t : i_op i = arith_opcode w -> map fst (i_args i) = [t; t] -> i_ty i = t -> performs i (pop_of w) t
| performs_fma f t : i_op i = Call (Some (bytes "llvm.fma" ++ f)) -> map fst (i_args i) = [t; t; t] -> i_ty i = t -> performs i PFma t.
(** the typing rules of LLVM IR; scalable vectors excluded *)
Definition ptyped (i : instr) : Prop :=
  match i_op i with
  | FAdd | FSub | FMul | FDiv => exists t, floating t /\ map fst (i_args i) = [t; t] /\ i_ty i = t
  | Call (Some f) => (exists g, f = bytes "llvm.fma" ++ g) -> exists t, floating t /\ map fst (i_args i) = [t; t; t] /\ i_ty i = t
  | _ => True
  end.
(** the name of the PRISM function for an operation *)
Definition op_text (o : pop) : list Z := match o with PAdd => bytes "add" | PSub => bytes "sub" | PMul => bytes "mul" | PDiv => bytes "div" | PFma => bytes "fma" end.
Definition scalar_text (s : scalar_ty) : list Z := match s with Float => bytes "f32" | _ => bytes "f64" end.
Definition mode_text (r : rounding) : list Z := match r with StochasticRounding => bytes "sr" | UpDown => bytes "ud" end.
Definition dispatch_text (d : dispatch) : list Z := match d with Static => bytes "static_dispatch" | Dynamic => bytes "dynamic_dispatch" end.
Definition passing_text (p : passing_mode) : list Z := match p with ByValue => bytes "fixed" | ByPointer => bytes "variable" end.
Definition colons : list Z := bytes "::".
Definition symbol (r : rounding) (d : dispatch) (p : passing_mode) (o : pop) (t : ty) : list Z :=
  match t with
  | Vec n s => bytes "prism" ++ colons ++ mode_text r ++ colons ++ bytes "vector" ++ colons ++ dispatch_text d ++ colons ++ passing_text p ++ colons ++ op_text o ++ scalar_text s ++ bytes "x" ++ zdec (Z.of_nat n)
  | Sca s | Scalable _ s => bytes "prism" ++ colons ++ mode_text r ++ colons ++ bytes "scalar" ++ colons ++ dispatch_text d ++ colons ++ op_text o ++ scalar_text s
  end.
Definition the_library (c : config) : list lib_fun := match p_dispatch c with Static => p_static c | Dynamic => p_dynamic c end.
Definition the_symbol (c : config) := symbol (p_rounding c) (p_dispatch c).
(** the library defines [f] with this name *)
Definition provides (c : config) (name : list Z) (f : lib_fun) : Prop :=
  In f (the_library c) /\ l_declaration f = false /\ short_name (p_demangle c) (l_name f) = name.
(** a module has one function of each name; here no two definitions differ by their parameters only *)
Definition library_ok (c : config) : Prop :=
  NoDup (map l_name (the_library c)) /\ forall f g name, provides c name f -> provides c name g -> f = g.
(** the seven extensions, in order *)
Definition extensions : list (list Z) := map bytes ["sse"; "sse2"; "sse3"; "sse4.2"; "avx"; "avx2"; "avx512f"]%string.
(** extension number k is in the feature list *)
Definition extended (fs : list feature) (k : nat) : Prop := exists x, nth_error extensions k = Some x /\ In (true, x) fs.
(** a caller with target features [a] may call a function with target features [b] *)
Definition suits (a b : option (list Z)) : Prop :=
  features a = [] \/ incl (features b) (features a) \/ forall k, extended (features b) k -> exists k', (k <= k')%nat /\ extended (features a) k'.
(** the operation of [i] is done by function [f] of the library, called this way *)
Definition done_by (c : config) (feat : option (list Z)) (i : instr) (f : lib_fun) (p : passing_mode) : Prop :=
  exists o t, performs i o t /\ supported t /\ provides c (the_symbol c p o t) f /\ (p = ByPointer -> forall g, ~ provides c (the_symbol c ByValue o t) g) /\
  suits feat (l_features f).
Definition has_function (c : config) (feat : option (list Z)) (i : instr) (r : option (list Z)) : Prop :=
  match r with
  | Some g => exists f p, done_by c feat i f p /\ l_name f = g
  | None => forall f p, ~ done_by c feat i f p
  end.
(** what the functions of the library compute on the operands *)
Definition meaning W : Type := list Z -> list (list Z) -> W -> outcome (list Z * W).
Definition run_marked_step {W} (sem : meaning W) (native : oracle (W := W)) (e : env) (i : instr) (r : option (list Z)) (w : W) : outcome (env * W) :=
  match r with
  | None => run_native native e i w
  | Some g =>
      let* vs := read_all e (i_args i) in
      let* '(v, w) := sem g vs w in
      Ok (set_env e (i_dst i) v, w)
  end.
Fixpoint run_marked {W} (sem : meaning W) (native : oracle (W := W)) (e : env) (b : list (instr * option (list Z))) (w : W) : outcome (env * W) :=
  match b with
  | [] => Ok (e, w)
  | (i, r) :: b' => let* '(e, w) := run_marked_step sem native e i r w in run_marked sem native e b' w
  end.
(** the calling conventions of the library: by value, two floats travel in a double; by pointer, the addresses are different and the
    result is written to the last one (the others may be written too) *)
Definition carrier (t : ty) : ty := match t with Vec 2 Float => Sca Double | _ => t end.
Fixpoint pointers (ks : list nat) (vs : list (list Z)) (junk : option (list Z)) : list carg :=
  match ks, vs with
  | k :: ks', v :: vs' => CPtr k (Some v) :: pointers ks' vs' junk
  | k :: _, [] => [CPtr k junk]
  | [], _ => []
  end.
Definition conforms {W} (c : config) (lib : library W) (sem : meaning W) : Prop :=
  forall f p o t, provides c (the_symbol c p o t) f -> supported t ->
  (forall vs w v w', Forall (fun v => typed t v = true) vs -> sem (l_name f) vs w = Ok (v, w') -> typed t v = true) /\
  match p, is_vector t with
  | ByPointer, true =>
      l_params f = repeat (Sca Pointer) (S (arity o)) /\
      forall ks vs junk w, NoDup ks -> length ks = S (arity o) -> length vs = arity o -> Forall (fun v => typed t v = true) vs ->
      (let* '(_, wr, w) := lib (l_name f) (pointers ks vs junk) w in Ok (nth (arity o) wr None, w)) = (let* '(v, w) := sem (l_name f) vs w in Ok (Some v, w))
  | _, _ =>
      l_params f = repeat (carrier t) (arity o) /\
      exists r, l_ret f = Some r /\ (r = t \/ r = carrier t) /\
      forall vs w, length vs = arity o -> Forall (fun v => typed t v = true) vs ->
      (let* '(v, _, w) := lib (l_name f) (map (fun v => CVal (returned_as t (carrier t) v)) vs) w in Ok (v, w)) =
      (let* '(v, w) := sem (l_name f) vs w in Ok (returned_as t r v, w))
  end.
(** the signatures alone *)
Definition signatures_ok (c : config) : Prop :=
  forall f p o t, provides c (the_symbol c p o t) f -> supported t ->
  match p, is_vector t with
  | ByPointer, true => l_params f = repeat (Sca Pointer) (S (arity o))
  | _, _ => l_params f = repeat (carrier t) (arity o) /\ exists r, l_ret f = Some r /\ (r = t \/ r = carrier t)
  end.

(** * Features *)
Lemma feature_text_inj f g : byte_eqb (feature_text f) (feature_text g) = true <-> f = g.
Proof.
  rewrite byte_eqb_eq. unfold feature_text. destruct f as [[] x], g as [[] y]; cbn [fst snd]; split; intros H; try (injection H as H); try discriminate H; subst; reflexivity.
Qed.
Lemma has_feature_in fs f : has_feature fs f = true <-> In f fs.
Proof.
  unfold has_feature. rewrite existsb_exists. split.
  - intros (g & Hg & E). apply feature_text_inj in E. subst. exact Hg.
  - intros H. exists f. split; [exact H|]. apply feature_text_inj. reflexivity.
Qed.
Lemma highest_isa_spec fs : 0 <= highest_isa fs <= 7 /\ forall k, extended fs k -> Z.of_nat k < highest_isa fs.
Proof.
  split; [unfold highest_isa; repeat match goal with |- context [if ?b then _ else _] => destruct b end; lia|].
  intros k (x & Hx & Hi). apply has_feature_in in Hi. unfold highest_isa. cbv zeta.
  do 7 (destruct k as [|k]; [injection Hx as <-; repeat match goal with |- context [if has_feature fs ?f then _ else _] => destruct (has_feature fs f) eqn:? end; try lia;
    match goal with E : _ = false |- _ => exact (False_ind _ (eq_true_false_abs _ Hi E)) end|]).
  cbn in Hx. destruct k; discriminate.
Qed.
Lemma highest_isa_reached fs : 0 < highest_isa fs -> exists k, Z.of_nat k = highest_isa fs - 1 /\ extended fs k.
Proof.
  intros H. unfold highest_isa in *. cbv zeta in *.
  repeat match type of H with context [if has_feature fs ?f then _ else _] => destruct (has_feature fs f) eqn:E;
    [apply has_feature_in in E; match goal with |- exists k, _ = ?n - 1 /\ _ => exists (Z.to_nat (n - 1)) end; split; [reflexivity|]; eexists; split; [reflexivity|exact E]|clear E] end.
  lia.
Qed.
Lemma abi_compatible_spec a b : abi_compatible a b = true <-> suits a b.
Proof.
  unfold abi_compatible, suits. destruct (features a) as [|x fs] eqn:Ea; [split; [intros; left; reflexivity|reflexivity]|]. rewrite <- Ea.
  assert (I : included (features b) (features a) = true <-> incl (features b) (features a)).
  { unfold included. rewrite forallb_forall. split; intros H y Hy; apply has_feature_in; apply H; exact Hy. }
  assert (L : (highest_isa (features b) <=? highest_isa (features a)) = true <-> forall k, extended (features b) k -> exists k', (k <= k')%nat /\ extended (features a) k').
  { rewrite Z.leb_le. destruct (highest_isa_spec (features b)) as [Hb1 Hb2], (highest_isa_spec (features a)) as [Ha1 Ha2]. split.
    - intros H k Hk. specialize (Hb2 k Hk). destruct (highest_isa_reached (features a)) as (k' & E & X); [lia|]. exists k'. split; [lia|exact X].
    - intros H. destruct (Z.eq_dec (highest_isa (features b)) 0) as [E|E]; [lia|]. destruct (highest_isa_reached (features b)) as (k & Ek & X); [lia|].
      destruct (H k X) as (k' & Hk & X'). specialize (Ha2 k' X'). lia. }
  destruct (included (features b) (features a)) eqn:Ei.
  - split; [intros _; right; left; apply I; reflexivity|reflexivity].
  - rewrite L. split; [intros H; right; right; exact H|]. intros [H|[H|H]]; [congruence| |exact H]. apply I in H. discriminate.
Qed.

(** * Names *)
Lemma function_name_symbol c i o t p : i_ty i = t -> supported t -> function_name c i o p = Ok (the_symbol c p o t).
Proof.
  intros Ht (n & pr & Hn & E). unfold function_name, the_symbol. rewrite Ht, E. clear Ht E. destruct n as [n|]; cbn [shape type_name is_vector symbol].
  - destruct pr; cbn [prec_ty fp_name bind scalar_text]; destruct (p_rounding c), (p_dispatch c), o, p; rewrite <- ?app_assoc; reflexivity.
  - destruct pr; cbn [prec_ty fp_name bind scalar_text]; destruct (p_rounding c), (p_dispatch c), o; reflexivity.
Qed.
Lemma short_names_in c lib : forall m, 
  (forall p, In p (fold_left (fun m f => if l_declaration f then m else (short_name (p_demangle c) (l_name f), l_name f) :: m) lib m) <->
  In p m \/ exists f, In f lib /\ l_declaration f = false /\ p = (short_name (p_demangle c) (l_name f), l_name f)).
Proof.
  induction lib as [|f lib IH]; intros m p; cbn [fold_left].
  - split; [intros H; left; exact H|]. intros [H|(f & [] & _)]. exact H.
  - rewrite IH. destruct (l_declaration f) eqn:E.
    + split; intros [H|(g & Hg & H)]; auto; [right; exists g; split; [right; exact Hg|exact H]|]. destruct Hg as [<- |Hg]; [destruct H; congruence|]. right. exists g. auto.
    + split.
      * intros [[H|H]|(g & Hg & H)]; auto; [right; exists f; split; [left; reflexivity|]; split; [exact E|symmetry; exact H]|right; exists g; split; [right; exact Hg|exact H]].
      * intros [H|(g & [<- |Hg] & H)]; [left; right; exact H|left; left; destruct H as [_ H]; symmetry; exact H|right; exists g; auto].
Qed.
Lemma lib_function_some c name f : NoDup (map l_name (the_library c)) -> lib_function c name = Some f -> provides c name f.
Proof.
  intros Hn H. unfold lib_function in H. fold (the_library c) in H.
  destruct (List.find _ (short_names c (the_library c))) as [[s g]|] eqn:E; [|discriminate]. cbn [snd] in H.
  apply find_some in E. destruct E as [E1 E2]. cbn [fst] in E2. apply byte_eqb_eq in E2. subst s.
  apply find_some in H. destruct H as [H1 H2]. apply byte_eqb_eq in H2. unfold short_names in E1. apply short_names_in in E1. destruct E1 as [[]|(h & Hh & Hd & E1)].
  injection E1 as E1 E3. assert (h = f); [|subst h; split; [exact H1|]; split; [exact Hd|symmetry; exact E1]].
  clear - Hn H1 H2 Hh E3. assert (l_name h = l_name f) by congruence. clear E3 H2. revert Hn. induction (the_library c) as [|x l IH]; [destruct H1|].
  cbn [map]. intros Hn. inversion Hn as [|? ? N1 N2]; subst. destruct H1 as [-> |H1], Hh as [E|Hh].
  - congruence.
  - elim N1. rewrite <- H. apply in_map. exact Hh.
  - subst h. elim N1. rewrite H. apply in_map. exact H1.
  - apply IH; assumption.
Qed.
Lemma lib_function_none c name : lib_function c name = None -> forall f, ~ provides c name f.
Proof.
  intros H f (H1 & H2 & H3). unfold lib_function in H. fold (the_library c) in H.
  assert (I : In (name, l_name f) (short_names c (the_library c))) by (apply short_names_in; right; exists f; rewrite H3; auto).
  destruct (List.find (fun p => byte_eqb (fst p) name) (short_names c (the_library c))) as [[s g]|] eqn:E.
  - cbn [snd] in H. apply find_some in E. destruct E as [E1 _]. apply short_names_in in E1. destruct E1 as [[]|(h & Hh & _ & E1)]. injection E1 as _ ->.
    pose proof (find_none _ _ H h Hh) as N. cbn beta in N. assert (byte_eqb (l_name h) (l_name h) = true) by (apply byte_eqb_eq; reflexivity). congruence.
  - pose proof (find_none _ _ E _ I) as N. cbn [fst] in N. assert (byte_eqb name name = true) by (apply byte_eqb_eq; reflexivity). congruence.
Qed.

(** * The allocas *)
Lemma akey_eqb_eq a b : akey_eqb a b = true <-> a = b.
Proof.
  destruct a as [[f t] k], b as [[g u] l]. unfold akey_eqb. rewrite !andb_true_iff, Nat.eqb_eq, Z.eqb_eq. split.
  - intros [[-> H] ->]. apply ty_eqb_eq in H. subst. reflexivity.
  - intros H. injection H as -> -> ->. rewrite ty_eqb_refl. auto.
Qed.
Definition inv (fidx : nat) (st : pstate) : Prop :=
  (forall k n, In (k, n) (st_map st) -> (n < length (st_map st))%nat) /\ NoDup (map snd (st_map st)) /\
  (forall k n, In (k, n) (st_map st) -> fst (fst k) = fidx -> In n (map fst (st_allocas st))) /\
  (forall k n, In (k, n) (st_map st) -> (fst (fst k) <= fidx)%nat).
Definition grows (st st' : pstate) : Prop := incl (st_map st) (st_map st') /\ incl (map fst (st_allocas st)) (map fst (st_allocas st')).
Lemma grows_refl st : grows st st. Proof. split; intros x H; exact H. Qed.
Lemma grows_trans a b c : grows a b -> grows b c -> grows a c. Proof. intros [H1 H2] [H3 H4]. split; eapply incl_tran; eassumption. Qed.
Lemma get_alloca_spec fidx st t k n st' : inv fidx st -> get_alloca st (fidx, t, k) = (n, st') ->
  inv fidx st' /\ grows st st' /\ In ((fidx, t, k), n) (st_map st').
Proof.
  intros (I1 & I2 & I3 & I4) H. unfold get_alloca in H. destruct (List.find _ (st_map st)) as [[key m]|] eqn:E.
  - cbn [snd] in H. injection H as <- <-. apply find_some in E. destruct E as [E1 E2]. cbn [fst] in E2. apply akey_eqb_eq in E2. subst key.
    split; [repeat split; assumption|]. split; [apply grows_refl|exact E1].
  - injection H as <- <-. split; [|split; [split; intros x Hx; right; exact Hx|left; reflexivity]].
    split; [|split; [|split]]; cbn [st_map st_allocas].
    + intros key m [Hk|Hk]; [injection Hk as _ <-; cbn [length]; lia|]. specialize (I1 key m Hk). cbn [length]. lia.
    + cbn [map snd]. constructor; [|exact I2]. intros Hi. apply in_map_iff in Hi. destruct Hi as ([key m] & E1 & E2). cbn [snd] in E1. specialize (I1 key m E2). lia.
    + intros key m [Hk|Hk] Hf; [injection Hk as _ <-; left; reflexivity|]. right. exact (I3 key m Hk Hf).
    + intros key m [Hk|Hk]; [injection Hk as <- _; cbn [fst]; lia|exact (I4 key m Hk)].
Qed.
Lemma inv_inj fidx st k1 k2 n : inv fidx st -> In (k1, n) (st_map st) -> In (k2, n) (st_map st) -> k1 = k2.
Proof.
  intros (_ & H & _) H1 H2. revert H H1 H2. induction (st_map st) as [|[k m] l IH]; intros H H1 H2; [destruct H1|]. cbn [map snd] in H. inversion H as [|? ? N1 N2]; subst.
  destruct H1 as [H1|H1], H2 as [H2|H2].
  - congruence.
  - injection H1 as _ ->. elim N1. change n with (snd (k2, n)). apply in_map. exact H2.
  - injection H2 as _ ->. elim N1. change n with (snd (k1, n)). apply in_map. exact H1.
  - apply IH; assumption.
Qed.

Fixpoint stores (ss : list nat) (ops : list (ty * operand)) : list pstep :=
  match ss, ops with s :: ss', op :: ops' => PStore s op :: stores ss' ops' | _, _ => [] end.
(** the slots of the arguments k, k+1, ... *)
Fixpoint slots_of (fidx : nat) (t : ty) (k : nat) (ss : list nat) (m : list (akey * nat)) : Prop :=
  match ss with [] => True | s :: ss' => In ((fidx, t, Z.of_nat k), s) m /\ slots_of fidx t (S k) ss' m end.
Lemma slots_of_incl fidx t ss m m' : incl m m' -> forall k, slots_of fidx t k ss m -> slots_of fidx t k ss m'.
Proof. intros H. induction ss as [|s ss IH]; intros k; cbn [slots_of]; [trivial|]. intros [H1 H2]. split; [apply H; exact H1|apply IH; exact H2]. Qed.
Lemma slots_of_fresh fidx t st ss : inv fidx st -> forall k j s, slots_of fidx t k ss (st_map st) -> (j < Z.of_nat k) -> In ((fidx, t, j), s) (st_map st) -> ~ In s ss.
Proof.
  intros Hi. induction ss as [|x ss IH]; intros k j s H Hj Hs; [intros []|]. destruct H as [H1 H2]. intros [-> |Hx].
  - pose proof (inv_inj fidx st _ _ s Hi Hs H1) as E. injection E as E. lia.
  - apply (IH (S k) j s H2); [lia|exact Hs|exact Hx].
Qed.
Lemma slots_of_nodup fidx t st ss r : inv fidx st -> forall k, slots_of fidx t k ss (st_map st) -> In ((fidx, t, return_index), r) (st_map st) -> NoDup (ss ++ [r]).
Proof.
  intros Hi k Hs Hr.
  assert (N : NoDup ss).
  { revert k Hs. induction ss as [|x ss IH]; intros k Hs; [constructor|]. destruct Hs as [H1 H2]. constructor; [|exact (IH (S k) H2)]. apply (slots_of_fresh fidx t st ss Hi (S k) (Z.of_nat k)); [exact H2|lia|exact H1]. }
  assert (F : ~ In r ss) by (apply (slots_of_fresh fidx t st ss Hi k return_index); [exact Hs|unfold return_index; lia|exact Hr]).
  clear - N F. induction ss as [|x ss IH]; [constructor; [intros []|constructor]|]. cbn [app]. inversion N; subst. constructor.
  - rewrite in_app_iff. intros [H|[-> |[]]]; [contradiction|]. apply F. left. reflexivity.
  - apply IH; [assumption|]. intros H. apply F. right. exact H.
Qed.
Lemma slots_of_alloc fidx t st ss : inv fidx st -> forall k, slots_of fidx t k ss (st_map st) -> Forall (fun s => In s (map fst (st_allocas st))) ss.
Proof.
  intros Hi. induction ss as [|x ss IH]; intros k Hs; [constructor|]. destruct Hs as [H1 H2]. constructor; [|exact (IH (S k) H2)].
  destruct Hi as (_ & _ & I3 & _). exact (I3 _ _ H1 eq_refl).
Qed.

Lemma operands_pointer fidx f t : forall n k ops st, inv fidx st -> map fst ops = repeat t n -> (forall j, (k <= j < k + n)%nat -> nth_error (l_params f) j = Some (Sca Pointer)) ->
  exists ss st', get_operands fidx f ByPointer true n k ops st = Ok (stores ss ops, map ASlot ss, st') /\ length ss = n /\ inv fidx st' /\ grows st st' /\ slots_of fidx t k ss (st_map st').
Proof.
  induction n as [|n IH]; intros k ops st Hi Ho Hp; destruct ops as [|op ops]; try discriminate.
  - exists [], st. split; [reflexivity|]. split; [reflexivity|]. split; [exact Hi|]. split; [apply grows_refl|exact I].
  - cbn [map repeat] in Ho. injection Ho as Ht Ho. cbn [get_operands]. unfold operand_vector. rewrite (Hp k) by lia. cbn [andb ty_eqb scalar_eqb].
    destruct (get_alloca st (fidx, fst op, Z.of_nat k)) as [s st1] eqn:E. rewrite Ht in E. destruct (get_alloca_spec fidx st t _ s st1 Hi E) as (I1 & G1 & M1).
    cbn [bind]. destruct (IH (S k) ops st1 I1 Ho) as (ss & st2 & E2 & L2 & I2 & G2 & M2); [intros j Hj; apply Hp; lia|]. rewrite E2. cbn [bind].
    exists (s :: ss), st2. cbn [stores map app length slots_of]. split; [reflexivity|]. split; [lia|]. split; [exact I2|]. split; [eapply grows_trans; eassumption|].
    split; [|exact M2]. destruct G2 as [G2 _]. apply G2. exact M1.
Qed.
Definition value_arg (op : ty * operand) : parg := if is_f32x2 (fst op) then ACast op (Sca Double) else AVal op.
Lemma operands_value fidx f vector : forall n k ops st, length ops = n -> (forall j, (k <= j < k + n)%nat -> nth_error (l_params f) j <> None) ->
  (vector = false -> Forall (fun op => is_f32x2 (fst op) = false) ops) ->
  get_operands fidx f ByValue vector n k ops st = Ok ([], map value_arg ops, st).
Proof.
  induction n as [|n IH]; intros k ops st Ho Hp Hv; destruct ops as [|op ops]; try discriminate; [reflexivity|].
  cbn [get_operands]. assert (P : exists x, nth_error (l_params f) k = Some x) by (specialize (Hp k ltac:(lia)); destruct (nth_error (l_params f) k); [eexists; reflexivity|congruence]).
  destruct P as [x P].
  assert (E : (if vector then operand_vector fidx f ByValue k op st else operand_scalar f k op st) = Ok ([], value_arg op, st)).
  { destruct vector; unfold operand_vector, operand_scalar; rewrite P; cbn [andb]; unfold value_arg; [destruct (is_f32x2 (fst op)); reflexivity|].
    specialize (Hv eq_refl). inversion Hv as [|? ? V1 V2]; subst. rewrite V1. reflexivity. }
  rewrite E. cbn [bind]. rewrite IH; [reflexivity|injection Ho as Ho; exact Ho|intros j Hj; apply Hp; lia|]. intros Ev. specialize (Hv Ev). inversion Hv; subst. assumption.
Qed.

(** * Running the new instructions *)
Definition allocated (A : list nat) (sl : slots) : Prop := forall s, In s A -> sl s <> None.
Lemma set_slot_allocated A sl k v : allocated A sl -> allocated A (set_slot sl k v).
Proof. intros H s Hs. unfold set_slot. destruct (Nat.eqb s k); [discriminate|apply H; exact Hs]. Qed.
Fixpoint set_slots (sl : slots) (ss : list nat) (vs : list (list Z)) : slots :=
  match ss, vs with s :: ss', v :: vs' => set_slots (set_slot sl s (Some v)) ss' vs' | _, _ => sl end.
Lemma set_slots_allocated A ss : forall vs sl, allocated A sl -> allocated A (set_slots sl ss vs).
Proof. induction ss as [|s ss IH]; intros [|v vs] sl H; cbn [set_slots]; try exact H. apply IH. apply set_slot_allocated. exact H. Qed.
Lemma set_slots_other ss : forall vs sl s, ~ In s ss -> set_slots sl ss vs s = sl s.
Proof.
  induction ss as [|x ss IH]; intros [|v vs] sl s H; cbn [set_slots]; try reflexivity. rewrite IH by (intros h; apply H; right; exact h).
  unfold set_slot. destruct (Nat.eqb_spec s x) as [-> |]; [elim H; left; reflexivity|reflexivity].
Qed.
Lemma run_stores {W} (lib : library W) o rest A : forall ss ops e sl w, length ss = length ops -> incl ss A -> allocated A sl ->
  run_psteps lib o (e, sl) (stores ss ops ++ rest) w = (let* vs := read_all e ops in run_psteps lib o (e, set_slots sl ss vs) rest w).
Proof.
  induction ss as [|s ss IH]; intros [|op ops] e sl w Hl Hi Ha; try discriminate; [reflexivity|]. cbn [stores app run_psteps run_pstep fst snd read_all].
  destruct (read e op) as [v| | |]; cbn [bind]; try reflexivity. destruct (sl s) as [x|] eqn:E; [|elim (Ha s); [apply Hi; left; reflexivity|exact E]].
  cbn [bind]. rewrite IH; [|injection Hl as Hl; exact Hl|intros y Hy; apply Hi; right; exact Hy|apply set_slot_allocated; exact Ha].
  destruct (read_all e ops); reflexivity.
Qed.
Lemma eval_pointers e junk r : forall ss vs sl, length ss = length vs -> NoDup (ss ++ [r]) -> sl r = Some junk ->
  eval_args (e, set_slots sl ss vs) (map ASlot ss ++ [ASlot r]) = Ok (pointers (ss ++ [r]) vs junk).
Proof.
  induction ss as [|s ss IH]; intros [|v vs] sl Hl Hn Hr; try discriminate.
  - cbn. rewrite Hr. reflexivity.
  - cbn [app] in Hn. inversion Hn as [|? ? N1 N2]; subst. cbn [set_slots map app eval_args eval_arg snd pointers].
    rewrite set_slots_other by (intros h; apply N1; apply in_or_app; left; exact h).
    assert (E : set_slot sl s (Some v) s = Some (Some v)) by (unfold set_slot; rewrite Nat.eqb_refl; reflexivity). rewrite E. cbn [bind].
    rewrite IH; [reflexivity|injection Hl as Hl; exact Hl|exact N2|]. unfold set_slot. destruct (Nat.eqb_spec r s) as [-> |]; [|exact Hr]. elim N1. apply in_or_app. right. left. reflexivity.
Qed.
Lemma write_back_allocated A : forall args wr sl, allocated A sl -> allocated A (write_back sl args wr).
Proof. induction args as [|[a|a t|k] args IH]; intros [|[v|] wr] sl H; cbn [write_back]; auto. apply IH. apply set_slot_allocated. exact H. Qed.
Lemma write_back_result r v : forall ss wr sl, nth (length ss) wr None = Some v -> write_back sl (map ASlot ss ++ [ASlot r]) wr r = Some (Some v).
Proof.
  induction ss as [|s ss IH]; intros [|x wr] sl H; cbn [nth length] in H; try discriminate.
  - subst x. cbn [map app write_back]. destruct wr; cbn [write_back]; unfold set_slot; rewrite Nat.eqb_refl; reflexivity.
  - cbn [map app write_back]. destruct x; apply IH; exact H.
Qed.

(** * Operations *)
Lemma starts_spec p l : starts p l = true <-> exists r, l = p ++ r.
Proof.
  revert l. induction p as [|x p IH]; intros l; cbn [starts].
  - split; [intros _; exists l; reflexivity|reflexivity].
  - destruct l as [|y l]; [split; [discriminate|intros (r & H); discriminate]|]. rewrite andb_true_iff, Z.eqb_eq, IH. split.
    + intros [-> (r & ->)]. exists r. reflexivity.
    + intros (r & H). cbn [app] in H. injection H as -> H. split; [reflexivity|exists r; exact H].
Qed.
Lemma prism_fma_spec f : prism_fma f = true <-> exists g, f = Some (bytes "llvm.fma" ++ g).
Proof.
  unfold prism_fma. destruct f as [[|x f]|].
  - split; [discriminate|]. intros (g & H). discriminate.
  - rewrite starts_spec. split; intros (g & H); exists g; [f_equal; exact H|exact (f_equal (fun o => match o with Some l => l | None => [] end) H)].
  - split; [discriminate|]. intros (g & H). discriminate.
Qed.
Lemma performs_op i o t : performs i o t -> get_op i = Some o /\ i_ty i = t /\ map fst (i_args i) = repeat t (arity o).
Proof.
  intros H. destruct H as [w t H1 H2 H3|f t H1 H2 H3]; unfold get_op; rewrite H1.
  - destruct w; cbn [arith_opcode pop_of arity repeat]; auto.
  - assert (E : prism_fma (Some (bytes "llvm.fma" ++ f)) = true) by (apply prism_fma_spec; eexists; reflexivity). rewrite E. auto.
Qed.
Lemma op_performs i o : ptyped i -> get_op i = Some o -> exists t, floating t /\ performs i o t.
Proof.
  unfold ptyped, get_op. intros Ht H. destruct (i_op i) as [| | | |p|f| |k] eqn:E; try discriminate.
  1-4: injection H as <-; destruct Ht as (t & H1 & H2 & H3); exists t; split; [exact H1|].
  - apply (performs_arith i WAdd); assumption.
  - apply (performs_arith i WSub); assumption.
  - apply (performs_arith i WMul); assumption.
  - apply (performs_arith i WDiv); assumption.
  - destruct (prism_fma f) eqn:Ef; [|discriminate]. injection H as <-. apply prism_fma_spec in Ef. destruct Ef as [g ->].
    destruct Ht as (t & H1 & H2 & H3); [exists g; reflexivity|]. exists t. split; [exact H1|]. eapply performs_fma; eassumption.
Qed.
Lemma performs_unique i o t o' t' : performs i o t -> performs i o' t' -> o = o' /\ t = t'.
Proof. intros H H'. apply performs_op in H, H'. destruct H as (H1 & H2 & _), H' as (H1' & H2' & _). split; congruence. Qed.
Lemma prism_valid_spec i o t : performs i o t -> floating t -> exists b, prism_valid i = Ok b /\ (b = true <-> supported t).
Proof.
  intros H Hf. apply performs_op in H. destruct H as (_ & _ & Ha). unfold prism_valid, operand0_ty.
  destruct (i_args i) as [|[u a] l]; [destruct o; discriminate|]. assert (u = t) by (destruct o; cbn in Ha; congruence). subst u. clear Ha.
  destruct t as [s|n s|n s]; [| |destruct Hf].
  - eexists. split; [reflexivity|]. split.
    + intros H. destruct s; cbn in H; try discriminate; [exists None, PFloat|exists None, PDouble]; split; auto.
    + intros (m & p & [-> |(k & -> & _)] & E); [|discriminate]. destruct p; cbn in E; injection E as ->; reflexivity.
  - eexists. split; [reflexivity|]. rewrite andb_true_iff, existsb_exists. split.
    + intros [(x & Hx & E) H]. apply Nat.eqb_eq in E. subst x. destruct s; cbn in H; try discriminate; [exists (Some n), PFloat|exists (Some n), PDouble]; (split; [right; exists n; split; [reflexivity|exact Hx]|reflexivity]).
    + intros (m & p & [-> |(k & -> & Hk)] & E); [discriminate|]. cbn [shape] in E. injection E as -> Es. split.
      * exists k. split; [exact Hk|apply Nat.eqb_refl].
      * rewrite Es. destruct p; reflexivity.
Qed.
Lemma symbol_scalar r d o s p q : symbol r d p o (Sca s) = symbol r d q o (Sca s). Proof. reflexivity. Qed.
Lemma prism_function_spec c i o t : library_ok c -> performs i o t -> supported t ->
  (exists f p, prism_function c i o = Ok (Some (f, p)) /\ provides c (the_symbol c p o t) f /\ (p = ByPointer -> forall g, ~ provides c (the_symbol c ByValue o t) g) /\ (p = ByPointer -> is_vector t = true)) \/
  (forall f p, ~ provides c (the_symbol c p o t) f) /\ prism_function c i o = if p_strict c then Exit else Ok None.
Proof.
  intros [Hl _] H Hs. apply performs_op in H. destruct H as (_ & Ht & _). unfold prism_function. rewrite !(function_name_symbol c i o t) by assumption. cbn [bind].
  destruct (lib_function c (the_symbol c ByValue o t)) as [f|] eqn:E1.
  - left. exists f, ByValue. split; [reflexivity|]. split; [apply lib_function_some; assumption|]. split; discriminate.
  - destruct (lib_function c (the_symbol c ByPointer o t)) as [f|] eqn:E2.
    + left. exists f, ByPointer. split; [reflexivity|]. split; [apply lib_function_some; assumption|]. split; [intros _; apply lib_function_none; exact E1|].
      intros _. destruct t as [s|n s|n s]; try reflexivity. unfold the_symbol in *. rewrite (symbol_scalar _ _ _ _ ByPointer ByValue) in E2. congruence.
    + right. split; [|reflexivity]. intros f [] Hf; [exact (lib_function_none _ _ E1 f Hf)|exact (lib_function_none _ _ E2 f Hf)].
Qed.

Definition rel {W} (A : list nat) (r1 : outcome (frame * W)) (r2 : outcome (env * W)) : Prop :=
  match r1, r2 with
  | Ok (fr, w1), Ok (e, w2) => fst fr = e /\ w1 = w2 /\ allocated A (snd fr)
  | UB, UB | Exit, Exit | Diverge, Diverge => True
  | _, _ => False
  end.
Definition good_group (c : config) (st : pstate) (i : instr) (g : list pstep) (r : option (list Z)) : Prop :=
  forall A, incl (map fst (st_allocas st)) A -> forall W (lib : library W) sem, conforms c lib sem -> forall o fr w, allocated A (snd fr) ->
  rel A (run_psteps lib o fr g w) (run_marked_step sem o (fst fr) i r w).
Lemma good_grows c st st' i g r : grows st st' -> good_group c st i g r -> good_group c st' i g r.
Proof. intros [_ H] Hg A HA. apply Hg. eapply incl_tran; eassumption. Qed.
Lemma good_keep c st i : good_group c st i [PKeep i] None.
Proof.
  intros A _ W lib sem _ o [e sl] w Ha. cbn [run_psteps run_pstep run_marked_step fst snd] in *. destruct (run_native o e i w) as [[e' w']| | |]; cbn; auto.
Qed.
Lemma read_all_types e ops vs : read_all e ops = Ok vs -> length vs = length ops /\ Forall2 (fun op v => typed (fst op) v = true) ops vs.
Proof.
  revert vs. induction ops as [|op ops IH]; intros vs H; cbn [read_all] in H.
  - injection H as <-. split; [reflexivity|constructor].
  - destruct (read e op) as [v| | |] eqn:E; try discriminate. cbn [bind] in H. destruct (read_all e ops) as [vs'| | |]; try discriminate. injection H as <-.
    destruct (IH vs' eq_refl) as [H1 H2]. split; [cbn; congruence|]. constructor; [apply (read_typed e); exact E|exact H2].
Qed.
Lemma read_all_same e ops vs t n : read_all e ops = Ok vs -> map fst ops = repeat t n -> length vs = n /\ Forall (fun v => typed t v = true) vs.
Proof.
  intros H Ho. apply read_all_types in H. destruct H as [H1 H2]. split; [rewrite H1; rewrite <- (map_length fst), Ho; apply repeat_length|].
  revert n Ho. clear H1. induction H2 as [|op v ops vs H H2 IH]; intros [|n] Ho; try discriminate; [constructor|]. cbn [map repeat] in Ho. injection Ho as E Ho.
  constructor; [rewrite <- E; exact H|apply (IH n); exact Ho].
Qed.
Lemma forallb_same args t n : Forall (fun a => parg_ty a = t) args -> length args = n -> forallb (fun p => ty_eqb (parg_ty (fst p)) (snd p)) (combine args (repeat t n)) = true.
Proof.
  intros H. revert n. induction H as [|a args E H IH]; intros [|n] Hl; try discriminate; [reflexivity|]. cbn [combine repeat forallb fst snd]. rewrite E, ty_eqb_refl. apply IH. injection Hl as Hl. exact Hl.
Qed.
Lemma same_types_ok args f t n : l_params f = repeat t n -> length args = n -> Forall (fun a => parg_ty a = t) args -> same_types args f = true.
Proof. intros Hp Hl Ha. unfold same_types. rewrite Hp, repeat_length, Hl, Nat.eqb_refl. cbn [andb]. apply forallb_same; assumption. Qed.
Lemma is_f32x2_spec t : is_f32x2 t = true <-> t = Vec 2 Float.
Proof. split; [|intros ->; reflexivity]. destruct t as [s|[|[|[|n]]] [| | | |]|n s]; cbn; try discriminate; reflexivity. Qed.
Lemma carrier_spec t : carrier t = if is_f32x2 t then Sca Double else t.
Proof. destruct t as [s|[|[|[|n]]] [| | | |]|n s]; reflexivity. Qed.
Lemma value_arg_ty op : parg_ty (value_arg op) = carrier (fst op).
Proof. unfold value_arg. rewrite carrier_spec. destruct (is_f32x2 (fst op)); reflexivity. Qed.
Lemma supported_floating t : supported t -> floating t.
Proof. intros (n & p & _ & ->). destruct n, p; exact I. Qed.
Lemma carrier_back t v : typed t v = true -> (carrier t = t -> returned_as t t v = v) /\ (carrier t = Sca Double -> t = Vec 2 Float -> bitcast (Sca Double) t (returned_as t (carrier t) v) = v).
Proof.
  intros Hv. split; intros H.
  - unfold returned_as. rewrite ty_eqb_refl. reflexivity.
  - intros ->. cbn [carrier] in *. unfold returned_as. cbn [ty_eqb]. apply bitcast_back; [reflexivity|exact Hv].
Qed.
Lemma eval_values fr t : forall ops n, map fst ops = repeat t n ->
  eval_args fr (map value_arg ops) = (let* vs := read_all (fst fr) ops in Ok (map (fun v => CVal (returned_as t (carrier t) v)) vs)).
Proof.
  induction ops as [|op ops IH]; intros [|n] H; try discriminate; [reflexivity|]. cbn [map repeat] in H. injection H as E H. cbn [map eval_args read_all].
  assert (V : eval_arg fr (value_arg op) = (let* v := read (fst fr) op in Ok (CVal (returned_as t (carrier t) v)))).
  { unfold value_arg. rewrite E, carrier_spec. destruct (is_f32x2 t) eqn:F; cbn [eval_arg].
    - rewrite E. apply is_f32x2_spec in F. rewrite F. unfold returned_as. cbn [ty_eqb]. destruct (read (fst fr) op); reflexivity.
    - unfold returned_as. rewrite ty_eqb_refl. destruct (read (fst fr) op); reflexivity. }
  rewrite V. destruct (read (fst fr) op) as [v| | |]; cbn [bind]; try reflexivity. rewrite (IH n H). destruct (read_all (fst fr) ops); reflexivity.
Qed.
Lemma write_back_values ops wr : forall sl, write_back sl (map value_arg ops) wr = sl.
Proof.
  revert wr. induction ops as [|op ops IH]; intros [|x wr] sl; try reflexivity; cbn [map]; unfold value_arg at 1; destruct (is_f32x2 (fst op)); cbn [write_back]; first [reflexivity | apply IH].
Qed.

Lemma replace_ok c fidx feat i o st : library_ok c -> signatures_ok c -> ptyped i -> get_op i = Some o -> inv fidx st ->
  (p_strict c = true -> forall t, performs i o t -> supported t -> exists f p, provides c (the_symbol c p o t) f) ->
  exists new st' r, replace_with_call c fidx feat i o st = Ok (new, st') /\ inv fidx st' /\ grows st st' /\ has_function c feat i r /\
  good_group c st' i (match new with Some l => l | None => [PKeep i] end) r.
Proof.
  intros Hl Hsig Ht Ho Hi Hstrict. destruct (op_performs i o Ht Ho) as (t & Hf & Hp). destruct (prism_valid_spec i o t Hp Hf) as (b & Hv & Hb).
  unfold replace_with_call. rewrite Hv. cbn [bind].
  assert (N : forall P : Prop, ~ P -> (forall f p, done_by c feat i f p -> P) -> has_function c feat i None) by (intros P HP H f p Hd; exact (HP (H f p Hd))).
  destruct b.
  2: { exists None, st, None. split; [reflexivity|]. split; [exact Hi|]. split; [apply grows_refl|]. split; [|apply good_keep].
       apply (N (supported t)); [intros h; apply Hb in h; discriminate|]. intros f p (o' & t' & P & S & _). destruct (performs_unique i o t o' t' Hp P) as [_ <-]. exact S. }
  destruct Hb as [Hb _]. specialize (Hb eq_refl). unfold replace_prism.
  destruct (prism_function_spec c i o t Hl Hp Hb) as [(f & p & Ef & Pf & Pn & Pv)|[Pno Ef]].
  2: { destruct (p_strict c) eqn:Es; [destruct (Hstrict eq_refl t Hp Hb) as (f & p & P); elim (Pno f p P)|]. rewrite Ef. cbn [bind].
       exists None, st, None. split; [reflexivity|]. split; [exact Hi|]. split; [apply grows_refl|]. split; [|apply good_keep].
       intros f p (o' & t' & P & S & Q & _). destruct (performs_unique i o t o' t' Hp P) as [<- <-]. exact (Pno f p Q). }
  rewrite Ef. cbn [bind].
  assert (U : forall f' p', done_by c feat i f' p' -> f' = f /\ p' = p \/ f' = f /\ is_vector t = false).
  { intros f' p' (o' & t' & P & S & Q & R & _). destruct (performs_unique i o t o' t' Hp P) as [<- <-]. destruct Hl as [_ Hu].
    destruct p, p'.
    - left. split; [exact (Hu _ _ _ Q Pf)|reflexivity].
    - elim (R eq_refl f Pf).
    - elim (Pn eq_refl f' Q).
    - left. split; [exact (Hu _ _ _ Q Pf)|reflexivity]. }
  destruct (abi_compatible feat (l_features f)) eqn:Ec.
  2: { exists None, st, None. split; [reflexivity|]. split; [exact Hi|]. split; [apply grows_refl|]. split; [|apply good_keep].
       intros f' p' Hd. assert (f' = f) by (destruct (U f' p' Hd) as [[E _]|[E _]]; exact E). subst f'. destruct Hd as (_ & _ & _ & _ & _ & _ & S). apply abi_compatible_spec in S. congruence. }
  apply abi_compatible_spec in Ec.
  assert (D : has_function c feat i (Some (l_name f))) by (exists f, p; split; [exists o, t; auto|reflexivity]).
  destruct (performs_op i o t Hp) as (_ & Hty & Hargs). rewrite Hty. pose proof (Hsig f p o t Pf Hb) as Sg. rewrite <- Hty in *.
  assert (La : length (i_args i) = arity o) by (rewrite <- (map_length fst), Hargs; apply repeat_length).
  destruct p.
  - (* by value *)
    assert (Sg' : l_params f = repeat (carrier (i_ty i)) (arity o) /\ exists r, l_ret f = Some r /\ (r = i_ty i \/ r = carrier (i_ty i))) by exact Sg. clear Sg. destruct Sg' as (Sp & r & Sr & Sc).
    rewrite operands_value; [|exact La| |].
    2: { intros j Hj. rewrite Sp. apply nth_error_Some. rewrite repeat_length. lia. }
    2: { intros Hv'. rewrite Forall_forall. intros op Hop. assert (fst op = i_ty i) as -> by (apply (in_map fst) in Hop; rewrite Hargs in Hop; apply repeat_spec in Hop; exact Hop).
         destruct (is_f32x2 (i_ty i)) eqn:F; [|reflexivity]. apply is_f32x2_spec in F. rewrite F in Hv'. discriminate. }
    cbn [bind]. rewrite (same_types_ok _ f (carrier (i_ty i)) (arity o)); [|exact Sp|rewrite map_length; exact La|].
    2: { rewrite Forall_forall. intros a Ha. apply in_map_iff in Ha. destruct Ha as (op & <- & Hop). rewrite value_arg_ty. f_equal.
         apply (in_map fst) in Hop. rewrite Hargs in Hop. apply repeat_spec in Hop. exact Hop. }
    rewrite Sr. cbn [app].
    assert (X : exists pr, (if is_f32x2 (i_ty i) && ty_eqb r (Sca Double) then Ok (Some [PCall (l_name f) (map value_arg (i_args i)) (RCast (i_dst i) r (i_ty i))], st)
                else if ty_eqb r (i_ty i) then Ok (Some [PCall (l_name f) (map value_arg (i_args i)) (RDst (i_dst i))], st) else UB) = Ok (Some [PCall (l_name f) (map value_arg (i_args i)) pr], st) /\
                (pr = RDst (i_dst i) /\ r = i_ty i \/ pr = RCast (i_dst i) r (i_ty i) /\ r = Sca Double /\ i_ty i = Vec 2 Float)).
    { destruct (is_f32x2 (i_ty i)) eqn:F; cbn [andb].
      - apply is_f32x2_spec in F. destruct Sc as [-> | ->]; rewrite F; cbn [ty_eqb carrier].
        + eexists. split; [rewrite Nat.eqb_refl; cbn [andb scalar_eqb]; reflexivity|]. left. auto.
        + eexists. split; [reflexivity|]. right. auto.
      - assert (r = i_ty i) as -> by (destruct Sc as [-> | ->]; [reflexivity|rewrite carrier_spec, F; reflexivity]). rewrite ty_eqb_refl. eexists. split; [reflexivity|]. left. auto. }
    destruct X as (pr & E & Hpr). exists (Some [PCall (l_name f) (map value_arg (i_args i)) pr]), st, (Some (l_name f)).
    split; [destruct (is_vector (i_ty i)); exact E|]. split; [exact Hi|]. split; [apply grows_refl|]. split; [exact D|].
    intros A _ W lib sem Hc nat_ fr w Ha. destruct (Hc f ByValue o (i_ty i) Pf Hb) as [Ct Cv].
    assert (Cv' : l_params f = repeat (carrier (i_ty i)) (arity o) /\ exists r, l_ret f = Some r /\ (r = i_ty i \/ r = carrier (i_ty i)) /\
      forall vs w, length vs = arity o -> Forall (fun v => typed (i_ty i) v = true) vs ->
      (let* '(v, _, w) := lib (l_name f) (map (fun v => CVal (returned_as (i_ty i) (carrier (i_ty i)) v)) vs) w in Ok (v, w)) =
      (let* '(v, w) := sem (l_name f) vs w in Ok (returned_as (i_ty i) r v, w))) by exact Cv. clear Cv. destruct Cv' as (_ & r' & Cr & _ & Cv).
    assert (r' = r) by congruence. subst r'. cbn [run_psteps run_pstep run_marked_step]. rewrite (eval_values fr (i_ty i) (i_args i) (arity o) Hargs).
    destruct (read_all (fst fr) (i_args i)) as [vs| | |] eqn:Er; cbn [bind]; try exact I.
    destruct (read_all_same _ _ _ _ _ Er Hargs) as [Lv Tv]. specialize (Cv vs w Lv Tv).
    destruct (lib (l_name f) (map (fun v => CVal (returned_as (i_ty i) (carrier (i_ty i)) v)) vs) w) as [[[v wr] w1]| | |], (sem (l_name f) vs w) as [[v' w1']| | |] eqn:Es; cbn [bind] in Cv |- *; try discriminate; try exact I.
    injection Cv as -> ->. rewrite write_back_values. pose proof (Ct vs w v' w1' Tv Es) as Tr.
    destruct Hpr as [[-> ->]|(-> & -> & E2)]; cbn [rel fst snd].
    + split; [|split; [reflexivity|exact Ha]]. f_equal. unfold returned_as. rewrite ty_eqb_refl. reflexivity.
    + split; [|split; [reflexivity|exact Ha]]. f_equal. unfold returned_as. rewrite E2 in *. cbn [ty_eqb]. apply bitcast_back; [reflexivity|exact Tr].
  - (* by pointer *)
    specialize (Pv eq_refl). rewrite Pv in *.
    destruct (operands_pointer fidx f (i_ty i) (arity o) 0 (i_args i) st Hi Hargs) as (ss & st1 & E1 & L1 & I1 & G1 & M1).
    { intros j Hj. rewrite Sg. assert (Hj' : (j < S (arity o))%nat) by lia. clear - Hj'. revert j Hj'. induction (S (arity o)) as [|n IH]; intros [|j] Hj; try lia; [reflexivity|]. cbn [repeat nth_error]. apply IH. lia. }
    rewrite E1. cbn [bind]. destruct (get_alloca st1 (fidx, i_ty i, return_index)) as [s st2] eqn:E2. destruct (get_alloca_spec fidx st1 _ _ s st2 I1 E2) as (I2 & G2 & M2).
    assert (Np : nth_error (l_params f) (arity o) <> None) by (rewrite Sg; apply nth_error_Some; rewrite repeat_length; lia).
    destruct (nth_error (l_params f) (arity o)) as [x|]; [|congruence].
    rewrite (same_types_ok _ f (Sca Pointer) (S (arity o)) Sg); [|rewrite app_length, map_length, L1; cbn [length]; lia|].
    2: { rewrite Forall_forall. intros a Ha. apply in_app_iff in Ha. destruct Ha as [Ha|[<- |[]]]; [|reflexivity]. apply in_map_iff in Ha. destruct Ha as (k & <- & _). reflexivity. }
    eexists _, st2, (Some (l_name f)). split; [reflexivity|]. split; [exact I2|]. split; [eapply grows_trans; eassumption|]. split; [exact D|].
    assert (M1' : slots_of fidx (i_ty i) 0 ss (st_map st2)) by (apply (slots_of_incl _ _ _ (st_map st1)); [destruct G2; assumption|exact M1]).
    assert (Nd : NoDup (ss ++ [s])) by (eapply slots_of_nodup; eassumption).
    pose proof (slots_of_alloc fidx (i_ty i) st2 ss I2 0%nat M1') as Al.
    assert (As : In s (map fst (st_allocas st2))) by (destruct I2 as (_ & _ & I3 & _); exact (I3 _ _ M2 eq_refl)).
    intros A HA W lib sem Hc nat_ [e sl] w Ha. cbn [fst snd] in *. destruct (Hc f ByPointer o (i_ty i) Pf Hb) as [Ct Cv]. rewrite Pv in Cv. destruct Cv as [_ Cv].
    rewrite (run_stores lib nat_ _ A ss (i_args i) e sl w); [|congruence|intros y Hy; apply HA; rewrite Forall_forall in Al; apply Al; exact Hy|exact Ha].
    cbn [run_marked_step]. destruct (read_all e (i_args i)) as [vs| | |] eqn:Er; cbn [bind]; try exact I.
    destruct (read_all_same _ _ _ _ _ Er Hargs) as [Lv Tv].
    assert (R : exists junk, sl s = Some junk) by (specialize (Ha s (HA s As)); destruct (sl s) as [j|]; [exists j; reflexivity|congruence]). destruct R as [junk Hj].
    cbn [run_psteps run_pstep fst snd]. rewrite (eval_pointers e junk s ss vs sl); [|congruence|exact Nd|exact Hj]. cbn [bind].
    specialize (Cv (ss ++ [s]) vs junk w Nd). rewrite app_length in Cv. cbn [length] in Cv. specialize (Cv ltac:(lia) Lv Tv).
    destruct (lib (l_name f) (pointers (ss ++ [s]) vs junk) w) as [[[v wr] w1]| | |], (sem (l_name f) vs w) as [[v' w1']| | |] eqn:Es; cbn [bind] in Cv |- *; try discriminate; try exact I.
    injection Cv as Cv ->. cbn [snd]. rewrite (write_back_result s v'); [|rewrite L1; exact Cv]. rewrite (Ct vs w v' w1' Tv Es). cbn [bind rel fst snd].
    split; [reflexivity|]. split; [reflexivity|]. apply write_back_allocated. apply set_slots_allocated. exact Ha.
Qed.

(** * Blocks and functions *)
Definition pworklist (b : list instr) (order : list nat) : Prop := forall k, In k order <-> exists i, nth_error b k = Some i /\ get_op i <> None.
(** every supported operation has a function *)
Definition covered (c : config) (i : instr) : Prop := forall o t, performs i o t -> supported t -> exists f p, provides c (the_symbol c p o t) f.
Definition good_at c feat st (i : instr) (g : list pstep) : Prop := exists r, has_function c feat i r /\ good_group c st i g r.
Lemma good_at_grows c feat st st' i g : grows st st' -> good_at c feat st i g -> good_at c feat st' i g.
Proof. intros H (r & H1 & H2). exists r. split; [exact H1|]. eapply good_grows; eassumption. Qed.
Lemma no_function c feat i : get_op i = None -> has_function c feat i None.
Proof. intros H f p (o & t & P & _). apply performs_op in P. destruct P as [P _]. congruence. Qed.
Section pass.
  Context (c : config) (Hl : library_ok c) (Hsig : signatures_ok c).
  Lemma pprocess_ok fidx feat b : Forall ptyped b -> (p_strict c = true -> Forall (covered c) b) ->
    forall order acc st, (forall k, In k order -> exists i, nth_error b k = Some i /\ get_op i <> None) -> length acc = length b -> inv fidx st ->
    (forall k i g, nth_error b k = Some i -> nth_error acc k = Some g -> g = [PKeep i] \/ good_at c feat st i g) ->
    exists acc' st', pprocess c fidx feat b order acc st = Ok (acc', st') /\ inv fidx st' /\ grows st st' /\ length acc' = length b /\
    forall k i g, nth_error b k = Some i -> nth_error acc' k = Some g -> (g = [PKeep i] /\ ~ In k order) \/ good_at c feat st' i g.
  Proof.
    intros Ht Hc. induction order as [|k order IH]; intros acc st Ho Hla Hi Hacc.
    - exists acc, st. split; [reflexivity|]. split; [exact Hi|]. split; [apply grows_refl|]. split; [exact Hla|]. intros k i g Hk Hg. destruct (Hacc k i g Hk Hg) as [-> |H]; [left; split; [reflexivity|intros []]|right; exact H].
    - destruct (Ho k (or_introl eq_refl)) as (i & Hki & Hop). cbn [pprocess]. rewrite Hki. destruct (get_op i) as [o|] eqn:Eo; [|congruence].
      assert (Hin := nth_error_In _ _ Hki). rewrite Forall_forall in Ht.
      destruct (replace_ok c fidx feat i o st Hl Hsig (Ht i Hin) Eo Hi) as (new & st1 & r & E & I1 & G1 & R1 & R2).
      { intros Hs t Pt St. specialize (Hc Hs). rewrite Forall_forall in Hc. exact (Hc i Hin o t Pt St). }
      rewrite E. cbn [bind]. set (acc1 := match new with Some l => set_nth acc k l | None => acc end).
      assert (Hlk : (k < length acc)%nat) by (rewrite Hla; apply nth_error_Some; congruence).
      assert (Here : forall g, nth_error acc1 k = Some g -> good_at c feat st1 i g).
      { intros g Hg. unfold acc1 in Hg. destruct new as [l|].
        - rewrite set_nth_same in Hg by exact Hlk. injection Hg as <-. exists r. auto.
        - destruct (Hacc k i g Hki Hg) as [-> |H]; [exists r; auto|eapply good_at_grows; eassumption]. }
      destruct (IH acc1 st1) as (acc' & st' & E' & I' & G' & L' & H').
      + intros j Hj. apply Ho. right. exact Hj.
      + unfold acc1. destruct new; [rewrite set_nth_length|]; exact Hla.
      + exact I1.
      + intros j i' g Hj Hg. destruct (Nat.eq_dec j k) as [-> |Hjk]; [right; assert (i' = i) by congruence; subst i'; apply Here; exact Hg|].
        assert (Hg' : nth_error acc j = Some g) by (unfold acc1 in Hg; destruct new; [rewrite set_nth_other in Hg by exact Hjk|]; exact Hg).
        destruct (Hacc j i' g Hj Hg') as [-> |H]; [left; reflexivity|right; eapply good_at_grows; eassumption].
      + exists acc', st'. split; [exact E'|]. split; [exact I'|]. split; [eapply grows_trans; eassumption|]. split; [exact L'|].
        intros j i' g Hj Hg. destruct (H' j i' g Hj Hg) as [[-> Hn]|H]; [|right; exact H].
        destruct (Nat.eq_dec j k) as [-> |Hjk]; [|left; split; [reflexivity|intros [h|h]; [congruence|exact (Hn h)]]].
        right. assert (i' = i) by congruence. subst i'. 
        assert (K : exists g, nth_error acc1 k = Some g) by (destruct (nth_error acc1 k) eqn:Z; [eexists; reflexivity|apply nth_error_None in Z; unfold acc1 in Z; destruct new; rewrite ?set_nth_length in Z; lia]).
        destruct K as [g K]. specialize (Here g K).
        (* position k keeps its group *)
        clear - E' Hn K Here G' Hg.
        assert (S : forall order acc st acc' st', pprocess c fidx feat b order acc st = Ok (acc', st') -> ~ In k order -> nth_error acc' k = nth_error acc k).
        { clear. induction order as [|j order IH]; intros acc st acc' st' E Hn; cbn [pprocess] in E; [congruence|].
          destruct (nth_error b j) as [i|]; [|discriminate]. destruct (get_op i) as [o|]; [|discriminate].
          destruct (replace_with_call c fidx feat i o st) as [[new st1]| | |]; cbn [bind] in E; try discriminate.
          rewrite (IH _ _ _ _ E) by (intros h; apply Hn; right; exact h). destruct new; [|reflexivity]. apply set_nth_other. intros ->. apply Hn. left. reflexivity. }
        rewrite (S _ _ _ _ _ E' Hn), K in Hg. injection Hg as ->. eapply good_at_grows; eassumption.
  Qed.
  Lemma prism_block_ok fidx feat b order st : Forall ptyped b -> (p_strict c = true -> Forall (covered c) b) -> pworklist b order -> inv fidx st ->
    exists l st', prism_block c fidx feat order b st = Ok (concat l, false, st') /\ inv fidx st' /\ grows st st' /\ Forall2 (good_at c feat st') b l.
  Proof.
    intros Ht Hc Hw Hi. destruct (pprocess_ok fidx feat b Ht Hc order (map (fun i => [PKeep i]) b) st) as (l & st' & E & I' & G' & L' & H').
    - intros k Hk. apply Hw. exact Hk.
    - apply map_length.
    - exact Hi.
    - intros k i g Hk Hg. rewrite nth_error_map, Hk in Hg. injection Hg as <-. left. reflexivity.
    - exists l, st'. unfold prism_block. rewrite E. cbn [bind]. split; [reflexivity|]. split; [exact I'|]. split; [exact G'|].
      apply Forall2_nth; [congruence|]. intros k i g Hk Hg. destruct (H' k i g Hk Hg) as [[-> Hn]|H]; [|exact H].
      exists None. split; [|apply good_keep]. apply no_function. destruct (get_op i) eqn:Eo; [|reflexivity]. elim Hn. apply Hw. exists i. split; [exact Hk|congruence].
  Qed.
  (** what the pass makes of a block *)
  Definition block_ok feat st (b : block instr) (b' : block pstep) : Prop :=
    k_phis b' = k_phis b /\ k_term b' = k_term b /\ exists l, k_body b' = concat l /\ Forall2 (good_at c feat st) (k_body b) l.
  Lemma block_ok_grows feat st st' b b' : grows st st' -> block_ok feat st b b' -> block_ok feat st' b b'.
  Proof. intros H (H1 & H2 & l & H3 & H4). split; [exact H1|]. split; [exact H2|]. exists l. split; [exact H3|]. clear H3. induction H4; constructor; [eapply good_at_grows; eassumption|assumption]. Qed.
  Lemma prism_blocks_ok fidx feat order : forall bs k st, Forall (fun b => Forall ptyped (k_body b)) bs -> (p_strict c = true -> Forall (fun b => Forall (covered c) (k_body b)) bs) ->
    (forall j b, nth_error bs j = Some b -> pworklist (k_body b) (order (k + j)%nat)) -> inv fidx st ->
    exists bs' st', prism_blocks c fidx feat order k bs st = Ok (bs', false, st') /\ inv fidx st' /\ grows st st' /\ Forall2 (block_ok feat st') bs bs'.
  Proof.
    induction bs as [|b bs IH]; intros k st Ht Hc Hw Hi.
    - exists [], st. split; [reflexivity|]. split; [exact Hi|]. split; [apply grows_refl|constructor].
    - inversion Ht as [|? ? T1 T2]; subst. destruct (prism_block_ok fidx feat (k_body b) (order k) st T1) as (l & st1 & E1 & I1 & G1 & F1).
      { intros Hs. specialize (Hc Hs). inversion Hc; subst. assumption. }
      { pose proof (Hw 0%nat b eq_refl) as H. rewrite Nat.add_0_r in H. exact H. }
      { exact Hi. }
      destruct (IH (S k) st1 T2) as (bs' & st' & E2 & I2 & G2 & F2).
      { intros Hs. specialize (Hc Hs). inversion Hc; subst. assumption. }
      { intros j x Hx. rewrite Nat.add_succ_comm. apply Hw. exact Hx. }
      { exact I1. }
      cbn [prism_blocks]. rewrite E1. cbn [bind]. rewrite E2. cbn [bind orb]. eexists _, st'. split; [reflexivity|]. split; [exact I2|]. split; [eapply grows_trans; eassumption|].
      constructor; [|exact F2]. split; [reflexivity|]. split; [reflexivity|]. exists l. split; [reflexivity|]. clear - F1 G2. induction F1; constructor; [eapply good_at_grows; eassumption|assumption].
  Qed.
  (** the allocas of a function, and what the pass makes of its blocks *)
  Definition fun_ok feat (f : func instr) (f' : func pstep) : Prop :=
    f_name f' = f_name f /\ f_params f' = f_params f /\
    exists st bs, f_blocks f' = at_entry (map (fun a => PAlloca (fst a) (snd a)) (st_allocas st)) bs /\ Forall2 (block_ok feat st) (f_blocks f) bs.
  (** the keys of the map belong to the functions before number k *)
  Definition map_ok (k : nat) (m : list (akey * nat)) : Prop :=
    (forall key n, In (key, n) m -> (n < length m)%nat) /\ NoDup (map snd m) /\ (forall key n, In (key, n) m -> (fst (fst key) < k)%nat).
  Lemma prism_on_function_ok fidx feat order f m0 : Forall (fun b => Forall ptyped (k_body b)) (f_blocks f) -> (p_strict c = true -> Forall (fun b => Forall (covered c) (k_body b)) (f_blocks f)) ->
    (forall j b, nth_error (f_blocks f) j = Some b -> pworklist (k_body b) (order j)) -> map_ok fidx m0 ->
    exists f' m1, prism_on_function c fidx feat order f m0 = Ok (f', false, m1) /\ map_ok (S fidx) m1 /\ fun_ok feat f f'.
  Proof.
    intros Ht Hc Hw (M1 & M2 & M3). destruct (prism_blocks_ok fidx feat order (f_blocks f) 0 (mk_pstate m0 []) Ht Hc Hw) as (bs & st & E & (I1 & I2 & I3 & I4) & G & F).
    { split; [exact M1|]. split; [exact M2|]. split; intros k n Hk; specialize (M3 k n Hk); [intros h; lia|lia]. }
    unfold prism_on_function. rewrite E. cbn [bind]. eexists _, (st_map st). split; [reflexivity|]. split.
    - split; [exact I1|]. split; [exact I2|]. intros k n Hk. specialize (I4 k n Hk). lia.
    - split; [reflexivity|]. split; [reflexivity|]. exists st, bs. split; [reflexivity|exact F].
  Qed.
  Definition treated_prism (feat : list Z -> option (list Z)) (chosen : list (list Z)) (f : func instr) (f' : func pstep) : Prop :=
    if member (f_name f) chosen then fun_ok (feat (f_name f)) f f' else f' = pkeep f.
  Lemma prism_functions_ok feat order chosen : forall m k m0,
    Forall (fun f => In (f_name f) chosen -> Forall (fun b => Forall ptyped (k_body b)) (f_blocks f) /\ (p_strict c = true -> Forall (fun b => Forall (covered c) (k_body b)) (f_blocks f))) m ->
    (forall j f l b, nth_error m j = Some f -> In (f_name f) chosen -> nth_error (f_blocks f) l = Some b -> pworklist (k_body b) (order (k + j)%nat l)) -> map_ok k m0 ->
    exists m', prism_functions c feat order chosen k m m0 = Ok (m', false) /\ Forall2 (treated_prism feat chosen) m m'.
  Proof.
    induction m as [|f m IH]; intros k m0 Ht Hw Hm.
    - exists []. split; [reflexivity|constructor].
    - inversion Ht as [|? ? T1 T2]; subst. cbn [prism_functions].
      assert (W' : forall j f l b, nth_error m j = Some f -> In (f_name f) chosen -> nth_error (f_blocks f) l = Some b -> pworklist (k_body b) (order (S k + j)%nat l)).
      { intros j g l b Hj Hg Hb. rewrite Nat.add_succ_comm. apply (Hw (S j) g l b); assumption. }
      destruct (member (f_name f) chosen) eqn:Em.
      + apply member_in in Em. destruct (T1 Em) as [T1a T1b]. destruct (prism_on_function_ok k (feat (f_name f)) (order k) f m0 T1a T1b) as (f' & m1 & E1 & H1 & F1); [|exact Hm|].
        { intros l b Hb. pose proof (Hw 0%nat f l b eq_refl Em Hb) as H. rewrite Nat.add_0_r in H. exact H. }
        rewrite E1. cbn [bind]. destruct (IH (S k) m1 T2 W' H1) as (m' & E2 & F2). rewrite E2. cbn [bind orb]. exists (f' :: m'). split; [reflexivity|]. constructor; [|exact F2].
        unfold treated_prism. apply member_in in Em. rewrite Em. exact F1.
      + destruct (IH (S k) m0 T2 W') as (m' & E2 & F2).
        { destruct Hm as (M1 & M2 & M3). split; [exact M1|]. split; [exact M2|]. intros key n Hk. specialize (M3 key n Hk). lia. }
        rewrite E2. cbn [bind]. exists (pkeep f :: m'). split; [reflexivity|]. constructor; [|exact F2]. unfold treated_prism. rewrite Em. reflexivity.
  Qed.
End pass.

(** * Running the module *)
(** the module in which every instruction is marked with the function that does it *)
Definition pmarked_block c feat (in_chosen : bool) (b : block instr) (m : block (instr * option (list Z))) : Prop :=
  k_phis m = k_phis b /\ k_term m = k_term b /\
  Forall2 (fun i x => fst x = i /\ if in_chosen then has_function c feat i (snd x) else snd x = None) (k_body b) (k_body m).
Definition pmarked c (feat : list Z -> option (list Z)) (chosen : list (list Z)) (f : func instr) (g : func (instr * option (list Z))) : Prop :=
  f_name g = f_name f /\ f_params g = f_params f /\
  exists b, (b = true <-> In (f_name f) chosen) /\ Forall2 (pmarked_block c (feat (f_name f)) b) (f_blocks f) (f_blocks g).
Lemma done_by_unique c feat i f p f' p' : library_ok c -> done_by c feat i f p -> done_by c feat i f' p' -> f = f'.
Proof.
  intros [_ Hu] (o & t & P & _ & Q & R & _) (o' & t' & P' & _ & Q' & R' & _). destruct (performs_unique i o t o' t' P P') as [<- <-].
  destruct p, p'; [exact (Hu _ _ _ Q Q')|elim (R' eq_refl f Q)|elim (R eq_refl f' Q')|exact (Hu _ _ _ Q Q')].
Qed.
Lemma has_function_unique c feat i r r' : library_ok c -> has_function c feat i r -> has_function c feat i r' -> r = r'.
Proof.
  intros Hl. destruct r as [g|], r' as [g'|]; cbn [has_function].
  - intros (f & p & D & <-) (f' & p' & D' & <-). f_equal. f_equal. exact (done_by_unique c feat i f p f' p' Hl D D').
  - intros (f & p & D & _) H. elim (H f p D).
  - intros H (f & p & D & _). elim (H f p D).
  - reflexivity.
Qed.
Section runs.
  Context {W : Type} (c : config) (Hl : library_ok c) (lib : library W) (sem : meaning W) (Hc : conforms c lib sem).
  Definition orel (o1 o2 : oracle (W := W)) : Prop := forall i vs w, o1 i vs w = o2 i vs w.
  Lemma run_app o : forall a b fr w, run_psteps lib o fr (a ++ b) w = (let* '(fr, w) := run_psteps lib o fr a w in run_psteps lib o fr b w).
  Proof.
    induction a as [|s a IH]; intros b fr w; [reflexivity|]. cbn [app run_psteps]. destruct (run_pstep lib o fr s w) as [[fr' w']| | |]; cbn [bind]; try reflexivity. apply IH.
  Qed.
  Lemma marked_step_ext o1 o2 e i r w : orel o1 o2 -> run_marked_step sem o1 e i r w = run_marked_step sem o2 e i r w.
  Proof. intros H. destruct r; [reflexivity|]. cbn [run_marked_step]. unfold run_native. destruct (read_all e (i_args i)); cbn [bind]; try reflexivity. rewrite H. reflexivity. Qed.
  Lemma run_groups feat st A o1 o2 : orel o1 o2 -> incl (map fst (st_allocas st)) A -> forall b l x, Forall2 (good_at c feat st) b l ->
    Forall2 (fun i (x : instr * option (list Z)) => fst x = i /\ has_function c feat i (snd x)) b x -> forall fr w, allocated A (snd fr) ->
    rel A (run_psteps lib o1 fr (concat l) w) (run_marked sem o2 (fst fr) x w).
  Proof.
    intros Ho HA b l x Hb. revert x. induction Hb as [|i g b l (r & R1 & R2) Hb IH]; intros x Hx fr w Ha; inversion Hx as [|? [j s] ? x' [X1 X2] Hx']; subst.
    - cbn. auto.
    - cbn [concat fst snd] in *. assert (s = r) by (eapply has_function_unique; eassumption). subst s. rewrite run_app. cbn [run_marked].
      pose proof (R2 A HA W lib sem Hc o1 fr w Ha) as H. rewrite (marked_step_ext o1 o2 _ _ _ _ Ho) in H.
      destruct (run_psteps lib o1 fr g w) as [[fr' w']| | |], (run_marked_step sem o2 (fst fr) j r w) as [[e' w'']| | |]; cbn [rel] in H; try contradiction; cbn [bind]; try exact I.
      destruct H as (H1 & <- & H3). rewrite <- H1. apply IH; assumption.
  Qed.
  Lemma run_allocas o A0 : forall l fr w, (forall s, In s A0 -> snd fr s <> None) ->
    exists sl, run_psteps lib o fr (map (fun a => PAlloca (fst a) (snd a)) l) w = Ok ((fst fr, sl), w) /\ allocated (map fst l ++ A0) sl.
  Proof.
    induction l as [|[k t] l IH]; intros [e sl] w H; cbn [map run_psteps].
    - exists sl. split; [reflexivity|]. exact H.
    - cbn [run_pstep bind fst snd]. destruct (IH (e, set_slot sl k None) w) as (sl' & E & Ha).
      { intros s Hs. cbn [snd]. unfold set_slot. destruct (Nat.eqb s k); [discriminate|apply H; exact Hs]. }
      cbn [fst] in E. exists sl'. split; [exact E|]. intros s [<- |Hs]; [|apply Ha; exact Hs].
      (* the first alloca stays allocated *)
      clear - E. assert (P : forall l sl sl', sl k <> None -> run_psteps lib o (e, sl) (map (fun a => PAlloca (fst a) (snd a)) l) w = Ok ((e, sl'), w) -> sl' k <> None).
      { clear. induction l as [|[j t] l IH]; intros sl sl' H E; cbn [map run_psteps] in E; [injection E as <-; exact H|].
        cbn [run_pstep bind fst snd] in E. apply IH in E; [exact E|]. unfold set_slot. destruct (Nat.eqb k j); [discriminate|exact H]. }
      apply (P l (set_slot sl k None) sl'); [unfold set_slot; rewrite Nat.eqb_refl; discriminate|exact E].
  Qed.
  Definition same_result {X} (r1 r2 : outcome (X * W)) : Prop := r1 = r2.
  Lemma blocks_run feat st o1 o2 bs bs' ms : orel o1 o2 -> Forall2 (block_ok c feat st) bs bs' -> Forall2 (pmarked_block c feat true) bs ms ->
    forall n prev cur fr w, (cur = 0%nat \/ allocated (map fst (st_allocas st)) (snd fr)) ->
    run_pblocks lib o1 n (at_entry (map (fun a => PAlloca (fst a) (snd a)) (st_allocas st)) bs') prev cur fr w = run_blocks (run_marked sem) o2 n ms prev cur (fst fr) w.
  Proof.
    intros Ho Hb Hm. induction n as [|n IH]; intros prev cur [e sl] w Hcur; [reflexivity|]. cbn [run_pblocks run_blocks fst snd].
    set (A := map fst (st_allocas st)) in *.
    assert (N : match nth_error (at_entry (map (fun a => PAlloca (fst a) (snd a)) (st_allocas st)) bs') cur, nth_error ms cur with
                | Some b', Some m => k_phis b' = k_phis m /\ k_term b' = k_term m /\ forall e sl w, (cur = 0%nat \/ allocated A sl) -> rel A (run_psteps lib o1 (e, sl) (k_body b') w) (run_marked sem o2 e (k_body m) w)
                | None, None => True
                | _, _ => False end).
    { clear IH Hcur.
      assert (G : forall b b' m, block_ok c feat st b b' -> pmarked_block c feat true b m -> k_phis b' = k_phis m /\ k_term b' = k_term m /\
                  forall e sl w, allocated A sl -> rel A (run_psteps lib o1 (e, sl) (k_body b') w) (run_marked sem o2 e (k_body m) w)).
      { intros b b' m (B1 & B2 & l & B3 & B4) (M1 & M2 & M3). split; [congruence|]. split; [congruence|]. intros e0 sl0 w0 Ha. rewrite B3.
        exact (run_groups feat st A o1 o2 Ho (fun x h => h) (k_body b) l (k_body m) B4 M3 (e0, sl0) w0 Ha). }
      destruct Hb as [|b b' bs bs' H1 Hb].
      - inversion Hm; subst. cbn [at_entry]. destruct cur; exact I.
      - inversion Hm as [|? m ? ms' M1 Hm']; subst. cbn [at_entry]. destruct cur as [|cur]; cbn [nth_error].
        + destruct (G b b' m H1 M1) as (G1 & G2 & G3). cbn [k_phis k_term k_body]. split; [exact G1|]. split; [exact G2|]. intros e0 sl0 w0 _. rewrite run_app.
          destruct (run_allocas o1 [] (st_allocas st) (e0, sl0) w0) as (sl1 & E & Ha); [intros s []|]. rewrite E. cbn [bind fst]. apply G3. rewrite app_nil_r in Ha. exact Ha.
        + clear - G Hb Hm'. revert cur ms' Hm'. induction Hb as [|b b' bs bs' H1 Hb IH]; intros cur ms' Hm'; inversion Hm' as [|? m ? ms'' M1 Hm'']; subst.
          * destruct cur; exact I.
          * destruct cur as [|cur]; cbn [nth_error].
            -- destruct (G b b' m H1 M1) as (G1 & G2 & G3). split; [exact G1|]. split; [exact G2|]. intros e0 sl0 w0 [h|Ha]; [discriminate|]. apply G3. exact Ha.
            -- specialize (IH cur ms'' Hm''). destruct (nth_error bs' cur), (nth_error ms'' cur); try exact IH. destruct IH as (I1 & I2 & I3). split; [exact I1|]. split; [exact I2|].
               intros e0 sl0 w0 [h|Ha]; [discriminate|]. apply I3. right. exact Ha. }
    destruct (nth_error (at_entry _ bs') cur) as [b'|], (nth_error ms cur) as [m|]; try contradiction; [|reflexivity]. destruct N as (N1 & N2 & N3).
    assert (E : enter_block e prev b' = enter_block e prev m) by (unfold enter_block; rewrite N1; reflexivity). rewrite E.
    destruct (enter_block e prev m) as [e1| | |]; cbn [bind]; try reflexivity.
    specialize (N3 e1 sl w Hcur). destruct (run_psteps lib o1 (e1, sl) (k_body b') w) as [[[e2 sl2] w2]| | |], (run_marked sem o2 e1 (k_body m) w) as [[e2' w2']| | |]; cbn [rel fst snd] in N3; try contradiction; cbn [bind fst snd]; try reflexivity.
    destruct N3 as (-> & <- & Ha). rewrite N2. destruct (next e2' (k_term m)) as [[v|l]| | |]; cbn [bind]; try reflexivity. apply (IH (Some cur) l (e2', sl2) w2). right. exact Ha.
  Qed.
  Lemma kept_run o1 o2 : orel o1 o2 -> forall b x, Forall2 (fun (i : instr) (x : instr * option (list Z)) => fst x = i /\ snd x = None) b x -> forall fr w,
    rel [] (run_psteps lib o1 fr (map PKeep b) w) (run_marked sem o2 (fst fr) x w).
  Proof.
    intros Ho b x Hx. induction Hx as [|i [j r] b x [Hi Hn] Hx IH]; intros [e sl] w.
    - cbn. split; [reflexivity|]. split; [reflexivity|]. intros s [].
    - cbn [fst snd] in *. subst j r. cbn [map run_psteps run_pstep run_marked fst snd]. rewrite (marked_step_ext o2 o1) by (intros ? ? ?; symmetry; apply Ho). cbn [run_marked_step].
      destruct (run_native o1 e i w) as [[e' w']| | |]; cbn [bind]; try exact I. apply (IH (e', sl) w').
  Qed.
  Lemma kept_blocks_run feat o1 o2 bs ms : orel o1 o2 -> Forall2 (pmarked_block c feat false) bs ms ->
    forall n prev cur fr w, run_pblocks lib o1 n (map (map_body (map PKeep)) bs) prev cur fr w = run_blocks (run_marked sem) o2 n ms prev cur (fst fr) w.
  Proof.
    intros Ho Hm. induction n as [|n IH]; intros prev cur [e sl] w; [reflexivity|]. cbn [run_pblocks run_blocks fst snd].
    assert (N : match nth_error (map (map_body (map PKeep)) bs) cur, nth_error ms cur with
                | Some b', Some m => k_phis b' = k_phis m /\ k_term b' = k_term m /\ forall fr w, rel [] (run_psteps lib o1 fr (k_body b') w) (run_marked sem o2 (fst fr) (k_body m) w)
                | None, None => True
                | _, _ => False end).
    { clear IH. revert cur. induction Hm as [|b m bs ms (M1 & M2 & M3) Hm IH]; intros [|cur]; cbn [map nth_error]; try exact I; [|apply IH].
      cbn [map_body k_phis k_term k_body]. split; [congruence|]. split; [congruence|]. intros fr w0. apply kept_run; assumption. }
    destruct (nth_error (map (map_body (map PKeep)) bs) cur) as [b'|], (nth_error ms cur) as [m|]; try contradiction; [|reflexivity]. destruct N as (N1 & N2 & N3).
    assert (E : enter_block e prev b' = enter_block e prev m) by (unfold enter_block; rewrite N1; reflexivity). rewrite E.
    destruct (enter_block e prev m) as [e1| | |]; cbn [bind]; try reflexivity.
    specialize (N3 (e1, sl) w). cbn [fst] in N3. destruct (run_psteps lib o1 (e1, sl) (k_body b') w) as [[[e2 sl2] w2]| | |], (run_marked sem o2 e1 (k_body m) w) as [[e2' w2']| | |]; cbn [rel fst snd] in N3; try contradiction; cbn [bind fst snd]; try reflexivity.
    destruct N3 as (-> & <- & _). rewrite N2. destruct (next e2' (k_term m)) as [[v|l]| | |]; cbn [bind]; try reflexivity. apply (IH (Some cur) l (e2', sl2) w2).
  Qed.
  Lemma module_runs feat chosen m m' g ext : Forall2 (treated_prism c feat chosen) m m' -> Forall2 (pmarked c feat chosen) m g ->
    forall fuel name args w, run_pfun lib ext m' fuel name args w = run_fun (run_marked sem) ext g fuel name args w.
  Proof.
    intros Hm Hg.
    (* the functions found *)
    assert (Fd : forall name, match find_func m' name, find_func g name with
                 | Some f', Some h => f_params f' = f_params h /\ (f_blocks f' = [] <-> f_blocks h = []) /\
                     forall o1 o2 n e w, orel o1 o2 -> run_pblocks lib o1 n (f_blocks f') None 0 (e, fun _ => None) w = run_blocks (run_marked sem) o2 n (f_blocks h) None 0 e w
                 | None, None => True
                 | _, _ => False end).
    { intros name. revert g Hg. induction Hm as [|f f' m m' Hf Hm IH]; intros g Hg; inversion Hg as [|? h ? g' (H1 & H2 & b & Hb & H3) Hg']; subst; [exact I|].
      assert (Eb : b = member (f_name f) chosen) by (apply eq_true_iff_eq; rewrite Hb, member_in; reflexivity). subst b. clear Hb.
      unfold treated_prism in Hf. unfold find_func. cbn [List.find]. destruct (member (f_name f) chosen) eqn:Em.
      - destruct Hf as (F1 & F2 & st & bs & F3 & F4). rewrite F1, H1. destruct (byte_eqb (f_name f) name); [|apply IH; exact Hg']. split; [congruence|]. split.
        + rewrite F3. clear - F4 H3. destruct F4; inversion H3; subst; cbn [at_entry]; split; intros ?; try reflexivity; discriminate.
        + intros o1 o2 n e w Ho. rewrite F3. apply (blocks_run (feat (f_name f)) st o1 o2 (f_blocks f) bs (f_blocks h) Ho F4 H3 n None 0%nat (e, fun _ => None) w). left. reflexivity.
      - subst f'. cbn [pkeep f_name]. rewrite H1. destruct (byte_eqb (f_name f) name); [|apply IH; exact Hg']. cbn [f_params f_blocks pkeep]. split; [congruence|]. split.
        + clear - H3. destruct H3; cbn [map]; split; intros ?; try reflexivity; discriminate.
        + intros o1 o2 n e w Ho. apply (kept_blocks_run (feat (f_name f)) o1 o2 (f_blocks f) (f_blocks h) Ho H3 n None 0%nat (e, fun _ => None) w). }
    induction fuel as [|n IH]; intros name args w; [reflexivity|]. cbn [run_pfun run_fun]. specialize (Fd name) as F. destruct (find_func m' name) as [f'|], (find_func g name) as [h|]; try contradiction; [|reflexivity].
    destruct F as (F1 & F2 & F3). rewrite F1. destruct (bind_params (f_params h) args (fun _ => None)) as [e| | |]; cbn [bind]; try reflexivity. apply F3.
    intros i vs w'. unfold with_calls. destruct (i_op i) as [| | | | |[nm|]| |]; try reflexivity.
    assert (D : is_defined m' nm = is_defined g nm).
    { unfold is_defined. specialize (Fd nm). destruct (find_func m' nm) as [f1|], (find_func g nm) as [h1|]; try contradiction; [|reflexivity]. destruct Fd as (_ & [D1 D2] & _).
      destruct (f_blocks f1), (f_blocks h1); try reflexivity; [specialize (D1 eq_refl); discriminate|specialize (D2 eq_refl); discriminate]. }
    rewrite D. destruct (is_defined g nm); [apply IH|reflexivity].
  Qed.
End runs.

(** * What a successful run of the pass says *)
Definition made (c : config) feat (order : nat -> nat -> list nat) (chosen : list (list Z)) (k j : nat) (f : func instr) (f' : func pstep) : Prop :=
  f_name f' = f_name f /\ f_params f' = f_params f /\ length (f_blocks f') = length (f_blocks f) /\
  if member (f_name f) chosen then
    forall l b b', nth_error (f_blocks f) l = Some b -> nth_error (f_blocks f') l = Some b' -> k_phis b' = k_phis b /\ k_term b' = k_term b /\
    exists st acc st' al, pprocess c (k + j) (feat (f_name f)) (k_body b) (order (k + j)%nat l) (map (fun i => [PKeep i]) (k_body b)) st = Ok (acc, st') /\
      Forall (fun s => exists n t, s = PAlloca n t) al /\ k_body b' = al ++ concat acc
  else f' = pkeep f.
Lemma prism_blocks_inv c fidx feat order : forall bs k st bs' mo st', prism_blocks c fidx feat order k bs st = Ok (bs', mo, st') ->
  mo = false /\ length bs' = length bs /\ forall l b b', nth_error bs l = Some b -> nth_error bs' l = Some b' -> k_phis b' = k_phis b /\ k_term b' = k_term b /\
  exists st acc st', pprocess c fidx feat (k_body b) (order (k + l)%nat) (map (fun i => [PKeep i]) (k_body b)) st = Ok (acc, st') /\ k_body b' = concat acc.
Proof.
  induction bs as [|b bs IH]; intros k st bs' mo st' H; cbn [prism_blocks] in H.
  - injection H as <- <- <-. split; [reflexivity|]. split; [reflexivity|]. intros [|l] b b' Hb; discriminate.
  - unfold prism_block in H. destruct (pprocess c fidx feat (k_body b) (order k) (map (fun i => [PKeep i]) (k_body b)) st) as [[acc st1]| | |] eqn:E; cbn [bind] in H; try discriminate.
    destruct (prism_blocks c fidx feat order (S k) bs st1) as [[[r more] st2]| | |] eqn:E2; cbn [bind orb] in H; try discriminate. injection H as <- <- <-.
    destruct (IH _ _ _ _ _ E2) as (-> & L & H). split; [reflexivity|]. split; [cbn [length]; congruence|]. intros [|l] x x' Hx Hx'; cbn [nth_error] in *.
    + injection Hx as <-. injection Hx' as <-. cbn [k_phis k_term k_body]. split; [reflexivity|]. split; [reflexivity|]. exists st, acc, st1. rewrite Nat.add_0_r. split; [exact E|reflexivity].
    + rewrite <- Nat.add_succ_comm. apply H; assumption.
Qed.
Lemma prism_functions_inv c feat order chosen : forall m k m0 m' mo, prism_functions c feat order chosen k m m0 = Ok (m', mo) ->
  mo = false /\ length m' = length m /\ forall j f f', nth_error m j = Some f -> nth_error m' j = Some f' -> made c feat order chosen k j f f'.
Proof.
  induction m as [|f m IH]; intros k m0 m' mo H; cbn [prism_functions] in H.
  - injection H as <- <-. split; [reflexivity|]. split; [reflexivity|]. intros [|j] f f' Hf; discriminate.
  - destruct (member (f_name f) chosen) eqn:Em.
    + unfold prism_on_function in H. destruct (prism_blocks c k (feat (f_name f)) (order k) 0 (f_blocks f) (mk_pstate m0 [])) as [[[bs mo1] st]| | |] eqn:E; cbn [bind] in H; try discriminate.
      destruct (prism_functions c feat order chosen (S k) m (st_map st)) as [[r more]| | |] eqn:E2; cbn [bind] in H; try discriminate. injection H as <- <-.
      destruct (prism_blocks_inv _ _ _ _ _ _ _ _ _ _ E) as (-> & L1 & B). destruct (IH _ _ _ _ E2) as (-> & L & H). split; [reflexivity|]. split; [cbn [length]; congruence|].
      intros [|j] g g' Hg Hg'; cbn [nth_error] in *.
      * injection Hg as <-. injection Hg' as <-. unfold made. rewrite Em. cbn [f_name f_params f_blocks]. split; [reflexivity|]. split; [reflexivity|].
        split; [destruct bs; cbn [at_entry length] in *; congruence|]. intros l b b' Hb Hb'.
        assert (X : exists b0 al, nth_error bs l = Some b0 /\ k_phis b' = k_phis b0 /\ k_term b' = k_term b0 /\ k_body b' = al ++ k_body b0 /\ Forall (fun s => exists n t, s = PAlloca n t) al).
        { destruct bs as [|b0 bs]; [destruct l; discriminate|]. cbn [at_entry] in Hb'. destruct l as [|l]; cbn [nth_error] in *.
          - injection Hb' as <-. exists b0, (map (fun a => PAlloca (fst a) (snd a)) (st_allocas st)). cbn [k_phis k_term k_body]. split; [reflexivity|]. split; [reflexivity|]. split; [reflexivity|]. split; [reflexivity|].
            apply Forall_forall. intros s Hs. apply in_map_iff in Hs. destruct Hs as ([n t] & <- & _). exists n, t. reflexivity.
          - exists b', []. auto. }
        destruct X as (b0 & al & X1 & X2 & X3 & X4 & X5). destruct (B l b b0 Hb X1) as (Y1 & Y2 & st0 & acc & st1 & Y3 & Y4).
        split; [congruence|]. split; [congruence|]. exists st0, acc, st1, al. rewrite Nat.add_0_r. split; [exact Y3|]. split; [exact X5|]. rewrite X4, Y4. reflexivity.
      * assert (K := H j g g' Hg Hg'). unfold made in *. rewrite <- Nat.add_succ_comm. exact K.
    + destruct (prism_functions c feat order chosen (S k) m m0) as [[r more]| | |] eqn:E2; cbn [bind] in H; try discriminate. injection H as <- <-.
      destruct (IH _ _ _ _ E2) as (-> & L & H). split; [reflexivity|]. split; [cbn [length]; congruence|]. intros [|j] g g' Hg Hg'; cbn [nth_error] in *.
      * injection Hg as <-. injection Hg' as <-. unfold made. rewrite Em. cbn [pkeep f_name f_params f_blocks]. rewrite map_length. repeat split.
      * assert (K := H j g g' Hg Hg'). unfold made in *. rewrite <- Nat.add_succ_comm. exact K.
Qed.
(** every position of the worklist was treated *)
Lemma pprocess_all c fidx feat b : forall order acc st acc' st', pprocess c fidx feat b order acc st = Ok (acc', st') ->
  forall k, In k order -> exists i o st1 new st2, nth_error b k = Some i /\ get_op i = Some o /\ replace_with_call c fidx feat i o st1 = Ok (new, st2).
Proof.
  induction order as [|j order IH]; intros acc st acc' st' H k Hk; [destruct Hk|]. cbn [pprocess] in H.
  destruct (nth_error b j) as [i|] eqn:Ei; [|discriminate]. destruct (get_op i) as [o|] eqn:Eo; [|discriminate].
  destruct (replace_with_call c fidx feat i o st) as [[new st1]| | |] eqn:Er; cbn [bind] in H; try discriminate.
  destruct Hk as [<- |Hk]; [|eapply IH; eassumption]. exists i, o, st, new, st1. auto.
Qed.
(** every group is the instruction itself, or what replaced it *)
Lemma pprocess_groups c fidx feat b : forall order acc st acc' st', pprocess c fidx feat b order acc st = Ok (acc', st') ->
  (forall k g, nth_error acc k = Some g -> exists i, nth_error b k = Some i /\ (g = [PKeep i] \/ exists o st1 st2, get_op i = Some o /\ replace_with_call c fidx feat i o st1 = Ok (Some g, st2))) ->
  forall k g, nth_error acc' k = Some g -> exists i, nth_error b k = Some i /\ (g = [PKeep i] \/ exists o st1 st2, get_op i = Some o /\ replace_with_call c fidx feat i o st1 = Ok (Some g, st2)).
Proof.
  induction order as [|j order IH]; intros acc st acc' st' H Ha k g Hg; cbn [pprocess] in H; [injection H as <- <-; apply Ha; exact Hg|].
  destruct (nth_error b j) as [i|] eqn:Ei; [|discriminate]. destruct (get_op i) as [o|] eqn:Eo; [|discriminate].
  destruct (replace_with_call c fidx feat i o st) as [[new st1]| | |] eqn:Er; cbn [bind] in H; try discriminate.
  refine (IH _ _ _ _ H _ k g Hg). clear k g Hg. intros k g Hg. destruct new as [l|]; [|apply Ha; exact Hg].
  destruct (Nat.eq_dec k j) as [-> |Hkj].
  - assert (Hl : (j < length acc)%nat). { assert (Z : nth_error (set_nth acc j l) j <> None) by congruence. apply nth_error_Some in Z. rewrite set_nth_length in Z. exact Z. }
    rewrite set_nth_same in Hg by exact Hl. injection Hg as <-. exists i. split; [exact Ei|]. right. exists o, st, st1. auto.
  - rewrite set_nth_other in Hg by exact Hkj. apply Ha. exact Hg.
Qed.
Lemma same_types_spec args f : same_types args f = true -> map parg_ty args = l_params f.
Proof.
  unfold same_types. rewrite andb_true_iff. intros [L H]. apply Nat.eqb_eq in L. revert L H. generalize (l_params f). induction args as [|a args IH]; intros [|t l] L H; try discriminate; [reflexivity|].
  cbn [combine forallb fst snd] in H. apply andb_prop in H. destruct H as [H1 H2]. cbn [map]. f_equal; [apply ty_eqb_eq; exact H1|apply IH; [cbn in L; lia|exact H2]].
Qed.
Lemma type_name_symbol c i o n p : type_name (i_ty i) = Ok n -> function_name c i o p = Ok (the_symbol c p o (i_ty i)).
Proof.
  intros H. unfold function_name, the_symbol. destruct (i_ty i) as [s|k s|k s]; cbn [type_name] in *; [| |discriminate].
  - destruct s; cbn [fp_name bind] in *; try discriminate; destruct (p_rounding c), (p_dispatch c), o; reflexivity.
  - destruct s; cbn [fp_name bind] in *; try discriminate; destruct (p_rounding c), (p_dispatch c), o, p; cbn [is_vector symbol scalar_text]; rewrite <- ?app_assoc; reflexivity.
Qed.
Lemma prism_function_some c i o f p : NoDup (map l_name (the_library c)) -> prism_function c i o = Ok (Some (f, p)) -> provides c (the_symbol c p o (i_ty i)) f.
Proof.
  intros Hn H. unfold prism_function in H. destruct (type_name (i_ty i)) as [n| | |] eqn:E; [|unfold function_name in H; rewrite E in H; discriminate..].
  rewrite !(type_name_symbol c i o n) in H by exact E. cbn [bind] in H. destruct (lib_function c (the_symbol c ByValue o (i_ty i))) eqn:E1.
  - injection H as <- <-. apply lib_function_some; assumption.
  - destruct (lib_function c (the_symbol c ByPointer o (i_ty i))) eqn:E2; [injection H as <- <-; apply lib_function_some; assumption|]. destruct (p_strict c); discriminate.
Qed.
Lemma stores_only fidx f p v : forall n k ops st s a st', get_operands fidx f p v n k ops st = Ok (s, a, st') -> Forall (fun x => exists n t, x = PStore n t) s.
Proof.
  induction n as [|n IH]; intros k ops st s a st' H; cbn [get_operands] in H; [injection H as <- <- <-; constructor|]. destruct ops as [|op ops]; [discriminate|].
  assert (K : forall s a st1, (if v then operand_vector fidx f p k op st else operand_scalar f k op st) = Ok (s, a, st1) -> Forall (fun x => exists n t, x = PStore n t) s).
  { intros s1 a1 st1 E. destruct v; [unfold operand_vector in E|unfold operand_scalar in E]; destruct (nth_error (l_params f) k); try discriminate; [|injection E as <- <- <-; constructor].
    destruct (_ && _) in E; [destruct (get_alloca st (fidx, fst op, Z.of_nat k)) in E; injection E as <- <- <-; constructor; [eexists _, _; reflexivity|constructor]|].
    destruct (is_f32x2 (fst op)); injection E as <- <- <-; constructor. }
  destruct (if v then operand_vector fidx f p k op st else operand_scalar f k op st) as [[[s1 a1] st1]| | |]; cbn [bind] in H; try discriminate.
  destruct (get_operands fidx f p v n (S k) ops st1) as [[[s2 a2] st2]| | |] eqn:E; cbn [bind] in H; try discriminate. injection H as <- <- <-.
  apply Forall_app. split; [apply (K s1 a1 st1 eq_refl)|eapply IH; exact E].
Qed.
(** the only call inserted for an instruction *)
Lemma replace_calls c fidx feat i o st l st' : NoDup (map l_name (the_library c)) -> replace_with_call c fidx feat i o st = Ok (Some l, st') ->
  forall g args r, In (PCall g args r) l -> exists f p, provides c (the_symbol c p o (i_ty i)) f /\ l_name f = g /\ map parg_ty args = l_params f /\ suits feat (l_features f).
Proof.
  intros Hn H g args r Hin. unfold replace_with_call in H. destruct (prism_valid i) as [v| | |]; cbn [bind] in H; try discriminate. destruct v; [|discriminate].
  unfold replace_prism in H. destruct (prism_function c i o) as [found| | |] eqn:E; cbn [bind] in H; try discriminate. destruct found as [[f p]|]; [|discriminate].
  destruct (abi_compatible feat (l_features f)) eqn:Ea; [|discriminate]. exists f, p. split; [eapply prism_function_some; eassumption|].
  destruct (get_operands fidx f p (is_vector (i_ty i)) (arity o) 0 (i_args i) st) as [[[stores a] st1]| | |] eqn:Eg; cbn [bind] in H; try discriminate.
  apply stores_only in Eg. assert (S : ~ In (PCall g args r) stores) by (intros h; rewrite Forall_forall in Eg; destruct (Eg _ h) as (? & ? & ?); discriminate).
  assert (D : forall tl, l = stores ++ tl -> In (PCall g args r) tl) by (intros tl ->; apply in_app_or in Hin; destruct Hin; [contradiction|assumption]).
  apply abi_compatible_spec in Ea.
  assert (V : (if same_types a f then match l_ret f with
              | None => UB
              | Some r => if is_f32x2 (i_ty i) && ty_eqb r (Sca Double) then Ok (Some (stores ++ [PCall (l_name f) a (RCast (i_dst i) r (i_ty i))]), st1)
                  else if ty_eqb r (i_ty i) then Ok (Some (stores ++ [PCall (l_name f) a (RDst (i_dst i))]), st1) else UB end else UB) = Ok (Some l, st') ->
              l_name f = g /\ map parg_ty args = l_params f /\ suits feat (l_features f)).
  { intros V. destruct (same_types a f) eqn:Es; [|discriminate]. apply same_types_spec in Es. destruct (l_ret f) as [rt|]; [|discriminate].
    destruct (_ && _) in V; [|destruct (ty_eqb rt (i_ty i)); [|discriminate]]; injection V as V _; symmetry in V; destruct (D _ V) as [X|[]]; injection X as <- <- _; auto. }
  destruct p; [destruct (is_vector (i_ty i)); exact (V H)|]. destruct (is_vector (i_ty i)); [|exact (V H)].
  destruct (get_alloca st1 (fidx, i_ty i, return_index)) as [slot st2]. destruct (nth_error (l_params f) (arity o)); [|discriminate].
  destruct (same_types (a ++ [ASlot slot]) f) eqn:Es; [|discriminate]. apply same_types_spec in Es. injection H as H _. symmetry in H. destruct (D _ H) as [X|[X|[]]]; [|discriminate]. injection X as <- <- _. auto.
Qed.
