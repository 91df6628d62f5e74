(** C87-C91: the PRISM instrumentation pass (libVFCInstrumentPRISM.cpp, TargetFeatures.hpp). *)
From Coq Require Import String ZArith List Bool Lia.
From Verif Require Import Common Text Bits FloatOps IeeeModel WrapModel VfiModel InstrModel InstrProofs SelectModel ModuleModel ModuleProofs PrismModel PrismProofs.
Import ListNotations.
Open Scope Z_scope.
Open Scope outcome_scope.

(** the chosen functions follow the typing rules of LLVM IR; the pass is given a worklist for each of their blocks *)
Definition chosen_typed (chosen : list (list Z)) (m : list (func instr)) : Prop :=
  forall f b i, In f m -> In (f_name f) chosen -> In b (f_blocks f) -> In i (k_body b) -> ptyped i.
Definition chosen_worklists (chosen : list (list Z)) (order : nat -> nat -> list nat) (m : list (func instr)) : Prop :=
  forall j f l b, nth_error m j = Some f -> In (f_name f) chosen -> nth_error (f_blocks f) l = Some b -> pworklist (k_body b) (order j l).
(** the library has a function for every operation of the chosen functions on the supported types *)
Definition all_covered (c : config) (chosen : list (list Z)) (m : list (func instr)) : Prop :=
  forall f b i, In f m -> In (f_name f) chosen -> In b (f_blocks f) -> In i (k_body b) -> covered c i.

Lemma pass_done c feat order chosen m : library_ok c -> signatures_ok c -> chosen_typed chosen m -> chosen_worklists chosen order m -> (p_strict c = true -> all_covered c chosen m) ->
  exists m', prism_module c feat order chosen m = Ok (m', false) /\ Forall2 (treated_prism c feat chosen) m m'.
Proof.
  intros Hl Hs Ht Hw Hc. apply (prism_functions_ok c Hl Hs feat order chosen m 0 []).
  - apply Forall_forall. intros f Hf Hch. split.
    + apply Forall_forall. intros b Hb. apply Forall_forall. intros i Hi. exact (Ht f b i Hf Hch Hb Hi).
    + intros Es. apply Forall_forall. intros b Hb. apply Forall_forall. intros i Hi. exact (Hc Es f b i Hf Hch Hb Hi).
  - intros j f l b Hj Hch Hb. exact (Hw j f l b Hj Hch Hb).
  - split; [intros k n []|]. split; [constructor|intros k n []].
Qed.
Lemma pmarking_exists c feat chosen m m' : Forall2 (treated_prism c feat chosen) m m' -> exists g, Forall2 (pmarked c feat chosen) m g.
Proof.
  intros H. induction H as [|f f' m m' Hf H (g & IH)]; [exists []; constructor|].
  assert (K : exists h, pmarked c feat chosen f h); [|destruct K as [h K]; exists (h :: g); constructor; assumption].
  unfold treated_prism in Hf. destruct (member (f_name f) chosen) eqn:Em.
  - destruct Hf as (_ & _ & st & bs & _ & F).
    assert (B : exists ms, Forall2 (pmarked_block c (feat (f_name f)) true) (f_blocks f) ms).
    { clear - F. induction F as [|b b' l l' (_ & _ & gs & _ & B) F (ms & IH)]; [exists []; constructor|].
      assert (X : exists x, Forall2 (fun i (x : instr * option (list Z)) => fst x = i /\ has_function c (feat (f_name f)) i (snd x)) (k_body b) x).
      { clear - B. induction B as [|i gr bd gs (r & R & _) B (x & IHx)]; [exists []; constructor|]. exists ((i, r) :: x). constructor; [split; [reflexivity|exact R]|exact IHx]. }
      destruct X as [x X]. exists (mk_block (k_phis b) x (k_term b) :: ms). constructor; [|exact IH]. split; [reflexivity|]. split; [reflexivity|exact X]. }
    destruct B as [ms B]. exists (mk_func (f_name f) (f_params f) ms). split; [reflexivity|]. split; [reflexivity|]. exists true. split; [apply member_in in Em; split; auto|exact B].
  - exists (mk_func (f_name f) (f_params f) (map (fun b => mk_block (k_phis b) (map (fun i => (i, None)) (k_body b)) (k_term b)) (f_blocks f))).
    split; [reflexivity|]. split; [reflexivity|]. exists false. split; [split; [discriminate|intros h; apply member_in in h; congruence]|].
    cbn [f_blocks]. clear. induction (f_blocks f) as [|b l IH]; cbn [map]; constructor; [|exact IH]. split; [reflexivity|]. split; [reflexivity|]. cbn [k_body].
    induction (k_body b) as [|i x IHx]; cbn [map]; constructor; [split; reflexivity|exact IHx].
Qed.

(** * C87: an instrumented module computes what the original one computes when the operations on the supported types, in the chosen
    functions, are done by the functions of the library: same results, same calls in the same order. The order in which the pass
    visits the instructions does not matter. Left out: scalable vectors (the pass stops), a library whose functions follow other
    conventions than [conforms], the IR files themselves. *)
Theorem C87_module_partial : forall c feat order chosen m,
  library_ok c -> signatures_ok c -> chosen_typed chosen m -> chosen_worklists chosen order m -> (p_strict c = true -> all_covered c chosen m) ->
  exists m' g, (exists flag, prism_module c feat order chosen m = Ok (m', flag)) /\ Forall2 (pmarked c feat chosen) m g /\
  forall W (lib : library W) (sem : meaning W) ext fuel name args w, conforms c lib sem ->
  run_pfun lib ext m' fuel name args w = run_fun (run_marked sem) ext g fuel name args w.
Proof.
  intros c feat order chosen m Hl Hs Ht Hw Hc. destruct (pass_done c feat order chosen m Hl Hs Ht Hw Hc) as (m' & E & T). destruct (pmarking_exists _ _ _ _ _ T) as [g G].
  exists m', g. split; [exists false; exact E|]. split; [exact G|]. intros W lib sem ext fuel name args w Hcf. exact (module_runs c Hl lib sem Hcf feat chosen m m' g ext T G fuel name args w).
Qed.
(** there is one way to mark the instructions *)
Theorem C87_marking_unique : forall c feat chosen m g g', library_ok c -> Forall2 (pmarked c feat chosen) m g -> Forall2 (pmarked c feat chosen) m g' -> g = g'.
Proof.
  intros c feat chosen m g g' Hl H. revert g'. induction H as [|f h m g (F1 & F2 & b & F3 & F4) H IH]; intros g' H'; inversion H' as [|? h' ? g'' (G1 & G2 & b' & G3 & G4) H'']; subst; [reflexivity|].
  f_equal; [|apply IH; exact H'']. assert (b' = b) by (apply eq_true_iff_eq; rewrite F3, G3; reflexivity). subst b'. clear - Hl F1 F2 F4 G1 G2 G4.
  destruct h as [n p bs], h' as [n' p' bs']. cbn [f_name f_params f_blocks] in *. subst n p n' p'. f_equal.
  revert bs' G4. induction F4 as [|k x l ls (B1 & B2 & B3) F4 IH]; intros bs' G4; inversion G4 as [|? x' ? ls' (C1 & C2 & C3) G4']; subst; [reflexivity|]. f_equal; [|apply IH; exact G4'].
  destruct x as [ph bd tm], x' as [ph' bd' tm']. cbn [k_phis k_term k_body] in *. subst ph tm ph' tm'. f_equal. clear - Hl B3 C3.
  revert bd' C3. induction B3 as [|i [j r] l bd [D1 D2] B3 IH]; intros bd' C3; inversion C3 as [|? [j' r'] ? bd'' [E1 E2] C3']; subst; [reflexivity|]. cbn [fst snd] in *. subst. f_equal; [|apply IH; exact C3'].
  f_equal. destruct b; [eapply has_function_unique; eassumption|congruence].
Qed.
Print Assumptions C87_module_partial.
Print Assumptions C87_marking_unique.

(** * C88: names *)
Lemma app_len {A} (a a' b b' : list A) : length a = length a' -> a ++ b = a' ++ b' -> a = a' /\ b = b'.
Proof. revert a'. induction a as [|x a IH]; intros [|y a'] L E; try discriminate; [auto|]. injection E as -> E. destruct (IH a' ltac:(cbn in L; lia) E) as [-> ->]. auto. Qed.
Lemma scalar_text_inj p q : scalar_text (prec_ty p) = scalar_text (prec_ty q) -> p = q.
Proof. destruct p, q; intros H; try reflexivity; discriminate. Qed.
Lemma op_text_inj o o' : op_text o = op_text o' -> o = o'.
Proof. destruct o, o'; intros H; try reflexivity; discriminate. Qed.
(** The name under which the library is asked for a function says the mode, the dispatching, the operation, the type and, for a
    vector, the way it is passed. *)
Theorem C88_names_injective : forall r d p o t r' d' p' o' t', supported t -> supported t' -> symbol r d p o t = symbol r' d' p' o' t' ->
  r = r' /\ d = d' /\ o = o' /\ t = t' /\ (is_vector t = true -> p = p').
Proof.
  intros r d p o t r' d' p' o' t' (n & q & Hn & ->) (n' & q' & Hn' & ->) H.
  assert (T : forall {X} (h : [118] = [115] :> list Z) (P : X), P = P) by reflexivity. clear T.
  destruct n as [n|], n' as [n'|]; cbn [shape symbol is_vector] in H |- *.
  - apply app_len in H; [|reflexivity]. destruct H as [_ H]. apply app_len in H; [|reflexivity]. destruct H as [_ H].
    apply app_len in H; [|destruct r, r'; reflexivity]. destruct H as [Hr H]. assert (r = r') by (destruct r, r'; try reflexivity; discriminate). subst r'.
    apply app_len in H; [|reflexivity]. destruct H as [_ H]. apply app_len in H; [|reflexivity]. destruct H as [_ H]. apply app_len in H; [|reflexivity]. destruct H as [_ H].
    assert (d = d') by (destruct d, d'; try reflexivity; discriminate). subst d'. apply app_len in H; [|reflexivity]. destruct H as [_ H]. apply app_len in H; [|reflexivity]. destruct H as [_ H].
    assert (p = p') by (destruct p, p'; try reflexivity; discriminate). subst p'. apply app_len in H; [|reflexivity]. destruct H as [_ H]. apply app_len in H; [|reflexivity]. destruct H as [_ H].
    apply app_len in H; [|destruct o, o'; reflexivity]. destruct H as [Ho H]. apply op_text_inj in Ho. subst o'.
    apply app_len in H; [|destruct q, q'; reflexivity]. destruct H as [Hq H]. apply scalar_text_inj in Hq. subst q'. apply app_len in H; [|reflexivity]. destruct H as [_ H].
    destruct Hn as [Hn|(k & Hk & Hn)]; [discriminate|]. destruct Hn' as [Hn'|(k' & Hk' & Hn')]; [discriminate|]. injection Hk as <-. injection Hk' as <-.
    assert (n = n'). { cbn [In] in Hn, Hn'. repeat (destruct Hn as [<- |Hn]; [repeat (destruct Hn' as [<- |Hn']; [first [reflexivity|vm_compute in H; discriminate H]|]); destruct Hn'|]). destruct Hn. }
    subst n'. auto 10.
  - exfalso. destruct r, r'; discriminate.
  - exfalso. destruct r, r'; discriminate.
  - apply app_len in H; [|reflexivity]. destruct H as [_ H]. apply app_len in H; [|reflexivity]. destruct H as [_ H].
    apply app_len in H; [|destruct r, r'; reflexivity]. destruct H as [Hr H]. assert (r = r') by (destruct r, r'; try reflexivity; discriminate). subst r'.
    apply app_len in H; [|reflexivity]. destruct H as [_ H]. apply app_len in H; [|reflexivity]. destruct H as [_ H]. apply app_len in H; [|reflexivity]. destruct H as [_ H].
    assert (d = d') by (destruct d, d'; try reflexivity; discriminate). subst d'. apply app_len in H; [|reflexivity]. destruct H as [_ H]. apply app_len in H; [|reflexivity]. destruct H as [_ H].
    apply app_len in H; [|destruct o, o'; reflexivity]. destruct H as [Ho H]. apply op_text_inj in Ho. subst o'. apply scalar_text_inj in H. subst q'. repeat split; discriminate.
Qed.
(** a function of the library never does two different operations *)
Theorem C88_no_confusion : forall c feat feat' i i' f p p' o t o' t', done_by c feat i f p -> done_by c feat' i' f p' -> performs i o t -> performs i' o' t' -> o = o' /\ t = t'.
Proof.
  intros c feat feat' i i' f p p' o t o' t' (o1 & t1 & P & S & (_ & _ & N) & _) (o2 & t2 & P' & S' & (_ & _ & N') & _) Q Q'.
  destruct (performs_unique _ _ _ _ _ P Q) as [<- <-]. destruct (performs_unique _ _ _ _ _ P' Q') as [<- <-].
  unfold the_symbol in *. destruct (C88_names_injective _ _ _ _ _ _ _ _ _ _ S S' (eq_trans (eq_sym N) N')) as (_ & _ & H1 & H2 & _). auto.
Qed.
(** Every call that the pass inserts stands for an instruction of the same function, and goes to a function defined by the library of
    the chosen dispatching, with the name of the operation and type of that instruction; the arguments have the types of the parameters. *)
Theorem C88_calls : forall c feat order chosen m m' flag, NoDup (map l_name (the_library c)) -> chosen_typed chosen m -> prism_module c feat order chosen m = Ok (m', flag) ->
  forall f' b' g args r, In f' m' -> In b' (f_blocks f') -> In (PCall g args r) (k_body b') ->
  exists f b i o t h p, In f m /\ f_name f = f_name f' /\ In (f_name f) chosen /\ In b (f_blocks f) /\ In i (k_body b) /\ performs i o t /\
  provides c (the_symbol c p o t) h /\ l_name h = g /\ map parg_ty args = l_params h /\ suits (feat (f_name f)) (l_features h).
Proof.
  intros c feat order chosen m m' flag Hn Ht H f' b' g args r Hf Hb Hc. destruct (prism_functions_inv _ _ _ _ _ _ _ _ _ H) as (_ & L & M).
  apply In_nth_error in Hf. destruct Hf as [j Hj]. destruct (nth_error m j) as [f|] eqn:Ej; [|apply nth_error_None in Ej; assert (X : nth_error m' j <> None) by congruence; apply nth_error_Some in X; lia].
  destruct (M j f f' Ej Hj) as (M1 & _ & M3 & M4). destruct (member (f_name f) chosen) eqn:Em.
  - apply member_in in Em. apply In_nth_error in Hb. destruct Hb as [l Hl]. destruct (nth_error (f_blocks f) l) as [b|] eqn:El; [|apply nth_error_None in El; assert (X : nth_error (f_blocks f') l <> None) by congruence; apply nth_error_Some in X; lia].
    destruct (M4 l b b' El Hl) as (_ & _ & st & acc & st' & al & P & A & B). rewrite B in Hc. apply in_app_or in Hc.
    destruct Hc as [Hc|Hc]; [rewrite Forall_forall in A; destruct (A _ Hc) as (? & ? & ?); discriminate|].
    apply in_concat in Hc. destruct Hc as (gr & Hgr & Hc). apply In_nth_error in Hgr. destruct Hgr as [k Hk].
    destruct (pprocess_groups _ _ _ _ _ _ _ _ _ P) with (k := k) (g := gr) as (i & Hi & [-> |(o & st1 & st2 & Ho & Hr)]); [|exact Hk| |].
    + intros x y Hy. rewrite nth_error_map in Hy. destruct (nth_error (k_body b) x) as [z|]; [|discriminate]. injection Hy as <-. exists z. auto.
    + destruct Hc as [Hc|[]]. discriminate.
    + assert (Hf := nth_error_In _ _ Ej). assert (Hb := nth_error_In _ _ El). apply nth_error_In in Hi. destruct (op_performs i o (Ht f b i Hf Em Hb Hi) Ho) as (t & _ & Pt).
      destruct (replace_calls _ _ _ _ _ _ _ _ Hn Hr g args r Hc) as (h & p & H1 & H2 & H3 & H4). destruct (performs_op _ _ _ Pt) as (_ & Et & _). rewrite Et in H1.
      exists f, b, i, o, t, h, p. repeat (split; [assumption||(symmetry; assumption)|]). exact H4.
  - subst f'. cbn [pkeep f_blocks] in Hb. apply in_map_iff in Hb. destruct Hb as (b & <- & _). cbn [map_body k_body] in Hc. apply in_map_iff in Hc. destruct Hc as (? & ? & _). discriminate.
Qed.
Print Assumptions C88_names_injective.
Print Assumptions C88_no_confusion.
Print Assumptions C88_calls.

(** * C89: a function is called only if the caller has the instruction set extensions of the function *)
(** a compiler that enables an extension enables the ones before it *)
Definition closed (fs : list feature) : Prop := forall j k, (j <= k)%nat -> extended fs k -> extended fs j.
Fixpoint comma_list (l : list (list Z)) : list Z := match l with [] => [] | [x] => x | x :: l' => x ++ comma :: comma_list l' end.
(** how a feature is written *)
Definition written (f : feature) : list Z := (if fst f then 43 else 45) :: snd f.
(** the features of the attribute text are the ones listed *)
Theorem C89_parsed : forall fs, Forall (fun f => ~ In comma (snd f)) fs -> features (Some (comma_list (map written fs))) = fs.
Proof.
  intros fs H. unfold features, split_pieces.
  assert (S : fs <> [] -> split_on comma (comma_list (map written fs)) = map written fs).
  { assert (N : forall f, ~ In comma (snd f) -> ~ In comma (written f)) by (intros [[] x] Hx [h|h]; [discriminate|exact (Hx h)|discriminate|exact (Hx h)]).
    induction H as [|f fs Hf H IH]; [congruence|]. intros _. destruct fs as [|f' fs].
    - cbn [map comma_list]. apply split_on_nosep. apply N. exact Hf.
    - change (comma_list (map written (f :: f' :: fs))) with (written f ++ comma :: comma_list (map written (f' :: fs))). rewrite split_on_app by (apply N; exact Hf). rewrite IH by discriminate. reflexivity. }
  destruct fs as [|f fs]; [reflexivity|]. rewrite S by discriminate.
  assert (L : map feature_of (map written (f :: fs)) = f :: fs).
  { rewrite map_map. rewrite <- (map_id (f :: fs)) at 2. apply map_ext. intros [[] x]; reflexivity. }
  assert (R : forall x r, rev (map written (f :: fs)) = x :: r -> exists z y, x = z :: y).
  { intros x r E. assert (Hx : In x (map written (f :: fs))) by (apply in_rev; rewrite E; left; reflexivity). apply in_map_iff in Hx. destruct Hx as (y & <- & _). eexists _, _. reflexivity. }
  destruct (rev (map written (f :: fs))) as [|x r]; [exact L|]. destruct (R x r eq_refl) as (z & y & ->). exact L.
Qed.
Theorem C89_extensions : forall a b, features a <> [] -> closed (features a) -> closed (features b) ->
  (abi_compatible a b = true <-> incl (features b) (features a) \/ forall k, extended (features b) k -> extended (features a) k).
Proof.
  intros a b Ha Ca Cb. rewrite abi_compatible_spec. unfold suits. split.
  - intros [H|[H|H]]; [contradiction|left; exact H|]. right. intros k Hk. destruct (H k Hk) as (k' & Hle & Hk'). exact (Ca k k' Hle Hk').
  - intros [H|H]; [right; left; exact H|]. right. right. intros k Hk. exists k. split; [lia|apply H; exact Hk].
Qed.
(** hence no instruction of an extension that the caller lacks *)
Theorem C89_callee_runs : forall a b k, features a <> [] -> closed (features a) -> abi_compatible a b = true -> extended (features b) k -> extended (features a) k.
Proof.
  intros a b k Ha Ca H Hk. apply abi_compatible_spec in H. destruct H as [H|[H|H]]; [contradiction| |].
  - destruct Hk as (x & Hx & Hi). exists x. split; [exact Hx|apply H; exact Hi].
  - destruct (H k Hk) as (k' & Hle & Hk'). exact (Ca k k' Hle Hk').
Qed.
Print Assumptions C89_parsed.
Print Assumptions C89_extensions.
Print Assumptions C89_callee_runs.
Definition sse_text : list Z := bytes "+cx8,+fxsr,+mmx,+sse,+sse2,+x87".
Definition avx_text : list Z := bytes "+avx,+cx8,+fxsr,+mmx,+sse,+sse2,+sse3,+sse4.1,+sse4.2,+ssse3,+x87,+xsave".
Definition avx2_text : list Z := bytes "+avx,+avx2,+cx8,+fxsr,+mmx,+sse,+sse2,+sse3,+sse4.1,+sse4.2,+ssse3,+x87,+xsave".
Lemma closed_by (k : nat) s : (forall j x, nth_error extensions j = Some x -> In (true, x) (features (Some s)) <-> (j < k)%nat) -> closed (features (Some s)).
Proof.
  intros H j l Hjl (x & Hx & Hi). pose proof (proj1 (H l x Hx) Hi) as Hl. destruct (nth_error extensions j) as [y|] eqn:Ey.
  - exists y. split; [exact Ey|]. apply (H j y Ey). lia.
  - apply nth_error_None in Ey. assert (nth_error extensions l <> None) by congruence. apply nth_error_Some in H0. lia.
Qed.
Ltac levels k := apply (closed_by k); intros j x Hx; do 7 (destruct j as [|j]; [injection Hx as <-; split; [intros Hin; first [lia|exfalso; vm_compute in Hin; repeat (destruct Hin as [Hin|Hin]; [discriminate|]); exact Hin]|intros Hlt; first [lia|vm_compute; tauto]]|]); destruct j; discriminate.
Lemma sse_closed : closed (features (Some sse_text)). Proof. levels 2%nat. Qed.
Lemma avx_closed : closed (features (Some avx_text)). Proof. levels 5%nat. Qed.
Lemma avx2_closed : closed (features (Some avx2_text)). Proof. levels 6%nat. Qed.
Example C89_nonvacuous : features (Some avx_text) <> [] /\ closed (features (Some avx_text)) /\ abi_compatible (Some avx_text) (Some sse_text) = true /\ abi_compatible (Some avx_text) (Some avx2_text) = false /\
  extended (features (Some sse_text)) 1 /\ ~ extended (features (Some avx_text)) 5 /\ Forall (fun f => ~ In comma (snd f)) (features (Some avx_text)).
Proof.
  split; [discriminate|]. split; [exact avx_closed|]. split; [vm_compute; reflexivity|]. split; [vm_compute; reflexivity|]. split; [exists (bytes "sse2"); split; [reflexivity|vm_compute; tauto]|]. split.
  - intros (x & Hx & Hi). injection Hx as <-. vm_compute in Hi. repeat (destruct Hi as [Hi|Hi]; [discriminate|]). exact Hi.
  - vm_compute. repeat constructor; intros H; repeat (destruct H as [H|H]; [discriminate|]); exact H.
Qed.
(** Other features are not looked at: the function uses FMA instructions, the caller has not got them. *)
Theorem C89_other_features_refuted : exists a b, features a <> [] /\ closed (features a) /\ closed (features b) /\ abi_compatible a b = true /\ In (true, bytes "fma") (features b) /\ ~ In (true, bytes "fma") (features a).
Proof.
  exists (Some avx_text), (Some (avx_text ++ bytes ",+fma")). split; [discriminate|]. split; [exact avx_closed|]. split; [levels 5%nat|]. split; [vm_compute; reflexivity|]. split; [vm_compute; tauto|].
  intros H. vm_compute in H. repeat (destruct H as [H|H]; [discriminate|]). exact H.
Qed.
(** A caller with AVX passes <4 x double> in a register, a function without AVX expects it in memory: they are compatible for the pass. *)
Theorem C89_registers_refuted : exists a b, closed (features a) /\ closed (features b) /\ abi_compatible a b = true /\ extended (features a) 4 /\ ~ extended (features b) 4.
Proof.
  exists (Some avx_text), (Some sse_text). split; [exact avx_closed|]. split; [exact sse_closed|]. split; [vm_compute; reflexivity|]. split; [exists (bytes "avx"); split; [reflexivity|vm_compute; tauto]|].
  intros (x & Hx & Hi). injection Hx as <-. vm_compute in Hi. repeat (destruct Hi as [Hi|Hi]; [discriminate|]). exact Hi.
Qed.
(** A caller without the attribute may call anything. *)
Theorem C89_no_attribute_refuted : exists b k, abi_compatible None b = true /\ extended (features b) k /\ ~ extended (features None) k.
Proof.
  exists (Some avx2_text), 5%nat. split; [reflexivity|]. split; [exists (bytes "avx2"); split; [reflexivity|vm_compute; tauto]|]. intros (x & _ & []).
Qed.
Print Assumptions C89_other_features_refuted.
Print Assumptions C89_registers_refuted.
Print Assumptions C89_no_attribute_refuted.

(** * C90: with the strict ABI option the pass succeeds only if the library has a function for every operation on the supported types *)
Theorem C90_strict : forall c feat order chosen m, p_strict c = true -> library_ok c -> signatures_ok c -> chosen_typed chosen m -> chosen_worklists chosen order m ->
  ((exists m' flag, prism_module c feat order chosen m = Ok (m', flag)) <-> all_covered c chosen m).
Proof.
  intros c feat order chosen m Es Hl Hs Ht Hw. split.
  - intros (m' & flag & H) f b i Hf Hch Hb Hi o t P S. destruct (prism_functions_inv _ _ _ _ _ _ _ _ _ H) as (_ & L & M).
    apply In_nth_error in Hf. destruct Hf as [j Hj]. destruct (nth_error m' j) as [f'|] eqn:Ej; [|apply nth_error_None in Ej; assert (X : nth_error m j <> None) by congruence; apply nth_error_Some in X; lia].
    destruct (M j f f' Hj Ej) as (_ & _ & M3 & M4). assert (Em := proj2 (member_in _ _) Hch). rewrite Em in M4. apply In_nth_error in Hb. destruct Hb as [l Hlb].
    destruct (nth_error (f_blocks f') l) as [b'|] eqn:El; [|apply nth_error_None in El; assert (X : nth_error (f_blocks f) l <> None) by congruence; apply nth_error_Some in X; lia].
    destruct (M4 l b b' Hlb El) as (_ & _ & st & acc & st' & al & Pr & _). apply In_nth_error in Hi. destruct Hi as [k Hk].
    destruct (performs_op _ _ _ P) as (Ho & _ & _). assert (Hin : In k (order (0 + j)%nat l)) by (apply (Hw j f l b Hj Hch Hlb); exists i; split; [exact Hk|congruence]).
    destruct (pprocess_all _ _ _ _ _ _ _ _ _ Pr k Hin) as (i' & o' & st1 & new & st2 & Hk' & Ho' & R). assert (i' = i) by congruence. subst i'. assert (o' = o) by congruence. subst o'.
    unfold replace_with_call in R. destruct (prism_valid_spec i o t P (supported_floating t S)) as (v & Ev & Hv). rewrite Ev in R. cbn [bind] in R. rewrite (proj2 Hv S) in R.
    unfold replace_prism in R. destruct (prism_function_spec c i o t Hl P S) as [(h & p & _ & X & _)|[_ X]]; [exists h, p; exact X|]. rewrite X, Es in R. discriminate.
  - intros Hc. destruct (pass_done c feat order chosen m Hl Hs Ht Hw (fun _ => Hc)) as (m' & E & _). exists m', false. exact E.
Qed.
(** without it the pass succeeds, and what the library lacks is left as it is *)
Theorem C90_lenient : forall c feat order chosen m, p_strict c = false -> library_ok c -> signatures_ok c -> chosen_typed chosen m -> chosen_worklists chosen order m ->
  exists m', (exists flag, prism_module c feat order chosen m = Ok (m', flag)) /\
  forall W (lib : library W) (sem : meaning W), conforms c lib sem -> forall g, Forall2 (pmarked c feat chosen) m g -> forall ext fuel name args w,
  run_pfun lib ext m' fuel name args w = run_fun (run_marked sem) ext g fuel name args w.
Proof.
  intros c feat order chosen m Es Hl Hs Ht Hw. destruct (pass_done c feat order chosen m Hl Hs Ht Hw ltac:(intros; congruence)) as (m' & E & T).
  exists m'. split; [exists false; exact E|]. intros W lib sem Hc g G ext fuel name args w. exact (module_runs c Hl lib sem Hc feat chosen m m' g ext T G fuel name args w).
Qed.
Print Assumptions C90_strict.
Print Assumptions C90_lenient.

(** * C91: the functions that are instrumented: those of the other pass, without the functions of the library *)
Theorem C91_selection : forall c o modname names,
  match select o modname names with
  | Sel l => exists l', prism_select c o modname names = Sel l' /\
      (forall n, In n l' <-> In n l /\ ~ exists f, In f (p_static c ++ p_dynamic c) /\ l_declaration f = false /\ l_name f = n) /\
      (NoDup names -> NoDup l')
  | r => prism_select c o modname names = r
  end.
Proof.
  intros c o modname names.
  assert (X : forall n, member n (to_exclude c) = true <-> exists f, In f (p_static c ++ p_dynamic c) /\ l_declaration f = false /\ l_name f = n).
  { intros n. rewrite member_in. unfold to_exclude, defined_names. rewrite in_app_iff, !in_map_iff. split.
    - intros [(f & E & Hf)|(f & E & Hf)]; apply filter_In in Hf; destruct Hf as [Hf Hd]; exists f; (split; [apply in_or_app; tauto|]); split; try exact E; apply negb_true_iff; exact Hd.
    - intros (f & Hf & Hd & E). apply in_app_or in Hf. destruct Hf as [Hf|Hf]; [left|right]; exists f; (split; [exact E|]); apply filter_In; split; [exact Hf|rewrite Hd; reflexivity|exact Hf|rewrite Hd; reflexivity]. }
  assert (F : forall inc exc, exists l', filter (fun n => if member n (to_exclude c) then false else if regex_match n inc then true else if regex_match n exc then false
                        else if negb (given (o_exclude o)) && given (o_include o) then false else true) names = l' /\
     (forall n, In n l' <-> In n (filter (keep o inc exc) names) /\ ~ exists f, In f (p_static c ++ p_dynamic c) /\ l_declaration f = false /\ l_name f = n) /\ (NoDup names -> NoDup l')).
  { intros inc exc. eexists. split; [reflexivity|]. split; [|intros H; apply NoDup_filter; exact H]. intros n. rewrite !filter_In, <- X. unfold keep.
    destruct (member n (to_exclude c)), (regex_match n inc), (regex_match n exc), (negb (given (o_exclude o)) && given (o_include o)); intuition congruence. }
  unfold select, prism_select. destruct (parse_function_set_file modname (o_include o)) as [inc| | |]; try reflexivity. cbn [sbind]. destruct (parse_function_set_file modname (o_exclude o)) as [exc| | |]; try reflexivity. cbn [sbind].
  destruct (o_function o) as [|x f]; cbn [sbind].
  - destruct (F inc exc) as (l' & <- & H). eexists. split; [reflexivity|exact H].
  - destruct (regex (x :: f)) as [inc'| | |]; try reflexivity. cbn [sbind]. destruct (regex [dot; star]) as [exc'| | |]; try reflexivity. cbn [sbind]. destruct (F inc' exc') as (l' & <- & H). eexists. split; [reflexivity|exact H].
Qed.
Print Assumptions C91_selection.

(** * An example: a library with a scalar function, a function on <2 x float> by value, one on <4 x float> by pointer *)
Definition add_name : list Z := bytes "_ZN5prism2sr6scalar16dynamic_dispatch6addf32Eff".
Definition sub_name : list Z := bytes "_ZN5prism2sr6vector16dynamic_dispatch5fixed8subf32x2EDv2_fS4_".
Definition mul_name : list Z := bytes "_ZN5prism2sr6vector16dynamic_dispatch8variable8mulf32x4EPKfS4_Pf".
Definition demangled (n : list Z) : option (list Z) :=
  if byte_eqb n add_name then Some (bytes "prism::sr::scalar::dynamic_dispatch::addf32(float, float)")
  else if byte_eqb n sub_name then Some (bytes "prism::sr::vector::dynamic_dispatch::fixed::subf32x2(float vector[2], float vector[2])")
  else if byte_eqb n mul_name then Some (bytes "prism::sr::vector::dynamic_dispatch::variable::mulf32x4(float const*, float const*, float*)") else None.
Definition add_fun : lib_fun := mk_lib add_name false [Sca Float; Sca Float] (Some (Sca Float)) (Some sse_text).
Definition sub_fun : lib_fun := mk_lib sub_name false [Sca Double; Sca Double] (Some (Sca Double)) (Some sse_text).
Definition mul_fun : lib_fun := mk_lib mul_name false [Sca Pointer; Sca Pointer; Sca Pointer] None (Some sse_text).
Definition other_fun : lib_fun := mk_lib (bytes "printf") true [Sca Pointer] (Some (Sca (Int 32))) None.
Definition small (strict : bool) : config := mk_config StochasticRounding Dynamic strict [] [add_fun; other_fun; sub_fun; mul_fun] demangled.
Lemma supported_by n p : (n = None \/ exists k, n = Some k /\ In k [2; 4; 8; 16; 32; 64]%nat) -> supported (shape n (prec_ty p)).
Proof. intros H. exists n, p. auto. Qed.
Lemma small_provides strict p o t f : provides (small strict) (the_symbol (small strict) p o t) f -> supported t ->
  f = add_fun /\ o = PAdd /\ t = Sca Float \/ f = sub_fun /\ o = PSub /\ t = Vec 2 Float /\ p = ByValue \/ f = mul_fun /\ o = PMul /\ t = Vec 4 Float /\ p = ByPointer.
Proof.
  intros (Hi & Hd & Hn) Ht. change (short_name demangled (l_name f) = symbol StochasticRounding Dynamic p o t) in Hn. destruct Hi as [<- |[<- |[<- |[<- |[]]]]]; [| discriminate | |].
  - left. assert (E : symbol StochasticRounding Dynamic ByValue PAdd (Sca Float) = symbol StochasticRounding Dynamic p o t) by (rewrite <- Hn; vm_compute; reflexivity).
    apply C88_names_injective in E; [|exists None, PFloat; auto|exact Ht]. destruct E as (_ & _ & <- & <- & _). auto.
  - right. left. assert (E : symbol StochasticRounding Dynamic ByValue PSub (Vec 2 Float) = symbol StochasticRounding Dynamic p o t) by (rewrite <- Hn; vm_compute; reflexivity).
    apply C88_names_injective in E; [|exists (Some 2%nat), PFloat; split; [right; exists 2%nat; cbn; auto|reflexivity]|exact Ht]. destruct E as (_ & _ & <- & <- & E). rewrite <- E by reflexivity. auto.
  - right. right. assert (E : symbol StochasticRounding Dynamic ByPointer PMul (Vec 4 Float) = symbol StochasticRounding Dynamic p o t) by (rewrite <- Hn; vm_compute; reflexivity).
    apply C88_names_injective in E; [|exists (Some 4%nat), PFloat; split; [right; exists 4%nat; cbn; auto|reflexivity]|exact Ht]. destruct E as (_ & _ & <- & <- & E). rewrite <- E by reflexivity. auto.
Qed.
Lemma small_library strict : library_ok (small strict).
Proof.
  split; [repeat constructor; intros H; vm_compute in H; repeat (destruct H as [H|H]; [discriminate|]); exact H|].
  intros f g name (Hf & Df & Nf) (Hg & Dg & Ng). rewrite <- Ng in Nf. clear Ng name. cbn in Hf, Hg.
  repeat (destruct Hf as [<- |Hf]; [repeat (destruct Hg as [<- |Hg]; [first [reflexivity|discriminate Df|discriminate Dg|vm_compute in Nf; discriminate Nf]|]); destruct Hg|]). destruct Hf.
Qed.
Lemma small_signatures strict : signatures_ok (small strict).
Proof.
  intros f p o t H Ht. destruct (small_provides strict p o t f H Ht) as [(-> & -> & ->)|[(-> & -> & -> & ->)|(-> & -> & -> & ->)]].
  - destruct p; (split; [reflexivity|exists (Sca Float); auto]).
  - split; [reflexivity|exists (Sca Double); auto].
  - reflexivity.
Qed.
(** the functions of this library return their last operand and count the calls *)
Definition last_operand : meaning nat := fun _ vs w => match vs with [_; v] => Ok (v, S w) | _ => UB end.
Definition small_lib : library nat := fun _ args w =>
  match args with
  | [CVal _; CVal v] => Ok (v, [None; None], S w)
  | [CPtr _ _; CPtr _ (Some v); CPtr _ _] => Ok ([], [None; None; Some v], S w)
  | _ => UB
  end.
Lemma two_of {A} (l : list A) : length l = 2%nat -> exists a b, l = [a; b].
Proof. destruct l as [|a [|b [|c l]]]; try discriminate. eauto. Qed.
Lemma small_conforms strict : conforms (small strict) small_lib last_operand.
Proof.
  intros f p o t H Ht. split.
  - intros [|a [|b [|c vs]]] w v w' Hv E; try discriminate. injection E as <- <-. inversion Hv as [|? ? _ Hv']; subst. inversion Hv'; subst. assumption.
  - destruct (small_provides strict p o t f H Ht) as [(-> & -> & ->)|[(-> & -> & -> & ->)|(-> & -> & -> & ->)]].
    + destruct p; (split; [reflexivity|exists (Sca Float)]; split; [reflexivity|]; split; [auto|]; intros vs w L _; destruct (two_of vs L) as (a & b & ->); reflexivity).
    + split; [reflexivity|]. exists (Sca Double). split; [reflexivity|]. split; [auto|]. intros vs w L _. destruct (two_of vs L) as (a & b & ->). reflexivity.
    + split; [reflexivity|]. intros ks vs junk w _ Lk L _. destruct (two_of vs L) as (a & b & ->). destruct ks as [|k1 [|k2 [|k3 [|k4 ks]]]]; try discriminate. reflexivity.
Qed.
(** two functions, two blocks in the first one; its vectors of four go through the same allocas *)
Definition v4 : ty := Vec 4 Float.
Definition work : func instr := mk_func (bytes "work") [(v4, 0%nat); (v4, 1%nat)]
  [mk_block [] [mk_instr 2 FMul v4 [(v4, Reg 0); (v4, Reg 1)]; mk_instr 3 FAdd v4 [(v4, Reg 2); (v4, Reg 0)]] (TBr 1);
   mk_block [] [mk_instr 4 FMul v4 [(v4, Reg 1); (v4, Reg 0)]] (TRet (Some (v4, Reg 4)))].
Definition half : func instr := mk_func (bytes "half") [(Sca Float, 0%nat); (Sca Float, 1%nat)]
  [mk_block [] [mk_instr 2 FAdd (Sca Float) [(Sca Float, Reg 0); (Sca Float, Reg 1)]] (TRet (Some (Sca Float, Reg 2)))].
Definition works : list (func instr) := [work; half].
Definition work_order (j l : nat) : list nat := match j, l with O, O => [1; 0]%nat | _, _ => [0]%nat end.
Lemma works_typed chosen : chosen_typed chosen works.
Proof.
  intros f b i [<- |[<- |[]]] _ Hb Hi.
  - destruct Hb as [<- |[<- |[]]]; [destruct Hi as [<- |[<- |[]]]|destruct Hi as [<- |[]]]; exact (ex_intro _ v4 (conj I (conj eq_refl eq_refl))).
  - destruct Hb as [<- |[]]. destruct Hi as [<- |[]]. exact (ex_intro _ (Sca Float) (conj I (conj eq_refl eq_refl))).
Qed.
Lemma all_operations b order : (forall i, In i b -> get_op i <> None) -> (forall k, In k order <-> (k < length b)%nat) -> pworklist b order.
Proof.
  intros Hb Ho k. rewrite Ho, <- nth_error_Some. split; [|intros (i & Hi & _); congruence]. destruct (nth_error b k) as [i|] eqn:E; [|congruence].
  intros _. exists i. split; [reflexivity|apply Hb; eapply nth_error_In; exact E].
Qed.
Lemma works_ordered chosen : chosen_worklists chosen work_order works.
Proof.
  intros [|[|[|j]]] f [|[|[|l]]] b Hf _ Hb; try discriminate; injection Hf as <-; try discriminate; injection Hb as <-; apply all_operations.
  all: try (intros i [<- |[<- |[]]]; discriminate). all: try (intros i [<- |[]]; discriminate). all: intros k; cbn; lia.
Qed.
Definition caller_features : list Z -> option (list Z) := fun _ => Some avx_text.
Definition no_ext : oracle (W := nat) := fun i vs w => Ok (last vs [], w).
Example C87_nonvacuous : library_ok (small false) /\ signatures_ok (small false) /\ chosen_typed [bytes "work"; bytes "half"] works /\ chosen_worklists [bytes "work"; bytes "half"] work_order works /\
  conforms (small false) small_lib last_operand /\
  exists m', prism_module (small false) caller_features work_order [bytes "work"; bytes "half"] works = Ok (m', false) /\
  run_pfun small_lib no_ext m' 5 (bytes "work") [[1; 2; 3; 4]; [5; 6; 7; 8]] 0%nat = Ok ([1; 2; 3; 4], 2%nat) /\
  run_pfun small_lib no_ext m' 5 (bytes "half") [[9]; [10]] 0%nat = Ok ([10], 1%nat).
Proof.
  split; [apply small_library|]. split; [apply small_signatures|]. split; [apply works_typed|]. split; [apply works_ordered|]. split; [apply small_conforms|].
  eexists. split; [vm_compute; reflexivity|]. split; vm_compute; reflexivity.
Qed.
(** the calls inserted in that module *)
Example C88_nonvacuous : exists m' f b args r, prism_module (small false) caller_features work_order [bytes "work"; bytes "half"] works = Ok (m', false) /\ In f m' /\ In b (f_blocks f) /\ In (PCall mul_name args r) (k_body b) /\ NoDup (map l_name (the_library (small false))).
Proof.
  do 5 eexists. split; [vm_compute; reflexivity|]. split; [left; reflexivity|]. split; [left; reflexivity|]. split; [cbn [k_body In]; tauto|apply small_library].
Qed.
(** strict: the addition on <4 x float> is not in the library; without that function the pass succeeds *)
Example C90_nonvacuous : prism_module (small true) caller_features work_order [bytes "work"] works = Exit /\ exists m', prism_module (small true) caller_features work_order [bytes "half"] works = Ok (m', false).
Proof. split; [vm_compute; reflexivity|]. eexists. vm_compute. reflexivity. Qed.
Example C91_nonvacuous : select (mk_options [] None None) (bytes "a.c") [bytes "half"; add_name; bytes "work"] = Sel [bytes "half"; add_name; bytes "work"] /\
  prism_select (small false) (mk_options [] None None) (bytes "a.c") [bytes "half"; add_name; bytes "work"] = Sel [bytes "half"; bytes "work"].
Proof. split; vm_compute; reflexivity. Qed.

(** The pass reports that it changed nothing (runOnModule returns false) when it did. *)
Theorem C87_modified_refuted : exists c feat order chosen m m', prism_module c feat order chosen m = Ok (m', false) /\ m' <> map pkeep m.
Proof. exists (small false), caller_features, work_order, [bytes "half"], works. eexists. split; [vm_compute; reflexivity|]. intros H. vm_compute in H. discriminate. Qed.
(** A library function that takes <2 x float> as such, as on machines other than x86-64, gets a double: the call is ill-typed. *)
Definition sub_direct : lib_fun := mk_lib sub_name false [Vec 2 Float; Vec 2 Float] (Some (Vec 2 Float)) (Some sse_text).
Definition direct : config := mk_config StochasticRounding Dynamic false [] [sub_direct] demangled.
Definition pair_fun : func instr := mk_func (bytes "pair") [(Vec 2 Float, 0%nat)] [mk_block [] [mk_instr 1 FSub (Vec 2 Float) [(Vec 2 Float, Reg 0); (Vec 2 Float, Reg 0)]] (TRet (Some (Vec 2 Float, Reg 1)))].
Theorem C87_vector2_refuted : library_ok direct /\ (forall f, In f (the_library direct) -> l_params f = [Vec 2 Float; Vec 2 Float] /\ l_ret f = Some (Vec 2 Float)) /\
  chosen_typed [bytes "pair"] [pair_fun] /\ prism_module direct caller_features (fun _ _ => [0%nat]) [bytes "pair"] [pair_fun] = UB.
Proof.
  split; [split; [repeat constructor; intros []|intros f g n ([<- |[]] & _) ([<- |[]] & _); reflexivity]|]. split; [intros f [<- |[]]; split; reflexivity|]. split; [|vm_compute; reflexivity].
  intros f b i [<- |[]] _ [<- |[]] [<- |[]]. exact (ex_intro _ (Vec 2 Float) (conj I (conj eq_refl eq_refl))).
Qed.
(** Two functions of the library that differ by their parameters only: the last one of the file is called, here with too few arguments. *)
Definition add_more : lib_fun := mk_lib (bytes "_ZN5prism2sr6scalar16dynamic_dispatch6addf32Effi") false [Sca Float; Sca Float; Sca (Int 32)] (Some (Sca Float)) (Some sse_text).
Definition overloaded (lib : list lib_fun) : config :=
  mk_config StochasticRounding Dynamic false [] lib (fun n => if byte_eqb n add_name then demangled n else Some (bytes "prism::sr::scalar::dynamic_dispatch::addf32(float, float, int)")).
Theorem C88_overload_refuted : (exists m', prism_module (overloaded [add_more; add_fun]) caller_features work_order [bytes "half"] works = Ok (m', false)) /\
  prism_module (overloaded [add_fun; add_more]) caller_features work_order [bytes "half"] works = UB.
Proof. split; [eexists|]; vm_compute; reflexivity. Qed.
(** The strict option says nothing of an operation whose function may not be called: it is left as it is. *)
Definition new_add : lib_fun := mk_lib add_name false [Sca Float; Sca Float] (Some (Sca Float)) (Some avx2_text).
Definition strict_new : config := mk_config StochasticRounding Dynamic true [] [new_add] demangled.
Theorem C90_incompatible_refuted : exists m', prism_module strict_new (fun _ => Some sse_text) (fun _ _ => [0%nat]) [bytes "half"] [half] = Ok (m', false) /\ m' = map pkeep [half].
Proof. eexists. split; vm_compute; reflexivity. Qed.
(** Nor of an operation on another type: long double, half, <3 x float>. *)
Definition odd (t : ty) : func instr := mk_func (bytes "odd") [(t, 0%nat)] [mk_block [] [mk_instr 1 FAdd t [(t, Reg 0); (t, Reg 0)]] (TRet (Some (t, Reg 1)))].
Theorem C90_other_types_refuted : forall t, floating t -> ~ supported t -> prism_module (small true) caller_features (fun _ _ => [0%nat]) [bytes "odd"] [odd t] = Ok ([pkeep (odd t)], false).
Proof.
  intros t Hf Hs. assert (P : performs (mk_instr 1 FAdd t [(t, Reg 0); (t, Reg 0)]) PAdd t) by (apply (performs_arith _ WAdd); reflexivity).
  destruct (prism_valid_spec _ _ _ P Hf) as (b & E & H). destruct b; [elim Hs; apply H; reflexivity|].
  unfold prism_module, odd. cbn [prism_functions f_name]. replace (member (bytes "odd") [bytes "odd"]) with true by (vm_compute; reflexivity).
  unfold prism_on_function. cbn [prism_blocks f_blocks f_params]. unfold prism_block. cbn [k_body pprocess nth_error get_op i_op map]. unfold replace_with_call. cbn [f_blocks prism_blocks k_body pprocess nth_error map get_op i_op]. rewrite E. reflexivity.
Qed.
Example C90_other_types_nonvacuous : floating (Vec 3 Float) /\ ~ supported (Vec 3 Float) /\ floating (Sca (OtherFP 80)) /\ ~ supported (Sca (OtherFP 80)).
Proof.
  split; [exact I|]. split; [intros (n & p & [-> |(k & -> & Hk)] & E); [discriminate|]; injection E as E _; subst k; cbn in Hk; lia|]. split; [exact I|]. intros ([n|] & p & _ & E); [discriminate|]. destruct p; discriminate.
Qed.
Print Assumptions C87_modified_refuted.
Print Assumptions C87_vector2_refuted.
Print Assumptions C88_overload_refuted.
Print Assumptions C90_incompatible_refuted.
Print Assumptions C90_other_types_refuted.
