(** Proofs about the compiler driver: command line, sequence of commands, failures *)
From Coq Require Import String ZArith List Bool Lia.
From Verif Require Import Text DriverModel DriverRun.
Import ListNotations.
Open Scope Z_scope.

(** * File names *)
Lemma rfind_none : forall x l, rfind x l = None <-> ~ In x l.
Proof.
  intros x l. induction l as [| c l IH]; cbn [rfind In]; [tauto |]. destruct (rfind x l) as [i |] eqn:E.
  - split; [discriminate |]. intro H. exfalso. apply H. right. destruct (in_dec Z.eq_dec x l) as [Hi | Hn]; [exact Hi |]. apply IH in Hn. discriminate.
  - destruct (Z.eqb_spec c x) as [-> | Hn]; [split; [discriminate | intro H; exfalso; apply H; left; reflexivity] |]. split; [| reflexivity]. intros _ [He | Hi]; [congruence |].
    apply IH in Hi; [exact Hi | reflexivity].
Qed.
Lemma rfind_some : forall x l i, rfind x l = Some i <-> exists b e, l = b ++ x :: e /\ length b = i /\ ~ In x e.
Proof.
  intros x l. induction l as [| c l IH]; intro i; cbn [rfind].
  - split; [discriminate |]. intros (b & e & H & _). destruct b; discriminate.
  - destruct (rfind x l) as [j |] eqn:E.
    + split.
      * intro H. injection H as <-. destruct (proj1 (IH j) eq_refl) as (b & e & -> & <- & Hn). exists (c :: b), e. split; [reflexivity | split; [reflexivity | exact Hn]].
      * intros (b & e & H & Hl & Hn). destruct b as [| d b].
        -- cbn in H. injection H as -> ->. apply rfind_none in Hn. congruence.
        -- cbn in H. injection H as <- ->. cbn in Hl. f_equal. rewrite <- Hl. f_equal.
           assert (Hj : Some j = Some (length b)) by (apply IH; exists b, e; tauto). injection Hj as ->. reflexivity.
    + apply rfind_none in E. split.
      * destruct (Z.eqb_spec c x) as [-> | Hc]; [| discriminate]. intro H. injection H as <-. exists [], l. split; [reflexivity | split; [reflexivity | exact E]].
      * intros (b & e & H & Hl & Hn). destruct b as [| d b].
        -- cbn in H. injection H as -> ->. rewrite Z.eqb_refl. cbn in Hl. subst i. reflexivity.
        -- cbn in H. injection H as -> ->. exfalso. apply E. apply in_or_app. right. left. reflexivity.
Qed.
Lemma dir_base : forall p, p = dirpart p ++ basename p /\ ~ In 47 (basename p) /\ (dirpart p = [] \/ exists d, dirpart p = d ++ [47]).
Proof.
  intro p. unfold dirpart, basename. destruct (rfind 47 p) as [i |] eqn:E.
  - split; [symmetry; apply firstn_skipn |]. apply rfind_some in E. destruct E as (b & e & -> & <- & Hn).
    replace (b ++ 47 :: e) with ((b ++ [47]) ++ e) by (rewrite <- app_assoc; reflexivity).
    replace (S (length b)) with (length (b ++ [47])) by (rewrite app_length; cbn; lia).
    rewrite skipn_app, skipn_all, Nat.sub_diag. rewrite firstn_app, firstn_all, Nat.sub_diag. cbn. rewrite app_nil_r. split; [exact Hn | right; exists b; reflexivity].
  - apply rfind_none in E. split; [reflexivity | split; [exact E | left; reflexivity]].
Qed.
Lemma dir_base_unique : forall d b, (d = [] \/ exists d', d = d' ++ [47]) -> ~ In 47 b -> dirpart (d ++ b) = d /\ basename (d ++ b) = b.
Proof.
  intros d b Hd Hb. unfold dirpart, basename. destruct Hd as [-> | [d' ->]].
  - cbn [app]. apply rfind_none in Hb. rewrite Hb. split; reflexivity.
  - assert (E : rfind 47 ((d' ++ [47]) ++ b) = Some (length d')) by (apply rfind_some; exists d', b; rewrite <- app_assoc; split; [reflexivity | split; [reflexivity | exact Hb]]).
    rewrite E. replace (S (length d')) with (length (d' ++ [47])) by (rewrite app_length; cbn; lia).
    rewrite skipn_app, skipn_all, Nat.sub_diag. rewrite firstn_app, firstn_all, Nat.sub_diag. cbn. rewrite app_nil_r. split; reflexivity.
Qed.

(** [p] is stem ++ e, where e is the extension: a dot and what follows the last dot of the last component, unless only dots precede *)
Definition extension (p stem e : list Z) : Prop :=
  p = stem ++ e /\ (exists e', e = 46 :: e' /\ ~ In 46 e' /\ ~ In 47 e') /\
  exists d b, stem = d ++ b /\ (d = [] \/ exists d', d = d' ++ [47]) /\ ~ In 47 b /\ exists x, In x b /\ x <> 46.
Lemma splitext_iff : forall p stem e, e <> [] -> (splitext p = (stem, e) <-> extension p stem e).
Proof.
  intros p stem e He. destruct (dir_base p) as (Hp & Hn & Hd). unfold splitext. split.
  - destruct (rfind 46 (basename p)) as [i |] eqn:E; [| intro H; injection H as _ H; congruence].
    destruct (forallb (Z.eqb 46) (firstn i (basename p))) eqn:Ef; [intro H; injection H as _ H; congruence |].
    intro H. injection H as <- <-. apply rfind_some in E. destruct E as (b & e' & Eb & El & Hn').
    assert (Ef' : firstn i (basename p) = b) by (rewrite Eb, <- El, firstn_app, firstn_all, Nat.sub_diag; cbn; apply app_nil_r).
    assert (Es : skipn i (basename p) = 46 :: e') by (rewrite Eb, <- El, skipn_app, skipn_all, Nat.sub_diag; reflexivity).
    split; [rewrite <- app_assoc, firstn_skipn; exact Hp |]. rewrite Es, Ef' in *. split.
    + exists e'. split; [reflexivity | split; [exact Hn' |]]. intro Hi. apply Hn. rewrite Eb. apply in_or_app. right. right. exact Hi.
    + exists (dirpart p), b. split; [reflexivity | split; [exact Hd | split]].
      * intro Hi. apply Hn. rewrite Eb. apply in_or_app. left. exact Hi.
      * assert (Hx : existsb (fun x => negb (46 =? x)) b = true).
        { clear - Ef. induction b as [| x b IH]; cbn [forallb existsb] in *; [discriminate |]. destruct (46 =? x); cbn [andb orb negb] in *; [apply IH; exact Ef | reflexivity]. }
        apply existsb_exists in Hx. destruct Hx as [x [Hi Hx]]. exists x. split; [exact Hi |]. intros ->. discriminate.
  - intros (-> & (e' & -> & Hn' & Hs') & d & b & -> & Hd' & Hb & x & Hx & Hne).
    destruct (dir_base_unique d (b ++ 46 :: e') Hd') as [E1 E2].
    { intro Hi. apply in_app_or in Hi. destruct Hi as [Hi | [Hi | Hi]]; [contradiction | discriminate | contradiction]. }
    rewrite <- app_assoc. rewrite E1, E2.
    assert (E : rfind 46 (b ++ 46 :: e') = Some (length b)) by (apply rfind_some; exists b, e'; split; [reflexivity | split; [reflexivity | exact Hn']]).
    rewrite E. rewrite firstn_app, firstn_all, Nat.sub_diag. rewrite skipn_app, skipn_all, Nat.sub_diag. cbn [firstn skipn app]. rewrite app_nil_r.
    assert (Ef : forallb (Z.eqb 46) b = false).
    { destruct (forallb (Z.eqb 46) b) eqn:Ef; [| reflexivity]. exfalso. rewrite forallb_forall in Ef. specialize (Ef x Hx). apply Z.eqb_eq in Ef. congruence. }
    rewrite Ef. reflexivity.
Qed.
Lemma splitext_parts : forall p, p = fst (splitext p) ++ snd (splitext p).
Proof.
  intro p. destruct (dir_base p) as (Hp & _). unfold splitext. destruct (rfind 46 (basename p)) as [i |]; [| cbn; rewrite app_nil_r; reflexivity].
  destruct (forallb _ _); cbn [fst snd]; [rewrite app_nil_r; reflexivity |]. rewrite <- app_assoc, firstn_skipn. exact Hp.
Qed.

(** sources, by their extension *)
Definition source_extensions : list (list Z) := map b_ [".f"; ".f90"; ".f77"; ".c"; ".cc"; ".cp"; ".cpp"; ".cxx"; ".s"; ".bc"; ".ll"]%string.
Definition source (x : list Z) : Prop := exists stem e, extension x stem e /\ In (lower e) source_extensions.
Definition is_source (x : list Z) : bool := is_fortran x || is_c x || is_cpp x || is_assembly x || is_llvm_bitcode x.
Lemma same_iff : forall a b, same a b = true <-> a = b.
Proof. intros a b. unfold same. destruct (list_eq_dec Z.eq_dec a b); split; congruence. Qed.
Lemma oneof_iff : forall a l, oneof a l = true <-> In a l.
Proof.
  intros a l. unfold oneof. rewrite existsb_exists. split; [intros (x & Hi & E); apply same_iff in E; subst; exact Hi | intro H; exists a; split; [exact H | apply same_iff; reflexivity]].
Qed.
Lemma lower_nil : forall s, lower s = [] -> s = [].
Proof. intros [| x s]; [reflexivity | discriminate]. Qed.
Lemma ext_cases : forall x, snd (splitext x) = [] \/ extension x (fst (splitext x)) (snd (splitext x)).
Proof.
  intro x. destruct (splitext x) as [st e] eqn:E. cbn [fst snd]. destruct e as [| y e]; [left; reflexivity |]. right. apply splitext_iff; [discriminate | exact E].
Qed.
Lemma ext_unique : forall x stem e, extension x stem e -> splitext x = (stem, e).
Proof. intros x stem e H. apply splitext_iff; [| exact H]. destruct H as (_ & (e' & -> & _) & _). discriminate. Qed.
Lemma lower_46 : forall e, lower (46 :: e) = 46 :: lower e.
Proof. reflexivity. Qed.
Lemma is_source_iff : forall x, is_source x = true <-> source x.
Proof.
  intro x. unfold is_source, is_fortran, is_c, is_cpp, is_assembly, is_llvm_bitcode, has_extension. split.
  - intro H. rewrite !orb_true_iff, !oneof_iff in H. cbn [map In] in H.
    destruct (ext_cases x) as [E | E].
    + rewrite E in H. cbn in H. exfalso. intuition discriminate.
    + exists (fst (splitext x)), (snd (splitext x)). split; [exact E |]. destruct E as (_ & (e' & Ee & _) & _). rewrite Ee in *. rewrite lower_46 in *.
      unfold source_extensions. cbn [map In].
      assert (Hx : b_ "c++" = 46 :: lower e' -> False) by (intro Hx; vm_compute in Hx; discriminate). intuition idtac.
  - intros (stem & e & He & Hi). rewrite (ext_unique x stem e He). cbn [snd]. unfold source_extensions in Hi. cbn [map In] in Hi. rewrite !orb_true_iff, !oneof_iff. cbn [map In].
    intuition idtac.
Qed.
Definition assembly (x : list Z) : Prop := exists stem e, extension x stem e /\ lower e = b_ ".s".
Lemma is_assembly_iff : forall x, is_assembly x = true <-> assembly x.
Proof.
  intro x. unfold is_assembly, has_extension. rewrite oneof_iff. cbn [map In]. split.
  - intros [H | []]. destruct (ext_cases x) as [E | E]; [rewrite E in H; vm_compute in H; discriminate |]. exists (fst (splitext x)), (snd (splitext x)). split; [exact E | congruence].
  - intros (stem & e & He & Hi). left. rewrite (ext_unique x stem e He). cbn [snd]. congruence.
Qed.
Lemma object_stem : forall x stem e, extension x stem e -> object_of x = stem ++ b_ ".o".
Proof. intros x stem e H. unfold object_of. rewrite (ext_unique x stem e H). reflexivity. Qed.

(** names made of ordinary characters *)
Lemma ordinary_stem : forall p, forallb ordinary p = true -> forallb ordinary (fst (splitext p)) = true.
Proof. intros p H. rewrite (splitext_parts p), forallb_app in H. apply andb_prop in H. tauto. Qed.
Lemma ordinary_basename : forall p, forallb ordinary p = true -> forallb ordinary (basename p) = true.
Proof. intros p H. destruct (dir_base p) as [E _]. rewrite E, forallb_app in H. apply andb_prop in H. tauto. Qed.
Lemma plain_object : forall s, plain s -> plain (object_of s).
Proof. intros s [_ H]. apply plain_app2; [apply ordinary_stem; exact H | split; [discriminate | reflexivity]]. Qed.

(** * The extra arguments *)
Definition is_option (x : list Z) : bool := negb (is_source x) && negb (is_library x).
Definition is_lib (x : list Z) : bool := negb (is_source x) && is_library x.
Lemma sort_extras_spec : forall fl l s o b, sort_extras fl l = Got (s, o, b) ->
  s = filter is_source l /\ o = map shell_escape (filter is_option l) /\ b = filter is_lib l.
Proof.
  intros fl l. induction l as [| x l IH]; intros s o b H; cbn [sort_extras] in H.
  - injection H as <- <- <-. repeat split.
  - destruct (sort_extras fl l) as [[[s' o'] b'] | |] eqn:E; try discriminate. destruct (IH s' o' b' eq_refl) as (-> & -> & ->).
    assert (F : forall f, filter f (x :: l) = if f x then x :: filter f l else filter f l) by reflexivity. rewrite !F.
    assert (F1 : is_option x = negb (is_source x) && negb (is_library x)) by reflexivity. assert (F2 : is_lib x = negb (is_source x) && is_library x) by reflexivity.
    assert (F3 : is_source x = is_fortran x || (is_c x || is_cpp x || is_assembly x || is_llvm_bitcode x)) by (unfold is_source; rewrite !orb_assoc; reflexivity).
    rewrite F1, F2, F3. clear F F1 F2 F3. destruct (is_fortran x).
    { destruct fl; [discriminate |]. injection H as <- <- <-. cbn [orb negb andb]. repeat split. }
    cbn [orb]. destruct (is_c x || is_cpp x || is_assembly x || is_llvm_bitcode x).
    { injection H as <- <- <-. cbn [orb negb andb]. repeat split. }
    cbn [negb andb]. destruct (is_library x); injection H as <- <- <-; cbn [negb]; repeat split.
Qed.

(** * Sequence of commands *)
Section steps.
  Context (c : config) (rnd : nat -> list Z) (ok : nat -> list Z -> bool).
  Lemma mbind_got : forall A B (m : M A) (k : A -> M B) s y s', mbind m k s = (Got y, s') -> exists x s1, m s = (Got x, s1) /\ k x s1 = (Got y, s').
  Proof. intros A B m k s y s' H. unfold mbind in H. destruct (m s) as [[x | n |] s1]; try discriminate. exists x, s1. split; [reflexivity | exact H]. Qed.
  Lemma shell_got : forall cmd s s' u, shell ok cmd s = (Got u, s') -> s' = mk_state (commands s ++ [cmd]) (temps s).
  Proof. intros cmd s s' u H. unfold shell in H. destruct (ok _ _); [| discriminate]. injection H as _ <-. reflexivity. Qed.
  Lemma get_tmp_got : forall p x s s' n, get_tmp c rnd p x s = (Got n, s') ->
    s' = mk_state (commands s) (temps s ++ [n]) /\ n = c_cwd c ++ b_ "/" ++ fst (splitext (basename p)) ++ b_ "." ++ rnd (length (temps s)) ++ x.
  Proof. intros p x s s' n H. unfold get_tmp in H. injection H as <- <-. split; reflexivity. Qed.
  Context (HC : plain_config c) (HR : forall n, forallb ordinary (rnd n) = true).
  (** the name of a temporary file *)
  Definition temp_name (n : list Z) : Prop := plain n /\ exists r, n = c_cwd c ++ b_ "/" ++ r.
  Lemma plain_tmp : forall p x n i, forallb ordinary p = true -> forallb ordinary x = true ->
    n = c_cwd c ++ b_ "/" ++ fst (splitext (basename p)) ++ b_ "." ++ rnd i ++ x -> temp_name n.
  Proof.
    intros p x n i Hp Hx ->. split; [| eexists; reflexivity]. apply plain_app; [apply cfg; exact HC |].
    rewrite !forallb_app, (HR i), Hx, (ordinary_stem _ (ordinary_basename _ Hp)). reflexivity.
  Qed.

  Context (a : args) (opts : list (list Z)).
  Context (HL : plain (linker_path c (a_linker a))) (HQ : unquoted opts).
  Context (HF : nice (a_function a)) (HI : nice (a_include a)) (HX : nice (a_exclude a)) (HO : nice (a_o a)) (HP : good_prism a).
  (** the commands that turn a source into [out]; [tm]: the temporary files *)
  Definition block (wrapper out src : list Z) (tm : list (list Z)) (ws : list (list (list Z))) : Prop :=
    if is_assembly src then length tm = 2%nat /\ ws = [assembly_words c a opts src out]
    else if a_func a then
      exists ir mid ins, tm = [ir; mid; ins] /\
        ws = [front_words c a opts src ir; func_words c a ir mid; mca_words c a wrapper mid ins; back_words c a opts wrapper ins out]
    else exists ir ins, tm = [ir; ins] /\ ws = [front_words c a opts src ir; mca_words c a wrapper ir ins; back_words c a opts wrapper ins out].

  (** [cmds] are texts whose words are [ws] *)
  Definition read (cmds : list (list Z)) (ws : list (list (list Z))) : Prop := map sh_words cmds = map Some ws.
  Lemma read_app : forall c1 w1 c2 w2, read c1 w1 -> read c2 w2 -> read (c1 ++ c2) (w1 ++ w2).
  Proof. intros c1 w1 c2 w2 H1 H2. unfold read in *. rewrite !map_app, H1, H2. reflexivity. Qed.
  Lemma read_one : forall t w, sh_words t = Some w -> read [t] [w].
  Proof. intros t w H. unfold read. cbn. rewrite H. reflexivity. Qed.
  Lemma read_nil : read [] [].
  Proof. reflexivity. Qed.

  (** where the result goes: the text given by the caller, or the object named after the source *)
  Definition destination (o : option (list Z)) (src : list Z) : list Z := if given o then value o else object_of src.
  Lemma ext_ordinary : forall k, forallb ordinary (b_ k) = true -> forallb ordinary (b_ k ++ ir_ext a) = true.
  Proof. intros k H. rewrite forallb_app, H. unfold ir_ext. destruct (a_emit a || a_temps a); reflexivity. Qed.

  Lemma out_cases : forall (o : option (list Z)) src (pre : list Z), pre = b_ "-o " \/ pre = b_ " -o " ->
    match out_text o with [] => pre ++ fst (splitext src) ++ b_ ".o" | _ => out_text o end = (if given o then b_ "-o " else pre) ++ destination o src.
  Proof. intros o src pre Hp. unfold out_text, destination. destruct (given o) eqn:E; [| reflexivity]. destruct (b_ "-o " ++ value o) eqn:E'; [discriminate | reflexivity]. Qed.
  Lemma plain_destination : forall o src, nice o -> plain src -> plain (destination o src).
  Proof. intros o src Ho Hs. unfold destination. destruct (given o) eqn:E; [apply Ho; exact E | apply plain_object; exact Hs]. Qed.

  Lemma compile_source_got : forall o wrapper src s s' u, nice o -> plain src -> (a_prism a = None -> plain wrapper) -> (wrapper = [] \/ plain wrapper) ->
    compile_source c rnd ok (opts_text a opts) (out_text o) wrapper a src s = (Got u, s') ->
    exists tm cmds ws, s' = mk_state (commands s ++ cmds) (temps s ++ tm) /\ read cmds ws /\ Forall temp_name tm /\ block wrapper (destination o src) src tm ws.
  Proof.
    intros o wrapper src s s' u Ho Hs Hw Hw' H. unfold compile_source in H.
    pose proof (plain_destination o src Ho Hs) as HD.
    assert (Hb : forallb ordinary (fst (splitext src)) = true) by (apply ordinary_stem; apply Hs).
    apply mbind_got in H. destruct H as (ir & s1 & H1 & H). apply mbind_got in H. destruct H as (ins & s2 & H2 & H).
    apply get_tmp_got in H1. destruct H1 as [-> E1]. apply get_tmp_got in H2. destruct H2 as [-> E2]. cbn [commands temps] in *.
    assert (QP1 : temp_name ir) by (eapply plain_tmp; [| | exact E1]; [exact Hb | apply ext_ordinary; reflexivity]). pose proof (proj1 QP1) as P1.
    assert (QP2 : temp_name ins) by (eapply plain_tmp; [| | exact E2]; [exact Hb | apply ext_ordinary; reflexivity]).
    pose proof (proj1 QP2) as P2. clear E1 E2. unfold block. destruct (is_assembly src).
    - unfold compile_only in H. apply shell_got in H. cbn [commands temps] in H. subst s'.
      rewrite (out_cases o src (b_ "-o ")) by (left; reflexivity). replace (if given o then b_ "-o " else b_ "-o ") with (b_ "-o ") by (destruct (given o); reflexivity).
      eexists [ir; ins], [_], [_]. split; [apply f_equal2; [reflexivity | rewrite <- app_assoc; reflexivity] |]. split; [apply read_one, assembly_text; assumption |].
      split; [repeat apply Forall_cons; try assumption; apply Forall_nil |]. split; reflexivity.
    - apply mbind_got in H. destruct H as (u1 & s3 & H3 & H). apply shell_got in H3. cbn [commands temps] in H3. subst s3.
      apply mbind_got in H. destruct H as ([ir' ins'] & s4 & H4 & H). cbn [fst snd] in H.
      apply mbind_got in H. destruct H as (u2 & s5 & H5 & H).
      rewrite (out_cases o src (b_ " -o ")) in H by (right; reflexivity).
      set (pre := if given o then b_ "-o " else b_ " -o ") in H.
      assert (Hpre : pre = b_ "-o " \/ pre = b_ " -o ") by (unfold pre; destruct (given o); [left | right]; reflexivity).
      assert (Hlast : plain ins' -> exists t, s' = mk_state (commands s5 ++ [t]) (temps s5) /\ sh_words t = Some (back_words c a opts wrapper ins' (destination o src))).
      { intro P'. pose proof (back_text c HC a HL opts wrapper ins' (destination o src) pre HQ Hw' P' HD Hpre) as HB.
        destruct (a_emit a); cbn [negb] in H, HB; apply shell_got in H; eexists; (split; [exact H | exact HB]). }
      assert (Hmca : plain ir' -> plain ins' -> exists t, s5 = mk_state (commands s4 ++ [t]) (temps s4) /\ sh_words t = Some (mca_words c a wrapper ir' ins')).
      { intros P' P''. pose proof (mca_text c HC a wrapper ir' ins' HF HI HX HP Hw P' P'') as HB. unfold mca_pass in H5.
        destruct (a_prism a); apply shell_got in H5; eexists; (split; [exact H5 | exact HB]). }
      pose proof (front_text c HC a HL opts src ir HQ Hs P1) as Hfront.
      destruct (a_func a) eqn:Ef.
      + apply mbind_got in H4. destruct H4 as (u3 & s6 & H6 & H4). apply mbind_got in H4. destruct H4 as (n & s7 & H7 & H4). unfold ret in H4. injection H4 as <- <- <-.
        unfold function_pass in H6. apply shell_got in H6. cbn [commands temps] in H6. subst s6. apply get_tmp_got in H7. destruct H7 as [-> E3]. cbn [commands temps] in *.
        assert (QP3 : temp_name n) by (eapply plain_tmp; [| | exact E3]; [exact Hb | apply ext_ordinary; reflexivity]). pose proof (proj1 QP3) as P3. clear E3.
        destruct (Hmca P2 P3) as (t1 & -> & T1). destruct (Hlast P3) as (t2 & -> & T2). cbn [commands temps] in *.
        eexists [ir; ins; n], [_; _; t1; t2], [_; _; _; _]. split; [apply f_equal2; rewrite <- ?(app_assoc (commands s)), <- ?(app_assoc (temps s)); reflexivity |].
        split; [| split; [repeat apply Forall_cons; try assumption; apply Forall_nil | exists ir, ins, n; split; reflexivity]].
        unfold read. cbn [map]. rewrite T1, T2. rewrite (func_text c HC a ir ins P1 P2). f_equal. exact Hfront.
      + unfold ret in H4. injection H4 as <- <- <-. cbn [commands temps] in *.
        destruct (Hmca P1 P2) as (t1 & -> & T1). destruct (Hlast P2) as (t2 & -> & T2). cbn [commands temps] in *.
        eexists [ir; ins], [_; t1; t2], [_; _; _]. split; [apply f_equal2; rewrite <- ?(app_assoc (commands s)), <- ?(app_assoc (temps s)); reflexivity |].
        split; [| split; [repeat apply Forall_cons; try assumption; apply Forall_nil | exists ir, ins; split; reflexivity]].
        unfold read. cbn [map]. rewrite T1, T2. f_equal. exact Hfront.
  Qed.

  Inductive blocks (wrapper : list Z) (o : option (list Z)) : list (list Z) -> list (list Z) -> list (list (list Z)) -> Prop :=
  | blocks_nil : blocks wrapper o [] [] []
  | blocks_cons : forall src srcs tm tms ws wss, block wrapper (destination o src) src tm ws -> blocks wrapper o srcs tms wss ->
      blocks wrapper o (src :: srcs) (tm ++ tms) (ws ++ wss).
  Lemma each_got : forall o wrapper srcs s s' u, nice o -> Forall plain srcs -> (a_prism a = None -> plain wrapper) -> (wrapper = [] \/ plain wrapper) ->
    each (compile_source c rnd ok (opts_text a opts) (out_text o) wrapper a) srcs s = (Got u, s') ->
    exists tm cmds ws, s' = mk_state (commands s ++ cmds) (temps s ++ tm) /\ read cmds ws /\ Forall temp_name tm /\ blocks wrapper o srcs tm ws.
  Proof.
    intros o wrapper srcs. induction srcs as [| src srcs IH]; intros s s' u Ho Hs Hw Hw' H; cbn [each] in H.
    - unfold ret in H. injection H as _ <-. exists [], [], []. rewrite !app_nil_r. destruct s. split; [reflexivity | split; [apply read_nil | split; [apply Forall_nil | apply blocks_nil]]].
    - apply Forall_cons_iff in Hs. destruct Hs as [Hs1 Hs2]. apply mbind_got in H. destruct H as (u1 & s1 & H1 & H).
      apply compile_source_got in H1; try assumption. destruct H1 as (tm & cmds & ws & -> & R1 & F1 & B1).
      apply IH in H; try assumption. destruct H as (tm' & cmds' & ws' & -> & R2 & F2 & B2). cbn [commands temps]. exists (tm ++ tm'), (cmds ++ cmds'), (ws ++ ws').
      rewrite !app_assoc. split; [reflexivity | split; [apply read_app; assumption | split; [apply Forall_app; split; assumption | apply blocks_cons; assumption]]].
  Qed.
  Definition no_prism : bool := match a_prism a with None => true | Some _ => false end.
  Lemma compiler_mode_got : forall o srcs s s' u, nice o -> Forall plain srcs ->
    compiler_mode c rnd ok srcs (opts_text a opts) (out_text o) a s = (Got u, s') ->
    exists wi tm cmds ws, s' = mk_state (commands s ++ cmds) (temps s ++ on no_prism [wi] ++ tm) /\ (if no_prism then temp_name wi else wi = []) /\ Forall temp_name tm /\
      read cmds (on no_prism [wrapper_words c a true wi] ++ ws) /\ blocks wi o srcs tm ws.
  Proof.
    intros o srcs s s' u Ho Hs H. unfold compiler_mode in H. apply mbind_got in H. destruct H as (wi & s1 & H1 & H). unfold no_prism.
    destruct (a_prism a) as [mode |] eqn:Ep.
    - unfold ret in H1. injection H1 as <- <-. apply each_got in H; try assumption; [| intro; congruence | left; reflexivity].
      destruct H as (tm & cmds & ws & -> & R & F & B). exists [], tm, cmds, ws. cbn [on app]. split; [reflexivity | split; [reflexivity | split; [exact F | split; [exact R | exact B]]]].
    - apply mbind_got in H1. destruct H1 as (w & s2 & H2 & H1). apply mbind_got in H1. destruct H1 as (u1 & s3 & H3 & H1). unfold ret in H1. injection H1 as <- <-.
      apply get_tmp_got in H2. destruct H2 as [-> E2]. unfold compile_vfcwrapper in H3. apply shell_got in H3. cbn [commands temps] in H3. subst s3.
      assert (QP : temp_name w) by (eapply plain_tmp; [| | exact E2]; [reflexivity | apply ext_ordinary; reflexivity]). pose proof (proj1 QP) as P.
      apply each_got in H; try assumption; [| intro; exact P | right; exact P]. destruct H as (tm & cmds & ws & -> & R & F & B). cbn [commands temps].
      eexists w, tm, (_ :: cmds), ws. cbn [on app]. split; [apply f_equal2; rewrite <- ?(app_assoc (commands s)), <- ?(app_assoc (temps s)); reflexivity |].
      split; [exact QP | split; [exact F | split; [| exact B]]]. unfold read. cbn [map]. f_equal; [| exact R]. exact (wrapper_text c HC a true w P).
  Qed.
  Lemma linker_mode_got : forall libs srcs s s' u, Forall plain srcs -> Forall plain libs ->
    linker_mode c rnd ok srcs (opts_text a opts) (join libs) (out_text (a_o a)) a s = (Got u, s') ->
    exists wo cmds, s' = mk_state (commands s ++ cmds) (temps s ++ on no_prism [wo]) /\ (if no_prism then temp_name wo else wo = []) /\
      read cmds (on no_prism [wrapper_words c a false wo] ++ [link_words c a opts libs (map object_of srcs) wo]).
  Proof.
    intros libs srcs s s' u Hs Hl H. unfold linker_mode in H. apply mbind_got in H. destruct H as ([wo lt] & s1 & H1 & H). cbn [fst snd] in H. apply shell_got in H.
    assert (Hobj : Forall plain (map object_of srcs)) by (apply Forall_map; eapply Forall_impl; [| exact Hs]; intros x Hx; apply plain_object; exact Hx).
    pose proof (fun W => link_text c HC a HL opts libs (map object_of srcs) wo HQ Hl Hobj HO W) as HT. unfold no_prism in *. unfold link_words in *.
    destruct (a_prism a) as [mode |] eqn:Ep.
    - unfold ret in H1. injection H1 as <- <- <-. exists [], [linker_path c (a_linker a) ++ b_ " " ++ out_text (a_o a) ++ b_ " " ++ join (map object_of srcs) ++ b_ " " ++
        (opts_text a opts ++ opt_text (a_ddebug a || a_func a) " -no-pie ") ++ b_ " " ++
        (join libs ++ b_ " " ++ (if a_dynamic a then b_ "-lprism-dynamic" else b_ "-lprism-static") ++ (match a_debug a with [] => [] | _ => b_ "-dbg" end) ++ b_ " -lhwy -lstdc++ ") ++
        b_ " " ++ [] ++ b_ " " ++
        (if a_static a then b_ " -static -lgmp -lm -ldl " ++ (b_ " -L" ++ c_stdlib c ++ b_ " -linterflop_stdlib -linterflop_hashmap -linterflop_logger ") ++ b_ " "
         else b_ " -rpath " ++ c_libdir c ++ b_ " -L " ++ c_libdir c ++ b_ " -ldl " ++ (b_ " -L" ++ c_stdlib c ++ b_ " -linterflop_stdlib -linterflop_hashmap -linterflop_logger ") ++ b_ " ")].
      cbn [on]. rewrite app_nil_r. split; [exact H |]. split; [reflexivity |]. apply read_one. apply HT. intro; discriminate.
    - apply mbind_got in H1. destruct H1 as (w & s2 & H2 & H1). apply mbind_got in H1. destruct H1 as (u1 & s3 & H3 & H1). unfold ret in H1. injection H1 as <- <- <-.
      apply get_tmp_got in H2. destruct H2 as [-> E2]. unfold compile_vfcwrapper in H3. apply shell_got in H3. cbn [commands temps] in H3. subst s3. cbn [commands temps] in H.
      assert (QP : temp_name w) by (eapply plain_tmp; [| | exact E2]; reflexivity). pose proof (proj1 QP) as P. specialize (HT (fun _ => P)).
      eexists w, [_; _]. cbn [on]. split; [rewrite H; apply f_equal2; [rewrite <- (app_assoc (commands s)); reflexivity | reflexivity] |]. split; [exact QP |].
      unfold read. cbn [map app]. f_equal; [exact (wrapper_text c HC a false w P) |]. f_equal. exact HT.
  Qed.
End steps.

(** * The command line *)
Definition close (db : option (list (list Z))) (a : args) : args := match db with Some d => set_debug d a | None => a end.
Inductive step : list (list Z) -> option (list (list Z)) -> args -> list (list Z) -> option (list (list Z)) -> args -> list (list Z) -> Prop :=
| step_debugarg : forall x d a ex, classify x = Plain -> oneof x debug_choices = true -> step [x] (Some d) a ex (Some (d ++ [x])) a ex
| step_plain : forall x a ex, classify x = Plain -> step [x] None a ex None a (ex ++ [x])
| step_unknown : forall x db a ex, classify x = Unknown -> step [x] db a ex None (close db a) (ex ++ [x])
| step_flag : forall x f db a ex, classify x = Option (KFlag f) None -> step [x] db a ex None (set_flag f (close db a)) ex
| step_equal : forall x v y db a a' ex, classify x = Option (KValue v) (Some y) -> set_value v y (close db a) = Got a' -> step [x] db a ex None a' ex
| step_value : forall x v y db a a' ex, classify x = Option (KValue v) None -> classify y = Plain -> set_value v y (close db a) = Got a' -> step [x; y] db a ex None a' ex
| step_debug : forall x db a ex, classify x = Option KDebug None -> step [x] db a ex (Some []) (close db a) ex
| step_debug_equal : forall x y db a ex, classify x = Option KDebug (Some y) -> oneof y debug_choices = true -> step [x] db a ex None (set_debug [y] (close db a)) ex.
Inductive psteps : list (list Z) -> option (list (list Z)) -> args -> list (list Z) -> args -> list (list Z) -> Prop :=
| ps_nil : forall db a ex, psteps [] db a ex (close db a) ex
| ps_step : forall x l db a ex db' a' ex' ra rex, step x db a ex db' a' ex' -> psteps l db' a' ex' ra rex -> psteps (x ++ l) db a ex ra rex.
Lemma parse_psteps : forall n l db a ex ra rex, (length l <= n)%nat -> parse l db a ex = Got (ra, rex) -> psteps l db a ex ra rex.
Proof.
  induction n as [| n IH]; intros l db a ex ra rex Hn H.
  - destruct l; [| cbn in Hn; lia]. cbn [parse] in H. injection H as <- <-. apply ps_nil.
  - destruct l as [| x l]; [cbn [parse] in H; injection H as <- <-; apply ps_nil |]. cbn [parse] in H. cbn [length] in Hn.
    fold (close db a) in H. destruct (same x (b_ "--")); [discriminate |].
    destruct (classify x) as [| k e |] eqn:Ec.
    + destruct db as [d |].
      * destruct (oneof x debug_choices) eqn:Ed; [| discriminate]. apply (ps_step [x] l _ _ _ _ _ _ _ _ (step_debugarg x d a ex Ec Ed)). apply IH; [lia | exact H].
      * apply (ps_step [x] l _ _ _ _ _ _ _ _ (step_plain x a ex Ec)). apply IH; [lia | exact H].
    + destruct k as [f | v | |].
      * destruct e as [y |]; [destruct x as [| ? [| ? ?]]; repeat (match type of H with match ?z with _ => _ end = _ => destruct z end); discriminate |].
        apply (ps_step [x] l _ _ _ _ _ _ _ _ (step_flag x f db a ex Ec)). apply IH; [lia | exact H].
      * destruct e as [y |].
        -- destruct (set_value v y (close db a)) as [a' | |] eqn:Ev; try discriminate.
           apply (ps_step [x] l _ _ _ _ _ _ _ _ (step_equal x v y db a a' ex Ec Ev)). apply IH; [lia | exact H].
        -- destruct l as [| y l]; [discriminate |]. destruct (same y (b_ "--")); [discriminate |]. destruct (classify y) eqn:Ey; try discriminate.
           destruct (set_value v y (close db a)) as [a' | |] eqn:Ev; try discriminate.
           apply (ps_step [x; y] l _ _ _ _ _ _ _ _ (step_value x v y db a a' ex Ec Ey Ev)). apply IH; [cbn in Hn; lia | exact H].
      * destruct e as [y |].
        -- destruct (oneof y debug_choices) eqn:Ed; [| discriminate]. apply (ps_step [x] l _ _ _ _ _ _ _ _ (step_debug_equal x y db a ex Ec Ed)). apply IH; [lia | exact H].
        -- apply (ps_step [x] l _ _ _ _ _ _ _ _ (step_debug x db a ex Ec)). apply IH; [lia | exact H].
      * destruct e; discriminate.
    + apply (ps_step [x] l _ _ _ _ _ _ _ _ (step_unknown x db a ex Ec)). apply IH; [lia | exact H].
Qed.

Definition has (f : flag) (a : args) : bool :=
  match f with FE => a_E a | FS => a_S a | FC => a_c a | FDdebug => a_ddebug a | FStatic => a_static a | FVerbose => a_verbose a | FFcmp => a_fcmp a | FFma => a_fma a
  | FCast => a_cast a | FFunc => a_func a | FShow => a_show a | FTemps => a_temps a | FEmit => a_emit a | FStrict => a_strict a end.
Definition spelling (f : flag) : list (list Z) :=
  map b_ (match f with FE => ["-E"] | FS => ["-S"] | FC => ["-c"] | FDdebug => ["--ddebug"] | FStatic => ["-static"; "--static"] | FVerbose => ["--verbose"] | FFcmp => ["--inst-fcmp"]
  | FFma => ["--inst-fma"] | FCast => ["--inst-cast"] | FFunc => ["--inst-func"] | FShow => ["--show-cmd"] | FTemps => ["--save-temps"] | FEmit => ["--emit-llvm"]
  | FStrict => ["--prism-backend-strict-abi"] end)%string.
Definition flag_eqb (f g : flag) : bool :=
  match f, g with
  | FE, FE | FS, FS | FC, FC | FDdebug, FDdebug | FStatic, FStatic | FVerbose, FVerbose | FFcmp, FFcmp | FFma, FFma | FCast, FCast
  | FFunc, FFunc | FShow, FShow | FTemps, FTemps | FEmit, FEmit | FStrict, FStrict => true | _, _ => false end.
Lemma has_set_flag : forall f g a, has f (set_flag g a) = has f a || flag_eqb f g.
Proof. intros f g []. destruct f, g; cbn; rewrite ?orb_false_r, ?orb_true_r; reflexivity. Qed.
Lemma has_set_debug : forall f d a, has f (set_debug d a) = has f a.
Proof. intros f d []. destruct f; reflexivity. Qed.
Lemma has_close : forall f db a, has f (close db a) = has f a.
Proof. intros f [d |] a; [apply has_set_debug | reflexivity]. Qed.
Lemma has_set_value : forall f v y a a', set_value v y a = Got a' -> has f a' = has f a.
Proof.
  intros f v y [] a' H. destruct v; cbn [set_value] in H;
    repeat (match type of H with (if ?b then _ else _) = _ => destruct b end); try discriminate; injection H as <-; destruct f; reflexivity.
Qed.
Lemma lookup_in : forall x k, lookup x = Some k -> exists n, In (n, k) option_table /\ x = b_ n.
Proof.
  intros x k H. unfold lookup in H. destruct (List.find _ option_table) as [[n k'] |] eqn:E; [| discriminate]. injection H as <-. apply find_some in E. destruct E as [Hi Hs].
  apply same_iff in Hs. exists n. split; [exact Hi | symmetry; exact Hs].
Qed.
Lemma classify_lookup : forall x k, classify x = Option k None -> lookup x = Some k.
Proof.
  intros x k H. destruct x as [| z x]; [discriminate |]. destruct (Z.eq_dec z 45) as [-> | Hz].
  - unfold classify in H. destruct (lookup (45 :: x)) as [k' |] eqn:E; [injection H as <-; reflexivity |]. exfalso.
    destruct x as [| y x]; [discriminate |]. destruct (match cut_equal (45 :: y :: x) with Some (n, v) => _ | None => None end) as [[k' v] |]; [discriminate |].
    destruct (negative_number (45 :: y :: x) || existsb (Z.eqb 32) (45 :: y :: x)); discriminate.
  - exfalso. unfold classify in H. destruct z as [| q | q]; try discriminate. repeat (destruct q as [q | q |]; try discriminate; try congruence).
Qed.
Lemma classify_flag : forall x f, classify x = Option (KFlag f) None <-> In x (spelling f).
Proof.
  intros x f. split.
  - intro H. apply classify_lookup, lookup_in in H. destruct H as (n & Hi & ->). unfold option_table in Hi. cbn [In] in Hi.
    repeat (destruct Hi as [Hi | Hi]; [first [discriminate Hi | injection Hi as <- <-; cbn [spelling map In]; tauto] |]). destruct Hi.
  - intro H. destruct f; cbn [spelling map In] in H; repeat (destruct H as [<- | H]; [vm_compute; reflexivity |]); destruct H.
Qed.
Lemma step_has : forall f x db a ex db' a' ex', step x db a ex db' a' ex' -> has f a' = has f a || existsb (fun w => oneof w (spelling f)) x.
Proof.
  assert (N : forall f x, classify x <> Option (KFlag f) None -> oneof x (spelling f) = false).
  { intros f x H. destruct (oneof x (spelling f)) eqn:E; [| reflexivity]. exfalso. apply H. apply classify_flag. apply oneof_iff. exact E. }
  intros f x db a ex db' a' ex' H. destruct H; cbn [existsb]; rewrite ?orb_false_r.
  - rewrite N by congruence. rewrite orb_false_r. reflexivity.
  - rewrite N by congruence. rewrite orb_false_r. reflexivity.
  - rewrite N by congruence. rewrite orb_false_r. apply has_close.
  - rewrite has_set_flag, has_close. f_equal. destruct (flag_eqb f f0) eqn:E.
    + assert (f = f0) as <- by (destruct f, f0; (reflexivity || discriminate)). symmetry. apply oneof_iff, classify_flag. exact H.
    + symmetry. apply N. rewrite H. intro Hx. injection Hx as ->. destruct f; discriminate.
  - rewrite N by congruence. rewrite orb_false_r. rewrite (has_set_value f _ _ _ _ H0). apply has_close.
  - rewrite !N by congruence. cbn [orb]. rewrite orb_false_r. rewrite (has_set_value f _ _ _ _ H1). apply has_close.
  - rewrite N by congruence. rewrite orb_false_r. apply has_close.
  - rewrite N by congruence. rewrite orb_false_r. rewrite has_set_debug. apply has_close.
Qed.
Lemma psteps_has : forall f l db a ex a' ex', psteps l db a ex a' ex' -> has f a' = has f a || existsb (fun w => oneof w (spelling f)) l.
Proof.
  intros f l db a ex a' ex' H. induction H as [| x l db a ex db' a' ex' ra rex Hs Hp IH].
  - cbn [existsb]. rewrite orb_false_r. apply has_close.
  - rewrite IH, (step_has f _ _ _ _ _ _ _ Hs), existsb_app, orb_assoc. reflexivity.
Qed.
Lemma parse_has : forall argv a extras f, parse argv None no_args [] = Got (a, extras) -> (has f a = true <-> exists w, In w (spelling f) /\ In w argv).
Proof.
  intros argv a extras f H. apply (parse_psteps (length argv)) in H; [| lia]. rewrite (psteps_has f _ _ _ _ _ _ H). replace (has f no_args) with false by (destruct f; reflexivity).
  cbn [orb]. rewrite existsb_exists. split; intros (w & H1 & H2); exists w; [split; [apply oneof_iff; exact H2 | exact H1] | split; [exact H2 | apply oneof_iff; exact H1]].
Qed.

(** "-o" is never an extra argument *)
Lemma psteps_extras : forall l db a ex a' ex', psteps l db a ex a' ex' -> forall w, In w ex' -> In w ex \/ In w l /\ (classify w = Plain \/ classify w = Unknown).
Proof.
  intros l db a ex a' ex' H. induction H as [| x l db a ex db' a' ex' ra rex Hs Hp IH]; intros w Hw; [left; exact Hw |].
  destruct (IH w Hw) as [Hi | [Hi Hc]]; [| right; split; [apply in_or_app; right; exact Hi | exact Hc]].
  destruct Hs; try (left; exact Hi).
  - apply in_app_or in Hi. destruct Hi as [Hi | [<- | []]]; [left; exact Hi | right; split; [left; reflexivity | left; assumption]].
  - apply in_app_or in Hi. destruct Hi as [Hi | [<- | []]]; [left; exact Hi | right; split; [left; reflexivity | right; assumption]].
Qed.
Lemma parse_extras : forall argv a extras w, parse argv None no_args [] = Got (a, extras) -> In w extras -> In w argv /\ w <> b_ "-o" /\ (classify w = Plain \/ classify w = Unknown).
Proof.
  intros argv a extras w H Hw. apply (parse_psteps (length argv)) in H; [| lia]. destruct (psteps_extras _ _ _ _ _ _ H w Hw) as [[] | [Hi Hc]].
  split; [exact Hi | split; [| exact Hc]]. intros ->. vm_compute in Hc. destruct Hc; discriminate.
Qed.
(** the PRISM options *)
Lemma psteps_prism : forall l db a ex a' ex', psteps l db a ex a' ex' -> good_prism a -> match db with Some d => Forall (fun x => oneof x debug_choices = true) d | None => True end -> good_prism a'.
Proof.
  assert (C : forall db a, good_prism a -> match db with Some d => Forall (fun x => oneof x debug_choices = true) d | None => True end -> good_prism (close db a)).
  { intros [d |] [] [H1 H2] H; split; try assumption. }
  assert (V : forall v y a a', set_value v y a = Got a' -> good_prism a -> good_prism a').
  { intros v y [] a' H [H1 H2]. destruct v; cbn [set_value] in H; repeat (match type of H with (if ?b then _ else _) = _ => destruct b end); try discriminate; injection H as <-; split; cbn in *; try assumption.
    all: intros mode Hm; injection Hm as <-; tauto. }
  intros l db a ex a' ex' H. induction H as [db a ex | x l db a ex db' a' ex' ra rex Hs Hp IH]; intros Hg Hd; [apply C; assumption |].
  apply IH; destruct Hs; try exact I; try (apply C; assumption); try assumption.
  - specialize (C _ _ Hg Hd). destruct (close db a). destruct C as [C1 C2]. split; assumption.
  - eapply V; [eassumption | apply C; assumption].
  - eapply V; [eassumption | apply C; assumption].
  - specialize (C _ _ Hg Hd). destruct (close db a). destruct C as [C1 C2]. split; [apply Forall_cons; [assumption | apply Forall_nil] | assumption].
  - apply Forall_app. split; [assumption | apply Forall_cons; [assumption | apply Forall_nil]].
  - apply Forall_nil.
Qed.
Lemma parse_prism : forall argv a extras, parse argv None no_args [] = Got (a, extras) -> good_prism a.
Proof.
  intros argv a extras H. apply (parse_psteps (length argv)) in H; [| lia]. apply (psteps_prism _ _ _ _ _ _ H); [| exact I]. split; [apply Forall_nil | intros mode Hm; discriminate].
Qed.

(** * The whole run *)
Definition sources (extras : list (list Z)) : list (list Z) := filter is_source extras.
Definition options (extras : list (list Z)) : list (list Z) := filter is_option extras.
Definition libraries (extras : list (list Z)) : list (list Z) := filter is_lib extras.
(** file names made of characters that the shell leaves alone; options without a single quote *)
Record clean (c : config) (rnd : nat -> list Z) (a : args) (extras : list (list Z)) : Prop := mk_clean {
  cl_config : plain_config c;
  cl_linker : plain (linker_path c (a_linker a));
  cl_rnd : forall n, forallb ordinary (rnd n) = true;
  cl_sources : Forall plain (sources extras);
  cl_options : Forall (fun o => ~ In quote o) (options extras);
  cl_libraries : Forall plain (libraries extras);
  cl_values : nice (a_o a) /\ nice (a_function a) /\ nice (a_include a) /\ nice (a_exclude a) }.

Definition to_link (a : args) : Prop := a_E a = false /\ a_S a = false /\ a_c a = false /\ a_emit a = false.
Definition to_object (a : args) : Prop := a_E a = false /\ a_S a = false /\ (a_c a = true \/ a_emit a = true).

Lemma main_link : forall c rnd ok argv a extras cmds tmps, parse argv None no_args [] = Got (a, extras) -> clean c rnd a extras -> to_link a ->
  verificarlo c rnd ok argv = (Got tt, cmds, tmps) ->
  exists wi wo tms wss, tmps = on (no_prism a) [wi] ++ tms ++ on (no_prism a) [wo] /\ Forall (temp_name c) tms /\
    (if no_prism a then temp_name c wi /\ temp_name c wo else wi = [] /\ wo = []) /\ blocks c a (options extras) wi None (sources extras) tms wss /\
    read cmds (on (no_prism a) [wrapper_words c a true wi] ++ wss ++ on (no_prism a) [wrapper_words c a false wo] ++
               [link_words c a (options extras) (libraries extras) (map object_of (sources extras)) wo]).
Proof.
  intros c rnd ok argv a extras cmds tmps Hp Hc (HE & HS & Hcc & Hem) H. unfold verificarlo, main in H. rewrite Hp in H.
  destruct (sort_extras (c_flang c) extras) as [[[so oo] lo] | |] eqn:Es; try (cbn in H; discriminate).
  apply sort_extras_spec in Es. destruct Es as (-> & -> & ->). rewrite HE, HS, Hcc, Hem in H. cbn [orb andb] in H.
  destruct (given (a_function a) && (given (a_include a) || given (a_exclude a))); [cbn in H; discriminate |].
  fold (sources extras) (options extras) (libraries extras) in H. fold (opts_text a (options extras)) in H. fold (out_text (a_o a)) in H.
  assert (H' : exists u s, mbind (compiler_mode c rnd ok (sources extras) (opts_text a (options extras)) [] a)
     (fun _ => linker_mode c rnd ok (sources extras) (opts_text a (options extras)) (join (libraries extras)) (out_text (a_o a)) a) (mk_state [] []) = (Got u, s) /\ cmds = commands s /\ tmps = temps s).
  { destruct (sources extras) as [| s0 sl]; [destruct (opts_text a (options extras)) as [| o0 ol]; [cbn in H; discriminate |] |];
      (match type of H with (fst ?m, _, _) = _ => destruct m as [r s] eqn:Em; cbn [fst snd] in H; injection H as -> <- <-; exists tt, s; split; [first [exact Em | reflexivity] | split; reflexivity] end). }
  clear H. destruct H' as (u & s & H & -> & ->). destruct Hc as [C1 C2 C3 C4 C5 C6 (V1 & V2 & V3 & V4)].
  apply mbind_got in H. destruct H as (u1 & s1 & H1 & H). change (compiler_mode c rnd ok (sources extras) (opts_text a (options extras)) (out_text None) a (mk_state [] []) = (Got u1, s1)) in H1.
  apply (compiler_mode_got c rnd ok C1 C3 a (options extras) C2 C5 V2 V3 V4 (parse_prism _ _ _ Hp) None) in H1; [| intro; discriminate | exact C4].
  destruct H1 as (wi & tm & cm & ws & -> & Wi & Ft & R1 & B).
  apply (linker_mode_got c rnd ok C1 C3 a (options extras) C2 C5 V1 (libraries extras)) in H; [| exact C4 | exact C6].
  destruct H as (wo & cm' & -> & Wo & R2). cbn [commands temps app]. exists wi, wo, tm, ws.
  split; [rewrite app_assoc; reflexivity |]. split; [exact Ft |]. split; [destruct (no_prism a); tauto |]. split; [exact B |].
  rewrite app_assoc. apply read_app; assumption.
Qed.

Lemma main_object : forall c rnd ok argv a extras cmds tmps, parse argv None no_args [] = Got (a, extras) -> clean c rnd a extras -> to_object a ->
  verificarlo c rnd ok argv = (Got tt, cmds, tmps) ->
  exists wi tms wss, tmps = on (no_prism a) [wi] ++ tms /\ Forall (temp_name c) tms /\ (if no_prism a then temp_name c wi else wi = []) /\
    blocks c a (options extras) wi (a_o a) (sources extras) tms wss /\ read cmds (on (no_prism a) [wrapper_words c a true wi] ++ wss).
Proof.
  intros c rnd ok argv a extras cmds tmps Hp Hc (HE & HS & Hcc) H. unfold verificarlo, main in H. rewrite Hp in H.
  destruct (sort_extras (c_flang c) extras) as [[[so oo] lo] | |] eqn:Es; try (cbn in H; discriminate).
  apply sort_extras_spec in Es. destruct Es as (-> & -> & ->). rewrite HE, HS in H. cbn [orb] in H.
  destruct (a_c a && (1 <? Z.of_nat (length (filter is_source extras))) && given (a_o a)); [cbn in H; discriminate |].
  destruct (given (a_function a) && (given (a_include a) || given (a_exclude a))); [cbn in H; discriminate |].
  assert (Hce : a_c a || a_emit a = true) by (apply orb_true_iff; exact Hcc). rewrite Hce in H.
  fold (sources extras) (options extras) in H. fold (opts_text a (options extras)) in H. fold (out_text (a_o a)) in H.
  assert (H' : exists u s, compiler_mode c rnd ok (sources extras) (opts_text a (options extras)) (out_text (a_o a)) a (mk_state [] []) = (Got u, s) /\ cmds = commands s /\ tmps = temps s).
  { destruct (sources extras) as [| s0 sl]; [cbn in H; discriminate |].
      (match type of H with (fst ?m, _, _) = _ => destruct m as [r s] eqn:Em; cbn [fst snd] in H; injection H as -> <- <-; exists tt, s; split; [first [exact Em | reflexivity] | split; reflexivity] end). }
  clear H. destruct H' as (u & s & H & -> & ->). destruct Hc as [C1 C2 C3 C4 C5 C6 (V1 & V2 & V3 & V4)].
  apply (compiler_mode_got c rnd ok C1 C3 a (options extras) C2 C5 V2 V3 V4 (parse_prism _ _ _ Hp) (a_o a)) in H; [| exact V1 | exact C4].
  destruct H as (wi & tm & cm & ws & -> & Wi & Ft & R1 & B). cbn [commands temps app]. exists wi, tm, ws. tauto.
Qed.

(** * Failures *)
Fixpoint upto (ok : nat -> list Z -> bool) (n : nat) (l : list (list Z)) : list (list Z) * bool :=
  match l with [] => ([], true) | x :: l' => if ok n x then let (p, b) := upto ok (S n) l' in (x :: p, b) else ([x], false) end.
Lemma upto_app : forall ok l1 n l2, upto ok n (l1 ++ l2) =
  let (p1, b1) := upto ok n l1 in if b1 then let (p2, b2) := upto ok (n + length l1) l2 in (l1 ++ p2, b2) else (p1, false).
Proof.
  intros ok l1. induction l1 as [| x l1 IH]; intros n l2; cbn [app upto length].
  - rewrite Nat.add_0_r. destruct (upto ok n l2) as [p b]. reflexivity.
  - destruct (ok n x); [| reflexivity]. rewrite IH. destruct (upto ok (S n) l1) as [p1 b1]. destruct b1; [| reflexivity].
    replace (S n + length l1)%nat with (n + S (length l1))%nat by lia. destruct (upto ok (n + S (length l1)) l2) as [p2 b2]. reflexivity.
Qed.
Lemma upto_true : forall ok l n p, upto ok n l = (p, true) -> p = l.
Proof.
  intros ok l. induction l as [| x l IH]; intros n p H; cbn [upto] in H; [injection H as <-; reflexivity |].
  destruct (ok n x); [| discriminate]. destruct (upto ok (S n) l) as [p' b'] eqn:E. injection H as <- ->. f_equal. eapply IH. exact E.
Qed.
(** the commands do not depend on the oracle, except that nothing happens after a failure *)
Definition staged {A} (m : (nat -> list Z -> bool) -> M A) : Prop :=
  forall t0, exists cmds t1 r, forall ok c0,
    let (p, b) := upto ok (length c0) cmds in
    if b then m ok (mk_state c0 t0) = (r, mk_state (c0 ++ cmds) t1) else exists t', m ok (mk_state c0 t0) = (Stop 1, mk_state (c0 ++ p) t').
Lemma staged_pure : forall A (r : res A), staged (fun _ s => (r, s)).
Proof. intros A r t0. exists [], t0, r. intros ok c0. cbn. rewrite app_nil_r. reflexivity. Qed.
Lemma staged_shell : forall cmd, staged (fun ok => shell ok cmd).
Proof.
  intros cmd t0. exists [cmd], t0, (Got tt). intros ok c0. cbn [upto]. unfold shell. cbn [commands temps]. destruct (ok (length c0) cmd); [reflexivity | exists t0; reflexivity].
Qed.
Lemma staged_tmp : forall c rnd p x, staged (fun _ => get_tmp c rnd p x).
Proof. intros c rnd p x t0. eexists [], _, (Got _). intros ok c0. cbn [upto]. unfold get_tmp. cbn [commands temps]. rewrite app_nil_r. reflexivity. Qed.
Lemma staged_bind : forall A B (m : (nat -> list Z -> bool) -> M A) (k : A -> (nat -> list Z -> bool) -> M B),
  staged m -> (forall x, staged (k x)) -> staged (fun ok => mbind (m ok) (fun x => k x ok)).
Proof.
  intros A B m k Hm Hk t0. destruct (Hm t0) as (cm & t1 & r & H1). destruct r as [x | n |].
  - destruct (Hk x t1) as (cm' & t2 & r' & H2). exists (cm ++ cm'), t2, r'. intros ok c0. specialize (H1 ok c0). specialize (H2 ok (c0 ++ cm)).
    rewrite upto_app. destruct (upto ok (length c0) cm) as [p1 b1]. destruct b1.
    + rewrite app_length in H2. destruct (upto ok (length c0 + length cm) cm') as [p2 b2]. unfold mbind. rewrite H1. destruct b2.
      * rewrite H2, app_assoc. reflexivity.
      * destruct H2 as [t' H2]. exists t'. rewrite H2, app_assoc. reflexivity.
    + destruct H1 as [t' H1]. exists t'. unfold mbind. rewrite H1. reflexivity.
  - exists cm, t1, (Stop n). intros ok c0. specialize (H1 ok c0). destruct (upto ok (length c0) cm) as [p1 b1]. unfold mbind. destruct b1; [rewrite H1; reflexivity |].
    destruct H1 as [t' H1]. exists t'. rewrite H1. reflexivity.
  - exists cm, t1, Outside. intros ok c0. specialize (H1 ok c0). destruct (upto ok (length c0) cm) as [p1 b1]. unfold mbind. destruct b1; [rewrite H1; reflexivity |].
    destruct H1 as [t' H1]. exists t'. rewrite H1. reflexivity.
Qed.
Lemma staged_ret : forall A (x : A), staged (fun _ => ret x).
Proof. intros A x. apply staged_pure. Qed.
Lemma staged_stop : forall A n, staged (fun _ => @stop A n).
Proof. intros A n. apply staged_pure. Qed.
Ltac stg := repeat first [ apply staged_ret | apply staged_stop | apply staged_pure | apply staged_shell | apply staged_tmp | apply staged_bind; [| intro] ].
Lemma staged_wrapper : forall c src out a e, staged (fun ok => compile_vfcwrapper c ok src out a e).
Proof. intros. unfold compile_vfcwrapper. stg. Qed.
Lemma staged_link : forall c rnd s o l out a, staged (fun ok => linker_mode c rnd ok s o l out a).
Proof.
  intros. unfold linker_mode. apply staged_bind; [| intro; stg]. destruct (a_prism a); stg.
Qed.
Lemma staged_source : forall c rnd o out w a src, staged (fun ok => compile_source c rnd ok o out w a src).
Proof.
  intros. unfold compile_source. stg. destruct (is_assembly src); [unfold compile_only; stg |]. stg.
  - destruct (a_func a); unfold function_pass; stg.
  - unfold mca_pass. destruct (a_prism a); stg.
  - destruct (negb (a_emit a)); stg.
Qed.
Lemma staged_each : forall (f : (nat -> list Z -> bool) -> list Z -> M unit) l, (forall x, staged (fun ok => f ok x)) -> staged (fun ok => each (f ok) l).
Proof.
  intros f l H. induction l as [| x l IH]; cbn [each]; [apply staged_ret |].
  apply (staged_bind _ _ (fun ok => f ok x) (fun _ ok => each (f ok) l)); [apply H | intros _; exact IH].
Qed.
Lemma staged_compile : forall c rnd s o out a, staged (fun ok => compiler_mode c rnd ok s o out a).
Proof.
  intros. unfold compiler_mode. apply staged_bind; [destruct (a_prism a); stg; apply staged_wrapper |].
  intro w. apply (staged_each (fun ok => compile_source c rnd ok o out w a)). intro x. apply staged_source.
Qed.
Lemma staged_main : forall c rnd argv, staged (fun ok => main c rnd ok argv).
Proof.
  intros. unfold main. destruct (parse argv None no_args []) as [[a extras] | |]; [| apply staged_stop | apply staged_pure].
  destruct (sort_extras (c_flang c) extras) as [[[s o] l] | |]; [| apply staged_stop | apply staged_pure].
  destruct ((a_E a || a_S a || a_c a) && (1 <? Z.of_nat (length s)) && given (a_o a)); [apply staged_stop |].
  destruct (given (a_function a) && (given (a_include a) || given (a_exclude a))); [apply staged_stop |].
  destruct (a_E a); [unfold compile_only; apply staged_shell |]. destruct (a_S a); [unfold compile_only; apply staged_shell |].
  destruct (a_c a || a_emit a).
  - destruct s; [apply staged_stop |]. apply staged_compile.
  - match goal with |- context [compiler_mode c rnd _ s ?o' [] a] => set (ot := o') end.
    assert (H : staged (fun ok => mbind (compiler_mode c rnd ok s ot [] a) (fun _ => linker_mode c rnd ok s ot (join l) (if given (a_o a) then b_ "-o " ++ value (a_o a) else []) a)))
      by (apply staged_bind; [apply staged_compile | intro; apply staged_link]).
    destruct s; [destruct ot; [apply staged_stop |] |]; exact H.
Qed.
Lemma upto_all : forall ok l n, (forall i x, nth_error l i = Some x -> ok (n + i)%nat x = true) -> upto ok n l = (l, true).
Proof.
  intros ok l. induction l as [| x l IH]; intros n H; [reflexivity |]. cbn [upto]. pose proof (H 0%nat x eq_refl) as H0. rewrite Nat.add_0_r in H0. rewrite H0. rewrite IH; [reflexivity |].
  intros i y Hi. replace (S n + i)%nat with (n + S i)%nat by lia. apply H. exact Hi.
Qed.
Lemma upto_fail : forall ok l n k x, nth_error l k = Some x -> ok (n + k)%nat x = false -> (forall i y, (i < k)%nat -> nth_error l i = Some y -> ok (n + i)%nat y = true) ->
  upto ok n l = (firstn (S k) l, false).
Proof.
  intros ok l. induction l as [| y l IH]; intros n k x Hk Hf Ha; [destruct k; discriminate |]. cbn [upto]. destruct k as [| k].
  - cbn in Hk. injection Hk as ->. rewrite Nat.add_0_r in Hf. rewrite Hf. reflexivity.
  - pose proof (Ha 0%nat y ltac:(lia) eq_refl) as H0. rewrite Nat.add_0_r in H0. rewrite H0. cbn in Hk. rewrite (IH (S n) k x Hk); [reflexivity | |].
    + replace (S n + k)%nat with (n + S k)%nat by lia. exact Hf.
    + intros i z Hi Hz. replace (S n + i)%nat with (n + S i)%nat by lia. apply (Ha (S i)); [lia | exact Hz].
Qed.
Lemma driver_failure : forall c rnd argv, exists r full tmps, verificarlo c rnd (fun _ _ => true) argv = (r, full, tmps) /\
  forall ok, ((forall i x, nth_error full i = Some x -> ok i x = true) -> verificarlo c rnd ok argv = (r, full, tmps)) /\
    (forall k x, nth_error full k = Some x -> ok k x = false -> (forall i y, (i < k)%nat -> nth_error full i = Some y -> ok i y = true) ->
       exists t, verificarlo c rnd ok argv = (Stop 1, firstn (S k) full, t)).
Proof.
  intros c rnd argv. destruct (staged_main c rnd argv []) as (cmds & t1 & r & H). exists r, cmds, t1. unfold verificarlo. split.
  - specialize (H (fun _ _ => true) []). rewrite upto_all in H by reflexivity. rewrite H. reflexivity.
  - intro ok. specialize (H ok []). split.
    + intro Ha. rewrite upto_all in H by exact Ha. rewrite H. reflexivity.
    + intros k x Hk Hf Ha. rewrite (upto_fail ok cmds (length (A := list Z) []) k x Hk Hf Ha) in H. destruct H as [t' H]. exists t'. rewrite H. reflexivity.
Qed.
