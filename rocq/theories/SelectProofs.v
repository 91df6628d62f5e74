(** Proofs about the choice of functions: escape_regex turns a pattern without regex characters into its glob. *)
From Coq Require Import ZArith List Bool Lia.
From Verif Require Import Text SelectModel.
Import ListNotations.
Open Scope Z_scope.

(** * Independent notions *)
(** [Glob p s]: the pattern p, where '*' stands for any text and every other character for itself, describes s *)
Inductive Glob : list Z -> list Z -> Prop :=
| Glob_nil : Glob [] []
| Glob_char c p s : c <> 42 -> Glob p s -> Glob (c :: p) (c :: s)
| Glob_none p s : Glob p s -> Glob (42 :: p) s
| Glob_some c p s : Glob (42 :: p) s -> Glob (42 :: p) (c :: s).

(** no character with a meaning in regular expressions except '.' and '*' *)
Definition ordinary (c : Z) : Prop := ~ In c [92; 94; 36; 43; 63; 40; 41; 91; 93; 123; 125; 124].
Definition pattern (p : list Z) : Prop := Forall ordinary p.
Definition one_line (s : list Z) : Prop := ~ In 10 s /\ ~ In 13 s.

(** * find_and_replace_all for a single character *)
Definition subst (c : Z) (r l : list Z) : list Z := flat_map (fun x => if x =? c then r else [x]) l.

Lemma find_single c l : find [c] l = None /\ ~ In c l \/
  exists a b, l = a ++ c :: b /\ ~ In c a /\ find [c] l = Some (length a).
Proof.
  induction l as [|x l IH]; [left; split; [reflexivity|intros []]|].
  cbn [find starts]. destruct (Z.eqb_spec c x) as [<-|E]; cbn [andb].
  - right. exists [], l. split; [reflexivity|]. split; [intros []|reflexivity].
  - destruct IH as [[-> H]|(a & b & -> & H & ->)]; cbn [option_map].
    + left. split; [reflexivity|]. intros [H'|H']; [congruence|auto].
    + right. exists (x :: a), b. split; [reflexivity|]. split; [|reflexivity]. intros [H'|H']; [congruence|auto].
Qed.
Lemma subst_absent c r l : ~ In c l -> subst c r l = l.
Proof.
  induction l as [|x l IH]; intros H; [reflexivity|]. cbn. destruct (Z.eqb_spec x c) as [->|E]; [elim H; left; reflexivity|].
  cbn. f_equal. apply IH. intros H'. apply H. right. exact H'.
Qed.
Lemma skipn_app_length {A} (a b : list A) : skipn (length a) (a ++ b) = b.
Proof. induction a; [reflexivity|assumption]. Qed.
Lemma firstn_app_length {A} (a b : list A) : firstn (length a) (a ++ b) = a.
Proof. induction a; [reflexivity|cbn; f_equal; assumption]. Qed.
Lemma replace_loop_single c r fuel d l : (length l < fuel)%nat ->
  replace_loop fuel [c] r (d ++ l) (find_from [c] (d ++ l) (length d)) = d ++ subst c r l.
Proof.
  revert d l. induction fuel as [|fuel IH]; intros d l H; [lia|].
  unfold find_from. rewrite skipn_app_length.
  destruct (find_single c l) as [[E Ha]|(a & b & -> & Ha & E)]; rewrite E; cbn [option_map].
  - cbn [replace_loop]. rewrite subst_absent by assumption. reflexivity.
  - cbn [replace_loop]. unfold replace. rewrite <- (app_length d a), (app_assoc d a (c :: b)).
    rewrite firstn_app_length.
    replace (length (d ++ a) + length [c])%nat with (length ((d ++ a) ++ [c])) by (rewrite (app_length (d ++ a)); reflexivity).
    change (c :: b) with ([c] ++ b). rewrite (app_assoc (d ++ a) [c] b), skipn_app_length.
    rewrite (app_assoc (d ++ a) r b). rewrite <- (app_length (d ++ a) r). rewrite IH.
    + unfold subst. rewrite flat_map_app. cbn [app flat_map]. rewrite Z.eqb_refl.
      fold (subst c r a). rewrite (subst_absent c r a Ha). rewrite <- !app_assoc. reflexivity.
    + rewrite app_length in H. cbn in H. lia.
Qed.
Lemma find_and_replace_all_single data c r : find_and_replace_all data [c] r = subst c r data.
Proof. unfold find_and_replace_all. apply (replace_loop_single c r _ [] data). lia. Qed.

Definition esc (c : Z) : list Z := if c =? 46 then [92; 46] else if c =? 42 then [46; 42] else [c].
Lemma escape_regex_spec s : escape_regex s = flat_map esc s.
Proof.
  unfold escape_regex. rewrite !find_and_replace_all_single. unfold subst.
  induction s as [|c s IH]; [reflexivity|]. cbn [flat_map]. rewrite flat_map_app, IH. f_equal. unfold esc, dot, star.
  destruct (Z.eqb_spec c 46) as [->|E]; [reflexivity|]. cbn. destruct (c =? 42); reflexivity.
Qed.

(** * Compiling the escaped pattern *)
Definition item_of (c : Z) : item := if c =? 42 then It AnyChar Many else It (Lit c) One.
Definition tokens_of (c : Z) : list token := if c =? 42 then [TAtom AnyChar; TQuant Many] else [TAtom (Lit c)].
Lemma eqb_false a b : a <> b -> (a =? b) = false. Proof. apply Z.eqb_neq. Qed.
Lemma ordinary_neq c x : ordinary c -> In x [92; 94; 36; 43; 63; 40; 41; 91; 93; 123; 125; 124] -> (c =? x) = false.
Proof. intros H1 H2. apply eqb_false. intros ->. exact (H1 H2). Qed.
Ltac ord H := repeat match type of H with ordinary ?c => match goal with |- context [c =? ?x] => rewrite (ordinary_neq c x H) by (cbn; tauto) end end.
Lemma scan_esc c l : ordinary c -> scan (esc c ++ l) = (got ts := scan l in Sel (tokens_of c ++ ts)).
Proof.
  intros H. unfold esc, tokens_of. destruct (Z.eqb_spec c 46) as [->|E1].
  - cbn. reflexivity.
  - destruct (Z.eqb_spec c 42) as [->|E2].
    + cbn. destruct (scan l); reflexivity.
    + cbn [app scan]. unfold backslash, is_unmodelled, bar, is_quantifier, dot. cbn [existsb]. rewrite (eqb_false c 42), (eqb_false c 46) by assumption. ord H.
      cbn. reflexivity.
Qed.
Lemma sbind_assoc {A B C} (m : sel A) (f : A -> sel B) (g : B -> sel C) : sbind (sbind m f) g = sbind m (fun x => sbind (f x) g).
Proof. destruct m; reflexivity. Qed.
Lemma scan_pattern p l : pattern p -> scan (flat_map esc p ++ l) = (got ts := scan l in Sel (flat_map tokens_of p ++ ts)).
Proof.
  induction 1 as [|c p Hc Hp IH]; cbn [flat_map].
  - cbn. destruct (scan l); reflexivity.
  - rewrite <- app_assoc, scan_esc by assumption. rewrite IH, sbind_assoc. destruct (scan l); cbn; rewrite ?app_assoc; reflexivity.
Qed.
Definition no_quantifier (ts : list token) : Prop := match ts with TQuant _ :: _ => False | _ => True end.
Lemma no_quantifier_tokens p ts : no_quantifier ts -> no_quantifier (flat_map tokens_of p ++ ts).
Proof. destruct p as [|c p]; [tauto|]. intros _. cbn. unfold tokens_of. destruct (c =? 42); exact I. Qed.
Lemma compile_pattern p ts a alts : no_quantifier ts -> compile ts = Sel (a :: alts) ->
  compile (flat_map tokens_of p ++ ts) = Sel ((map item_of p ++ a) :: alts).
Proof.
  intros Hq H. induction p as [|c p IH]; [exact H|].
  cbn [flat_map map app]. rewrite <- app_assoc.
  assert (Hn := no_quantifier_tokens p ts Hq). set (rest := flat_map tokens_of p ++ ts) in *.
  unfold tokens_of, item_of at 1. destruct (c =? 42); cbn [app compile].
  - destruct rest as [|[| | |] ?]; try (rewrite IH; reflexivity). destruct Hn.
  - destruct rest as [|[| | |] ?]; try (rewrite IH; reflexivity). destruct Hn.
Qed.

Fixpoint joined (ps : list (list Z)) : list Z :=
  match ps with
  | [] => []
  | [p] => flat_map esc p
  | p :: ps' => flat_map esc p ++ 124 :: joined ps'
  end.
Lemma scan_joined ps : Forall pattern ps -> exists ts, scan (joined ps) = Sel ts /\ no_quantifier ts /\
  compile ts = Sel (match ps with [] => [[]] | _ => map (map item_of) ps end).
Proof.
  induction 1 as [|p ps Hp Hps IH]; [exists []; cbn; auto|].
  destruct IH as (ts & H1 & H2 & H3). destruct ps as [|q ps].
  - cbn [joined]. exists (flat_map tokens_of p ++ []). rewrite <- (app_nil_r (flat_map esc p)), scan_pattern by assumption.
    split; [reflexivity|]. split; [apply no_quantifier_tokens; exact I|].
    rewrite (compile_pattern p [] [] []) by (exact I || reflexivity). rewrite app_nil_r. reflexivity.
  - change (joined (p :: q :: ps)) with (flat_map esc p ++ 124 :: joined (q :: ps)).
    rewrite scan_pattern by assumption. exists (flat_map tokens_of p ++ TBar :: ts). split; [|split].
    + cbn [scan]. change (124 =? backslash) with false. change (is_unmodelled 124) with false. rewrite H1. reflexivity.
    + apply no_quantifier_tokens. exact I.
    + rewrite (compile_pattern p (TBar :: ts) [] (map (map item_of) (q :: ps))).
      * rewrite app_nil_r. reflexivity.
      * exact I.
      * cbn [compile]. rewrite H3. reflexivity.
Qed.
Lemma regex_joined ps : Forall pattern ps -> regex (joined ps) = Sel (match ps with [] => [[]] | _ => map (map item_of) ps end).
Proof. intros H. destruct (scan_joined ps H) as (ts & H1 & _ & H3). unfold regex. rewrite H1. exact H3. Qed.
Lemma regex_escaped p : pattern p -> regex (escape_regex p) = Sel [map item_of p].
Proof. intros H. rewrite escape_regex_spec. apply (regex_joined [p]). auto. Qed.

(** * Matching *)
Lemma match_items_glob p s : one_line s -> match_items (map item_of p) s = true <-> Glob p s.
Proof.
  revert s. induction p as [|c p IH]; intros s Hs.
  - cbn. destruct s; split; intros H; try reflexivity; try discriminate; try constructor. inversion H.
  - cbn [map]. unfold item_of at 1. destruct (Z.eqb_spec c 42) as [->|E].
    + cbn [match_items]. induction s as [|x s IHs].
      * rewrite orb_false_r, (IH [] Hs). split; intros H; [constructor; exact H|inversion H; subst; congruence || assumption].
      * assert (Hs' : one_line s) by (destruct Hs as [h1 h2]; split; intros h; [apply h1|apply h2]; right; exact h).
        rewrite orb_true_iff, (IH (x :: s) Hs), andb_true_iff. cbn [accepts].
        assert (Hx : negb (x =? 10) && negb (x =? 13) = true).
        { destruct Hs as [h1 h2]. rewrite !eqb_false; [reflexivity| |]; intros ->; [apply h2|apply h1]; left; reflexivity. }
        split.
        -- intros [H|[_ H]]; [apply Glob_none; exact H|]. apply Glob_some. apply (IHs Hs'). exact H.
        -- intros H. inversion H; subst; [congruence|left; assumption|right]. split; [exact Hx|]. apply (IHs Hs'). assumption.
    + cbn [match_items accepts]. destruct s as [|x s].
      * split; intros H; [discriminate|inversion H; subst; congruence].
      * assert (Hs' : one_line s) by (destruct Hs as [h1 h2]; split; intros h; [apply h1|apply h2]; right; exact h).
        rewrite andb_true_iff, (IH s Hs'), Z.eqb_eq. split.
        -- intros [-> H]. constructor; assumption.
        -- intros H. inversion H; subst; [split; [reflexivity|assumption]|congruence|congruence].
Qed.
Lemma regex_match_joined ps s : one_line s -> s <> [] ->
  regex_match s (match ps with [] => [[]] | _ => map (map item_of) ps end) = true <-> Exists (fun p => Glob p s) ps.
Proof.
  intros Hs Hn. destruct ps as [|p ps].
  - cbn. rewrite orb_false_r. split; intros H; [destruct s; [congruence|discriminate]|inversion H].
  - unfold regex_match. rewrite existsb_exists, Exists_exists. split.
    + intros (its & Hi & Hm). apply in_map_iff in Hi. destruct Hi as (q & <- & Hq). exists q. split; [exact Hq|].
      apply match_items_glob in Hm; assumption.
    + intros (q & Hq & Hm). exists (map item_of q). split; [apply in_map; exact Hq|]. apply match_items_glob; assumption.
Qed.
Lemma regex_match_single p s : one_line s -> regex_match s [map item_of p] = true <-> Glob p s.
Proof. intros Hs. unfold regex_match. cbn [existsb]. rewrite orb_false_r. apply match_items_glob. exact Hs. Qed.

(** * List files *)
Definition white (c : Z) : Prop := In c [32; 9; 10; 11; 12; 13].
Definition ends_black (f : list Z) : Prop :=
  f <> [] /\ (forall c l, f = c :: l -> ~ white c) /\ (forall c l, f = l ++ [c] -> ~ white c).
(** the lines of a list file: comments, blank lines, and entries: a module, blanks, a function, possibly blanks *)
Inductive entry := Comment (text : list Z) | Blank (text : list Z) | Entry (m b1 f b2 : list Z).
Definition render (e : entry) : list Z :=
  match e with
  | Comment t => 35 :: t
  | Blank t => t
  | Entry m b1 f b2 => m ++ 32 :: b1 ++ f ++ b2
  end.
Definition entry_ok (e : entry) : Prop :=
  ~ In 10 (render e) /\
  match e with
  | Comment _ => True
  | Blank t => Forall white t
  | Entry m b1 f b2 =>
      m <> [] /\ hd 0 m <> 35 /\ (forall r, m <> 47 :: 47 :: r) /\ Forall (fun c => ~ white c) m /\ pattern m /\
      Forall white b1 /\ Forall white b2 /\ ends_black f /\ pattern f
  end.
Definition file_of (es : list entry) : list Z := concat (map (fun l => l ++ [10]) (map render es)).

(** the last component *)
Definition file_part (m f : list Z) : Prop := ~ In 47 f /\ (m = f \/ exists d, m = d ++ 47 :: f).
Definition with_extension (m : list Z) : Prop := exists f, file_part m f /\ In 46 f /\ f <> [46] /\ f <> [46; 46].
(** [completed m q]: q is the pattern the module of an entry must follow: a path not starting with '/' is searched below any
    directory, a file name without extension gets any extension *)
Definition completed (m q : list Z) : Prop :=
  exists p, (hd 0 m = 47 /\ p = m \/ hd 0 m <> 47 /\ p = 42 :: 47 :: m) /\
    (with_extension m /\ q = p \/ ~ with_extension m /\ q = p ++ [46; 42]).
(** the function is in the list *)
Definition listed (es : list entry) (modname name : list Z) : Prop :=
  exists m b1 f b2 q, In (Entry m b1 f b2) es /\ completed m q /\ Glob q modname /\ Glob f name.

Lemma is_white_spec c : is_white c = true <-> white c.
Proof.
  unfold is_white. rewrite existsb_exists. split.
  - intros (x & H1 & H2). apply Z.eqb_eq in H2. subst. exact H1.
  - intros H. exists c. rewrite Z.eqb_refl. auto.
Qed.
Lemma is_white_false c : ~ white c -> is_white c = false.
Proof. intros H. destruct (is_white c) eqn:E; [apply is_white_spec in E; contradiction|reflexivity]. Qed.
Lemma ltrim_white b l : Forall white b -> ltrim (b ++ l) = ltrim l.
Proof. induction 1 as [|c b Hc Hb IH]; [reflexivity|]. cbn [app ltrim]. apply is_white_spec in Hc. rewrite Hc. exact IH. Qed.
Lemma ltrim_black c l : ~ white c -> ltrim (c :: l) = c :: l.
Proof. intros H. cbn [ltrim]. rewrite is_white_false by exact H. reflexivity. Qed.
Lemma trim_white b : Forall white b -> trim b = [].
Proof. intros H. unfold trim. rewrite <- (app_nil_r b), ltrim_white by exact H. reflexivity. Qed.
Lemma trim_padded b1 f b2 : Forall white b1 -> Forall white b2 -> ends_black f -> trim (b1 ++ f ++ b2) = f.
Proof.
  intros H1 H2 (Hn & Hl & Hr). unfold trim. rewrite ltrim_white by exact H1.
  destruct f as [|c f]; [congruence|]. rewrite <- app_comm_cons, ltrim_black by (apply (Hl c f); reflexivity).
  rewrite app_comm_cons, rev_app_distr, ltrim_white by (apply Forall_rev; exact H2).
  destruct (exists_last Hn) as (l & x & E). rewrite E, rev_app_distr. cbn [rev app].
  rewrite ltrim_black by (apply (Hr x l); exact E). cbn [rev]. rewrite rev_involutive. reflexivity.
Qed.
Lemma ends_black_all m : m <> [] -> Forall (fun c => ~ white c) m -> ends_black m.
Proof.
  intros Hn H. split; [exact Hn|]. split; intros c l ->.
  - inversion H; assumption.
  - apply Forall_app in H. destruct H as [_ H]. inversion H; assumption.
Qed.
Lemma trim_black m : m <> [] -> Forall (fun c => ~ white c) m -> trim m = m.
Proof.
  intros Hn H. rewrite <- (app_nil_r m) at 1. rewrite <- (app_nil_l (m ++ [])).
  apply trim_padded; [constructor|constructor|apply ends_black_all; assumption].
Qed.
Lemma split_first_spec m l : ~ In 32 m -> split_first (m ++ 32 :: l) = (m, l).
Proof.
  induction m as [|c m IH]; intros H; [reflexivity|]. cbn. unfold blank.
  rewrite eqb_false by (intros ->; apply H; left; reflexivity). rewrite IH by (intros h; apply H; right; exact h). reflexivity.
Qed.
Lemma trim_nonempty_padded m l : m <> [] -> Forall (fun c => ~ white c) m -> trim (m ++ l) <> [].
Proof.
  intros Hn H. destruct m as [|c m]; [congruence|]. inversion H; subst. unfold trim.
  rewrite <- app_comm_cons, ltrim_black by assumption. cbn [rev]. intros E.
  apply (f_equal (@rev Z)) in E. rewrite rev_involutive in E. cbn in E.
  assert (Hx : forall l c, ~ white c -> ltrim (l ++ [c]) <> []).
  { clear. induction l as [|x l IH]; intros c Hc; cbn [app ltrim]; [rewrite is_white_false by exact Hc; discriminate|].
    destruct (is_white x); [apply IH; exact Hc|discriminate]. }
  exact (Hx _ _ H2 E).
Qed.

(** the patterns of the entries whose module pattern matches *)
Definition picks (modname : list Z) (e : entry) : list (list Z) :=
  match e with
  | Entry m _ f _ => if regex_match modname [map item_of (complete_module m)] then [f] else []
  | _ => []
  end.
Lemma pattern_complete m : pattern m -> pattern (complete_module m).
Proof.
  intros H. unfold complete_module. set (m' := if is_absolute m then m else star :: slash :: m).
  assert (Hm : pattern m').
  { unfold m'. destruct (is_absolute m); [exact H|]. constructor; [|constructor; [|exact H]]; unfold ordinary; cbn; intuition discriminate. }
  destruct (has_extension m'); [exact Hm|]. apply Forall_app. split; [exact Hm|].
  constructor; [|constructor; [|constructor]]; unfold ordinary; cbn; intuition discriminate.
Qed.
Lemma read_entry_spec modname acc e : entry_ok e ->
  read_entry modname acc (render e) = Sel (acc ++ flat_map (fun f => flat_map esc f ++ [124]) (picks modname e)).
Proof.
  intros [Hnl H]. destruct e as [t|t|m b1 f b2]; cbn [render picks] in *.
  - cbn. rewrite app_nil_r. reflexivity.
  - unfold read_entry. rewrite trim_white by exact H. cbn [flat_map]. rewrite app_nil_r. destruct (starts [hash_sign] t); reflexivity.
  - destruct H as (Hn & Hh & _ & Hb & Hp & Hb1 & Hb2 & He & Hf). unfold read_entry.
    assert (Hs : starts [hash_sign] (m ++ 32 :: b1 ++ f ++ b2) = false).
    { destruct m as [|c m]; [congruence|]. cbn [hd] in Hh. cbn [app starts]. unfold hash_sign. rewrite eqb_false by congruence. reflexivity. }
    rewrite Hs. destruct (trim (m ++ 32 :: b1 ++ f ++ b2)) as [|x r] eqn:Et; [apply trim_nonempty_padded in Et; [destruct Et|exact Hn|exact Hb]|].
    rewrite split_first_spec.
    2:{ intros h. rewrite Forall_forall in Hb. apply (Hb 32 h). left. reflexivity. }
    assert (Hne : b1 ++ f ++ b2 <> []).
    { destruct He as [He _]. destruct b1; [|discriminate]. destruct f; [congruence|discriminate]. }
    destruct (b1 ++ f ++ b2) as [|y s] eqn:Es; [congruence|]. rewrite <- Es.
    rewrite trim_padded by assumption. rewrite trim_black by assumption.
    rewrite regex_escaped by (apply pattern_complete; exact Hp). cbn [sbind].
    destruct (regex_match modname [map item_of (complete_module m)]); cbn [flat_map].
    + rewrite escape_regex_spec, app_nil_r. reflexivity.
    + rewrite app_nil_r. reflexivity.
Qed.
Lemma read_entries_spec modname es acc : Forall entry_ok es ->
  read_entries modname acc (map render es ++ [[]]) =
  Sel (acc ++ flat_map (fun f => flat_map esc f ++ [124]) (flat_map (picks modname) es)).
Proof.
  intros H. revert acc. induction H as [|e es He Hes IH]; intros acc; cbn [map app read_entries flat_map].
  - cbn. rewrite app_nil_r. reflexivity.
  - rewrite read_entry_spec by exact He. cbn [sbind]. rewrite IH, flat_map_app, app_assoc. reflexivity.
Qed.
Lemma removelast_joined ps : removelast (flat_map (fun f => flat_map esc f ++ [124]) ps) = joined ps.
Proof.
  induction ps as [|p ps IH]; [reflexivity|]. cbn [flat_map]. destruct ps as [|q ps].
  - cbn [flat_map]. rewrite app_nil_r, removelast_last. reflexivity.
  - rewrite removelast_app.
    + rewrite IH. cbn [joined]. rewrite <- app_assoc. reflexivity.
    + cbn [flat_map]. destruct (flat_map esc q); discriminate.
Qed.
Lemma picks_patterns modname es : Forall entry_ok es -> Forall pattern (flat_map (picks modname) es).
Proof.
  induction 1 as [|e es He Hes IH]; [constructor|]. cbn. apply Forall_app. split; [|exact IH].
  destruct e as [t|t|m b1 f b2]; cbn [picks]; [constructor|constructor|]. destruct He as [_ He]. destruct (regex_match modname [map item_of (complete_module m)]); [|constructor].
  constructor; [tauto|constructor].
Qed.
Lemma parse_file_spec modname es : Forall entry_ok es ->
  parse_function_set_file modname (Some (Some (file_of es))) =
  Sel (match flat_map (picks modname) es with [] => [[]] | ps => map (map item_of) ps end).
Proof.
  intros H. cbn [parse_function_set_file]. unfold file_of, newline. rewrite split_on_lines.
  - rewrite read_entries_spec by exact H. cbn [sbind app]. rewrite removelast_joined, regex_joined by (apply picks_patterns; exact H).
    destruct (flat_map (picks modname) es); reflexivity.
  - rewrite Forall_map. eapply Forall_impl; [|exact H]. intros e [He _]. exact He.
Qed.

(** * The module pattern *)
Lemma existsb_in c l : existsb (Z.eqb c) l = true <-> In c l.
Proof.
  rewrite existsb_exists. split; [intros (x & H1 & H2); apply Z.eqb_eq in H2; subst; exact H1|intros H; exists c; rewrite Z.eqb_refl; auto].
Qed.
Lemma last_component_spec p : file_part p (last_component p).
Proof.
  induction p as [|c p IH]; [split; [intros []|left; reflexivity]|].
  cbn [last_component]. destruct (existsb (Z.eqb slash) (c :: p)) eqn:E.
  - destruct IH as [H1 H2]. split; [exact H1|]. right. destruct H2 as [H2|[d H2]].
    + rewrite <- H2 in H1 |- *. apply existsb_in in E. destruct E as [E|E]; [|contradiction]. exists []. cbn. rewrite E. reflexivity.
    + exists (c :: d). cbn. rewrite <- H2. reflexivity.
  - split; [|left; reflexivity]. intros h. apply existsb_in in h. unfold slash in E. congruence.
Qed.
Lemma file_part_unique p f g : file_part p f -> file_part p g -> f = g.
Proof.
  assert (G : forall d (f g : list Z), ~ In 47 f -> ~ In 47 g -> forall d', d ++ 47 :: f = d' ++ 47 :: g -> f = g).
  { clear. induction d as [|x d IH]; intros f g Hf Hg [|y d'] E; cbn in E.
    - congruence.
    - injection E as E0 E. subst y. exfalso. apply Hf. rewrite E. apply in_or_app. right. left. reflexivity.
    - injection E as E0 E. subst x. exfalso. apply Hg. rewrite <- E. apply in_or_app. right. left. reflexivity.
    - injection E as _ E. exact (IH f g Hf Hg d' E). }
  intros [Hf [Ef|[d Ef]]] [Hg [Eg|[d' Eg]]].
  - congruence.
  - exfalso. apply Hf. rewrite <- Ef, Eg. apply in_or_app. right. left. reflexivity.
  - exfalso. apply Hg. rewrite <- Eg, Ef. apply in_or_app. right. left. reflexivity.
  - rewrite Ef in Eg. exact (G d f g Hf Hg d' Eg).
Qed.
Lemma has_extension_spec p : has_extension p = true <-> with_extension p.
Proof.
  assert (H1 : forall f, starts [dot] f && Nat.eqb (length f) 1 = true <-> f = [46]).
  { intros [|x [|y f]]; cbn [starts length Nat.eqb]; rewrite ?andb_true_r, ?andb_false_r; try (split; discriminate).
    unfold dot. rewrite Z.eqb_eq. split; [intros <-; reflexivity|]. intros E. injection E as ->. reflexivity. }
  assert (H2 : forall f, starts [dot; dot] f && Nat.eqb (length f) 2 = true <-> f = [46; 46]).
  { intros [|x [|y [|z f]]]; cbn [starts length Nat.eqb]; rewrite ?andb_true_r, ?andb_false_r; try (split; discriminate).
    unfold dot. rewrite andb_true_iff, !Z.eqb_eq. split; [intros [<- <-]; reflexivity|]. intros E. injection E as -> ->. auto. }
  unfold has_extension, with_extension. set (f := last_component p). rewrite !andb_true_iff, !negb_true_iff.
  rewrite <- !not_true_iff_false, H1, H2, existsb_in. split.
  - intros [[? ?] ?]. exists f. split; [apply last_component_spec|auto].
  - intros (g & Hg & ? & ? & ?). rewrite (file_part_unique p g f Hg (last_component_spec p)) in *. auto.
Qed.
Lemma is_absolute_spec m : (forall r, m <> 47 :: 47 :: r) -> is_absolute m = true <-> hd 0 m = 47.
Proof.
  intros H. unfold is_absolute, slash. destruct m as [|a [|b [|c r]]]; cbn [hd]; [split; discriminate| apply Z.eqb_eq | apply Z.eqb_eq |].
  rewrite andb_true_iff, Z.eqb_eq. split; [tauto|]. intros ->. split; [reflexivity|].
  destruct (Z.eqb_spec b 47) as [->|E]; [elim (H (c :: r)); reflexivity|reflexivity].
Qed.
Lemma with_extension_below d m : with_extension (d ++ 47 :: m) <-> with_extension m.
Proof.
  split; intros (f & Hf & H); exists f; (split; [|exact H]).
  - assert (G : file_part (d ++ 47 :: m) (last_component m)).
    { destruct (last_component_spec m) as [H1 H2]. split; [exact H1|]. right. destruct H2 as [H2|[e H2]].
      - exists d. rewrite H2 at 1. reflexivity.
      - exists (d ++ 47 :: e). rewrite H2 at 1. rewrite <- app_assoc. reflexivity. }
    rewrite (file_part_unique _ _ _ Hf G). apply last_component_spec.
  - destruct Hf as [H1 H2]. split; [exact H1|]. right. destruct H2 as [->|[e ->]]; [exists d; reflexivity|].
    exists (d ++ 47 :: e). rewrite <- app_assoc. reflexivity.
Qed.
Lemma complete_module_spec m : (forall r, m <> 47 :: 47 :: r) -> completed m (complete_module m).
Proof.
  intros H. unfold complete_module. set (p := if is_absolute m then m else star :: slash :: m). exists p.
  assert (Hp : hd 0 m = 47 /\ p = m \/ hd 0 m <> 47 /\ p = 42 :: 47 :: m).
  { unfold p. destruct (is_absolute m) eqn:E.
    - left. split; [apply is_absolute_spec; assumption|reflexivity].
    - right. split; [|reflexivity]. intros h. apply is_absolute_spec in h; congruence. }
  split; [exact Hp|].
  assert (He : with_extension p <-> with_extension m).
  { destruct Hp as [[_ ->]|[_ ->]]; [tauto|]. apply (with_extension_below [42] m). }
  destruct (has_extension p) eqn:E.
  - left. apply has_extension_spec in E. tauto.
  - right. rewrite <- He, <- has_extension_spec. split; [congruence|reflexivity].
Qed.
Lemma completed_unique m q r : completed m q -> completed m r -> q = r.
Proof. intros (p & Hp & Hq) (p' & Hp' & Hr). assert (p = p') by (destruct Hp as [[? ?]|[? ?]], Hp' as [[? ?]|[? ?]]; congruence). subst p'.
  destruct Hq as [[? ?]|[? ?]], Hr as [[? ?]|[? ?]]; congruence || tauto.
Qed.
Lemma picks_listed es modname name : Forall entry_ok es -> one_line modname ->
  Exists (fun p => Glob p name) (flat_map (picks modname) es) <-> listed es modname name.
Proof.
  intros He Hm. rewrite Exists_exists. split.
  - intros (f & Hf & Hg). apply in_flat_map in Hf. destruct Hf as (e & Hi & Hf). destruct e as [t|t|m b1 g b2]; cbn [picks] in Hf; [destruct Hf|destruct Hf|].
    destruct (regex_match modname [map item_of (complete_module m)]) eqn:E; [|destruct Hf]. destruct Hf as [->|[]].
    apply regex_match_single in E; [|exact Hm]. exists m, b1, f, b2, (complete_module m). split; [exact Hi|]. split; [|split; assumption].
    apply complete_module_spec. rewrite Forall_forall in He. destruct (He _ Hi) as [_ H]. tauto.
  - intros (m & b1 & f & b2 & q & Hi & Hq & Hg & Hf). exists f. split; [|exact Hf]. apply in_flat_map. eexists. split; [exact Hi|].
    cbn [picks]. assert (E : regex_match modname [map item_of (complete_module m)] = true).
    { apply regex_match_single; [exact Hm|]. rewrite <- (completed_unique m q (complete_module m) Hq); [exact Hg|].
      apply complete_module_spec. rewrite Forall_forall in He. destruct (He _ Hi) as [_ H]. tauto. }
    rewrite E. left. reflexivity.
Qed.

(** * The selection *)
Definition file_opt (l : option (list entry)) : option (option (list Z)) := option_map (fun es => Some (file_of es)) l.
Definition in_list (l : option (list entry)) (modname name : list Z) : Prop :=
  match l with Some es => listed es modname name | None => False end.
Definition list_ok (l : option (list entry)) : Prop := match l with Some es => Forall entry_ok es | None => True end.
Definition compiled (modname : list Z) (l : option (list entry)) : list (list item) :=
  match l with
  | Some es => match flat_map (picks modname) es with [] => [[]] | ps => map (map item_of) ps end
  | None => [[]]
  end.
Lemma parse_opt_spec modname l : list_ok l -> parse_function_set_file modname (file_opt l) = Sel (compiled modname l).
Proof. destruct l as [es|]; intros H; [apply parse_file_spec; exact H|reflexivity]. Qed.
Lemma compiled_match modname l name : list_ok l -> one_line modname -> one_line name -> name <> [] ->
  regex_match name (compiled modname l) = true <-> in_list l modname name.
Proof.
  intros Hl Hm Hs Hn. destruct l as [es|]; cbn [compiled in_list].
  - rewrite <- (picks_listed es modname name Hl Hm), <- (regex_match_joined _ name Hs Hn). destruct (flat_map (picks modname) es); reflexivity.
  - cbn. destruct name; [congruence|]. split; [discriminate|tauto].
Qed.
Lemma select_lists modname inc exc names : list_ok inc -> list_ok exc -> one_line modname ->
  select (mk_options [] (file_opt inc) (file_opt exc)) modname names =
  Sel (filter (keep (mk_options [] (file_opt inc) (file_opt exc)) (compiled modname inc) (compiled modname exc)) names).
Proof. intros Hi He Hm. unfold select. cbn [o_include o_exclude o_function]. rewrite !parse_opt_spec by assumption. reflexivity. Qed.
Lemma keep_spec modname inc exc name : list_ok inc -> list_ok exc -> one_line modname -> one_line name -> name <> [] ->
  keep (mk_options [] (file_opt inc) (file_opt exc)) (compiled modname inc) (compiled modname exc) name = true <->
  in_list inc modname name \/ ~ in_list exc modname name /\ (inc = None \/ exc <> None).
Proof.
  intros Hi He Hm Hs Hn. unfold keep. cbn [o_include o_exclude].
  pose proof (compiled_match modname inc name Hi Hm Hs Hn) as H1. pose proof (compiled_match modname exc name He Hm Hs Hn) as H2.
  destruct (regex_match name (compiled modname inc)).
  - split; [intros _; left; apply H1; reflexivity|reflexivity].
  - assert (N1 : ~ in_list inc modname name) by (intros h; apply H1 in h; discriminate).
    destruct (regex_match name (compiled modname exc)).
    + split; [discriminate|]. intros [h|[h _]]; [contradiction|]. elim h. apply H2. reflexivity.
    + assert (N2 : ~ in_list exc modname name) by (intros h; apply H2 in h; discriminate).
      destruct inc as [inc|], exc as [exc|]; cbn; split; try discriminate; try reflexivity; intros; try (right; split; [exact N2|]).
      * right. discriminate.
      * destruct H as [h|[_ [h|h]]]; [contradiction|discriminate|congruence].
      * left. reflexivity.
      * left. reflexivity.
Qed.

(** --function with a name without regex characters *)
Definition plain_name (f : list Z) : Prop := f <> [] /\ Forall (fun c => ordinary c /\ c <> 46 /\ c <> 42) f.
Lemma esc_plain f : Forall (fun c => ordinary c /\ c <> 46 /\ c <> 42) f -> flat_map esc f = f.
Proof.
  induction 1 as [|c f (H1 & H2 & H3) Hf IH]; [reflexivity|]. cbn [flat_map]. rewrite IH. unfold esc.
  rewrite !eqb_false by assumption. reflexivity.
Qed.
Lemma regex_plain f : plain_name f -> regex f = Sel [map item_of f].
Proof.
  intros [_ H]. rewrite <- (esc_plain f H) at 1. apply (regex_joined [f]). constructor; [|constructor].
  eapply Forall_impl; [|exact H]. intros c Hc. exact (proj1 Hc).
Qed.
Lemma glob_plain f s : Forall (fun c => ordinary c /\ c <> 46 /\ c <> 42) f -> Glob f s <-> s = f.
Proof.
  intros H. revert s. induction H as [|c f (H1 & H2 & H3) Hf IH]; intros s.
  - split; intros h; [inversion h; reflexivity|subst; constructor].
  - split; intros h; [inversion h; subst; [f_equal; apply IH; assumption|congruence|congruence]|].
    subst. constructor; [exact H3|]. apply IH. reflexivity.
Qed.
Lemma select_function modname inc exc f names : plain_name f -> list_ok inc -> list_ok exc -> one_line modname ->
  Forall one_line names ->
  select (mk_options f (file_opt inc) (file_opt exc)) modname names = Sel (filter (fun n => if list_eq_dec Z.eq_dec n f then true else false) names).
Proof.
  intros Hf Hi He Hm Hn. unfold select. cbn [o_include o_exclude o_function]. rewrite !parse_opt_spec by assumption. cbn [sbind].
  destruct f as [|c f0] eqn:Ef; [destruct Hf; congruence|]. rewrite <- Ef in *. clear Ef. rewrite (regex_plain f Hf). cbn [sbind].
  change (regex [dot; star]) with (Sel (A:=list (list item)) [map item_of [42]]). cbn [sbind]. f_equal.
  apply filter_ext_in. intros n Hin. rewrite Forall_forall in Hn. specialize (Hn n Hin). unfold keep.
  pose proof (regex_match_single f n Hn) as H1. rewrite (glob_plain f n (proj2 Hf)) in H1.
  destruct (regex_match n [map item_of f]).
  - destruct (list_eq_dec Z.eq_dec n f) as [E|E]; [reflexivity|]. elim E. apply H1. reflexivity.
  - destruct (list_eq_dec Z.eq_dec n f) as [E|E]; [apply H1 in E; discriminate|].
    assert (G : regex_match n [map item_of [42]] = true).
    { apply regex_match_single; [exact Hn|]. clear. induction n as [|x n IH]; constructor; [constructor|exact IH]. }
    rewrite G. reflexivity.
Qed.
