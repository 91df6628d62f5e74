(** C82-C86: the compiler driver. [sh_words] gives the words that the shell makes of a command; [writes w f]: the command with
    the words [w] writes the file [f]. The forms of the commands ([front_words], ...) are in DriverRun. *)
From Coq Require Import String ZArith List Bool Lia.
From Verif Require Import Text DriverModel DriverRun DriverTrace DriverWords.
Import ListNotations.
Open Scope Z_scope.

(** the commands from the source [s] to [out]: front end, instrumentation of the functions, of the operations, back end *)
Definition chain (c : config) (a : args) (opts : list (list Z)) (wr s ir mid ins out : list Z) : list (list (list Z)) :=
  [front_words c a opts s ir] ++ on (a_func a) [func_words c a ir mid] ++ [mca_words c a wr (if a_func a then mid else ir) ins; back_words c a opts wr ins out].

Lemma block_chain : forall c a opts wr out s tm ws, block c a opts wr out s tm ws -> is_assembly s = false -> exists ir mid ins, ws = chain c a opts wr s ir mid ins out.
Proof.
  intros c a opts wr out s tm ws H Ha. unfold block in H. rewrite Ha in H. unfold chain. destruct (a_func a).
  - destruct H as (ir & mid & ins & _ & ->). exists ir, mid, ins. reflexivity.
  - destruct H as (ir & ins & _ & ->). exists ir, [], ins. reflexivity.
Qed.
Lemma not_assembly : forall s stem e, extension s stem e -> lower e <> b_ ".s" -> is_assembly s = false.
Proof.
  intros s stem e He Hn. destruct (is_assembly s) eqn:E; [| reflexivity]. apply is_assembly_iff in E. destruct E as (st & e' & He' & El).
  apply ext_unique in He. apply ext_unique in He'. rewrite He in He'. injection He' as <- <-. congruence.
Qed.
Lemma options_not_o : forall argv a extras, parse argv None no_args [] = Got (a, extras) -> Forall (other (b_ "-o")) (options extras).
Proof. intros argv a extras H. apply Forall_forall. intros w Hw. apply filter_In in Hw. destruct (parse_extras argv a extras w H (proj1 Hw)) as (_ & Hn & _). exact Hn. Qed.
Lemma sources_not_o : forall c a extras o, tidy c a -> (o = None \/ o = a_o a) -> Forall (fun s => s <> b_ "-o" /\ destination o s <> b_ "-o") (sources extras).
Proof.
  intros c a extras o Ht Ho. apply Forall_forall. intros s Hs. apply filter_In in Hs. destruct Hs as [_ Hs]. apply is_source_iff in Hs. split; [apply source_not_o; exact Hs |].
  apply destination_not_o; [exact Hs |]. destruct Ho as [-> | ->]; [discriminate | apply (values c a Ht)].
Qed.
Lemma nodup_app : forall A (l1 l2 : list A), NoDup (l1 ++ l2) -> NoDup l1 /\ NoDup l2 /\ forall x, In x l1 -> ~ In x l2.
Proof.
  intros A l1 l2. induction l1 as [| x l1 IH]; cbn [app]; intro H; [split; [apply NoDup_nil | split; [exact H | intros x []]] |].
  inversion H as [| y l Hn Hd]; subst. destruct (IH Hd) as (H1 & H2 & H3). split; [apply NoDup_cons; [intro Hi; apply Hn; apply in_or_app; left; exact Hi | exact H1] |].
  split; [exact H2 |]. intros y [<- | Hy]; [intro Hi; apply Hn; apply in_or_app; right; exact Hi | apply H3; exact Hy].
Qed.

(** C82: a command line that links. Every source file (other than assembly) given on the command line goes through the front end, the
    instrumentation passes and the back end, in this order and without any other command in between; the object that results is still the one that the
    last writer of this file produced when the link command, which names it, runs. The wrappers used by the pass and those that are linked are compiled by the driver. *)
Theorem C82_sources_instrumented_partial : forall c rnd ok argv a extras cmds tmps,
  parse argv None no_args [] = Got (a, extras) -> clean c rnd a extras -> tidy c a -> to_link a -> NoDup (tmps ++ map object_of (sources extras)) ->
  verificarlo c rnd ok argv = (Got tt, cmds, tmps) ->
  exists cs, map sh_words cmds = map Some cs /\
  forall s stem e, In s extras -> extension s stem e -> In (lower e) source_extensions -> lower e <> b_ ".s" ->
  exists l1 wr ir mid ins l2 link, let obj := stem ++ b_ ".o" in
    cs = l1 ++ chain c a (options extras) wr s ir mid ins obj ++ l2 ++ [link] /\
    (forall w, In w l2 -> ~ writes w obj) /\ In obj link /\
    (a_prism a = None -> (exists l1', l1 = wrapper_words c a true wr :: l1' /\ forall w, In w l1' -> ~ writes w wr) /\
                         (exists l2' wo, l2 = l2' ++ [wrapper_words c a false wo] /\ In wo link)).
Proof.
  intros c rnd ok argv a extras cmds tmps Hp Hc Ht Hl Hd Hrun.
  destruct (main_link c rnd ok argv a extras cmds tmps Hp Hc Hl Hrun) as (wi & wo & tms & wss & Etm & Ft & Fw & HB & HR).
  exists (on (no_prism a) [wrapper_words c a true wi] ++ wss ++ on (no_prism a) [wrapper_words c a false wo] ++
               [link_words c a (options extras) (libraries extras) (map object_of (sources extras)) wo]).
  split; [exact HR |]. clear HR. intros s stem e Hs He Hi Hns.
  pose proof (parse_prism argv a extras Hp) as HG. pose proof (options_not_o argv a extras Hp) as HNO.
  pose proof (sources_not_o c a extras None Ht (or_introl eq_refl)) as HSO.
  assert (Hsrc : In s (sources extras)) by (apply filter_In; split; [exact Hs | apply is_source_iff; exists stem, e; split; assumption]).
  apply in_split in Hsrc. destruct Hsrc as (s1 & s2 & Es). rewrite Es in HB, Hd, HSO.
  destruct (blocks_split c a (options extras) wi None s1 s s2 tms wss HB) as (t1 & tm & t2 & w1 & ws & w2 & -> & -> & B1 & B2 & B3).
  assert (Eo : object_of s = stem ++ b_ ".o") by (apply object_stem with e; exact He). change (destination None s) with (object_of s) in B2. rewrite Eo in B2.
  destruct (block_chain _ _ _ _ _ _ _ _ B2 (not_assembly s stem e He Hns)) as (ir & mid & ins & ->).
  exists (on (no_prism a) [wrapper_words c a true wi] ++ w1), wi, ir, mid, ins, (w2 ++ on (no_prism a) [wrapper_words c a false wo]),
    (link_words c a (options extras) (libraries extras) (map object_of (sources extras)) wo).
  cbv zeta. split; [rewrite <- !app_assoc; reflexivity |].
  assert (Wi : wrapper_ok c a wi) by (unfold wrapper_ok; destruct (no_prism a); apply Fw).
  apply Forall_app in HSO. destruct HSO as [HS1 HS2]. apply Forall_cons_iff in HS2. destruct HS2 as [_ HS2].
  apply Forall_app in Ft. destruct Ft as [Ft1 Ft2]. apply Forall_app in Ft2. destruct Ft2 as [Ft2 Ft3].
  assert (Hin : ~ In (stem ++ b_ ".o") (tmps ++ map object_of (s1 ++ s2))).
  { rewrite map_app in Hd. cbn [map] in Hd. rewrite Eo, app_assoc in Hd. apply NoDup_remove_2 in Hd. rewrite <- app_assoc in Hd. rewrite map_app. exact Hd. }
  assert (Htm : forall x, In x tmps -> ~ In x (map object_of (s1 ++ s2))).
  { apply nodup_app in Hd. destruct Hd as (_ & _ & Hd). intros x Hx Hx'. apply (Hd x Hx). rewrite map_app in *. apply in_app_or in Hx'. apply in_or_app.
    destruct Hx' as [Hx' | Hx']; [left; exact Hx' | right; right; exact Hx']. }
  split; [| split].
  - intros w Hw Hwr. apply Hin. apply in_app_or in Hw. destruct Hw as [Hw | Hw].
    + destruct (blocks_writes c a Ht HG (options extras) HNO wi None s2 t2 w2 Wi B3 Ft3 HS2 w _ Hw Hwr) as [Hf | Hf].
      * apply in_or_app. left. rewrite Etm. apply in_or_app. right. apply in_or_app. left. apply in_or_app. right. apply in_or_app. right. exact Hf.
      * apply in_or_app. right. rewrite map_app. apply in_or_app. right. exact Hf.
    + destruct (no_prism a); [| destruct Hw]. destruct Hw as [<- | []]. apply (wrapper_writes c a Ht) in Hwr; [| apply (temp_hd c a Ht); apply Fw].
      apply in_or_app. left. rewrite Etm, Hwr. apply in_or_app. right. apply in_or_app. right. left. reflexivity.
  - unfold link_words. apply in_or_app. right. apply in_or_app. right. apply in_or_app. left. rewrite Es, map_app. apply in_or_app. right. left. exact Eo.
  - intro Ep. unfold no_prism in *. rewrite Ep in *. cbn [on app] in *. destruct Fw as [Fi Fo]. split.
    + exists w1. split; [reflexivity |]. intros w Hw Hwr.
      destruct (blocks_writes c a Ht HG (options extras) HNO wi None s1 t1 w1 Wi B1 Ft1 HS1 w _ Hw Hwr) as [Hf | Hf].
      * apply nodup_app in Hd. destruct Hd as (Hd & _). rewrite Etm in Hd. inversion Hd as [| ? ? Hn _]; subst. apply Hn. apply in_or_app. left. apply in_or_app. left. exact Hf.
      * apply (Htm wi); [rewrite Etm; left; reflexivity |]. rewrite map_app. apply in_or_app. left. exact Hf.
    + exists w2, wo. split; [reflexivity |]. unfold link_words. rewrite Ep. apply in_or_app. right. apply in_or_app. right. apply in_or_app. right. apply in_or_app. right.
      apply in_or_app. right. apply in_or_app. right. left. reflexivity.
Qed.

(** the same with -c or --emit-llvm: what is left in the object (or in the file named by -o) is the instrumented code *)
Theorem C82_objects_instrumented_partial : forall c rnd ok argv a extras cmds tmps,
  parse argv None no_args [] = Got (a, extras) -> clean c rnd a extras -> tidy c a -> to_object a -> NoDup (tmps ++ map (destination (a_o a)) (sources extras)) ->
  verificarlo c rnd ok argv = (Got tt, cmds, tmps) ->
  exists cs, map sh_words cmds = map Some cs /\
  forall s stem e, In s extras -> extension s stem e -> In (lower e) source_extensions -> lower e <> b_ ".s" ->
  exists l1 wr ir mid ins l2, let out := if given (a_o a) then value (a_o a) else stem ++ b_ ".o" in
    cs = l1 ++ chain c a (options extras) wr s ir mid ins out ++ l2 /\ (forall w, In w l2 -> ~ writes w out) /\
    (a_prism a = None -> exists l1', l1 = wrapper_words c a true wr :: l1' /\ forall w, In w l1' -> ~ writes w wr).
Proof.
  intros c rnd ok argv a extras cmds tmps Hp Hc Ht Hl Hd Hrun.
  destruct (main_object c rnd ok argv a extras cmds tmps Hp Hc Hl Hrun) as (wi & tms & wss & Etm & Ft & Fw & HB & HR).
  exists (on (no_prism a) [wrapper_words c a true wi] ++ wss). split; [exact HR |]. clear HR. intros s stem e Hs He Hi Hns.
  pose proof (parse_prism argv a extras Hp) as HG. pose proof (options_not_o argv a extras Hp) as HNO.
  pose proof (sources_not_o c a extras (a_o a) Ht (or_intror eq_refl)) as HSO.
  assert (Hsrc : In s (sources extras)) by (apply filter_In; split; [exact Hs | apply is_source_iff; exists stem, e; split; assumption]).
  apply in_split in Hsrc. destruct Hsrc as (s1 & s2 & Es). rewrite Es in HB, Hd, HSO.
  destruct (blocks_split c a (options extras) wi (a_o a) s1 s s2 tms wss HB) as (t1 & tm & t2 & w1 & ws & w2 & -> & -> & B1 & B2 & B3).
  assert (Eo : destination (a_o a) s = if given (a_o a) then value (a_o a) else stem ++ b_ ".o") by (unfold destination; rewrite (object_stem s stem e He); reflexivity).
  rewrite Eo in B2. destruct (block_chain _ _ _ _ _ _ _ _ B2 (not_assembly s stem e He Hns)) as (ir & mid & ins & ->).
  exists (on (no_prism a) [wrapper_words c a true wi] ++ w1), wi, ir, mid, ins, w2. cbv zeta. split; [rewrite <- !app_assoc; reflexivity |].
  assert (Wi : wrapper_ok c a wi) by exact Fw.
  apply Forall_app in HSO. destruct HSO as [HS1 HS2]. apply Forall_cons_iff in HS2. destruct HS2 as [_ HS2].
  apply Forall_app in Ft. destruct Ft as [Ft1 Ft2]. apply Forall_app in Ft2. destruct Ft2 as [Ft2 Ft3].
  assert (Hin : ~ In (destination (a_o a) s) (tmps ++ map (destination (a_o a)) (s1 ++ s2))).
  { rewrite map_app in Hd. cbn [map] in Hd. rewrite app_assoc in Hd. apply NoDup_remove_2 in Hd. rewrite <- app_assoc in Hd. rewrite map_app. exact Hd. }
  rewrite Eo in Hin. split.
  - intros w Hw Hwr. apply Hin.
    destruct (blocks_writes c a Ht HG (options extras) HNO wi (a_o a) s2 t2 w2 Wi B3 Ft3 HS2 w _ Hw Hwr) as [Hf | Hf].
    + apply in_or_app. left. rewrite Etm. apply in_or_app. right. apply in_or_app. right. apply in_or_app. right. exact Hf.
    + apply in_or_app. right. rewrite map_app. apply in_or_app. right. exact Hf.
  - intro Ep. unfold no_prism in *. rewrite Ep in *. cbn [on app] in *. exists w1. split; [reflexivity |]. intros w Hw Hwr.
    apply nodup_app in Hd. destruct Hd as (Hd & _ & Hdd).
    destruct (blocks_writes c a Ht HG (options extras) HNO wi (a_o a) s1 t1 w1 Wi B1 Ft1 HS1 w _ Hw Hwr) as [Hf | Hf].
    + rewrite Etm in Hd. inversion Hd as [| ? ? Hn _]; subst. apply Hn. apply in_or_app. left. exact Hf.
    + apply (Hdd wi); [rewrite Etm; left; reflexivity |]. rewrite map_app. apply in_or_app. left. exact Hf.
Qed.

(** * Examples *)
Definition demo : config :=
  mk_config (b_ "/usr/bin/clang") (b_ "/usr/bin/clang++") (b_ "/usr/bin/flang") (b_ "/usr/lib/llvm/bin/opt") (b_ "/usr/bin/llvm-link") (b_ "/usr/local/lib") (b_ "/usr/local/include")
    (b_ "/usr/local/bin") (b_ "/usr/local/include") (b_ "/usr/local/lib") (b_ "-march=native") 14 (b_ "/home/u/p").
Definition names (n : nat) : list Z := b_ "t" ++ repeat 97 n.
Lemma names_ordinary : forall n, forallb ordinary (names n) = true.
Proof. intro n. unfold names. cbn. induction n as [| n IH]; [reflexivity | exact IH]. Qed.
Definition line (l : list string) : list (list Z) := map b_ l.
Definition all_ok (n : nat) (cmd : list Z) : bool := true.
Ltac plains := repeat first [ apply Forall_cons | apply Forall_nil | split; [discriminate | vm_compute; reflexivity] ].
Lemma demo_plain : plain_config demo.
Proof. split; [plains | reflexivity]. Qed.

Definition demo_line : list (list Z) := line ["-O2"; "--inst-fcmp"; "a.c"; "src/b.cpp"; "-DX=$HOME *"; "-lm"; "-o"; "prog"]%string.
Example C82_nonvacuous : exists a extras cmds tmps, parse demo_line None no_args [] = Got (a, extras) /\ clean demo names a extras /\ tidy demo a /\ to_link a /\
  NoDup (tmps ++ map object_of (sources extras)) /\ verificarlo demo names all_ok demo_line = (Got tt, cmds, tmps) /\ length cmds = 9%nat /\
  extension (b_ "src/b.cpp") (b_ "src/b") (b_ ".cpp") /\ In (b_ "src/b.cpp") extras.
Proof.
  do 4 eexists. split; [vm_compute; reflexivity |].
  split; [split; [exact demo_plain | split; [discriminate | reflexivity] | exact names_ordinary | vm_compute | vm_compute | vm_compute |] |].
  - repeat first [apply Forall_cons | apply Forall_nil | split; [discriminate | reflexivity]].
  - repeat first [apply Forall_cons | apply Forall_nil]; intro H; repeat (destruct H as [H | H]; [discriminate |]); destruct H.
  - repeat first [apply Forall_cons | apply Forall_nil | split; [discriminate | reflexivity]].
  - split; [intro; split; [discriminate | vm_compute; reflexivity] |]. repeat split; discriminate.
  - split; [split; [repeat apply Forall_cons; try apply Forall_nil; reflexivity | reflexivity | right; eexists; reflexivity | repeat apply Forall_cons; try apply Forall_nil; intros; try discriminate] |].
    split; [repeat split |]. split; [| split; [vm_compute; reflexivity |]].
    + vm_compute. repeat (apply NoDup_cons; [intro H; repeat (destruct H as [H | H]; [discriminate |]); destruct H |]). apply NoDup_nil.
    + split; [reflexivity |]. split; [apply splitext_iff; [discriminate | vm_compute; reflexivity] | vm_compute; tauto].
Qed.

(** a C++ source whose name ends in .c++ (an extension that the driver lists) is not instrumented: the only command that reads it is the link *)
Theorem C82_cxx_extension_refuted : exists cmds tmps cs link, verificarlo demo names all_ok (line ["q.c++"; "-o"; "p"]%string) = (Got tt, cmds, tmps) /\
  map sh_words cmds = map Some (cs ++ [link]) /\ In (b_ "q.c++") link /\ forall w, In w cs -> ~ In (b_ "q.c++") w.
Proof.
  do 2 eexists. eexists [_; _], _. split; [vm_compute; reflexivity |]. split; [vm_compute; reflexivity |]. split; [vm_compute; tauto |].
  intros w [<- | [<- | []]] H; vm_compute in H; repeat (destruct H as [H | H]; [discriminate |]); destruct H.
Qed.
(** two sources that differ by their extension share an object: the first one is overwritten *)
Theorem C82_same_object_refuted : exists a extras cmds tmps l1 wr ir mid ins l2, parse (line ["a.c"; "a.cpp"]%string) None no_args [] = Got (a, extras) /\
  verificarlo demo names all_ok (line ["a.c"; "a.cpp"]%string) = (Got tt, cmds, tmps) /\
  map sh_words cmds = map Some (l1 ++ chain demo a (options extras) wr (b_ "a.c") ir mid ins (b_ "a.o") ++ l2) /\ exists w, In w l2 /\ In (b_ "a.o") w /\ writes w (b_ "a.o").
Proof.
  do 4 eexists. eexists [_], (b_ "/home/u/p/.vfcwrapper.t.bc"), (b_ "/home/u/p/a.ta.1.bc"), [], (b_ "/home/u/p/a.taa.2.bc"), [_; _; _; _; _].
  split; [vm_compute; reflexivity |]. split; [vm_compute; reflexivity |]. split; [vm_compute; reflexivity |].
  eexists. split; [right; right; left; reflexivity |]. split; [right; right; right; left; reflexivity |]. eexists [_; _], [_; _]. reflexivity.
Qed.
(** with -S nothing is instrumented: the assembly code that results is the one of the original program *)
Theorem C82_assembly_refuted : exists cmd tmps w, verificarlo demo names all_ok (line ["-S"; "a.c"]%string) = (Got tt, [cmd], tmps) /\ sh_words cmd = Some w /\
  w = [b_ "/usr/bin/clang"; b_ "a.c"; b_ "-Wno-unused-command-line-argument"; b_ "-S"].
Proof. do 3 eexists. split; [vm_compute; reflexivity |]. split; [vm_compute; reflexivity | reflexivity]. Qed.

(** C83: no argument of the command line is lost. An argument that argparse does not know is passed on, whatever its place; one that does not look like an option is
    passed on unless it is the value of one of the driver's options. *)
Lemma step_kept : forall x db a ex db' a' ex', step x db a ex db' a' ex' -> forall w, In w x -> (classify w = Plain \/ classify w = Unknown) ->
  In w ex' \/ (exists y v, x = [y; w] /\ classify y = Option (KValue v) None) \/ In w debug_choices.
Proof.
  intros x db a ex db' a' ex' H w Hw Hc. destruct H; cbn [In] in Hw.
  - destruct Hw as [<- | []]. right. right. apply oneof_iff. assumption.
  - left. destruct Hw as [<- | []]. apply in_or_app. right. left. reflexivity.
  - left. destruct Hw as [<- | []]. apply in_or_app. right. left. reflexivity.
  - destruct Hw as [<- | []]. destruct Hc; congruence.
  - destruct Hw as [<- | []]. destruct Hc; congruence.
  - destruct Hw as [<- | [<- | []]]; [destruct Hc; congruence |]. right. left. exists x, v. split; [reflexivity | assumption].
  - destruct Hw as [<- | []]. destruct Hc; congruence.
  - destruct Hw as [<- | []]. destruct Hc; congruence.
Qed.
Lemma step_extras : forall x db a ex db' a' ex', step x db a ex db' a' ex' -> exists r, ex' = ex ++ r.
Proof. intros x db a ex db' a' ex' H. destruct H; first [exists []; rewrite app_nil_r; reflexivity | eexists; reflexivity]. Qed.
Lemma psteps_grow : forall l db a ex a' ex', psteps l db a ex a' ex' -> exists r, ex' = ex ++ r.
Proof.
  intros l db a ex a' ex' H. induction H as [db a ex | x l db a ex db' a' ex' ra rex Hs Hp [r ->]]; [exists []; rewrite app_nil_r; reflexivity |].
  apply step_extras in Hs. destruct Hs as [r' ->]. exists (r' ++ r). rewrite app_assoc. reflexivity.
Qed.
Lemma psteps_kept : forall l db a ex a' ex', psteps l db a ex a' ex' -> forall w, In w l -> (classify w = Plain \/ classify w = Unknown) ->
  In w ex' \/ (exists l1 y l2 v, l = l1 ++ y :: w :: l2 /\ classify y = Option (KValue v) None) \/ In w debug_choices.
Proof.
  intros l db a ex a' ex' H. induction H as [db a ex | x l db a ex db' a' ex' ra rex Hs Hp IH]; intros w Hw Hc; [destruct Hw |].
  apply in_app_or in Hw. destruct Hw as [Hw | Hw].
  - destruct (step_kept _ _ _ _ _ _ _ Hs w Hw Hc) as [Hi | [(y & v & -> & Hy) | Hi]].
    + left. apply psteps_grow in Hp. destruct Hp as [r ->]. apply in_or_app. left. exact Hi.
    + right. left. exists [], y, l, v. split; [reflexivity | exact Hy].
    + right. right. exact Hi.
  - destruct (IH w Hw Hc) as [Hi | [(l1 & y & l2 & v & -> & Hy) | Hi]]; [left; exact Hi | | right; right; exact Hi].
    right. left. exists (x ++ l1), y, l2, v. split; [rewrite <- app_assoc; reflexivity | exact Hy].
Qed.
Theorem C83_no_argument_lost : forall argv a extras w, parse argv None no_args [] = Got (a, extras) -> In w argv ->
  (classify w = Unknown -> In w extras) /\
  (hd 0 w <> 45 -> ~ In w (line ["getoperands"; "abi"; "targetfeatures"; ""]%string) ->
     In w extras \/ exists l1 y l2, argv = l1 ++ y :: w :: l2 /\
       In y (line ["-o"; "--function"; "--include-file"; "--exclude-file"; "--linker"; "--prism-backend"; "--prism-backend-dispatch"]%string)).
Proof.
  intros argv a extras w H Hw. apply (parse_psteps (length argv)) in H; [| lia].
  assert (V : forall y v, classify y = Option (KValue v) None -> In y (line ["-o"; "--function"; "--include-file"; "--exclude-file"; "--linker"; "--prism-backend"; "--prism-backend-dispatch"]%string)).
  { intros y v Hy. apply classify_lookup, lookup_in in Hy. destruct Hy as (n & Hi & ->). unfold option_table in Hi. cbn [In] in Hi.
    repeat (destruct Hi as [Hi | Hi]; [first [discriminate Hi | injection Hi as <- <-; cbn [line map In]; tauto] |]). destruct Hi. }
  split.
  - intro Hc. destruct (psteps_kept _ _ _ _ _ _ H w Hw (or_intror Hc)) as [Hi | [(l1 & y & l2 & v & E & Hy) | Hi]]; [exact Hi | |].
    + (* the value of an option is never unknown *) exfalso.
      clear - H Hc E Hy. revert l1 E. induction H as [db a ex | x l db a ex db' a' ex' ra rex Hs Hp IH]; intros l1 E; [destruct l1; discriminate |].
      destruct Hs; cbn [app] in E.
      all: try (destruct l1 as [| z l1]; cbn [app] in E; injection E as -> E'; [congruence | apply (IH l1); exact E']).
      destruct l1 as [| z [| z' l1]]; cbn [app] in E; injection E as -> E'; subst; try congruence.
    + exfalso. unfold debug_choices in Hi. cbn [map In] in Hi. destruct Hi as [<- | [<- | [<- | [<- | []]]]]; vm_compute in Hc; discriminate.
  - intros Hd Hn. assert (Hc : classify w = Plain).
    { destruct w as [| z w]; [reflexivity |]. cbn [hd] in Hd. unfold classify. destruct z as [| q | q]; try reflexivity. repeat (destruct q as [q | q |]; try reflexivity). congruence. }
    destruct (psteps_kept _ _ _ _ _ _ H w Hw (or_introl Hc)) as [Hi | [(l1 & y & l2 & v & E & Hy) | Hi]]; [left; exact Hi | | exfalso; exact (Hn Hi)].
    right. exists l1, y, l2. split; [exact E | exact (V y v Hy)].
Qed.

Example C83_no_argument_lost_nonvacuous : exists a extras, parse demo_line None no_args [] = Got (a, extras) /\ In (b_ "-DX=$HOME *") extras /\ In (b_ "a.c") extras /\
  classify (b_ "-O2") = Unknown /\ ~ In (b_ "prog") extras.
Proof.
  do 2 eexists. split; [vm_compute; reflexivity |]. split; [vm_compute; tauto |]. split; [vm_compute; tauto |]. split; [reflexivity |].
  intro H. vm_compute in H. repeat (destruct H as [H | H]; [discriminate |]). destruct H.
Qed.

(** the options reach the front end and the linker, the libraries reach the linker, each of them unchanged (blanks and shell characters included) and in the order of the command line *)
Theorem C83_options_unchanged_partial : forall c rnd ok argv a extras cmds tmps,
  parse argv None no_args [] = Got (a, extras) -> clean c rnd a extras -> to_link a -> verificarlo c rnd ok argv = (Got tt, cmds, tmps) ->
  exists cs link, map sh_words cmds = map Some (cs ++ [link]) /\
  (forall s stem e, In s extras -> extension s stem e -> In (lower e) source_extensions ->
     exists w l r, In w cs /\ In s w /\ hd [] w = linker_path c (a_linker a) /\ w = l ++ filter is_option extras ++ r) /\
  (exists l m r, link = l ++ filter is_option extras ++ m ++ filter is_lib extras ++ r) /\ hd [] link = linker_path c (a_linker a).
Proof.
  intros c rnd ok argv a extras cmds tmps Hp Hc Hl Hrun.
  destruct (main_link c rnd ok argv a extras cmds tmps Hp Hc Hl Hrun) as (wi & wo & tms & wss & Etm & Ft & Fw & HB & HR).
  exists (on (no_prism a) [wrapper_words c a true wi] ++ wss ++ on (no_prism a) [wrapper_words c a false wo]),
    (link_words c a (options extras) (libraries extras) (map object_of (sources extras)) wo).
  split; [unfold read in HR; rewrite HR; rewrite <- !app_assoc; reflexivity |]. split; [| split; [| reflexivity]].
  - intros s stem e Hs He Hi.
    assert (Hsrc : In s (sources extras)) by (apply filter_In; split; [exact Hs | apply is_source_iff; exists stem, e; split; assumption]).
    apply in_split in Hsrc. destruct Hsrc as (s1 & s2 & Es). rewrite Es in HB.
    destruct (blocks_split c a (options extras) wi None s1 s s2 tms wss HB) as (t1 & tm & t2 & w1 & ws & w2 & -> & -> & _ & B2 & _).
    assert (Hw : exists w l r, In w ws /\ In s w /\ hd [] w = linker_path c (a_linker a) /\ w = l ++ options extras ++ r).
    { unfold block in B2. destruct (is_assembly s).
      - destruct B2 as [_ ->]. eexists. exists [linker_path c (a_linker a); s; b_ "-c"]. eexists. split; [left; reflexivity |]. split; [right; left; reflexivity |]. split; [reflexivity |].
        unfold assembly_words, all_options. rewrite <- !app_assoc. reflexivity.
      - assert (Hf : exists ir, In (front_words c a (options extras) s ir) ws).
        { destruct (a_func a); [destruct B2 as (ir & mid & ins & _ & ->) | destruct B2 as (ir & ins & _ & ->)]; exists ir; left; reflexivity. }
        destruct Hf as [ir Hf]. eexists. exists ([linker_path c (a_linker a); b_ "-c"] ++ on (a_temps a) [b_ "-S"] ++ [b_ "-emit-llvm"] ++ on (a_func a || a_ddebug a) [b_ "-g"] ++ [s; b_ "-I"; includes c]).
        eexists. split; [exact Hf |]. split; [| split; [reflexivity |]].
        + unfold front_words. apply in_or_app. right. apply in_or_app. right. apply in_or_app. right. apply in_or_app. right. left. reflexivity.
        + unfold front_words, all_options. rewrite <- !app_assoc. reflexivity. }
    destruct Hw as (w & l & r & Hw & Hx). exists w, l, r. split; [| exact Hx]. apply in_or_app. right. apply in_or_app. left. apply in_or_app. right. apply in_or_app. left. exact Hw.
  - unfold link_words, all_options. eexists ([linker_path c (a_linker a)] ++ on (given (a_o a)) [b_ "-o"; value (a_o a)] ++ map object_of (sources extras)),
      (match a_linker a with Flang => [] | _ => [b_ "-Wno-unused-command-line-argument"] end ++ on (a_ddebug a || a_func a) [b_ "-no-pie"]), _.
    rewrite <- !app_assoc. reflexivity.
Qed.
(** an option that contains a single quote does not reach the compilers: here the preprocessor gets -DC=x and not -DC='x' *)
Theorem C83_quote_refuted : exists cmds tmps ws, verificarlo demo names all_ok (line ["-DC='x'"; "a.c"]%string) = (Got tt, cmds, tmps) /\
  map sh_words cmds = map Some ws /\ forall w, In w ws -> ~ In (b_ "-DC='x'") w.
Proof.
  do 2 eexists. eexists [_; _; _; _; _; _]. split; [vm_compute; reflexivity |]. split; [vm_compute; reflexivity |].
  intros w Hw H. repeat (destruct Hw as [<- | Hw]; [vm_compute in H; repeat (destruct H as [H | H]; [discriminate |]); destruct H |]). destruct Hw.
Qed.
(** a source name with a blank is cut in two *)
Theorem C83_blank_in_name_refuted : exists cmds tmps ws, verificarlo demo names all_ok (line ["my prog.c"]%string) = (Got tt, cmds, tmps) /\
  map sh_words cmds = map Some ws /\ (forall w, In w ws -> ~ In (b_ "my prog.c") w) /\ exists w l r, In w ws /\ w = l ++ b_ "my" :: b_ "prog.c" :: r.
Proof.
  do 2 eexists. eexists [_; _; _; _; _; _]. split; [vm_compute; reflexivity |]. split; [vm_compute; reflexivity |]. split.
  - intros w Hw H. repeat (destruct Hw as [<- | Hw]; [vm_compute in H; repeat (destruct H as [H | H]; [discriminate |]); destruct H |]). destruct Hw.
  - eexists. eexists [_; _; _], _. split; [right; left; reflexivity |]. reflexivity.
Qed.
(** "-l m" in two arguments: -l takes the wrappers for the name of the library *)
Theorem C83_separate_library_refuted : exists cmds tmps ws link wo, verificarlo demo names all_ok (line ["a.c"; "-l"; "m"]%string) = (Got tt, cmds, tmps) /\
  map sh_words cmds = map Some (ws ++ [link]) /\ In wo tmps /\ exists l r, link = l ++ b_ "-l" :: wo :: r.
Proof.
  do 2 eexists. eexists [_; _; _; _; _], _, (b_ "/home/u/p/.vfcwrapper.taaa.o"). split; [vm_compute; reflexivity |]. split; [vm_compute; reflexivity |]. split; [vm_compute; tauto |].
  eexists [_; _; _; _], _. reflexivity.
Qed.

(** C85: when a command fails, the driver stops there with status 1: it has run the same commands as when everything succeeds, up to and including the one that fails, so
    nothing is linked after a failed compilation. When none fails, the result does not depend on anything else. *)
Theorem C85_failure_stops : forall c rnd argv, exists r full tmps, verificarlo c rnd (fun _ _ => true) argv = (r, full, tmps) /\
  forall ok, ((forall i x, nth_error full i = Some x -> ok i x = true) -> verificarlo c rnd ok argv = (r, full, tmps)) /\
    (forall k x, nth_error full k = Some x -> ok k x = false -> (forall i y, (i < k)%nat -> nth_error full i = Some y -> ok i y = true) ->
       exists t, verificarlo c rnd ok argv = (Stop 1, firstn (S k) full, t)).
Proof. exact driver_failure. Qed.
(** hence status 0 means that every command has succeeded *)
Theorem C85_success_means_all : forall c rnd ok argv cmds tmps, verificarlo c rnd ok argv = (Got tt, cmds, tmps) -> forall k cmd, nth_error cmds k = Some cmd -> ok k cmd = true.
Proof.
  intros c rnd ok argv cmds tmps H. destruct (driver_failure c rnd argv) as (r & full & t & Hf & Ha). destruct (Ha ok) as [H1 H2].
  assert (Hall : forall n i x, (i < n)%nat -> nth_error full i = Some x -> ok i x = true).
  { induction n as [| n IH]; intros i x Hi Hx; [lia |]. destruct (Nat.lt_ge_cases i n) as [Hn | Hn]; [exact (IH i x Hn Hx) |]. assert (i = n) as -> by lia.
    destruct (ok n x) eqn:E; [reflexivity |]. destruct (H2 n x Hx E (fun j y Hj Hy => IH j y Hj Hy)) as [t' Ht]. rewrite Ht in H. discriminate. }
  assert (E : verificarlo c rnd ok argv = (r, full, t)) by (apply H1; intros i x Hx; exact (Hall (S i) i x (Nat.lt_succ_diag_r i) Hx)).
  rewrite H in E. injection E as _ <- _. intros k cmd Hk. exact (Hall (S k) k cmd (Nat.lt_succ_diag_r k) Hk).
Qed.
Example C85_nonvacuous : exists full t t', verificarlo demo names (fun _ _ => true) demo_line = (Got tt, full, t) /\ length full = 9%nat /\
  verificarlo demo names (fun n _ => negb (Nat.eqb n 2)) demo_line = (Stop 1, firstn 3 full, t').
Proof. do 3 eexists. split; [vm_compute; reflexivity |]. split; [reflexivity |]. vm_compute. reflexivity. Qed.

(** C86: contradictory command lines are refused with status 1, and no command is run *)
Lemma length_sources : forall extras s1 s2, In s1 extras -> In s2 extras -> s1 <> s2 -> source s1 -> source s2 -> 1 <? Z.of_nat (length (sources extras)) = true.
Proof.
  intros extras s1 s2 H1 H2 Hn S1 S2. apply Z.ltb_lt.
  assert (I1 : In s1 (sources extras)) by (apply filter_In; split; [exact H1 | apply is_source_iff; exact S1]).
  assert (I2 : In s2 (sources extras)) by (apply filter_In; split; [exact H2 | apply is_source_iff; exact S2]).
  destruct (sources extras) as [| x [| y l]]; cbn [In length] in *; [tauto | destruct I1 as [<- | []], I2 as [<- | []]; congruence | lia].
Qed.
Lemma sort_extras_or_stop : forall fl l, (exists s o b, sort_extras fl l = Got (s, o, b)) \/ sort_extras fl l = Stop 1.
Proof.
  intros fl l. induction l as [| x l IH]; [left; do 3 eexists; reflexivity |]. cbn [sort_extras]. destruct IH as [(s & o & b & ->) | ->]; [| right; reflexivity].
  destruct (is_fortran x); [destruct fl; [right; reflexivity | left; do 3 eexists; reflexivity] |].
  destruct (is_c x || is_cpp x || is_assembly x || is_llvm_bitcode x); [left; do 3 eexists; reflexivity |]. destruct (is_library x); left; do 3 eexists; reflexivity.
Qed.
Theorem C86_conflicts_refused : forall c rnd ok argv a extras, parse argv None no_args [] = Got (a, extras) ->
  ((exists w, In w argv /\ In w (line ["-c"; "-S"; "-E"]%string)) /\ given (a_o a) = true /\ (exists s1 s2, In s1 extras /\ In s2 extras /\ s1 <> s2 /\ source s1 /\ source s2) \/
   given (a_function a) = true /\ (given (a_include a) = true \/ given (a_exclude a) = true)) ->
  verificarlo c rnd ok argv = (Stop 1, [], []).
Proof.
  intros c rnd ok argv a extras Hp H. unfold verificarlo, main. rewrite Hp. destruct (sort_extras_or_stop (c_flang c) extras) as [(s & o & b & E) | ->]; [| reflexivity]. rewrite E.
  apply sort_extras_spec in E. destruct E as (-> & _ & _). fold (sources extras). destruct H as [((w & Hw & Hk) & Ho & s1 & s2 & H1 & H2 & Hn & S1 & S2) | [Hf Hi]].
  - assert (Hm : a_E a || a_S a || a_c a = true).
    { cbn [line map In] in Hk. rewrite !orb_true_iff. destruct Hk as [<- | [<- | [<- | []]]].
      - right. apply (parse_has argv a extras FC Hp). exists (b_ "-c"). split; [left; reflexivity | exact Hw].
      - left. right. apply (parse_has argv a extras FS Hp). exists (b_ "-S"). split; [left; reflexivity | exact Hw].
      - left. left. apply (parse_has argv a extras FE Hp). exists (b_ "-E"). split; [left; reflexivity | exact Hw]. }
    rewrite Hm, (length_sources extras s1 s2 H1 H2 Hn S1 S2), Ho. reflexivity.
  - destruct ((a_E a || a_S a || a_c a) && (1 <? Z.of_nat (length (sources extras))) && given (a_o a)); [reflexivity |].
    assert (Hx : given (a_include a) || given (a_exclude a) = true) by (apply orb_true_iff; exact Hi). rewrite Hf, Hx. reflexivity.
Qed.
Example C86_nonvacuous : exists a extras, parse (line ["-c"; "a.c"; "b.c"; "-o"; "x.o"]%string) None no_args [] = Got (a, extras) /\ given (a_o a) = true /\
  In (b_ "a.c") extras /\ In (b_ "b.c") extras.
Proof. do 2 eexists. split; [vm_compute; reflexivity |]. split; [reflexivity |]. vm_compute. tauto. Qed.
Example C86_function_nonvacuous : exists a extras, parse (line ["--function"; "f"; "a.c"; "--include-file=l.txt"]%string) None no_args [] = Got (a, extras) /\ given (a_function a) = true /\ given (a_include a) = true.
Proof. do 2 eexists. split; [vm_compute; reflexivity |]. split; reflexivity. Qed.
(** with --emit-llvm several outputs go to the file named by -o, one after the other, and the driver reports success *)
Theorem C86_emit_llvm_refuted : exists cmds tmps ws, verificarlo demo names all_ok (line ["--emit-llvm"; "a.c"; "b.c"; "-o"; "x.ll"]%string) = (Got tt, cmds, tmps) /\
  map sh_words cmds = map Some ws /\ exists l1 w1 l2 w2, ws = l1 ++ [w1] ++ l2 ++ [w2] /\ writes w1 (b_ "x.ll") /\ writes w2 (b_ "x.ll").
Proof.
  do 2 eexists. eexists [_; _; _; _; _; _; _]. split; [vm_compute; reflexivity |]. split; [vm_compute; reflexivity |].
  eexists [_; _; _], _, [_; _], _. split; [reflexivity |]. split; eexists [_; _; _], []; reflexivity.
Qed.
(** without any argument, the message "no input files" is not reached: the driver compiles the wrappers and runs the linker *)
Theorem C86_no_input_refuted : exists cmds tmps, verificarlo demo names all_ok [] = (Got tt, cmds, tmps) /\ length cmds = 3%nat.
Proof. do 2 eexists. split; [vm_compute; reflexivity |]. reflexivity. Qed.
(** C84: the options of the driver. The macros of the wrappers and the options of the pass agree with the command line, and with each other. *)
Definition in_wrappers : list (string * string) := [("--inst-fcmp", "-DINST_FCMP"); ("--inst-fma", "-DINST_FMA"); ("--inst-cast", "-DINST_CAST"); ("--inst-func", "-DINST_FUNC"); ("--ddebug", "-DDDEBUG")]%string.
Definition in_pass : list (string * string) :=
  [("--inst-fcmp", "-vfclibinst-inst-fcmp"); ("--inst-fma", "-vfclibinst-inst-fma"); ("--inst-cast", "-vfclibinst-inst-cast"); ("--verbose", "-vfclibinst-verbose")]%string.

Section flags.
  Context (c : config) (a : args) (T : tidy c a) (G : good_prism a).
  Ltac go := others ltac:(first
    [ apply other_path; [reflexivity | first [assumption | apply (hd_includes c a T) | apply (hd_wrapper c a T) | apply hd_app; [assumption | lia]]]
    | apply other_value; [reflexivity | assumption] | assumption ]).
  Ltac there := unfold on; rewrite ?in_app_iff; cbn [In]; tauto.
  Lemma march_other : forall t, (forall r, t <> b_ "-m" ++ r) -> Forall (other t) (match c_march c with [] => [] | m => [m] end).
  Proof.
    intros t H. destruct (c_march c) as [| z m] eqn:E; [apply Forall_nil |]. apply Forall_cons; [| apply Forall_nil]. destruct (td_march c a T) as [Hm | [r Hm]]; [congruence |].
    rewrite <- E, Hm. intro H'. exact (H r (eq_sym H')).
  Qed.
  Lemma pass_other : forall t (pass : string) lib, dashed t -> hd 0 lib = 47 -> b_ "-load-pass-plugin" <> t -> b_ "-enable-new-pm=0" <> t -> b_ "-load" <> t -> b_ "-passes=" ++ b_ pass <> t ->
    b_ "-" ++ b_ pass <> t -> Forall (other t) (pass_words c (b_ pass) lib).
  Proof. intros t pass lib Hd Hl H1 H2 H3 H4 H5. assert (HL : other t lib) by (apply other_path; assumption). unfold pass_words. destruct (17 <=? c_version c); [| destruct (13 <=? c_version c)]; cbn [on app]; repeat apply Forall_cons; try apply Forall_nil; assumption. Qed.
  Lemma wrapper_macros : forall e out, hd 0 out = 47 -> forall f (m : string), In (f, m) [(FFcmp, "-DINST_FCMP"); (FFma, "-DINST_FMA"); (FCast, "-DINST_CAST"); (FFunc, "-DINST_FUNC"); (FDdebug, "-DDDEBUG")]%string ->
    (In (b_ m) (wrapper_words c a e out) <-> has f a = true).
  Proof.
    intros e out Ho f m Hi. destruct (paths c a T) as (K1 & K2 & K3 & K4 & K5 & K6 & K7 & K8 & K9 & K10).
    cbn [In] in Hi. repeat (destruct Hi as [Hi | Hi]; [injection Hi as <- <-; cbn [has] |]); [| | | | | destruct Hi].
    all: match goal with |- In (b_ ?t) _ <-> ?b = true => assert (M := march_other (b_ t) ltac:(intro; lits));
      destruct b eqn:E; split; intro H; try reflexivity; try discriminate; unfold wrapper_words in *; rewrite E in *; [there |
        exfalso; revert H; apply not_in_other; destruct (a_static a); cbn [on]; go] end.
  Qed.
  Lemma pass_flags : forall wr input out, hd 0 wr = 47 -> a_prism a = None -> hd 0 input = 47 -> hd 0 out = 47 ->
    forall f (m : string), In (f, m) [(FFcmp, "-vfclibinst-inst-fcmp"); (FFma, "-vfclibinst-inst-fma"); (FCast, "-vfclibinst-inst-cast"); (FVerbose, "-vfclibinst-verbose")]%string ->
    (In (b_ m) (mca_words c a wr input out) <-> has f a = true).
  Proof.
    intros wr input out Hw Ep Hin Ho f m Hi. destruct (paths c a T) as (K1 & K2 & K3 & K4 & K5 & K6 & K7 & K8 & K9 & K10).
    cbn [In] in Hi. repeat (destruct Hi as [Hi | Hi]; [injection Hi as <- <-; cbn [has] |]); [| | | | destruct Hi].
    all: match goal with |- In (b_ ?t) _ <-> ?b = true =>
      assert (S : Forall (other (b_ t)) (select_words a)) by (apply (select_other c a T); [reflexivity | lits | lits | lits]);
      assert (P : Forall (other (b_ t)) (pass_words c (b_ "vfclibinst") (c_libdir c ++ b_ "/libvfcinstrument.so"))) by (apply pass_other; [reflexivity | apply hd_app; [assumption | lia] | lits | lits | lits | lits | lits]);
      destruct b eqn:E; split; intro H; try reflexivity; try discriminate; unfold mca_words in *; rewrite Ep, E in *; [there |
        exfalso; revert H; apply not_in_other; cbn [on]; go] end.
  Qed.
  (** the function that --function selects, the files of --include-file and --exclude-file *)
  Lemma pass_selection : forall wr input out, a_prism a = None -> exists l, mca_words c a wr input out = l ++ [b_ "-vfclibinst-vfcwrapper-file"; wr] ++ select_words a ++ [input; b_ "-o"; out].
  Proof. intros wr input out Ep. unfold mca_words. rewrite Ep. eexists. rewrite !app_assoc. reflexivity. Qed.
End flags.

(** the last occurrence of an option that takes a value wins *)
Definition value_of (v : valued) (a : args) : option (list Z) := match v with VO => a_o a | VFunction => a_function a | VInclude => a_include a | VExclude => a_exclude a | _ => None end.
Definition called (v : valued) : list Z := b_ (match v with VO => "-o" | VFunction => "--function" | VInclude => "--include-file" | VExclude => "--exclude-file" | VLinker => "--linker" | VPrism => "--prism-backend" | VDispatch => "--prism-backend-dispatch" end)%string.
(** the argument names the option, alone or with its value *)
Definition mentions (v : valued) (x : list Z) : Prop := x = called v \/ exists y, x = called v ++ b_ "=" ++ y.
(** the last argument that names the option gives it this value *)
Definition last_of (v : valued) (y : list Z) (argv : list (list Z)) : Prop :=
  exists l1 l2, Forall (fun x => ~ mentions v x) l2 /\ (argv = l1 ++ [called v; y] ++ l2 \/ argv = l1 ++ [called v ++ b_ "=" ++ y] ++ l2).
(** the part of the result that the option decides *)
Definition field (v : valued) (a : args) : option (list Z) * linker * bool :=
  match v with VLinker => (None, a_linker a, false) | VPrism => (a_prism a, Clang, false) | VDispatch => (None, Clang, a_dynamic a) | _ => (value_of v a, Clang, false) end.
Lemma valued_eq : forall v w : valued, {v = w} + {v <> w}.
Proof. decide equality. Defined.
Lemma field_set : forall v w y a a', set_value w y a = Got a' -> field v a' = field v a \/ v = w.
Proof.
  intros v w y [] a' H. destruct w; cbn [set_value] in H; repeat (match type of H with (if ?b then _ else _) = _ => destruct b end); try discriminate; injection H as <-;
    destruct v; first [right; reflexivity | left; reflexivity].
Qed.
Lemma field_close : forall v db a, field v (close db a) = field v a.
Proof. intros v [d |] []; destruct v; reflexivity. Qed.
Lemma field_flag : forall v f a, field v (set_flag f a) = field v a.
Proof. intros v f []. destruct v; reflexivity. Qed.
Lemma field_debug : forall v d a, field v (set_debug d a) = field v a.
Proof. intros v d []. destruct v; reflexivity. Qed.
Lemma called_iff : forall x v, classify x = Option (KValue v) None -> x = called v.
Proof.
  intros x v H. apply classify_lookup, lookup_in in H. destruct H as (n & Hi & ->). unfold option_table in Hi. cbn [In] in Hi.
  repeat (destruct Hi as [Hi | Hi]; [first [discriminate Hi | injection Hi as <- <-; reflexivity] |]). destruct Hi.
Qed.
Lemma classify_called : forall v, classify (called v) = Option (KValue v) None.
Proof. intros []; vm_compute; reflexivity. Qed.
Lemma cut_equal_spec : forall x n v, cut_equal x = Some (n, v) -> x = n ++ b_ "=" ++ v.
Proof.
  induction x as [| z x IH]; intros n v H; cbn [cut_equal] in H; [discriminate |].
  destruct (z =? 61) eqn:E.
  - injection H as <- <-. apply Z.eqb_eq in E. subst z. reflexivity.
  - destruct (cut_equal x) as [[n' v'] |]; [| discriminate]. injection H as <- <-. rewrite (IH n' v' eq_refl). reflexivity.
Qed.
Lemma classify_equal : forall x v y, classify x = Option (KValue v) (Some y) -> x = called v ++ b_ "=" ++ y.
Proof.
  intros x v y H. destruct x as [| z x]; [discriminate |]. destruct (Z.eq_dec z 45) as [-> | Hz].
  - unfold classify in H. destruct (lookup (45 :: x)) as [k |]; [discriminate |]. destruct x as [| z x]; [discriminate |].
    destruct (cut_equal (45 :: z :: x)) as [[n w] |] eqn:Ec.
    + destruct (lookup n) as [k |] eqn:El; [| destruct (negative_number (45 :: z :: x) || existsb (Z.eqb 32) (45 :: z :: x)); discriminate]. injection H as -> ->.
      apply cut_equal_spec in Ec. rewrite Ec. f_equal. apply lookup_in in El. destruct El as (m & Hi & ->). unfold option_table in Hi. cbn [In] in Hi.
      repeat (destruct Hi as [Hi | Hi]; [first [discriminate Hi | injection Hi as <- <-; reflexivity] |]). destruct Hi.
    + destruct (negative_number (45 :: z :: x) || existsb (Z.eqb 32) (45 :: z :: x)); discriminate.
  - exfalso. unfold classify in H. destruct z as [| q | q]; try discriminate. repeat (destruct q as [q | q |]; try discriminate). congruence.
Qed.
Lemma cut_equal_app : forall n v, ~ In 61 n -> cut_equal (n ++ b_ "=" ++ v) = Some (n, v).
Proof.
  induction n as [| z n IH]; intros v H; [reflexivity |]. cbn [app cut_equal]. destruct (z =? 61) eqn:E; [apply Z.eqb_eq in E; elim H; left; exact E |].
  rewrite IH by (intro Hi; apply H; right; exact Hi). reflexivity.
Qed.
Lemma classify_mentions : forall v x, mentions v x -> exists e, classify x = Option (KValue v) e.
Proof.
  intros v x [-> | [y ->]]; [exists None; apply classify_called |]. exists (Some y).
  assert (N : ~ In 61 (called v)) by (destruct v; vm_compute; intro H; repeat (destruct H as [H | H]; [discriminate |]); exact H).
  assert (L : lookup (called v ++ b_ "=" ++ y) = None).
  { destruct (lookup (called v ++ b_ "=" ++ y)) as [k |] eqn:E; [| reflexivity]. exfalso. apply lookup_in in E. destruct E as (m & Hi & E).
    assert (I : In 61 (b_ m)) by (rewrite <- E; apply in_or_app; right; left; reflexivity). clear E. unfold option_table in Hi. cbn [In] in Hi.
    repeat (destruct Hi as [Hi | Hi]; [injection Hi as <- _; vm_compute in I; repeat (destruct I as [I | I]; [discriminate |]); exact I |]). exact Hi. }
  assert (K : lookup (called v) = Some (KValue v)) by (destruct v; vm_compute; reflexivity). pose proof (cut_equal_app (called v) y N) as C.
  assert (H : exists z r, called v = 45 :: z :: r) by (destruct v; vm_compute; eauto). destruct H as (z & r & H). rewrite H in L, C, K |- *. cbn [app] in L, C |- *.
  unfold classify. rewrite L, C, K. reflexivity.
Qed.
(** either no argument names the option, or the last one that does decides its part of the result *)
Lemma parse_last : forall argv a extras v, parse argv None no_args [] = Got (a, extras) -> field v a = field v no_args /\ Forall (fun x => ~ mentions v x) argv \/
  exists y a0 a1, last_of v y argv /\ set_value v y a0 = Got a1 /\ field v a = field v a1.
Proof.
  intros argv a extras v H. apply (parse_psteps (length argv)) in H; [| lia].
  assert (K : forall l db a ex a' ex', psteps l db a ex a' ex' -> field v a' = field v a /\ Forall (fun x => ~ mentions v x) l \/
     exists y a0 a1, last_of v y l /\ set_value v y a0 = Got a1 /\ field v a' = field v a1); [| exact (K _ _ _ _ _ _ H)].
  clear. intros l db a ex a' ex' H. induction H as [db a ex | x l db a ex db' a' ex' ra rex Hs Hp IH]; [left; split; [apply field_close | constructor] |].
  destruct IH as [[Ev Hn] | (y & a0 & a1 & (l1 & l2 & Hn & E) & Ey & Ef)].
  2: { right. exists y, a0, a1. split; [| split; assumption]. exists (x ++ l1), l2. split; [exact Hn |]. destruct E as [-> | ->]; [left | right]; rewrite <- app_assoc; reflexivity. }
  assert (M : forall x, (forall e, classify x <> Option (KValue v) e) -> Forall (fun x => ~ mentions v x) (x :: l)).
  { intros z Hz. constructor; [| exact Hn]. intro Hm. destruct (classify_mentions v z Hm) as [e He]. exact (Hz e He). }
  destruct Hs.
  - left. split; [exact Ev |]. apply M. congruence.
  - left. split; [exact Ev |]. apply M. congruence.
  - left. split; [rewrite Ev; apply field_close |]. apply M. congruence.
  - left. split; [rewrite Ev, field_flag; apply field_close |]. apply M. congruence.
  - destruct (field_set v _ _ _ _ H0) as [Es | <-].
    + destruct (valued_eq v v0) as [<- | Hne]; [| left; split; [rewrite Ev, Es; apply field_close |]; apply M; congruence].
      right. exists y. do 2 eexists. split; [| split; [exact H0 | exact Ev]]. exists [], l. split; [exact Hn |]. right. rewrite (classify_equal x v y H). reflexivity.
    + right. exists y. do 2 eexists. split; [| split; [exact H0 | exact Ev]]. exists [], l. split; [exact Hn |]. right. rewrite (classify_equal x v y H). reflexivity.
  - destruct (field_set v _ _ _ _ H1) as [Es | <-].
    + destruct (valued_eq v v0) as [<- | Hne].
      * right. exists y. do 2 eexists. split; [| split; [exact H1 | exact Ev]]. exists [], l. split; [exact Hn |]. left. rewrite (called_iff x v H). reflexivity.
      * left. split; [rewrite Ev, Es; apply field_close |]. assert (P := M y ltac:(congruence)). constructor; [| exact P]. intro Hm. destruct (classify_mentions v x Hm) as [e He]. congruence.
    + right. exists y. do 2 eexists. split; [| split; [exact H1 | exact Ev]]. exists [], l. split; [exact Hn |]. left. rewrite (called_iff x v H). reflexivity.
  - left. split; [rewrite Ev; apply field_close |]. apply M. congruence.
  - left. split; [rewrite Ev, field_debug; apply field_close |]. apply M. congruence.
Qed.
Lemma parse_value : forall argv a extras v y, match v with VO | VFunction | VInclude | VExclude => True | _ => False end -> parse argv None no_args [] = Got (a, extras) -> value_of v a = Some y ->
  last_of v y argv.
Proof.
  intros argv a extras v y Hv H Hy. destruct (parse_last argv a extras v H) as [[E _] | (y' & [] & a1 & L & Es & E)].
  - destruct v; try destruct Hv; cbn [field value_of] in E, Hy; rewrite Hy in E; discriminate.
  - destruct v; try destruct Hv; cbn [set_value] in Es; injection Es as <-; apply (f_equal (fun p => fst (fst p))) in E; cbn in E, Hy; assert (y = y') by congruence; subst y'; exact L.
Qed.

Lemma blocks_pass : forall c a opts wr o srcs tms wss, blocks c a opts wr o srcs tms wss -> c_opt c <> linker_path c (a_linker a) -> c_opt c <> c_llvm_link c -> Forall (temp_name c) tms ->
  forall w, In w wss -> hd [] w = c_opt c -> (exists input out, temp_name c input /\ temp_name c out /\ w = func_words c a input out /\ a_func a = true) \/
    (exists input out, temp_name c input /\ temp_name c out /\ w = mca_words c a wr input out).
Proof.
  intros c a opts wr o srcs tms wss H N1 N2. induction H as [| src srcs tm tms ws wss Hb Hbs IH]; intros Ht w Hw Hh; [destruct Hw |].
  apply Forall_app in Ht. destruct Ht as [Ht1 Ht2]. apply in_app_or in Hw. destruct Hw as [Hw | Hw]; [| exact (IH Ht2 w Hw Hh)].
  assert (NB : forall i u, hd [] (back_words c a opts wr i u) = c_opt c -> False) by (intros i u Hx; unfold back_words in Hx; destruct (a_emit a); cbn in Hx; congruence).
  unfold block in Hb. destruct (is_assembly src).
  - destruct Hb as [_ ->]. destruct Hw as [<- | []]. cbn in Hh. congruence.
  - destruct (a_func a) eqn:Ef.
    + destruct Hb as (ir & mid & ins & -> & ->). repeat rewrite Forall_cons_iff in Ht1. destruct Ht1 as (T1 & T2 & T3 & _).
      destruct Hw as [<- | [<- | [<- | [<- | []]]]]; [cbn in Hh; congruence | | | destruct (NB _ _ Hh)].
      * left. exists ir, mid. repeat split; try assumption; apply T1 || apply T2.
      * right. exists mid, ins. repeat split; apply T2 || apply T3.
    + destruct Hb as (ir & ins & -> & ->). repeat rewrite Forall_cons_iff in Ht1. destruct Ht1 as (T1 & T2 & _).
      destruct Hw as [<- | [<- | [<- | []]]]; [cbn in Hh; congruence | | destruct (NB _ _ Hh)].
      right. exists ir, ins. repeat split; apply T1 || apply T2.
Qed.


(** the command [w] runs the pass [p] *)
Definition runs (c : config) (w : list (list Z)) (p : string) : Prop := hd [] w = c_opt c /\ (In (b_ "-" ++ b_ p) w \/ In (b_ "-passes=" ++ b_ p) w).
Lemma func_not_inst : forall c a input out, tidy c a -> hd 0 input = 47 -> hd 0 out = 47 -> ~ runs c (func_words c a input out) "vfclibinst".
Proof.
  intros c a input out T Hi Ho [_ H]. destruct (paths c a T) as (K1 & K2 & K3 & K4 & K5 & K6 & K7 & K8 & K9 & K10).
  assert (HL : hd 0 (c_libdir c ++ b_ "/libvfcfuncinstrument.so") = 47) by (apply hd_app; [assumption | lia]).
  destruct H as [H | H]; revert H; apply not_in_other; unfold func_words.
  - assert (P : Forall (other (b_ "-" ++ b_ "vfclibinst")) (pass_words c (b_ "vfclibfunc") (c_libdir c ++ b_ "/libvfcfuncinstrument.so"))) by (apply pass_other; [reflexivity | exact HL | lits | lits | lits | lits | lits]).
    others ltac:(apply other_path; [reflexivity | assumption]).
  - assert (P : Forall (other (b_ "-passes=" ++ b_ "vfclibinst")) (pass_words c (b_ "vfclibfunc") (c_libdir c ++ b_ "/libvfcfuncinstrument.so"))) by (apply pass_other; [reflexivity | exact HL | lits | lits | lits | lits | lits]).
    others ltac:(apply other_path; [reflexivity | assumption]).
Qed.
Lemma inst_not_func : forall c a wr input out, tidy c a -> a_prism a = None -> hd 0 wr = 47 -> hd 0 input = 47 -> hd 0 out = 47 -> ~ runs c (mca_words c a wr input out) "vfclibfunc".
Proof.
  intros c a wr input out T Ep Hw Hi Ho [_ H]. destruct (paths c a T) as (K1 & K2 & K3 & K4 & K5 & K6 & K7 & K8 & K9 & K10).
  assert (HL : hd 0 (c_libdir c ++ b_ "/libvfcinstrument.so") = 47) by (apply hd_app; [assumption | lia]).
  destruct H as [H | H]; revert H; apply not_in_other; unfold mca_words; rewrite Ep.
  - assert (P : Forall (other (b_ "-" ++ b_ "vfclibfunc")) (pass_words c (b_ "vfclibinst") (c_libdir c ++ b_ "/libvfcinstrument.so"))) by (apply pass_other; [reflexivity | exact HL | lits | lits | lits | lits | lits]).
    assert (S : Forall (other (b_ "-" ++ b_ "vfclibfunc")) (select_words a)) by (apply (select_other c a T); [reflexivity | lits | lits | lits]).
    others ltac:(apply other_path; [reflexivity | assumption]).
  - assert (P : Forall (other (b_ "-passes=" ++ b_ "vfclibfunc")) (pass_words c (b_ "vfclibinst") (c_libdir c ++ b_ "/libvfcinstrument.so"))) by (apply pass_other; [reflexivity | exact HL | lits | lits | lits | lits | lits]).
    assert (S : Forall (other (b_ "-passes=" ++ b_ "vfclibfunc")) (select_words a)) by (apply (select_other c a T); [reflexivity | lits | lits | lits]).
    others ltac:(apply other_path; [reflexivity | assumption]).
Qed.
Lemma func_runs : forall c a i u, runs c (func_words c a i u) "vfclibfunc".
Proof. intros c a i u. split; [reflexivity |]. unfold func_words, pass_words. destruct (17 <=? c_version c); rewrite !in_app_iff; cbn [In]; tauto. Qed.
Lemma inst_runs : forall c a wr i u, runs c (mca_words c a wr i u) "vfclibinst".
Proof. intros c a wr i u. split; [reflexivity |]. unfold mca_words, pass_words. destruct (17 <=? c_version c); rewrite !in_app_iff; cbn [In]; tauto. Qed.
Lemma one_spelling : forall argv a extras f (s : string), parse argv None no_args [] = Got (a, extras) -> spelling f = [b_ s] -> (In (b_ s) argv <-> has f a = true).
Proof.
  intros argv a extras f s Hp Es. rewrite (parse_has argv a extras f Hp), Es. split; [intro H; exists (b_ s); split; [left; reflexivity | exact H] | intros (w & [<- | []] & H); exact H].
Qed.

(** The wrappers given to the pass (the first command compiles them) and those that are linked (compiled just before the link) both see the macro of an option exactly when the option is on
    the command line, and so does every run of the pass of the operations with its own option: the hooks that the pass calls are those that the wrappers define. The pass of the functions
    is run exactly when --inst-func is there. *)
Theorem C84_options_agree_partial : forall c rnd ok argv a extras cmds tmps,
  parse argv None no_args [] = Got (a, extras) -> clean c rnd a extras -> tidy c a -> to_link a -> a_prism a = None ->
  c_opt c <> linker_path c (a_linker a) -> c_opt c <> c_llvm_link c -> verificarlo c rnd ok argv = (Got tt, cmds, tmps) ->
  exists w0 cs w1 link wi wo, map sh_words cmds = map Some (w0 :: cs ++ [w1; link]) /\ writes w0 wi /\ In (vfcwrapper c) w0 /\ writes w1 wo /\ In (vfcwrapper c) w1 /\ In wo link /\
  (forall opt macro, In (opt, macro) in_wrappers -> (In (b_ opt) argv <-> In (b_ macro) w0) /\ (In (b_ opt) argv <-> In (b_ macro) w1)) /\
  (forall w, In w cs -> runs c w "vfclibinst" ->
     (forall opt flag, In (opt, flag) in_pass -> (In (b_ opt) argv <-> In (b_ flag) w)) /\ exists l r, w = l ++ [b_ "-vfclibinst-vfcwrapper-file"; wi] ++ r) /\
  (forall s stem e, In s extras -> extension s stem e -> In (lower e) source_extensions -> lower e <> b_ ".s" ->
     (In (b_ "--inst-func") argv <-> exists w, In w cs /\ runs c w "vfclibfunc") /\
     (In (b_ "--inst-func") argv \/ In (b_ "--ddebug") argv -> In (b_ "-no-pie") link /\ exists w, In w cs /\ In s w /\ In (b_ "-emit-llvm") w /\ In (b_ "-g") w)).
Proof.
  intros c rnd ok argv a extras cmds tmps Hp Hc Ht Hl Ep N1 N2 Hrun.
  destruct (main_link c rnd ok argv a extras cmds tmps Hp Hc Hl Hrun) as (wi & wo & tms & wss & Etm & Ft & Fw & HB & HR).
  unfold no_prism in Fw, HR. rewrite Ep in Fw, HR. cbn [on app] in HR. destruct Fw as [Fi Fo].
  assert (One := fun f s => one_spelling argv a extras f s Hp).
  assert (Hm : forall e out, temp_name c out -> forall opt macro, In (opt, macro) in_wrappers -> (In (b_ opt) argv <-> In (b_ macro) (wrapper_words c a e out))).
  { intros e out Hout opt macro Hi. apply (temp_hd c a Ht) in Hout. unfold in_wrappers in Hi. cbn [In] in Hi.
    destruct Hi as [Hi | [Hi | [Hi | [Hi | [Hi | []]]]]]; injection Hi as <- <-.
    - rewrite (wrapper_macros c a Ht e out Hout FFcmp) by (cbn [In]; tauto). apply One. reflexivity.
    - rewrite (wrapper_macros c a Ht e out Hout FFma) by (cbn [In]; tauto). apply One. reflexivity.
    - rewrite (wrapper_macros c a Ht e out Hout FCast) by (cbn [In]; tauto). apply One. reflexivity.
    - rewrite (wrapper_macros c a Ht e out Hout FFunc) by (cbn [In]; tauto). apply One. reflexivity.
    - rewrite (wrapper_macros c a Ht e out Hout FDdebug) by (cbn [In]; tauto). apply One. reflexivity. }
  assert (Ww : forall e out, writes (wrapper_words c a e out) out /\ In (vfcwrapper c) (wrapper_words c a e out)).
  { intros e out. split; [| unfold wrapper_words; rewrite !in_app_iff; cbn [In]; tauto]. unfold writes, wrapper_words. eexists. exists [].
    change ([vfcwrapper c; b_ "-I" ++ c_incdir c; b_ "-o"; out]) with ([vfcwrapper c; b_ "-I" ++ c_incdir c] ++ [b_ "-o"; out]). rewrite !app_assoc. reflexivity. }
  exists (wrapper_words c a true wi), wss, (wrapper_words c a false wo), (link_words c a (options extras) (libraries extras) (map object_of (sources extras)) wo), wi, wo.
  split; [exact HR |]. split; [apply Ww |]. split; [apply Ww |]. split; [apply Ww |]. split; [apply Ww |]. split.
  { unfold link_words. rewrite Ep, !in_app_iff. cbn [In]. tauto. }
  split; [intros opt macro Hi; split; apply Hm; assumption |].
  assert (Hi := temp_hd c a Ht wi Fi). split.
  - intros w Hw Hr. destruct (blocks_pass _ _ _ _ _ _ _ _ HB N1 N2 Ft w Hw (proj1 Hr)) as [(i & u & Ti & Tu & -> & _) | (i & u & Ti & Tu & ->)];
      apply (temp_hd c a Ht) in Ti; apply (temp_hd c a Ht) in Tu; [destruct (func_not_inst c a i u Ht Ti Tu Hr) |]. split.
    + intros opt flag Hf. unfold in_pass in Hf. cbn [In] in Hf. destruct Hf as [Hf | [Hf | [Hf | [Hf | []]]]]; injection Hf as <- <-.
      * rewrite (pass_flags c a Ht wi i u Hi Ep Ti Tu FFcmp) by (cbn [In]; tauto). apply One. reflexivity.
      * rewrite (pass_flags c a Ht wi i u Hi Ep Ti Tu FFma) by (cbn [In]; tauto). apply One. reflexivity.
      * rewrite (pass_flags c a Ht wi i u Hi Ep Ti Tu FCast) by (cbn [In]; tauto). apply One. reflexivity.
      * rewrite (pass_flags c a Ht wi i u Hi Ep Ti Tu FVerbose) by (cbn [In]; tauto). apply One. reflexivity.
    + destruct (pass_selection c a wi i u Ep) as [l ->]. exists l. eexists. reflexivity.
  - intros s stem e Hs He Hin Hns.
    assert (Hsrc : In s (sources extras)) by (apply filter_In; split; [exact Hs | apply is_source_iff; exists stem, e; split; assumption]).
    apply in_split in Hsrc. destruct Hsrc as (s1 & s2 & Es). pose proof HB as HB'. rewrite Es in HB'.
    destruct (blocks_split c a (options extras) wi None s1 s s2 tms wss HB') as (t1 & tm & t2 & w1 & ws & w2 & Et & Ew & _ & B2 & _).
    destruct (block_chain _ _ _ _ _ _ _ _ B2 (not_assembly s stem e He Hns)) as (ir & mid & ins & Ec).
    assert (Hch : forall w, In w ws -> In w wss) by (intros w Hw; rewrite Ew, !in_app_iff; tauto).
    split; [rewrite (One FFunc "--inst-func"%string eq_refl); cbn [has]; split |].
    + intro Ef. exists (func_words c a ir mid). split; [| apply func_runs]. apply Hch. rewrite Ec. unfold chain. rewrite Ef, !in_app_iff. cbn [on In]. tauto.
    + intros (w & Hw & Hr). destruct (blocks_pass _ _ _ _ _ _ _ _ HB N1 N2 Ft w Hw (proj1 Hr)) as [(i & u & _ & _ & _ & Ef) | (i & u & Ti & Tu & ->)]; [exact Ef |].
      apply (temp_hd c a Ht) in Ti. apply (temp_hd c a Ht) in Tu. destruct (inst_not_func c a wi i u Ht Ep Hi Ti Tu Hr).
    + rewrite (One FFunc "--inst-func"%string eq_refl), (One FDdebug "--ddebug"%string eq_refl). cbn [has]. intro Hor.
      assert (E1 : a_func a || a_ddebug a = true) by (apply orb_true_iff; exact Hor). assert (E2 : a_ddebug a || a_func a = true) by (rewrite orb_comm; exact E1).
      split; [unfold link_words; rewrite E2, !in_app_iff; cbn [on In]; tauto |]. exists (front_words c a (options extras) s ir).
      split; [apply Hch; rewrite Ec; left; reflexivity |]. unfold front_words. rewrite E1, !in_app_iff. cbn [on In]. tauto.
Qed.

(** the selection: the last --function (--include-file, --exclude-file) of the command line is the one that every run of the pass gets, and without it the pass gets none *)
Definition selections : list (valued * string) := [(VFunction, "-vfclibinst-function"); (VInclude, "-vfclibinst-include-file"); (VExclude, "-vfclibinst-exclude-file")]%string.
Theorem C84_selection_partial : forall c rnd ok argv a extras cmds tmps,
  parse argv None no_args [] = Got (a, extras) -> clean c rnd a extras -> tidy c a -> to_link a -> a_prism a = None ->
  c_opt c <> linker_path c (a_linker a) -> c_opt c <> c_llvm_link c -> c_opt c <> c_clang c -> verificarlo c rnd ok argv = (Got tt, cmds, tmps) ->
  exists cs, map sh_words cmds = map Some cs /\ forall w v flag, In w cs -> runs c w "vfclibinst" -> In (v, flag) selections ->
  (forall y, value_of v a = Some y -> y <> [] -> (exists l r, w = l ++ [b_ flag; y] ++ r) /\ last_of v y argv) /\
  (In (b_ flag) w -> exists y, value_of v a = Some y /\ y <> []).
Proof.
  intros c rnd ok argv a extras cmds tmps Hp Hc Ht Hl Ep N1 N2 N3 Hrun.
  assert (Hex : given (a_function a) = true -> given (a_include a) = false /\ given (a_exclude a) = false).
  { intro Hf. destruct (given (a_include a)) eqn:E1; [| destruct (given (a_exclude a)) eqn:E2; [| split; reflexivity]]; exfalso.
    - rewrite (C86_conflicts_refused c rnd ok argv a extras Hp) in Hrun; [discriminate |]. right. split; [exact Hf | left; exact E1].
    - rewrite (C86_conflicts_refused c rnd ok argv a extras Hp) in Hrun; [discriminate |]. right. split; [exact Hf | right; exact E2]. }
  destruct (main_link c rnd ok argv a extras cmds tmps Hp Hc Hl Hrun) as (wi & wo & tms & wss & Etm & Ft & Fw & HB & HR).
  unfold no_prism in Fw, HR. rewrite Ep in Fw, HR. cbn [on app] in HR. destruct Fw as [Fi Fo]. eexists. split; [exact HR |].
  intros w v flag Hw Hr Hv.
  assert (Hwss : In w wss).
  { destruct Hr as [Hh _]. destruct Hw as [<- | Hw]; [cbn in Hh; congruence |]. apply in_app_or in Hw. destruct Hw as [Hw | [<- | [<- | []]]]; [exact Hw | |]; cbn in Hh; congruence. }
  destruct (blocks_pass _ _ _ _ _ _ _ _ HB N1 N2 Ft w Hwss (proj1 Hr)) as [(i & u & Ti & Tu & -> & _) | (i & u & Ti & Tu & ->)];
      apply (temp_hd c a Ht) in Ti; apply (temp_hd c a Ht) in Tu; [destruct (func_not_inst c a i u Ht Ti Tu Hr) |].
  assert (Hi := temp_hd c a Ht wi Fi).
  assert (G : forall o : option (list Z), given o = true <-> exists y, o = Some y /\ y <> []).
  { intros [[| z y] |]; cbn [given]; split; intro H; try discriminate; try (destruct H as (y' & H1 & H2); congruence); try reflexivity. exists (z :: y). split; [reflexivity | discriminate]. }
  split.
  - intros y Hy Hne. split; [| apply (parse_value argv a extras v y); [| exact Hp | exact Hy]; unfold selections in Hv; cbn [In] in Hv; destruct Hv as [Hv | [Hv | [Hv | []]]]; injection Hv as <- _; exact I].
    assert (Hsel : exists l r, select_words a = l ++ [b_ flag; y] ++ r).
    { unfold selections in Hv. cbn [In] in Hv. destruct Hv as [Hv | [Hv | [Hv | []]]]; injection Hv as <- <-; cbn [value_of] in Hy; unfold select_words.
      - replace (given (a_function a)) with true by (symmetry; apply G; exists y; split; assumption). rewrite Hy. exists [], []. reflexivity.
      - assert (Hg : given (a_include a) = true) by (apply G; exists y; split; assumption).
        destruct (given (a_function a)) eqn:Ef; [destruct (Hex eq_refl); congruence |]. rewrite Hg, Hy. exists []. eexists. reflexivity.
      - assert (Hg : given (a_exclude a) = true) by (apply G; exists y; split; assumption).
        destruct (given (a_function a)) eqn:Ef; [destruct (Hex eq_refl); congruence |]. rewrite Hg, Hy. eexists. exists []. reflexivity. }
    destruct Hsel as (l & r & Es). destruct (pass_selection c a wi i u Ep) as [l0 ->]. rewrite Es. exists (l0 ++ [b_ "-vfclibinst-vfcwrapper-file"; wi] ++ l), (r ++ [i; b_ "-o"; u]). rewrite <- !app_assoc. reflexivity.
  - intro Hin. apply G. destruct (given (value_of v a)) eqn:Eg; [reflexivity |]. exfalso. revert Hin. apply not_in_other.
    destruct (paths c a Ht) as (K1 & K2 & K3 & K4 & K5 & K6 & K7 & K8 & K9 & K10).
    assert (HL : hd 0 (c_libdir c ++ b_ "/libvfcinstrument.so") = 47) by (apply hd_app; [assumption | lia]).
    destruct (values c a Ht) as (V1 & V2 & V3 & V4).
    unfold selections in Hv. cbn [In] in Hv. destruct Hv as [Hv | [Hv | [Hv | []]]]; injection Hv as <- <-; cbn [value_of] in Eg; unfold mca_words; rewrite Ep.
    all: match goal with |- Forall (other (b_ ?t)) _ =>
      assert (P : Forall (other (b_ t)) (pass_words c (b_ "vfclibinst") (c_libdir c ++ b_ "/libvfcinstrument.so"))) by (apply pass_other; [reflexivity | exact HL | lits | lits | lits | lits | lits]);
      assert (S : Forall (other (b_ t)) (select_words a)) by (unfold select_words; rewrite ?Eg; destruct (given (a_function a)), (given (a_include a)), (given (a_exclude a)); try discriminate; cbn [on app];
        repeat apply Forall_cons; try apply Forall_nil; first [lits | apply other_value; [reflexivity | auto]]) end;
      others ltac:(apply other_path; [reflexivity | assumption]).
Qed.

Definition demo_line2 : list (list Z) := line ["--inst-fma"; "--function=solve"; "a.c"; "--inst-func"; "--function"; "main"]%string.
Example C84_nonvacuous : exists a extras cmds tmps, parse demo_line2 None no_args [] = Got (a, extras) /\ clean demo names a extras /\ tidy demo a /\ to_link a /\ a_prism a = None /\
  c_opt demo <> linker_path demo (a_linker a) /\ c_opt demo <> c_llvm_link demo /\ c_opt demo <> c_clang demo /\ verificarlo demo names all_ok demo_line2 = (Got tt, cmds, tmps) /\
  a_function a = Some (b_ "main") /\ exists w, sh_words (nth 3 cmds []) = Some w /\ runs demo w "vfclibinst" /\ In (b_ "-vfclibinst-inst-fma") w /\ ~ In (b_ "-vfclibinst-inst-fcmp") w.
Proof.
  do 4 eexists. split; [vm_compute; reflexivity |].
  split; [split; [exact demo_plain | split; [discriminate | reflexivity] | exact names_ordinary | vm_compute | vm_compute | vm_compute |] |].
  - repeat first [apply Forall_cons | apply Forall_nil | split; [discriminate | reflexivity]].
  - repeat first [apply Forall_cons | apply Forall_nil].
  - apply Forall_nil.
  - split; [discriminate |]. split; [intro; split; [discriminate | vm_compute; reflexivity] |]. split; discriminate.
  - split; [split; [repeat apply Forall_cons; try apply Forall_nil; reflexivity | reflexivity | right; eexists; reflexivity | repeat apply Forall_cons; try apply Forall_nil; intros; try discriminate] |].
    split; [repeat split |]. split; [reflexivity |]. split; [discriminate |]. split; [discriminate |]. split; [discriminate |]. split; [vm_compute; reflexivity |]. split; [reflexivity |].
    eexists. split; [vm_compute; reflexivity |]. split; [split; [reflexivity | left; vm_compute; tauto] |]. split; [vm_compute; tauto |].
    intro H. vm_compute in H. repeat (destruct H as [H | H]; [discriminate |]). destruct H.
Qed.

Print Assumptions C82_sources_instrumented_partial.
Print Assumptions C82_objects_instrumented_partial.
Print Assumptions C82_cxx_extension_refuted.
Print Assumptions C82_same_object_refuted.
Print Assumptions C82_assembly_refuted.
Print Assumptions C83_no_argument_lost.
Print Assumptions C83_options_unchanged_partial.
Print Assumptions C83_quote_refuted.
Print Assumptions C83_blank_in_name_refuted.
Print Assumptions C83_separate_library_refuted.
Print Assumptions C84_options_agree_partial.
Print Assumptions C84_selection_partial.
Print Assumptions C85_failure_stops.
Print Assumptions C85_success_means_all.
Print Assumptions C86_conflicts_refused.
Print Assumptions C86_emit_llvm_refuted.
Print Assumptions C86_no_input_refuted.
