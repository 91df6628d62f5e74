(** C76-C81: the continuous integration tool (vfc_ci test). *)
From Coq Require Import String ZArith List Bool Lia Permutation.
From Coq Require Import Reals Lra.
From Flocq Require Import Core.
From stdpp Require base.
From Verif Require Import Common Text HashModel HashMapProofs Bits BitsFacts FloatReal FloatValue FloatOps DDModel ProbesModel ProbesProofs CiModel CiHex CiReader CiTrunc CiRuns.
Import ListNotations.
Open Scope Z_scope.
Open Scope py_scope.

(** ** C76: the text a probe value is written as determines it: reading it back gives the same bits, for every double which is
    not a NaN (zeros of both signs, subnormal numbers and infinities included). *)
Theorem C76_value_text_roundtrip :
  forall b, is_bits binary64 b -> is_nan binary64 b = false -> fromhex (fmt_a b) = Ret b.
Proof. exact fromhex_fmt. Qed.
Print Assumptions C76_value_text_roundtrip.

Example C76_nonvacuous :
  (* -0x1.8p-3, the smallest subnormal, minus zero *)
  Forall (fun b => is_bits binary64 b /\ is_nan binary64 b = false) [2 ^ 63 + 1020 * 2 ^ 52 + 2 ^ 51; 1; 2 ^ 63] /\
  fmt_a (2 ^ 63 + 1020 * 2 ^ 52 + 2 ^ 51) = bytes "-0x1.8p-3"%string /\ fmt_a 1 = bytes "0x0.0000000000001p-1022"%string /\ fmt_a (2 ^ 63) = bytes "-0x0p+0"%string.
Proof. split; [|vm_compute; auto]. repeat constructor; vm_compute; discriminate. Qed.

(** ** C77: reading the file of an accepted history of probes gives exactly one row per probe, with its names, its value and
    threshold bit for bit, and its check mode. Missing: the hypotheses on the history, each of which is needed (below). *)
Theorem C77_probes_read_back_partial :
  forall numeric rs, hex_not_numeric numeric -> modes_not_numeric numeric ->
  malloc_ok rs -> Z.of_nat (length rs) <= max_inserts ->
  Forall (fun r => clean_name (pr_test r) /\ clean_name (pr_var r) /\ ~ na_name (pr_test r) /\ ~ na_name (pr_var r)) rs ->
  Forall (fun r => is_bits binary64 (pr_val r) /\ is_nan binary64 (pr_val r) = false /\ is_bits binary64 (pr_thr r) /\ is_nan binary64 (pr_thr r) = false) rs ->
  (rs = [] \/ text_column numeric (map pr_test rs) /\ text_column numeric (map pr_var rs) /\
     Exists (fun r => is_finite binary64 (pr_val r) = true) rs /\ Exists (fun r => is_finite binary64 (pr_thr r) = true) rs) ->
  forall st, ofold probe_kernel rs init_probes = Ok st ->
  exists file ps, dump_probes fmt_a st = Ok file /\ Permutation ps rs /\
    read_probes numeric file =
      Ret (match rs with [] => true | _ => false end,
           map (fun r => mk_prow (CStr (pr_test r)) (CStr (pr_var r)) (pr_val r) (pr_thr r)
                           (CStr (bytes match pr_mode r with CheckNone => "none" | CheckAbsolute => "absolute" | CheckRelative => "relative" end%string))) ps).
Proof.
  intros numeric rs Hx Hm Hok HN Hn Hd Hc st Hst. destruct (dump_file rs Hok HN st Hst) as (Hcomma & ps & Hdump & Hp).
  exists (file_of ps), ps. split; [exact Hdump|]. split; [exact Hp|].
  assert (F : forall P, Forall P rs -> Forall P ps) by (intros P H; eapply Permutation_Forall; [apply Permutation_sym; exact Hp|exact H]).
  assert (E : forall P, Exists P rs -> Exists P ps) by (intros P H; eapply Permutation_Exists; [apply Permutation_sym; exact Hp|exact H]).
  rewrite read_file with (ps := ps); try assumption.
  - f_equal. f_equal.
    + destruct rs; [apply Permutation_sym, Permutation_nil in Hp as ->; reflexivity|]. destruct ps; [apply Permutation_nil in Hp; discriminate|reflexivity].
    + apply map_ext. intros r. unfold row_of, mode_text. destruct (pr_mode r); reflexivity.
  - apply F. rewrite Forall_forall in *. intros r Hr. specialize (Hn r Hr). split; [apply (Hcomma r Hr)|apply clean_no_newline; tauto].
  - split.
    + apply F. rewrite Forall_forall in *. intros r Hr. specialize (Hn r Hr). specialize (Hd r Hr). unfold good_double. tauto.
    + destruct Hc as [-> |(C1 & C2 & C3 & C4)]; [left; apply Permutation_sym, Permutation_nil in Hp; exact Hp|right].
      assert (EM : forall {A} (g : probe_req -> A) P, Exists P (map g rs) -> Exists P (map g ps)).
      { intros A g P H. eapply Permutation_Exists; [apply Permutation_map, Permutation_sym; exact Hp|exact H]. }
      assert (EX : forall (g : probe_req -> Z) P, Exists (fun r => P (g r)) rs -> Exists P (map g ps)).
      { intros g P H. apply EM. apply Exists_exists in H as (r & Hr & H). apply Exists_exists. exists (g r). split; [apply in_map; exact Hr|exact H]. }
      split; [split; apply EM, C1|]. split; [split; apply EM, C2|]. split; apply EX; assumption.
Qed.
Print Assumptions C77_probes_read_back_partial.

(** a history with a subnormal, a negative zero and an infinity; [no_number]: an oracle that reads only infinities as numbers *)
Definition no_number (s : list Z) : option Z :=
  if text_eqb s (bytes "inf"%string) || text_eqb s (bytes "-inf"%string) then Some 0 else None.
Lemma no_number_hex : hex_not_numeric no_number.
Proof.
  intros s Hs. unfold no_number. destruct (text_eqb s (bytes "inf")) eqn:E1.
  - apply text_eqb_true in E1. subst. exfalso. vm_compute in Hs. repeat destruct Hs as [Hs|Hs]; try discriminate; exact Hs.
  - destruct (text_eqb s (bytes "-inf")) eqn:E2; [|reflexivity]. apply text_eqb_true in E2. subst. exfalso. vm_compute in Hs. repeat destruct Hs as [Hs|Hs]; try discriminate; exact Hs.
Qed.
Lemma no_number_modes : modes_not_numeric no_number.
Proof. intros []; vm_compute; reflexivity. Qed.

Lemma clean_ok s : forallb (fun c => (32 <=? c) && (c <=? 126) && negb (c =? 34)) s = true -> clean_name s.
Proof. intros H. apply Forall_forall. intros c Hc. rewrite forallb_forall in H. specialize (H c Hc). unfold name_byte. lia. Qed.
Definition req (t v : string) (x thr : Z) (m : check_mode) (a : Z) : probe_req := mk_req (bytes t) (bytes v) x thr m a.
Definition C77_reqs : list probe_req :=
  [req "laplace" "err" 1 0 CheckNone 16; req "laplace" "x[0]" (2 ^ 63) (1023 * 2 ^ 52) CheckAbsolute 32; req "heat" "t end" (2047 * 2 ^ 52) (1000 * 2 ^ 52) CheckRelative 48].
Example C77_nonvacuous :
  hex_not_numeric no_number /\ modes_not_numeric no_number /\ malloc_ok C77_reqs /\ Z.of_nat (length C77_reqs) <= max_inserts /\
  Forall (fun r => clean_name (pr_test r) /\ clean_name (pr_var r) /\ ~ na_name (pr_test r) /\ ~ na_name (pr_var r)) C77_reqs /\
  Forall (fun r => is_bits binary64 (pr_val r) /\ is_nan binary64 (pr_val r) = false /\ is_bits binary64 (pr_thr r) /\ is_nan binary64 (pr_thr r) = false) C77_reqs /\
  (text_column no_number (map pr_test C77_reqs) /\ text_column no_number (map pr_var C77_reqs) /\
     Exists (fun r => is_finite binary64 (pr_val r) = true) C77_reqs /\ Exists (fun r => is_finite binary64 (pr_thr r) = true) C77_reqs) /\
  exists st, ofold probe_kernel C77_reqs init_probes = Ok st.
Proof.
  assert (N : forall s, memb s na_words = false -> ~ na_name s) by (intros s H Hi; apply memb_in in Hi; congruence).
  assert (B : forall s, memb s true_words = false -> memb s false_words = false -> ~ bool_name s) by (intros s H1 H2 [Hi|Hi]; apply memb_in in Hi; congruence).
  split; [exact no_number_hex|]. split; [exact no_number_modes|].
  split; [split; [apply base.NoDup_ListNoDup; repeat constructor; cbn; intros H; repeat destruct H as [H|H]; try discriminate; assumption|repeat constructor; vm_compute; congruence]|].
  split; [vm_compute; discriminate|].
  split. { repeat (apply Forall_cons; [split; [apply clean_ok; reflexivity|split; [apply clean_ok; reflexivity|split; apply N; vm_compute; reflexivity]]|]). apply Forall_nil. }
  split; [repeat constructor; vm_compute; try discriminate|].
  split. { unfold text_column. repeat split; constructor; cbn; try reflexivity; repeat split; try (apply N; vm_compute; reflexivity); try reflexivity; apply B; vm_compute; reflexivity. }
  eexists. vm_compute. reflexivity.
Qed.

(** a NaN in any probe stops the tool on an exception, whatever the other probes *)
Theorem C77_nan_aborts_refuted :
  forall numeric rs, malloc_ok rs -> Z.of_nat (length rs) <= max_inserts ->
  Forall (fun r => clean_name (pr_test r) /\ clean_name (pr_var r)) rs ->
  Exists (fun r => is_nan binary64 (pr_val r) = true) rs ->
  forall st, ofold probe_kernel rs init_probes = Ok st ->
  exists file, dump_probes fmt_a st = Ok file /\ read_probes numeric file = Raise.
Proof.
  intros numeric rs Hok HN Hn He st Hst. destruct (dump_file rs Hok HN st Hst) as (Hcomma & ps & Hdump & Hp).
  exists (file_of ps). split; [exact Hdump|]. apply Exists_exists in He as (r & Hr & Hnan).
  apply read_nan with (r := r); [|eapply Permutation_in; [apply Permutation_sym; exact Hp|exact Hr]|exact Hnan].
  eapply Permutation_Forall; [apply Permutation_sym; exact Hp|]. rewrite Forall_forall in *. intros r' Hr'.
  split; [apply (Hcomma r' Hr')|apply clean_no_newline; apply (Hn r' Hr')].
Qed.
Print Assumptions C77_nan_aborts_refuted.

Definition C77_nan_reqs : list probe_req := [req "t" "x" (2047 * 2 ^ 52 + 2 ^ 51) 0 CheckNone 16; req "t" "y" 0 0 CheckNone 32].
Example C77_nan_nonvacuous :
  malloc_ok C77_nan_reqs /\ Z.of_nat (length C77_nan_reqs) <= max_inserts /\ Forall (fun r => clean_name (pr_test r) /\ clean_name (pr_var r)) C77_nan_reqs /\
  Exists (fun r => is_nan binary64 (pr_val r) = true) C77_nan_reqs /\ exists st, ofold probe_kernel C77_nan_reqs init_probes = Ok st.
Proof.
  split; [split; [apply base.NoDup_ListNoDup; repeat constructor; cbn; intros H; repeat destruct H as [H|H]; try discriminate; assumption|repeat constructor; vm_compute; congruence]|].
  split; [vm_compute; discriminate|].
  split; [repeat (apply Forall_cons; [split; apply clean_ok; reflexivity|]); apply Forall_nil|].
  split; [constructor; vm_compute; reflexivity|]. eexists. vm_compute. reflexivity.
Qed.

(** so does a run whose probes are all infinite (pandas reads "inf" and "-inf" as numbers) *)
Theorem C77_infinite_aborts_refuted :
  forall numeric rs, numeric (bytes "inf"%string) <> None -> numeric (bytes "-inf"%string) <> None ->
  malloc_ok rs -> Z.of_nat (length rs) <= max_inserts -> rs <> [] ->
  Forall (fun r => clean_name (pr_test r) /\ clean_name (pr_var r) /\ is_inf binary64 (pr_val r) = true) rs ->
  forall st, ofold probe_kernel rs init_probes = Ok st ->
  exists file, dump_probes fmt_a st = Ok file /\ read_probes numeric file = Raise.
Proof.
  intros numeric rs H1 H2 Hok HN Hne Hi st Hst. destruct (dump_file rs Hok HN st Hst) as (Hcomma & ps & Hdump & Hp).
  exists (file_of ps). split; [exact Hdump|].
  assert (F : forall P, Forall P rs -> Forall P ps) by (intros P H; eapply Permutation_Forall; [apply Permutation_sym; exact Hp|exact H]).
  apply read_infinite; try assumption.
  - apply F. rewrite Forall_forall in *. intros r' Hr'. split; [apply (Hcomma r' Hr')|apply clean_no_newline; apply (Hi r' Hr')].
  - intros ->. apply Permutation_nil in Hp. contradiction.
  - apply F. rewrite Forall_forall in *. intros r' Hr'. apply (Hi r' Hr').
Qed.
Print Assumptions C77_infinite_aborts_refuted.

Definition C77_inf_reqs : list probe_req := [req "t" "x" (2047 * 2 ^ 52) 0 CheckNone 16].
Example C77_infinite_nonvacuous :
  no_number (bytes "inf"%string) <> None /\ no_number (bytes "-inf"%string) <> None /\ malloc_ok C77_inf_reqs /\ Z.of_nat (length C77_inf_reqs) <= max_inserts /\
  C77_inf_reqs <> [] /\ Forall (fun r => clean_name (pr_test r) /\ clean_name (pr_var r) /\ is_inf binary64 (pr_val r) = true) C77_inf_reqs /\
  exists st, ofold probe_kernel C77_inf_reqs init_probes = Ok st.
Proof.
  split; [vm_compute; discriminate|]. split; [vm_compute; discriminate|].
  split; [split; [apply base.NoDup_ListNoDup; repeat constructor; cbn; intros H; repeat destruct H as [H|H]; try discriminate; assumption|repeat constructor; vm_compute; congruence]|].
  split; [vm_compute; discriminate|]. split; [discriminate|].
  split; [repeat (apply Forall_cons; [split; [apply clean_ok; reflexivity|split; [apply clean_ok; reflexivity|reflexivity]]|]); apply Forall_nil|]. eexists. vm_compute. reflexivity.
Qed.

(** the rows of a file whose variables are text, whatever the tests are *)
Lemma read_any_tests numeric rs : hex_not_numeric numeric -> modes_not_numeric numeric -> rs <> [] ->
  Forall (fun r => clean_name (pr_test r) /\ clean_name (pr_var r) /\ ~ has_comma r /\ ~ na_name (pr_var r) /\ good_double (pr_val r) /\ good_double (pr_thr r)) rs ->
  text_column numeric (map pr_var rs) -> some_finite (map pr_val rs) -> some_finite (map pr_thr rs) ->
  read_probes numeric (file_of rs) =
    Ret (false, zip5 (infer numeric (map Some (map pr_test rs))) (map (fun r => CStr (pr_var r)) rs) (map pr_val rs) (map pr_thr rs) (map (fun r => CStr (mode_text (pr_mode r))) rs)).
Proof.
  intros Hx Hm Hne Hg Hv H1 H2. rewrite Forall_forall in Hg. unfold read_probes. rewrite read_csv_file.
  2:{ apply Forall_forall. intros r Hr. specialize (Hg r Hr). split; [tauto|apply clean_no_newline; tauto]. }
  destruct (columns_file numeric rs) as (E1 & E2 & E3 & E4 & E5). rewrite E1, E2, E3, E4, E5. cbn [pbind].
  rewrite <- (map_map pr_val fmt_a), <- (map_map pr_thr fmt_a). rewrite !read_doubles; auto.
  2-3: apply Forall_forall; intros v Hin; apply in_map_iff in Hin as (r & <- & Hr); apply (Hg r Hr).
  cbn [pbind]. rewrite (infer_names numeric (map pr_var rs)); [|apply Forall_forall; intros v Hin; apply in_map_iff in Hin as (r & <- & Hr); apply (Hg r Hr)|right; exact Hv].
  rewrite (infer_names numeric (map (fun r => mode_text (pr_mode r)) rs)).
  - rewrite !map_map. destruct rs; [congruence|]. reflexivity.
  - apply Forall_forall. intros v Hin. apply in_map_iff in Hin as (r & <- & Hr). apply mode_not_na.
  - pose proof (modes_text numeric Hm rs). destruct H as [->|H]; [left; reflexivity|right; exact H].
Qed.

Lemma not_na s : memb s na_words = false -> ~ na_name s.
Proof. intros H Hi; apply memb_in in Hi; congruence. Qed.
Lemma not_bool s : memb s true_words = false -> memb s false_words = false -> ~ bool_name s.
Proof. intros H1 H2 [Hi|Hi]; apply memb_in in Hi; congruence. Qed.
Lemma no_comma s : forallb (fun c => negb (c =? comma)) s = true -> ~ In comma s.
Proof. intros H Hi. rewrite forallb_forall in H. specialize (H _ Hi). rewrite Z.eqb_refl in H. discriminate. Qed.
Definition file_after (rs : list probe_req) : list Z :=
  match ofold probe_kernel rs init_probes with Ok st => match dump_probes fmt_a st with Ok f => f | _ => [] end | _ => [] end.

(** test names that are all boolean words are read as truth values: the spelling is lost, and "True" and "true" become one test *)
Theorem C77_boolean_names_refuted :
  forall numeric rs, hex_not_numeric numeric -> modes_not_numeric numeric -> rs <> [] ->
  malloc_ok rs -> Z.of_nat (length rs) <= max_inserts ->
  Forall (fun r => clean_name (pr_test r) /\ clean_name (pr_var r) /\ ~ na_name (pr_var r)) rs ->
  Forall (fun r => is_bits binary64 (pr_val r) /\ is_nan binary64 (pr_val r) = false /\ is_bits binary64 (pr_thr r) /\ is_nan binary64 (pr_thr r) = false) rs ->
  text_column numeric (map pr_var rs) ->
  Exists (fun r => is_finite binary64 (pr_val r) = true) rs -> Exists (fun r => is_finite binary64 (pr_thr r) = true) rs ->
  Forall (fun r => numeric (pr_test r) = None /\ In (pr_test r) (map bytes ["True"; "TRUE"; "true"; "False"; "FALSE"; "false"]%string)) rs ->
  forall st, ofold probe_kernel rs init_probes = Ok st ->
  exists file ps truth, dump_probes fmt_a st = Ok file /\ Permutation ps rs /\
    (forall s, In s (map bytes ["True"; "TRUE"; "true"]%string) -> truth s = true) /\
    (forall s, In s (map bytes ["False"; "FALSE"; "false"]%string) -> truth s = false) /\
    read_probes numeric file =
      Ret (false, map (fun r => mk_prow (CBool (truth (pr_test r))) (CStr (pr_var r)) (pr_val r) (pr_thr r)
                           (CStr (bytes match pr_mode r with CheckNone => "none" | CheckAbsolute => "absolute" | CheckRelative => "relative" end%string))) ps).
Proof.
  intros numeric rs Hx Hm Hne Hok HN Hn Hd Hc Hf1 Hf2 Hb st Hst. destruct (dump_file rs Hok HN st Hst) as (Hcomma & ps & Hdump & Hp).
  exists (file_of ps), ps, (fun s => memb s true_words). split; [exact Hdump|]. split; [exact Hp|].
  split. { intros s Hs. apply memb_in. exact Hs. }
  split. { intros s Hs. cbn [map In] in Hs. repeat destruct Hs as [<-|Hs]; try reflexivity. contradiction. }
  assert (F : forall P, Forall P rs -> Forall P ps) by (intros P H; eapply Permutation_Forall; [apply Permutation_sym; exact Hp|exact H]).
  assert (E : forall P, Exists P rs -> Exists P ps) by (intros P H; eapply Permutation_Exists; [apply Permutation_sym; exact Hp|exact H]).
  assert (Hps : ps <> []) by (intros ->; apply Permutation_nil in Hp; contradiction).
  rewrite read_any_tests; try assumption.
  - f_equal. f_equal. apply F in Hb. rewrite Forall_forall in Hb.
    assert (I : infer numeric (map Some (map pr_test ps)) = map (fun r => CBool (memb (pr_test r) true_words)) ps).
    { unfold infer. rewrite !map_map.
      assert (Hna : forall r, In r ps -> memb (pr_test r) na_words = false /\ is_bool (pr_test r) = true /\ is_num numeric (pr_test r) = false).
      { intros r Hr. destruct (Hb r Hr) as [H0 Hi]. unfold is_num. rewrite H0. cbn [map In] in Hi.
        repeat destruct Hi as [<-|Hi]; try (repeat split; reflexivity). contradiction. }
      replace (forallb _ (map (fun x => Some (pr_test x)) ps)) with false.
      2:{ symmetry. destruct ps as [|r ps']; [congruence|]. cbn [map forallb is_na]. destruct (Hna r (or_introl eq_refl)) as (-> & _ & ->). reflexivity. }
      replace (forallb _ (map (fun x => Some (pr_test x)) ps)) with true.
      2:{ symmetry. apply forallb_forall. intros x Hin. apply in_map_iff in Hin as (r & <- & Hr). destruct (Hna r Hr) as (_ & -> & _). apply orb_true_r. }
      apply map_ext_in. intros r Hr. cbn [is_na]. destruct (Hna r Hr) as (-> & _ & _). reflexivity. }
    rewrite I. clear. unfold mode_text. induction ps as [|r ps IH]; [reflexivity|].
    cbn [map zip5]. rewrite IH. destruct (pr_mode r); reflexivity.
  - apply F. rewrite Forall_forall in *. intros r Hr. specialize (Hn r Hr). specialize (Hd r Hr).
    destruct Hn as (N1 & N2 & N3), Hd as (D1 & D2 & D3 & D4). split; [exact N1|]. split; [exact N2|]. split; [apply (Hcomma r Hr)|].
    split; [exact N3|]. split; split; assumption.
  - destruct Hc as [H1 H2]. split; (eapply Permutation_Exists; [apply Permutation_map, Permutation_sym; exact Hp|assumption]).
  - unfold some_finite. apply Exists_map. apply E. exact Hf1.
  - unfold some_finite. apply Exists_map. apply E. exact Hf2.
Qed.
Print Assumptions C77_boolean_names_refuted.

Definition C77_bool_reqs : list probe_req :=
  [req "True" "err" (1023 * 2 ^ 52) 0 CheckNone 16; req "true" "err" (1024 * 2 ^ 52) 0 CheckNone 32; req "FALSE" "err" 0 0 CheckAbsolute 48].
Example C77_boolean_nonvacuous :
  hex_not_numeric no_number /\ modes_not_numeric no_number /\ C77_bool_reqs <> [] /\ malloc_ok C77_bool_reqs /\ Z.of_nat (length C77_bool_reqs) <= max_inserts /\
  Forall (fun r => clean_name (pr_test r) /\ clean_name (pr_var r) /\ ~ na_name (pr_var r)) C77_bool_reqs /\
  Forall (fun r => is_bits binary64 (pr_val r) /\ is_nan binary64 (pr_val r) = false /\ is_bits binary64 (pr_thr r) /\ is_nan binary64 (pr_thr r) = false) C77_bool_reqs /\
  text_column no_number (map pr_var C77_bool_reqs) /\
  Exists (fun r => is_finite binary64 (pr_val r) = true) C77_bool_reqs /\ Exists (fun r => is_finite binary64 (pr_thr r) = true) C77_bool_reqs /\
  Forall (fun r => no_number (pr_test r) = None /\ In (pr_test r) (map bytes ["True"; "TRUE"; "true"; "False"; "FALSE"; "false"]%string)) C77_bool_reqs /\
  exists st, ofold probe_kernel C77_bool_reqs init_probes = Ok st.
Proof.
  split; [exact no_number_hex|]. split; [exact no_number_modes|]. split; [discriminate|].
  split; [split; [apply base.NoDup_ListNoDup; repeat constructor; cbn; intros H; repeat destruct H as [H|H]; try discriminate; assumption|repeat constructor; vm_compute; congruence]|].
  split; [vm_compute; discriminate|].
  split. { repeat (apply Forall_cons; [split; [apply clean_ok; reflexivity|split; [apply clean_ok; reflexivity|apply not_na; vm_compute; reflexivity]]|]). apply Forall_nil. }
  split; [repeat constructor; vm_compute; try discriminate|].
  split. { split; constructor; (split; [apply not_na; reflexivity|]); [reflexivity|apply not_bool; reflexivity]. }
  split; [constructor; reflexivity|]. split; [constructor; reflexivity|].
  split. { repeat (apply Forall_cons; [split; [reflexivity|cbn; tauto]|]). apply Forall_nil. }
  eexists. vm_compute. reflexivity.
Qed.

(** a test named NA disappears from the results, without a warning *)
Theorem C77_name_lost_refuted :
  forall numeric vsum, hex_not_numeric numeric -> modes_not_numeric numeric -> numeric (bytes "err"%string) = None ->
  let rs := [req "NA" "err" (1023 * 2 ^ 52) 0 CheckNone 16] in
  (exists st, ofold probe_kernel rs init_probes = Ok st) /\
  run_tests numeric vsum [mk_task (bytes "prog"%string) (bytes "libinterflop_mca.so"%string) (Repeated [file_after rs])] = Ret ([], [], []).
Proof.
  intros numeric vsum Hx Hm Hn rs. split; [eexists; vm_compute; reflexivity|].
  assert (F : file_after rs = file_of rs) by (vm_compute; reflexivity). rewrite F.
  assert (R : read_probes numeric (file_of rs) = Ret (false, [mk_prow CNA (CStr (bytes "err")) (1023 * 2 ^ 52) 0 (CStr (bytes "none"))])).
  { rewrite read_any_tests; try assumption; [reflexivity|discriminate| | | |].
    - apply Forall_cons; [|constructor]. repeat split; try (apply clean_ok; reflexivity); try (apply not_na; reflexivity); try (vm_compute; discriminate).
      intros [H|H]; revert H; apply no_comma; reflexivity.
    - split; constructor; (split; [apply not_na; reflexivity|]); [exact Hn|apply not_bool; reflexivity].
    - constructor. reflexivity.
    - constructor. reflexivity. }
  unfold run_tests. cbn [run_all t_job run_repetitions]. rewrite R. cbn [pbind]. reflexivity.
Qed.
Print Assumptions C77_name_lost_refuted.

(** two tests of one run whose names are the same number share one set of samples *)
Theorem C77_numeric_names_merged_refuted :
  forall numeric vsum n, hex_not_numeric numeric -> modes_not_numeric numeric -> numeric (bytes "err"%string) = None ->
  numeric (bytes "1.0"%string) = Some n -> numeric (bytes "1.00"%string) = Some n ->
  let rs := [req "1.0" "err" (1023 * 2 ^ 52) 0 CheckNone 16; req "1.00" "err" (1024 * 2 ^ 52) 0 CheckNone 32] in
  (exists st, ofold probe_kernel rs init_probes = Ok st) /\
  exists vs, run_tests numeric vsum [mk_task (bytes "prog"%string) (bytes "libinterflop_mca.so"%string) (Repeated [file_after rs])] =
    Ret ([mk_grow (CNum n, CStr (bytes "err"%string), bytes "libinterflop_mca.so"%string) vs 0 (CStr (bytes "none"%string))], [], []) /\ length vs = 2%nat.
Proof.
  intros numeric vsum n Hx Hm Hn N1 N2 rs. split; [eexists; vm_compute; reflexivity|].
  assert (F : file_after rs = file_of rs \/ file_after rs = file_of (rev rs)) by (vm_compute; auto).
  assert (G : forall l, l = rs \/ l = rev rs -> exists vs, run_tests numeric vsum [mk_task (bytes "prog") (bytes "libinterflop_mca.so") (Repeated [file_of l])] =
    Ret ([mk_grow (CNum n, CStr (bytes "err"), bytes "libinterflop_mca.so") vs 0 (CStr (bytes "none"))], [], []) /\ length vs = 2%nat).
  { intros l Hl. exists (map pr_val l).
    assert (R : read_probes numeric (file_of l) = Ret (false, map (fun r => mk_prow (CNum n) (CStr (bytes "err")) (pr_val r) 0 (CStr (bytes "none"))) l)).
    { assert (Hin : forall r, In r l -> In r rs) by (destruct Hl as [-> | ->]; [auto|intros r; apply in_rev]).
      assert (Hne : l <> []) by (destruct Hl as [-> | ->]; discriminate).
      rewrite read_any_tests; try assumption.
      - assert (infer numeric (map Some (map pr_test l)) = map (fun _ => CNum n) l) as ->.
        { destruct Hl as [-> | ->]; unfold infer, rs; cbn [map rev app req pr_test forallb];
            change (is_na (Some (bytes "1.0"))) with false; change (is_na (Some (bytes "1.00"))) with false; unfold is_num; rewrite N1, N2; cbn [orb andb]; rewrite N1, N2; reflexivity. }
        destruct Hl as [-> | ->]; reflexivity.
      - apply Forall_forall. intros r Hr. destruct (Hin r Hr) as [<-|[<-|[]]]; (repeat split; try (apply clean_ok; reflexivity); try (apply not_na; reflexivity); try (vm_compute; discriminate);
          intros [H|H]; revert H; apply no_comma; reflexivity).
      - destruct Hl as [-> | ->]; (split; constructor; (split; [apply not_na; reflexivity|]); [exact Hn|apply not_bool; reflexivity]).
      - destruct Hl as [-> | ->]; constructor; reflexivity.
      - destruct Hl as [-> | ->]; constructor; reflexivity. }
    split; [|destruct Hl as [-> | ->]; reflexivity].
    unfold run_tests. cbn [run_all t_job run_repetitions]. rewrite R. cbn [pbind].
    change (has_frames _) with true. cbn [negb]. rewrite app_nil_r.
    destruct Hl as [-> | ->]; (erewrite (group_same (CNum n, CStr (bytes "err"), bytes "libinterflop_mca.so")); [ |reflexivity|repeat constructor|reflexivity]; reflexivity). }
  destruct F as [-> | ->]; apply G; auto.
Qed.
Print Assumptions C77_numeric_names_merged_refuted.

(** ** C78: after the executions, the tool has exactly one set of samples per test, variable and backend met: the values of all
    the repetitions in order of execution, with the threshold and check mode of the first one; and it has recorded a warning
    for every execution without a record, and no other. Missing: two executables are not told apart (below), and names are
    those pandas reads (C77). *)
Theorem C78_samples_grouped_partial :
  forall numeric vsum ts gs ds ws, run_tests numeric vsum ts = Ret (gs, ds, ws) ->
  NoDup (map g_key gs) /\
  (forall test var b, (exists g, In g gs /\ g_key g = (test, var, b)) <-> test <> CNA /\ var <> CNA /\ probe_history numeric ts test var b <> []) /\
  (forall g test var b, In g gs -> g_key g = (test, var, b) ->
     g_values g = map p_val (probe_history numeric ts test var b) /\
     exists first rest, probe_history numeric ts test var b = first :: rest /\ g_thr g = p_thr first /\ g_mode g = p_mode first).
Proof.
  intros numeric vsum ts gs ds ws H. destruct (tests_groups _ _ _ _ _ _ H) as (H1 & H2 & H3). split; [exact H1|]. split; [|exact H3].
  intros test var b. rewrite H2. destruct test, var; cbn [missing]; intuition congruence.
Qed.
Print Assumptions C78_samples_grouped_partial.

(** every execution, as (executable, backend, number of the repetition) and the file it leaves *)
Definition executions (t : task) : list (warning * list Z) :=
  match t_job t with
  | Repeated files => combine (map (fun i => (t_exe t, t_backend t, Z.of_nat i)) (seq 1 (length files))) files
  | Single file rf => [((t_exe t, t_backend t, 1), file)]
  end.
Theorem C78_silent_runs_reported :
  forall numeric vsum ts gs ds ws, run_tests numeric vsum ts = Ret (gs, ds, ws) ->
  forall e b i, b <> reference_name ->
  (In (e, b, i) ws <-> exists t file, In t ts /\ In ((e, b, i), file) (executions t) /\ rows_of numeric file = []).
Proof.
  intros numeric vsum ts gs ds ws H e b i Hb. rewrite (tests_warnings _ _ _ _ _ _ H). rewrite in_flat_map.
  assert (S : forall f, silent numeric f = true <-> rows_of numeric f = []) by (intros f; unfold silent; destruct (rows_of numeric f); split; congruence).
  assert (G : forall t, In (e, b, i) (task_warnings numeric vsum t) <-> exists file, In ((e, b, i), file) (executions t) /\ rows_of numeric file = []).
  { intros t. unfold task_warnings, executions. destruct (t_job t) as [files|file rf].
    - change 1 with (Z.of_nat 1) at 1. generalize 1%nat at 1 2. induction files as [|f files IH]; intros n; cbn [rep_warnings length seq map combine].
      + split; [intros []|intros (file & [] & _)].
      + rewrite in_app_iff. change (Z.of_nat n + 1) with (Z.succ (Z.of_nat n)). rewrite <- Nat2Z.inj_succ, IH. split.
        * intros [I|(file & I & R)]; [|exists file; split; [right; exact I|exact R]]. destruct (silent numeric f) eqn:E; [|destruct I]. apply S in E.
          exists f. split; [|exact E]. left. destruct I as [I|[]]. congruence.
        * intros (file & [I|I] & R); [|right; eauto]. left. injection I as <- <- <- <-. apply S in R. rewrite R. left. reflexivity.
    - rewrite in_app_iff. split.
      + intros [I|I].
        * destruct (silent numeric file) eqn:E; [|destruct I]. apply S in E. destruct I as [I|[]]. exists file. split; [left; congruence|exact E].
        * destruct (_ && _); [|destruct I]. destruct I as [I|[]]. congruence.
      + intros (f & [I|[]] & R). injection I as <- <- <- <-. apply S in R. rewrite R. left. left. reflexivity. }
  split.
  - intros (t & Ht & I). apply G in I as (file & I & R). eauto.
  - intros (t & file & Ht & I & R). exists t. split; [exact Ht|]. apply G. eauto.
Qed.
Print Assumptions C78_silent_runs_reported.

(** end to end: repetitions of a program, each an accepted history of probes with distinct names; every variable of every test
    ends up with its values in the order of the repetitions, bit for bit *)
Definition good_history (numeric : list Z -> option Z) (rs : list probe_req) : Prop :=
  malloc_ok rs /\ Z.of_nat (length rs) <= max_inserts /\ rs <> [] /\
  Forall (fun r => clean_name (pr_test r) /\ clean_name (pr_var r) /\ ~ na_name (pr_test r) /\ ~ na_name (pr_var r)) rs /\
  Forall (fun r => is_bits binary64 (pr_val r) /\ is_nan binary64 (pr_val r) = false /\ is_bits binary64 (pr_thr r) /\ is_nan binary64 (pr_thr r) = false) rs /\
  text_column numeric (map pr_test rs) /\ text_column numeric (map pr_var rs) /\
  Exists (fun r => is_finite binary64 (pr_val r) = true) rs /\ Exists (fun r => is_finite binary64 (pr_thr r) = true) rs /\
  NoDup (map (fun r => (pr_test r, pr_var r)) rs) /\ exists st, ofold probe_kernel rs init_probes = Ok st.
Definition named (test var : list Z) (r : probe_req) : bool := text_eqb (pr_test r) test && text_eqb (pr_var r) var.

Lemma perm_filter_unique (l l' : list probe_req) test var : Permutation l l' -> NoDup (map (fun r => (pr_test r, pr_var r)) l') ->
  filter (named test var) l = filter (named test var) l'.
Proof.
  intros Hp. assert (L : forall l, NoDup (map (fun r => (pr_test r, pr_var r)) l) -> (length (filter (named test var) l) <= 1)%nat).
  { clear. induction l as [|r l IH]; intros H; cbn [filter]; [auto|]. cbn [map] in H. inversion H; subst. destruct (named test var r) eqn:E; [|auto].
    unfold named in E. apply andb_true_iff in E as [E1 E2]. apply text_eqb_eq in E1. apply text_eqb_eq in E2.
    assert (filter (named test var) l = []) as ->; [|auto]. destruct (filter (named test var) l) as [|r' l'] eqn:F; [reflexivity|]. exfalso.
    assert (I : In r' (filter (named test var) l)) by (rewrite F; left; reflexivity). apply filter_In in I as [I E']. unfold named in E'.
    apply andb_true_iff in E' as [E1' E2']. apply text_eqb_eq in E1'. apply text_eqb_eq in E2'.
    apply H2. apply in_map_iff. exists r'. split; [congruence|exact I]. }
  intros Hn. specialize (L l' Hn). assert (P : Permutation (filter (named test var) l) (filter (named test var) l')).
  { clear L Hn. induction Hp; cbn [filter]; try (destruct (named test var x)); try (destruct (named test var y)); eauto using Permutation_refl, perm_swap, perm_trans. }
  destruct (filter (named test var) l') as [|a [|b m]]; [apply Permutation_sym, Permutation_nil in P; exact P| |cbn in L; lia].
  apply Permutation_sym, Permutation_length_1_inv in P. exact P.
Qed.

Lemma good_history_read numeric rs : hex_not_numeric numeric -> modes_not_numeric numeric -> good_history numeric rs ->
  exists ps, Permutation ps rs /\ read_probes numeric (file_after rs) = Ret (false, map row_of ps).
Proof.
  intros Hx Hm (H1 & H2 & H3 & H4 & H5 & H6 & H7 & H8 & H9 & H10 & st & Hst).
  destruct (C77_probes_read_back_partial numeric rs Hx Hm H1 H2 H4 H5 (or_intror (conj H6 (conj H7 (conj H8 H9)))) st Hst) as (file & ps & D & P & R).
  exists ps. split; [exact P|]. unfold file_after. rewrite Hst, D, R. destruct rs; [congruence|]. f_equal. f_equal. apply map_ext. intros r. unfold row_of, mode_text. destruct (pr_mode r); reflexivity.
Qed.

Theorem C78_repetitions_end_to_end_partial :
  forall numeric vsum e b hs, hex_not_numeric numeric -> modes_not_numeric numeric -> hs <> [] -> Forall (good_history numeric) hs ->
  exists gs, run_tests numeric vsum [mk_task e b (Repeated (map file_after hs))] = Ret (gs, [], []) /\
    (forall test var, (exists g, In g gs /\ g_key g = (CStr test, CStr var, b)) <-> exists rs r, In rs hs /\ In r rs /\ pr_test r = test /\ pr_var r = var) /\
    forall g test var, In g gs -> g_key g = (CStr test, CStr var, b) ->
      g_values g = flat_map (fun rs => map pr_val (filter (named test var) rs)) hs.
Proof.
  intros numeric vsum e b hs Hx Hm Hne Hg.
  assert (Hrows : forall rs, In rs hs -> exists ps, Permutation ps rs /\ rows_of numeric (file_after rs) = map row_of ps).
  { intros rs Hr. rewrite Forall_forall in Hg. destruct (good_history_read numeric rs Hx Hm (Hg rs Hr)) as (ps & P & R). exists ps. split; [exact P|]. unfold rows_of. rewrite R. reflexivity. }
  assert (HT : forall i, exists ns, run_repetitions numeric (mk_task e b (Repeated (map file_after hs))) i (map file_after hs) = Ret (ns, [])).
  { revert Hg. generalize (mk_task e b (Repeated (map file_after hs))) as t. clear - Hx Hm. intros t. induction hs as [|rs hs IH]; intros Hg i; cbn [map run_repetitions]; [eauto|].
    inversion Hg; subst. destruct (good_history_read numeric rs Hx Hm H1) as (ps & _ & ->). cbn [pbind]. destruct (IH H2 (i + 1)) as (ns & ->). cbn [pbind app]. eauto. }
  destruct (HT 1) as (ns & HR).
  assert (R : run_tests numeric vsum [mk_task e b (Repeated (map file_after hs))] = Ret (group ns, [], [])).
  { unfold run_tests. cbn [run_all t_job]. rewrite HR. cbn [pbind]. rewrite !app_nil_r. unfold has_frames. cbn [existsb t_job]. destruct hs; [congruence|]. reflexivity. }
  exists (group ns). split; [exact R|].
  destruct (C78_samples_grouped_partial _ _ _ _ _ _ R) as (_ & K & V).
  assert (Hist : forall test var, map p_val (probe_history numeric [mk_task e b (Repeated (map file_after hs))] (CStr test) (CStr var) b) =
    flat_map (fun rs => map pr_val (filter (named test var) rs)) hs).
  { intros test var. unfold probe_history. cbn [flat_map t_backend t_job]. rewrite (proj2 (text_eqb_eq b b) eq_refl), app_nil_r.
    rewrite map_flat_map. rewrite flat_map_concat_map, map_map, <- flat_map_concat_map.
    clear HR R K V HT Hne. induction hs as [|rs hs IH]; [reflexivity|]. cbn [flat_map]. inversion Hg as [|? ? G1 G2]; subst. rewrite IH; [|exact G2|intros; apply Hrows; right; assumption].
    f_equal. destruct (Hrows rs (or_introl eq_refl)) as (ps & P & ->). rewrite filter_map, map_map.
    rewrite <- (perm_filter_unique ps rs test var P) by apply G1. rewrite (filter_ext _ (named test var)); [reflexivity|].
    intros r. unfold same_name, named, row_of. cbn [p_test p_var]. f_equal.
    - destruct (cell_eq_dec _ _) as [E|E]; symmetry; [injection E as ->; apply text_eqb_eq; reflexivity|]. apply not_true_iff_false. rewrite text_eqb_eq. congruence.
    - destruct (cell_eq_dec _ _) as [E|E]; symmetry; [injection E as ->; apply text_eqb_eq; reflexivity|]. apply not_true_iff_false. rewrite text_eqb_eq. congruence. }
  split.
  - intros test var. rewrite K. split.
    + intros (_ & _ & H). specialize (Hist test var). destruct (flat_map (fun rs => map pr_val (filter (named test var) rs)) hs) as [|v l] eqn:F.
      { apply map_eq_nil in Hist. congruence. }
      assert (I : In v (flat_map (fun rs => map pr_val (filter (named test var) rs)) hs)) by (rewrite F; left; reflexivity).
      apply in_flat_map in I as (rs & Hr & I). apply in_map_iff in I as (r & _ & I). apply filter_In in I as [I E]. unfold named in E. apply andb_true_iff in E as [E1 E2].
      apply text_eqb_eq in E1. apply text_eqb_eq in E2. eauto 8.
    + intros (rs & r & Hr & I & E1 & E2). split; [discriminate|]. split; [discriminate|]. intros H. specialize (Hist test var). rewrite H in Hist.
      assert (J : In (pr_val r) (flat_map (fun rs => map pr_val (filter (named test var) rs)) hs)); [|rewrite <- Hist in J; exact J].
      apply in_flat_map. exists rs. split; [exact Hr|]. apply in_map, filter_In. split; [exact I|]. unfold named. rewrite (proj2 (text_eqb_eq _ _) E1), (proj2 (text_eqb_eq _ _) E2). reflexivity.
  - intros g test var Ig Eg. rewrite (proj1 (V _ _ _ _ Ig Eg)). apply Hist.
Qed.
Print Assumptions C78_repetitions_end_to_end_partial.

Example C78_nonvacuous : hex_not_numeric no_number /\ modes_not_numeric no_number /\ Forall (good_history no_number) [C77_reqs; C77_reqs].
Proof.
  destruct C77_nonvacuous as (H1 & H2 & H3 & H4 & H5 & H6 & (H7 & H8 & H9 & H10) & H11).
  split; [exact H1|]. split; [exact H2|].
  assert (G : good_history no_number C77_reqs).
  { unfold good_history. split; [exact H3|]. split; [exact H4|]. split; [discriminate|]. split; [exact H5|]. split; [exact H6|]. split; [exact H7|]. split; [exact H8|].
    split; [exact H9|]. split; [exact H10|]. split; [|exact H11]. repeat (apply NoDup_cons; [vm_compute; intros H; repeat destruct H as [H|H]; try discriminate; assumption|]). apply NoDup_nil. }
  apply Forall_cons; [exact G|]. apply Forall_cons; [exact G|]. apply Forall_nil.
Qed.

(** two executables with a variable of the same name under one backend: their samples are merged, and the second threshold lost *)
Theorem C78_executables_merged_refuted :
  forall vsum, let b := bytes "libinterflop_mca.so"%string in
  let rs1 := [req "t" "err" (1023 * 2 ^ 52) (1000 * 2 ^ 52) CheckAbsolute 16] in
  let rs2 := [req "t" "err" (1024 * 2 ^ 52) (900 * 2 ^ 52) CheckAbsolute 16] in
  run_tests no_number vsum [mk_task (bytes "prog1"%string) b (Repeated [file_after rs1]); mk_task (bytes "prog2"%string) b (Repeated [file_after rs2])] =
    Ret ([mk_grow (CStr (bytes "t"%string), CStr (bytes "err"%string), b) [1023 * 2 ^ 52; 1024 * 2 ^ 52] (1000 * 2 ^ 52) (CStr (bytes "absolute"%string))], [], []).
Proof. vm_compute. reflexivity. Qed.
Print Assumptions C78_executables_merged_refuted.

(** ** C79: if an execution is killed while it writes its probes, or the disk fills up, every row read back is a probe of that
    execution, in the order they were written and with its exact value; only the last one can differ, by its threshold and by
    not being checked. A warning is recorded exactly when nothing was read. Missing: the tool does not notice the missing
    probes, nor the check that disappears (below). *)
Theorem C79_truncated_file_partial :
  forall numeric, modes_not_numeric numeric ->
  forall ps, Forall (fun r => ~ has_comma r /\ clean_name (pr_test r) /\ clean_name (pr_var r) /\ ~ na_name (pr_test r) /\ ~ na_name (pr_var r) /\
                       good_double (pr_val r) /\ good_double (pr_thr r) /\
                       numeric (pr_test r) = None /\ numeric (pr_var r) = None /\ ~ bool_name (pr_test r) /\ ~ bool_name (pr_var r)) ps ->
  forall q q' w rows, q ++ q' = file_of ps -> read_probes numeric q = Ret (w, rows) ->
  (w = true <-> rows = []) /\
  forall i row, nth_error rows i = Some row -> exists r, nth_error ps i = Some r /\
    p_test row = CStr (pr_test r) /\ p_var row = CStr (pr_var r) /\ p_val row = pr_val r /\
    (p_thr row = pr_thr r /\ p_mode row = CStr (mode_text (pr_mode r)) \/
     S i = length rows /\ p_mode row <> CStr (bytes "absolute"%string) /\ p_mode row <> CStr (bytes "relative"%string)).
Proof.
  intros numeric Hm ps Hs q q' w rows E R.
  destruct (read_truncated numeric Hm ps q q' w rows) as [H1 H2]; try assumption.
  { rewrite Forall_forall in *. intros r Hr. specialize (Hs r Hr). unfold solid, splits. pose proof (clean_no_newline r). tauto. }
  split; [exact H1|]. intros i row Hi. destruct (H2 i row Hi) as (r & Hr & (S1 & S2 & S3) & H). exists r. split; [exact Hr|]. split; [exact S1|]. split; [exact S2|]. split; [exact S3|].
  destruct H as [-> |(L & U1 & U2)]; [left; split; reflexivity|right]. split; [exact L|].
  split; intros M; rewrite M in *; vm_compute in U1, U2; discriminate.
Qed.
Print Assumptions C79_truncated_file_partial.

Example C79_nonvacuous :
  Forall (fun r => ~ has_comma r /\ clean_name (pr_test r) /\ clean_name (pr_var r) /\ ~ na_name (pr_test r) /\ ~ na_name (pr_var r) /\
                       good_double (pr_val r) /\ good_double (pr_thr r) /\
                       no_number (pr_test r) = None /\ no_number (pr_var r) = None /\ ~ bool_name (pr_test r) /\ ~ bool_name (pr_var r)) C77_reqs /\
  (exists q q' rows, q ++ q' = file_of C77_reqs /\ q' <> [] /\ read_probes no_number q = Ret (false, rows) /\ length rows = 3%nat).
Proof.
  split.
  - repeat (apply Forall_cons; [repeat split; try (apply clean_ok; reflexivity); try (apply not_na; reflexivity); try (apply not_bool; reflexivity); try (vm_compute; discriminate);
      intros [H|H]; revert H; apply no_comma; reflexivity|]). apply Forall_nil.
  - exists (firstn (length (file_of C77_reqs) - 5) (file_of C77_reqs)), (skipn (length (file_of C77_reqs) - 5) (file_of C77_reqs)). eexists. split; [apply firstn_skipn|]. split; [vm_compute; discriminate|]. split; [vm_compute; reflexivity|reflexivity].
Qed.

(** a file which stops at the end of any of its lines but the first is read without a warning *)
Theorem C79_missing_probes_unnoticed_refuted :
  forall numeric, hex_not_numeric numeric -> modes_not_numeric numeric ->
  forall r ps, Forall (fun r => ~ has_comma r /\ clean_name (pr_test r) /\ clean_name (pr_var r) /\ ~ na_name (pr_test r) /\ ~ na_name (pr_var r) /\
                       good_double (pr_val r) /\ good_double (pr_thr r)) (r :: ps) ->
  numeric (pr_test r) = None -> numeric (pr_var r) = None -> ~ bool_name (pr_test r) -> ~ bool_name (pr_var r) ->
  is_finite binary64 (pr_val r) = true -> is_finite binary64 (pr_thr r) = true ->
  forall k, exists q q', q ++ q' = file_of (r :: ps) /\ q' = concat (map (fun r => line_of fmt_a r ++ [newline]) (skipn k ps)) /\
    read_probes numeric q = Ret (false, map row_of (r :: firstn k ps)).
Proof.
  intros numeric Hx Hm r ps Hg N1 N2 B1 B2 F1 F2 k. exists (file_of (r :: firstn k ps)), (concat (map (fun r => line_of fmt_a r ++ [newline]) (skipn k ps))).
  split; [|split; [reflexivity|]].
  - unfold file_of. cbn [map concat]. rewrite !map_map. assert (concat (map (fun r => line_of fmt_a r ++ [newline]) ps) = concat (map (fun r => line_of fmt_a r ++ [newline]) (firstn k ps)) ++ concat (map (fun r => line_of fmt_a r ++ [newline]) (skipn k ps))) as ->.
    { rewrite <- concat_app, <- map_app, firstn_skipn. reflexivity. }
    rewrite <- !app_assoc. reflexivity.
  - assert (Hg' : Forall (fun r => ~ has_comma r /\ clean_name (pr_test r) /\ clean_name (pr_var r) /\ ~ na_name (pr_test r) /\ ~ na_name (pr_var r) /\
                       good_double (pr_val r) /\ good_double (pr_thr r)) (r :: firstn k ps)).
    { inversion Hg; subst. constructor; [assumption|]. apply Forall_forall. intros x Hi. rewrite Forall_forall in H2. apply H2.
      rewrite <- (firstn_skipn k ps). apply in_or_app. left. exact Hi. }
    rewrite read_file; try assumption; [reflexivity| |].
    + apply Forall_forall. intros x Hi. rewrite Forall_forall in Hg'. specialize (Hg' x Hi). split; [tauto|apply clean_no_newline; tauto].
    + inversion Hg'; subst. split.
      * apply Forall_forall. intros x Hi. rewrite Forall_forall in Hg'. specialize (Hg' x Hi). tauto.
      * right. unfold text_column, some_finite. cbn [map]. repeat split; constructor; tauto.
Qed.
Print Assumptions C79_missing_probes_unnoticed_refuted.

(** a check which fails on the whole file disappears, and passes, when the file is cut inside the word of its mode *)
Theorem C79_failed_check_passes_refuted :
  forall vsum, let rs := [req "t" "err" (1023 * 2 ^ 52) (1000 * 2 ^ 52) CheckAbsolute 16] in
  let reference := file_after [req "t" "err" 0 (1000 * 2 ^ 52) CheckAbsolute 16] in
  let cut := firstn (length (file_after rs) - 4) (file_after rs) in
  let run file := run_tests no_number vsum [mk_task (bytes "prog"%string) (bytes "libinterflop_mca.so"%string) (Single file reference)] in
  vsum [1000 * 2 ^ 52] = 1000 * 2 ^ 52 ->
  (exists d, run (file_after rs) = Ret ([], [d], []) /\ d_check d = false) /\ (exists d, run cut = Ret ([], [d], []) /\ d_check d = true).
Proof.
  intros vsum rs reference cut run Hv.
  assert (R1 : read_probes no_number (file_after rs) = Ret (false, [mk_prow (CStr (bytes "t")) (CStr (bytes "err")) (1023 * 2 ^ 52) (1000 * 2 ^ 52) (CStr (bytes "absolute"))])) by (vm_compute; reflexivity).
  assert (R2 : read_probes no_number reference = Ret (false, [mk_prow (CStr (bytes "t")) (CStr (bytes "err")) 0 (1000 * 2 ^ 52) (CStr (bytes "absolute"))])) by (vm_compute; reflexivity).
  assert (R3 : read_probes no_number cut = Ret (false, [mk_prow (CStr (bytes "t")) (CStr (bytes "err")) (1023 * 2 ^ 52) (1000 * 2 ^ 52) (CStr (bytes "absol"))])) by (vm_compute; reflexivity).
  unfold run, run_tests. cbn [run_all t_job]. unfold run_deterministic. rewrite R1, R2, R3. cbn [pbind map p_thr]. rewrite Hv.
  assert (Z0 : is_zero binary64 (1000 * 2 ^ 52) = false) by reflexivity. rewrite Z0. cbn [negb].
  split.
  - exists (mk_drow (mk_prow (CStr (bytes "t")) (CStr (bytes "err")) (1023 * 2 ^ 52) (1000 * 2 ^ 52) (CStr (bytes "absolute"))) (bytes "libinterflop_mca.so") (Some 0) false).
    split; [vm_compute; reflexivity|reflexivity].
  - exists (mk_drow (mk_prow (CStr (bytes "t")) (CStr (bytes "err")) (1023 * 2 ^ 52) (1000 * 2 ^ 52) (CStr (bytes "absol"))) (bytes "libinterflop_mca.so") (Some 0) true).
    split; [vm_compute; reflexivity|reflexivity].
Qed.
Print Assumptions C79_failed_check_passes_refuted.
Example C79_sum_nonvacuous : exists vsum, vsum [1000 * 2 ^ 52] = 1000 * 2 ^ 52.
Proof. exists (fold_right (fadd binary64) 0). vm_compute. reflexivity. Qed.

(** ** C80: what the checks of a deterministic backend decide. Provided no threshold is negative, either all are zero and
    nothing is checked, or every probe is compared with the row of the same number of the reference run: an absolute check
    passes exactly when the rounded difference is below the threshold, and then the exact difference is below it as well;
    likewise for relative checks; a probe without a reference fails its check. Missing: thresholds of both signs, references
    taken by name, relative checks against zero (below). *)
Theorem C80_deterministic_checks_partial :
  forall numeric vsum e b file rf gs ds ws, (forall l, adds l (vsum l)) ->
  run_tests numeric vsum [mk_task e b (Single file rf)] = Ret (gs, ds, ws) ->
  Forall nonneg (map p_thr (rows_of numeric file)) ->
  gs = [] /\ map d_row ds = rows_of numeric file /\
  forall i d, nth_error ds i = Some d -> d_backend d = b /\
    (Forall (fun t => is_zero binary64 t = true) (map p_thr (rows_of numeric file)) -> d_check d = true) /\
    (Exists (fun t => is_zero binary64 t = false) (map p_thr (rows_of numeric file)) ->
     let v := fval binary64 (p_val (d_row d)) in let t := fval binary64 (p_thr (d_row d)) in
     d_ref d = nth_error (map p_val (rows_of numeric rf)) i /\
     (p_mode (d_row d) <> CStr (bytes "absolute"%string) -> p_mode (d_row d) <> CStr (bytes "relative"%string) -> d_check d = true) /\
     (p_mode (d_row d) = CStr (bytes "absolute"%string) \/ p_mode (d_row d) = CStr (bytes "relative"%string) -> d_ref d = None -> d_check d = false) /\
     (forall x, d_ref d = Some x -> is_finite binary64 (p_val (d_row d)) = true -> is_finite binary64 x = true -> is_finite binary64 (p_thr (d_row d)) = true ->
       let r := fval binary64 x in
       (p_mode (d_row d) = CStr (bytes "absolute"%string) ->
          (d_check d = true <-> (Rabs (rd (v - r)) < Rabs t)%R) /\ (d_check d = true -> (Rabs (v - r) < Rabs t)%R)) /\
       (p_mode (d_row d) = CStr (bytes "relative"%string) -> r <> 0%R /\
          (d_check d = true <-> (Rabs (rd (v - r)) < overflow)%R /\ (Rabs (rd (Rabs (rd (v - r)) / Rabs r)) < Rabs t)%R) /\
          (d_check d = true -> (Rabs (rd (v - r)) < Rabs t * Rabs r)%R)))).
Proof.
  intros numeric vsum e b file rf gs ds ws Hsum H Hn. unfold run_tests in H. cbn [run_all t_job] in H.
  destruct (run_deterministic numeric vsum (mk_task e b (Single file rf)) file rf) as [[ds' ws']| | |] eqn:D; cbn [pbind] in H; try discriminate.
  change (has_frames _) with true in H. cbn [negb] in H. injection H as <- <- _. rewrite app_nil_r.
  apply deterministic_cases in D as (_ & L & D). cbn [t_backend] in D. split; [reflexivity|].
  pose proof (adds_nonneg _ _ (Hsum (map p_thr (rows_of numeric file))) Hn) as [_ Zs].
  split.
  { apply nth_ext with (d := mk_prow CNA CNA 0 0 CNA) (d' := mk_prow CNA CNA 0 0 CNA); [rewrite map_length; exact L|].
    intros n Hl. rewrite map_length in Hl. destruct (nth_error ds' n) as [d|] eqn:E; [|apply nth_error_None in E; lia].
    destruct (D n d E) as (row & Hr & Hd & _). rewrite (nth_error_nth (rows_of numeric file) _ _ Hr). erewrite nth_error_nth; [|rewrite nth_error_map, E; reflexivity]. exact Hd. }
  intros i d Hi. destruct (D i d Hi) as (row & Hr & Hd & Hb & C). split; [exact Hb|]. rewrite Zs in C. split.
  { intros Hz. assert (forallb (is_zero binary64) (map p_thr (rows_of numeric file)) = true) as E by (apply forallb_forall; apply Forall_forall; exact Hz). rewrite E in C. exact C. }
  intros He. assert (forallb (is_zero binary64) (map p_thr (rows_of numeric file)) = false) as E.
  { apply not_true_iff_false. intros F. rewrite forallb_forall in F. apply Exists_exists in He as (t & Ht & Ez). rewrite (F t Ht) in Ez. discriminate. }
  rewrite E in C. cbv zeta. destruct C as [Cr Cv]. split; [exact Cr|]. rewrite Hd.
  assert (HM : forall w, mode_is (p_mode row) w = true <-> p_mode row = CStr (bytes w)).
  { intros w. unfold mode_is. destruct (p_mode row); try (split; discriminate). rewrite text_eqb_eq. split; [intros ->; reflexivity|intros [= ->]; reflexivity]. }
  pose proof (proj1 (Forall_forall _ _) (rows_bits numeric file) row (nth_error_In _ _ Hr)) as [Bv Bt]. cbv beta in Bv, Bt.
  split; [|split].
  - intros N1 N2. rewrite <- HM in N1, N2. apply not_true_iff_false in N1. apply not_true_iff_false in N2. unfold validate in Cv. rewrite N1, N2 in Cv. congruence.
  - intros M Hnone. rewrite Hnone in Cv. unfold validate in Cv. rewrite <- !HM in M. destruct (mode_is (p_mode row) "absolute"); [congruence|]. destruct M as [M|M]; [discriminate|]. rewrite M in Cv. congruence.
  - intros x Hx Fv Fx Ft. rewrite Hx in Cv.
    assert (Bx : is_bits binary64 x).
    { rewrite Hx in Cr. symmetry in Cr. rewrite nth_error_map in Cr. destruct (nth_error (rows_of numeric rf) i) as [row'|] eqn:E'; [|discriminate]. cbn in Cr. injection Cr as <-.
      apply (proj1 (Forall_forall _ _) (rows_bits numeric rf) row' (nth_error_In _ _ E')). }
    split; intros M; apply HM in M.
    + destruct (absolute_check row x M Bv Bx Fv Fx Ft) as (c & Vc & Ec). rewrite Vc in Cv. injection Cv as <-. split; [exact Ec|]. intros P. apply Ec in P.
      destruct (Rlt_or_le (Rabs (fval binary64 (p_val row) - fval binary64 x)) (Rabs (fval binary64 (p_thr row)))) as [|G]; [assumption|].
      apply rd_ge_abs in G; [|exact Ft]. lra.
    + pose proof (relative_check row x M Bv Bx Fv Fx Ft) as R. destruct (is_zero binary64 x) eqn:Zx; [congruence|].
      destruct R as (c & Vc & Ec). rewrite Vc in Cv. injection Cv as <-.
      assert (NZ : fval binary64 x <> 0%R).
      { intros Z. rewrite zero_fval in Zx by exact b64_ok. rewrite Z, Raux.Req_bool_true in Zx by reflexivity. discriminate. }
      split; [exact NZ|]. split; [exact Ec|]. intros P. apply Ec in P as [_ P].
      assert (Px : (0 < Rabs (fval binary64 x))%R) by (apply Rabs_pos_lt; exact NZ).
      set (a := Rabs (rd (fval binary64 (p_val row) - fval binary64 x))) in *.
      destruct (Rlt_or_le a (Rabs (fval binary64 (p_thr row)) * Rabs (fval binary64 x))) as [|G]; [assumption|exfalso].
      assert (G2 : (Rabs (fval binary64 (p_thr row)) <= Rabs (a / Rabs (fval binary64 x)))%R).
      { rewrite (Rabs_pos_eq (a / _)).
        - apply (Rmult_le_reg_r (Rabs (fval binary64 x))); [exact Px|]. unfold Rdiv. rewrite Rmult_assoc, Rinv_l by lra. lra.
        - apply Rmult_le_pos; [apply Rabs_pos|]. left. apply Rinv_0_lt_compat. exact Px. }
      apply rd_ge_abs in G2; [|exact Ft]. lra.
Qed.
Print Assumptions C80_deterministic_checks_partial.

Fixpoint sum_right (l : list Z) : Z := match l with [] => 0 | [x] => x | x :: l' => fadd binary64 x (sum_right l') end.
Lemma sum_right_adds l : adds l (sum_right l).
Proof.
  induction l as [|x l IH]; [constructor|]. destruct l as [|y l]; [constructor|]. change (x :: y :: l) with ([x] ++ (y :: l)).
  change (sum_right ([x] ++ (y :: l))) with (fadd binary64 x (sum_right (y :: l))). constructor; [constructor|exact IH].
Qed.
(** a run with an absolute check that passes, a relative one that fails and a probe which is not checked *)
Definition C80_run : list probe_req :=
  [req "t" "a" (1023 * 2 ^ 52) (1000 * 2 ^ 52) CheckAbsolute 16; req "t" "b" (1024 * 2 ^ 52) (900 * 2 ^ 52) CheckRelative 32; req "t" "c" 1 0 CheckNone 48].
Definition C80_ref : list probe_req :=
  [req "t" "a" (1023 * 2 ^ 52 + 1) (1000 * 2 ^ 52) CheckAbsolute 16; req "t" "b" (1024 * 2 ^ 52 + 2 ^ 40) (900 * 2 ^ 52) CheckRelative 32; req "t" "c" 1 0 CheckNone 48].
Example C80_nonvacuous :
  (forall l, adds l (sum_right l)) /\
  (exists gs ds ws, run_tests no_number sum_right [mk_task (bytes "prog"%string) (bytes "libinterflop_vprec.so"%string) (Single (file_after C80_run) (file_after C80_ref))] = Ret (gs, ds, ws) /\
     map d_check ds = [true; false; true]) /\
  Forall nonneg (map p_thr (rows_of no_number (file_after C80_run))) /\ Exists (fun t => is_zero binary64 t = false) (map p_thr (rows_of no_number (file_after C80_run))).
Proof.
  split; [exact sum_right_adds|]. split; [do 3 eexists; split; vm_compute; reflexivity|].
  assert (map p_thr (rows_of no_number (file_after C80_run)) = [1000 * 2 ^ 52; 900 * 2 ^ 52; 0]) as -> by (vm_compute; reflexivity).
  split; [|constructor; reflexivity].
  repeat (apply Forall_cons; [split; [vm_compute; split; [discriminate|reflexivity]|split; [reflexivity|vm_compute; auto]]|]). apply Forall_nil.
Qed.

(** thresholds that cancel out: no probe is checked and all checks pass, although each of them is far from its reference *)
Theorem C80_cancelling_thresholds_refuted :
  let minus := 2 ^ 63 in let one := 1023 * 2 ^ 52 in
  let rs := [req "t" "a" (1100 * 2 ^ 52) one CheckAbsolute 16; req "t" "b" (1100 * 2 ^ 52) (minus + one) CheckAbsolute 32] in
  let reference := [req "t" "a" 0 one CheckAbsolute 16; req "t" "b" 0 (minus + one) CheckAbsolute 32] in
  forall vsum, (vsum [one; minus + one] = 0 /\ vsum [minus + one; one] = 0) ->
  exists ds, run_tests no_number vsum [mk_task (bytes "prog"%string) (bytes "libinterflop_vprec.so"%string) (Single (file_after rs) (file_after reference))] = Ret ([], ds, []) /\
    map (fun d => p_val (d_row d)) ds = [1100 * 2 ^ 52; 1100 * 2 ^ 52] /\ map d_check ds = [true; true].
Proof.
  intros minus one rs reference vsum [V1 V2].
  assert (R : exists rows, read_probes no_number (file_after rs) = Ret (false, rows) /\ (map p_thr rows = [one; minus + one] \/ map p_thr rows = [minus + one; one]) /\ map p_val rows = [1100 * 2 ^ 52; 1100 * 2 ^ 52]).
  { eexists. split; [vm_compute; reflexivity|]. split; [vm_compute; auto|reflexivity]. }
  destruct R as (rows & R & T & V). unfold run_tests. cbn [run_all t_job]. unfold run_deterministic. rewrite R. cbn [pbind].
  assert (Hz : vsum (map p_thr rows) = 0) by (destruct T as [-> | ->]; assumption). rewrite Hz. change (negb (is_zero binary64 0)) with false. cbn [pbind app negb].
  eexists. split; [reflexivity|]. rewrite app_nil_r, !map_map. cbn [d_row d_check]. split; [exact V|]. apply (f_equal (@length Z)) in V. rewrite map_length in V. cbn [length] in V. clear - V.
  destruct rows as [|r1 [|r2 [|r3 rows]]]; cbn [length] in V; try discriminate V. reflexivity.
Qed.
Print Assumptions C80_cancelling_thresholds_refuted.
Example C80_cancelling_nonvacuous : sum_right [1023 * 2 ^ 52; 2 ^ 63 + 1023 * 2 ^ 52] = 0 /\ sum_right [2 ^ 63 + 1023 * 2 ^ 52; 1023 * 2 ^ 52] = 0.
Proof. vm_compute. auto. Qed.

(** a relative check against a reference value of zero stops the whole tool, whatever else was run *)
Theorem C80_zero_reference_aborts_refuted :
  forall numeric vsum ts e b file rf i row x, (forall l, adds l (vsum l)) ->
  In (mk_task e b (Single file rf)) ts ->
  Forall nonneg (map p_thr (rows_of numeric file)) -> Exists (fun t => is_zero binary64 t = false) (map p_thr (rows_of numeric file)) ->
  nth_error (rows_of numeric file) i = Some row -> p_mode row = CStr (bytes "relative"%string) ->
  nth_error (map p_val (rows_of numeric rf)) i = Some x -> fval binary64 x = 0%R ->
  forall r, run_tests numeric vsum ts <> Ret r.
Proof.
  intros numeric vsum ts e b file rf i row x Hsum Hin Hn He Hr Hm Hx Zx.
  assert (A : forall r, run_all numeric vsum ts <> Ret r).
  { induction ts as [|t ts IH]; [destruct Hin|]. intros r. cbn [run_all]. destruct Hin as [-> |Hin].
    - cbn [t_job]. destruct (run_deterministic numeric vsum (mk_task e b (Single file rf)) file rf) as [[ds ws]| | |] eqn:D; cbn [pbind]; try discriminate.
      exfalso. apply deterministic_cases in D as (_ & L & D).
      assert (Hl : (i < length ds)%nat) by (rewrite L; apply nth_error_Some; rewrite Hr; discriminate). apply nth_error_Some in Hl. destruct (nth_error ds i) as [d|] eqn:E; [|congruence].
      destruct (D i d E) as (row' & Hr' & _ & _ & C). assert (row' = row) as -> by congruence.
      pose proof (adds_nonneg _ _ (Hsum (map p_thr (rows_of numeric file))) Hn) as [_ Zs]. rewrite Zs in C.
      assert (forallb (is_zero binary64) (map p_thr (rows_of numeric file)) = false) as F.
      { apply not_true_iff_false. intros F. rewrite forallb_forall in F. apply Exists_exists in He as (t & Ht & Ez). rewrite (F t Ht) in Ez. discriminate. }
      rewrite F in C. destruct C as [C1 C2]. rewrite C1, Hx in C2. unfold validate in C2. rewrite Hm in C2. cbn [mode_is] in C2.
      change (text_eqb (bytes "relative") (bytes "absolute")) with false in C2. change (text_eqb (bytes "relative") (bytes "relative")) with true in C2. cbv iota in C2.
      assert (is_zero binary64 x = true) as Z by (rewrite zero_fval by exact b64_ok; rewrite Zx, Raux.Req_bool_true by reflexivity; reflexivity).
      cbv zeta in C2. rewrite Z in C2. discriminate.
    - match goal with |- pbind ?m _ <> _ => destruct m as [[[ns ds] ws]| | |]; cbn [pbind]; try discriminate end.
      destruct (run_all numeric vsum ts) as [r'| | |] eqn:R; cbn [pbind]; try discriminate. exfalso. exact (IH Hin r' eq_refl). }
  intros r. unfold run_tests. destruct (run_all numeric vsum ts) as [r'| | |]; cbn [pbind]; try discriminate. exfalso. exact (A r' eq_refl).
Qed.
Print Assumptions C80_zero_reference_aborts_refuted.

Definition C80_zero_ref : list probe_req := [req "t" "a" 0 (1000 * 2 ^ 52) CheckRelative 16].
Example C80_zero_nonvacuous :
  (forall l, adds l (sum_right l)) /\ Forall nonneg (map p_thr (rows_of no_number (file_after C80_zero_ref))) /\
  Exists (fun t => is_zero binary64 t = false) (map p_thr (rows_of no_number (file_after C80_zero_ref))) /\
  exists row, nth_error (rows_of no_number (file_after C80_zero_ref)) 0 = Some row /\ p_mode row = CStr (bytes "relative"%string) /\
    nth_error (map p_val (rows_of no_number (file_after C80_zero_ref))) 0 = Some 0 /\ fval binary64 0 = 0%R.
Proof.
  split; [exact sum_right_adds|].
  assert (rows_of no_number (file_after C80_zero_ref) = [mk_prow (CStr (bytes "t")) (CStr (bytes "a")) 0 (1000 * 2 ^ 52) (CStr (bytes "relative"))]) as -> by (vm_compute; reflexivity).
  cbn [map p_thr p_val nth_error]. split; [|split; [constructor; reflexivity|]].
  - apply Forall_cons; [split; [vm_compute; split; [discriminate|reflexivity]|split; [reflexivity|vm_compute; auto]]|]. apply Forall_nil.
  - eexists. split; [reflexivity|]. split; [reflexivity|]. split; [reflexivity|].
    destruct (Req_bool_spec (fval binary64 0) 0) as [|N]; [assumption|]. pose proof (zero_fval binary64 0 b64_ok) as Z. rewrite Raux.Req_bool_false in Z by exact N. discriminate.
Qed.

(** references are taken by row number: with one more probe in the reference run, values equal to their own reference fail *)
Theorem C80_reference_by_position_refuted :
  let rs := [req "t" "a" (1023 * 2 ^ 52) (1000 * 2 ^ 52) CheckAbsolute 16; req "t" "b" (1024 * 2 ^ 52) (1000 * 2 ^ 52) CheckAbsolute 32] in
  let reference := rs ++ [req "t" "iter" (1030 * 2 ^ 52) 0 CheckNone 48] in
  exists d1 d2, run_tests no_number sum_right [mk_task (bytes "prog"%string) (bytes "libinterflop_vprec.so"%string) (Single (file_after rs) (file_after reference))] = Ret ([], [d1; d2], []) /\
    p_var (d_row d1) = CStr (bytes "a"%string) /\ p_val (d_row d1) = 1023 * 2 ^ 52 /\ d_ref d1 = Some (1030 * 2 ^ 52) /\ d_check d1 = false /\
    p_var (d_row d2) = CStr (bytes "b"%string) /\ p_val (d_row d2) = 1024 * 2 ^ 52 /\ d_ref d2 = Some (1023 * 2 ^ 52) /\ d_check d2 = false.
Proof. do 2 eexists. split; [vm_compute; reflexivity|]. repeat split; reflexivity. Qed.
Print Assumptions C80_reference_by_position_refuted.

(** ** C81: what the checks on samples decide, for any functions computing the mean and the standard deviation *)
Theorem C81_sample_checks :
  forall mean std g, let sigma := std (g_values g) in let mu := mean (g_values g) in
  is_bits binary64 sigma -> is_bits binary64 mu -> is_finite binary64 sigma = true -> nonneg sigma -> is_finite binary64 mu = true -> is_finite binary64 (g_thr g) = true ->
  (g_mode g = CStr (bytes "absolute"%string) ->
     (sample_check mean std g = true <-> (fval binary64 sigma < Rabs (fval binary64 (g_thr g)))%R)) /\
  (g_mode g = CStr (bytes "relative"%string) -> fval binary64 mu <> 0%R ->
     (sample_check mean std g = true <-> (Rabs (rd (fval binary64 sigma / fval binary64 mu)) < Rabs (fval binary64 (g_thr g)))%R) /\
     (sample_check mean std g = true -> (fval binary64 sigma < Rabs (fval binary64 (g_thr g)) * Rabs (fval binary64 mu))%R)) /\
  (g_mode g = CStr (bytes "relative"%string) -> fval binary64 mu = 0%R -> sample_check mean std g = false) /\
  (g_mode g <> CStr (bytes "absolute"%string) -> g_mode g <> CStr (bytes "relative"%string) -> sample_check mean std g = true).
Proof.
  intros mean std g sigma mu Bs Bm Fs Ns Fm Ft.
  assert (HM : forall w, mode_is (g_mode g) w = true <-> g_mode g = CStr (bytes w)).
  { intros w. unfold mode_is. destruct (g_mode g); try (split; discriminate). rewrite text_eqb_eq. split; [intros ->; reflexivity|intros [= ->]; reflexivity]. }
  unfold sample_check. cbv zeta. fold sigma mu.
  assert (Ps : (0 <= fval binary64 sigma)%R).
  { destruct (nonneg_dec _ Ns) as [[D _]|(s & _ & _ & P & _)]; [|exact P]. exfalso. rewrite (dec_finite _ sigma Fs) in D. discriminate. }
  split; [|split; [|split]].
  - intros M. rewrite (proj2 (HM "absolute"%string) M).
    assert (E : flt sigma (fabs (g_thr g)) = flt (fabs sigma) (fabs (g_thr g))).
    { unfold flt. rewrite !fabs_nan. assert (K : order_key (fabs sigma) = order_key sigma); [|rewrite K; reflexivity].
      unfold order_key. unfold fabs. rewrite sgn_code, code_code. destruct Ns as (_ & _ & [Z|S]); [|rewrite S; reflexivity].
      unfold is_zero in Z. apply Z.eqb_eq in Z. rewrite Z. destruct (sgn binary64 sigma =? 1); reflexivity. }
    rewrite E, flt_abs_real by assumption. rewrite (Rabs_pos_eq (fval binary64 sigma)) by exact Ps. tauto.
  - intros M NZ. apply HM in M. rewrite (mode_exclusive _ M), M.
    pose proof (fdiv_encodes binary64 sigma mu b64_ok Bs Bm) as Q. rewrite (dec_finite _ sigma Fs), (dec_finite _ mu Fm) in Q. cbn [ddiv] in Q. rewrite Raux.Req_bool_false in Q by exact NZ.
    assert (S : sxor (sgn binary64 sigma) (sgn binary64 mu) = 0 \/ sxor (sgn binary64 sigma) (sgn binary64 mu) = 1) by (destruct (sgn_01 sigma) as [-> | ->], (sgn_01 mu) as [-> | ->]; auto).
    assert (C : flt (fabs (fdiv binary64 sigma mu)) (fabs (g_thr g)) = true <-> (Rabs (rd (fval binary64 sigma / fval binary64 mu)) < Rabs (fval binary64 (g_thr g)))%R)
      by (eapply encodes_compare; eassumption).
    split; [exact C|]. intros P. apply C in P.
    destruct (Rlt_or_le (fval binary64 sigma) (Rabs (fval binary64 (g_thr g)) * Rabs (fval binary64 mu))) as [|G]; [assumption|exfalso].
    assert (Px : (0 < Rabs (fval binary64 mu))%R) by (apply Rabs_pos_lt; exact NZ).
    assert (G2 : (Rabs (fval binary64 (g_thr g)) <= Rabs (fval binary64 sigma / fval binary64 mu))%R).
    { unfold Rdiv. rewrite Rabs_mult, Rabs_inv, (Rabs_pos_eq (fval binary64 sigma)) by exact Ps. apply (Rmult_le_reg_r (Rabs (fval binary64 mu))); [exact Px|]. rewrite Rmult_assoc, Rinv_l by lra. lra. }
    apply rd_ge_abs in G2; [|exact Ft]. lra.
  - intros M Zm. apply HM in M. rewrite (mode_exclusive _ M), M.
    pose proof (fdiv_encodes binary64 sigma mu b64_ok Bs Bm) as Q. rewrite (dec_finite _ sigma Fs), (dec_finite _ mu Fm) in Q. cbn [ddiv] in Q. rewrite Raux.Req_bool_true in Q by exact Zm.
    assert (S : sxor (sgn binary64 sigma) (sgn binary64 mu) = 0 \/ sxor (sgn binary64 sigma) (sgn binary64 mu) = 1) by (destruct (sgn_01 sigma) as [-> | ->], (sgn_01 mu) as [-> | ->]; auto).
    destruct (Req_bool (fval binary64 sigma) 0).
    + destruct Q as [_ Q]. apply flt_nan_l. rewrite fabs_nan. exact Q.
    + destruct Q as [_ Q]. eapply flt_inf; [exact S|exact Q].
  - intros N1 N2. rewrite <- HM in N1, N2. apply not_true_iff_false in N1. apply not_true_iff_false in N2. rewrite N1, N2. reflexivity.
Qed.
Print Assumptions C81_sample_checks.

Example C81_nonvacuous :
  exists mean std g, let sigma := std (g_values g) in let mu := mean (g_values g) in
  is_bits binary64 sigma /\ is_bits binary64 mu /\ is_finite binary64 sigma = true /\ nonneg sigma /\ is_finite binary64 mu = true /\ is_finite binary64 (g_thr g) = true /\
  g_mode g = CStr (bytes "relative"%string) /\ sample_check mean std g = true.
Proof.
  exists (fun _ => 1024 * 2 ^ 52), (fun _ => 1000 * 2 ^ 52), (mk_grow (CStr (bytes "t"%string), CStr (bytes "x"%string), bytes "b"%string) [1024 * 2 ^ 52; 1024 * 2 ^ 52 + 2 ^ 29] (1020 * 2 ^ 52) (CStr (bytes "relative"%string))).
  cbn [g_values g_thr g_mode]. repeat split; try (vm_compute; discriminate); try reflexivity. right. reflexivity.
Qed.

(** so a relative check of samples which are all zero fails, however accurate they are; and so does any check with a threshold of zero *)
Theorem C81_exact_samples_fail_refuted :
  exists g, g_values g = [0; 0; 0] /\ g_mode g = CStr (bytes "relative"%string) /\ fval binary64 (g_thr g) <> 0%R /\
  forall mean std, mean [0; 0; 0] = 0 -> std [0; 0; 0] = 0 -> sample_check mean std g = false.
Proof.
  exists (mk_grow (CStr (bytes "t"%string), CStr (bytes "x"%string), bytes "b"%string) [0; 0; 0] (1020 * 2 ^ 52) (CStr (bytes "relative"%string))).
  cbn [g_values g_thr g_mode]. split; [reflexivity|]. split; [reflexivity|]. split.
  - intros Z. pose proof (zero_fval binary64 (1020 * 2 ^ 52) b64_ok) as H. rewrite Z, Raux.Req_bool_true in H by reflexivity. discriminate.
  - intros mean std H1 H2. unfold sample_check. cbn [g_values g_thr g_mode]. rewrite H1, H2. vm_compute. reflexivity.
Qed.
Print Assumptions C81_exact_samples_fail_refuted.
