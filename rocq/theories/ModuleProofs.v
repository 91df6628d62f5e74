(** Proofs about ModuleModel.v. *)
From Coq Require Import String ZArith List Bool Lia.
From Verif Require Import Common Text Bits FloatOps IeeeModel WrapModel VfiModel InstrModel InstrProofs SelectModel ModuleModel.
Import ListNotations.
Open Scope Z_scope.
Open Scope outcome_scope.

(** * Two modules of the same shape whose bodies do the same *)
Definition seen {W1 W2} {X} (pi : W1 -> W2) (r : outcome (X * W1)) : outcome (X * W2) := let* '(v, w) := r in Ok (v, pi w).
Lemma seen_id {W X} (r : outcome (X * W)) : seen (fun w => w) r = r. Proof. destruct r as [[v w]| | |]; reflexivity. Qed.

Section sim.
  Context {B1 B2 W1 W2 : Type} (pi : W1 -> W2).
  Context (rb1 : oracle (W := W1) -> env -> list B1 -> W1 -> outcome (env * W1)) (rb2 : oracle (W := W2) -> env -> list B2 -> W2 -> outcome (env * W2)).
  (** the functions that are called *)
  Context (callable : list Z -> Prop).
  Definition good (i : instr) : Prop := match i_op i with Call (Some n) => callable n | _ => True end.
  Definition oracles (o1 : oracle (W := W1)) (o2 : oracle (W := W2)) : Prop := forall i vs w, good i -> seen pi (o1 i vs w) = o2 i vs (pi w).
  (** [ok]: what is known of the second oracle *)
  Context (ok : oracle (W := W2) -> Prop).
  Definition bodies (b1 : list B1) (b2 : list B2) : Prop := forall o1 o2 e w, ok o2 -> oracles o1 o2 -> seen pi (rb1 o1 e b1 w) = rb2 o2 e b2 (pi w).
  Definition like_block (b1 : block B1) (b2 : block B2) : Prop := k_phis b1 = k_phis b2 /\ k_term b1 = k_term b2 /\ bodies (k_body b1) (k_body b2).
  Definition like_func (f1 : func B1) (f2 : func B2) : Prop := f_params f1 = f_params f2 /\ Forall2 like_block (f_blocks f1) (f_blocks f2).
  Definition found (m1 : list (func B1)) (m2 : list (func B2)) (n1 n2 : list Z) : Prop :=
    match find_func m1 n1, find_func m2 n2 with Some f1, Some f2 => like_func f1 f2 | None, None => True | _, _ => False end.

  Lemma blocks_sim o1 o2 n bs1 bs2 : ok o2 -> oracles o1 o2 -> Forall2 like_block bs1 bs2 ->
    forall prev cur e w, seen pi (run_blocks rb1 o1 n bs1 prev cur e w) = run_blocks rb2 o2 n bs2 prev cur e (pi w).
  Proof.
    intros Hok Ho Hb. induction n as [|n IH]; intros prev cur e w; [reflexivity|]. cbn [run_blocks].
    assert (N : match nth_error bs1 cur, nth_error bs2 cur with Some b1, Some b2 => like_block b1 b2 | None, None => True | _, _ => False end).
    { clear - Hb. revert cur. induction Hb as [|b1 b2 bs1 bs2 H Hb IH]; intros [|cur]; cbn [nth_error]; auto. apply IH. }
    destruct (nth_error bs1 cur) as [b1|], (nth_error bs2 cur) as [b2|]; try contradiction; [|reflexivity].
    destruct N as (N1 & N2 & N3).
    assert (E : enter_block e prev b1 = enter_block e prev b2) by (unfold enter_block; rewrite N1; reflexivity). rewrite E.
    destruct (enter_block e prev b2) as [e1| | |]; cbn [bind seen]; try reflexivity.
    rewrite <- (N3 o1 o2 e1 w Hok Ho). destruct (rb1 o1 e1 (k_body b1) w) as [[e2 w2]| | |]; cbn [bind seen]; try reflexivity.
    rewrite N2. destruct (next e2 (k_term b2)) as [[v|l]| | |]; cbn [bind seen]; try reflexivity. apply IH.
  Qed.
  Lemma defined_like m1 m2 n1 n2 : found m1 m2 n1 n2 -> is_defined m1 n1 = is_defined m2 n2.
  Proof.
    intros F. unfold is_defined. unfold found in F. destruct (find_func m1 n1), (find_func m2 n2); try contradiction; [|reflexivity].
    destruct F as (_ & F). destruct F; reflexivity.
  Qed.
  (** the names at the top may differ *)
  Lemma fun_sim ext1 ext2 m1 m2 : oracles ext1 ext2 -> (forall n, callable n -> found m1 m2 n n) -> (forall n, ok (with_calls ext2 m2 (run_fun rb2 ext2 m2 n))) ->
    forall fuel n1 n2 args w, found m1 m2 n1 n2 -> seen pi (run_fun rb1 ext1 m1 fuel n1 args w) = run_fun rb2 ext2 m2 fuel n2 args (pi w).
  Proof.
    intros He Hm Hok. induction fuel as [|n IH]; intros n1 n2 args w F; [reflexivity|]. cbn [run_fun].
    unfold found in F. destruct (find_func m1 n1) as [f1|], (find_func m2 n2) as [f2|]; try contradiction; [|reflexivity].
    destruct F as (F2 & F3). rewrite F2. destruct (bind_params (f_params f2) args (fun _ => None)) as [e| | |]; cbn [bind seen]; try reflexivity.
    apply blocks_sim; [apply Hok| |exact F3]. intros i vs w' Hg. unfold with_calls. unfold good in Hg. destruct (i_op i) as [| | | | |[c|]| |] eqn:Eo; try (apply He; unfold good; rewrite Eo; exact I).
    rewrite (defined_like m1 m2 c c (Hm c Hg)). destruct (is_defined m2 c); [apply IH; apply Hm; exact Hg|]. apply He. unfold good. rewrite Eo. exact Hg.
  Qed.
  Lemma find_like m1 m2 n : Forall2 (fun f1 f2 => f_name f1 = f_name f2 /\ like_func f1 f2) m1 m2 -> found m1 m2 n n.
  Proof.
    intros H. unfold found. induction H as [|f1 f2 m1 m2 [F1 Hf] H IH]; [exact I|]. unfold find_func. cbn [List.find]. rewrite F1.
    destruct (byte_eqb (f_name f2) n); [exact Hf|]. exact IH.
  Qed.
End sim.

(** * More budget does not change the result *)
Definition below {W} (o o' : oracle (W := W)) : Prop := forall i vs w, o i vs w <> Diverge -> o' i vs w = o i vs w.
Definition monotone {B W} (rb : oracle (W := W) -> env -> list B -> W -> outcome (env * W)) : Prop :=
  forall o o' e b w, below o o' -> rb o e b w <> Diverge -> rb o' e b w = rb o e b w.
Section fuel.
  Context {B W : Type} (rb : oracle (W := W) -> env -> list B -> W -> outcome (env * W)) (Hrb : monotone rb).
  Lemma blocks_more o o' n n' bs : below o o' -> (n <= n')%nat -> forall prev cur e w,
    run_blocks rb o n bs prev cur e w <> Diverge -> run_blocks rb o' n' bs prev cur e w = run_blocks rb o n bs prev cur e w.
  Proof.
    intros Ho. revert n'. induction n as [|n IH]; intros n' Hn prev cur e w H; [destruct (H eq_refl)|].
    destruct n' as [|n']; [lia|]. cbn [run_blocks] in *. destruct (nth_error bs cur) as [b|]; [|reflexivity].
    destruct (enter_block e prev b) as [e1| | |]; cbn [bind] in *; try reflexivity.
    assert (R : rb o e1 (k_body b) w <> Diverge) by (intros R; rewrite R in H; exact (H eq_refl)).
    rewrite (Hrb o o' e1 (k_body b) w Ho R). destruct (rb o e1 (k_body b) w) as [[e2 w2]| | |]; cbn [bind] in *; try reflexivity.
    destruct (next e2 (k_term b)) as [[v|l]| | |]; cbn [bind] in *; try reflexivity. apply IH; [lia|exact H].
  Qed.
  Lemma fun_more ext m fuel fuel' : (fuel <= fuel')%nat -> forall name args w,
    run_fun rb ext m fuel name args w <> Diverge -> run_fun rb ext m fuel' name args w = run_fun rb ext m fuel name args w.
  Proof.
    revert fuel'. induction fuel as [|n IH]; intros fuel' Hn name args w H; [destruct (H eq_refl)|].
    destruct fuel' as [|n']; [lia|]. cbn [run_fun] in *. destruct (find_func m name) as [f|]; [|reflexivity].
    destruct (bind_params (f_params f) args (fun _ => None)) as [e| | |]; cbn [bind] in *; try reflexivity.
    apply blocks_more; [|lia|exact H]. intros i vs w'. unfold with_calls. destruct (i_op i) as [| | | | |[c|]| |]; try reflexivity.
    destruct (is_defined m c); [|reflexivity]. apply IH. lia.
  Qed.
End fuel.
Lemma run_block_monotone {W} (bs : list (backend W)) : monotone (run_block bs).
Proof.
  intros o o' e b w Ho. revert e w. induction b as [|s b IH]; intros e w H; [reflexivity|]. cbn [run_block] in *.
  assert (S : run_step bs o e s w <> Diverge -> run_step bs o' e s w = run_step bs o e s w).
  { destruct s; cbn [run_step]; unfold run_native; try reflexivity; intros Hd.
    - destruct (read_all e (i_args i)) as [vs| | |]; cbn [bind] in *; try reflexivity. rewrite Ho; [reflexivity|]. intros R. rewrite R in Hd. exact (Hd eq_refl).
    - destruct (run_call bs e c w) as [[v w']| | |]; cbn [bind] in *; try reflexivity.
      destruct (read_all e (i_args i)) as [vs| | |]; cbn [bind] in *; try reflexivity. rewrite Ho; [reflexivity|]. intros R. rewrite R in Hd. exact (Hd eq_refl). }
  destruct (run_step bs o e s w) as [[e' w']| | |] eqn:E; cbn [bind] in *; try (rewrite S by discriminate; reflexivity); [|destruct (H eq_refl)].
  rewrite S by discriminate. cbn [bind]. apply IH. exact H.
Qed.

(** * The pass *)
Lemma omapi_spec {A B} (f : nat -> A -> outcome B) (R : A -> B -> Prop) : forall l k,
  (forall j x, nth_error l j = Some x -> exists y, f (k + j)%nat x = Ok y /\ R x y) -> exists l', omapi f k l = Ok l' /\ Forall2 R l l'.
Proof.
  induction l as [|x l IH]; intros k H; [exists []; split; [reflexivity|constructor]|].
  destruct (H O x eq_refl) as (y & Hy & Ry). rewrite Nat.add_0_r in Hy.
  destruct (IH (S k)) as (l' & Hl & Rl).
  { intros j z Hz. destruct (H (S j) z Hz) as (y' & Hy' & Ry'). exists y'. rewrite <- Nat.add_succ_comm in Hy'. auto. }
  exists (y :: l'). cbn [omapi]. rewrite Hy. cbn [bind]. rewrite Hl. split; [reflexivity|constructor; assumption].
Qed.
Lemma member_in n l : member n l = true <-> In n l.
Proof.
  unfold member. rewrite existsb_exists. split.
  - intros (x & Hx & E). unfold byte_eqb in E. destruct (list_eq_dec Z.eq_dec n x); [subst; exact Hx|discriminate].
  - intros H. exists n. split; [exact H|]. unfold byte_eqb. destruct (list_eq_dec Z.eq_dec n n); congruence.
Qed.
