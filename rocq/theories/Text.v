(** Byte strings as [list Z] and an independent notion of splitting a text at a separator. *)
From Coq Require Import Ascii String ZArith List Bool Lia.
Import ListNotations.
Open Scope Z_scope.

Definition bytes (s : string) : list Z := map (fun c => Z.of_nat (nat_of_ascii c)) (list_ascii_of_string s).

Definition comma : Z := 44.
Definition newline : Z := 10.

(** [split_on c l]: the maximal pieces of [l] between occurrences of [c] (never empty as a list). *)
Fixpoint split_on (c : Z) (l : list Z) : list (list Z) :=
  match l with
  | [] => [[]]
  | x :: l' =>
      if x =? c then [] :: split_on c l'
      else match split_on c l' with
           | [] => [[x]]
           | p :: ps => (x :: p) :: ps
           end
  end.

Lemma split_on_nosep c p : ~ In c p -> split_on c p = [p].
Proof.
  induction p as [|x p IH]; intros H; cbn; [reflexivity|].
  destruct (Z.eqb_spec x c) as [->|E]; [exfalso; apply H; left; reflexivity|].
  rewrite IH by (intros Hi; apply H; right; assumption). reflexivity.
Qed.

Lemma split_on_app c p l : ~ In c p -> split_on c (p ++ c :: l) = p :: split_on c l.
Proof.
  induction p as [|x p IH]; intros H; cbn.
  - rewrite Z.eqb_refl. reflexivity.
  - destruct (Z.eqb_spec x c) as [->|E]; [exfalso; apply H; left; reflexivity|].
    rewrite IH by (intros Hi; apply H; right; assumption). reflexivity.
Qed.

Lemma split_on_lines c ls : Forall (fun l => ~ In c l) ls ->
  split_on c (concat (map (fun l => l ++ [c]) ls)) = ls ++ [[]].
Proof.
  induction 1 as [|l ls Hl Hls IH]; cbn; [reflexivity|].
  rewrite <- app_assoc. cbn. rewrite split_on_app by assumption. rewrite IH. reflexivity.
Qed.
