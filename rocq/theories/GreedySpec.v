(** What the greedy search promises about the order of its steps. *)
From Verif Require Import Prelude Contract Spec PathSpec.

(** Labels that can be summed before the last step: not in the output and missing from some input. *)
Definition free (inputs : list (gset N)) (output : gset N) (c : N) : Prop := c ∉ output /\ exists k, k ∈ inputs /\ c ∉ k.
(** Two operands have such a label in common. *)
Definition linked (fr : N -> Prop) (a b : gset N) : Prop := exists c, fr c /\ c ∈ a /\ c ∈ b.
Definition unlinked (fr : N -> Prop) (l : list (gset N)) : Prop := forall i j a b, i <> j -> l !! i = Some a -> l !! j = Some b -> ~ linked fr a b.

(** Every step of a path, replayed on label sets, satisfies [Q]: the sets contracted and the other ones. *)
Fixpoint each_step (Q : list (gset N) -> list (gset N) -> Prop) (out : gset N) (p : path) (sets : list (gset N)) : Prop :=
  match p with
  | [] => True
  | s :: p' => Q (chosen s sets) (others s sets) /\ each_step Q out p' (others s sets ++ [kept out s sets])
  end.
(** A pairwise step that is a contraction, or multiplies operands with the same labels elementwise, or is taken when nothing can be contracted. *)
Definition outer_last (fr : N -> Prop) (now rest : list (gset N)) : Prop :=
  exists a b, now = [a; b] /\ (linked fr a b \/ a = b \/ unlinked fr (now ++ rest)).
(** The same, and what is multiplied when nothing can be contracted are two operands than which no other is smaller.  The size is without the labels that are
    on that operand only and not in the output: nothing is left of those in the result. *)
Definition smallest_first (fr : N -> Prop) (D : N -> nat) (out : gset N) (now rest : list (gset N)) : Prop :=
  let weight k other := volume D (k ∩ (out ∪ union_all other)) in
  exists a b, now = [a; b] /\ (linked fr a b \/ a = b \/ (unlinked fr (now ++ rest) /\ forall i c, rest !! i = Some c ->
    weight a (b :: rest) <= weight c (a :: b :: delete i rest) /\ weight b (a :: rest) <= weight c (a :: b :: delete i rest))).

(** What contracting the operands [i] and [j] costs under a cost function of the sizes and label sets of result and operands. *)
Definition cost_of (cost : nat -> nat -> nat -> gset N -> gset N -> gset N -> Z) (D : N -> nat) (out : gset N) (sets : list (gset N)) (i j : nat) : Z :=
  let k := kept out [i; j] sets in let a := default ∅ (sets !! i) in let b := default ∅ (sets !! j) in
  cost (volume D k) (volume D a) (volume D b) k a b.
(** The pair [i], [j] can be contracted and no such pair is cheaper; ties go to the pair whose larger position, then whose smaller position, is least. *)
Definition cheapest_pair (fr : N -> Prop) (c : nat -> nat -> Z) (sets : list (gset N)) (i j : nat) : Prop :=
  let can i j := exists a b, i < j /\ sets !! i = Some a /\ sets !! j = Some b /\ linked fr a b in
  can i j /\ forall i' j', can i' j' -> (c i j < c i' j')%Z \/ (c i j = c i' j' /\ (j < j' \/ (j = j' /\ i <= i'))).
(** The memory a contraction adds. *)
Definition memory_added (size12 size1 size2 : nat) (_ _ _ : gset N) : Z := (Z.of_nat size12 - (Z.of_nat size1 + Z.of_nat size2))%Z.
