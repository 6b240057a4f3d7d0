(** What can_blas promises (docstring and comments of /repo/opt_einsum/blas.py), in terms of the two label strings only. *)
From Verif Require Import Prelude.

(** The labels both operands have. *)
Definition shared (l r : str) : gset N := list_to_set l ∩ list_to_set r.

(** The labels that are summed: those the result does not have. *)
Definition summed (l r result : str) : gset N := list_to_set (l ++ r) ∖ list_to_set result.

(** tensordot can do [l, r -> result]: no label twice in an operand, the shared labels and only these are summed. *)
Definition tensordot_form (l r result : str) : Prop :=
  NoDup l /\ NoDup r /\ (forall c, c ∈ l \/ c ∈ r -> (c ∈ result <-> ~ (c ∈ l /\ c ∈ r))).
(** No summed dimension is broadcast. *)
Definition same_dims (l r : str) (shl shr : list nat) : Prop :=
  forall c i j, l !! i = Some c -> r !! j = Some c -> shl !! i = shr !! j.

(** [g] is at the beginning or at the end of [s], [a] is the rest of [s]. *)
Definition at_end (g a s : str) : Prop := s = a ++ g \/ s = g ++ a.
(** The shared labels are one block in the same order at an end of both operands: a matrix product without a copy. *)
Definition matrix_form (l r : str) : Prop :=
  exists g a b, at_end g a l /\ at_end g b r /\ (forall c, c ∈ a -> c ∉ b).
