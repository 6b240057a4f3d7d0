(** Specification: when two contraction problems are the same up to the order of the operands and the names of the labels. *)
From Verif Require Import Prelude Contract Spec PathSpec.

(** [f] renames the labels of the operands [inputs] and the output [out]: different ones stay different, and the operands get listed in some order. *)
Record renamed (f : N -> N) (inputs : list (gset N)) (out : gset N) (inputs' : list (gset N)) (out' : gset N) : Prop := Renamed {
  rn_inj : forall a b, a ∈ union_all inputs ∪ out -> b ∈ union_all inputs ∪ out -> f a = f b -> a = b;
  rn_inputs : inputs' ≡ₚ set_map f <$> inputs;
  rn_out : out' = set_map f out }.
(** Steps of two paths that contract the same operands to the same result. *)
Definition same_step (f : N -> N) (st st' : list (gset N) * gset N) : Prop := st'.1 ≡ₚ set_map f <$> st.1 /\ st'.2 = set_map f st.2.
