(** Specification of contraction trees: leaves, nodes and the value of a tree. *)
From Verif Require Import Prelude Tree.

Fixpoint leaves (t : tree) : list nat := match t with Leaf i => [i] | Node l => mjoin (map leaves l) end.
(** The inner nodes. *)
Fixpoint nodes (t : tree) : list tree := match t with Leaf _ => [] | Node l => Node l :: mjoin (map nodes l) end.
(** The value of a tree: leaves have values [L], a node combines the values of its children with [f]. *)
Fixpoint value {A} (f : list A -> A) (L : nat -> A) (t : tree) : A := match t with Leaf i => L i | Node l => f (map (value f L) l) end.
(** A tree over the operands [0..n-1], each used once; no node is empty. *)
Definition tree_over (n : nat) (t : tree) : Prop := leaves t ≡ₚ seq 0 n /\ Node [] ∉ nodes t.
(** Contraction is commutative. *)
Definition commutes {A} (f : list A -> A) : Prop := forall l l', l ≡ₚ l' -> f l = f l'.
