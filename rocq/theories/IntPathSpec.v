(** Specification for explicit paths of integers, independent of the model. *)
From Verif Require Import Prelude.
From Coq Require Import Sorting.Sorted.

(** Taking out the positions [t] one after the other, each is one of the list as it then is: of [n], [n - 1], ... elements. *)
Fixpoint exist_in_turn (n : nat) (t : list Z) : Prop :=
  match t with [] => True | z :: t => (- Z.of_nat n <= z < Z.of_nat n)%Z /\ exist_in_turn (n - 1) t end.
(** The positions of a step, the largest first. *)
Definition largest_first (s t : list Z) : Prop := t ≡ₚ s /\ StronglySorted (fun a b => (b <= a)%Z) t.
(** A path that uses up [n] operands, if all its positions exist... *)
Fixpoint uses_up (n : nat) (p : list (list Z)) : Prop :=
  match p with [] => n = 1 | s :: p => s <> [] /\ uses_up (n - length s + 1) p end.
(** ... and they do. *)
Fixpoint positions_exist (n : nat) (p : list (list Z)) : Prop :=
  match p with [] => True | s :: p => (exists t, largest_first s t /\ exist_in_turn n t) /\ positions_exist (n - length s + 1) p end.
(** The operands a step names, as Python's indexing counts. *)
Definition points_to (n : nat) (z : Z) : Z := if decide (0 <= z)%Z then z else (Z.of_nat n + z)%Z.
