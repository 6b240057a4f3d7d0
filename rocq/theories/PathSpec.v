(** Specification of contraction paths: what a step of a path does to the list of operands, and the numbers a path
    costs.  Independent of the model's list surgery. *)
From Verif Require Import Prelude Contract Spec.

(** The operands at the positions [s], and the others, in order. *)
Definition chosen {A} (s : list nat) (l : list A) : list A := (filter (fun p => p.1 ∈ s) (zip (seq 0 (length l)) l)).*2.
Definition others {A} (s : list nat) (l : list A) : list A := (filter (fun p => p.1 ∉ s) (zip (seq 0 (length l)) l)).*2.

(** Running a path: each step replaces the chosen operands by their combination, appended at the end. *)
Fixpoint run_path {A} (f : list A -> A) (p : path) (l : list A) : list A :=
  match p with [] => l | s :: p' => run_path f p' (others s l ++ [f (chosen s l)]) end.

(** A path replayed on label sets: at each step the sets contracted and the labels kept, which are those that occur in
    the output or in another remaining operand. *)
Definition union_all (l : list (gset N)) : gset N := ⋃ l.
Definition kept (out : gset N) (s : list nat) (sets : list (gset N)) : gset N :=
  union_all (chosen s sets) ∩ (out ∪ union_all (others s sets)).
Fixpoint replay (out : gset N) (p : path) (sets : list (gset N)) : list (list (gset N) * gset N) :=
  match p with
  | [] => []
  | s :: p' => (chosen s sets, kept out s sets) :: replay out p' (others s sets ++ [kept out s sets])
  end.

(** Number of index values of a set of labels. *)
Definition volume (d : N -> nat) (s : gset N) : nat := prod_list (d <$> elements s).
(** Number of multiplications and additions of a step: over all values of the labels involved, k-1 multiplications
    (at least one operation), and one addition if labels are summed away. *)
Definition step_cost (d : N -> nat) (st : list (gset N) * gset N) : nat :=
  volume d (union_all st.1) * (Nat.max 1 (length st.1 - 1) + (if decide (st.2 = union_all st.1) then 0 else 1)).

(** How often a label occurs: in the output and in the operands. *)
Definition occurrences (out : gset N) (sets : list (gset N)) (c : N) : nat :=
  length (filter (fun k => c ∈ k) sets) + (if decide (c ∈ out) then 1 else 0).
(** The number of operations of a pairwise step as [calc_k12_flops] counts them: over all values of the labels involved
    one multiplication, and one addition if a common label is summed. *)
Definition pair_cost (D : N -> nat) (st : list (gset N) * gset N) : nat :=
  volume D (union_all st.1) * (1 + match st.1 with [k1; k2] => if decide (k1 ∩ k2 ⊆ st.2) then 0 else 1 | _ => 0 end).
Notation pairwise := (Forall (fun s => length s = 2)).
