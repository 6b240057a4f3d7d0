(** Specification for the dynamic programming search seen as a search for paths: the numbers a path costs. *)
From Verif Require Import Prelude Contract Spec PathSpec Dp DpSpec.

(** The steps of a replayed path that contract at least two operands. *)
Definition contractions (l : list (list (gset N) * gset N)) : list (list (gset N) * gset N) := filter (fun st => 2 <= length st.1) l.
(** Of a step: the number of index values looped over, and the number of entries of the result. *)
Definition step_flops (D : N -> nat) (st : list (gset N) * gset N) : nat := volume D (union_all st.1).
Definition step_size (D : N -> nat) (st : list (gset N) * gset N) : nat := volume D st.2.
(** The measure of a list of steps in each mode. *)
Definition steps_measure (mode : dp_min) (D : N -> nat) (l : list (list (gset N) * gset N)) : nat :=
  match mode with
  | DpFlops => sum_list (step_flops D <$> l)
  | DpSize => max_list (step_size D <$> l)
  | DpWrite => sum_list (step_size D <$> l)
  | DpCombo factor => sum_list ((fun st => step_flops D st + factor * step_size D st) <$> l)
  | DpLimit factor => sum_list ((fun st => Nat.max (step_flops D st) (factor * step_size D st)) <$> l)
  | DpLocal cost => sum_list ((fun st => cost (step_flops D st) (step_size D st)) <$> l)
  end.
Definition path_measure (mode : dp_min) (D : N -> nat) (out : gset N) (p : path) (inputs : list (gset N)) : nat :=
  steps_measure mode D (contractions (replay out p inputs)).
(** Larger contractions do not cost less; this is a question only for custom cost functions. *)
Definition monotone_mode (mode : dp_min) : Prop := match mode with DpLocal cost => forall a a' b b', a <= a' -> b <= b' -> cost a b <= cost a' b' | _ => True end.
(** A pairwise step whose operands have a summed label in common. *)
Definition inner_step (out : gset N) (st : list (gset N) * gset N) : Prop := match st.1 with [k1; k2] => exists c, c ∈ k1 /\ c ∈ k2 /\ c ∉ out | _ => True end.
Definition within (D : N -> nat) (mem : option nat) (st : list (gset N) * gset N) : Prop := match mem with None => True | Some limit => step_size D st <= limit end.
(** The paths searched: steps of one or two operands, outer products only if asked for, all results within the limit. *)
Definition path_allowed (search_outer : bool) (mem : option nat) (D : N -> nat) (out : gset N) (p : path) (inputs : list (gset N)) : Prop :=
  Forall (fun s => length s <= 2) p /\
  Forall (fun st => (search_outer = false -> inner_step out st) /\ within D mem st) (contractions (replay out p inputs)).
(** A cheapest one. *)
Definition best_path (mode : dp_min) (search_outer : bool) (mem : option nat) (D : N -> nat) (out : gset N) (inputs : list (gset N)) (p : path) : Prop :=
  path_runs (length inputs) p /\ path_allowed search_outer mem D out p inputs /\
  forall q, path_runs (length inputs) q -> path_allowed search_outer mem D out q inputs -> path_measure mode D out p inputs <= path_measure mode D out q inputs.
