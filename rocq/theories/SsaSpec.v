(** Specification of paths in static single assignment (SSA) form: operand [i] is input [i], step [k] creates operand
    [n + k], and every operand is used once. *)
From Verif Require Import Prelude Contract Spec PathSpec.

(** [av] are the operands available, [next] the id of the next result. *)
Fixpoint ssa_runs (av : list nat) (next : nat) (p : path) : Prop :=
  match p with
  | [] => length av = 1
  | s :: p' => s <> [] /\ NoDup s /\ (forall i, i ∈ s -> i ∈ av) /\ ssa_runs (filter (.∉ s) av ++ [next]) (S next) p'
  end.
Definition ssa_complete (n : nat) (p : path) : Prop := ssa_runs (seq 0 n) n p.

(** Executing an SSA path: the values of all operands ever created, indexed by their ids.  [f] combines the operands of
    a step, taken in the order of their ids. *)
Fixpoint run_ssa {A} (f : list A -> A) (p : path) (vals : list A) : list A :=
  match p with
  | [] => vals
  | s :: p' => run_ssa f p' (vals ++ [f (omap (fun i => vals !! i) (sort_nat s))])
  end.
(** The results of a linear path, step by step. *)
Fixpoint results {A} (f : list A -> A) (p : path) (l : list A) : list A :=
  match p with [] => [] | s :: p' => f (chosen s l) :: results f p' (others s l ++ [f (chosen s l)]) end.
