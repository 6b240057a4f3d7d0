(** What [BranchBound] promises about the path it returns. *)
From Verif Require Import Prelude Contract Spec PathSpec GreedySpec Branch.

(** The operations of a path and the size of its largest intermediate. *)
Definition path_flops (D : N -> nat) (out : gset N) (p : path) (sets : list (gset N)) : nat := sum_list (pair_cost D <$> replay out p sets).
Definition path_size (D : N -> nat) (out : gset N) (p : path) (sets : list (gset N)) : nat := max_list' ((fun st => volume D st.2) <$> replay out p sets).
(** Operations and size [f], [s] are no worse than [f'], [s'], the quantity to be minimised first. *)
Definition no_worse (m : minimize) (f s f' s' : nat) : Prop :=
  match m with MinFlops => f < f' \/ (f = f' /\ s <= s') | MinSize => s < s' \/ (s = s' /\ f <= f') end.
Notation any_label := (fun _ : N => True).
(** A pairwise step that contracts operands with a common label, or is taken when no two operands have one. *)
Definition contracting (now rest : list (gset N)) : Prop :=
  exists a b, now = [a; b] /\ (linked any_label a b \/ unlinked any_label (now ++ rest)).

(** The operands at two positions may be contracted: they have a common label, or no two operands have one. *)
Definition allowed (sets : list (gset N)) (i j : nat) : Prop :=
  exists a b, i < j /\ sets !! i = Some a /\ sets !! j = Some b /\ (linked any_label a b \/ unlinked any_label sets).
(** The operations a step adds. *)
Definition adds (D : N -> nat) (out : gset N) (sets : list (gset N)) (i j : nat) : nat := pair_cost D (chosen [i; j] sets, kept out [i; j] sets).
(** Each step of a path, replayed on label sets, satisfies [Q]: the operations spent before, the operands, the positions. *)
Fixpoint each_choice (Q : nat -> list (gset N) -> nat -> nat -> Prop) (D : N -> nat) (out : gset N) (spent : nat) (p : path) (sets : list (gset N)) : Prop :=
  match p with
  | [] => True
  | s :: p' => exists i j, s = [i; j] /\ Q spent sets i j /\ each_choice Q D out (spent + adds D out sets i j) p' (others s sets ++ [kept out s sets])
  end.
(** [i], [j] is the pair to be contracted: allowed, and no allowed pair that cannot be cut off by another one costs less; ties are broken by the
    operations added. *)
Definition best_choice (cost : nat -> nat -> nat -> gset N -> gset N -> gset N -> Z) (cut : nat -> nat -> bool) (D : N -> nat) (out : gset N)
    (spent : nat) (sets : list (gset N)) (i j : nat) : Prop :=
  let c := cost_of cost D out sets in let f := adds D out sets in
  allowed sets i j /\
  forall i' j', allowed sets i' j' -> (forall i'' j'', allowed sets i'' j'' -> cut (spent + f i' j') (spent + f i'' j'') = false) ->
    (c i j < c i' j')%Z \/ (c i j = c i' j' /\ f i j <= f i' j').
