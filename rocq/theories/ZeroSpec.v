(** What random-greedy promises at temperature zero. *)
From Verif Require Import Prelude Contract Spec PathSpec Greedy GreedySpec.

(** path_random.py 256-266 at temperature 0: the weight of a candidate is 1 if it costs as much as the first one, else 0.  [max(1, abs(cmin))]
    times 0 is 0, so [rel_temperature] makes no difference. *)
Definition zero_energy (choices : list gcand) (c : gcand) : nat :=
  match choices with [] => 0 | c0 :: _ => if decide (q_cost c = q_cost c0) then 1 else 0 end.
(** [random.choices] (path_random.py 269) draws a position whose weight is not 0. *)
Definition draws_weighted (energy : list gcand -> gcand -> nat) (pick : nat -> list gcand -> nat) : Prop :=
  forall k l, l <> [] -> exists c, l !! pick k l = Some c /\ 0 < energy l c.

(** No label that can be summed is on more than two operands. *)
Definition on_two (inputs : list (gset N)) (output : gset N) : Prop :=
  forall x i j l a b c, free inputs output x -> inputs !! i = Some a -> inputs !! j = Some b -> inputs !! l = Some c ->
    x ∈ a -> x ∈ b -> x ∈ c -> i = j \/ j = l \/ i = l.
(** The order of the two operands does not matter to a cost function. *)
Definition symmetric_cost (cost : nat -> nat -> nat -> gset N -> gset N -> gset N -> Z) : Prop :=
  forall s s1 s2 k k1 k2, cost s s1 s2 k k1 k2 = cost s s2 s1 k k2 k1.
(** A step of two operands that have the same labels, or when nothing can be contracted, or of two operands that can be contracted and
    such that no two others can for less. *)
Definition cheapest_step (fr : N -> Prop) (cost : nat -> nat -> nat -> gset N -> gset N -> gset N -> Z) (D : N -> nat) (out : gset N)
    (now rest : list (gset N)) : Prop :=
  exists a b, now = [a; b] /\ (a = b \/ unlinked fr (now ++ rest) \/ (linked fr a b /\
    forall i j ki kj, i <> j -> (now ++ rest) !! i = Some ki -> (now ++ rest) !! j = Some kj -> linked fr ki kj ->
      (cost_of cost D out (now ++ rest) 0 1 <= cost_of cost D out (now ++ rest) i j)%Z)).
