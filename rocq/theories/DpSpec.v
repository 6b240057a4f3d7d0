(** Specification for the dynamic programming search: connected parts of a network, binary contraction trees and their costs. *)
From Verif Require Import Prelude PathSpec Tree Dp.
From stdpp Require Import relations sorting.

Definition labels_of (inputs : list (gset N)) (j : nat) : gset N := default ∅ (inputs !! j).
(** Two inputs sharing a summed label. *)
Definition linked (inputs : list (gset N)) (out : gset N) (i j : nat) : Prop := exists c, c ∈ labels_of inputs i /\ c ∈ labels_of inputs j /\ c ∉ out.
(** [parts] are the connected parts: they are disjoint, cover all inputs, and each is the set of all inputs reachable from a member. *)
Record connected_parts (inputs : list (gset N)) (out : gset N) (parts : list (gset nat)) : Prop := ConnectedParts {
  cp_part : forall g, g ∈ parts -> g <> ∅ /\ forall i j, i ∈ g -> (j ∈ g <-> rtc (linked inputs out) i j);
  cp_disjoint : forall a b g h, parts !! a = Some g -> parts !! b = Some h -> a <> b -> g ## h;
  cp_cover : forall j, j < length inputs <-> exists g, g ∈ parts /\ j ∈ g }.

(** Binary contraction trees over input numbers. *)
Inductive btree := BLeaf (j : nat) | BNode (l r : btree).
Fixpoint bleaves (t : btree) : list nat := match t with BLeaf j => [j] | BNode l r => bleaves l ++ bleaves r end.
Definition bset (t : btree) : gset nat := list_to_set (bleaves t).

Section Net.
  Variable inputs : list (gset N).
  Variable out : gset N.
  Variable D : N -> nat.
  (** The part of the network contracted. *)
  Variable G : gset nat.
  Definition labels_in_set (S : gset nat) : gset N := ⋃ (labels_of inputs <$> elements S).
  (** The labels of the intermediate made from the inputs [S]: those in the output or on another input of the part. *)
  Definition legs (S : gset nat) : gset N := labels_in_set S ∩ (out ∪ labels_in_set (G ∖ S)).
  Definition node_flops (l r : btree) : nat := volume D (legs (bset l) ∪ legs (bset r)).
  Definition node_size (l r : btree) : nat := volume D (legs (bset l ∪ bset r)).

  (** Sum of a cost per node. *)
  Fixpoint sum_cost (w : btree -> btree -> nat) (t : btree) : nat :=
    match t with BLeaf _ => 0 | BNode l r => sum_cost w l + sum_cost w r + w l r end.
  Definition flops_cost : btree -> nat := sum_cost node_flops.
  Definition write_cost : btree -> nat := sum_cost node_size.
  (** Size of the largest intermediate. *)
  Fixpoint max_size (t : btree) : nat := match t with BLeaf _ => 0 | BNode l r => Nat.max (Nat.max (max_size l) (max_size r)) (node_size l r) end.
  Definition combo_cost (factor : nat) : btree -> nat := sum_cost (fun l r => node_flops l r + factor * node_size l r).
  Definition limit_cost (factor : nat) : btree -> nat := sum_cost (fun l r => Nat.max (node_flops l r) (factor * node_size l r)).

  (** The cost minimised in each mode. *)
  Definition mode_cost (mode : dp_min) : btree -> nat := match mode with
    | DpFlops => flops_cost
    | DpSize => max_size
    | DpWrite => write_cost
    | DpCombo factor => combo_cost factor
    | DpLimit factor => limit_cost factor
    | DpLocal cost => sum_cost (fun l r => cost (node_flops l r) (node_size l r))
    end.

  (** No contraction is an outer product: every one has a summed label in common. *)
  Fixpoint no_outer (t : btree) : Prop :=
    match t with BLeaf _ => True | BNode l r => no_outer l /\ no_outer r /\ exists c, c ∈ legs (bset l) /\ c ∈ legs (bset r) /\ c ∉ out end.
  (** Every intermediate has at most [mem] entries. *)
  Fixpoint fits (mem : option nat) (t : btree) : Prop :=
    match t with BLeaf _ => True | BNode l r => fits mem l /\ fits mem r /\ match mem with None => True | Some limit => node_size l r <= limit end end.
  (** Trees over exactly the inputs [S]. *)
  Definition btree_over (S : gset nat) (t : btree) : Prop := NoDup (bleaves t) /\ bset t = S.
  (** The trees searched: outer products only if asked for, and all intermediates within the limit. *)
  Definition allowed (search_outer : bool) (mem : option nat) (t : btree) : Prop := (search_outer = false -> no_outer t) /\ fits mem t.
  (** A cheapest one. *)
  Definition best_tree (mode : dp_min) (search_outer : bool) (mem : option nat) (t : btree) : Prop :=
    btree_over G t /\ allowed search_outer mem t /\ forall t', btree_over G t' -> allowed search_outer mem t' -> mode_cost mode t <= mode_cost mode t'.
End Net.

(** A label of an input that occurs neither in the output nor on another input. *)
Definition summed_alone (inputs : list (gset N)) (out : gset N) (j : nat) (c : N) : Prop :=
  c ∈ labels_of inputs j /\ c ∉ out /\ forall i, i <> j -> c ∉ labels_of inputs i.
(** A tree of the library for a binary tree: a term is first summed on its own if, and only if, a label occurs only there. *)
Inductive shape (inputs : list (gset N)) (out : gset N) : btree -> tree -> Prop :=
| shape_leaf j : (forall c, ~ summed_alone inputs out j c) -> shape inputs out (BLeaf j) (Leaf j)
| shape_single j : (exists c, summed_alone inputs out j c) -> shape inputs out (BLeaf j) (Node [Leaf j])
| shape_node l r a b : shape inputs out l a -> shape inputs out r b -> shape inputs out (BNode l r) (Node [a; b]).
(** [((t0, t1), t2), ...] *)
Definition left_comb (t : tree) (ts : list tree) : tree := foldl (fun x y => Node [x; y]) t ts.
(** The number of entries of the result of a part. *)
Definition result_size (inputs : list (gset N)) (out : gset N) (D : N -> nat) (g : gset nat) : nat := volume D (labels_in_set inputs g ∩ out).

(** An input all of whose labels (at least one) occur only there. *)
Definition lone (inputs : list (gset N)) (out : gset N) (j : nat) : Prop :=
  labels_of inputs j <> ∅ /\ forall c, c ∈ labels_of inputs j -> c ∉ out /\ forall i, i <> j -> c ∉ labels_of inputs i.
(** The parts searched one by one, in order of the sizes of their results: the connected parts; with outer products allowed, each lone
    input and the rest. *)
Definition searched_parts (inputs : list (gset N)) (out : gset N) (D : N -> nat) (search_outer : bool) (gs : list (gset nat)) : Prop :=
  (search_outer = false -> connected_parts inputs out gs) /\
  (search_outer = true -> forall g, g ∈ gs -> (exists j, j < length inputs /\ g = {[j]} /\ lone inputs out j) \/ (forall j, j ∈ g <-> j < length inputs /\ ~ lone inputs out j)) /\
  (forall j, j < length inputs <-> exists g, g ∈ gs /\ j ∈ g) /\
  (forall a b g h, gs !! a = Some g -> gs !! b = Some h -> a <> b -> g ## h) /\
  StronglySorted le (result_size inputs out D <$> gs).
