(** Model of contraction trees and [_tree_to_sequence] (/repo/opt_einsum/paths.py 777-827). *)
From Verif Require Import Prelude Contract.

(** A contraction tree is an int or a tuple of trees. *)
Inductive tree := Leaf (i : nat) | Node (l : list tree).
Definition leaf_of (t : tree) : option nat := match t with Leaf i => Some i | Node _ => None end.
Definition node_of (t : tree) : option (list tree) := match t with Leaf _ => None | Node l => Some l end.
(** Python's [t.insert(p, i)] *)
Definition insert_at {A} (p : nat) (x : A) (l : list A) : list A := take p l ++ x :: drop p l.

(** paths.py 819-821: an int [i] is put at its place in the ascending list [t] *)
Definition tts_leaf (st : list nat * list nat) (i : nat) : list nat * list nat :=
  let p := length (filter (fun q => q < i) st.2) in (st.1 ++ [p], insert_at p i st.2).
(** paths.py 823-825: a tuple goes on the stack [c] *)
Definition tts_node (nt : nat) (st : list nat * list (list tree)) (j : list tree) : list nat * list (list tree) :=
  (st.1 ++ [nt + length st.2], st.2 ++ [j]).
(** paths.py 811-827: the loop; [c] is the stack of tuples (top last), [t] the ascending list of ints, [s] the path so far. *)
Fixpoint tts_loop (fuel : nat) (c : list (list tree)) (t : list nat) (s : path) : res path :=
  match reverse c with
  | [] => Ok s
  | j :: rc =>
    match fuel with
    | 0 => Err NoFuel
    | S fuel' =>
      let '(s0, t') := foldl tts_leaf ([], t) (sort_nat (omap leaf_of j)) in
      let '(s0, c') := foldl (tts_node (length t')) (s0, reverse rc) (omap node_of j) in
      tts_loop fuel' c' t' (s0 :: s)
    end
  end.
Fixpoint tree_nodes (t : tree) : nat := match t with Leaf _ => 0 | Node l => S (sum_list (map tree_nodes l)) end.
(** paths.py 777-827: [_tree_to_sequence] *)
Definition tree_to_sequence (t : tree) : res path :=
  match t with
  | Leaf _ => Ok []
  | Node l => tts_loop (tree_nodes t) [l] [] []
  end.
