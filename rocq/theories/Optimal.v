(** Model of [optimal] (/repo/opt_einsum/paths.py) and the helpers it shares with [BranchBound]. *)
From Verif Require Import Prelude Helpers Contract Ssa.

(** [itertools.combinations(l, 2)] *)
Fixpoint combos2 {A} (l : list A) : list (A * A) :=
  match l with [] => [] | x :: l' => ((fun y => (x, y)) <$> l') ++ combos2 l' end.
(** [a < b] where [None] is [float("inf")]. *)
Definition lt_inf (a : nat) (b : option nat) : bool := match b with None => true | Some b => a <? b end.
(** Iteration order of the labels in a product does not affect the product: sizes are computed over [elements]. *)
Definition set_size (k : gset N) (d : sizes) : res nat := compute_size_by_dict (elements k) d.

(** [map(inputs.__getitem__, l)] *)
Definition get_all (inputs : list (gset N)) (l : list nat) : res (list (gset N)) :=
  mapM_res (fun i => of_opt IndexError (inputs !! i)) l.

(** paths.py 150-183: [calc_k12_flops] *)
Definition calc_k12_flops (inputs : list (gset N)) (output : gset N) (remaining : gset nat) (i j : nat) (d : sizes)
    : res (gset N * nat) :=
  k1 ← of_opt IndexError (inputs !! i);
  k2 ← of_opt IndexError (inputs !! j);
  rest ← get_all inputs (elements (remaining ∖ {[i; j]}));
  let either := k1 ∪ k2 in
  let shared := k1 ∩ k2 in
  let keep := output ∪ union_sets rest in
  cost ← flop_count (elements either) (negb (bool_decide (shared ∖ keep = ∅))) 2 d;
  Ok (either ∩ keep, cost).

(** paths.py 186-198: [_compute_oversize_flops]; the union of no sets is a TypeError. *)
Definition oversize_flops (inputs : list (gset N)) (remaining : gset nat) (output : gset N) (d : sizes) : res nat :=
  sets ← get_all inputs (elements remaining);
  match sets with
  | [] => Err TypeError
  | _ => let idx := union_sets sets in
         flop_count (elements idx) (negb (bool_decide (idx ∖ output = ∅))) (size remaining) d
  end.

(** The caches are dictionaries; [memo] is "look up, else compute and store". *)
Definition memo {Key V} `{Countable Key} (c : gmap Key V) (k : Key) (compute : res V) : res (V * gmap Key V) :=
  match c !! k with Some v => Ok (v, c) | None => v ← compute; Ok (v, <[k := v]> c) end.

Section Optimal.
  (** Iteration order of Python sets of ints. *)
  Variable ordI : gset nat -> list nat.
  Variable output : gset N.
  Variable d : sizes.
  (** [None]: unlimited. *)
  Variable mem : option nat.

  (** paths.py 231-234 *)
  Record opt_state := OptState {
    o_flops : option nat; o_path : path; o_sizes : gmap (gset N) nat; o_results : gmap (gset N * gset N) (gset N * nat) }.

  (** paths.py 244-279: the body of the loop; [go] is the recursive call. *)
  Definition optimal_pair (go : path -> gset nat -> list (gset N) -> nat -> opt_state -> res opt_state)
      (p : path) (remaining : gset nat) (inputs : list (gset N)) (flops : nat) (st : opt_state) (ij : nat * nat) : res opt_state :=
    let '(i, j) := if ij.2 <? ij.1 then (ij.2, ij.1) else ij in
    k1 ← of_opt IndexError (inputs !! i);
    k2 ← of_opt IndexError (inputs !! j);
    '((k12, flops12), results) ← memo (o_results st) (k1, k2) (calc_k12_flops inputs output remaining i j d);
    let st := OptState (o_flops st) (o_path st) (o_sizes st) results in
    let new_flops := flops + flops12 in
    if negb (lt_inf new_flops (o_flops st)) then Ok st
    else
      let recurse st := go (p ++ [[i; j]]) (remaining ∖ {[i; j]} ∪ {[length inputs]}) (inputs ++ [k12]) new_flops st in
      match mem with
      | None => recurse st
      | Some limit =>
        '(size12, cache) ← memo (o_sizes st) k12 (set_size k12 d);
        let st := OptState (o_flops st) (o_path st) cache (o_results st) in
        if limit <? size12 then
          over ← oversize_flops inputs remaining output d;
          if lt_inf (flops + over) (o_flops st)
          then Ok (OptState (Some (flops + over)) (p ++ [ordI remaining]) (o_sizes st) (o_results st))
          else Ok st
        else recurse st
      end.

  (** paths.py 236-279: [_optimal_iterate]; the recursion is as deep as there are remaining tensors, [fuel] counts it. *)
  Fixpoint optimal_iterate (fuel : nat) (p : path) (remaining : gset nat) (inputs : list (gset N)) (flops : nat)
      (st : opt_state) : res opt_state :=
    match fuel with
    | 0 => Err NoFuel
    | S fuel' =>
      if decide (size remaining = 1) then Ok (OptState (Some flops) p (o_sizes st) (o_results st))
      else foldM_res (optimal_pair (optimal_iterate fuel') p remaining inputs flops) st (combos2 (ordI remaining))
    end.
End Optimal.

(** [set(range(n))] *)
Definition range_set (n : nat) : gset nat := list_to_set (seq 0 n).

(** paths.py 201-283: [optimal] *)
Definition optimal_ssa (ordI : gset nat -> list nat) (inputs : list (gset N)) (output : gset N) (d : sizes) (mem : option nat) : res opt_state :=
  let n := length inputs in
  optimal_iterate ordI output d mem (S n) [] (range_set n) inputs 0 (OptState None [seq 0 n] ∅ ∅).
Definition optimal (ordI : gset nat -> list nat) (inputs : list (gset N)) (output : gset N) (d : sizes) (mem : option nat) : res path :=
  st ← optimal_ssa ordI inputs output d mem;
  ssa_to_linear (o_path st).
