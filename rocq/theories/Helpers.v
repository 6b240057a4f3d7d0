(** Model of /repo/opt_einsum/helpers.py and /repo/opt_einsum/blas.py. *)
From Verif Require Import Prelude.

(** A dict of label sizes. *)
Notation sizes := (gmap N nat).

(** helpers.py 22-47: [compute_size_by_dict]; a missing label is a KeyError. *)
Definition compute_size_by_dict (indices : list N) (d : sizes) : res nat :=
  foldM_res (fun ret i => s ← of_opt KeyError (d !! i); Ok (ret * s)) 1 indices.

(** [frozenset.union( *l)] *)
Definition union_sets (l : list (gset N)) : gset N := foldr (∪) ∅ l.

(** helpers.py 50-103: [find_contraction].  [frozenset.union( *[])] is a TypeError. *)
Definition find_contraction (positions : list nat) (input_sets : list (gset N)) (output_set : gset N)
    : res (gset N * list (gset N) * gset N * gset N) :=
  '(inputs, remaining) ← pops (sort_desc positions) input_sets;
  match inputs with
  | [] => Err TypeError
  | _ =>
    let idx_contract := union_sets inputs in
    let idx_remain := output_set ∪ union_sets remaining in
    let new_result := idx_remain ∩ idx_contract in
    Ok (new_result, remaining ++ [new_result], idx_contract ∖ new_result, idx_contract)
  end.

(** helpers.py 106-144: [flop_count] *)
Definition flop_count (idx_contraction : list N) (inner : bool) (num_terms : nat) (d : sizes) : res nat :=
  overall ← compute_size_by_dict idx_contraction d;
  Ok (overall * (Nat.max 1 (num_terms - 1) + (if inner then 1 else 0))).

(** blas.py: the value returned by [can_blas]. *)
Inductive blas_kind := BFalse | OUTER_EINSUM | DOT | DOT_EINSUM | GEMM | GEMV_EINSUM | TDOT.
Global Instance blas_kind_eq_dec : EqDecision blas_kind. Proof. solve_decision. Defined.

(** blas.py 62-72: the loop over all characters finds no obstacle. *)
Definition blas_chars_ok (l r result : str) : bool :=
  forallb (fun c =>
    let nl := count c l in let nr := count c r in
    negb ((1 <? nl) || (1 <? nr) || (2 <? nl + nr))
    && negb (bool_decide (nl + nr = (if inb c result then 1 else 0) + 1)))
    (elements (list_to_set (l ++ r) : gset N)).

(** blas.py 76-79: the summed dimensions agree.  [find] returning -1 (label missing on one side) indexes the last
    dimension in Python; the model answers "differs" there, which cannot happen when [idx_removed] are shared labels. *)
Definition blas_dims_ok (l r : str) (shl shr : list nat) (removed : gset N) : bool :=
  forallb (fun c => match find c l, find c r with
                    | Some i, Some j => match shl !! i, shr !! j with
                                        | Some a, Some b => a =? b
                                        | _, _ => false
                                        end
                    | _, _ => false
                    end) (elements removed).

(** [s[:k]], [s[-k:]] for k > 0. *)
Definition suffix (k : nat) (s : str) : str := drop (length s - k) s.
Notation same a b := (bool_decide (a = b)).

(** blas.py 10-122: [can_blas] with shapes given (the only way contract_path calls it). *)
Definition can_blas (inputs : list str) (result : str) (idx_removed : gset N) (shapes : list (list nat)) : blas_kind :=
  match inputs, shapes with
  | [l; r], shl :: shr :: _ =>
    if negb (blas_chars_ok l r result) then BFalse
    else if negb (blas_dims_ok l r shl shr idx_removed) then BFalse
    else if decide (size idx_removed = 0) then OUTER_EINSUM
    else
      let sl : gset N := list_to_set l in let sr : gset N := list_to_set r in
      let rs := size idx_removed in
      if same l r then DOT
      else if same sl sr then DOT_EINSUM
      else if same (suffix rs l) (take rs r) then GEMM
      else if same (take rs l) (suffix rs r) then GEMM
      else if same (suffix rs l) (suffix rs r) then GEMM
      else if same (take rs l) (take rs r) then GEMM
      else if (size (sl ∖ idx_removed) =? 0) || (size (sr ∖ idx_removed) =? 0) then GEMV_EINSUM
      else TDOT
  | _, _ => BFalse
  end.

(** contract.py 666: ["EINSUM" in blas_flag] *)
Definition mentions_einsum (k : blas_kind) : bool :=
  match k with OUTER_EINSUM | DOT_EINSUM | GEMV_EINSUM => true | _ => false end.
