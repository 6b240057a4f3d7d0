(** Model of [can_blas] called without shapes (/repo/opt_einsum/blas.py 10-122). *)
From Verif Require Import Prelude Helpers.

(** blas.py 10-122 with [shapes=None]: lines 74-79 are skipped. *)
Definition can_blas_free (inputs : list str) (result : str) (idx_removed : gset N) : blas_kind :=
  match inputs with
  | [l; r] =>
    if negb (blas_chars_ok l r result) then BFalse
    else if decide (size idx_removed = 0) then OUTER_EINSUM
    else
      let sl : gset N := list_to_set l in let sr : gset N := list_to_set r in
      let rs := size idx_removed in
      if same l r then DOT
      else if same sl sr then DOT_EINSUM
      else if same (suffix rs l) (take rs r) then GEMM
      else if same (take rs l) (suffix rs r) then GEMM
      else if same (suffix rs l) (suffix rs r) then GEMM
      else if same (take rs l) (take rs r) then GEMM
      else if (size (sl ∖ idx_removed) =? 0) || (size (sr ∖ idx_removed) =? 0) then GEMV_EINSUM
      else TDOT
  | _ => BFalse
  end.
