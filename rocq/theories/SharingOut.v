(** The [out] argument of [contract] (contract.py 584, 603, 631-711), in and out of sharing contexts. *)
From Verif Require Import Prelude Einsum Parser Helpers Contract Sharing.

Section Out.
  Context {K : semiring}.
  Notation tens := (tensor K).
  Variable ord : gset N -> list N.
  Variable lib : str -> backend K.
  Variable alloc : nat -> gset nat -> nat.
  Variable keep : nat -> nat -> bool.

  (** [out[:] = view] for arrays of shape [sh]: no 0-d array, the view is broadcast (leading dimensions 1 of a view with more
      axes than [out], which numpy drops, are an error here). *)
  Definition assign (sh : list nat) (T : tens) : res tens :=
    if decide (sh = []) then Err IndexError else
    let off := length sh - length (shape T) in
    if decide (length (shape T) <= length sh /\ Forall2 (fun d D => d = D \/ d = 1) (shape T) (drop off sh)) then
      Ok (Tensor sh (fun cs => get T (zip_with (fun c d => if decide (d = 1) then 0 else c) (drop off cs) (shape T))))
    else Err ValueError.
  Definition write (w : world K) (o : nat) (T : tens) : world K := World (w_clock w) (<[o := T]> (w_heap w)) (w_held w) (w_caches w) (w_stacks w).
  (** The library's einsum with [out]: the array must have the shape of the result, is filled and returned. *)
  Definition einsum_into (w : world K) (roots : list nat) (b equation : str) (ids : list nat) (o : nat) : st nat :=
    let w := collect keep w (ids ++ roots) in
    lift w (vals ← values w ids; T ← run_einsum (lib b) equation vals; O ← of_opt KeyError (w_heap w !! o);
            if decide (shape O = shape T) then Ok T else Err ValueError) (fun T => (write w o T, Ok o)).
  (** sharing.py 156-183 around contract.py 432-451, called with [out]: inside a context the keyword arguments are not passed on. *)
  Definition einsum_out (w : world K) (tid : nat) (roots : list nat) (b equation : str) (ids : list nat) (o : nat) : st nat :=
    if currently_sharing w tid then cached_einsum lib alloc keep w tid roots b equation ids else einsum_into w roots b equation ids o.
  (** contract.py 653-702: the last step. *)
  Definition sh_last (w : world K) (tid : nat) (b : str) (ops : list nat) (c : contraction) (o : nat) : st unit :=
    lift w (pops (c_inds c) ops) (fun '(tmp, rest) =>
    if use_tensordot (lib b) (c_blas c) then
      lift w (split_arrow (c_eq c)) (fun '(input_str, results_index) =>
      lift w (match split s_comma input_str with [l; r] => Ok (l, r) | _ => Err ValueError end) (fun '(l, r) =>
      lift w (match tmp with [x; y] => Ok (x, y) | _ => Err TypeError end) (fun '(x, y) =>
      let tensor_result := filter (fun s => s ∉ c_rm c) (l ++ r) in
      lift w (td_axes ord l r (c_rm c)) (fun axes =>
      sbind (cached_tensordot lib alloc keep w tid (tmp ++ rest) b x y axes.*1 axes.*2) (fun w v =>
      lift w (mapM_res (fun c => of_opt ValueError (find c tensor_result)) results_index) (fun perm =>
      sbind (cached_transpose lib alloc keep w tid (v :: tmp ++ rest) b v perm) (fun w v =>
      lift w (O ← of_opt KeyError (w_heap w !! o); V ← of_opt KeyError (w_heap w !! v); assign (shape O) V) (fun T =>
      (write w o T, Ok tt)))))))))
    else sbind (einsum_out w tid (tmp ++ rest) b (c_eq c) tmp o) (fun w _ => (w, Ok tt))).
  Fixpoint sh_loop_out (w : world K) (tid : nat) (b : str) (ops : list nat) (cl : list contraction) (o : nat) : st unit :=
    match cl with
    | [] => (w, Ok tt)
    | [c] => sh_last w tid b ops c o
    | c :: cl => sbind (sh_step ord lib alloc keep w tid b ops c) (fun w ops => sh_loop_out w tid b ops cl o)
    end.
  (** contract.py 577-603 and 708-711. *)
  Definition sh_contract_out (w : world K) (tid : nat) (b : str) (use_blas : bool) (opt : optimize_arg) (mem : memory_arg) (s : str) (ids : list nat) (o : nat) : st nat :=
    match opt with
    | OFalse => einsum_out w tid [] (lit "numpy") s ids o
    | _ => lift w (vals ← values w ids; contract_path ord use_blas opt mem s (shape <$> vals)) (fun info =>
           sbind (sh_loop_out w tid b ids (pi_contractions info) o) (fun w _ => (w, Ok o)))
    end.
End Out.
