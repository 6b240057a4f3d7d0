(** Model of contract_expression and ContractExpression (/repo/opt_einsum/contract.py 631-1043) with the conversion
    wrappers of /repo/opt_einsum/backends. *)
From Verif Require Import Prelude Einsum Parser Helpers Contract.

(** What a backend name stands for: its functions (backends/dispatch.py 52-117), whether numpy arrays are converted to and
    from it (backends/dispatch.py 122-156), and the conversions (to_torch, to_cupy, … and .numpy(), .get(), …).  Eager
    libraries (torch.py 100-130, cupy.py 9-32, jax.py 25-45, tensorflow.py 95-123); the graph modes of tensorflow 1 and theano are in Graph.v. *)
Record library (K : semiring) := Library {
  l_funs : backend K; l_convert : bool; l_to : tensor K -> tensor K; l_from : tensor K -> tensor K }.
Arguments l_funs {K} _. Arguments l_convert {K} _. Arguments l_to {K} _ _. Arguments l_from {K} _ _. Arguments Library {K} _ _ _ _.

(** The attributes of a ContractExpression that calls use (contract.py 752-765); [_backend_expressions] only caches closures
    without state of their own. *)
Record expression (K : semiring) := Expression {
  x_full : list contraction; x_list : list contraction; x_num : nat; x_constants : gmap nat (tensor K);
  x_evaluated : gmap str (list (option (tensor K))) }.
Arguments x_full {K} _. Arguments x_list {K} _. Arguments x_num {K} _. Arguments x_constants {K} _. Arguments x_evaluated {K} _.
Arguments Expression {K} _ _ _ _ _.

Section Expr.
  Context {K : semiring}.
  Notation tens := (tensor K).
  Variable ord : gset N -> list N.
  (** Backend names to libraries. *)
  Variable lib : str -> library K.

  (** contract.py 657: [any(operands[x] is None for x in inds)] *)
  Fixpoint any_none (inds : list nat) (ops : list (option tens)) : res bool :=
    match inds with
    | [] => Ok false
    | i :: inds => match ops !! i with None => Err IndexError | Some None => Ok true | Some (Some _) => any_none inds ops end
    end.
  (** contract.py 631-711 with [evaluate_constants=True].  If every contraction runs, [operands[0]] is returned and the caller's
      unpacking into two values fails (contract.py 780-782); an array with first dimension 2 would unpack, which is not modelled. *)
  Fixpoint core_constants (B : backend K) (ops : list (option tens)) (cl : list contraction) : res (list (option tens) * list contraction) :=
    match cl with
    | [] => Err TypeError
    | c :: cl' =>
      stop ← any_none (c_inds c) ops;
      if stop : bool then Ok (ops, cl)
      else
        '(tmp, rest) ← pops (c_inds c) ops;
        tmp' ← mapM_res (of_opt TypeError) tmp;
        new_view ← (if use_tensordot B (c_blas c) then run_tensordot ord B (c_eq c) (c_rm c) tmp' else run_einsum B (c_eq c) tmp');
        core_constants B (rest ++ [Some new_view]) cl'
    end.

  (** contract.py 767-785: [evaluate_constants], [backend] already parsed. *)
  Definition evaluate_constants (x : expression K) (b : str) : res (expression K) :=
    let tmp := (fun i => x_constants x !! i) <$> seq 0 (x_num x) in
    let tmp := if l_convert (lib b) then fmap (M:=option) (l_to (lib b)) <$> tmp else tmp in
    '(ops, cl) ← core_constants (l_funs (lib b)) tmp (x_full x);
    Ok (Expression (x_full x) cl (x_num x) (x_constants x) (<[b := ops]> (x_evaluated x))).
  (** contract.py 787-796: [_get_evaluated_constants]; the expression is updated. *)
  Definition get_evaluated (x : expression K) (b : str) : res (expression K * list (option tens)) :=
    match x_evaluated x !! b with
    | Some ops => Ok (x, ops)
    | None => x' ← evaluate_constants x b; ops ← of_opt KeyError (x_evaluated x' !! b); Ok (x', ops)
    end.
  (** contract.py 885: [[next(ops_var) if op is None else op for op in ops_const]] *)
  Fixpoint fill (ops : list (option tens)) (arrays : list tens) : res (list tens) :=
    match ops with
    | [] => Ok []
    | Some o :: ops => l ← fill ops arrays; Ok (o :: l)
    | None :: ops => match arrays with [] => Err StopIteration | a :: arrays => l ← fill ops arrays; Ok (a :: l) end
    end.
  (** contract.py 806-850, 892-895: with conversion if the backend has one and all arrays given are numpy arrays. *)
  Definition run_expression (x : expression K) (b : str) (numpy : bool) (ops : list tens) : res tens :=
    if l_convert (lib b) && numpy
    then T ← core_contract ord (l_funs (lib b)) (l_to (lib b) <$> ops) (x_list x); Ok (l_from (lib b) T)
    else core_contract ord (l_funs (lib b)) ops (x_list x).
  (** contract.py 852-905: [__call__] without [out]; [b] is what parse_backend gives (contract.py 615-628), [numpy] whether all arrays are
      numpy arrays. *)
  Definition expr_call (x : expression K) (b : str) (numpy : bool) (arrays : list tens) : expression K * res tens :=
    if negb (length arrays =? x_num x - size (x_constants x)) then (x, Err ValueError)
    else if decide (x_constants x = ∅) then (x, run_expression x b numpy arrays)
    else match get_evaluated x b with
         | Err e => (x, Err e)
         | Ok (x', ops_const) => (x', ops ← fill ops_const arrays; run_expression x' b numpy ops)
         end.
End Expr.

(** contract.py 956-1043 and 577-601: [contract_expression] on a string and operands, each a shape or (for constants) an array.
    The [KeyError]-free dict of constants: an index out of range is an IndexError.  Negative indices are in ExprIndex.v.  A shape instead of an
    array at a constant position is not modelled (an error here); an array elsewhere counts as its shape here, ExprIndex.v has what the code does.  An empty path counts as "not optimize" (contract.py 1019). *)
Inductive operand_arg (K : semiring) := AShape (sh : list nat) | AArray (T : tensor K).
Arguments AShape {K} _. Arguments AArray {K} _.
Definition arg_shape {K} (a : operand_arg K) : list nat := match a with AShape sh => sh | AArray T => shape T end.
Definition constants_dict {K} (args : list (operand_arg K)) (constants : list nat) : res (gmap nat (tensor K)) :=
  foldM_res (fun m i => a ← of_opt IndexError (args !! i); match a with AArray T => Ok (<[i := T]> m) | AShape _ => Err TypeError end) ∅ constants.
Definition contract_expression {K} (ord : gset N -> list N) (use_blas : bool) (opt : optimize_arg) (mem : memory_arg)
    (subscripts : str) (args : list (operand_arg K)) (constants : list nat) : res (expression K) :=
  match opt with
  | OFalse | OPath [] => Err ValueError
  | _ =>
    m ← constants_dict args constants;
    info ← contract_path ord use_blas opt mem subscripts (arg_shape <$> args);
    Ok (Expression (pi_contractions info) (pi_contractions info) (count c_comma subscripts + 1) m ∅)
  end.
