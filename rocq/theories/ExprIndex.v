(** Model of contract_expression (/repo/opt_einsum/contract.py 956-1043) with any integers as the positions of the constants. *)
From Verif Require Import Prelude Einsum Parser Helpers Contract Expression IntPath.

Section Index.
  Context {K : semiring}.
  Notation tens := (tensor K).
  Variable ord : gset N -> list N.
  Variable lib : str -> library K.
  (** What becomes of an array that stands where a shape is expected: [shape_only(s).shape] is the array itself (contract.py 923-927,
      parser.py 181-182), [len(sh)] and [int(sh[cnum])] read it (contract.py 305-313).  A list of sizes or an error, as the array library
      decides; negative sizes are not modelled. *)
  Variable as_shape : tens -> res (list nat).

  (** contract.py 1035: [{i: shapes[i] for i in constants}]; the keys are the integers as given. *)
  Definition z_constants (args : list (operand_arg K)) (constants : list Z) : res (gmap Z (operand_arg K)) :=
    foldM_res (fun m i => a ← of_opt IndexError (k ← py_index (length args) i; args !! k); Ok (<[i := a]> m)) ∅ constants.
  (** contract.py 1039: [s if i in constants else shape_only(s)], and the shapes contract_path then sees.  A shape at a
      position named from the front would be a tuple in the place of an array: an error here, as in Expression.v. *)
  Definition z_shape (constants : list Z) (i : nat) (a : operand_arg K) : res (list nat) :=
    match a with
    | AShape sh => if decide (Z.of_nat i ∈ constants) then Err TypeError else Ok sh
    | AArray T => if decide (Z.of_nat i ∈ constants) then Ok (shape T) else as_shape T
    end.
  Fixpoint z_shapes (constants : list Z) (i : nat) (args : list (operand_arg K)) : res (list (list nat)) :=
    match args with
    | [] => Ok []
    | a :: args => sh ← z_shape constants i a; l ← z_shapes constants (S i) args; Ok (sh :: l)
    end.
  (** [self._constants_dict.get(i, None) for i in range(…)] (contract.py 775) only finds keys from zero on. *)
  Definition found (d : gmap Z (operand_arg K)) (n : nat) : gmap nat tens :=
    list_to_map (omap (fun i => match d !! Z.of_nat i with Some (AArray T) => Some (i, T) | _ => None end) (seq 0 n)).
  (** The expression: what calls use of it, and [_constants_dict]. *)
  Record z_expression := ZExpression { zx : expression K; zx_dict : gmap Z (operand_arg K) }.
  (** contract.py 956-1043 and 577-601. *)
  Definition z_contract_expression (use_blas : bool) (opt : optimize_arg) (mem : memory_arg) (subscripts : str) (args : list (operand_arg K)) (constants : list Z) : res z_expression :=
    match opt with
    | OFalse | OPath [] => Err ValueError
    | _ =>
      d ← z_constants args constants;
      shs ← z_shapes constants 0 args;
      info ← contract_path ord use_blas opt mem subscripts shs;
      Ok (ZExpression (Expression (pi_contractions info) (pi_contractions info) (count c_comma subscripts + 1) (found d (count c_comma subscripts + 1)) ∅) d)
    end.
  (** contract.py 852-905: the number of arrays must be the number of operands less the number of keys (contract.py 757-758, 876-880);
      that difference may be negative. *)
  Definition z_call (x : z_expression) (b : str) (numpy : bool) (arrays : list tens) : z_expression * res tens :=
    if negb (length arrays + size (zx_dict x) =? x_num (zx x)) then (x, Err ValueError)
    else if decide (zx_dict x = ∅) then (x, run_expression ord lib (zx x) b numpy arrays)
    else match get_evaluated ord lib (zx x) b with
         | Err e => (x, Err e)
         | Ok (x', ops_const) => (ZExpression x' (zx_dict x), ops ← fill ops_const arrays; run_expression ord lib x' b numpy ops)
         end.
End Index.
Arguments ZExpression {K} _ _. Arguments zx {K} _. Arguments zx_dict {K} _. Arguments z_expression : clear implicits.
