(** Model of how keyword arguments travel through [contract], [contract_path] and expressions (/repo/opt_einsum/contract.py) to the array library,
    and of what becomes of them in a sharing context (/repo/opt_einsum/sharing.py). *)
From Verif Require Import Prelude Einsum Parser Helpers Contract Expression.

(** Values of keyword arguments: None, a string, another object.  Dictionaries of keyword arguments are in order of insertion. *)
Inductive kwval := VNone | VStr (s : str) | VObj (n : nat).
#[global] Instance kwval_eq_dec : EqDecision kwval.
Proof. solve_decision. Defined.
Notation kwargs := (list (str * kwval)).
(** [kwargs.pop(name, default)] *)
Definition kw_get (name : str) (dflt : kwval) (kw : kwargs) : kwval :=
  match list_find (fun p => p.1 = name) kw with Some (_, (_, v)) => v | None => dflt end.
Definition kw_del (name : str) (kw : kwargs) : kwargs := filter (fun p => p.1 <> name) kw.

(** contract.py 124-141: [_filter_einsum_defaults].  [ret.update(kwargs)] adds the other names, which are new, at the end. *)
Definition filter_einsum_defaults (kw : kwargs) : kwargs :=
  let order := kw_get (lit "order") (VStr (lit "K")) kw in let kw := kw_del (lit "order") kw in
  let casting := kw_get (lit "casting") (VStr (lit "safe")) kw in let kw := kw_del (lit "casting") kw in
  let dtype := kw_get (lit "dtype") VNone kw in let kw := kw_del (lit "dtype") kw in
  let out := kw_get (lit "out") VNone kw in let kw := kw_del (lit "out") kw in
  (if decide (order = VStr (lit "K")) then [] else [(lit "order", order)]) ++
  (if decide (casting = VStr (lit "safe")) then [] else [(lit "casting", casting)]) ++
  (if decide (dtype = VNone) then [] else [(lit "dtype", dtype)]) ++
  (if decide (out = VNone) then [] else [(lit "out", out)]) ++ kw.

(** An array library whose einsum takes keyword arguments. *)
Record kwlib (K : semiring) := KwLib {
  k_has_einsum : bool;
  k_einsum : kwargs -> str -> list (tensor K) -> res (tensor K);
  k_tensordot : tensor K -> tensor K -> list nat -> list nat -> res (tensor K);
  k_transpose : tensor K -> list nat -> res (tensor K) }.
Arguments k_has_einsum {K} _. Arguments k_einsum {K} _ _ _ _. Arguments k_tensordot {K} _ _ _ _ _. Arguments k_transpose {K} _ _ _. Arguments KwLib {K} _ _ _ _.

Section Kw.
  Context {K : semiring}.
  Notation tens := (tensor K).
  Variable ord : gset N -> list N.
  Variable L : kwlib K.
  (** Whether the calls are made in a sharing context. *)
  Variable sharing : bool.

  (** contract.py 432-451: [_einsum] with a string equation, wrapped by sharing.py 156-183, which outside contexts passes its arguments on; in a context
      the equation is evaluated without keyword arguments (or an earlier result for the same equation and arrays is returned). *)
  Definition kw_einsum (kw : kwargs) (einsum_str : str) (ops : list tens) : res tens :=
    let kw := if sharing then [] else kw in
    let s := if has_valid_einsum_chars_only einsum_str then einsum_str
             else convert_to_valid_einsum_chars
                    (if sub_in s_arrow einsum_str then einsum_str
                     else einsum_str ++ s_arrow ++ find_output_str einsum_str) in
    k_einsum L (filter_einsum_defaults kw) s ops.
  (** contract.py 665-692; [_tensordot] (contract.py 466-470 in sharing.py 132-153) knows no other keywords than axes and backend. *)
  Definition kw_tensordot (kw : kwargs) (einsum_str : str) (idx_rm : gset N) (ops : list tens) : res tens :=
    '(input_str, results_index) ← split_arrow einsum_str;
    '(l, r) ← (match split s_comma input_str with [l; r] => Ok (l, r) | _ => Err ValueError end);
    '(x, y) ← (match ops with [x; y] => Ok (x, y) | _ => Err TypeError end);
    let tensor_result := filter (fun s => s ∉ idx_rm) (l ++ r) in
    axes ← td_axes ord l r idx_rm;
    if decide (kw <> []) then Err TypeError else
    new_view ← k_tensordot L x y axes.*1 axes.*2;
    if decide (tensor_result = results_index) then Ok new_view
    else
      axes ← mapM_res (fun c => of_opt ValueError (find c tensor_result)) results_index;
      k_transpose L new_view axes.
  (** contract.py 666 *)
  Definition kw_blas (k : blas_kind) : bool := negb (bool_decide (k = BFalse)) && (negb (mentions_einsum k) || negb (k_has_einsum L)).
  (** contract.py 652-706 *)
  Definition kw_step (kw : kwargs) (ops : list tens) (c : contraction) : res (list tens) :=
    '(tmp, rest) ← pops (c_inds c) ops;
    new_view ← (if kw_blas (c_blas c) then kw_tensordot kw (c_eq c) (c_rm c) tmp else kw_einsum kw (c_eq c) tmp);
    Ok (rest ++ [new_view]).
  (** contract.py 631-711: [_core_contract] without [out]; [evaluate_constants] is a parameter of its own, and no operand is None. *)
  Definition kw_core (kw : kwargs) (ops : list tens) (cl : list contraction) : res tens :=
    ops' ← foldM_res (kw_step (kw_del (lit "evaluate_constants") kw)) ops cl;
    of_opt IndexError (ops' !! 0).
  (** contract.py 502-603: [contract] with string subscripts and further keywords [kw], not among them the private [_gen_expression] and [_constants_dict]. *)
  Definition kw_contract (kw : kwargs) (use_blas : bool) (opt : optimize_arg) (mem : memory_arg) (subscripts : str) (ops : list tens) : res tens :=
    match opt with
    | OFalse => kw_einsum kw subscripts ops
    | _ =>
      info ← contract_path ord use_blas opt mem subscripts (shape <$> ops);
      kw_core kw ops (pi_contractions info)
    end.

  (** contract.py 744-765 and 1013-1043: an expression without constants keeps its contractions and keywords.  [out] and [backend] are refused, unless None. *)
  Record kw_expr := KwExpr { ke_list : list contraction; ke_num : nat; ke_kw : kwargs }.
  Definition kw_expression (kw : kwargs) (use_blas : bool) (opt : optimize_arg) (mem : memory_arg) (subscripts : str) (shapes : list (list nat)) : res kw_expr :=
    match opt with
    | OFalse | OPath [] => Err ValueError
    | _ =>
      if decide (kw_get (lit "out") VNone kw <> VNone \/ kw_get (lit "backend") VNone kw <> VNone) then Err ValueError else
      info ← contract_path ord use_blas opt mem subscripts shapes;
      Ok (KwExpr (pi_contractions info) (count c_comma subscripts + 1) (kw_del (lit "out") (kw_del (lit "backend") kw)))
    end.
  (** contract.py 806-825 and 852-895, on arrays of the library itself.  Keywords called [evaluate_constants], which [_core_contract] is given already, are refused. *)
  Definition kw_call (x : kw_expr) (arrays : list tens) : res tens :=
    if negb (length arrays =? ke_num x) then Err ValueError else
    if decide (lit "evaluate_constants" ∈ (ke_kw x).*1) then Err TypeError else kw_core (ke_kw x) arrays (ke_list x).
End Kw.
(** contract.py 287-290: the keywords [contract_path] does not know ([einsum_call] asks for another form of the result). *)
Definition kw_path (ord : gset N -> list N) (kw : kwargs) (use_blas : bool) (opt : optimize_arg) (mem : memory_arg) (subscripts : str) (shapes : list (list nat)) : res path_info :=
  if decide (kw_del (lit "einsum_call") kw <> []) then Err TypeError else contract_path ord use_blas opt mem subscripts shapes.
