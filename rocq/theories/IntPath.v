(** Model of explicit paths of arbitrary integers (/repo/opt_einsum/contract.py 343-409, 631-711; helpers.py 50-103): negative positions count from
    the end, positions may be repeated.  Contract.v is the model for non-negative positions. *)
From Verif Require Import Prelude Einsum Parser Helpers Contract Expression.

Notation zpath := (list (list Z)).
(** [sorted(l, reverse=True)] *)
Definition zgeq (a b : Z) : Prop := (b <= a)%Z.
Global Instance zgeq_dec : RelDecision zgeq := fun a b => decide (b <= a)%Z.
Global Instance zgeq_total : Total zgeq. Proof. intros a b. unfold zgeq. lia. Qed.
Global Instance zgeq_trans : Transitive zgeq. Proof. intros a b c. unfold zgeq. lia. Qed.
Definition zsort_desc (l : list Z) : list Z := merge_sort zgeq l.
(** Python's index [i] of a list of [n]. *)
Definition py_index (n : nat) (i : Z) : option nat :=
  if decide (0 <= i < Z.of_nat n)%Z then Some (Z.to_nat i)
  else if decide (- Z.of_nat n <= i < 0)%Z then Some (Z.to_nat (Z.of_nat n + i)) else None.
(** [l.pop(i)] *)
Definition zpop {A} (i : Z) (l : list A) : res (A * list A) := k ← of_opt IndexError (py_index (length l) i); pop_at k l.
(** [[l.pop(i) for i in is]] together with what is left of [l]. *)
Fixpoint zpops {A} (is_ : list Z) (l : list A) : res (list A * list A) :=
  match is_ with
  | [] => Ok ([], l)
  | i :: is' => '(x, l') ← zpop i l; '(xs, l'') ← zpops is' l'; Ok (x :: xs, l'')
  end.
(** helpers.py 50-103: [find_contraction] *)
Definition z_find_contraction (positions : list Z) (input_sets : list (gset N)) (output_set : gset N)
    : res (gset N * list (gset N) * gset N * gset N) :=
  '(inputs, remaining) ← zpops (zsort_desc positions) input_sets;
  match inputs with
  | [] => Err TypeError
  | _ =>
    let idx_contract := union_sets inputs in
    let idx_remain := output_set ∪ union_sets remaining in
    let new_result := idx_remain ∩ idx_contract in
    Ok (new_result, remaining ++ [new_result], idx_contract ∖ new_result, idx_contract)
  end.

(** One entry of [contraction_list]: the positions, and the rest (its field [c_inds] is not used). *)
Notation zcontraction := (list Z * contraction)%type.
Section WithOrder.
  Variable ord : gset N -> list N.
  (** contract.py 364-409: the loop building the contraction list. *)
  Fixpoint z_cp_loop (use_blas : bool) (output : str) (d : sizes) (p : zpath)
      (sets : list (gset N)) (terms : list str) (shapes : list (list nat)) : res (list (zcontraction * step_info)) :=
    match p with
    | [] => Ok []
    | inds0 :: p' =>
      let inds := zsort_desc inds0 in
      '(out_inds, sets', idx_removed, idx_contract) ← z_find_contraction inds sets (list_to_set output);
      cost ← flop_count (ord idx_contract) (negb (bool_decide (idx_removed = ∅))) (length inds) d;
      sz ← compute_size_by_dict (ord out_inds) d;
      '(tmp_inputs, terms') ← zpops inds terms;
      '(tmp_shapes, shapes') ← zpops inds shapes;
      let do_blas := if use_blas then can_blas tmp_inputs (ord out_inds) idx_removed tmp_shapes else BFalse in
      let idx_result := match p' with [] => output | _ => sort_by_find (join [] tmp_inputs) (ord out_inds) end in
      shp_result ← find_output_shape tmp_inputs tmp_shapes idx_result;
      let terms'' := terms' ++ [idx_result] in
      let shapes'' := shapes' ++ [shp_result] in
      let einsum_str := join s_comma tmp_inputs ++ s_arrow ++ idx_result in
      let remaining := if length terms'' <=? 20 then Some terms'' else None in
      rest ← z_cp_loop use_blas output d p' sets' terms'' shapes'';
      Ok (((inds, Contraction [] idx_removed einsum_str remaining do_blas), StepInfo cost (size idx_contract) sz) :: rest)
    end.
  (** contract.py 292-429: [contract_path] on string subscripts with [optimize] an explicit path: the contraction list with the numbers of each step.
      What else [PathInfo] has does not depend on the positions. *)
  Definition z_contract_path (use_blas : bool) (p : zpath) (mem : memory_arg) (subscripts : str) (shapes : list (list nat))
      : res (list (zcontraction * step_info)) :=
    '(inp, output) ← parse_einsum_input subscripts shapes;
    let input_list := split s_comma inp in
    let input_sets : list (gset N) := list_to_set <$> input_list in
    let indices : gset N := list_to_set (replace s_comma [] inp) in
    d ← build_size_dict input_list shapes;
    size_list ← mapM_res (fun t => compute_size_by_dict t d) (input_list ++ [output]);
    memory ← choose_memory_arg mem size_list;
    let inner_product := bool_decide (size indices < sum_list (size <$> input_sets)) in
    naive ← flop_count (ord indices) inner_product (length input_list) d;
    steps ← z_cp_loop use_blas output d p input_sets input_list shapes;
    pshapes ← mapM_res (fun ks => mapM_res (fun k => of_opt KeyError (d !! k)) ks) input_list;
    Ok steps.
End WithOrder.

Section Core.
  Context {K : semiring}.
  Variable ord : gset N -> list N.
  Variable B : backend K.
  Notation tens := (tensor K).
  (** contract.py 652-706: one contraction. *)
  Definition z_core_step (ops : list tens) (c : zcontraction) : res (list tens) :=
    '(tmp, rest) ← zpops c.1 ops;
    new_view ← (if use_tensordot B (c_blas c.2) then run_tensordot ord B (c_eq c.2) (c_rm c.2) tmp else run_einsum B (c_eq c.2) tmp);
    Ok (rest ++ [new_view]).
  (** contract.py 631-711: [_core_contract] *)
  Definition z_core_contract (ops : list tens) (cl : list zcontraction) : res tens :=
    ops' ← foldM_res z_core_step ops cl;
    of_opt IndexError (ops' !! 0).
  (** contract.py 502-603: [contract] with string subscripts and an explicit path. *)
  Definition z_contract (use_blas : bool) (p : zpath) (mem : memory_arg) (subscripts : str) (ops : list tens) : res tens :=
    steps ← z_contract_path ord use_blas p mem subscripts (shape <$> ops);
    z_core_contract ops (fst <$> steps).

  (** contract.py 657: [any(operands[x] is None for x in inds)]; the positions all refer to the list before any is taken out. *)
  Fixpoint z_any_none (inds : list Z) (ops : list (option tens)) : res bool :=
    match inds with
    | [] => Ok false
    | i :: inds =>
      k ← of_opt IndexError (py_index (length ops) i);
      match ops !! k with None => Err IndexError | Some None => Ok true | Some (Some _) => z_any_none inds ops end
    end.
  (** contract.py 631-711 with [evaluate_constants=True]; see [core_constants] of Expression.v.  An operand [None] given to a library function is a
      TypeError. *)
  Fixpoint z_core_constants (ops : list (option tens)) (cl : list zcontraction) : res (list (option tens) * list zcontraction) :=
    match cl with
    | [] => Err TypeError
    | c :: cl' =>
      stop ← z_any_none c.1 ops;
      if stop : bool then Ok (ops, cl)
      else
        '(tmp, rest) ← zpops c.1 ops;
        tmp' ← mapM_res (of_opt TypeError) tmp;
        new_view ← (if use_tensordot B (c_blas c.2) then run_tensordot ord B (c_eq c.2) (c_rm c.2) tmp' else run_einsum B (c_eq c.2) tmp');
        z_core_constants (rest ++ [Some new_view]) cl'
    end.
  (** contract.py 956-1043, 767-796, 852-905: the first call of a new expression, on a library whose arrays are given (no conversion). *)
  Definition z_expression_call (use_blas : bool) (p : zpath) (mem : memory_arg) (subscripts : str) (args : list (operand_arg K)) (constants : list nat)
      (arrays : list tens) : res tens :=
    match p with
    | [] => Err ValueError
    | _ =>
      m ← constants_dict args constants;
      steps ← z_contract_path ord use_blas p mem subscripts (arg_shape <$> args);
      let n := count c_comma subscripts + 1 in
      if negb (length arrays =? n - size m) then Err ValueError
      else if decide (m = ∅) then z_core_contract arrays (fst <$> steps)
      else
        '(ops, cl) ← z_core_constants ((fun i => m !! i) <$> seq 0 n) (fst <$> steps);
        ops' ← fill ops arrays;
        z_core_contract ops' cl
    end.
End Core.
