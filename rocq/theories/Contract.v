(** Model of /repo/opt_einsum/contract.py: contract_path, _core_contract and contract. *)
From Verif Require Import Prelude Einsum Parser Helpers.

Notation path := (list (list nat)).

(** contract.py 29, 102-118: the [memory_limit] argument and [_choose_memory_arg].
    Fractions and Decimals are not modelled. *)
Inductive memory_arg := MNone | MStr (s : str) | MInt (z : Z).
Definition choose_memory_arg (m : memory_arg) (size_list : list nat) : res (option nat) :=
  match m with
  | MStr s => if decide (s = lit "max_input")
              then (match size_list with [] => Err ValueError | _ => Ok (Some (max_list' size_list)) end)
              else Err ValueError
  | MNone => Ok None
  | MInt z => if (z <? 1)%Z then (if decide (z = -1)%Z then Ok None else Err ValueError)
              else Ok (Some (Z.to_nat z))
  end.

(** A path finder: inputs, output, size_dict, memory_limit -> path. *)
Notation finder := (list (gset N) -> gset N -> sizes -> option nat -> res path).

(** The [optimize] argument after [True]/[None] became "auto" (contract.py 284-285): [False], an explicit path, or a
    path function / PathOptimizer. *)
Inductive optimize_arg := OFalse | OPath (p : path) | OFinder (f : finder).

(** One entry of [contraction_list]. *)
Record contraction := Contraction {
  c_inds : list nat; c_rm : gset N; c_eq : str; c_remaining : option (list str); c_blas : blas_kind }.

(** The numbers recorded for one step: (cost, scale, size). *)
Record step_info := StepInfo { s_cost : nat; s_scale : nat; s_size : nat }.

(** contract.py 316-329: one axis of the size_dict loop. *)
Definition size_char (d : sizes) (cd : N * nat) : res sizes :=
  match d !! cd.1 with
  | Some s => if decide (s = 1) then Ok (<[cd.1 := cd.2]> d)
              else if decide (cd.2 = 1 \/ cd.2 = s) then Ok d else Err ValueError
  | None => Ok (<[cd.1 := cd.2]> d)
  end.
(** contract.py 308-329: one term. *)
Definition size_term (d : sizes) (p : str * list nat) : res sizes :=
  if negb (length p.2 =? length p.1) then Err ValueError else foldM_res size_char d (zip p.1 p.2).
Definition build_size_dict (terms : list str) (shapes : list (list nat)) : res sizes :=
  foldM_res size_term ∅ (zip terms shapes).

(** contract.py 392: [sorted(out_inds, key=all_input_inds.find)] *)
Definition find_key (s : str) (c : N) : Z := match find c s with Some i => Z.of_nat i | None => (-1)%Z end.
Definition key_le (s : str) (a b : N) : Prop := (find_key s a <= find_key s b)%Z.
Global Instance key_le_dec s : RelDecision (key_le s) := fun a b => decide (find_key s a <= find_key s b)%Z.
Definition sort_by_find (s : str) (l : list N) : list N := merge_sort (key_le s) l.

Section WithOrder.
  (** The iteration order of Python sets of labels: any enumeration. *)
  Variable ord : gset N -> list N.

  (** contract.py 364-409: the loop building the contraction list. *)
  Fixpoint cp_loop (use_blas : bool) (output : str) (d : sizes) (p : path)
      (sets : list (gset N)) (terms : list str) (shapes : list (list nat)) : res (list (contraction * step_info)) :=
    match p with
    | [] => Ok []
    | inds0 :: p' =>
      let inds := sort_desc inds0 in
      '(out_inds, sets', idx_removed, idx_contract) ← find_contraction inds sets (list_to_set output);
      cost ← flop_count (ord idx_contract) (negb (bool_decide (idx_removed = ∅))) (length inds) d;
      sz ← compute_size_by_dict (ord out_inds) d;
      '(tmp_inputs, terms') ← pops inds terms;
      '(tmp_shapes, shapes') ← pops inds shapes;
      let do_blas := if use_blas then can_blas tmp_inputs (ord out_inds) idx_removed tmp_shapes else BFalse in
      let idx_result := match p' with [] => output | _ => sort_by_find (join [] tmp_inputs) (ord out_inds) end in
      shp_result ← find_output_shape tmp_inputs tmp_shapes idx_result;
      let terms'' := terms' ++ [idx_result] in
      let shapes'' := shapes' ++ [shp_result] in
      let einsum_str := join s_comma tmp_inputs ++ s_arrow ++ idx_result in
      let remaining := if length terms'' <=? 20 then Some terms'' else None in
      rest ← cp_loop use_blas output d p' sets' terms'' shapes'';
      Ok ((Contraction inds idx_removed einsum_str remaining do_blas, StepInfo cost (size idx_contract) sz) :: rest)
    end.

  (** contract.py 343-357: "Compute the path". *)
  Definition compute_path (opt : optimize_arg) (sets : list (gset N)) (out : gset N) (d : sizes) (mem : option nat)
      : res path :=
    match opt with
    | OFalse => Ok [seq 0 (length sets)]
    | OPath p => Ok p
    | OFinder f => if length sets <=? 2 then Ok [seq 0 (length sets)] else f sets out d mem
    end.

  (** What contract_path computes (contract.py 32-62, 429). *)
  Record path_info := PathInfo {
    pi_path : path; pi_contractions : list contraction; pi_scale_list : list nat; pi_naive_cost : nat;
    pi_opt_cost : nat; pi_size_list : list nat; pi_size_dict : sizes; pi_largest : nat; pi_shapes : list (list nat);
    pi_eq : str }.

  (** contract.py 292-429, after parsing. *)
  Definition contract_path_parsed (use_blas : bool) (opt : optimize_arg) (mem : memory_arg)
      (inp output : str) (shapes : list (list nat)) : res path_info :=
    let input_list := split s_comma inp in
    let input_sets : list (gset N) := list_to_set <$> input_list in
    let output_set : gset N := list_to_set output in
    let indices : gset N := list_to_set (replace s_comma [] inp) in
    d ← build_size_dict input_list shapes;
    size_list ← mapM_res (fun t => compute_size_by_dict t d) (input_list ++ [output]);
    memory ← choose_memory_arg mem size_list;
    let inner_product := bool_decide (size indices < sum_list (size <$> input_sets)) in
    naive ← flop_count (ord indices) inner_product (length input_list) d;
    p ← compute_path opt input_sets output_set d memory;
    steps ← cp_loop use_blas output d p input_sets input_list shapes;
    pshapes ← mapM_res (fun ks => mapM_res (fun k => of_opt KeyError (d !! k)) ks) input_list;
    let sizes_ := (s_size ∘ snd) <$> steps in
    Ok (PathInfo p (fst <$> steps) ((s_scale ∘ snd) <$> steps) naive (sum_list ((s_cost ∘ snd) <$> steps))
          sizes_ d (match sizes_ with [] => 1 | _ => max_list' sizes_ end) pshapes (inp ++ s_arrow ++ output)).

  (** contract.py 170-429: [contract_path] on string subscripts. *)
  Definition contract_path (use_blas : bool) (opt : optimize_arg) (mem : memory_arg)
      (subscripts : str) (shapes : list (list nat)) : res path_info :=
    '(inp, output) ← parse_einsum_input subscripts shapes;
    contract_path_parsed use_blas opt mem inp output shapes.
End WithOrder.

(** The array library: what [backends.get_func] resolves to, and [backends.has_einsum]. *)
Record backend (K : semiring) := Backend {
  b_has_einsum : bool;
  b_einsum : str -> list (tensor K) -> res (tensor K);
  b_tensordot : tensor K -> tensor K -> list nat -> list nat -> res (tensor K);
  b_transpose : tensor K -> list nat -> res (tensor K) }.
Arguments b_has_einsum {K} _. Arguments b_einsum {K} _ _ _. Arguments b_tensordot {K} _ _ _ _ _.
Arguments b_transpose {K} _ _ _. Arguments Backend {K} _ _ _ _.

Section Core.
  Context {K : semiring}.
  Variable ord : gset N -> list N.
  Variable B : backend K.
  Notation tens := (tensor K).

  (** contract.py 432-451: [_einsum] with a string equation and default keyword arguments. *)
  Definition run_einsum (einsum_str : str) (ops : list tens) : res tens :=
    let s := if has_valid_einsum_chars_only einsum_str then einsum_str
             else convert_to_valid_einsum_chars
                    (if sub_in s_arrow einsum_str then einsum_str
                     else einsum_str ++ s_arrow ++ find_output_str einsum_str) in
    b_einsum B s ops.

  Definition pair_le (p q : nat * nat) : Prop := p.1 < q.1 \/ (p.1 = q.1 /\ p.2 <= q.2).
  Global Instance pair_le_dec : RelDecision pair_le.
  Proof. intros p q. unfold pair_le. apply _. Defined.

  (** contract.py 673-684: the tensordot axes.  [find] returning -1 is an IndexError here (numpy would take the last
      axis); can_blas rules it out. *)
  Definition td_axes (l r : str) (idx_rm : gset N) : res (list (nat * nat)) :=
    ps ← mapM_res (fun s => i ← of_opt IndexError (find s l); j ← of_opt IndexError (find s r); Ok (i, j)) (ord idx_rm);
    Ok (merge_sort pair_le ps).

  (** contract.py 665-692: the tensordot branch. [str.index] of a missing character is a ValueError. *)
  Definition run_tensordot (einsum_str : str) (idx_rm : gset N) (ops : list tens) : res tens :=
    '(input_str, results_index) ← split_arrow einsum_str;
    '(l, r) ← (match split s_comma input_str with [l; r] => Ok (l, r) | _ => Err ValueError end);
    '(x, y) ← (match ops with [x; y] => Ok (x, y) | _ => Err TypeError end);
    let tensor_result := filter (fun s => s ∉ idx_rm) (l ++ r) in
    axes ← td_axes l r idx_rm;
    new_view ← b_tensordot B x y axes.*1 axes.*2;
    if decide (tensor_result = results_index) then Ok new_view
    else
      axes ← mapM_res (fun c => of_opt ValueError (find c tensor_result)) results_index;
      b_transpose B new_view axes.

  (** contract.py 666: [blas_flag and ("EINSUM" not in blas_flag or no_einsum)] *)
  Definition use_tensordot (k : blas_kind) : bool :=
    negb (bool_decide (k = BFalse)) && (negb (mentions_einsum k) || negb (b_has_einsum B)).

  (** contract.py 652-706: one contraction. *)
  Definition core_step (ops : list tens) (c : contraction) : res (list tens) :=
    '(tmp, rest) ← pops (c_inds c) ops;
    new_view ← (if use_tensordot (c_blas c) then run_tensordot (c_eq c) (c_rm c) tmp else run_einsum (c_eq c) tmp);
    Ok (rest ++ [new_view]).

  (** contract.py 631-711: [_core_contract] without [out] and without the constant pre-pass (see Expression.v). *)
  Definition core_contract (ops : list tens) (cl : list contraction) : res tens :=
    ops' ← foldM_res core_step ops cl;
    of_opt IndexError (ops' !! 0).

  (** contract.py 502-603: [contract] with string subscripts. *)
  Definition contract (use_blas : bool) (opt : optimize_arg) (mem : memory_arg) (subscripts : str) (ops : list tens)
      : res tens :=
    match opt with
    | OFalse => run_einsum subscripts ops
    | _ =>
      info ← contract_path ord use_blas opt mem subscripts (shape <$> ops);
      core_contract ops (pi_contractions info)
    end.
End Core.
