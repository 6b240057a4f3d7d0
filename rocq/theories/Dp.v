(** Model of the dynamic programming search (/repo/opt_einsum/paths.py 830-1317).
    Simplifications: labels are not renumbered to ints ([symbol2int] is injective, only sizes and set operations depend on
    labels); sizes are over [elements] (the order of factors is irrelevant); every label must have a size; the factor of
    'combo'/'limit' is a natural number; a callable [minimize] is one that, like [_dp_compare_combo], adds a cost of its own per contraction. *)
From Verif Require Import Prelude Helpers Contract Ssa Optimal Tree.

(** ** Connected parts *)
Section Components.
  (** Iteration order of sets of ints, and which element [set.pop] takes. *)
  Variable ordI : gset nat -> list nat.
  Variable pop : gset nat -> nat.
  Variable inputs : list (gset N).
  Variable i_sum : gset N.
  Definition input_at (j : nat) : gset N := default ∅ (inputs !! j).
  (** paths.py 857-865: the part [g] grows by the unused neighbours of its members; [q] is a stack (top last). *)
  Fixpoint grow (fuel : nat) (q : list nat) (unused g : gset nat) : res (gset nat * gset nat) :=
    match reverse q with
    | [] => Ok (g, unused)
    | j :: rq =>
      match fuel with
      | 0 => Err NoFuel
      | S fuel' =>
        let i_tmp := i_sum ∩ input_at j in
        let n := filter (fun k => 0 < size (i_tmp ∩ input_at k)) unused in
        grow fuel' (reverse rq ++ ordI n) (unused ∖ n) (g ∪ {[j]})
      end
    end.
  (** paths.py 856-867 *)
  Fixpoint parts (fuel : nat) (unused : gset nat) (acc : list (gset nat)) : res (list (gset nat)) :=
    if decide (unused = ∅) then Ok acc
    else match fuel with
      | 0 => Err NoFuel
      | S fuel' =>
        let j := pop unused in
        '(g, unused') ← grow (size unused) [j] (unused ∖ {[j]}) ∅;
        parts fuel' unused' (acc ++ [g])
      end.
End Components.
(** paths.py 830-869: [_find_disconnected_subgraphs]; [frozenset.union()] of nothing is a TypeError. *)
Definition find_parts (ordI : gset nat -> list nat) (pop : gset nat -> nat) (inputs : list (gset N)) (output : gset N) : res (list (gset nat)) :=
  match inputs with
  | [] => Err TypeError
  | _ => parts ordI pop inputs (union_sets inputs ∖ output) (length inputs) (set_seq 0 (length inputs)) []
  end.

(** ** Tables: dictionaries from bitmaps to (labels, cost, contraction), in insertion order *)
Definition entry : Type := gset N * nat * tree.
Notation table := (list (N * entry)).
Fixpoint tbl_get (s : N) (t : table) : option entry :=
  match t with [] => None | (s', e) :: t' => if N.eqb s s' then Some e else tbl_get s t' end.
Fixpoint tbl_set (s : N) (e : entry) (t : table) : table :=
  match t with [] => [(s, e)] | (s', e') :: t' => if N.eqb s s' then (s', e) :: t' else (s', e') :: tbl_set s e t' end.

(** [1 << j] *)
Definition bit (j : nat) : N := N.shiftl 1 (N.of_nat j).
(** paths.py 872-880: [_bitmap_select] *)
Definition bitmap_select (s : N) (seq0 : list (gset N)) : list (gset N) :=
  omap (fun p => if N.testbit s (N.of_nat p.1) then Some p.2 else None) (zip (seq 0 (length seq0)) seq0).

(** paths.py 883-896: [_dp_calc_legs] *)
Definition calc_legs (g all s : N) (inputs : list (gset N)) (cut un : gset N) : gset N :=
  let r := N.land g (N.lxor all s) in
  let i_r := if N.eqb r 0 then ∅ else union_sets (bitmap_select r inputs) in
  un ∖ (cut ∖ i_r).

(** What is minimised: paths.py 1038-1066 [_parse_minimize]. *)
(** [DpLocal cost] is a custom function (paths.py 1049-1052, 1130): what [_dp_compare_combo] does, with [cost flops size] for [combine((f, factor * mem))]. *)
Inductive dp_min := DpFlops | DpSize | DpWrite | DpCombo (factor : nat) | DpLimit (factor : nat) | DpLocal (cost : nat -> nat -> nat).
Definition le_cap (a : nat) (b : option nat) : bool := match b with None => true | Some b => a <=? b end.

Section Compare.
  Variable minimize : dp_min.
  Variable d : sizes.
  Variable inputs : list (gset N).
  Variables (g all : N).
  Variable mem : option nat.
  Variable cap : option nat.

  (** paths.py 899-1032: [_dp_compare_flops], [_dp_compare_size], [_dp_compare_write], [_dp_compare_combo] *)
  Definition dp_compare (s1 s2 : N) (e1 e2 : entry) (cut un : gset N) (xn : table) : res table :=
    let '(_, cost1, c1) := e1 in
    let '(_, cost2, c2) := e2 in
    let s := N.lor s1 s2 in
    let better cost := match tbl_get s xn with None => true | Some (_, old, _) => cost <? old end in
    match minimize with
    | DpFlops =>
      f ← set_size un d;
      let cost := cost1 + cost2 + f in
      if le_cap cost cap && better cost then
        let i := calc_legs g all s inputs cut un in
        m ← set_size i d;
        Ok (if le_cap m mem then tbl_set s (i, cost, Node [c1; c2]) xn else xn)
      else Ok xn
    | _ =>
      let i := calc_legs g all s inputs cut un in
      m ← set_size i d;
      f ← (match minimize with DpCombo _ | DpLimit _ | DpLocal _ => set_size un d | _ => Ok 0 end);
      let cost := match minimize with
        | DpFlops | DpWrite => cost1 + cost2 + m
        | DpSize => Nat.max (Nat.max cost1 cost2) m
        | DpCombo factor => cost1 + cost2 + (f + factor * m)
        | DpLimit factor => cost1 + cost2 + Nat.max f (factor * m)
        | DpLocal local => cost1 + cost2 + local f m
        end in
      Ok (if le_cap cost cap && better cost && le_cap m mem then tbl_set s (i, cost, Node [c1; c2]) xn else xn)
    end.
End Compare.

Section Search.
  Variable minimize : dp_min.
  Variable search_outer : bool.
  Variable d : sizes.
  Variable inputs : list (gset N).
  Variable output : gset N.
  Variables (g all : N).
  Variable mem : option nat.

  (** paths.py 1259-1281: two entries are combined if disjoint, once per pair, and not by an outer product. *)
  Definition dp_try (cap : option nat) (halves : bool) (xn : table) (p : (N * entry) * (N * entry)) : res table :=
    let '((s1, e1), (s2, e2)) := p in
    if N.eqb (N.land s1 s2) 0 && (negb halves || N.ltb s1 s2) then
      let cut := (e1.1.1 ∩ e2.1.1) ∖ output in
      if search_outer || negb (bool_decide (cut = ∅))
      then dp_compare minimize d inputs g all mem cap s1 s2 e1 e2 cut (e1.1.1 ∪ e2.1.1) xn
      else Ok xn
    else Ok xn.
  (** paths.py 1255-1256: all pairs from [x[m]] and [x[n-m]]; tables are stored from [x[1]] on. *)
  Definition dp_split (cap : option nat) (n : nat) (x : list table) (xn : table) (m : nat) : res table :=
    let xa := default [] (x !! (m - 1)) in
    let xb := default [] (x !! (n - m - 1)) in
    foldM_res (dp_try cap (Nat.eqb m (n - m))) xn (xa ≫= fun p => (fun q => (p, q)) <$> xb).
  (** paths.py 1251-1281: [x[n]] from the smaller tables *)
  Definition dp_level (cap : option nat) (x : list table) (n : nat) : res (list table) :=
    xn ← foldM_res (dp_split cap n x) (default [] (x !! (n - 1))) (seq 1 (n / 2));
    Ok (<[n - 1 := xn]> x).
  Definition dp_round (cap : option nat) (x : list table) : res (list table) :=
    foldM_res (dp_level cap) x (seq 2 (length (default [] (x !! 0)) - 1)).
  (** [a > b] with [None] for infinity *)
  Definition gt_inf (a b : option nat) : bool := match a, b with None, Some _ => true | Some a, Some b => b <? a | _, None => false end.
  (** paths.py 1249-1287 *)
  Fixpoint dp_while (fuel : nat) (naive : option nat) (inc : nat) (cap : option nat) (x : list table) : res (list table) :=
    match default [] (last x) with
    | [] =>
      match fuel with
      | 0 => Err NoFuel
      | S fuel' =>
        x ← dp_round cap x;
        if gt_inf cap naive && (match default [] (last x) with [] => true | _ => false end) then Err RuntimeError
        else dp_while fuel' naive inc (Nat.mul inc <$> cap) x
      end
    | _ => Ok x
    end.
End Search.

(** How [cost_cap] is chosen: paths.py 1237-1242. *)
Inductive capping := CapTrue | CapFalse | CapInt (c : nat).

Section Dp.
  Variable ordI : gset nat -> list nat.
  Variable pop : gset nat -> nat.
  Variable minimize : dp_min.
  Variable cost_cap : capping.
  Variable search_outer : bool.
  (** Number of rounds of the while loop allowed. *)
  Variable rounds : nat.

  (** [ind_counts]: paths.py 1187 *)
  Definition ind_count (inputs : list (gset N)) (output : gset N) (c : N) : nat :=
    length (filter (fun k => c ∈ k) inputs) + (if decide (c ∈ output) then 1 else 0).
  (** paths.py 1081-1105: [_dp_parse_out_single_term_ops]: inputs left, inputs reduced to scalars, contractions of the former *)
  Definition parse_single (inputs : list (gset N)) (output : gset N) : list (gset N) * list tree * list tree :=
    foldl (fun '(parsed, dn, ctr) '(j, i) =>
        let red := filter (fun c => ind_count inputs output c <> 1) i in
        if decide (red = ∅ /\ i <> ∅) then (parsed, dn ++ [Node [Leaf j]], ctr)
        else (parsed ++ [red], dn, ctr ++ [if decide (red = i) then Leaf j else Node [Leaf j]]))
      ([], [], []) (zip (seq 0 (length inputs)) inputs).

  (** paths.py 1069-1078: [simple_tree_tuple]; [reduce] of nothing is a TypeError. *)
  Definition simple_tree (l : list tree) : res tree :=
    match l with [] => Err TypeError | t :: l' => Ok (foldl (fun x y => Node [x; y]) t l') end.

  (** paths.py 1220-1291: one part; its contraction and the size of its result *)
  Definition dp_part (inputs : list (gset N)) (ctr : list tree) (output : gset N) (d : sizes) (mem naive : option nat) (part : gset nat) : res (tree * nat) :=
    let all := N.sub (bit (length inputs)) 1 in
    let js := ordI part in
    let x1 := (fun j => (bit j, (default ∅ (inputs !! j), 0, default (Leaf 0) (ctr !! j)))) <$> js in
    let x := x1 :: replicate (size part - 1) [] in
    let g := foldl (fun a j => N.lor a (bit j)) 0%N js in
    let inds := union_sets (bitmap_select g inputs) in
    cap ← (match cost_cap with CapTrue => c ← set_size (inds ∩ output) d; Ok (Some c) | CapFalse => Ok None | CapInt c => Ok (Some c) end);
    dims ← mapM_res (fun c => of_opt KeyError (d !! c)) (elements inds);
    let inc := match dims with [] => 2 | v :: vs => Nat.max (foldl Nat.min v vs) 2 end in
    x ← dp_while minimize search_outer d inputs output g all mem rounds naive inc cap x;
    match default [] (last x) with
    | [] => Err IndexError
    | (_, (i, _, c)) :: _ => m ← set_size i d; Ok (c, m)
    end.

  (** The order of the parts: [sorted(range(n), key=sizes)] is stable. *)
  Definition size_le (a b : nat * nat * tree) : Prop := a.1.1 < b.1.1 \/ (a.1.1 = b.1.1 /\ a.1.2 <= b.1.2).
  #[global] Instance size_le_dec a b : Decision (size_le a b).
  Proof. unfold size_le. apply _. Defined.
  Definition by_size (l : list (tree * nat)) : list tree :=
    snd <$> merge_sort size_le ((fun p => (p.2.2, p.1, p.2.1)) <$> zip (seq 0 (length l)) l).

  Definition dp_naive (inputs : list (gset N)) (output : gset N) (d : sizes) : res (option nat) :=
    match minimize with
    | DpCombo _ | DpLimit _ | DpLocal _ => Ok None
    | _ => p ← set_size (union_sets inputs ∪ output) d; Ok (Some (length inputs * p))
    end.
  (** paths.py 1148-1306: the contraction tree [DynamicProgramming.__call__] builds *)
  Definition dp_tree (inputs_ : list (gset N)) (output : gset N) (d : sizes) (mem : option nat) : res tree :=
    naive ← dp_naive inputs_ output d;
    let '(inputs, dn, ctr) := parse_single inputs_ output in
    match inputs with
    | [] => simple_tree dn
    | _ =>
      subgraphs ← (if search_outer then Ok [set_seq 0 (length inputs)] else find_parts ordI pop inputs output);
      cs ← mapM_res (dp_part inputs ctr output d mem naive) subgraphs;
      simple_tree (by_size (((fun t => (t, 1)) <$> dn) ++ cs))
    end.
  (** [DynamicProgramming.__call__] and [dynamic_programming], paths.py 1309-1317 *)
  Definition dp (inputs : list (gset N)) (output : gset N) (d : sizes) (mem : option nat) : res path :=
    t ← dp_tree inputs output d mem;
    tree_to_sequence t.
End Dp.
