(** Model of /repo/opt_einsum/backends/torch.py: the einsum wrapper and the tensordot used when torch has none. *)
From Verif Require Import Prelude Einsum Parser.

(** torch.py 19: [_torch_symbols_base] *)
Definition torch_symbols_base : str := lit "abcdefghijklmnopqrstuvwxyzABCDEFGHIJKLMNOPQRSTUVWXYZ".

(** The [axes] argument: an integer, or a pair whose members are an integer or a sequence of integers. *)
Inductive axis_arg := AxOne (i : Z) | AxMany (l : list Z).
Inductive axes_arg := AxesInt (n : Z) | AxesPair (a b : axis_arg).

(** [range(a, b)] *)
Definition py_range (a b : Z) : list Z := (fun k => a + Z.of_nat k)%Z <$> seq 0 (Z.to_nat (b - a)).
(** The position an index names in a list of length [n]: a negative one counts from the end. *)
Definition py_pos (n : nat) (i : Z) : option nat :=
  if decide (0 <= i < Z.of_nat n)%Z then Some (Z.to_nat i) else if decide (- Z.of_nat n <= i < 0)%Z then Some (Z.to_nat (i + Z.of_nat n)) else None.
(** [l[i] = v] *)
Definition set_item {A} (l : list A) (i : Z) (v : A) : res (list A) := match py_pos (length l) i with Some k => Ok (<[k := v]> l) | None => Err IndexError end.

(** torch.py 62-69: both members of the pair as sequences. *)
Definition axis_list (a : axis_arg) : list Z := match a with AxOne i => [i] | AxMany l => l end.
Definition torch_axes (xnd : nat) (axes : axes_arg) : list Z * list Z :=
  match axes with AxesInt n => (py_range (Z.of_nat xnd - n) (Z.of_nat xnd), py_range 0 n) | AxesPair a b => (axis_list a, axis_list b) end.

(** torch.py 77-81: one symbol for every pair of contracted axes; [avail] are the symbols not taken yet. *)
Fixpoint fill_repeated (pairs : list (Z * Z)) (avail : str) (x_ix y_ix : list (option N)) : res (str * list (option N) * list (option N)) :=
  match pairs with
  | [] => Ok (avail, x_ix, y_ix)
  | (a1, a2) :: pairs =>
    match avail with
    | [] => Err StopIteration
    | c :: avail => x_ix ← set_item x_ix a1 (Some c); y_ix ← set_item y_ix a2 (Some c); fill_repeated pairs avail x_ix y_ix
    end
  end.
(** torch.py 84-88 and 89-93: the remaining axes of one operand; returns the unused symbols, the term and the symbols to append to the output. *)
Fixpoint fill_rest (ix : list (option N)) (avail : str) : res (str * str * str) :=
  match ix with
  | [] => Ok (avail, [], [])
  | Some c :: ix => '(avail, t, o) ← fill_rest ix avail; Ok (avail, c :: t, o)
  | None :: ix => match avail with [] => Err StopIteration | c :: avail => '(avail, t, o) ← fill_rest ix avail; Ok (avail, c :: t, c :: o) end
  end.

Section Torch.
  Context {K : semiring}.
  Notation tens := (tensor K).
  (** torch.einsum *)
  Variable lib_einsum : str -> list tens -> res tens.
  (** torch.py 41-48 *)
  Definition torch_einsum (equation : str) (ops : list tens) : res tens := lib_einsum (convert_to_valid_einsum_chars equation) ops.
  (** torch.py 51-97, without [torch.tensordot]. *)
  Definition torch_tensordot (x y : tens) (axes : axes_arg) : res tens :=
    let xnd := length (shape x) in let ynd := length (shape y) in
    let '(axl, axr) := torch_axes xnd axes in
    '(avail, x_ix, y_ix) ← fill_repeated (zip axl axr) torch_symbols_base (replicate xnd None) (replicate ynd None);
    '(avail, tx, ox) ← fill_rest x_ix avail;
    '(avail, ty, oy) ← fill_rest y_ix avail;
    torch_einsum (tx ++ s_comma ++ ty ++ s_arrow ++ ox ++ oy) [x; y].
End Torch.
