(** Model of the report of a contraction: [PathInfo.__repr__] (/repo/opt_einsum/contract.py 64-99). *)
From Verif Require Import Prelude Helpers Parser Contract.

(** [str(n)] for a non-negative integer. *)
Fixpoint decimal_go (fuel : nat) (n : N) : str :=
  match fuel with
  | 0 => []
  | S fuel => if (n <? 10)%N then [(48 + n)%N] else decimal_go fuel (n / 10) ++ [(48 + n mod 10)%N]
  end.
Definition decimal (n : N) : str := decimal_go (S (N.to_nat (N.size n))) n.

(** Non-negative decimal numbers of Python's [decimal] module: [dc_coef * 10 ^ dc_exp]. *)
Record dec := Dec { dc_coef : N; dc_exp : Z }.
Definition dec_int (n : nat) : dec := Dec (N.of_nat n) 0.
(** The quotient rounded to an integer, half to even. *)
Definition round_half_even (a b : N) : N :=
  let q := (a / b)%N in let r := (a mod b)%N in
  if (2 * r <? b)%N then q else if (b <? 2 * r)%N then (q + 1)%N else if N.even q then q else (q + 1)%N.
Definition ndigits (n : N) : nat := length (decimal n).
(** Rounding to [places] digits (the contexts' default rounding, half to even): the coefficient has exactly [places] digits. *)
Definition dec_round (places : nat) (x : dec) : dec :=
  let k := ndigits (dc_coef x) in
  let c := round_half_even (dc_coef x * 10 ^ N.of_nat places) (10 ^ N.of_nat k) in
  let e := (dc_exp x + Z.of_nat k - Z.of_nat places)%Z in
  if (c =? 10 ^ N.of_nat places)%N then Dec (10 ^ N.of_nat (places - 1)) (e + 1) else Dec c e.
(** [x / y] in the default context of 28 digits, for [y] not zero: 29 or more digits are computed, a remainder that is dropped is remembered in the last of them,
    and the result is rounded to 28 digits.  Trailing zeros are kept where Python drops them from an exact quotient; the value is the same. *)
Definition dec_div (x y : dec) : dec :=
  if (dc_coef x =? 0)%N then Dec 0 (dc_exp x - dc_exp y) else
  let shift := (Z.of_nat (ndigits (dc_coef y)) - Z.of_nat (ndigits (dc_coef x)) + 29)%Z in
  let a := (dc_coef x * 10 ^ Z.to_N shift)%N in let b := (dc_coef y * 10 ^ Z.to_N (- shift))%N in
  let q := (a / b)%N in
  let q' := if (a mod b =? 0)%N then q else if (q mod 5 =? 0)%N then (q + 1)%N else q in
  dec_round 28 (Dec q' (dc_exp x - dc_exp y - shift)).
(** [format(x, ".3e")] *)
Definition sci_show (m : N) (x : Z) : str :=
  match decimal m with
  | a :: l => a :: lit "." ++ l ++ lit "e" ++ (if (x <? 0)%Z then lit "-" else lit "+") ++ decimal (Z.to_N (Z.abs x))
  | [] => []
  end.
Definition format_3e (x : dec) : str :=
  if (dc_coef x =? 0)%N then lit "0.000e" ++ (if (dc_exp x + 3 <? 0)%Z then lit "-" else lit "+") ++ decimal (Z.to_N (Z.abs (dc_exp x + 3)))
  else let y := dec_round 4 x in sci_show (dc_coef y) (dc_exp y + 3).

(** [format(s, ">w")]: spaces in front. *)
Definition rjust (w : nat) (s : str) : str := replicate (w - length s) c_space ++ s.
Definition newline : str := [10%N].

(** The names [can_blas] returns (blas.py 84-122); [False] is shown as 0, being formatted with a width. *)
Definition blas_show (k : blas_kind) : str :=
  match k with
  | BFalse => lit "0" | OUTER_EINSUM => lit "OUTER/EINSUM" | DOT => lit "DOT" | DOT_EINSUM => lit "DOT/EINSUM" | GEMV_EINSUM => lit "GEMV/EINSUM" | GEMM => lit "GEMM" | TDOT => lit "TDOT"
  end.

(** contract.py 83-97: the row of a step. *)
Definition remaining_show (output : str) (remaining : option (list str)) : str :=
  match remaining with Some ts => join s_comma ts ++ s_arrow ++ output | None => lit "..." end.
Definition row (output : str) (c : contraction) (scale : nat) : str :=
  let size_remaining := 56 - 22 `max` length (c_eq c) in
  rjust 4 (decimal (N.of_nat scale)) ++ lit " " ++ rjust 14 (blas_show (c_blas c)) ++ lit " " ++ rjust 22 (c_eq c) ++ lit "    " ++ rjust size_remaining (remaining_show output (c_remaining c)).

(** contract.py 64-81: the lines before the rows. *)
Definition dashes : str := replicate 80 c_dash.
Definition speedup (info : path_info) : dec := dec_div (dec_int (pi_naive_cost info)) (dec_int (pi_opt_cost info `max` 1)).
Definition head_lines (n_indices : nat) (info : path_info) : list str :=
  [lit "  Complete contraction:  " ++ pi_eq info; lit "         Naive scaling:  " ++ decimal (N.of_nat n_indices);
   lit "     Optimized scaling:  " ++ decimal (N.of_nat (match pi_scale_list info with [] => 0 | l => max_list' l end));
   lit "      Naive FLOP count:  " ++ format_3e (dec_int (pi_naive_cost info)); lit "  Optimized FLOP count:  " ++ format_3e (dec_int (pi_opt_cost info));
   lit "   Theoretical speedup:  " ++ format_3e (speedup info); lit "  Largest intermediate:  " ++ format_3e (dec_int (pi_largest info)) ++ lit " elements";
   dashes; rjust 6 (lit "scaling") ++ lit " " ++ rjust 11 (lit "BLAS") ++ lit " " ++ rjust 22 (lit "current") ++ lit " " ++ rjust 37 (lit "remaining"); dashes].
(** contract.py 64-99: [PathInfo.__repr__]; [scale_list[n]] raises an IndexError if there are fewer scales than steps. *)
Definition path_repr (n_indices : nat) (output : str) (info : path_info) : res str :=
  rows ← mapM_res (fun nc => scale ← of_opt IndexError (pi_scale_list info !! nc.1); Ok (newline ++ row output nc.2 scale)) (zip (seq 0 (length (pi_contractions info))) (pi_contractions info));
  Ok (join newline (head_lines n_indices info) ++ mjoin rows).
(** [repr(contract_path(...)[1])] *)
Definition contract_path_repr (ord : gset N -> list N) (use_blas : bool) (opt : optimize_arg) (mem : memory_arg) (subscripts : str) (shapes : list (list nat)) : res str :=
  '(inp, output) ← parse_einsum_input subscripts shapes;
  info ← contract_path_parsed ord use_blas opt mem inp output shapes;
  path_repr (size (list_to_set (replace s_comma [] inp) : gset N)) output info.
