(** Model of what expressions print: [ContractExpression.__repr__] and [__str__] (/repo/opt_einsum/contract.py 752, 907-921). *)
From stdpp Require Import sorting.
From Verif Require Import Prelude Helpers Parser Contract Api Report.

(** [str] of a list of non-negative integers. *)
Definition list_show (l : list nat) : str := lit "[" ++ join (lit ", ") ((fun n => decimal (N.of_nat n)) <$> l) ++ lit "]".
(** contract.py 907-912.  [constants] are the keys of the dictionary of constants: those given, without repetitions; the equation is the one given (contract.py 591, 752). *)
Definition expression_repr (s : str) (constants : list nat) : res str :=
  e ← format_const_einsum_str s (remove_dups constants);
  Ok (lit "<ContractExpression('" ++ e ++ lit "'" ++
      (if decide (remove_dups constants = []) then [] else lit ", constants=" ++ list_show (merge_sort le (remove_dups constants))) ++ lit ")>").
(** contract.py 914-921: [c[-1]] is the kind of BLAS call, or False.  [kw] is the text of the dictionary of keyword arguments. *)
Definition step_show (i : nat) (c : contraction) (kw : str) : str :=
  newline ++ lit "  " ++ decimal (N.of_nat (i + 1)) ++ lit ".  " ++
  lit "'" ++ c_eq c ++ lit "'" ++ (if decide (c_blas c = BFalse) then [] else lit " [" ++ blas_show (c_blas c) ++ lit "]") ++
  newline ++ lit "einsum_kwargs=" ++ kw.
Definition expression_str (s : str) (constants : list nat) (kw : str) (cl : list contraction) : res str :=
  r ← expression_repr s constants;
  Ok (r ++ mjoin (imap (fun i c => step_show i c kw) cl)).
