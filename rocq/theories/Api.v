(** Model of the remaining entry points of /repo/opt_einsum/contract.py and parser.py: interleaved input, get_shape, format_const_einsum_str. *)
From Verif Require Import Prelude Einsum Parser Helpers Contract.

(** contract.py 170-429 with parser.py 328-334: [contract_path] on interleaved input; [shapes] are those of the operands. *)
Definition contract_path_interleaved (ord : gset N -> list N) (use_blas : bool) (opt : optimize_arg) (mem : memory_arg)
    (subs : list (list (option Z))) (out : option (list (option Z))) (shapes : list (list nat)) : res path_info :=
  s ← convert_interleaved subs out;
  '(inp, output) ← parse_subscripts s shapes;
  contract_path_parsed ord use_blas opt mem inp output shapes.
(** contract.py 502-603: [contract] on interleaved input, with optimization (without, the arguments go to the array library as they are). *)
Definition contract_interleaved {K : semiring} (ord : gset N -> list N) (B : backend K) (use_blas : bool) (opt : optimize_arg) (mem : memory_arg)
    (subs : list (list (option Z))) (out : option (list (option Z))) (ops : list (tensor K)) : res (tensor K) :=
  info ← contract_path_interleaved ord use_blas opt mem subs out (shape <$> ops);
  core_contract ord B ops (pi_contractions info).

(** Python values as [get_shape] distinguishes them: with a shape attribute; of a base type (bool, int, float, complex, str, bytes);
    another sequence; anything else. *)
Inductive pyval := PShaped (sh : list nat) | PBase | PSeq (l : list pyval) | POther.
(** parser.py 186-190: the loop of [get_shape]; [x[0]] of an empty sequence is an IndexError. *)
Fixpoint shape_loop (x : pyval) : res (list nat) :=
  match x with
  | PSeq [] => Err IndexError
  | PSeq (y :: l) => sh ← shape_loop y; Ok (S (length l) :: sh)
  | _ => Ok []
  end.
(** parser.py 175-192: [get_shape] *)
Definition get_shape (x : pyval) : res (list nat) :=
  match x with PShaped sh => Ok sh | PBase => Ok [] | PSeq _ => shape_loop x | POther => Err ValueError end.

(** contract.py 714-737: [format_const_einsum_str]; [constants] are the keys of the dictionary of constants. *)
Definition c_open : N := 91.   (* [ *)
Definition c_close : N := 93.  (* ] *)
Definition s_merge : str := [c_close; c_comma; c_open].
Definition wrap_terms (constants : list nat) (terms : list str) : list str :=
  imap (fun i t => if decide (i ∈ constants) then [c_open] ++ t ++ [c_close] else t) terms.
Definition format_const_einsum_str (s : str) (constants : list nat) : res str :=
  match constants with
  | [] => Ok s
  | _ =>
    '(lhs, rhs, arrow) ← (if sub_in s_arrow s then '(l, r) ← split_arrow s; Ok (l, r, s_arrow) else Ok (s, [], []));
    Ok (replace s_merge s_comma (join s_comma (wrap_terms constants (split s_comma lhs)) ++ arrow ++ rhs))
  end.
