(** Model of /repo/opt_einsum/parser.py. *)
From Verif Require Import Prelude.

(** parser.py 22: [_einsum_symbols_base] *)
Definition symbols_base : str := lit "abcdefghijklmnopqrstuvwxyzABCDEFGHIJKLMNOPQRSTUVWXYZ".

(** parser.py 25-38: [is_valid_einsum_char] *)
Definition is_valid_einsum_char (x : N) : bool := inb x symbols_base || inb x (lit ",->.").

(** parser.py 41-54: [has_valid_einsum_chars_only] *)
Definition has_valid_einsum_chars_only (s : str) : bool := forallb is_valid_einsum_char s.

(** parser.py 57-80: [get_symbol].  The [ValueError] of [chr] above 0x10FFFF is not modelled. *)
Definition get_symbol (i : N) : N :=
  if (i <? 52)%N then default 0%N (symbols_base !! N.to_nat i)
  else if (55296 <=? i)%N then (i + 2048)%N
  else (i + 140)%N.

(** parser.py 83-99: [gen_unused_symbols].  The [while] loop runs on fuel; [None] is out of fuel. *)
Fixpoint gen_unused_loop (fuel : nat) (used : str) (i : N) (n : nat) : option str :=
  match n with
  | 0 => Some []
  | S n' =>
    match fuel with
    | 0 => None
    | S fuel' =>
      let s := get_symbol i in
      if inb s used then gen_unused_loop fuel' used (i + 1) n
      else cons s <$> gen_unused_loop fuel' used (i + 1) n'
    end
  end.
(** Every miss uses up one character of [used], so this much fuel is enough (theorem C07). *)
Definition gen_unused_symbols (used : str) (n : nat) : str :=
  default [] (gen_unused_loop (length used + n) used 0 n).

(** [{x: get_symbol(i) for i, x in enumerate(symbols)}] *)
Fixpoint enum_symbols (i : N) (symbols : list N) : gmap N N :=
  match symbols with
  | [] => ∅
  | x :: symbols' => <[x := get_symbol i]> (enum_symbols (i + 1) symbols')
  end.
(** [replacer.get(x, x)] *)
Definition get_or_self (m : gmap N N) (x : N) : N := default x (m !! x).

(** parser.py 102-115: [convert_to_valid_einsum_chars] *)
Definition convert_to_valid_einsum_chars (s : str) : str :=
  let symbols := sortN (elements (list_to_set s ∖ list_to_set (lit ",->") : gset N)) in
  get_or_self (enum_symbols 0 symbols) <$> s.

(** parser.py 117-134: [alpha_canonicalize] *)
Definition alpha_step (rename : gmap N N) (name : N) : gmap N N :=
  if inb name (lit ".,->") then rename
  else if decide (is_Some (rename !! name)) then rename
  else <[name := get_symbol (N.of_nat (size rename))]> rename.
Definition alpha_canonicalize (equation : str) : str :=
  let rename := foldl alpha_step ∅ equation in
  get_or_self rename <$> equation.

(** parser.py 137-153: [find_output_str] *)
Definition find_output_str (subscripts : str) : str :=
  let tmp := replace s_comma [] subscripts in
  filter (fun s => count s tmp = 1) (sortN (elements (list_to_set tmp : gset N))).

(** parser.py 156-169: [find_output_shape].  [max] of nothing is a ValueError, a missing axis an IndexError. *)
Definition locs (inputs : list str) (shapes : list (list nat)) (c : N) : res (list nat) :=
  foldr (fun '(shape, x) acc =>
           ds ← acc;
           match find c x with
           | None => Ok ds
           | Some loc => d ← of_opt IndexError (shape !! loc); Ok (d :: ds)
           end) (Ok []) (zip shapes inputs).
Definition find_output_shape (inputs : list str) (shapes : list (list nat)) (output : str) : res (list nat) :=
  mapM_res (fun c => ds ← locs inputs shapes c;
                     match ds with [] => Err ValueError | _ => Ok (max_list' ds) end) output.

(** [s[-k:]] for k > 0 *)
Definition last_k (k : nat) (s : str) : str := drop (length s - k) s.

(** parser.py 357-377: one term of the ellipsis loop; the state is (terms so far, longest). *)
Definition ellipsis_term (ellipse_inds : str) (shapes : list (list nat)) (num : nat) (sub : str) (longest : Z)
    : res (str * Z) :=
  if inb c_dot sub then
    if negb (count c_dot sub =? 3) || negb (count_sub s_dots sub =? 1) then Err ValueError
    else
      sh ← of_opt IndexError (shapes !! num);
      let cnt : Z := match sh with
                     | [] => 0%Z
                     | _ => (Z.max (Z.of_nat (length sh)) 1 - (Z.of_nat (length sub) - 3))%Z
                     end in
      let longest := if (longest <? cnt)%Z then cnt else longest in
      if (cnt <? 0)%Z then Err ValueError
      else if (cnt =? 0)%Z then Ok (replace s_dots [] sub, longest)
      else Ok (replace s_dots (last_k (Z.to_nat cnt) ellipse_inds) sub, longest)
  else Ok (sub, longest).

Fixpoint ellipsis_terms (ellipse_inds : str) (shapes : list (list nat)) (num : nat) (subs : list str) (longest : Z)
    : res (list str * Z) :=
  match subs with
  | [] => Ok ([], longest)
  | sub :: subs' =>
    '(s, longest') ← ellipsis_term ellipse_inds shapes num sub longest;
    '(ss, longest'') ← ellipsis_terms ellipse_inds shapes (S num) subs' longest';
    Ok (s :: ss, longest'')
  end.

(** [a, b = s.split("->")]: unpacking anything but two pieces is a ValueError. *)
Definition split_arrow (s : str) : res (str * str) :=
  match split s_arrow s with [a; b] => Ok (a, b) | _ => Err ValueError end.

(** [max(len(x) for x in operand_shapes)] *)
Definition max_rank (shapes : list (list nat)) : res nat :=
  match shapes with [] => Err ValueError | _ => Ok (max_list' (length <$> shapes)) end.

(** parser.py 342-393: "Parse ellipses" *)
Definition parse_ellipsis (subscripts : str) (shapes : list (list nat)) : res str :=
  let used := replace s_arrow [] (replace s_comma [] (replace [c_dot] [] subscripts)) in
  mr ← max_rank shapes;
  let ellipse_inds := gen_unused_symbols used mr in
  '(split_subscripts, output) ←
    (if sub_in s_arrow subscripts
     then '(input_tmp, output_sub) ← split_arrow subscripts; Ok (split s_comma input_tmp, Some output_sub)
     else Ok (split s_comma subscripts, None));
  '(terms, longest) ← ellipsis_terms ellipse_inds shapes 0 split_subscripts 0;
  let subs := join s_comma terms in
  let out_ellipse := if (longest =? 0)%Z then [] else last_k (Z.to_nat longest) ellipse_inds in
  match output with
  | Some output_sub => Ok (subs ++ s_arrow ++ replace s_dots out_ellipse output_sub)
  | None =>
    let output_subscript := find_output_str subs in
    let normal_inds := sortN (elements (list_to_set output_subscript ∖ list_to_set out_ellipse : gset N)) in
    Ok (subs ++ s_arrow ++ out_ellipse ++ normal_inds)
  end.

(** parser.py 336-340: "Check for proper ->" *)
Definition bad_arrow (subscripts : str) : bool :=
  (inb c_dash subscripts || inb c_gt subscripts) &&
  ((1 <? count c_dash subscripts) || (1 <? count c_gt subscripts) || negb (count_sub s_arrow subscripts =? 1)).

(** parser.py 401-406: each output character once, and present in the input. *)
Definition check_output (inp out : str) : bool :=
  forallb (fun c => (count c out =? 1) && inb c inp) out.

(** parser.py 336-415: [parse_einsum_input] once [subscripts] and the operand shapes are known. *)
Definition parse_subscripts (subscripts : str) (shapes : list (list nat)) : res (str * str) :=
  if bad_arrow subscripts then Err ValueError else
  subs ← (if inb c_dot subscripts then parse_ellipsis subscripts shapes else Ok subscripts);
  '(inp, out) ← (if sub_in s_arrow subs then split_arrow subs else Ok (subs, find_output_str subs));
  if negb (check_output inp out) then Err ValueError
  else if negb (length (split s_comma inp) =? length shapes) then Err ValueError
  else Ok (inp, out).

(** parser.py 316-334: string input; blanks are dropped. *)
Definition parse_einsum_input (subscripts : str) (shapes : list (list nat)) : res (str * str) :=
  parse_subscripts (replace [c_space] [] subscripts) shapes.

(** parser.py 232-249: [convert_subscripts]; a user subscript is [None] for Ellipsis, [Some l] for a label.
    A label missing from [symbol_map] is a KeyError. *)
Definition convert_subscripts {L} (symbol_map : L -> option N) (old_sub : list (option L)) : res str :=
  foldr (fun s acc =>
           rest ← acc;
           match s with
           | None => Ok (s_dots ++ rest)
           | Some l => c ← of_opt KeyError (symbol_map l); Ok (c :: rest)
           end) (Ok []) old_sub.

(** parser.py 252-286: [convert_interleaved_input] on labels drawn from [Z] (Python ints, any ordered type embeds
    finitely many labels in it); the operands are carried separately.  Pairs (operand, subscripts) come first, an odd
    last argument is the output. *)
Definition symbol_map (subs : list (list (option Z))) (l : Z) : option N :=
  let symbols := merge_sort (≤)%Z (elements (list_to_set (omap id (subs ≫= id)) : gset Z)) in
  (fun i => get_symbol (N.of_nat i)) <$> (list_find (fun x => x = l) symbols ≫= fun p => Some p.1).
Definition convert_interleaved (subs : list (list (option Z))) (out : option (list (option Z))) : res str :=
  terms ← mapM_res (convert_subscripts (symbol_map subs)) subs;
  match out with
  | None => Ok (join s_comma terms)
  | Some o => o' ← convert_subscripts (symbol_map subs) o; Ok (join s_comma terms ++ s_arrow ++ o')
  end.
