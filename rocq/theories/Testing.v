(** Model of /repo/opt_einsum/testing.py: build_shapes (lines 20-57) and rand_equation (lines 125-229). *)
From Verif Require Import Prelude Helpers Parser Contract.

(** testing.py 11-14: [_no_collision_chars], [_valid_chars], [_sizes] and [_default_dim_dict] *)
Definition no_collision_chars : str := (fun i => N.of_nat i + 7000)%N <$> seq 0 7.
Definition valid_chars : str := lit "abcdefghijklmnopqABC" ++ no_collision_chars.
Definition test_sizes : list nat := [2; 3; 4; 5; 4; 3; 2; 6; 5; 4; 3; 2; 5; 7; 4; 3; 2; 3; 4; 9; 10; 2; 4; 5; 3; 2; 6].
Definition default_dim_dict : sizes := list_to_map (zip valid_chars test_sizes).
(** testing.py 20-57: [build_shapes] *)
Definition build_shapes (string : str) (dims : option sizes) (replace_ellipsis : bool) : res (list (list nat)) :=
  let d := default default_dim_dict dims in
  string ← (if sub_in s_dots string then if replace_ellipsis then Ok (replace s_dots (take 3 no_collision_chars) string) else Err ValueError else Ok string);
  mapM_res (fun t => mapM_res (fun x => of_opt KeyError (d !! x)) t) (split s_comma (hd [] (split s_arrow string))).

(** What [rand_equation] draws: the size of the i-th label and of the global one, the two permutations, and the positions, numbered in the order they are drawn. *)
Record eq_draws := EqDraws { ed_size : nat -> nat; ed_gsize : nat; ed_shuffle : list N -> list N; ed_where : nat -> nat; ed_shuffle_out : list N -> list N }.

Section Rand.
  Variable R : eq_draws.
  (** testing.py 203-205: draws until the label is not on the operand drawn; [fuel] counts the draws *)
  Fixpoint draw_where (fuel : nat) (ix : N) (inputs : list str) (k : nat) : res (nat * nat) :=
    match fuel with
    | 0 => Err NoFuel
    | S fuel => t ← of_opt IndexError (inputs !! ed_where R k); if inb ix t then draw_where fuel ix inputs (S k) else Ok (ed_where R k, S k)
    end.
  (** testing.py 197-207: one label is placed; [randint(0, 0)] is a ValueError *)
  Definition place (fuel n : nat) (st : list str * nat) (iix : nat * N) : res (list str * nat) :=
    let '(inputs, k) := st in let '(i, ix) := iix in
    if i <? n then Ok (alter (fun t => t ++ [ix]) i inputs, k)
    else if n =? 0 then Err ValueError
    else '(w, k) ← draw_where fuel ix inputs k; Ok (alter (fun t => t ++ [ix]) w inputs, k).
  (** testing.py 185-194: the labels, outer ones once, bonds twice *)
  Definition gen (n_out : nat) (symbols : list N) : list N := List.concat (imap (fun i ix => if i <? n_out then [ix] else [ix; ix]) symbols).
  (** testing.py 125-229: [rand_equation] with [return_size_dict=True]; the permutations are of numpy arrays of one-character strings *)
  Definition rand_equation (fuel n regularity n_out : nat) (global_dim : bool) : res (str * list (list nat) * sizes) :=
    let num_inds := n * regularity / 2 + n_out in
    let symbols := (fun i => get_symbol (N.of_nat i)) <$> seq 0 num_inds in
    let size_dict : sizes := list_to_map (zip symbols (ed_size R <$> seq 0 num_inds)) in
    let output := take n_out symbols in
    let todo := ed_shuffle R (gen n_out symbols) in
    '(inputs, _) ← foldM_res (place fuel n) (replicate n [], 0) (zip (seq 0 (length todo)) todo);
    let gdim := get_symbol (N.of_nat num_inds) in
    let '(inputs, output, size_dict) :=
      if global_dim then ((fun t => t ++ [gdim]) <$> inputs, output ++ [gdim], <[gdim := ed_gsize R]> size_dict) else (inputs, output, size_dict) in
    shapes ← mapM_res (fun t => mapM_res (fun ix => of_opt KeyError (size_dict !! ix)) t) inputs;
    Ok (join s_comma inputs ++ s_arrow ++ ed_shuffle_out R output, shapes, size_dict).
End Rand.
