(** Model of the path conversions of /repo/opt_einsum/paths.py. *)
From Verif Require Import Prelude Contract.

(** Python's [bisect.bisect_left(ids, s)] on an ascending list: the number of entries below [s].  ([ids] is ascending
    throughout ssa_to_linear: proved in SsaFacts.v.) *)
Definition bisect_left (ids : list nat) (s : nat) : nat := length (filter (fun x => x < s) ids).
(** paths.py 100 and 138: [sum(map(len, path)) - len(path) + 1].  A negative value is modelled as 0 (it needs more empty
    tuples than other entries). *)
Definition path_arity (p : path) : nat := sum_list (length <$> p) + 1 - length p.

(** paths.py 104-110: the loop of [ssa_to_linear] *)
Fixpoint s2l_loop (ssa : nat) (ids : list nat) (p : path) : res path :=
  match p with
  | [] => Ok []
  | scon :: p' =>
    let con := sort_nat (bisect_left ids <$> scon) in
    '(_, ids') ← pops (reverse con) ids;
    rest ← s2l_loop (S ssa) (ids' ++ [ssa]) p';
    Ok (con :: rest)
  end.
(** paths.py 82-111: [ssa_to_linear] *)
Definition ssa_to_linear (p : path) : res path :=
  let n := path_arity p in s2l_loop n (seq 0 n) p.

(** paths.py 142-146: the loop of [linear_to_ssa]; [del l[i]] is a pop whose value is dropped. *)
Fixpoint l2s_loop (next : nat) (l : list nat) (p : path) : res path :=
  match p with
  | [] => Ok []
  | ids :: p' =>
    scon ← mapM_res (fun i => of_opt IndexError (l !! i)) ids;
    '(_, l') ← pops (sort_desc ids) l;
    rest ← l2s_loop (S next) (l' ++ [next]) p';
    Ok (scon :: rest)
  end.
(** paths.py 128-147: [linear_to_ssa] *)
Definition linear_to_ssa (p : path) : res path :=
  let n := path_arity p in l2s_loop n (seq 0 n) p.
