(** Model of /repo/opt_einsum/backends/object_arrays.py: einsum with Python loops over arrays of objects, for any element type. *)
From Verif Require Import Prelude Einsum Parser.

(** [d[k] = v] on a dictionary in insertion order. *)
Fixpoint dict_set {A} (k : N) (v : A) (l : list (N * A)) : list (N * A) :=
  match l with [] => [(k, v)] | (k', v') :: l => if decide (k = k') then (k, v) :: l else (k', v') :: dict_set k v l end.
Fixpoint dict_get {A} (k : N) (l : list (N * A)) : option A :=
  match l with [] => None | (k', v) :: l => if decide (k = k') then Some v else dict_get k l end.
(** [np.ndindex( *dims )]: all coordinates, the last one fastest. *)
Fixpoint ndindex (dims : list nat) : list (list nat) :=
  match dims with [] => [[]] | d :: ds => i ← seq 0 d; cons i <$> ndindex ds end.
(** [functools.reduce] without initial value. *)
Definition reduce {A} (f : A -> A -> A) (l : list A) : res A := match l with [] => Err TypeError | x :: l => Ok (foldl f x l) end.
Fixpoint in_rangeb (cs dims : list nat) : bool :=
  match cs, dims with [], [] => true | c :: cs, d :: dims => (c <? d) && in_rangeb cs dims | _, _ => false end.

Section ObjectEinsum.
  Context {A : Type}.
  Variable add mul : A -> A -> A.
  (** What [np.empty(…, dtype=object)] is filled with. *)
  Variable none : A.
  (** [array[loc]], one index per axis (fewer indices, giving a subarray, are an error here). *)
  Definition item (x : tensor A) (loc : list nat) : res A := if in_rangeb loc (shape x) then Ok (get x loc) else Err IndexError.

  (** object_arrays.py 33-59.  The dictionary [coord] is made anew for each inner coordinate; every inner iteration sets all its inner keys. *)
  Definition object_einsum (eq : str) (arrays : list (tensor A)) : res (tensor A) :=
    '(lhs, output) ← split_arrow eq;
    let inputs := split s_comma lhs in
    let sizes := foldl (fun s (p : N * nat) => dict_set p.1 p.2 s) [] (mjoin (zip_with (fun t (x : tensor A) => zip t (shape x)) inputs arrays)) in
    out_size ← mapM_res (fun k => of_opt KeyError (dict_get k sizes)) output;
    let inner := filter (fun k => k ∉ output) sizes.*1 in
    inner_size ← mapM_res (fun k => of_opt KeyError (dict_get k sizes)) inner;
    entries ← mapM_res (fun coo_o =>
      let coord := foldl (fun s (p : N * nat) => dict_set p.1 p.2 s) [] (zip output coo_o) in
      elements ← mapM_res (fun coo_i =>
        let coord := foldl (fun s (p : N * nat) => dict_set p.1 p.2 s) coord (zip inner coo_i) in
        es ← mapM_res (fun p : tensor A * str => loc ← mapM_res (fun k => of_opt KeyError (dict_get k coord)) p.2; item p.1 loc) (zip arrays inputs);
        reduce mul es) (ndindex inner_size);
      reduce add elements) (ndindex out_size);
    Ok (Tensor out_size (fun cs => match list_find (fun p => p.1 = cs) (zip (ndindex out_size) entries) with Some (_, p) => p.2 | None => none end)).
End ObjectEinsum.
