(** Model of /repo/opt_einsum/sharing.py and of the cached operations of contract.py 432-475, with object identities: [id] is the
    address of an object, addresses of collected objects can be given to new ones. *)
From Verif Require Import Prelude Einsum Parser Helpers Contract.

(** The keys of a sharing cache (sharing.py 97, 126, 150, 180, 202, 213). *)
Inductive key :=
  | KTensor (i : nat)
  | KTranspose (b : str) (i : nat) (axes : list nat)
  | KTensordot (b : str) (i j : nat) (axl axr : list nat)
  | KEinsum (b : str) (eq : str) (ids : list nat)
  | KConvert (name : str) (i : nat).
Global Instance key_eq_dec : EqDecision key. Proof. solve_decision. Defined.
Global Instance key_countable : Countable key.
Proof.
  refine (inj_countable'
    (fun k => match k with
      | KTensor i => inl i
      | KTranspose b i axes => inr (inl (b, i, axes))
      | KTensordot b i j axl axr => inr (inr (inl (b, i, j, axl, axr)))
      | KEinsum b eq ids => inr (inr (inr (inl (b, eq, ids))))
      | KConvert n i => inr (inr (inr (inr (n, i)))) end)
    (fun e => match e with
      | inl i => KTensor i
      | inr (inl (b, i, axes)) => KTranspose b i axes
      | inr (inr (inl (b, i, j, axl, axr))) => KTensordot b i j axl axr
      | inr (inr (inr (inl (b, eq, ids)))) => KEinsum b eq ids
      | inr (inr (inr (inr (n, i)))) => KConvert n i end) _).
  by intros [].
Defined.
Notation cache := (gmap key nat).

(** The objects alive and their values, the objects referred to by variables (with multiplicity), the cache dictionaries, the stack of
    caches of each thread (sharing.py 30, innermost first; a missing key is a missing stack), and a clock for the oracles. *)
Record world (K : semiring) := World {
  w_clock : nat; w_heap : gmap nat (tensor K); w_held : list nat; w_caches : gmap nat cache; w_stacks : gmap nat (list nat) }.
Arguments w_clock {K} _. Arguments w_heap {K} _. Arguments w_held {K} _. Arguments w_caches {K} _. Arguments w_stacks {K} _. Arguments World {K} _ _ _ _ _.

Definition by_id (p q : str * nat) : Prop := p.2 <= q.2.
Global Instance by_id_dec p q : Decision (by_id p q). Proof. unfold by_id. apply _. Defined.

Section Sharing.
  Context {K : semiring}.
  Notation tens := (tensor K).
  Variable ord : gset N -> list N.
  (** The libraries by name. *)
  Variable lib : str -> backend K.
  (** The address given to a new object, and which garbage is not collected yet. *)
  Variable alloc : nat -> gset nat -> nat.
  Variable keep : nat -> nat -> bool.
  (** What the conversions (to_torch, to_cupy, …) do. *)
  Variable conv : str -> tens -> res tens.

  (** State and exceptions. *)
  Definition st A := (world K * res A)%type.
  Definition sbind {A B} (p : st A) (f : world K -> A -> st B) : st B :=
    match p with (w, Ok a) => f w a | (w, Err e) => (w, Err e) end.
  Definition lift {A B} (w : world K) (r : res A) (f : A -> st B) : st B := match r with Ok a => f a | Err e => (w, Err e) end.

  (** ** The stacks (sharing.py 30-51, 75-81).  [_SHARING_STACK] is a defaultdict: looking up a missing thread adds an empty list. *)
  Definition currently_sharing (w : world K) (tid : nat) : bool := bool_decide (is_Some (w_stacks w !! tid)).
  Definition set_stacks (w : world K) s : world K := World (w_clock w) (w_heap w) (w_held w) (w_caches w) s.
  Definition get_sharing_cache (w : world K) (tid : nat) : st nat :=
    match w_stacks w !! tid with
    | None => (set_stacks w (<[tid := []]> (w_stacks w)), Err IndexError)
    | Some [] => (w, Err IndexError)
    | Some (c :: _) => (w, Ok c)
    end.
  Definition add_sharing_cache (w : world K) (tid c : nat) : world K :=
    set_stacks w (<[tid := c :: default [] (w_stacks w !! tid)]> (w_stacks w)).
  Definition remove_sharing_cache (w : world K) (tid : nat) : st unit :=
    match w_stacks w !! tid with
    | None => (set_stacks w (<[tid := []]> (w_stacks w)), Err IndexError)
    | Some [] => (w, Err IndexError)
    | Some [_] => (set_stacks w (delete tid (w_stacks w)), Ok tt)
    | Some (_ :: l) => (set_stacks w (<[tid := l]> (w_stacks w)), Ok tt)
    end.

  (** ** Memory.  The caches refer to their values; everything not referred to may be collected at the start of an operation. *)
  Definition cached_ids (w : world K) : list nat := (map_to_list (w_caches w)).*2 ≫= fun m : cache => (map_to_list m).*2.
  Definition collect (w : world K) (roots : list nat) : world K :=
    World (S (w_clock w)) (filter (fun p => p.1 ∈ roots \/ p.1 ∈ w_held w \/ p.1 ∈ cached_ids w \/ keep (w_clock w) p.1 = true) (w_heap w))
      (w_held w) (w_caches w) (w_stacks w).
  Definition values (w : world K) (ids : list nat) : res (list tens) := mapM_res (fun i => of_opt KeyError (w_heap w !! i)) ids.
  Definition new_object (w : world K) (T : tens) : world K * nat :=
    let r := alloc (w_clock w) (dom (w_heap w)) in
    (World (S (w_clock w)) (<[r := T]> (w_heap w)) (w_held w) (w_caches w) (w_stacks w), r).
  (** A call of a library function: the result is a new object. *)
  Definition plain_call (w : world K) (fn : list tens -> res tens) (ids : list nat) : st nat :=
    lift w (vals ← values w ids; fn vals) (fun T => let '(w', r) := new_object w T in (w', Ok r)).

  (** ** sharing.py 91-110 *)
  Definition set_cache (w : world K) (c : nat) (m : cache) : world K :=
    World (w_clock w) (w_heap w) (w_held w) (<[c := m]> (w_caches w)) (w_stacks w).
  Definition get_cache (w : world K) (c : nat) : cache := default ∅ (w_caches w !! c).
  Definition save_tensors (w : world K) (c : nat) (ids : list nat) : world K :=
    set_cache w c (foldl (fun m i => <[KTensor i := i]> m) (get_cache w c) ids).
  Definition memoize (w : world K) (c : nat) (k : key) (fn : list tens -> res tens) (ids : list nat) : st nat :=
    match get_cache w c !! k with
    | Some r => (w, Ok r)
    | None => sbind (plain_call w fn ids) (fun w r => (set_cache w c (<[k := r]> (get_cache w c)), Ok r))
    end.

  (** sharing.py 113-129 around contract.py 459-463; [roots] are the objects referred to by local variables. *)
  Definition cached_transpose (w : world K) (tid : nat) (roots : list nat) (b : str) (i : nat) (axes : list nat) : st nat :=
    let w := collect w (i :: roots) in
    let fn vals := match vals with [x] => b_transpose (lib b) x axes | _ => Err TypeError end in
    if negb (currently_sharing w tid) then plain_call w fn [i]
    else sbind (get_sharing_cache w tid) (fun w c => memoize (save_tensors w c [i]) c (KTranspose b i axes) fn [i]).
  (** sharing.py 132-153 around contract.py 466-470, with [axes] a pair of tuples. *)
  Definition cached_tensordot (w : world K) (tid : nat) (roots : list nat) (b : str) (i j : nat) (axl axr : list nat) : st nat :=
    let w := collect w (i :: j :: roots) in
    let fn vals := match vals with [x; y] => b_tensordot (lib b) x y axl axr | _ => Err TypeError end in
    if negb (currently_sharing w tid) then plain_call w fn [i; j]
    else sbind (get_sharing_cache w tid) (fun w c => memoize (save_tensors w c [i; j]) c (KTensordot b i j axl axr) fn [i; j]).
  (** sharing.py 174-180: the key of an einsum. *)
  Definition einsum_key (b : str) (inputs : list str) (output : str) (ids : list nat) : key :=
    let canonical := merge_sort by_id (zip inputs ids) in
    KEinsum b (alpha_canonicalize (join s_comma canonical.*1 ++ s_arrow ++ output)) canonical.*2.
  Definition call_key (b equation : str) (ids : list nat) (shapes : list (list nat)) : res key :=
    '(inp, out) ← parse_einsum_input equation shapes; Ok (einsum_key b (split s_comma inp) out ids).
  (** sharing.py 156-183 around contract.py 432-451, string equation, no keyword arguments but [backend]. *)
  Definition cached_einsum (w : world K) (tid : nat) (roots : list nat) (b : str) (equation : str) (ids : list nat) : st nat :=
    let w := collect w (ids ++ roots) in
    let fn := run_einsum (lib b) equation in
    if negb (currently_sharing w tid) then plain_call w fn ids
    else
      lift w (vals ← values w ids; call_key b equation ids (shape <$> vals)) (fun k =>
      sbind (get_sharing_cache w tid) (fun w c => memoize (save_tensors w c ids) c k fn ids)).
  (** sharing.py 186-216: the operand is not saved. *)
  Definition cached_convert (w : world K) (tid : nat) (roots : list nat) (name : str) (i : nat) : st nat :=
    let w := collect w (i :: roots) in
    let fn vals := match vals with [x] => conv name x | _ => Err TypeError end in
    if negb (currently_sharing w tid) then plain_call w fn [i]
    else sbind (get_sharing_cache w tid) (fun w c => memoize w c (KConvert name i) fn [i]).

  (** contract.py 652-706 with the cached operations: one step, then all. *)
  Definition sh_step (w : world K) (tid : nat) (b : str) (ops : list nat) (c : contraction) : st (list nat) :=
    lift w (pops (c_inds c) ops) (fun '(tmp, rest) =>
    sbind
      (if use_tensordot (lib b) (c_blas c) then
         lift w (split_arrow (c_eq c)) (fun '(input_str, results_index) =>
         lift w (match split s_comma input_str with [l; r] => Ok (l, r) | _ => Err ValueError end) (fun '(l, r) =>
         lift w (match tmp with [x; y] => Ok (x, y) | _ => Err TypeError end) (fun '(x, y) =>
         let tensor_result := filter (fun s => s ∉ c_rm c) (l ++ r) in
         lift w (td_axes ord l r (c_rm c)) (fun axes =>
         sbind (cached_tensordot w tid (tmp ++ rest) b x y axes.*1 axes.*2) (fun w v =>
         if decide (tensor_result = results_index) then (w, Ok v)
         else lift w (mapM_res (fun c => of_opt ValueError (find c tensor_result)) results_index) (fun perm =>
              cached_transpose w tid (v :: tmp ++ rest) b v perm))))))
       else cached_einsum w tid (tmp ++ rest) b (c_eq c) tmp)
      (fun w v => (w, Ok (rest ++ [v])))).
  Fixpoint sh_loop (w : world K) (tid : nat) (b : str) (ops : list nat) (cl : list contraction) : st (list nat) :=
    match cl with [] => (w, Ok ops) | c :: cl => sbind (sh_step w tid b ops c) (fun w ops => sh_loop w tid b ops cl) end.
  Definition sh_core (w : world K) (tid : nat) (b : str) (ops : list nat) (cl : list contraction) : st nat :=
    sbind (sh_loop w tid b ops cl) (fun w ops => lift w (of_opt IndexError (ops !! 0)) (fun r => (w, Ok r))).

  (** contract.py 502-603: [contract] in a thread; without optimization the library is always numpy. *)
  Definition sh_contract (w : world K) (tid : nat) (b : str) (use_blas : bool) (opt : optimize_arg) (mem : memory_arg) (s : str) (ids : list nat) : st nat :=
    match opt with
    | OFalse => cached_einsum w tid [] (lit "numpy") s ids
    | _ => lift w (vals ← values w ids; contract_path ord use_blas opt mem s (shape <$> vals)) (fun info => sh_core w tid b ids (pi_contractions info))
    end.

  (** What a program can do.  Results of operations are kept in a variable until dropped; an action on an object no variable refers
      to, or leaving a context that was not entered, cannot happen (nothing is done).  [WEnter] with a cache is
      [shared_intermediates(cache)], without is a new dictionary; leaving a context does not delete the dictionary, [WForget] does. *)
  Inductive action :=
    | WNew (T : tens) | WDrop (i : nat) | WCollect
    | WEnter (tid : nat) (c : option nat) | WExit (tid : nat) | WForget (c : nat)
    | WTranspose (tid : nat) (b : str) (i : nat) (axes : list nat)
    | WTensordot (tid : nat) (b : str) (i j : nat) (axl axr : list nat)
    | WEinsum (tid : nat) (b : str) (eq : str) (ids : list nat)
    | WContract (tid : nat) (b : str) (use_blas : bool) (opt : optimize_arg) (mem : memory_arg) (s : str) (ids : list nat)
    | WConvert (tid : nat) (name : str) (i : nat).
  Definition hold (w : world K) (i : nat) : world K := World (w_clock w) (w_heap w) (i :: w_held w) (w_caches w) (w_stacks w).
  Fixpoint remove_one (i : nat) (l : list nat) : list nat := match l with [] => [] | j :: l => if decide (i = j) then l else j :: remove_one i l end.
  Definition drop_ref (w : world K) (i : nat) : world K := World (w_clock w) (w_heap w) (remove_one i (w_held w)) (w_caches w) (w_stacks w).
  Definition hold_result (p : st nat) : world K := match p with (w, Ok r) => hold w r | (w, Err _) => w end.
  (** The objects an action names. *)
  Definition action_args (a : action) : list nat :=
    match a with
    | WTranspose _ _ i _ | WConvert _ _ i | WDrop i => [i]
    | WTensordot _ _ i j _ _ => [i; j]
    | WEinsum _ _ _ ids | WContract _ _ _ _ _ _ ids => ids
    | _ => []
    end.
  Definition act (w : world K) (a : action) : world K :=
    if negb (forallb (fun i => bool_decide (i ∈ w_held w)) (action_args a)) then w else
    match a with
    | WNew T => let w := collect w [] in let '(w', r) := new_object w T in hold w' r
    | WDrop i => drop_ref w i
    | WCollect => collect w []
    | WEnter tid None => let c := fresh (dom (w_caches w) : gset nat) in add_sharing_cache (set_cache w c ∅) tid c
    | WEnter tid (Some c) => if decide (is_Some (w_caches w !! c)) then add_sharing_cache w tid c else w
    | WExit tid => if currently_sharing w tid then (remove_sharing_cache w tid).1 else w
    | WForget c => if decide (exists tid l, w_stacks w !! tid = Some l /\ c ∈ l) then w
                   else World (w_clock w) (w_heap w) (w_held w) (delete c (w_caches w)) (w_stacks w)
    | WTranspose tid b i axes => hold_result (cached_transpose w tid [] b i axes)
    | WTensordot tid b i j axl axr => hold_result (cached_tensordot w tid [] b i j axl axr)
    | WEinsum tid b eq ids => hold_result (cached_einsum w tid [] b eq ids)
    | WContract tid b use_blas opt mem s ids => hold_result (sh_contract w tid b use_blas opt mem s ids)
    | WConvert tid name i => hold_result (cached_convert w tid [] name i)
    end.
End Sharing.
Arguments action _ : clear implicits.
