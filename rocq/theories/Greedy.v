(** Model of the greedy path search (/repo/opt_einsum/paths.py) and of [thermal_chooser] (/repo/opt_einsum/path_random.py).
    Dictionaries and sets are iterated in the order of [map_to_list] and [elements].  The iteration order only decides
    in which order the cost function is called and in which order entries enter a heap; the theorems quantify over all cost
    functions, which may depend on the call number and on the label sets, and over all choosers. *)
From Verif Require Import Prelude Helpers Contract Ssa Optimal Branch.

Notation key := (gset N).
(** A queue entry [((cost, id2, id1), k1, k2, k12)], paths.py 518. *)
Record gcand := GCand { q_cost : Z; q_id2 : nat; q_id1 : nat; q_k1 : key; q_k2 : key; q_k12 : key }.
Definition gcand_key (c : gcand) : list Z := [q_cost c; Z.of_nat (q_id2 c); Z.of_nat (q_id1 c)].
(** Comparison of queue entries.  Entries with equal cost and ids belong to the same two tensors. *)
Definition gcand_le (a b : gcand) : Prop := lex_leb (gcand_key a) (gcand_key b) = true.
#[global] Instance gcand_le_dec a b : Decision (gcand_le a b).
Proof. unfold gcand_le. apply _. Defined.

(** A cost function [cost_fn(size12, size1, size2, k12, k1, k2)]; the first argument counts the calls. *)
Definition cost_fun : Type := nat -> nat -> nat -> nat -> key -> key -> key -> Z.
(** A chooser sees the queue and the remaining tensors; it may remove entries and returns the contraction to do, or
    [None] if all entries it looked at are obsolete.  The first argument counts the calls. *)
Definition chooser : Type := nat -> list gcand -> gmap key nat -> res (option gcand * list gcand).

(** The state of [ssa_greedy_optimize]: [remaining], [dim_to_keys] (a defaultdict), [dim_ref_counts[2]] and [[3]],
    [footprints], [queue], [ssa_path], the counter [ssa_ids] and the number of calls of the cost function and of the chooser. *)
Record gstate := GState {
  g_rem : gmap key nat; g_dims : gmap N (gset key); g_ref2 : gset N; g_ref3 : gset N; g_foot : gmap key nat;
  g_queue : list gcand; g_path : path; g_next : nat; g_calls : nat; g_choices : nat }.
Definition keys_of (dims : gmap N (gset key)) (c : N) : gset key := default ∅ (dims !! c).

(** [heapq.heappop] on the queue *)
Definition pop_min (q : list gcand) : option (gcand * list gcand) :=
  match merge_sort gcand_le q with [] => None | c :: q' => Some (c, q') end.
(** [min] of a non-empty list *)
Definition min_cand (q : list gcand) : res gcand := match pop_min q with None => Err ValueError | Some (c, _) => Ok c end.

(** paths.py 590-595: [_simple_chooser] *)
Definition obsolete (rem : gmap key nat) (c : gcand) : bool := bool_decide (rem !! q_k1 c = None) || bool_decide (rem !! q_k2 c = None).
Definition simple_chooser : chooser := fun _ q rem =>
  match pop_min q with
  | None => Err IndexError
  | Some (c, q') => Ok (if obsolete rem c then None else Some c, q')
  end.

(** path_random.py 241-249: the entries popped until [nbranch] current ones are found *)
Fixpoint thermal_take (nbranch : nat) (rem : gmap key nat) (q : list gcand) : list gcand * list gcand :=
  match nbranch, q with
  | 0, _ => ([], q)
  | _, [] => ([], [])
  | S b, c :: q' => if obsolete rem c then thermal_take nbranch rem q' else let '(l, r) := thermal_take b rem q' in (c :: l, r)
  end.
(** path_random.py 211-277: [thermal_chooser]; [pick] is the random choice among the candidates. *)
Definition thermal_chooser (nbranch : nat) (pick : nat -> list gcand -> nat) : chooser := fun k q rem =>
  let '(choices, q') := thermal_take nbranch rem (merge_sort gcand_le q) in
  match choices with
  | [] => Ok (None, q')
  | [c] => Ok (Some c, q')
  | _ => match choices !! pick k choices with
         | None => Err IndexError
         | Some c => Ok (Some c, q' ++ delete (pick k choices) choices)
         end
  end.

Section Greedy.
  Variable cost_fn : cost_fun.
  Variable choose : chooser.
  Variable push_all : bool.
  (** [output] already includes the labels common to all inputs. *)
  Variable output : gset N.
  Variable d : sizes.

  (** paths.py 521-548: [_get_candidate] *)
  Definition get_candidate (st : gstate) (calls : nat) (k1 k2 : key) : res gcand :=
    let either := k1 ∪ k2 in
    let two := k1 ∩ k2 in
    let one := either ∖ two in
    let k12 := (either ∩ output) ∪ (two ∩ g_ref3 st) ∪ (one ∩ g_ref2 st) in
    size12 ← set_size k12 d;
    f1 ← of_opt KeyError (g_foot st !! k1);
    f2 ← of_opt KeyError (g_foot st !! k2);
    let cost := cost_fn calls size12 f1 f2 k12 k1 k2 in
    id1 ← of_opt KeyError (g_rem st !! k1);
    id2 ← of_opt KeyError (g_rem st !! k2);
    Ok (if id2 <? id1 then GCand cost id1 id2 k2 k1 k12 else GCand cost id2 id1 k1 k2 k12).
  Fixpoint get_candidates (st : gstate) (calls : nat) (k1 : key) (k2s : list key) : res (list gcand) :=
    match k2s with
    | [] => Ok []
    | k2 :: k2s => c ← get_candidate st calls k1 k2; l ← get_candidates st (S calls) k1 k2s; Ok (c :: l)
    end.
  (** paths.py 551-569: [_push_candidate] *)
  Definition push_candidate (st : gstate) (k1 : key) (k2s : list key) : res gstate :=
    cs ← get_candidates st (g_calls st) k1 k2s;
    new ← (if push_all then Ok cs else c ← min_cand cs; Ok [c]);
    Ok (GState (g_rem st) (g_dims st) (g_ref2 st) (g_ref3 st) (g_foot st) (g_queue st ++ new) (g_path st) (g_next st) (g_calls st + length k2s) (g_choices st)).

  (** paths.py 572-587: [_update_ref_counts] *)
  Definition update_ref (dims : gmap N (gset key)) (r : gset N * gset N) (c : N) : gset N * gset N :=
    match size (keys_of dims c) with
    | 0 | 1 => (r.1 ∖ {[c]}, r.2 ∖ {[c]})
    | 2 => (r.1 ∪ {[c]}, r.2 ∖ {[c]})
    | _ => (r.1 ∪ {[c]}, r.2 ∪ {[c]})
    end.
  Definition update_ref_counts (dims : gmap N (gset key)) (r : gset N * gset N) (l : list N) : gset N * gset N := foldl (update_ref dims) r l.

  (** [dim_to_keys[dim].remove(k)] and [.add(k)] for every [dim] in a list *)
  Definition remove_key (k : key) (dims : gmap N (gset key)) (c : N) : res (gmap N (gset key)) :=
    if decide (k ∈ keys_of dims c) then Ok (<[c := keys_of dims c ∖ {[k]}]> dims) else Err KeyError.
  Definition add_key (k : key) (dims : gmap N (gset key)) (c : N) : gmap N (gset key) := <[c := keys_of dims c ∪ {[k]}]> dims.

  (** paths.py 682-716: one contraction and the candidates it creates *)
  Definition greedy_step (st : gstate) (con : gcand) : res gstate :=
    let k1 := q_k1 con in
    let k2 := q_k2 con in
    let k12 := q_k12 con in
    id1 ← of_opt KeyError (g_rem st !! k1);
    let rem := delete k1 (g_rem st) in
    id2 ← of_opt KeyError (rem !! k2);
    let rem := delete k2 rem in
    dims ← foldM_res (remove_key k1) (g_dims st) (elements (k1 ∖ output));
    dims ← foldM_res (remove_key k2) dims (elements (k2 ∖ output));
    let p := g_path st ++ [[id1; id2]] in
    let '(p, next, dims) := match rem !! k12 with
      | Some id => (p ++ [[id; g_next st]], S (g_next st), dims)
      | None => (p, g_next st, foldl (add_key k12) dims (elements (k12 ∖ output)))
      end in
    let rem := <[k12 := next]> rem in
    let '(ref2, ref3) := update_ref_counts dims (g_ref2 st, g_ref3 st) (elements (k1 ∪ k2 ∖ output)) in
    size12 ← set_size k12 d;
    let st := GState rem dims ref2 ref3 (<[k12 := size12]> (g_foot st)) (g_queue st) p (S next) (g_calls st) (g_choices st) in
    let k2s := (⋃ (keys_of dims <$> elements k12) : gset key) ∖ {[k12]} in
    if decide (k2s = ∅) then Ok st else push_candidate st k12 (elements k2s).

  (** paths.py 678-716: the main loop *)
  Fixpoint greedy_loop (fuel : nat) (st : gstate) : res gstate :=
    match g_queue st with
    | [] => Ok st
    | _ =>
      match fuel with
      | 0 => Err NoFuel
      | S fuel' =>
        '(o, q) ← choose (g_choices st) (g_queue st) (g_rem st);
        let st := GState (g_rem st) (g_dims st) (g_ref2 st) (g_ref3 st) (g_foot st) q (g_path st) (g_next st) (g_calls st) (S (g_choices st)) in
        match o with
        | None => greedy_loop fuel' st
        | Some con => st ← greedy_step st con; greedy_loop fuel' st
        end
      end
    end.

  (** paths.py 719-728: the outer products at the end; entries are (size, id, key), popped by size and id *)
  Definition fq_le (a b : nat * nat * key) : Prop := a.1.1 < b.1.1 \/ (a.1.1 = b.1.1 /\ a.1.2 <= b.1.2).
  #[global] Instance fq_le_dec a b : Decision (fq_le a b).
  Proof. unfold fq_le. apply _. Defined.
  Fixpoint outer_loop (fuel : nat) (id1 : nat) (k1 : key) (q : list (nat * nat * key)) (p : path) (next : nat) : res path :=
    match merge_sort fq_le q with
    | [] => Ok p
    | (_, id2, k2) :: q' =>
      match fuel with
      | 0 => Err NoFuel
      | S fuel' =>
        let p := p ++ [[Nat.min id1 id2; Nat.max id1 id2]] in
        let k12 := (k1 ∪ k2) ∩ output in
        cost ← set_size k12 d;
        match merge_sort fq_le (q' ++ [(cost, next, k12)]) with
        | [] => Err IndexError
        | (_, id1, k1) :: q'' => outer_loop fuel' id1 k1 q'' p (S next)
        end
      end
    end.

  (** paths.py 631-640: eager Hadamard products of equal label sets *)
  Definition dedup_step (acc : gmap key nat * path * nat) (ik : nat * key) : gmap key nat * path * nat :=
    let '(rem, p, next) := acc in
    let '(i, k) := ik in
    match rem !! k with
    | Some id => (<[k := next]> rem, p ++ [[id; i]], S next)
    | None => (<[k := i]> rem, p, next)
    end.
  Definition dedup (inputs : list key) : gmap key nat * path * nat :=
    foldl dedup_step (∅, [], length inputs) (zip (seq 0 (length inputs)) inputs).

  (** paths.py 642-646 *)
  Definition init_dims (keys : list key) : gmap N (gset key) := foldl (fun m k => foldl (add_key k) m (elements (k ∖ output))) ∅ keys.
  (** paths.py 651-653 *)
  Definition init_ref (dims : gmap N (gset key)) (n : nat) : gset N :=
    list_to_set ((filter (fun p : N * gset key => n <= size p.2) (map_to_list dims)).*1) ∖ output.

  (** paths.py 659-675: the initial candidates of one label, its keys sorted by id *)
  Definition id_le (rem : gmap key nat) (a b : key) : Prop := default 0 (rem !! a) <= default 0 (rem !! b).
  #[global] Instance id_le_dec rem a b : Decision (id_le rem a b).
  Proof. unfold id_le. apply _. Defined.
  Fixpoint push_rows (st : gstate) (l : list key) : res gstate :=
    match l with
    | [] | [_] => Ok st
    | k1 :: l' => st ← push_candidate st k1 l'; push_rows st l'
    end.
  Definition push_dim (st : gstate) (ck : N * gset key) : res gstate := push_rows st (merge_sort (id_le (g_rem st)) (elements ck.2)).
End Greedy.

(** Intersection of all label sets; [frozenset.intersection()] of nothing is a TypeError. *)
Definition common (inputs : list key) : res key := match inputs with [] => Err TypeError | k :: l => Ok (foldl (∩) k l) end.

(** paths.py 598-730: [ssa_greedy_optimize] *)
Definition ssa_greedy (cost_fn : cost_fun) (choose_fn : option chooser) (inputs : list key) (output : key) (d : sizes) : res path :=
  match inputs with
  | [_] => Ok [[0]]
  | _ =>
    let choose := default simple_chooser choose_fn in
    let push_all := match choose_fn with None => false | Some _ => true end in
    com ← common inputs;
    let output := output ∪ com in
    let '(rem, p, next) := dedup inputs in
    let keys := (map_to_list rem).*1 in
    let dims := init_dims output keys in
    foot ← mapM_res (fun k => s ← set_size k d; Ok (k, s)) keys;
    let st := GState rem dims (init_ref output dims 2) (init_ref output dims 3) (list_to_map foot) [] p next 0 0 in
    st ← foldM_res (push_dim cost_fn push_all output d) st (map_to_list dims);
    let m := size (g_rem st) in
    st ← greedy_loop cost_fn choose push_all output d (length (g_queue st) + m * (m + 1)) st;
    final ← mapM_res (fun ki => s ← set_size (ki.1 ∩ output) d; Ok (s, ki.2, ki.1)) (map_to_list (g_rem st));
    match merge_sort fq_le final with
    | [] => Err IndexError
    | (_, id1, k1) :: q => outer_loop output d (length q) id1 k1 q (g_path st) (g_next st)
    end
  end.

(** paths.py 733-774: [greedy]; a memory limit switches to [branch] with one branch. *)
Definition greedy (cost_fn : cost_fun) (choose_fn : option chooser) (ordI : gset nat -> list nat)
    (inputs : list key) (output : key) (d : sizes) (mem : option nat) : res path :=
  match mem with
  | Some _ => branch (BBParams (Some 1) (fun new best => 4 * best <? new) MinFlops cost_fn) ordI inputs output d mem
  | None => p ← ssa_greedy cost_fn choose_fn inputs output d; ssa_to_linear p
  end.
