(** Model of [BranchBound] and [branch] (/repo/opt_einsum/paths.py). *)
From Verif Require Import Prelude Helpers Contract Ssa Optimal.

(** paths.py 289-304: comparing two (flops, size) pairs, [None] is infinity; [_BETTER_FNS] *)
Definition lex_inf (a b : nat) (ba bb : option nat) : bool :=
  match ba with
  | None => true
  | Some x => (a <? x) || ((a =? x) && lt_inf b bb)
  end.
Inductive minimize := MinFlops | MinSize.
Definition better (m : minimize) (flops size : nat) (best_flops best_size : option nat) : bool :=
  match m with MinFlops => lex_inf flops size best_flops best_size | MinSize => lex_inf size flops best_size best_flops end.

(** paths.py 310-314: [cost_memory_removed]; paths.py 317-321 multiplies it by a random number, which is one more cost function. *)
Definition cost_memory_removed (_ : nat) (size12 size1 size2 : nat) (_ _ _ : gset N) : Z := (Z.of_nat size12 - Z.of_nat size1 - Z.of_nat size2)%Z.

(** Lexicographic comparison of the number parts of heap entries. *)
Fixpoint lex_leb (a b : list Z) : bool :=
  match a, b with
  | [], _ => true
  | _ :: _, [] => false
  | x :: a, y :: b => (x <? y)%Z || ((x =? y)%Z && lex_leb a b)
  end.

(** paths.py 452: a candidate [(cost, flops12, new_flops, new_size, (i, j), k12)] *)
Record cand := Cand { c_cost : Z; c_flops12 : nat; c_flops : nat; c_size : nat; c_i : nat; c_j : nat; c_k12 : gset N }.
Definition cand_key (c : cand) : list Z :=
  [c_cost c; Z.of_nat (c_flops12 c); Z.of_nat (c_flops c); Z.of_nat (c_size c); Z.of_nat (c_i c); Z.of_nat (c_j c)].
Definition cand_le (a b : cand) : Prop := lex_leb (cand_key a) (cand_key b) = true.
#[global] Instance cand_le_dec a b : Decision (cand_le a b).
Proof. unfold cand_le. apply _. Defined.
(** Popping a heap until it is empty yields its entries in ascending order.  The candidates of one node of the search
    have distinct (i, j), so the label sets at the end of the tuples are never compared. *)
Definition heap_order (l : list cand) : list cand := merge_sort cand_le l.

(** paths.py 331-366: the parameters of [BranchBound] *)
Record bb_params := BBParams {
  bb_nbranch : option nat;
  (** paths.py 436: [new_flops > cutoff_flops_factor * best_progress]; the factor may be any number, so this is a predicate *)
  bb_cut : nat -> nat -> bool;
  bb_minimize : minimize;
  (** the cost function; its first argument counts calls, for costs drawn at random *)
  bb_cost : nat -> nat -> nat -> nat -> gset N -> gset N -> gset N -> Z }.

(** paths.py 366-367 and 402-403: [self.best], [self.best_progress] and the caches of one call *)
Record br_state := BrState {
  b_flops : option nat; b_size : option nat; b_path : option path; b_progress : gmap nat nat;
  b_sizes : gmap (gset N) nat; b_results : gmap (gset N * gset N) (gset N * nat); b_calls : nat }.

Section Branch.
  Variable P : bb_params.
  Variable ordI : gset nat -> list nat.
  Variable output : gset N.
  Variable d : sizes.
  Variable mem : option nat.

  (** paths.py 413-452: [_assess_candidate] *)
  Definition assess (p : path) (inputs : list (gset N)) (remaining : gset nat) (flops size : nat) (k1 k2 : gset N) (i j : nat) (st : br_state)
      : res (option cand * br_state) :=
    '((k12, flops12), results) ← memo (b_results st) (k1, k2) (calc_k12_flops inputs output remaining i j d);
    '(size12, cache) ← memo (b_sizes st) k12 (set_size k12 d);
    let st := BrState (b_flops st) (b_size st) (b_path st) (b_progress st) cache results (b_calls st) in
    let new_flops := flops + flops12 in
    let new_size := Nat.max size size12 in
    if negb (better (bb_minimize P) new_flops new_size (b_flops st) (b_size st)) then Ok (None, st)
    else
      let n := length inputs in
      let below := match b_progress st !! n with None => true | Some x => new_flops <? x end in
      let cut := match b_progress st !! n with None => false | Some x => bb_cut P new_flops x end in
      if negb below && cut then Ok (None, st)
      else
        let st := if below then BrState (b_flops st) (b_size st) (b_path st) (<[n := new_flops]> (b_progress st)) (b_sizes st) (b_results st) (b_calls st) else st in
        if match mem with None => false | Some limit => limit <? size12 end then
          over ← oversize_flops inputs remaining output d;
          if lt_inf (flops + over) (b_flops st)
          then Ok (None, BrState (Some (flops + over)) (b_size st) (Some (p ++ [ordI remaining])) (b_progress st) (b_sizes st) (b_results st) (b_calls st))
          else Ok (None, st)
        else
          size1 ← of_opt KeyError (b_sizes st !! k1);
          size2 ← of_opt KeyError (b_sizes st !! k2);
          let cost := bb_cost P (b_calls st) size12 size1 size2 k12 k1 k2 in
          Ok (Some (Cand cost flops12 new_flops new_size i j k12),
              BrState (b_flops st) (b_size st) (b_path st) (b_progress st) (b_sizes st) (b_results st) (S (b_calls st))).

  (** paths.py 456-477: one pass over the pairs; [skip] leaves out pairs without a common label. *)
  Definition assess_pair (skip : bool) (p : path) (inputs : list (gset N)) (remaining : gset nat) (flops size : nat)
      (acc : list cand * br_state) (ij : nat * nat) : res (list cand * br_state) :=
    let '(cands, st) := acc in
    let '(i, j) := if ij.2 <? ij.1 then (ij.2, ij.1) else ij in
    k1 ← of_opt IndexError (inputs !! i);
    k2 ← of_opt IndexError (inputs !! j);
    if skip && bool_decide (k1 ∩ k2 = ∅) then Ok (cands, st)
    else
      '(o, st) ← assess p inputs remaining flops size k1 k2 i j st;
      Ok (match o with None => cands | Some c => cands ++ [c] end, st).

  (** paths.py 405-490: [_branch_iterate] *)
  Fixpoint branch_iterate (fuel : nat) (p : path) (inputs : list (gset N)) (remaining : gset nat) (flops size : nat) (st : br_state) : res br_state :=
    match fuel with
    | 0 => Err NoFuel
    | S fuel' =>
      if decide (base.size remaining = 1) then Ok (BrState (Some flops) (Some size) (Some p) (b_progress st) (b_sizes st) (b_results st) (b_calls st))
      else
        let pairs := combos2 (ordI remaining) in
        '(cands, st) ← foldM_res (assess_pair true p inputs remaining flops size) ([], st) pairs;
        '(cands, st) ← match cands with
                       | [] => foldM_res (assess_pair false p inputs remaining flops size) ([], st) pairs
                       | _ => Ok (cands, st)
                       end;
        let todo := match bb_nbranch P with None => heap_order cands | Some b => take b (heap_order cands) end in
        foldM_res (fun st c => branch_iterate fuel' (p ++ [[c_i c; c_j c]]) (inputs ++ [c_k12 c])
                                 (remaining ∖ {[c_i c; c_j c]} ∪ {[length inputs]}) (c_flops c) (c_size c) st) st todo
    end.
End Branch.

(** paths.py 53-70 and 366-371: an instance: the arguments of the first call and the best path so far *)
Record bb_inst := BBInst {
  bi_args : option (list (gset N) * gset N * sizes);
  bi_flops : option nat; bi_size : option nat; bi_path : option path; bi_progress : gmap nat nat; bi_calls : nat }.
Definition bb_fresh : bb_inst := BBInst None None None None ∅ 0.

(** paths.py 53-70: [_check_args_against_first_call] *)
Definition check_args {A} `{EqDecision A} (first : option A) (args : A) : res A :=
  match first with
  | None => Ok args
  | Some a => if decide (a = args) then Ok a else Err ValueError
  end.

(** paths.py 373-494: [BranchBound.__call__].  The state after an exception is not modelled. *)
Definition bb_call (P : bb_params) (ordI : gset nat -> list nat) (b : bb_inst) (inputs : list (gset N)) (output : gset N) (d : sizes) (mem : option nat)
    : res (path * bb_inst) :=
  args ← check_args (bi_args b) (inputs, output, d);
  cache ← mapM_res (fun k => s ← set_size k d; Ok (k, s)) inputs;
  st ← branch_iterate P ordI output d mem (S (length inputs)) [] inputs (range_set (length inputs)) 0 0
         (BrState (bi_flops b) (bi_size b) (bi_path b) (bi_progress b) (list_to_map cache) ∅ (bi_calls b));
  best ← of_opt KeyError (b_path st);
  p ← ssa_to_linear best;
  Ok (p, BBInst (Some args) (b_flops st) (b_size st) (b_path st) (b_progress st) (b_calls st)).

(** paths.py 497-510: [branch]; paths.py 357-358: at least one branch *)
Definition branch (P : bb_params) (ordI : gset nat -> list nat) (inputs : list (gset N)) (output : gset N) (d : sizes) (mem : option nat) : res path :=
  if decide (bb_nbranch P = Some 0) then Err ValueError
  else '(p, _) ← bb_call P ordI bb_fresh inputs output d mem; Ok p.

(** The results of a sequence of calls on one instance.  After an exception the instance is as before (true for the
    ValueError of [check_args], which is raised before anything is changed). *)
Definition bb_call_args : Type := (list (gset N) * gset N * sizes) * option nat.
Fixpoint bb_history (P : bb_params) (ordI : gset nat -> list nat) (b : bb_inst) (calls : list bb_call_args) : list (res path) :=
  match calls with
  | [] => []
  | (inputs, output, d, mem) :: calls =>
    match bb_call P ordI b inputs output d mem with
    | Ok (p, b') => Ok p :: bb_history P ordI b' calls
    | Err e => Err e :: bb_history P ordI b calls
    end
  end.
