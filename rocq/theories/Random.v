(** Model of the random path search (/repo/opt_einsum/path_random.py) and of the choice of a path function
    (/repo/opt_einsum/paths.py 1309-1394).  What is drawn at random is an argument: the theorems quantify over it. *)
From Verif Require Import Prelude Helpers Contract Ssa Optimal Branch Greedy Dp.

(** path_random.py 280-302: [ssa_path_compute_cost].  [for i, j in ssa_path] is a ValueError unless the step has two entries. *)
Definition cost_state : Type := list (gset N) * gset nat * nat * nat.
Definition cost_step (output : gset N) (d : sizes) (st : cost_state) (s : list nat) : res cost_state :=
  let '(inputs, remaining, total, largest) := st in
  match s with
  | [i; j] =>
    '(k12, flops12) ← calc_k12_flops inputs output remaining i j d;
    size12 ← set_size k12 d;
    Ok (inputs ++ [k12], remaining ∖ {[i]} ∖ {[j]} ∪ {[length inputs]}, total + flops12, Nat.max largest size12)
  | _ => Err ValueError
  end.
Definition ssa_path_compute_cost (p : path) (inputs : list (gset N)) (output : gset N) (d : sizes) : res (nat * nat) :=
  '(_, _, total, largest) ← foldM_res (cost_step output d) (inputs, range_set (length inputs), 0, 0) p;
  Ok (total, largest).

(** The result of a trial: SSA path, cost, size of the largest intermediate. *)
Record trial := Trial { t_path : path; t_cost : nat; t_size : nat }.

(** path_random.py 84-90: the attributes of a [RandomOptimizer] that calls change: [_first_call_args], [costs], [sizes], [best]. *)
Definition ro_args : Type := list (gset N) * gset N * sizes.
Record ro_inst := ROInst {
  ro_first : option ro_args; ro_costs : list nat; ro_sizes : list nat;
  ro_flops : option nat; ro_size : option nat; ro_path : option path }.
Definition ro_fresh : ro_inst := ROInst None [] [] None None None.

(** path_random.py 92-95: the property [path] *)
Definition ro_best_path (o : ro_inst) : res path := p ← of_opt KeyError (ro_path o); ssa_to_linear p.

(** path_random.py 131-144: [_gen_results_parallel]: the run numbers whose results are yielded, in order.  [popleft] on an
    empty deque is an IndexError. *)
Fixpoint gen_parallel (pre_dispatch : nat) (futures repeats : list nat) : list (res nat) :=
  match repeats with
  | [] => Ok <$> futures
  | r :: repeats =>
    if length futures <? pre_dispatch then gen_parallel pre_dispatch (futures ++ [r]) repeats
    else match futures with
         | [] => [Err IndexError]
         | f :: futures => Ok f :: gen_parallel pre_dispatch futures repeats
         end
  end.

(** A call of a [RandomOptimizer]: the arguments, the trial function [setup] returns, [max_repeats], the executor
    ([None], or some executor with [pre_dispatch]), and whether [max_time] is over after the k-th trial of this call.
    [max_repeats], [pre_dispatch], the executor and the trial function can be changed between calls. *)
Record ro_call_args := ROCall {
  rc_args : ro_args; rc_trial : nat -> res trial; rc_repeats : nat; rc_pre_dispatch : option nat; rc_expired : nat -> bool }.

(** path_random.py 185-200: the loop over the trials; [k] counts them.  An exception leaves what was recorded so far. *)
Fixpoint ro_loop (m : minimize) (run : nat -> res trial) (expired : nat -> bool) (k : nat) (rs : list (res nat)) (o : ro_inst) : option exn * ro_inst :=
  match rs with
  | [] => (None, o)
  | r :: rs =>
    match r ← r; run r with
    | Err e => (Some e, o)
    | Ok t =>
      let o' := ROInst (ro_first o) (ro_costs o ++ [t_cost t]) (ro_sizes o ++ [t_size t]) (ro_flops o) (ro_size o) (ro_path o) in
      let o' := if better m (t_cost t) (t_size t) (ro_flops o') (ro_size o')
                then ROInst (ro_first o') (ro_costs o') (ro_sizes o') (Some (t_cost t)) (Some (t_size t)) (Some (t_path t)) else o' in
      if expired k then (None, o') else ro_loop m run expired (S k) rs o'
    end
  end.
(** path_random.py 159-203: [RandomOptimizer.__call__].  The memory limit is not used. *)
Definition ro_call (m : minimize) (o : ro_inst) (c : ro_call_args) : res path * ro_inst :=
  match check_args (ro_first o) (rc_args c) with
  | Err e => (Err e, o)
  | Ok args =>
    let o := ROInst (Some args) (ro_costs o) (ro_sizes o) (ro_flops o) (ro_size o) (ro_path o) in
    let repeats := seq (length (ro_costs o)) (rc_repeats c) in
    let rs := match rc_pre_dispatch c with None => Ok <$> repeats | Some pre => gen_parallel pre [] repeats end in
    match ro_loop m (rc_trial c) (rc_expired c) 0 rs o with
    | (Some e, o) => (Err e, o)
    | (None, o) => (ro_best_path o, o)
    end
  end.
(** A sequence of calls: the results and the final instance *)
Fixpoint ro_history (m : minimize) (o : ro_inst) (cs : list ro_call_args) : list (res path) * ro_inst :=
  match cs with
  | [] => ([], o)
  | c :: cs => let '(r, o) := ro_call m o c in let '(rs, o) := ro_history m o cs in (r :: rs, o)
  end.

(** What [RandomGreedy] draws: costs of run [r] ("memory-removed-jitter" uses a random number) and the choices of [thermal_chooser]. *)
Record draws := Draws { dr_cost : nat -> cost_fun; dr_pick : nat -> nat -> list gcand -> nat }.
(** path_random.py 305-323: [_trial_greedy_ssa_path_and_cost], with [RandomGreedy.choose_fn] (path_random.py 360-373) *)
Definition greedy_trial (nbranch : nat) (dr : draws) (args : ro_args) (r : nat) : res trial :=
  let '(inputs, output, d) := args in
  let choose_fn := if decide (r = 0 \/ nbranch = 1) then None else Some (thermal_chooser nbranch (dr_pick dr r)) in
  p ← ssa_greedy (dr_cost dr r) choose_fn inputs output d;
  '(cost, size) ← ssa_path_compute_cost p inputs output d;
  Ok (Trial p cost size).
(** path_random.py 386-398: [random_greedy] with default arguments except [max_repeats]; [random_greedy_128] *)
Definition random_greedy (max_repeats : nat) (dr : draws) (inputs : list (gset N)) (output : gset N) (d : sizes) (mem : option nat) : res path :=
  (ro_call MinFlops ro_fresh (ROCall (inputs, output, d) (greedy_trial 8 dr (inputs, output, d)) max_repeats None (fun _ => false))).1.

(** What the path functions depend on besides their arguments: iteration orders of sets, the random draws, and the number of
    rounds after which the model of dynamic programming gives up. *)
Record env := Env { en_ord : gset nat -> list nat; en_pop : gset nat -> nat; en_draws : draws; en_rounds : nat }.

(** paths.py 497-515: [branch_all], [branch_2], [branch_1] (cutoff factor 4, "flops", "memory-removed") *)
Definition branch_n (nbranch : option nat) (E : env) : finder :=
  branch (BBParams nbranch (fun new best => 4 * best <? new) MinFlops cost_memory_removed) (en_ord E).
Definition greedy_default (E : env) : finder := greedy cost_memory_removed None (en_ord E).
(** paths.py 1309-1317: [dynamic_programming] with default arguments (paths.py 1143-1146) *)
Definition dp_default (E : env) : finder := dp (en_ord E) (en_pop E) DpFlops CapTrue false (en_rounds E).

(** paths.py 1320-1340: [auto] *)
Definition auto (E : env) : finder := fun inputs =>
  let n := length inputs in
  if decide (1 <= n < 5) then optimal (en_ord E) inputs
  else if decide (5 <= n < 7) then branch_n None E inputs
  else if decide (7 <= n < 9) then branch_n (Some 2) E inputs
  else if decide (9 <= n < 15) then branch_n (Some 1) E inputs
  else greedy_default E inputs.
(** paths.py 1343-1362: [auto_hq] *)
Definition auto_hq (E : env) : finder := fun inputs =>
  let n := length inputs in
  if decide (1 <= n < 6) then optimal (en_ord E) inputs
  else if decide (6 <= n < 17) then dp_default E inputs
  else random_greedy 128 (en_draws E) inputs.

(** paths.py 1365-1377: [_PATH_OPTIONS], and the registrations of /repo/opt_einsum/__init__.py.  A dictionary as an
    association list. *)
Definition options (E : env) : list (str * finder) :=
  [(lit "auto", auto E); (lit "auto-hq", auto_hq E); (lit "optimal", optimal (en_ord E)); (lit "branch-all", branch_n None E);
   (lit "branch-2", branch_n (Some 2) E); (lit "branch-1", branch_n (Some 1) E); (lit "greedy", greedy_default E);
   (lit "eager", greedy_default E); (lit "opportunistic", greedy_default E); (lit "dp", dp_default E);
   (lit "dynamic-programming", dp_default E)].
(** [str.lower] on ASCII letters; other characters are left alone. *)
Definition lower_char (c : N) : N := if decide (65 <= c <= 90)%N then (c + 32)%N else c.
Definition lower (s : str) : str := lower_char <$> s.

Section Registry.
  Context {F : Type}.
  Notation registry := (list (str * F)).
  (** dictionary look-up and update *)
  Fixpoint lookup_fn (reg : registry) (name : str) : option F :=
    match reg with [] => None | (n, f) :: reg => if decide (n = name) then Some f else lookup_fn reg name end.
  Fixpoint set_fn (reg : registry) (name : str) (f : F) : registry :=
    match reg with [] => [(name, f)] | (n, g) :: reg => if decide (n = name) then (n, f) :: reg else (n, g) :: set_fn reg name f end.
  (** paths.py 1380-1385: [register_path_fn] *)
  Definition register_path_fn (reg : registry) (name : str) (f : F) : res registry :=
    match lookup_fn reg name with Some _ => Err KeyError | None => Ok (set_fn reg (lower name) f) end.
  (** paths.py 1388-1394: [get_path_fn] *)
  Definition get_path_fn (reg : registry) (name : str) : res F := of_opt KeyError (lookup_fn reg (lower name)).
End Registry.
(** The registry after [import opt_einsum]. *)
Definition all_options (E : env) : list (str * finder) :=
  set_fn (set_fn (options E) (lit "random-greedy") (random_greedy 32 (en_draws E))) (lit "random-greedy-128") (random_greedy 128 (en_draws E)).

(** contract.py 284-285, 343-357: [optimize] given as a name ([True] and [None] mean "auto"): the name is looked up only if there
    are more than two operands. *)
Definition named (reg : list (str * finder)) (name : str) : optimize_arg :=
  OFinder (fun inputs output d mem => f ← get_path_fn reg name; f inputs output d mem).
