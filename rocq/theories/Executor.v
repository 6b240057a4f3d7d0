(** Model of the worker pools of a [RandomOptimizer] (/repo/opt_einsum/path_random.py 65-157, 159-208): which pools it starts and
    shuts down, and what becomes of the jobs it submits.  What is assessed is as in Random.v. *)
From Verif Require Import Prelude Contract Ssa Branch Random.

(** A pool started by the optimizer (ProcessPoolExecutor), or one supplied by the user. *)
Inductive pool := Own (n : nat) | Users (u : nat).
Global Instance pool_eq_dec : EqDecision pool. Proof. solve_decision. Defined.
(** path_random.py 101-129: the values of [parallel]: False, None, True, an integer (or Decimal), a pool. *)
Inductive parallel_arg := PFalse | PNone | PTrue | PWorkers (n : Z) | PPool (u : nat).
(** What happens to pools and jobs; jobs are numbered in the order of submission. *)
Inductive action := Started (n : nat) | Shut (p : pool) | Submitted (p : pool) (j : nat) | Finished (j : nat) | Cancelled (j : nat).
Global Instance action_eq_dec : EqDecision action. Proof. solve_decision. Defined.

(** [_executor], [_managing_executor]; the number of pools started and of jobs submitted; the pools shut down by anybody. *)
Record workers := Workers { wk_pool : option pool; wk_managing : bool; wk_started : nat; wk_jobs : nat; wk_down : list pool }.
Definition wk_fresh : workers := Workers None false 0 0 [].

(** path_random.py 103-105, 205-208: shut the pool down if the optimizer manages it. *)
Definition shut_managed (w : workers) : option exn * workers * list action :=
  if wk_managing w then
    match wk_pool w with
    | Some p => (None, Workers (wk_pool w) (wk_managing w) (wk_started w) (wk_jobs w) (p :: wk_down w), [Shut p])
    | None => (Some AttributeError, w, [])
    end
  else (None, w, []).
(** path_random.py 101-129: the setter of [parallel].  ProcessPoolExecutor refuses a number of workers that is not positive. *)
Definition set_parallel (v : parallel_arg) (w : workers) : res unit * workers * list action :=
  match shut_managed w with
  | (Some e, w, acts) => (Err e, w, acts)
  | (None, w, acts) =>
    let with_pool p := Workers p false (wk_started w) (wk_jobs w) (wk_down w) in
    let start := (Ok tt, Workers (Some (Own (wk_started w))) true (S (wk_started w)) (wk_jobs w) (wk_down w), acts ++ [Started (wk_started w)]) in
    match v with
    | PFalse | PNone => (Ok tt, with_pool None, acts)
    | PTrue => start
    | PWorkers n => if decide (n <= 0)%Z then (Err ValueError, with_pool (wk_pool w), acts) else start
    | PPool u => (Ok tt, with_pool (Some (Users u)), acts)
    end
  end.

(** A call; [pl_pre] is [pre_dispatch], the rest as in Random.v. *)
Record pool_call := PoolCall { pl_args : ro_args; pl_trial : nat -> res trial; pl_repeats : nat; pl_pre : nat; pl_expired : nat -> bool }.

(** path_random.py 186-196: what one trial changes. *)
Definition assess (m : minimize) (t : trial) (o : ro_inst) : ro_inst :=
  let o := ROInst (ro_first o) (ro_costs o ++ [t_cost t]) (ro_sizes o ++ [t_size t]) (ro_flops o) (ro_size o) (ro_path o) in
  if better m (t_cost t) (t_size t) (ro_flops o) (ro_size o)
  then ROInst (ro_first o) (ro_costs o) (ro_sizes o) (Some (t_cost t)) (Some (t_size t)) (Some (t_path t)) else o.

Section Loop.
  Variable m : minimize.
  Variable c : pool_call.
  (** A future: the number of its job and the run it does. *)
  Notation future := (nat * nat)%type.
  (** How the loop ended, the instance, the futures left in the deque, what happened to jobs. *)
  Notation loop_end := (option exn * ro_inst * list future * list action)%type.

  (** path_random.py 143-144, with the body of the loop (185-200): draining the deque after the [k]-th trial. *)
  Fixpoint drain (k : nat) (fs : list future) (o : ro_inst) : loop_end :=
    match fs with
    | [] => (None, o, [], [])
    | (j, r) :: fs =>
      match pl_trial c r with
      | Err e => (Some e, o, fs, [Finished j])
      | Ok t =>
        let o := assess m t o in
        if pl_expired c k then (None, o, fs, [Finished j])
        else let '(e, o, fs, acts) := drain (S k) fs o in (e, o, fs, Finished j :: acts)
      end
    end.
  (** path_random.py 131-144, with the body of the loop: submitting and yielding in tandem; [j] jobs were submitted before.
      A pool that is shut down refuses jobs (RuntimeError). *)
  Fixpoint tandem (p : pool) (down : bool) (k j : nat) (fs : list future) (repeats : list nat) (o : ro_inst) : loop_end * nat :=
    match repeats with
    | [] => (drain k fs o, j)
    | r :: repeats =>
      if length fs <? pl_pre c then
        if down then (Some RuntimeError, o, fs, [], j)
        else let '(e, o, fs, acts, j') := tandem p down k (S j) (fs ++ [(j, r)]) repeats o in (e, o, fs, Submitted p j :: acts, j')
      else
        match fs with
        | [] => (Some IndexError, o, fs, [], j)
        | (i, r) :: fs =>
          match pl_trial c r with
          | Err e => (Some e, o, fs, [Finished i], j)
          | Ok t =>
            let o := assess m t o in
            if pl_expired c k then (None, o, fs, [Finished i], j)
            else let '(e, o, fs, acts, j') := tandem p down (S k) j fs repeats o in (e, o, fs, Finished i :: acts, j')
          end
        end
    end.
End Loop.

(** path_random.py 159-203, 146-149: [__call__] and [_cancel_futures], which is not reached when a trial raises. *)
Definition pool_run (m : minimize) (o : ro_inst) (w : workers) (c : pool_call) : res path * ro_inst * workers * list action :=
  match check_args (ro_first o) (pl_args c) with
  | Err e => (Err e, o, w, [])
  | Ok args =>
    let o := ROInst (Some args) (ro_costs o) (ro_sizes o) (ro_flops o) (ro_size o) (ro_path o) in
    let repeats := seq (length (ro_costs o)) (pl_repeats c) in
    match wk_pool w with
    | None =>
      match ro_loop m (pl_trial c) (pl_expired c) 0 (Ok <$> repeats) o with
      | (Some e, o) => (Err e, o, w, [])
      | (None, o) => (ro_best_path o, o, w, [])
      end
    | Some p =>
      let '(e, o, fs, acts, j) := tandem m c p (bool_decide (p ∈ wk_down w)) 0 (wk_jobs w) [] repeats o in
      let w := Workers (wk_pool w) (wk_managing w) (wk_started w) j (wk_down w) in
      match e with
      | Some e => (Err e, o, w, acts)
      | None => (ro_best_path o, o, w, acts ++ (Cancelled <$> fs.*1))
      end
    end
  end.

(** What is done with an optimizer: [parallel] is assigned, it is called, a user shuts down a pool of their own. *)
Inductive pool_event := PSet (v : parallel_arg) | PCall (c : pool_call) | PUserShut (u : nat).
(** … and what came of it. *)
Inductive pool_entry :=
  | ESet (v : parallel_arg) (r : res unit) (acts : list action)
  | ECall (c : pool_call) (r : res path) (acts : list action)
  | EUserShut (u : nat)
  | EDelete (acts : list action).

Fixpoint pool_history (m : minimize) (o : ro_inst) (w : workers) (es : list pool_event) : list pool_entry :=
  match es with
  | [] => [EDelete (shut_managed w).2]
  | PSet v :: es => let '(r, w, acts) := set_parallel v w in ESet v r acts :: pool_history m o w es
  | PCall c :: es => let '(r, o, w, acts) := pool_run m o w c in ECall c r acts :: pool_history m o w es
  | PUserShut u :: es =>
    EUserShut u :: pool_history m o (Workers (wk_pool w) (wk_managing w) (wk_started w) (wk_jobs w) (Users u :: wk_down w)) es
  end.
(** The life of an optimizer: constructed (path_random.py 65-90), used, deleted (205-208).  If the constructor raises, what there is of
    the object is deleted at once. *)
Definition pool_life (m : minimize) (v : parallel_arg) (es : list pool_event) : list pool_entry :=
  let '(r, w, acts) := set_parallel v wk_fresh in
  ESet v r acts :: match r with Ok _ => pool_history m ro_fresh w es | Err _ => [EDelete (shut_managed w).2] end.
