(** C62: the worker pools of a random optimizer. *)
From Verif Require Import Prelude Contract Branch Random RandomSpec Executor ExecutorSpec ExecutorFacts.

(** In a whole life of an optimizer, from its construction to its deletion: each pool it starts is shut down exactly once, before the
    next one is started; a pool of the user is never shut down; an assignment to [parallel] fails only for a number of workers that is
    not positive; the jobs of a call go to the pool of the last assignment that succeeded; each job is submitted once, and each job
    is waited for or cancelled (not both) when the call ends, unless the call ends by the exception of a trial. *)
Theorem C62_pools_partial m v es : let life := pool_life m v es in
  pools_ok (log life) /\ NoDup (submitted (log life)) /\
  (forall v' e acts, ESet v' (Err e) acts ∈ life -> e = ValueError /\ exists n, v' = PWorkers n /\ (n <= 0)%Z) /\
  (forall l1 c r acts l2, life = l1 ++ ECall c r acts :: l2 ->
     (forall p j, Submitted p j ∈ acts -> pool_in_place None l1 = Some p) /\
     (jobs_settled acts \/ exists i e, pl_trial c i = Err e /\ r = Err e)).
Proof.
  simpl. split_and!; [apply life_pools_ok|apply life_jobs|intros v' e acts H; exact (life_sets _ _ _ _ _ _ H)|].
  intros l1 c r acts l2 H. destruct (life_calls _ _ _ _ _ _ _ _ H) as (Ha & Hb & _). by split.
Qed.
Print Assumptions C62_pools_partial.

(** If no assignment fails and the user shuts no pool down, the results are those of Random.v, where all that is known of a pool is
    that there is one: so C27 holds with pools too. *)
Theorem C62_results m v es : (forall e, e ∈ pool_life m v es -> ~ set_failed e /\ ~ user_shut e) ->
  pool_life m v es ≫= result_of = (ro_history m ro_fresh (plain_calls v es)).1.
Proof. apply life_plain. Qed.
Print Assumptions C62_results.

(** Three operands ab, bc, cd; the trials of even number find a path of cost 10, the others one of cost 20. *)
Definition pool_args : ro_args := ([{[97%N; 98%N]}; {[98%N; 99%N]}; {[99%N; 100%N]}], {[97%N; 100%N]}, list_to_map [(97%N, 2); (98%N, 2); (99%N, 2); (100%N, 2)]).
Definition pool_trial (r : nat) : res trial :=
  Ok (if Nat.even r then Trial [[0; 1]; [2; 3]] 10 4 else Trial [[1; 2]; [0; 3]] 20 4).
Definition four : pool_call := PoolCall pool_args pool_trial 4 3 (fun _ => false).
(** Time is over after the first trial. *)
Definition hurried : pool_call := PoolCall pool_args pool_trial 4 3 (fun _ => true).

(** A pool of its own for two calls, the second of which is short of time and cancels two jobs; then another one, replaced by one of the
    user, which is left alone. *)
Example C62_instance :
  let life := pool_life MinFlops PTrue [PCall four; PCall hurried; PSet (PWorkers 2); PCall hurried; PSet (PPool 7); PCall hurried; PSet PFalse; PCall four] in
  (forall e, e ∈ life -> ~ set_failed e /\ ~ user_shut e) /\
  life ≫= result_of = [Ok [[0; 1]; [0; 1]]; Ok [[0; 1]; [0; 1]]; Ok [[0; 1]; [0; 1]]; Ok [[0; 1]; [0; 1]]; Ok [[0; 1]; [0; 1]]] /\
  log life =
    [Started 0; Submitted (Own 0) 0; Submitted (Own 0) 1; Submitted (Own 0) 2; Finished 0; Finished 1; Finished 2;
     Submitted (Own 0) 3; Submitted (Own 0) 4; Submitted (Own 0) 5; Finished 3; Cancelled 4; Cancelled 5;
     Shut (Own 0); Started 1; Submitted (Own 1) 6; Submitted (Own 1) 7; Submitted (Own 1) 8; Finished 6; Cancelled 7; Cancelled 8; Shut (Own 1);
     Submitted (Users 7) 9; Submitted (Users 7) 10; Submitted (Users 7) 11; Finished 9; Cancelled 10; Cancelled 11].
Proof.
  cbv zeta. split_and!; [|by vm_compute|by vm_compute].
  intros e He. apply elem_of_list_In in He. revert e He. rewrite <-List.Forall_forall. vm_compute. repeat constructor; by intros [].
Qed.

(** An assignment that fails leaves a pool that is shut down in place, and the optimizer cannot be called any more: [parallel = 0]. *)
Theorem C62_failed_assignment_refuted : exists m v es c, (forall i e, pl_trial c i <> Err e) /\ (0 < pl_pre c) /\
  pool_life m v es = [ESet v (Ok tt) [Started 0]; ESet (PWorkers 0) (Err ValueError) [Shut (Own 0)]; ECall c (Err RuntimeError) []; EDelete []].
Proof. exists MinFlops, PTrue, [PSet (PWorkers 0); PCall four], four. split_and!; [done|simpl; lia|by vm_compute]. Qed.
Print Assumptions C62_failed_assignment_refuted.

(** When a trial raises, jobs that were submitted are neither waited for nor cancelled. *)
Theorem C62_failing_trial_refuted : exists m v es c acts e j, ECall c (Err e) acts ∈ pool_life m v es /\
  j ∈ submitted (log (pool_life m v es)) /\ j ∉ settled (log (pool_life m v es)).
Proof.
  set (c := PoolCall pool_args (fun _ => Err ValueError) 4 3 (fun _ => false)).
  exists MinFlops, PTrue, [PCall c], c, [Submitted (Own 0) 0; Submitted (Own 0) 1; Submitted (Own 0) 2; Finished 0], ValueError, 2.
  assert (pool_life MinFlops PTrue [PCall c] =
    [ESet PTrue (Ok tt) [Started 0]; ECall c (Err ValueError) [Submitted (Own 0) 0; Submitted (Own 0) 1; Submitted (Own 0) 2; Finished 0]; EDelete [Shut (Own 0)]]) as ->
    by by vm_compute.
  split_and!; [right; left| |]; by apply (bool_decide_unpack _); vm_compute.
Qed.
Print Assumptions C62_failing_trial_refuted.
