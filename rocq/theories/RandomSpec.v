(** Specification of histories of random path optimizers. *)
From Verif Require Import Prelude Contract PathSpec Ssa Branch Random.

(** Trial [a] is strictly better than trial [b]: less cost, or the same cost and less size; the other way round for "size". *)
Definition beats (m : minimize) (a b : trial) : Prop :=
  match m with
  | MinFlops => t_cost a < t_cost b \/ (t_cost a = t_cost b /\ t_size a < t_size b)
  | MinSize => t_size a < t_size b \/ (t_size a = t_size b /\ t_cost a < t_cost b)
  end.
(** [t] is the first of the best trials. *)
Definition first_best (m : minimize) (ts : list trial) (t : trial) : Prop :=
  exists before after, ts = before ++ t :: after /\ (forall u, u ∈ before -> beats m t u) /\ (forall u, u ∈ after -> ~ beats m u t).
(** The path to be returned after the trials [ts]. *)
Definition answer (m : minimize) (ts : list trial) (r : res path) : Prop :=
  (ts = [] /\ r = Err KeyError) \/ exists t, first_best m ts t /\ r = ssa_to_linear (t_path t).

(** A call, made after [r0] trials, assesses the trials [ts], and ends with the exception [err] or normally: the runs are numbered
    from [r0], without gaps unless an executor is used; all of them take place unless time is over or one fails. *)
Definition ran (c : ro_call_args) (r0 : nat) (ts : list trial) (err : option exn) : Prop :=
  exists rs, sublist rs (seq r0 (rc_repeats c)) /\ Forall2 (fun r t => rc_trial c r = Ok t) rs ts /\
    (forall k, S k < length ts -> rc_expired c k = false) /\
    (rc_pre_dispatch c = None -> rs = seq r0 (length ts) /\
      match err with
      | None => length ts = rc_repeats c \/ exists k, length ts = S k /\ rc_expired c k = true
      | Some e => length ts < rc_repeats c /\ rc_trial c (r0 + length ts) = Err e
      end).

(** A history of calls after the trials [done], with the results [rs], leading to the trials [final].  [first] are the arguments
    of the first call. *)
Fixpoint history_ok (m : minimize) (first : option ro_args) (done : list trial) (cs : list ro_call_args) (rs : list (res path)) (final : list trial) : Prop :=
  match cs, rs with
  | [], [] => final = done
  | c :: cs, r :: rs =>
    (exists a, first = Some a /\ a <> rc_args c /\ r = Err ValueError /\ history_ok m first done cs rs final) \/
    ((first = None \/ first = Some (rc_args c)) /\ exists ts err, ran c (length done) ts err /\
       match err with Some e => r = Err e | None => answer m (done ++ ts) r end /\
       history_ok m (Some (rc_args c)) (done ++ ts) cs rs final)
  | _, _ => False
  end.

(** How many of [n] repeats the parallel loop runs with [pre] jobs in advance. *)
Definition parallel_trials (n pre : nat) : nat := n - (n - pre + 1) / 2.

(** No label occurs only once in the operands and the output. *)
Definition no_lone (out : gset N) (sets : list (gset N)) : Prop := forall c, c ∈ union_all sets -> 2 <= occurrences out sets c.
