(** Specification of what a [RandomOptimizer] does with worker pools and jobs. *)
From Verif Require Import Prelude Contract Branch Random Executor.

Definition acts_of (e : pool_entry) : list action :=
  match e with ESet _ _ acts | ECall _ _ acts | EDelete acts => acts | EUserShut _ => [] end.
(** All that happened, in order *)
Definition log (es : list pool_entry) : list action := es ≫= acts_of.
Definition times (a : action) (l : list action) : nat := count_occ (fun x y => decide (x = y)) l a.

Definition submitted (l : list action) : list nat := l ≫= fun a => match a with Submitted _ j => [j] | _ => [] end.
(** Jobs whose result was waited for, or which were cancelled *)
Definition settled (l : list action) : list nat := l ≫= fun a => match a with Finished j | Cancelled j => [j] | _ => [] end.

(** Pools of the optimizer are started and shut down once each, one after the other; pools of users are left alone. *)
Definition pools_ok (l : list action) : Prop :=
  (forall n, times (Started n) l <= 1 /\ times (Shut (Own n)) l = times (Started n) l) /\
  (forall u, Shut (Users u) ∉ l) /\
  (forall l1 n l2, l = l1 ++ Started n :: l2 -> Shut (Own n) ∉ l1 /\ forall k, Started k ∈ l1 -> Shut (Own k) ∈ l1).
(** Each job submitted is waited for or cancelled, and not both. *)
Definition jobs_settled (l : list action) : Prop := submitted l ≡ₚ settled l /\ NoDup (submitted l).

(** The pool that the entries of a life leave in place: that of the last assignment that succeeded. *)
Fixpoint pool_in_place (before : option pool) (es : list pool_entry) : option pool :=
  match es with
  | [] => before
  | ESet v (Ok _) acts :: es =>
    pool_in_place match v with
                  | PFalse | PNone => None
                  | PTrue | PWorkers _ => last acts ≫= fun a => match a with Started n => Some (Own n) | _ => None end
                  | PPool u => Some (Users u)
                  end es
  | _ :: es => pool_in_place before es
  end.

Definition set_failed (e : pool_entry) : Prop := match e with ESet _ (Err _) _ => True | _ => False end.
Definition user_shut (e : pool_entry) : Prop := match e with EUserShut _ => True | _ => False end.
Definition result_of (e : pool_entry) : list (res path) := match e with ECall _ r _ => [r] | _ => [] end.
(** The calls of a life as calls of Random.v, where it is only said whether there is a pool. *)
Definition pooled (v : parallel_arg) : bool := match v with PFalse | PNone => false | _ => true end.
Fixpoint plain_calls (v : parallel_arg) (es : list pool_event) : list ro_call_args :=
  match es with
  | [] => []
  | PSet v :: es => plain_calls v es
  | PCall c :: es =>
    ROCall (pl_args c) (pl_trial c) (pl_repeats c) (if pooled v then Some (pl_pre c) else None) (pl_expired c) :: plain_calls v es
  | PUserShut _ :: es => plain_calls v es
  end.
