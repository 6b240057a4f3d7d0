(** What a randomly generated contraction should look like. *)
From Verif Require Import Prelude Testing.

(** The number of operands with a label. *)
Definition on (inputs : list str) (c : N) : nat := length (filter (fun t => c ∈ t) inputs).
(** [n] operands without repeated labels; [n_out] labels are on one operand and in the output, [bonds] labels on two operands and not in the output, and
    at most one on all and in the output; dimensions are between [lo] and [hi]. *)
Record random_network (n bonds n_out : nat) (global : bool) (lo hi : nat) (inputs : list str) (out : str) (D : N -> nat) : Prop := RandomNetwork {
  rn_count : length inputs = n;
  rn_nodup : Forall NoDup inputs;
  rn_labels : exists outer inner glob : list N, NoDup (outer ++ inner ++ glob) /\ length outer = n_out /\ length inner = bonds /\ length glob = (if global then 1 else 0) /\
    out ≡ₚ outer ++ glob /\ (forall c, c ∈ outer -> on inputs c = 1) /\ (forall c, c ∈ inner -> on inputs c = 2) /\ (forall c, c ∈ glob -> on inputs c = n) /\
    forall t c, t ∈ inputs -> c ∈ t -> c ∈ outer ++ inner ++ glob;
  rn_sizes : forall t c, t ∈ inputs -> c ∈ t -> lo <= D c <= hi;
  rn_used : n <= n_out + 2 * bonds -> Forall (fun t => t <> []) inputs }.
(** The draws are from the right ranges. *)
Record draws_in (R : eq_draws) (n lo hi : nat) : Prop := DrawsIn {
  di_size : forall i, lo <= ed_size R i <= hi;
  di_gsize : lo <= ed_gsize R <= hi;
  di_shuffle : forall l, ed_shuffle R l ≡ₚ l;
  di_where : forall k, ed_where R k < n;
  di_shuffle_out : forall l, ed_shuffle_out R l ≡ₚ l }.
