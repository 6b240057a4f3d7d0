(** Specifications the contraction theorems refer to: well-formed operands, complete paths, array-library contract. *)
From Verif Require Import Prelude Einsum Contract.

Section Good.
  Context {K : semiring} {L : Type}.
  Notation operand := (list L * tensor K)%type.
  (** A label repeated on one operand (a diagonal) has one dimension there. *)
  Definition diagonal (tops : list operand) : Prop :=
    forall p i j c d d', p ∈ tops -> p.1 !! i = Some c -> p.1 !! j = Some c ->
      shape p.2 !! i = Some d -> shape p.2 !! j = Some d' -> d = d'.
  (** No label is broadcast from size 1 to size 0 (see the refutation of C13). *)
  Definition no_empty_broadcast (tops : list operand) : Prop :=
    forall l, (l, 0) ∈ axes_of tops -> (l, 1) ∈ axes_of tops -> False.
  Record good (tops : list operand) : Prop := Good {
    good_ranked : ranked tops; good_compat : compat tops;
    good_diag : diagonal tops; good_zero : no_empty_broadcast tops }.
End Good.

(** A complete contraction path on [n] operands: every step names distinct available positions, at least one, the
    result is appended, and exactly one operand remains. *)
Fixpoint path_runs (n : nat) (p : path) : Prop :=
  match p with
  | [] => n = 1
  | s :: p' => s <> [] /\ NoDup s /\ Forall (fun i => i < n) s /\ path_runs (n - length s + 1) p'
  end.
Definition complete (n : nat) (p : path) : Prop := p <> [] /\ path_runs n p.

(** The 52 letters every einsum implementation accepts. *)
Definition letters : str := lit "abcdefghijklmnopqrstuvwxyzABCDEFGHIJKLMNOPQRSTUVWXYZ".
(** The equation with input terms [ts] and output [out]. *)
Definition equation (ts : list str) (out : str) : str := join s_comma ts ++ s_arrow ++ out.

(** What is assumed of an array library: on arguments its documentation admits, each function succeeds and returns the
    array the mathematical definition gives.  Nothing is assumed about other arguments. *)
Record backend_ok {K : semiring} (B : backend K) : Prop := BackendOk {
  ok_einsum : b_has_einsum B = true ->
    forall (ts : list str) (out : str) (ops : list (tensor K)),
      ts <> [] -> length ts = length ops ->
      Forall (Forall (fun c => c ∈ letters)) ts -> NoDup out -> (forall c, c ∈ out -> c ∈ labels_of (zip ts ops)) ->
      ranked (zip ts ops) -> compat (zip ts ops) -> diagonal (zip ts ops) ->
      exists T, b_einsum B (equation ts out) ops = Ok T /\ T ≡ₜ einsum (zip ts ops) out;
  ok_tensordot :
    forall (x y : tensor K) (axl axr : list nat),
      NoDup axl -> NoDup axr -> length axl = length axr ->
      Forall (fun a => a < length (shape x)) axl -> Forall (fun a => a < length (shape y)) axr ->
      (nth0 (shape x) <$> axl) = (nth0 (shape y) <$> axr) ->
      exists T, b_tensordot B x y axl axr = Ok T /\ T ≡ₜ tensordot x y axl axr;
  ok_transpose :
    forall (x : tensor K) (axes : list nat),
      axes ≡ₚ seq 0 (length (shape x)) ->
      exists T, b_transpose B x axes = Ok T /\ T ≡ₜ transpose x axes }.

(** Labels that are not syntax. *)
Definition plain (c : N) : Prop := c <> c_comma /\ c <> c_dash /\ c <> c_gt /\ c <> c_dot /\ c <> c_space.
