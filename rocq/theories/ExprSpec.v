(** What is said about a ContractExpression: histories of calls, the arrays a call takes, what a library must do. *)
From Verif Require Import Prelude Einsum Parser Helpers Contract Spec Expression.

Section Spec.
  Context {K : semiring}.
  Notation tens := (tensor K).
  (** What can happen to an expression: a call, or an explicit [evaluate_constants]. *)
  Inductive event := ECall (b : str) (numpy : bool) (arrays : list tens) | EEval (b : str).
  Definition run_event (ord : gset N -> list N) (lib : str -> library K) (x : expression K) (ev : event) : expression K :=
    match ev with
    | ECall b numpy arrays => (expr_call ord lib x b numpy arrays).1
    | EEval b => match evaluate_constants ord lib x b with Ok x' => x' | Err _ => x end
    end.
  (** The expression after a history of calls. *)
  Definition after (ord : gset N -> list N) (lib : str -> library K) (x : expression K) (h : list event) : expression K := foldl (run_event ord lib) x h.

  (** The arrays passed to a call: the operands at the positions that are not constant, in order. *)
  Fixpoint given_from (i : nat) (constants : list nat) (ops : list tens) : list tens :=
    match ops with
    | [] => []
    | o :: ops => if decide (i ∈ constants) then given_from (S i) constants ops else o :: given_from (S i) constants ops
    end.
  Definition given := given_from 0.
  (** The operands have the constants of the expression at the constant positions. *)
  Definition agrees (args : list (operand_arg K)) (constants : list nat) (ops : list tens) : Prop :=
    forall i, i ∈ constants -> exists T, args !! i = Some (AArray T) /\ ops !! i = Some T.
  (** A library computes what is documented, and conversion keeps the values. *)
  Definition library_ok (l : library K) : Prop := backend_ok (l_funs l) /\ (forall x, l_to l x ≡ₜ x) /\ (forall x, l_from l x ≡ₜ x).
  Definition same_ranks (ops ops' : list tens) : Prop := Forall2 (fun x y => length (shape x) = length (shape y)) ops ops'.
  (** All axes with the same label have the same size (no broadcasting of size 1). *)
  Definition uniform_dims {L : Type} (tops : list (list L * tens)) : Prop := forall c x y, (c, x) ∈ axes_of tops -> (c, y) ∈ axes_of tops -> x = y.
End Spec.
Arguments event _ : clear implicits.
