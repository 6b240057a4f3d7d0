(** What numpy documents of the [axes] argument of tensordot. *)
From Verif Require Import Prelude Einsum Torch.

(** [i] is an axis number, from -n to n-1, of the axis at position [a]. *)
Definition names_axis (n : nat) (i : Z) (a : nat) : Prop := a < n /\ (i = Z.of_nat a \/ i = Z.of_nat a - Z.of_nat n)%Z.
Definition names_axes (n : nat) (arg : axis_arg) (ax : list nat) : Prop :=
  match arg with AxOne i => exists a, ax = [a] /\ names_axis n i a | AxMany l => Forall2 (names_axis n) l ax end.
(** An integer N stands for the last N axes of the first and the first N axes of the second array; otherwise the axes are given for each array, a single axis standing for a sequence of one. *)
Definition meant_axes (nx ny : nat) (axes : axes_arg) (axl axr : list nat) : Prop :=
  match axes with
  | AxesInt n => exists k, n = Z.of_nat k /\ k <= nx /\ k <= ny /\ axl = seq (nx - k) k /\ axr = seq 0 k
  | AxesPair a b => names_axes nx a axl /\ names_axes ny b axr
  end.
(** The arrays and axes tensordot is defined for. *)
Definition dottable {K} (x y : tensor K) (axl axr : list nat) : Prop :=
  NoDup axl /\ NoDup axr /\ length axl = length axr /\ (nth0 (shape x) <$> axl) = (nth0 (shape y) <$> axr).
