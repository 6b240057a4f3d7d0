(** Specification of einsum, tensordot and transpose on arrays over a commutative semiring.
    This file is the independent meaning that the theorems refer to; it models no /repo code. *)
From Verif Require Import Prelude.
From Coq Require Import Ring_theory Ring.

Record semiring := Semiring {
  car :> Type;
  szero : car; sone : car;
  sadd : car -> car -> car; smul : car -> car -> car;
  slaws : semi_ring_theory szero sone sadd smul eq }.
Arguments szero {_}. Arguments sone {_}. Arguments sadd {_} _ _. Arguments smul {_} _ _.

(** An array: a shape and the entry at each coordinate list (only in-range coordinates matter). *)
Record tensor (K : Type) := Tensor { shape : list nat; get : list nat -> K }.
Arguments Tensor {K} _ _. Arguments shape {K} _. Arguments get {K} _ _.

Definition in_range (cs dims : list nat) : Prop := Forall2 (fun c d => c < d) cs dims.

(** Array equality: same shape, same entries. *)
Definition teq {K : Type} (A B : tensor K) : Prop :=
  shape A = shape B /\ forall cs, in_range cs (shape A) -> get A cs = get B cs.
Infix "≡ₜ" := teq (at level 70, no associativity).

Section Defs.
  Context {K : semiring}.
  Notation tens := (tensor K).

  (** f 0 + ... + f (d-1) *)
  Definition sumn (d : nat) (f : nat -> K) : K := foldr sadd szero (f <$> seq 0 d).
  Definition prodl (l : list K) : K := foldr smul sone l.

  (** Sum over all coordinate lists within [dims]. *)
  Fixpoint sum_multi (dims : list nat) (f : list nat -> K) : K :=
    match dims with [] => f [] | d :: ds => sumn d (fun v => sum_multi ds (fun vs => f (v :: vs))) end.

  Section Labels.
    Context {L : Type} `{EqDecision L}.
    (** An assignment of coordinates to labels. *)
    Definition upd (e : L -> nat) (l : L) (v : nat) : L -> nat := fun l' => if decide (l' = l) then v else e l'.

    (** A labelled operand: one label per axis. *)
    Notation operand := (list L * tens)%type.

    (** (label, dimension) for every axis of every operand. *)
    Definition axes_of (tops : list operand) : list (L * nat) := tops ≫= (fun p => zip p.1 (shape p.2)).
    Definition labels_of (tops : list operand) : list L := tops ≫= fst.

    (** Every operand has one label per axis. *)
    Definition ranked (tops : list operand) : Prop := Forall (fun p => length p.1 = length (shape p.2)) tops.
    (** All dimensions of one label agree, up to broadcasting of size 1. *)
    Definition compat (tops : list operand) : Prop :=
      forall l d d', (l, d) ∈ axes_of tops -> (l, d') ∈ axes_of tops -> d = d' \/ d = 1 \/ d' = 1.

    (** Broadcast size of a label: its dimension that is not 1, if any, else 1. *)
    Definition bcast (ds : list nat) : nat := foldr (fun d acc => if decide (d = 1) then acc else d) 1 ds.
    Definition dims_of (tops : list operand) (l : L) : list nat := snd <$> filter (fun p => p.1 = l) (axes_of tops).
    Definition dim (tops : list operand) (l : L) : nat := bcast (dims_of tops l).

    (** The entry an operand contributes under an assignment; a size-1 axis always reads coordinate 0. *)
    Definition coords (t : list L) (sh : list nat) (e : L -> nat) : list nat :=
      zip_with (fun l d => if decide (d = 1) then 0 else e l) t sh.
    Definition term (e : L -> nat) (p : operand) : K := get p.2 (coords p.1 (shape p.2) e).

    (** Sum over all assignments to the labels [ls]. *)
    Fixpoint sum_labels (dm : L -> nat) (ls : list L) (f : (L -> nat) -> K) (e : L -> nat) : K :=
      match ls with
      | [] => f e
      | l :: ls' => sumn (dm l) (fun v => sum_labels dm ls' f (upd e l v))
      end.

    (** The labels that are summed: those of the operands that are not in the output. *)
    Definition summed (tops : list operand) (out : list L) : list L :=
      filter (fun l => l ∉ out) (remove_dups (labels_of tops)).

    Definition esum (tops : list operand) (out : list L) (e : L -> nat) : K :=
      sum_labels (dim tops) (summed tops out) (fun e' => prodl (term e' <$> tops)) e.

    (** The assignment that gives the output labels the coordinates [cs]. *)
    Fixpoint env_of (out : list L) (cs : list nat) : L -> nat :=
      match out, cs with
      | l :: out', c :: cs' => upd (env_of out' cs') l c
      | _, _ => fun _ => 0
      end.

    (** Einstein summation. *)
    Definition einsum (tops : list operand) (out : list L) : tens :=
      Tensor (dim tops <$> out) (fun cs => esum tops out (env_of out cs)).
  End Labels.

  (** Position of an element in a list of naturals (numpy axis lists). *)
  Fixpoint index_of (a : nat) (l : list nat) : option nat :=
    match l with [] => None | x :: l' => if decide (x = a) then Some 0 else S <$> index_of a l' end.

  Definition free_axes (ax : list nat) (n : nat) : list nat := filter (fun a => a ∉ ax) (seq 0 n).
  Definition nth0 (l : list nat) (i : nat) : nat := default 0 (l !! i).

  (** Coordinates into one tensordot operand: contracted axes read [ks], free axes read [cs] in order. *)
  Definition td_coords (ax : list nat) (n : nat) (ks cs : list nat) : list nat :=
    (fun a => match index_of a ax with
              | Some j => nth0 ks j
              | None => nth0 cs (default 0 (index_of a (free_axes ax n)))
              end) <$> seq 0 n.

  (** numpy.tensordot(x, y, axes=(axl, axr)) *)
  Definition tensordot (x y : tens) (axl axr : list nat) : tens :=
    let nx := length (shape x) in let ny := length (shape y) in
    let fx := free_axes axl nx in let fy := free_axes axr ny in
    Tensor ((nth0 (shape x) <$> fx) ++ (nth0 (shape y) <$> fy))
      (fun cs => sum_multi (nth0 (shape x) <$> axl) (fun ks =>
         smul (get x (td_coords axl nx ks (take (length fx) cs)))
              (get y (td_coords axr ny ks (drop (length fx) cs))))).

  (** numpy.transpose(x, axes) *)
  Definition transpose (x : tens) (axes : list nat) : tens :=
    Tensor (nth0 (shape x) <$> axes)
      (fun cs => get x ((fun a => nth0 cs (default 0 (index_of a axes))) <$> seq 0 (length (shape x)))).
End Defs.
