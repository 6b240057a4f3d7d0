(** The meaning of an einsum over elements with any addition and multiplication. *)
From Verif Require Import Prelude Einsum.

(** The distinct elements of a list, in order of first occurrence. *)
Definition firsts (l : list N) : list N := reverse (remove_dups (reverse l)).
(** The assignment [e] changed to give the labels [ls] the values [ks]. *)
Fixpoint assigned (e : N -> nat) (ls : list N) (ks : list nat) : N -> nat :=
  match ls, ks with l :: ls, k :: ks => upd (assigned e ls ks) l k | _, _ => e end.
(** The values of a list of dimensions: all coordinates in lexicographic order. *)
Fixpoint lexicographic (dims : list nat) : list (list nat) :=
  match dims with [] => [[]] | d :: ds => i ← seq 0 d; cons i <$> lexicographic ds end.
Section Spec.
  Context {A : Type}.
  Variable add mul : A -> A -> A.
  (** x1 + x2 + … from the left; [none] for no elements. *)
  Definition total_of (f : A -> A -> A) (none : A) (l : list A) : A := match l with [] => none | x :: l => foldl f x l end.
  Definition product (none : A) (e : N -> nat) (tops : list (str * tensor A)) : A := total_of mul none ((fun p => get p.2 (e <$> p.1)) <$> tops).
  (** The labels summed over: not in the output, in order of first occurrence. *)
  Definition inner_of (ts : list str) (out : str) : str := filter (fun k => k ∉ out) (firsts (mjoin ts)).
  (** The entry at [cs]. *)
  Definition object_entry (none : A) (d : N -> nat) (tops : list (str * tensor A)) (out : str) (cs : list nat) : A :=
    let inner := inner_of tops.*1 out in
    total_of add none ((fun ks => product none (assigned (env_of out cs) inner ks) tops) <$> lexicographic (d <$> inner)).
End Spec.
