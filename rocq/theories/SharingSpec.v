(** What is said about sharing: histories, the calls they may contain, equality of outcomes in and out of a context. *)
From Verif Require Import Prelude Einsum Parser Helpers Contract Spec ParseSpec ParseProof PathSpec TopFacts ApiSpec ContractMain Sharing.

Section Spec.
  Context {K : semiring}.
  Notation tens := (tensor K).
  Variable ord : gset N -> list N.
  Variable lib : str -> backend K.
  Variable alloc : nat -> gset nat -> nat.
  Variable keep : nat -> nat -> bool.
  Variable conv : str -> tens -> res tens.

  (** At the start nothing exists. *)
  Definition start : world K := World 0 ∅ [] ∅ ∅.
  Definition run (h : list (action K)) : world K := foldl (act ord lib alloc keep conv) start h.
  (** The variables [ids] refer to the arrays [vals]. *)
  Definition refer (w : world K) (ids : list nat) (vals : list tens) : Prop :=
    Forall (fun i => i ∈ w_held w) ids /\ Forall2 (fun i x => w_heap w !! i = Some x) ids vals.

  (** The equation means something for these operands, and einsum without optimization computes it (C43). *)
  Definition valid_einsum (b s : str) (vals : list tens) : Prop :=
    exists e, s = render e /\ e_in e <> [] /\ plain_eqn e /\ well_formed e (shape <$> vals) /\ good (zip (in_labels e (shape <$> vals)) vals) /\
      length (remove_dups (labels_of (zip (in_labels e (shape <$> vals)) vals))) <= 52 /\
      (no_ellipsis e \/ (forall c, c ∈ named_of e -> c ∈ letters)) /\ b_has_einsum (lib b) = true.
  (** The same for optimized contractions (C01). *)
  Definition valid_contract (b : str) (opt : optimize_arg) (mem : memory_arg) (s : str) (vals : list tens) : Prop :=
    exists e, filter (.≠ c_space) s = render e /\ e_in e <> [] /\ plain_eqn e /\ well_formed e (shape <$> vals) /\ good (zip (in_labels e (shape <$> vals)) vals) /\
      length (remove_dups (labels_of (zip (in_labels e (shape <$> vals)) vals))) <= 52 /\
      mem_valid mem /\ strategy_ok opt (length vals) /\ b_has_einsum (lib b) = true.
  (** Calls a history may contain: any transpose, tensordot and conversion; einsum calls that are valid or fail; valid contractions. *)
  Definition accepted (w : world K) (a : action K) : Prop :=
    match a with
    | WEinsum _ b s ids => forall vals, refer w ids vals -> valid_einsum b s vals \/ exists e, run_einsum (lib b) s vals = Err e
    | WContract _ b _ opt mem s ids => forall vals, refer w ids vals ->
      match opt with OFalse => valid_einsum (lit "numpy") s vals \/ exists e, run_einsum (lib (lit "numpy")) s vals = Err e
      | _ => valid_contract b opt mem s vals end
    | _ => True
    end.
  Fixpoint accepted_from (w : world K) (h : list (action K)) : Prop :=
    match h with [] => True | a :: h => accepted w a /\ accepted_from (act ord lib alloc keep conv w a) h end.
  Definition accepted_history := accepted_from start.

  (** The cache operations of thread [tid] go to. *)
  Definition innermost (w : world K) (tid c : nat) : Prop := head (default [] (w_stacks w !! tid)) = Some c.
  (** An operation on arrays, its thread, and the same operation in another thread. *)
  Definition op_thread (a : action K) : option nat :=
    match a with
    | WTranspose tid _ _ _ | WTensordot tid _ _ _ _ _ | WEinsum tid _ _ _ | WContract tid _ _ _ _ _ _ | WConvert tid _ _ => Some tid
    | _ => None
    end.
  Definition in_thread (tid : nat) (a : action K) : action K :=
    match a with
    | WTranspose _ b i axes => WTranspose tid b i axes
    | WTensordot _ b i j axl axr => WTensordot tid b i j axl axr
    | WEinsum _ b s ids => WEinsum tid b s ids
    | WContract _ b u opt mem s ids => WContract tid b u opt mem s ids
    | WConvert _ n i => WConvert tid n i
    | a => a
    end.
  (** What an operation returns. *)
  Definition outcome (w : world K) (a : action K) : world K * res nat :=
    match a with
    | WTranspose tid b i axes => cached_transpose lib alloc keep w tid [] b i axes
    | WTensordot tid b i j axl axr => cached_tensordot lib alloc keep w tid [] b i j axl axr
    | WEinsum tid b s ids => cached_einsum lib alloc keep w tid [] b s ids
    | WContract tid b u opt mem s ids => sh_contract ord lib alloc keep w tid b u opt mem s ids
    | WConvert tid n i => cached_convert alloc keep conv w tid [] n i
    | _ => (w, Err TypeError)
    end.

  (** The array called [i] was converted. *)
  Definition converted (h : list (action K)) (i : nat) : Prop := exists tid n, WConvert tid n i ∈ h.
  (** Converted arrays are kept: dropping a reference to one leaves another. *)
  Definition kept (h : list (action K)) : Prop := forall h1 i h2, h = h1 ++ WDrop i :: h2 -> converted h1 i -> i ∈ w_held (run (h1 ++ [WDrop i])).

  (** The outcome of a shared operation against that of the operation itself: the same error, or a value related by [R]. *)
  Definition same_outcome (R : tens -> tens -> Prop) (outside : res tens) (p : world K * res nat) : Prop :=
    match outside, p.2 with
    | Ok T, Ok r => exists T', w_heap p.1 !! r = Some T' /\ R T' T
    | Err e, Err e' => e = e'
    | _, _ => False
    end.
End Spec.
