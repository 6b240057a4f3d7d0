(** What is said about expressions evaluated by a graph library. *)
From Verif Require Import Prelude Einsum Parser Helpers Contract Expression Graph.

Section Spec.
  Context {K : semiring}.
  Notation tens := (tensor K).
  (** What can happen: a call of the expression, an explicit [evaluate_constants], entering and leaving a sharing context, and
      the conversion of an array by something else, for instance another expression. *)
  Inductive graph_event := GCall (b : str) (numpy : bool) (arrays : list (nat * tens)) | GEval (b : str) | GEnter | GExit | GConvert (b : str) (i : nat) (T : tens).
  Definition run_graph_event (ord : gset N -> list N) (lib : str -> library K) (kind : str -> option graph_kind)
      (st : graph_expr * converter) (ev : graph_event) : graph_expr * converter :=
    match ev with
    | GCall b numpy arrays => (graph_call ord lib kind st.1 st.2 b numpy arrays).1
    | GEval b => match evaluate_constants ord lib (gx st.1) b with Ok x => (GraphExpr x (gx_built st.1), st.2) | Err _ => st end
    | GEnter => (st.1, Converter (cv_next st.2) (∅ :: cv_stack st.2))
    | GExit => (st.1, Converter (cv_next st.2) (tail (cv_stack st.2)))
    | GConvert b i T => (st.1, (to_graph st.2 b i T).1)
    end.
  (** The expression, and the conversions, after a history. *)
  Definition graph_after ord lib kind (x : expression K) (h : list graph_event) : graph_expr * converter :=
    foldl (run_graph_event ord lib kind) (GraphExpr x ∅, Converter 0 []) h.

  (** What a placeholder made for one shape can be fed with: tensorflow fixes the shape, theano the number of dimensions. *)
  Definition feedable (k : graph_kind) (sh sh' : list nat) : Prop := match k with Tensorflow => sh = sh' | Theano => length sh = length sh' end.
  (** All calls that reach the graph are with arrays like these. *)
  Definition calls_alike (k : graph_kind) (b : str) (arrays : list (nat * tens)) (h : list graph_event) : Prop :=
    forall arrays', GCall b true arrays' ∈ h -> length arrays' = length arrays -> Forall2 (fun a a' => feedable k (shape a.2) (shape a'.2)) arrays arrays'.
  (** No array is passed twice in one call, and an object keeps its shape. *)
  Definition separate_objects (b : str) (h : list graph_event) : Prop := exists obj : nat -> list nat,
    (forall arrays, GCall b true arrays ∈ h -> NoDup arrays.*1 /\ forall a, a ∈ arrays -> shape a.2 = obj a.1) /\
    (forall i T, GConvert b i T ∈ h -> shape T = obj i).
End Spec.
Arguments graph_event _ : clear implicits.
