(** Model of ContractExpressions evaluated by a graph library: theano and the graph mode of tensorflow 1
    (/repo/opt_einsum/backends/theano.py, tensorflow.py 34-89; contract.py 798-804, 826-850, 852-905).  Such a library first builds a
    graph on placeholders, which is kept and run again by later calls. *)
From Verif Require Import Prelude Einsum Parser Helpers Contract Expression.

Inductive graph_kind := Tensorflow | Theano.
Global Instance graph_kind_eq_dec : EqDecision graph_kind. Proof. solve_decision. Defined.

(** A placeholder (tensorflow.py 50, theano.py 18): which one, and the shape of the array it was made for. *)
Notation placeholder := (nat * list nat)%type.
(** What a graph is built on: placeholders for the arrays given, constants of the library for the operands evaluated before. *)
Inductive graph_var (K : semiring) := GPlace (p : placeholder) | GConst (T : tensor K).
Arguments GPlace {K} _. Arguments GConst {K} _.
(** A graph: its operands and the contractions done on them.  Running it is modelled as doing these on the values fed, so errors of the
    array library appear when the graph is run. *)
Record graph (K : semiring) := Graph { g_vars : list (graph_var K); g_steps : list contraction }.
Arguments g_vars {K} _. Arguments g_steps {K} _. Arguments Graph {K} _ _.
(** An operand of such a call: a numpy array (the object and its value), or a constant of the library. *)
Inductive graph_op (K : semiring) := GArray (i : nat) (T : tensor K) | GTensor (T : tensor K).
Arguments GArray {K} _ _. Arguments GTensor {K} _.

(** The placeholders made so far, and the entries that conversions have in the sharing caches, innermost context first
    (sharing.py 198-203: the key is the name of the conversion, here the backend's, and the object's id; the entries for constants have
    other keys).  Ids of collected objects are not modelled here: see C36. *)
Record converter := Converter { cv_next : nat; cv_stack : list (gmap (str * nat) placeholder) }.

Section Graph.
  Context {K : semiring}.
  Notation tens := (tensor K).
  Variable ord : gset N -> list N.
  Variable lib : str -> library K.
  (** The backends that build graphs. *)
  Variable kind : str -> option graph_kind.

  (** tensorflow.py 34-52, theano.py 9-20 without [constant], inside sharing.py 198-203: a new placeholder unless the
      innermost context has one for this object. *)
  Definition to_graph (cv : converter) (b : str) (i : nat) (T : tens) : converter * placeholder :=
    let new := (cv_next cv, shape T) in
    match cv_stack cv with
    | [] => (Converter (S (cv_next cv)) [], new)
    | m :: ms =>
      match m !! (b, i) with
      | Some p => (cv, p)
      | None => (Converter (S (cv_next cv)) (<[(b, i) := new]> m :: ms), new)
      end
    end.
  (** tensorflow.py 62, theano.py 27 *)
  Fixpoint to_graph_all (cv : converter) (b : str) (ops : list (graph_op K)) : converter * list (graph_var K) :=
    match ops with
    | [] => (cv, [])
    | GTensor T :: ops => let '(cv, vs) := to_graph_all cv b ops in (cv, GConst T :: vs)
    | GArray i T :: ops => let '(cv, p) := to_graph cv b i T in let '(cv, vs) := to_graph_all cv b ops in (cv, GPlace p :: vs)
    end.
  Definition places (vs : list (graph_var K)) : list placeholder := vs ≫= fun v => match v with GPlace p => [p] | GConst _ => [] end.
  (** tensorflow.py 58-63, theano.py 23-32: [theano.function] refuses a list of inputs in which a variable is repeated. *)
  Definition build_graph (k : graph_kind) (cv : converter) (b : str) (ops : list (graph_op K)) (cl : list contraction) : converter * res (graph K) :=
    let '(cv, vs) := to_graph_all cv b ops in
    (cv, if decide (k = Theano /\ ~ NoDup (places vs).*1) then Err RuntimeError else Ok (Graph vs cl)).

  (** tensorflow.py 68: [feed_dict]; a placeholder that occurs again overwrites its value. *)
  Definition feed_dict (vs : list (graph_var K)) (ops : list (graph_op K)) : gmap nat tens :=
    foldl (fun m '(v, o) => match v, o with GPlace p, GArray _ T => <[p.1 := T]> m | _, _ => m end) ∅ (zip vs ops).
  (** tensorflow.py 69: [session.run] refuses values of another shape than the placeholder's.  That there is a default session is taken
      for granted. *)
  Definition tf_values (b : str) (vs : list (graph_var K)) (ops : list (graph_op K)) : res (list tens) :=
    mapM_res (fun v => match v with
      | GConst T => Ok T
      | GPlace p => T ← of_opt KeyError (feed_dict vs ops !! p.1); if decide (shape T = p.2) then Ok (l_to (lib b) T) else Err ValueError
      end) vs.
  (** theano.py 34-35: one argument for each variable of the graph, of the right rank. *)
  Fixpoint theano_values (b : str) (vs : list (graph_var K)) (arrays : list tens) : res (list tens) :=
    match vs with
    | [] => match arrays with [] => Ok [] | _ => Err TypeError end
    | GConst T :: vs => l ← theano_values b vs arrays; Ok (T :: l)
    | GPlace p :: vs =>
      match arrays with
      | [] => Err TypeError
      | T :: arrays => if decide (length (shape T) = length p.2) then l ← theano_values b vs arrays; Ok (l_to (lib b) T :: l) else Err TypeError
      end
    end.
  Definition op_arrays (ops : list (graph_op K)) : list tens := ops ≫= fun o => match o with GArray _ T => [T] | GTensor _ => [] end.
  Definition run_graph (k : graph_kind) (b : str) (g : graph K) (ops : list (graph_op K)) : res tens :=
    vals ← match k with Tensorflow => tf_values b (g_vars g) ops | Theano => theano_values b (g_vars g) (op_arrays ops) end;
    T ← core_contract ord (l_funs (lib b)) vals (g_steps g); Ok (l_from (lib b) T).

  (** contract.py 885 with the objects; without constants every operand is given. *)
  Fixpoint graph_fill (ops : list (option tens)) (arrays : list (nat * tens)) : res (list (graph_op K)) :=
    match ops with
    | [] => Ok []
    | Some o :: ops => l ← graph_fill ops arrays; Ok (GTensor o :: l)
    | None :: ops => match arrays with [] => Err StopIteration | a :: arrays => l ← graph_fill ops arrays; Ok (GArray a.1 a.2 :: l) end
    end.
  (** An expression with the graphs built for it (contract.py 765: [_backend_expressions]). *)
  Record graph_expr := GraphExpr { gx : expression K; gx_built : gmap str (graph K) }.
  (** contract.py 798-804, 844: the graph kept for the backend, or a new one *)
  Definition graph_run (k : graph_kind) (b : str) (x : graph_expr) (cv : converter) (ops : list (graph_op K)) : graph_expr * converter * res tens :=
    match gx_built x !! b with
    | Some g => (x, cv, run_graph k b g ops)
    | None =>
      let '(cv, g) := build_graph k cv b ops (x_list (gx x)) in
      match g with
      | Err e => (x, cv, Err e)
      | Ok g => (GraphExpr (gx x) (<[b := g]> (gx_built x)), cv, run_graph k b g ops)
      end
    end.
  (** contract.py 852-895.  The constants of theano and tensorflow are evaluated and converted back after the pre-pass (theano.py 46,
      tensorflow.py 85-87), which does not change their values and is left out. *)
  Definition graph_call (x : graph_expr) (cv : converter) (b : str) (numpy : bool) (arrays : list (nat * tens)) : graph_expr * converter * res tens :=
    match kind b with
    | Some k =>
      if l_convert (lib b) && numpy then
        if negb (length arrays =? x_num (gx x) - size (x_constants (gx x))) then (x, cv, Err ValueError)
        else if decide (x_constants (gx x) = ∅) then graph_run k b x cv ((fun a => GArray a.1 a.2) <$> arrays)
        else match get_evaluated ord lib (gx x) b with
             | Err e => (x, cv, Err e)
             | Ok (x', ops_const) =>
               let x := GraphExpr x' (gx_built x) in
               match graph_fill ops_const arrays with Err e => (x, cv, Err e) | Ok ops => graph_run k b x cv ops end
             end
      else let '(x', r) := expr_call ord lib (gx x) b numpy arrays.*2 in (GraphExpr x' (gx_built x), cv, r)
    | None => let '(x', r) := expr_call ord lib (gx x) b numpy arrays.*2 in (GraphExpr x' (gx_built x), cv, r)
    end.
End Graph.
Arguments GraphExpr {K} _ _. Arguments gx {K} _. Arguments gx_built {K} _.
