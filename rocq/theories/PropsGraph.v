(** Property C61: expressions evaluated by a graph library. *)
From Verif Require Import Prelude Einsum EinsumFacts Parser Helpers Contract Spec PathSpec StringFacts ParserFacts ParseSpec TopFacts ContractMain RefBackend Expression ExprSpec ExprMain PropsExpr Graph GraphSpec GraphFacts.

(** ** C61 *)
(** An expression (with or without constants) called with a backend that builds graphs, on numpy arrays: after any history of
    calls with any backends, evaluations of constants, conversions, entering and leaving sharing contexts, the call returns the Einstein
    sum of its own arrays, although the graph was built for the arrays of an earlier call.
    Full statement: without the last two hypotheses.  Missing: tensorflow calls with arrays of other shapes than the first call's, theano calls with other
    ranks; and in sharing contexts, calls that pass one array twice, and objects whose id had been another array's (all false, see below). *)
Theorem C61_graph_partial (K : semiring) (ord : gset N -> list N) (e : eqn) (s : str) (args : list (operand_arg K)) (constants : list nat)
    (ops0 : list (tensor K)) (use_blas : bool) (opt : optimize_arg) (mem : memory_arg) :
  (forall x, ord x ≡ₚ elements x) ->
  e_in e <> [] -> plain_eqn e -> filter (.≠ c_space) s = render e -> well_formed e (shape <$> ops0) ->
  arg_shape <$> args = shape <$> ops0 -> (forall i, i ∈ constants -> exists T, args !! i = Some (AArray T)) ->
  let tops0 := zip (in_labels e (shape <$> ops0)) ops0 in
  good tops0 -> length (remove_dups (labels_of tops0)) <= 52 -> mem_valid mem -> strategy_ok opt (length ops0) ->
  exists x0, contract_expression ord use_blas opt mem s args constants = Ok x0 /\
    forall (lib : str -> library K) (kind : str -> option graph_kind) (h : list (graph_event K)) (b : str) (k : graph_kind) (ops : list (tensor K)) (arrays : list (nat * tensor K)),
      kind b = Some k -> l_convert (lib b) = true -> library_ok (lib b) -> b_has_einsum (l_funs (lib b)) = true -> same_ranks ops0 ops ->
      let tops := zip (in_labels e (shape <$> ops)) ops in
      good tops -> (shape <$> ops = shape <$> ops0 \/ uniform_dims tops) -> agrees args constants ops ->
      (constants = [] \/ exists i, i < length ops /\ i ∉ constants) ->
      arrays.*2 = given constants ops -> calls_alike k b arrays h -> GEnter ∉ h \/ separate_objects b (h ++ [GCall b true arrays]) ->
      let '(x, cv) := graph_after ord lib kind x0 h in
      exists T, (graph_call ord lib kind x cv b true arrays).2 = Ok T /\ T ≡ₜ einsum tops (out_labels e (shape <$> ops)).
Proof. intros Ho Hne Hpl Hs Hwf Ha Hc tops0 Hg Hsz Hm Hst. apply graph_expression_ok; try done. by eapply path_fits_few. Qed.
Print Assumptions C61_graph_partial.

(** tensorflow and theano build graphs, the others do not. *)
Definition ex_kind (b : str) : option graph_kind := if decide (b = lit "tensorflow") then Some Tensorflow else if decide (b = lit "theano") then Some Theano else None.
Definition ex_sq (n : nat) : tensor nat_semiring := arr [2; 2] (seq n 4 : list nat_semiring).
Definition ex_result (r : res (tensor nat_semiring)) : res (list nat * list nat) := T ← r; Ok (shape T, entries T).
(** "ab,bc,cd->da" with a constant last operand; the graph is built in a sharing context that ends before the second call. *)
Definition ex_g_args : list (operand_arg nat_semiring) := [AShape [2; 3]; AShape [3; 2]; AArray ex_x_c].
Definition ex_g_first : list (nat * tensor nat_semiring) := [(7, ex_x_a); (9, ex_x_b)].
Definition ex_g_again : list (nat * tensor nat_semiring) := [(9, arr [2; 3] (seq 2 6 : list nat_semiring)); (3, ex_x_b)].
Definition ex_g_h : list (graph_event nat_semiring) := [GEnter; GCall (lit "tensorflow") true ex_g_first; GCall (lit "theano") true ex_g_first; GExit; GEval (lit "torch"); GCall (lit "torch") true ex_g_first].
Example C61_instance : agrees ex_g_args [2] [arr [2; 3] (seq 2 6 : list nat_semiring); ex_x_b; ex_x_c] /\
  ex_g_again.*2 = given [2] [arr [2; 3] (seq 2 6 : list nat_semiring); ex_x_b; ex_x_c] /\
  calls_alike Tensorflow (lit "tensorflow") ex_g_again ex_g_h /\
  (x0 ← contract_expression ord0 true (OPath [[0; 1]; [0; 1]]) MNone ex_x_str ex_g_args [2];
   let '(x, cv) := graph_after ord0 ex_lib ex_kind x0 ex_g_h in
   T ← (graph_call ord0 ex_lib ex_kind x cv (lit "tensorflow") true ex_g_again).2; Ok (shape T, entries T)) = Ok ([2; 2], [151; 286; 222; 420]).
Proof.
  split. { intros i. rewrite elem_of_list_singleton. intros ->. eexists. by split. } split; [done|]. split; [|by vm_compute].
  intros arrays'. unfold ex_g_h. rewrite !elem_of_cons, elem_of_nil. intros [?|[?|[?|[?|[?|[?|[]]]]]]]; try done; simplify_eq. intros _. by repeat constructor.
Qed.
Definition ex_g_h2 : list (graph_event nat_semiring) := [GEnter; GConvert (lit "tensorflow") 9 ex_x_b; GCall (lit "tensorflow") true ex_g_first; GCall (lit "tensorflow") true [(7, ex_x_a); (9, ex_x_b)]].
Example C61_sharing_instance :
  separate_objects (lit "tensorflow") (ex_g_h2 ++ [GCall (lit "tensorflow") true [(8, arr [2; 3] (seq 2 6 : list nat_semiring)); (9, ex_x_b)]]) /\
  calls_alike Tensorflow (lit "tensorflow") [(8, arr [2; 3] (seq 2 6 : list nat_semiring)); (9, ex_x_b)] ex_g_h2 /\
  ex_result (x0 ← contract_expression ord0 true (OPath [[0; 1]; [0; 1]]) MNone ex_x_str ex_g_args [2];
   let '(x, cv) := graph_after ord0 ex_lib ex_kind x0 ex_g_h2 in
   (graph_call ord0 ex_lib ex_kind x cv (lit "tensorflow") true [(8, arr [2; 3] (seq 2 6 : list nat_semiring)); (9, ex_x_b)]).2) = Ok ([2; 2], [151; 286; 222; 420]).
Proof.
  split; [|split; [|by vm_compute]].
  - exists (fun i => if decide (i = 9) then [3; 2] else [2; 3]). split.
    + intros arrays. unfold ex_g_h2. rewrite elem_of_app, !elem_of_cons, elem_of_nil. intros [[?|[?|[?|[?|[]]]]]|[?|[]]]; try done; simplify_eq; (split; [apply (bool_decide_unpack _); by vm_compute|]);
        intros a; unfold ex_g_first; rewrite !elem_of_cons, elem_of_nil; intros [->|[->|[]]]; done.
    + intros i T. unfold ex_g_h2. rewrite elem_of_app, !elem_of_cons, elem_of_nil. intros [[?|[?|[?|[?|[]]]]]|[?|[]]]; try done; by simplify_eq.
  - intros arrays'. unfold ex_g_h2. rewrite !elem_of_cons, elem_of_nil. intros [?|[?|[?|[?|[]]]]]; try done; simplify_eq; intros _; by repeat constructor.
Qed.


(** "ab,bc->ac" on 2x2 arrays: the last call after a history *)
Definition ex_g_two (b : str) (h : list (graph_event nat_semiring)) (arrays : list (nat * tensor nat_semiring)) : res (list nat * list nat) :=
  ex_result (x0 ← contract_expression ord0 true (OPath [[0; 1]]) MNone (lit "ab,bc->ac") [AShape [2; 2]; AShape [2; 2]] [];
   let '(x, cv) := graph_after ord0 ex_lib ex_kind x0 h in (graph_call ord0 ex_lib ex_kind x cv b true arrays).2).
Definition ex_g_product (X Y : tensor nat_semiring) : res (list nat * list nat) := Ok ([2; 2], entries (einsum [(lit "ab", X); (lit "bc", Y)] (lit "ac"))).
(** tensorflow in a sharing context: a first call passes one array twice, so both operands get one placeholder.  The next call, with two
    arrays, silently multiplies its second array by itself; outside the context it does not. *)
Theorem C61_same_array_refuted : exists (X Y : tensor nat_semiring), let first := GCall (lit "tensorflow") true [(1, X); (1, X)] in
  ex_g_two (lit "tensorflow") [GEnter; first] [(1, X); (2, Y)] = ex_g_product Y Y /\ ex_g_product Y Y <> ex_g_product X Y /\
  ex_g_two (lit "tensorflow") [first] [(1, X); (2, Y)] = ex_g_product X Y.
Proof. exists (ex_sq 1), (ex_sq 5). split; [by vm_compute|]. split; [|by vm_compute]. intros H. vm_compute in H. discriminate. Qed.
Print Assumptions C61_same_array_refuted.
(** theano refuses the same call in a sharing context, and does it outside. *)
Theorem C61_theano_refuted : exists (X : tensor nat_semiring) er,
  ex_g_two (lit "theano") [GEnter] [(1, X); (1, X)] = Err er /\ ex_g_two (lit "theano") [] [(1, X); (1, X)] = ex_g_product X X.
Proof. exists (ex_sq 1), RuntimeError. by vm_compute. Qed.
Print Assumptions C61_theano_refuted.
(** tensorflow keeps the shapes of the first call; theano does not. *)
Theorem C61_shapes_refuted : exists (A B C D : tensor nat_semiring) er, let h b := [GCall b true [(1, A); (2, B)]] in
  ex_g_two (lit "tensorflow") (h (lit "tensorflow")) [(3, C); (4, D)] = Err er /\ ex_g_two (lit "theano") (h (lit "theano")) [(3, C); (4, D)] = ex_g_product C D.
Proof. exists (ex_sq 1), (ex_sq 5), ex_x_a, ex_x_b, ValueError. by vm_compute. Qed.
Print Assumptions C61_shapes_refuted.
(** In a sharing context an array whose id was that of another array, of another shape, gets its placeholder: already the first call of the
    expression fails. *)
Theorem C61_old_id_refuted : exists (X Y Z : tensor nat_semiring) er,
  ex_g_two (lit "tensorflow") [GEnter; GConvert (lit "tensorflow") 1 Z] [(1, X); (2, Y)] = Err er /\
  ex_g_two (lit "tensorflow") [GEnter; GConvert (lit "tensorflow") 3 Z] [(1, X); (2, Y)] = ex_g_product X Y.
Proof. exists (ex_sq 1), (ex_sq 5), ex_x_a, ValueError. by vm_compute. Qed.
Print Assumptions C61_old_id_refuted.
