(** Properties C02, C03, C30, C31, C61 for networks of any number of labels: it is enough that each step of the path involves at most 52
    (an array library's einsum has no more letters).  The statements with at most 52 labels in all are in PropsRandom.v, PropsContract.v, PropsExpr.v and PropsGraph.v. *)
From Verif Require Import Prelude Einsum EinsumFacts EinsumOps Parser Helpers Contract Spec PathSpec StringFacts SymbolFacts StepFacts ContractFacts PathFacts ParserFacts ParseSpec ParseProof TopFacts ContractMain RefBackend
  Random RandomSpec FinderFacts PropsContract PropsPaths PropsSearch PropsDp PropsRandom Expression ExprSpec ExprMain PropsExpr Graph GraphSpec GraphFacts PropsGraph.

(** The steps of the path found (if one is found), replayed on the terms of the equation, have at most 52 labels each. *)
Definition small_steps (ord : gset N -> list N) (use_blas : bool) (opt : optimize_arg) (mem : memory_arg) (e : eqn) (s : str) (shapes : list (list nat)) : Prop :=
  let named t : gset N := list_to_set (name (fresh e shapes) <$> t) in
  forall info, contract_path ord use_blas opt mem s shapes = Ok info ->
    Forall (fun st => size (union_all st.1) <= 52) (replay (named (out_labels e shapes)) (pi_path info) (named <$> in_labels e shapes)).

(** ** C02 *)
Theorem C02_many_labels (K : semiring) (B : backend K) (ord : gset N -> list N) (E : env) (e : eqn) (s : str) (ops : list (tensor K))
    (name : str) (use_blas : bool) (mem : memory_arg) (T : tensor K) :
  backend_ok B -> b_has_einsum B = true -> (forall x, ord x ≡ₚ elements x) -> env_ok E ->
  e_in e <> [] -> plain_eqn e -> filter (.≠ c_space) s = render e -> well_formed e (shape <$> ops) ->
  let tops := zip (in_labels e (shape <$> ops)) ops in
  good tops -> mem_valid mem -> small_steps ord use_blas (named (all_options E) name) mem e s (shape <$> ops) ->
  contract ord B use_blas (named (all_options E) name) mem s ops = Ok T -> T ≡ₜ einsum tops (out_labels e (shape <$> ops)).
Proof.
  intros HB He Ho HE Hne Hpl Hs Hwf tops Hg Hm Hsmall HT. pose proof (named_sound E name HE) as Hf. unfold named in *.
  set (f := fun sets out d mem => _) in *.
  assert (Hinfo : exists info, contract_path ord use_blas (OFinder f) mem s (shape <$> ops) = Ok info).
  { unfold contract in HT. apply bind_Ok in HT as (info & H & _). by exists info. }
  destruct Hinfo as [info Hinfo]. pose proof (contract_path_safe _ _ _ _ _ _ _ Hinfo) as Hinfo'. apply contract_safe in HT.
  assert (Hst : strategy_ok (OFinder (safe f)) (length ops)) by by apply total_strategy, safe_total.
  destruct (contract_path_fits ord Ho e s ops Hne Hpl Hs Hwf use_blas (OFinder (safe f)) mem Hg Hm Hst B HB He) as (T' & HT' & Heq).
  { apply (path_fits_steps ord Ho e); try done. intros info' Hi'. assert (info' = info) as -> by congruence. by apply Hsmall. }
  assert (T' = T) as -> by congruence. done.
Qed.
Print Assumptions C02_many_labels.

(** ** C03 *)
Theorem C03_many_labels (K : semiring) (B1 B2 : backend K) (ord1 ord2 : gset N -> list N) (e : eqn) (s : str)
    (ops : list (tensor K)) (opt1 opt2 : optimize_arg) (use_blas1 use_blas2 : bool) (mem1 mem2 : memory_arg) :
  backend_ok B1 -> backend_ok B2 -> b_has_einsum B1 = true -> b_has_einsum B2 = true ->
  (forall x, ord1 x ≡ₚ elements x) -> (forall x, ord2 x ≡ₚ elements x) ->
  e_in e <> [] -> plain_eqn e -> filter (.≠ c_space) s = render e -> well_formed e (shape <$> ops) ->
  good (zip (in_labels e (shape <$> ops)) ops) -> mem_valid mem1 -> mem_valid mem2 ->
  strategy_ok opt1 (length ops) -> strategy_ok opt2 (length ops) ->
  small_steps ord1 use_blas1 opt1 mem1 e s (shape <$> ops) -> small_steps ord2 use_blas2 opt2 mem2 e s (shape <$> ops) ->
  exists T1 T2, contract ord1 B1 use_blas1 opt1 mem1 s ops = Ok T1 /\ contract ord2 B2 use_blas2 opt2 mem2 s ops = Ok T2 /\ T1 ≡ₜ T2.
Proof.
  intros HB1 HB2 He1 He2 Ho1 Ho2 Hne Hpl Hs Hwf Hg Hm1 Hm2 Hp1 Hp2 Hs1 Hs2.
  destruct (contract_path_fits ord1 Ho1 e s ops Hne Hpl Hs Hwf use_blas1 opt1 mem1 Hg Hm1 Hp1 B1 HB1 He1) as (T1 & HT1 & E1); [by apply (path_fits_steps ord1 Ho1 e)|].
  destruct (contract_path_fits ord2 Ho2 e s ops Hne Hpl Hs Hwf use_blas2 opt2 mem2 Hg Hm2 Hp2 B2 HB2 He2) as (T2 & HT2 & E2); [by apply (path_fits_steps ord2 Ho2 e)|].
  exists T1, T2. split; [done|]. split; [done|]. by rewrite E1, E2.
Qed.
Print Assumptions C03_many_labels.

(** ** C30, C31 *)
(** Full statements: see [C30_expression_partial] and [C31_constants_partial]; only the bound on the labels differs. *)
Theorem C31_many_labels_partial (K : semiring) (ord : gset N -> list N) (e : eqn) (s : str) (args : list (operand_arg K)) (constants : list nat)
    (ops0 : list (tensor K)) (use_blas : bool) (opt : optimize_arg) (mem : memory_arg) :
  (forall x, ord x ≡ₚ elements x) ->
  e_in e <> [] -> plain_eqn e -> filter (.≠ c_space) s = render e -> well_formed e (shape <$> ops0) ->
  arg_shape <$> args = shape <$> ops0 -> (forall i, i ∈ constants -> exists T, args !! i = Some (AArray T)) ->
  good (zip (in_labels e (shape <$> ops0)) ops0) -> small_steps ord use_blas opt mem e s (shape <$> ops0) -> mem_valid mem -> strategy_ok opt (length ops0) ->
  exists x0, contract_expression ord use_blas opt mem s args constants = Ok x0 /\
    forall (lib : str -> library K) (h : list (event K)) (b : str) (np : bool),
      (forall arrays, length arrays <> length args - length (remove_dups constants) -> (expr_call ord lib (after ord lib x0 h) b np arrays).2 = Err ValueError) /\
      (forall ops, library_ok (lib b) -> b_has_einsum (l_funs (lib b)) = true -> same_ranks ops0 ops ->
        let tops := zip (in_labels e (shape <$> ops)) ops in
        good tops -> (shape <$> ops = shape <$> ops0 \/ uniform_dims tops) -> agrees args constants ops ->
        (constants = [] \/ exists i, i < length ops /\ i ∉ constants) ->
        exists T, (expr_call ord lib (after ord lib x0 h) b np (given constants ops)).2 = Ok T /\ T ≡ₜ einsum tops (out_labels e (shape <$> ops))).
Proof. intros Ho Hne Hpl Hs Hwf Ha Hc Hg Hsz Hm Hst. apply expression_ok; try done. by apply (path_fits_steps ord Ho e). Qed.
Print Assumptions C31_many_labels_partial.
Theorem C30_many_labels_partial (K : semiring) (ord : gset N -> list N) (e : eqn) (s : str) (ops0 : list (tensor K))
    (use_blas : bool) (opt : optimize_arg) (mem : memory_arg) :
  (forall x, ord x ≡ₚ elements x) ->
  e_in e <> [] -> plain_eqn e -> filter (.≠ c_space) s = render e -> well_formed e (shape <$> ops0) ->
  good (zip (in_labels e (shape <$> ops0)) ops0) -> small_steps ord use_blas opt mem e s (shape <$> ops0) -> mem_valid mem -> strategy_ok opt (length ops0) ->
  exists x0, contract_expression ord use_blas opt mem s (AShape <$> (shape <$> ops0)) [] = Ok x0 /\
    forall (lib : str -> library K) (h : list (event K)) (b : str) (np : bool),
      (forall arrays, length arrays <> length ops0 -> (expr_call ord lib (after ord lib x0 h) b np arrays).2 = Err ValueError) /\
      (forall ops, library_ok (lib b) -> b_has_einsum (l_funs (lib b)) = true -> same_ranks ops0 ops ->
        let tops := zip (in_labels e (shape <$> ops)) ops in
        good tops -> (shape <$> ops = shape <$> ops0 \/ uniform_dims tops) ->
        exists T, (expr_call ord lib (after ord lib x0 h) b np ops).2 = Ok T /\ T ≡ₜ einsum tops (out_labels e (shape <$> ops))).
Proof.
  intros Ho Hne Hpl Hs Hwf Hg Hsz Hm Hst.
  destruct (C31_many_labels_partial K ord e s (AShape <$> (shape <$> ops0)) [] ops0 use_blas opt mem) as (x0 & Hx0 & H); try done.
  { rewrite <-!list_fmap_compose. done. } { intros i Hi. by apply elem_of_nil in Hi. }
  exists x0. split; [done|]. intros lib h b np. destruct (H lib h b np) as [H1 H2]. split.
  - intros arrays Hl. apply H1. rewrite !fmap_length. simpl. lia.
  - intros ops Hlib He Hr tops Hg' Hu. destruct (H2 ops) as (T & HT & Heq); try done; [intros i Hi; by apply elem_of_nil in Hi|by left|]. rewrite given_nil in HT. by exists T.
Qed.
Print Assumptions C30_many_labels_partial.

(** ** C61 *)
(** Full statement: see [C61_graph_partial]. *)
Theorem C61_many_labels_partial (K : semiring) (ord : gset N -> list N) (e : eqn) (s : str) (args : list (operand_arg K)) (constants : list nat)
    (ops0 : list (tensor K)) (use_blas : bool) (opt : optimize_arg) (mem : memory_arg) :
  (forall x, ord x ≡ₚ elements x) ->
  e_in e <> [] -> plain_eqn e -> filter (.≠ c_space) s = render e -> well_formed e (shape <$> ops0) ->
  arg_shape <$> args = shape <$> ops0 -> (forall i, i ∈ constants -> exists T, args !! i = Some (AArray T)) ->
  good (zip (in_labels e (shape <$> ops0)) ops0) -> small_steps ord use_blas opt mem e s (shape <$> ops0) -> mem_valid mem -> strategy_ok opt (length ops0) ->
  exists x0, contract_expression ord use_blas opt mem s args constants = Ok x0 /\
    forall (lib : str -> library K) (kind : str -> option graph_kind) (h : list (graph_event K)) (b : str) (k : graph_kind) (ops : list (tensor K)) (arrays : list (nat * tensor K)),
      kind b = Some k -> l_convert (lib b) = true -> library_ok (lib b) -> b_has_einsum (l_funs (lib b)) = true -> same_ranks ops0 ops ->
      let tops := zip (in_labels e (shape <$> ops)) ops in
      good tops -> (shape <$> ops = shape <$> ops0 \/ uniform_dims tops) -> agrees args constants ops ->
      (constants = [] \/ exists i, i < length ops /\ i ∉ constants) ->
      arrays.*2 = given constants ops -> calls_alike k b arrays h -> GEnter ∉ h \/ separate_objects b (h ++ [GCall b true arrays]) ->
      let '(x, cv) := graph_after ord lib kind x0 h in
      exists T, (graph_call ord lib kind x cv b true arrays).2 = Ok T /\ T ≡ₜ einsum tops (out_labels e (shape <$> ops)).
Proof. intros Ho Hne Hpl Hs Hwf Ha Hc Hg Hsz Hm Hst. apply graph_expression_ok; try done. by apply (path_fits_steps ord Ho e). Qed.
Print Assumptions C61_many_labels_partial.

(** The chain of 60 matrices with 61 labels of PropsContract.v, its first matrix given with every call and the others constant. *)
Lemma ch_small_steps : small_steps ord0 true (OPath (chain_path 60)) MNone ch_eqn (render ch_eqn) ch_shapes.
Proof.
  intros info Hi. destruct ch_info as (info' & Hi' & Hp). rewrite Hi in Hi'. apply Ok_inj in Hi' as ->. rewrite Hp. exact ch_small.
Qed.
Definition ch_args : list (operand_arg nat_semiring) := match ch_ops with [] => [] | o :: ops => AShape (shape o) :: (AArray <$> ops) end.
Definition ch_constants : list nat := seq 1 59.
Lemma ch_constants_ok i : i ∈ ch_constants -> exists T, ch_args !! i = Some (AArray T).
Proof.
  unfold ch_constants. intros Hi%elem_of_seq. exists (arr [1; 1] [3 : nat_semiring]). destruct i as [|i]; [lia|]. unfold ch_args, ch_ops, chain_ops.
  rewrite lookup_cons, list_lookup_fmap, lookup_replicate_2 by lia. done.
Qed.
Example many_labels_instance :
  52 < length (remove_dups (labels_of (zip (in_labels ch_eqn ch_shapes) ch_ops))) /\
  small_steps ord0 true (OPath (chain_path 60)) MNone ch_eqn (render ch_eqn) ch_shapes /\
  arg_shape <$> ch_args = ch_shapes /\ (forall i, i ∈ ch_constants -> exists T, ch_args !! i = Some (AArray T)).
Proof. split; [exact ch_many|]. split; [exact ch_small_steps|]. split; [by vm_compute|exact ch_constants_ok]. Qed.
(** And the program does compute the product (here the constants are 1). *)
Definition ch_ones : list (operand_arg nat_semiring) := AShape [2; 1] :: replicate 59 (AArray (arr [1; 1] [1 : nat_semiring])).
Example many_labels_value :
  match contract_expression ord0 true (OPath (chain_path 60)) MNone (render ch_eqn) ch_ones ch_constants with
  | Ok x => match (expr_call ord0 ex_lib x (lit "numpy") true [arr [2; 1] [5 : nat_semiring; 7]]).2 with
            | Ok T => (shape T, entries T) = ([2; 1], [5; 7]) | Err _ => False end
  | Err _ => False
  end.
Proof. by vm_compute. Qed.
