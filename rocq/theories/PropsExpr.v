(** Properties C30, C31: ContractExpression. *)
From Verif Require Import Prelude Einsum EinsumFacts EinsumOps Parser Helpers Contract Spec PathSpec StringFacts ParserFacts ParseSpec TopFacts ContractMain RefBackend Expression ExprSpec ExprFacts ExprMain.

(** ** C30 *)
(** An expression without constants, built for shapes that fit the equation: after any history of calls (with any
    libraries and arrays, failing or not) a call with arrays of the same ranks returns their Einstein sum, whether their
    shapes are those of the build or not; a wrong number of arrays is refused.
    Full statement: all arrays of the same ranks and compatible dimensions.  Missing: arrays of other shapes than at build time where a
    dimension 1 is broadcast (false, see below). *)
Theorem C30_expression_partial (K : semiring) (ord : gset N -> list N) (e : eqn) (s : str) (ops0 : list (tensor K))
    (use_blas : bool) (opt : optimize_arg) (mem : memory_arg) :
  (forall x, ord x ≡ₚ elements x) ->
  e_in e <> [] -> plain_eqn e -> filter (.≠ c_space) s = render e -> well_formed e (shape <$> ops0) ->
  let tops0 := zip (in_labels e (shape <$> ops0)) ops0 in
  good tops0 -> length (remove_dups (labels_of tops0)) <= 52 -> mem_valid mem -> strategy_ok opt (length ops0) ->
  exists x0, contract_expression ord use_blas opt mem s (AShape <$> (shape <$> ops0)) [] = Ok x0 /\
    forall (lib : str -> library K) (h : list (event K)) (b : str) (np : bool),
      (forall arrays, length arrays <> length ops0 -> (expr_call ord lib (after ord lib x0 h) b np arrays).2 = Err ValueError) /\
      (forall ops, library_ok (lib b) -> b_has_einsum (l_funs (lib b)) = true -> same_ranks ops0 ops ->
        let tops := zip (in_labels e (shape <$> ops)) ops in
        good tops -> (shape <$> ops = shape <$> ops0 \/ uniform_dims tops) ->
        exists T, (expr_call ord lib (after ord lib x0 h) b np ops).2 = Ok T /\ T ≡ₜ einsum tops (out_labels e (shape <$> ops))).
Proof.
  intros Ho Hne Hpl Hs Hwf tops0 Hg Hsz Hm Hst.
  destruct (expression_ok ord Ho e s (AShape <$> (shape <$> ops0)) [] ops0 Hne Hpl Hs) with (use_blas := use_blas) (opt := opt) (mem := mem) as (x0 & Hx0 & H); try done.
  { rewrite <-!list_fmap_compose. done. } { intros i Hi. by apply elem_of_nil in Hi. } { by eapply path_fits_few. }
  exists x0. split; [done|]. intros lib h b np. destruct (H lib h b np) as [H1 H2]. split.
  - intros arrays Hl. apply H1. rewrite !fmap_length. simpl. lia.
  - intros ops Hlib He Hr tops Hg' Hu. destruct (H2 ops) as (T & HT & Heq); try done; [intros i Hi; by apply elem_of_nil in Hi|by left|]. rewrite given_nil in HT. by exists T.
Qed.
Print Assumptions C30_expression_partial.

(** "ab,bc,cd->da" built for 2x3, 3x2, 2x2, called with 1x2, 2x4, 4x3. *)
Definition ex_x_str : str := lit "ab,bc,cd->da".
Definition ex_x_eqn : eqn := Eqn [ETerm (lit "ab") None; ETerm (lit "bc") None; ETerm (lit "cd") None] (Some (ETerm (lit "da") None)).
Definition ex_x_a : tensor nat_semiring := arr [2; 3] (seq 1 6 : list nat_semiring).
Definition ex_x_b : tensor nat_semiring := arr [3; 2] (seq 1 6 : list nat_semiring).
Definition ex_x_c : tensor nat_semiring := arr [2; 2] (seq 1 4 : list nat_semiring).
Definition ex_x_ops0 : list (tensor nat_semiring) := [ex_x_a; ex_x_b; ex_x_c].
Definition ex_x_ops : list (tensor nat_semiring) :=
  [arr [1; 2] (seq 1 2 : list nat_semiring); arr [2; 4] (seq 1 8 : list nat_semiring); arr [4; 3] (seq 1 12 : list nat_semiring)].
Definition ex_lib : str -> library nat_semiring := fun b => Library (ref_backend nat_semiring true) (bool_decide (b <> lit "numpy")) id id.
Lemma ex_lib_ok b : library_ok (ex_lib b).
Proof. split; [apply ref_backend_ok|]. split; done. Qed.
Lemma uniform_check {K : semiring} {L : Type} `{EqDecision L} (tops : list (list L * tensor K)) :
  bool_decide (Forall (fun p => Forall (fun q => p.1 = q.1 -> p.2 = q.2) (axes_of tops)) (axes_of tops)) = true -> uniform_dims tops.
Proof.
  intros H%bool_decide_eq_true. rewrite Forall_forall in H. intros c x y Hx Hy. specialize (H _ Hx). rewrite Forall_forall in H. exact (H _ Hy eq_refl).
Qed.
Example C30_instance :
  e_in ex_x_eqn <> [] /\ plain_eqn ex_x_eqn /\ filter (.≠ c_space) ex_x_str = render ex_x_eqn /\ well_formed ex_x_eqn (shape <$> ex_x_ops0) /\
  good (zip (in_labels ex_x_eqn (shape <$> ex_x_ops0)) ex_x_ops0) /\ same_ranks ex_x_ops0 ex_x_ops /\
  good (zip (in_labels ex_x_eqn (shape <$> ex_x_ops)) ex_x_ops) /\ uniform_dims (zip (in_labels ex_x_eqn (shape <$> ex_x_ops)) ex_x_ops) /\
  strategy_ok (OPath [[1; 2]; [0; 1]]) (length ex_x_ops0) /\
  (x0 ← contract_expression ord0 true (OPath [[1; 2]; [0; 1]]) MNone ex_x_str (AShape <$> (shape <$> ex_x_ops0)) [];
   T ← (expr_call ord0 ex_lib (after ord0 ex_lib x0 [ECall (lit "numpy") true ex_x_ops0; ECall (lit "torch") true []; EEval (lit "jax")]) (lit "torch") true ex_x_ops).2;
   Ok (shape T, entries T)) = Ok ([3; 1], [386; 448; 510]).
Proof.
  split; [done|]. split; [apply plain_check_ok; by vm_compute|]. split; [by vm_compute|]. split; [apply wf_check_ok; by vm_compute|].
  split; [apply good_check_ok; by vm_compute|]. split; [by repeat constructor|]. split; [apply good_check_ok; by vm_compute|].
  split; [apply uniform_check; by vm_compute|].
  split; [apply complete_check; by vm_compute|]. by vm_compute.
Qed.

(** A library whose tensordot refuses axes of different sizes, as numpy does. *)
Definition strict_backend (K : semiring) : backend K :=
  Backend true (b_einsum (ref_backend K true)) (fun x y a b => if decide (nth0 (shape x) <$> a = nth0 (shape y) <$> b) then Ok (tensordot x y a b) else Err ValueError) (b_transpose (ref_backend K true)).
Lemma strict_backend_ok K : backend_ok (strict_backend K).
Proof.
  destruct (ref_backend_ok K true) as [H1 H2 H3]. split; [exact H1| |exact H3]. intros x y a b Ha Hb Hl Hx Hy Hd. simpl. rewrite decide_True by done. eexists. split; [reflexivity|done].
Qed.
(** Built for "ab,bc->ac" with 2x3 and 3x2, called with 2x1 and 3x2: contract broadcasts, the expression goes to
    tensordot and fails. *)
Definition ex_bc_ops : list (tensor nat_semiring) := [arr [2; 1] (seq 1 2 : list nat_semiring); arr [3; 2] (seq 1 6 : list nat_semiring)].
Theorem C30_refuted : exists (s : str) (ops0 ops : list (tensor nat_semiring)) x0 T er,
  backend_ok (strict_backend nat_semiring) /\ same_ranks ops0 ops /\ contract_expression ord0 true (OPath [[0; 1]]) MNone s (AShape <$> (shape <$> ops0)) [] = Ok x0 /\
  contract ord0 (strict_backend nat_semiring) true (OPath [[0; 1]]) MNone s ops = Ok T /\
  (expr_call ord0 (fun _ => Library (strict_backend nat_semiring) false id id) x0 (lit "numpy") true ops).2 = Err er.
Proof.
  exists (lit "ab,bc->ac"), (take 2 ex_x_ops0), ex_bc_ops. do 3 eexists. split; [apply strict_backend_ok|]. split; [by repeat constructor|].
  split; [vm_compute; reflexivity|]. split; [vm_compute; reflexivity|]. vm_compute. reflexivity.
Qed.
Print Assumptions C30_refuted.

(** ** C31 *)
(** An expression with constants (at least one operand is not constant): after any history, a call with the remaining
    arrays returns the Einstein sum of all operands, constants included. *)
Theorem C31_constants_partial (K : semiring) (ord : gset N -> list N) (e : eqn) (s : str) (args : list (operand_arg K)) (constants : list nat)
    (ops0 : list (tensor K)) (use_blas : bool) (opt : optimize_arg) (mem : memory_arg) :
  (forall x, ord x ≡ₚ elements x) ->
  e_in e <> [] -> plain_eqn e -> filter (.≠ c_space) s = render e -> well_formed e (shape <$> ops0) ->
  arg_shape <$> args = shape <$> ops0 -> (forall i, i ∈ constants -> exists T, args !! i = Some (AArray T)) ->
  let tops0 := zip (in_labels e (shape <$> ops0)) ops0 in
  good tops0 -> length (remove_dups (labels_of tops0)) <= 52 -> mem_valid mem -> strategy_ok opt (length ops0) ->
  exists x0, contract_expression ord use_blas opt mem s args constants = Ok x0 /\
    forall (lib : str -> library K) (h : list (event K)) (b : str) (np : bool),
      (forall arrays, length arrays <> length args - length (remove_dups constants) -> (expr_call ord lib (after ord lib x0 h) b np arrays).2 = Err ValueError) /\
      (forall ops, library_ok (lib b) -> b_has_einsum (l_funs (lib b)) = true -> same_ranks ops0 ops ->
        let tops := zip (in_labels e (shape <$> ops)) ops in
        good tops -> (shape <$> ops = shape <$> ops0 \/ uniform_dims tops) -> agrees args constants ops ->
        (constants = [] \/ exists i, i < length ops /\ i ∉ constants) ->
        exists T, (expr_call ord lib (after ord lib x0 h) b np (given constants ops)).2 = Ok T /\ T ≡ₜ einsum tops (out_labels e (shape <$> ops))).
Proof. intros Ho Hne Hpl Hs Hwf Ha Hc tops0 Hg Hsz Hm Hst. apply expression_ok; try done. by eapply path_fits_few. Qed.
Print Assumptions C31_constants_partial.
(** Side by side: the expression with constants and the one without, each after its own history and with its own
    libraries, agree on the merged arrays. *)
Theorem C31_same_as_without (K : semiring) (ord ord' : gset N -> list N) (e : eqn) (s : str) (args : list (operand_arg K)) (constants : list nat)
    (ops0 : list (tensor K)) (use_blas use_blas' : bool) (opt opt' : optimize_arg) (mem mem' : memory_arg) :
  (forall x, ord x ≡ₚ elements x) -> (forall x, ord' x ≡ₚ elements x) ->
  e_in e <> [] -> plain_eqn e -> filter (.≠ c_space) s = render e -> well_formed e (shape <$> ops0) ->
  arg_shape <$> args = shape <$> ops0 -> (forall i, i ∈ constants -> exists T, args !! i = Some (AArray T)) ->
  let tops0 := zip (in_labels e (shape <$> ops0)) ops0 in
  good tops0 -> length (remove_dups (labels_of tops0)) <= 52 -> mem_valid mem -> strategy_ok opt (length ops0) -> mem_valid mem' -> strategy_ok opt' (length ops0) ->
  exists x0 y0, contract_expression ord use_blas opt mem s args constants = Ok x0 /\
    contract_expression ord' use_blas' opt' mem' s (AShape <$> (shape <$> ops0)) [] = Ok y0 /\
    forall (lib lib' : str -> library K) (h h' : list (event K)) (b b' : str) (np np' : bool) ops,
      library_ok (lib b) -> b_has_einsum (l_funs (lib b)) = true -> library_ok (lib' b') -> b_has_einsum (l_funs (lib' b')) = true -> same_ranks ops0 ops ->
      let tops := zip (in_labels e (shape <$> ops)) ops in
      good tops -> (shape <$> ops = shape <$> ops0 \/ uniform_dims tops) -> agrees args constants ops ->
      (constants = [] \/ exists i, i < length ops /\ i ∉ constants) ->
      exists T T', (expr_call ord lib (after ord lib x0 h) b np (given constants ops)).2 = Ok T /\
        (expr_call ord' lib' (after ord' lib' y0 h') b' np' ops).2 = Ok T' /\ T ≡ₜ T'.
Proof.
  intros Ho Ho' Hne Hpl Hs Hwf Ha Hc tops0 Hg Hsz Hm Hst Hm' Hst'.
  destruct (C31_constants_partial K ord e s args constants ops0 use_blas opt mem) as (x0 & Hx & H1); try done.
  destruct (C30_expression_partial K ord' e s ops0 use_blas' opt' mem') as (y0 & Hy & H2); try done.
  exists x0, y0. split; [done|]. split; [done|]. intros lib lib' h h' b b' np np' ops Hl He Hl' He' Hr tops Hg' Hu Hag Hv.
  destruct (proj2 (H1 lib h b np) ops) as (T & HT & E1); try done. destruct (proj2 (H2 lib' h' b' np') ops) as (T' & HT' & E2); try done.
  exists T, T'. split; [done|]. split; [done|]. by rewrite E1, E2.
Qed.
Print Assumptions C31_same_as_without.

(** Operands 1 and 2 of three constant: the first call contracts them, later calls reuse the result, also with another library. *)
Definition ex_x_args : list (operand_arg nat_semiring) := [AShape [2; 3]; AArray ex_x_b; AArray ex_x_c].
Example C31_instance :
  arg_shape <$> ex_x_args = shape <$> ex_x_ops0 /\ agrees ex_x_args [2; 1] ex_x_ops0 /\ given [2; 1] ex_x_ops0 = take 1 ex_x_ops0 /\
  (x0 ← contract_expression ord0 true (OPath [[1; 2]; [0; 1]]) MNone ex_x_str ex_x_args [2; 1];
   let x := after ord0 ex_lib x0 [ECall (lit "numpy") true (take 1 ex_x_ops0); ECall (lit "torch") true []] in
   T ← (expr_call ord0 ex_lib x (lit "torch") true (take 1 ex_x_ops0)).2;
   Ok (length (x_full x), length (x_list x), (shape T, entries T))) = Ok (2, 1, ([2; 2], [106; 241; 156; 354])).
Proof.
  split; [done|]. split. { intros i. rewrite !elem_of_cons, elem_of_nil. intros [->|[->|[]]]; eauto. } split; [done|]. by vm_compute.
Qed.

(** All operands constant: no call succeeds. *)
Theorem C31_all_constant_refuted : exists (args : list (operand_arg nat_semiring)) x0,
  contract_expression ord0 true (OPath [[0; 1]]) MNone (lit "ab,bc->ac") args [0; 1] = Ok x0 /\
  forall h b np arrays, exists er, (expr_call ord0 ex_lib (after ord0 ex_lib x0 h) b np arrays).2 = Err er.
Proof.
  exists [AArray ex_x_a; AArray ex_x_b]. eexists. split; [vm_compute; reflexivity|].
  intros h b np arrays.
  match goal with |- context [after _ _ ?x _] => set (x0 := x) end.
  assert (Hev : forall b, evaluate_constants ord0 ex_lib x0 b = Err TypeError).
  { intros b'. unfold ex_lib, evaluate_constants. cbn [l_convert l_funs l_to]. destruct (bool_decide (b' <> lit "numpy")); vm_compute; reflexivity. }
  assert (Hget : forall b, get_evaluated ord0 ex_lib x0 b = Err TypeError).
  { intros b'. unfold get_evaluated. change (x_evaluated x0) with (∅ : gmap str (list (option (tensor nat_semiring)))). rewrite lookup_empty. by rewrite Hev. }
  assert (Hcall : forall b np arrays, exists er, expr_call ord0 ex_lib x0 b np arrays = (x0, Err er)).
  { intros b' np' arr'. unfold expr_call. destruct (negb _); [eauto|]. case_decide as E; [vm_compute in E; discriminate|]. rewrite Hget. eauto. }
  assert (Hafter : after ord0 ex_lib x0 h = x0).
  { unfold after. induction h as [|ev h IH]; [done|]. simpl. assert (run_event ord0 ex_lib x0 ev = x0) as ->; [|done].
    destruct ev as [b' np' arr'|b']; simpl; [by destruct (Hcall b' np' arr') as [er ->]|by rewrite Hev]. }
  rewrite Hafter. destruct (Hcall b np arrays) as [er ->]. by exists er.
Qed.
Print Assumptions C31_all_constant_refuted.
