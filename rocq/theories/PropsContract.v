(** Properties C01, C03-C08, C10, C12, C13, C29, C41, C42, C47: statements, each with a concrete instance. *)
From Verif Require Import Prelude Einsum EinsumFacts EinsumOps Parser Helpers Contract Spec PathSpec StringFacts SymbolFacts StepFacts ContractFacts PathFacts ParserFacts ParseSpec ParseProof ParseSound TopFacts ContractMain ShapeFacts ArgFacts RenameFacts RefBackend BlasSpec BlasFacts.

(** ** C01 *)
(** For every array library meeting its contract, every set iteration order, every equation of the grammar (with any
    spaces), every operand list of fitting shapes and every complete path: contract returns the Einstein sum. *)
Theorem C01_contract_is_einsum (K : semiring) (B : backend K) (ord : gset N -> list N) (e : eqn) (s : str) (ops : list (tensor K))
    (p : path) (use_blas : bool) (mem : memory_arg) :
  backend_ok B -> b_has_einsum B = true -> (forall x, ord x ≡ₚ elements x) ->
  e_in e <> [] -> plain_eqn e -> filter (.≠ c_space) s = render e -> well_formed e (shape <$> ops) ->
  let tops := zip (in_labels e (shape <$> ops)) ops in
  good tops -> length (remove_dups (labels_of tops)) <= 52 -> mem_valid mem -> complete (length ops) p ->
  exists T, contract ord B use_blas (OPath p) mem s ops = Ok T /\ T ≡ₜ einsum tops (out_labels e (shape <$> ops)).
Proof. intros HB He Ho Hne Hpl Hs Hwf tops Hg Hsz Hm Hp. by apply contract_ok. Qed.
Print Assumptions C01_contract_is_einsum.

(** Three operands, an ellipsis (broadcast 1 against 3), a repeated label, a non-ASCII label (945), spaces:
    "a...b, b...α ,αα -> α...a" with path [(0,2),(0,1)]. *)
Definition ex_eqn : eqn :=
  Eqn [ETerm (lit "a") (Some (lit "b")); ETerm (lit "b") (Some [945%N]); ETerm [945%N; 945%N] None]
      (Some (ETerm [945%N] (Some (lit "a")))).
Definition ex_str : str := lit "a...b, b..." ++ [945%N] ++ lit " ," ++ [945%N; 945%N] ++ lit " -> " ++ [945%N] ++ lit "...a".
Definition ex_ops : list (tensor nat_semiring) :=
  [arr [2; 3; 2] (seq 1 12 : list nat_semiring); arr [2; 1; 2] (seq 5 4 : list nat_semiring); arr [2; 2] (seq 1 4 : list nat_semiring)].
Definition ex_path : path := [[0; 2]; [0; 1]].
Lemma ex_wf : well_formed ex_eqn (shape <$> ex_ops).
Proof. apply wf_check_ok. by vm_compute. Qed.
Lemma ex_plain : plain_eqn ex_eqn.
Proof. apply plain_check_ok. by vm_compute. Qed.
Example C01_instance :
  backend_ok (ref_backend nat_semiring true) /\ b_has_einsum (ref_backend nat_semiring true) = true /\ (forall x, ord0 x ≡ₚ elements x) /\
  e_in ex_eqn <> [] /\ plain_eqn ex_eqn /\ filter (.≠ c_space) ex_str = render ex_eqn /\ well_formed ex_eqn (shape <$> ex_ops) /\
  good (zip (in_labels ex_eqn (shape <$> ex_ops)) ex_ops) /\
  length (remove_dups (labels_of (zip (in_labels ex_eqn (shape <$> ex_ops)) ex_ops))) <= 52 /\
  mem_valid (MInt (-1)) /\ complete (length ex_ops) ex_path.
Proof.
  split; [apply ref_backend_ok|]. split; [done|]. split; [apply ord0_ok|]. split; [done|]. split; [apply ex_plain|].
  split; [by vm_compute|]. split; [apply ex_wf|]. split; [apply good_check_ok; by vm_compute|].
  split; [vm_compute; lia|]. split; [by left|]. apply complete_check. by vm_compute.
Qed.
(** And the program does compute it on this instance. *)
Example C01_instance_value :
  match contract ord0 (ref_backend nat_semiring true) true (OPath ex_path) (MInt (-1)) ex_str ex_ops with
  | Ok T => (shape T, entries T) = ([2; 3; 2], [19; 91; 43; 115; 67; 139; 88; 424; 200; 536; 312; 648])
  | Err _ => False
  end.
Proof. by vm_compute. Qed.

(** Any number of labels in all: it is enough that each step of the path found involves at most 52 different labels (an array
    library's einsum has no more letters).  The labels of the steps are those of the path replayed on the terms. *)
Theorem C01_many_labels (K : semiring) (B : backend K) (ord : gset N -> list N) (e : eqn) (s : str) (ops : list (tensor K))
    (opt : optimize_arg) (use_blas : bool) (mem : memory_arg) (info : path_info) :
  backend_ok B -> b_has_einsum B = true -> (forall x, ord x ≡ₚ elements x) ->
  e_in e <> [] -> plain_eqn e -> filter (.≠ c_space) s = render e -> well_formed e (shape <$> ops) ->
  let tops := zip (in_labels e (shape <$> ops)) ops in
  let named t : gset N := list_to_set (name (fresh e (shape <$> ops)) <$> t) in
  good tops -> mem_valid mem -> strategy_ok opt (length ops) ->
  contract_path ord use_blas opt mem s (shape <$> ops) = Ok info ->
  Forall (fun st => size (union_all st.1) <= 52)
    (replay (named (out_labels e (shape <$> ops))) (pi_path info) (named <$> in_labels e (shape <$> ops))) ->
  exists T, contract ord B use_blas opt mem s ops = Ok T /\ T ≡ₜ einsum tops (out_labels e (shape <$> ops)).
Proof.
  intros HB He Ho Hne Hpl Hs Hwf tops named Hg Hm Hst Hinfo H52. apply contract_path_fits; try done.
  apply (path_fits_steps _ Ho e); try done. intros info' Hinfo'. assert (info' = info) as -> by congruence. done.
Qed.
Print Assumptions C01_many_labels.
(** A chain of 60 matrices, with 61 labels (dimensions are small because costs are unary numbers here). *)
Definition chain_label (i : nat) : N := (200 + N.of_nat i)%N.
Definition chain_eqn (n : nat) : eqn := Eqn ((fun i => ETerm [chain_label i; chain_label (S i)] None) <$> seq 0 n) None.
Definition chain_ops (n : nat) : list (tensor nat_semiring) := arr [2; 1] (seq 1 2 : list nat_semiring) :: replicate (n - 1) (arr [1; 1] [3 : nat_semiring]).
Definition chain_path (n : nat) : path := replicate (n - 1) [0; 1].
Definition steps_small (out : gset N) (p : path) (sets : list (gset N)) : bool :=
  forallb (fun st => size (union_all st.1) <=? 52) (replay out p sets).
Definition ch_eqn : eqn := chain_eqn 60.
Definition ch_ops : list (tensor nat_semiring) := chain_ops 60.
Definition ch_shapes : list (list nat) := shape <$> ch_ops.
Definition ch_named (t : list elabel) : gset N := list_to_set (name (fresh ch_eqn ch_shapes) <$> t).
Lemma ch_plain : plain_eqn ch_eqn. Proof. apply plain_check_ok. by vm_compute. Qed.
Lemma ch_wf : well_formed ch_eqn ch_shapes. Proof. apply wf_check_ok. by vm_compute. Qed.
Lemma ch_good : good (zip (in_labels ch_eqn ch_shapes) ch_ops). Proof. apply good_check_ok. by vm_compute. Qed.
Lemma ch_many : 52 < length (remove_dups (labels_of (zip (in_labels ch_eqn ch_shapes) ch_ops))). Proof. apply Nat.ltb_lt. by vm_compute. Qed.
Lemma ch_complete : complete (length ch_ops) (chain_path 60). Proof. apply complete_check. by vm_compute. Qed.
Lemma path_check (m : res path_info) p : match m with Ok info => bool_decide (pi_path info = p) | Err _ => false end = true ->
  exists info, m = Ok info /\ pi_path info = p.
Proof. destruct m as [info|]; [|done]. intros H%bool_decide_eq_true. eauto. Qed.
Lemma small_check out p sets : steps_small out p sets = true -> Forall (fun st => size (union_all st.1) <= 52) (replay out p sets).
Proof.
  unfold steps_small. rewrite forallb_forall. intros H. apply Forall_forall. intros st Hst%elem_of_list_In. apply Nat.leb_le, H, Hst.
Qed.
Lemma ch_small : Forall (fun st => size (union_all st.1) <= 52)
  (replay (ch_named (out_labels ch_eqn ch_shapes)) (chain_path 60) (ch_named <$> in_labels ch_eqn ch_shapes)).
Proof. apply small_check. by vm_compute. Qed.
Lemma ch_info : exists info, contract_path ord0 true (OPath (chain_path 60)) MNone (render ch_eqn) ch_shapes = Ok info /\ pi_path info = chain_path 60.
Proof. apply path_check. by vm_compute. Qed.
Example C01_many_labels_instance :
  plain_eqn ch_eqn /\ well_formed ch_eqn ch_shapes /\ good (zip (in_labels ch_eqn ch_shapes) ch_ops) /\
  52 < length (remove_dups (labels_of (zip (in_labels ch_eqn ch_shapes) ch_ops))) /\ complete (length ch_ops) (chain_path 60) /\
  exists info, contract_path ord0 true (OPath (chain_path 60)) MNone (render ch_eqn) ch_shapes = Ok info /\
    Forall (fun st => size (union_all st.1) <= 52)
      (replay (ch_named (out_labels ch_eqn ch_shapes)) (pi_path info) (ch_named <$> in_labels ch_eqn ch_shapes)).
Proof.
  split; [exact ch_plain|]. split; [exact ch_wf|]. split; [exact ch_good|]. split; [exact ch_many|]. split; [exact ch_complete|].
  destruct ch_info as (info & Hi & Hp). exists info. split; [exact Hi|]. rewrite Hp. exact ch_small.
Qed.

(** ** C03 *)
(** Two evaluations with different libraries, BLAS settings, set orders, paths and memory limits agree. *)
Theorem C03_blas_and_backend_agree (K : semiring) (B1 B2 : backend K) (ord1 ord2 : gset N -> list N) (e : eqn) (s : str)
    (ops : list (tensor K)) (opt1 opt2 : optimize_arg) (use_blas1 use_blas2 : bool) (mem1 mem2 : memory_arg) :
  backend_ok B1 -> backend_ok B2 -> b_has_einsum B1 = true -> b_has_einsum B2 = true ->
  (forall x, ord1 x ≡ₚ elements x) -> (forall x, ord2 x ≡ₚ elements x) ->
  e_in e <> [] -> plain_eqn e -> filter (.≠ c_space) s = render e -> well_formed e (shape <$> ops) ->
  let tops := zip (in_labels e (shape <$> ops)) ops in
  good tops -> length (remove_dups (labels_of tops)) <= 52 -> mem_valid mem1 -> mem_valid mem2 ->
  strategy_ok opt1 (length ops) -> strategy_ok opt2 (length ops) ->
  exists T1 T2, contract ord1 B1 use_blas1 opt1 mem1 s ops = Ok T1 /\ contract ord2 B2 use_blas2 opt2 mem2 s ops = Ok T2 /\ T1 ≡ₜ T2.
Proof.
  intros HB1 HB2 He1 He2 Ho1 Ho2 Hne Hpl Hs Hwf tops Hg Hsz Hm1 Hm2 Hp1 Hp2.
  destruct (contract_ok ord1 Ho1 B1 HB1 e s ops Hne Hpl Hs Hwf use_blas1 opt1 mem1) as (T1 & HT1 & E1); try done.
  destruct (contract_ok ord2 Ho2 B2 HB2 e s ops Hne Hpl Hs Hwf use_blas2 opt2 mem2) as (T2 & HT2 & E2); try done.
  exists T1, T2. split; [done|]. split; [done|]. by rewrite E1, E2.
Qed.
Print Assumptions C03_blas_and_backend_agree.
(** A library without einsum: whenever every step of the chosen path is a BLAS step ([info_fits]), the value is the same. *)
Theorem C03_without_einsum (K : semiring) (B : backend K) (ord : gset N -> list N) (e : eqn) (s : str) (ops : list (tensor K))
    (opt : optimize_arg) (use_blas : bool) (mem : memory_arg) (info : path_info) :
  backend_ok B -> (forall x, ord x ≡ₚ elements x) ->
  e_in e <> [] -> plain_eqn e -> filter (.≠ c_space) s = render e -> well_formed e (shape <$> ops) ->
  let tops := zip (in_labels e (shape <$> ops)) ops in
  good tops -> mem_valid mem -> strategy_ok opt (length ops) ->
  contract_path ord use_blas opt mem s (shape <$> ops) = Ok info -> info_fits B info ->
  exists T, contract ord B use_blas opt mem s ops = Ok T /\ T ≡ₜ einsum tops (out_labels e (shape <$> ops)).
Proof. intros HB Ho Hne Hpl Hs Hwf tops. by apply contract_fits. Qed.
Print Assumptions C03_without_einsum.
(** "ab,bc,cd->ad" with a library that only has tensordot and transpose. *)
Definition ex2_str : str := lit "ab,bc,cd->da".
Definition ex2_eqn : eqn := Eqn [ETerm (lit "ab") None; ETerm (lit "bc") None; ETerm (lit "cd") None] (Some (ETerm (lit "da") None)).
Definition ex2_ops : list (tensor nat_semiring) :=
  [arr [2; 3] (seq 1 6 : list nat_semiring); arr [3; 2] (seq 1 6 : list nat_semiring); arr [2; 2] (seq 1 4 : list nat_semiring)].
Example C03_instance : exists info,
  contract_path ord0 true (OPath [[1; 2]; [0; 1]]) MNone ex2_str (shape <$> ex2_ops) = Ok info /\ info_fits (ref_backend nat_semiring false) info /\
  well_formed ex2_eqn (shape <$> ex2_ops) /\ good (zip (in_labels ex2_eqn (shape <$> ex2_ops)) ex2_ops) /\ filter (.≠ c_space) ex2_str = render ex2_eqn.
Proof.
  destruct (contract_path ord0 true (OPath [[1; 2]; [0; 1]]) MNone ex2_str (shape <$> ex2_ops)) as [info|] eqn:E; [|by vm_compute in E].
  exists info. split; [done|]. split.
  - vm_compute in E. injection E as <-. unfold info_fits. simpl.
    constructor; [split; [right; discriminate|left; vm_compute; reflexivity]|].
    constructor; [split; [right; discriminate|left; vm_compute; reflexivity]|constructor].
  - split; [apply wf_check_ok; by vm_compute|]. split; [apply good_check_ok; by vm_compute|]. by vm_compute.
Qed.
Example C03_instance_value :
  match contract ord0 (ref_backend nat_semiring false) true (OPath [[1; 2]; [0; 1]]) MNone ex2_str ex2_ops with
  | Ok T => (shape T, entries T) = ([2; 2], [106; 241; 156; 354])
  | Err _ => False
  end.
Proof. by vm_compute. Qed.

(** ** C04 *)
Theorem C04_can_blas_sound (inputs : list str) (result : str) (removed : gset N) (shapes : list (list nat)) :
  can_blas inputs result removed shapes <> BFalse ->
  exists l r shl shr rest, inputs = [l; r] /\ shapes = shl :: shr :: rest /\ NoDup l /\ NoDup r /\
    (forall c, c ∈ l -> c ∈ r -> c ∉ result) /\ (forall c, c ∈ l -> c ∉ r -> c ∈ result) /\ (forall c, c ∈ r -> c ∉ l -> c ∈ result) /\
    (forall c, c ∈ removed -> exists i j d, find c l = Some i /\ find c r = Some j /\ shl !! i = Some d /\ shr !! j = Some d).
Proof. apply can_blas_sound. Qed.
Print Assumptions C04_can_blas_sound.
Example C04_instance : can_blas [lit "abc"; lit "cbd"] (lit "ad") (list_to_set (lit "bc")) [[2;3;4];[4;3;5]] = TDOT.
Proof. by vm_compute. Qed.
Example C04_instance_no : can_blas [lit "abc"; lit "cbd"] (lit "ad") (list_to_set (lit "bc")) [[2;3;4];[1;3;5]] = BFalse.
Proof. by vm_compute. Qed.

(** ** C47 *)
(** A contraction of two operands is accepted exactly if tensordot can do it and no summed dimension is broadcast. *)
Theorem C47_accepts (l r result : str) (shl shr : list nat) (rest : list (list nat)) :
  length shl = length l -> length shr = length r ->
  can_blas [l; r] result (summed l r result) (shl :: shr :: rest) <> BFalse <-> tensordot_form l r result /\ same_dims l r shl shr.
Proof.
  intros Hl Hr. destruct (blas_chars_ok l r result) eqn:E.
  - apply blas_chars_iff in E. rewrite summed_shared by done. by apply can_blas_accepts.
  - assert (Hn : ~ tensordot_form l r result) by (intros H; apply blas_chars_iff in H; congruence).
    rewrite blas_no_form by done. tauto.
Qed.
Print Assumptions C47_accepts.
(** The kind named tells where the summed labels are. *)
Theorem C47_kinds (l r result : str) (shl shr : list nat) (rest : list (list nat)) :
  let answer := can_blas [l; r] result (summed l r result) (shl :: shr :: rest) in
  let no_shared := forall c, c ∈ l -> c ∉ r in
  answer <> BFalse ->
  (answer = OUTER_EINSUM <-> no_shared) /\
  (answer = DOT <-> l <> [] /\ l = r) /\
  (answer = DOT_EINSUM <-> l <> r /\ l ≡ₚ r) /\
  (answer = GEMM <-> ~ no_shared /\ ~ l ≡ₚ r /\ matrix_form l r) /\
  (answer = GEMV_EINSUM <-> ~ no_shared /\ ~ l ≡ₚ r /\ ~ matrix_form l r /\ ((forall c, c ∈ l -> c ∈ r) \/ (forall c, c ∈ r -> c ∈ l))) /\
  (answer = TDOT <-> ~ no_shared /\ ~ matrix_form l r /\ ~ (forall c, c ∈ l -> c ∈ r) /\ ~ (forall c, c ∈ r -> c ∈ l)).
Proof.
  intros answer no_shared Hne.
  assert (Hf : tensordot_form l r result).
  { destruct (blas_chars_ok l r result) eqn:E; [by apply blas_chars_iff|]. exfalso. apply Hne. apply blas_no_form.
    intros H. apply blas_chars_iff in H. congruence. }
  subst answer no_shared. rewrite summed_shared in * by done. destruct Hf as (Hl & Hr & _). by apply can_blas_kind.
Qed.
Print Assumptions C47_kinds.
Example C47_instance :
  can_blas [lit "abc"; lit "bcd"] (lit "ad") (summed (lit "abc") (lit "bcd") (lit "ad")) [[2;3;4];[3;4;5]] = GEMM /\
  can_blas [lit "abc"; lit "cbd"] (lit "ad") (summed (lit "abc") (lit "cbd") (lit "ad")) [[2;3;4];[4;3;5]] = TDOT /\
  can_blas [lit "abc"; lit "cb"] (lit "a") (summed (lit "abc") (lit "cb") (lit "a")) [[2;3;4];[4;3]] = GEMV_EINSUM /\
  can_blas [lit "ab"; lit "ba"] [] (summed (lit "ab") (lit "ba") []) [[2;3];[3;2]] = DOT_EINSUM /\
  can_blas [lit "ab"; lit "ab"] [] (summed (lit "ab") (lit "ab") []) [[2;3];[2;3]] = DOT /\
  can_blas [lit "ab"; lit "cd"] (lit "abcd") (summed (lit "ab") (lit "cd") (lit "abcd")) [[2;3];[4;5]] = OUTER_EINSUM /\
  matrix_form (lit "abc") (lit "bcd").
Proof.
  split_and!; try (by vm_compute). exists (lit "bc"), (lit "a"), (lit "d").
  split; [left; by vm_compute|]. split; [right; by vm_compute|].
  intros c Hc Hd. vm_compute in Hc, Hd. apply elem_of_list_singleton in Hc as ->. by apply elem_of_list_singleton in Hd.
Qed.

(** ** C05 *)
(** Parsing succeeds exactly on well-formed equations and then returns the expanded labels, named by an injection that
    keeps the user's labels and gives each broadcast axis a name outside them. *)
Theorem C05_parse (e : eqn) (shapes : list (list nat)) (s : str) (r : str * str) :
  e_in e <> [] -> plain_eqn e -> filter (.≠ c_space) s = render e ->
  parse_einsum_input s shapes = Ok r <->
  well_formed e shapes /\
  r = (join s_comma (fmap (M:=list) (name (fresh e shapes)) <$> in_labels e shapes), name (fresh e shapes) <$> out_labels e shapes).
Proof. intros Hne Hpl. by apply parse_ok_iff. Qed.
Print Assumptions C05_parse.
Theorem C05_names (e : eqn) (shapes : list (list nat)) : plain_eqn e ->
  let f := name (fresh e shapes) in
  (forall c, f (Named c) = c) /\
  (forall a b, (exists t, t ∈ in_labels e shapes /\ a ∈ t) -> (exists t, t ∈ in_labels e shapes /\ b ∈ t) -> f a = f b -> a = b) /\
  (forall t a, t ∈ in_labels e shapes -> a ∈ t -> plain (f a)).
Proof.
  intros Hpl f. split; [done|]. split.
  - intros a b (t & Ht & Ha) (u & Hu & Hb). exact (name_inj e shapes a b Hpl (in_known _ _ _ _ Ht Ha) (in_known _ _ _ _ Hu Hb)).
  - intros t a Ht Ha. exact (name_plain e shapes a Hpl (in_known _ _ _ _ Ht Ha)).
Qed.
Print Assumptions C05_names.
Example C05_instance : (* "b...a,..." with shapes (2,3,4) and (5,3): implicit output, two broadcast axes *)
  let e := Eqn [ETerm (lit "b") (Some (lit "a")); ETerm [] (Some [])] None in
  wf_check e [[2; 3; 4]; [5; 3]] = true /\ plain_check e = true /\
  parse_einsum_input (lit "b...a, ...") [[2; 3; 4]; [5; 3]] = Ok (lit "bea,de", lit "deab").
Proof. by vm_compute. Qed.

(** ** C06 *)
Theorem C06_accepted_partial (s : str) (shapes : list (list nat)) (inp out : str) :
  parse_einsum_input s shapes = Ok (inp, out) ->
  NoDup out /\ (forall c, c ∈ out -> c ∈ inp) /\ length (split s_comma inp) = length shapes /\ Forall (Forall plain) (split s_comma inp).
Proof. apply parse_guarantees. Qed.
Print Assumptions C06_accepted_partial.
(** Apart from the two quirks below, only equations of the grammar that are well formed are accepted. *)
Theorem C06_rejects_malformed (s : str) (shapes : list (list nat)) (inp out : str) :
  parse_einsum_input s shapes = Ok (inp, out) -> c_comma ∉ out ->
  (forall A B, filter (.≠ c_space) s = A ++ s_arrow ++ B -> count_sub s_dots B <= 1) ->
  exists e, e_in e <> [] /\ plain_eqn e /\ filter (.≠ c_space) s = render e /\ well_formed e shapes.
Proof.
  intros H Hc Hd. destruct (parse_grammar s shapes inp out H Hc Hd) as (e & Hne & Hpl & Hs). exists e. do 3 (split; [done|]).
  by apply (parse_ok_iff e shapes Hne Hpl s (inp, out) Hs).
Qed.
Print Assumptions C06_rejects_malformed.
Example C06_instance : parse_einsum_input (lit "i j,jk ->ik") [[2; 3]; [3; 4]] = Ok (lit "ij,jk", lit "ik").
Proof. by vm_compute. Qed.
(** The quirks: a comma in the output, and a doubled ellipsis in the output, are accepted. *)
Theorem C06_comma_output_refuted : exists s shapes inp out, parse_einsum_input s shapes = Ok (inp, out) /\ c_comma ∈ out.
Proof. exists (lit "ab,bc->a,c"), [[2;2];[2;2]], (lit "ab,bc"), (lit "a,c"). split; [by vm_compute|]. apply (bool_decide_unpack _). by vm_compute. Qed.
Theorem C06_double_ellipsis_refuted : exists s shapes r, s = lit "a,a->......" /\ parse_einsum_input s shapes = Ok r.
Proof. eexists _, [[2];[2]], _. split; [reflexivity|]. by vm_compute. Qed.

(** ** C07, C08 *)
Theorem C07_get_symbol (i j : N) : (get_symbol i = get_symbol j -> i = j) /\ plain (get_symbol i).
Proof. split; [apply get_symbol_inj|apply get_symbol_plain]. Qed.
Print Assumptions C07_get_symbol.
Theorem C07_gen_unused (used : str) (n : nat) :
  length (gen_unused_symbols used n) = n /\ NoDup (gen_unused_symbols used n) /\ forall c, c ∈ gen_unused_symbols used n -> c ∉ used /\ plain c.
Proof. apply gen_unused_ok. Qed.
Print Assumptions C07_gen_unused.
Example C07_instance : gen_unused_symbols (lit "abd") 3 = lit "cef" /\ get_symbol 200 = 340%N.
Proof. by vm_compute. Qed.
(** C08 is false: exactly 140 arguments give a surrogate. *)
Theorem C08_surrogates_exactly_partial (i : N) : (55296 <= get_symbol i <= 57343)%N <-> (55156 <= i <= 55295)%N.
Proof. destruct (get_symbol_cases i) as [[? ?]|[[? ->]|[? ->]]]; lia. Qed.
Print Assumptions C08_surrogates_exactly_partial.
Theorem C08_no_surrogates_refuted : exists i, (55296 <= get_symbol i <= 57343)%N.
Proof. exists 55156%N. vm_compute. by split. Qed.

(** ** C10 *)
(** With an implicit output, which is sorted, the renaming has to keep the order. *)
Theorem C10_label_names (K : semiring) (B : backend K) (ord : gset N -> list N) (f : N -> N) (e : eqn) (ops : list (tensor K))
    (use_blas : bool) (opt : optimize_arg) (mem : memory_arg) :
  backend_ok B -> b_has_einsum B = true -> (forall x, ord x ≡ₚ elements x) ->
  e_in e <> [] -> plain_eqn e ->
  is_Some (e_out e) \/ (forall a b, a ∈ named_of e -> b ∈ named_of e -> (a < b)%N -> (f a < f b)%N) ->
  (forall a b, a ∈ named_of e -> b ∈ named_of e -> f a = f b -> a = b) -> (forall c, c ∈ named_of e -> plain (f c)) ->
  well_formed e (shape <$> ops) -> good (zip (in_labels e (shape <$> ops)) ops) -> mem_valid mem -> strategy_ok opt (length ops) ->
  length (remove_dups (labels_of (zip (in_labels e (shape <$> ops)) ops))) <= 52 ->
  exists T T', contract ord B use_blas opt mem (render e) ops = Ok T /\ contract ord B use_blas opt mem (render (rename_eqn f e)) ops = Ok T' /\ T' ≡ₜ T.
Proof. intros HB He Ho. intros. by apply contract_rename. Qed.
Print Assumptions C10_label_names.
Definition ex_swap (c : N) : N := if decide (c = 97%N) then 955%N else if decide (c = 98%N) then 97%N else c.
Example C10_instance : is_Some (e_out ex_eqn) /\
  (forall a b, a ∈ named_of ex_eqn -> b ∈ named_of ex_eqn -> ex_swap a = ex_swap b -> a = b) /\ (forall c, c ∈ named_of ex_eqn -> plain (ex_swap c)).
Proof.
  split; [by eexists|]. split.
  - intros a b Ha Hb. assert (H : Forall (fun a => Forall (fun b => ex_swap a = ex_swap b -> a = b) (named_of ex_eqn)) (named_of ex_eqn)).
    { apply (bool_decide_unpack _). by vm_compute. }
    rewrite Forall_forall in H. specialize (H a Ha). rewrite Forall_forall in H. by apply H.
  - intros c Hc. assert (H : Forall (fun c => plain (ex_swap c)) (named_of ex_eqn)) by (apply (bool_decide_unpack _); by vm_compute).
    rewrite Forall_forall in H. by apply H.
Qed.

Definition ex_implicit : eqn := Eqn [ETerm (lit "b") (Some (lit "a")); ETerm (lit "cb") None] None.
Example C10_implicit_instance : e_out ex_implicit = None /\ (out_labels ex_implicit [[2; 5; 3]; [4; 2]] = [Bcast 0; Named 97%N; Named 99%N]) /\
  (forall a b, a ∈ named_of ex_implicit -> b ∈ named_of ex_implicit -> (a < b)%N -> (a + 300 < b + 300)%N) /\
  (forall c, c ∈ named_of ex_implicit -> plain (c + 300)%N).
Proof.
  split; [done|]. split; [by vm_compute|]. split; [lia|]. intros c Hc.
  assert (H : Forall (fun c => plain (c + 300)%N) (named_of ex_implicit)) by (apply (bool_decide_unpack _); by vm_compute).
  rewrite Forall_forall in H. by apply H.
Qed.

(** ** C12 *)
Theorem C12_shapes_accepted (K : semiring) (ord : gset N -> list N) (use_blas : bool) (opt : optimize_arg) (mem : memory_arg) (e : eqn) (s : str)
    (ops : list (tensor K)) :
  (forall x, ord x ≡ₚ elements x) ->
  e_in e <> [] -> plain_eqn e -> filter (.≠ c_space) s = render e -> well_formed e (shape <$> ops) ->
  let tops := zip (in_labels e (shape <$> ops)) ops in
  ranked tops -> compat tops -> mem_valid mem -> strategy_ok opt (length ops) ->
  exists info, contract_path ord use_blas opt mem s (shape <$> ops) = Ok info /\
    forall c, Named c ∈ labels_of tops -> pi_size_dict info !! c = Some (dim tops (Named c)).
Proof. intros Ho. by apply contract_path_accepts. Qed.
Print Assumptions C12_shapes_accepted.
Theorem C12_shapes_rejected (K : semiring) (ord : gset N -> list N) (use_blas : bool) (opt : optimize_arg) (mem : memory_arg) (e : eqn) (s : str)
    (ops : list (tensor K)) :
  e_in e <> [] -> plain_eqn e -> filter (.≠ c_space) s = render e -> well_formed e (shape <$> ops) ->
  let tops := zip (in_labels e (shape <$> ops)) ops in
  ~ (ranked tops /\ compat tops) -> contract_path ord use_blas opt mem s (shape <$> ops) = Err ValueError.
Proof. intros Hne Hpl Hs Hwf tops. by apply contract_path_rejects. Qed.
Print Assumptions C12_shapes_rejected.
Example C12_instance :
  (info ← contract_path ord0 true (OPath [[0; 1]]) MNone (lit "ab,bc->ac") [[2; 1]; [3; 4]]; of_opt KeyError (pi_size_dict info !! 98%N)) = Ok 3 /\
  contract_path ord0 true (OPath [[0; 1]]) MNone (lit "ab,bc->ac") [[2; 2]; [3; 4]] = Err ValueError.
Proof. by vm_compute. Qed.

(** ** C13 *)
Theorem C13_output_shape_partial (K : semiring) (inputs : list str) (ops : list (tensor K)) (output : str) :
  length inputs = length ops -> good (zip inputs ops) -> (forall c, c ∈ output -> c ∈ labels_of (zip inputs ops)) ->
  find_output_shape inputs (shape <$> ops) output = Ok (shape (einsum (zip inputs ops) output)).
Proof. intros. by apply find_output_shape_ok. Qed.
Print Assumptions C13_output_shape_partial.
Example C13_instance : good_check (zip [lit "ab"; lit "bc"] [arr [2; 1] ([] : list nat_semiring); arr [3; 4] []]) = true /\
  find_output_shape [lit "ab"; lit "bc"] [[2; 1]; [3; 4]] (lit "bac") = Ok [3; 2; 4].
Proof. by vm_compute. Qed.
(** Without the "no 0 against 1" part of [good] it is false: 1 instead of 0. *)
Theorem C13_output_shape_refuted : exists (inputs : list str) (ops : list (tensor nat_semiring)) output,
  length inputs = length ops /\ ranked (zip inputs ops) /\ compat (zip inputs ops) /\ diagonal (zip inputs ops) /\
  find_output_shape inputs (shape <$> ops) output = Ok [1] /\ shape (einsum (zip inputs ops) output) = [0].
Proof.
  exists [lit "a"; lit "a"], [arr [0] ([] : list nat_semiring); arr [1] ([5] : list nat_semiring)], (lit "a"). split; [done|]. split; [repeat constructor|]. split.
  - intros l d d' H1 H2. unfold axes_of in H1, H2. simpl in H1, H2. set_solver.
  - split; [|by vm_compute]. intros p i j c d d' Hp Hi Hj Hd Hd'.
    assert (length p.1 = 1 /\ length (shape p.2) = 1) as [H1 H2] by (simpl in Hp; set_solver).
    apply lookup_lt_Some in Hi, Hj. assert (i = j) as -> by lia. congruence.
Qed.

(** ** C29 *)
Theorem C29_path_info (K : semiring) (B : backend K) (ord : gset N -> list N) (use_blas : bool) (opt : optimize_arg) (mem : memory_arg) (s : str)
    (ops : list (tensor K)) (inp out : str) :
  backend_ok B -> (forall x, ord x ≡ₚ elements x) ->
  parse_einsum_input s (shape <$> ops) = Ok (inp, out) -> c_comma ∉ out ->
  let ts := split s_comma inp in let tops := zip ts ops in
  good tops -> mem_valid mem -> strategy_ok opt (length ops) ->
  exists info, contract_path ord use_blas opt mem s (shape <$> ops) = Ok info /\ complete (length ops) (pi_path info) /\
    info_numbers (dim tops) (list_to_set <$> ts) (list_to_set out) info /\
    (info_fits B info -> (forall c x y, (c, x) ∈ axes_of tops -> (c, y) ∈ axes_of tops -> x = y) ->
     exists vs, step_results ord B ops (pi_contractions info) = Ok vs /\ (prod_list ∘ shape) <$> vs = pi_size_list info).
Proof.
  intros HB Ho Hp Hcm ts tops Hg Hm Hs. pose proof (parse_guarantees _ _ _ _ Hp) as (Hnd & Hsub & Hlen & Hpl).
  rewrite fmap_length in Hlen.
  assert (Hout : forall c, c ∈ out -> c ∈ labels_of tops).
  { intros c Hc. apply elem_labels_zip; [done|]. apply Hsub in Hc as Hci. rewrite <-(join_split1 c_comma inp) in Hci.
    apply elem_of_join in Hci as [Hci|?]; [|done]. apply elem_of_list_singleton in Hci. congruence. }
  assert (Hn1 : 1 <= length ops) by (rewrite <-Hlen; pose proof (split_aux_ne s_comma 0 inp) as Hsn; fold (split s_comma inp) in Hsn; destruct (split s_comma inp); [done|simpl; lia]).
  destruct (contract_path_parsed_ok ord Ho B HB use_blas opt mem inp out ops) as (info & H1 & H2 & _ & H4 & _ & _ & H7); try done.
  { intros mem'. apply strategy_path; try done.
    - by rewrite fmap_length.
    - intros a c (t & -> & Ht)%elem_of_list_fmap Hc. apply elem_of_list_to_set in Hc. rewrite dims_map_lookup, decide_True; [done|].
      apply elem_labels_zip; eauto.
    - intros c Hc. apply elem_of_list_to_set, Hout, elem_labels_zip in Hc as (t & Ht & Hc); [|done]. apply elem_union_all.
      exists (list_to_set t). split; [by apply elem_of_list_fmap_1|by apply elem_of_list_to_set]. }
  exists info. unfold contract_path. rewrite Hp. split; [done|]. split; [done|]. split; [done|]. intros Hf Hu.
  destruct (H7 Hf ops) as (T & _ & _ & vs & Hvs & Hsz); [by apply Forall2_same_length_lookup_2; [|intros; simplify_eq]|]. exists vs. split; [done|by apply Hsz].
Qed.
Print Assumptions C29_path_info.
Example C29_instance :
  (info ← contract_path ord0 true (OPath [[1; 2]; [0; 1]]) MNone ex2_str (shape <$> ex2_ops);
   Ok (pi_opt_cost info, pi_scale_list info, pi_size_list info, pi_largest info, pi_naive_cost info)) = Ok (48, [3; 3], [6; 4], 6, 72).
Proof. by vm_compute. Qed.

(** ** C41 *)
(** Accepted explicit paths only name positions that exist (negative positions: C66)... *)
Theorem C41_accepted_in_bounds_partial (ord : gset N -> list N) (use_blas : bool) (p : path) (mem : memory_arg) (s : str) (shapes : list (list nat)) (info : path_info) :
  contract_path ord use_blas (OPath p) mem s shapes = Ok info -> in_bounds (length shapes) p.
Proof.
  unfold contract_path. intros H. apply bind_Ok in H as ([inp out] & Hp & H). apply parse_guarantees in Hp as (_ & _ & Hlen & _).
  unfold contract_path_parsed in H. apply bind_Ok in H as (d & Hd & H). apply bind_Ok in H as (sl & Hsl & H).
  apply bind_Ok in H as (m & Hm & H). apply bind_Ok in H as (naive & _ & H). apply bind_Ok in H as (p' & Hp & H).
  apply bind_Ok in H as (steps & Hs & H). apply Ok_inj in Hp as <-. apply cp_loop_bounds in Hs. by rewrite fmap_length, Hlen in Hs.
Qed.
Print Assumptions C41_accepted_in_bounds_partial.
Example C41_instance : contract_path ord0 true (OPath [[0; 3]; [0; 1]]) MNone (lit "a,a,a->a") [[2]; [2]; [2]] = Err IndexError.
Proof. by vm_compute. Qed.
(** ... but an incomplete path is accepted and gives a wrong value: 'a,a,a->a' with path [(0,1)] returns the third operand. *)
Definition ex3_ops : list (tensor nat_semiring) := [arr [2] ([2; 3] : list nat_semiring); arr [2] ([5; 7] : list nat_semiring); arr [2] ([11; 13] : list nat_semiring)].
Theorem C41_incomplete_path_refuted : exists T,
  contract ord0 (ref_backend nat_semiring true) true (OPath [[0; 1]]) MNone (lit "a,a,a->a") ex3_ops = Ok T /\
  entries T = [11; 13] /\ entries (einsum (zip [lit "a"; lit "a"; lit "a"] ex3_ops) (lit "a")) = [110; 273].
Proof.
  destruct (contract ord0 (ref_backend nat_semiring true) true (OPath [[0; 1]]) MNone (lit "a,a,a->a") ex3_ops) as [T|] eqn:E; [|by vm_compute in E].
  exists T. split; [done|]. vm_compute in E. injection E as <-. by vm_compute.
Qed.

(** ** C42 *)
Theorem C42_memory_limit (ord : gset N -> list N) (use_blas : bool) (f : finder) (mem : memory_arg) (inp out : str) (shapes : list (list nat)) (info : path_info) :
  length (split s_comma inp) > 2 -> contract_path_parsed ord use_blas (OFinder f) mem inp out shapes = Ok info ->
  exists r, mem_meaning mem ((fun t => prod_list (size_of (pi_size_dict info) <$> t)) <$> (split s_comma inp ++ [out])) r /\
    f (list_to_set <$> split s_comma inp) (list_to_set out) (pi_size_dict info) r = Ok (pi_path info).
Proof. apply parsed_memory. Qed.
Print Assumptions C42_memory_limit.
Theorem C42_invalid_rejected (m : memory_arg) (sizes : list nat) : sizes <> [] ->
  match choose_memory_arg m sizes with
  | Ok r => mem_meaning m sizes r
  | Err e => e = ValueError /\ forall r, ~ mem_meaning m sizes r
  end.
Proof. apply choose_memory_meaning. Qed.
Print Assumptions C42_invalid_rejected.
Example C42_instance : choose_memory_arg (MStr (lit "max_input")) [4; 9; 6] = Ok (Some 9) /\ choose_memory_arg (MInt 0) [4; 9] = Err ValueError
  /\ choose_memory_arg (MStr (lit "max")) [4] = Err ValueError /\ choose_memory_arg (MInt (-1)) [4] = Ok None /\ choose_memory_arg (MInt 5) [4] = Ok (Some 5).
Proof. by vm_compute. Qed.
