(** C64: keyword arguments. *)
From Verif Require Import Prelude Einsum EinsumFacts EinsumOps Parser Helpers Contract Expression Keywords Spec PathSpec StringFacts SymbolFacts StepFacts ContractFacts PathFacts ParserFacts ParseSpec ParseProof ParseSound TopFacts ContractMain ShapeFacts ArgFacts RefBackend ExprSpec ExprMain KeywordFacts PropsContract.

(** What reaches einsum: the keyword arguments but those that say what is the default. *)
Theorem C64_filter (kw : kwargs) : kw_dict kw -> filter_einsum_defaults kw ≡ₚ given_kw kw.
Proof. apply filter_defaults_perm. Qed.
Print Assumptions C64_filter.
Example C64_filter_instance :
  filter_einsum_defaults [(lit "dtype", VObj 1); (lit "spam", VObj 2); (lit "order", VStr (lit "K")); (lit "casting", VStr (lit "unsafe"))] =
    [(lit "casting", VStr (lit "unsafe")); (lit "dtype", VObj 1); (lit "spam", VObj 2)].
Proof. by vm_compute. Qed.

Lemma cp_loop_no_blas ord output d p : forall sets terms shapes steps, cp_loop ord false output d p sets terms shapes = Ok steps -> Forall (fun st => c_blas st.1 = BFalse) steps.
Proof.
  induction p as [|inds p IH]; intros sets terms shapes steps H; cbn [cp_loop] in H; [injection H as <-; constructor|].
  apply bind_Ok in H as ([[[o s'] r] c] & _ & H). apply bind_Ok in H as (cost & _ & H). apply bind_Ok in H as (sz & _ & H). apply bind_Ok in H as ([ti t'] & _ & H). apply bind_Ok in H as ([ts sh'] & _ & H).
  apply bind_Ok in H as (shp & _ & H). apply bind_Ok in H as (rest & Hrest & H). injection H as <-. constructor; [done|]. by eapply IH.
Qed.
Lemma path_no_blas ord opt mem s shapes info : contract_path ord false opt mem s shapes = Ok info -> Forall (fun c => c_blas c = BFalse) (pi_contractions info).
Proof.
  unfold contract_path, contract_path_parsed. intros H. apply bind_Ok in H as ([inp out] & _ & H). apply bind_Ok in H as (d & _ & H). apply bind_Ok in H as (sl & _ & H). apply bind_Ok in H as (m & _ & H).
  apply bind_Ok in H as (nv & _ & H). apply bind_Ok in H as (p & _ & H). apply bind_Ok in H as (steps & Hs & H). apply bind_Ok in H as (ps & _ & H). injection H as <-. cbn [pi_contractions].
  apply cp_loop_no_blas in Hs. apply Forall_fmap. done.
Qed.

(** Outside sharing contexts [contract] with keyword arguments is [contract] with a library whose einsum has them bound, provided no step is a tensordot; if
    there is such a step, any keyword argument makes the call fail (with a TypeError, unless something else fails before).  [evaluate_constants] is not a
    keyword argument for einsum. *)
Theorem C64_keywords_partial (K : semiring) (L : kwlib K) (kw : kwargs) (ord : gset N -> list N) (use_blas : bool) (opt : optimize_arg) (mem : memory_arg) (s : str) (ops : list (tensor K)) :
  kw_dict kw -> kw_unordered L -> lit "evaluate_constants" ∉ kw.*1 ->
  let B := bind_kw L (given_kw kw) in
  let tensordots := exists info, opt <> OFalse /\ contract_path ord use_blas opt mem s (shape <$> ops) = Ok info /\ uses_tensordot L (pi_contractions info) in
  (kw = [] \/ ~ tensordots -> kw_contract ord L false kw use_blas opt mem s ops = contract ord B use_blas opt mem s ops) /\
  (kw <> [] -> tensordots -> exists e, kw_contract ord L false kw use_blas opt mem s ops = Err e /\ forall T, contract ord B use_blas opt mem s ops = Ok T -> e = TypeError).
Proof.
  intros Hd Hu Hev B tensordots.
  assert (Hmain : forall info, opt <> OFalse -> contract_path ord use_blas opt mem s (shape <$> ops) = Ok info ->
    (kw = [] \/ ~ uses_tensordot L (pi_contractions info) -> kw_core ord L false kw ops (pi_contractions info) = core_contract ord B ops (pi_contractions info)) /\
    (kw <> [] -> uses_tensordot L (pi_contractions info) -> exists e, kw_core ord L false kw ops (pi_contractions info) = Err e /\ forall T, core_contract ord B ops (pi_contractions info) = Ok T -> e = TypeError)).
  { intros info _ _. unfold kw_core, core_contract. rewrite (kw_del_notin _ _ Hev). split.
    - intros [->|Hn]; [done|by rewrite (kw_fold_einsum ord L kw Hd Hu)].
    - intros Hne Ht. destruct (kw_fold_error ord L kw Hd Hu _ ops Ht Hne) as (e & He & Hr). rewrite He. exists e. split; [done|]. intros T HT. apply bind_Ok in HT as (o & Ho & _). by eapply Hr. }
  split.
  - intros Hc. unfold kw_contract, contract. destruct opt as [|p|f]; [by apply kw_einsum_bound|..].
    all: destruct (contract_path ord use_blas _ mem s (shape <$> ops)) as [info|e] eqn:E; [|done]; cbn [mbind res_bind]; apply Hmain; [done|done|]; destruct Hc as [?|Hc]; [by left|right; intros Ht; apply Hc; by exists info].
  - intros Hne (info & Hopt & Hinfo & Ht). unfold kw_contract, contract. destruct opt as [|p|f]; [done|..].
    all: rewrite Hinfo; cbn [mbind res_bind]; by apply Hmain.
Qed.
Print Assumptions C64_keywords_partial.
(** So with [use_blas=False] keyword arguments can be used with every equation and every strategy. *)
Theorem C64_no_blas (K : semiring) (L : kwlib K) (kw : kwargs) (ord : gset N -> list N) (opt : optimize_arg) (mem : memory_arg) (s : str) (ops : list (tensor K)) :
  kw_dict kw -> kw_unordered L -> lit "evaluate_constants" ∉ kw.*1 ->
  kw_contract ord L false kw false opt mem s ops = contract ord (bind_kw L (given_kw kw)) false opt mem s ops.
Proof.
  intros Hd Hu Hev. destruct (C64_keywords_partial K L kw ord false opt mem s ops Hd Hu Hev) as [H _]. apply H. right. intros (info & _ & Hinfo & Ht). apply path_no_blas in Hinfo.
  unfold uses_tensordot in Ht. apply Exists_exists in Ht as (c & Hc & Hb). rewrite Forall_forall in Hinfo. unfold kw_blas in Hb. by rewrite (Hinfo c Hc) in Hb.
Qed.
Print Assumptions C64_no_blas.
(** If einsum with the keyword arguments is an einsum, the result is the Einstein sum. *)
Theorem C64_result (K : semiring) (L : kwlib K) (kw : kwargs) (ord : gset N -> list N) (e : eqn) (s : str) (ops : list (tensor K)) (p : path) (mem : memory_arg) :
  kw_dict kw -> kw_unordered L -> lit "evaluate_constants" ∉ kw.*1 ->
  backend_ok (bind_kw L (given_kw kw)) -> k_has_einsum L = true -> (forall x, ord x ≡ₚ elements x) ->
  e_in e <> [] -> plain_eqn e -> filter (.≠ c_space) s = render e -> well_formed e (shape <$> ops) ->
  let tops := zip (in_labels e (shape <$> ops)) ops in
  good tops -> length (remove_dups (labels_of tops)) <= 52 -> mem_valid mem -> complete (length ops) p ->
  exists T, kw_contract ord L false kw false (OPath p) mem s ops = Ok T /\ T ≡ₜ einsum tops (out_labels e (shape <$> ops)).
Proof. intros Hd Hu Hev HB He Ho Hne Hpl Hs Hwf tops Hg Hsz Hm Hp. rewrite C64_no_blas by done. by apply C01_contract_is_einsum. Qed.
Print Assumptions C64_result.

(** Keyword arguments given when an expression is built act as if given to [contract]; [out] and [backend] are refused there. *)
Theorem C64_expression (K : semiring) (L : kwlib K) (sharing : bool) (kw : kwargs) (ord : gset N -> list N) (use_blas : bool) (opt : optimize_arg) (mem : memory_arg) (e : eqn) (s : str) (ops : list (tensor K)) :
  e_in e <> [] -> plain_eqn e -> filter (.≠ c_space) s = render e -> well_formed e (shape <$> ops) -> opt <> OFalse -> opt <> OPath [] ->
  lit "evaluate_constants" ∉ kw.*1 -> lit "out" ∉ kw.*1 -> lit "backend" ∉ kw.*1 ->
  (x ← kw_expression ord kw use_blas opt mem s (shape <$> ops); kw_call ord L sharing x ops) = kw_contract ord L sharing kw use_blas opt mem s ops.
Proof.
  intros Hne Hpl Hs Hwf Ho1 Ho2 Hev Hout Hb. unfold kw_expression, kw_contract. rewrite !kw_get_notin, !(kw_del_notin (lit "backend")), !(kw_del_notin (lit "out")) by done.
  rewrite decide_False by (intros [H|H]; by apply H). destruct opt as [|[|s0 p]|f]; [done|done|..].
  all: destruct (contract_path ord use_blas _ mem s (shape <$> ops)) as [info|er] eqn:E; [|done]; cbn [mbind res_bind]; unfold kw_call; cbn [ke_num ke_kw ke_list].
  all: rewrite (render_commas e s Hpl Hne Hs), (wf_count _ _ Hwf), fmap_length, Nat.eqb_refl; cbn [negb]; by rewrite decide_False.
Qed.
Print Assumptions C64_expression.
Theorem C64_expression_refuses (kw : kwargs) (ord : gset N -> list N) (use_blas : bool) (opt : optimize_arg) (mem : memory_arg) (s : str) (shapes : list (list nat)) (name : str) (v : kwval) :
  kw_dict kw -> name = lit "out" \/ name = lit "backend" -> (name, v) ∈ kw -> v <> VNone -> kw_expression ord kw use_blas opt mem s shapes = Err ValueError.
Proof.
  intros Hd Hn Hin Hv. assert (Hg : kw_get name VNone kw = v).
  { destruct (kw_split name kw Hd) as [[H _]|(v' & H1 & H2)]; [exfalso; apply H; by apply (elem_of_list_fmap_1 fst) in Hin|]. rewrite H1. rewrite H2 in Hin. apply elem_of_cons in Hin as [Hin|Hin]; [by injection Hin|].
    apply elem_of_list_filter in Hin as [Hin _]. by destruct Hin. }
  unfold kw_expression. destruct opt as [|[|s0 p]|f]; [done|done|..]; rewrite decide_True; try done; destruct Hn as [-> | ->]; [left|right|left|right]; by rewrite Hg.
Qed.
Print Assumptions C64_expression_refuses.
(** [contract_path] takes no further keyword arguments. *)
Theorem C64_path (kw : kwargs) (ord : gset N -> list N) (use_blas : bool) (opt : optimize_arg) (mem : memory_arg) (s : str) (shapes : list (list nat)) (name : str) (v : kwval) :
  (name, v) ∈ kw -> name <> lit "einsum_call" -> kw_path ord kw use_blas opt mem s shapes = Err TypeError.
Proof.
  intros Hin Hn. unfold kw_path. rewrite decide_True; [done|]. intros E. assert (H : (name, v) ∈ kw_del (lit "einsum_call") kw) by by apply elem_of_list_filter. rewrite E in H. by apply elem_of_nil in H.
Qed.
Print Assumptions C64_path.
(** ... but [einsum_call]. *)
Theorem C64_path_known (kw : kwargs) (ord : gset N -> list N) (use_blas : bool) (opt : optimize_arg) (mem : memory_arg) (s : str) (shapes : list (list nat)) :
  (forall name v, (name, v) ∈ kw -> name = lit "einsum_call") -> kw_path ord kw use_blas opt mem s shapes = contract_path ord use_blas opt mem s shapes.
Proof.
  intros H. unfold kw_path. rewrite decide_False; [done|]. intros Hn. apply Hn. unfold kw_del. destruct (filter _ kw) as [|[name v] l] eqn:E; [done|].
  assert (Hin : (name, v) ∈ filter (fun p => p.1 <> lit "einsum_call") kw) by (rewrite E; left). apply elem_of_list_filter in Hin as [Hne Hin]. destruct Hne. by apply (H name v).
Qed.
Print Assumptions C64_path_known.
Example C64_path_instance : let f kw := (info ← kw_path ord0 kw true (OPath [[0; 1]]) MNone (lit "ab,bc->ac") [[2; 3]; [3; 4]]; Ok (pi_path info)) in
  f [(lit "einsum_call", VObj 1)] = Ok [[0; 1]] /\ f [] = Ok [[0; 1]] /\ f [(lit "einsum_call", VObj 1); (lit "dtype", VNone)] = Err TypeError.
Proof. by vm_compute. Qed.

(** A library for examples: a dtype makes every entry 0 or 1. *)
Definition kw_lib0 : kwlib nat_semiring :=
  let R := ref_backend nat_semiring true in
  KwLib true (fun kw s ops => T ← b_einsum R s ops; Ok (if bool_decide (lit "dtype" ∈ kw.*1) then Tensor (shape T) (fun cs => if decide (get T cs = 0) then 0 else 1 : nat_semiring) else T)) (b_tensordot R) (b_transpose R).
Lemma kw_lib0_unordered : kw_unordered kw_lib0.
Proof. intros kw kw' H. simpl. assert (E : lit "dtype" ∈ kw.*1 <-> lit "dtype" ∈ kw'.*1) by by rewrite H. by rewrite (bool_decide_ext _ _ E). Qed.
Definition kw_dtype : kwargs := [(lit "order", VStr (lit "K")); (lit "dtype", VObj 0)].
Definition kw_ops : list (tensor nat_semiring) := [arr [2; 2] ([1; 2; 3; 0] : list nat_semiring); arr [2; 2] ([5; 0; 0; 8] : list nat_semiring)].
Definition data (r : res (tensor nat_semiring)) : option (list nat * list nat) := match r with Ok T => Some (shape T, entries T) | Err _ => None end.
(** ab,ab->ab is an einsum: the keywords arrive. *)
Example C64_instance :
  kw_dict kw_dtype /\ kw_unordered kw_lib0 /\ lit "evaluate_constants" ∉ kw_dtype.*1 /\
  data (kw_contract ord0 kw_lib0 false kw_dtype true (OPath [[0; 1]]) MNone (lit "ab,ab->ab") kw_ops) = Some ([2; 2], [1; 0; 0; 0]) /\
  data (kw_contract ord0 kw_lib0 false [] true (OPath [[0; 1]]) MNone (lit "ab,ab->ab") kw_ops) = Some ([2; 2], [5; 0; 0; 0]) /\
  data (kw_contract ord0 kw_lib0 false kw_dtype false (OPath [[0; 1]]) MNone (lit "ab,bc->ac") kw_ops) = Some ([2; 2], [1; 1; 1; 0]).
Proof.
  split; [apply (bool_decide_unpack (NoDup kw_dtype.*1)); by vm_compute|]. split; [apply kw_lib0_unordered|]. split; [apply (bool_decide_unpack _); by vm_compute|]. by vm_compute.
Qed.

(** The full statement fails: for a matrix product the same call raises a TypeError, even if all it says is a default ... *)
Theorem C64_tensordot_refuted : exists (s : str) (ops : list (tensor nat_semiring)) (kw : kwargs) (p : path) T,
  Forall default_kw kw /\ kw_contract ord0 kw_lib0 false [] true (OPath p) MNone s ops = Ok T /\ kw_contract ord0 kw_lib0 false kw true (OPath p) MNone s ops = Err TypeError.
Proof. exists (lit "ab,bc->ac"), kw_ops, [(lit "order", VStr (lit "K"))], [[0; 1]]. eexists. split; [repeat constructor; by left|]. split; [vm_compute; reflexivity|]. by vm_compute. Qed.
Print Assumptions C64_tensordot_refuted.
(** ... whether it does depends on the path; ... *)
Theorem C64_path_dependent_refuted : exists (s : str) (ops : list (tensor nat_semiring)) (kw : kwargs) (p p' : path) T,
  complete (length ops) p /\ complete (length ops) p' /\ kw_contract ord0 kw_lib0 false kw true (OPath p) MNone s ops = Ok T /\ kw_contract ord0 kw_lib0 false kw true (OPath p') MNone s ops = Err TypeError.
Proof.
  exists (lit "ab,bc,cd->ad"), (kw_ops ++ take 1 kw_ops), kw_dtype, [[0; 1; 2]], [[0; 1]; [0; 1]]. eexists. split; [apply complete_check; by vm_compute|]. split; [apply complete_check; by vm_compute|].
  split; [vm_compute; reflexivity|]. by vm_compute.
Qed.
Print Assumptions C64_path_dependent_refuted.
(** ... and in a sharing context keyword arguments are not passed on: the dtype asked for is ignored. *)
Theorem C64_sharing_refuted : exists (s : str) (ops : list (tensor nat_semiring)) (kw : kwargs) (p : path),
  data (kw_contract ord0 kw_lib0 false kw true (OPath p) MNone s ops) = Some ([2; 2], [1; 0; 0; 0]) /\ data (kw_contract ord0 kw_lib0 true kw true (OPath p) MNone s ops) = Some ([2; 2], [5; 0; 0; 0]).
Proof. exists (lit "ab,ab->ab"), kw_ops, kw_dtype, [[0; 1]]. by vm_compute. Qed.
Print Assumptions C64_sharing_refuted.
