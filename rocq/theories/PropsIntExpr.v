(** Property C66 for expressions with constants: explicit paths of any integers; statements, each with a concrete instance. *)
From Verif Require Import Prelude Einsum EinsumFacts EinsumOps Parser Helpers Contract Spec PathSpec StringFacts StepFacts ContractFacts PathFacts RefBackend PropsContract Expression ExprSpec ExprFacts ExprMain IntPath IntPathSpec IntPathFacts PropsInts.

Section Nat.
  Context {K : semiring}.
  Variables (ord : gset N -> list N) (B : backend K).
  Lemma z_any_none_nat inds (ops : list (option (tensor K))) : z_any_none (Z.of_nat <$> inds) ops = any_none inds ops.
  Proof.
    induction inds as [|i inds IH]; [done|]. rewrite fmap_cons. cbn [z_any_none any_none]. rewrite py_index_nat. case_decide as Hi.
    - cbn [of_opt mbind res_bind]. by rewrite IH.
    - cbn [of_opt mbind res_bind]. by rewrite (lookup_ge_None_2 ops i) by lia.
  Qed.
  Lemma z_core_constants_nat cl : forall ops : list (option (tensor K)), z_core_constants ord B ops (lift_contraction <$> cl) = res_map (fun r => (r.1, lift_contraction <$> r.2)) (core_constants ord B ops cl).
  Proof.
    induction cl as [|c cl IH]; intros ops; [done|]. rewrite fmap_cons. cbn [z_core_constants core_constants]. 
    assert (E : (lift_contraction c).1 = Z.of_nat <$> c_inds c /\ c_blas (lift_contraction c).2 = c_blas c /\ c_eq (lift_contraction c).2 = c_eq c /\ c_rm (lift_contraction c).2 = c_rm c) by done.
    destruct E as (-> & -> & -> & ->). rewrite z_any_none_nat. destruct (any_none (c_inds c) ops) as [[|]|]; [done| |done]. cbn [mbind res_bind]. rewrite zpops_nat. destruct (pops (c_inds c) ops) as [[tmp rest]|]; [|done]. cbn [mbind res_bind].
    destruct (mapM_res _ tmp) as [tmp'|]; [|done]. cbn [mbind res_bind]. destruct (if use_tensordot B (c_blas c) then _ else _) as [v|]; [|done]. cbn [mbind res_bind]. apply IH.
  Qed.
End Nat.
(** Non-negative positions, repeated or not: the call is that of the expressions of the other properties (C30, C31), errors included. *)
Theorem C66_expression_non_negative (K : semiring) (lib : str -> library K) (b : str) (np : bool) (ord : gset N -> list N) (use_blas : bool) (p : path) (mem : memory_arg) (s : str)
    (args : list (operand_arg K)) (constants : list nat) (arrays : list (tensor K)) : l_convert (lib b) = false ->
  z_expression_call ord (l_funs (lib b)) use_blas (fmap (M:=list) Z.of_nat <$> p) mem s args constants arrays =
  (x ← contract_expression ord use_blas (OPath p) mem s args constants; (expr_call ord lib x b np arrays).2).
Proof.
  intros Hconv. destruct p as [|st p]; [done|]. unfold z_expression_call, contract_expression. rewrite fmap_cons. destruct (constants_dict args constants) as [m|]; [|done]. cbn [mbind res_bind].
  rewrite <-fmap_cons. unfold z_contract_path, contract_path, contract_path_parsed. destruct (parse_einsum_input s (arg_shape <$> args)) as [[inp out]|]; [|done]. cbn [mbind res_bind].
  destruct (build_size_dict _ _) as [d|]; [|done]. cbn [mbind res_bind]. destruct (mapM_res _ (split s_comma inp ++ [out])) as [sl|]; [|done]. cbn [mbind res_bind].
  destruct (choose_memory_arg mem sl) as [mm|]; [|done]. cbn [mbind res_bind]. destruct (flop_count _ _ _ _); [|done]. cbn [mbind res_bind compute_path].
  rewrite z_loop_nat. destruct (cp_loop _ _ _ _ _ _ _ _) as [steps|]; [|done]. cbn [mbind res_bind res_map]. destruct (mapM_res _ (split s_comma inp)); [|done]. cbn [mbind res_bind pi_contractions].
  assert (E : fst <$> map lift_step steps = lift_contraction <$> (fst <$> steps)) by (change (map lift_step steps) with (lift_step <$> steps); rewrite <-!list_fmap_compose; done).
  rewrite E. unfold expr_call. cbn [x_num x_constants]. destruct (negb _); [done|]. unfold z_core_contract. case_decide as Hm.
  - unfold run_expression, core_contract. rewrite Hconv. cbn [andb snd]. by rewrite <-(z_core_nat ord (l_funs (lib b))).
  - unfold get_evaluated. cbn [x_evaluated]. rewrite lookup_empty. unfold evaluate_constants. cbn [x_num x_constants x_full x_evaluated]. rewrite Hconv, z_core_constants_nat.
    destruct (core_constants _ _ _ _) as [[ops cl]|]; [|done]. cbn [mbind res_bind res_map fst snd x_evaluated]. rewrite lookup_insert. cbn [of_opt mbind res_bind snd].
    destruct (fill ops arrays) as [ops'|]; [|done]. cbn [mbind res_bind]. unfold run_expression, core_contract. rewrite Hconv. cbn [andb x_list]. by rewrite <-(z_core_nat ord (l_funs (lib b))).
Qed.
Print Assumptions C66_expression_non_negative.

(** With any integers: if the first call of an expression with constants returns a value, it is the value [contract] returns on all operands. *)
Section Value.
  Context {K : semiring}.
  Notation tens := (tensor K).
  Variables (ord : gset N -> list N) (B : backend K).
  Lemma fill_exact (constants : list nat) (m : gmap nat tens) (ops : list tens) : forall i,
    (forall j o, ops !! j = Some o -> i + j ∈ constants -> m !! (i + j) = Some o) -> (forall j, j ∉ constants -> m !! j = None) ->
    fill ((fun j => m !! j) <$> seq i (length ops)) (given_from i constants ops) = Ok ops.
  Proof.
    induction ops as [|o ops IH]; intros i Hm Hn; [done|]. cbn [length seq given_from]. rewrite fmap_cons.
    assert (H : fill ((fun j => m !! j) <$> seq (S i) (length ops)) (given_from (S i) constants ops) = Ok ops).
    { apply IH; [|done]. intros j o' Hj Hi. replace (S i + j) with (i + S j) in * by lia. by apply (Hm (S j)). }
    case_decide as Hi.
    - pose proof (Hm 0 o eq_refl) as H0. rewrite Nat.add_0_r in H0. rewrite (H0 Hi). cbn [fill]. by rewrite H.
    - rewrite (Hn i Hi). cbn [fill]. by rewrite H.
  Qed.
  Lemma zpops_const is_ : forall (ops : list (option tens)) arrays merged tmp rest tmp', fill ops arrays = Ok merged -> zpops is_ ops = Ok (tmp, rest) -> mapM_res (of_opt TypeError) tmp = Ok tmp' ->
    exists restm, zpops is_ merged = Ok (tmp', restm) /\ fill rest arrays = Ok restm.
  Proof.
    induction is_ as [|i is_ IH]; intros ops arrays merged tmp rest tmp' Hf Hp Hm; cbn [zpops] in *.
    - apply Ok_inj in Hp as [= <- <-]. cbn in Hm. apply Ok_inj in Hm as <-. eauto.
    - apply bind_Ok in Hp as ([x ops'] & Hx & Hp). apply bind_Ok in Hp as ([xs ops''] & Hxs & Hp). apply Ok_inj in Hp as [= <- <-]. cbn [mapM_res] in Hm.
      apply bind_Ok in Hm as (y & Hy & Hm). apply bind_Ok in Hm as (ys & Hys & Hm). apply Ok_inj in Hm as <-. destruct x as [x|]; [|done]. apply Ok_inj in Hy as <-.
      unfold zpop in *. apply bind_Ok in Hx as (k & Hk & Hx). rewrite <-(fill_length _ _ _ Hf) in Hk. rewrite Hk. cbn [mbind res_bind]. unfold pop_at in *.
      destruct (ops !! k) as [o|] eqn:Eo; [|done]. apply Ok_inj in Hx as [= -> <-]. rewrite (fill_lookup _ _ _ _ _ Hf Eo). cbn [mbind res_bind].
      destruct (IH _ _ _ _ _ _ (fill_delete _ _ _ _ _ Hf Eo) Hxs Hys) as (restm & H1 & H2). exists restm. by rewrite H1.
  Qed.
  Lemma z_prepass cl : forall ops arrays merged ops' cl' merged', fill ops arrays = Ok merged -> z_core_constants ord B ops cl = Ok (ops', cl') -> fill ops' arrays = Ok merged' ->
    foldM_res (z_core_step ord B) merged cl = foldM_res (z_core_step ord B) merged' cl'.
  Proof.
    induction cl as [|c cl IH]; intros ops arrays merged ops' cl' merged' Hf Hc Hf'; cbn [z_core_constants] in Hc; [done|].
    apply bind_Ok in Hc as (stop & _ & Hc). destruct stop; [apply Ok_inj in Hc as [= <- <-]; congruence|].
    apply bind_Ok in Hc as ([tmp rest] & Hp & Hc). apply bind_Ok in Hc as (tmp' & Hm & Hc). apply bind_Ok in Hc as (v & Hv & Hc).
    destruct (zpops_const _ _ _ _ _ _ _ Hf Hp Hm) as (restm & H1 & H2). 
    assert (Hs : z_core_step ord B merged c = Ok (restm ++ [v])) by (unfold z_core_step; rewrite H1; cbn [mbind res_bind]; rewrite Hv; done).
    cbn [foldM_res]. rewrite Hs. cbn [mbind res_bind].
    apply (IH (rest ++ [Some v]) arrays (restm ++ [v]) ops' cl' merged'); [|done|done]. by apply fill_app.
  Qed.
End Value.
Theorem C66_expression_value_partial (K : semiring) (B : backend K) (ord : gset N -> list N) (use_blas : bool) (p : zpath) (mem : memory_arg) (s : str) (args : list (operand_arg K)) (constants : list nat) (ops : list (tensor K)) T :
  arg_shape <$> args = shape <$> ops -> agrees args constants ops -> length ops = count c_comma s + 1 ->
  z_expression_call ord B use_blas p mem s args constants (given constants ops) = Ok T -> z_contract ord B use_blas p mem s ops = Ok T.
Proof.
  intros Hsh Hag Hlen H. unfold z_expression_call in H. destruct p as [|st p]; [done|]. apply bind_Ok in H as (m & Hm & H). apply bind_Ok in H as (steps & Hst & H).
  rewrite Hsh in Hst. unfold z_contract. rewrite Hst. cbn [mbind res_bind]. destruct (negb _); [done|]. pose proof (constants_dict_ok _ _ _ Hm) as Hd.
  case_decide as Hm0.
  - assert (Hg : given constants ops = ops); [|by rewrite Hg in H]. destruct constants as [|i constants]; [apply given_nil|]. destruct (proj1 (Hd i) ltac:(left)) as (T' & _ & HT'). by rewrite Hm0, lookup_empty in HT'.
  - apply bind_Ok in H as ([ops1 cl1] & Hcc & H). apply bind_Ok in H as (merged & Hf & H). rewrite <-Hlen in Hcc. unfold z_core_contract in *.
    rewrite (z_prepass ord B (fst <$> steps) ((fun i => m !! i) <$> seq 0 (length ops)) (given constants ops) ops ops1 cl1 merged); [done| |done|done]. apply fill_exact; [|intros j; apply Hd].
    intros j o Hj Hi. cbn [Nat.add] in *. destruct (Hag j Hi) as (T' & Ha & Ho). destruct (proj1 (Hd j) Hi) as (T2 & Ha2 & Hm2). congruence.
Qed.
Print Assumptions C66_expression_value_partial.
(** The equation of the refutation with the path [(-1, 1), (0, 1)]: the first step takes out the two constants (position 1, then the last). *)
Example C66_expression_instance :
  let a := arr [2; 3] (seq 1 6 : list nat_semiring) in let b := arr [3; 2] (seq 1 6 : list nat_semiring) in let c := arr [2; 2] (seq 1 4 : list nat_semiring) in
  let args := [AShape (shape a); AArray b; AArray c] in
  arg_shape <$> args = shape <$> [a; b; c] /\ agrees args [1; 2] [a; b; c] /\ length [a; b; c] = count c_comma (lit "ab,bc,cd->ad") + 1 /\ given [1; 2] [a; b; c] = [a] /\
  match z_expression_call ord0 (ref_backend nat_semiring true) true [[-1; 1]; [0; 1]]%Z MNone (lit "ab,bc,cd->ad") args [1; 2] [a] with
  | Ok T => (shape T, entries T) = ([2; 2], [106; 156; 241; 354]) | Err _ => False end /\
  match z_expression_call ord0 (ref_backend nat_semiring true) true [[1; 2]; [0; 1]]%Z MNone (lit "ab,bc,cd->ad") args [1; 2] [a] with
  | Ok T => (shape T, entries T) = ([2; 2], [106; 156; 241; 354]) | Err _ => False end.
Proof.
  split; [done|]. split; [|split; [by vm_compute|split; [by vm_compute|split; by vm_compute]]].
  intros i Hi. apply elem_of_cons in Hi as [-> |Hi]; [eexists; done|]. apply elem_of_list_singleton in Hi as ->. eexists. done.
Qed.
