(** Property C84: positions of constants; statements, each with a concrete instance. *)
From Verif Require Import Prelude Einsum EinsumFacts Parser Helpers Contract Spec PathSpec ParseSpec TopFacts ContractMain Expression ExprSpec ExprFacts ExprMain IntPath ExprIndex ContractFacts RefBackend PropsContract PropsExpr.

Section Missing.
  Context {K : semiring}.
  Notation tens := (tensor K).
  Variable ord : gset N -> list N.
  Variable lib : str -> library K.
  Implicit Types (ops : list (option tens)) (x : expression K) (d : gmap Z (operand_arg K)).
  (** How many operands are missing. *)
  Fixpoint missing ops : nat := match ops with [] => 0 | None :: ops => S (missing ops) | Some _ :: ops => missing ops end.
  Lemma missing_app ops ops' : missing (ops ++ ops') = missing ops + missing ops'.
  Proof. induction ops as [|[o|] ops IH]; simpl; lia. Qed.
  Lemma missing_pop ops i (o : option tens) : ops !! i = Some o -> missing ops = missing [o] + missing (delete i ops).
  Proof.
    revert i. induction ops as [|p ops IH]; intros i H; [done|]. destruct i as [|i]; [cbn in H; injection H as ->; by destruct o|].
    change (delete (S i) (p :: ops)) with (p :: delete i ops). specialize (IH i H). destruct p, o; cbn [missing] in *; lia.
  Qed.
  Lemma missing_pops inds : forall ops tmp rest, pops inds ops = Ok (tmp, rest) -> missing ops = missing tmp + missing rest.
  Proof.
    induction inds as [|i inds IH]; intros ops tmp rest H; cbn [pops] in H; [by simplify_eq|].
    unfold pop_at in H. destruct (ops !! i) as [o|] eqn:E; [|done]. cbn [mbind res_bind] in H. destruct (pops inds (delete i ops)) as [[tmp' rest']|] eqn:E'; [|done]. cbn [mbind res_bind] in H. simplify_eq.
    rewrite (missing_pop _ _ _ E), (IH _ _ _ E'). cbn. destruct o; lia.
  Qed.
  Lemma missing_all ops l : mapM_res (of_opt TypeError) ops = Ok l -> missing ops = 0.
  Proof.
    revert l. induction ops as [|[o|] ops IH]; intros l H; cbn in H; [done| |done]. destruct (mapM_res (of_opt TypeError) ops) as [l'|] eqn:E; [|done]. by apply (IH l').
  Qed.
  Lemma missing_fmap (f : tens -> tens) ops : missing (fmap (M:=option) f <$> ops) = missing ops.
  Proof. induction ops as [|[o|] ops IH]; [done|exact IH|exact (f_equal S IH)]. Qed.
  Lemma missing_constants B ops cl ops' cl' : core_constants ord B ops cl = Ok (ops', cl') -> missing ops' = missing ops.
  Proof.
    revert ops. induction cl as [|c cl IH]; intros ops H; cbn [core_constants] in H; [done|].
    destruct (any_none (c_inds c) ops) as [[|]|]; cbn [mbind res_bind] in H; [by simplify_eq| |done].
    destruct (pops (c_inds c) ops) as [[tmp rest]|] eqn:E; cbn [mbind res_bind] in H; [|done].
    destruct (mapM_res (of_opt TypeError) tmp) as [tmp'|] eqn:E'; cbn [mbind res_bind] in H; [|done].
    destruct (use_tensordot B (c_blas c)); [destruct (run_tensordot _ _ _ _ _) as [v|]|destruct (run_einsum _ _ _) as [v|]]; cbn [mbind res_bind] in H; try done.
    all: rewrite (IH _ H), missing_app, (missing_pops _ _ _ _ E), (missing_all _ _ E'); cbn; lia.
  Qed.
  Lemma missing_fill ops arrays : length arrays < missing ops -> fill ops arrays = Err StopIteration.
  Proof.
    revert arrays. induction ops as [|[o|] ops IH]; intros arrays H; cbn in H |- *; [lia|by rewrite IH|]. destruct arrays as [|a arrays]; [done|]. cbn in H. rewrite IH by lia. done.
  Qed.

  (** At least [k] operands are missing from every list of evaluated constants. *)
  Definition lacking (k : nat) x : Prop :=
    k <= missing ((fun i => x_constants x !! i) <$> seq 0 (x_num x)) /\ forall b ops, x_evaluated x !! b = Some ops -> k <= missing ops.
  Lemma lacking_evaluate k x b x' : lacking k x -> evaluate_constants ord lib x b = Ok x' -> lacking k x' /\ x_num x' = x_num x.
  Proof.
    intros [H1 H2] H. unfold evaluate_constants in H. cbn zeta in H.
    match type of H with context [core_constants ord ?B ?t ?c] => destruct (core_constants ord B t c) as [[ops cl]|] eqn:E; cbn [mbind res_bind] in H; [|done] end.
    simplify_eq. apply missing_constants in E. split; [|done]. split; [done|]. cbn [x_evaluated]. intros b' ops' Hb'. apply lookup_insert_Some in Hb' as [[-> ->]|[_ Hb']]; [|by eapply H2].
    rewrite E. destruct (l_convert (lib b')); [by rewrite missing_fmap|done].
  Qed.
  Lemma lacking_get k x b x' ops : lacking k x -> get_evaluated ord lib x b = Ok (x', ops) -> lacking k x' /\ x_num x' = x_num x /\ k <= missing ops.
  Proof.
    intros Hl H. unfold get_evaluated in H. destruct (x_evaluated x !! b) as [o|] eqn:E; [simplify_eq; split; [done|]; split; [done|]; by eapply (proj2 Hl)|].
    destruct (evaluate_constants ord lib x b) as [y|] eqn:Ey; cbn [mbind res_bind] in H; [|done]. destruct (x_evaluated y !! b) as [o|] eqn:E'; cbn in H; [|done]. simplify_eq.
    destruct (lacking_evaluate _ _ _ _ Hl Ey) as [Hl' Hn]. split; [done|]. split; [done|]. by eapply (proj2 Hl').
  Qed.
  Lemma lacking_call k x d b np arrays : lacking k x -> d <> ∅ -> x_num x < k + size d ->
    lacking k (zx (z_call ord lib (ZExpression x d) b np arrays).1) /\ zx_dict (z_call ord lib (ZExpression x d) b np arrays).1 = d /\ x_num (zx (z_call ord lib (ZExpression x d) b np arrays).1) = x_num x /\
    exists er, (z_call ord lib (ZExpression x d) b np arrays).2 = Err er.
  Proof.
    intros Hl Hd Hk. unfold z_call. cbn [zx zx_dict]. destruct (negb _) eqn:En; cbn [fst snd zx zx_dict]; [eauto|]. rewrite decide_False by done.
    destruct (get_evaluated ord lib x b) as [[x' ops]|er] eqn:E; cbn [fst snd zx zx_dict]; [|eauto]. destruct (lacking_get _ _ _ _ _ Hl E) as (Hl' & Hn & Hm).
    split; [done|]. split; [done|]. split; [done|]. apply negb_false_iff, Nat.eqb_eq in En. rewrite missing_fill by lia. by eexists.
  Qed.

  Lemma missing_bound (m : gmap nat tens) (l : list nat) : missing ((fun i => m !! i) <$> l) + length (filter (fun i => is_Some (m !! i)) l) = length l.
  Proof. induction l as [|i l IH]; [done|]. rewrite filter_cons. cbn. destruct (m !! i) eqn:E; [rewrite decide_True by eauto|rewrite decide_False by (intros [? ?]; done)]; cbn; lia. Qed.
  Lemma found_key d n i : is_Some (found d n !! i) -> is_Some (d !! Z.of_nat i).
  Proof.
    intros [T HT]. unfold found in HT. apply elem_of_list_to_map_2, elem_of_list_omap in HT as (j & _ & Hj). destruct (d !! Z.of_nat j) as [[|T']|] eqn:E; [done| |done]. simplify_eq. eauto.
  Qed.
  Lemma found_lacking d n z : is_Some (d !! z) -> (z < 0)%Z -> n + 1 <= missing ((fun i => found d n !! i) <$> seq 0 n) + size d.
  Proof.
    intros Hz Hneg. pose proof (missing_bound (found d n) (seq 0 n)) as H. rewrite seq_length in H.
    assert (Hs : S (length (filter (fun i => is_Some (found d n !! i)) (seq 0 n))) <= size d); [|lia].
    rewrite <-size_dom. set (F := filter _ _). transitivity (length (z :: (Z.of_nat <$> F))); [cbn; rewrite fmap_length; lia|].
    apply (submseteq_length (z :: (Z.of_nat <$> F)) (elements (dom d))), NoDup_submseteq.
    - constructor; [intros (i & -> & _)%elem_of_list_fmap; lia|]. apply NoDup_fmap_2; [intros i j; lia|]. apply NoDup_filter, NoDup_seq.
    - intros y [->|(i & -> & Hi)%elem_of_list_fmap]%elem_of_cons; apply elem_of_elements, elem_of_dom; [done|]. apply elem_of_list_filter in Hi as [Hi _]. by eapply found_key.
  Qed.
  Lemma z_constants_keys args constants d : z_constants args constants = Ok d -> forall z, is_Some (d !! z) <-> z ∈ constants.
  Proof.
    unfold z_constants. enough (H : forall d0, foldM_res (fun m i => a ← of_opt IndexError (k ← py_index (length args) i; args !! k); Ok (<[i := a]> m)) d0 constants = Ok d ->
      forall z, is_Some (d !! z) <-> is_Some (d0 !! z) \/ z ∈ constants).
    { intros Hd z. rewrite (H _ Hd z), lookup_empty. split; [intros [[? ?]|?]; done|by right]. }
    induction constants as [|i constants IH]; intros d0 Hd z; cbn [foldM_res] in Hd; [simplify_eq; rewrite elem_of_nil; tauto|].
    destruct (of_opt IndexError _) as [a|]; cbn [mbind res_bind] in Hd; [|done]. rewrite (IH _ Hd z), elem_of_cons. destruct (decide (z = i)) as [->|Hne].
    - rewrite lookup_insert. split; [tauto|]. intros _. left. eauto.
    - rewrite lookup_insert_ne by done. tauto.
  Qed.
End Missing.

(** The expression after a history of calls and evaluations of its constants. *)
Definition z_event {K : semiring} (ord : gset N -> list N) (lib : str -> library K) (x : z_expression K) (ev : event K) : z_expression K :=
  match ev with
  | ECall b np arrays => (z_call ord lib x b np arrays).1
  | EEval b => match evaluate_constants ord lib (zx x) b with Ok y => ZExpression y (zx_dict x) | Err _ => x end
  end.
Definition z_after {K : semiring} (ord : gset N -> list N) (lib : str -> library K) (x : z_expression K) (h : list (event K)) : z_expression K := foldl (z_event ord lib) x h.

Section Front.
  Context {K : semiring}.
  Notation tens := (tensor K).
  Variable ord : gset N -> list N.
  Variable lib : str -> library K.
  Implicit Types (x y : expression K) (d : gmap Z (operand_arg K)).
  Lemma found_lookup d n i : found d n !! i = if decide (i < n) then match d !! Z.of_nat i with Some (AArray T) => Some T | _ => None end else None.
  Proof.
    unfold found. set (f := fun j : nat => _). assert (Hin : forall j T, (j, T) ∈ omap f (seq 0 n) <-> j < n /\ d !! Z.of_nat j = Some (AArray T)).
    { intros j T. rewrite elem_of_list_omap. unfold f. split.
      - intros (k & Hk%elem_of_seq & Hf). destruct (d !! Z.of_nat k) as [[|T']|] eqn:E; [done| |done]. simplify_eq. split; [lia|done].
      - intros [Hj E]. exists j. split; [apply elem_of_seq; lia|]. by rewrite E. }
    assert (Hno : (forall T, ~ (i < n /\ d !! Z.of_nat i = Some (AArray T))) -> (list_to_map (omap f (seq 0 n)) : gmap nat tens) !! i = None).
    { intros H. apply not_elem_of_list_to_map_1. intros ([j T] & -> & Hj)%elem_of_list_fmap. apply Hin in Hj. by eapply H. }
    case_decide as Hi; [|apply Hno; intros T [? _]; done]. destruct (d !! Z.of_nat i) as [[sh|T]|] eqn:E; [apply Hno; by intros ? [_ ?]| |apply Hno; by intros ? [_ ?]].
    apply elem_of_list_to_map_1'; [|by apply Hin]. intros T' [_ HT']%Hin. congruence.
  Qed.
  Lemma z_constants_front (args : list (operand_arg K)) (constants : list nat) : (forall i, i ∈ constants -> i < length args) ->
    exists d, z_constants args (Z.of_nat <$> constants) = Ok d /\ forall i, (i ∈ constants -> d !! Z.of_nat i = args !! i) /\ (i ∉ constants -> d !! Z.of_nat i = None).
  Proof.
    unfold z_constants. intros Hc.
    enough (H : forall d0, (forall i, is_Some (d0 !! Z.of_nat i) -> d0 !! Z.of_nat i = args !! i) -> exists d, foldM_res (fun m i => a ← of_opt IndexError (k ← py_index (length args) i; args !! k); Ok (<[i := a]> m)) d0 (Z.of_nat <$> constants) = Ok d /\
      forall i, (i ∈ constants \/ is_Some (d0 !! Z.of_nat i) -> d !! Z.of_nat i = args !! i) /\ (i ∉ constants -> d !! Z.of_nat i = d0 !! Z.of_nat i)).
    { destruct (H ∅) as (d & Hd & Hi); [intros i; rewrite lookup_empty; by intros [? ?]|]. exists d. split; [done|]. intros i. destruct (Hi i) as [H1 H2]. split; [auto|]. intros Hn. by rewrite H2, lookup_empty. }
    induction constants as [|j constants IH]; intros d0 Hd0; [exists d0; split; [done|]; intros i; split; [|done]; intros [Hi|Hi]; [by apply elem_of_nil in Hi|by apply Hd0]|].
    assert (Hj : j < length args) by (apply Hc; left). destruct (lookup_lt_is_Some_2 _ _ Hj) as [a Ha]. cbn [fmap list_fmap foldM_res]. assert (py_index (length args) (Z.of_nat j) = Some j) as -> by (unfold py_index; rewrite decide_True by lia; by rewrite Nat2Z.id). cbn [mbind option_bind]. rewrite Ha. cbn [of_opt mbind res_bind].
    destruct (IH (fun i Hi => Hc i (elem_of_list_further _ _ _ Hi)) (<[Z.of_nat j := a]> d0)) as (d & Hd & Hi).
    { intros i. destruct (decide (i = j)) as [->|Hne]; [by rewrite lookup_insert|]. rewrite lookup_insert_ne by lia. apply Hd0. }
    exists d. split; [exact Hd|]. intros i. destruct (Hi i) as [H1 H2]. split.
    - intros Hor. apply H1. destruct (decide (i = j)) as [->|Hne]; [right; rewrite lookup_insert; eauto|]. rewrite lookup_insert_ne by lia. destruct Hor as [[->|?]%elem_of_cons|?]; [done|by left|by right].
    - intros [Hne Hn]%not_elem_of_cons. rewrite H2 by done. by rewrite lookup_insert_ne by lia.
  Qed.
  Lemma z_shapes_front as_shape (args : list (operand_arg K)) (constants : list nat) i0 : (forall j a, args !! j = Some a -> i0 + j ∈ constants <-> exists T, a = AArray T) ->
    z_shapes as_shape (Z.of_nat <$> constants) i0 args = Ok (arg_shape <$> args).
  Proof.
    revert i0. induction args as [|a args IH]; intros i0 H; [done|]. cbn [z_shapes fmap list_fmap].
    assert (Hz : Z.of_nat i0 ∈ Z.of_nat <$> constants <-> exists T, a = AArray T).
    { rewrite <-(H 0 a eq_refl), Nat.add_0_r. rewrite elem_of_list_fmap. split; [intros (k & ? & ?); by replace i0 with k by lia|eauto]. }
    assert (z_shape as_shape (Z.of_nat <$> constants) i0 a = Ok (arg_shape a)) as ->.
    { unfold z_shape. destruct a as [sh|T]; [rewrite decide_False; [done|]; intros Hi; apply Hz in Hi as [? ?]; done|rewrite decide_True by (apply Hz; eauto); done]. }
    cbn [mbind res_bind]. rewrite IH; [done|]. intros j b Hb. rewrite <-(H (S j) b Hb). by replace (S i0 + j) with (i0 + S j) by lia.
  Qed.
  Lemma evaluate_same x b y : evaluate_constants ord lib x b = Ok y -> x_constants y = x_constants x /\ x_num y = x_num x.
  Proof.
    intros H. unfold evaluate_constants in H. cbn zeta in H. match type of H with context [core_constants ord ?B ?t ?c] => destruct (core_constants ord B t c) as [[ops cl]|]; cbn [mbind res_bind] in H; [|done] end. by simplify_eq.
  Qed.
  Lemma front_call x d b np arrays : size d = size (x_constants x) -> size d <= x_num x ->
    z_call ord lib (ZExpression x d) b np arrays = (ZExpression (expr_call ord lib x b np arrays).1 d, (expr_call ord lib x b np arrays).2) /\
    x_constants (expr_call ord lib x b np arrays).1 = x_constants x /\ x_num (expr_call ord lib x b np arrays).1 = x_num x.
  Proof.
    intros Hs Hle. unfold z_call, expr_call. cbn [zx zx_dict].
    assert ((length arrays + size d =? x_num x) = (length arrays =? x_num x - size (x_constants x))) as ->.
    { rewrite <-Hs. destruct (length arrays =? x_num x - size d) eqn:E; [apply Nat.eqb_eq in E; apply Nat.eqb_eq; lia|apply Nat.eqb_neq in E; apply Nat.eqb_neq; lia]. }
    destruct (negb _); [done|]. destruct (decide (x_constants x = ∅)) as [E|E].
    - rewrite decide_True; [done|]. apply map_size_empty_inv. by rewrite Hs, E, map_size_empty.
    - rewrite decide_False; [|intros ->; apply E, map_size_empty_inv; by rewrite <-Hs, map_size_empty].
      destruct (get_evaluated ord lib x b) as [[y ops]|] eqn:Eg; [|done]. split; [done|]. cbn [fst]. unfold get_evaluated in Eg. destruct (x_evaluated x !! b); [by simplify_eq|].
      destruct (evaluate_constants ord lib x b) as [y'|] eqn:Ey; cbn [mbind res_bind] in Eg; [|done]. destruct (x_evaluated y' !! b); cbn in Eg; [|done]. simplify_eq. by eapply evaluate_same.
  Qed.
  Lemma front_after x d h : size d = size (x_constants x) -> size d <= x_num x ->
    z_after ord lib (ZExpression x d) h = ZExpression (after ord lib x h) d /\ x_constants (after ord lib x h) = x_constants x /\ x_num (after ord lib x h) = x_num x.
  Proof.
    revert x. unfold z_after, after. induction h as [|ev h IH]; intros x Hs Hle; [done|]. cbn [foldl]. destruct ev as [b np arrays|b]; cbn [z_event run_event zx zx_dict].
    - destruct (front_call x d b np arrays Hs Hle) as (-> & H1 & H2). cbn [fst]. rewrite <-H1, <-H2. apply IH; [by rewrite H1|by rewrite H2].
    - destruct (evaluate_constants ord lib x b) as [y|] eqn:E; [|by apply IH]. apply evaluate_same in E as [H1 H2]. rewrite <-H1, <-H2. apply IH; [by rewrite H1|by rewrite H2].
  Qed.
End Front.

(** C84.  A position outside of the list is an IndexError. *)
Theorem C84_out_of_range (K : semiring) (ord : gset N -> list N) (as_shape : tensor K -> res (list nat)) (use_blas : bool) (opt : optimize_arg) (mem : memory_arg) (s : str) (args : list (operand_arg K)) (constants : list Z) (z : Z) :
  opt <> OFalse -> opt <> OPath [] -> z ∈ constants -> (z < - Z.of_nat (length args) \/ Z.of_nat (length args) <= z)%Z ->
  z_contract_expression ord as_shape use_blas opt mem s args constants = Err IndexError.
Proof.
  intros H1 H2 Hz Hr. assert (H : z_constants args constants = Err IndexError).
  { unfold z_constants. generalize (∅ : gmap Z (operand_arg K)). induction constants as [|i constants IH]; intros d0; [by apply elem_of_nil in Hz|]. cbn [foldM_res]. destruct (decide (z = i)) as [<-|Hne].
    - unfold py_index. by rewrite !decide_False by lia.
    - destruct (py_index (length args) i ≫= _) as [a|]; [|done]. cbn [of_opt mbind res_bind]. apply IH. by apply elem_of_cons in Hz as [->|?]. }
  unfold z_contract_expression. rewrite H. destruct opt as [|[|]|]; done.
Qed.
Print Assumptions C84_out_of_range.

(** Positions from the front, an array at each of them and nowhere else: the expression of C31. *)
Theorem C84_from_the_front_partial (K : semiring) (ord : gset N -> list N) (as_shape : tensor K -> res (list nat)) (use_blas : bool) (opt : optimize_arg) (mem : memory_arg) (s : str) (args : list (operand_arg K)) (constants : list nat) :
  length args = count c_comma s + 1 -> (forall i, i ∈ constants <-> exists T, args !! i = Some (AArray T)) ->
  exists d, size d = length (remove_dups constants) /\
    z_contract_expression ord as_shape use_blas opt mem s args (Z.of_nat <$> constants) = (x0 ← contract_expression ord use_blas opt mem s args constants; Ok (ZExpression x0 d)) /\
    forall x0 lib h b np arrays, contract_expression ord use_blas opt mem s args constants = Ok x0 ->
      z_call ord lib (z_after ord lib (ZExpression x0 d) h) b np arrays = (ZExpression (expr_call ord lib (after ord lib x0 h) b np arrays).1 d, (expr_call ord lib (after ord lib x0 h) b np arrays).2).
Proof.
  intros Hlen Hc. assert (Hlt : forall i, i ∈ constants -> i < length args) by (intros i Hi; apply Hc in Hi as [T HT]; by eapply lookup_lt_Some).
  destruct (z_constants_front args constants Hlt) as (d & Hd & Hi). set (n := count c_comma s + 1) in *. pose proof (z_constants_keys _ _ _ Hd) as Hk.
  assert (Hm : exists m, constants_dict args constants = Ok m).
  { unfold constants_dict. generalize (∅ : gmap nat (tensor K)). assert (Hc' : forall i, i ∈ constants -> exists T, args !! i = Some (AArray T)) by (intros i; apply Hc). clear -Hc'. induction constants as [|j constants IH]; intros m0; [by eexists|].
    cbn [foldM_res]. destruct (Hc' j) as (T & HT); [left|]. rewrite HT. cbn [of_opt mbind res_bind]. apply IH. intros i Hi. apply Hc'. by right. }
  destruct Hm as [m Hm]. pose proof (constants_dict_ok args constants m Hm) as Hmi.
  assert (Hfm : found d n = m).
  { apply map_eq. intros i. rewrite found_lookup. destruct (Hi i) as [H1 H2], (Hmi i) as [H3 H4]. destruct (decide (i ∈ constants)) as [Hin|Hin].
    - destruct (H3 Hin) as (T & HT & HmT). rewrite decide_True by (rewrite <-Hlen; by apply Hlt). by rewrite (H1 Hin), HT, HmT.
    - rewrite (H2 Hin), (H4 Hin). by case_decide. }
  assert (Hsd : size d = length (remove_dups constants)).
  { rewrite <-size_dom. unfold size, set_size. cbn. rewrite <-(fmap_length Z.of_nat (remove_dups constants)). apply Permutation_length, NoDup_Permutation; [apply NoDup_elements|apply NoDup_fmap_2; [intros i j; lia|apply NoDup_remove_dups]|].
    intros z. rewrite elem_of_elements, elem_of_dom, Hk, !elem_of_list_fmap. split; intros (i & ? & Hx); exists i; (split; [done|]); revert Hx; by rewrite elem_of_remove_dups. }
  assert (Hsm : size d = size m).
  { rewrite Hsd, <-(size_dom m). unfold size, set_size. cbn. symmetry. apply Permutation_length, NoDup_Permutation; [apply NoDup_elements|apply NoDup_remove_dups|].
    intros i. rewrite elem_of_elements, elem_of_dom, elem_of_remove_dups. destruct (Hmi i) as [H3 H4]. split; [|intros Hx; destruct (H3 Hx) as (T & _ & ->); eauto]. intros [T HT]. destruct (decide (i ∈ constants)); [done|]. by rewrite H4 in HT. }
  assert (Hle : size d <= n).
  { rewrite Hsd, <-(seq_length n 0). apply submseteq_length, NoDup_submseteq; [apply NoDup_remove_dups|]. intros i Hx%elem_of_remove_dups%Hlt. apply elem_of_seq. lia. }
  assert (Hsh : z_shapes as_shape (Z.of_nat <$> constants) 0 args = Ok (arg_shape <$> args)).
  { apply z_shapes_front. intros j a Ha. cbn. rewrite Hc. split; intros [T HT]; exists T; congruence. }
  exists d. split; [done|]. split.
  - unfold z_contract_expression, contract_expression. rewrite Hd. cbn [mbind res_bind]. rewrite Hsh, Hm. cbn [mbind res_bind]. fold n. rewrite Hfm. destruct opt as [|[|]|]; try done; by destruct (contract_path _ _ _ _ _ _).
  - intros x0 lib h b np arrays Hx. assert (Hxm : x_constants x0 = m /\ x_num x0 = n).
    { unfold contract_expression in Hx. rewrite Hm in Hx. cbn [mbind res_bind] in Hx. fold n in Hx. destruct opt as [|[|]|]; try done; (destruct (contract_path _ _ _ _ _ _); cbn [mbind res_bind] in Hx; [|done]); by simplify_eq. }
    destruct Hxm as [<- Hn]. destruct (front_after ord lib x0 d h Hsm) as (-> & H1 & H2); [by rewrite Hn|]. by apply front_call; [rewrite H1|rewrite H2, Hn].
Qed.
Print Assumptions C84_from_the_front_partial.

(** With the arrays of the other positions, after any history, the call returns the Einstein sum of all operands (C31). *)
Theorem C84_value_partial (K : semiring) (ord : gset N -> list N) (as_shape : tensor K -> res (list nat)) (e : eqn) (s : str) (args : list (operand_arg K)) (constants : list nat)
    (ops0 : list (tensor K)) (use_blas : bool) (opt : optimize_arg) (mem : memory_arg) :
  (forall x, ord x ≡ₚ elements x) -> e_in e <> [] -> plain_eqn e -> filter (.≠ c_space) s = render e -> well_formed e (shape <$> ops0) ->
  arg_shape <$> args = shape <$> ops0 -> (forall i, i ∈ constants <-> exists T, args !! i = Some (AArray T)) ->
  let tops0 := zip (in_labels e (shape <$> ops0)) ops0 in
  good tops0 -> length (remove_dups (labels_of tops0)) <= 52 -> mem_valid mem -> strategy_ok opt (length ops0) ->
  exists x, z_contract_expression ord as_shape use_blas opt mem s args (Z.of_nat <$> constants) = Ok x /\
    forall (lib : str -> library K) (h : list (event K)) (b : str) (np : bool) ops, library_ok (lib b) -> b_has_einsum (l_funs (lib b)) = true -> shape <$> ops = shape <$> ops0 ->
      let tops := zip (in_labels e (shape <$> ops)) ops in
      good tops -> agrees args constants ops -> (constants = [] \/ exists i, i < length ops /\ i ∉ constants) ->
      exists T, (z_call ord lib (z_after ord lib x h) b np (given constants ops)).2 = Ok T /\ T ≡ₜ einsum tops (out_labels e (shape <$> ops)).
Proof.
  intros Ho Hne Hpl Hs Hwf Harg Hc tops0 Hg Hsz Hm Hst.
  destruct (C31_constants_partial K ord e s args constants ops0 use_blas opt mem Ho Hne Hpl Hs Hwf Harg (fun i => proj1 (Hc i)) Hg Hsz Hm Hst) as (x0 & Hx0 & Hcall).
  destruct (C84_from_the_front_partial K ord as_shape use_blas opt mem s args constants) as (d & _ & Hz & Hzc); [|done|].
  { rewrite (render_commas e s Hpl Hne Hs). pose proof (wf_count _ _ Hwf) as Hw. rewrite fmap_length in Hw. apply (f_equal length) in Harg. rewrite !fmap_length in Harg. lia. }
  exists (ZExpression x0 d). split; [by rewrite Hz, Hx0|]. intros lib h b np ops Hl He Hsh tops Hgt Ha Hex. rewrite (Hzc x0 lib h b np _ Hx0). cbn [snd].
  destruct (Hcall lib h b np) as [_ H]. apply H; try done; [|by left].
  unfold same_ranks. apply (f_equal (fmap length)) in Hsh. rewrite <-!list_fmap_compose in Hsh. clear -Hsh. revert ops0 Hsh.
  induction ops as [|o ops IH]; intros [|o0 ops0] Hsh; [constructor|done..|]. cbn in Hsh. injection Hsh as H1 H2. constructor; [done|]. by apply IH.
Qed.
Print Assumptions C84_value_partial.

(** A position counted from the end: if the expression is built at all, no call of it ever returns. *)
Theorem C84_never_called (K : semiring) (ord : gset N -> list N) (as_shape : tensor K -> res (list nat)) (lib : str -> library K) (use_blas : bool) (opt : optimize_arg) (mem : memory_arg) (s : str) (args : list (operand_arg K)) (constants : list Z) (z : Z) (x : z_expression K) :
  z ∈ constants -> (z < 0)%Z -> z_contract_expression ord as_shape use_blas opt mem s args constants = Ok x ->
  forall h b np arrays, exists er, (z_call ord lib (z_after ord lib x h) b np arrays).2 = Err er.
Proof.
  intros Hz Hneg Hx h b np arrays.
  assert (Hd : exists d i, z_constants args constants = Ok d /\ x = ZExpression (Expression i i (count c_comma s + 1) (found d (count c_comma s + 1)) ∅) d).
  { unfold z_contract_expression in Hx. destruct (z_constants args constants) as [d|]; [|by destruct opt as [|[|]|]].
    destruct (z_shapes as_shape constants 0 args) as [shs|]; [|by destruct opt as [|[|]|]]. cbn [mbind res_bind] in Hx. destruct opt as [|[|]|]; try done.
    all: match type of Hx with context [contract_path ?a ?b ?c ?d ?e ?f] => destruct (contract_path a b c d e f) as [info|]; [|done] end; cbn [mbind res_bind] in Hx; simplify_eq; eauto. }
  destruct Hd as (d & i & Hd & ->). pose proof (proj2 (z_constants_keys _ _ _ Hd z) Hz) as Hk. set (n := count c_comma s + 1) in *.
  set (k := missing ((fun j => found d n !! j) <$> seq 0 n)). pose proof (found_lacking d n z Hk Hneg) as Hb. fold k in Hb.
  assert (Hne : d <> ∅) by (intros ->; by destruct Hk).
  assert (Hinv : lacking k (zx (z_after ord lib (ZExpression (Expression i i n (found d n) ∅) d) h)) /\ zx_dict (z_after ord lib (ZExpression (Expression i i n (found d n) ∅) d) h) = d /\
    x_num (zx (z_after ord lib (ZExpression (Expression i i n (found d n) ∅) d) h)) = n).
  { assert (H0 : lacking k (Expression i i n (found d n) ∅)) by (split; [done|]; cbn; intros ? ?; by rewrite lookup_empty).
    assert (Hn : x_num (Expression i i n (found d n) ∅) = n) by done. revert H0 Hn. generalize (Expression i i n (found d n) (∅ : gmap str (list (option (tensor K))))). unfold z_after.
    induction h as [|ev h IH]; intros y H0 Hn; [done|]. cbn [foldl]. destruct ev as [b' np' arrays'|b']; cbn [z_event zx zx_dict].
    - destruct (lacking_call ord lib k y d b' np' arrays' H0 Hne) as (Ha & Hb' & Hc & _); [lia|]. destruct (z_call ord lib (ZExpression y d) b' np' arrays').1 as [y' d']. cbn [zx zx_dict] in *. subst d'. apply IH; [done|lia].
    - destruct (evaluate_constants ord lib y b') as [y'|] eqn:E; [|by apply IH]. destruct (lacking_evaluate ord lib _ _ _ _ H0 E) as [? ?]. apply IH; [done|lia]. }
  destruct (z_after _ _ _ _) as [y d']. cbn [zx zx_dict] in Hinv. destruct Hinv as (Hl & -> & Hn). by destruct (lacking_call ord lib k y d b np arrays Hl Hne) as (_ & _ & _ & He); [lia|].
Qed.
Print Assumptions C84_never_called.

(** Two operands with 'ab,b->a', the second, the vector (1), constant.  At position 1 the expression is built and works; at position -1, the
    same operand for Python, it is built as well (the vector is read as the shape (1,)) and no call of it ever returns. *)
Definition s84_as_shape (T : tensor nat_semiring) : res (list nat) := if decide (length (shape T) = 1) then Ok (entries T) else Err TypeError.
Definition s84_lib : str -> library nat_semiring := fun _ => Library (ref_backend nat_semiring true) false id id.
Definition s84_y : tensor nat_semiring := arr [1] ([1] : list nat_semiring).
Definition s84_args : list (operand_arg nat_semiring) := [AShape [2; 1]; AArray s84_y].
Definition s84_x : tensor nat_semiring := arr [2; 1] ([5; 7] : list nat_semiring).
Theorem C84_refuted : exists (s : str) (args : list (operand_arg nat_semiring)) (x x' : z_expression nat_semiring) (a : tensor nat_semiring),
  py_index (length args) (-1) = Some 1 /\
  z_contract_expression ord0 s84_as_shape true (OPath [[0; 1]]) MNone s args [1%Z] = Ok x /\
  (exists T, (z_call ord0 s84_lib x (lit "numpy") true [a]).2 = Ok T /\ entries T = [5; 7]) /\
  z_contract_expression ord0 s84_as_shape true (OPath [[0; 1]]) MNone s args [(-1)%Z] = Ok x' /\
  forall lib h b np arrays, exists er, (z_call ord0 lib (z_after ord0 lib x' h) b np arrays).2 = Err er.
Proof.
  exists (lit "ab,b->a"), s84_args. do 2 eexists. exists s84_x. split; [done|]. split; [vm_compute; reflexivity|]. split; [eexists; split; [vm_compute; reflexivity|by vm_compute]|].
  split; [vm_compute; reflexivity|]. intros lib. eapply (C84_never_called nat_semiring ord0 s84_as_shape lib true (OPath [[0; 1]]) MNone (lit "ab,b->a") s84_args [(-1)%Z] (-1)%Z); [by left|done|vm_compute; reflexivity].
Qed.
Print Assumptions C84_refuted.

(** Of three operands the last two constant, one of them named from the end: built, never callable; position -4 or 3 is out of range. *)
Definition s84_args3 : list (operand_arg nat_semiring) := [AShape [2; 1]; AArray s84_y; AArray s84_y].
Definition s84_build (constants : list Z) := z_contract_expression ord0 s84_as_shape true (OPath [[1; 2]; [0; 1]]) MNone (lit "ab,b,b->a") s84_args3 constants.
Definition s84_error (constants : list Z) (arrays : list (tensor nat_semiring)) : option exn :=
  match s84_build constants with Ok x => match (z_call ord0 s84_lib x (lit "numpy") true arrays).2 with Ok _ => None | Err e => Some e end | Err e => Some e end.
Example C84_instance :
  s84_error [1%Z; 2%Z] [s84_x] = None /\ s84_error [1%Z; (-1)%Z] [s84_x] = Some StopIteration /\ s84_error [1%Z; (-1)%Z] [s84_x; s84_y] = Some ValueError /\
  s84_error [1%Z; 2%Z; (-1)%Z] [] = Some StopIteration /\ s84_error [1%Z; (-4)%Z] [s84_x] = Some IndexError /\ s84_error [3%Z] [s84_x] = Some IndexError.
Proof. split_and!; by vm_compute. Qed.
Example C84_front_instance : length s84_args3 = count c_comma (lit "ab,b,b->a") + 1 /\ forall i, i ∈ [2; 1] <-> exists T, s84_args3 !! i = Some (AArray T).
Proof.
  split; [done|]. intros i. rewrite !elem_of_cons, elem_of_nil. split; [intros [->|[->|[]]]; by eexists|]. intros [T HT]. destruct i as [|[|[|i]]]; [done|auto..|]. by destruct i.
Qed.
