(** Calls of a ContractExpression after any history of calls. *)
From Verif Require Import Prelude Einsum EinsumFacts EinsumOps Parser Helpers Contract Spec PathSpec StringFacts SymbolFacts StepFacts ContractFacts PathFacts ParserFacts ParseSpec ParseProof ParseSound TopFacts ContractMain RefBackend Expression ExprSpec ExprFacts.

(** The number of operands is the number of commas plus one. *)
Lemma count_filter_ne (c d : N) (s : str) : c <> d -> count c (filter (.≠ d) s) = count c s.
Proof.
  intros Hne. induction s as [|x s IH]; [done|]. rewrite filter_cons. case_decide as E; cbn [count]; [by rewrite IH|].
  rewrite IH, decide_False; [done|]. intros ->. congruence.
Qed.
Lemma count_join c ts : (forall t, t ∈ ts -> c ∉ t) -> ts <> [] -> count c (join [c] ts) + 1 = length ts.
Proof.
  induction ts as [|t ts IH]; intros Hc Hne; [done|]. destruct ts as [|t2 ts].
  - rewrite count_none; [done|]. apply Hc. by left.
  - change (join [c] (t :: t2 :: ts)) with (t ++ [c] ++ join [c] (t2 :: ts)). rewrite !count_app, (count_none c t) by (apply Hc; by left). cbn [count]. rewrite decide_True by done.
    assert (H := IH (fun t Ht => Hc t (elem_of_list_further _ _ _ Ht)) ltac:(done)). simpl length in *. lia.
Qed.
Lemma render_commas e s : plain_eqn e -> e_in e <> [] -> filter (.≠ c_space) s = render e -> count c_comma s + 1 = length (e_in e).
Proof.
  intros [H1 H2] Hne Hs. rewrite <-(count_filter_ne c_comma c_space) by done. rewrite Hs. unfold render. rewrite count_app.
  assert (Hp : forall t, Forall plain (t_named t) -> c_comma ∉ render_term t).
  { intros t Ht Hc. unfold t_named in Ht. rewrite Forall_app in Ht. destruct Ht as [Ha Hb]. unfold render_term in Hc. apply elem_of_app in Hc as [Hc|Hc].
    - rewrite Forall_forall in Ha. by destruct (Ha _ Hc).
    - destruct (t_post t) as [q|]; [|by apply elem_of_nil in Hc]. apply elem_of_app in Hc as [Hc|Hc]; [vm_compute in Hc; repeat (apply elem_of_cons in Hc as [Hc|Hc]; [discriminate Hc|]); by apply elem_of_nil in Hc|].
      simpl in Hb. rewrite Forall_forall in Hb. by destruct (Hb _ Hc). }
  assert (Hz : count c_comma (match e_out e with None => [] | Some o => s_arrow ++ render_term o end) = 0).
  { destruct (e_out e) as [o|]; [|done]. rewrite count_app. rewrite (count_none _ (render_term o)) by (by apply Hp). done. }
  rewrite Hz, Nat.add_0_r. unfold s_comma. rewrite count_join, fmap_length; [done| |].
  - intros t (t' & -> & Ht)%elem_of_list_fmap. apply Hp. rewrite Forall_forall in H1. by apply H1.
  - by destruct (e_in e).
Qed.

Section Dict.
  Context {K : semiring}.
  Notation tens := (tensor K).
  Lemma constants_dict_ok (args : list (operand_arg K)) constants m : constants_dict args constants = Ok m ->
    forall i, (i ∈ constants -> exists T, args !! i = Some (AArray T) /\ m !! i = Some T) /\ (i ∉ constants -> m !! i = None).
  Proof.
    unfold constants_dict. enough (H : forall m0, foldM_res (fun m i => a ← of_opt IndexError (args !! i); match a with AArray T => Ok (<[i := T]> m) | AShape _ => Err TypeError end) m0 constants = Ok m ->
      (forall i T, m0 !! i = Some T -> args !! i = Some (AArray T)) ->
      forall i, (i ∈ constants \/ is_Some (m0 !! i) -> exists T, args !! i = Some (AArray T) /\ m !! i = Some T) /\ (i ∉ constants -> m !! i = m0 !! i)).
    { intros Hm i. destruct (H _ Hm) with (i := i) as [H1 H2]; [intros ? ?; by rewrite lookup_empty|]. split; [auto|]. intros Hi. rewrite H2 by done. apply lookup_empty. }
    induction constants as [|j constants IH]; intros m0 Hm Ha i.
    { simpl in Hm. apply Ok_inj in Hm as <-. split; [|done]. intros [Hi|[T HT]]; [by apply elem_of_nil in Hi|]. eauto. }
    cbn [foldM_res] in Hm. apply bind_Ok in Hm as (m1 & Hm1 & Hm). apply bind_Ok in Hm1 as (a & Haj & Hm1). destruct a as [|T]; [discriminate|]. apply Ok_inj in Hm1 as <-.
    destruct (args !! j) as [a|] eqn:Ej; [|discriminate]. simpl in Haj. apply Ok_inj in Haj as ->.
    assert (Ha' : forall i T', <[j:=T]> m0 !! i = Some T' -> args !! i = Some (AArray T')).
    { intros k T'. destruct (decide (k = j)) as [->|Hk]; [rewrite lookup_insert; congruence|]. rewrite lookup_insert_ne by done. apply Ha. }
    destruct (IH _ Hm Ha' i) as [H1 H2]. split.
    - intros Hi. apply H1. destruct Hi as [[->|Hi]%elem_of_cons|Hi]; [right; rewrite lookup_insert; eauto|by left|right].
      destruct (decide (i = j)) as [->|Hk]; [rewrite lookup_insert; eauto|]. by rewrite lookup_insert_ne.
    - intros [Hi1 Hi2]%not_elem_of_cons. rewrite H2 by done. by rewrite lookup_insert_ne.
  Qed.
  Lemma constants_dict_exists (args : list (operand_arg K)) constants ops : agrees args constants ops -> exists m, constants_dict args constants = Ok m.
  Proof.
    unfold constants_dict. generalize (∅ : gmap nat tens). induction constants as [|j constants IH]; intros m0 Ha; [by eexists|].
    cbn [foldM_res]. destruct (Ha j) as (T & HT & _); [by left|]. rewrite HT. cbn [of_opt mbind res_bind]. apply IH. intros i Hi. apply Ha. by right.
  Qed.

  (** The arrays given are filled in at the right places. *)
  Lemma fill_given (f : tens -> tens) (constants : list nat) (m : gmap nat tens) (ops : list tens) : forall i,
    (forall x, f x ≡ₜ x) -> (forall j, j ∉ constants -> m !! j = None) -> (forall j o, ops !! j = Some o -> i + j ∈ constants -> m !! (i + j) = Some o) ->
    exists merged, fill ((fun j => f <$> (m !! j)) <$> seq i (length ops)) (given_from i constants ops) = Ok merged /\ Forall2 teq ops merged.
  Proof.
    induction ops as [|o ops IH]; intros i Hf Hn Hc; [exists []; split; [done|constructor]|]. cbn [length seq given_from]. rewrite fmap_cons.
    destruct (IH (S i) Hf Hn) as (merged & Hm & Heq). { intros j o' Hj Hin. replace (S i + j) with (i + S j) in * by lia. by apply Hc. }
    case_decide as E.
    - specialize (Hc 0 o eq_refl). rewrite Nat.add_0_r in Hc. rewrite Hc by done. cbn [fill fmap option_fmap option_map].
      exists (f o :: merged). split; [by rewrite Hm|]. constructor; [|done]. symmetry. apply Hf.
    - rewrite Hn by done. cbn [fill fmap option_fmap option_map]. exists (o :: merged). split; [by rewrite Hm|]. by constructor.
  Qed.
  Lemma given_nil (ops : list tens) : given [] ops = ops.
  Proof. unfold given. generalize 0. induction ops as [|o ops IH]; intros i; [done|]. cbn [given_from]. rewrite decide_False by apply not_elem_of_nil. by rewrite IH. Qed.
  Lemma given_count (constants : list nat) (ops : list tens) : forall i, length (given_from i constants ops) + length (filter (.∈ constants) (seq i (length ops))) = length ops.
  Proof.
    induction ops as [|o ops IH]; intros i; [done|]. cbn [length seq given_from]. specialize (IH (S i)). rewrite filter_cons. case_decide; simpl; lia.
  Qed.
  Lemma dict_size (constants : list nat) (m : gmap nat tens) n : (forall i, i ∈ constants -> is_Some (m !! i)) -> (forall i, i ∉ constants -> m !! i = None) ->
    (forall i, i ∈ constants -> i < n) -> size m = length (filter (.∈ constants) (seq 0 n)).
  Proof.
    intros H1 H2 H3. rewrite <-size_dom. assert (Hd : (dom m : gset nat) = list_to_set (filter (.∈ constants) (seq 0 n))).
    { apply set_eq. intros i. rewrite elem_of_dom, elem_of_list_to_set, elem_of_list_filter, elem_of_seq. split.
      - intros Hi. destruct (decide (i ∈ constants)) as [E|E]; [split; [done|]; apply H3 in E; lia|]. rewrite H2 in Hi by done. by destruct Hi.
      - intros [Hi _]. auto. }
    rewrite Hd, size_list_to_set; [done|]. apply NoDup_filter, NoDup_seq.
  Qed.
  Lemma fill_none_exact (arrays : list tens) n : length arrays = n -> fill ((fun _ => None) <$> seq 0 n) arrays = Ok arrays.
  Proof.
    intros <-. generalize 0. induction arrays as [|a arrays IH]; intros i; [done|]. cbn [length seq]. rewrite fmap_cons. cbn [fill]. by rewrite IH.
  Qed.
End Dict.

Section Histories.
  Context {K : semiring}.
  Notation tens := (tensor K).
  Variable ord : gset N -> list N.
  Variable lib : str -> library K.

  Definition start_ops (x : expression K) (b : str) : list (option tens) :=
    let tmp := (fun i => x_constants x !! i) <$> seq 0 (x_num x) in
    if l_convert (lib b) then fmap (M:=option) (l_to (lib b)) <$> tmp else tmp.
  (** What holds of an expression that was [x0] when built. *)
  Definition inv (x0 x : expression K) : Prop :=
    x_full x = x_full x0 /\ x_num x = x_num x0 /\ x_constants x = x_constants x0
    /\ (forall b ops, x_evaluated x !! b = Some ops -> core_constants ord (l_funs (lib b)) (start_ops x0 b) (x_full x0) = Ok (ops, x_list x))
    /\ (x_evaluated x = ∅ -> x_list x = x_full x0).
  Lemma start_pattern (x : expression K) b b' : Forall2 (fun a b => is_Some a <-> is_Some b) (start_ops x b) (start_ops x b').
  Proof.
    unfold start_ops. generalize (seq 0 (x_num x)). intros l.
    assert (H : forall f g : option tens -> option tens, (forall o, is_Some (f o) <-> is_Some o) -> (forall o, is_Some (g o) <-> is_Some o) ->
      Forall2 (fun a b => is_Some a <-> is_Some b) (f <$> ((fun i => x_constants x !! i) <$> l)) (g <$> ((fun i => x_constants x !! i) <$> l))).
    { intros f g Hf Hg. induction l as [|i l IH]; [constructor|]. rewrite !fmap_cons. constructor; [by rewrite Hf, Hg|done]. }
    assert (Hid : forall l : list (option tens), l = id <$> l) by (intros; by rewrite list_fmap_id).
    destruct (l_convert (lib b)), (l_convert (lib b')).
    - apply H; intros o; apply fmap_is_Some.
    - rewrite (Hid ((fun i => x_constants x !! i) <$> l)) at 2. apply H; [intros o; apply fmap_is_Some|done].
    - rewrite (Hid ((fun i => x_constants x !! i) <$> l)) at 1. apply H; [done|intros o; apply fmap_is_Some].
    - rewrite (Hid ((fun i => x_constants x !! i) <$> l)). by apply H.
  Qed.
  Lemma evaluate_inv x0 x b x' : inv x0 x -> evaluate_constants ord lib x b = Ok x' -> inv x0 x' /\ is_Some (x_evaluated x' !! b).
  Proof.
    intros (H1 & H2 & H3 & H4 & H5) H. unfold evaluate_constants in H. apply bind_Ok in H as ([ops cl] & Hc & H). apply Ok_inj in H as <-.
    assert (Hc' : core_constants ord (l_funs (lib b)) (start_ops x0 b) (x_full x0) = Ok (ops, cl)) by (unfold start_ops; by rewrite <-H1, <-H2, <-H3).
    split; [|cbn [x_evaluated]; rewrite lookup_insert; eauto].
    split; [done|]. split; [done|]. split; [done|]. cbn [x_evaluated x_list]. split.
    - intros b' ops'. destruct (decide (b' = b)) as [->|Hb]; [rewrite lookup_insert; by intros [= <-]|]. rewrite lookup_insert_ne by done. intros Hb'.
      apply H4 in Hb' as Hb2. rewrite Hb2. do 2 f_equal. exact (remaining_same ord _ _ _ _ _ _ _ _ _ (start_pattern x0 b' b) Hb2 Hc').
    - intros Hem. apply (f_equal (fun m => m !! b)) in Hem. rewrite lookup_insert, lookup_empty in Hem. done.
  Qed.
  Lemma get_inv x0 x b x' ops : inv x0 x -> get_evaluated ord lib x b = Ok (x', ops) -> inv x0 x' /\ x_evaluated x' !! b = Some ops.
  Proof.
    intros Hi H. unfold get_evaluated in H. destruct (x_evaluated x !! b) as [o|] eqn:E; [apply Ok_inj in H; by simplify_eq|].
    apply bind_Ok in H as (x2 & Hx & H). apply bind_Ok in H as (o & Ho & H). apply Ok_inj in H. simplify_eq.
    destruct (evaluate_inv _ _ _ _ Hi Hx) as [Hi' [o' Ho']]. split; [done|]. rewrite Ho' in *. simpl in Ho. apply Ok_inj in Ho. by subst.
  Qed.
  Lemma event_inv x0 x ev : inv x0 x -> inv x0 (run_event ord lib x ev).
  Proof.
    intros Hi. destruct ev as [b np arrays|b]; simpl.
    - unfold expr_call. destruct (negb _); [done|]. case_decide; [done|]. destruct (get_evaluated ord lib x b) as [[x' ops]|] eqn:E; [|done]. simpl. by eapply get_inv.
    - destruct (evaluate_constants ord lib x b) as [x'|] eqn:E; [|done]. by eapply evaluate_inv.
  Qed.
  Lemma after_inv x0 h : forall x, inv x0 x -> inv x0 (after ord lib x h).
  Proof. unfold after. induction h as [|ev h IH]; intros x Hi; [done|]. simpl. by apply IH, event_inv. Qed.

  (** Nothing is evaluated without constants. *)
  Lemma no_constants (B : backend K) cl n V merged : (forall m, Forall2 teq merged m -> robust ord B cl V m) -> cl <> [] -> length merged = n ->
    forall B' : backend K, core_constants ord B' ((fun _ => None) <$> seq 0 n) cl = Ok ((fun _ => None) <$> seq 0 n, cl).
  Proof.
    intros Hrob Hne Hlen B'. destruct cl as [|c cl]; [done|]. destruct (Hrob merged (teq_refl_list _)) as ((_ & Hci) & tmp & rest & W & Hstep & _).
    cbn [core_constants]. destruct (c_inds c) as [|i inds] eqn:Ei; [done|]. cbn [any_none].
    assert (Hi : i < n). { cbn [pops] in Hstep. apply bind_Ok in Hstep as ([y l'] & Hy & _). unfold pop_at in Hy.
      destruct (merged !! i) eqn:E; [|discriminate]. apply lookup_lt_Some in E. lia. }
    assert (Hl : (((fun _ => None) <$> seq 0 n) : list (option tens)) !! i = Some None).
    { rewrite list_lookup_fmap, lookup_seq_lt by lia. done. }
    rewrite Hl. done.
  Qed.

  (** A call whose merged arrays the full list can be run on. *)
  Lemma call_ok x0 x b np constants ops V : inv x0 x -> library_ok (lib b) -> x_full x0 <> [] -> x_num x0 = length ops ->
    (forall i, i ∈ constants -> exists o, x_constants x0 !! i = Some o /\ ops !! i = Some o) -> (forall i, i ∉ constants -> x_constants x0 !! i = None) ->
    (constants = [] \/ exists i, i < length ops /\ i ∉ constants) ->
    (forall m, Forall2 teq ops m -> robust ord (l_funs (lib b)) (x_full x0) V m) ->
    exists T, (expr_call ord lib x b np (given constants ops)).2 = Ok T /\ T ≡ₜ V.
  Proof.
    intros Hinv (HB & Hto & Hfrom) Hfull Hnum Hc Hn Hvar Hrob.
    assert (Hrun : forall x' m, (forall m', Forall2 teq m m' -> robust ord (l_funs (lib b)) (x_list x') V m') -> exists T, run_expression ord lib x' b np m = Ok T /\ T ≡ₜ V).
    { intros x' m Hm. unfold run_expression. destruct (l_convert (lib b) && np).
      - destruct (robust_run ord (l_funs (lib b)) HB (x_list x') V (l_to (lib b) <$> m)) as (T & HT & Heq).
        { apply Hm. clear -Hto. induction m as [|a m IH]; [constructor|]. rewrite fmap_cons. constructor; [|done]. symmetry. apply Hto. }
        unfold core_contract. rewrite HT. simpl. exists (l_from (lib b) T). split; [done|]. by rewrite Hfrom.
      - destruct (robust_run ord (l_funs (lib b)) HB (x_list x') V m) as (T & HT & Heq); [apply Hm, teq_refl_list|].
        unfold core_contract. rewrite HT. simpl. by exists T. }
    assert (Hc' : forall i, i ∈ constants -> is_Some (x_constants x0 !! i)) by (intros i Hi; destruct (Hc i Hi) as (o & -> & _); eauto).
    assert (Hsize : size (x_constants x0) = length (filter (.∈ constants) (seq 0 (length ops)))).
    { apply dict_size; [done|done|]. intros i Hi. destruct (Hc i Hi) as (o & _ & Ho). by eapply lookup_lt_Some. }
    unfold expr_call. destruct Hinv as (H1 & H2 & H3 & H4 & H5). rewrite H2, H3, Hnum, Hsize.
    pose proof (given_count constants ops 0) as Hcnt. assert (Hlen : (length (given constants ops) =? length ops - length (filter (.∈ constants) (seq 0 (length ops)))) = true) by (apply Nat.eqb_eq; unfold given; lia).
    rewrite Hlen. cbn [negb]. destruct (fill_given (if l_convert (lib b) then l_to (lib b) else id) constants (x_constants x0) ops 0) as (merged & Hfill & Hmerged).
    { intros y. by destruct (l_convert (lib b)). } { done. } { intros j o Hj Hin. destruct (Hc _ Hin) as (o' & Hx & Ho). rewrite Hx. simpl in Ho. congruence. }
    assert (Hstart : start_ops x0 b = (fun j => (if l_convert (lib b) then l_to (lib b) else id) <$> (x_constants x0 !! j)) <$> seq 0 (length ops)).
    { unfold start_ops. rewrite Hnum. destruct (l_convert (lib b)); [by rewrite <-list_fmap_compose|]. apply list_fmap_ext. intros _ j _. by destruct (x_constants x0 !! j). }
    assert (Hrobm : forall m, Forall2 teq merged m -> robust ord (l_funs (lib b)) (x_full x0) V m).
    { intros m Hm. apply Hrob. eapply (Forall2_transitive teq teq teq); [intros ? ? ? Ha Hb; by rewrite Ha|exact Hmerged|exact Hm]. }
    case_decide as E.
    - assert (constants = []) as ->. { destruct constants as [|i l]; [done|]. destruct (Hc' i) as [o Ho]; [by left|]. by rewrite E, lookup_empty in Ho. }
      assert (Hg : given [] ops = ops). { unfold given. generalize 0. clear. induction ops as [|o ops IH]; intros i; [done|]. cbn [given_from]. rewrite decide_False by apply not_elem_of_nil. by rewrite IH. }
      rewrite Hg. apply Hrun. assert (Hxl : x_list x = x_full x0); [|rewrite Hxl; exact Hrob].
      destruct (decide (x_evaluated x = ∅)) as [Ex|Ex]; [auto|]. apply map_choose in Ex as (b' & ops' & Hb'). apply H4 in Hb'.
      assert (Hs0 : start_ops x0 b' = (fun _ => None) <$> seq 0 (length ops)).
      { unfold start_ops. rewrite Hnum, E. assert (Hz : ((fun i => (∅ : gmap nat tens) !! i) <$> seq 0 (length ops)) = (fun _ => None) <$> seq 0 (length ops)) by (apply list_fmap_ext; intros _ j _; apply lookup_empty).
        rewrite Hz. destruct (l_convert (lib b')); [|done]. by rewrite <-list_fmap_compose. }
      rewrite Hs0, (no_constants (l_funs (lib b)) (x_full x0) (length ops) V ops Hrob Hfull eq_refl) in Hb'. apply Ok_inj in Hb'. congruence.
    - assert (Hnone : ~ Forall is_Some (start_ops x0 b)).
      { destruct Hvar as [->|(i & Hi & Hin)].
        - destruct E. apply map_eq. intros i. rewrite lookup_empty. apply Hn, not_elem_of_nil.
        - intros Hall. rewrite Hstart, Forall_lookup in Hall. destruct (Hall i None) as [? ?]; [|done]. rewrite list_lookup_fmap, lookup_seq_lt by lia. simpl. by rewrite Hn. }
      destruct (prepass ord (l_funs (lib b)) V (x_full x0) (start_ops x0 b) (given constants ops) merged) as (ops' & cl' & merged' & Hcc & Hf' & Hr'); try done.
      { by rewrite Hstart. }
      assert (Hget : exists x', get_evaluated ord lib x b = Ok (x', ops') /\ x_list x' = cl').
      { unfold get_evaluated. destruct (x_evaluated x !! b) as [o|] eqn:Eb.
        - apply H4 in Eb. rewrite Hcc in Eb. apply Ok_inj in Eb. injection Eb as -> ->. eauto.
        - unfold evaluate_constants. rewrite H1, H2, H3. change (let tmp := _ in let tmp0 := _ in _) with (start_ops x0 b) || idtac.
          fold (start_ops x0 b). rewrite Hcc. cbn [mbind res_bind x_evaluated]. rewrite lookup_insert. cbn [of_opt mbind res_bind]. by eexists. }
      destruct Hget as (x' & -> & Hl). cbn [snd]. rewrite Hf'. cbn [mbind res_bind]. apply Hrun. by rewrite Hl.
  Qed.
End Histories.

Section Main.
  Context {K : semiring}.
  Notation tens := (tensor K).
  Variable ord : gset N -> list N.
  Hypothesis ord_ok : forall s, ord s ≡ₚ elements s.
  Variables (e : eqn) (s : str) (args : list (operand_arg K)) (constants : list nat) (ops0 : list tens).
  Hypothesis Hne : e_in e <> [].
  Hypothesis Hpl : plain_eqn e.
  Hypothesis Hs : filter (.≠ c_space) s = render e.
  Hypothesis Hargs : arg_shape <$> args = shape <$> ops0.
  Hypothesis Hconst : forall i, i ∈ constants -> exists T, args !! i = Some (AArray T).
  Hypothesis Hwf : well_formed e (shape <$> ops0).
  Variables (use_blas : bool) (opt : optimize_arg) (mem : memory_arg).
  Hypothesis Hgood0 : good (zip (in_labels e (shape <$> ops0)) ops0).
  Hypothesis Hmem : mem_valid mem.
  Hypothesis Hstrat : strategy_ok opt (length ops0).
  Hypothesis Hfits : path_fits K ord use_blas opt mem s (shape <$> ops0).

  Lemma expression_ok : exists x0, contract_expression ord use_blas opt mem s args constants = Ok x0 /\
    forall (lib : str -> library K) (h : list (event K)) (b : str) (np : bool),
      (forall arrays, length arrays <> length args - length (remove_dups constants) -> (expr_call ord lib (after ord lib x0 h) b np arrays).2 = Err ValueError) /\
      (forall ops, library_ok (lib b) -> b_has_einsum (l_funs (lib b)) = true -> same_ranks ops0 ops ->
        let tops := zip (in_labels e (shape <$> ops)) ops in
        good tops -> (shape <$> ops = shape <$> ops0 \/ uniform_dims tops) -> agrees args constants ops ->
        (constants = [] \/ exists i, i < length ops /\ i ∉ constants) ->
        exists T, (expr_call ord lib (after ord lib x0 h) b np (given constants ops)).2 = Ok T /\ T ≡ₜ einsum tops (out_labels e (shape <$> ops))).
  Proof.
    destruct (constants_dict args constants) as [m|er] eqn:Em.
    2: { exfalso. assert (Hx : exists m, constants_dict args constants = Ok m); [|destruct Hx; congruence]. clear -Hconst. unfold constants_dict. generalize (∅ : gmap nat tens).
         induction constants as [|j l IH]; intros m0; [by eexists|]. cbn [foldM_res]. destruct (Hconst j) as (T & HT); [by left|]. rewrite HT. cbn [of_opt mbind res_bind].
         apply IH. intros i Hi. apply Hconst. by right. }
    destruct (contract_path_ok ord ord_ok _ (ref_backend_ok K true) e s ops0 Hne Hpl Hs Hwf use_blas opt mem Hgood0 Hmem Hstrat) as (info & Hinfo & _ & _ & _ & _ & _ & _).
    assert (Hinfo' : contract_path ord use_blas opt mem s (arg_shape <$> args) = Ok info) by by rewrite Hargs.
    exists (Expression (pi_contractions info) (pi_contractions info) (count c_comma s + 1) m ∅). set (x0 := Expression _ _ _ _ _).
    split. { unfold contract_expression. destruct opt as [|[|s1 p1]|f]; [done|by destruct Hstrat| |]; rewrite Em; cbn [mbind res_bind]; rewrite Hinfo'; done. }
    intros lib h b np. assert (Hinv : inv ord lib x0 (after ord lib x0 h)).
    { apply after_inv. split; [done|]. split; [done|]. split; [done|]. split; [|done]. intros b' o. unfold x0. cbn [x_evaluated]. by rewrite lookup_empty. }
    assert (Hnargs : length args = length ops0) by (rewrite <-(fmap_length shape), <-Hargs; by rewrite fmap_length).
    assert (Hnum : x_num x0 = length ops0).
    { unfold x0. cbn [x_num]. rewrite (render_commas e s Hpl Hne Hs), (wf_count _ _ Hwf). apply fmap_length. }
    pose proof (constants_dict_ok _ _ _ Em) as Hm. assert (Hm1 : forall i, i ∈ constants -> is_Some (m !! i)) by (intros i Hi; destruct (proj1 (Hm i) Hi) as (T & _ & ->); eauto).
    split.
    - intros arrays Hlen. unfold expr_call. destruct Hinv as (_ & H2 & H3 & _). rewrite H2, H3, Hnum.
      assert (Hsize : size (x_constants x0) = length (remove_dups constants)).
      { unfold x0. cbn [x_constants]. rewrite (dict_size constants m (length ops0)); [|done|intros i; by apply Hm|].
        - apply Permutation_length, NoDup_Permutation; [apply NoDup_filter, NoDup_seq|apply NoDup_remove_dups|]. intros i. rewrite elem_of_list_filter, elem_of_seq, elem_of_remove_dups.
          split; [tauto|]. intros Hi. split; [done|]. destruct (Hconst i Hi) as (T & HT). apply lookup_lt_Some in HT. lia.
        - intros i Hi. destruct (Hconst i Hi) as (T & HT). apply lookup_lt_Some in HT. lia. }
      rewrite Hsize, <-Hnargs. by rewrite (proj2 (Nat.eqb_neq _ _) Hlen).
    - intros ops Hlib He Hranks tops Hgood Hu Hagree Hvar.
      destruct (contract_path_ok ord ord_ok _ (proj1 Hlib) e s ops0 Hne Hpl Hs Hwf use_blas opt mem Hgood0 Hmem Hstrat) as (info' & Hi' & _).
      assert (info' = info) as -> by congruence. destruct (path_robust ord ord_ok e s ops0 Hne Hpl Hs Hwf use_blas opt mem Hgood0 Hmem Hstrat (l_funs (lib b)) info ops) as [Hclne Hrob]; [apply Hlib|done|apply Hfits; [apply Hlib|done|done]|done|done|done|].
      apply (call_ok ord lib x0 (after ord lib x0 h) b np constants ops); [done|done|done| | | |done|done].
      + rewrite Hnum. by eapply Forall2_length.
      + intros i Hi. destruct (proj1 (Hm i) Hi) as (T & HT1 & HT2). destruct (Hagree i Hi) as (T' & HT3 & HT4). exists T. split; [done|]. congruence.
      + intros i. apply Hm.
  Qed.
End Main.
