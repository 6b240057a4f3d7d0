(** Property C81: an index fixed before or after; statements, each with a concrete instance. *)
From Verif Require Import Prelude Einsum EinsumFacts EinsumOps Parser Helpers Contract Spec PathSpec StringFacts SymbolFacts StepFacts ContractFacts PathFacts ParserFacts ParseSpec ParseProof ParseSound TopFacts ContractMain RefBackend PropsContract.

(** ** C81 *)
Section Slice.
  Context {K : semiring} {L : Type} `{EqDecision L}.
  Notation tens := (tensor K). Notation operand := (list L * tens)%type.
  (** The sizes of the axes that are not labelled [l]. *)
  Fixpoint slice_shape (l : L) (t : list L) (sh : list nat) : list nat :=
    match t, sh with a :: t', d :: sh' => if decide (a = l) then slice_shape l t' sh' else d :: slice_shape l t' sh' | _, _ => [] end.
  (** The coordinates of an array labelled [t] from those of its part with [l] fixed to [v] (an axis of size 1 is broadcast). *)
  Fixpoint weave (l : L) (v : nat) (t : list L) (sh cs : list nat) : list nat :=
    match t, sh with
    | a :: t', d :: sh' => if decide (a = l) then (if decide (d = 1) then 0 else v) :: weave l v t' sh' cs
        else match cs with c :: cs' => c :: weave l v t' sh' cs' | [] => [] end
    | _, _ => []
    end.
  (** [p'] is [p] with [l] fixed to [v]: the label and its axes are gone. *)
  Definition sliced (l : L) (v : nat) (p p' : operand) : Prop :=
    p'.1 = filter (.≠ l) p.1 /\ p'.2 ≡ₜ Tensor (slice_shape l p.1 (shape p.2)) (fun cs => get p.2 (weave l v p.1 (shape p.2) cs)).

  Lemma zip_slice l (t : list L) sh : length t = length sh -> zip (filter (.≠ l) t) (slice_shape l t sh) = filter (fun q => q.1 <> l) (zip t sh).
  Proof.
    revert sh. induction t as [|a t IH]; intros [|d sh] Hl; try done. cbn in Hl. cbn [slice_shape zip zip_with]. rewrite !filter_cons. cbn [fst].
    destruct (decide (a = l)) as [->|Ha]; [rewrite !decide_False by (intros E; by apply E); apply IH; lia|]. rewrite !decide_True by done. cbn [zip zip_with]. f_equal. apply IH. lia.
  Qed.
  Lemma slice_length l (t : list L) sh : length t = length sh -> length (filter (.≠ l) t) = length (slice_shape l t sh).
  Proof.
    revert sh. induction t as [|a t IH]; intros [|d sh] Hl; try done. cbn in Hl. cbn [slice_shape]. rewrite filter_cons.
    destruct (decide (a = l)) as [->|Ha]; [rewrite decide_False by (intros E; by apply E); apply IH; lia|]. rewrite decide_True by done. cbn [length]. f_equal. apply IH. lia.
  Qed.
  Lemma weave_coords l v (t : list L) sh e : length t = length sh -> e l = v -> weave l v t sh (coords (filter (.≠ l) t) (slice_shape l t sh) e) = coords t sh e.
  Proof.
    intros Hl He. revert sh Hl. unfold coords. induction t as [|a t IH]; intros [|d sh] Hl; try done. cbn in Hl. cbn [slice_shape weave zip_with]. rewrite filter_cons.
    destruct (decide (a = l)) as [->|Ha].
    - rewrite (decide_False (P := l <> l)) by (intros E; by apply E). rewrite IH by lia. by rewrite He.
    - rewrite (decide_True (P := a <> l)) by done. cbn [zip_with]. by rewrite IH by lia.
  Qed.

  Variables (l : L) (tops tops' : list operand).
  Hypothesis Hg : good tops.
  Lemma slice_axes v : Forall2 (sliced l v) tops tops' -> axes_of tops' = filter (fun q => q.1 <> l) (axes_of tops) /\ labels_of tops' = filter (.≠ l) (labels_of tops) /\ ranked tops'.
  Proof.
    pose proof (good_ranked _ Hg) as Hr. clear Hg. induction 1 as [|p p' P P' [H1 [H2 _]] _ IH]; [done|]. inversion Hr as [|? ? Hr1 Hr2]; subst. destruct (IH Hr2) as (I1 & I2 & I3).
    unfold axes_of, labels_of in *. rewrite !bind_cons, !filter_app, <-I1, <-I2. cbn [shape] in H2. split; [|split].
    - f_equal. rewrite H1, H2. by apply zip_slice.
    - by rewrite H1.
    - constructor; [|done]. rewrite H1, H2. by apply slice_length.
  Qed.
  Lemma slice_good v : Forall2 (sliced l v) tops tops' -> good tops'.
  Proof.
    intros H. destruct (slice_axes v H) as (H1 & H2 & H3). pose proof Hg as [Hr Hc Hd Hz]. constructor; [done| | |].
    - eapply compat_ext; [|exact Hc]. intros a d. rewrite H1, elem_of_list_filter. tauto.
    - intros p' i j c d d' Hp' Hi Hj Hdi Hdj. apply elem_of_list_lookup in Hp' as (k & Hk). destruct (Forall2_lookup_r _ _ _ _ _ H Hk) as (p & Hp & E1 & E2 & _). cbn [shape] in E2.
      apply elem_of_list_lookup_2 in Hp. assert (Hrp : length p.1 = length (shape p.2)) by (unfold ranked in Hr; rewrite Forall_forall in Hr; by apply Hr).
      assert (Hin : forall i x, p'.1 !! i = Some c -> shape p'.2 !! i = Some x -> exists k, p.1 !! k = Some c /\ shape p.2 !! k = Some x).
      { intros i0 x Hc0 Hx. assert (Hq : (c, x) ∈ zip p'.1 (shape p'.2)) by (apply elem_of_lookup_zip_with; eauto 10). rewrite E1, E2, zip_slice in Hq by done.
        apply elem_of_list_filter in Hq as [_ Hq]. apply elem_of_lookup_zip_with in Hq as (k0 & ? & ? & [= <- <-] & ? & ?). eauto. }
      destruct (Hin i d Hi Hdi) as (i' & ? & ?). destruct (Hin j d' Hj Hdj) as (j' & ? & ?). by eapply (Hd p i' j' c).
    - intros a. rewrite H1, !elem_of_list_filter. intros [_ ?] [_ ?]. by eapply Hz.
  Qed.
  Lemma slice_dim v a : Forall2 (sliced l v) tops tops' -> a <> l -> dim tops' a = dim tops a.
  Proof. intros H Ha. apply dim_ext; [by apply Hg|]. intros d. rewrite (proj1 (slice_axes v H)), elem_of_list_filter. cbn [fst]. tauto. Qed.
  Lemma slice_term v e p p' : sliced l v p p' -> p ∈ tops -> e l = v -> (forall a, a ∈ p.1 -> a <> l -> e a < dim tops a) -> term e p' = term e p.
  Proof.
    intros [H1 [H2 H3]] Hp He Hlt. pose proof (good_ranked _ Hg) as Hr. unfold ranked in Hr. rewrite Forall_forall in Hr. specialize (Hr p Hp). cbn [shape get] in H2, H3.
    unfold term. rewrite H3.
    - rewrite H1, H2, weave_coords by done. done.
    - rewrite H1, H2. unfold in_range, coords. apply Forall2_same_length_lookup_2.
      + rewrite zip_with_length, slice_length with (sh := shape p.2) by done. lia.
      + intros i x d Hx Hd. rewrite lookup_zip_with, Hd in Hx. destruct (filter (.≠ l) p.1 !! i) as [a|] eqn:Ea; [|done]. injection Hx as <-.
        assert (Hq : (a, d) ∈ zip (filter (.≠ l) p.1) (slice_shape l p.1 (shape p.2))) by (apply elem_of_lookup_zip_with; eauto 10). rewrite zip_slice in Hq by done.
        apply elem_of_list_filter in Hq as [Hal Hq]. cbn [fst] in Hal. assert (Hax : (a, d) ∈ axes_of tops) by (unfold axes_of; apply elem_of_list_bind; eauto).
        assert (Hap : a ∈ p.1) by (by apply elem_of_zip_l in Hq). specialize (Hlt a Hap Hal). destruct (proj1 (dim_char tops a (good_compat _ Hg)) d Hax) as [-> | ->]; case_decide; lia.
  Qed.
  (** The sum over other labels, with [l] fixed. *)
  Lemma slice_sum v out e e' : Forall2 (sliced l v) tops tops' -> (forall a, a <> l -> e' a = e a) -> e l = v -> (forall a, a ∈ out -> a <> l -> e a < dim tops a) ->
    esum tops' (filter (.≠ l) out) e' = sum_labels (dim tops) (filter (.≠ l) (summed tops out)) (fun e => prodl (term e <$> tops)) e.
  Proof.
    intros H He Hv Hlt. destruct (slice_axes v H) as (H1 & H2 & H3). unfold esum.
    rewrite (sum_labels_perm _ _ (filter (.≠ l) (summed tops out)) _ _ _ (prod_dep tops')); [|apply NoDup_summed|].
    2:{ apply NoDup_Permutation; [apply NoDup_summed|apply NoDup_filter, NoDup_summed|]. intros a. rewrite elem_of_list_filter, !elem_of_summed, H2, !elem_of_list_filter. tauto. }
    rewrite (sum_labels_dep (dim tops') (filter (.≠ l) (summed tops out)) _ _ (prod_dep tops') e' e).
    2:{ intros a [Ha _]. apply He. rewrite H2, elem_of_list_filter in Ha. tauto. }
    apply sum_labels_ext; [intros a Ha; apply (slice_dim v); [done|]; apply elem_of_list_filter in Ha; tauto|].
    intros e1 Ho Hin. f_equal.
    assert (Hterm : forall p p', p ∈ tops -> sliced l v p p' -> term e1 p' = term e1 p).
    { intros p p' Hp Hpp. apply (slice_term v); [done..| |].
      - rewrite Ho; [done|]. rewrite elem_of_list_filter. tauto.
      - intros a Ha Hal. assert (Hlab : a ∈ labels_of tops) by (apply elem_of_labels; eauto). destruct (decide (a ∈ filter (.≠ l) (summed tops out))) as [Hs|Hs].
        + rewrite <-(slice_dim v) by done. by apply Hin.
        + rewrite Ho by done. apply Hlt; [|done]. rewrite elem_of_list_filter, elem_of_summed in Hs. destruct (decide (a ∈ out)); [done|]. tauto. }
    clear -H Hterm. induction H as [|p p' P P' Hpp _ IH]; cbn; [done|]. f_equal; [apply Hterm; [by left|done]|]. apply IH. intros. apply Hterm; [by right|done].
  Qed.
  Lemma weave_env (dm : L -> nat) v out cs a : length cs = length (filter (.≠ l) out) -> v < dm l ->
    env_of out (weave l v out (dm <$> out) cs) a = if decide (a = l) then (if decide (l ∈ out) then v else 0) else env_of (filter (.≠ l) out) cs a.
  Proof.
    clear. intros Hl Hv. revert cs Hl. induction out as [|b out IH]; intros cs Hl; [cbn; destruct (decide (a = l)); [rewrite decide_False by apply not_elem_of_nil|]; done|].
    cbn [fmap list_fmap weave]. rewrite filter_cons in *. destruct (decide (b = l)) as [->|Hb].
    - rewrite (decide_False (P := l <> l)) in * by (intros E; by apply E). cbn [env_of]. unfold upd. destruct (decide (a = l)) as [->|Ha].
      + destruct (decide (l = l)); [|done]. destruct (decide (l ∈ l :: out)) as [_|Hx]; [|destruct Hx; left]. destruct (decide (dm l = 1)); lia.
      + rewrite IH by done. destruct (decide (a = l)); done.
    - rewrite (decide_True (P := b <> l)) in * by done. destruct cs as [|c cs]; [done|]. cbn [env_of]. unfold upd. cbn in Hl. destruct (decide (a = b)) as [->|Ha].
      + destruct (decide (b = b)); [|done]. destruct (decide (b = l)); done.
      + rewrite IH by lia. destruct (decide (a = l)); [|done]. destruct (decide (l ∈ out)); [rewrite decide_True by (by right)|rewrite decide_False; [|intros [?|?]%elem_of_cons; congruence]]; done.
  Qed.
  Lemma weave_range (dm : L -> nat) v out cs : in_range cs (slice_shape l out (dm <$> out)) -> v < dm l -> in_range (weave l v out (dm <$> out) cs) (dm <$> out).
  Proof.
    clear. intros Hcs Hv. revert cs Hcs. induction out as [|b out IH]; intros cs Hcs; [constructor|]. cbn [fmap list_fmap weave slice_shape] in *. destruct (decide (b = l)) as [->|Hb].
    - constructor; [case_decide; lia|by apply IH].
    - inversion Hcs; subst. constructor; [done|by apply IH].
  Qed.
  Lemma slice_shape_dims (dm dm' : L -> nat) out : (forall a, a <> l -> dm' a = dm a) -> dm' <$> filter (.≠ l) out = slice_shape l out (dm <$> out).
  Proof.
    clear. intros H. induction out as [|b out IH]; [done|]. cbn [fmap list_fmap slice_shape]. rewrite filter_cons. destruct (decide (b = l)) as [->|Hb]; [by rewrite decide_False by (intros E; by apply E)|].
    rewrite decide_True by done. cbn [fmap list_fmap]. rewrite IH, H by done. done.
  Qed.
  Lemma slice_einsum_out v out : Forall2 (sliced l v) tops tops' -> l ∈ out -> v < dim tops l -> sliced l v (out, einsum tops out) (filter (.≠ l) out, einsum tops' (filter (.≠ l) out)).
  Proof.
    intros H Hl Hv. assert (Hdim : dim tops' <$> filter (.≠ l) out = slice_shape l out (dim tops <$> out)) by (apply slice_shape_dims; intros; by apply (slice_dim v)).
    split; [done|]. cbn [fst snd shape einsum]. split; [exact Hdim|]. cbn [shape get]. intros cs Hcs. change (in_range cs (dim tops' <$> filter (.≠ l) out)) in Hcs. rewrite Hdim in Hcs. cbn [get einsum].
    assert (Hlen : length cs = length (filter (.≠ l) out)) by (rewrite (Forall2_length _ _ _ Hcs), <-(slice_length l out (dim tops <$> out)) by (by rewrite fmap_length); done).
    pose proof (weave_range (dim tops) v out cs Hcs Hv) as Hr. set (cs0 := weave l v out (dim tops <$> out) cs) in *.
    rewrite (slice_sum v out (env_of out cs0) (env_of (filter (.≠ l) out) cs) H).
    - assert (E : filter (.≠ l) (summed tops out) = summed tops out); [|by rewrite E].
      assert (Hno : l ∉ summed tops out) by (rewrite elem_of_summed; tauto). revert Hno. generalize (summed tops out). clear. induction l0 as [|b ls IH]; intros Hno; [done|]. apply not_elem_of_cons in Hno as [Hb Hno].
      rewrite filter_cons, decide_True by done. by rewrite IH.
    - intros a Ha. unfold cs0. rewrite weave_env by done. by rewrite decide_False.
    - unfold cs0. rewrite weave_env by done. by rewrite !decide_True.
    - intros a Ha _. by apply env_of_range.
  Qed.
End Slice.
Section SliceSum.
  Context {K : semiring} {L : Type} `{EqDecision L}.
  Notation tens := (tensor K). Notation operand := (list L * tens)%type.
  Lemma filter_no (l : L) (ls : list L) : l ∉ ls -> filter (.≠ l) ls = ls.
  Proof. induction ls as [|b ls IH]; intros Hno; [done|]. apply not_elem_of_cons in Hno as [Hb Hno]. rewrite filter_cons, decide_True by done. by rewrite IH. Qed.
  Lemma slice_einsum_sum (l : L) (tops : list operand) (tops' : nat -> list operand) out cs : good tops -> l ∈ labels_of tops -> l ∉ out ->
    (forall v, v < dim tops l -> Forall2 (sliced l v) tops (tops' v)) -> in_range cs (dim tops <$> out) ->
    get (einsum tops out) cs = sumn (dim tops l) (fun v => get (einsum (tops' v) out) cs).
  Proof.
    intros Hg Hl Hno H Hcs. cbn [get einsum]. unfold esum at 1.
    rewrite (sum_labels_perm _ _ (l :: filter (.≠ l) (summed tops out)) _ _ _ (prod_dep tops)); [|apply NoDup_summed|].
    2:{ apply NoDup_Permutation; [apply NoDup_summed| |].
        - apply NoDup_cons. split; [rewrite elem_of_list_filter; tauto|apply NoDup_filter, NoDup_summed].
        - intros a. rewrite elem_of_cons, elem_of_list_filter. destruct (decide (a = l)) as [->|]; [rewrite elem_of_summed|]; tauto. }
    cbn [sum_labels]. apply sumn_ext. intros v Hv. symmetry. rewrite <-(filter_no l out Hno) at 1. apply (slice_sum l tops (tops' v) Hg v); [by apply H| | |].
    - intros a Ha. by rewrite upd_ne.
    - apply upd_eq.
    - intros a Ha Hal. rewrite upd_ne by done. by apply env_of_range.
  Qed.
End SliceSum.

Section Calls.
  Context {K : semiring}.
  Notation tens := (tensor K).
  Lemma slice_call (B' : backend K) ord' e e' s' (ops ops' : list tens) ub' opt' mem' l v : backend_ok B' -> b_has_einsum B' = true -> (forall x, ord' x ≡ₚ elements x) ->
    e_in e <> [] -> well_formed e (shape <$> ops) -> plain_eqn e' -> filter (.≠ c_space) s' = render e' -> well_formed e' (shape <$> ops') ->
    let tops := zip (in_labels e (shape <$> ops)) ops in let tops' := zip (in_labels e' (shape <$> ops')) ops' in
    good tops -> length (remove_dups (labels_of tops)) <= 52 -> Forall2 (sliced l v) tops tops' -> mem_valid mem' -> strategy_ok opt' (length ops') ->
    exists T', contract ord' B' ub' opt' mem' s' ops' = Ok T' /\ T' ≡ₜ einsum tops' (out_labels e' (shape <$> ops')).
  Proof.
    intros HB He Ho Hne Hwf Hpl' Hs' Hwf' tops tops' Hg Hsz Hsl Hm Hst. apply contract_ok; try done.
    - intros E0. pose proof (wf_count _ _ Hwf) as H1. pose proof (wf_count _ _ Hwf') as H2. rewrite fmap_length in H1. rewrite E0 in H2. apply Forall2_length in Hsl. unfold tops, tops', in_labels in Hsl. rewrite E0 in Hsl.
      rewrite !zip_with_length, !fmap_length in Hsl. cbn [zip zip_with length] in Hsl. assert (length (e_in e) <> 0) by (by destruct (e_in e)). lia.
    - by eapply slice_good.
    - etrans; [|exact Hsz]. apply submseteq_length, NoDup_submseteq; [apply NoDup_remove_dups|]. intros a. rewrite !elem_of_remove_dups. destruct (slice_axes l tops tops' Hg v Hsl) as (_ & Hlab & _).
      fold tops'. rewrite Hlab, elem_of_list_filter. tauto.
  Qed.
End Calls.

(** An index of the result can be fixed before or after: contracting the operands with the index [l] fixed to [v] gives the result with [l] fixed to [v].
    The two calls may differ in everything else; [l] may also be an axis an ellipsis stands for. *)
Theorem C81_fixed (K : semiring) (B B' : backend K) (ord ord' : gset N -> list N) (e e' : eqn) (s s' : str) (ops ops' : list (tensor K)) (l : elabel) (v : nat) (ub ub' : bool) (opt opt' : optimize_arg) (mem mem' : memory_arg) :
  backend_ok B -> b_has_einsum B = true -> (forall x, ord x ≡ₚ elements x) -> backend_ok B' -> b_has_einsum B' = true -> (forall x, ord' x ≡ₚ elements x) ->
  e_in e <> [] -> plain_eqn e -> filter (.≠ c_space) s = render e -> well_formed e (shape <$> ops) -> plain_eqn e' -> filter (.≠ c_space) s' = render e' -> well_formed e' (shape <$> ops') ->
  let tops := zip (in_labels e (shape <$> ops)) ops in let tops' := zip (in_labels e' (shape <$> ops')) ops' in
  let out := out_labels e (shape <$> ops) in let out' := out_labels e' (shape <$> ops') in
  good tops -> length (remove_dups (labels_of tops)) <= 52 ->
  l ∈ out -> v < dim tops l -> Forall2 (sliced l v) tops tops' -> out' = filter (.≠ l) out ->
  mem_valid mem -> strategy_ok opt (length ops) -> mem_valid mem' -> strategy_ok opt' (length ops') ->
  exists T T', contract ord B ub opt mem s ops = Ok T /\ contract ord' B' ub' opt' mem' s' ops' = Ok T' /\ sliced l v (out, T) (out', T').
Proof.
  intros HB He Ho HB' He' Ho' Hne Hpl Hs Hwf Hpl' Hs' Hwf' tops tops' out out' Hg Hsz Hl Hv Hsl Hout Hm Hst Hm' Hst'.
  destruct (contract_ok ord Ho B HB e s ops Hne Hpl Hs Hwf ub opt mem Hg Hm Hst He Hsz) as (T & HT & ET).
  destruct (slice_call B' ord' e e' s' ops ops' ub' opt' mem' l v) as (T' & HT' & ET'); try done. fold tops out in ET. fold tops' out' in ET'.
  exists T, T'. split; [done|]. split; [done|]. destruct (slice_einsum_out l tops tops' Hg v out Hsl Hl Hv) as [_ E]. rewrite <-Hout in E. split; [done|]. cbn [fst snd] in *.
  destruct ET as [Es Eg], ET' as [Es' Eg'], E as [E1 E2]. cbn [shape get einsum] in E1, E2, Es, Es'. split; [cbn [shape]; by rewrite Es', E1, Es|].
  intros cs Hcs. rewrite Eg' by done. cbn [get einsum]. rewrite E2 by (by rewrite <-Es'). symmetry. rewrite Es. apply Eg. rewrite Es. apply weave_range; [|done]. by rewrite <-E1, <-Es'.
Qed.
Print Assumptions C81_fixed.
(** An index that is summed can be summed last: the result is the sum, over the values of the index, of the contractions with the index fixed. *)
Theorem C81_sum (K : semiring) (B B' : backend K) (ord ord' : gset N -> list N) (e e' : eqn) (s s' : str) (ops : list (tensor K)) (ops' : nat -> list (tensor K)) (l : elabel) (ub ub' : bool) (opt opt' : optimize_arg) (mem mem' : memory_arg) :
  backend_ok B -> b_has_einsum B = true -> (forall x, ord x ≡ₚ elements x) -> backend_ok B' -> b_has_einsum B' = true -> (forall x, ord' x ≡ₚ elements x) ->
  e_in e <> [] -> plain_eqn e -> filter (.≠ c_space) s = render e -> well_formed e (shape <$> ops) -> plain_eqn e' -> filter (.≠ c_space) s' = render e' ->
  let tops := zip (in_labels e (shape <$> ops)) ops in let tops' v := zip (in_labels e' (shape <$> ops' v)) (ops' v) in
  let out := out_labels e (shape <$> ops) in
  good tops -> length (remove_dups (labels_of tops)) <= 52 -> l ∈ labels_of tops -> l ∉ out ->
  (forall v, v < dim tops l -> well_formed e' (shape <$> ops' v) /\ Forall2 (sliced l v) tops (tops' v) /\ out_labels e' (shape <$> ops' v) = out) ->
  mem_valid mem -> strategy_ok opt (length ops) -> mem_valid mem' -> (forall v, strategy_ok opt' (length (ops' v))) ->
  exists T, contract ord B ub opt mem s ops = Ok T /\ (forall v, v < dim tops l -> exists T', contract ord' B' ub' opt' mem' s' (ops' v) = Ok T' /\ shape T' = shape T) /\
    forall T', (forall v, v < dim tops l -> contract ord' B' ub' opt' mem' s' (ops' v) = Ok (T' v)) -> forall cs, in_range cs (shape T) -> get T cs = sumn (dim tops l) (fun v => get (T' v) cs).
Proof.
  intros HB He Ho HB' He' Ho' Hne Hpl Hs Hwf Hpl' Hs' tops tops' out Hg Hsz Hl Hno Hv Hm Hst Hm' Hst'.
  destruct (contract_ok ord Ho B HB e s ops Hne Hpl Hs Hwf ub opt mem Hg Hm Hst He Hsz) as (T & HT & ET).
  assert (Hcall : forall v, v < dim tops l -> exists T', contract ord' B' ub' opt' mem' s' (ops' v) = Ok T' /\ T' ≡ₜ einsum (tops' v) out).
  { intros v Hlt. destruct (Hv v Hlt) as (Hwf' & Hsl & Hout). rewrite <-Hout. by apply (slice_call B' ord' e e' s' ops (ops' v) ub' opt' mem' l v). }
  fold tops out in ET. destruct ET as [Es Eg]. cbn [shape einsum] in Es.
  assert (Hsh : forall v T', v < dim tops l -> T' ≡ₜ einsum (tops' v) out -> shape T' = shape T).
  { intros v T' Hlt [E _]. rewrite E, Es. cbn [shape einsum]. apply list_fmap_ext. intros i a Ha%elem_of_list_lookup_2. apply (slice_dim l tops (tops' v) Hg v); [by apply Hv|congruence]. }
  exists T. split; [done|]. split.
  - intros v Hlt. destruct (Hcall v Hlt) as (T' & HT' & ET'). eauto.
  - intros T' HT' cs Hcs. rewrite Eg by done. rewrite (slice_einsum_sum l tops tops'); [|done..|intros v Hlt; by apply Hv|by rewrite <-Es].
    apply sumn_ext. intros v Hlt. destruct (Hcall v Hlt) as (T1 & HT1 & ET1). rewrite HT' in HT1 by done. apply Ok_inj in HT1 as <-. symmetry. apply ET1. by rewrite (Hsh v).
Qed.
Print Assumptions C81_sum.

(** 'ab,bc->ac' with c fixed to 2, and with b fixed to 0, 1 and 2. *)
Definition s81_x : tensor nat_semiring := arr [2; 3] (seq 1 6 : list nat_semiring).
Definition s81_y : tensor nat_semiring := arr [3; 4] (seq 1 12 : list nat_semiring).
Definition s81_col (j : nat) (x : tensor nat_semiring) : tensor nat_semiring := Tensor [nth 0 (shape x) 0] (fun cs => get x [nth 0 cs 0; j]).
Definition s81_row (i : nat) (x : tensor nat_semiring) : tensor nat_semiring := Tensor [nth 1 (shape x) 0] (fun cs => get x [i; nth 0 cs 0]).
Definition s81_named (t : str) : list elabel := Named <$> t.
Example C81_hypothesis :
  let b := Named 98%N in let c := Named 99%N in
  let tops := [(s81_named (lit "ab"), s81_x); (s81_named (lit "bc"), s81_y)] in
  good tops /\ dim tops b = 3 /\ dim tops c = 4 /\
  Forall2 (sliced c 2) tops [(s81_named (lit "ab"), s81_x); (s81_named (lit "b"), s81_col 2 s81_y)] /\
  forall v, Forall2 (sliced b v) tops [(s81_named (lit "a"), s81_col v s81_x); (s81_named (lit "c"), s81_row v s81_y)].
Proof.
  cbn zeta. split; [apply good_check_ok; by vm_compute|]. split; [by vm_compute|]. split; [by vm_compute|]. split; [|intros v]; repeat apply Forall2_cons_2; try apply Forall2_nil_2; (split; [done|split; [done|]]); intros cs Hcs; cbn in Hcs.
  - inversion Hcs as [|i ? ? ? _ H1]; subst. inversion H1 as [|j ? ? ? _ H2]; subst. inversion H2; subst. done.
  - inversion Hcs as [|i ? ? ? _ H1]; subst. inversion H1; subst. done.
  - inversion Hcs as [|i ? ? ? _ H1]; subst. inversion H1; subst. done.
  - inversion Hcs as [|i ? ? ? _ H1]; subst. inversion H1; subst. done.
Qed.
Definition s81_data (r : res (tensor nat_semiring)) := match r with Ok T => Some (shape T, entries T) | Err _ => None end.
Definition s81_run (s : str) (ops : list (tensor nat_semiring)) := s81_data (contract ord0 (ref_backend nat_semiring true) true (OPath [[0; 1]]) MNone s ops).
Example C81_instance :
  s81_run (lit "ab,bc->ac") [s81_x; s81_y] = Some ([2; 4], [38; 44; 50; 56; 83; 98; 113; 128]) /\
  s81_run (lit "ab,b->a") [s81_x; s81_col 2 s81_y] = Some ([2], [50; 113]) /\
  s81_run (lit "a,c->ac") [s81_col 0 s81_x; s81_row 0 s81_y] = Some ([2; 4], [1; 2; 3; 4; 4; 8; 12; 16]) /\
  s81_run (lit "a,c->ac") [s81_col 1 s81_x; s81_row 1 s81_y] = Some ([2; 4], [10; 12; 14; 16; 25; 30; 35; 40]) /\
  s81_run (lit "a,c->ac") [s81_col 2 s81_x; s81_row 2 s81_y] = Some ([2; 4], [27; 30; 33; 36; 54; 60; 66; 72]).
Proof. split_and!; by vm_compute. Qed.
