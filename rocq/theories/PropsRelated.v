(** Property C89: relations between entries that sums and products keep; statement, with concrete instances. *)
From Verif Require Import Prelude Einsum EinsumFacts EinsumOps Parser Helpers Contract Spec PathSpec StringFacts SymbolFacts StepFacts ContractFacts PathFacts ParserFacts ParseSpec ParseProof ParseSound TopFacts ContractMain RefBackend PropsContract PropsCompose PropsOnes.

(** A relation between the entries of two kinds that zero, one, sums and products keep; for instance [<=] on natural numbers, or a number being enclosed by an interval. *)
Record carries {K K' : semiring} (R : K -> K' -> Prop) : Prop := Carries {
  carries_zero : R szero szero; carries_one : R sone sone;
  carries_add : forall x x' y y', R x x' -> R y y' -> R (sadd x y) (sadd x' y'); carries_mul : forall x x' y y', R x x' -> R y y' -> R (smul x y) (smul x' y') }.
(** Arrays of one shape with related entries. *)
Definition t_rel {K K' : Type} (R : K -> K' -> Prop) (x : tensor K) (y : tensor K') : Prop := shape y = shape x /\ forall cs, in_range cs (shape x) -> R (get x cs) (get y cs).

Section Related.
  Context {K K' : semiring} (R : K -> K' -> Prop) (HR : carries R) {L : Type} `{EqDecision L}.
  Definition op_rel (p : list L * tensor K) (q : list L * tensor K') : Prop := q.1 = p.1 /\ t_rel R p.2 q.2.
  Lemma carries_sumn d (f : nat -> K) (g : nat -> K') : (forall v, v < d -> R (f v) (g v)) -> R (sumn d f) (sumn d g).
  Proof.
    intros H. unfold sumn. assert (Hl : forall v, v ∈ seq 0 d -> R (f v) (g v)) by (intros v Hv; apply H; apply elem_of_seq in Hv; lia). clear H. revert Hl. generalize (seq 0 d). intros l Hl. induction l as [|v l IH]; cbn; [apply carries_zero, HR|].
    apply (carries_add R HR); [apply Hl; left|]. apply IH. intros u Hu. apply Hl. by right.
  Qed.
  Lemma carries_prodl (l : list K) (l' : list K') : Forall2 R l l' -> R (prodl l) (prodl l').
  Proof. induction 1; cbn; [apply carries_one, HR|by apply (carries_mul R HR)]. Qed.
  Lemma carries_sum_labels dm (ls : list L) (f : (L -> nat) -> K) (g : (L -> nat) -> K') e :
    (forall e', (forall l, l ∉ ls -> e' l = e l) -> (forall l, l ∈ ls -> e' l < dm l) -> R (f e') (g e')) -> R (sum_labels dm ls f e) (sum_labels dm ls g e).
  Proof.
    revert e. induction ls as [|l ls IH]; intros e H; cbn; [apply H; [done|by intros l ?%elem_of_nil]|]. apply carries_sumn. intros v Hv. apply IH. intros e' Hno Hin. apply H.
    - intros x [H1 H2]%not_elem_of_cons. rewrite Hno by done. by apply upd_ne.
    - intros x Hx. destruct (decide (x ∈ ls)) as [|Hn]; [by apply Hin|]. apply elem_of_cons in Hx as [->|?]; [|done]. rewrite Hno by done. by rewrite upd_eq.
  Qed.
  Lemma rel_axes tops tops' : Forall2 op_rel tops tops' -> axes_of tops' = axes_of tops.
  Proof. unfold axes_of. induction 1 as [|p q tops tops' (H1 & H2 & _) _ IH]; [done|]. by rewrite !bind_cons, H1, H2, IH. Qed.
  Lemma rel_labels tops tops' : Forall2 op_rel tops tops' -> labels_of tops' = labels_of tops.
  Proof. unfold labels_of. induction 1 as [|p q tops tops' (H1 & _) _ IH]; [done|]. by rewrite !bind_cons, H1, IH. Qed.
  Lemma rel_dim tops tops' l : Forall2 op_rel tops tops' -> dim tops' l = dim tops l.
  Proof. intros H. unfold dim, dims_of. by rewrite (rel_axes _ _ H). Qed.
  Lemma rel_good tops tops' : Forall2 op_rel tops tops' -> good tops -> good tops'.
  Proof.
    intros H [Hr Hc Hd Hz]. constructor.
    - apply Forall_forall. intros q Hq. apply elem_of_list_lookup in Hq as (k & Hk). destruct (Forall2_lookup_r _ _ _ _ _ H Hk) as (p & Hp & H1 & H2 & _). rewrite H1, H2. unfold ranked in Hr. rewrite Forall_forall in Hr. apply Hr. by eapply elem_of_list_lookup_2.
    - unfold compat. by rewrite (rel_axes _ _ H).
    - intros p' i j c d d' Hp' Hi Hj Hdi Hdj. apply elem_of_list_lookup in Hp' as (k & Hk). destruct (Forall2_lookup_r _ _ _ _ _ H Hk) as (p & Hp & H1 & H2 & _). rewrite H1 in Hi, Hj. rewrite H2 in Hdi, Hdj. eapply (Hd p i j c); eauto using elem_of_list_lookup_2.
    - intros l. rewrite !(rel_axes _ _ H). apply Hz.
  Qed.
  Lemma rel_einsum tops tops' out : Forall2 op_rel tops tops' -> ranked tops -> compat tops -> (forall l, l ∈ out -> l ∈ labels_of tops) -> t_rel R (einsum tops out) (einsum tops' out).
  Proof.
    intros H Hr Hc Ho. split; [cbn; apply list_fmap_ext; intros; by apply rel_dim|]. cbn [shape get einsum]. intros cs Hcs. unfold esum. assert (summed tops' out = summed tops out) as -> by (unfold summed; by rewrite (rel_labels _ _ H)).
    rewrite (sum_labels_ext (dim tops') (dim tops) _ _ (fun e => prodl (term e <$> tops'))); [|intros; by apply rel_dim|done]. apply carries_sum_labels. intros e Hno Hin. apply carries_prodl.
    assert (He : forall l, l ∈ labels_of tops -> e l < dim tops l).
    { intros l Hl. destruct (decide (l ∈ out)) as [Hlo|Hlo]; [|apply Hin; by apply elem_of_summed]. rewrite Hno by (rewrite elem_of_summed; tauto). by apply env_of_range. }
    apply Forall2_fmap. apply Forall2_same_length_lookup_2; [by eapply Forall2_length|]. intros i p q Hp Hq. destruct (Forall2_lookup_l _ _ _ _ _ H Hp) as (q' & Hq' & H1 & H2 & H3). rewrite Hq in Hq'. injection Hq' as <-.
    assert (Hpt : p ∈ tops) by (by eapply elem_of_list_lookup_2). unfold term. rewrite H1, H2. apply H3. apply (coords_in_range tops); [done|done|done|]. intros l Hl. apply He. apply elem_of_labels. eauto.
  Qed.
End Related.

(** C89.  Entries related by a relation that sums and products keep: the entries of the results are related. *)
Theorem C89_related (K K' : semiring) (R : K -> K' -> Prop) (B : backend K) (B' : backend K') (ord ord' : gset N -> list N) (e : eqn) (s : str) (ops : list (tensor K)) (ops' : list (tensor K')) (ub ub' : bool) (opt opt' : optimize_arg) (mem mem' : memory_arg) :
  carries R -> backend_ok B -> b_has_einsum B = true -> (forall z, ord z ≡ₚ elements z) -> backend_ok B' -> b_has_einsum B' = true -> (forall z, ord' z ≡ₚ elements z) ->
  e_in e <> [] -> plain_eqn e -> filter (.≠ c_space) s = render e -> well_formed e (shape <$> ops) ->
  let tops := zip (in_labels e (shape <$> ops)) ops in good tops -> length (remove_dups (labels_of tops)) <= 52 -> Forall2 (t_rel R) ops ops' ->
  mem_valid mem -> strategy_ok opt (length ops) -> mem_valid mem' -> strategy_ok opt' (length ops) ->
  exists T T', contract ord B ub opt mem s ops = Ok T /\ contract ord' B' ub' opt' mem' s ops' = Ok T' /\ t_rel R T T'.
Proof.
  intros HR HB He Ho HB' He' Ho' Hne Hpl Hs Hwf tops Hg Hsz Hrel Hm Hst Hm' Hst'.
  destruct (contract_ok ord Ho B HB e s ops Hne Hpl Hs Hwf ub opt mem Hg Hm Hst He Hsz) as (T & HT & ET).
  assert (Esh : shape <$> ops' = shape <$> ops) by (clear -Hrel; induction Hrel as [|x y ? ? [H _] _ IH]; [done|]; cbn; by rewrite H, IH).
  assert (Etops : Forall2 (op_rel R) tops (zip (in_labels e (shape <$> ops')) ops')).
  { rewrite Esh. unfold tops. generalize (in_labels e (shape <$> ops)). clear -Hrel. intros ls. revert ls. induction Hrel as [|x y ops ops' Hxy _ IH]; intros [|l ls]; cbn; [constructor..|]. constructor; [by split|apply IH]. }
  assert (Hlen : length ops' = length ops) by (symmetry; by eapply Forall2_length).
  destruct (contract_ok ord' Ho' B' HB' e s ops') with (use_blas := ub') (opt := opt') (mem := mem') as (T' & HT' & ET'); try done.
  - by rewrite Esh.
  - by eapply rel_good.
  - by rewrite Hlen.
  - by rewrite (rel_labels _ _ _ Etops).
  - exists T, T'. split; [done|]. split; [done|]. fold tops in ET. rewrite Esh in ET'. rewrite Esh in Etops. destruct Hg as [Hr Hc _ _].
    destruct (rel_einsum R HR _ _ (out_labels e (shape <$> ops)) Etops Hr Hc) as [S1 S2]; [intros l Hl; by apply out_known|]. destruct ET as [E1 E2], ET' as [F1 F2].
    assert (Hsh : shape T' = shape T) by (by rewrite F1, E1). split; [done|]. intros cs Hcs. rewrite E2 by done. rewrite F2 by (by rewrite Hsh). apply S2. by rewrite <-E1.
Qed.
Print Assumptions C89_related.

(** Larger natural numbers give larger results. *)
Example C89_le : carries (fun x y : nat_semiring => (x : nat) <= (y : nat)).
Proof. constructor; cbn; [lia|lia|intros; lia|intros; by apply Nat.mul_le_mono]. Qed.
Definition ex89_a : tensor nat_semiring := arr [2; 2] ([0; 2; 0; 1] : list nat_semiring).
Definition ex89_a' : tensor nat_semiring := arr [2; 2] ([1; 2; 0; 3] : list nat_semiring).
Definition ex89_b : tensor nat_semiring := arr [2; 2] ([1; 1; 0; 3] : list nat_semiring).
Example C89_hypotheses : let e := s83_eqn [lit "ab"; lit "bc"] (lit "ac") in let ops := [ex89_a; ex89_b] in
  plain_eqn e /\ well_formed e (shape <$> ops) /\ good (s83_tops e ops) /\ length (remove_dups (labels_of (s83_tops e ops))) <= 52 /\ Forall2 (t_rel (fun x y : nat_semiring => (x : nat) <= (y : nat))) ops [ex89_a'; ex89_b].
Proof.
  cbn zeta. split; [apply plain_check_ok; by vm_compute|]. split; [apply wf_check_ok; by vm_compute|]. split; [apply good_check_ok; by vm_compute|]. split; [apply (bool_decide_unpack _); by vm_compute|].
  apply Forall2_cons. split; [|apply Forall2_cons; split; [by split|by apply Forall2_nil_2]]. split; [done|]. intros cs Hcs. change (in_range cs [2; 2]) in Hcs. unfold in_range in Hcs.
  inversion Hcs as [|c1 ? cs1 ? L1 H1]; subst. inversion H1 as [|c2 ? cs2 ? L2 H2]; subst. inversion H2; subst. clear -L1 L2. do 2 (destruct c1 as [|c1]; [do 2 (destruct c2 as [|c2]; [vm_compute; lia|]); lia|]); lia.
Qed.
Example C89_instance :
  s83_run (lit "ab,bc->ac") [ex89_a; ex89_b] = Some ([2; 2], [0; 6; 0; 3]) /\ s83_run (lit "ab,bc->ac") [ex89_a'; ex89_b] = Some ([2; 2], [1; 7; 0; 9]).
Proof. split_and!; by vm_compute. Qed.
