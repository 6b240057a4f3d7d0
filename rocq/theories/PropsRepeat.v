(** Property C87: axes of size one; statements, each with a concrete instance. *)
From Verif Require Import Prelude Einsum EinsumFacts EinsumOps Parser Helpers Contract Spec PathSpec StringFacts SymbolFacts StepFacts ContractFacts PathFacts ParserFacts ParseSpec ParseProof ParseSound TopFacts ContractMain RefBackend PropsContract PropsCompose PropsOnes PropsBlocks.

(** [q] is the operand [p], some axes of size one replaced by axes with as many equal entries as [D] says. *)
Definition repeated {K : semiring} {L : Type} (D : L -> nat) (p q : list L * tensor K) : Prop :=
  q.1 = p.1 /\ length (shape p.2) = length p.1 /\ length (shape q.2) = length p.1 /\
  (forall i a d d', p.1 !! i = Some a -> shape p.2 !! i = Some d -> shape q.2 !! i = Some d' -> d' = d \/ d = 1 /\ d' = D a) /\
  forall cs, in_range cs (shape q.2) -> get q.2 cs = get p.2 (zip_with (fun c d => if decide (d = 1) then 0 else c) cs (shape p.2)).
(** [q] is the operand [p] without one axis of size one labelled [l]. *)
Definition squeezed {K : semiring} {L : Type} (l : L) (p q : list L * tensor K) : Prop :=
  exists t1 t2 s1 s2, p.1 = t1 ++ l :: t2 /\ shape p.2 = s1 ++ 1 :: s2 /\ q.1 = t1 ++ t2 /\ shape q.2 = s1 ++ s2 /\ length t1 = length s1 /\
    forall c1 c2, in_range c1 s1 -> in_range c2 s2 -> get q.2 (c1 ++ c2) = get p.2 (c1 ++ 0 :: c2).

Section Repeat.
  Context {K : semiring} {L : Type} `{EqDecision L}.
  Notation tens := (tensor K).
  Notation operand := (list L * tens)%type.
  Implicit Types (P Q : list operand) (out : list L).

  Lemma same_einsum P Q out : (forall a, a ∈ labels_of Q <-> a ∈ labels_of P) -> (forall a, a ∈ labels_of P -> dim Q a = dim P a) -> (forall a, a ∈ out -> a ∈ labels_of P) ->
    (forall e, (forall a, a ∈ labels_of P -> e a < dim P a) -> prodl (term e <$> Q) = prodl (term e <$> P)) -> einsum P out ≡ₜ einsum Q out.
  Proof.
    intros Hl Hd Ho Ht. split.
    - cbn. apply list_fmap_ext. intros i a Ha%elem_of_list_lookup_2. symmetry. by apply Hd, Ho.
    - cbn [shape get einsum]. intros cs Hcs. unfold esum. rewrite (sum_labels_perm (dim Q) _ (summed P out) _ _ _ (prod_dep Q) (NoDup_summed _ _)).
      2: { apply NoDup_Permutation; [apply NoDup_summed..|]. intros a. by rewrite !elem_of_summed, Hl. }
      apply sum_labels_ext; [intros a [Ha _]%elem_of_summed; symmetry; by apply Hd|]. intros e Hno Hin. symmetry. apply Ht. intros a Ha.
      destruct (decide (a ∈ out)) as [Hao|Hao]; [|apply Hin; by apply elem_of_summed]. rewrite Hno by (rewrite elem_of_summed; tauto). by apply env_of_range.
  Qed.
  Lemma same_prod P Q (R : operand -> operand -> Prop) e : Forall2 R P Q -> (forall p q, p ∈ P -> q ∈ Q -> R p q -> term e q = term e p) -> prodl (term e <$> Q) = prodl (term e <$> P).
  Proof.
    intros Hb Ht. f_equal. apply list_eq. intros i. rewrite !list_lookup_fmap. destruct (Q !! i) as [q|] eqn:Eq.
    - destruct (Forall2_lookup_r _ _ _ _ _ Hb Eq) as (p & Ep & Hpq). rewrite Ep. cbn. f_equal. apply Ht; [by eapply elem_of_list_lookup_2..|done].
    - apply lookup_ge_None in Eq. rewrite <-(Forall2_length _ _ _ Hb) in Eq. apply lookup_ge_None in Eq. by rewrite Eq.
  Qed.
  Lemma elem_of_axes P a d : (a, d) ∈ axes_of P <-> exists p, p ∈ P /\ (a, d) ∈ zip p.1 (shape p.2).
  Proof. unfold axes_of. rewrite elem_of_list_bind. naive_solver. Qed.
  Lemma elem_of_zip_lookup (t : list L) (s : list nat) a d : (a, d) ∈ zip t s <-> exists i, t !! i = Some a /\ s !! i = Some d.
  Proof. rewrite elem_of_list_lookup. setoid_rewrite lookup_zip_with_Some. naive_solver. Qed.

  Lemma repeated_labels_of (D : L -> nat) P Q : Forall2 (repeated D) P Q -> labels_of Q = labels_of P.
  Proof. unfold labels_of. induction 1 as [|p q P' Q' (H1 & _) _ IH]; [done|]. by rewrite !bind_cons, H1, IH. Qed.

  Section Repeated.
    Context (P Q : list operand).
    Hypothesis Hb : Forall2 (repeated (dim P)) P Q.
    Hypothesis Hc : compat P.
    Lemma repeated_labels : labels_of Q = labels_of P.
    Proof. eapply repeated_labels_of, Hb. Qed.
    Lemma repeated_dim a : dim Q a = dim P a.
    Proof.
      destruct (dim_char P a Hc) as [Ha Hx]. apply dim_unique.
      - intros d (q & Hq & (i & E1 & E2)%elem_of_zip_lookup)%elem_of_axes. apply elem_of_list_lookup in Hq as (k & Hq). destruct (Forall2_lookup_r _ _ _ _ _ Hb Hq) as (p & Hp & R1 & R2 & R3 & R4 & _).
        rewrite R1 in E1. destruct (lookup_lt_is_Some_2 (shape p.2) i) as [d0 E0]; [rewrite R2; by apply lookup_lt_Some in E1|].
        assert (Hd0 : (a, d0) ∈ axes_of P) by (apply elem_of_axes; exists p; split; [by eapply elem_of_list_lookup_2|]; apply elem_of_zip_lookup; eauto).
        destruct (R4 i a d0 d E1 E0 E2) as [->|[_ ->]]; [by apply Ha|by right].
      - destruct Hx as [->|Hx]; [by left|]. right. apply elem_of_axes in Hx as (p & Hp & (i & E1 & E2)%elem_of_zip_lookup). apply elem_of_list_lookup in Hp as (k & Hp).
        destruct (Forall2_lookup_l _ _ _ _ _ Hb Hp) as (q & Hq & R1 & R2 & R3 & R4 & _). destruct (lookup_lt_is_Some_2 (shape q.2) i) as [d0 E0]; [rewrite R3; by apply lookup_lt_Some in E1|].
        apply elem_of_axes. exists q. split; [by eapply elem_of_list_lookup_2|]. apply elem_of_zip_lookup. exists i. rewrite R1. split; [done|]. destruct (R4 i a _ d0 E1 E2 E0) as [->|[E ->]]; done.
    Qed.
    Lemma repeated_term p q e : ranked Q -> compat Q -> q ∈ Q -> (forall a, a ∈ q.1 -> e a < dim Q a) -> repeated (dim P) p q -> term e q = term e p.
    Proof.
      intros HrQ HcQ Hq He (R1 & R2 & R3 & R4 & R5). unfold term. rewrite R5 by (by apply (coords_in_range Q)). f_equal. rewrite R1. unfold coords. apply list_eq. intros i. rewrite !lookup_zip_with.
      destruct (p.1 !! i) as [a|] eqn:E1; cbn; [|done]. destruct (lookup_lt_is_Some_2 (shape p.2) i) as [d E2]; [rewrite R2; by apply lookup_lt_Some in E1|].
      destruct (lookup_lt_is_Some_2 (shape q.2) i) as [d' E3]; [rewrite R3; by apply lookup_lt_Some in E1|]. rewrite E2, E3. cbn. f_equal.
      destruct (decide (d = 1)) as [|Hd]; [done|]. destruct (R4 i a d d' E1 E2 E3) as [->|[? _]]; [by rewrite decide_False|done].
    Qed.
  End Repeated.

  Lemma squeezed_other l a P Q : a <> l -> Forall2 (fun p q => q = p \/ squeezed l p q) P Q -> a ∈ labels_of Q <-> a ∈ labels_of P.
  Proof.
    intros Hne. induction 1 as [|p q P' Q' R _ IH]; [done|]. unfold labels_of in *. rewrite !bind_cons, !elem_of_app, IH. destruct R as [->|(t1 & t2 & s1 & s2 & -> & _ & -> & _)]; [done|]. set_solver.
  Qed.
  Lemma squeezed_axes_of l a d P Q : Forall2 (fun p q => q = p \/ squeezed l p q) P Q -> a <> l \/ d <> 1 -> (a, d) ∈ axes_of Q <-> (a, d) ∈ axes_of P.
  Proof.
    intros HR Hd. induction HR as [|p q P' Q' R _ IH]; [done|]. unfold axes_of in *. rewrite !bind_cons, !elem_of_app, IH. destruct R as [->|(t1 & t2 & s1 & s2 & -> & -> & -> & -> & Hlen & _)]; [done|].
    rewrite !zip_with_app by done. cbn. rewrite !elem_of_app, elem_of_cons. assert ((a, d) <> (l, 1)) by (destruct Hd; congruence). tauto.
  Qed.

  Section Squeezed.
    Context (l : L) (P Q : list operand).
    Hypothesis Hb : Forall2 (fun p q => q = p \/ squeezed l p q) P Q.
    Hypothesis Hc : compat P.
    Hypothesis Hl : l ∈ labels_of Q.
    Lemma squeezed_labels a : a ∈ labels_of Q <-> a ∈ labels_of P.
    Proof.
      destruct (decide (a = l)) as [->|Hne].
      - split; [intros _|done]. clear Hc. apply elem_of_labels in Hl as (q & Hq & Hlq). apply elem_of_list_lookup in Hq as (k & Hq). destruct (Forall2_lookup_r _ _ _ _ _ Hb Hq) as (p & Hp & R).
        apply elem_of_labels. exists p. split; [by eapply elem_of_list_lookup_2|]. destruct R as [->|(t1 & t2 & s1 & s2 & -> & _)]; [done|]. set_solver.
      - by apply (squeezed_other l).
    Qed.
    Lemma squeezed_axes a d : a <> l \/ d <> 1 -> (a, d) ∈ axes_of Q <-> (a, d) ∈ axes_of P.
    Proof.
      by apply squeezed_axes_of.
    Qed.
    Lemma squeezed_dim a : dim Q a = dim P a.
    Proof.
      destruct (dim_char P a Hc) as [Ha Hx]. apply dim_unique.
      - intros d Hd. destruct (decide (d = 1)) as [->|H1]; [by left|]. apply Ha. apply squeezed_axes; [by right|done].
      - destruct Hx as [->|Hx]; [by left|]. destruct (decide (dim P a = 1)) as [|H1]; [by left|]. right. apply squeezed_axes; [by right|done].
    Qed.
    Lemma squeezed_term p q e : ranked Q -> compat Q -> q ∈ Q -> (forall a, a ∈ q.1 -> e a < dim Q a) -> q = p \/ squeezed l p q -> term e q = term e p.
    Proof.
      intros HrQ HcQ Hq He [->|(t1 & t2 & s1 & s2 & H1 & H2 & H3 & H4 & Hlen & Hg)]; [done|].
      assert (Hr : in_range (coords q.1 (shape q.2) e) (shape q.2)) by (by apply (coords_in_range Q)).
      unfold term. rewrite H1, H2, H3, H4 in *. unfold coords in *. rewrite !zip_with_app in * by done. cbn.
      assert (Hl1 : length (zip_with (fun (a : L) (d : nat) => if decide (d = 1) then 0 else e a) t1 s1) = length s1) by (rewrite zip_with_length; lia).
      unfold in_range in Hr. apply Forall2_app_inv in Hr as [Hr1 Hr2]; [|done]. by apply Hg.
    Qed.
  End Squeezed.
  (** The label is nowhere else: the sum over it has one term. *)
  Lemma dropped_einsum l P Q out : Forall2 (fun p q => q = p \/ squeezed l p q) P Q -> compat P -> ranked Q -> compat Q -> l ∈ labels_of P -> l ∉ labels_of Q -> l ∉ out -> (forall a, a ∈ out -> a ∈ labels_of Q) -> einsum P out ≡ₜ einsum Q out.
  Proof.
    intros Hb Hc HrQ HcQ HlP HlQ Hlo Ho.
    assert (Hd : forall a, dim Q a = dim P a) by (intros a; by apply (squeezed_dim l)).
    assert (H1 : dim P l = 1).
    { destruct (dim_char P l Hc) as [_ [?|Hx]]; [done|]. destruct (decide (dim P l = 1)) as [|Hn]; [done|]. exfalso. apply HlQ. apply (squeezed_axes_of l l (dim P l) P Q Hb) in Hx; [|by right].
      apply elem_of_axes in Hx as (q & Hq & (i & E1 & _)%elem_of_zip_lookup). apply elem_of_labels. exists q. split; [done|by eapply elem_of_list_lookup_2]. }
    split; [cbn; apply list_fmap_ext; intros; by rewrite Hd|]. intros cs Hcs. rewrite (sum_first l P out cs HlP Hlo), H1, sumn_1. cbn [get einsum]. unfold esum. cbn [shape einsum] in Hcs.
    assert (Hp : filter (.≠ l) (summed P out) ≡ₚ summed Q out).
    { apply NoDup_Permutation; [apply NoDup_filter, NoDup_summed|apply NoDup_summed|]. intros a. rewrite elem_of_list_filter, !elem_of_summed. destruct (decide (a = l)) as [->|Hne]; [tauto|]. rewrite (squeezed_other l a P Q Hne Hb). tauto. }
    rewrite (sum_labels_perm _ _ _ _ _ _ (prod_dep P) (NoDup_filter _ _ (NoDup_summed _ _)) Hp).
    transitivity (sum_labels (dim Q) (summed Q out) (fun e => prodl (term e <$> Q)) (upd (env_of out cs) l 0)).
    - apply sum_labels_ext; [intros; by rewrite Hd|]. intros e Hno Hin. symmetry. apply (same_prod _ _ _ _ Hb). intros p q Hp' Hq R. apply (squeezed_term l Q); [done|done|done| |done].
      intros a Ha. assert (HaQ : a ∈ labels_of Q) by (apply elem_of_labels; eauto). rewrite Hd. destruct (decide (a ∈ out)) as [Hao|Hao]; [|apply Hin; by apply elem_of_summed].
      rewrite Hno by (rewrite elem_of_summed; tauto). rewrite upd_ne by (by intros ->). by apply env_of_range.
    - apply (sum_labels_dep _ _ _ _ (prod_dep Q)). intros a [Ha _]. apply upd_ne. by intros ->.
  Qed.
End Repeat.

(** C87.  Axes of size one repeated before the call: the same result. *)
Theorem C87_repeated (K : semiring) (B1 B2 : backend K) (ord1 ord2 : gset N -> list N) (e1 e2 : eqn) (s1 s2 : str) (ops1 ops2 : list (tensor K)) (ub1 ub2 : bool) (opt1 opt2 : optimize_arg) (mem1 mem2 : memory_arg) :
  backend_ok B1 -> b_has_einsum B1 = true -> (forall x, ord1 x ≡ₚ elements x) -> backend_ok B2 -> b_has_einsum B2 = true -> (forall x, ord2 x ≡ₚ elements x) ->
  e_in e1 <> [] -> plain_eqn e1 -> filter (.≠ c_space) s1 = render e1 -> well_formed e1 (shape <$> ops1) -> e_in e2 <> [] -> plain_eqn e2 -> filter (.≠ c_space) s2 = render e2 -> well_formed e2 (shape <$> ops2) ->
  let P := zip (in_labels e1 (shape <$> ops1)) ops1 in let Q := zip (in_labels e2 (shape <$> ops2)) ops2 in
  good P -> good Q -> length (remove_dups (labels_of P)) <= 52 -> Forall2 (repeated (dim P)) P Q -> out_labels e2 (shape <$> ops2) = out_labels e1 (shape <$> ops1) ->
  mem_valid mem1 -> strategy_ok opt1 (length ops1) -> mem_valid mem2 -> strategy_ok opt2 (length ops2) ->
  exists T T', contract ord1 B1 ub1 opt1 mem1 s1 ops1 = Ok T /\ contract ord2 B2 ub2 opt2 mem2 s2 ops2 = Ok T' /\ T ≡ₜ T'.
Proof.
  intros HB1 He1 Ho1 HB2 He2 Ho2 Hne1 Hpl1 Hs1 Hwf1 Hne2 Hpl2 Hs2 Hwf2 P Q Hg1 Hg2 Hsz Hb Hout Hm1 Hst1 Hm2 Hst2.
  destruct (contract_ok ord1 Ho1 B1 HB1 e1 s1 ops1 Hne1 Hpl1 Hs1 Hwf1 ub1 opt1 mem1 Hg1 Hm1 Hst1 He1 Hsz) as (T & HT & E).
  destruct (contract_ok ord2 Ho2 B2 HB2 e2 s2 ops2 Hne2 Hpl2 Hs2 Hwf2 ub2 opt2 mem2 Hg2 Hm2 Hst2 He2) as (T' & HT' & F); [fold Q; by rewrite (repeated_labels P Q Hb)|].
  exists T, T'. split; [done|]. split; [done|]. rewrite E, F, Hout. fold P Q. destruct Hg1 as [Hr Hc _ _], Hg2 as [Hr' Hc' _ _]. apply same_einsum.
  - intros a. by rewrite (repeated_labels P Q Hb).
  - intros a _. by apply repeated_dim.
  - intros a Ha. by apply out_known.
  - intros ev Hev. apply (same_prod _ _ _ _ Hb). intros p q Hp Hq R. apply (repeated_term P Q); [done|done|done| |done]. intros a Ha. rewrite (repeated_dim P Q Hb Hc). apply Hev. rewrite <-(repeated_labels P Q Hb). apply elem_of_labels. eauto.
Qed.
Print Assumptions C87_repeated.

(** Axes of size one left out, their label being on another operand: the same result. *)
Theorem C87_squeezed (K : semiring) (B1 B2 : backend K) (ord1 ord2 : gset N -> list N) (e1 e2 : eqn) (s1 s2 : str) (ops1 ops2 : list (tensor K)) (ub1 ub2 : bool) (opt1 opt2 : optimize_arg) (mem1 mem2 : memory_arg) (l : elabel) :
  backend_ok B1 -> b_has_einsum B1 = true -> (forall x, ord1 x ≡ₚ elements x) -> backend_ok B2 -> b_has_einsum B2 = true -> (forall x, ord2 x ≡ₚ elements x) ->
  e_in e1 <> [] -> plain_eqn e1 -> filter (.≠ c_space) s1 = render e1 -> well_formed e1 (shape <$> ops1) -> e_in e2 <> [] -> plain_eqn e2 -> filter (.≠ c_space) s2 = render e2 -> well_formed e2 (shape <$> ops2) ->
  let P := zip (in_labels e1 (shape <$> ops1)) ops1 in let Q := zip (in_labels e2 (shape <$> ops2)) ops2 in
  good P -> good Q -> length (remove_dups (labels_of P)) <= 52 -> Forall2 (fun p q => q = p \/ squeezed l p q) P Q -> l ∈ labels_of Q -> out_labels e2 (shape <$> ops2) = out_labels e1 (shape <$> ops1) ->
  mem_valid mem1 -> strategy_ok opt1 (length ops1) -> mem_valid mem2 -> strategy_ok opt2 (length ops2) ->
  exists T T', contract ord1 B1 ub1 opt1 mem1 s1 ops1 = Ok T /\ contract ord2 B2 ub2 opt2 mem2 s2 ops2 = Ok T' /\ T ≡ₜ T'.
Proof.
  intros HB1 He1 Ho1 HB2 He2 Ho2 Hne1 Hpl1 Hs1 Hwf1 Hne2 Hpl2 Hs2 Hwf2 P Q Hg1 Hg2 Hsz Hb Hl Hout Hm1 Hst1 Hm2 Hst2.
  assert (Hlab := squeezed_labels l P Q Hb Hl).
  destruct (contract_ok ord1 Ho1 B1 HB1 e1 s1 ops1 Hne1 Hpl1 Hs1 Hwf1 ub1 opt1 mem1 Hg1 Hm1 Hst1 He1 Hsz) as (T & HT & E).
  destruct (contract_ok ord2 Ho2 B2 HB2 e2 s2 ops2 Hne2 Hpl2 Hs2 Hwf2 ub2 opt2 mem2 Hg2 Hm2 Hst2 He2) as (T' & HT' & F).
  { etrans; [|exact Hsz]. apply submseteq_length, NoDup_submseteq; [apply NoDup_remove_dups|]. intros a. rewrite !elem_of_remove_dups. apply Hlab. }
  exists T, T'. split; [done|]. split; [done|]. rewrite E, F, Hout. fold P Q. destruct Hg1 as [Hr Hc _ _], Hg2 as [Hr' Hc' _ _]. apply same_einsum.
  - done.
  - intros a _. by apply (squeezed_dim l).
  - intros a Ha. by apply out_known.
  - intros ev Hev. apply (same_prod _ _ _ _ Hb). intros p q Hp Hq R. apply (squeezed_term l Q); [done|done|done| |done]. intros a Ha. rewrite (squeezed_dim l P Q Hb Hc). apply Hev. apply Hlab. apply elem_of_labels. eauto.
Qed.
Print Assumptions C87_squeezed.

(** Axes of size one left out, their label being summed and on no other operand: the same result. *)
Theorem C87_dropped (K : semiring) (B1 B2 : backend K) (ord1 ord2 : gset N -> list N) (e1 e2 : eqn) (s1 s2 : str) (ops1 ops2 : list (tensor K)) (ub1 ub2 : bool) (opt1 opt2 : optimize_arg) (mem1 mem2 : memory_arg) (l : elabel) :
  backend_ok B1 -> b_has_einsum B1 = true -> (forall x, ord1 x ≡ₚ elements x) -> backend_ok B2 -> b_has_einsum B2 = true -> (forall x, ord2 x ≡ₚ elements x) ->
  e_in e1 <> [] -> plain_eqn e1 -> filter (.≠ c_space) s1 = render e1 -> well_formed e1 (shape <$> ops1) -> e_in e2 <> [] -> plain_eqn e2 -> filter (.≠ c_space) s2 = render e2 -> well_formed e2 (shape <$> ops2) ->
  let P := zip (in_labels e1 (shape <$> ops1)) ops1 in let Q := zip (in_labels e2 (shape <$> ops2)) ops2 in
  good P -> good Q -> length (remove_dups (labels_of P)) <= 52 -> Forall2 (fun p q => q = p \/ squeezed l p q) P Q -> l ∈ labels_of P -> l ∉ labels_of Q -> out_labels e2 (shape <$> ops2) = out_labels e1 (shape <$> ops1) ->
  mem_valid mem1 -> strategy_ok opt1 (length ops1) -> mem_valid mem2 -> strategy_ok opt2 (length ops2) ->
  exists T T', contract ord1 B1 ub1 opt1 mem1 s1 ops1 = Ok T /\ contract ord2 B2 ub2 opt2 mem2 s2 ops2 = Ok T' /\ T ≡ₜ T'.
Proof.
  intros HB1 He1 Ho1 HB2 He2 Ho2 Hne1 Hpl1 Hs1 Hwf1 Hne2 Hpl2 Hs2 Hwf2 P Q Hg1 Hg2 Hsz Hb HlP HlQ Hout Hm1 Hst1 Hm2 Hst2.
  assert (Hk : forall a, a ∈ out_labels e2 (shape <$> ops2) -> a ∈ labels_of Q) by (intros a Ha; by apply out_known).
  destruct (contract_ok ord1 Ho1 B1 HB1 e1 s1 ops1 Hne1 Hpl1 Hs1 Hwf1 ub1 opt1 mem1 Hg1 Hm1 Hst1 He1 Hsz) as (T & HT & E).
  destruct (contract_ok ord2 Ho2 B2 HB2 e2 s2 ops2 Hne2 Hpl2 Hs2 Hwf2 ub2 opt2 mem2 Hg2 Hm2 Hst2 He2) as (T' & HT' & F).
  { etrans; [|exact Hsz]. apply submseteq_length, NoDup_submseteq; [apply NoDup_remove_dups|]. intros a. rewrite !elem_of_remove_dups. fold P Q. intros Ha. apply (squeezed_other l a P Q); [by intros ->|done|done]. }
  exists T, T'. split; [done|]. split; [done|]. rewrite E, F, <-Hout. fold P Q. destruct Hg1 as [Hr Hc _ _], Hg2 as [Hr' Hc' _ _]. apply (dropped_einsum l); try done. intros Hl. by apply HlQ, Hk.
Qed.
Print Assumptions C87_dropped.

(** 'ab,bc->ac' with a matrix of one column, the column repeated or its label left out. *)
Definition s87_m : tensor nat_semiring := arr [2; 1] ([3; 5] : list nat_semiring).
Definition s87_r : tensor nat_semiring := {| shape := [2; 3]; get := fun cs => get s87_m (zip_with (fun c d => if decide (d = 1) then 0 else c) cs [2; 1]) |}.
Definition s87_q : tensor nat_semiring := {| shape := [2]; get := fun cs => get s87_m (cs ++ [0]) |}.
Definition s87_n : tensor nat_semiring := arr [3; 2] ([1; 0; 2; 1; 0; 3] : list nat_semiring).
Definition s87_e : eqn := s83_eqn [lit "ab"; lit "bc"] (lit "ac").
Definition s87_f : eqn := s83_eqn [lit "a"; lit "bc"] (lit "ac").
Example C87_hypotheses :
  Forall (fun p => plain_eqn p.1 /\ well_formed p.1 (shape <$> p.2) /\ good (s83_tops p.1 p.2) /\ out_labels p.1 (shape <$> p.2) = Named <$> lit "ac") [(s87_e, [s87_m; s87_n]); (s87_e, [s87_r; s87_n]); (s87_f, [s87_q; s87_n])] /\
  length (remove_dups (labels_of (s83_tops s87_e [s87_m; s87_n]))) <= 52 /\ Named (nth 0 (lit "b") 0%N) ∈ labels_of (s83_tops s87_f [s87_q; s87_n]) /\
  Forall2 (repeated (dim (s83_tops s87_e [s87_m; s87_n]))) (s83_tops s87_e [s87_m; s87_n]) (s83_tops s87_e [s87_r; s87_n]) /\
  Forall2 (fun p q => q = p \/ squeezed (Named (nth 0 (lit "b") 0%N)) p q) (s83_tops s87_e [s87_m; s87_n]) (s83_tops s87_f [s87_q; s87_n]).
Proof.
  split.
  { repeat (apply Forall_cons; split); [..|by apply Forall_nil]; cbn [fst snd]; (split; [apply plain_check_ok; by vm_compute|]); (split; [apply wf_check_ok; by vm_compute|]); (split; [apply good_check_ok; by vm_compute|by vm_compute]). }
  split; [apply (bool_decide_unpack _); by vm_compute|]. split; [apply (bool_decide_unpack _); by vm_compute|]. split.
  - apply Forall2_cons. split; [|apply Forall2_cons; split; [|by apply Forall2_nil_2]].
    + split; [done|]. split; [done|]. split; [done|]. split; [|done]. intros [|[|i]] a d d' E1 E2 E3; [left; cbn in E2, E3; congruence| |done]. right. cbn in E1, E2, E3. injection E1 as <-. injection E2 as <-. injection E3 as <-. split; [done|by vm_compute].
    + split; [done|]. split; [done|]. split; [done|]. split; [intros i a d d' E1 E2 E3; left; cbn in E2, E3; congruence|]. intros cs Hcs. cbn [snd s83_tops]. f_equal. change (in_range cs [3; 2]) in Hcs.
      unfold in_range in Hcs. inversion Hcs as [|c1 ? cs1 ? ? H1]; subst. inversion H1 as [|c2 ? cs2 ? ? H2]; subst. inversion H2; subst. done.
  - apply Forall2_cons. split; [right|apply Forall2_cons; split; [by left|by apply Forall2_nil_2]].
    exists (Named <$> lit "a"), [], [2], []. split; [done|]. split; [done|]. split; [done|]. split; [done|]. split; [done|]. intros c1 c2 _ Hc2. inversion Hc2; subst. cbn. by rewrite app_nil_r.
Qed.
Example C87_instance :
  s83_run (lit "ab,bc->ac") [s87_m; s87_n] = Some ([2; 2], [9; 12; 15; 20]) /\ s83_run (lit "ab,bc->ac") [s87_r; s87_n] = Some ([2; 2], [9; 12; 15; 20]) /\ s83_run (lit "a,bc->ac") [s87_q; s87_n] = Some ([2; 2], [9; 12; 15; 20]).
Proof. split_and!; by vm_compute. Qed.
(** 'adb,bc->ac' with [d] of size one, the label left out. *)
Definition s87_d : tensor nat_semiring := arr [2; 1; 3] (seq 1 6 : list nat_semiring).
Definition s87_k : tensor nat_semiring := {| shape := [2; 3]; get := fun cs => get s87_d (take 1 cs ++ 0 :: drop 1 cs) |}.
Definition s87_g : eqn := s83_eqn [lit "adb"; lit "bc"] (lit "ac").
Example C87_hypotheses_dropped :
  Forall (fun p => plain_eqn p.1 /\ well_formed p.1 (shape <$> p.2) /\ good (s83_tops p.1 p.2) /\ out_labels p.1 (shape <$> p.2) = Named <$> lit "ac") [(s87_g, [s87_d; s87_n]); (s87_e, [s87_k; s87_n])] /\
  Named (nth 0 (lit "d") 0%N) ∈ labels_of (s83_tops s87_g [s87_d; s87_n]) /\ Named (nth 0 (lit "d") 0%N) ∉ labels_of (s83_tops s87_e [s87_k; s87_n]) /\
  Forall2 (fun p q => q = p \/ squeezed (Named (nth 0 (lit "d") 0%N)) p q) (s83_tops s87_g [s87_d; s87_n]) (s83_tops s87_e [s87_k; s87_n]).
Proof.
  split.
  { repeat (apply Forall_cons; split); [..|by apply Forall_nil]; cbn [fst snd]; (split; [apply plain_check_ok; by vm_compute|]); (split; [apply wf_check_ok; by vm_compute|]); (split; [apply good_check_ok; by vm_compute|by vm_compute]). }
  split; [apply (bool_decide_unpack _); by vm_compute|]. split; [apply (bool_decide_unpack _); by vm_compute|].
  apply Forall2_cons. split; [right|apply Forall2_cons; split; [by left|by apply Forall2_nil_2]].
  exists (Named <$> lit "a"), (Named <$> lit "b"), [2], [3]. split; [done|]. split; [done|]. split; [done|]. split; [done|]. split; [done|]. intros c1 c2 Hc1 _. unfold in_range in Hc1. inversion Hc1 as [|x ? c1' ? ? Hn]; subst. inversion Hn; subst. done.
Qed.
Example C87_instance_dropped : s83_run (lit "adb,bc->ac") [s87_d; s87_n] = Some ([2; 2], [5; 11; 14; 23]) /\ s83_run (lit "ab,bc->ac") [s87_k; s87_n] = Some ([2; 2], [5; 11; 14; 23]).
Proof. split_and!; by vm_compute. Qed.
