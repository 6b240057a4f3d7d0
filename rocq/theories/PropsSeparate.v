(** Property C85: networks without common labels; statements, each with a concrete instance. *)
From Verif Require Import Prelude Einsum EinsumFacts EinsumOps Parser Helpers Contract Spec PathSpec StringFacts SymbolFacts StepFacts ContractFacts PathFacts ParserFacts ParseSpec ParseProof ParseSound TopFacts ContractMain RefBackend PropsContract PropsCompose PropsOnes.

Section Separate.
  Context {K : semiring} {L : Type} `{EqDecision L}.
  Notation tens := (tensor K).
  Notation operand := (list L * tens)%type.
  Add Ring K_ring2 : (slaws K).
  Implicit Types (P Q : list operand) (out : list L).
  Lemma separate_prod P Q e : prodl (term e <$> P ++ Q) = smul (prodl (term e <$> P)) (prodl (term e <$> Q)).
  Proof. by rewrite fmap_app, prodl_app. Qed.
  Lemma separate_sum dm (ls ls' : list L) (f g : (L -> nat) -> K) e (S S' : L -> Prop) : depends f S -> depends g S' -> (forall l, l ∈ ls -> ~ S' l) -> (forall l, l ∈ ls' -> ~ S l) ->
    sum_labels dm (ls ++ ls') (fun e => smul (f e) (g e)) e = smul (sum_labels dm ls f e) (sum_labels dm ls' g e).
  Proof.
    intros Hf Hg Hl Hl'. rewrite sum_labels_app. transitivity (sum_labels dm ls (fun e1 => smul (f e1) (sum_labels dm ls' g e1)) e).
    - apply sum_labels_ext; [done|]. intros e1 _ _. transitivity (sum_labels dm ls' (fun e2 => smul (g e2) (f e2)) e1); [apply sum_labels_ext; [done|]; intros; ring|].
      rewrite sum_labels_mul_r; [ring|]. intros l Hin. eapply depends_weaken; [exact Hf|]. intros l' HS ->. by apply (Hl' l).
    - apply sum_labels_mul_r. intros l Hin. eapply sum_labels_dep'; [exact Hg|]. intros l' HS. right. intros ->. by apply (Hl l).
  Qed.
  Lemma env_of_app_l (o1 o2 : list L) cs1 cs2 l : length o1 = length cs1 -> l ∈ o1 -> env_of (o1 ++ o2) (cs1 ++ cs2) l = env_of o1 cs1 l.
  Proof.
    revert cs1. induction o1 as [|a o1 IH]; intros [|c cs1] Hlen Hl; [by apply elem_of_nil in Hl|done..|]. cbn. unfold upd. case_decide; [done|]. injection Hlen as Hlen. apply IH; [done|]. by apply elem_of_cons in Hl as [->|?].
  Qed.
  Lemma env_of_app_r (o1 o2 : list L) cs1 cs2 l : length o1 = length cs1 -> l ∉ o1 -> env_of (o1 ++ o2) (cs1 ++ cs2) l = env_of o2 cs2 l.
  Proof.
    revert cs1. induction o1 as [|a o1 IH]; intros [|c cs1] Hlen Hl; [done..|]. apply not_elem_of_cons in Hl as [Hne Hl]. cbn. unfold upd. rewrite decide_False by done. apply IH; [|done]. by injection Hlen.
  Qed.
  Lemma dim_app_l P Q l : compat (P ++ Q) -> l ∉ labels_of Q -> dim (P ++ Q) l = dim P l.
  Proof.
    intros Hc Hl. apply dim_ext; [eapply compat_ext; [|exact Hc]; intros a d Ha; rewrite axes_of_app; apply elem_of_app; by left|]. intros d. rewrite axes_of_app, elem_of_app. split; [by left|]. intros [?|H]; [done|]. exfalso. by apply Hl, (axes_labels Q l d).
  Qed.
  Lemma dim_app_r P Q l : compat (P ++ Q) -> l ∉ labels_of P -> dim (P ++ Q) l = dim Q l.
  Proof.
    intros Hc Hl. apply dim_ext; [eapply compat_ext; [|exact Hc]; intros a d Ha; rewrite axes_of_app; apply elem_of_app; by right|]. intros d. rewrite axes_of_app, elem_of_app. split; [by right|]. intros [H|?]; [|done]. exfalso. by apply Hl, (axes_labels P l d).
  Qed.
  Lemma separate_einsum P Q o1 o2 : compat (P ++ Q) -> (forall l, l ∈ labels_of P -> l ∉ labels_of Q) -> (forall l, l ∈ o1 -> l ∈ labels_of P) -> (forall l, l ∈ o2 -> l ∈ labels_of Q) ->
    shape (einsum (P ++ Q) (o1 ++ o2)) = shape (einsum P o1) ++ shape (einsum Q o2) /\
    forall cs1 cs2, length cs1 = length o1 -> get (einsum (P ++ Q) (o1 ++ o2)) (cs1 ++ cs2) = smul (get (einsum P o1) cs1) (get (einsum Q o2) cs2).
  Proof.
    intros Hc Hd H1 H2.
    assert (HP : forall l, l ∈ labels_of P -> dim (P ++ Q) l = dim P l) by (intros l Hl; apply dim_app_l; [done|by apply Hd]).
    assert (HQ : forall l, l ∈ labels_of Q -> dim (P ++ Q) l = dim Q l) by (intros l Hl; apply dim_app_r; [done|]; intros ?; by apply (Hd l)).
    split.
    - cbn [shape einsum]. rewrite fmap_app. f_equal; apply list_fmap_ext; intros i l Hl%elem_of_list_lookup_2; [by apply HP, H1|by apply HQ, H2].
    - intros cs1 cs2 Hlen. cbn [get einsum]. unfold esum. set (e := env_of (o1 ++ o2) (cs1 ++ cs2)).
      rewrite (sum_labels_perm _ _ (summed P o1 ++ summed Q o2) _ _ _ (prod_dep (P ++ Q))); [|apply NoDup_summed|].
      2: { apply NoDup_Permutation; [apply NoDup_summed| |].
           - apply NoDup_app. split; [apply NoDup_summed|]. split; [|apply NoDup_summed]. intros l [Hl _]%elem_of_summed [Hl' _]%elem_of_summed. by apply (Hd l).
           - intros l. unfold summed at 1. rewrite elem_of_list_filter, elem_of_remove_dups. unfold labels_of at 1. rewrite bind_app. fold (labels_of P) (labels_of Q). rewrite !elem_of_app, !elem_of_summed. specialize (Hd l). specialize (H1 l). specialize (H2 l). tauto. }
      transitivity (sum_labels (dim (P ++ Q)) (summed P o1 ++ summed Q o2) (fun e' => smul (prodl (term e' <$> P)) (prodl (term e' <$> Q))) e).
      { apply sum_labels_ext; [done|]. intros. apply separate_prod. }
      rewrite (separate_sum _ _ _ _ _ _ _ _ (prod_dep P) (prod_dep Q)); [|intros l [Hl _]%elem_of_summed; by apply Hd|intros l [Hl _]%elem_of_summed ?; by apply (Hd l)]. f_equal.
      + rewrite (sum_labels_ext _ (dim P) _ _ (fun e' => prodl (term e' <$> P))); [|intros l [Hl _]%elem_of_summed; by apply HP|done].
        apply (sum_labels_dep' (dim P) (summed P o1) _ _ (fun l => l ∈ o1) (prod_dep P)); [intros l Hl; rewrite elem_of_summed; destruct (decide (l ∈ o1)); auto|]. intros l Hl. by apply env_of_app_l.
      + rewrite (sum_labels_ext _ (dim Q) _ _ (fun e' => prodl (term e' <$> Q))); [|intros l [Hl _]%elem_of_summed; by apply HQ|done].
        apply (sum_labels_dep' (dim Q) (summed Q o2) _ _ (fun l => l ∈ o2) (prod_dep Q)); [intros l Hl; rewrite elem_of_summed; destruct (decide (l ∈ o2)); auto|]. intros l Hl. apply env_of_app_r; [done|]. intros Hx. by apply (Hd l); [apply H1|apply H2].
  Qed.
End Separate.

(** C85.  Operands in two groups without a common label, the output of one group after that of the other: the result is the outer product of the
    results of the groups. *)
Theorem C85_separate (K : semiring) (B1 B2 B : backend K) (ord1 ord2 ord : gset N -> list N) (e1 e2 e : eqn) (s1 s2 s : str) (ops1 ops2 ops : list (tensor K))
    (ub1 ub2 ub : bool) (opt1 opt2 opt : optimize_arg) (mem1 mem2 mem : memory_arg) :
  backend_ok B1 -> b_has_einsum B1 = true -> (forall x, ord1 x ≡ₚ elements x) -> backend_ok B2 -> b_has_einsum B2 = true -> (forall x, ord2 x ≡ₚ elements x) -> backend_ok B -> b_has_einsum B = true -> (forall x, ord x ≡ₚ elements x) ->
  e_in e1 <> [] -> plain_eqn e1 -> filter (.≠ c_space) s1 = render e1 -> well_formed e1 (shape <$> ops1) -> e_in e2 <> [] -> plain_eqn e2 -> filter (.≠ c_space) s2 = render e2 -> well_formed e2 (shape <$> ops2) ->
  e_in e <> [] -> plain_eqn e -> filter (.≠ c_space) s = render e -> well_formed e (shape <$> ops) ->
  let P := zip (in_labels e1 (shape <$> ops1)) ops1 in let Q := zip (in_labels e2 (shape <$> ops2)) ops2 in let tops := zip (in_labels e (shape <$> ops)) ops in
  good tops -> length (remove_dups (labels_of tops)) <= 52 -> tops ≡ₚ P ++ Q -> (forall l, l ∈ labels_of P -> l ∉ labels_of Q) -> out_labels e (shape <$> ops) = out_labels e1 (shape <$> ops1) ++ out_labels e2 (shape <$> ops2) ->
  mem_valid mem1 -> strategy_ok opt1 (length ops1) -> mem_valid mem2 -> strategy_ok opt2 (length ops2) -> mem_valid mem -> strategy_ok opt (length ops) ->
  exists T1 T2 T, contract ord1 B1 ub1 opt1 mem1 s1 ops1 = Ok T1 /\ contract ord2 B2 ub2 opt2 mem2 s2 ops2 = Ok T2 /\ contract ord B ub opt mem s ops = Ok T /\
    shape T = shape T1 ++ shape T2 /\ forall cs1 cs2, in_range cs1 (shape T1) -> in_range cs2 (shape T2) -> get T (cs1 ++ cs2) = smul (get T1 cs1) (get T2 cs2).
Proof.
  intros HB1 He1 Ho1 HB2 He2 Ho2 HB He Ho Hne1 Hpl1 Hs1 Hwf1 Hne2 Hpl2 Hs2 Hwf2 Hne Hpl Hs Hwf P Q tops Hg Hsz Hp Hdis Hout Hm1 Hst1 Hm2 Hst2 Hm Hst.
  assert (Hgp : good (P ++ Q)) by (by eapply good_perm). assert (Hg1 : good P) by (by eapply good_app_l). assert (Hg2 : good Q) by (eapply good_app_l, good_perm; [apply Permutation_app_comm|done]).
  assert (Hlab : forall l, l ∈ labels_of tops <-> l ∈ labels_of P \/ l ∈ labels_of Q) by (intros l; rewrite (labels_of_perm _ _ Hp); unfold labels_of; by rewrite bind_app, elem_of_app).
  assert (Hsub : forall (X : list (list elabel * tensor K)), (forall l, l ∈ labels_of X -> l ∈ labels_of tops) -> length (remove_dups (labels_of X)) <= 52).
  { intros X HX. etrans; [|exact Hsz]. apply submseteq_length, NoDup_submseteq; [apply NoDup_remove_dups|]. intros l. rewrite !elem_of_remove_dups. apply HX. }
  destruct (contract_ok ord1 Ho1 B1 HB1 e1 s1 ops1 Hne1 Hpl1 Hs1 Hwf1 ub1 opt1 mem1 Hg1 Hm1 Hst1 He1) as (T1 & HT1 & E1); [apply Hsub; intros l Hl; apply Hlab; by left|].
  destruct (contract_ok ord2 Ho2 B2 HB2 e2 s2 ops2 Hne2 Hpl2 Hs2 Hwf2 ub2 opt2 mem2 Hg2 Hm2 Hst2 He2) as (T2 & HT2 & E2); [apply Hsub; intros l Hl; apply Hlab; by right|].
  destruct (contract_ok ord Ho B HB e s ops Hne Hpl Hs Hwf ub opt mem Hg Hm Hst He Hsz) as (T & HT & E). fold P in E1. fold Q in E2. fold tops in E.
  exists T1, T2, T. split; [done|]. split; [done|]. split; [done|]. rewrite Hout in E. destruct Hg as [_ Hc _ _]. rewrite (einsum_perm _ _ _ Hp Hc) in E.
  destruct (separate_einsum P Q (out_labels e1 (shape <$> ops1)) (out_labels e2 (shape <$> ops2))) as [Es Eg]; [by apply (compat_perm _ _ Hp)|done|intros l Hl; by apply out_known|intros l Hl; by apply out_known|].
  destruct E as [F1 F2], E1 as [G1 G2], E2 as [I1 I2]. assert (Hsh : shape T = shape T1 ++ shape T2) by (by rewrite F1, Es, G1, I1). split; [done|].
  intros cs1 cs2 H1 H2. rewrite F2 by (rewrite Hsh; by apply Forall2_app). rewrite Eg; [by rewrite G2, I2|]. apply Forall2_length in H1. rewrite H1, G1. cbn [shape einsum]. by rewrite fmap_length.
Qed.
Print Assumptions C85_separate.

(** 'ab,b->a' and 'cd,d->c' together, the operands mixed. *)
Definition s85_m : tensor nat_semiring := arr [2; 3] (seq 1 6 : list nat_semiring).
Definition s85_v : tensor nat_semiring := arr [3] ([1; 0; 2] : list nat_semiring).
Definition s85_n : tensor nat_semiring := arr [2; 2] ([1; 2; 3; 4] : list nat_semiring).
Definition s85_w : tensor nat_semiring := arr [2] ([5; 1] : list nat_semiring).
Example C85_hypotheses :
  let e1 := s83_eqn [lit "ab"; lit "b"] (lit "a") in let ops1 := [s85_m; s85_v] in let e2 := s83_eqn [lit "cd"; lit "d"] (lit "c") in let ops2 := [s85_n; s85_w] in
  let e := s83_eqn [lit "cd"; lit "ab"; lit "d"; lit "b"] (lit "ac") in let ops := [s85_n; s85_m; s85_w; s85_v] in
  Forall (fun p => plain_eqn p.1 /\ well_formed p.1 (shape <$> p.2) /\ good (s83_tops p.1 p.2)) [(e1, ops1); (e2, ops2); (e, ops)] /\ length (remove_dups (labels_of (s83_tops e ops))) <= 52 /\
  s83_tops e ops ≡ₚ s83_tops e1 ops1 ++ s83_tops e2 ops2 /\ Forall (fun l => l ∉ labels_of (s83_tops e2 ops2)) (labels_of (s83_tops e1 ops1)) /\
  out_labels e (shape <$> ops) = out_labels e1 (shape <$> ops1) ++ out_labels e2 (shape <$> ops2).
Proof.
  cbn zeta. split.
  { repeat (apply Forall_cons; split); [..|by apply Forall_nil]; cbn [fst snd]; (split; [apply plain_check_ok; by vm_compute|]); (split; [apply wf_check_ok; by vm_compute|apply good_check_ok; by vm_compute]). }
  split; [apply (bool_decide_unpack _); by vm_compute|]. split; [|split; [apply (bool_decide_unpack _); by vm_compute|by vm_compute]].
  change (s83_tops _ _) with [(Named <$> lit "cd", s85_n); (Named <$> lit "ab", s85_m); (Named <$> lit "d", s85_w); (Named <$> lit "b", s85_v)] at 1.
  change (_ ++ _) with [(Named <$> lit "ab", s85_m); (Named <$> lit "b", s85_v); (Named <$> lit "cd", s85_n); (Named <$> lit "d", s85_w)].
  etrans; [apply perm_swap|]. apply perm_skip. etrans; [apply perm_skip, perm_swap|]. apply perm_swap.
Qed.
Example C85_instance :
  s83_run (lit "ab,b->a") [s85_m; s85_v] = Some ([2], [7; 16]) /\ s83_run (lit "cd,d->c") [s85_n; s85_w] = Some ([2], [7; 19]) /\
  s83_run (lit "cd,ab,d,b->ac") [s85_n; s85_m; s85_w; s85_v] = Some ([2; 2], [49; 133; 112; 304]).
Proof. split_and!; by vm_compute. Qed.
