(** Property C86: ranges of an index; statements, each with a concrete instance. *)
From Verif Require Import Prelude Einsum EinsumFacts EinsumOps Parser Helpers Contract Spec PathSpec StringFacts SymbolFacts StepFacts ContractFacts PathFacts ParserFacts ParseSpec ParseProof ParseSound TopFacts ContractMain RefBackend PropsContract PropsCompose PropsOnes.

(** The sizes and coordinates when the axes labelled [l] (those of size one, which are repeated, excepted) are cut down to the [n] values from [lo] on. *)
Definition cut_shape {L : Type} `{EqDecision L} (l : L) (n : nat) (t : list L) (sh : list nat) : list nat := zip_with (fun a d => if decide (a = l /\ d <> 1) then n else d) t sh.
Fixpoint cut_coords {L : Type} `{EqDecision L} (l : L) (lo : nat) (t : list L) (sh cs : list nat) : list nat :=
  match t, sh, cs with
  | a :: t, d :: sh, c :: cs => (if decide (a = l /\ d <> 1) then lo + c else c) :: cut_coords l lo t sh cs
  | _, _, _ => []
  end.
(** [q] is the operand [p] with only the [n] values from [lo] on of the index [l]. *)
Definition block {K : semiring} {L : Type} `{EqDecision L} (l : L) (lo n : nat) (p q : list L * tensor K) : Prop :=
  q.1 = p.1 /\ shape q.2 = cut_shape l n p.1 (shape p.2) /\ forall cs, in_range cs (shape q.2) -> get q.2 cs = get p.2 (cut_coords l lo p.1 (shape p.2) cs).

Section Blocks.
  Context {K : semiring} {L : Type} `{EqDecision L}.
  Notation tens := (tensor K).
  Notation operand := (list L * tens)%type.
  Add Ring K_ring3 : (slaws K).
  Variables (l : L) (lo n : nat).
  Implicit Types (tops : list operand) (out : list L).

  Lemma cut_axes t sh a d : (a, d) ∈ zip t (cut_shape l n t sh) <-> exists d0, (a, d0) ∈ zip t sh /\ d = if decide (a = l /\ d0 <> 1) then n else d0.
  Proof.
    unfold cut_shape. revert sh. induction t as [|b t IH]; intros [|c sh]; cbn; [setoid_rewrite elem_of_nil; naive_solver..|]. rewrite elem_of_cons, IH. setoid_rewrite elem_of_cons. split.
    - intros [[= -> ->]|(d0 & ? & ?)]; eauto.
    - intros (d0 & [[= -> ->]|?] & ->); eauto.
  Qed.
  Lemma block_axes tops tops' a d : Forall2 (block l lo n) tops tops' -> (a, d) ∈ axes_of tops' <-> exists d0, (a, d0) ∈ axes_of tops /\ d = if decide (a = l /\ d0 <> 1) then n else d0.
  Proof.
    unfold axes_of. induction 1 as [|p q tops tops' (H1 & H2 & _) _ IH]; [cbn; setoid_rewrite elem_of_nil; naive_solver|]. rewrite !bind_cons, elem_of_app, IH, H1, H2, cut_axes. setoid_rewrite elem_of_app. naive_solver.
  Qed.
  Lemma block_labels tops tops' : Forall2 (block l lo n) tops tops' -> labels_of tops' = labels_of tops.
  Proof. unfold labels_of. induction 1 as [|p q tops tops' (H1 & _) _ IH]; [done|]. by rewrite !bind_cons, H1, IH. Qed.
  Lemma block_dim_ne tops tops' a : Forall2 (block l lo n) tops tops' -> compat tops -> a <> l -> dim tops' a = dim tops a.
  Proof.
    intros Hb Hc Ha. apply dim_ext; [done|]. intros d. rewrite (block_axes _ _ _ _ Hb). split; [intros Hd; exists d; by rewrite decide_False by tauto|]. intros (d0 & Hd & ->). by rewrite decide_False by tauto.
  Qed.
  Lemma block_dim_eq tops tops' : Forall2 (block l lo n) tops tops' -> compat tops -> dim tops l <> 1 -> dim tops' l = n.
  Proof.
    intros Hb Hc H1. destruct (dim_char tops l Hc) as [Ha [Hx|Hx]]; [done|]. apply dim_unique.
    - intros d (d0 & Hd & ->)%(block_axes _ _ _ _ Hb). destruct (decide (d0 = 1)) as [->|]; [left; by rewrite decide_False by tauto|right; by rewrite decide_True].
    - right. apply (block_axes _ _ _ _ Hb). exists (dim tops l). by rewrite decide_True.
  Qed.
  Lemma block_coords t sh e : length t = length sh -> (n = 1 -> e l = 0) -> cut_coords l lo t sh (coords t (cut_shape l n t sh) e) = coords t sh (upd e l (lo + e l)).
  Proof.
    intros Hlen H1. unfold coords, cut_shape. revert sh Hlen. induction t as [|a t IH]; intros [|d sh] Hlen; [done..|]. injection Hlen as Hlen. cbn. rewrite IH by done. f_equal.
    destruct (decide (a = l /\ d <> 1)) as [[-> Hd]|Hd].
    - rewrite (decide_False (P := d = 1)) by done. rewrite upd_eq. destruct (decide (n = 1)) as [Hn|Hn]; [by rewrite (H1 Hn)|done].
    - destruct (decide (d = 1)); [done|]. rewrite upd_ne; [done|]. intros ->. tauto.
  Qed.
  Lemma block_term tops' e p q : ranked tops' -> compat tops' -> q ∈ tops' -> (forall a, a ∈ q.1 -> e a < dim tops' a) -> e l < n -> block l lo n p q -> length p.1 = length (shape p.2) ->
    term e q = term (upd e l (lo + e l)) p.
  Proof.
    intros Hr Hc Hq He Hl (H1 & H2 & H3) Hlen. unfold term. rewrite H3 by (by apply (coords_in_range tops')). rewrite H1, H2. rewrite block_coords; [done|done|lia].
  Qed.
  Lemma block_prod tops tops' e : Forall2 (block l lo n) tops tops' -> ranked tops -> ranked tops' -> compat tops' -> (forall a, a ∈ labels_of tops' -> e a < dim tops' a) -> e l < n ->
    prodl (term e <$> tops') = prodl (term (upd e l (lo + e l)) <$> tops).
  Proof.
    intros Hb Hr Hr' Hc' He Hl. f_equal. apply list_eq. intros i. rewrite !list_lookup_fmap. destruct (tops' !! i) as [q|] eqn:Eq.
    - destruct (Forall2_lookup_r _ _ _ _ _ Hb Eq) as (p & Ep & Hpq). rewrite Ep. cbn. f_equal. apply (block_term tops'); [done|done|by eapply elem_of_list_lookup_2| |done|done|].
      + intros a Ha. apply He. apply elem_of_labels. exists q. split; [by eapply elem_of_list_lookup_2|done].
      + unfold ranked in Hr. rewrite Forall_forall in Hr. apply Hr. by eapply elem_of_list_lookup_2.
    - apply lookup_ge_None in Eq. rewrite <-(Forall2_length _ _ _ Hb) in Eq. apply lookup_ge_None in Eq. by rewrite Eq.
  Qed.
  Lemma sum_labels_upd dm (ls : list L) (f : (L -> nat) -> K) (S : L -> Prop) e w : depends f S -> l ∉ ls -> sum_labels dm ls (fun e => f (upd e l w)) e = sum_labels dm ls f (upd e l w).
  Proof.
    intros Hf. revert e. induction ls as [|a ls IH]; intros e Hl; [done|]. apply not_elem_of_cons in Hl as [Hne Hl]. cbn [sum_labels]. apply sumn_ext. intros v _. rewrite IH by done.
    apply (sum_labels_dep dm ls f S Hf). intros b _. unfold upd. destruct (decide (b = l)) as [El|?], (decide (b = a)) as [Ea|?]; [destruct Hne; congruence|done..].
  Qed.
  Lemma block_inner tops tops' rest e : Forall2 (block l lo n) tops tops' -> ranked tops -> ranked tops' -> compat tops -> compat tops' -> dim tops l <> 1 -> l ∉ rest -> (forall a, a ∈ rest -> a ∈ labels_of tops) ->
    (forall a, a ∈ labels_of tops -> a ∉ rest -> e a < dim tops' a) -> e l < n ->
    sum_labels (dim tops') rest (fun e => prodl (term e <$> tops')) e = sum_labels (dim tops) rest (fun e => prodl (term e <$> tops)) (upd e l (lo + e l)).
  Proof.
    intros Hb Hr Hr' Hc Hc' H1 Hl Hrest He Hel. rewrite <-(sum_labels_upd _ _ _ _ _ _ (prod_dep tops) Hl). apply sum_labels_ext.
    - intros a Ha. apply (block_dim_ne _ _ _ Hb Hc). by intros ->.
    - intros e' Hno Hin. rewrite (block_prod _ _ _ Hb Hr Hr' Hc'); [by rewrite (Hno l Hl)| |by rewrite (Hno l Hl)].
      intros a Ha. rewrite (block_labels _ _ Hb) in Ha. destruct (decide (a ∈ rest)) as [?|?]; [by apply Hin|]. rewrite Hno by done. by apply He.
  Qed.
  (** The index is summed. *)
  Lemma block_sum tops tops' out cs : Forall2 (block l lo n) tops tops' -> ranked tops -> ranked tops' -> compat tops -> compat tops' -> dim tops l <> 1 -> l ∈ labels_of tops -> l ∉ out -> in_range cs (dim tops <$> out) ->
    get (einsum tops' out) cs = sumn n (fun v => sum_labels (dim tops) (filter (.≠ l) (summed tops out)) (fun e => prodl (term e <$> tops)) (upd (env_of out cs) l (lo + v))).
  Proof.
    intros Hb Hr Hr' Hc Hc' H1 Hl Hlo Hcs. cbn [get einsum]. unfold esum. set (rest := filter (.≠ l) (summed tops out)).
    assert (Hs : summed tops' out ≡ₚ l :: rest).
    { unfold summed at 1. rewrite (block_labels _ _ Hb). fold (summed tops out). apply NoDup_Permutation; [apply NoDup_summed|constructor; [unfold rest; rewrite elem_of_list_filter; tauto|apply NoDup_filter, NoDup_summed]|].
      intros a. rewrite elem_of_cons. unfold rest. rewrite elem_of_list_filter, !elem_of_summed. destruct (decide (a = l)) as [->|]; tauto. }
    rewrite (sum_labels_perm _ _ _ _ _ _ (prod_dep tops') (NoDup_summed _ _) Hs). cbn [sum_labels]. rewrite (block_dim_eq _ _ Hb Hc H1). apply sumn_ext. intros v Hv.
    rewrite (block_inner tops tops' rest _ Hb Hr Hr' Hc Hc' H1).
    - rewrite upd_eq. apply (sum_labels_dep _ _ _ _ (prod_dep tops)). intros a _. unfold upd. by case_decide.
    - unfold rest. rewrite elem_of_list_filter. tauto.
    - intros a [_ [Ha _]%elem_of_summed]%elem_of_list_filter. done.
    - intros a Ha Hn. destruct (decide (a = l)) as [->|Hne]; [rewrite upd_eq; by rewrite (block_dim_eq _ _ Hb Hc H1)|]. rewrite upd_ne by done. rewrite (block_dim_ne _ _ _ Hb Hc Hne).
      apply env_of_range; [done|]. destruct (decide (a ∈ out)); [done|]. destruct Hn. apply elem_of_list_filter. split; [done|]. by apply elem_of_summed.
    - by rewrite upd_eq.
  Qed.
  (** The index is kept. *)
  Lemma cut_env out sh cs a : a ∈ out -> length sh = length out -> length cs = length out -> (forall d, (l, d) ∈ zip out sh -> d <> 1) ->
    env_of out (cut_coords l lo out sh cs) a = upd (env_of out cs) l (lo + env_of out cs l) a.
  Proof.
    revert sh cs. induction out as [|b out IH]; intros sh cs Ha Hs Hcs Hd; [by apply elem_of_nil in Ha|]. destruct sh as [|d sh], cs as [|c cs]; try done. injection Hs as Hs. injection Hcs as Hcs. cbn.
    assert (Hd' : forall d, (l, d) ∈ zip out sh -> d <> 1) by (intros d' H; apply Hd; by right).
    unfold upd. destruct (decide (a = b)) as [->|Hab].
    - destruct (decide (b = l)) as [->|Hbl]; [|rewrite decide_False by tauto; done]. rewrite (decide_True (P := l = l /\ d <> 1)); [by rewrite decide_True|]. split; [done|]. apply Hd. left.
    - apply elem_of_cons in Ha as [->|Ha]; [done|]. rewrite IH by done. unfold upd. destruct (decide (a = l)) as [->|]; [|done]. by rewrite decide_False by done.
  Qed.
  Lemma block_out tops tops' out : Forall2 (block l lo n) tops tops' -> ranked tops -> ranked tops' -> compat tops -> compat tops' -> dim tops l <> 1 -> l ∈ out -> (forall a, a ∈ out -> a ∈ labels_of tops) -> block l lo n (out, einsum tops out) (out, einsum tops' out).
  Proof.
    intros Hb Hr Hr' Hc Hc' H1 Hl Hout. assert (Hsh : shape (einsum tops' out) = cut_shape l n out (dim tops <$> out)).
    { cbn [shape einsum]. clear Hl Hout. unfold cut_shape. induction out as [|a out IH]; [done|]. cbn. rewrite IH. f_equal. destruct (decide (a = l)) as [->|Hne]; [rewrite decide_True by done; by apply (block_dim_eq tops)|rewrite decide_False by tauto; by apply block_dim_ne]. }
    split; [done|]. split; [done|]. cbn [snd fst]. intros cs Hcs. assert (Hlen : length cs = length out) by (apply Forall2_length in Hcs; rewrite Hcs; cbn; by rewrite fmap_length).
    cbn [shape einsum] in Hcs |- *. cbn [get einsum]. unfold esum. assert (Hsm : summed tops' out = summed tops out) by (unfold summed; by rewrite (block_labels _ _ Hb)). rewrite Hsm.
    assert (Hel : env_of out cs l < n) by (rewrite <-(block_dim_eq _ _ Hb Hc H1); by apply env_of_range).
    rewrite (block_inner tops tops' (summed tops out) _ Hb Hr Hr' Hc Hc' H1).
    - symmetry. apply (sum_labels_dep' _ _ _ _ (fun a => a ∈ out) (prod_dep tops)).
      + intros a Ha. destruct (decide (a ∈ out)) as [Ho|Ho]; [right; exact Ho|left; by apply elem_of_summed].
      + intros a Ha. cbn in Ha. apply cut_env; [done|by rewrite fmap_length|done|]. intros d Hd. assert (d = dim tops l) as ->; [|done].
        clear -Hd. induction out as [|b out IH]; [by apply elem_of_nil in Hd|]. cbn in Hd. apply elem_of_cons in Hd as [[= -> ->]|Hd]; [done|by apply IH].
    - rewrite elem_of_summed. tauto.
    - intros a [Ha _]%elem_of_summed. done.
    - intros a Ha Hn. apply env_of_range; [done|]. destruct (decide (a ∈ out)); [done|]. destruct Hn. by apply elem_of_summed.
    - done.
  Qed.
  Lemma cut_range t sh cs : length t = length sh -> (forall d, (l, d) ∈ zip t sh -> d <> 1 -> lo + n <= d) -> in_range cs (cut_shape l n t sh) -> in_range (cut_coords l lo t sh cs) sh.
  Proof.
    unfold in_range, cut_shape. revert sh cs. induction t as [|a t IH]; intros [|d sh] cs Hlen Hd Hcs; [by constructor|done|done|]. injection Hlen as Hlen. cbn in Hcs. inversion Hcs as [|c ? cs' ? Hc Hcs']; subst. cbn. constructor.
    - destruct (decide (a = l /\ d <> 1)) as [[-> H1]|]; [|done]. specialize (Hd d ltac:(left) H1). lia.
    - apply IH; [done| |done]. intros d' Hd'. apply Hd. by right.
  Qed.
  Lemma sumn_plus a b (f : nat -> K) : sumn (a + b) f = sadd (sumn a f) (sumn b (fun v => f (a + v))).
  Proof. induction b as [|b IH]; [rewrite Nat.add_0_r, sumn_0; ring|]. rewrite Nat.add_succ_r, !sumn_S, IH. ring. Qed.
  Lemma sum_first tops out cs : l ∈ labels_of tops -> l ∉ out ->
    get (einsum tops out) cs = sumn (dim tops l) (fun v => sum_labels (dim tops) (filter (.≠ l) (summed tops out)) (fun e => prodl (term e <$> tops)) (upd (env_of out cs) l v)).
  Proof.
    intros Hl Hlo. cbn [get einsum]. unfold esum. set (rest := filter (.≠ l) (summed tops out)).
    assert (Hs : summed tops out ≡ₚ l :: rest).
    { apply NoDup_Permutation; [apply NoDup_summed|constructor; [unfold rest; rewrite elem_of_list_filter; tauto|apply NoDup_filter, NoDup_summed]|].
      intros a. rewrite elem_of_cons. unfold rest. rewrite elem_of_list_filter, !elem_of_summed. destruct (decide (a = l)) as [->|]; tauto. }
    by rewrite (sum_labels_perm _ _ _ _ _ _ (prod_dep tops) (NoDup_summed _ _) Hs).
  Qed.
End Blocks.

(** C86.  The operands cut to a range of a kept index: the result is cut to the same range. *)
Theorem C86_range (K : semiring) (B1 B2 : backend K) (ord1 ord2 : gset N -> list N) (e1 e2 : eqn) (s1 s2 : str) (ops1 ops2 : list (tensor K)) (ub1 ub2 : bool) (opt1 opt2 : optimize_arg) (mem1 mem2 : memory_arg) (l : elabel) (lo n : nat) :
  backend_ok B1 -> b_has_einsum B1 = true -> (forall x, ord1 x ≡ₚ elements x) -> backend_ok B2 -> b_has_einsum B2 = true -> (forall x, ord2 x ≡ₚ elements x) ->
  e_in e1 <> [] -> plain_eqn e1 -> filter (.≠ c_space) s1 = render e1 -> well_formed e1 (shape <$> ops1) -> e_in e2 <> [] -> plain_eqn e2 -> filter (.≠ c_space) s2 = render e2 -> well_formed e2 (shape <$> ops2) ->
  let P := zip (in_labels e1 (shape <$> ops1)) ops1 in let Q := zip (in_labels e2 (shape <$> ops2)) ops2 in let out := out_labels e1 (shape <$> ops1) in
  good P -> good Q -> length (remove_dups (labels_of P)) <= 52 -> Forall2 (block l lo n) P Q -> out_labels e2 (shape <$> ops2) = out -> l ∈ out -> dim P l <> 1 -> lo + n <= dim P l ->
  mem_valid mem1 -> strategy_ok opt1 (length ops1) -> mem_valid mem2 -> strategy_ok opt2 (length ops2) ->
  exists T T', contract ord1 B1 ub1 opt1 mem1 s1 ops1 = Ok T /\ contract ord2 B2 ub2 opt2 mem2 s2 ops2 = Ok T' /\ block l lo n (out, T) (out, T').
Proof.
  intros HB1 He1 Ho1 HB2 He2 Ho2 Hne1 Hpl1 Hs1 Hwf1 Hne2 Hpl2 Hs2 Hwf2 P Q out Hg1 Hg2 Hsz Hb Hout Hl H1 Hn Hm1 Hst1 Hm2 Hst2.
  destruct (contract_ok ord1 Ho1 B1 HB1 e1 s1 ops1 Hne1 Hpl1 Hs1 Hwf1 ub1 opt1 mem1 Hg1 Hm1 Hst1 He1 Hsz) as (T & HT & [E1 E2]).
  destruct (contract_ok ord2 Ho2 B2 HB2 e2 s2 ops2 Hne2 Hpl2 Hs2 Hwf2 ub2 opt2 mem2 Hg2 Hm2 Hst2 He2) as (T' & HT' & [F1 F2]); [fold Q; by rewrite (block_labels _ _ _ _ _ Hb)|].
  exists T, T'. split; [done|]. split; [done|]. fold P in E1, E2. fold Q in F1, F2. rewrite Hout in F1, F2. fold out in E1, E2.
  destruct Hg1 as [Hr Hc _ _], Hg2 as [Hr' Hc' _ _].
  destruct (block_out l lo n P Q out Hb Hr Hr' Hc Hc' H1 Hl) as (_ & G1 & G2); [intros a Ha; by apply out_known|]. cbn [fst snd] in G1, G2.
  split; [done|]. cbn [fst snd]. split; [by rewrite F1, E1|]. intros cs Hcs. rewrite F2 by done. rewrite F1 in Hcs. rewrite (G2 cs Hcs), E1. symmetry. apply E2. rewrite E1. apply (cut_range l lo n).
  - cbn. by rewrite fmap_length.
  - intros d Hd _. assert (d = dim P l) as ->; [|done]. cbn in Hd. clear -Hd. induction out as [|b out IH]; [by apply elem_of_nil in Hd|]. cbn in Hd. apply elem_of_cons in Hd as [[= -> ->]|Hd]; [done|by apply IH].
  - by rewrite <-G1.
Qed.
Print Assumptions C86_range.

(** The operands cut in two along a summed index: the results add up. *)
Theorem C86_sum (K : semiring) (B B1 B2 : backend K) (ord ord1 ord2 : gset N -> list N) (e e1 e2 : eqn) (s s1 s2 : str) (ops ops1 ops2 : list (tensor K)) (ub ub1 ub2 : bool) (opt opt1 opt2 : optimize_arg) (mem mem1 mem2 : memory_arg) (l : elabel) (n1 n2 : nat) :
  backend_ok B -> b_has_einsum B = true -> (forall x, ord x ≡ₚ elements x) -> backend_ok B1 -> b_has_einsum B1 = true -> (forall x, ord1 x ≡ₚ elements x) -> backend_ok B2 -> b_has_einsum B2 = true -> (forall x, ord2 x ≡ₚ elements x) ->
  e_in e <> [] -> plain_eqn e -> filter (.≠ c_space) s = render e -> well_formed e (shape <$> ops) ->
  e_in e1 <> [] -> plain_eqn e1 -> filter (.≠ c_space) s1 = render e1 -> well_formed e1 (shape <$> ops1) -> e_in e2 <> [] -> plain_eqn e2 -> filter (.≠ c_space) s2 = render e2 -> well_formed e2 (shape <$> ops2) ->
  let tops := zip (in_labels e (shape <$> ops)) ops in let P := zip (in_labels e1 (shape <$> ops1)) ops1 in let Q := zip (in_labels e2 (shape <$> ops2)) ops2 in let out := out_labels e (shape <$> ops) in
  good tops -> good P -> good Q -> length (remove_dups (labels_of tops)) <= 52 -> Forall2 (block l 0 n1) tops P -> Forall2 (block l n1 n2) tops Q -> out_labels e1 (shape <$> ops1) = out -> out_labels e2 (shape <$> ops2) = out ->
  l ∈ labels_of tops -> l ∉ out -> dim tops l <> 1 -> dim tops l = n1 + n2 ->
  mem_valid mem -> strategy_ok opt (length ops) -> mem_valid mem1 -> strategy_ok opt1 (length ops1) -> mem_valid mem2 -> strategy_ok opt2 (length ops2) ->
  exists T T1 T2, contract ord B ub opt mem s ops = Ok T /\ contract ord1 B1 ub1 opt1 mem1 s1 ops1 = Ok T1 /\ contract ord2 B2 ub2 opt2 mem2 s2 ops2 = Ok T2 /\
    shape T1 = shape T /\ shape T2 = shape T /\ forall cs, in_range cs (shape T) -> get T cs = sadd (get T1 cs) (get T2 cs).
Proof.
  intros HB He Ho HB1 He1 Ho1 HB2 He2 Ho2 Hne Hpl Hs Hwf Hne1 Hpl1 Hs1 Hwf1 Hne2 Hpl2 Hs2 Hwf2 tops P Q out Hg Hg1 Hg2 Hsz Hb1 Hb2 Hout1 Hout2 Hl Hlo H1 Hn Hm Hst Hm1 Hst1 Hm2 Hst2.
  destruct (contract_ok ord Ho B HB e s ops Hne Hpl Hs Hwf ub opt mem Hg Hm Hst He Hsz) as (T & HT & [E1 E2]).
  destruct (contract_ok ord1 Ho1 B1 HB1 e1 s1 ops1 Hne1 Hpl1 Hs1 Hwf1 ub1 opt1 mem1 Hg1 Hm1 Hst1 He1) as (T1 & HT1 & [F1 F2]); [fold P; by rewrite (block_labels _ _ _ _ _ Hb1)|].
  destruct (contract_ok ord2 Ho2 B2 HB2 e2 s2 ops2 Hne2 Hpl2 Hs2 Hwf2 ub2 opt2 mem2 Hg2 Hm2 Hst2 He2) as (T2 & HT2 & [G1 G2]); [fold Q; by rewrite (block_labels _ _ _ _ _ Hb2)|].
  exists T, T1, T2. split; [done|]. split; [done|]. split; [done|]. fold tops out in E1, E2. fold P in F1, F2. fold Q in G1, G2. rewrite Hout1 in F1, F2. rewrite Hout2 in G1, G2.
  destruct Hg as [Hr Hc _ _], Hg1 as [Hr1 Hc1 _ _], Hg2 as [Hr2 Hc2 _ _].
  assert (S1 : shape T1 = shape T). { rewrite F1, E1. cbn. apply list_fmap_ext. intros i a Ha%elem_of_list_lookup_2. apply (block_dim_ne l 0 n1); [done|done|]. by intros ->. }
  assert (S2 : shape T2 = shape T). { rewrite G1, E1. cbn. apply list_fmap_ext. intros i a Ha%elem_of_list_lookup_2. apply (block_dim_ne l n1 n2); [done|done|]. by intros ->. }
  split; [done|]. split; [done|]. intros cs Hcs. rewrite E2 by done. rewrite F2 by (by rewrite S1). rewrite G2 by (by rewrite S2).
  assert (Hcs' : in_range cs (dim tops <$> out)) by (rewrite E1 in Hcs; exact Hcs).
  rewrite (block_sum l 0 n1 tops P out cs Hb1 Hr Hr1 Hc Hc1 H1 Hl Hlo Hcs'), (block_sum l n1 n2 tops Q out cs Hb2 Hr Hr2 Hc Hc2 H1 Hl Hlo Hcs').
  rewrite (sum_first l tops out cs Hl Hlo), Hn. apply sumn_plus.
Qed.
Print Assumptions C86_sum.

(** 'ab,bc,b->ac' with a vector of size one, which is repeated. *)
Definition s86_cut (l : elabel) (lo n : nat) (p : list elabel * tensor nat_semiring) : tensor nat_semiring :=
  {| shape := cut_shape l n p.1 (shape p.2); get := fun cs => get p.2 (cut_coords l lo p.1 (shape p.2) cs) |}.
Definition s86_m : tensor nat_semiring := arr [3; 3] (seq 1 9 : list nat_semiring).
Definition s86_n : tensor nat_semiring := arr [3; 2] ([1; 0; 2; 1; 0; 3] : list nat_semiring).
Definition s86_v : tensor nat_semiring := arr [1] ([2] : list nat_semiring).
Definition s86_eqn : eqn := s83_eqn [lit "ab"; lit "bc"; lit "b"] (lit "ac").
Definition s86_ops : list (tensor nat_semiring) := [s86_m; s86_n; s86_v].
Definition s86_part (c : str) (lo n : nat) : list (tensor nat_semiring) := s86_cut (Named (nth 0 c 0%N)) lo n <$> s83_tops s86_eqn s86_ops.
Example C86_hypotheses :
  Forall (fun ops => plain_eqn s86_eqn /\ well_formed s86_eqn (shape <$> ops) /\ good (s83_tops s86_eqn ops) /\ out_labels s86_eqn (shape <$> ops) = Named <$> lit "ac") [s86_ops; s86_part (lit "a") 1 2; s86_part (lit "b") 0 1; s86_part (lit "b") 1 2] /\
  length (remove_dups (labels_of (s83_tops s86_eqn s86_ops))) <= 52 /\ Named (nth 0 (lit "b") 0%N) ∈ labels_of (s83_tops s86_eqn s86_ops) /\
  dim (s83_tops s86_eqn s86_ops) (Named (nth 0 (lit "a") 0%N)) = 3 /\ dim (s83_tops s86_eqn s86_ops) (Named (nth 0 (lit "b") 0%N)) = 3 /\
  Forall2 (block (Named (nth 0 (lit "a") 0%N)) 1 2) (s83_tops s86_eqn s86_ops) (s83_tops s86_eqn (s86_part (lit "a") 1 2)) /\
  Forall2 (block (Named (nth 0 (lit "b") 0%N)) 0 1) (s83_tops s86_eqn s86_ops) (s83_tops s86_eqn (s86_part (lit "b") 0 1)) /\
  Forall2 (block (Named (nth 0 (lit "b") 0%N)) 1 2) (s83_tops s86_eqn s86_ops) (s83_tops s86_eqn (s86_part (lit "b") 1 2)).
Proof.
  split.
  { repeat (apply Forall_cons; split); [..|by apply Forall_nil]; (split; [apply plain_check_ok; by vm_compute|]); (split; [apply wf_check_ok; by vm_compute|]); (split; [apply good_check_ok; by vm_compute|by vm_compute]). }
  split; [apply (bool_decide_unpack _); by vm_compute|]. split; [apply (bool_decide_unpack _); by vm_compute|]. split; [by vm_compute|]. split; [by vm_compute|].
  split_and!; repeat (apply Forall2_cons; split); try apply Forall2_nil_2; (split; [reflexivity|]); (split; [reflexivity|]); intros; reflexivity.
Qed.
Example C86_instance :
  s83_run (lit "ab,bc,b->ac") s86_ops = Some ([3; 2], [10; 22; 28; 46; 46; 70]) /\ s83_run (lit "ab,bc,b->ac") (s86_part (lit "a") 1 2) = Some ([2; 2], [28; 46; 46; 70]) /\
  s83_run (lit "ab,bc,b->ac") (s86_part (lit "b") 0 1) = Some ([3; 2], [2; 0; 8; 0; 14; 0]) /\ s83_run (lit "ab,bc,b->ac") (s86_part (lit "b") 1 2) = Some ([3; 2], [8; 22; 20; 46; 32; 70]).
Proof. split_and!; by vm_compute. Qed.
