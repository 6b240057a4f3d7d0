(** Property C90: zeros and empty indices; statements, each with a concrete instance. *)
From Verif Require Import Prelude Einsum EinsumFacts EinsumOps Parser Helpers Contract Spec PathSpec StringFacts SymbolFacts StepFacts ContractFacts PathFacts ParserFacts ParseSpec ParseProof ParseSound TopFacts ContractMain RefBackend PropsContract PropsCompose PropsOnes PropsBlocks.
From Coq Require Import Ring_theory Ring.

(** All entries are zero. *)
Definition all_zero {K : semiring} (T : tensor K) : Prop := forall cs, in_range cs (shape T) -> get T cs = szero.

Section Zero.
  Context {K : semiring} {L : Type} `{EqDecision L}.
  Notation operand := (list L * tensor K)%type.
  Add Ring K_ring5 : (slaws K).
  Implicit Types (tops : list operand) (out : list L).
  Lemma prodl_zero (l : list K) : szero ∈ l -> prodl l = szero.
  Proof.
    unfold prodl. induction l as [|x l IH]; [by intros ?%elem_of_nil|]. cbn. intros [<-|Hx]%elem_of_cons; [ring|]. rewrite (IH Hx). ring.
  Qed.
  Lemma sum_labels_zero dm (ls : list L) (f : (L -> nat) -> K) e : (forall e', (forall l, l ∉ ls -> e' l = e l) -> (forall l, l ∈ ls -> e' l < dm l) -> f e' = szero) -> sum_labels dm ls f e = szero.
  Proof.
    intros H. rewrite (sum_labels_ext dm dm ls f (fun _ => szero) e); [|done|done]. clear. revert e. induction ls as [|l ls IH]; intros e; [done|]. cbn. rewrite (sumn_ext _ _ (fun _ => szero)); [apply sumn_zero|]. intros. apply IH.
  Qed.
  Lemma zero_operand tops out p : ranked tops -> compat tops -> p ∈ tops -> all_zero p.2 -> all_zero (einsum tops out).
  Proof.
    intros Hr Hc Hp Hz cs Hcs. cbn [get einsum]. cbn [shape einsum] in Hcs. unfold esum. apply sum_labels_zero. intros e Hno Hin. apply prodl_zero. apply elem_of_list_fmap. exists p. split; [|done]. symmetry. unfold term. apply Hz. apply (coords_in_range tops); [done|done|done|].
    intros l Hl. assert (Hlt : l ∈ labels_of tops) by (apply elem_of_labels; eauto). destruct (decide (l ∈ out)) as [Hlo|Hlo]; [|apply Hin; by apply elem_of_summed]. rewrite Hno by (rewrite elem_of_summed; tauto). by apply env_of_range.
  Qed.
  Lemma empty_summed tops out l : l ∈ labels_of tops -> l ∉ out -> dim tops l = 0 -> all_zero (einsum tops out).
  Proof. intros Hl Ho H0 cs _. rewrite (sum_first l tops out cs Hl Ho), H0. apply sumn_0. Qed.
End Zero.

(** C90.  An operand of zeros, or a summed index without values: a result of zeros. *)
Theorem C90_zeros (K : semiring) (B : backend K) (ord : gset N -> list N) (e : eqn) (s : str) (ops : list (tensor K)) (ub : bool) (opt : optimize_arg) (mem : memory_arg) :
  backend_ok B -> b_has_einsum B = true -> (forall z, ord z ≡ₚ elements z) -> e_in e <> [] -> plain_eqn e -> filter (.≠ c_space) s = render e -> well_formed e (shape <$> ops) ->
  let tops := zip (in_labels e (shape <$> ops)) ops in let out := out_labels e (shape <$> ops) in good tops -> length (remove_dups (labels_of tops)) <= 52 ->
  mem_valid mem -> strategy_ok opt (length ops) ->
  (exists A, A ∈ ops /\ all_zero A) \/ (exists l, l ∈ labels_of tops /\ l ∉ out /\ (l, 0) ∈ axes_of tops) ->
  exists T, contract ord B ub opt mem s ops = Ok T /\ length (shape T) = length out /\ all_zero T.
Proof.
  intros HB He Ho Hne Hpl Hs Hwf tops out Hg Hsz Hm Hst Hz.
  destruct (contract_ok ord Ho B HB e s ops Hne Hpl Hs Hwf ub opt mem Hg Hm Hst He Hsz) as (T & HT & [E1 E2]). fold tops out in E1, E2. exists T. split; [done|]. split; [rewrite E1; cbn; by rewrite fmap_length|].
  destruct Hg as [Hr Hc _ _]. assert (Ha : all_zero (einsum tops out)).
  { destruct Hz as [(A & HA & Hz)|(l & Hl & Hlo & H0)].
    - apply elem_of_list_lookup in HA as (i & Hi). destruct (lookup_lt_is_Some_2 (in_labels e (shape <$> ops)) i) as [t Ht].
      { unfold in_labels. rewrite zip_with_length, (wf_count _ _ Hwf), fmap_length, Nat.min_id. by eapply lookup_lt_Some. }
      apply (zero_operand _ _ (t, A)); [done|done| |done]. apply elem_of_list_lookup. exists i. unfold tops. rewrite lookup_zip_with, Ht, Hi. done.
    - apply (empty_summed _ _ l); [done|done|]. destruct (dim_char tops l Hc) as [Ha _]. destruct (Ha 0 H0) as [|Hd]; [done|by rewrite <-Hd]. }
  intros cs Hcs. rewrite E2 by done. apply Ha. by rewrite <-E1.
Qed.
Print Assumptions C90_zeros.

(** A kept index without values: a result without entries, and nothing fails. *)
Theorem C90_empty (K : semiring) (B : backend K) (ord : gset N -> list N) (e : eqn) (s : str) (ops : list (tensor K)) (ub : bool) (opt : optimize_arg) (mem : memory_arg) (l : elabel) (i : nat) :
  backend_ok B -> b_has_einsum B = true -> (forall z, ord z ≡ₚ elements z) -> e_in e <> [] -> plain_eqn e -> filter (.≠ c_space) s = render e -> well_formed e (shape <$> ops) ->
  let tops := zip (in_labels e (shape <$> ops)) ops in let out := out_labels e (shape <$> ops) in good tops -> length (remove_dups (labels_of tops)) <= 52 ->
  mem_valid mem -> strategy_ok opt (length ops) -> out !! i = Some l -> (l, 0) ∈ axes_of tops ->
  exists T, contract ord B ub opt mem s ops = Ok T /\ shape T !! i = Some 0 /\ forall cs, ~ in_range cs (shape T).
Proof.
  intros HB He Ho Hne Hpl Hs Hwf tops out Hg Hsz Hm Hst Hi H0.
  destruct (contract_ok ord Ho B HB e s ops Hne Hpl Hs Hwf ub opt mem Hg Hm Hst He Hsz) as (T & HT & [E1 _]). fold tops out in E1. exists T. split; [done|].
  assert (Hsh : shape T !! i = Some 0). { rewrite E1. cbn. rewrite list_lookup_fmap, Hi. cbn. f_equal. destruct Hg as [_ Hc _ _]. destruct (dim_char tops l Hc) as [Ha _]. destruct (Ha 0 H0) as [|Hd]; [done|by rewrite <-Hd]. }
  split; [done|]. intros cs Hcs. destruct (Forall2_lookup_r _ _ _ _ _ Hcs Hsh) as (v & _ & Hv). lia.
Qed.
Print Assumptions C90_empty.

(** 'ab,bc,c->a' with zeros for the vector; with [b] of size zero; and with [a] of size zero. *)
Definition s90_m (n m : nat) : tensor nat_semiring := arr [n; m] (seq 1 (n * m) : list nat_semiring).
Definition s90_v (k : nat) : tensor nat_semiring := arr [2] ([k; k] : list nat_semiring).
Definition s90_eqn : eqn := s83_eqn [lit "ab"; lit "bc"; lit "c"] (lit "a").
Example C90_hypotheses :
  Forall (fun ops => plain_eqn s90_eqn /\ well_formed s90_eqn (shape <$> ops) /\ good (s83_tops s90_eqn ops) /\ length (remove_dups (labels_of (s83_tops s90_eqn ops))) <= 52) [[s90_m 2 3; s90_m 3 2; s90_v 0]; [s90_m 2 0; s90_m 0 2; s90_v 1]; [s90_m 0 3; s90_m 3 2; s90_v 1]] /\
  all_zero (s90_v 0) /\ (Named (nth 0 (lit "b") 0%N), 0) ∈ axes_of (s83_tops s90_eqn [s90_m 2 0; s90_m 0 2; s90_v 1]) /\ (Named (nth 0 (lit "a") 0%N), 0) ∈ axes_of (s83_tops s90_eqn [s90_m 0 3; s90_m 3 2; s90_v 1]).
Proof.
  split.
  { repeat (apply Forall_cons; split); [..|by apply Forall_nil]; (split; [apply plain_check_ok; by vm_compute|]); (split; [apply wf_check_ok; by vm_compute|]); (split; [apply good_check_ok; by vm_compute|apply (bool_decide_unpack _); by vm_compute]). }
  split; [|split; apply (bool_decide_unpack _); by vm_compute]. intros cs Hcs. change (in_range cs [2]) in Hcs. unfold in_range in Hcs. inversion Hcs as [|c1 ? cs1 ? L1 H1]; subst. inversion H1; subst. clear -L1. do 2 (destruct c1 as [|c1]; [by vm_compute|]). lia.
Qed.
Example C90_instance :
  s83_run (lit "ab,bc,c->a") [s90_m 2 3; s90_m 3 2; s90_v 0] = Some ([2], [0; 0]) /\ s83_run (lit "ab,bc,c->a") [s90_m 2 0; s90_m 0 2; s90_v 1] = Some ([2], [0; 0]) /\ s83_run (lit "ab,bc,c->a") [s90_m 0 3; s90_m 3 2; s90_v 1] = Some ([0], []).
Proof. split_and!; by vm_compute. Qed.
