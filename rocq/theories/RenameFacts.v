(** C10: renaming the labels of an equation does not change the value. *)
From Verif Require Import Prelude Einsum EinsumFacts EinsumOps Parser Helpers Contract Spec PathSpec StringFacts SymbolFacts StepFacts ContractFacts PathFacts ParserFacts ParseSpec ParseProof ParseSound TopFacts ContractMain.

Definition rename_term (f : N -> N) (t : eterm) : eterm := ETerm (f <$> (t_pre t : list N)) (fmap (M:=option) (fmap (M:=list) f) (t_post t)).
Definition rename_eqn (f : N -> N) (e : eqn) : eqn := Eqn (fmap (M:=list) (rename_term f) (e_in e)) (fmap (M:=option) (rename_term f) (e_out e)).
Definition emap (f : N -> N) (l : elabel) : elabel := match l with Named c => Named (f c) | Bcast k => Bcast k end.

Lemma t_named_rename f t : t_named (rename_term f t) = f <$> t_named t.
Proof. unfold t_named. simpl. rewrite fmap_app. by destruct (t_post t). Qed.
Lemma ell_count_rename f t sh : ell_count (rename_term f t) sh = ell_count t sh.
Proof. unfold ell_count. rewrite t_named_rename, fmap_length. simpl. by destruct (t_post t). Qed.
Lemma emap_named f (l : list N) : emap f <$> (Named <$> l) = Named <$> (f <$> l).
Proof. by rewrite <-!list_fmap_compose. Qed.
Lemma emap_bcast f (l : list nat) : emap f <$> (Bcast <$> l) = Bcast <$> l.
Proof. by rewrite <-!list_fmap_compose. Qed.
Lemma expand_rename f m t : expand m (rename_term f t) = emap f <$> expand m t.
Proof.
  unfold expand. simpl. rewrite fmap_app, emap_named. f_equal. destruct (t_post t) as [q|]; [|done]. simpl.
  by rewrite fmap_app, emap_named, emap_bcast.
Qed.
Lemma longest_rename f e shapes : longest (rename_eqn f e) shapes = longest e shapes.
Proof.
  unfold longest. f_equal. simpl. revert shapes. induction (e_in e) as [|t l IH]; intros [|sh shapes]; try done.
  rewrite fmap_cons. simpl. rewrite ell_count_rename. f_equal. apply IH.
Qed.
Lemma in_labels_rename f e shapes : in_labels (rename_eqn f e) shapes = fmap (M:=list) (emap f) <$> in_labels e shapes.
Proof.
  unfold in_labels. simpl. revert shapes. induction (e_in e) as [|t l IH]; intros [|sh shapes]; try done.
  rewrite fmap_cons. simpl. rewrite ell_count_rename, expand_rename. f_equal. apply IH.
Qed.
(** An implicit output is sorted: a renaming has to respect the order then. *)
Definition order_kept (f : N -> N) (e : eqn) : Prop :=
  is_Some (e_out e) \/ forall a b, a ∈ named_of e -> b ∈ named_of e -> (a < b)%N -> (f a < f b)%N.
Lemma count_rename (f : N -> N) c (l : list N) : (forall a, a ∈ l -> f a = f c -> a = c) -> count (f c) (f <$> l) = count c l.
Proof.
  induction l as [|a l IH]; intros H; [done|]. rewrite fmap_cons. simpl. rewrite IH by (intros; apply H; [by right|done]). f_equal.
  destruct (decide (a = c)) as [->|Hne]; [by rewrite decide_True|]. rewrite decide_False; [done|]. intros Hf. apply Hne, H; [by left|done].
Qed.
Lemma filter_rename (f : N -> N) (P Q : N -> Prop) `{forall x, Decision (P x)} `{forall x, Decision (Q x)} (l : list N) :
  (forall c, c ∈ l -> P (f c) <-> Q c) -> filter P (f <$> l) = f <$> filter Q l.
Proof.
  induction l as [|a l IH]; intros H'; [done|]. rewrite fmap_cons. destruct (decide (Q a)) as [Ha|Ha].
  - rewrite !filter_cons_True by (try done; by apply H'; [left|]). rewrite fmap_cons, IH; [done|]. intros c Hc. apply H'. by right.
  - rewrite !filter_cons_False by (try done; by rewrite H' by (by left)). apply IH. intros c Hc. apply H'. by right.
Qed.
Lemma sortN_rename (f : N -> N) (l : list N) : (forall a b, a ∈ l -> b ∈ l -> (a < b)%N -> (f a < f b)%N) -> sortN (f <$> l) = f <$> sortN l.
Proof.
  intros Hf. apply (Sorted_unique (≤)%N); [apply (Sorted_merge_sort _)| |].
  - assert (Hs : StronglySorted (≤)%N (sortN l)) by (apply Sorted_StronglySorted; [intros a b c; lia|apply (Sorted_merge_sort _)]).
    assert (Hin : forall x, x ∈ sortN l -> x ∈ l) by (intros x Hx; by rewrite sortN_perm in Hx).
    apply StronglySorted_Sorted. revert Hin. induction Hs as [|x k Hs IH Hx]; intros Hin; [constructor|]. rewrite fmap_cons. constructor.
    + apply IH. intros y Hy. apply Hin. by right.
    + apply Forall_fmap, Forall_forall. intros y Hy. simpl. rewrite Forall_forall in Hx. specialize (Hx y Hy). destruct (decide (x = y)) as [->|Hne]; [lia|].
      apply N.lt_le_incl, Hf; [apply Hin; by left|apply Hin; by right|lia].
  - unfold sortN. etrans; [apply merge_sort_Permutation|]. apply fmap_Permutation. symmetry. apply merge_sort_Permutation.
Qed.
Lemma out_labels_rename f e shapes : order_kept f e -> (forall a b, a ∈ named_of e -> b ∈ named_of e -> f a = f b -> a = b) ->
  out_labels (rename_eqn f e) shapes = emap f <$> out_labels e shapes.
Proof.
  intros Hk Hinj. unfold out_labels. simpl. destruct (e_out e) as [o|] eqn:Ho; simpl; [by rewrite longest_rename, expand_rename|].
  destruct Hk as [[? Hk]|Hk]; [congruence|]. rewrite fmap_app, emap_bcast, emap_named, longest_rename. f_equal. f_equal.
  assert (Hn : (rename_term f <$> e_in e) ≫= t_named = f <$> (e_in e ≫= t_named)).
  { induction (e_in e) as [|t l IH]; [done|]. rewrite fmap_cons, !bind_cons, fmap_app. f_equal; [apply t_named_rename|apply IH]. }
  rewrite Hn. set (l := e_in e ≫= t_named) in *. assert (Hin : forall c, c ∈ l -> c ∈ named_of e) by (intros c Hc; unfold named_of; apply elem_of_app; by left).
  rewrite (filter_rename f (fun c => count c (f <$> l) = 1) (fun c => count c l = 1)).
  - apply sortN_rename. intros a b [_ Ha]%elem_of_list_filter [_ Hb]%elem_of_list_filter. apply Hk; by apply Hin.
  - intros c Hc. rewrite count_rename; [done|]. intros a Ha. apply Hinj; by apply Hin.
Qed.

Lemma remove_dups_fmap {L M : Type} `{EqDecision L} `{EqDecision M} (g : L -> M) (l : list L) : length (remove_dups (g <$> l)) <= length (remove_dups l).
Proof.
  rewrite <-(fmap_length g (remove_dups l)). apply submseteq_length, NoDup_submseteq; [apply NoDup_remove_dups|].
  intros x. rewrite elem_of_remove_dups, !elem_of_list_fmap. by setoid_rewrite elem_of_remove_dups.
Qed.

Lemma filter_id {A} (P : A -> Prop) `{forall x, Decision (P x)} (l : list A) : Forall P l -> filter P l = l.
Proof. induction 1 as [|x l Hx _ IH]; [done|]. rewrite filter_cons_True by done. by rewrite IH. Qed.

Section Rename.
  Variables (f : N -> N) (e : eqn) (shapes : list (list nat)).
  Hypothesis Hout : order_kept f e.
  Hypothesis Hinj : forall a b, a ∈ named_of e -> b ∈ named_of e -> f a = f b -> a = b.
  Lemma emap_inj a b : known e shapes a -> known e shapes b -> emap f a = emap f b -> a = b.
  Proof. destruct a as [a|k], b as [b|k']; simpl; intros Ha Hb H; simplify_eq; [|done]. f_equal. by apply Hinj. Qed.
  Lemma rename_plain : (forall c, c ∈ named_of e -> plain (f c)) -> plain_eqn (rename_eqn f e).
  Proof.
    clear Hinj Hout. intros Hpl. unfold named_of in Hpl. split; simpl.
    - apply Forall_fmap, Forall_forall. intros t Ht. simpl. rewrite t_named_rename. apply Forall_fmap, Forall_forall. intros c Hc.
      apply Hpl, elem_of_app. left. apply elem_of_list_bind. eauto.
    - destruct (e_out e) as [o|]; [|done]. simpl. rewrite t_named_rename. apply Forall_fmap, Forall_forall. intros c Hc. apply Hpl, elem_of_app. by right.
  Qed.
  Lemma rename_wf : well_formed e shapes -> well_formed (rename_eqn f e) shapes.
  Proof.
    intros [H1 H2 H3 H4]. split.
    - simpl. by rewrite fmap_length.
    - simpl. apply Forall2_fmap_l. eapply Forall2_impl; [exact H2|]. intros t sh. unfold fits. simpl. rewrite t_named_rename, fmap_length. by destruct (t_post t).
    - rewrite out_labels_rename by done. apply NoDup_fmap_2_strong; [|done]. intros a b Ha Hb. apply emap_inj; by apply out_known.
    - intros l. rewrite out_labels_rename by done. intros (l' & -> & Hl')%elem_of_list_fmap. destruct (H4 l' Hl') as (t & Ht & Hlt).
      exists (emap f <$> t). rewrite in_labels_rename. split; by apply elem_of_list_fmap_1.
  Qed.
End Rename.

Section Main.
  Context {K : semiring}.
  Notation tens := (tensor K).
  Variable ord : gset N -> list N.
  Hypothesis ord_ok : forall s, ord s ≡ₚ elements s.
  Variable B : backend K.
  Hypothesis B_ok : backend_ok B.

  Lemma contract_rename f e (ops : list tens) use_blas opt mem :
    e_in e <> [] -> plain_eqn e -> order_kept f e ->
    (forall a b, a ∈ named_of e -> b ∈ named_of e -> f a = f b -> a = b) -> (forall c, c ∈ named_of e -> plain (f c)) ->
    well_formed e (shape <$> ops) -> good (zip (in_labels e (shape <$> ops)) ops) -> mem_valid mem -> strategy_ok opt (length ops) ->
    b_has_einsum B = true -> length (remove_dups (labels_of (zip (in_labels e (shape <$> ops)) ops))) <= 52 ->
    exists T T', contract ord B use_blas opt mem (render e) ops = Ok T /\ contract ord B use_blas opt mem (render (rename_eqn f e)) ops = Ok T' /\ T' ≡ₜ T.
  Proof.
    intros Hne Hpl Hout Hinj Hplf Hwf Hgood Hmem Hstr He Hsz.
    assert (Hsp : forall e, plain_eqn e -> filter (.≠ c_space) (render e) = render e).
    { intros e' [Hi Ho]. apply filter_id. apply Forall_forall. intros c Hc ->. revert Hc. unfold render. rewrite elem_of_app. intros [Hc|Hc].
      - apply elem_of_join in Hc as [Hc|(t & Ht & Hc)]; [by apply elem_of_list_singleton in Hc|].
        apply elem_of_list_fmap in Ht as (t' & -> & Ht). apply elem_render_term in Hc as [Hc|[_ Hc]]; [|done].
        rewrite Forall_forall in Hi. specialize (Hi t' Ht). rewrite Forall_forall in Hi. by destruct (Hi _ Hc) as (_ & _ & _ & _ & ?).
      - destruct (e_out e') as [o|]; [|by apply elem_of_nil in Hc]. apply elem_of_app in Hc as [Hc|Hc].
        + unfold s_arrow in Hc. apply elem_of_cons in Hc as [?|Hc]; [done|]. by apply elem_of_list_singleton in Hc.
        + apply elem_render_term in Hc as [Hc|[_ Hc]]; [|done]. rewrite Forall_forall in Ho. by destruct (Ho _ Hc) as (_ & _ & _ & _ & ?). }
    destruct (contract_ok ord ord_ok B B_ok e (render e) ops Hne Hpl (Hsp e Hpl) Hwf use_blas opt mem Hgood Hmem Hstr He Hsz) as (T & HT & HTeq).
    pose proof (rename_plain f e Hplf) as Hpl'. pose proof (rename_wf f e (shape <$> ops) Hout Hinj Hwf) as Hwf'.
    assert (Hk : forall a, a ∈ labels_of (zip (in_labels e (shape <$> ops)) ops) -> known e (shape <$> ops) a).
    { intros a (p & Hp & Ha)%elem_of_labels. destruct p as [t o]. apply elem_of_zip_l in Hp. by eapply in_known. }
    assert (Hzip : zip (in_labels (rename_eqn f e) (shape <$> ops)) ops = rename_op (emap f) <$> zip (in_labels e (shape <$> ops)) ops).
    { rewrite in_labels_rename. apply zip_rename_gen. }
    destruct (contract_ok ord ord_ok B B_ok (rename_eqn f e) (render (rename_eqn f e)) ops) with (use_blas := use_blas) (opt := opt) (mem := mem) as (T' & HT' & HTeq'); try done.
    - simpl. intros H%fmap_nil_inv. done.
    - by apply Hsp.
    - rewrite Hzip. apply good_rename; [|done]. intros a b Ha Hb. eapply emap_inj; [done|by apply Hk|by apply Hk].
    - rewrite Hzip, labels_rename. etrans; [apply remove_dups_fmap|done].
    - exists T, T'. split; [done|]. split; [done|]. rewrite HTeq', HTeq, Hzip, out_labels_rename by done. apply einsum_rename; [|by destruct Hwf].
      intros a b Ha Hb. eapply emap_inj; [done| |].
      + destruct Ha; [by apply Hk|by apply out_known].
      + destruct Hb; [by apply Hk|by apply out_known].
  Qed.
End Main.
