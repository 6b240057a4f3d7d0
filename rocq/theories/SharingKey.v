(** Calls with equal einsum keys have equal values. *)
From Verif Require Import Prelude Einsum EinsumFacts EinsumOps Parser Helpers Contract Spec StringFacts StepFacts ContractFacts ContractMain AlphaFacts Sharing.

Lemma fmap_join (f : N -> N) (l : list str) : (c_comma ∈ join s_comma l -> f c_comma = c_comma) -> f <$> join s_comma l = join s_comma (fmap (M:=list) f <$> l).
Proof.
  induction l as [|x l IH]; intros Hc; [done|]. destruct l as [|y l]; [done|].
  change (join s_comma (x :: y :: l)) with (x ++ s_comma ++ join s_comma (y :: l)) in *. rewrite !fmap_cons in *.
  change (join s_comma ((f <$> x) :: (f <$> y) :: (fmap (M:=list) f <$> l))) with ((f <$> x) ++ s_comma ++ join s_comma ((f <$> y) :: (fmap (M:=list) f <$> l))).
  rewrite !fmap_app, IH; [|intros _; apply Hc; apply elem_of_app; right; apply elem_of_app; left; by left].
  do 2 f_equal. change (f <$> s_comma) with [f c_comma]. rewrite Hc; [done|]. apply elem_of_app. right. apply elem_of_app. left. by left.
Qed.
Definition clean (t : str) : Prop := c_comma ∉ t /\ c_dash ∉ t.
Lemma plain_clean t : Forall plain t -> clean t.
Proof. intros H. split; intros Hc; apply (plain_no _ _ H) in Hc as (? & ? & _); done. Qed.
Lemma clean_join l : Forall clean l -> c_dash ∉ join s_comma l.
Proof.
  intros H [Hc|(t & Ht & Hc)]%elem_of_join; [by apply elem_of_list_singleton in Hc|]. rewrite Forall_forall in H. by apply H in Ht as [_ ?].
Qed.
Lemma equation_inj (A A' : list str) (o o' : str) : A <> [] -> A' <> [] -> Forall clean A -> Forall clean A' -> c_dash ∉ o -> c_dash ∉ o' ->
  equation A o = equation A' o' -> A = A' /\ o = o'.
Proof.
  intros Hn Hn' HA HA' Ho Ho' H. unfold equation in H.
  assert (E : split s_arrow (join s_comma A ++ s_arrow ++ o) = split s_arrow (join s_comma A' ++ s_arrow ++ o')) by by rewrite H.
  rewrite !split_arrow_two in E by (done || by apply clean_join). injection E as E1 ->. split; [|done].
  assert (E2 : split s_comma (join s_comma A) = split s_comma (join s_comma A')) by by rewrite E1.
  unfold s_comma in E2. rewrite !split1_join in E2; [done|done| |done|]; (eapply Forall_impl; [eassumption|by intros t []]).
Qed.

Section Key.
  Context {K : semiring}.
  Notation tens := (tensor K).
  Lemma key_sound (h : nat -> tens) b ts out ids b' ts' out' ids' :
    ts <> [] -> ts' <> [] -> length ts = length ids -> length ts' = length ids' ->
    Forall (Forall plain) ts -> Forall (Forall plain) ts' -> Forall plain out -> Forall plain out' -> NoDup out ->
    compat (zip ts (h <$> ids)) -> compat (zip ts' (h <$> ids')) ->
    einsum_key b ts out ids = einsum_key b' ts' out' ids' ->
    einsum (zip ts (h <$> ids)) out ≡ₜ einsum (zip ts' (h <$> ids')) out'.
  Proof.
    intros Hn Hn' Hl Hl' Hp Hp' Ho Ho' Hnd Hc Hc' Hk. unfold einsum_key in Hk.
    set (L := merge_sort by_id (zip ts ids)) in *. set (L' := merge_sort by_id (zip ts' ids')) in *.
    assert (HL : L ≡ₚ zip ts ids) by apply merge_sort_Permutation. assert (HL' : L' ≡ₚ zip ts' ids') by apply merge_sort_Permutation.
    injection Hk as _ Ha Hi. change (alpha_canonicalize (join s_comma L.*1 ++ s_arrow ++ out) = alpha_canonicalize (join s_comma L'.*1 ++ s_arrow ++ out')) in Ha. apply alpha_complete in Ha as (f & [F1 F2 F3] & Hf).
    assert (Hz : forall (t : list str) (i : list nat), zip t (h <$> i) = (fun p => (p.1, h p.2)) <$> zip t i).
    { clear. induction t as [|a t IH]; intros [|j i]; [done..|]. rewrite fmap_cons. simpl. f_equal. apply IH. }
    assert (Hz' : forall (l : list (str * nat)), zip l.*1 (h <$> l.*2) = (fun p => (p.1, h p.2)) <$> l).
    { clear. induction l as [|[a j] l IH]; [done|]. rewrite !fmap_cons. simpl. f_equal. apply IH. }
    assert (HP : Forall (Forall plain) L.*1).
    { rewrite HL. rewrite fst_zip by (by rewrite Hl). done. }
    assert (HP' : Forall (Forall plain) L'.*1).
    { rewrite HL'. rewrite fst_zip by (by rewrite Hl'). done. }
    assert (HN : L.*1 <> []).
    { intros E%fmap_nil_inv. rewrite E in HL. apply Permutation_nil in HL. destruct ts, ids; done. }
    assert (HN' : L'.*1 <> []).
    { intros E%fmap_nil_inv. rewrite E in HL'. apply Permutation_nil in HL'. destruct ts', ids'; done. }
    set (s := join s_comma L.*1 ++ s_arrow ++ out) in *.
    assert (Hsyn : forall c, plain c -> c ∉ syntax) by (intros c (H1 & H2 & H3 & H4 & _); unfold syntax; set_solver).
    assert (Hs1 : forall t c, t ∈ L.*1 -> c ∈ t -> c ∈ s).
    { intros t c Ht Hct. unfold s. apply elem_of_app. left. clear -Ht Hct. induction (L.*1) as [|x l IH]; [by apply elem_of_nil in Ht|]. apply elem_of_cons in Ht as [->|Ht].
      - destruct l; [done|]. change (c ∈ x ++ s_comma ++ join s_comma (l :: l0)). apply elem_of_app. by left.
      - destruct l as [|y l]; [by apply elem_of_nil in Ht|]. change (c ∈ x ++ s_comma ++ join s_comma (y :: l)). rewrite !elem_of_app. right. right. auto. }
    assert (Hs2 : forall c, c ∈ out -> c ∈ s) by (intros c Hco; unfold s; rewrite !elem_of_app; by right; right).
    assert (Heq : L'.*1 = fmap (M:=list) f <$> L.*1 /\ out' = f <$> out).
    { apply equation_inj; [done|by intros ?%fmap_nil_inv| | | | |].
      - eapply Forall_impl; [exact HP'|]. intros t. apply plain_clean.
      - apply Forall_fmap, Forall_forall. intros t Ht. simpl. rewrite Forall_forall in HP. pose proof (HP t Ht) as Hpt.
        split; intros (c & E & Hct)%elem_of_list_fmap; apply (F2 c); [by eapply Hs1|by apply Hsyn, (plain_no t)|rewrite <-E; unfold syntax; set_solver|by eapply Hs1|by apply Hsyn, (plain_no t)|rewrite <-E; unfold syntax; set_solver].
      - intros Hco. by apply (plain_no _ _ Ho') in Hco as (_ & ? & _).
      - intros (c & E & Hco)%elem_of_list_fmap. apply (F2 c); [by apply Hs2|by apply Hsyn, (plain_no out)|rewrite <-E; unfold syntax; set_solver].
      - transitivity (f <$> s); [exact Hf|]. unfold equation, s. rewrite !fmap_app. f_equal; [apply fmap_join|f_equal].
        + intros Hcc. apply F1; [unfold s; apply elem_of_app; by left|unfold syntax; set_solver].
        + unfold s_arrow. simpl. f_equal; [|f_equal]; (apply F1; [unfold s, s_arrow; rewrite !elem_of_app; right; left; set_solver|unfold syntax; set_solver]). }
    destruct Heq as [HL1 ->].
    rewrite (einsum_perm (zip ts (h <$> ids)) (zip L.*1 (h <$> L.*2))); [|by rewrite Hz, Hz', HL|done].
    rewrite (einsum_perm (zip ts' (h <$> ids')) (zip L'.*1 (h <$> L'.*2))); [|by rewrite Hz, Hz', HL'|done].
    rewrite <-Hi, HL1. rewrite zip_rename_gen. symmetry. apply einsum_rename; [|done].
    assert (Hin : forall a, a ∈ labels_of (zip L.*1 (h <$> L.*2)) \/ a ∈ out -> a ∈ s).
    { intros a [Hla|Hao]; [|by apply Hs2]. unfold labels_of in Hla. apply elem_of_list_bind in Hla as (p & Hap & Hpz). apply (Hs1 p.1); [|done].
      destruct p as [t x]. by apply elem_of_zip_l in Hpz. }
    intros a c Ha Hb. apply F3; by apply Hin.
  Qed.
End Key.
