(** Facts about splitting, joining and popping. *)
From Verif Require Import Prelude Spec.

Lemma prefixb_arrow_no c s : c <> c_dash -> prefixb s_arrow (c :: s) = false.
Proof. intros H. unfold s_arrow. cbn [prefixb]. by rewrite bool_decide_false by congruence. Qed.
Lemma split_arrow_no s : c_dash ∉ s -> split s_arrow s = [s].
Proof.
  unfold split. induction s as [|x s IH]; intros H; [done|].
  apply not_elem_of_cons in H as [H1 H2]. cbn [split_aux]. rewrite prefixb_arrow_no by done.
  by rewrite IH.
Qed.
Lemma split_arrow_app a b : c_dash ∉ a -> split s_arrow (a ++ s_arrow ++ b) = a :: split s_arrow b.
Proof.
  unfold split. induction a as [|x a IH]; intros H.
  - done.
  - apply not_elem_of_cons in H as [H1 H2]. cbn [app split_aux]. rewrite prefixb_arrow_no by done. by rewrite IH.
Qed.
Lemma split_arrow_two a b : c_dash ∉ a -> c_dash ∉ b -> split s_arrow (a ++ s_arrow ++ b) = [a; b].
Proof. intros Ha Hb. by rewrite split_arrow_app, split_arrow_no. Qed.
Lemma sub_in_arrow_app a b : c_dash ∉ a -> sub_in s_arrow (a ++ s_arrow ++ b) = true.
Proof.
  intros Ha. unfold sub_in, count_sub. rewrite split_arrow_app by done. simpl.
  rewrite bool_decide_false; [done|]. destruct (split s_arrow b) eqn:E; simpl; [|lia].
  by apply split_aux_ne in E.
Qed.
Lemma elem_of_join c sep l : c ∈ join sep l -> c ∈ sep \/ exists t, t ∈ l /\ c ∈ t.
Proof.
  induction l as [|t l IH]; [by intros ?%elem_of_nil|].
  destruct l as [|t' l]; [intros H; right; exists t; split; [by left|done]|].
  rewrite join_cons by done. rewrite !elem_of_app. intros [H|[H|H]]; auto.
  - right. exists t. split; [by left|done].
  - destruct (IH H) as [?|(u & Hu & Hc)]; auto. right. exists u. split; [by right|done].
Qed.
Lemma elem_of_join_2 c sep l t : t ∈ l -> c ∈ t -> c ∈ join sep l.
Proof.
  induction l as [|u l IH]; [by intros ?%elem_of_nil|]. intros Ht Hc.
  destruct l as [|u' l].
  - apply elem_of_list_singleton in Ht as ->. done.
  - rewrite join_cons by done. rewrite !elem_of_app. apply elem_of_cons in Ht as [->|Ht]; auto.
Qed.
Lemma join_nil_bind (l : list str) : join [] l = l ≫= id.
Proof.
  induction l as [|t l IH]; [done|]. destruct l as [|t' l].
  - simpl. unfold join. by rewrite app_nil_r.
  - rewrite join_cons by done. rewrite IH. done.
Qed.

Lemma plain_join_dash ts : Forall (Forall plain) ts -> c_dash ∉ join s_comma ts.
Proof.
  intros H [Hc|(t & Ht & Hc)]%elem_of_join.
  - apply elem_of_list_singleton in Hc. done.
  - rewrite Forall_forall in H. specialize (H t Ht). rewrite Forall_forall in H. by apply H in Hc as (_ & ? & _).
Qed.
Lemma plain_no (t : str) c : Forall plain t -> c ∈ t -> plain c.
Proof. rewrite Forall_forall. auto. Qed.

(** Popping. *)
Lemma delete_perm {A} (l : list A) i x : l !! i = Some x -> x :: delete i l ≡ₚ l.
Proof. intros H. symmetry. by apply delete_Permutation. Qed.
Lemma pops_perm {A} is_ (l tmp rest : list A) : pops is_ l = Ok (tmp, rest) -> tmp ++ rest ≡ₚ l.
Proof.
  revert l tmp rest. induction is_ as [|i is_ IH]; intros l tmp rest H; simpl in H.
  - by simplify_eq.
  - unfold pop_at in H. destruct (l !! i) as [x|] eqn:Hi; simpl in H; [|done].
    destruct (pops is_ (delete i l)) as [[xs l'']|] eqn:E; simplify_eq/=.
    rewrite (IH _ _ _ E). by apply delete_perm.
Qed.
Lemma pops_fmap {A B} (f : A -> B) is_ (l tmp rest : list A) :
  pops is_ l = Ok (tmp, rest) -> pops is_ (f <$> l) = Ok (f <$> tmp, f <$> rest).
Proof.
  revert l tmp rest. induction is_ as [|i is_ IH]; intros l tmp rest H; simpl in *.
  - by simplify_eq.
  - unfold pop_at in *. rewrite list_lookup_fmap. destruct (l !! i) as [x|] eqn:Hi; simpl in *; [|done].
    destruct (pops is_ (delete i l)) as [[xs l'']|] eqn:E; simplify_eq/=.
    rewrite <-list_fmap_delete. by rewrite (IH _ _ _ E).
Qed.
Lemma pops_zip {A B} is_ (l1 : list A) (l2 : list B) t1 r1 t2 r2 :
  length l1 = length l2 ->
  pops is_ l1 = Ok (t1, r1) -> pops is_ l2 = Ok (t2, r2) ->
  pops is_ (zip l1 l2) = Ok (zip t1 t2, zip r1 r2) /\ length t1 = length t2 /\ length r1 = length r2.
Proof.
  revert l1 l2 t1 r1 t2 r2. induction is_ as [|i is_ IH]; intros l1 l2 t1 r1 t2 r2 Hlen H1 H2; simpl in *.
  - by simplify_eq.
  - unfold pop_at in *. destruct (l1 !! i) as [x|] eqn:Hx; simpl in *; [|done].
    destruct (l2 !! i) as [y|] eqn:Hy; simpl in *; [|done].
    destruct (pops is_ (delete i l1)) as [[xs1 l1']|] eqn:E1; simplify_eq/=.
    destruct (pops is_ (delete i l2)) as [[xs2 l2']|] eqn:E2; simplify_eq/=.
    assert (Hz : zip l1 l2 !! i = Some (x, y)) by (apply lookup_zip_with_Some; eauto).
    rewrite Hz. simpl.
    assert (Hd : delete i (zip l1 l2) = zip (delete i l1) (delete i l2)).
    { clear -Hlen. revert i l2 Hlen. induction l1 as [|a l1 IH]; intros i [|b l2] Hlen; simplify_eq/=; [done|].
      destruct i; simpl; [done|]. by rewrite IH. }
    rewrite Hd.
    destruct (IH (delete i l1) (delete i l2) xs1 r1 xs2 r2) as (H1 & H2 & H3); [|done|done|].
    { apply lookup_lt_Some in Hx as ?. apply lookup_lt_Some in Hy as ?. rewrite !length_delete by eauto. lia. }
    rewrite H1. simpl. repeat split; [|done]. by rewrite H2.
Qed.

(** Positions in descending order. *)
Definition desc (l : list nat) : Prop := StronglySorted (fun a b => b < a) l.
Lemma sort_desc_perm l : sort_desc l ≡ₚ l.
Proof. apply merge_sort_Permutation. Qed.
Lemma sort_desc_sorted l : StronglySorted geq (sort_desc l).
Proof. apply StronglySorted_merge_sort; apply _. Qed.
Lemma sort_desc_desc l : NoDup l -> desc (sort_desc l).
Proof.
  intros Hnd. assert (Hnd' : NoDup (sort_desc l)) by by rewrite sort_desc_perm.
  pose proof (sort_desc_sorted l) as Hs. unfold desc. induction Hs as [|a l' Hs IH Hall]; [constructor|].
  apply NoDup_cons in Hnd' as [Ha Hnd']. constructor; [by apply IH|].
  rewrite Forall_forall in *. intros b Hb. specialize (Hall b Hb). unfold geq in Hall.
  assert (a <> b) by (intros ->; done). lia.
Qed.
Global Instance geq_antisymm : AntiSymm eq geq.
Proof. intros a b. unfold geq. lia. Qed.
Lemma sort_desc_idemp l : sort_desc (sort_desc l) = sort_desc l.
Proof.
  apply (StronglySorted_unique geq); [apply sort_desc_sorted|apply sort_desc_sorted|]. apply sort_desc_perm.
Qed.

Lemma pops_ok {A} is_ (l : list A) : desc is_ -> Forall (fun i => i < length l) is_ ->
  exists tmp rest, pops is_ l = Ok (tmp, rest) /\ length tmp = length is_ /\ length rest = length l - length is_.
Proof.
  intros Hd. revert l. induction Hd as [|i is_ Hd IH Hall]; intros l Hr; simpl.
  - exists [], l. repeat split. lia.
  - inversion Hr as [|? ? Hi Hr']; subst. unfold pop_at.
    destruct (lookup_lt_is_Some_2 l i Hi) as [x Hx]. rewrite Hx. simpl.
    assert (Hlen : length (delete i l) = length l - 1) by (rewrite length_delete by eauto; done).
    destruct (IH (delete i l)) as (tmp & rest & H1 & H2 & H3).
    + rewrite Hlen. rewrite Forall_forall in *. intros j Hj. specialize (Hall j Hj). lia.
    + rewrite H1. simpl. exists (x :: tmp), rest. repeat split; simpl; lia.
Qed.
