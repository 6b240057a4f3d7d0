(** The numbers contract_path reports are those of the path. *)
From Verif Require Import Prelude Einsum EinsumFacts Helpers Contract Spec PathSpec StringFacts StepFacts ContractFacts.

Section Sel.
  Context {A : Type}.
  Implicit Types l : list A.
  Fixpoint sel (P : nat -> bool) (k : nat) l : list A :=
    match l with [] => [] | x :: l' => if P k then x :: sel P (S k) l' else sel P (S k) l' end.
  Lemma sel_chosen s l : chosen s l = sel (fun i => bool_decide (i ∈ s)) 0 l.
  Proof.
    unfold chosen. generalize 0. induction l as [|x l IH]; intros k; [done|]. simpl. rewrite filter_cons. simpl. rewrite <-IH.
    case_bool_decide; [by rewrite decide_True|by rewrite decide_False].
  Qed.
  Lemma sel_others s l : others s l = sel (fun i => bool_decide (i ∉ s)) 0 l.
  Proof.
    unfold others. generalize 0. induction l as [|x l IH]; intros k; [done|]. simpl. rewrite filter_cons. simpl. rewrite <-IH.
    destruct (decide (k ∉ s)); [by rewrite bool_decide_true|by rewrite bool_decide_false].
  Qed.
  Lemma sel_app P l1 l2 k : sel P k (l1 ++ l2) = sel P k l1 ++ sel P (k + length l1) l2.
  Proof.
    revert k. induction l1 as [|x l1 IH]; intros k; simpl; [f_equal; lia|]. rewrite IH.
    replace (S k + length l1) with (k + S (length l1)) by lia. by destruct (P k).
  Qed.
  Lemma sel_all P l k : (forall i, k <= i -> P i = true) -> sel P k l = l.
  Proof. revert k. induction l as [|x l IH]; intros k HP; [done|]. simpl. rewrite HP by lia. f_equal. apply IH. intros; apply HP; lia. Qed.
  Lemma sel_none P l k : (forall i, k <= i -> P i = false) -> sel P k l = [].
  Proof. revert k. induction l as [|x l IH]; intros k HP; [done|]. simpl. rewrite HP by lia. apply IH. intros; apply HP; lia. Qed.
  Lemma sel_ext P Q l k : (forall i, k <= i < k + length l -> P i = Q i) -> sel P k l = sel Q k l.
  Proof.
    revert k. induction l as [|x l IH]; intros k HP; [done|]. simpl in *. rewrite HP by lia. destruct (Q k); [f_equal|]; apply IH; intros; apply HP; lia.
  Qed.
  Lemma others_perm s s' l : s ≡ₚ s' -> others s l = others s' l.
  Proof. intros Hs. rewrite !sel_others. apply sel_ext. intros. apply bool_decide_ext. by rewrite Hs. Qed.
  Lemma chosen_perm s s' l : s ≡ₚ s' -> chosen s l = chosen s' l.
  Proof. intros Hs. rewrite !sel_chosen. apply sel_ext. intros. apply bool_decide_ext. by rewrite Hs. Qed.

  (** The model's pops are the selection. *)
  Lemma pops_select s l : desc s -> Forall (fun i => i < length l) s -> exists tmp, pops s l = Ok (tmp, others s l) /\ reverse tmp = chosen s l.
  Proof.
    revert l. induction s as [|i s IH]; intros l Hd Hr.
    - exists []. simpl. rewrite sel_others, sel_chosen, sel_all by (intros; apply bool_decide_true, not_elem_of_nil).
      rewrite sel_none by (intros; apply bool_decide_false, not_elem_of_nil). done.
    - apply Forall_cons in Hr as [Hi Hr]. inversion Hd as [|? ? Hd' Hlt]; subst. fold (desc s) in Hd'.
      destruct (lookup_lt_is_Some_2 l i Hi) as [x Hx]. simpl. unfold pop_at. rewrite Hx. cbn [mbind res_bind].
      rewrite Forall_forall in Hlt.
      apply elem_of_list_split_length in Hx as (l1 & l2 & Hl & Hl1).
      assert (Hdel : delete i l = l1 ++ l2) by (rewrite Hl; subst i; by rewrite delete_middle).
      destruct (IH (delete i l) Hd') as (tmp & Hp & Htmp).
      { apply Forall_forall. intros j Hj. apply Hlt in Hj as Hj'. rewrite Hdel. rewrite Hl in Hi. rewrite app_length in *. simpl in *. lia. }
      rewrite Hp. cbn [mbind res_bind]. exists (x :: tmp). rewrite reverse_cons, Htmp, Hdel.
      assert (Hi0 : forall k, i <= k -> k ∉ s) by (intros k Hk Hin; apply Hlt in Hin; lia).
      split.
      + do 2 f_equal. rewrite !sel_others, Hl, !sel_app. simpl. rewrite <-Hl1.
        rewrite (bool_decide_false (i ∉ i :: s)) by set_solver. f_equal.
        * apply sel_ext. intros k Hk. apply bool_decide_ext. rewrite not_elem_of_cons. split; [intros; split; [lia|done]|tauto].
        * rewrite !sel_all; [done|intros; apply bool_decide_true, not_elem_of_cons; split; [lia|apply Hi0; lia]|intros; apply bool_decide_true, Hi0; lia].
      + rewrite !sel_chosen, Hl, !sel_app. simpl. rewrite <-Hl1. rewrite (bool_decide_true (i ∈ i :: s)) by set_solver.
        rewrite !(sel_none _ l2).
        * rewrite app_nil_r. f_equal. apply sel_ext. intros k Hk. apply bool_decide_ext. rewrite elem_of_cons. split; [auto|intros [?|?]; [lia|done]].
        * intros k Hk. apply bool_decide_false. rewrite elem_of_cons. intros [?|Hin]; [lia|]. apply Hi0 in Hin; [done|lia].
        * intros k Hk. apply bool_decide_false, Hi0. lia.
  Qed.
  Lemma chosen_others_perm s l : chosen s l ++ others s l ≡ₚ l.
  Proof.
    unfold chosen, others. rewrite <-fmap_app. transitivity ((zip (seq 0 (length l)) l).*2).
    - apply fmap_Permutation. generalize (zip (seq 0 (length l)) l). clear. intros z. induction z as [|p z IH]; [done|].
      rewrite !filter_cons. destruct (decide (p.1 ∈ s)) as [Hp|Hp].
      + rewrite decide_False by (intros H; by apply H). simpl. by f_equiv.
      + rewrite decide_True by done. rewrite <-Permutation_middle. by f_equiv.
    - by rewrite snd_zip by by rewrite seq_length.
  Qed.
  Lemma chosen_length s l : NoDup s -> Forall (fun i => i < length l) s -> length (chosen s l) = length s.
  Proof.
    intros Hnd Hr. rewrite (chosen_perm _ (sort_desc s)) by (symmetry; apply sort_desc_perm).
    destruct (pops_select (sort_desc s) l) as (tmp & Hp & <-); [by apply sort_desc_desc|by rewrite sort_desc_perm|].
    rewrite reverse_length. 
    assert (Hsl : length s = length (sort_desc s)) by (by rewrite sort_desc_perm).
    destruct (pops_ok (sort_desc s) l) as (tmp' & rest & Hp' & Hl & _); [by apply sort_desc_desc|by rewrite sort_desc_perm|]. congruence.
  Qed.
  Lemma others_length s l : NoDup s -> Forall (fun i => i < length l) s -> length (others s l) = length l - length s.
  Proof.
    intros Hnd Hr. pose proof (chosen_others_perm s l) as Hp. apply Permutation_length in Hp.
    rewrite app_length, chosen_length in Hp by done. lia.
  Qed.
End Sel.
Lemma chosen_fmap {A B} (f : A -> B) s l : chosen s (f <$> l) = f <$> chosen s l.
Proof.
  unfold chosen. rewrite fmap_length. generalize 0. induction l as [|x l IH]; intros k; [done|].
  rewrite fmap_cons. simpl. rewrite !filter_cons. simpl. destruct (decide (k ∈ s)); [|apply IH].
  rewrite !fmap_cons. f_equal. apply IH.
Qed.
Lemma others_fmap {A B} (f : A -> B) s l : others s (f <$> l) = f <$> others s l.
Proof.
  unfold others. rewrite fmap_length. generalize 0. induction l as [|x l IH]; intros k; [done|].
  rewrite fmap_cons. simpl. rewrite !filter_cons. simpl. destruct (decide (k ∉ s)); [|apply IH].
  rewrite !fmap_cons. f_equal. apply IH.
Qed.
Lemma run_path_length {A} (f : list A -> A) p l : path_runs (length l) p -> length (run_path f p l) = 1.
Proof.
  revert l. induction p as [|s p IH]; intros l H; simpl in *; [done|].
  destruct H as (Hne & Hnd & Hr & H). apply IH. rewrite app_length, others_length by done. done.
Qed.

Lemma elem_union_all c l : c ∈ union_all l <-> exists s, s ∈ l /\ c ∈ s.
Proof. unfold union_all. rewrite elem_of_union_list. naive_solver. Qed.
Lemma union_sets_perm l k : l ≡ₚ k -> union_sets l = union_all k.
Proof. intros H. apply set_eq. intros c. rewrite elem_union_sets, elem_union_all. by setoid_rewrite H. Qed.

Lemma find_contraction_spec inds sets out : inds <> [] -> NoDup inds -> Forall (fun i => i < length sets) inds ->
  find_contraction inds sets out = Ok (kept out inds sets, others inds sets ++ [kept out inds sets],
    union_all (chosen inds sets) ∖ kept out inds sets, union_all (chosen inds sets)).
Proof.
  intros Hne Hnd Hr. unfold find_contraction.
  destruct (pops_select (sort_desc inds) sets) as (tmp & Hp & Htmp); [by apply sort_desc_desc|by rewrite sort_desc_perm|].
  rewrite Hp. cbn [mbind res_bind].
  rewrite (chosen_perm _ inds) in Htmp by apply sort_desc_perm. rewrite (others_perm _ inds) by apply sort_desc_perm.
  assert (Htl : tmp <> []).
  { intros ->. pose proof (chosen_length inds sets Hnd Hr) as H. rewrite <-Htmp in H. by destruct inds. }
  assert (Hu : union_sets tmp = union_all (chosen inds sets)).
  { apply union_sets_perm. rewrite <-Htmp. by rewrite reverse_Permutation. }
  assert (Hk : (out ∪ union_sets (others inds sets)) ∩ union_sets tmp = kept out inds sets).
  { apply set_eq. intros c. unfold kept. rewrite !elem_of_intersection, !elem_of_union, Hu, elem_union_sets, (elem_union_all c (others _ _)). tauto. }
  destruct tmp as [|t tmp]; [done|]. by rewrite Hk, Hu.
Qed.
Lemma volume_ok d (s : gset N) (l : list N) : l ≡ₚ elements s -> (forall c, c ∈ s -> is_Some (d !! c)) ->
  compute_size_by_dict l d = Ok (volume (size_of d) s).
Proof.
  intros Hl Hd. rewrite compute_size_ok.
  - f_equal. apply prod_list_perm. by rewrite Hl.
  - intros c. rewrite Hl, elem_of_elements. apply Hd.
Qed.
Definition step_numbers (d : N -> nat) (st : list (gset N) * gset N) : step_info :=
  StepInfo (step_cost d st) (size (union_all st.1)) (volume d st.2).

(** Steps name distinct available positions, at least one. *)
Fixpoint steps_valid (n : nat) (p : path) : Prop :=
  match p with
  | [] => True
  | s :: p' => s <> [] /\ NoDup s /\ Forall (fun i => i < n) s /\ steps_valid (n - length s + 1) p'
  end.
Lemma path_runs_valid n p : path_runs n p -> steps_valid n p.
Proof. revert n. induction p as [|s p IH]; intros n; simpl; [done|]. naive_solver. Qed.
Lemma kept_sub out s sets c : c ∈ kept out s sets -> exists t, t ∈ sets /\ c ∈ t.
Proof.
  unfold kept. rewrite elem_of_intersection, elem_union_all. intros [(t & Ht & Hc) _]. exists t. split; [|done].
  rewrite <-(chosen_others_perm s sets). set_solver.
Qed.
Lemma others_sub {A} s (l : list A) x : x ∈ others s l -> x ∈ l.
Proof. intros H. rewrite <-(chosen_others_perm s l). set_solver. Qed.
Lemma chosen_sub {A} s (l : list A) x : x ∈ chosen s l -> x ∈ l.
Proof. intros H. rewrite <-(chosen_others_perm s l). set_solver. Qed.

Lemma cp_loop_numbers ord use_blas output d p : (forall s, ord s ≡ₚ elements s) -> forall sets terms shapes steps,
  steps_valid (length sets) p -> (forall s c, s ∈ sets -> c ∈ s -> is_Some (d !! c)) ->
  cp_loop ord use_blas output d p sets terms shapes = Ok steps ->
  snd <$> steps = step_numbers (size_of d) <$> replay (list_to_set output) p sets.
Proof.
  intros ord_ok. induction p as [|inds p IH]; intros sets terms shapes steps Hv Hd Hcp; [by injection Hcp as <-|].
  simpl in Hv. destruct Hv as (Hne & Hnd & Hr & Hv). simpl cp_loop in Hcp.
  rewrite find_contraction_spec in Hcp; [|intros H; destruct Hne; apply Permutation_nil; rewrite <-H; apply sort_desc_perm|by rewrite sort_desc_perm|by rewrite sort_desc_perm].
  assert (Hk : kept (list_to_set output) (sort_desc inds) sets = kept (list_to_set output) inds sets).
  { unfold kept. rewrite (chosen_perm _ inds) by apply sort_desc_perm. rewrite (others_perm _ inds) by apply sort_desc_perm. done. }
  rewrite Hk, (chosen_perm _ inds) in Hcp by apply sort_desc_perm. rewrite (others_perm _ inds) in Hcp by apply sort_desc_perm.
  cbn [mbind res_bind] in Hcp. unfold flop_count in Hcp.
  rewrite (volume_ok d (union_all (chosen inds sets)) (ord (union_all (chosen inds sets))) (ord_ok _)) in Hcp.
  2: { intros c (s & Hs & Hc)%elem_union_all. eapply Hd; [by eapply chosen_sub|done]. }
  cbn [mbind res_bind] in Hcp. rewrite (volume_ok d (kept (list_to_set output) inds sets) (ord (kept (list_to_set output) inds sets)) (ord_ok _)) in Hcp.
  2: { intros c (s & Hs & Hc)%kept_sub. by eapply Hd. }
  cbn [mbind res_bind] in Hcp.
  apply bind_Ok in Hcp as ([tmp_inputs terms'] & _ & Hcp). apply bind_Ok in Hcp as ([tmp_shapes shapes'] & _ & Hcp).
  apply bind_Ok in Hcp as (shp & _ & Hcp). apply bind_Ok in Hcp as (rest & Hrest & Hcp). apply Ok_inj in Hcp as <-.
  rewrite fmap_cons. cbn [replay]. rewrite fmap_cons. f_equal.
  - unfold step_numbers, step_cost. simpl. rewrite sort_desc_perm.
    rewrite chosen_length by done. f_equal. f_equal. f_equal.
    assert (Hks : kept (list_to_set output) inds sets ⊆ union_all (chosen inds sets)) by (intros c; unfold kept; rewrite elem_of_intersection; tauto).
    case_bool_decide as E; case_decide as E2; simpl; try done.
    + destruct E2. apply set_eq. intros c. split; [apply Hks|]. intros Hc. destruct (decide (c ∈ kept (list_to_set output) inds sets)); [done|].
      exfalso. apply (not_elem_of_empty (C:=gset N) c). rewrite <-E. set_solver.
    + destruct E. rewrite E2. set_solver.
  - eapply IH; [| |exact Hrest].
    + by rewrite app_length, others_length.
    + intros s c [Hs|Hs]%elem_of_app Hc; [eapply Hd; [by eapply others_sub|done]|].
      apply elem_of_list_singleton in Hs as ->. apply kept_sub in Hc as (t & ? & ?). by eapply Hd.
Qed.
Lemma replay_scale out p sets : steps_valid (length sets) p -> Forall (fun st => union_all st.1 ⊆ union_all sets) (replay out p sets).
Proof.
  revert sets. induction p as [|s p IH]; intros sets Hv; [constructor|]. simpl in *. destruct Hv as (? & ? & ? & Hv).
  constructor.
  - intros c. simpl. rewrite !elem_union_all. intros (t & Ht & Hc). exists t. split; [by eapply chosen_sub|done].
  - eapply Forall_impl; [apply IH; by rewrite app_length, others_length|]. simpl. intros st Hst c Hc. apply Hst in Hc.
    apply elem_union_all in Hc as (t & [Ht|Ht]%elem_of_app & Hc); apply elem_union_all.
    + exists t. split; [by eapply others_sub|done].
    + apply elem_of_list_singleton in Ht as ->. by apply kept_sub in Hc.
Qed.
