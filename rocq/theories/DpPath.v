(** The path of [DynamicProgramming.__call__] against other paths: costs of replayed paths as values of trees. *)
From Verif Require Import Prelude Einsum EinsumFacts Helpers Contract Spec PathSpec StringFacts StepFacts ContractFacts PathFacts TopFacts Ssa SsaSpec SsaFacts SsaMore Optimal OptimalFacts OptimalBest Tree TreeSpec TreeFacts DpSpec DpPathSpec Dp PartsFacts DpFacts DpMain DpTop.
From stdpp Require Import relations sorting.

(** ** Disjoint lists of sets *)
Fixpoint apart (l : list (gset nat)) : Prop := match l with [] => True | X :: l' => X ## ⋃ l' /\ apart l' end.
Lemma union_list_perm {A} `{Countable A} (l l' : list (gset A)) : l ≡ₚ l' -> ⋃ l = ⋃ l'.
Proof. intros Hp. apply set_eq. intros x. rewrite !elem_of_union_list. by setoid_rewrite Hp. Qed.
Lemma apart_perm l l' : l ≡ₚ l' -> apart l -> apart l'.
Proof.
  induction 1 as [|S l l' Hp IH|S S' l|l l' l'' _ IH1 _ IH2]; [done| | |auto].
  - intros [H1 H2]. split; [|auto]. by rewrite <-(union_list_perm _ _ Hp).
  - simpl. intros (H1 & H2 & H3). set_solver.
Qed.
Lemma apart_app l l' : apart (l ++ l') <-> apart l /\ apart l' /\ ⋃ l ## ⋃ l'.
Proof.
  induction l as [|S l IH]; simpl; [set_solver|]. rewrite IH. rewrite union_list_app_L. split.
  - intros (H1 & H2 & H3 & H4). repeat split; try done; set_solver.
  - intros ((H1 & H2) & H3 & H4). repeat split; try done; set_solver.
Qed.

(** ** Replaying a path with the sets of inputs contracted *)
Section Fold.
  Variable inputs : list (gset N).
  Variable out : gset N.
  Context {M : Type}.
  Variable e : M.
  Variable op : M -> M -> M.
  Variable W : list (gset N) -> gset N -> M.
  Hypothesis op_assoc : forall a b c, op a (op b c) = op (op a b) c.
  Hypothesis op_comm : forall a b, op a b = op b a.
  Hypothesis op_unit : forall a, op e a = a.
  Hypothesis W_perm : forall ks ks' k, ks ≡ₚ ks' -> W ks k = W ks' k.
  Notation all := (set_seq 0 (length inputs) : gset nat).
  Notation labs := (labels_in_set inputs).
  Notation item := (gset nat * gset N * M)%type.
  Definition fold_op (l : list M) : M := foldr op e l.
  Definition join_items (l : list item) : item :=
    let S := ⋃ l.*1.*1 in let k := union_all l.*1.*2 ∩ (out ∪ labs (all ∖ S)) in (S, k, op (fold_op l.*2) (W l.*1.*2 k)).
  Definition item_ok (x : item) : Prop := labs x.1.1 ∩ (out ∪ labs (all ∖ x.1.1)) ⊆ x.1.2 /\ x.1.2 ⊆ labs x.1.1.
  Record items_ok (l : list item) : Prop := ItemsOk { io_apart : apart l.*1.*1; io_all : ⋃ l.*1.*1 = all; io_items : Forall item_ok l }.

  Lemma fold_perm l l' : l ≡ₚ l' -> fold_op l = fold_op l'.
  Proof. unfold fold_op. induction 1 as [|a l l' _ IH|a b l|l l' l'' _ IH1 _ IH2]; simpl; [done|by rewrite IH|by rewrite !op_assoc, (op_comm a b)|congruence]. Qed.
  Lemma fold_app l l' : fold_op (l ++ l') = op (fold_op l) (fold_op l').
  Proof. unfold fold_op. induction l as [|a l IH]; simpl; [by rewrite op_unit|]. by rewrite IH, op_assoc. Qed.
  Lemma join_commutes : commutes join_items.
  Proof.
    intros l l' Hp. unfold join_items. rewrite (union_list_perm l.*1.*1 l'.*1.*1) by (by rewrite Hp). unfold union_all. rewrite (union_list_perm l.*1.*2 l'.*1.*2) by (by rewrite Hp).
    f_equal. rewrite (fold_perm l.*2 l'.*2) by (by rewrite Hp). f_equal. apply W_perm. by rewrite Hp.
  Qed.
  Lemma items_perm l l' : l ≡ₚ l' -> items_ok l -> items_ok l'.
  Proof. intros Hp [H1 H2 H3]. split; [|by rewrite <-H2; apply union_list_perm; rewrite Hp|by rewrite <-Hp]. eapply apart_perm; [|exact H1]. by rewrite Hp. Qed.
  Lemma labs_mono S S' c : S ⊆ S' -> c ∈ labs S -> c ∈ labs S'.
  Proof. intros Hs (j & Hj & Hc)%elem_labels_in_set. apply elem_labels_in_set. exists j. split; [by apply Hs|done]. Qed.

  Section Step.
    Variables c o : list item.
    Hypothesis Hco : items_ok (c ++ o).
    Lemma step_others x : x ∈ o -> x.1.1 ⊆ all ∖ ⋃ c.*1.*1 /\ item_ok x.
    Proof.
      destruct Hco as [H1 H2 H3]. rewrite !fmap_app in H1, H2. apply apart_app in H1 as (_ & _ & H1). intros Hx. split.
      - assert (Hs : x.1.1 ⊆ ⋃ o.*1.*1) by (intros j Hj; apply elem_of_union_list; exists x.1.1; split; [by do 2 apply elem_of_list_fmap_1|done]). intros j Hj. apply elem_of_difference. split; [|intros Hj'; exact (H1 j Hj' (Hs j Hj))]. rewrite <-H2, union_list_app_L. apply elem_of_union. right. by apply Hs.
      - rewrite Forall_forall in H3. apply H3. apply elem_of_app. by right.
    Qed.
    Lemma step_chosen x : x ∈ c -> item_ok x /\ x.1.1 ⊆ ⋃ c.*1.*1 /\ ⋃ c.*1.*1 ⊆ all.
    Proof.
      destruct Hco as [H1 H2 H3]. intros Hx. split; [|split].
      - rewrite Forall_forall in H3. apply H3. apply elem_of_app. by left.
      - intros j Hj. apply elem_of_union_list. exists x.1.1. split; [by do 2 apply elem_of_list_fmap_1|done].
      - rewrite <-H2, !fmap_app, union_list_app_L. set_solver.
    Qed.
    Lemma elem_keys (l : list item) a : a ∈ union_all l.*1.*2 <-> exists x, x ∈ l /\ a ∈ x.1.2.
    Proof.
      unfold union_all. rewrite elem_of_union_list. split.
      - intros (k & Hk & Ha). apply elem_of_list_fmap in Hk as (y & -> & Hy). apply elem_of_list_fmap in Hy as (x & -> & Hx). eauto.
      - intros (x & Hx & Ha). exists x.1.2. split; [by do 2 apply elem_of_list_fmap_1|done].
    Qed.
    Lemma elem_sets (l : list item) j : j ∈ ⋃ l.*1.*1 <-> exists x, x ∈ l /\ j ∈ x.1.1.
    Proof.
      rewrite elem_of_union_list. split.
      - intros (k & Hk & Ha). apply elem_of_list_fmap in Hk as (y & -> & Hy). apply elem_of_list_fmap in Hy as (x & -> & Hx). eauto.
      - intros (x & Hx & Ha). exists x.1.1. split; [by do 2 apply elem_of_list_fmap_1|done].
    Qed.
    Lemma step_kept : union_all c.*1.*2 ∩ (out ∪ union_all o.*1.*2) = (join_items c).1.2.
    Proof.
      unfold join_items. simpl. apply set_eq. intros a. rewrite !elem_of_intersection, !elem_of_union. split.
      - intros [Hc [Ho|Ho]]; split; [done|by left|done|right]. apply elem_keys in Ho as (x & Hx & Ha). destruct (step_others x Hx) as [Hs [_ Hk]]. eapply labs_mono; [exact Hs|]. by apply Hk.
      - intros [Hc [Ho|Ho]]; split; [done|by left|done|right]. apply elem_keys in Hc as (x & Hx & Ha). destruct (step_chosen x Hx) as ([_ Hk] & Hs & Hsall). apply Hk in Ha.
        apply elem_labels_in_set in Ho as (j & [Hj Hnj]%elem_of_difference & Hl). destruct Hco as [_ H2 _]. rewrite <-H2, !fmap_app, union_list_app_L, elem_of_union in Hj. destruct Hj as [?|Hj]; [done|].
        apply elem_sets in Hj as (y & Hy & Hjy). destruct (step_others y Hy) as [Hsy [Hky _]]. apply elem_keys. exists y. split; [done|]. apply Hky. apply elem_of_intersection. split; [apply elem_labels_in_set; eauto|].
        apply elem_of_union. right. eapply labs_mono; [|exact Ha]. intros j' Hj'. apply elem_of_difference. split; [by apply Hsall, Hs|]. intros Hj''. apply Hsy, elem_of_difference in Hj'' as [_ Hn]. by apply Hn, Hs.
    Qed.
    Lemma step_items : items_ok (o ++ [join_items c]).
    Proof.
      eapply items_perm; [apply Permutation_cons_append|]. pose proof Hco as [H1 H2 H3]. rewrite !fmap_app in H1, H2. rewrite union_list_app_L in H2. apply apart_app in H1 as (Ha & Hb & Hc). split; simpl.
      - done.
      - done.
      - constructor; [|apply Forall_app in H3; tauto]. unfold item_ok, join_items. simpl. split.
        + intros a [Hl Ho]%elem_of_intersection. apply elem_of_intersection. split; [|done]. apply elem_labels_in_set in Hl as (j & (x & Hx & Hj)%elem_sets & Hl). apply elem_keys. exists x. split; [done|].
          destruct (step_chosen x Hx) as ([Hk _] & Hs & _). apply Hk. apply elem_of_intersection. split; [apply elem_labels_in_set; eauto|]. apply elem_of_union in Ho as [Ho|Ho]; apply elem_of_union; [by left|right].
          eapply labs_mono; [|exact Ho]. set_solver.
        + intros a [(x & Hx & Hax)%elem_keys _]%elem_of_intersection. destruct (step_chosen x Hx) as ([_ Hk] & Hs & _). eapply labs_mono; [exact Hs|]. by apply Hk.
    Qed.
  End Step.

  Lemma run_items p l : path_runs (length l) p -> items_ok l ->
    exists x, run_path join_items p l = [x] /\ x.1.1 = all /\ x.2 = op (fold_op l.*2) (fold_op ((fun st => W st.1 st.2) <$> replay out p l.*1.*2)).
  Proof.
    revert l. induction p as [|s p IH]; intros l Hr Hi; simpl in Hr; cbn [run_path].
    - destruct l as [|x [|]]; try done. exists x. split; [done|]. split; [destruct Hi as [_ Hi _]; simpl in Hi; set_solver|]. simpl. by rewrite !(op_comm _ e), !op_unit.
    - destruct Hr as (Hne & Hnd & Hlt & Hr). pose proof (items_perm _ _ (symmetry (chosen_others_perm s l)) Hi) as Hco. destruct (IH (others s l ++ [join_items (chosen s l)])) as (x & H1 & H2 & H3).
      + rewrite app_length, others_length by done. exact Hr.
      + by apply step_items.
      + exists x. split; [done|]. split; [done|]. rewrite H3.
        assert (E : PathSpec.kept out s l.*1.*2 = (join_items (chosen s l)).1.2) by (unfold PathSpec.kept; rewrite !chosen_fmap, !others_fmap; by apply step_kept).
        assert (Erep : replay out (s :: p) l.*1.*2 = ((chosen s l).*1.*2, (join_items (chosen s l)).1.2) :: replay out p (others s l ++ [join_items (chosen s l)]).*1.*2).
        { cbn [replay]. rewrite E, !chosen_fmap, !others_fmap. by rewrite !fmap_app. }
        rewrite Erep, fmap_cons. cbn [fold_op foldr fst snd].
        rewrite <-(fold_perm _ _ (fmap_Permutation snd _ _ (chosen_others_perm s l))). rewrite !(fmap_app snd), !fold_app. simpl.
        rewrite (op_comm _ e), op_unit. cbn [join_items snd fst].
        set (R := fold_op (_ <$> replay _ _ _)). set (F1 := fold_op (chosen s l).*2). set (F2 := fold_op (others s l).*2). set (w := W _ _).
        rewrite (op_assoc F2 F1 w), (op_comm F2 F1). by rewrite !op_assoc.
  Qed.
End Fold.

(** ** Trees *)
Section First.
  Variable inputs : list (gset N).
  Variable out : gset N.
  Context {M : Type}.
  Variable e : M.
  Definition first_item (j : nat) : gset nat * gset N * M := ({[j]}, labels_of inputs j, e).
  Definition first_items : list (gset nat * gset N * M) := first_item <$> seq 0 (length inputs).
  Lemma first_keys : first_items.*1.*2 = inputs.
  Proof.
    unfold first_items. apply list_eq. intros i. rewrite !list_lookup_fmap. destruct (decide (i < length inputs)) as [Hi|Hi].
    - rewrite lookup_seq_lt by done. simpl. unfold labels_of. by destruct (lookup_lt_is_Some_2 inputs i Hi) as [k ->].
    - rewrite !lookup_ge_None_2 by (rewrite ?seq_length; lia). done.
  Qed.
  Lemma first_sets a n : apart ((first_item <$> seq a n).*1.*1) /\ ⋃ (first_item <$> seq a n).*1.*1 = set_seq a n.
  Proof.
    revert a. induction n as [|n IH]; intros a; [done|]. cbn [seq]. rewrite !fmap_cons. destruct (IH (S a)) as [H1 H2]. cbn [apart union_list foldr]. change (foldr (∪) ∅) with (@union_list (gset nat) _ _). rewrite H2.
    split; [|done]. split; [|done]. intros j Hj. rewrite elem_of_set_seq. simpl in Hj. apply elem_of_singleton in Hj as ->. lia.
  Qed.
  Lemma first_ok : items_ok inputs out first_items.
  Proof.
    destruct (first_sets 0 (length inputs)) as [H1 H2]. split; [done|done|]. apply Forall_forall. intros x (j & -> & _)%elem_of_list_fmap. unfold item_ok, first_item. simpl.
    assert (E : labels_in_set inputs {[j]} = labels_of inputs j) by (unfold labels_in_set; rewrite elements_singleton; simpl; set_solver). rewrite E. set_solver.
  Qed.
End First.
Section Values.
  Variable inputs : list (gset N).
  Variable out : gset N.
  Context {M : Type}.
  Variable e : M.
  Variable op : M -> M -> M.
  Variable W : list (gset N) -> gset N -> M.
  Hypothesis op_assoc : forall a b c, op a (op b c) = op (op a b) c.
  Hypothesis op_comm : forall a b, op a b = op b a.
  Hypothesis op_unit : forall a, op e a = a.
  Hypothesis W_perm : forall ks ks' k, ks ≡ₚ ks' -> W ks k = W ks' k.
  Hypothesis W_single : forall k k', W [k] k' = e.
  Notation all := (set_seq 0 (length inputs) : gset nat).
  Notation legs := (legs inputs out all).
  Notation join := (join_items inputs out e op W).
  Notation first_item := (first_item inputs e).
  Notation first_items := (first_items inputs e).
  Lemma first_fold : fold_op e op first_items.*2 = e.
  Proof. unfold first_items, fold_op. generalize (seq 0 (length inputs)). intros l. induction l as [|j l IH]; [done|]. simpl. rewrite op_unit. exact IH. Qed.

  Fixpoint tree_fold (b : btree) : M :=
    match b with BLeaf _ => e | BNode l r => op (op (tree_fold l) (tree_fold r)) (W [legs (bset l); legs (bset r)] (legs (bset l ∪ bset r))) end.
  Lemma join_two (a b : gset nat * gset N * M) : join [a; b] =
    (a.1.1 ∪ b.1.1, (a.1.2 ∪ b.1.2) ∩ (out ∪ labels_in_set inputs (all ∖ (a.1.1 ∪ b.1.1))), op (op a.2 b.2) (W [a.1.2; b.1.2] ((a.1.2 ∪ b.1.2) ∩ (out ∪ labels_in_set inputs (all ∖ (a.1.1 ∪ b.1.1)))))).
  Proof.
    unfold join_items, union_all. simpl. replace (a.1.1 ∪ (b.1.1 ∪ ∅)) with (a.1.1 ∪ b.1.1) by set_solver. replace (a.1.2 ∪ (b.1.2 ∪ ∅)) with (a.1.2 ∪ b.1.2) by set_solver. by rewrite (op_comm b.2 e), op_unit.
  Qed.
  Lemma join_one (a : gset nat * gset N * M) : join [a] = (a.1.1, a.1.2 ∩ (out ∪ labels_in_set inputs (all ∖ a.1.1)), a.2).
  Proof.
    unfold join_items, union_all. simpl. replace (a.1.1 ∪ ∅) with a.1.1 by set_solver. replace (a.1.2 ∪ ∅) with a.1.2 by set_solver. by rewrite W_single, (op_comm a.2 e), op_unit, op_comm, op_unit.
  Qed.
  Lemma legs_join (X Y : gset nat) : X ## Y -> X ∪ Y ⊆ all -> (legs X ∪ legs Y) ∩ (out ∪ labels_in_set inputs (all ∖ (X ∪ Y))) = legs (X ∪ Y).
  Proof.
    intros Hd Hs. apply set_eq. intros c. unfold DpSpec.legs. rewrite !elem_of_intersection, !elem_of_union, !elem_of_intersection, !elem_of_union, !elem_labels_in_set. split.
    - intros [[[(j & Hj & Hc) _]|[(j & Hj & Hc) _]] H2]; (split; [|done]); exists j; set_solver.
    - intros [(j & Hj & Hc) H2]. split; [|done]. apply elem_of_union in Hj as [Hj|Hj]; [left|right]; (split; [by exists j|]); (destruct H2 as [|(i & Hi & Hci)]; [by left|right]; exists i; split; [set_solver|done]).
  Qed.
  Lemma value_shape b t : shape inputs out b t -> NoDup (bleaves b) -> bset b ⊆ all -> value join first_item t = (bset b, legs (bset b), tree_fold b).
  Proof.
    induction 1 as [j Hj|j Hj|l r a b _ IHl _ IHr]; intros Hnd Hs.
    - simpl. unfold first_item. assert (E : bset (BLeaf j) = {[j]}) by (unfold bset; simpl; set_solver). rewrite E. f_equal. f_equal. unfold DpSpec.legs. apply set_eq. intros c. rewrite elem_of_intersection, elem_of_union, !elem_labels_in_set. split.
      + intros Hc. split; [exists j; set_solver|]. destruct (decide (c ∈ out)) as [|Ho]; [by left|right]. destruct (decide (Exists (fun i => i <> j /\ c ∈ labels_of inputs i) (seq 0 (length inputs)))) as [Hx|Hx].
        * apply Exists_exists in Hx as (i & Hi%elem_of_seq & Hn & Hci). exists i. split; [|done]. apply elem_of_difference. rewrite elem_of_set_seq, elem_of_singleton. split; [lia|done].
        * exfalso. apply (Hj c). split; [done|]. split; [done|]. intros i Hi Hci. apply Hx, Exists_exists. exists i. split; [|done]. apply elem_of_seq. apply labels_of_lt in Hci. lia.
      + intros [(i & ->%elem_of_singleton & Hc) _]. done.
    - cbn [value map]. rewrite join_one. unfold first_item. simpl. assert (E : bset (BLeaf j) = {[j]}) by (unfold bset; simpl; set_solver). rewrite E. unfold DpSpec.legs.
      assert (E' : labels_in_set inputs {[j]} = labels_of inputs j) by (unfold labels_in_set; rewrite elements_singleton; simpl; set_solver). by rewrite E'.
    - simpl in Hnd. apply NoDup_app in Hnd as (H1 & H2 & H3). rewrite bset_node in *. cbn [value map]. rewrite IHl, IHr by (done || set_solver). rewrite join_two. simpl. rewrite legs_join; [done| |done].
      intros j Hl Hr. unfold bset in Hl, Hr. apply elem_of_list_to_set in Hl, Hr. by apply (H2 j).
  Qed.
  (** The steps of the path made from a tree. *)
  Lemma path_of_tree b t p : shape inputs out b t -> btree_over all b -> tree_over (length inputs) t -> tree_to_sequence t = Ok p ->
    path_runs (length inputs) p /\ fold_op e op ((fun st => W st.1 st.2) <$> replay out p inputs) = tree_fold b.
  Proof.
    intros Hs [Hnd Hb] Ht Hp. destruct (tree_to_sequence_ok _ _ Ht) as (p' & Hp' & Hr & Hv). rewrite Hp in Hp'. injection Hp' as <-. split; [done|].
    destruct (Hv _ join first_items first_item (join_commutes inputs out e op W op_assoc op_comm W_perm)) as [Hv1 _].
    - unfold first_items. by rewrite fmap_length, seq_length.
    - intros i x Hx. unfold first_items in Hx. rewrite list_lookup_fmap in Hx. apply fmap_Some in Hx as (j & Hj & ->). apply lookup_seq in Hj as [-> _]. done.
    - destruct (run_items inputs out e op W op_assoc op_comm op_unit W_perm p first_items) as (x & Hx1 & _ & Hx2); [unfold first_items; by rewrite fmap_length, seq_length|apply first_ok|].
      rewrite Hv1 in Hx1. injection Hx1 as <-. rewrite first_keys, first_fold, op_unit in Hx2. rewrite <-Hx2. rewrite (value_shape b t) by (done || by rewrite Hb). done.
  Qed.
End Values.

(** ** The measures *)
Definition mode_op (mode : dp_min) : nat -> nat -> nat := match mode with DpSize => Nat.max | _ => Nat.add end.
Definition mode_weight (mode : dp_min) (fl sz : nat) : nat :=
  match mode with DpFlops => fl | DpSize | DpWrite => sz | DpCombo f => fl + f * sz | DpLimit f => Nat.max fl (f * sz) | DpLocal cost => cost fl sz end.
Definition step_weight (mode : dp_min) (D : N -> nat) (ks : list (gset N)) (k : gset N) : nat :=
  if decide (2 <= length ks) then mode_weight mode (volume D (union_all ks)) (volume D k) else 0.
Lemma volume_perm_union D ks ks' : ks ≡ₚ ks' -> volume D (union_all ks) = volume D (union_all ks').
Proof. intros Hp. unfold union_all. by rewrite (union_list_perm _ _ Hp). Qed.
Lemma mode_assoc mode a b c : mode_op mode a (mode_op mode b c) = mode_op mode (mode_op mode a b) c.
Proof. destruct mode; simpl; lia. Qed.
Lemma mode_comm mode a b : mode_op mode a b = mode_op mode b a.
Proof. destruct mode; simpl; lia. Qed.
Lemma mode_unit mode a : mode_op mode 0 a = a.
Proof. destruct mode; simpl; lia. Qed.
Lemma mode_mono mode a a' b b' : a <= a' -> b <= b' -> mode_op mode a b <= mode_op mode a' b'.
Proof. destruct mode; simpl; lia. Qed.
Lemma mode_weight_mono mode a a' b b' : monotone_mode mode -> a <= a' -> b <= b' -> mode_weight mode a b <= mode_weight mode a' b'.
Proof. intros Hmm Ha Hb. destruct mode as [| | |f|f|F]; simpl; [done|done|done|nia| |by apply Hmm]. pose proof (Nat.mul_le_mono_l _ _ f Hb). lia. Qed.
Lemma weight_perm mode D ks ks' k : ks ≡ₚ ks' -> step_weight mode D ks k = step_weight mode D ks' k.
Proof. intros Hp. unfold step_weight. rewrite (Permutation_length Hp), (volume_perm_union D _ _ Hp). done. Qed.
Lemma measure_fold mode D l : steps_measure mode D (contractions l) = fold_op 0 (mode_op mode) ((fun st => step_weight mode D st.1 st.2) <$> l).
Proof.
  induction l as [|st l IH]; [by destruct mode|]. unfold contractions. rewrite filter_cons. fold (contractions l). cbn [fmap list_fmap fold_op foldr]. fold (fold_op 0 (mode_op mode) ((fun st => step_weight mode D st.1 st.2) <$> l)). rewrite <-IH.
  unfold step_weight at 1. case_decide as Hd; rewrite ?decide_True, ?decide_False by done; [|by rewrite mode_unit]. by destruct mode.
Qed.
Lemma mode_cost_node inputs out D G mode l r : mode_cost inputs out D G mode (BNode l r) =
  mode_op mode (mode_op mode (mode_cost inputs out D G mode l) (mode_cost inputs out D G mode r)) (mode_weight mode (node_flops inputs out D G l r) (node_size inputs out D G l r)).
Proof. by destruct mode. Qed.
Lemma tree_fold_cost inputs out D mode b : tree_fold inputs out 0 (mode_op mode) (step_weight mode D) b = mode_cost inputs out D (set_seq 0 (length inputs)) mode b.
Proof.
  induction b as [j|l IHl r IHr]; [by destruct mode|]. cbn [tree_fold]. rewrite mode_cost_node, IHl, IHr. f_equal. unfold step_weight, node_flops, node_size. simpl. f_equal. f_equal. unfold union_all. simpl. set_solver.
Qed.

(** Whether a step is allowed. *)
Definition allowed_step (search_outer : bool) (mem : option nat) (D : N -> nat) (out : gset N) (ks : list (gset N)) (k : gset N) : bool :=
  bool_decide (length ks <= 2) && (bool_decide (length ks <= 1) || (
    (search_outer || match ks with [k1; k2] => negb (bool_decide ((k1 ∩ k2) ∖ out = ∅)) | _ => true end) &&
    match mem with None => true | Some limit => bool_decide (volume D k <= limit) end)).
Lemma allowed_perm so mem D out ks ks' k : ks ≡ₚ ks' -> allowed_step so mem D out ks k = allowed_step so mem D out ks' k.
Proof.
  intros Hp. unfold allowed_step. rewrite (Permutation_length Hp). f_equal. f_equal. f_equal. f_equal. destruct ks as [|k1 [|k2 [|k3 ks]]].
  - by apply Permutation_nil in Hp as ->.
  - by apply Permutation_length_1_inv in Hp as ->.
  - assert (H : ks' = [k1; k2] \/ ks' = [k2; k1]) by (apply Permutation_length_2_inv; done). destruct H as [-> | ->]; [done|]. by rewrite (intersection_comm_L k1 k2).
  - pose proof (Permutation_length Hp) as Hl. destruct ks' as [|k1' [|k2' [|k3' ks']]]; simpl in Hl; done || lia.
Qed.
Lemma outer_test (k1 k2 out : gset N) : negb (bool_decide ((k1 ∩ k2) ∖ out = ∅)) = true <-> exists c, c ∈ k1 /\ c ∈ k2 /\ c ∉ out.
Proof.
  rewrite negb_true_iff, bool_decide_eq_false. split.
  - intros (c & Hc)%set_choose_L. exists c. set_solver.
  - intros (c & H1 & H2 & H3) E. set_solver.
Qed.
Lemma allowed_step_ok so mem D out ks k : allowed_step so mem D out ks k = true <->
  length ks <= 2 /\ (2 <= length ks -> (so = false -> inner_step out (ks, k)) /\ within D mem (ks, k)).
Proof.
  unfold allowed_step, inner_step, within, step_size. simpl. rewrite andb_true_iff, orb_true_iff, andb_true_iff, !bool_decide_eq_true, orb_true_iff.
  assert (Hin : (so = true \/ match ks with [k1; k2] => negb (bool_decide ((k1 ∩ k2) ∖ out = ∅)) | _ => true end = true) <-> (so = false -> match ks with [k1; k2] => exists c, c ∈ k1 /\ c ∈ k2 /\ c ∉ out | _ => True end)).
  { destruct so; [split; [done|by left]|]. destruct ks as [|k1 [|k2 [|k3 ks]]]; [tauto|tauto| |tauto]. rewrite outer_test. split; [intros [?|?]; [done|by intros _]|]. intros H. right. by apply H. }
  rewrite Hin. assert (Hm : match mem with None => true | Some limit => bool_decide (volume D k <= limit) end = true <-> match mem with None => True | Some limit => volume D k <= limit end).
  { destruct mem; [by rewrite bool_decide_eq_true|done]. }
  rewrite Hm. split; (intros [? H]; split; [done|]); [|destruct (decide (2 <= length ks)); [right; tauto|left; lia]]. intros H2. destruct H as [?|?]; [lia|tauto].
Qed.
Lemma fold_andb l : fold_op true andb l = true <-> Forall (fun b => b = true) l.
Proof. induction l as [|b l IH]; simpl; [split; [by constructor|done]|]. rewrite andb_true_iff, Forall_cons. unfold fold_op in IH. by rewrite IH. Qed.
Lemma contractions_ok (P : list (gset N) * gset N -> Prop) l : Forall P (contractions l) <-> Forall (fun st => 2 <= length st.1 -> P st) l.
Proof.
  unfold contractions. rewrite !Forall_forall. split.
  - intros H st Hst H2. apply H. by apply elem_of_list_filter.
  - intros H st [H1 H2]%elem_of_list_filter. by apply H.
Qed.
Lemma replay_lengths out p sets : path_runs (length sets) p -> length <$> p = (fun st : list (gset N) * gset N => length st.1) <$> replay out p sets.
Proof.
  revert sets. induction p as [|s p IH]; intros sets Hr; [done|]. destruct Hr as (_ & H1 & H2 & Hr). simpl. rewrite chosen_length by done. f_equal. apply IH. rewrite app_length, others_length by done. exact Hr.
Qed.
Lemma path_allowed_fold so mem D out p sets : path_runs (length sets) p ->
  path_allowed so mem D out p sets <-> fold_op true andb ((fun st => allowed_step so mem D out st.1 st.2) <$> replay out p sets) = true.
Proof.
  intros Hr. unfold path_allowed. rewrite fold_andb, contractions_ok, Forall_fmap. transitivity (Forall (fun n => n <= 2) (length <$> p) /\ Forall (fun st : list (gset N) * gset N => 2 <= length st.1 -> (so = false -> inner_step out st) /\ within D mem st) (replay out p sets)); [by rewrite Forall_fmap|].
  rewrite (replay_lengths out p sets Hr), Forall_fmap, <-Forall_and. apply Forall_iff. intros [ks k]. unfold compose. cbn [fst snd]. by rewrite allowed_step_ok.
Qed.
Lemma tree_fold_allowed inputs out so mem D b : tree_fold inputs out true andb (allowed_step so mem D out) b = true <-> allowed inputs out D (set_seq 0 (length inputs)) so mem b.
Proof.
  unfold allowed. induction b as [j|l IHl r IHr]; [done|]. cbn [tree_fold no_outer fits]. rewrite !andb_true_iff, IHl, IHr, allowed_step_ok. simpl. unfold inner_step, within, step_size, node_size. simpl.
  set (H := match mem with None => True | Some limit => _ end). split.
  - intros (((H1 & H2) & H3 & H4) & _ & H5). destruct H5 as [H6 H7]; [lia|]. split; [intros Hso; split; [auto|]; split; auto|done].
  - intros [H1 (H2 & H3 & H4)]. split; [split; (split; [|done]); intros Hso; by destruct (H1 Hso) as (? & ? & ?)|]. split; [lia|]. intros _. split; [|done]. intros Hso. by destruct (H1 Hso) as (? & ? & ?).
Qed.

(** ** Other paths *)
Lemma volume_incl D (S S' : gset N) : (forall c, c ∈ S' -> 1 <= D c) -> S ⊆ S' -> volume D S <= volume D S'.
Proof.
  intros H1 Hs. unfold volume. rewrite (union_difference_L S S' Hs). assert (Hp : elements (S ∪ S' ∖ S) ≡ₚ elements S ++ elements (S' ∖ S)) by (apply elements_disj_union; set_solver).
  rewrite (prod_list_perm (D <$> elements (S ∪ S' ∖ S)) (D <$> (elements S ++ elements (S' ∖ S)))) by (by rewrite Hp). rewrite fmap_app.
  assert (Happ : forall l k, prod_list (l ++ k) = prod_list l * prod_list k) by (unfold prod_list; induction l as [|a l IH]; intros k; simpl; [lia|]; rewrite IH; lia). rewrite Happ.
  assert (Hge : 1 <= prod_list (D <$> elements (S' ∖ S))).
  { assert (Hall : Forall (fun c => 1 <= D c) (elements (S' ∖ S))) by (apply Forall_forall; intros c Hc%elem_of_elements; apply H1; set_solver). clear -Hall. induction Hall as [|c l Hc _ IH]; [cbn; lia|]. rewrite fmap_cons. change (1 <= D c * prod_list (D <$> l)). nia. }
  nia.
Qed.
Section Lower.
  Variable inputs : list (gset N).
  Variable out : gset N.
  Variable d : sizes.
  Variable mode : dp_min.
  Variable so : bool.
  Variable mem : option nat.
  Hypothesis dims : forall j c, c ∈ labels_of inputs j -> 1 <= size_of d c.
  Hypothesis mono : monotone_mode mode.
  Notation D := (size_of d).
  Notation all := (set_seq 0 (length inputs) : gset nat).
  Notation legs := (legs inputs out all).
  Notation cost := (mode_cost inputs out D all mode).
  Notation join := (join_items inputs out 0 (mode_op mode) (step_weight mode D)).
  Notation item := (gset nat * gset N * nat)%type.
  Definition traced (x : btree * item) : Prop := NoDup (bleaves x.1) /\ bset x.1 = x.2.1.1 /\ allowed inputs out D all so mem x.1 /\ cost x.1 <= x.2.2.
  Lemma labs_dims S c : c ∈ labels_in_set inputs S -> 1 <= D c.
  Proof. intros (j & _ & Hc)%elem_labels_in_set. by eapply dims. Qed.
  Lemma weight_single (k k' : gset N) : step_weight mode D [k] k' = 0.
  Proof. done. Qed.

  Lemma traced_pair (a b : btree * item) : traced a -> traced b -> item_ok inputs out a.2 -> item_ok inputs out b.2 -> a.2.1.1 ## b.2.1.1 -> a.2.1.1 ∪ b.2.1.1 ⊆ all ->
    allowed_step so mem D out [a.2.1.2; b.2.1.2] (join [a.2; b.2]).1.2 = true -> item_ok inputs out (join [a.2; b.2]) -> traced (BNode a.1 b.1, join [a.2; b.2]).
  Proof.
    intros (A1 & A2 & A3 & A4) (B1 & B2 & B3 & B4) [IA1 IA2] [IB1 IB2] Hdis Hsub Hal Hok. pose proof (join_two inputs out 0 (mode_op mode) (step_weight mode D) (mode_assoc mode) (mode_comm mode) (mode_unit mode) (weight_perm mode D) weight_single a.2 b.2) as Ej. rewrite Ej in Hok, Hal |- *. clear Ej. destruct Hok as [K1 K2]. cbn [fst snd] in *. set (k := (a.2.1.2 ∪ b.2.1.2) ∩ (out ∪ _)) in *.
    assert (Ea : legs (bset a.1) ⊆ a.2.1.2) by (by rewrite A2). assert (Eb : legs (bset b.1) ⊆ b.2.1.2) by (by rewrite B2). assert (Ek : legs (bset a.1 ∪ bset b.1) ⊆ k) by (by rewrite A2, B2).
    assert (Hsz : node_size inputs out D all a.1 b.1 <= volume D k) by (apply volume_incl; [intros c Hc; eapply labs_dims, K2, Hc|done]).
    assert (Hfl : node_flops inputs out D all a.1 b.1 <= volume D (union_all [a.2.1.2; b.2.1.2])).
    { apply volume_incl; unfold union_all; simpl.
      - intros c [Hc|[Hc|Hc%elem_of_empty]%elem_of_union]%elem_of_union; [eapply labs_dims, IA2, Hc|eapply labs_dims, IB2, Hc|done].
      - intros c [Hc|Hc]%elem_of_union; apply elem_of_union; [left; by apply Ea|right; apply elem_of_union_l; by apply Eb]. }
    apply allowed_step_ok in Hal as [_ Hal]. destruct Hal as [Hin Hw]; [simpl; lia|]. split; [|split; [|split]].
    - simpl. apply NoDup_app. split; [done|]. split; [|done]. intros j Hj Hj'. apply (Hdis j); [rewrite <-A2|rewrite <-B2]; by apply elem_of_list_to_set.
    - simpl. rewrite bset_node. by rewrite A2, B2.
    - split.
      + intros Hso. simpl. split; [by apply A3|]. split; [by apply B3|]. destruct (Hin Hso) as (c & H1 & H2 & H3). exists c. pose proof (IA2 c H1) as L1. pose proof (IB2 c H2) as L2. rewrite A2, B2. unfold DpSpec.legs.
        split; [|split; [|done]]; apply elem_of_intersection; (split; [done|]); apply elem_of_union; right; [eapply labs_mono; [|exact L2]|eapply labs_mono; [|exact L1]];
          intros j Hj; apply elem_of_difference; (split; [apply Hsub; apply elem_of_union; tauto|]); intros Hj'; by apply (Hdis j).
      + simpl. split; [apply A3|]. split; [apply B3|]. unfold within, step_size in Hw. simpl in Hw. destruct mem; [lia|done].
    - cbn [fst snd]. rewrite mode_cost_node. apply mode_mono; [by apply mode_mono|]. unfold step_weight. rewrite decide_True by (simpl; lia). by apply mode_weight_mono.
  Qed.

  Lemma lower_path q (l : list (btree * item)) : path_runs (length l) q -> items_ok inputs out l.*2 -> Forall traced l ->
    fold_op true andb ((fun st => allowed_step so mem D out st.1 st.2) <$> replay out q l.*2.*1.*2) = true ->
    exists b, btree_over all b /\ allowed inputs out D all so mem b /\ cost b <= mode_op mode (fold_op 0 (mode_op mode) l.*2.*2) (fold_op 0 (mode_op mode) ((fun st => step_weight mode D st.1 st.2) <$> replay out q l.*2.*1.*2)).
  Proof.
    revert l. induction q as [|s q IH]; intros l Hr Hi Ht Hal; simpl in Hr.
    - destruct l as [|x [|]]; try done. apply Forall_cons in Ht as [(H1 & H2 & H3 & H4) _]. exists x.1. destruct Hi as [_ Hi _]. simpl in Hi. split; [split; [done|set_solver]|]. split; [done|]. simpl. rewrite !(mode_comm mode _ 0), !mode_unit. done.
    - destruct Hr as (Hne & Hnd & Hlt & Hr).
      assert (Hco : items_ok inputs out ((chosen s l).*2 ++ (others s l).*2)) by (rewrite <-fmap_app; eapply items_perm; [|exact Hi]; by rewrite chosen_others_perm).
      pose proof (step_kept inputs out 0 (mode_op mode) (step_weight mode D) (mode_assoc mode) (mode_comm mode) (mode_unit mode) (weight_perm mode D) _ _ Hco) as Ek. pose proof (step_items inputs out 0 (mode_op mode) (step_weight mode D) (mode_assoc mode) (mode_comm mode) (mode_unit mode) (weight_perm mode D) _ _ Hco) as Hi'.
      assert (Erep : replay out (s :: q) l.*2.*1.*2 = ((chosen s l).*2.*1.*2, (join (chosen s l).*2).1.2) :: replay out q ((others s l).*2 ++ [join (chosen s l).*2]).*1.*2).
      { cbn [replay]. unfold PathSpec.kept. rewrite !chosen_fmap, !others_fmap, Ek. by rewrite !fmap_app. }
      rewrite Erep in Hal. rewrite Erep. clear Erep. rewrite fmap_cons in Hal. rewrite fmap_cons. cbn [fold_op foldr fst snd] in Hal |- *. apply andb_true_iff in Hal as [Hal1 Hal2].
      assert (Htc : Forall traced (chosen s l) /\ Forall traced (others s l)) by (apply Forall_app; by rewrite chosen_others_perm). destruct Htc as [Htc Hto].
      assert (Hnew : exists b, traced (b, join (chosen s l).*2)).
      { pose proof (chosen_length s l Hnd Hlt) as Hlen. assert (Hl2 : length (chosen s l) <= 2) by (apply allowed_step_ok in Hal1 as [Hal1 _]; by rewrite !fmap_length in Hal1).
        pose proof (io_items _ _ _ Hi') as Hok. apply Forall_app in Hok as [_ [Hok _]%Forall_cons]. pose proof (io_items _ _ _ Hco) as Hoks. apply Forall_app in Hoks as [Hoks _]. pose proof (io_apart _ _ _ Hco) as Hap.
        pose proof (io_all _ _ _ Hco) as Hall. rewrite !fmap_app in Hap, Hall. apply apart_app in Hap as (Hap & _ & _). rewrite union_list_app_L in Hall.
        destruct (chosen s l) as [|a [|b [|]]]; simpl in Hl2; [destruct s; done| | |lia].
        - exists a.1. apply Forall_cons in Htc as [(H1 & H2 & H3 & H4) _]. simpl. rewrite (join_one inputs out 0 (mode_op mode) (step_weight mode D) (mode_assoc mode) (mode_comm mode) (mode_unit mode) (weight_perm mode D) weight_single). done.
        - exists (BNode a.1 b.1). apply Forall_cons in Htc as [Ha [Htc _]%Forall_cons]. apply Forall_cons in Hoks as [Hoa [Hoks _]%Forall_cons]. refine (traced_pair a b Ha Htc Hoa Hoks _ _ Hal1 Hok).
          + destruct Hap as [Hap _]. apply elem_of_disjoint. intros j Hj1 Hj2. apply (Hap j Hj1). simpl. by apply elem_of_union_l.
          + rewrite <-Hall. simpl. intros j [Hj|Hj]%elem_of_union; apply elem_of_union_l, elem_of_union; [by left|right; by apply elem_of_union_l]. }
      destruct Hnew as [nb Hnew]. destruct (IH (others s l ++ [(nb, join (chosen s l).*2)])) as (b & Hb1 & Hb2 & Hb3).
      + rewrite app_length, others_length by done. exact Hr.
      + rewrite fmap_app. exact Hi'.
      + apply Forall_app. split; [done|]. by apply Forall_singleton.
      + rewrite !(fmap_app snd). exact Hal2.
      + exists b. split; [done|]. split; [done|]. etrans; [exact Hb3|]. rewrite (fmap_app snd). cbn [fmap list_fmap snd]. fold (fold_op 0 (mode_op mode)). apply Nat.eq_le_incl.
        assert (Ep : fold_op 0 (mode_op mode) l.*2.*2 = mode_op mode (fold_op 0 (mode_op mode) (chosen s l).*2.*2) (fold_op 0 (mode_op mode) (others s l).*2.*2)).
        { rewrite <-(fold_app 0 (mode_op mode)) by (apply mode_assoc || apply mode_unit). apply fold_perm; [apply mode_assoc|apply mode_comm|]. rewrite <-!fmap_app. by rewrite chosen_others_perm. }
        rewrite Ep. rewrite (fmap_app snd), (fold_app 0 (mode_op mode)) by (apply mode_assoc || apply mode_unit). cbn [fmap list_fmap].
        change (fold_op 0 (mode_op mode) [(join (chosen s l).*2).2]) with (mode_op mode (mode_op mode (fold_op 0 (mode_op mode) (chosen s l).*2.*2) (step_weight mode D (chosen s l).*2.*1.*2 (join (chosen s l).*2).1.2)) 0).
        set (R := foldr _ _ _). set (w := step_weight _ _ _ _). set (F1 := fold_op 0 (mode_op mode) (chosen s l).*2.*2). set (F2 := fold_op 0 (mode_op mode) (others s l).*2.*2).
        match goal with |- mode_op mode _ ?x = _ => change x with R end. clearbody R w F1 F2. clear. destruct mode; simpl; lia.
  Qed.

  Theorem lower_bound q : path_runs (length inputs) q -> path_allowed so mem D out q inputs ->
    exists b, btree_over all b /\ allowed inputs out D all so mem b /\ cost b <= path_measure mode D out q inputs.
  Proof.
    intros Hr Hal. rewrite path_allowed_fold in Hal by done. set (l := (fun j => (BLeaf j, first_item inputs 0 j)) <$> seq 0 (length inputs)).
    assert (El : l.*2 = first_items inputs 0) by (unfold l, first_items; by rewrite <-list_fmap_compose).
    destruct (lower_path q l) as (b & H1 & H2 & H3).
    - unfold l. by rewrite fmap_length, seq_length.
    - rewrite El. apply first_ok.
    - unfold l. apply Forall_fmap, Forall_forall. intros j _. unfold traced, compose. simpl. split; [apply NoDup_singleton|]. split; [unfold bset; simpl; set_solver|]. split; [done|]. by destruct mode.
    - rewrite El, first_keys. done.
    - exists b. split; [done|]. split; [done|]. etrans; [exact H3|]. rewrite El, first_keys, first_fold by apply mode_unit. rewrite mode_unit. unfold path_measure. by rewrite measure_fold.
  Qed.
End Lower.

(** ** The path found *)
Section Found.
  Variable ordI : gset nat -> list nat.
  Variable pop : gset nat -> nat.
  Variable minimize : dp_min.
  Variable cost_cap : capping.
  Variable search_outer : bool.
  Variable inputs : list (gset N).
  Variable output : gset N.
  Variable d : sizes.
  Variable mem : option nat.
  Hypothesis ordI_ok : forall s, ordI s ≡ₚ elements s.
  Hypothesis pop_ok : forall s, s <> ∅ -> pop s ∈ s.
  Hypothesis Hd : forall j c, c ∈ labels_of inputs j -> is_Some (d !! c).
  Hypothesis Hdo : forall c, c ∈ output -> is_Some (d !! c).
  Hypothesis dims : forall j c, c ∈ labels_of inputs j -> 1 <= size_of d c.
  Hypothesis mono : monotone_mode minimize.
  Hypothesis single : if search_outer then forall j, j < length inputs -> ~ lone inputs output j else forall i j, i < length inputs -> j < length inputs -> rtc (linked inputs output) i j.
  Notation D := (size_of d).
  Notation all := (set_seq 0 (length inputs) : gset nat).

  Lemma one_part gs : inputs <> [] -> searched_parts inputs output D search_outer gs -> gs = [all].
  Proof.
    intros Hne (H1 & H2 & H3 & H4 & _). assert (Hall : forall g, g ∈ gs -> forall j, j ∈ g <-> j < length inputs).
    { intros g Hg j. split; [intros Hj; apply H3; eauto|]. intros Hj. destruct search_outer.
      - destruct (H2 eq_refl g Hg) as [(i & Hi & -> & Hl)|Hx]; [by apply single in Hl|]. apply Hx. split; [done|]. by apply single.
      - destruct (H1 eq_refl) as [Hp _ _]. destruct (Hp g Hg) as [Hx Hy]. apply set_choose_L in Hx as [i Hi]. apply (Hy i j Hi). apply single; [|done]. apply H3. eauto. }
    assert (Heq : forall g, g ∈ gs -> g = all) by (intros g Hg; apply set_eq; intros j; rewrite (Hall g Hg), elem_of_set_seq; lia).
    assert (H0 : 0 < length inputs) by (destruct inputs; [done|simpl; lia]). destruct gs as [|g [|g' gs]].
    - apply H3 in H0 as (g & Hg & _). by apply elem_of_nil in Hg.
    - f_equal. apply Heq. left.
    - exfalso. pose proof (H4 0 1 g g' eq_refl eq_refl ltac:(lia)) as Hdis. apply (Hdis 0); apply Hall; [left|done|right; left|done].
  Qed.
  Theorem dp_best rounds p : dp ordI pop minimize cost_cap search_outer rounds inputs output d mem = Ok p -> best_path minimize search_outer mem D output inputs p.
  Proof.
    intros H. pose proof H as Hrun. apply dp_complete in Hrun; [|done..]. assert (Hne : inputs <> []) by (intros E; rewrite E in Hrun; destruct p as [|[|]]; [done|naive_solver|]; destruct Hrun as (_ & _ & [Hl _]%Forall_cons & _); simpl in Hl; lia).
    unfold dp in H. destruct (dp_tree _ _ _ _ _ _ _ _ _ _) as [T|] eqn:ET; [|done]. cbn [mbind res_bind] in H. destruct (dp_tree_ok _ _ _ _ _ _ _ _ _ ordI_ok pop_ok Hd Hdo rounds T ET) as (gs & bts & t & ts & Hc & Hs & H1 & H2 & ->).
    assert (Ht : tree_over (length inputs) (left_comb t ts)) by (eapply comb_over; [exact Hc| |exact H2]; eapply Forall2_impl; [exact H1|]; by intros g b [? _]).
    apply one_part in Hs; [|done]. subst gs. apply Forall2_cons_inv_l in H1 as (b & bts' & Hbest & H1 & ->). apply Forall2_nil_inv_l in H1 as ->. apply Forall2_cons in H2 as [Hsh H2]. apply Forall2_nil_inv_l in H2 as ->. simpl in H, Ht.
    destruct Hbest as (Hb1 & Hb2 & Hb3).
    destruct (path_of_tree inputs output 0 (mode_op minimize) (step_weight minimize D) (mode_assoc minimize) (mode_comm minimize) (mode_unit minimize) (weight_perm minimize D) (fun _ _ => eq_refl) b t p Hsh Hb1 Ht H) as [_ Hm].
    assert (Hall : fold_op true andb ((fun st => allowed_step search_outer mem D output st.1 st.2) <$> replay output p inputs) = true).
    { destruct (path_of_tree inputs output true andb (allowed_step search_outer mem D output) andb_assoc andb_comm andb_true_l (allowed_perm search_outer mem D output) (fun _ _ => eq_refl) b t p Hsh Hb1 Ht H) as [_ ->]. by apply tree_fold_allowed. }
    split; [done|]. split; [by apply path_allowed_fold|]. intros q Hq Hqa. destruct (lower_bound inputs output d minimize search_outer mem dims mono q Hq Hqa) as (b' & B1 & B2 & B3).
    etrans; [|exact B3]. unfold path_measure. rewrite measure_fold, Hm, tree_fold_cost. by apply Hb3.
  Qed.
End Found.
