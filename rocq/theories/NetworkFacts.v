(** Paths of a contraction problem carry over to the same problem with operands reordered and labels renamed. *)
From Verif Require Import Prelude Einsum EinsumFacts Helpers Contract Spec PathSpec StringFacts StepFacts ContractFacts PathFacts SsaFacts NetworkSpec.

Lemma sel_shift {A} P k (l : list A) : sel P (S k) l = sel (fun i => P (S i)) k l.
Proof. revert k. induction l as [|x l IH]; intros k; [done|]. simpl. rewrite IH. done. Qed.
(** Any part of a list is chosen by some positions. *)
Lemma choose_part {A} (c o l : list A) : l ≡ₚ c ++ o -> exists s, NoDup s /\ Forall (fun i => i < length l) s /\ length s = length c /\ chosen s l ≡ₚ c /\ others s l ≡ₚ o.
Proof.
  revert c o. induction l as [|x l IH]; intros c o H.
  { apply Permutation_nil_l in H. symmetry in H. apply app_eq_nil in H as [-> ->]. exists []. by repeat split; try constructor. }
  assert (Hx : x ∈ c ++ o) by (rewrite <-H; left). apply elem_of_app in Hx as [Hx|Hx].
  - apply elem_of_Permutation in Hx as [c' Hc]. destruct (IH c' o) as (s & H1 & H2 & H3 & H4 & H5); [apply (Permutation_cons_inv (a:=x)); by rewrite H, Hc|].
    exists (0 :: (S <$> s)). rewrite sel_chosen, sel_others in *. cbn [sel]. rewrite !sel_shift.
    rewrite bool_decide_true by left. rewrite bool_decide_false by (intros Hn; apply Hn; left).
    split; [|split; [|split; [|split]]].
    + apply NoDup_cons. split; [intros (? & ? & _)%elem_of_list_fmap; done|]. by apply NoDup_fmap_2; [apply _|].
    + constructor; [simpl; lia|]. apply Forall_fmap. eapply Forall_impl; [exact H2|]. intros i Hi. simpl in *. lia.
    + simpl. rewrite fmap_length, H3, Hc. done.
    + rewrite Hc. apply Permutation_skip. rewrite <-H4. apply reflexive_eq, sel_ext. intros i _. apply bool_decide_ext.
      rewrite elem_of_cons, elem_of_list_fmap. naive_solver.
    + rewrite <-H5. apply reflexive_eq, sel_ext. intros i _. apply bool_decide_ext. rewrite elem_of_cons, elem_of_list_fmap. naive_solver.
  - apply elem_of_Permutation in Hx as [o' Hc]. destruct (IH c o') as (s & H1 & H2 & H3 & H4 & H5).
    { apply (Permutation_cons_inv (a:=x)). by rewrite H, Hc, Permutation_middle. }
    exists (S <$> s). rewrite sel_chosen, sel_others in *. cbn [sel]. rewrite !sel_shift.
    assert (H0 : 0 ∉ S <$> s) by (intros (? & ? & _)%elem_of_list_fmap; done).
    rewrite bool_decide_false by done. rewrite bool_decide_true by done.
    split; [|split; [|split; [|split]]].
    + by apply NoDup_fmap_2; [apply _|].
    + apply Forall_fmap. eapply Forall_impl; [exact H2|]. intros i Hi. simpl in *. lia.
    + by rewrite fmap_length.
    + rewrite <-H4. apply reflexive_eq, sel_ext. intros i _. apply bool_decide_ext. rewrite elem_of_list_fmap. naive_solver.
    + rewrite Hc. apply Permutation_skip. rewrite <-H5. apply reflexive_eq, sel_ext. intros i _. apply bool_decide_ext. rewrite elem_of_list_fmap. naive_solver.
Qed.
Lemma union_perm (l l' : list (gset N)) : l ≡ₚ l' -> union_all l = union_all l'.
Proof. intros H. apply set_eq. intros c. rewrite !elem_union_all. by setoid_rewrite H. Qed.
(** Reordering the operands. *)
Lemma reorder out q l l' : l ≡ₚ l' -> path_runs (length l) q -> exists q', path_runs (length l') q' /\ length <$> q' = length <$> q /\
  Forall2 (fun st st' => st'.1 ≡ₚ st.1 /\ st'.2 = st.2) (replay out q l) (replay out q' l').
Proof.
  revert l l'. induction q as [|s q IH]; intros l l' Hl Hq.
  { exists []. split; [simpl in *; by rewrite <-Hl|]. split; [done|constructor]. }
  destruct Hq as (Hne & Hnd & Hlt & Hq). destruct (choose_part (chosen s l) (others s l) l') as (s' & H1 & H2 & H3 & H4 & H5).
  { rewrite <-Hl. symmetry. apply chosen_others_perm. }
  rewrite chosen_length in H3 by done.
  assert (Hk : kept out s' l' = kept out s l) by (unfold kept; by rewrite (union_perm _ _ H4), (union_perm _ _ H5)).
  destruct (IH (others s l ++ [kept out s l]) (others s' l' ++ [kept out s' l'])) as (q' & Hq' & Hlen & Hf).
  - by rewrite Hk, H5.
  - rewrite app_length, others_length by done. done.
  - exists (s' :: q'). split.
    + split; [intros ->; by destruct s|]. split; [done|]. split; [done|]. rewrite app_length, others_length in Hq' by done. done.
    + split; [by rewrite !fmap_cons, Hlen, H3|]. cbn [replay]. constructor; [done|]. done.
Qed.

Section Rename.
  Variable f : N -> N.
  Notation m := (set_map f : gset N -> gset N).
  Definition inj_on (S : gset N) : Prop := forall a b, a ∈ S -> b ∈ S -> f a = f b -> a = b.
  Lemma map_union_all (l : list (gset N)) : union_all (m <$> l) = m (union_all l).
  Proof.
    apply set_eq. intros c. rewrite elem_union_all, elem_of_map. split.
    - intros (k & (k' & -> & Hk)%elem_of_list_fmap & (c' & -> & Hc)%elem_of_map). exists c'. split; [done|]. apply elem_union_all. eauto.
    - intros (c' & -> & (k & Hk & Hc)%elem_union_all). exists (m k). split; [by apply elem_of_list_fmap_1|]. apply elem_of_map. eauto.
  Qed.
  Lemma elem_map_inj (S X : gset N) c : inj_on S -> X ⊆ S -> c ∈ S -> f c ∈ m X <-> c ∈ X.
  Proof. intros Hi HX Hc. rewrite elem_of_map. split; [intros (c' & E & Hc')|intros H; eauto]. apply Hi in E; [by subst|done|by apply HX]. Qed.
  Lemma map_inter (S X Y : gset N) : inj_on S -> X ⊆ S -> Y ⊆ S -> m (X ∩ Y) = m X ∩ m Y.
  Proof.
    intros Hi HX HY. apply set_eq. intros c. rewrite elem_of_intersection, !elem_of_map. split.
    - intros (c' & -> & [H1 H2]%elem_of_intersection). split; by exists c'.
    - intros [(a & -> & Ha) (b & E & Hb)]. exists a. split; [done|]. apply Hi in E; [subst; by apply elem_of_intersection|by apply HX|by apply HY].
  Qed.
  Lemma kept_map out s l : inj_on (union_all l ∪ out) -> kept (m out) s (m <$> l) = m (kept out s l).
  Proof.
    intros Hi. unfold kept. rewrite chosen_fmap, others_fmap, !map_union_all, <-set_map_union_L.
    assert (Hsub : forall k : list (gset N), (forall x, x ∈ k -> x ∈ l) -> union_all k ⊆ union_all l ∪ out).
    { intros k Hk c (x & Hx & Hc)%elem_union_all. apply elem_of_union_l. apply elem_union_all. eauto. }
    symmetry. apply (map_inter (union_all l ∪ out)); [done| |].
    - apply Hsub. intros x. apply chosen_sub.
    - apply union_subseteq. split; [apply union_subseteq_r|]. apply Hsub. intros x. apply others_sub.
  Qed.
  Lemma replay_map out q l : inj_on (union_all l ∪ out) -> replay (m out) q (m <$> l) = (fun st : list (gset N) * gset N => (m <$> st.1, m st.2)) <$> replay out q l.
  Proof.
    revert l. induction q as [|s q IH]; intros l Hi; [done|]. cbn [replay]. rewrite fmap_cons. cbn [fst snd]. rewrite kept_map, chosen_fmap, others_fmap by done. f_equal.
    rewrite <-IH; [by rewrite fmap_app|]. intros a b Ha Hb. apply Hi.
    - apply elem_of_union in Ha as [(k & [Hk|Hk%elem_of_list_singleton]%elem_of_app & Hc)%elem_union_all|Ha]; [|subst k|by apply elem_of_union_r].
      + apply elem_of_union_l, elem_union_all. exists k. split; [by eapply others_sub|done].
      + unfold kept in Hc. apply elem_of_intersection in Hc as [(k & Hk & Hc)%elem_union_all _]. apply elem_of_union_l, elem_union_all. exists k. split; [by eapply chosen_sub|done].
    - apply elem_of_union in Hb as [(k & [Hk|Hk%elem_of_list_singleton]%elem_of_app & Hc)%elem_union_all|Hb]; [|subst k|by apply elem_of_union_r].
      + apply elem_of_union_l, elem_union_all. exists k. split; [by eapply others_sub|done].
      + unfold kept in Hc. apply elem_of_intersection in Hc as [(k & Hk & Hc)%elem_union_all _]. apply elem_of_union_l, elem_union_all. exists k. split; [by eapply chosen_sub|done].
  Qed.
  Lemma map_elements (X : gset N) : inj_on X -> elements (m X) ≡ₚ f <$> elements X.
  Proof.
    intros Hi. apply NoDup_Permutation; [apply NoDup_elements| |].
    - apply NoDup_fmap_2_strong; [|apply NoDup_elements]. intros a b Ha%elem_of_elements Hb%elem_of_elements. by apply Hi.
    - intros c. rewrite elem_of_elements, elem_of_map, elem_of_list_fmap. by setoid_rewrite elem_of_elements.
  Qed.
  Lemma volume_map D (X : gset N) : inj_on X -> volume D (m X) = volume (fun c => D (f c)) X.
  Proof. intros Hi. unfold volume. rewrite (prod_list_perm _ (D <$> (f <$> elements X))); [|by rewrite map_elements]. by rewrite <-list_fmap_compose. Qed.
  Lemma map_length X Y l : inj_on (union_all l) -> X ∈ l -> Y ∈ l -> m X = m Y -> X = Y.
  Proof.
    intros Hi HX HY E. assert (Hs : forall X Y, X ∈ l -> Y ∈ l -> m X = m Y -> X ⊆ Y).
    { intros X' Y' HX' HY' E' c Hc. assert (Hm : f c ∈ m Y') by (rewrite <-E'; apply elem_of_map; eauto). apply elem_of_map in Hm as (c' & Ef & Hc').
      apply Hi in Ef; [by subst|apply elem_union_all; eauto|apply elem_union_all; eauto]. }
    apply set_eq. intros c. split; by apply Hs.
  Qed.
End Rename.

(** Both together, in both directions. *)
Section Carry.
  Variables (f : N -> N) (inputs : list (gset N)) (out : gset N) (inputs' : list (gset N)) (out' : gset N).
  Hypothesis Hrn : renamed f inputs out inputs' out'.
  Lemma rn_length : length inputs' = length inputs.
  Proof. rewrite (rn_inputs _ _ _ _ _ Hrn). apply fmap_length. Qed.
  Lemma carry_to q : path_runs (length inputs) q -> exists q', path_runs (length inputs') q' /\ length <$> q' = length <$> q /\
    Forall2 (same_step f) (replay out q inputs) (replay out' q' inputs').
  Proof.
    intros Hq. destruct (reorder out' q (set_map f <$> inputs) inputs') as (q' & H1 & H2 & H3); [symmetry; apply Hrn|by rewrite fmap_length|].
    exists q'. split; [done|]. split; [done|]. rewrite (rn_out _ _ _ _ _ Hrn) in H3 at 1. rewrite replay_map in H3; [|exact (rn_inj _ _ _ _ _ Hrn)]. rewrite Forall2_fmap_l in H3. exact H3.
  Qed.
  Lemma carry_from q' : path_runs (length inputs') q' -> exists q, path_runs (length inputs) q /\ length <$> q = length <$> q' /\
    Forall2 (same_step f) (replay out q inputs) (replay out' q' inputs').
  Proof.
    intros Hq. destruct (reorder out' q' inputs' (set_map f <$> inputs)) as (q & H1 & H2 & H3); [apply Hrn|done|]. rewrite fmap_length in H1.
    exists q. split; [done|]. split; [done|]. rewrite (rn_out _ _ _ _ _ Hrn) in H3 at 2. rewrite replay_map in H3; [|exact (rn_inj _ _ _ _ _ Hrn)]. rewrite Forall2_fmap_r in H3.
    apply Forall2_flip. eapply Forall2_impl; [exact H3|]. intros st st' [E1 E2]. simpl in *. split; [by symmetry|by symmetry].
  Qed.
  (** The labels of a step are labels of the operands. *)
  Lemma replay_labels q l st : st ∈ replay out q l -> union_all st.1 ⊆ union_all l /\ st.2 ⊆ union_all st.1.
  Proof.
    revert l. induction q as [|s q IH]; intros l H; [by apply elem_of_nil in H|]. cbn [replay] in H. apply elem_of_cons in H as [->|H].
    - cbn [fst snd]. split; [|intros c Hc; unfold kept in Hc; by apply elem_of_intersection in Hc as [? _]].
      intros c (k & Hk & Hc)%elem_union_all. apply elem_union_all. exists k. split; [by eapply chosen_sub|done].
    - destruct (IH _ H) as [H1 H2]. split; [|done]. intros c Hc%H1. apply elem_union_all in Hc as (k & [Hk|Hk%elem_of_list_singleton]%elem_of_app & Hc); apply elem_union_all.
      + exists k. split; [by eapply others_sub|done].
      + subst k. unfold kept in Hc. apply elem_of_intersection in Hc as [(k & Hk & Hc)%elem_union_all _]. exists k. split; [by eapply chosen_sub|done].
  Qed.
End Carry.

(** ** Numbers *)
(** [≤] and [≥], under which sums, products and maxima of numbers are monotone. *)
Record order (R : nat -> nat -> Prop) : Prop := Order {
  or_refl : forall x, R x x;
  or_add : forall a b x y, R a b -> R x y -> R (a + x) (b + y);
  or_mul : forall a b x y, R a b -> R x y -> R (a * x) (b * y);
  or_max : forall a b x y, R a b -> R x y -> R (Nat.max a x) (Nat.max b y) }.
Lemma order_le : order le. Proof. split; intros; try lia. by apply Nat.mul_le_mono. Qed.
Lemma order_ge : order ge. Proof. split; intros; try lia. by apply Nat.mul_le_mono. Qed.
Section Numbers.
  Variable R : nat -> nat -> Prop.
  Hypothesis HR : order R.
  Lemma order_sum l l' : Forall2 R l l' -> R (sum_list l) (sum_list l').
  Proof. induction 1; simpl; [by apply HR|by apply (or_add _ HR)]. Qed.
  Lemma order_prod l l' : Forall2 R l l' -> R (prod_list l) (prod_list l').
  Proof. induction 1 as [|x y l l' Hxy _ IH]; [by apply HR|]. change (R (x * prod_list l) (y * prod_list l')). by apply (or_mul _ HR). Qed.
  Lemma order_max_list l l' : Forall2 R l l' -> R (max_list l) (max_list l').
  Proof. induction 1; simpl; [by apply HR|by apply (or_max _ HR)]. Qed.
  Variables (f : N -> N) (D D' : N -> nat) (all : gset N).
  Hypothesis Hinj : inj_on f all.
  Hypothesis HD : forall c, c ∈ all -> R (D c) (D' (f c)).
  Notation m := (set_map f : gset N -> gset N).
  Lemma inj_sub X : X ⊆ all -> inj_on f X.
  Proof. intros H a b Ha Hb. apply Hinj; by apply H. Qed.
  Lemma order_volume (X : gset N) : X ⊆ all -> R (volume D X) (volume D' (m X)).
  Proof.
    intros HX. rewrite volume_map by by apply inj_sub. unfold volume. apply order_prod. apply Forall2_fmap_l, Forall2_fmap_r.
    assert (Hall : Forall (fun c => c ∈ all) (elements X)) by (apply Forall_forall; intros c Hc%elem_of_elements; by apply HX).
    clear -Hall HD. induction Hall; constructor; [by apply HD|done].
  Qed.
  Lemma map_eq_iff (X Y : gset N) : X ⊆ all -> Y ⊆ all -> m X = m Y <-> X = Y.
  Proof.
    intros HX HY. split; [|by intros ->]. intros E. apply set_eq. intros c. split; intros Hc.
    - apply (elem_map_inj f all Y c Hinj HY); [by apply HX|]. rewrite <-E. apply elem_of_map. eauto.
    - apply (elem_map_inj f all X c Hinj HX); [by apply HY|]. rewrite E. apply elem_of_map. eauto.
  Qed.
  Lemma map_sub_iff (X Y : gset N) : X ⊆ all -> Y ⊆ all -> m X ⊆ m Y <-> X ⊆ Y.
  Proof.
    intros HX HY. split.
    - intros E c Hc. apply (elem_map_inj f all Y c Hinj HY); [by apply HX|]. apply E, elem_of_map. eauto.
    - intros E c (c' & -> & Hc)%elem_of_map. apply elem_of_map. exists c'. split; [done|by apply E].
  Qed.

  Variables st st' : list (gset N) * gset N.
  Hypothesis Hst : union_all st.1 ⊆ all /\ st.2 ⊆ union_all st.1.
  Hypothesis Hsame : same_step f st st'.
  Lemma same_union : union_all st'.1 = m (union_all st.1).
  Proof. rewrite (union_perm _ _ (proj1 Hsame)). apply map_union_all. Qed.
  Lemma same_length : length st'.1 = length st.1.
  Proof. rewrite (proj1 Hsame). apply fmap_length. Qed.
  Lemma order_step : R (volume D (union_all st.1)) (volume D' (union_all st'.1)) /\ R (volume D st.2) (volume D' st'.2).
  Proof. rewrite same_union, (proj2 Hsame). split; apply order_volume; [apply Hst|]. destruct Hst as [H1 H2]. intros c Hc. by apply H1, H2. Qed.
  Lemma order_step_cost : R (step_cost D st) (step_cost D' st').
  Proof.
    unfold step_cost. rewrite same_length. apply (or_mul _ HR); [apply order_step|]. apply (or_add _ HR); [by apply HR|].
    rewrite same_union, (proj2 Hsame). destruct Hst as [H1 H2]. assert (H12 : st.2 ⊆ all) by (intros c Hc; by apply H1, H2).
    destruct (decide (st.2 = union_all st.1)) as [E|E]; [rewrite decide_True; [apply HR|by apply map_eq_iff]|rewrite decide_False; [apply HR|]]. intros E'. apply E. by apply (proj1 (map_eq_iff st.2 (union_all st.1) H12 H1)).
  Qed.
  Lemma order_pair_cost : R (pair_cost D st) (pair_cost D' st').
  Proof.
    unfold pair_cost. apply (or_mul _ HR); [apply order_step|]. apply (or_add _ HR); [by apply HR|].
    destruct Hst as [H1 H2]. destruct Hsame as [E1 E2]. rewrite E2. assert (H12 : st.2 ⊆ all) by (intros c Hc; by apply H1, H2). clear H2. destruct (st.1) as [|k1 [|k2 [|k3 l]]] eqn:E.
    - apply Permutation_nil_r in E1. rewrite E1. apply HR.
    - apply Permutation_singleton_r in E1. rewrite E1. apply HR.
    - assert (Hk : k1 ⊆ all /\ k2 ⊆ all). { split; intros c Hc; apply H1, elem_union_all; [exists k1|exists k2]; (split; [|done]); [left|right; left]. }
      assert (Hi : k1 ∩ k2 ⊆ all) by (intros c [Hc _]%elem_of_intersection; by apply (proj1 Hk)).
      assert (Hcase : st'.1 = [m k1; m k2] \/ st'.1 = [m k2; m k1]).
      { apply Permutation_length_2_inv. by symmetry. }
      assert (Hm : m k1 ∩ m k2 = m (k1 ∩ k2)) by (symmetry; apply (map_inter f all); [done|apply Hk|apply Hk]).
      assert (Hdec : R (if decide (k1 ∩ k2 ⊆ st.2) then 0 else 1) (if decide (m k1 ∩ m k2 ⊆ m st.2) then 0 else 1)).
      { rewrite Hm. destruct (decide (k1 ∩ k2 ⊆ st.2)) as [Hs|Hs]; [rewrite decide_True; [apply HR|by apply map_sub_iff]|rewrite decide_False; [apply HR|]]. intros E'. apply Hs. by apply (proj1 (map_sub_iff (k1 ∩ k2) st.2 Hi H12)). }
      destruct Hcase as [-> | ->]; [done|]. by rewrite (comm_L (∩) (m k2)).
    - assert (Hl : length st'.1 = S (S (S (length l)))) by (rewrite E1; simpl; by rewrite fmap_length). destruct st'.1 as [|? [|? [|]]]; try done. apply HR.
  Qed.
End Numbers.
(** How often a label occurs. *)
Lemma renamed_occurrences f inputs out inputs' out' : renamed f inputs out inputs' out' ->
  (forall c, c ∈ union_all inputs ∪ out -> occurrences out' inputs' (f c) = occurrences out inputs c) /\ (forall c', c' ∉ set_map (D:=gset N) f (union_all inputs ∪ out) -> occurrences out' inputs' c' = 0).
Proof.
  intros [Hi Hp ->]. split.
  - intros c Hc. unfold occurrences. f_equal.
    + rewrite Hp. clear Hp. assert (Hall : forall k, k ∈ inputs -> f c ∈ set_map (D:=gset N) f k <-> c ∈ k).
      { intros k Hk. apply (elem_map_inj f (union_all inputs ∪ out)); [done| |done]. intros x Hx. apply elem_of_union_l, elem_union_all. eauto. }
      clear -Hall. induction inputs as [|k l IH]; [done|]. rewrite fmap_cons, !filter_cons. assert (Hl : forall k, k ∈ l -> f c ∈ set_map (D:=gset N) f k <-> c ∈ k) by (intros k' Hk'; apply Hall; by right).
      specialize (IH Hl). destruct (decide (c ∈ k)) as [Hk|Hk]; [rewrite decide_True; [simpl; by rewrite IH|apply Hall; [left|done]]|rewrite decide_False; [done|]]. rewrite Hall by left. done.
    + destruct (decide (c ∈ out)) as [Ho|Ho]; [rewrite decide_True; [done|apply elem_of_map; eauto]|rewrite decide_False; [done|]].
      rewrite (elem_map_inj f (union_all inputs ∪ out)); [done|done|apply union_subseteq_r|done].
  - intros c' Hc'. unfold occurrences. rewrite decide_False by (intros (c & -> & Hc)%elem_of_map; apply Hc', elem_of_map; exists c; split; [done|by apply elem_of_union_r]).
    destruct (filter (fun k => c' ∈ k) inputs') as [|k l] eqn:E; [done|]. exfalso. assert (Hk : k ∈ filter (fun k => c' ∈ k) inputs') by (rewrite E; left).
    apply elem_of_list_filter in Hk as [Hk1 Hk2]. rewrite Hp in Hk2. apply elem_of_list_fmap in Hk2 as (k0 & -> & Hk0). apply elem_of_map in Hk1 as (c & -> & Hc).
    apply Hc', elem_of_map. exists c. split; [done|]. apply elem_of_union_l, elem_union_all. eauto.
Qed.
Lemma renamed_union f inputs out inputs' out' : renamed f inputs out inputs' out' -> union_all inputs' = set_map f (union_all inputs).
Proof. intros H. rewrite (union_perm _ _ (rn_inputs _ _ _ _ _ H)). apply map_union_all. Qed.
