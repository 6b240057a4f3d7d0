(** Property C65: what the searches find does not depend on how the problem is written down; statements, each with a concrete instance. *)
From Verif Require Import Prelude Einsum EinsumFacts Helpers Contract Spec PathSpec StringFacts StepFacts ContractFacts PathFacts Ssa SsaSpec SsaFacts Optimal OptimalFacts OptimalBest Tree TreeSpec DpSpec DpPathSpec Dp DpFacts DpMain DpTop DpPath
  Greedy GreedySpec Branch BranchSpec BranchOrder PropsContract PropsPaths PropsSearch PropsDp Random FinderFacts PropsRandom PropsDpPath PropsBranch NetworkSpec NetworkFacts.
From stdpp Require Import relations sorting.

(** Undoing a renaming. *)
Lemma renamed_sym f inputs out inputs' out' : renamed f inputs out inputs' out' -> exists g, renamed g inputs' out' inputs out /\ forall c, c ∈ union_all inputs -> g (f c) = c.
Proof.
  intros Hrn. set (U := union_all inputs ∪ out). set (g := fun c' => default 0%N (head (filter (fun c => f c = c') (elements U)))).
  assert (Hg : forall c, c ∈ U -> g (f c) = c).
  { intros c Hc. unfold g. destruct (filter (fun c0 => f c0 = f c) (elements U)) as [|b l] eqn:E.
    - exfalso. assert (Hin : c ∈ filter (fun c0 => f c0 = f c) (elements U)) by (apply elem_of_list_filter; split; [done|by apply elem_of_elements]). rewrite E in Hin. by apply elem_of_nil in Hin.
    - assert (Hin : b ∈ filter (fun c0 => f c0 = f c) (elements U)) by (rewrite E; left). apply elem_of_list_filter in Hin as [Hb Hin]. apply elem_of_elements in Hin. simpl. by apply (rn_inj _ _ _ _ _ Hrn). }
  assert (Hmap : forall s : gset N, s ⊆ U -> set_map (D:=gset N) g (set_map (D:=gset N) f s) = s).
  { intros s Hs. apply set_eq. intros c. rewrite elem_of_map. split.
    - intros (c' & -> & Hc'). apply elem_of_map in Hc' as (c0 & -> & Hc0). rewrite Hg; [done|by apply Hs].
    - intros Hc. exists (f c). split; [by rewrite Hg by by apply Hs|]. apply elem_of_map. by exists c. }
  exists g. split; [|intros c Hc; apply Hg; by apply elem_of_union_l]. split.
  - assert (Hin : forall a, a ∈ union_all inputs' ∪ out' -> exists a0, a0 ∈ U /\ a = f a0).
    { intros a Ha. rewrite (renamed_union _ _ _ _ _ Hrn), (rn_out _ _ _ _ _ Hrn) in Ha. apply elem_of_union in Ha as [Ha|Ha]; apply elem_of_map in Ha as (a0 & -> & Ha); exists a0; (split; [|done]); [by apply elem_of_union_l|by apply elem_of_union_r]. }
    intros a b Ha Hb E. apply Hin in Ha as (a0 & Ha & ->). apply Hin in Hb as (b0 & Hb & ->). rewrite !Hg in E by done. by rewrite E.
  - rewrite (rn_inputs _ _ _ _ _ Hrn). rewrite <-list_fmap_compose. assert (E : set_map (D:=gset N) g ∘ set_map (D:=gset N) f <$> inputs = inputs); [|by rewrite E]. rewrite <-(list_fmap_id inputs) at 2. apply list_fmap_ext.
    intros i k Hk. simpl. apply Hmap. intros c Hc. apply elem_of_union_l, elem_union_all. exists k. split; [by eapply elem_of_list_lookup_2|done].
  - rewrite (rn_out _ _ _ _ _ Hrn). symmetry. apply Hmap. intros c Hc. by apply elem_of_union_r.
Qed.

Section Sums.
  Variables (f : N -> N) (inputs : list (gset N)) (out : gset N) (inputs' : list (gset N)) (out' : gset N) (D D' : N -> nat).
  Hypothesis Hrn : renamed f inputs out inputs' out'.
  Hypothesis HD : forall c, c ∈ union_all inputs -> D c <= D' (f c).
  Notation inside := (fun st : list (gset N) * gset N => union_all st.1 ⊆ union_all inputs /\ st.2 ⊆ union_all st.1).
  Lemma inj_labels : inj_on f (union_all inputs).
  Proof. intros a b Ha Hb. apply (rn_inj _ _ _ _ _ Hrn); by apply elem_of_union_l. Qed.
  Lemma inside_all q : Forall inside (replay out q inputs).
  Proof. apply Forall_forall. intros st. apply replay_labels. Qed.
  (** The cost of a list of steps is monotone in the dimensions. *)
  Lemma sums_le l l' : Forall inside l -> Forall2 (same_step f) l l' ->
    sum_list (step_cost D <$> l) <= sum_list (step_cost D' <$> l') /\ sum_list (pair_cost D <$> l) <= sum_list (pair_cost D' <$> l').
  Proof.
    intros Hl HF. split; apply (order_sum le order_le); apply Forall2_fmap_l, Forall2_fmap_r; (induction HF as [|st st' l l' Hs HF IH]; [constructor|]); apply Forall_cons in Hl as [Hl1 Hl2]; (constructor; [|by apply IH]).
    - by apply (order_step_cost le order_le f D D' (union_all inputs) inj_labels HD).
    - by apply (order_pair_cost le order_le f D D' (union_all inputs) inj_labels HD).
  Qed.
  Lemma contractions_same l l' : Forall inside l -> Forall2 (same_step f) l l' -> Forall inside (contractions l) /\ Forall2 (same_step f) (contractions l) (contractions l').
  Proof.
    intros Hl HF. unfold contractions. split; [apply Forall_forall; intros st [_ Hst]%elem_of_list_filter; by apply (proj1 (Forall_forall _ _) Hl)|]. induction HF as [|st st' l l' Hs HF IH]; [constructor|]. apply Forall_cons in Hl as [Hl1 Hl2].
    rewrite !filter_cons, (same_length f st st' Hs). destruct (decide _); [|by apply IH]. constructor; [done|by apply IH].
  Qed.
  Lemma sizes_le st st' : inside st -> same_step f st st' -> step_flops D st <= step_flops D' st' /\ step_size D st <= step_size D' st'.
  Proof. intros H1 H2. by apply (order_step le order_le f D D' (union_all inputs) inj_labels HD). Qed.
  Lemma measures_le mode q q' : monotone_mode mode -> Forall2 (same_step f) (replay out q inputs) (replay out' q' inputs') -> path_measure mode D out q inputs <= path_measure mode D' out' q' inputs'.
  Proof.
    intros Hmm H. apply contractions_same in H as [Hl HF]; [|apply inside_all]. unfold path_measure. revert Hl HF. generalize (contractions (replay out q inputs)) (contractions (replay out' q' inputs')). intros l l' Hl HF.
    assert (Hc : Forall2 (fun st st' => step_flops D st <= step_flops D' st' /\ step_size D st <= step_size D' st') l l').
    { induction HF as [|st st' l l' Hs HF IH]; [constructor|]. apply Forall_cons in Hl as [Hl1 Hl2]. constructor; [by apply sizes_le|by apply IH]. }
    unfold steps_measure. destruct mode; [apply (order_sum le order_le)|apply (order_max_list le order_le)|apply (order_sum le order_le)|apply (order_sum le order_le)|apply (order_sum le order_le)|apply (order_sum le order_le)]; apply Forall2_fmap_l, Forall2_fmap_r; (eapply Forall2_impl; [exact Hc|]); intros st st' [H1 H2]; try done.
    - apply Nat.add_le_mono; [done|]. by apply Nat.mul_le_mono_l.
    - apply Nat.max_le_compat; [done|]. by apply Nat.mul_le_mono_l.
    - by apply Hmm.
  Qed.
  Lemma inner_back st st' : inside st -> same_step f st st' -> inner_step out' st' -> inner_step out st.
  Proof.
    intros [Hin _] [Hs _] Hi. unfold inner_step in *. destruct (st.1) as [|k1 [|k2 [|k3 l]]] eqn:E; try done.
    assert (Hk : k1 ⊆ union_all inputs /\ k2 ⊆ union_all inputs). { split; intros c Hc; apply Hin, elem_union_all; [exists k1|exists k2]; split; try done; rewrite !elem_of_cons; tauto. }
    assert (Hx : exists c', c' ∈ set_map (D:=gset N) f k1 /\ c' ∈ set_map (D:=gset N) f k2 /\ c' ∉ out').
    { cbn in Hs. symmetry in Hs. apply Permutation_length_2_inv in Hs as [Hs|Hs]; rewrite Hs in Hi; destruct Hi as (c & H1 & H2 & H3); by exists c. }
    destruct Hx as (c' & H1 & H2 & H3). apply elem_of_map in H1 as (a & -> & Ha). apply elem_of_map in H2 as (b & Hab & Hb).
    assert (a = b) as <-. { apply inj_labels; [by apply (proj1 Hk)|by apply (proj2 Hk)|done]. }
    exists a. split; [done|]. split; [done|]. intros Hao. apply H3. rewrite (rn_out _ _ _ _ _ Hrn). apply elem_of_map. by exists a.
  Qed.
  (** A cheapest path of the smaller problem costs no more than one of the larger problem. *)
  Lemma best_le mode so mem mem' p p' : monotone_mode mode -> (forall limit, mem = Some limit -> exists limit', mem' = Some limit' /\ limit' <= limit) ->
    best_path mode so mem D out inputs p -> best_path mode so mem' D' out' inputs' p' -> path_measure mode D out p inputs <= path_measure mode D' out' p' inputs'.
  Proof.
    intros Hmm Hm (_ & _ & Hb) (Hr' & [Ha1 Ha2] & _). destruct (carry_from f inputs out inputs' out' Hrn p' Hr') as (q & Hq & Hlen & HF). etrans; [|by apply measures_le].
    apply Hb; [done|]. split.
    - clear -Ha1 Hlen. revert q Hlen. induction Ha1 as [|s p' Hs _ IH]; intros [|t q] Hlen; try done. rewrite !fmap_cons in Hlen. injection Hlen as H1 H2. constructor; [lia|by apply IH].
    - apply contractions_same in HF as [Hl HF]; [|apply inside_all]. revert Hl HF Ha2. generalize (contractions (replay out q inputs)) (contractions (replay out' p' inputs')). intros l l' Hl HF Ha2.
      induction HF as [|st st' l l' Hs HF IH]; [constructor|]. apply Forall_cons in Hl as [Hl1 Hl2]. apply Forall_cons in Ha2 as [[Hi Hw] Ha2]. constructor; [|by apply IH]. split.
      + intros Hso. by apply (inner_back st st' Hl1 Hs), Hi.
      + destruct mem as [limit|]; [|done]. destruct (Hm limit eq_refl) as (limit' & -> & Hle). simpl in *. pose proof (proj2 (sizes_le st st' Hl1 Hs)). lia.
  Qed.
End Sums.

(** The hypotheses of the searches carry over. *)
Lemma twice_renamed f inputs out inputs' out' : renamed f inputs out inputs' out' -> (forall c, occurrences out inputs c <= 2) -> forall c, occurrences out' inputs' c <= 2.
Proof.
  intros Hrn H c'. destruct (renamed_occurrences _ _ _ _ _ Hrn) as [H1 H2]. destruct (decide (c' ∈ set_map (D:=gset N) f (union_all inputs ∪ out))) as [Hc|Hc]; [|rewrite H2 by done; lia].
  apply elem_of_map in Hc as (c & -> & Hc). by rewrite H1.
Qed.
Lemma exactly_renamed f inputs out inputs' out' : renamed f inputs out inputs' out' -> (forall c, c ∈ union_all inputs -> occurrences out inputs c = 2) -> forall c, c ∈ union_all inputs' -> occurrences out' inputs' c = 2.
Proof.
  intros Hrn H c' Hc'. destruct (renamed_occurrences _ _ _ _ _ Hrn) as [H1 _]. rewrite (renamed_union _ _ _ _ _ Hrn) in Hc'. apply elem_of_map in Hc' as (c & -> & Hc). rewrite H1 by by apply elem_of_union_l. by apply H.
Qed.
Lemma nonempty_renamed f inputs out inputs' out' : renamed f inputs out inputs' out' -> inputs <> [] -> inputs' <> [].
Proof. intros Hrn Hne ->. pose proof (rn_length _ _ _ _ _ Hrn) as Hl. by destruct inputs. Qed.
Notation joined inputs out := (forall i j, i < length inputs -> j < length inputs -> rtc (DpSpec.linked inputs out) i j).
Lemma joined_renamed f inputs out inputs' out' : renamed f inputs out inputs' out' -> joined inputs out -> joined inputs' out'.
Proof.
  intros Hrn Hj i' j' Hi' Hj'. pose proof (rn_inputs _ _ _ _ _ Hrn) as Hp. pose proof (rn_length _ _ _ _ _ Hrn) as Hlen.
  destruct (proj1 (Permutation_inj _ _) Hp) as (_ & g & Hg & Hgl). symmetry in Hp. destruct (proj1 (Permutation_inj _ _) Hp) as (_ & h & Hh & Hhl).
  assert (Hlab : forall i, labels_of inputs' (h i) = set_map f (labels_of inputs i)).
  { intros i. unfold labels_of. rewrite <-Hhl, list_lookup_fmap. destruct (inputs !! i); [done|]. simpl. by rewrite set_map_empty. }
  assert (Hlab' : forall i, labels_of inputs' (h (g i)) = labels_of inputs' i) by (intros i; unfold labels_of; by rewrite <-Hhl, <-Hgl).
  assert (Hgi : forall i, i < length inputs' -> g i < length inputs).
  { intros i Hi. apply lookup_lt_is_Some_2 in Hi as [k Hk]. rewrite Hgl in Hk. apply lookup_lt_Some in Hk. by rewrite fmap_length in Hk. }
  assert (Hlink : forall i j, DpSpec.linked inputs out i j -> DpSpec.linked inputs' out' (h i) (h j)).
  { intros i j (c & H1 & H2 & H3). exists (f c). rewrite !Hlab. split; [apply elem_of_map; by exists c|]. split; [apply elem_of_map; by exists c|].
    rewrite (rn_out _ _ _ _ _ Hrn). intros (c0 & E & Hc0)%elem_of_map. assert (c = c0) as <-; [|done]. apply (rn_inj _ _ _ _ _ Hrn); [| |done].
    - apply elem_of_union_l, elem_union_all. unfold labels_of in H1. destruct (inputs !! i) as [k|] eqn:Ek; [|by apply elem_of_empty in H1]. exists k. split; [by eapply elem_of_list_lookup_2|done].
    - by apply elem_of_union_r. }
  pose proof (rtc_congruence h _ _ _ Hlink (Hj (g i') (g j') (Hgi i' Hi') (Hgi j' Hj'))) as Hr.
  assert (Hsame : forall i j k l, labels_of inputs' i = labels_of inputs' k -> labels_of inputs' j = labels_of inputs' l -> DpSpec.linked inputs' out' i j -> DpSpec.linked inputs' out' k l).
  { intros i j k l E1 E2 (c & H1 & H2 & H3). exists c. by rewrite <-E1, <-E2. }
  apply rtc_inv in Hr as [E|(y & H1 & H2)].
  - apply (inj h), (inj g) in E as ->. apply rtc_refl.
  - apply rtc_inv_r in H2 as [E|(z & H3 & H4)].
    + apply rtc_once. by apply (Hsame _ _ _ _ (Hlab' i') (Hlab' j')); rewrite <-E.
    + eapply rtc_l; [exact (Hsame _ _ _ _ (Hlab' i') eq_refl H1)|]. eapply rtc_r; [exact H3|]. exact (Hsame _ _ _ _ eq_refl (Hlab' j') H4).
Qed.
(** Left to right. *)
Lemma left_runs n : path_runs (S n) (repeat [0; 1] n) /\ pairwise (repeat [0; 1] n).
Proof.
  split; [|induction n; simpl; by constructor].
  induction n as [|n IH]; [done|]. cbn [repeat path_runs]. split; [done|]. split; [repeat constructor; set_solver|]. split; [constructor; [lia|]; constructor; [lia|constructor]|]. simpl length. by replace (S (S n) - 2 + 1) with (S n) by lia.
Qed.
Lemma optimal_pairs ordI inputs out d p : (forall s, ordI s ≡ₚ elements s) -> inputs <> [] -> (forall k c, k ∈ inputs -> c ∈ k -> is_Some (d !! c)) -> (forall c, occurrences out inputs c <= 2) ->
  optimal ordI inputs out d None = Ok p -> path_runs (length inputs) p /\ pairwise p.
Proof.
  intros Ho Hne Hd H2 Hp. destruct (C16_optimal_complete ordI inputs out d None Ho Hne Hd) as (p1 & Hp1 & Hr). assert (p1 = p) as -> by congruence. split; [done|].
  destruct (length inputs) as [|n] eqn:E; [by destruct inputs|]. destruct (left_runs n) as [H1 H3]. rewrite <-E in H1. by destruct (C17_optimal_cheapest_pair_partial ordI inputs out d p _ Ho Hne Hd H2 Hp H1 H3).
Qed.

(** ** C65 *)
(** [optimal], on the same network with larger dimensions: the cost does not fall.  Neither the order of the operands, nor the names of the labels, nor the iteration orders matter. *)
Theorem C65_optimal_grows_partial (ordI ordI' : gset nat -> list nat) f inputs out inputs' out' (d d' : sizes) p p' :
  (forall s, ordI s ≡ₚ elements s) -> (forall s, ordI' s ≡ₚ elements s) -> inputs <> [] -> renamed f inputs out inputs' out' ->
  (forall k c, k ∈ inputs -> c ∈ k -> is_Some (d !! c)) -> (forall k c, k ∈ inputs' -> c ∈ k -> is_Some (d' !! c)) ->
  (forall c, c ∈ union_all inputs -> size_of d c <= size_of d' (f c)) -> (forall c, occurrences out inputs c <= 2) ->
  optimal ordI inputs out d None = Ok p -> optimal ordI' inputs' out' d' None = Ok p' ->
  path_flops (size_of d) out p inputs <= path_flops (size_of d') out' p' inputs' /\
  ((forall c, c ∈ union_all inputs -> occurrences out inputs c = 2) -> path_cost out d p inputs <= path_cost out' d' p' inputs').
Proof.
  intros Ho Ho' Hne Hrn Hd Hd' HD H2 Hp Hp'. pose proof (nonempty_renamed _ _ _ _ _ Hrn Hne) as Hne'. pose proof (twice_renamed _ _ _ _ _ Hrn H2) as H2'.
  destruct (optimal_pairs ordI' inputs' out' d' p' Ho' Hne' Hd' H2' Hp') as [Hr' Hpw']. destruct (carry_from f inputs out inputs' out' Hrn p' Hr') as (q & Hq & Hlen & HF).
  assert (Hpq : pairwise q) by (by eapply pairwise_lengths). destruct (sums_le f inputs out inputs' out' (size_of d) (size_of d') Hrn HD _ _ (inside_all inputs out q) HF) as [Hs1 Hs2]. split.
  - etrans; [|exact Hs2]. by apply (C17_optimal_cheapest_pair_partial ordI inputs out d p q Ho Hne Hd H2 Hp Hq Hpq).
  - intros Htw. etrans; [|exact Hs1]. by apply (C17_optimal_cheapest_partial ordI inputs out d p q Ho Hne Hd H2 Htw Hp Hq Hpq).
Qed.
Print Assumptions C65_optimal_grows_partial.
(** The same dimensions: the same cost.
    Full statement: for all networks.  Missing: networks with a label in three places, or, for the operation count that is reported, in one place (false, see below). *)
Theorem C65_optimal_same_partial (ordI ordI' : gset nat -> list nat) f inputs out inputs' out' (d d' : sizes) p p' :
  (forall s, ordI s ≡ₚ elements s) -> (forall s, ordI' s ≡ₚ elements s) -> inputs <> [] -> renamed f inputs out inputs' out' ->
  (forall k c, k ∈ inputs -> c ∈ k -> is_Some (d !! c)) -> (forall k c, k ∈ inputs' -> c ∈ k -> is_Some (d' !! c)) ->
  (forall c, c ∈ union_all inputs -> size_of d c = size_of d' (f c)) -> (forall c, occurrences out inputs c <= 2) ->
  optimal ordI inputs out d None = Ok p -> optimal ordI' inputs' out' d' None = Ok p' ->
  path_flops (size_of d) out p inputs = path_flops (size_of d') out' p' inputs' /\
  ((forall c, c ∈ union_all inputs -> occurrences out inputs c = 2) -> path_cost out d p inputs = path_cost out' d' p' inputs').
Proof.
  intros Ho Ho' Hne Hrn Hd Hd' HD H2 Hp Hp'. destruct (renamed_sym _ _ _ _ _ Hrn) as (g & Hrg & Hg).
  destruct (C65_optimal_grows_partial ordI ordI' f inputs out inputs' out' d d' p p') as [Ha Hb]; try done; [intros c Hc; by rewrite HD|].
  destruct (C65_optimal_grows_partial ordI' ordI g inputs' out' inputs out d' d p' p) as [Ha' Hb']; try done; [by eapply nonempty_renamed| |by eapply twice_renamed|].
  { intros c' Hc'. rewrite (renamed_union _ _ _ _ _ Hrn) in Hc'. apply elem_of_map in Hc' as (c & -> & Hc). by rewrite Hg, HD. }
  split; [lia|]. intros Htw. specialize (Hb Htw). specialize (Hb' (exactly_renamed _ _ _ _ _ Hrn Htw)). lia.
Qed.
Print Assumptions C65_optimal_same_partial.
(** The dynamic programming search on a connected network, in every mode: larger dimensions or a smaller limit on the intermediates never make the path cheaper. *)
Theorem C65_dp_grows_partial ordI pop ordI' pop' minimize cost_cap cost_cap' rounds rounds' f inputs out inputs' out' d d' mem mem' p p' :
  orders ordI pop -> orders ordI' pop' -> monotone_mode minimize -> renamed f inputs out inputs' out' -> sized d inputs out -> sized d' inputs' out' -> joined inputs out ->
  (forall c, c ∈ union_all inputs -> 1 <= size_of d c <= size_of d' (f c)) -> (forall limit, mem = Some limit -> exists limit', mem' = Some limit' /\ limit' <= limit) ->
  dp ordI pop minimize cost_cap false rounds inputs out d mem = Ok p -> dp ordI' pop' minimize cost_cap' false rounds' inputs' out' d' mem' = Ok p' ->
  path_measure minimize (size_of d) out p inputs <= path_measure minimize (size_of d') out' p' inputs'.
Proof.
  intros Ho Ho' Hmm Hrn Hs Hs' Hj HD Hm Hp Hp'. eapply (best_le f inputs out inputs' out' _ _ Hrn); [intros c Hc; by apply HD|exact Hmm|exact Hm| |].
  - eapply C60_connected_best; [exact Ho|exact Hs|exact Hmm| |exact Hj|exact Hp]. intros k c Hk Hc. apply HD, elem_union_all. by exists k.
  - eapply C60_connected_best; [exact Ho'|exact Hs'|exact Hmm| |by eapply joined_renamed|exact Hp']. intros k c Hk Hc.
    assert (Hc' : c ∈ union_all inputs') by (apply elem_union_all; by exists k). rewrite (renamed_union _ _ _ _ _ Hrn) in Hc'. apply elem_of_map in Hc' as (c0 & -> & Hc0). pose proof (HD c0 Hc0). lia.
Qed.
Print Assumptions C65_dp_grows_partial.
Theorem C65_dp_same_partial ordI pop ordI' pop' minimize cost_cap cost_cap' rounds rounds' f inputs out inputs' out' d d' mem p p' :
  orders ordI pop -> orders ordI' pop' -> monotone_mode minimize -> renamed f inputs out inputs' out' -> sized d inputs out -> sized d' inputs' out' -> joined inputs out ->
  (forall c, c ∈ union_all inputs -> 1 <= size_of d c /\ size_of d c = size_of d' (f c)) ->
  dp ordI pop minimize cost_cap false rounds inputs out d mem = Ok p -> dp ordI' pop' minimize cost_cap' false rounds' inputs' out' d' mem = Ok p' ->
  path_measure minimize (size_of d) out p inputs = path_measure minimize (size_of d') out' p' inputs'.
Proof.
  intros Ho Ho' Hmm Hrn Hs Hs' Hj HD Hp Hp'. destruct (renamed_sym _ _ _ _ _ Hrn) as (g & Hrg & Hg). apply Nat.le_antisymm.
  - apply (C65_dp_grows_partial ordI pop ordI' pop' minimize cost_cap cost_cap' rounds rounds' f inputs out inputs' out' d d' mem mem p p'); try done; [intros c Hc; destruct (HD c Hc); lia|intros limit ->; by exists limit].
  - apply (C65_dp_grows_partial ordI' pop' ordI pop minimize cost_cap' cost_cap rounds' rounds g inputs' out' inputs out d' d mem mem p' p); try done; [by eapply joined_renamed| |intros limit ->; by exists limit].
    intros c' Hc'. rewrite (renamed_union _ _ _ _ _ Hrn) in Hc'. apply elem_of_map in Hc' as (c & -> & Hc). rewrite Hg by done. destruct (HD c Hc). lia.
Qed.
Print Assumptions C65_dp_same_partial.
(** With outer products, if no operand has all its labels to itself. *)
Lemma lone_renamed f inputs out inputs' out' : renamed f inputs out inputs' out' -> (forall j, j < length inputs -> ~ lone inputs out j) -> forall j, j < length inputs' -> ~ lone inputs' out' j.
Proof.
  intros Hrn Hl j' Hj' [Hne Hl']. destruct (proj1 (Permutation_inj _ _) (rn_inputs _ _ _ _ _ Hrn)) as (_ & g & Hg & Hgl).
  destruct (proj1 (Permutation_inj _ _) (symmetry (rn_inputs _ _ _ _ _ Hrn))) as (_ & h & Hh & Hhl).
  assert (Hlab : forall i, labels_of inputs' i = set_map f (labels_of inputs (g i))).
  { intros i. unfold labels_of. rewrite Hgl, list_lookup_fmap. destruct (inputs !! g i); [done|]. simpl. by rewrite set_map_empty. }
  assert (Hlab' : forall i, labels_of inputs' (h i) = set_map f (labels_of inputs i)).
  { intros i. unfold labels_of. rewrite <-Hhl, list_lookup_fmap. destruct (inputs !! i); [done|]. simpl. by rewrite set_map_empty. }
  assert (Hgi : forall i, i < length inputs' -> g i < length inputs).
  { intros i Hi. apply lookup_lt_is_Some_2 in Hi as [k Hk]. rewrite Hgl in Hk. apply lookup_lt_Some in Hk. by rewrite fmap_length in Hk. }
  assert (Hhg : forall i, i < length inputs -> i <> g j' -> exists i', i' <> j' /\ i = g i').
  { (* [g] is injective from a finite set to itself, so it is onto *)
    intros i Hi Hij. assert (Hon : seq 0 (length inputs) ≡ₚ g <$> seq 0 (length inputs)).
    { symmetry. apply submseteq_Permutation_length_eq; [by rewrite fmap_length|]. apply NoDup_submseteq; [apply NoDup_fmap; [done|apply NoDup_seq]|].
      intros x Hx. apply elem_of_list_fmap in Hx as (y & -> & Hy). apply elem_of_seq in Hy. apply elem_of_seq. rewrite <-(rn_length _ _ _ _ _ Hrn) in Hy. pose proof (Hgi y ltac:(lia)). lia. }
    assert (Hin : i ∈ seq 0 (length inputs)) by (apply elem_of_seq; lia). rewrite Hon in Hin. apply elem_of_list_fmap in Hin as (i' & -> & Hi'). exists i'. split; [|done]. by intros ->. }
  apply (Hl (g j') (Hgi j' Hj')). split; [intros E; apply Hne; by rewrite Hlab, E, set_map_empty|]. intros c Hc.
  destruct (Hl' (f c)) as [Ho Hi]; [rewrite Hlab; apply elem_of_map; by exists c|]. split.
  - intros Hco. apply Ho. rewrite (rn_out _ _ _ _ _ Hrn). apply elem_of_map. by exists c.
  - intros i Hij Hci. assert (Hil : i < length inputs) by (unfold labels_of in Hci; destruct (inputs !! i) eqn:E; [by eapply lookup_lt_Some|by apply elem_of_empty in Hci]).
    destruct (Hhg i Hil Hij) as (i' & Hi' & ->). apply (Hi i' Hi'). rewrite Hlab. apply elem_of_map. by exists c.
Qed.
Theorem C65_dp_outer_same_partial ordI pop ordI' pop' minimize cost_cap cost_cap' rounds rounds' f inputs out inputs' out' d d' mem p p' :
  orders ordI pop -> orders ordI' pop' -> monotone_mode minimize -> renamed f inputs out inputs' out' -> sized d inputs out -> sized d' inputs' out' -> (forall j, j < length inputs -> ~ lone inputs out j) ->
  (forall c, c ∈ union_all inputs -> 1 <= size_of d c /\ size_of d c = size_of d' (f c)) ->
  dp ordI pop minimize cost_cap true rounds inputs out d mem = Ok p -> dp ordI' pop' minimize cost_cap' true rounds' inputs' out' d' mem = Ok p' ->
  path_measure minimize (size_of d) out p inputs = path_measure minimize (size_of d') out' p' inputs'.
Proof.
  intros Ho Ho' Hmm Hrn Hs Hs' Hl HD Hp Hp'. destruct (renamed_sym _ _ _ _ _ Hrn) as (g & Hrg & Hg).
  assert (Hb : best_path minimize true mem (size_of d) out inputs p).
  { eapply C60_outer_best; [exact Ho|exact Hs|exact Hmm| |exact Hl|exact Hp]. intros k c Hk Hc. apply HD, elem_union_all. by exists k. }
  assert (Hback : forall c', c' ∈ union_all inputs' -> exists c, c' = f c /\ c ∈ union_all inputs).
  { intros c' Hc'. rewrite (renamed_union _ _ _ _ _ Hrn) in Hc'. apply elem_of_map in Hc' as (c & -> & Hc). by exists c. }
  assert (Hb' : best_path minimize true mem (size_of d') out' inputs' p').
  { eapply C60_outer_best; [exact Ho'|exact Hs'|exact Hmm| |by eapply lone_renamed|exact Hp']. intros k c' Hk Hc'. destruct (Hback c') as (c & -> & Hc); [apply elem_union_all; by exists k|]. destruct (HD c Hc). lia. }
  apply Nat.le_antisymm.
  - eapply (best_le f inputs out inputs' out' _ _ Hrn); [intros c Hc; destruct (HD c Hc); lia|done|intros limit Hm; by exists limit|done|done].
  - eapply (best_le g inputs' out' inputs out _ _ Hrg); [|done|intros limit Hm; by exists limit|done|done]. intros c' Hc'. destruct (Hback c' Hc') as (c & -> & Hc). rewrite Hg by done. destruct (HD c Hc). lia.
Qed.
Print Assumptions C65_dp_outer_same_partial.

(** By name: 'optimal', 'auto' on up to four operands and 'auto-hq' on up to five. *)
Lemma named_optimal (E : env) name n : lower name = lit "optimal" \/ (lower name = lit "auto" /\ 1 <= n <= 4) \/ (lower name = lit "auto-hq" /\ 1 <= n <= 5) ->
  forall inputs out d mem, length inputs = n -> (g ← get_path_fn (all_options E) name; g inputs out d mem) = optimal (en_ord E) inputs out d mem.
Proof.
  intros Hn inputs out d mem Hl. unfold get_path_fn. assert (Ef : exists g, lookup_fn (all_options E) (lower name) = Some g /\ g inputs out d mem = optimal (en_ord E) inputs out d mem).
  { destruct Hn as [-> |[[-> Hn]|[-> Hn]]]; [exists (optimal (en_ord E)); split; [lookup|done]|exists (auto E); split; [lookup|]|exists (auto_hq E); split; [lookup|]].
    - unfold auto. by rewrite decide_True by lia.
    - unfold auto_hq. by rewrite decide_True by lia. }
  destruct Ef as (g & Ef & Hg). rewrite Ef. exact Hg.
Qed.
Theorem C65_named_same_partial (E E' : env) name f inputs out inputs' out' (d d' : sizes) p p' : env_ok E -> env_ok E' -> inputs <> [] -> renamed f inputs out inputs' out' ->
  (forall k c, k ∈ inputs -> c ∈ k -> is_Some (d !! c)) -> (forall k c, k ∈ inputs' -> c ∈ k -> is_Some (d' !! c)) ->
  (forall c, c ∈ union_all inputs -> size_of d c = size_of d' (f c)) -> (forall c, c ∈ union_all inputs ∪ out -> occurrences out inputs c = 2) ->
  lower name = lit "optimal" \/ (lower name = lit "auto" /\ length inputs <= 4) \/ (lower name = lit "auto-hq" /\ length inputs <= 5) ->
  (g ← get_path_fn (all_options E) name; g inputs out d None) = Ok p -> (g ← get_path_fn (all_options E') name; g inputs' out' d' None) = Ok p' ->
  path_cost out d p inputs = path_cost out' d' p' inputs'.
Proof.
  intros HE HE' Hne Hrn Hd Hd' HD H2 Hn Hp Hp'. pose proof (rn_length _ _ _ _ _ Hrn) as Hlen.
  assert (Hpos : 1 <= length inputs) by (destruct inputs; [done|simpl; lia]).
  assert (Hn' : lower name = lit "optimal" \/ (lower name = lit "auto" /\ 1 <= length inputs <= 4) \/ (lower name = lit "auto-hq" /\ 1 <= length inputs <= 5)) by (destruct Hn as [?|[[? ?]|[? ?]]]; [by left|right; left; split; [done|lia]|right; right; split; [done|lia]]).
  rewrite (named_optimal E name (length inputs) Hn') in Hp by done. rewrite (named_optimal E' name (length inputs) Hn') in Hp' by done.
  apply (C65_optimal_same_partial (en_ord E) (en_ord E') f inputs out inputs' out' d d' p p'); try done.
  - by apply eo_ord.
  - by apply eo_ord.
  - intros c. destruct (decide (c ∈ union_all inputs ∪ out)) as [Hc|Hc]; [by rewrite H2|].
    unfold occurrences. destruct (filter (fun k => c ∈ k) inputs) as [|k l] eqn:Ek; [destruct (decide (c ∈ out)); simpl; lia|].
    destruct Hc. apply elem_of_union_l, elem_union_all. exists k. assert (Hk : k ∈ filter (fun k => c ∈ k) inputs) by (rewrite Ek; left). apply elem_of_list_filter in Hk. tauto.
  - intros c Hc. apply H2. by apply elem_of_union_l.
Qed.
Print Assumptions C65_named_same_partial.

(** The network of the examples of C17 with the labels called b to f instead of a to e, and the operands listed in another order. *)
Definition next_label (c : N) : N := (c + 1)%N.
Definition ex65_in : list (gset N) := [lset "df"; lset "bc"; lset "cde"; lset "eb"].
Definition ex65_d : sizes := ldict [("bcd", 5); ("e", 2); ("f", 7)]%string.
Example C65_hypotheses : renamed next_label ex_in (lset "e") ex65_in (lset "f") /\ (forall k c, k ∈ ex65_in -> c ∈ k -> is_Some (ex65_d !! c)) /\ (forall c, c ∈ union_all ex_in -> size_of ex_d c = size_of ex65_d (next_label c)).
Proof.
  split; [split|split].
  - intros a b _ _ H. unfold next_label in H. lia.
  - assert (E : set_map next_label <$> ex_in = [lset "bc"; lset "cde"; lset "eb"; lset "df"]) by (by apply (bool_decide_unpack _); vm_compute). rewrite E. unfold ex65_in. change [lset "bc"; lset "cde"; lset "eb"; lset "df"] with ([lset "bc"; lset "cde"; lset "eb"] ++ [lset "df"]). rewrite Permutation_app_comm. done.
  - by apply (bool_decide_unpack _); vm_compute.
  - apply sized_check_ok. by vm_compute.
  - assert (Hb : forallb (fun c => bool_decide (size_of ex_d c = size_of ex65_d (next_label c))) (elements (union_all ex_in)) = true) by by vm_compute.
    intros c Hc%elem_of_elements. rewrite forallb_forall in Hb. apply elem_of_list_In, Hb in Hc. by apply bool_decide_eq_true in Hc.
Qed.
Example C65_instance : optimal ordI0 ex_in (lset "e") ex_d None = Ok [[0; 2]; [0; 2]; [0; 1]] /\ path_cost (lset "e") ex_d [[0; 2]; [0; 2]; [0; 1]] ex_in = 270 /\
  optimal ordI0 ex65_in (lset "f") ex65_d None = Ok [[1; 3]; [1; 2]; [0; 1]] /\ path_cost (lset "f") ex65_d [[1; 3]; [1; 2]; [0; 1]] ex65_in = 270.
Proof. by vm_compute. Qed.
(** The same for the dynamic programming search, on the network of C60 listed backwards. *)
Example C65_dp_hypotheses : renamed id ex60_in ∅ (reverse ex60_in) ∅ /\ joined ex60_in ∅.
Proof.
  split; [|exact ex60_linked]. split; [by intros a b _ _|rewrite reverse_Permutation; assert (E : set_map id <$> ex60_in = ex60_in) by (by apply (bool_decide_unpack _); vm_compute); by rewrite E|by apply (bool_decide_unpack _); vm_compute].
Qed.
Example C65_dp_instance : let p := [[3; 4]; [1]; [0; 3]; [0; 2]; [0; 1]] in
  dp ordI0 pop0 DpFlops CapTrue false 20 ex60_in ∅ ex60_d None = Ok p /\ path_measure DpFlops (size_of ex60_d) ∅ p ex60_in = 74 /\
  exists p', dp ordI0 pop0 DpFlops CapTrue false 20 (reverse ex60_in) ∅ ex60_d None = Ok p' /\ p' <> p /\ path_measure DpFlops (size_of ex60_d) ∅ p' (reverse ex60_in) = 74.
Proof. cbv zeta. split; [by vm_compute|]. split; [by vm_compute|]. eexists. split; [by vm_compute|]. split; [done|by vm_compute]. Qed.

(** In general it is false for [optimal]: 'ab,bc,b->ac' costs 100, and 'bc,ab,b->ac' 84 (see C17). *)
Theorem C65_optimal_refuted : exists inputs inputs' out d p p', inputs' ≡ₚ inputs /\ (forall k c, k ∈ inputs -> c ∈ k -> is_Some (d !! c)) /\
  optimal ordI0 inputs out d None = Ok p /\ optimal ordI0 inputs' out d None = Ok p' /\ path_cost out d p' inputs' < path_cost out d p inputs.
Proof.
  exists ex17_in, [lset "bc"; lset "ab"; lset "b"], (lset "ac"), ex17_d. eexists _, _. split; [unfold ex17_in; apply perm_swap|]. split; [apply sized_check_ok; by vm_compute|].
  split; [by vm_compute|]. split; [by vm_compute|]. apply Nat.ltb_lt. by vm_compute.
Qed.
Print Assumptions C65_optimal_refuted.
(** The greedy search depends on the order of the operands: 'ab,bc,cd,de,ef->af' with a=c=2 and the others 3 costs 120 or 138.
    And a larger dimension can make its path cheaper: with f=5 and the others 2 it costs 112, with d=3 it costs 96. *)
Definition ex65g_in : list (gset N) := [lset "ab"; lset "bc"; lset "cd"; lset "de"; lset "ef"].
Definition ex65g_d : sizes := ldict [("ac", 2); ("bdef", 3)]%string.
Definition ex65m_d (n : nat) : sizes := ldict [("abce", 2); ("d", n); ("f", 5)]%string.
Theorem C65_greedy_refuted : exists inputs inputs' out d p p', inputs' ≡ₚ inputs /\ (forall k c, k ∈ inputs -> c ∈ k -> is_Some (d !! c)) /\ (forall c, c ∈ union_all inputs -> occurrences out inputs c = 2) /\
  greedy_default (env0 20) inputs out d None = Ok p /\ greedy_default (env0 20) inputs' out d None = Ok p' /\ path_cost out d p inputs < path_cost out d p' inputs'.
Proof.
  exists ex65g_in, [lset "ab"; lset "bc"; lset "de"; lset "ef"; lset "cd"], (lset "af"), ex65g_d. eexists _, _. split; [unfold ex65g_in; do 2 apply perm_skip; symmetry; exact (Permutation_cons_append [lset "de"; lset "ef"] (lset "cd"))|].
  split; [apply sized_check_ok; by vm_compute|]. split; [|split; [by vm_compute|]; split; [by vm_compute|]; apply Nat.ltb_lt; by vm_compute].
  assert (Hb : forallb (fun c => bool_decide (occurrences (lset "af") ex65g_in c = 2)) (elements (union_all ex65g_in)) = true) by by vm_compute.
  intros c Hc%elem_of_elements. rewrite forallb_forall in Hb. apply elem_of_list_In, Hb in Hc. by apply bool_decide_eq_true in Hc.
Qed.
Print Assumptions C65_greedy_refuted.
Theorem C65_greedy_grows_refuted : exists inputs out d d' p p', (forall k c, k ∈ inputs -> c ∈ k -> is_Some (d !! c) /\ is_Some (d' !! c) /\ size_of d c <= size_of d' c) /\
  greedy_default (env0 20) inputs out d None = Ok p /\ greedy_default (env0 20) inputs out d' None = Ok p' /\ path_cost out d' p' inputs < path_cost out d p inputs.
Proof.
  exists ex65g_in, (lset "af"), (ex65m_d 2), (ex65m_d 3). eexists _, _. split; [|split; [by vm_compute|]; split; [by vm_compute|]; apply Nat.ltb_lt; by vm_compute].
  assert (Hb : forallb (fun k => forallb (fun c => bool_decide (is_Some (ex65m_d 2 !! c) /\ is_Some (ex65m_d 3 !! c) /\ size_of (ex65m_d 2) c <= size_of (ex65m_d 3) c)) (elements k)) ex65g_in = true) by by vm_compute.
  intros k c Hk Hc. rewrite forallb_forall in Hb. apply elem_of_list_In, Hb in Hk. rewrite forallb_forall in Hk. apply elem_of_elements, elem_of_list_In, Hk in Hc. by apply bool_decide_eq_true in Hc.
Qed.
Print Assumptions C65_greedy_grows_refuted.
