(** When every label occurs at most twice, [optimal] finds a cheapest pairwise path and keeps the memory limit. *)
From Verif Require Import Prelude Einsum EinsumFacts Helpers Contract Spec PathSpec StringFacts StepFacts ContractFacts PathFacts Ssa SsaSpec SsaFacts SsaMore Optimal OptimalFacts.

Lemma sort_nat_unique l k : l ≡ₚ k -> sort_nat l = sort_nat k.
Proof.
  intros H. apply (@StronglySorted_unique nat (≤)); [intros x y; lia|apply (StronglySorted_merge_sort (≤))..|].
  unfold sort_nat. by rewrite !merge_sort_Permutation.
Qed.
Lemma filter_notin_perm (s s' av : list nat) : s ≡ₚ s' -> filter (.∉ s) av = filter (.∉ s') av.
Proof. intros H. apply list_filter_iff. intros x. by rewrite H. Qed.
Lemma ssa_runs_perm s s' av next p : s ≡ₚ s' -> ssa_runs av next (s :: p) -> ssa_runs av next (s' :: p).
Proof.
  intros H (H1 & H2 & H3 & H4). simpl. split; [intros ->; by apply Permutation_nil_r in H|]. split; [by rewrite <-H|]. split; [intros i; rewrite <-H; auto|].
  by rewrite <-(filter_notin_perm s s').
Qed.
Lemma ssa_valid_perm s s' av next p : s ≡ₚ s' -> ssa_valid av next (s :: p) -> ssa_valid av next (s' :: p).
Proof.
  intros H (H1 & H2 & H3 & H4). simpl. split; [intros ->; by apply Permutation_nil_r in H|]. split; [by rewrite <-H|]. split; [intros i; rewrite <-H; auto|].
  by rewrite <-(filter_notin_perm s s').
Qed.
Lemma ssa_replay_perm out s s' p vals av : s ≡ₚ s' -> ssa_replay out (s :: p) vals av = ssa_replay out (s' :: p) vals av.
Proof. intros H. simpl. by rewrite (sort_nat_unique s s' H), (filter_notin_perm s s' av H). Qed.
Lemma sort_pair i j : i < j -> sort_nat [i; j] = [i; j].
Proof.
  intros H. apply asc_unique; [|repeat constructor; lia|intros x; apply elem_sort_nat].
  apply sort_nat_asc, NoDup_cons. split; [|apply NoDup_singleton]. intros ?%elem_of_list_singleton. lia.
Qed.
Lemma at_ids_app vals l l' : at_ids vals (l ++ l') = at_ids vals l ++ at_ids vals l'.
Proof. unfold at_ids. induction l as [|i l IH]; simpl; [done|]. destruct (vals !! i); simpl; [f_equal|]; exact IH. Qed.
Lemma at_ids_perm vals l l' : l ≡ₚ l' -> at_ids vals l ≡ₚ at_ids vals l'.
Proof. unfold at_ids. intros H. by rewrite H. Qed.
Lemma at_ids_grow vals k l : Forall (fun i => i < length vals) l -> at_ids (vals ++ [k]) l = at_ids vals l.
Proof. unfold at_ids. induction 1 as [|i l Hi _ IH]; simpl; [done|]. rewrite lookup_app_l by done. destruct (vals !! i); [f_equal|]; exact IH. Qed.
Lemma at_ids_last vals k : at_ids (vals ++ [k]) [length vals] = [k].
Proof. unfold at_ids. simpl. by rewrite lookup_app_r, Nat.sub_diag by lia. Qed.
Lemma at_ids_seq vals : at_ids vals (seq 0 (length vals)) = vals.
Proof. apply omap_some, seq_lookup_fmap. Qed.
Lemma at_ids_two vals i j k1 k2 : vals !! i = Some k1 -> vals !! j = Some k2 -> at_ids vals [i; j] = [k1; k2].
Proof. intros H1 H2. unfold at_ids. simpl. by rewrite H1, H2. Qed.
Lemma av_split (av : list nat) i j : NoDup av -> i ∈ av -> j ∈ av -> i <> j -> av ≡ₚ [i; j] ++ filter (.∉ [i; j]) av.
Proof.
  intros Hnd Hi Hj Hne. symmetry. apply NoDup_Permutation; [|done|].
  - apply NoDup_app. split; [apply NoDup_cons; split; [set_solver|apply NoDup_singleton]|]. split; [|by apply NoDup_filter].
    intros x Hx [Hn _]%elem_of_list_filter. done.
  - intros x. rewrite elem_of_app, elem_of_list_filter. destruct (decide (x ∈ [i; j])) as [Hx|Hx]; [|naive_solver].
    split; [|naive_solver]. intros _. set_solver.
Qed.
Lemma volume_size d k : labels_in d k -> set_size k d = Ok (volume (size_of d) k).
Proof. intros H. unfold set_size, volume. apply compute_size_ok. intros c Hc%elem_of_elements. by apply H. Qed.
Lemma flop_volume d k b m : labels_in d k -> flop_count (elements k) b m d = Ok (volume (size_of d) k * (Nat.max 1 (m - 1) + (if b then 1 else 0))).
Proof. intros H. unfold flop_count. pose proof (volume_size d k H) as Hv. unfold set_size in Hv. by rewrite Hv. Qed.

Section Count.
  Variables (out : gset N) (d : sizes) (inputs0 : list (gset N)).
  Notation m0 := (occurrences out inputs0).
  Hypothesis twice : forall c, m0 c <= 2.

  (** Every label that is still present occurs as often as at the start. *)
  Definition count_inv (vals : list (gset N)) (av : list nat) : Prop :=
    forall c, c ∈ union_all (at_ids vals av) -> occurrences out (at_ids vals av) c = m0 c.
  Lemma occ_perm l l' c : l ≡ₚ l' -> occurrences out l c = occurrences out l' c.
  Proof. intros H. unfold occurrences. by rewrite H. Qed.
  Lemma occ_cons k l c : occurrences out (k :: l) c = (if decide (c ∈ k) then 1 else 0) + occurrences out l c.
  Proof. unfold occurrences. rewrite filter_cons. destruct (decide (c ∈ k)); simpl; lia. Qed.
  Lemma occ_zero l c : occurrences out l c = 0 <-> c ∉ out ∪ union_all l.
  Proof.
    unfold occurrences. rewrite elem_of_union. destruct (decide (c ∈ out)) as [Ho|Ho]; [split; [lia|tauto]|].
    rewrite Nat.add_0_r. rewrite elem_union_all. split.
    - intros H [?|(s & Hs & Hc)]; [done|]. apply nil_length_inv in H. assert (Hin : s ∈ filter (fun k => c ∈ k) l) by by apply elem_of_list_filter.
      rewrite H in Hin. by apply elem_of_nil in Hin.
    - intros H. destruct (filter (fun k => c ∈ k) l) as [|s k] eqn:E; [done|]. destruct H. right. exists s.
      assert (Hin : s ∈ filter (fun k => c ∈ k) l) by (rewrite E; left). apply elem_of_list_filter in Hin. tauto.
  Qed.

  Definition merged (k1 k2 rest : gset N) : gset N := (k1 ∪ k2) ∩ (out ∪ rest).
  Section Merge.
    Variables (vals : list (gset N)) (av : list nat) (i j : nat) (k1 k2 : gset N).
    Hypothesis Hasc : asc av.
    Hypothesis Hlt : Forall (fun i => i < length vals) av.
    Hypothesis Hi : i ∈ av.
    Hypothesis Hj : j ∈ av.
    Hypothesis Hne : i <> j.
    Hypothesis Hk1 : vals !! i = Some k1.
    Hypothesis Hk2 : vals !! j = Some k2.
    Hypothesis Hinv : count_inv vals av.
    Let rest := at_ids vals (filter (.∉ [i; j]) av).
    Let k12 := merged k1 k2 (union_all rest).
    Lemma merge_split : at_ids vals av ≡ₚ k1 :: k2 :: rest.
    Proof.
      rewrite (at_ids_perm vals av _ (av_split av i j (asc_NoDup _ Hasc) Hi Hj Hne)), at_ids_app, (at_ids_two vals i j k1 k2) by done. done.
    Qed.
    Lemma merge_occ c : c ∈ k1 ∪ k2 -> (if decide (c ∈ k1) then 1 else 0) + (if decide (c ∈ k2) then 1 else 0) + occurrences out rest c = m0 c.
    Proof.
      intros Hc. rewrite <-(Hinv c).
      - rewrite (occ_perm _ _ c merge_split), !occ_cons. lia.
      - rewrite elem_union_all. setoid_rewrite merge_split. apply elem_of_union in Hc as [Hc|Hc]; [exists k1|exists k2]; (split; [|done]); [left|right; left].
    Qed.
    Lemma merge_shared c : c ∈ k1 -> c ∈ k2 -> c ∉ out ∪ union_all rest.
    Proof.
      intros H1 H2. apply occ_zero. pose proof (merge_occ c) as Hm. rewrite (decide_True (P:=c ∈ k1)), (decide_True (P:=c ∈ k2)) in Hm by done.
      specialize (twice c). assert (c ∈ k1 ∪ k2) by set_solver. lia.
    Qed.
    Lemma merge_elem c : c ∈ k12 <-> c ∈ k1 ∪ k2 /\ ~ (c ∈ k1 /\ c ∈ k2) /\ m0 c = 2.
    Proof.
      unfold k12, merged. rewrite elem_of_intersection. destruct (decide (c ∈ k1 ∪ k2)) as [Hc|Hc]; [|tauto].
      pose proof (merge_occ c Hc) as Hm. pose proof (occ_zero rest c) as Hz. pose proof (merge_shared c) as Hs. specialize (twice c).
      destruct (decide (c ∈ k1)), (decide (c ∈ k2)); [naive_solver| | |set_solver].
      - split; [intros [_ H]; split; [done|]; split; [tauto|]|intros (_ & _ & H); split; [done|]].
        + assert (occurrences out rest c <> 0) by tauto. lia.
        + destruct (decide (c ∈ out ∪ union_all rest)) as [?|Hn]; [done|]. apply Hz in Hn. lia.
      - split; [intros [_ H]; split; [done|]; split; [tauto|]|intros (_ & _ & H); split; [done|]].
        + assert (occurrences out rest c <> 0) by tauto. lia.
        + destruct (decide (c ∈ out ∪ union_all rest)) as [?|Hn]; [done|]. apply Hz in Hn. lia.
    Qed.
    Lemma merge_inv : count_inv (vals ++ [k12]) (filter (.∉ [i; j]) av ++ [length vals]).
    Proof.
      intros c. rewrite at_ids_app, at_ids_last.
      assert (Hlt' : Forall (fun i => i < length vals) (filter (.∉ [i; j]) av)).
      { rewrite Forall_forall in *. intros x [_ Hx]%elem_of_list_filter. by apply Hlt. }
      rewrite at_ids_grow by done. fold rest. intros Hc.
      assert (Hp : rest ++ [k12] ≡ₚ k12 :: rest) by (rewrite Permutation_app_comm; done). rewrite (occ_perm _ _ c Hp), occ_cons.
      rewrite elem_union_all in Hc. setoid_rewrite Hp in Hc. destruct (decide (c ∈ k12)) as [H12|H12].
      - apply merge_elem in H12 as (Hu & Hnb & H2). pose proof (merge_occ c Hu) as Hm. destruct (decide (c ∈ k1)), (decide (c ∈ k2)); [tauto|lia|lia|set_solver].
      - destruct Hc as (s & Hs & Hc). apply elem_of_cons in Hs as [->|Hs]; [done|].
        assert (Hr : c ∈ union_all rest) by (apply elem_union_all; eauto).
        assert (Hnu : c ∉ k1 ∪ k2) by (intros Hu; apply H12; unfold k12, merged; set_solver).
        rewrite <-(Hinv c), (occ_perm _ _ c merge_split), !occ_cons.
        + rewrite !decide_False by set_solver. lia.
        + rewrite elem_union_all. setoid_rewrite merge_split. exists s. split; [by do 2 right|done].
    Qed.
  End Merge.

End Count.

Lemma diff_inter (x o : gset N) : x ∖ o = ∅ <-> x ∩ o = x.
Proof.
  split; intros H; apply set_eq; intros c.
  - rewrite elem_of_intersection. split; [tauto|]. intros Hc. split; [done|]. destruct (decide (c ∈ o)); [done|]. assert (Hx : c ∈ x ∖ o) by by apply elem_of_difference. rewrite H in Hx. by apply elem_of_empty in Hx.
  - rewrite elem_of_difference. split; [|by intros ?%elem_of_empty]. intros [Hc Hn]. rewrite <-H in Hc. apply elem_of_intersection in Hc as [_ Hc]. done.
Qed.
Lemma union_all_perm (l l' : list (gset N)) : l ≡ₚ l' -> union_all l = union_all l'.
Proof. intros H. apply set_eq. intros c. rewrite !elem_union_all. by setoid_rewrite H. Qed.
Lemma step_cost_perm D st st' : st.1 ≡ₚ st'.1 -> st.2 = st'.2 -> step_cost D st = step_cost D st'.
Proof. intros H1 H2. unfold step_cost. by rewrite (union_all_perm _ _ H1), H2, H1. Qed.
Lemma at_ids_length vals l : Forall (fun i => i < length vals) l -> length (at_ids vals l) = length l.
Proof. induction 1 as [|i l Hi _ IH]; [done|]. unfold at_ids in *. simpl. destruct (lookup_lt_is_Some_2 vals i Hi) as [x ->]. simpl. by f_equal. Qed.
Lemma sort_asc l : asc l -> sort_nat l = l.
Proof. intros H. apply asc_unique; [by apply sort_nat_asc, asc_NoDup|done|intros x; apply elem_sort_nat]. Qed.
Lemma filter_all_out (s av : list nat) : s ≡ₚ av -> filter (.∉ s) av = [].
Proof. intros H. destruct (filter (.∉ s) av) as [|x l] eqn:E; [done|]. exfalso. assert (Hx : x ∈ filter (.∉ s) av) by (rewrite E; left). apply elem_of_list_filter in Hx as [Hn Hx]. by rewrite H in Hn. Qed.

Section Best.
  Variable ordI : gset nat -> list nat.
  Hypothesis ordI_ok : forall s, ordI s ≡ₚ elements s.
  Variables (out : gset N) (d : sizes) (mem : option nat) (inputs0 : list (gset N)).
  Notation n := (length inputs0).
  Notation D := (size_of d).
  Notation m0 := (occurrences out inputs0).
  Hypothesis twice : forall c, m0 c <= 2.

  Notation merged := (merged out).
  Notation count_inv := (count_inv out inputs0).
  Definition fspec (k1 k2 : gset N) (v : gset N * nat) : Prop :=
    (forall c, c ∈ v.1 <-> c ∈ k1 ∪ k2 /\ ~ (c ∈ k1 /\ c ∈ k2) /\ m0 c = 2) /\
    v.2 = volume D (k1 ∪ k2) * (1 + if decide (k1 ∩ k2 = ∅) then 0 else 1).
  Lemma fspec_unique k1 k2 v w : fspec k1 k2 v -> fspec k1 k2 w -> v = w.
  Proof. intros [H1 H2] [H3 H4]. destruct v as [v1 v2], w as [w1 w2]. simpl in *. f_equal; [|congruence]. apply set_eq. intros c. by rewrite H1, H3. Qed.

  (** The search is at prefix [p] and its label sets are the real ones. *)
  Record tracked (p : path) (av : list nat) (inputs : list (gset N)) (flops : nat) : Prop := Tracked {
    tr_prefix : at_prefix d n p av inputs;
    tr_vals : inputs = inputs0 ++ (ssa_replay out p inputs0 (seq 0 n)).*2;
    tr_inv : count_inv inputs av;
    tr_flops : flops = sum_list (pair_cost D <$> ssa_replay out p inputs0 (seq 0 n));
    tr_pairs : pairwise p;
    tr_mem : forall limit st, mem = Some limit -> st ∈ ssa_replay out p inputs0 (seq 0 n) -> volume D st.2 <= limit }.

  Lemma union_two (k1 k2 : gset N) : union_all [k1; k2] = k1 ∪ k2.
  Proof. apply set_eq. intros c. rewrite elem_union_all, elem_of_union. setoid_rewrite elem_of_cons. setoid_rewrite elem_of_list_singleton. naive_solver. Qed.

  Lemma step_replay vals av i j k1 k2 : i < j -> vals !! i = Some k1 -> vals !! j = Some k2 ->
    ssa_replay out [[i; j]] vals av = [([k1; k2], merged k1 k2 (union_all (at_ids vals (filter (.∉ [i; j]) av))))].
  Proof. intros Hij H1 H2. simpl. rewrite sort_pair, (at_ids_two vals i j k1 k2), union_two by done. done. Qed.

  Lemma calc_fspec p av inputs flops i j k1 k2 : tracked p av inputs flops -> i ∈ av -> j ∈ av -> i <> j -> inputs !! i = Some k1 -> inputs !! j = Some k2 ->
    let k12 := merged k1 k2 (union_all (at_ids inputs (filter (.∉ [i; j]) av))) in
    exists c, calc_k12_flops inputs out (list_to_set av) i j d = Ok (k12, c) /\ fspec k1 k2 (k12, c) /\ c = pair_cost D ([k1; k2], k12).
  Proof.
    intros Ht Hi Hj Hne H1 H2 k12. destruct (ap_asc _ _ _ _ _ (tr_prefix _ _ _ _ Ht)) as [Ha Hlt].
    destruct (calc_ok ordI ordI_ok out d n p av inputs i j k1 k2 (tr_prefix _ _ _ _ Ht) Hi Hj H1 H2) as (c & Hc & Hf).
    exists c. split; [done|]. 
    assert (Hsh : forall x, x ∈ k1 ∩ k2 -> x ∉ out ∪ union_all (at_ids inputs (filter (.∉ [i; j]) av))).
    { intros x [Hx1 Hx2]%elem_of_intersection. eapply (merge_shared out inputs0 twice inputs av i j k1 k2); try done. by eapply tr_inv. }
    assert (Hlab : labels_in d (k1 ∪ k2)).
    { destruct (tr_prefix _ _ _ _ Ht) as [_ _ _ Hl]. rewrite Forall_forall in Hl. intros x [Hx|Hx]%elem_of_union; eapply Hl; try exact Hx; by eapply elem_of_list_lookup_2. }
    rewrite flop_volume in Hf by done. apply Ok_inj in Hf as <-. split.
    - split; simpl.
      + intros x. eapply (merge_elem out inputs0 twice inputs av i j k1 k2); try done. by eapply tr_inv.
      + f_equal. f_equal. case_bool_decide as E; case_decide as E2; simpl; try lia.
        * destruct E2. apply set_eq. intros x. split; [|set_solver]. intros Hx. exfalso. specialize (Hsh x Hx). set_solver.
        * set_solver.
    - unfold pair_cost. cbn [fst snd]. rewrite union_two. f_equal. f_equal. case_bool_decide as E; case_decide as E2; simpl; try lia.
      + destruct E2. intros x Hx. exfalso. specialize (Hsh x Hx). set_solver.
      + destruct E. apply set_eq. intros x. split; [|set_solver]. intros [Hx _]%elem_of_difference. exfalso. apply (Hsh x Hx).
        apply E2 in Hx. unfold k12, merged in Hx. set_solver.
  Qed.
  Lemma tracked_step p av inputs flops i j k1 k2 : tracked p av inputs flops -> i ∈ av -> j ∈ av -> i < j -> inputs !! i = Some k1 -> inputs !! j = Some k2 ->
    let k12 := merged k1 k2 (union_all (at_ids inputs (filter (.∉ [i; j]) av))) in
    (forall limit, mem = Some limit -> volume D k12 <= limit) ->
    tracked (p ++ [[i; j]]) (filter (.∉ [i; j]) av ++ [length inputs]) (inputs ++ [k12]) (flops + pair_cost D ([k1; k2], k12)).
  Proof.
    intros Ht Hi Hj Hlt H1 H2 k12 Hm. destruct Ht as [Hap Hv Hinv Hf Hp Hmem]. destruct (ap_asc _ _ _ _ _ Hap) as [Ha Hltv].
    assert (Hrep : ssa_replay out (p ++ [[i; j]]) inputs0 (seq 0 n) = ssa_replay out p inputs0 (seq 0 n) ++ [([k1; k2], k12)]).
    { rewrite ssa_replay_snoc by (rewrite app_length, fmap_length, ssa_replay_length; done). f_equal. rewrite <-Hv. rewrite (ap_after _ _ _ _ _ Hap). by apply step_replay. }
    split.
    - apply (ap_step ordI ordI_ok); try done; [lia|]. destruct Hap as [_ _ _ Hl]. rewrite Forall_forall in Hl. intros x Hx. unfold k12, merged in Hx. apply elem_of_intersection in Hx as [Hx _].
      apply elem_of_union in Hx as [Hx|Hx]; eapply Hl; try exact Hx; by eapply elem_of_list_lookup_2.
    - rewrite Hrep, fmap_app, app_assoc, <-Hv. done.
    - eapply (merge_inv out inputs0 twice inputs av i j k1 k2); try done. lia.
    - rewrite Hrep, fmap_app, sum_list_with_app. rewrite <-Hf. simpl. lia.
    - apply Forall_app. split; [done|]. by repeat constructor.
    - intros limit st Hl. rewrite Hrep. intros [Hst|Hst]%elem_of_app; [by eapply Hmem|]. apply elem_of_list_singleton in Hst as ->. by apply Hm.
  Qed.

  (** What is known of the best path found so far. *)
  Definition within (p : path) : Prop := forall limit st k, mem = Some limit -> ssa_replay out p inputs0 (seq 0 n) !! k = Some st -> S k < length p -> volume D st.2 <= limit.
  Definition total (p : path) : nat := sum_list (pair_cost D <$> ssa_replay out p inputs0 (seq 0 n)).
  Record best_ok (st : opt_state) : Prop := BestOk {
    bo_cache : forall k1 k2 v, o_results st !! (k1, k2) = Some v -> fspec k1 k2 v;
    bo_sizes : forall k s, o_sizes st !! k = Some s -> set_size k d = Ok s;
    bo_within : within (o_path st);
    bo_pairs : pairwise (take (length (o_path st) - 1) (o_path st));
    bo_cost : forall f, o_flops st = Some f -> (f = total (o_path st) /\ pairwise (o_path st)) \/
      (exists p0 s last, o_path st = p0 ++ [s] /\ ssa_replay out (o_path st) inputs0 (seq 0 n) = ssa_replay out p0 inputs0 (seq 0 n) ++ [last] /\ f = total p0 + step_cost D last /\
        exists limit k, mem = Some limit /\ limit < volume D k /\ k ⊆ union_all last.1) }.
  Definition fits (k : gset N) : Prop := forall limit, mem = Some limit -> volume D k <= limit.
  (** What is compared: pairs as long as the results fit, and everything in one step where some pair does not. *)
  Inductive cand : list nat -> list (gset N) -> nat -> Prop :=
  | cand_one av inputs : length av = 1 -> cand av inputs 0
  | cand_pair av inputs i j k1 k2 x : i ∈ av -> j ∈ av -> i < j -> inputs !! i = Some k1 -> inputs !! j = Some k2 ->
      fits (merged k1 k2 (union_all (at_ids inputs (filter (.∉ [i; j]) av)))) ->
      cand (filter (.∉ [i; j]) av ++ [length inputs]) (inputs ++ [merged k1 k2 (union_all (at_ids inputs (filter (.∉ [i; j]) av)))]) x ->
      cand av inputs (pair_cost D ([k1; k2], merged k1 k2 (union_all (at_ids inputs (filter (.∉ [i; j]) av)))) + x)
  | cand_over av inputs i j k1 k2 : i ∈ av -> j ∈ av -> i < j -> inputs !! i = Some k1 -> inputs !! j = Some k2 ->
      ~ fits (merged k1 k2 (union_all (at_ids inputs (filter (.∉ [i; j]) av)))) ->
      pair_cost D ([k1; k2], merged k1 k2 (union_all (at_ids inputs (filter (.∉ [i; j]) av)))) <= step_cost D (at_ids inputs av, union_all (at_ids inputs av) ∩ out) ->
      cand av inputs (step_cost D (at_ids inputs av, union_all (at_ids inputs av) ∩ out)).
  (** The same, the first pair given. *)
  Definition cand_from (av : list nat) (inputs : list (gset N)) (i j : nat) (x : nat) : Prop := exists k1 k2, inputs !! i = Some k1 /\ inputs !! j = Some k2 /\
    let k12 := merged k1 k2 (union_all (at_ids inputs (filter (.∉ [i; j]) av))) in
    (fits k12 /\ exists y, cand (filter (.∉ [i; j]) av ++ [length inputs]) (inputs ++ [k12]) y /\ x = pair_cost D ([k1; k2], k12) + y) \/
    (~ fits k12 /\ pair_cost D ([k1; k2], k12) <= x /\ x = step_cost D (at_ids inputs av, union_all (at_ids inputs av) ∩ out)).
  Definition le_inf (a b : option nat) : Prop := forall y, b = Some y -> exists x, a = Some x /\ x <= y.
  Lemma le_inf_refl a : le_inf a a.
  Proof. intros y ->. eauto. Qed.
  Lemma le_inf_trans a b c : le_inf a b -> le_inf b c -> le_inf a c.
  Proof. intros H1 H2 z Hz. destruct (H2 z Hz) as (y & Hy & ?). destruct (H1 y Hy) as (x & Hx & ?). exists x. split; [done|lia]. Qed.
  Definition bound (st : opt_state) (x : nat) : Prop := exists f, o_flops st = Some f /\ f <= x.

  Lemma oversize_cost p av inputs flops over : tracked p av inputs flops -> 1 <= length av -> oversize_flops inputs (list_to_set av) out d = Ok over ->
    over = step_cost D (at_ids inputs av, union_all (at_ids inputs av) ∩ out).
  Proof.
    intros Ht Hlen H. destruct (ap_asc _ _ _ _ _ (tr_prefix _ _ _ _ Ht)) as [Ha Hlt]. unfold oversize_flops in H.
    assert (Hel : elements (list_to_set av : gset nat) ≡ₚ av) by (apply elements_list_to_set; by apply asc_NoDup).
    rewrite get_all_ok in H by by rewrite Hel. cbn [mbind res_bind] in H. destruct (at_ids inputs (elements (list_to_set av : gset nat))) as [|k ks] eqn:E; [done|]. rewrite <-E in H.
    assert (Hu : union_sets (at_ids inputs (elements (list_to_set av : gset nat))) = union_all (at_ids inputs av)).
    { rewrite union_sets_all. apply union_all_perm. by apply at_ids_perm. }
    rewrite Hu in H. rewrite flop_volume in H.
    2: { intros c (x & Hx & Hc)%elem_union_all. apply elem_at_ids in Hx as (i & _ & Hi). destruct (tr_prefix _ _ _ _ Ht) as [_ _ _ Hl]. rewrite Forall_forall in Hl. eapply Hl; [by eapply elem_of_list_lookup_2|done]. }
    apply Ok_inj in H as <-. unfold step_cost. cbn [fst snd]. rewrite size_av by by apply asc_NoDup. rewrite (at_ids_length inputs av Hlt). f_equal. f_equal.
    case_bool_decide as E1; case_decide as E2; simpl; try lia.
    - destruct E2. by apply diff_inter.
    - destruct E1. by apply diff_inter.
  Qed.

  Lemma iterate_best fuel p av inputs flops st st' : tracked p av inputs flops -> 1 <= length av -> best_ok st ->
    optimal_iterate ordI out d mem fuel p (list_to_set av) inputs flops st = Ok st' ->
    lt_inf flops (o_flops st) = true ->
    best_ok st' /\ le_inf (o_flops st') (o_flops st) /\
    (forall x, cand av inputs x -> bound st' (flops + x)).
  Proof.
    revert p av inputs flops st st'. induction fuel as [|fuel IH]; intros p av inputs flops st st' Ht Hlen Hst H Hbetter; [done|]. simpl in H.
    destruct (ap_asc _ _ _ _ _ (tr_prefix _ _ _ _ Ht)) as [Ha Hlt]. rewrite size_av in H by by apply asc_NoDup. destruct (decide (length av = 1)) as [E|E].
    { apply Ok_inj in H as <-. split; [|split].
      - split; simpl; try apply Hst.
        + intros limit s k Hl Hk _. eapply tr_mem; [done|done|by eapply elem_of_list_lookup_2].
        + apply Forall_take, Ht.
        + intros f [= <-]. left. split; [apply Ht|apply Ht].
      - intros y Hy. simpl. rewrite Hy in Hbetter. simpl in Hbetter. exists flops. split; [done|]. lia.
      - intros x _. exists flops. simpl. split; [done|]. lia. }
    assert (Hord : ordI (list_to_set av) ≡ₚ av).
    { rewrite ordI_ok. apply elements_list_to_set. by apply asc_NoDup. }
    set (I := fun (l : list (nat * nat)) (s : opt_state) => best_ok s /\ le_inf (o_flops s) (o_flops st) /\
      (forall i j x, (i, j) ∈ l \/ (j, i) ∈ l -> i < j -> cand_from av inputs i j x -> bound s (flops + x))).
    assert (HI : I (combos2 (ordI (list_to_set av))) st').
    { refine (foldM_inv _ I _ st st' _ _ H); [|split; [done|]; split; [apply le_inf_refl|]].
      2: { intros i j x [Hin|Hin]; by apply elem_of_nil in Hin. }
      clear H st'. intros bef [i0 j0] rest s s' Hl (Hs & Hle & Hb) H.
      assert (Hij : (i0, j0) ∈ combos2 (ordI (list_to_set av))) by (rewrite Hl; apply elem_of_app; right; left).
      apply elem_combos2 in Hij as (Hi0 & Hj0 & Hne0); [|rewrite Hord; by apply asc_NoDup].
      rewrite Hord in Hi0, Hj0. unfold optimal_pair in H.
      assert (Hpair : exists i j, (if (i0, j0).2 <? (i0, j0).1 then ((i0, j0).2, (i0, j0).1) else (i0, j0)) = (i, j) /\ i ∈ av /\ j ∈ av /\ i < j /\
         forall i' j', i' < j' -> (i', j') ∈ [(i0, j0)] \/ (j', i') ∈ [(i0, j0)] -> i' = i /\ j' = j).
      { simpl. destruct (Nat.ltb_spec j0 i0); [exists j0, i0|exists i0, j0]; (split; [done|]); (split; [done|]); (split; [done|]); (split; [lia|]);
        intros i' j' Hlt' [Hx|Hx]; apply elem_of_list_singleton in Hx as [= -> ->]; lia. }
      destruct Hpair as (i & j & Hpe & Hi & Hj & Hlt' & Huniq). rewrite Hpe in H. clear Hpe Hi0 Hj0 Hne0.
      rewrite Forall_forall in Hlt. destruct (lookup_lt_is_Some_2 inputs i (Hlt i Hi)) as [k1 Hk1]. destruct (lookup_lt_is_Some_2 inputs j (Hlt j Hj)) as [k2 Hk2].
      rewrite Hk1, Hk2 in H. cbn [of_opt mbind res_bind] in H.
      set (k12 := merged k1 k2 (union_all (at_ids inputs (filter (.∉ [i; j]) av)))).
      set (c12 := pair_cost D ([k1; k2], k12)).
      destruct (calc_fspec p av inputs flops i j k1 k2 Ht Hi Hj) as (c & Hcalc & Hfs & Hc); [lia|done|done|]. fold k12 in Hcalc, Hfs, Hc.
      assert (Hmemo : exists c', memo (o_results s) (k1, k2) (calc_k12_flops inputs out (list_to_set av) i j d) = Ok ((k12, c12), c') /\
         forall a b v, c' !! (a, b) = Some v -> fspec a b v).
      { unfold memo. destruct (o_results s !! (k1, k2)) as [v|] eqn:Ec.
        - exists (o_results s). split; [|apply Hs]. do 2 f_equal. apply (fspec_unique k1 k2); [by eapply Hs|]. unfold c12. by rewrite <-Hc.
        - rewrite Hcalc. cbn [mbind res_bind]. eexists. split; [unfold c12; by rewrite <-Hc|]. intros a b v. rewrite lookup_insert_Some.
          intros [[[= <- <-] <-]|[_ Hab]]; [done|]. by eapply Hs. }
      destruct Hmemo as (c' & Hmemo & Hc'). rewrite Hmemo in H. cbn [mbind res_bind] in H. simpl in H.
      assert (Hfin : forall s1 : opt_state, best_ok s1 -> le_inf (o_flops s1) (o_flops s) -> (forall x, cand_from av inputs i j x -> bound s1 (flops + x)) -> I (bef ++ [(i0, j0)]) s1).
      { intros s1 H1 H2 H3. split; [done|]. split; [by eapply le_inf_trans|]. intros i' j' x Hin Hlt'' Hx.
        assert (Hcase : ((i', j') ∈ bef \/ (j', i') ∈ bef) \/ ((i', j') ∈ [(i0, j0)] \/ (j', i') ∈ [(i0, j0)])).
        { rewrite !elem_of_app in Hin. tauto. }
        destruct Hcase as [Hdone|Hnew].
        - destruct (Hb i' j' x Hdone Hlt'' Hx) as (f & Hf & Hfle). destruct (H2 f Hf) as (g & Hg & Hgle). exists g. split; [done|lia].
        - destruct (Huniq i' j' Hlt'' Hnew) as [-> ->]. by apply H3. }
      destruct (lt_inf (flops + c12) (o_flops s)) eqn:Elt; simpl in H.
      2: { apply Ok_inj in H as <-. apply Hfin; simpl; [|apply le_inf_refl|].
           - split; simpl; try apply Hs. done.
           - intros x (k1' & k2' & E1 & E2 & Hx). assert (k1' = k1) as -> by congruence. assert (k2' = k2) as -> by congruence. fold k12 in Hx. destruct (o_flops s) as [f|] eqn:Ef; [|done]. simpl in Elt. apply Nat.ltb_ge in Elt.
             exists f. simpl. split; [done|]. destruct Hx as [(_ & y & _ & ->)|(_ & Hc12 & ->)]; [fold c12; lia|fold c12 in Hc12; lia]. }
      assert (Hrec : forall s1, best_ok s1 -> o_flops s1 = o_flops s -> (forall limit, mem = Some limit -> volume D k12 <= limit) ->
         optimal_iterate ordI out d mem fuel (p ++ [[i; j]]) (list_to_set av ∖ {[i; j]} ∪ {[length inputs]}) (inputs ++ [k12]) (flops + c12) s1 = Ok s' -> I (bef ++ [(i0, j0)]) s').
      { intros s1 Hs1 Hfl Hlim Hit. rewrite (remaining_step ordI ordI_ok) in Hit.
        pose proof (filter_length_step ordI ordI_ok av i j (length inputs) (asc_NoDup _ Ha) Hi Hj ltac:(lia)) as Hfl2.
        destruct (IH (p ++ [[i; j]]) (filter (.∉ [i; j]) av ++ [length inputs]) (inputs ++ [k12]) (flops + c12) s1 s') as (G1 & G2 & G3); [|lia|done|done|by rewrite Hfl|].
        - by apply tracked_step.
        - apply Hfin; [done|by rewrite <-Hfl|]. intros x (k1' & k2' & E1 & E2 & Hx). assert (k1' = k1) as -> by congruence. assert (k2' = k2) as -> by congruence. fold k12 in Hx.
          destruct Hx as [(_ & y & Hy & ->)|(Hn & _)]; [|by destruct Hn]. fold c12. destruct (G3 y Hy) as (f & Hf & Hfle). exists f. split; [done|lia]. }
      assert (Hlab12 : labels_in d k12).
      { destruct (tr_prefix _ _ _ _ Ht) as [_ _ _ Hlab]. rewrite Forall_forall in Hlab. intros x Hx. unfold k12, merged in Hx. apply elem_of_intersection in Hx as [Hx _].
        apply elem_of_union in Hx as [Hx|Hx]; eapply Hlab; try exact Hx; by eapply elem_of_list_lookup_2. }
      destruct mem as [limit|] eqn:Emem.
      2: { revert H. apply Hrec; [|done|done]. split; simpl; try apply Hs. done. }
      assert (Hms : exists c2, memo (o_sizes s) k12 (set_size k12 d) = Ok (volume D k12, c2) /\ forall k x, c2 !! k = Some x -> set_size k d = Ok x).
      { unfold memo. pose proof (volume_size d k12 Hlab12) as Hv. destruct (o_sizes s !! k12) as [x|] eqn:Ex.
        - exists (o_sizes s). apply (bo_sizes _ Hs) in Ex as Ex'. split; [congruence|apply Hs].
        - rewrite Hv. cbn [mbind res_bind]. eexists. split; [done|]. intros k x. rewrite lookup_insert_Some. intros [[<- <-]|[_ Hk]]; [done|]. by apply (bo_sizes _ Hs). }
      destruct Hms as (c2 & Hms & Hc2). rewrite Hms in H. cbn [mbind res_bind] in H. destruct (Nat.ltb_spec limit (volume D k12)) as [Hov|Hov].
      2: { revert H. apply Hrec; [|done|]. - split; simpl; try apply Hs; done. - intros limit' [=]. lia. }
      apply bind_Ok in H as (over & Hover & H). simpl in H.
      apply (oversize_cost p av inputs flops over Ht) in Hover; [|lia].
      assert (Hx : forall x, cand_from av inputs i j x -> x = over).
      { intros x (k1' & k2' & E1 & E2 & Hx). assert (k1' = k1) as -> by congruence. assert (k2' = k2) as -> by congruence. fold k12 in Hx.
        destruct Hx as [(Hf & _)|(_ & _ & ->)]; [|done]. specialize (Hf limit Emem). lia. }
      assert (Hsub12 : k12 ⊆ union_all (at_ids inputs av)).
      { intros x Hxc. unfold k12, merged in Hxc. apply elem_of_intersection in Hxc as [Hxc _]. apply elem_union_all.
        apply elem_of_union in Hxc as [Hxc|Hxc]; [exists k1|exists k2]; (split; [|done]); apply elem_at_ids; eauto. }
      destruct (lt_inf (flops + over) (o_flops s)) eqn:Eo; apply Ok_inj in H as <-; (apply Hfin; [|simpl|]).
      - assert (Hrep : ssa_replay out (p ++ [ordI (list_to_set av)]) inputs0 (seq 0 n) = ssa_replay out p inputs0 (seq 0 n) ++ [(at_ids inputs av, union_all (at_ids inputs av) ∩ out)]).
        { rewrite ssa_replay_snoc by (rewrite app_length, fmap_length, ssa_replay_length; done). f_equal. rewrite <-(tr_vals _ _ _ _ Ht), (ap_after _ _ _ _ _ (tr_prefix _ _ _ _ Ht)).
          cbn [ssa_replay]. rewrite (sort_nat_unique _ av Hord), (sort_asc av Ha), (filter_all_out _ av Hord). change (union_all (at_ids inputs [])) with (∅ : gset N). by rewrite (right_id_L ∅ (∪)). }
        split; simpl; try done.
        + intros limit' st1 k Hl' Hk Hkl. rewrite app_length in Hkl. simpl in Hkl.
          rewrite Hrep in Hk.
          rewrite lookup_app_l in Hk by (rewrite ssa_replay_length; lia). eapply (tr_mem _ _ _ _ Ht limit'); [done|by eapply elem_of_list_lookup_2].
        + rewrite app_length. simpl. replace (length p + 1 - 1) with (length p) by lia. rewrite take_app. apply Ht.
        + intros f [= <-]. right. eexists _, _, _. split; [done|]. split; [exact Hrep|]. split; [rewrite Hover; f_equal; apply Ht|]. exists limit, k12. done.
      - intros y Hy. exists (flops + over). split; [done|]. rewrite Hy in Eo. simpl in Eo. lia.
      - intros x ->%Hx. exists (flops + over). simpl. split; [done|lia].
      - split; simpl; try apply Hs; done.
      - apply le_inf_refl.
      - intros x ->%Hx. destruct (o_flops s) as [f|] eqn:Ef; [|done]. simpl in Eo. exists f. simpl. split; [done|]. apply Nat.ltb_ge in Eo. lia. }
    destruct HI as (G1 & G2 & G3). split; [done|]. split; [done|]. intros x Hx. inversion Hx as [? ? Hone|? ? i j k1 k2 y Hi Hj Hij E1 E2 Hf Hy|? ? i j k1 k2 Hi Hj Hij E1 E2 Hf Hle]; subst; [done| |].
    - apply (G3 i j); [apply combos2_elem; [by rewrite Hord|by rewrite Hord|lia]|done|]. exists k1, k2. split; [done|]. split; [done|]. left. split; [done|]. by exists y.
    - apply (G3 i j); [apply combos2_elem; [by rewrite Hord|by rewrite Hord|lia]|done|]. exists k1, k2. split; [done|]. split; [done|]. by right.
  Qed.

  (** Paths of pairs: every result but the last fits, the last as well unless its step costs the same either way it is counted. *)
  Definition searched (q : path) (vals : list (gset N)) (av : list nat) : Prop := forall k st, ssa_replay out q vals av !! k = Some st ->
    fits st.2 \/ (S k = length q /\ step_cost D st = pair_cost D st).
  Lemma searched_cand q : forall inputs av, asc av -> Forall (fun i => i < length inputs) av -> ssa_runs av (length inputs) q -> pairwise q -> searched q inputs av ->
    cand av inputs (sum_list (pair_cost D <$> ssa_replay out q inputs av)).
  Proof.
    induction q as [|s q IH]; intros inputs av Ha Hlt Hq Hpq Hsr; [by apply cand_one|]. apply Forall_cons in Hpq as [Hs2 Hpq].
    destruct s as [|a [|b [|]]]; try done.
    assert (Hab : a <> b) by (destruct Hq as (_ & Hq2 & _); apply NoDup_cons in Hq2 as [Hab _]; intros ->; apply Hab; left).
    assert (Hor : exists i j, [a; b] ≡ₚ [i; j] /\ i < j).
    { destruct (decide (a < b)); [exists a, b; done|]. exists b, a. split; [apply perm_swap|lia]. }
    destruct Hor as (i & j & Hperm & Hij). unfold searched in Hsr. rewrite (ssa_replay_perm out [a; b] [i; j] q inputs av Hperm) in Hsr. change (length ([a; b] :: q)) with (length ([i; j] :: q)) in Hsr.
    rewrite (ssa_replay_perm out [a; b] [i; j] q inputs av Hperm). apply (ssa_runs_perm _ [i; j]) in Hq; [|done]. destruct Hq as (_ & _ & Hin & Hq).
    assert (Hi : i ∈ av) by (apply Hin; set_solver). assert (Hj : j ∈ av) by (apply Hin; set_solver).
    assert (Hlt0 := Hlt). rewrite Forall_forall in Hlt. destruct (lookup_lt_is_Some_2 inputs i (Hlt i Hi)) as [k1 Hk1]. destruct (lookup_lt_is_Some_2 inputs j (Hlt j Hj)) as [k2 Hk2].
    assert (Hstep : ssa_replay out ([i; j] :: q) inputs av = ([k1; k2], merged k1 k2 (union_all (at_ids inputs (filter (.∉ [i; j]) av)))) ::
      ssa_replay out q (inputs ++ [merged k1 k2 (union_all (at_ids inputs (filter (.∉ [i; j]) av)))]) (filter (.∉ [i; j]) av ++ [length inputs])).
    { cbn [ssa_replay]. rewrite sort_pair, (at_ids_two inputs i j k1 k2), union_two by done. done. }
    rewrite Hstep in *. rewrite fmap_cons. change (sum_list (?x :: ?l)) with (x + sum_list l). set (k12 := merged k1 k2 (union_all (at_ids inputs (filter (.∉ [i; j]) av)))) in *.
    destruct (Hsr 0 ([k1; k2], k12) eq_refl) as [Hf|[Hl1 Hl2]].
    - apply cand_pair; try done. fold k12. apply IH; [by apply filter_step_asc|rewrite app_length; simpl; rewrite Nat.add_1_r; by apply filter_step_lt|rewrite app_length; simpl; by rewrite Nat.add_1_r|done|].
      intros k st Hk. destruct (Hsr (S k) st Hk) as [?|[? ?]]; [by left|right; simpl in *; split; [lia|done]].
    - assert (q = []) as -> by (destruct q; [done|simpl in Hl1; lia]).
      assert (Hnil : filter (.∉ [i; j]) av = []).
      { pose proof (filter_length_step ordI ordI_ok av i j (length inputs) (asc_NoDup _ Ha) Hi Hj ltac:(lia)) as Hfl2. simpl in Hq. rewrite app_length in Hfl2, Hq. simpl in Hq, Hfl2. apply nil_length_inv. lia. }
      assert (Hperm2 : at_ids inputs av ≡ₚ [k1; k2]).
      { rewrite <-(at_ids_two inputs i j k1 k2) by done. apply at_ids_perm. rewrite (av_split av i j) at 1; [|by apply asc_NoDup|done|done|lia]. by rewrite Hnil, app_nil_r. }
      assert (Hover : step_cost D (at_ids inputs av, union_all (at_ids inputs av) ∩ out) = pair_cost D ([k1; k2], k12)).
      { rewrite <-Hl2. apply step_cost_perm; [done|]. cbn [snd]. rewrite (union_all_perm _ _ Hperm2), union_two. unfold k12, merged. rewrite Hnil. change (union_all (at_ids inputs [])) with (∅ : gset N). by rewrite (right_id_L ∅ (∪)). }
      change (sum_list (_ <$> ssa_replay out [] _ _)) with 0. assert (Hdec : fits k12 \/ ~ fits k12).
      { destruct mem as [limit|] eqn:Em; [|left; intros l E; congruence]. destruct (decide (volume D k12 <= limit)) as [Hy|Hn]; [left; intros l E; congruence|right; intros Hf; by apply Hn, Hf]. }
      destruct Hdec as [Hy|Hn].
      + apply cand_pair; try done. apply cand_one. by rewrite Hnil.
      + rewrite Nat.add_0_r, <-Hover. eapply (cand_over av inputs i j k1 k2); try done. fold k12. lia.
  Qed.
End Best.

Lemma sum_pairs_app (l k : list nat) : sum_list (l ++ k) = sum_list l + sum_list k.
Proof. induction l; simpl; lia. Qed.

(** The whole search. *)
Lemma optimal_ssa_best ordI inputs out d mem st : (forall s, ordI s ≡ₚ elements s) -> inputs <> [] -> Forall (labels_in d) inputs ->
  (forall c, occurrences out inputs c <= 2) -> optimal_ssa ordI inputs out d mem = Ok st ->
  best_ok out d mem inputs st /\
  (forall x, cand out d mem (seq 0 (length inputs)) inputs x -> exists f, o_flops st = Some f /\ f <= x).
Proof.
  intros Ho Hne Hd H2 H. unfold optimal_ssa, range_set in H.
  destruct (iterate_best ordI Ho out d mem inputs H2 (S (length inputs)) [] (seq 0 (length inputs)) inputs 0 (OptState None [seq 0 (length inputs)] ∅ ∅) st) as (H1 & _ & H3).
  - split; simpl; [by apply at_start|by rewrite app_nil_r|intros c _; by rewrite at_ids_seq|done|done|intros limit s _ Hs; by apply elem_of_nil in Hs].
  - rewrite seq_length. destruct inputs; [done|simpl; lia].
  - split; simpl; [intros k1 k2 v; by rewrite lookup_empty|intros k s; by rewrite lookup_empty| |done|done]. intros limit s k _ _. simpl. lia.
  - done.
  - done.
  - split; [done|]. intros x Hx. destruct (H3 x Hx) as (f & Hf & Hle). simpl in Hle. by exists f.
Qed.
Lemma optimal_ssa_pairs ordI inputs out d mem st : (forall s, ordI s ≡ₚ elements s) -> inputs <> [] -> Forall (labels_in d) inputs ->
  (forall c, occurrences out inputs c <= 2) -> optimal_ssa ordI inputs out d mem = Ok st ->
  forall q, ssa_complete (length inputs) q -> pairwise q -> searched out d mem q inputs (seq 0 (length inputs)) -> exists f, o_flops st = Some f /\ f <= total out d inputs q.
Proof.
  intros Ho Hne Hd H2 H q Hq Hpq Hsr. destruct (optimal_ssa_best ordI inputs out d mem st Ho Hne Hd H2 H) as [_ Hb]. apply Hb. unfold total.
  apply (searched_cand ordI Ho) with (inputs0 := inputs); try done; [apply asc_seq|apply seq_lt].
Qed.

(** A linear path and its SSA form replay the same. *)
Lemma linear_as_ssa out (sets : list (gset N)) p : path_runs (length sets) p -> exists sp, ssa_complete (length sets) sp /\ length <$> sp = length <$> p /\
  replay out p sets = ssa_replay out sp sets (seq 0 (length sets)).
Proof.
  intros H. destruct (linear_ssa_linear _ _ H) as (sp & _ & Hc & Hl & Hlen). exists sp. split; [done|]. split; [done|].
  rewrite <-(ssa_replay_ok out sp (sort_nat <$> p) sets Hc Hl). clear.
  revert sets. induction p as [|s p IH]; intros sets; [done|]. rewrite fmap_cons. cbn [replay].
  assert (Hch : chosen (sort_nat s) sets = chosen s sets).
  { unfold chosen. f_equal. apply list_filter_iff. intros x. by rewrite elem_sort_nat. }
  assert (Hot : others (sort_nat s) sets = others s sets).
  { unfold others. f_equal. apply list_filter_iff. intros x. by rewrite elem_sort_nat. }
  unfold kept. rewrite Hch, Hot. f_equal. apply IH.
Qed.
Lemma pairwise_lengths (p q : path) : length <$> p = length <$> q -> pairwise p -> pairwise q.
Proof.
  revert q. induction p as [|s p IH]; intros q H Hp; destruct q as [|t q]; try done. rewrite !fmap_cons in H. injection H as Hs Ht.
  apply Forall_cons in Hp as [H1 H2]. apply Forall_cons. split; [congruence|by apply IH].
Qed.
Lemma s2l_loop_lengths next ids p lp : s2l_loop next ids p = Ok lp -> length <$> lp = length <$> p.
Proof.
  revert next ids lp. induction p as [|s p IH]; intros next ids lp H; simpl in H; [by apply Ok_inj in H as <-|].
  apply bind_Ok in H as ([tmp ids'] & _ & H). apply bind_Ok in H as (lp' & Hlp & H). apply Ok_inj in H as <-. rewrite !fmap_cons. f_equal; [|by eapply IH].
  by rewrite sort_nat_perm, fmap_length.
Qed.
Lemma ssa_to_linear_lengths p lp : ssa_to_linear p = Ok lp -> length <$> lp = length <$> p.
Proof. unfold ssa_to_linear. apply s2l_loop_lengths. Qed.

(** With each label in exactly two places the two ways of counting agree along every pairwise path. *)
Section Twice.
  Variables (out : gset N) (d : sizes) (inputs0 : list (gset N)).
  Hypothesis twice : forall c, c ∈ union_all inputs0 -> occurrences out inputs0 c = 2.
  Hypothesis most : forall c, occurrences out inputs0 c <= 2.
  Lemma pair_step_cost q vals av : asc av -> Forall (fun i => i < length vals) av -> count_inv out inputs0 vals av ->
    Forall (fun k => k ⊆ union_all inputs0) vals -> ssa_valid av (length vals) q -> pairwise q ->
    step_cost (size_of d) <$> ssa_replay out q vals av = pair_cost (size_of d) <$> ssa_replay out q vals av.
  Proof.
    revert vals av. induction q as [|s q IH]; intros vals av Ha Hlt Hinv Hsub Hr Hp; [done|]. apply Forall_cons in Hp as [Hs Hp].
    destruct s as [|a [|b [|]]]; try done.
    assert (Hab : a <> b) by (destruct Hr as (_ & Hr & _); apply NoDup_cons in Hr as [Hr _]; set_solver).
    assert (Hor : exists i j, [a; b] ≡ₚ [i; j] /\ i < j).
    { destruct (decide (a < b)); [exists a, b; done|]. exists b, a. split; [apply perm_swap|lia]. }
    destruct Hor as (i & j & Hperm & Hij). rewrite (ssa_replay_perm out [a; b] [i; j] q vals av Hperm).
    apply (ssa_valid_perm _ [i; j]) in Hr; [|done]. destruct Hr as (_ & _ & Hin & Hr).
    assert (Hi : i ∈ av) by (apply Hin; set_solver). assert (Hj : j ∈ av) by (apply Hin; set_solver).
    assert (Hlt0 := Hlt). rewrite Forall_forall in Hlt. destruct (lookup_lt_is_Some_2 vals i (Hlt i Hi)) as [k1 Hk1]. destruct (lookup_lt_is_Some_2 vals j (Hlt j Hj)) as [k2 Hk2].
    cbn [ssa_replay]. rewrite sort_pair, (at_ids_two vals i j k1 k2), union_two by done.
    set (k12 := (k1 ∪ k2) ∩ (out ∪ union_all (at_ids vals (filter (.∉ [i; j]) av)))). rewrite !fmap_cons.
    assert (Hk : k1 ⊆ union_all inputs0 /\ k2 ⊆ union_all inputs0).
    { rewrite Forall_forall in Hsub. split; apply Hsub; by eapply elem_of_list_lookup_2. }
    assert (Helem := fun c => merge_elem out inputs0 most vals av i j k1 k2 Ha Hlt0 Hi Hj ltac:(lia) Hk1 Hk2 Hinv c). fold (merged out k1 k2 (union_all (at_ids vals (filter (.∉ [i; j]) av)))) in k12.
    fold k12 in Helem. f_equal.
    - unfold step_cost, pair_cost. cbn [fst snd length]. rewrite union_two. f_equal. simpl. f_equal.
      case_decide as E1; case_decide as E2; try done.
      + destruct E2. rewrite E1. set_solver.
      + destruct E1. apply set_eq. intros c. rewrite Helem. split; [tauto|]. intros Hc. split; [done|]. split; [|apply twice; set_solver].
        intros [Hc1 Hc2]. assert (Hc12 : c ∈ k12) by (apply E2; set_solver). apply Helem in Hc12. tauto.
    - apply IH.
      + by apply filter_step_asc.
      + rewrite app_length. simpl. rewrite Nat.add_1_r. by apply filter_step_lt.
      + eapply (merge_inv out inputs0 most vals av i j k1 k2); try done. lia.
      + apply Forall_app. split; [done|]. constructor; [|done]. unfold k12, merged. set_solver.
      + rewrite app_length. simpl. by rewrite Nat.add_1_r.
      + done.
  Qed.
End Twice.

Section Final.
  Variable ordI : gset nat -> list nat.
  Hypothesis Ho : forall s, ordI s ≡ₚ elements s.
  Variables (inputs : list (gset N)) (out : gset N) (d : sizes).
  Hypothesis Hne : inputs <> [].
  Hypothesis Hd : Forall (labels_in d) inputs.
  Hypothesis H2 : forall c, occurrences out inputs c <= 2.
  Lemma optimal_pair_best p q : optimal ordI inputs out d None = Ok p -> path_runs (length inputs) q -> pairwise q ->
    pairwise p /\ sum_list (pair_cost (size_of d) <$> replay out p inputs) <= sum_list (pair_cost (size_of d) <$> replay out q inputs).
  Proof.
    intros H Hq Hpq. unfold optimal in H. apply bind_Ok in H as (st & Hst & H).
    destruct (optimal_ssa_ok ordI inputs out d None Ho Hne Hd) as (st' & Hst' & Hc). assert (st' = st) as -> by congruence.
    destruct (optimal_ssa_best ordI inputs out d None st Ho Hne Hd H2 Hst) as [Hbo Hb].
    destruct (linear_as_ssa out inputs q Hq) as (sq & Hsq & Hlq & ->).
    destruct (optimal_ssa_pairs ordI inputs out d None st Ho Hne Hd H2 Hst sq Hsq) as (f & Hf & Hle); [by eapply pairwise_lengths|by left|].
    destruct (bo_cost _ _ _ _ _ Hbo f Hf) as [[-> Hp]|(? & ? & ? & _ & _ & _ & ? & ? & ? & _)]; [|done].
    split; [eapply pairwise_lengths; [|exact Hp]; symmetry; by eapply ssa_to_linear_lengths|].
    by rewrite (ssa_replay_ok out _ p inputs Hc H).
  Qed.
  Lemma start_inv : count_inv out inputs inputs (seq 0 (length inputs)).
  Proof. intros c _. by rewrite at_ids_seq. Qed.
  Lemma valid_costs r : (forall c, c ∈ union_all inputs -> occurrences out inputs c = 2) -> ssa_valid (seq 0 (length inputs)) (length inputs) r -> pairwise r ->
    step_cost (size_of d) <$> ssa_replay out r inputs (seq 0 (length inputs)) = pair_cost (size_of d) <$> ssa_replay out r inputs (seq 0 (length inputs)).
  Proof.
    intros Htw Hr Hpr. apply (pair_step_cost out d inputs Htw H2); try done.
    - apply asc_seq.
    - apply seq_lt.
    - apply start_inv.
    - apply Forall_forall. intros k Hk c Hc. apply elem_union_all. eauto.
  Qed.
  (** The two ways of counting agree if each label is in two places. *)
  Lemma costs_agree r : (forall c, c ∈ union_all inputs -> occurrences out inputs c = 2) -> path_runs (length inputs) r -> pairwise r ->
    step_cost (size_of d) <$> replay out r inputs = pair_cost (size_of d) <$> replay out r inputs.
  Proof.
    intros Htw Hr Hpr. destruct (linear_as_ssa out inputs r Hr) as (sr & Hsr & Hlr & ->). apply ssa_runs_valid in Hsr as [Hsr _].
    apply valid_costs; [done|done|]. by eapply pairwise_lengths.
  Qed.
  Lemma optimal_step_best p q : (forall c, c ∈ union_all inputs -> occurrences out inputs c = 2) ->
    optimal ordI inputs out d None = Ok p -> path_runs (length inputs) q -> pairwise q ->
    pairwise p /\ sum_list (step_cost (size_of d) <$> replay out p inputs) <= sum_list (step_cost (size_of d) <$> replay out q inputs).
  Proof.
    intros Htw H Hq Hpq. destruct (optimal_pair_best p q H Hq Hpq) as [Hp Hle]. split; [done|].
    destruct (optimal_complete ordI inputs out d None Ho Hne Hd) as (p' & Hp' & Hr). assert (p' = p) as -> by congruence.
    by rewrite !costs_agree.
  Qed.
  (** With a limit: against the paths that keep it until the last step. *)
  Lemma optimal_limit_best limit p q : (forall c, c ∈ union_all inputs -> occurrences out inputs c = 2) ->
    optimal ordI inputs out d (Some limit) = Ok p -> path_runs (length inputs) q -> pairwise q ->
    (forall k st, replay out q inputs !! k = Some st -> S k < length q -> volume (size_of d) st.2 <= limit) ->
    sum_list (step_cost (size_of d) <$> replay out p inputs) <= sum_list (step_cost (size_of d) <$> replay out q inputs).
  Proof.
    intros Htw H Hq Hpq Hlim. unfold optimal in H. apply bind_Ok in H as (st & Hst & H).
    destruct (optimal_ssa_ok ordI inputs out d (Some limit) Ho Hne Hd) as (st' & Hst' & Hc). assert (st' = st) as -> by congruence.
    destruct (optimal_ssa_best ordI inputs out d (Some limit) st Ho Hne Hd H2 Hst) as [Hbo Hb].
    pose proof (costs_agree q Htw Hq Hpq) as Hag. destruct (linear_as_ssa out inputs q Hq) as (sq & Hsq & Hlq & Erep). rewrite Erep in Hag, Hlim.
    assert (Hps : pairwise sq) by (by eapply pairwise_lengths). pose proof (f_equal length Hlq) as Hll. rewrite !fmap_length in Hll.
    destruct (optimal_ssa_pairs ordI inputs out d (Some limit) st Ho Hne Hd H2 Hst sq Hsq Hps) as (f & Hf & Hle).
    { intros k s Hk. pose proof (lookup_lt_Some _ _ _ Hk) as Hkl. rewrite ssa_replay_length in Hkl. destruct (decide (S k < length sq)) as [Hlt|Hge].
      - left. intros limit' [= <-]. apply (Hlim k s Hk). lia.
      - right. split; [lia|]. apply (f_equal (fun l => l !! k)) in Hag. rewrite !list_lookup_fmap, Hk in Hag. by injection Hag. }
    rewrite Erep, Hag. etrans; [|exact Hle]. rewrite (ssa_replay_ok out _ p inputs Hc H).
    assert (Hrp : path_runs (length inputs) p). { destruct (optimal_complete ordI inputs out d (Some limit) Ho Hne Hd) as (p' & Hp' & Hr'). unfold optimal in Hp'. rewrite Hst in Hp'. cbn [mbind res_bind] in Hp'. congruence. }
    destruct (bo_cost _ _ _ _ _ Hbo f Hf) as [[-> Hp]|(p0 & s0 & last & Ep & Er & -> & _)].
    - assert (Hpp : pairwise p) by (eapply pairwise_lengths; [|exact Hp]; symmetry; by eapply ssa_to_linear_lengths).
      pose proof (costs_agree p Htw Hrp Hpp) as Hag2. rewrite (ssa_replay_ok out _ p inputs Hc H) in Hag2. rewrite Hag2. done.
    - rewrite Er, fmap_app, sum_pairs_app. simpl. unfold total. rewrite Nat.add_0_r. apply Nat.add_le_mono_r.
      apply Nat.eq_le_incl. f_equal. apply valid_costs; [done| |].
      { apply ssa_runs_valid in Hc as [Hc _]. rewrite Ep in Hc. by apply ssa_valid_snoc in Hc as [? _]. }
      pose proof (bo_pairs _ _ _ _ _ Hbo) as Hpre. rewrite Ep, app_length in Hpre. simpl in Hpre. replace (length p0 + 1 - 1) with (length p0) in Hpre by lia. by rewrite take_app in Hpre.
  Qed.
  Lemma optimal_within limit p k st : optimal ordI inputs out d (Some limit) = Ok p -> replay out p inputs !! k = Some st -> S k < length p ->
    length st.1 = 2 /\ volume (size_of d) st.2 <= limit.
  Proof.
    intros H Hk Hlt. unfold optimal in H. apply bind_Ok in H as (s & Hst & H).
    destruct (optimal_ssa_ok ordI inputs out d (Some limit) Ho Hne Hd) as (s' & Hst' & Hc). assert (s' = s) as -> by congruence.
    destruct (optimal_ssa_best ordI inputs out d (Some limit) s Ho Hne Hd H2 Hst) as [Hb _].
    rewrite (ssa_replay_ok out _ p inputs Hc H) in Hk. assert (Hl := ssa_to_linear_lengths _ _ H). apply (f_equal length) in Hl. rewrite !fmap_length in Hl.
    split; [|eapply (bo_within _ _ _ _ _ Hb); [done|exact Hk|lia]].
    assert (Hin : o_path s !! k = None \/ exists t, o_path s !! k = Some t /\ length t = 2).
    { destruct (o_path s !! k) as [t|] eqn:E; [right|by left]. exists t. split; [done|]. pose proof (bo_pairs _ _ _ _ _ Hb) as Hp. rewrite Forall_lookup in Hp.
      apply (Hp k). rewrite lookup_take by lia. done. }
    destruct Hin as [Hn|(t & Ht & Hl2)]; [apply lookup_ge_None in Hn; lia|].
    assert (Hgen : forall pp vals av, ssa_valid av (length vals) pp -> Forall (fun i => i < length vals) av -> forall k t st, pp !! k = Some t -> ssa_replay out pp vals av !! k = Some st -> length st.1 = length t).
    { clear. induction pp as [|s0 pp IH]; intros vals av Hv Hlt k t st Hk Hr; [done|]. cbn [ssa_replay] in Hr. destruct Hv as (_ & Hnd & Hin & Hv).
      destruct k as [|k]; simpl in Hk, Hr.
      - injection Hk as ->. injection Hr as <-. simpl. rewrite <-(sort_nat_perm t) at 2.
        assert (Hall : Forall (fun i => i < length vals) (sort_nat t)).
        { rewrite Forall_forall in *. intros x Hx. rewrite elem_sort_nat in Hx. by apply Hlt, Hin. }
        clear -Hall. revert Hall. generalize (sort_nat t). induction 1 as [|i l Hi _ IH]; [done|]. unfold at_ids in *. simpl. destruct (lookup_lt_is_Some_2 vals i Hi) as [x ->]. simpl. f_equal. exact IH.
      - eapply IH; [| |exact Hk|exact Hr]; rewrite app_length; simpl; rewrite Nat.add_1_r; [done|by apply filter_step_lt]. }
    rewrite <-Hl2. eapply Hgen; [|apply seq_lt|exact Ht|exact Hk]. apply ssa_runs_valid in Hc. apply Hc.
  Qed.
End Final.
