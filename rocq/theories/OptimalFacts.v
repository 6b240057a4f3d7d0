(** [optimal] returns complete paths. *)
From Verif Require Import Prelude Einsum EinsumFacts Helpers Contract Spec PathSpec StringFacts StepFacts ContractFacts PathFacts Ssa SsaSpec SsaFacts SsaMore Optimal.

Lemma elem_combos2 {A} (l : list A) i j : NoDup l -> (i, j) ∈ combos2 l -> i ∈ l /\ j ∈ l /\ i <> j.
Proof.
  induction 1 as [|x l Hx Hnd IH]; simpl; [by intros ?%elem_of_nil|]. intros [H|H]%elem_of_app.
  - apply elem_of_list_fmap in H as (y & [= -> ->] & Hy). split; [left|]. split; [by right|]. by intros ->.
  - apply IH in H as (? & ? & ?). split; [by right|]. split; [by right|done].
Qed.
Lemma combos2_elem {A} (l : list A) i j : i ∈ l -> j ∈ l -> i <> j -> (i, j) ∈ combos2 l \/ (j, i) ∈ combos2 l.
Proof.
  induction l as [|x l IH]; [by intros ?%elem_of_nil|]. intros Hi Hj Hne. simpl. rewrite !elem_of_app.
  apply elem_of_cons in Hi as [->|Hi]; apply elem_of_cons in Hj as [->|Hj]; [done|..].
  - left. left. apply elem_of_list_fmap. eauto.
  - right. left. apply elem_of_list_fmap. eauto.
  - destruct (IH Hi Hj Hne); auto.
Qed.

Definition labels_in (d : sizes) (k : gset N) : Prop := forall c, c ∈ k -> is_Some (d !! c).
Lemma set_size_ok d k : labels_in d k -> exists n, set_size k d = Ok n.
Proof. intros H. unfold set_size. rewrite compute_size_ok; [eauto|]. intros c Hc%elem_of_elements. by apply H. Qed.
Lemma flop_count_ok d k b n : labels_in d k -> exists c, flop_count (elements k) b n d = Ok c.
Proof.
  intros H. unfold flop_count. destruct (set_size_ok d k H) as [m Hm]. unfold set_size in Hm. rewrite Hm. simpl. eauto.
Qed.
Lemma get_all_ok inputs l : Forall (fun i => i < length inputs) l -> get_all inputs l = Ok (at_ids inputs l).
Proof.
  unfold get_all, at_ids. induction 1 as [|i l Hi _ IH]; [done|]. simpl. destruct (lookup_lt_is_Some_2 inputs i Hi) as [x ->]. simpl. by rewrite IH.
Qed.
Lemma elem_at_ids vals l k : k ∈ at_ids vals l <-> exists i, i ∈ l /\ vals !! i = Some k.
Proof. unfold at_ids. rewrite elem_of_list_omap. done. Qed.
Lemma union_sets_all l : union_sets l = union_all l.
Proof. by apply union_sets_perm. Qed.

Section Ok.
  Variable ordI : gset nat -> list nat.
  Hypothesis ordI_ok : forall s, ordI s ≡ₚ elements s.
  Variables (output : gset N) (d : sizes) (mem : option nat).
  Variable n : nat.

  (** The search is at a valid prefix. *)
  Record at_prefix (p : path) (av : list nat) (inputs : list (gset N)) : Prop := AtPrefix {
    ap_valid : ssa_valid (seq 0 n) n p; ap_after : ssa_after (seq 0 n) n p = av;
    ap_len : length inputs = n + length p; ap_labels : Forall (labels_in d) inputs }.
  Lemma ap_asc p av inputs : at_prefix p av inputs -> asc av /\ Forall (fun i => i < length inputs) av.
  Proof. intros [_ <- -> _]. apply ssa_after_asc; [apply asc_seq|apply seq_lt]. Qed.
  Lemma ap_step p av inputs i j k : at_prefix p av inputs -> i ∈ av -> j ∈ av -> i <> j -> labels_in d k ->
    at_prefix (p ++ [[i; j]]) (filter (.∉ [i; j]) av ++ [length inputs]) (inputs ++ [k]).
  Proof.
    intros [Hv Ha Hl Hlab] Hi Hj Hne Hk. split.
    - apply ssa_valid_snoc. rewrite Ha. split; [done|]. split; [done|]. split; [|set_solver]. apply NoDup_cons. split; [set_solver|apply NoDup_singleton].
    - rewrite ssa_after_snoc, Ha. by rewrite Hl.
    - rewrite !app_length. simpl. lia.
    - apply Forall_app. split; [done|]. by repeat constructor.
  Qed.
  Lemma filter_length_step (av : list nat) i j k : NoDup av -> i ∈ av -> j ∈ av -> i <> j -> S (length (filter (.∉ [i; j]) av ++ [k])) = length av.
  Proof.
    intros Hnd Hi Hj Hne. rewrite app_length. simpl.
    assert (Hp : filter (.∉ [i; j]) av ++ [i; j] ≡ₚ av).
    { apply NoDup_Permutation; [|done|].
      - apply NoDup_app. split; [by apply NoDup_filter|]. split; [intros x Hx%elem_of_list_filter; naive_solver|].
        apply NoDup_cons. split; [set_solver|apply NoDup_singleton].
      - intros x. rewrite elem_of_app, elem_of_list_filter. destruct (decide (x ∈ [i; j])) as [Hx|Hx]; [|naive_solver].
        split; [|naive_solver]. intros _. set_solver. }
    apply Permutation_length in Hp. rewrite app_length in Hp. simpl in Hp. lia.
  Qed.
  Lemma remaining_step (av : list nat) i j k :
    (list_to_set av : gset nat) ∖ {[i; j]} ∪ {[k]} = list_to_set (filter (.∉ [i; j]) av ++ [k]).
  Proof.
    apply set_eq. intros x. rewrite list_to_set_app. rewrite !elem_of_union, elem_of_difference, !elem_of_list_to_set, elem_of_list_filter. set_solver.
  Qed.
  Lemma size_av (av : list nat) : NoDup av -> size (list_to_set av : gset nat) = length av.
  Proof. apply size_list_to_set. Qed.

  Lemma complete_one p av inputs : at_prefix p av inputs -> length av = 1 -> ssa_complete n p.
  Proof. intros [Hv <- _ _] H. by apply ssa_runs_valid. Qed.
  (** Contracting everything that is left completes the path. *)
  Lemma complete_all_left p av inputs s : at_prefix p av inputs -> av <> [] -> s ≡ₚ av -> ssa_complete n (p ++ [s]).
  Proof.
    intros Hap Hne Hs. destruct (ap_asc _ _ _ Hap) as [Ha _]. destruct Hap as [Hv Haf _ _]. apply ssa_runs_valid. rewrite ssa_valid_snoc, ssa_after_snoc, Haf. split.
    - split; [done|]. split; [intros ->; by apply Permutation_nil in Hs|]. split; [rewrite Hs; by apply asc_NoDup|]. intros i. by rewrite Hs.
    - rewrite app_length. simpl. assert (Hf : filter (.∉ s) av = []); [|by rewrite Hf].
      apply elem_of_nil_inv. intros x [Hx Hin]%elem_of_list_filter. apply Hx. by rewrite Hs.
  Qed.

  Lemma calc_ok p av inputs i j k1 k2 : at_prefix p av inputs -> i ∈ av -> j ∈ av -> inputs !! i = Some k1 -> inputs !! j = Some k2 ->
    exists c, calc_k12_flops inputs output (list_to_set av) i j d =
      Ok ((k1 ∪ k2) ∩ (output ∪ union_all (at_ids inputs (filter (.∉ [i; j]) av))), c) /\
      flop_count (elements (k1 ∪ k2)) (negb (bool_decide ((k1 ∩ k2) ∖ (output ∪ union_all (at_ids inputs (filter (.∉ [i; j]) av))) = ∅))) 2 d = Ok c.
  Proof.
    intros Hap Hi Hj Hk1 Hk2. destruct (ap_asc _ _ _ Hap) as [Ha Hlt]. unfold calc_k12_flops. rewrite Hk1, Hk2. cbn [of_opt mbind res_bind].
    assert (Hsub : forall x, x ∈ elements ((list_to_set av : gset nat) ∖ {[i; j]}) <-> x ∈ filter (.∉ [i; j]) av).
    { intros x. rewrite elem_of_elements, elem_of_difference, elem_of_list_to_set, elem_of_list_filter. set_solver. }
    rewrite get_all_ok by (rewrite Forall_forall in *; intros x [_ Hx]%Hsub%elem_of_list_filter; by apply Hlt). cbn [mbind res_bind].
    assert (Hu : union_sets (at_ids inputs (elements ((list_to_set av : gset nat) ∖ {[i; j]}))) = union_all (at_ids inputs (filter (.∉ [i; j]) av))).
    { rewrite union_sets_all. apply set_eq. intros c. rewrite !elem_union_all. setoid_rewrite elem_at_ids. by setoid_rewrite Hsub. }
    rewrite Hu. destruct Hap as [_ _ _ Hlab]. rewrite Forall_forall in Hlab.
    destruct (flop_count_ok d (k1 ∪ k2) (negb (bool_decide ((k1 ∩ k2) ∖ (output ∪ union_all (at_ids inputs (filter (.∉ [i; j]) av))) = ∅))) 2) as [c Hc].
    { intros c [Hc|Hc]%elem_of_union; eapply Hlab; try exact Hc; by eapply elem_of_list_lookup_2. }
    rewrite Hc. eauto.
  Qed.
  Lemma oversize_ok p av inputs : at_prefix p av inputs -> av <> [] ->
    exists c, oversize_flops inputs (list_to_set av) output d = Ok c.
  Proof.
    intros Hap Hne. destruct (ap_asc _ _ _ Hap) as [Ha Hlt]. unfold oversize_flops.
    assert (Hsub : forall x, x ∈ elements (list_to_set av : gset nat) <-> x ∈ av) by (intros x; by rewrite elem_of_elements, elem_of_list_to_set).
    rewrite get_all_ok by (rewrite Forall_forall in *; intros x Hx%Hsub; by apply Hlt). cbn [mbind res_bind].
    destruct (at_ids inputs (elements (list_to_set av : gset nat))) as [|k ks] eqn:E.
    { destruct av as [|x av]; [done|]. rewrite Forall_forall in Hlt. destruct (lookup_lt_is_Some_2 inputs x) as [k Hk]; [apply Hlt; left|].
      assert (Hin : k ∈ at_ids inputs (elements (list_to_set (x :: av) : gset nat))) by (apply elem_at_ids; exists x; split; [apply Hsub; left|done]).
      rewrite E in Hin. by apply elem_of_nil in Hin. }
    apply flop_count_ok. intros c Hc. rewrite union_sets_all, elem_union_all in Hc. destruct Hc as (s & Hs & Hc). rewrite <-E in Hs.
    apply elem_at_ids in Hs as (i & _ & Hi). apply elem_of_list_lookup_2 in Hi. destruct Hap as [_ _ _ Hlab]. rewrite Forall_forall in Hlab. by eapply Hlab.
  Qed.

  Definition cache_ok (c : gmap (gset N * gset N) (gset N * nat)) : Prop :=
    forall k1 k2 k12 f, c !! (k1, k2) = Some (k12, f) -> k12 ⊆ k1 ∪ k2.
  Definition st_ok (st : opt_state) : Prop := ssa_complete n (o_path st) /\ cache_ok (o_results st).

  Lemma optimal_iterate_ok fuel p av inputs flops st : at_prefix p av inputs -> 1 <= length av -> length av <= fuel -> st_ok st ->
    exists st', optimal_iterate ordI output d mem fuel p (list_to_set av) inputs flops st = Ok st' /\ st_ok st'.
  Proof.
    revert p av inputs flops st. induction fuel as [|fuel IH]; intros p av inputs flops st Hap H1 Hf Hst; [lia|]. simpl.
    destruct (ap_asc _ _ _ Hap) as [Ha Hlt]. rewrite size_av by by apply asc_NoDup. destruct (decide (length av = 1)) as [E|E].
    { eexists. split; [done|]. split; [|apply Hst]. simpl. by eapply complete_one. }
    assert (Hord : ordI (list_to_set av) ≡ₚ av).
    { rewrite ordI_ok. apply elements_list_to_set. by apply asc_NoDup. }
    apply (foldM_total _ st_ok); [|done]. intros s [i0 j0] Hs Hij. apply elem_combos2 in Hij as (Hi0 & Hj0 & Hne0); [|rewrite Hord; by apply asc_NoDup].
    rewrite Hord in Hi0, Hj0. unfold optimal_pair.
    assert (Hpair : exists i j, (if (i0, j0).2 <? (i0, j0).1 then ((i0, j0).2, (i0, j0).1) else (i0, j0)) = (i, j) /\ i ∈ av /\ j ∈ av /\ i <> j).
    { simpl. destruct (j0 <? i0); [exists j0, i0|exists i0, j0]; auto. }
    destruct Hpair as (i & j & -> & Hi & Hj & Hne). clear i0 j0 Hi0 Hj0 Hne0.
    rewrite Forall_forall in Hlt. destruct (lookup_lt_is_Some_2 inputs i (Hlt i Hi)) as [k1 Hk1]. destruct (lookup_lt_is_Some_2 inputs j (Hlt j Hj)) as [k2 Hk2].
    rewrite Hk1, Hk2. cbn [of_opt mbind res_bind].
    assert (Hmemo : exists k12 f12 c', memo (o_results s) (k1, k2) (calc_k12_flops inputs output (list_to_set av) i j d) = Ok ((k12, f12), c') /\ k12 ⊆ k1 ∪ k2 /\ cache_ok c').
    { unfold memo. destruct (o_results s !! (k1, k2)) as [[k12 f12]|] eqn:Ec.
      - exists k12, f12, (o_results s). split; [done|]. split; [|apply Hs]. eapply Hs. exact Ec.
      - destruct (calc_ok p av inputs i j k1 k2 Hap Hi Hj Hk1 Hk2) as (c & -> & _). cbn [mbind res_bind]. eexists _, _, _. split; [done|]. split; [set_solver|].
        intros a b k f. rewrite lookup_insert_Some. intros [[[= <- <-] [= <- <-]]|[_ Hab]]; [set_solver|]. by eapply Hs. }
    destruct Hmemo as (k12 & f12 & c' & -> & Hk12 & Hc'). cbn [mbind res_bind]. simpl.
    assert (Hlab12 : labels_in d k12).
    { intros c Hc. apply Hk12 in Hc. destruct Hap as [_ _ _ Hlab]. rewrite Forall_forall in Hlab. apply elem_of_union in Hc as [Hc|Hc]; eapply Hlab; try exact Hc; by eapply elem_of_list_lookup_2. }
    assert (Hrec : forall nf st0, st_ok st0 -> exists st', optimal_iterate ordI output d mem fuel (p ++ [[i; j]]) (list_to_set av ∖ {[i; j]} ∪ {[length inputs]}) (inputs ++ [k12]) nf st0 = Ok st' /\ st_ok st').
    { intros nf st0 Hst0. rewrite remaining_step. pose proof (filter_length_step av i j (length inputs) (asc_NoDup _ Ha) Hi Hj Hne).
      apply IH; [by apply ap_step|lia|lia|done]. }
    destruct (lt_inf (flops + f12) (o_flops s)); simpl.
    2: { eexists. split; [done|]. split; [apply Hs|done]. }
    destruct mem as [limit|]; [|apply Hrec; split; [apply Hs|done]].
    assert (Hms : exists sz c2, memo (o_sizes s) k12 (set_size k12 d) = Ok (sz, c2)).
    { unfold memo. destruct (o_sizes s !! k12); [eauto|]. destruct (set_size_ok d k12 Hlab12) as [m ->]. cbn [mbind res_bind]. eauto. }
    destruct Hms as (sz & c2 & ->). cbn [mbind res_bind]. destruct (limit <? sz); [|apply Hrec; split; [apply Hs|done]].
    destruct (oversize_ok p av inputs Hap) as [over ->]; [by intros ->; simpl in H1; lia|]. cbn [mbind res_bind]. simpl.
    destruct (lt_inf (flops + over) (o_flops s)); eexists; (split; [done|]); (split; [|done]); simpl; [|apply Hs].
    eapply complete_all_left; [exact Hap| |done]. intros ->; simpl in H1; lia.
  Qed.
End Ok.

Lemma at_start n d inputs : length inputs = n -> Forall (labels_in d) inputs -> at_prefix d n [] (seq 0 n) inputs.
Proof. intros Hl Hd. split; [done|done|simpl; lia|done]. Qed.
Lemma ssa_complete_all n : n <> 0 -> ssa_complete n [seq 0 n].
Proof.
  intros Hn. unfold ssa_complete. simpl. split; [by destruct n|]. split; [apply NoDup_seq|]. split; [done|].
  rewrite app_length. simpl. assert (Hf : filter (.∉ seq 0 n) (seq 0 n) = []); [|by rewrite Hf].
  apply elem_of_nil_inv. intros x [Hx Hin]%elem_of_list_filter. done.
Qed.
Lemma optimal_ssa_ok ordI inputs output d mem : (forall s, ordI s ≡ₚ elements s) -> inputs <> [] -> Forall (labels_in d) inputs ->
  exists st, optimal_ssa ordI inputs output d mem = Ok st /\ ssa_complete (length inputs) (o_path st).
Proof.
  intros Ho Hne Hd. unfold optimal_ssa, range_set. destruct (optimal_iterate_ok ordI Ho output d mem (length inputs) (S (length inputs)) [] (seq 0 (length inputs)) inputs 0
    (OptState None [seq 0 (length inputs)] ∅ ∅)) as (st & Hst & Hok & _).
  - by apply at_start.
  - rewrite seq_length. destruct inputs; [done|simpl; lia].
  - rewrite seq_length. lia.
  - split; [|intros k1 k2 k f; simpl; by rewrite lookup_empty]. apply ssa_complete_all. by destruct inputs.
  - eauto.
Qed.
Lemma ssa_to_linear_nonempty n p lp : 2 <= n -> ssa_complete n p -> ssa_to_linear p = Ok lp -> lp <> [] /\ path_runs n lp.
Proof.
  intros Hn H Hlp. destruct (ssa_to_linear_ok n p H) as (lp' & Hlp' & Hr & _). assert (lp' = lp) as -> by congruence.
  split; [|done]. intros ->. simpl in Hr. lia.
Qed.
Lemma optimal_complete ordI inputs output d mem : (forall s, ordI s ≡ₚ elements s) -> inputs <> [] -> Forall (labels_in d) inputs ->
  exists p, optimal ordI inputs output d mem = Ok p /\ path_runs (length inputs) p.
Proof.
  intros Ho Hne Hd. unfold optimal. destruct (optimal_ssa_ok ordI inputs output d mem Ho Hne Hd) as (st & -> & Hc). cbn [mbind res_bind].
  destruct (ssa_to_linear_ok _ _ Hc) as (lp & Hlp & Hr & _). eauto.
Qed.
