(** When every label occurs at most twice, a fresh [BranchBound] keeps the memory limit and its cost is the cost of its path. *)
From Verif Require Import Prelude Einsum EinsumFacts Helpers Contract Spec PathSpec StringFacts StepFacts ContractFacts PathFacts Ssa SsaSpec SsaFacts SsaMore Optimal OptimalFacts OptimalBest Branch BranchFacts.

Section Within.
  Variable P : bb_params.
  Variable ordI : gset nat -> list nat.
  Hypothesis ordI_ok : forall s, ordI s ≡ₚ elements s.
  Variables (out : gset N) (d : sizes) (mem : option nat) (inputs0 : list (gset N)).
  Notation n := (length inputs0).
  Notation D := (size_of d).
  Notation m0 := (occurrences out inputs0).
  Hypothesis twice : forall c, m0 c <= 2.
  Notation tracked := (tracked out d mem inputs0).

  Record br_good (st : br_state) : Prop := BrGood {
    bg_cache : forall k1 k2 v, b_results st !! (k1, k2) = Some v -> fspec out d inputs0 k1 k2 v;
    bg_sizes : forall k s, b_sizes st !! k = Some s -> set_size k d = Ok s;
    bg_within : forall p, b_path st = Some p -> within out d mem inputs0 p /\ pairwise (take (length p - 1) p);
    bg_cost : mem = None -> forall p, b_path st = Some p -> b_flops st = Some (total out d inputs0 p) /\ pairwise p }.

  Record cand_good (p : path) (av : list nat) (inputs : list (gset N)) (flops : nat) (c : cand) : Prop := CandGood {
    cg_tracked : tracked (p ++ [[c_i c; c_j c]]) (filter (.∉ [c_i c; c_j c]) av ++ [length inputs]) (inputs ++ [c_k12 c]) (c_flops c);
    cg_i : c_i c ∈ av; cg_j : c_j c ∈ av; cg_ne : c_i c <> c_j c }.

  Lemma assess_good p av inputs flops size k1 k2 i j st o st' : tracked p av inputs flops -> i ∈ av -> j ∈ av -> i < j -> inputs !! i = Some k1 -> inputs !! j = Some k2 ->
    br_good st -> assess P ordI out d mem p inputs (list_to_set av) flops size k1 k2 i j st = Ok (o, st') ->
    br_good st' /\ (forall c, o = Some c -> cand_good p av inputs flops c).
  Proof.
    intros Ht Hi Hj Hij Hk1 Hk2 Hs H. unfold assess in H.
    set (k12 := merged out k1 k2 (union_all (at_ids inputs (filter (.∉ [i; j]) av)))).
    set (c12 := pair_cost D ([k1; k2], k12)).
    destruct (calc_fspec ordI ordI_ok out d mem inputs0 twice p av inputs flops i j k1 k2 Ht Hi Hj) as (c & Hcalc & Hfs & Hc); [lia|done|done|]. fold k12 in Hcalc, Hfs, Hc.
    assert (Hmemo : exists c', memo (b_results st) (k1, k2) (calc_k12_flops inputs out (list_to_set av) i j d) = Ok ((k12, c12), c') /\
       forall a b v, c' !! (a, b) = Some v -> fspec out d inputs0 a b v).
    { unfold memo. destruct (b_results st !! (k1, k2)) as [v|] eqn:Ec.
      - exists (b_results st). split; [|apply Hs]. do 2 f_equal. apply (fspec_unique out d inputs0 k1 k2); [by eapply Hs|]. unfold c12. by rewrite <-Hc.
      - rewrite Hcalc. cbn [mbind res_bind]. eexists. split; [unfold c12; by rewrite <-Hc|]. intros a b v. rewrite lookup_insert_Some.
        intros [[[= <- <-] <-]|[_ Hab]]; [done|]. by eapply Hs. }
    destruct Hmemo as (c' & Hmemo & Hc'). rewrite Hmemo in H. cbn [mbind res_bind] in H.
    assert (Hlab12 : labels_in d k12).
    { destruct (tr_prefix _ _ _ _ _ _ _ _ Ht) as [_ _ _ Hlab]. rewrite Forall_forall in Hlab. intros x Hx. unfold k12, merged in Hx. apply elem_of_intersection in Hx as [Hx _].
      apply elem_of_union in Hx as [Hx|Hx]; eapply Hlab; try exact Hx; by eapply elem_of_list_lookup_2. }
    assert (Hms : exists c2, memo (b_sizes st) k12 (set_size k12 d) = Ok (volume D k12, c2) /\ forall k x, c2 !! k = Some x -> set_size k d = Ok x).
    { unfold memo. pose proof (volume_size d k12 Hlab12) as Hv. destruct (b_sizes st !! k12) as [x|] eqn:Ex.
      - exists (b_sizes st). apply (bg_sizes _ Hs) in Ex as Ex'. split; [congruence|apply Hs].
      - rewrite Hv. cbn [mbind res_bind]. eexists. split; [done|]. intros k x. rewrite lookup_insert_Some. intros [[<- <-]|[_ Hk]]; [done|]. by apply (bg_sizes _ Hs). }
    destruct Hms as (c2 & Hms & Hc2). rewrite Hms in H. cbn [mbind res_bind] in H.
    cbn [b_flops b_size b_path b_progress b_sizes b_results b_calls] in H.
    assert (Hg : forall pr calls, br_good (BrState (b_flops st) (b_size st) (b_path st) pr c2 c' calls)) by (intros; split; simpl; try done; apply Hs).
    destruct (better (bb_minimize P) (flops + c12) (Nat.max size (volume D k12)) (b_flops st) (b_size st)); cbn [negb] in H.
    2: { apply Ok_inj in H as [= <- <-]. split; [apply Hg|done]. }
    destruct (_ && _) in H.
    { apply Ok_inj in H as [= <- <-]. split; [apply Hg|done]. }
    match type of H with context [if match mem with Some _ => _ | None => _ end then _ else _] => idtac end.
    set (st2 := if match b_progress st !! length inputs with Some x => flops + c12 <? x | None => true end
      then BrState (b_flops st) (b_size st) (b_path st) (<[length inputs := flops + c12]> (b_progress st)) c2 c' (b_calls st)
      else BrState (b_flops st) (b_size st) (b_path st) (b_progress st) c2 c' (b_calls st)) in H.
    assert (E2 : b_flops st2 = b_flops st /\ b_size st2 = b_size st /\ b_path st2 = b_path st /\ b_sizes st2 = c2 /\ b_results st2 = c') by (unfold st2; destruct (match b_progress st !! length inputs with Some x => flops + c12 <? x | None => true end); done).
    clearbody st2. destruct st2 as [f2 z2 p2 g2 s2 r2 n2]. simpl in E2. destruct E2 as (-> & -> & -> & -> & ->).
    cbn [b_flops b_size b_path b_progress b_sizes b_results b_calls] in H.
    destruct (match mem with Some limit => limit <? volume D k12 | None => false end) eqn:Em.
    - apply bind_Ok in H as (over & _ & H). destruct mem as [limit|] eqn:Emem; [|done].
      destruct (lt_inf (flops + over) (b_flops st)); apply Ok_inj in H as [= <- <-]; (split; [|done]); [|apply Hg].
      split; simpl; try done.
      + intros q [= <-]. split.
        * intros limit' st1 k Hl' Hk Hkl. rewrite app_length in Hkl. simpl in Hkl.
          rewrite ssa_replay_snoc in Hk by (rewrite app_length, fmap_length, ssa_replay_length; done).
          rewrite lookup_app_l in Hk by (rewrite ssa_replay_length; lia). eapply (tr_mem _ _ _ _ _ _ _ _ Ht limit'); [congruence|by eapply elem_of_list_lookup_2].
        * rewrite app_length. simpl. replace (length p + 1 - 1) with (length p) by lia. rewrite take_app. apply Ht.
      + congruence.
    - apply bind_Ok in H as (s1 & _ & H). apply bind_Ok in H as (s2 & _ & H). apply Ok_inj in H as [= <- <-]. split; [apply Hg|].
      intros c0 [= <-]. split; simpl; try done; [|lia]. eapply (tracked_step ordI ordI_ok); try done.
      intros limit Hl. rewrite Hl in Em. apply Nat.ltb_ge in Em. done.
  Qed.

  Lemma iterate_good fuel p av inputs flops size st st' : tracked p av inputs flops -> br_good st ->
    branch_iterate P ordI out d mem fuel p inputs (list_to_set av) flops size st = Ok st' -> br_good st'.
  Proof.
    revert p av inputs flops size st st'. induction fuel as [|fuel IH]; intros p av inputs flops size st st' Ht Hs H; [done|]. simpl in H.
    destruct (ap_asc _ _ _ _ _ (tr_prefix _ _ _ _ _ _ _ _ Ht)) as [Ha Hlt]. rewrite size_av in H by by apply asc_NoDup. destruct (decide (length av = 1)) as [E|E].
    { apply Ok_inj in H as <-. split; simpl; try apply Hs.
      - intros q [= <-]. split; [|apply Forall_take, Ht]. intros limit s k Hl Hk _. eapply tr_mem; [done|done|by eapply elem_of_list_lookup_2].
      - intros Hm q [= <-]. split; [|apply Ht]. f_equal. apply Ht. }
    assert (Hord : ordI (list_to_set av) ≡ₚ av) by (rewrite ordI_ok; apply elements_list_to_set; by apply asc_NoDup).
    assert (Hpass : forall skip s0 acc, br_good s0 -> foldM_res (assess_pair P ordI out d mem skip p inputs (list_to_set av) flops size) ([], s0) (combos2 (ordI (list_to_set av))) = Ok acc ->
      br_good acc.2 /\ Forall (cand_good p av inputs flops) acc.1).
    { intros skip s0 acc Hs0 Hf. refine (foldM_inv _ (fun _ acc => br_good acc.2 /\ Forall (cand_good p av inputs flops) acc.1) _ _ _ _ _ Hf); [|split; [done|constructor]].
      intros bef [i0 j0] rest [cands s] acc' Hl [Hg Hc] Hp. simpl in Hg, Hc.
      assert (Hij : (i0, j0) ∈ combos2 (ordI (list_to_set av))) by (rewrite Hl; apply elem_of_app; right; left).
      apply elem_combos2 in Hij as (Hi0 & Hj0 & Hne0); [|rewrite Hord; by apply asc_NoDup]. rewrite Hord in Hi0, Hj0. unfold assess_pair in Hp. simpl in Hp.
      assert (Hpair : exists i j, (if j0 <? i0 then (j0, i0) else (i0, j0)) = (i, j) /\ i ∈ av /\ j ∈ av /\ i < j).
      { destruct (Nat.ltb_spec j0 i0); [exists j0, i0|exists i0, j0]; repeat (split; [done|]); lia. }
      destruct Hpair as (i & j & Hpe & Hi & Hj & Hij). rewrite Hpe in Hp. rewrite Forall_forall in Hlt.
      destruct (lookup_lt_is_Some_2 inputs i (Hlt i Hi)) as [k1 Hk1]. destruct (lookup_lt_is_Some_2 inputs j (Hlt j Hj)) as [k2 Hk2].
      rewrite Hk1, Hk2 in Hp. cbn [of_opt mbind res_bind] in Hp. destruct (skip && bool_decide (k1 ∩ k2 = ∅)); [by apply Ok_inj in Hp as <-|].
      apply bind_Ok in Hp as ([o s1] & Has & Hp). apply Ok_inj in Hp as <-. simpl.
      destruct (assess_good p av inputs flops size k1 k2 i j s o s1 Ht Hi Hj Hij Hk1 Hk2 Hg Has) as [G1 G2]. split; [done|].
      destruct o as [c|]; [|done]. apply Forall_app. split; [done|]. constructor; [by apply G2|done]. }
    apply bind_Ok in H as ([cands s1] & Hf1 & H). apply bind_Ok in H as ([cands2 s2] & Hf2 & H).
    apply Hpass in Hf1 as [G1 C1]; [|done]. simpl in G1, C1.
    assert (G2 : br_good s2 /\ Forall (cand_good p av inputs flops) cands2).
    { destruct cands as [|c cands]; [by apply Hpass in Hf2|]. apply Ok_inj in Hf2 as [= <- <-]. done. }
    destruct G2 as [G2 C2]. clear Hf2 G1 C1.
    assert (Htodo : forall c, c ∈ match bb_nbranch P with Some b => take b (heap_order cands2) | None => heap_order cands2 end -> cand_good p av inputs flops c).
    { rewrite Forall_forall in C2. intros c Hc. apply C2. rewrite <-(merge_sort_Permutation cand_le cands2).
      destruct (bb_nbranch P); [|done]. eapply elem_of_submseteq; [exact Hc|]. apply sublist_submseteq, sublist_take. }
    refine (foldM_inv _ (fun _ s => br_good s) _ _ _ _ G2 H). intros bef c rest s s' Hl Hg Hit.
    destruct (Htodo c) as [T1 T2 T3 T4]; [rewrite Hl; apply elem_of_app; right; left|].
    rewrite (remaining_step ordI ordI_ok) in Hit. by eapply IH.
  Qed.
End Within.

Lemma list_to_map_sizes inputs d l k s : mapM_res (fun k => s ← set_size k d; Ok (k, s)) inputs = Ok l -> (list_to_map l : gmap (gset N) nat) !! k = Some s -> set_size k d = Ok s.
Proof.
  revert l. induction inputs as [|k' inputs IH]; intros l H Hk; simpl in H.
  - apply Ok_inj in H as <-. rewrite list_to_map_nil, lookup_empty in Hk. done.
  - apply bind_Ok in H as ([k'' s'] & Hs & H). apply bind_Ok in Hs as (s0 & Hs & Hs'). apply Ok_inj in Hs' as [= <- <-].
    apply bind_Ok in H as (l' & Hl & H). apply Ok_inj in H as <-. simpl in Hk. apply lookup_insert_Some in Hk as [[<- <-]|[_ Hk]]; [done|by eapply IH].
Qed.

Lemma bb_call_good P ordI inputs out d mem p b' : (forall s, ordI s ≡ₚ elements s) -> bb_nbranch P <> Some 0 -> inputs <> [] -> Forall (labels_in d) inputs ->
  (forall c, occurrences out inputs c <= 2) -> bb_call P ordI bb_fresh inputs out d mem = Ok (p, b') ->
  (forall limit k st, mem = Some limit -> replay out p inputs !! k = Some st -> S k < length p -> volume (size_of d) st.2 <= limit) /\
  (mem = None -> pairwise p /\ bi_flops b' = Some (sum_list (pair_cost (size_of d) <$> replay out p inputs))).
Proof.
  intros Ho Hb Hne Hd H2 H. 
  destruct (bb_call_ok P ordI bb_fresh inputs out d mem Ho Hb Hne Hd) as (p0 & b0 & H0 & _ & [Hc _] & _); [by split|by left|].
  rewrite H in H0. apply Ok_inj in H0 as [= <- <-].
  unfold bb_call in H. apply bind_Ok in H as (args & _ & H). apply bind_Ok in H as (l & Hl & H). apply bind_Ok in H as (st & Hst & H).
  apply bind_Ok in H as (best & Hbest & H). apply bind_Ok in H as (lp & Hlp & H). apply Ok_inj in H as [= <- <-].
  unfold range_set in Hst. apply (iterate_good P ordI Ho out d mem inputs H2) in Hst as [G1 G2 G3 G4].
  - destruct (b_path st) as [q|] eqn:Eq; [|done]. apply Ok_inj in Hbest as ->. simpl in Hc. specialize (Hc best eq_refl).
    assert (Hl' := ssa_to_linear_lengths _ _ Hlp). assert (Hll := f_equal length Hl'). rewrite !fmap_length in Hll.
    rewrite (ssa_replay_ok out best lp inputs Hc Hlp). split.
    + intros limit k s Hm Hk Hlt. destruct (G3 best eq_refl) as [Hw _]. eapply Hw; [done|exact Hk|lia].
    + intros Hm. simpl. destruct (G4 Hm best eq_refl) as [Hf Hp]. split; [by eapply pairwise_lengths|done].
  - split; simpl; [by apply at_start|by rewrite app_nil_r|intros c _; by rewrite at_ids_seq|done|done|intros limit s _ Hs; by apply elem_of_nil in Hs].
  - split; simpl; [intros k1 k2 v; by rewrite lookup_empty|intros k s; by apply list_to_map_sizes with inputs|done|done].
Qed.
