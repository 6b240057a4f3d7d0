(** Random optimizers: histories, the parallel loop, the cost of a trial. *)
From Verif Require Import Prelude Einsum EinsumFacts Helpers Contract Spec PathSpec StringFacts StepFacts ContractFacts PathFacts Ssa SsaSpec SsaFacts SsaMore Optimal OptimalFacts OptimalBest Branch BranchFacts Greedy GreedyFacts Dp Random RandomSpec.

(** ** The parallel loop *)
Lemma gen_parallel_ok pre fs rs : 1 <= pre -> length fs <= pre ->
  exists l, gen_parallel pre fs rs = Ok <$> l /\ sublist l (fs ++ rs) /\ length l = length fs + length rs - (length rs + length fs - pre + 1) / 2.
Proof.
  intros Hpre. revert fs. induction rs as [|r rs IH]; intros fs Hf; cbn [gen_parallel length].
  - exists fs. split; [done|]. rewrite app_nil_r. split; [done|]. replace (0 + length fs - pre + 1) with 1 by lia. change (1 / 2) with 0. lia.
  - destruct (Nat.ltb_spec (length fs) pre) as [Hlt|Hge].
    + destruct (IH (fs ++ [r])) as (l & -> & Hs & Hl); [rewrite app_length; simpl; lia|]. exists l. split; [done|].
      rewrite <-app_assoc in Hs. split; [done|]. rewrite Hl, app_length. cbn [length]. f_equal; [lia|]. f_equal. lia.
    + destruct fs as [|f fs]; [simpl in Hge; lia|]. destruct (IH fs) as (l & -> & Hs & Hl); [simpl in Hf; lia|].
      exists (f :: l). split; [done|]. split.
      * simpl. apply sublist_skip. etrans; [exact Hs|]. apply sublist_app; [done|]. by apply sublist_cons.
      * cbn [length] in *. rewrite Hl. assert (Hp : pre = S (length fs)) by lia. rewrite Hp.
        replace (S (length rs) + S (length fs) - S (length fs) + 1) with (length rs + 1 * 2) by lia. rewrite Nat.div_add by done.
        replace (length rs + length fs - S (length fs) + 1) with (if decide (length rs = 0) then 1 else length rs) by (case_decide; lia).
        case_decide as E; [rewrite E; change (1 / 2) with 0; change (0 / 2) with 0; lia|]. pose proof (Nat.div_le_upper_bound (length rs) 2 (length rs)). lia.
Qed.
Lemma gen_parallel_0 rs : gen_parallel 0 [] rs = match rs with [] => [] | _ => [Err IndexError] end.
Proof. by destruct rs. Qed.

(** ** The loop *)
Lemma better_beats m t (b : option trial) : better m (t_cost t) (t_size t) (t_cost <$> b) (t_size <$> b) = true <-> match b with None => True | Some u => beats m t u end.
Proof.
  destruct b as [u|]; [|by destruct m]. destruct m; simpl; rewrite orb_true_iff, andb_true_iff, !Nat.ltb_lt, Nat.eqb_eq; lia.
Qed.
Lemma beats_trans m a b c : beats m a b -> beats m b c -> beats m a c.
Proof. destruct m; simpl; lia. Qed.
Lemma beats_not m a b c : ~ beats m b a -> beats m c a -> beats m c b.
Proof. destruct m; simpl; lia. Qed.

(** The instance after the trials [ts]. *)
Record ro_ok (m : minimize) (ts : list trial) (o : ro_inst) : Prop := ROOk {
  rk_costs : ro_costs o = t_cost <$> ts; rk_sizes : ro_sizes o = t_size <$> ts;
  rk_best : exists b, ro_flops o = t_cost <$> b /\ ro_size o = t_size <$> b /\ ro_path o = t_path <$> b /\
    match b with None => ts = [] | Some t => first_best m ts t end }.
Lemma ro_ok_fresh m : ro_ok m [] ro_fresh.
Proof. split; [done..|]. by exists None. Qed.
Lemma ro_ok_step m ts o t : ro_ok m ts o ->
  let o' := ROInst (ro_first o) (ro_costs o ++ [t_cost t]) (ro_sizes o ++ [t_size t]) (ro_flops o) (ro_size o) (ro_path o) in
  ro_ok m (ts ++ [t]) (if better m (t_cost t) (t_size t) (ro_flops o') (ro_size o')
                then ROInst (ro_first o') (ro_costs o') (ro_sizes o') (Some (t_cost t)) (Some (t_size t)) (Some (t_path t)) else o').
Proof.
  intros [H1 H2 (b & Hf & Hs & Hp & Hb)] o'. cbn. rewrite Hf, Hs. pose proof (better_beats m t b) as Hbt.
  destruct (better m (t_cost t) (t_size t) (t_cost <$> b) (t_size <$> b)).
  - split; cbn; [by rewrite H1, fmap_app|by rewrite H2, fmap_app|]. exists (Some t). split; [done|]. split; [done|]. split; [done|].
    exists ts, []. split; [done|]. split; [|by intros u ?%elem_of_nil]. intros u Hu. destruct Hbt as [Hbt _]. specialize (Hbt eq_refl).
    destruct b as [w|]; [|subst ts; by apply elem_of_nil in Hu]. destruct Hb as (l1 & l2 & -> & Hl1 & Hl2).
    apply elem_of_app in Hu as [Hu|[-> |Hu]%elem_of_cons]; [eapply beats_trans; [exact Hbt|by apply Hl1]|done|].
    eapply beats_not; [|exact Hbt]. by apply Hl2.
  - split; cbn; [by rewrite H1, fmap_app|by rewrite H2, fmap_app|]. exists b. split; [done|]. split; [done|]. split; [done|].
    destruct b as [w|]; [|destruct Hbt as [_ Hbt]; by specialize (Hbt I)]. destruct Hb as (l1 & l2 & -> & Hl1 & Hl2).
    exists l1, (l2 ++ [t]). split; [by rewrite <-app_assoc|]. split; [done|]. intros u [Hu|Hu]%elem_of_app; [by apply Hl2|].
    apply elem_of_list_singleton in Hu as ->. intros Hx. by apply Hbt in Hx.
Qed.
Lemma ro_best m ts o : ro_ok m ts o -> answer m ts (ro_best_path o).
Proof.
  intros [_ _ (b & _ & _ & Hp & Hb)]. unfold ro_best_path. rewrite Hp. destruct b as [t|]; [|by left]. right. exists t. by split.
Qed.

Lemma ro_loop_ok m run expired rs k o done err o' : ro_ok m done o -> ro_loop m run expired k rs o = (err, o') ->
  exists ts l, ro_ok m (done ++ ts) o' /\ ro_first o' = ro_first o /\ Ok <$> l = take (length ts) rs /\ Forall2 (fun r t => run r = Ok t) l ts /\
    (forall j, S j < length ts -> expired (k + j) = false) /\
    match err with
    | None => length ts = length rs \/ exists j, length ts = S j /\ expired (k + j) = true
    | Some e => length ts < length rs /\ (rs !! length ts = Some (Err e) \/ exists r, rs !! length ts = Some (Ok r) /\ run r = Err e)
    end.
Proof.
  revert k o done. induction rs as [|r rs IH]; intros k o done Ho H; cbn [ro_loop] in H.
  - injection H as <- <-. exists [], []. rewrite app_nil_r. split; [done|]. split; [done|]. split; [done|]. split; [constructor|]. split; [simpl; lia|by left].
  - destruct (r ≫= run) as [t|e] eqn:E.
    2: { injection H as <- <-. exists [], []. rewrite app_nil_r. split; [done|]. split; [done|]. split; [done|]. split; [constructor|]. split; [simpl; lia|].
         simpl. split; [lia|]. destruct r as [r|e']; [right; exists r; by split|]. left. by injection E as ->. }
    destruct r as [r|]; [|done]. change (run r = Ok t) in E.
    pose proof (ro_ok_step m done o t Ho) as Ho1. cbv zeta in Ho1.
    match type of Ho1 with ro_ok _ _ ?x => set (o1 := x) in * end.
    assert (Hfirst : ro_first o1 = ro_first o) by (unfold o1; by destruct (better _ _ _ _ _)).
    destruct (expired k) eqn:Ek.
    + injection H as <- <-. exists [t], [r]. split; [done|]. split; [done|]. split; [by destruct rs|]. split; [by repeat constructor|]. split; [simpl; lia|].
      right. exists 0. split; [done|]. by rewrite Nat.add_0_r.
    + apply (IH _ _ _ Ho1) in H as (ts & l & H1 & H2 & H3 & H4 & H5 & H6). exists (t :: ts), (r :: l). split; [by rewrite <-app_assoc in H1|].
      split; [congruence|]. split; [simpl; by rewrite <-H3|]. split; [by constructor|]. split.
      * intros [|j] Hj; [by rewrite Nat.add_0_r|]. rewrite <-plus_n_Sm. apply (H5 j). simpl in Hj. lia.
      * destruct err as [e|].
        -- destruct H6 as [Hl H6]. split; [simpl; lia|]. exact H6.
        -- destruct H6 as [Hl|(j & Hj & He)]; [left; simpl; lia|]. right. exists (S j). split; [simpl; lia|]. by rewrite <-plus_n_Sm.
Qed.

#[global] Instance Ok_Inj {A} : Inj (=) (=) (@Ok A).
Proof. by intros x y [= ->]. Qed.
Lemma sublist_Ok_take (l : list nat) l' n : Ok <$> l = take n (Ok <$> l' : list (res nat)) -> l = take n l'.
Proof. rewrite <-fmap_take. intros H. apply (inj (fmap Ok)) in H. done. Qed.

Lemma take_seq k a n : take k (seq a n) = seq a (Nat.min k n).
Proof. revert a n. induction k as [|k IH]; intros a [|n]; try done. simpl. by rewrite IH. Qed.
Lemma ro_call_ok m o c done r o' : ro_ok m done o -> ro_call m o c = (r, o') ->
  (exists a, ro_first o = Some a /\ a <> rc_args c /\ r = Err ValueError /\ o' = o) \/
  ((ro_first o = None \/ ro_first o = Some (rc_args c)) /\ exists ts err, ran c (length done) ts err /\
     match err with Some e => r = Err e | None => answer m (done ++ ts) r end /\ ro_ok m (done ++ ts) o' /\ ro_first o' = Some (rc_args c)).
Proof.
  intros Ho H. unfold ro_call in H.
  assert (Hc : (exists a, ro_first o = Some a /\ a <> rc_args c /\ check_args (ro_first o) (rc_args c) = Err ValueError) \/
    ((ro_first o = None \/ ro_first o = Some (rc_args c)) /\ check_args (ro_first o) (rc_args c) = Ok (rc_args c))).
  { destruct (ro_first o) as [a|]; simpl; [|right; auto]. case_decide as E; [right; subst; auto|left; eauto]. }
  destruct Hc as [(a & H1 & H2 & Hc)|[H1 Hc]]; rewrite Hc in H.
  { left. injection H as <- <-. exists a. done. }
  right. split; [done|]. cbn [ro_costs] in H. set (o1 := ROInst (Some (rc_args c)) (ro_costs o) (ro_sizes o) (ro_flops o) (ro_size o) (ro_path o)) in H.
  assert (Ho1 : ro_ok m done o1) by (destruct Ho as [A1 A2 A3]; by split).
  assert (Hlen : length (ro_costs o) = length done) by (rewrite (rk_costs _ _ _ Ho); by rewrite fmap_length). rewrite Hlen in H.
  match type of H with context [ro_loop m (rc_trial c) (rc_expired c) 0 ?x o1] => set (rs := x) in H end.
  destruct (ro_loop m (rc_trial c) (rc_expired c) 0 rs o1) as [err o2] eqn:E.
  destruct (ro_loop_ok _ _ _ _ _ _ _ _ _ Ho1 E) as (ts & l & G1 & G2 & G3 & G4 & G5 & G6).
  exists ts, err. split; [|].
  - exists l. split; [|split; [done|split; [done|]]].
    + unfold rs in G3. destruct (rc_pre_dispatch c) as [pre|].
      * destruct pre as [|pre].
        -- rewrite gen_parallel_0 in G3. assert (l = []) as ->; [|apply sublist_nil_l].
           destruct l as [|x l]; [done|]. exfalso. destruct (seq (length done) (rc_repeats c)); [by rewrite take_nil in G3|]. by destruct (length ts).
        -- destruct (gen_parallel_ok (S pre) [] (seq (length done) (rc_repeats c))) as (l' & Hl' & Hs & _); [lia|simpl; lia|]. rewrite Hl' in G3.
           apply sublist_Ok_take in G3 as ->. etrans; [apply sublist_take|]. exact Hs.
      * apply sublist_Ok_take in G3 as ->. apply sublist_take.
    + intros Hp. unfold rs in G3, G6. rewrite Hp in G3, G6. apply sublist_Ok_take in G3.
      assert (Hle : length ts <= rc_repeats c).
      { apply Forall2_length in G4. rewrite G3, take_length, seq_length in G4. lia. }
      split; [rewrite G3; by rewrite take_seq, Nat.min_l by done|]. rewrite fmap_length, seq_length in G6. destruct err as [e|].
      * destruct G6 as [Gl [G6|(r' & G6 & Gr)]]; split; try done; rewrite list_lookup_fmap, lookup_seq_lt in G6 by done; simpl in G6; [done|]. congruence.
      * done.
  - destruct err as [e|]; injection H as <- <-; [done|]. split; [|done]. by apply ro_best.
Qed.
Lemma ro_history_ok m cs o done rs o' : ro_ok m done o -> ro_history m o cs = (rs, o') ->
  exists final, history_ok m (ro_first o) done cs rs final /\ ro_ok m final o'.
Proof.
  revert o done rs. induction cs as [|c cs IH]; intros o done rs Ho H; simpl in H.
  - injection H as <- <-. exists done. by split.
  - destruct (ro_call m o c) as [r o1] eqn:E. destruct (ro_history m o1 cs) as [rs' o2] eqn:E2. injection H as <- <-.
    destruct (ro_call_ok _ _ _ _ _ _ Ho E) as [(a & H1 & H2 & -> & ->)|(H1 & ts & err & H2 & H3 & H4 & H5)].
    + destruct (IH _ _ _ Ho E2) as (final & Hh & Hf). exists final. split; [|done]. left. exists a. done.
    + destruct (IH _ _ _ H4 E2) as (final & Hh & Hf). exists final. split; [|done]. right. split; [done|]. exists ts, err. rewrite H5 in Hh. done.
Qed.

(** ** The cost of a trial *)
Lemma foldM_app {A S} (f : S -> A -> res S) (l k : list A) s : foldM_res f s (l ++ k) = (s ← foldM_res f s l; foldM_res f s k).
Proof. revert s. induction l as [|a l IH]; intros s; [done|]. cbn [foldM_res app]. destruct (f s a); [|done]. cbn [mbind res_bind]. apply IH. Qed.
Lemma pair_cost_swap D (k1 k2 k : gset N) : pair_cost D ([k2; k1], k) = pair_cost D ([k1; k2], k).
Proof.
  unfold pair_cost. cbn [fst snd]. f_equal.
  - f_equal. apply set_eq. intros c. rewrite !elem_union_all. setoid_rewrite elem_of_cons. setoid_rewrite elem_of_list_singleton. naive_solver.
  - f_equal. by rewrite (intersection_comm_L k2 k1).
Qed.
Lemma sort_pair_gen i j : i <> j -> sort_nat [i; j] = if decide (i < j) then [i; j] else [j; i].
Proof.
  intros H. case_decide; [by apply sort_pair|]. apply asc_unique; [|repeat constructor; lia|intros x; rewrite elem_sort_nat; set_solver].
  apply sort_nat_asc, NoDup_cons. split; [set_solver|apply NoDup_singleton].
Qed.
Lemma max_list_snoc l x : max_list' (l ++ [x]) = Nat.max (max_list' l) x.
Proof. induction l as [|y l IH]; simpl; [lia|]. rewrite IH. lia. Qed.
Lemma cost_prefix d out (inputs0 : list (gset N)) p : Forall (labels_in d) inputs0 -> ssa_valid (seq 0 (length inputs0)) (length inputs0) p -> pairwise p ->
  let rep := ssa_replay out p inputs0 (seq 0 (length inputs0)) in
  foldM_res (cost_step out d) (inputs0, range_set (length inputs0), 0, 0) p =
    Ok (inputs0 ++ rep.*2, list_to_set (ssa_after (seq 0 (length inputs0)) (length inputs0) p), sum_list (pair_cost (size_of d) <$> rep),
        max_list' ((fun st => volume (size_of d) st.2) <$> rep)) /\
  Forall (labels_in d) (inputs0 ++ rep.*2).
Proof.
  intros Hd. induction p as [|s p IH] using rev_ind; intros Hv Hp; cbv zeta.
  - simpl. by rewrite app_nil_r.
  - apply ssa_valid_snoc in Hv as (Hv & Hne & Hnd & Hin). apply Forall_app in Hp as [Hp Hs]. apply Forall_cons in Hs as [Hs _].
    destruct (IH Hv Hp) as [Hf Hl]. cbv zeta in Hf, Hl. set (rep := ssa_replay out p inputs0 (seq 0 (length inputs0))) in *. rewrite foldM_app, Hf. cbn [mbind res_bind foldM_res].
    destruct s as [|i [|j [|]]]; try done. apply NoDup_cons in Hnd as [Hij _]. rewrite elem_of_list_singleton in Hij.
    set (vals := inputs0 ++ rep.*2) in *. set (av := ssa_after (seq 0 (length inputs0)) (length inputs0) p) in *.
    assert (Hap : at_prefix d (length inputs0) p av vals).
    { split; [done|done| |done]. unfold vals. rewrite app_length, fmap_length. unfold rep. by rewrite ssa_replay_length. }
    destruct (ap_asc _ _ _ _ _ Hap) as [Ha Hlt]. rewrite Forall_forall in Hlt.
    destruct (lookup_lt_is_Some_2 vals i) as [k1 Hk1]; [apply Hlt, Hin; left|]. destruct (lookup_lt_is_Some_2 vals j) as [k2 Hk2]; [apply Hlt, Hin; right; left|].
    destruct (calc_ok elements (fun _ => reflexivity _) out d (length inputs0) p av vals i j k1 k2 Hap) as (c & Hc & Hfl); [apply Hin; left|apply Hin; right; left|done|done|].
    unfold cost_step. rewrite Hc. cbn [mbind res_bind]. set (k12 := (k1 ∪ k2) ∩ (out ∪ union_all (at_ids vals (filter (.∉ [i; j]) av)))) in *.
    rewrite Forall_forall in Hl. assert (Hk12 : labels_in d (k1 ∪ k2)).
    { intros x [Hx|Hx]%elem_of_union; eapply Hl; try exact Hx; by eapply elem_of_list_lookup_2. }
    rewrite volume_size by (intros x Hx; apply Hk12; unfold k12 in Hx; set_solver). cbn [mbind res_bind].
    rewrite flop_volume in Hfl by done. apply Ok_inj in Hfl.
    assert (Hrep : exists ks, (ks = [k1; k2] \/ ks = [k2; k1]) /\ ssa_replay out (p ++ [[i; j]]) inputs0 (seq 0 (length inputs0)) = rep ++ [(ks, k12)]).
    { rewrite ssa_replay_snoc by (rewrite app_length, fmap_length, ssa_replay_length; done). fold rep. fold vals. fold av. cbn [ssa_replay]. rewrite sort_pair_gen by done.
      destruct (decide (i < j)).
      - rewrite (at_ids_two vals i j k1 k2), union_two by done. eauto.
      - rewrite (at_ids_two vals j i k2 k1), union_two, (union_comm_L k2 k1) by done. eauto. }
    destruct Hrep as (ks & Hks & ->). split.
    + rewrite !fmap_app. f_equal. cbn [fmap list_fmap fst snd]. f_equal; [f_equal; [f_equal|]|].
      * unfold vals. by rewrite <-app_assoc.
      * rewrite ssa_after_snoc. fold av. apply set_eq. intros x.
        rewrite list_to_set_app. rewrite !elem_of_union, !elem_of_difference, !elem_of_list_to_set, elem_of_list_filter, !elem_of_singleton, elem_of_list_singleton.
        rewrite (ap_len _ _ _ _ _ Hap). set_solver.
      * rewrite sum_list_with_app. simpl. rewrite Nat.add_0_r. f_equal. rewrite <-Hfl.
        assert (Hsw : pair_cost (size_of d) (ks, k12) = pair_cost (size_of d) ([k1; k2], k12)) by (destruct Hks as [-> | ->]; [done|apply pair_cost_swap]). rewrite Hsw.
        unfold pair_cost. cbn [fst snd]. rewrite union_two. f_equal. simpl. f_equal. case_bool_decide as E; case_decide as E2; simpl; try lia.
        -- destruct E2. intros x Hx. unfold k12. rewrite elem_of_intersection. split; [set_solver|]. destruct (decide (x ∈ out ∪ union_all (at_ids vals (filter (.∉ [i; j]) av)))) as [?|Hn]; [done|]. exfalso.
           assert (Hx' : x ∈ (∅ : gset N)); [rewrite <-E; by apply elem_of_difference|by apply elem_of_empty in Hx'].
        -- destruct E. apply set_eq. intros x. split; [|by intros ?%elem_of_empty]. intros [Hx Hn]%elem_of_difference. apply E2 in Hx. unfold k12 in Hx. apply elem_of_intersection in Hx as [_ Hx]. done.
      * by rewrite max_list_snoc.
    + rewrite fmap_app, app_assoc. fold vals. apply Forall_app. split; [by apply Forall_forall|]. repeat constructor. intros x Hx. apply Hk12. unfold k12 in Hx. set_solver.
Qed.
Lemma compute_cost_ok d out (inputs : list (gset N)) p lp : Forall (labels_in d) inputs -> ssa_complete (length inputs) p -> pairwise p -> ssa_to_linear p = Ok lp ->
  ssa_path_compute_cost p inputs out d =
    Ok (sum_list (pair_cost (size_of d) <$> replay out lp inputs), max_list' ((fun st => volume (size_of d) st.2) <$> replay out lp inputs)).
Proof.
  intros Hd Hc Hp Hlp. rewrite (ssa_replay_ok out p lp inputs Hc Hlp). unfold ssa_path_compute_cost.
  apply ssa_runs_valid in Hc as [Hv _]. destruct (cost_prefix d out inputs p Hd Hv Hp) as [-> _]. done.
Qed.

Lemma s2l_lengths p ids next lp : s2l_loop next ids p = Ok lp -> length <$> lp = length <$> p.
Proof.
  revert ids next lp. induction p as [|s p IH]; intros ids next lp H; simpl in H; [by apply Ok_inj in H as <-|].
  apply bind_Ok in H as ([x ids'] & _ & H). apply bind_Ok in H as (rest & Hr & H). apply Ok_inj in H as <-. rewrite !fmap_cons, (IH _ _ _ Hr). f_equal.
  rewrite sort_nat_perm. by rewrite fmap_length.
Qed.
Lemma s2l_pairwise p lp : ssa_to_linear p = Ok lp -> pairwise p -> pairwise lp.
Proof.
  intros H%s2l_lengths. rewrite !Forall_forall. intros Hp s Hs. apply (elem_of_list_fmap_1 length) in Hs. rewrite H in Hs. apply elem_of_list_fmap in Hs as (t & -> & Ht). by apply Hp.
Qed.
Lemma occurs_cons out k l c : occurrences out (k :: l) c = (if decide (c ∈ k) then 1 else 0) + occurrences out l c.
Proof. unfold occurrences. rewrite filter_cons. destruct (decide (c ∈ k)); simpl; lia. Qed.
Lemma occurs_zero out l c : occurrences out l c = 0 <-> c ∉ out ∪ union_all l.
Proof.
  induction l as [|k l IH].
  - unfold occurrences. rewrite elem_of_union, elem_union_all. destruct (decide (c ∈ out)) as [Ho|Ho]; simpl; [split; [lia|tauto]|]. split; [|done]. intros _ [?|(s & Hs & _)]; [done|]. by apply elem_of_nil in Hs.
  - rewrite occurs_cons. rewrite elem_of_union, elem_union_all in *. setoid_rewrite elem_of_cons. destruct (decide (c ∈ k)); simpl; [split; [lia|]|rewrite IH]; naive_solver.
Qed.
Lemma lone_costs D out p (sets : list (gset N)) : path_runs (length sets) p -> pairwise p -> no_lone out sets ->
  pair_cost D <$> replay out p sets = step_cost D <$> replay out p sets.
Proof.
  revert sets. induction p as [|s p IH]; intros sets Hr Hp Hl; [done|]. destruct Hr as (_ & Hnd & Hlt & Hr). apply Forall_cons in Hp as [Hs Hp].
  cbn [replay]. rewrite !fmap_cons. pose proof (chosen_length s sets Hnd Hlt) as Hcl. rewrite Hs in Hcl.
  pose proof (chosen_others_perm s sets) as Hperm. unfold kept. destruct (chosen s sets) as [|k1 [|k2 [|]]]; try done. rewrite union_two in *. simpl app in Hperm.
  set (rest := others s sets) in *. set (k12 := (k1 ∪ k2) ∩ (out ∪ union_all rest)).
  assert (Hocc : forall c, c ∈ union_all sets -> 2 <= (if decide (c ∈ k1) then 1 else 0) + ((if decide (c ∈ k2) then 1 else 0) + occurrences out rest c)).
  { intros c Hc. specialize (Hl c Hc). rewrite <-(occ_perm out _ _ c Hperm) in Hl. by rewrite !occurs_cons in Hl. }
  assert (Hin : forall c, c ∈ k1 ∪ k2 \/ c ∈ union_all rest -> c ∈ union_all sets).
  { intros c Hc. rewrite elem_union_all. setoid_rewrite <-Hperm. setoid_rewrite elem_of_cons. setoid_rewrite elem_of_cons. destruct Hc as [Hc|Hc]; [set_solver|].
    apply elem_union_all in Hc as (t & Ht & Hc). eauto. }
  f_equal.
  - unfold pair_cost, step_cost. cbn [fst snd length]. rewrite union_two. f_equal. simpl. f_equal. case_decide as E1; case_decide as E2; try done; exfalso.
    + apply E2. apply set_eq. intros c. split; [unfold k12; set_solver|]. intros Hc. destruct (decide (c ∈ k1 ∩ k2)) as [H12|H12]; [by apply E1|].
      unfold k12. rewrite elem_of_intersection. split; [done|]. destruct (decide (c ∈ out ∪ union_all rest)) as [?|Hn]; [done|]. exfalso. apply (occurs_zero out) in Hn.
      specialize (Hocc c (Hin c (or_introl Hc))). rewrite Hn in Hocc. repeat case_decide; try lia. set_solver.
    + apply E1. rewrite E2. set_solver.
  - apply IH; [|done|].
    + rewrite app_length. unfold rest. rewrite others_length, Hs by done. by rewrite Hs in Hr.
    + intros c Hc. assert (Hc' : c ∈ k12 \/ c ∈ union_all rest).
      { apply elem_union_all in Hc as (t & [Ht|Ht%elem_of_list_singleton]%elem_of_app & Hc); [right; apply elem_union_all; eauto|left; by subst]. }
      rewrite (occ_perm out _ (k12 :: rest)) by (by rewrite Permutation_app_comm). rewrite occurs_cons.
      destruct (decide (c ∈ k12)) as [H|H].
      * assert (Hz : occurrences out rest c <> 0); [|lia]. rewrite occurs_zero. unfold k12 in H. set_solver.
      * destruct Hc' as [?|Hc']; [done|]. assert (Hnu : c ∉ k1 ∪ k2) by (unfold k12 in H; set_solver).
        specialize (Hocc c (Hin c (or_intror Hc'))). rewrite !decide_False in Hocc by set_solver. lia.
Qed.

(** ** RandomGreedy *)
Lemma greedy_trial_ok nbranch dr inputs output d r : 2 <= length inputs -> Forall (labels_in d) inputs -> 1 <= nbranch ->
  (forall r k l, l <> [] -> dr_pick dr r k l < length l) ->
  exists t lp, greedy_trial nbranch dr (inputs, output, d) r = Ok t /\ ssa_complete (length inputs) (t_path t) /\ ssa_to_linear (t_path t) = Ok lp /\ path_runs (length inputs) lp /\ pairwise lp /\
    t_cost t = sum_list (pair_cost (size_of d) <$> replay output lp inputs) /\ t_size t = max_list' ((fun st => volume (size_of d) st.2) <$> replay output lp inputs).
Proof.
  intros Hn Hd Hb Hpick. unfold greedy_trial. set (ch := if decide _ then _ else _).
  assert (Hch : match ch with None => True | Some c => chooser_ok c end) by (unfold ch; case_decide; [done|apply thermal_chooser_ok; [done|apply Hpick]]).
  destruct (greedy_ssa_ok (dr_cost dr r) ch inputs output d Hch) as (p & -> & Hc & Hp); [by destruct inputs; [simpl in Hn; lia|]|done|]. cbn [mbind res_bind].
  specialize (Hp Hn). destruct (ssa_to_linear_ok _ _ Hc) as (lp & Hlp & Hr & _).
  rewrite (compute_cost_ok d output inputs p lp Hd Hc Hp Hlp). cbn [mbind res_bind]. eexists _, lp. split; [done|]. cbn [t_path t_cost t_size].
  do 3 (split; [done|]). split; [by eapply s2l_pairwise|]. done.
Qed.
Lemma first_best_elem m ts t : first_best m ts t -> t ∈ ts.
Proof. intros (a & b & -> & _). rewrite elem_of_app, elem_of_cons. auto. Qed.
Lemma random_greedy_ok reps dr inputs output d mem : 2 <= length inputs -> 1 <= reps -> Forall (labels_in d) inputs -> (forall r k l, l <> [] -> dr_pick dr r k l < length l) ->
  exists p, random_greedy reps dr inputs output d mem = Ok p /\ path_runs (length inputs) p /\ pairwise p.
Proof.
  intros Hn Hreps Hd Hpick. unfold random_greedy. set (c := ROCall _ _ _ _ _). destruct (ro_call MinFlops ro_fresh c) as [r o'] eqn:E.
  destruct (ro_call_ok _ _ _ _ _ _ (ro_ok_fresh MinFlops) E) as [(a & [=] & _)|(_ & ts & err & (rs & _ & Hts & _ & Hser) & Hres & _)].
  destruct (Hser eq_refl) as [-> Herr]. cbn [fst]. destruct err as [e|].
  { destruct Herr as [_ He]. destruct (greedy_trial_ok 8 dr inputs output d (length ([] : list trial) + length ts) Hn Hd) as (t & lp & Ht & _); [lia|done|]. change (greedy_trial 8 dr (inputs, output, d) (length ([] : list trial) + length ts) = Err e) in He. congruence. }
  assert (Hall : forall t, t ∈ ts -> exists lp, ssa_to_linear (t_path t) = Ok lp /\ path_runs (length inputs) lp /\ pairwise lp).
  { intros t Ht. apply elem_of_list_lookup in Ht as [k Hk]. destruct (Forall2_lookup_r _ _ _ _ _ Hts Hk) as (x & _ & Hx).
    destruct (greedy_trial_ok 8 dr inputs output d x Hn Hd) as (t' & lp & Ht' & _ & H1 & H2 & H3 & _); [lia|done|]. change (greedy_trial 8 dr (inputs, output, d) x = Ok t) in Hx. assert (t' = t) as -> by congruence. eauto. }
  destruct Hres as [[Hnil _]|(t & Hb & ->)].
  - exfalso. simpl in Hnil. subst ts. destruct Herr as [Herr|(k & Hk & _)]; [|done]. simpl in Herr. lia.
  - destruct (Hall t) as (lp & -> & H1 & H2); [by apply first_best_elem in Hb|]. eauto.
Qed.
