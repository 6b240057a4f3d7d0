(** [BranchBound] returns a complete path. *)
From Verif Require Import Prelude Einsum EinsumFacts Helpers Contract Spec PathSpec StringFacts StepFacts ContractFacts PathFacts Ssa SsaSpec SsaFacts SsaMore Optimal OptimalFacts Branch.

Section Ok.
  Variable P : bb_params.
  Variable ordI : gset nat -> list nat.
  Hypothesis ordI_ok : forall s, ordI s ≡ₚ elements s.
  Hypothesis branches : bb_nbranch P <> Some 0.
  Variables (output : gset N) (d : sizes) (mem : option nat).
  Variable n : nat.

  Record br_ok (st : br_state) : Prop := BrOk {
    bk_cache : cache_ok (b_results st);
    bk_path : forall p, b_path st = Some p -> ssa_complete n p;
    bk_none : b_path st = None -> b_flops st = None /\ b_size st = None }.
  Definition grows (st st' : br_state) : Prop := forall k, is_Some (b_sizes st !! k) -> is_Some (b_sizes st' !! k).
  Definition sized (st : br_state) (inputs : list (gset N)) : Prop := forall k, k ∈ inputs -> is_Some (b_sizes st !! k).
  Lemma grows_refl st : grows st st.
  Proof. by intros k. Qed.
  Lemma grows_trans a b c : grows a b -> grows b c -> grows a c.
  Proof. intros H1 H2 k Hk. by apply H2, H1. Qed.
  Lemma grows_sized a b l : grows a b -> sized a l -> sized b l.
  Proof. intros H1 H2 k Hk. by apply H1, H2. Qed.
  (** No progress recorded from level [l] on, unless a path has been found. *)
  Definition open_from (l : nat) (st : br_state) : Prop := b_path st = None -> forall m, l <= m -> b_progress st !! m = None.

  Record cand_ok (av : list nat) (st : br_state) (c : cand) : Prop := CandOk {
    ck_i : c_i c ∈ av; ck_j : c_j c ∈ av; ck_ne : c_i c <> c_j c; ck_labels : labels_in d (c_k12 c); ck_sized : is_Some (b_sizes st !! c_k12 c) }.
  Lemma cand_ok_grows av a b c : grows a b -> cand_ok av a c -> cand_ok av b c.
  Proof. intros H []. split; try done. by apply H. Qed.

  Section Level.
    Variables (p : path) (av : list nat) (inputs : list (gset N)) (flops size : nat).
    Hypothesis Hap : at_prefix d n p av inputs.
    Hypothesis Hav : 2 <= length av.

    Lemma assess_ok k1 k2 i j st : i ∈ av -> j ∈ av -> i <> j -> inputs !! i = Some k1 -> inputs !! j = Some k2 ->
      br_ok st -> sized st inputs -> open_from (S (length inputs)) st ->
      exists o st', assess P ordI output d mem p inputs (list_to_set av) flops size k1 k2 i j st = Ok (o, st') /\
        br_ok st' /\ grows st st' /\ open_from (S (length inputs)) st' /\
        (forall c, o = Some c -> cand_ok av st' c) /\
        (b_path st' = None -> b_path st = None /\ (b_progress st !! length inputs = None -> o <> None)).
    Proof.
      intros Hi Hj Hne Hk1 Hk2 Hst Hsz Hop. assert (Hnil : av <> []) by (intros E; rewrite E in Hav; simpl in Hav; lia). destruct (ap_asc _ _ _ _ _ Hap) as [Ha Hlt].
      assert (Hmemo : exists k12 f12 c', memo (b_results st) (k1, k2) (calc_k12_flops inputs output (list_to_set av) i j d) = Ok ((k12, f12), c') /\ k12 ⊆ k1 ∪ k2 /\ cache_ok c').
      { unfold memo. destruct (b_results st !! (k1, k2)) as [[k12 f12]|] eqn:E.
        - exists k12, f12, (b_results st). split; [done|]. split; [by eapply Hst|apply Hst].
        - destruct (calc_ok ordI ordI_ok output d n p av inputs i j k1 k2 Hap Hi Hj Hk1 Hk2) as (c & -> & _). cbn [mbind res_bind].
          eexists _, _, _. split; [done|]. split; [set_solver|]. intros a b k f. rewrite lookup_insert_Some. intros [[[= <- <-] [= <- <-]]|[_ H]]; [set_solver|by eapply Hst]. }
      destruct Hmemo as (k12 & f12 & c' & Hm & Hsub & Hc'). unfold assess. rewrite Hm. cbn [mbind res_bind].
      assert (Hlab : labels_in d k12).
      { destruct Hap as [_ _ _ Hlab]. rewrite Forall_forall in Hlab. intros x Hx. apply Hsub in Hx.
        apply elem_of_union in Hx as [Hx|Hx]; eapply Hlab; try exact Hx; by eapply elem_of_list_lookup_2. }
      assert (Hms : exists s c2, memo (b_sizes st) k12 (set_size k12 d) = Ok (s, c2) /\ is_Some (c2 !! k12) /\ forall k, is_Some (b_sizes st !! k) -> is_Some (c2 !! k)).
      { unfold memo. destruct (b_sizes st !! k12) as [x|] eqn:Ex; [by exists x, (b_sizes st); eauto|].
        destruct (set_size_ok d k12 Hlab) as [x ->]. cbn [mbind res_bind]. eexists _, _. split; [done|]. split; [rewrite lookup_insert; eauto|].
        intros k [y Hy]. destruct (decide (k = k12)) as [->|Hn]; [rewrite lookup_insert; eauto|]. rewrite lookup_insert_ne by done. eauto. }
      destruct Hms as (size12 & c2 & Hms & H12 & Hgrow). rewrite Hms. cbn [mbind res_bind b_flops b_size b_path b_progress b_sizes b_results b_calls].
      destruct (better (bb_minimize P) (flops + f12) (Nat.max size size12) (b_flops st) (b_size st)) eqn:Eb; simpl.
      2: { eexists _, _. split; [done|]. split; [split; [done|apply Hst|apply Hst]|]. split; [done|]. split; [done|]. split; [done|]. simpl.
           intros Hn. exfalso. destruct (bk_none _ Hst Hn) as [E1 E2]. rewrite E1, E2 in Eb. by destruct (bb_minimize P). }
      destruct (match b_progress st !! length inputs with None => true | Some x => flops + f12 <? x end) eqn:Ebel; simpl.
      - (* new progress *)
        destruct (match mem with None => false | Some limit => limit <? size12 end) eqn:Em.
        + destruct (oversize_ok output d n p av inputs Hap) as [over ->]; [done|]. cbn [mbind res_bind b_flops b_size b_path b_progress b_sizes b_results b_calls].
          assert (Hcomp : ssa_complete n (p ++ [ordI (list_to_set av)])).
          { eapply (complete_all_left d n p av inputs); [done|done|]. rewrite ordI_ok. apply elements_list_to_set. by apply asc_NoDup. }
          destruct (lt_inf (flops + over) (b_flops st)) eqn:El; eexists _, _; (split; [done|]).
          * split; [split; simpl; [done|by intros ? [= <-]|done]|]. split; [done|]. split; [done|]. split; [done|]. done.
          * split; [split; simpl; [done|apply Hst|apply Hst]|]. split; [done|]. split.
            { intros Hn m Hmm. simpl in *. rewrite lookup_insert_ne by lia. by apply Hop. }
            split; [done|]. simpl. intros Hn. exfalso. destruct (bk_none _ Hst Hn) as [E1 _]. by rewrite E1 in El.
        + destruct (Hgrow k1) as [s1 ->]; [apply Hsz; by eapply elem_of_list_lookup_2|]. destruct (Hgrow k2) as [s2 ->]; [apply Hsz; by eapply elem_of_list_lookup_2|].
          cbn [of_opt mbind res_bind]. eexists _, _. split; [done|]. split; [split; simpl; [done|apply Hst|apply Hst]|]. split; [done|]. split.
          { intros Hn m Hmm. simpl in *. rewrite lookup_insert_ne by lia. by apply Hop. }
          split; [intros c [= <-]; by split|]. simpl. done.
      - destruct (b_progress st !! length inputs) as [x|] eqn:Ex; [|done]. destruct (bb_cut P (flops + f12) x); simpl.
        { eexists _, _. split; [done|]. split; [split; [done|apply Hst|apply Hst]|]. split; [done|]. split; [done|]. split; [done|]. simpl. intros Hn. split; [done|]. discriminate. }
        destruct (match mem with None => false | Some limit => limit <? size12 end) eqn:Em.
        + destruct (oversize_ok output d n p av inputs Hap) as [over ->]; [done|]. cbn [mbind res_bind b_flops b_size b_path b_progress b_sizes b_results b_calls].
          assert (Hcomp : ssa_complete n (p ++ [ordI (list_to_set av)])).
          { eapply (complete_all_left d n p av inputs); [done|done|]. rewrite ordI_ok. apply elements_list_to_set. by apply asc_NoDup. }
          destruct (lt_inf (flops + over) (b_flops st)) eqn:El; eexists _, _; (split; [done|]).
          * split; [split; simpl; [done|by intros ? [= <-]|done]|]. split; [done|]. split; [done|]. split; [done|]. done.
          * split; [split; simpl; [done|apply Hst|apply Hst]|]. split; [done|]. split; [done|]. split; [done|]. simpl. intros Hn. split; [done|]. discriminate.
        + destruct (Hgrow k1) as [s1 ->]; [apply Hsz; by eapply elem_of_list_lookup_2|]. destruct (Hgrow k2) as [s2 ->]; [apply Hsz; by eapply elem_of_list_lookup_2|].
          cbn [of_opt mbind res_bind]. eexists _, _. split; [done|]. split; [split; simpl; [done|apply Hst|apply Hst]|]. split; [done|]. split; [done|].
          split; [intros c [= <-]; by split|]. simpl. done.
    Qed.

    (** One pass over the pairs. *)
    Definition pass_inv (st0 : br_state) (done : list (nat * nat)) (acc : list cand * br_state) : Prop :=
      br_ok acc.2 /\ grows st0 acc.2 /\ open_from (S (length inputs)) acc.2 /\ Forall (cand_ok av acc.2) acc.1 /\
      (b_path acc.2 = None -> acc.1 <> [] \/ b_progress acc.2 !! length inputs = None).
    Lemma pass_ok skip st0 : sized st0 inputs -> br_ok st0 -> open_from (length inputs) st0 ->
      exists acc, foldM_res (assess_pair P ordI output d mem skip p inputs (list_to_set av) flops size) ([], st0) (combos2 (ordI (list_to_set av))) = Ok acc /\
        br_ok acc.2 /\ grows st0 acc.2 /\ open_from (S (length inputs)) acc.2 /\ Forall (cand_ok av acc.2) acc.1 /\
        (b_path acc.2 = None -> acc.1 <> [] \/ skip = true /\ b_progress acc.2 !! length inputs = None).
    Proof.
      intros Hsz Hst Hop. destruct (ap_asc _ _ _ _ _ Hap) as [Ha Hlt].
      assert (Hord : ordI (list_to_set av) ≡ₚ av) by (rewrite ordI_ok; apply elements_list_to_set; by apply asc_NoDup).
      set (I := fun acc : list cand * br_state => br_ok acc.2 /\ grows st0 acc.2 /\ open_from (S (length inputs)) acc.2 /\ Forall (cand_ok av acc.2) acc.1 /\
        (b_path acc.2 = None -> acc.1 <> [] \/ b_progress acc.2 !! length inputs = None)).
      assert (Hstep : forall acc ij, I acc -> ij ∈ combos2 (ordI (list_to_set av)) ->
        exists acc', assess_pair P ordI output d mem skip p inputs (list_to_set av) flops size acc ij = Ok acc' /\ I acc' /\ (skip = false -> b_path acc'.2 = None -> acc'.1 <> [])).
      { intros [cands st] [i0 j0] (H1 & H2 & H3 & H4 & H5) Hij. simpl in *.
        apply elem_combos2 in Hij as (Hi0 & Hj0 & Hne0); [|rewrite Hord; by apply asc_NoDup]. rewrite Hord in Hi0, Hj0.
        unfold assess_pair. simpl.
        assert (Hpair : exists i j, (if j0 <? i0 then (j0, i0) else (i0, j0)) = (i, j) /\ i ∈ av /\ j ∈ av /\ i <> j).
        { destruct (j0 <? i0); [exists j0, i0|exists i0, j0]; auto. }
        destruct Hpair as (i & j & -> & Hi & Hj & Hne). rewrite Forall_forall in Hlt.
        destruct (lookup_lt_is_Some_2 inputs i (Hlt i Hi)) as [k1 Hk1]. destruct (lookup_lt_is_Some_2 inputs j (Hlt j Hj)) as [k2 Hk2].
        rewrite Hk1, Hk2. cbn [of_opt mbind res_bind].
        destruct (skip && bool_decide (k1 ∩ k2 = ∅)) eqn:Es.
        { eexists. split; [done|]. split; [done|]. intros ->. done. }
        destruct (assess_ok k1 k2 i j st Hi Hj Hne Hk1 Hk2 H1) as (o & st' & Has & A1 & A2 & A3 & A4 & A5); [by eapply grows_sized|done|].
        rewrite Has. cbn [mbind res_bind]. eexists. split; [done|]. simpl.
        assert (Hne' : b_path st' = None -> match o with Some c => cands ++ [c] | None => cands end <> []).
        { intros Hn. destruct (A5 Hn) as [Hn0 Ho]. destruct o as [c|]; [by destruct cands|]. destruct (H5 Hn0) as [?|Hp]; [done|]. by destruct (Ho Hp). }
        split; [|by intros _].
        split; [done|]. split; [by eapply grows_trans|]. split; [done|]. split; [|intros Hn; left; by apply Hne'].
        assert (Hc : Forall (cand_ok av st') cands) by (eapply Forall_impl; [exact H4|]; intros c Hc; by eapply cand_ok_grows).
        simpl. destruct o as [c|]; [|done]. apply Forall_app. split; [done|]. constructor; [by apply A4|done]. }
      assert (HI0 : I ([], st0)).
      { split; [done|]. split; [apply grows_refl|]. split; [intros Hn m Hm; apply Hop; [done|lia]|]. split; [constructor|]. intros Hn. right. by apply Hop. }
      assert (Hgen : forall l acc, (forall ij, ij ∈ l -> ij ∈ combos2 (ordI (list_to_set av))) -> I acc -> exists acc', foldM_res (assess_pair P ordI output d mem skip p inputs (list_to_set av) flops size) acc l = Ok acc' /\ I acc' /\
         (skip = false -> l <> [] \/ acc.1 <> [] -> b_path acc'.2 = None -> acc'.1 <> [])).
      { induction l as [|ij l IH]; intros acc Hl HI; simpl.
        - exists acc. split; [done|]. split; [done|]. intros Hs [?|?] _; done.
        - destruct (Hstep acc ij HI) as (acc1 & -> & HI1 & Hs1); [apply Hl; left|]. cbn [mbind res_bind].
          destruct (IH acc1) as (acc2 & H2 & HI2 & Hs2); [intros; apply Hl; by right|done|]. exists acc2. split; [done|]. split; [done|].
          intros Hsk _ Hn. destruct l as [|ij' l'].
          + simpl in H2. apply Ok_inj in H2 as <-. by apply Hs1.
          + apply Hs2; [done|by left|done]. }
      destruct (Hgen (combos2 (ordI (list_to_set av))) ([], st0)) as (acc & Hf & (I1 & I2 & I3 & I4 & I5) & Hs); [done|done|].
      exists acc. split; [done|]. split; [done|]. split; [done|]. split; [done|]. split; [done|]. intros Hn. destruct skip.
      - destruct (I5 Hn) as [?|?]; [by left|right; done].
      - left. apply Hs; [done| |done]. left. destruct (ordI (list_to_set av)) as [|x [|y l]] eqn:E; [| |done].
        + apply Permutation_length in Hord. simpl in Hord. lia.
        + apply Permutation_length in Hord. simpl in Hord. lia.
    Qed.
  End Level.

  Lemma branch_iterate_ok fuel p av inputs flops size st : at_prefix d n p av inputs -> 1 <= length av -> length av <= fuel ->
    br_ok st -> sized st inputs -> open_from (length inputs) st ->
    exists st', branch_iterate P ordI output d mem fuel p inputs (list_to_set av) flops size st = Ok st' /\ br_ok st' /\ grows st st' /\ b_path st' <> None.
  Proof.
    revert p av inputs flops size st. induction fuel as [|fuel IH]; intros p av inputs flops size st Hap Hav Hfuel Hst Hsz Hop; [lia|].
    destruct (ap_asc _ _ _ _ _ Hap) as [Ha Hlt]. simpl. rewrite size_av by by apply asc_NoDup. destruct (decide (length av = 1)) as [E|E].
    { eexists. split; [done|]. split; [|split; [by intros k|done]]. split; simpl; [apply Hst| |done]. intros ? [= <-]. by eapply complete_one. }
    assert (H2 : 2 <= length av) by lia.
    destruct (pass_ok p av inputs flops size Hap H2 true st Hsz Hst Hop) as ([cands st1] & Hf & A1 & A2 & A3 & A4 & A5). simpl in *. rewrite Hf. cbn [mbind res_bind].
    assert (Hsecond : exists cands2 st2, match cands with
                       | [] => foldM_res (assess_pair P ordI output d mem false p inputs (list_to_set av) flops size) ([], st1) (combos2 (ordI (list_to_set av)))
                       | _ => Ok (cands, st1) end = Ok (cands2, st2) /\ br_ok st2 /\ grows st1 st2 /\ open_from (S (length inputs)) st2 /\ Forall (cand_ok av st2) cands2 /\ (b_path st2 = None -> cands2 <> [])).
    { destruct cands as [|c cands].
      - destruct (pass_ok p av inputs flops size Hap H2 false st1) as ([cands2 st2] & Hf2 & B1 & B2 & B3 & B4 & B5); [by eapply grows_sized|done| |].
        { intros Hn m Hm. destruct (decide (m = length inputs)) as [->|Hne]; [|apply A3; [done|lia]]. destruct (A5 Hn) as [?|[_ ?]]; done. }
        exists cands2, st2. repeat (split; [done|]). intros Hn. destruct (B5 Hn) as [?|[? _]]; done.
      - exists (c :: cands), st1. split; [done|]. split; [done|]. split; [apply grows_refl|]. done. }
    destruct Hsecond as (cands2 & st2 & -> & B1 & B2 & B3 & B4 & B5). cbn [mbind res_bind].
    set (todo := match bb_nbranch P with None => heap_order cands2 | Some b => take b (heap_order cands2) end).
    assert (Htodo : forall c, c ∈ todo -> cand_ok av st2 c).
    { rewrite Forall_forall in B4. intros c Hc. apply B4. unfold heap_order in todo. rewrite <-(merge_sort_Permutation cand_le cands2). unfold todo in Hc.
      destruct (bb_nbranch P); [|done]. unfold heap_order in Hc. eapply elem_of_submseteq; [exact Hc|]. apply sublist_submseteq, sublist_take. }
    assert (Hne : b_path st2 = None -> todo <> []).
    { intros Hn. specialize (B5 Hn). assert (Hl : length (heap_order cands2) = length cands2) by (unfold heap_order; by rewrite merge_sort_Permutation).
      unfold todo. destruct (bb_nbranch P) as [[|b]|] eqn:Eb; [done| |]; destruct (heap_order cands2); destruct cands2; simpl in *; try done; lia. }
    assert (Hgen : forall l s, (forall c, c ∈ l -> cand_ok av s c) -> sized s inputs -> br_ok s -> open_from (S (length inputs)) s ->
      exists s', foldM_res (fun st c => branch_iterate P ordI output d mem fuel (p ++ [[c_i c; c_j c]]) (inputs ++ [c_k12 c])
                                 (list_to_set av ∖ {[c_i c; c_j c]} ∪ {[length inputs]}) (c_flops c) (c_size c) st) s l = Ok s' /\
        br_ok s' /\ grows s s' /\ (l <> [] \/ b_path s <> None -> b_path s' <> None)).
    { induction l as [|c l IHl]; intros s Hl Hss Hs Hos; simpl.
      - exists s. split; [done|]. split; [done|]. split; [apply grows_refl|]. intros [?|?]; done.
      - destruct (Hl c) as [C1 C2 C3 C4 C5]; [left|].
        pose proof (filter_length_step ordI ordI_ok av (c_i c) (c_j c) (length inputs) (asc_NoDup _ Ha) C1 C2 C3) as Hfl.
        rewrite (remaining_step ordI ordI_ok).
        destruct (IH (p ++ [[c_i c; c_j c]]) (filter (.∉ [c_i c; c_j c]) av ++ [length inputs]) (inputs ++ [c_k12 c]) (c_flops c) (c_size c) s) as (s1 & -> & S1 & S2 & S3).
        + by apply (ap_step ordI ordI_ok).
        + lia.
        + lia.
        + done.
        + intros k [Hk|Hk]%elem_of_app; [by apply Hss|]. apply elem_of_list_singleton in Hk as ->. done.
        + rewrite app_length. simpl. by rewrite Nat.add_1_r.
        + cbn [mbind res_bind]. destruct (IHl s1) as (s2 & -> & T1 & T2 & T3).
          * intros c' Hc'. eapply cand_ok_grows; [exact S2|]. apply Hl. by right.
          * by eapply grows_sized.
          * done.
          * intros Hn. done.
          * exists s2. split; [done|]. split; [done|]. split; [by eapply grows_trans|]. intros _. apply T3. by right. }
    destruct (Hgen todo st2 Htodo) as (st3 & Hf3 & C1 & C2 & C3); [by eapply grows_sized; [|eapply grows_sized]|done|done|].
    exists st3. split; [exact Hf3|]. split; [done|]. split; [by eapply grows_trans; [|eapply grows_trans]|]. apply C3.
    destruct (b_path st2) eqn:En; [by right|left; by apply Hne].
  Qed.
End Ok.

Definition inst_ok (b : bb_inst) (n : nat) : Prop :=
  (forall p, bi_path b = Some p -> ssa_complete n p) /\ (bi_path b = None -> bi_flops b = None /\ bi_size b = None /\ bi_progress b = ∅).
Lemma mapM_sizes inputs d : Forall (labels_in d) inputs -> exists l, mapM_res (fun k => s ← set_size k d; Ok (k, s)) inputs = Ok l /\ l.*1 = inputs.
Proof.
  induction 1 as [|k inputs Hk _ (l & Hl & IH)]; [by exists []|]. simpl. destruct (set_size_ok d k Hk) as [s ->]. cbn [mbind res_bind]. rewrite Hl. cbn [mbind res_bind].
  exists ((k, s) :: l). split; [done|]. by rewrite fmap_cons, IH.
Qed.
Lemma bb_call_ok P ordI b inputs output d mem : (forall s, ordI s ≡ₚ elements s) -> bb_nbranch P <> Some 0 -> inputs <> [] -> Forall (labels_in d) inputs ->
  inst_ok b (length inputs) -> (bi_args b = None \/ bi_args b = Some (inputs, output, d)) ->
  exists p b', bb_call P ordI b inputs output d mem = Ok (p, b') /\ path_runs (length inputs) p /\ inst_ok b' (length inputs) /\ bi_args b' = Some (inputs, output, d).
Proof.
  intros Ho Hb Hne Hd [Hi1 Hi2] Hargs. unfold bb_call.
  assert (Hc : check_args (bi_args b) (inputs, output, d) = Ok (inputs, output, d)).
  { unfold check_args. destruct Hargs as [-> | ->]; [done|]. by rewrite decide_True. }
  rewrite Hc. cbn [mbind res_bind]. destruct (mapM_sizes inputs d Hd) as (l & -> & Hl). cbn [mbind res_bind]. unfold range_set.
  destruct (branch_iterate_ok P ordI Ho Hb output d mem (length inputs) (S (length inputs)) [] (seq 0 (length inputs)) inputs 0 0
    (BrState (bi_flops b) (bi_size b) (bi_path b) (bi_progress b) (list_to_map l) ∅ (bi_calls b))) as (st & -> & [S1 S2 S3] & _ & Hp).
  - by apply at_start.
  - rewrite seq_length. destruct inputs; [done|simpl; lia].
  - rewrite seq_length. lia.
  - split; simpl; [intros k1 k2 k f; by rewrite lookup_empty|done|]. intros Hn. destruct (Hi2 Hn) as (? & ? & _). done.
  - intros k Hk. simpl. rewrite <-Hl in Hk. destruct ((list_to_map l : gmap (gset N) nat) !! k) eqn:E; [eauto|].
    by apply not_elem_of_list_to_map in E.
  - intros Hn m _. simpl in *. destruct (Hi2 Hn) as (_ & _ & ->). by rewrite lookup_empty.
  - cbn [mbind res_bind]. destruct (b_path st) as [best|] eqn:Eb; [|done]. cbn [of_opt mbind res_bind].
    destruct (ssa_to_linear_ok _ _ (S2 best eq_refl)) as (lp & -> & Hr & _). cbn [mbind res_bind]. eexists _, _. split; [done|]. split; [done|].
    split; [|done]. split; simpl; [|congruence]. intros q Hq. by apply S2.
Qed.
Lemma branch_complete P ordI inputs output d mem : (forall s, ordI s ≡ₚ elements s) -> bb_nbranch P <> Some 0 -> inputs <> [] -> Forall (labels_in d) inputs ->
  exists p, branch P ordI inputs output d mem = Ok p /\ path_runs (length inputs) p.
Proof.
  intros Ho Hb Hne Hd. unfold branch. rewrite decide_False by done. destruct (bb_call_ok P ordI bb_fresh inputs output d mem Ho Hb Hne Hd) as (p & b' & -> & Hr & _).
  - split; simpl; [done|]. done.
  - by left.
  - cbn [mbind res_bind]. eauto.
Qed.

(** Histories: the first call fixes the contraction. *)
Lemma bb_history_ok P ordI calls b first : (forall s, ordI s ≡ₚ elements s) -> bb_nbranch P <> Some 0 ->
  Forall (fun c : bb_call_args => c.1.1.1 <> [] /\ Forall (labels_in c.1.2) c.1.1.1) calls ->
  inst_ok b (length first.1.1) -> (bi_args b = Some first \/ bi_args b = None /\ forall c, head calls = Some c -> c.1 = first) ->
  Forall2 (fun (c : bb_call_args) r => if decide (c.1 = first) then exists p, r = Ok p /\ path_runs (length c.1.1.1) p else r = Err ValueError) calls (bb_history P ordI b calls).
Proof.
  intros Ho Hb Hc. revert b. induction Hc as [|[[[inputs output] d] mem] calls [Hne Hd] Hc IH]; intros b Hi Ha; [constructor|].
  cbn [bb_history fst snd] in *. destruct (decide ((inputs, output, d) = first)) as [<-|Hneq].
  - destruct (bb_call_ok P ordI b inputs output d mem Ho Hb Hne Hd Hi) as (p & b' & -> & Hr & Hi' & Ha'); [destruct Ha as [?|[? _]]; auto|].
    constructor; [cbn [fst snd]; rewrite decide_True by done; eauto|]. apply IH; [done|by left].
  - assert (Ha' : bi_args b = Some first) by (destruct Ha as [?|[_ Hh]]; [done|]; destruct Hneq; apply (Hh _ eq_refl)).
    assert (He : bb_call P ordI b inputs output d mem = Err ValueError) by (unfold bb_call, check_args; rewrite Ha', decide_False by done; done).
    rewrite He. constructor; [cbn [fst]; by rewrite decide_False|]. apply IH; [done|by left].
Qed.
