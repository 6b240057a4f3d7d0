(** Property C56: the numbers of a PathInfo against the cost of the contraction in one step; statements, each with a concrete instance. *)
From Verif Require Import Prelude Einsum EinsumFacts EinsumOps Parser Helpers Contract Spec PathSpec StepFacts ContractFacts PathFacts StringFacts ParserFacts ParseSpec ParseProof ParseSound TopFacts ContractMain RenameFacts SymbolFacts ShapeFacts ArgFacts RefBackend PropsContract PropsPaths PropsBranch Ssa SsaSpec SsaFacts SsaMore Optimal OptimalFacts OptimalBest Branch BranchFacts Greedy GreedyFacts Random RandomSpec RandomFacts FinderFacts PropsRandom.

(** ** C56 *)
Lemma volume_half (D : N -> nat) (A B : gset N) : (forall c, c ∈ B -> 2 <= D c) -> A ⊆ B -> A <> B -> 2 * volume D A <= volume D B.
Proof.
  intros H1 Hs Hne. unfold volume. assert (Hd : B ∖ A <> ∅) by (intros E; apply Hne, (anti_symm (⊆)); [done|]; intros c Hc; destruct (decide (c ∈ A)); [done|]; exfalso; apply (not_elem_of_empty (C:=gset N) c); rewrite <-E; by apply elem_of_difference). apply set_choose_L in Hd as [c Hc].
  assert (Hp : elements B ≡ₚ c :: elements (B ∖ {[c]})).
  { assert (Hc' : c ∈ B) by set_solver. rewrite (union_difference_L {[c]} B) at 1 by set_solver. rewrite elements_disj_union by set_solver. by rewrite elements_singleton. }
  rewrite (prod_list_perm (D <$> elements B) (D <$> (c :: elements (B ∖ {[c]})))) by (by rewrite Hp). rewrite fmap_cons.
  change (2 * prod_list (D <$> elements A) <= D c * prod_list (D <$> elements (B ∖ {[c]}))).
  assert (Hg : volume D A <= volume D (B ∖ {[c]})) by (apply volume_grows; [intros c' [Hc' _]%elem_of_difference; specialize (H1 c' Hc'); lia|set_solver]). unfold volume in Hg.
  assert (2 <= D c) by (apply H1; set_solver). nia.
Qed.
Section Speed.
  Variable D : N -> nat.
  Variable out : gset N.
  Lemma next_union s (sets : list (gset N)) : union_all (others s sets ++ [kept out s sets]) ⊆ union_all sets /\
    (kept out s sets <> union_all (chosen s sets) -> union_all (others s sets ++ [kept out s sets]) <> union_all sets).
  Proof.
    pose proof (chosen_others_perm s sets) as Hp. assert (Hco : forall c, c ∈ union_all sets <-> c ∈ union_all (chosen s sets) \/ c ∈ union_all (others s sets)).
    { assert (He : forall k, k ∈ sets <-> k ∈ chosen s sets \/ k ∈ others s sets) by (intros k; by rewrite <-Hp at 1; rewrite elem_of_app).
      intros c. rewrite !elem_union_all. setoid_rewrite He. naive_solver. }
    assert (Hnx : forall c, c ∈ union_all (others s sets ++ [kept out s sets]) <-> c ∈ union_all (others s sets) \/ c ∈ kept out s sets).
    { intros c. rewrite !elem_union_all. setoid_rewrite elem_of_app. setoid_rewrite elem_of_list_singleton. naive_solver. }
    split; [intros c; rewrite Hnx, Hco; unfold kept; set_solver|]. intros Hne E. apply Hne. apply set_eq. intros c. split; [unfold kept; set_solver|]. intros Hc.
    assert (Hc' : c ∈ union_all (others s sets ++ [kept out s sets])) by (rewrite E; apply Hco; by left). apply Hnx in Hc' as [Hc'|Hc']; [|done]. unfold kept. set_solver.
  Qed.
  Lemma chosen_union s (sets : list (gset N)) : union_all (chosen s sets) ⊆ union_all sets.
  Proof. intros c. rewrite !elem_union_all. intros (k & Hk & Hc). exists k. split; [|done]. rewrite <-(chosen_others_perm s sets) at 1. apply elem_of_app. by left. Qed.

  Lemma speed p (sets : list (gset N)) : path_runs (length sets) p -> Forall (fun s => 2 <= length s) p -> (forall c, c ∈ union_all sets -> 2 <= D c) ->
    sum_list (step_cost D <$> replay out p sets) <= volume D (union_all sets) * (match p with [] => 0 | _ => length sets end).
  Proof.
    revert sets. induction p as [|s p IH]; intros sets Hr H2 Hd; [cbn; lia|]. destruct Hr as (_ & Hnd & Hlt & Hr). apply Forall_cons in H2 as [Hs H2]. cbn [replay]. rewrite fmap_cons. cbn [sum_list foldr].
    change (sum_list (?x :: ?l)) with (x + sum_list l). set (nx := others s sets ++ [kept out s sets]).
    destruct (next_union s sets) as [Hsub Hneq]. fold nx in Hsub, Hneq.
    assert (Hlen : length nx = length sets - length s + 1) by (unfold nx; rewrite app_length, others_length by done; simpl; lia).
    assert (Hle : length s <= length sets).
    { transitivity (length (chosen s sets)); [by rewrite chosen_length|]. pose proof (Permutation_length (chosen_others_perm s sets)) as Hp. rewrite app_length in Hp. lia. }
    specialize (IH nx). rewrite Hlen in IH. specialize (IH Hr H2 (fun c Hc => Hd c (Hsub c Hc))).
    assert (Hu : volume D (union_all (chosen s sets)) <= volume D (union_all sets)) by (apply volume_grows; [intros c Hc; specialize (Hd c Hc); lia|apply chosen_union]).
    unfold step_cost at 1. cbn [fst snd]. rewrite chosen_length by done. set (V := volume D (union_all sets)) in *. set (U := volume D (union_all (chosen s sets))) in *.
    assert (Hm : Nat.max 1 (length s - 1) = length s - 1) by lia. rewrite Hm. clear Hm.
    destruct (decide (kept out s sets = union_all (chosen s sets))) as [E|E].
    - assert (Hw : volume D (union_all nx) <= V) by (apply volume_grows; [intros c Hc; specialize (Hd c Hc); lia|done]). set (W := volume D (union_all nx)) in *.
      assert (Hrest : sum_list (step_cost D <$> replay out p nx) <= V * (length sets - length s + 1)) by (etransitivity; [exact IH|]; destruct p; [lia|]; by apply Nat.mul_le_mono_r).
      assert (Hx : U * (length s - 1) <= V * (length s - 1)) by by apply Nat.mul_le_mono_r. 
      assert (Hy : V * length sets = V * (length s - 1) + V * (length sets - length s + 1)) by (rewrite <-Nat.mul_add_distr_l; f_equal; lia).
      rewrite Hy, Nat.add_0_r. by apply Nat.add_le_mono.
    - assert (Hw : 2 * volume D (union_all nx) <= V) by (apply volume_half; auto). set (W := volume D (union_all nx)) in *.
      assert (Hrest : sum_list (step_cost D <$> replay out p nx) <= V * (length sets - length s)).
      { destruct p as [|s' p]; [apply Nat.le_0_l|]. destruct Hr as (_ & Hnd' & Hlt' & _). apply Forall_cons in H2 as [Hs' _].
        assert (length s' <= length nx). { transitivity (length (chosen s' nx)); [by rewrite chosen_length; [|done|by rewrite Hlen]|]. pose proof (Permutation_length (chosen_others_perm s' nx)) as Hp. rewrite app_length in Hp. lia. }
        etransitivity; [exact IH|]. rewrite Hlen in *. set (r := length sets - length s) in *. assert (1 <= r) by lia. nia. }
      assert (Hx : U * (length s - 1 + 1) <= V * (length s - 1 + 1)) by by apply Nat.mul_le_mono_r.
      assert (Hy : V * length sets = V * (length s - 1 + 1) + V * (length sets - length s)) by (rewrite <-Nat.mul_add_distr_l; f_equal; lia).
      rewrite Hy. by apply Nat.add_le_mono.
  Qed.
  (** Nothing is summed: one operation less. *)
  Lemma speed_outer p (sets : list (gset N)) : path_runs (length sets) p -> Forall (fun s => 2 <= length s) p -> (forall c, c ∈ union_all sets -> 1 <= D c) -> union_all sets ⊆ out ->
    sum_list (step_cost D <$> replay out p sets) <= volume D (union_all sets) * (length sets - 1).
  Proof.
    revert sets. induction p as [|s p IH]; intros sets Hr H2 Hd Ho; [apply Nat.le_0_l|]. destruct Hr as (_ & Hnd & Hlt & Hr). apply Forall_cons in H2 as [Hs H2]. cbn [replay]. rewrite fmap_cons.
    change (sum_list (?x :: ?l)) with (x + sum_list l). set (nx := others s sets ++ [kept out s sets]).
    destruct (next_union s sets) as [Hsub _]. fold nx in Hsub.
    assert (Hlen : length nx = length sets - length s + 1) by (unfold nx; rewrite app_length, others_length by done; simpl; lia).
    assert (Hle : length s <= length sets).
    { transitivity (length (chosen s sets)); [by rewrite chosen_length|]. pose proof (Permutation_length (chosen_others_perm s sets)) as Hp. rewrite app_length in Hp. lia. }
    specialize (IH nx). rewrite Hlen in IH. specialize (IH Hr H2 (fun c Hc => Hd c (Hsub c Hc)) (transitivity Hsub Ho)).
    assert (Hu : volume D (union_all (chosen s sets)) <= volume D (union_all sets)) by (apply volume_grows; [done|apply chosen_union]).
    assert (Hw : volume D (union_all nx) <= volume D (union_all sets)) by (by apply volume_grows).
    unfold step_cost at 1. cbn [fst snd]. rewrite chosen_length by done. rewrite decide_True by (pose proof (chosen_union s sets); unfold kept; set_solver). rewrite Nat.add_0_r.
    set (V := volume D (union_all sets)) in *. set (U := volume D (union_all (chosen s sets))) in *. set (W := volume D (union_all nx)) in *.
    assert (Hx : U * Nat.max 1 (length s - 1) <= V * (length s - 1)) by (rewrite Nat.max_r by lia; by apply Nat.mul_le_mono_r).
    assert (Hz : W * (length sets - length s + 1 - 1) <= V * (length sets - length s)) by (rewrite Nat.add_sub; by apply Nat.mul_le_mono_r).
    assert (Hy : V * (length sets - 1) = V * (length s - 1) + V * (length sets - length s)) by (rewrite <-Nat.mul_add_distr_l; f_equal; lia).
    rewrite Hy. apply Nat.add_le_mono; [done|]. by etransitivity.
  Qed.
  Lemma sizes_below p (sets : list (gset N)) : (forall c, c ∈ union_all sets -> 1 <= D c) ->
    Forall (fun st => size (union_all st.1) <= size (union_all sets) /\ volume D st.2 <= volume D (union_all sets)) (replay out p sets).
  Proof.
    revert sets. induction p as [|s p IH]; intros sets Hd; [constructor|]. cbn [replay]. destruct (next_union s sets) as [Hsub _]. constructor.
    - cbn [fst snd]. split; [apply subseteq_size, chosen_union|]. apply volume_grows; [done|]. pose proof (chosen_union s sets). unfold kept. set_solver.
    - eapply Forall_impl; [apply IH; intros c Hc; by apply Hd, Hsub|]. intros st [H1 H2]. split; [|etransitivity; [exact H2|by apply volume_grows]].
      etransitivity; [exact H1|]. by apply subseteq_size.
  Qed.
End Speed.

(** Paths whose steps take two or more operands. *)
Definition wide (p : path) : Prop := Forall (fun st => 2 <= length st) p.
Definition finder_wide (f : finder) : Prop := forall sets out d mem p, 2 < length sets -> labelled d sets out -> f sets out d mem = Ok p -> wide p.
Lemma wide_lengths (p q : path) : length <$> p = length <$> q -> wide p -> wide q.
Proof. revert q. induction p as [|s p IH]; intros [|t q] H Hp; try discriminate; [constructor|]. rewrite !fmap_cons in H. injection H as H1 H2. apply Forall_cons in Hp as [Hs Hp]. constructor; [lia|by apply IH]. Qed.
Lemma s2l_wide p lp : ssa_to_linear p = Ok lp -> wide p -> wide lp.
Proof. intros H%s2l_lengths. by apply wide_lengths. Qed.
Lemma pairwise_wide p : pairwise p -> wide p.
Proof. intros H. eapply Forall_impl; [exact H|]. intros s ->. lia. Qed.
Lemma combos2_two {A} (l : list A) x : x ∈ combos2 l -> 2 <= length l.
Proof. destruct l as [|a [|b l]]; simpl; [by intros ?%elem_of_nil|by intros ?%elem_of_nil|lia]. Qed.
Section Wide.
  Variable ordI : gset nat -> list nat.
  Variables (out : gset N) (d : sizes) (mem : option nat).
  Lemma optimal_wide fuel : forall p rem inputs flops st st', optimal_iterate ordI out d mem fuel p rem inputs flops st = Ok st' -> wide p -> wide (o_path st) -> wide (o_path st').
  Proof.
    induction fuel as [|fuel IH]; intros p rem inputs flops st st' H Hp Hst; [done|]. cbn [optimal_iterate] in H. destruct (decide (size rem = 1)); [by apply Ok_inj in H as <-|].
    assert (Hl : forall x, x ∈ combos2 (ordI rem) -> 2 <= length (ordI rem)) by (intros x; apply combos2_two). revert st H Hst.
    generalize dependent (combos2 (ordI rem)). intros l Hl. induction l as [|[i0 j0] l IHl]; intros st H Hst; [by apply Ok_inj in H as <-|].
    cbn [foldM_res] in H. apply bind_Ok in H as (st1 & H1 & H). apply (IHl (fun x Hx => Hl x (elem_of_list_further _ _ _ Hx)) st1 H). clear H IHl.
    unfold optimal_pair in H1. set (ij := if _ <? _ then _ else _) in H1. destruct ij as [i j]. apply bind_Ok in H1 as (k1 & _ & H1). apply bind_Ok in H1 as (k2 & _ & H1).
    apply bind_Ok in H1 as ([[k12 c12] rs] & _ & H1). cbn [o_flops o_path o_sizes o_results] in H1. destruct (negb _); [by apply Ok_inj in H1 as <-|].
    assert (Hp' : wide (p ++ [[i; j]])) by (apply Forall_app; split; [done|by repeat constructor]).
    destruct mem as [limit|]; [|by eapply IH]. apply bind_Ok in H1 as ([sz ca] & _ & H1). cbn [o_flops o_path o_sizes o_results] in H1.
    destruct (limit <? sz); [|by eapply IH]. apply bind_Ok in H1 as (over & _ & H1). destruct (lt_inf _ _); apply Ok_inj in H1 as <-; [|done]. apply Forall_app. split; [done|].
    apply Forall_singleton. eapply Hl. by left.
  Qed.
  Variable P : bb_params.
  Definition opt_wide (o : option path) : Prop := match o with None => True | Some p => wide p end.
  Lemma assess_wide p inputs rem flops sz k1 k2 i j st o st' : assess P ordI out d mem p inputs rem flops sz k1 k2 i j st = Ok (o, st') ->
    wide p -> 2 <= length (ordI rem) -> opt_wide (b_path st) -> opt_wide (b_path st').
  Proof.
    intros H Hp Hl Hst. unfold assess in H. apply bind_Ok in H as ([[k12 c12] rs] & _ & H). apply bind_Ok in H as ([s12 ca] & _ & H). cbn [b_flops b_size b_path b_progress b_sizes b_results b_calls] in H.
    destruct (negb _); [by apply Ok_inj in H as [= <- <-]|]. destruct (_ && _); [by apply Ok_inj in H as [= <- <-]|].
    match type of H with context [if ?b then BrState _ _ _ _ _ _ _ else _] => set (st1 := if b then _ else _) in H; assert (Hst1 : b_path st1 = b_path st) by (unfold st1; by destruct b) end. clearbody st1.
    destruct (match mem with None => false | Some limit => limit <? s12 end).
    - apply bind_Ok in H as (over & _ & H). destruct (lt_inf _ _); apply Ok_inj in H as [= <- <-]; [|by rewrite Hst1]. simpl. apply Forall_app. split; [done|]. by apply Forall_singleton.
    - apply bind_Ok in H as (x & _ & H). apply bind_Ok in H as (y & _ & H). apply Ok_inj in H as [= <- <-]. simpl. by rewrite Hst1.
  Qed.
  Lemma pass_wide skip p inputs rem flops sz l : wide p -> (l <> [] -> 2 <= length (ordI rem)) -> forall acc acc',
    foldM_res (assess_pair P ordI out d mem skip p inputs rem flops sz) acc l = Ok acc' -> opt_wide (b_path acc.2) -> opt_wide (b_path acc'.2).
  Proof.
    intros Hp Hl. induction l as [|[i0 j0] l IHl]; intros acc acc' H Hst; [by apply Ok_inj in H as <-|]. cbn [foldM_res] in H. apply bind_Ok in H as (acc1 & H1 & H).
    apply (IHl (fun _ => Hl ltac:(done)) acc1 acc' H). destruct acc as [cs st]. unfold assess_pair in H1. set (ij := if _ <? _ then _ else _) in H1. destruct ij as [i j].
    apply bind_Ok in H1 as (k1 & _ & H1). apply bind_Ok in H1 as (k2 & _ & H1). destruct (_ && _); [by apply Ok_inj in H1 as <-|]. apply bind_Ok in H1 as ([o st1] & H1 & H2). apply Ok_inj in H2 as <-.
    simpl. eapply assess_wide; [exact H1|done|by apply Hl|done].
  Qed.
  Lemma branch_wide fuel : forall p inputs rem flops sz st st', branch_iterate P ordI out d mem fuel p inputs rem flops sz st = Ok st' -> wide p -> opt_wide (b_path st) -> opt_wide (b_path st').
  Proof.
    induction fuel as [|fuel IH]; intros p inputs rem flops sz st st' H Hp Hst; [done|]. cbn [branch_iterate] in H. destruct (decide (size rem = 1)); [by apply Ok_inj in H as <-|].
    assert (Hl : combos2 (ordI rem) <> [] -> 2 <= length (ordI rem)).
    { intros Hne. destruct (combos2 (ordI rem)) as [|x l] eqn:E; [done|]. apply (combos2_two _ x). rewrite E. by left. }
    apply bind_Ok in H as ([cs st1] & H1 & H). apply (pass_wide _ _ _ _ _ _ _ Hp Hl) in H1; [|done]. apply bind_Ok in H as ([cs2 st2] & H2 & H).
    assert (Hst2 : opt_wide (b_path st2)) by (destruct cs; [by apply (pass_wide _ _ _ _ _ _ _ Hp Hl) in H2|by apply Ok_inj in H2 as [= <- <-]]). clear H1 H2.
    set (todo := match bb_nbranch P with None => _ | Some b => _ end) in H. clearbody todo. revert st2 H Hst2. induction todo as [|c todo IHt]; intros st2 H Hst2; [by apply Ok_inj in H as <-|].
    cbn [foldM_res] in H. apply bind_Ok in H as (st3 & H3 & H). apply (IHt st3 H). eapply IH; [exact H3| |done]. apply Forall_app; split; [done|by repeat constructor].
  Qed.
End Wide.
Lemma optimal_finder_wide ordI : finder_wide (optimal ordI).
Proof.
  intros sets out d mem p Hn _ H. unfold optimal in H. apply bind_Ok in H as (st & H1 & H). eapply s2l_wide; [exact H|]. eapply optimal_wide; [exact H1|constructor|]. simpl. repeat constructor. rewrite seq_length. lia.
Qed.
Lemma branch_finder_wide P ordI : finder_wide (branch P ordI).
Proof.
  intros sets out d mem p Hn _ H. unfold branch in H. destruct (decide _); [done|]. apply bind_Ok in H as ([p' b] & H & Hp). apply Ok_inj in Hp as <-. unfold bb_call in H.
  apply bind_Ok in H as (args & _ & H). apply bind_Ok in H as (cache & _ & H). apply bind_Ok in H as (st & H1 & H). apply bind_Ok in H as (best & Hb & H). apply bind_Ok in H as (lp & Hlp & H).
  apply Ok_inj in H as [= <- <-]. eapply s2l_wide; [exact Hlp|]. apply branch_wide in H1; [|constructor|done]. destruct (b_path st) as [q|]; [|done]. by apply Ok_inj in Hb as <-.
Qed.
Lemma greedy_finder_wide cost_fn choose_fn ordI : match choose_fn with None => True | Some ch => chooser_ok ch end -> finder_wide (greedy cost_fn choose_fn ordI).
Proof.
  intros Hch sets out d [m|] p Hn Hl H; unfold greedy in H; [by eapply branch_finder_wide|]. apply bind_Ok in H as (q & Hq & H). eapply s2l_wide; [exact H|].
  destruct (greedy_ssa_ok cost_fn choose_fn sets out d) as (q' & Hq' & _ & Hp); [done|by intros ->|apply Forall_forall; intros k Hk c; by apply Hl|]. assert (q' = q) as -> by congruence.
  apply pairwise_wide, Hp. lia.
Qed.
Lemma random_finder_wide reps E : env_ok E -> 1 <= reps -> finder_wide (random_greedy reps (en_draws E)).
Proof.
  intros HE Hr sets out d mem p Hn Hl H. destruct (random_greedy_ok reps (en_draws E) sets out d mem) as (q & Hq & _ & Hp); [lia|done|apply Forall_forall; intros k Hk c; by apply Hl|by apply eo_pick|].
  assert (q = p) as -> by congruence. by apply pairwise_wide.
Qed.
Lemma auto_finder_wide E : env_ok E -> finder_wide (auto E).
Proof.
  intros HE sets out d mem p Hn Hl H. unfold auto in H. repeat case_decide; [exact (optimal_finder_wide (en_ord E) sets out d mem p Hn Hl H)| | | |exact (greedy_finder_wide cost_memory_removed None (en_ord E) I sets out d mem p Hn Hl H)];
    unfold branch_n in H; exact (branch_finder_wide _ (en_ord E) sets out d mem p Hn Hl H).
Qed.
Lemma safe_wide E n : env_ok E -> n ∈ safe_names -> exists f, lookup_fn (all_options E) n = Some f /\ finder_wide f.
Proof.
  intros HE Hn. unfold safe_names in Hn.
  apply elem_of_cons in Hn as [->|Hn]; [exists (auto E); split; [lookup|by apply auto_finder_wide]|].
  apply elem_of_cons in Hn as [->|Hn]; [exists (optimal (en_ord E)); split; [lookup|apply optimal_finder_wide]|].
  apply elem_of_cons in Hn as [->|Hn]; [exists (branch_n None E); split; [lookup|exact (branch_finder_wide _ (en_ord E))]|].
  apply elem_of_cons in Hn as [->|Hn]; [exists (branch_n (Some 2) E); split; [lookup|exact (branch_finder_wide _ (en_ord E))]|].
  apply elem_of_cons in Hn as [->|Hn]; [exists (branch_n (Some 1) E); split; [lookup|exact (branch_finder_wide _ (en_ord E))]|].
  do 3 (apply elem_of_cons in Hn as [->|Hn]; [exists (greedy_default E); split; [lookup|exact (greedy_finder_wide cost_memory_removed None (en_ord E) I)]|]).
  apply elem_of_cons in Hn as [->|Hn]; [exists (random_greedy 32 (en_draws E)); split; [lookup|apply random_finder_wide; [done|lia]]|].
  apply elem_of_cons in Hn as [->|Hn]; [exists (random_greedy 128 (en_draws E)); split; [lookup|apply random_finder_wide; [done|lia]]|].
  by apply elem_of_nil in Hn.
Qed.

(** With every dimension at least two, no path whose steps contract two or more operands costs more than contracting everything in one step, as
    long as some label is on two of the operands or nothing is summed over. *)
Theorem C56_speedup_partial (K : semiring) (B : backend K) (ord : gset N -> list N) (use_blas : bool) (opt : optimize_arg) (mem : memory_arg) (s : str)
    (ops : list (tensor K)) (inp out : str) (info : path_info) :
  backend_ok B -> (forall x, ord x ≡ₚ elements x) ->
  parse_einsum_input s (shape <$> ops) = Ok (inp, out) -> c_comma ∉ out ->
  let ts := split s_comma inp in let tops := zip ts ops in let sets := list_to_set <$> ts : list (gset N) in
  good tops -> mem_valid mem -> strategy_ok opt (length ops) ->
  (forall c, c ∈ labels_of tops -> 2 <= dim tops c) ->
  (exists i j A A' c, i < j /\ sets !! i = Some A /\ sets !! j = Some A' /\ c ∈ A /\ c ∈ A') \/ union_all sets ⊆ list_to_set out ->
  contract_path ord use_blas opt mem s (shape <$> ops) = Ok info -> Forall (fun st => 2 <= length st) (pi_path info) ->
  pi_opt_cost info <= pi_naive_cost info.
Proof.
  intros HB Ho Hp Hcm ts tops sets Hg Hm Hs Hd Hsh Hinfo H2. pose proof (parse_guarantees _ _ _ _ Hp) as (_ & _ & Hlen & _). rewrite fmap_length in Hlen. fold ts in Hlen.
  destruct (C29_path_info K B ord use_blas opt mem s ops inp out) as (info' & Hi & [_ Hr] & [Hc _ _ _ Hn] & _); try done. assert (info' = info) as -> by congruence. clear Hi.
  fold ts tops sets in Hc, Hn. rewrite Hc, Hn. assert (Hsl : length sets = length ops) by (unfold sets; by rewrite fmap_length). rewrite <-Hsl in Hr.
  assert (Hd' : forall c, c ∈ union_all sets -> 2 <= dim tops c).
  { intros c (A & HA & Hc')%elem_union_all. apply Hd. apply elem_of_list_fmap in HA as (t & -> & Ht). apply elem_of_list_to_set in Hc'. apply elem_labels_zip; eauto. }
  assert (H1 : forall c, c ∈ union_all sets -> 1 <= dim tops c) by (intros c Hc'; specialize (Hd' c Hc'); lia).
  destruct Hsh as [Hsh|Hsh].
  - destruct (decide (shared_label sets)) as [_|Hno]; [|by destruct (Hno Hsh)].
    etransitivity; [by apply speed|]. apply Nat.mul_le_mono_l. destruct (pi_path info); lia.
  - etransitivity; [by apply speed_outer|]. apply Nat.mul_le_mono_l. lia.
Qed.
Print Assumptions C56_speedup_partial.
(** So every built-in option but the two that use dynamic programming never costs more, with any memory limit. *)
Theorem C56_options_partial (K : semiring) (B : backend K) (ord : gset N -> list N) (E : env) (use_blas : bool) (name : str) (mem : memory_arg) (s : str)
    (ops : list (tensor K)) (inp out : str) (info : path_info) :
  backend_ok B -> (forall x, ord x ≡ₚ elements x) -> env_ok E -> lower name ∈ safe_names -> 2 <= length ops ->
  parse_einsum_input s (shape <$> ops) = Ok (inp, out) -> c_comma ∉ out ->
  let ts := split s_comma inp in let tops := zip ts ops in let sets := list_to_set <$> ts : list (gset N) in
  good tops -> mem_valid mem ->
  (forall c, c ∈ labels_of tops -> 2 <= dim tops c) ->
  (exists i j A A' c, i < j /\ sets !! i = Some A /\ sets !! j = Some A' /\ c ∈ A /\ c ∈ A') \/ union_all sets ⊆ list_to_set out ->
  contract_path ord use_blas (named (all_options E) name) mem s (shape <$> ops) = Ok info -> pi_opt_cost info <= pi_naive_cost info.
Proof.
  intros HB Ho HE Hn Hlen Hp Hcm ts tops sets Hg Hm Hd Hsh Hinfo. apply (C56_speedup_partial K B ord use_blas (named (all_options E) name) mem s ops inp out info); try done.
  - apply total_strategy. intros sets' out' d m Hl Hlab. destruct (safe_lookup E _ HE Hn) as (f & Hf & Ht). unfold get_path_fn. rewrite Hf. cbn [of_opt mbind res_bind]. by apply Ht.
  - pose proof (parse_guarantees _ _ _ _ Hp) as (_ & Hsub & Hlt & _). rewrite fmap_length in Hlt.
    unfold contract_path in Hinfo. rewrite Hp in Hinfo. cbn [mbind res_bind] in Hinfo. unfold contract_path_parsed in Hinfo. cbv zeta in Hinfo. fold ts in Hinfo.
    apply bind_Ok in Hinfo as (d & Hbd & H). apply bind_Ok in H as (sl & _ & H). apply bind_Ok in H as (m & _ & H). apply bind_Ok in H as (naive & _ & H). apply bind_Ok in H as (p & Hpath & H).
    apply bind_Ok in H as (steps & _ & H). apply bind_Ok in H as (psh & _ & H). apply Ok_inj in H as <-. cbn [pi_path].
    unfold compute_path, named in Hpath. rewrite fmap_length in Hpath. destruct (length ts <=? 2) eqn:E2.
    + apply Ok_inj in Hpath as <-. constructor; [|constructor]. rewrite seq_length. fold ts in Hlt. lia.
    + destruct (safe_wide E _ HE Hn) as (f & Hf & Hw). unfold get_path_fn in Hpath. rewrite Hf in Hpath. cbn [of_opt mbind res_bind] in Hpath. apply Nat.leb_gt in E2.
      eapply Hw; [|  |exact Hpath]; [by rewrite fmap_length|]. 
      pose proof (build_size_dict_spec ts (shape <$> ops)) as Hds. rewrite Hbd in Hds. destruct Hds as [_ Hds]. rewrite sh_axes_ops in Hds. fold tops in Hds. split.
      * intros a c (t & -> & Ht)%elem_of_list_fmap Hc. apply elem_of_list_to_set in Hc. destruct Hg as [Hg1 Hg2 _ _]. unfold tops in Hg1, Hds. rewrite (sizes_of_dim d ts ops c); [by eexists|done| |done]. apply elem_labels_zip; eauto.
      * intros c Hc. apply elem_of_list_to_set in Hc. apply Hsub in Hc as Hci. apply elem_union_all. rewrite <-(join_split1 c_comma inp) in Hci.
        apply elem_of_join in Hci as [Hci|(t & Ht & Hct)]; [apply elem_of_list_singleton in Hci; congruence|]. exists (list_to_set t). split; [by apply elem_of_list_fmap_1|by apply elem_of_list_to_set].
Qed.
Print Assumptions C56_options_partial.
(** The scalings are bounded by the number of labels, the sizes by the product of all dimensions. *)
Theorem C56_bounds (K : semiring) (B : backend K) (ord : gset N -> list N) (use_blas : bool) (opt : optimize_arg) (mem : memory_arg) (s : str)
    (ops : list (tensor K)) (inp out : str) (info : path_info) :
  backend_ok B -> (forall x, ord x ≡ₚ elements x) ->
  parse_einsum_input s (shape <$> ops) = Ok (inp, out) -> c_comma ∉ out ->
  let ts := split s_comma inp in let tops := zip ts ops in let labels := list_to_set (labels_of tops) : gset N in
  good tops -> mem_valid mem -> strategy_ok opt (length ops) ->
  (forall c, c ∈ labels_of tops -> 1 <= dim tops c) ->
  contract_path ord use_blas opt mem s (shape <$> ops) = Ok info ->
  Forall (fun k => k <= size labels) (pi_scale_list info) /\ Forall (fun v => v <= volume (dim tops) labels) (pi_size_list info) /\ 
  pi_largest info <= volume (dim tops) labels /\ volume (dim tops) labels <= pi_naive_cost info.
Proof.
  intros HB Ho Hp Hcm ts tops labels Hg Hm Hs Hd Hinfo. pose proof (parse_guarantees _ _ _ _ Hp) as (_ & _ & Hlen & _). rewrite fmap_length in Hlen. fold ts in Hlen.
  destruct (C29_path_info K B ord use_blas opt mem s ops inp out) as (info' & Hi & [_ Hr] & [_ Hsc Hsz [_ Hl] Hn] & _); try done. assert (info' = info) as -> by congruence. clear Hi.
  fold ts tops in Hsc, Hsz, Hn. set (sets := list_to_set <$> ts : list (gset N)) in *.
  assert (Hu : union_all sets = labels).
  { apply set_eq. intros c. unfold labels. rewrite elem_of_list_to_set, elem_union_all. unfold tops. rewrite elem_labels_zip by done. split.
    - intros (A & (t & -> & Ht)%elem_of_list_fmap & Hc). apply elem_of_list_to_set in Hc. eauto.
    - intros (t & Ht & Hc). exists (list_to_set t). split; [by apply elem_of_list_fmap_1|by apply elem_of_list_to_set]. }
  pose proof (sizes_below (dim tops) (list_to_set out) (pi_path info) sets) as Hb. rewrite Hu in Hb.
  assert (Hb' := Hb (fun c Hc => Hd c (proj1 (elem_of_list_to_set c (labels_of tops)) Hc))). clear Hb.
  assert (Hs2 : Forall (fun v => v <= volume (dim tops) labels) (pi_size_list info)) by (rewrite Hsz; apply Forall_fmap; eapply Forall_impl; [exact Hb'|]; by intros ? []).
  split; [rewrite Hsc; apply Forall_fmap; eapply Forall_impl; [exact Hb'|]; by intros ? []|]. split; [done|]. split; [rewrite Forall_forall in Hs2; by apply Hs2|].
  rewrite Hn, Hu. transitivity (volume (dim tops) labels * 1); [lia|]. apply Nat.mul_le_mono_l. lia.
Qed.
Print Assumptions C56_bounds.
(** The numbers of the chain ab,bc,cd->ad with its best path. *)
Example C56_instance : (info ← contract_path ord0 true (OPath [[0; 1]; [0; 1]]) MNone (lit "ab,bc,cd->ad") [[2; 3]; [3; 4]; [4; 2]];
    Ok (pi_opt_cost info, pi_naive_cost info, pi_scale_list info, pi_size_list info, pi_largest info)) = Ok (80, 144, [3; 3], [8; 4], 8).
Proof. by vm_compute. Qed.
(** The conditions are needed: summing an outer product, a dimension of one, and a step with one operand can all cost more than the single step. *)
Theorem C56_outer_refuted : exists s shapes info,
  contract_path ord0 true (OPath [[0; 1]]) MNone s shapes = Ok info /\ Forall (fun sh => Forall (fun x => 2 <= x) sh) shapes /\
  Forall (fun st => 2 <= length st) (pi_path info) /\ pi_naive_cost info < pi_opt_cost info.
Proof.
  exists (lit "a,b->"), [[2]; [3]]. eexists. split; [vm_compute; reflexivity|]. split; [by repeat constructor|]. split; [repeat constructor; simpl; lia|]. vm_compute. lia.
Qed.
Print Assumptions C56_outer_refuted.
Theorem C56_ones_refuted : exists s shapes info,
  contract_path ord0 true (OPath [[0; 1]; [0; 1]]) MNone s shapes = Ok info /\ s = lit "ab,bc,cd->ad" /\
  Forall (fun st => 2 <= length st) (pi_path info) /\ pi_naive_cost info < pi_opt_cost info.
Proof.
  exists (lit "ab,bc,cd->ad"), [[1; 1]; [1; 1]; [1; 1]]. eexists. split; [vm_compute; reflexivity|]. split; [done|]. split; [repeat constructor; simpl; lia|]. vm_compute. lia.
Qed.
Print Assumptions C56_ones_refuted.
Theorem C56_single_refuted : exists s shapes info,
  contract_path ord0 true (OPath [[0; 1]; [0]]) MNone s shapes = Ok info /\ s = lit "ab,ac->" /\
  Forall (fun sh => Forall (fun x => 2 <= x) sh) shapes /\ pi_naive_cost info < pi_opt_cost info.
Proof.
  exists (lit "ab,ac->"), [[2; 3]; [2; 4]]. eexists. split; [vm_compute; reflexivity|]. split; [done|]. split; [by repeat constructor|]. vm_compute. lia.
Qed.
Print Assumptions C56_single_refuted.
(** The last happens with 'dp', which first sums a label that is on one operand only. *)
Theorem C56_dp_refuted : exists s shapes info,
  contract_path ord0 true (named (all_options (env0 50)) (lit "dp")) MNone s shapes = Ok info /\ s = lit "abx,a,b->" /\
  Forall (fun sh => Forall (fun x => 2 <= x) sh) shapes /\ pi_naive_cost info < pi_opt_cost info.
Proof.
  exists (lit "abx,a,b->"), [[2; 2; 2]; [2]; [2]]. eexists. split; [vm_compute; reflexivity|]. split; [done|]. split; [by repeat constructor|]. vm_compute. lia.
Qed.
Print Assumptions C56_dp_refuted.
