(** C50: the first contraction of the greedy search is the cheapest one. *)
From Verif Require Import Prelude Einsum EinsumFacts Helpers Contract Spec PathSpec StringFacts StepFacts ContractFacts PathFacts Ssa SsaSpec SsaFacts SsaMore Optimal OptimalFacts OptimalBest Branch BranchFacts BranchBest Greedy GreedyFacts GreedySpec GreedyPhases.

Lemma gcand_le_spec a b : gcand_le a b <-> (q_cost a < q_cost b)%Z \/ (q_cost a = q_cost b /\ (q_id2 a < q_id2 b \/ (q_id2 a = q_id2 b /\ q_id1 a <= q_id1 b))).
Proof.
  unfold gcand_le, gcand_key. cbn [lex_leb]. rewrite !orb_true_iff, !andb_true_iff, !orb_true_iff, !andb_true_iff, !Z.ltb_lt, !Z.eqb_eq. split; intros; lia.
Qed.
#[local] Instance gcand_le_trans : Transitive gcand_le.
Proof. intros a b c. rewrite !gcand_le_spec. lia. Qed.
#[local] Instance gcand_le_total : Total gcand_le.
Proof. intros a b. rewrite !gcand_le_spec. lia. Qed.
Lemma pop_min_least q c q' : pop_min q = Some (c, q') -> c ∈ q /\ forall c', c' ∈ q -> gcand_le c c'.
Proof.
  unfold pop_min. pose proof (merge_sort_Permutation gcand_le q) as Hp. pose proof (StronglySorted_merge_sort gcand_le q) as Hs. destruct (merge_sort gcand_le q) as [|c0 q0]; [done|].
  intros [= -> ->]. split; [rewrite <-Hp; left|]. intros c'. rewrite <-Hp. apply StronglySorted_inv in Hs as [_ Hs]. rewrite Forall_forall in Hs.
  intros [->|?]%elem_of_cons; [rewrite gcand_le_spec; lia|by apply Hs].
Qed.

Section First.
  Variable cost : nat -> nat -> nat -> key -> key -> key -> Z.
  Variable out : gset N.
  Variable d : sizes.
  Variable st0 : gstate.
  Notation cost_fn := (fun _ : nat => cost).
  Record same (st : gstate) : Prop := Same {
    sm_rem : g_rem st = g_rem st0; sm_ref2 : g_ref2 st = g_ref2 st0; sm_ref3 : g_ref3 st = g_ref3 st0; sm_foot : g_foot st = g_foot st0; sm_path : g_path st = g_path st0 }.
  Definition cand_of (k1 k2 : key) : res gcand := get_candidate cost_fn out d st0 0 k1 k2.
  Lemma cand_same st calls k1 k2 : same st -> get_candidate cost_fn out d st calls k1 k2 = cand_of k1 k2.
  Proof. intros [H1 H2 H3 H4 _]. unfold cand_of, get_candidate. by rewrite H1, H2, H3, H4. Qed.
  Lemma cands_same st calls k1 k2s cs : same st -> get_candidates cost_fn out d st calls k1 k2s = Ok cs ->
    (forall c, c ∈ cs -> exists k2, k2 ∈ k2s /\ cand_of k1 k2 = Ok c) /\ (forall k2, k2 ∈ k2s -> exists c, c ∈ cs /\ cand_of k1 k2 = Ok c).
  Proof.
    intros Hst. revert calls cs. induction k2s as [|k2 k2s IH]; intros calls cs H; simpl in H.
    - injection H as <-. split; intros c Hc; by apply elem_of_nil in Hc.
    - apply bind_Ok in H as (c & Hc & H). apply bind_Ok in H as (l & Hl & H). injection H as <-. rewrite (cand_same _ _ _ _ Hst) in Hc. destruct (IH _ _ Hl) as [A B]. split.
      + intros c' [->|Hc']%elem_of_cons; [exists k2; split; [left|done]|]. destruct (A c' Hc') as (k & ? & ?). exists k. split; [by right|done].
      + intros k [->|Hk]%elem_of_cons; [exists c; split; [left|done]|]. destruct (B k Hk) as (c' & ? & ?). exists c'. split; [by right|done].
  Qed.
  (** What a queue has for the pairs of a relation. *)
  Definition covers (q : list gcand) (R : key -> key -> Prop) : Prop :=
    forall k1 k2, R k1 k2 -> exists c c', cand_of k1 k2 = Ok c /\ c' ∈ q /\ gcand_le c' c.
  Definition only (q : list gcand) (R : key -> key -> Prop) : Prop := forall c, c ∈ q -> exists k1 k2, R k1 k2 /\ cand_of k1 k2 = Ok c.
  Lemma push_same st k1 k2s st' : same st -> push_candidate cost_fn false out d st k1 k2s = Ok st' ->
    same st' /\ exists new, g_queue st' = g_queue st ++ new /\ covers new (fun a b => a = k1 /\ b ∈ k2s) /\ only new (fun a b => a = k1 /\ b ∈ k2s).
  Proof.
    intros Hst H. unfold push_candidate in H. apply bind_Ok in H as (cs & Hcs & H). apply bind_Ok in H as (new & Hnew & H). injection H as <-.
    split; [by destruct Hst|]. exists new. split; [done|]. apply bind_Ok in Hnew as (c & Hc & Hnew). injection Hnew as <-.
    unfold min_cand in Hc. destruct (pop_min cs) as [[c0 q0]|] eqn:E; [|done]. injection Hc as <-. apply pop_min_least in E as [Hin Hmin].
    destruct (cands_same _ _ _ _ _ Hst Hcs) as [A B]. split.
    - intros a b [-> Hb]. destruct (B b Hb) as (c & Hc & Hcb). exists c, c0. split; [done|]. split; [left|by apply Hmin].
    - intros c ->%elem_of_list_singleton. destruct (A c0 Hin) as (k2 & Hk2 & Hc). by exists k1, k2.
  Qed.
  Lemma rows_same l : forall st st', same st -> push_rows cost_fn false out d st l = Ok st' ->
    let R := fun a b => exists i j, i < j /\ l !! i = Some a /\ l !! j = Some b in
    same st' /\ exists new, g_queue st' = g_queue st ++ new /\ covers new R /\ only new R.
  Proof.
    induction l as [|k1 l IH]; intros st st' Hst H R.
    { injection H as <-. split; [done|]. exists []. rewrite app_nil_r. split; [done|]. split; [intros a b (i & j & _ & Hi & _); done|]. intros c Hc. by apply elem_of_nil in Hc. }
    destruct l as [|k2 l].
    { injection H as <-. split; [done|]. exists []. rewrite app_nil_r. split; [done|]. split; [|intros c Hc; by apply elem_of_nil in Hc].
      intros a b (i & j & Hij & Hi & Hj). apply lookup_lt_Some in Hj. simpl in Hj. lia. }
    cbn [push_rows] in H. apply bind_Ok in H as (st1 & H1 & H). destruct (push_same _ _ _ _ Hst H1) as (Hst1 & new1 & Hq1 & C1 & O1). destruct (IH _ _ Hst1 H) as (Hst' & new & Hq & C2 & O2).
    split; [done|]. exists (new1 ++ new). split; [by rewrite Hq, Hq1, app_assoc|]. split.
    - intros a b (i & j & Hij & Hi & Hj). destruct j as [|j]; [lia|]. cbn [lookup list_lookup] in Hj. destruct i as [|i].
      + injection Hi as <-. destruct (C1 k1 b) as (c & c' & Hc & Hc' & Hle); [split; [done|by eapply elem_of_list_lookup_2]|]. exists c, c'. split; [done|]. split; [apply elem_of_app; by left|done].
      + destruct (C2 a b) as (c & c' & Hc & Hc' & Hle); [exists i, j; split; [lia|done]|]. exists c, c'. split; [done|]. split; [apply elem_of_app; by right|done].
    - intros c [Hc|Hc]%elem_of_app.
      + destruct (O1 c Hc) as (a & b & [-> Hb] & Hab). apply elem_of_list_lookup in Hb as [j Hj]. exists k1, b. split; [|done]. exists 0, (S j). split; [lia|done].
      + destruct (O2 c Hc) as (a & b & (i & j & Hij & Hi & Hj) & Hab). exists a, b. split; [|done]. exists (S i), (S j). split; [lia|done].
  Qed.
  Lemma dims_same l : forall st st', same st -> foldM_res (push_dim cost_fn false out d) st l = Ok st' ->
    let R := fun a b => exists x ks i j, (x, ks) ∈ l /\ i < j /\ merge_sort (id_le (g_rem st0)) (elements ks) !! i = Some a /\ merge_sort (id_le (g_rem st0)) (elements ks) !! j = Some b in
    same st' /\ exists new, g_queue st' = g_queue st ++ new /\ covers new R /\ only new R.
  Proof.
    induction l as [|[x ks] l IH]; intros st st' Hst H R; cbn [foldM_res] in H.
    { injection H as <-. split; [done|]. exists []. rewrite app_nil_r. split; [done|]. split; [intros a b (x & ks & i & j & Hin & _); by apply elem_of_nil in Hin|]. intros c Hc. by apply elem_of_nil in Hc. }
    apply bind_Ok in H as (st1 & H1 & H). unfold push_dim in H1. cbn [snd] in H1. rewrite (sm_rem _ Hst) in H1.
    destruct (rows_same _ _ _ Hst H1) as (Hst1 & new1 & Hq1 & C1 & O1). destruct (IH _ _ Hst1 H) as (Hst' & new & Hq & C2 & O2).
    split; [done|]. exists (new1 ++ new). split; [by rewrite Hq, Hq1, app_assoc|]. split.
    - intros a b (x' & ks' & i & j & Hin & Hij & Hi & Hj). apply elem_of_cons in Hin as [[= -> ->]|Hin].
      + destruct (C1 a b) as (c & c' & Hc & Hc' & Hle); [by exists i, j|]. exists c, c'. split; [done|]. split; [apply elem_of_app; by left|done].
      + destruct (C2 a b) as (c & c' & Hc & Hc' & Hle); [by exists x', ks', i, j|]. exists c, c'. split; [done|]. split; [apply elem_of_app; by right|done].
    - intros c [Hc|Hc]%elem_of_app.
      + destruct (O1 c Hc) as (a & b & (i & j & Hij & Hi & Hj) & Hab). exists a, b. split; [|done]. exists x, ks, i, j. split; [left|done].
      + destruct (O2 c Hc) as (a & b & (x' & ks' & i & j & Hin & Hij & Hi & Hj) & Hab). exists a, b. split; [|done]. exists x', ks', i, j. split; [by right|done].
  Qed.
End First.

(** ** The path only grows. *)
Lemma step_prefix cost_fn push_all out d st con st' : greedy_step cost_fn push_all out d st con = Ok st' -> exists id1 id2 l, g_rem st !! q_k1 con = Some id1 /\ g_rem st !! q_k2 con = Some id2 /\ g_path st' = g_path st ++ [id1; id2] :: l.
Proof.
  intros H. destruct (step_inv _ _ _ _ _ _ _ H) as (id1 & id2 & H1 & H2 & nx & _ & _ & Hp & _). apply lookup_delete_Some in H2 as [_ H2]. exists id1, id2.
  destruct (_ !! q_k12 con) as [id|]; destruct Hp as [-> _]; [exists [[id; g_next st]]|exists []]; split_and!; try done. by rewrite <-app_assoc.
Qed.
Lemma loop_prefix cost_fn choose push_all out d fuel st st' : greedy_loop cost_fn choose push_all out d fuel st = Ok st' -> exists l, g_path st' = g_path st ++ l.
Proof.
  revert st. induction fuel as [|fuel IH]; intros st H; simpl in H; destruct (g_queue st) as [|c0 q0]; try done; try (injection H as <-; exists []; by rewrite app_nil_r).
  apply bind_Ok in H as ([o q] & _ & H). destruct o as [con|].
  - apply bind_Ok in H as (st1 & H1 & H). apply step_prefix in H1 as (id1 & id2 & l1 & _ & _ & Hp1). destruct (IH _ H) as [l Hl]. rewrite Hl, Hp1. simpl. rewrite <-app_assoc. eauto.
  - destruct (IH _ H) as [l Hl]. by exists l.
Qed.
Lemma outer_prefix out d fuel id1 k1 q p next p' : outer_loop out d fuel id1 k1 q p next = Ok p' -> exists l, p' = p ++ l.
Proof.
  revert id1 k1 q p next. induction fuel as [|fuel IH]; intros id1 k1 q p next H; simpl in H; destruct (merge_sort fq_le q) as [|[[s2 id2] k2] q']; try done; try (injection H as <-; exists []; by rewrite app_nil_r).
  apply bind_Ok in H as (c & _ & H). destruct (merge_sort fq_le _) as [|[[s3 id3] k3] q'']; [done|]. destruct (IH _ _ _ _ _ H) as [l ->]. rewrite <-app_assoc. eauto.
Qed.
Lemma dedup_distinct inputs : NoDup inputs -> exists rem, dedup inputs = (rem, [], length inputs) /\ forall k i, rem !! k = Some i <-> inputs !! i = Some k.
Proof.
  intros Hnd. unfold dedup. set (n := length inputs).
  assert (Hgen : forall l i r0, drop i inputs = l -> (forall k j, r0 !! k = Some j <-> j < i /\ inputs !! j = Some k) ->
    exists rem, foldl dedup_step (r0, [], n) (zip (seq i (length l)) l) = (rem, [], n) /\ forall k j, rem !! k = Some j <-> inputs !! j = Some k).
  { induction l as [|k l IH]; intros i r0 Hd Hr.
    - exists r0. split; [done|]. intros k j. rewrite Hr. split; [by intros [_ ?]|]. intros Hj. split; [|done]. apply lookup_lt_Some in Hj.
      assert (Hlen : length inputs - i = 0) by (rewrite <-drop_length, Hd; done). lia.
    - assert (Hk : inputs !! i = Some k) by (rewrite <-(Nat.add_0_r i), <-lookup_drop, Hd; done). assert (Hd' : drop (S i) inputs = l) by (rewrite <-Nat.add_1_r, <-drop_drop, Hd; done).
      assert (E : r0 !! k = None). { destruct (r0 !! k) as [j|] eqn:E; [|done]. apply Hr in E as [Hj E]. assert (i = j) by (by eapply NoDup_lookup). lia. }
      simpl. rewrite E. apply (IH (S i)); [done|]. intros k' j. destruct (decide (k' = k)) as [->|Hk'].
      + rewrite lookup_insert. split; [intros [= <-]; split; [lia|done]|]. intros [_ Hj]. f_equal. by eapply NoDup_lookup.
      + rewrite lookup_insert_ne by done. rewrite Hr. split; intros [Hj Hj2]; (split; [|done]); [lia|]. destruct (decide (j = i)) as [->|]; [congruence|lia]. }
  destruct (Hgen inputs 0 ∅) as (rem & Hf & Hr); [done|intros k j; rewrite lookup_empty; split; [done|intros [? _]; lia]|]. exists rem. split; [exact Hf|done].
Qed.

(** ** The cost the search computes for two inputs *)
Lemma elem_key (a b o r3 r2 : key) x : x ∈ ((a ∪ b) ∩ o) ∪ (a ∩ b ∩ r3) ∪ (((a ∪ b) ∖ (a ∩ b)) ∩ r2) <-> x ∈ a ∪ b /\ (x ∈ o \/ if decide (x ∈ a ∩ b) then x ∈ r3 else x ∈ r2).
Proof. destruct (decide (x ∈ a ∩ b)) as [H|H]; set_solver. Qed.
Section Pair.
  Variable cost : nat -> nat -> nat -> key -> key -> key -> Z.
  Variables (inputs : list key) (output com : key) (d : sizes) (rem : gmap key nat) (foot : list (key * nat)).
  Hypothesis Hnd : NoDup inputs.
  Hypothesis Hd : Forall (labels_in d) inputs.
  Hypothesis Hcom : forall x, x ∈ com <-> forall k, k ∈ inputs -> x ∈ k.
  Hypothesis Hrem : forall k i, rem !! k = Some i <-> inputs !! i = Some k.
  Let out := output ∪ com.
  Let dims := init_dims out (map_to_list rem).*1.
  Hypothesis Hfoot : forall k s, (list_to_map foot : gmap key nat) !! k = Some s -> set_size k d = Ok s.
  Let st0 := GState rem dims (init_ref out dims 2) (init_ref out dims 3) (list_to_map foot) [] [] (length inputs) 0 0.

  Lemma pair_reg x k : k ∈ keys_of dims x <-> k ∈ inputs /\ x ∈ k ∖ out.
  Proof.
    unfold dims. rewrite init_dims_elem. assert (Hk : k ∈ (map_to_list rem).*1 <-> k ∈ inputs); [|by rewrite Hk]. rewrite elem_of_list_fmap, elem_of_list_lookup. split.
    - intros ([k' i] & -> & Hk%elem_of_map_to_list). exists i. by apply Hrem.
    - intros [i Hi]. exists (k, i). split; [done|]. by apply elem_of_map_to_list, Hrem.
  Qed.
  Lemma pair_ref s x : 1 <= s -> x ∈ init_ref out dims s <-> s <= size (keys_of dims x).
  Proof. intros Hs. apply init_ref_elem; [done|]. intros Hx. apply set_eq. intros k. rewrite pair_reg. split; [intros [_ ?]; set_solver|by intros ?%elem_of_empty]. Qed.
  Definition pair_key (a b : key) : key := ((a ∪ b) ∩ out) ∪ (a ∩ b ∩ init_ref out dims 3) ∪ (((a ∪ b) ∖ (a ∩ b)) ∩ init_ref out dims 2).
  Lemma elem_pair_key a b x : x ∈ pair_key a b <-> x ∈ a ∪ b /\ (x ∈ out \/ if decide (x ∈ a ∩ b) then x ∈ init_ref out dims 3 else x ∈ init_ref out dims 2).
  Proof. apply elem_key. Qed.
  Lemma pair_kept i j a b : i < j -> inputs !! i = Some a -> inputs !! j = Some b -> 3 <= length inputs -> pair_key a b = kept output [i; j] inputs.
  Proof.
    intros Hij Hi Hj H3. assert (Hab : a <> b) by (intros ->; assert (i = j) by (by eapply NoDup_lookup); lia).
    assert (Hthird : exists c kc, c <> i /\ c <> j /\ inputs !! c = Some kc).
    { assert (Hc : exists c, c < 3 /\ c <> i /\ c <> j) by (destruct (decide (0 = i \/ 0 = j)); [destruct (decide (1 = i \/ 1 = j)); [exists 2; lia|exists 1; lia]|exists 0; lia]).
      destruct Hc as (c & Hc & Hci & Hcj). destruct (lookup_lt_is_Some_2 inputs c) as [kc Hkc]; [lia|]. eauto. }
    assert (Hu : forall x, x ∈ union_all (chosen [i; j] inputs) <-> x ∈ a ∪ b).
    { intros x. unfold union_all. rewrite elem_of_union_list, elem_of_union. split.
      - intros (k & (c & Hc & Hcs)%elem_chosen & Hx). rewrite !elem_of_cons, elem_of_nil in Hcs. destruct Hcs as [->|[->|[]]]; simplify_eq; auto.
      - intros [Hx|Hx]; [exists a|exists b]; (split; [|done]); apply elem_chosen; [exists i|exists j]; (split; [done|set_solver]). }
    assert (Ho : forall x, x ∈ union_all (others [i; j] inputs) <-> exists c kc, c <> i /\ c <> j /\ inputs !! c = Some kc /\ x ∈ kc).
    { intros x. unfold union_all. rewrite elem_of_union_list. split.
      - intros (k & (c & Hc & Hcs)%elem_others & Hx). rewrite !elem_of_cons, elem_of_nil in Hcs. exists c, k. split_and!; try done; intros ->; apply Hcs; auto.
      - intros (c & kc & Hci & Hcj & Hc & Hx). exists kc. split; [|done]. apply elem_others. exists c. split; [done|]. set_solver. }
    apply set_eq. intros x. unfold kept. rewrite elem_of_intersection, (elem_of_union output), Hu, Ho, elem_pair_key. split.
    - intros [Hxab Hx]. split; [done|].
      destruct (decide (x ∈ output)) as [|Hxo]; [by left|]. right. destruct (decide (x ∈ com)) as [Hxc|Hxc].
      { destruct Hthird as (c & kc & Hci & Hcj & Hc). exists c, kc. split_and!; try done. apply (proj1 (Hcom x) Hxc). by eapply elem_of_list_lookup_2. }
      assert (Hxout : x ∉ out) by (unfold out; by rewrite elem_of_union; intros [?|?]). destruct Hx as [?|Hx]; [done|].
      assert (Hk : exists k, k ∈ keys_of dims x ∖ {[a; b]}).
      { apply (set_choose_L (C := gset key)). intros E. assert (Hsub : keys_of dims x ⊆ {[a; b]}) by (by apply empty_difference_subseteq_L).
        destruct (decide (x ∈ a ∩ b)) as [Hb|Hb].
        - rename Hx into Hr. apply (pair_ref 3) in Hr; [|lia]. apply (subseteq_size (C := gset key)) in Hsub. rewrite size_union_alt, !size_singleton in Hsub.
          assert (Hle : size ({[b]} ∖ {[a]} : gset key) <= 1) by (rewrite <-(size_singleton (C := gset key) b); apply (subseteq_size (C := gset key)), subseteq_difference_l; done). lia.
        - rename Hx into Hr. apply (pair_ref 2) in Hr; [|lia].
          assert (Hone : exists k0, keys_of dims x ⊆ {[k0]}).
          { destruct (decide (x ∈ a)) as [Hxa|Hxa]; [exists a|exists b]; intros k Hk; apply Hsub in Hk as Hk'; apply elem_of_union in Hk' as [->%elem_of_singleton| ->%elem_of_singleton]; try by apply elem_of_singleton.
            all: apply pair_reg in Hk as [_ [Hk _]%elem_of_difference]; exfalso; first [done|apply Hb; by apply elem_of_intersection]. }
          destruct Hone as [k0 Hone]. apply (subseteq_size (C := gset key)) in Hone. rewrite size_singleton in Hone. lia. }
      destruct Hk as [k [Hk Hkab]%elem_of_difference]. apply pair_reg in Hk as [Hk Hxk]. apply elem_of_list_lookup in Hk as [c Hc].
      exists c, k. split_and!; [intros ->|intros ->|done|by apply elem_of_difference in Hxk as [? _]]; apply Hkab; simplify_eq; apply elem_of_union; [left|right]; by apply elem_of_singleton.
    - intros [Hxab Hx]. split; [done|]. destruct Hx as [Hxo|(c & kc & Hci & Hcj & Hc & Hx)]; [left; apply elem_of_union; by left|]. destruct (decide (x ∈ out)) as [Hxo|Hxo]; [by left|right].
      assert (Hca : kc <> a) by (intros ->; apply Hci; by eapply NoDup_lookup). assert (Hcb : kc <> b) by (intros ->; apply Hcj; by eapply NoDup_lookup).
      assert (Hin : forall e ke, inputs !! e = Some ke -> x ∈ ke -> ke ∈ keys_of dims x) by (intros e ke He Hxe; apply pair_reg; split; [by eapply elem_of_list_lookup_2|by apply elem_of_difference]).
      destruct (decide (x ∈ a ∩ b)) as [Hb|Hb].
      + apply pair_ref; [lia|]. apply elem_of_intersection in Hb as [Hxa Hxb].
        assert (Hsub : ({[a; b; kc]} : gset key) ⊆ keys_of dims x) by (intros k [[->%elem_of_singleton| ->%elem_of_singleton]%elem_of_union| ->%elem_of_singleton]%elem_of_union; by eapply Hin).
        apply (subseteq_size (C := gset key)) in Hsub. rewrite size_union in Hsub; [rewrite size_union in Hsub; [rewrite !size_singleton in Hsub; lia|]|].
        * intros k ->%elem_of_singleton ?%elem_of_singleton. done.
        * intros k [->%elem_of_singleton| ->%elem_of_singleton]%elem_of_union ?%elem_of_singleton; congruence.
      + apply pair_ref; [lia|].
        assert (Hone : exists k e, inputs !! e = Some k /\ x ∈ k /\ (k = a \/ k = b)) by (apply elem_of_union in Hxab as [?|?]; [exists a, i|exists b, j]; auto).
        destruct Hone as (k & e & He & Hxk & Hk).
        assert (Hsub : ({[k; kc]} : gset key) ⊆ keys_of dims x) by (intros k' [->%elem_of_singleton| ->%elem_of_singleton]%elem_of_union; by eapply Hin).
        apply (subseteq_size (C := gset key)) in Hsub. rewrite size_union in Hsub; [rewrite !size_singleton in Hsub; lia|].
        intros k' ->%elem_of_singleton ->%elem_of_singleton. destruct Hk; congruence.
  Qed.
  Lemma pair_cand i j a b c : i < j -> inputs !! i = Some a -> inputs !! j = Some b -> cand_of cost out d st0 a b = Ok c ->
    q_id1 c = i /\ q_id2 c = j /\ q_k1 c = a /\ q_k2 c = b /\ (3 <= length inputs -> q_cost c = cost_of cost (size_of d) output inputs i j).
  Proof.
    intros Hij Hi Hj Hc. unfold cand_of, get_candidate in Hc. simpl in Hc. fold (pair_key a b) in Hc.
    assert (Ha : labels_in d a) by (rewrite Forall_forall in Hd; apply Hd; by eapply elem_of_list_lookup_2). assert (Hb : labels_in d b) by (rewrite Forall_forall in Hd; apply Hd; by eapply elem_of_list_lookup_2).
    assert (Hk : labels_in d (pair_key a b)).
    { intros x Hx. assert (Hx' : x ∈ a ∪ b) by (by apply elem_pair_key in Hx as [? _]). apply elem_of_union in Hx' as [?|?]; auto. }
    rewrite (volume_size d _ Hk) in Hc. cbn [mbind res_bind] in Hc. apply bind_Ok in Hc as (f1 & Hf1 & Hc). apply bind_Ok in Hc as (f2 & Hf2 & Hc).
    destruct ((list_to_map foot : gmap key nat) !! a) as [s1|] eqn:E1; [|done]. destruct ((list_to_map foot : gmap key nat) !! b) as [s2|] eqn:E2; [|done].
    apply Ok_inj in Hf1 as ->. apply Ok_inj in Hf2 as ->. apply Hfoot in E1, E2. rewrite (volume_size d _ Ha) in E1. rewrite (volume_size d _ Hb) in E2. injection E1 as <-. injection E2 as <-.
    assert (Hra : rem !! a = Some i) by by apply Hrem. assert (Hrb : rem !! b = Some j) by by apply Hrem. rewrite Hra, Hrb in Hc. cbn [of_opt mbind res_bind] in Hc.
    assert (Hlt : (j <? i) = false) by (apply Nat.ltb_ge; lia). rewrite Hlt in Hc. injection Hc as <-. simpl. split_and!; try done.
    intros H3. unfold cost_of. rewrite Hi, Hj. simpl. by rewrite (pair_kept i j a b Hij Hi Hj H3).
  Qed.
End Pair.

Theorem greedy_first cost inputs output d sp : NoDup inputs -> Forall (labels_in d) inputs ->
  (exists i j a b, i < j /\ inputs !! i = Some a /\ inputs !! j = Some b /\ linked (free inputs output) a b) ->
  ssa_greedy (fun _ => cost) None inputs output d = Ok sp ->
  exists i j sp', sp = [i; j] :: sp' /\ cheapest_pair (free inputs output) (cost_of cost (size_of d) output inputs) inputs i j.
Proof.
  intros Hnd Hd (i0 & j0 & a0 & b0 & Hij0 & Hi0 & Hj0 & Hl0) H. unfold ssa_greedy in H. destruct inputs as [|ka [|kb inputs']]; [done|apply lookup_lt_Some in Hj0; simpl in Hj0; lia|].
  set (inputs := ka :: kb :: inputs') in *. apply bind_Ok in H as (com & Hcom & H). set (out := output ∪ com) in *.
  assert (Hcom' : forall x, x ∈ com <-> forall k, k ∈ inputs -> x ∈ k) by (intros x; by apply common_elem).
  assert (Hfr : forall x, free inputs output x <-> x ∉ out).
  { intros x. unfold free, out. rewrite not_elem_of_union, Hcom'. split.
    - intros [Ho (k & Hk & Hx)]. split; [done|]. intros Hall. by apply Hx, Hall.
    - intros [Ho Hn]. split; [done|]. destruct (decide (Exists (fun k => x ∉ k) inputs)) as [He|He]; [by apply Exists_exists in He|].
      exfalso. apply Hn. intros k Hk. destruct (decide (x ∈ k)); [done|]. exfalso. apply He, Exists_exists. eauto. }
  destruct (dedup_distinct inputs Hnd) as (rem & Hded & Hrem). rewrite Hded in H. apply bind_Ok in H as (foot & Hfoot & H).
  set (dims := init_dims out (map_to_list rem).*1) in *. set (st0 := GState rem dims (init_ref out dims 2) (init_ref out dims 3) (list_to_map foot) [] [] (length inputs) 0 0) in *.
  cbn [default from_option] in H. apply bind_Ok in H as (st1 & H1 & H). apply bind_Ok in H as (st2 & H2 & H). apply bind_Ok in H as (final & _ & H).
  assert (Hst0 : same st0 st0) by done. destruct (dims_same cost out d st0 _ _ _ Hst0 H1) as (Hst1 & q & Hq & Hcov & Honly). simpl in Hq.
  pose proof (pair_cand cost inputs output com d rem foot Hnd Hd Hcom' Hrem (fun k s => list_to_map_sizes _ _ _ _ _ Hfoot)) as Hcand. fold out dims st0 in Hcand.
  pose proof (pair_reg inputs output com rem Hrem) as Hreg. fold out dims in Hreg.
  assert (Hmem : forall (ks : gset key) k, k ∈ merge_sort (id_le rem) (elements ks) <-> k ∈ ks) by (intros ks k; rewrite merge_sort_Permutation; apply elem_of_elements).
  assert (Hdimkey : forall x ks k, dims !! x = Some ks -> k ∈ ks <-> k ∈ inputs /\ x ∈ k ∖ out) by (intros x ks k E; rewrite <-Hreg; unfold keys_of; by rewrite E).
  (* positions in a sorted row are in the order of the inputs *)
  assert (Hrow : forall x ks r s a b, dims !! x = Some ks -> r < s -> merge_sort (id_le rem) (elements ks) !! r = Some a -> merge_sort (id_le rem) (elements ks) !! s = Some b ->
    exists i j, i < j /\ inputs !! i = Some a /\ inputs !! j = Some b /\ linked (free inputs output) a b).
  { intros x ks r s a b Ex Hrs Hr Hs. assert (Ha : a ∈ ks) by (apply Hmem; by eapply elem_of_list_lookup_2). assert (Hb : b ∈ ks) by (apply Hmem; by eapply elem_of_list_lookup_2).
    apply (Hdimkey x ks) in Ha as [Ha Hxa], Hb as [Hb Hxb]; [|done|done]. apply elem_of_list_lookup in Ha as [i Hi], Hb as [j Hj]. exists i, j.
    split; [|split_and!; try done; exists x; rewrite Hfr; apply elem_of_difference in Hxa as [? ?], Hxb as [? ?]; done].
    assert (Htr : Transitive (id_le rem)) by (intros p1 p2 p3; unfold id_le; lia). assert (Hto : Total (id_le rem)) by (intros p1 p2; unfold id_le; lia).
    pose proof (Sorted_merge_sort (id_le rem) (elements ks)) as Hsort. apply Sorted_StronglySorted in Hsort; [|done].
    assert (Hle : id_le rem a b) by (eapply elem_of_StronglySorted_app with (l1 := take s (merge_sort (id_le rem) (elements ks))) (l2 := drop s (merge_sort (id_le rem) (elements ks)));
      [by rewrite take_drop|apply elem_of_list_lookup; exists r; rewrite lookup_take by lia; done|apply elem_of_list_lookup; exists 0; rewrite lookup_drop, Nat.add_0_r; done]).
    unfold id_le in Hle. assert (Hra : rem !! a = Some i) by by apply Hrem. assert (Hrb : rem !! b = Some j) by by apply Hrem. rewrite Hra, Hrb in Hle. simpl in Hle.
    assert (i <> j); [|lia]. intros ->. rewrite Hi in Hj. injection Hj as ->. assert (r = s); [|lia]. eapply NoDup_lookup; [|exact Hr|exact Hs]. rewrite merge_sort_Permutation. apply NoDup_elements. }
  (* every contraction is covered *)
  assert (Hpairs : forall i j a b, i < j -> inputs !! i = Some a -> inputs !! j = Some b -> linked (free inputs output) a b -> exists c c', cand_of cost out d st0 a b = Ok c /\ c' ∈ q /\ gcand_le c' c).
  { intros i j a b Hij Hi Hj (x & Hx & Hxa & Hxb). apply Hfr in Hx. apply Hcov.
    assert (Ha : a ∈ keys_of dims x) by (apply Hreg; split; [by eapply elem_of_list_lookup_2|by apply elem_of_difference]). assert (Hb : b ∈ keys_of dims x) by (apply Hreg; split; [by eapply elem_of_list_lookup_2|by apply elem_of_difference]).
    unfold keys_of in Ha, Hb. destruct (dims !! x) as [ks|] eqn:E; [|by apply elem_of_empty in Ha]. simpl in Ha, Hb. exists x, ks. apply Hmem, elem_of_list_lookup in Ha as [r Hr]. apply Hmem, elem_of_list_lookup in Hb as [s Hs].
    exists r, s. split; [by apply elem_of_map_to_list|]. split; [|done]. destruct (Nat.lt_trichotomy r s) as [|[->|Hgt]]; [done| |].
    - simpl in *. simplify_eq. assert (i = j) by (by eapply NoDup_lookup). lia.
    - exfalso. destruct (Hrow x ks s r b a E Hgt Hs Hr) as (j' & i' & Hji & Hj' & Hi' & _). assert (j = j') by (by eapply NoDup_lookup). assert (i = i') by (by eapply NoDup_lookup). lia. }
  destruct (Hpairs i0 j0 a0 b0 Hij0 Hi0 Hj0 Hl0) as (_ & c0 & _ & Hc0 & _).
  assert (Hne : q <> []) by (intros ->; by apply elem_of_nil in Hc0).
  rewrite Hq in H2. destruct (length q + size (g_rem st1) * (size (g_rem st1) + 1)) as [|fuel] eqn:Ef; [destruct q; [done|simpl in Ef; lia]|].
  cbn [greedy_loop] in H2. rewrite Hq in H2. destruct q as [|cq q']; [done|]. set (q := cq :: q') in *.
  apply bind_Ok in H2 as ([o q1] & Hch & H2). unfold simple_chooser in Hch. destruct (pop_min q) as [[c q2]|] eqn:Ep; [|done]. apply pop_min_least in Ep as [Hcq Hmin].
  destruct (Honly c Hcq) as (a & b & (x & ks & r & s & Hin & Hrs & Hr & Hs) & Hcab). apply elem_of_map_to_list in Hin. simpl in Hr, Hs.
  destruct (Hrow x ks r s a b Hin Hrs Hr Hs) as (i & j & Hij & Hi & Hj & Hlink). destruct (Hcand i j a b c Hij Hi Hj Hcab) as (C1 & C2 & C3 & C4 & C5).
  assert (Hra : rem !! a = Some i) by by apply Hrem. assert (Hrb : rem !! b = Some j) by by apply Hrem.
  assert (Hob : obsolete (g_rem st1) c = false) by (unfold obsolete; rewrite C3, C4, (sm_rem _ _ Hst1); simpl; by rewrite Hra, Hrb).
  rewrite Hob in Hch. injection Hch as <- <-. apply bind_Ok in H2 as (st1' & Hstep & H2).
  apply step_prefix in Hstep as (id1 & id2 & l1 & Hid1 & Hid2 & Hp1). simpl in Hid1, Hid2, Hp1. rewrite (sm_rem _ _ Hst1), C3 in Hid1. rewrite (sm_rem _ _ Hst1), C4 in Hid2. simpl in Hid1, Hid2.
  assert (id1 = i) as -> by congruence. assert (id2 = j) as -> by congruence. rewrite (sm_path _ _ Hst1) in Hp1. simpl in Hp1.
  apply loop_prefix in H2 as [l2 Hp2]. rewrite Hp1 in Hp2. simpl in Hp2.
  assert (Hsp : exists sp', sp = [i; j] :: sp').
  { destruct (merge_sort fq_le final) as [|[[s1 id1] k1] qf]; [done|]. apply outer_prefix in H as [l3 ->]. rewrite Hp2. simpl. eauto. }
  destruct Hsp as [sp' ->]. exists i, j, sp'. split; [done|]. split; [by exists a, b|].
  intros i' j' (a' & b' & Hij' & Hi' & Hj' & Hlink'). destruct (decide (i = i' /\ j = j')) as [[-> ->]|Hn]; [right; split; [done|lia]|].
  assert (H3 : 3 <= length inputs) by (apply lookup_lt_Some in Hj, Hj', Hi, Hi'; lia).
  destruct (Hpairs i' j' a' b' Hij' Hi' Hj' Hlink') as (e & e' & He & He' & Hle). apply Hmin in He'. rewrite gcand_le_spec in Hle, He'.
  destruct (Hcand i' j' a' b' e Hij' Hi' Hj' He) as (E1 & E2 & _ & _ & E5). specialize (C5 H3). specialize (E5 H3). rewrite <-C5, <-E5. lia.
Qed.
Theorem greedy_linear_first cost ordI inputs output d p : NoDup inputs -> Forall (labels_in d) inputs ->
  (exists i j a b, i < j /\ inputs !! i = Some a /\ inputs !! j = Some b /\ linked (free inputs output) a b) ->
  greedy (fun _ => cost) None ordI inputs output d None = Ok p ->
  exists i j p', p = [i; j] :: p' /\ cheapest_pair (free inputs output) (cost_of cost (size_of d) output inputs) inputs i j.
Proof.
  intros Hnd Hd He H. unfold greedy in H. apply bind_Ok in H as (sp & Hsp & Hp). destruct (greedy_first _ _ _ _ _ Hnd Hd He Hsp) as (i & j & sp' & Hs & Hc).
  assert (Hlen : inputs <> []) by (destruct He as (i0 & j0 & a0 & b0 & _ & Hi0 & _); intros ->; done).
  destruct (greedy_ssa_ok (fun _ => cost) None inputs output d I Hlen Hd) as (sp2 & Hsp2 & Hcomp & _). rewrite Hsp in Hsp2. injection Hsp2 as <-.
  assert (Hseq : Forall (fun i => i < length inputs) (seq 0 (length inputs))) by (apply Forall_forall; intros k Hk%elem_of_seq; lia).
  unfold ssa_to_linear in Hp. rewrite (ssa_arity _ _ _ Hcomp) in Hp; [|apply NoDup_seq|done]. rewrite seq_length in Hp. subst sp. cbn [s2l_loop] in Hp.
  apply bind_Ok in Hp as ([t ids] & _ & Hp). apply bind_Ok in Hp as (rest & _ & Hp).
  destruct Hc as [(a & b & Hij & Hi & Hj & Hl) Hbest]. apply lookup_lt_Some in Hi as Hi', Hj as Hj'.
  assert (Hcon : sort_nat (bisect_left (seq 0 (length inputs)) <$> [i; j]) = [i; j]).
  { rewrite !fmap_cons, fmap_nil. rewrite (bisect_lookup _ i i), (bisect_lookup _ j j); [by apply sort_pair|apply asc_seq|rewrite lookup_seq_lt by lia; done|apply asc_seq|rewrite lookup_seq_lt by lia; done]. }
  rewrite Hcon in Hp. apply Ok_inj in Hp as <-. exists i, j, rest. split; [done|]. split; [by exists a, b|done].
Qed.
