(** The dynamic programming search as a whole: terms summed on their own, parts, and the final tree. *)
From Verif Require Import Prelude Einsum EinsumFacts Helpers Contract Spec PathSpec StringFacts StepFacts ContractFacts PathFacts Ssa SsaSpec SsaFacts SsaMore Optimal OptimalFacts OptimalBest Tree TreeSpec TreeFacts DpSpec Dp PartsFacts DpFacts.
From stdpp Require Import relations sorting.

(** ** Terms summed on their own *)
Section Parse.
  Variable inputs : list (gset N).
  Variable output : gset N.
  Notation n := (length inputs).
  Definition red (j : nat) : gset N := filter (fun c => ind_count inputs output c <> 1) (labels_of inputs j).
  Definition kept (j : nat) : bool := negb (bool_decide (red j = ∅ /\ labels_of inputs j <> ∅)).
  Definition pos : list nat := filter (fun j => kept j = true) (seq 0 n).
  Definition dones : list nat := filter (fun j => kept j = false) (seq 0 n).
  Definition one (j : nat) : tree := if decide (red j = labels_of inputs j) then Leaf j else Node [Leaf j].

  Lemma parse_single_eq : parse_single inputs output = (red <$> pos, (fun j => Node [Leaf j]) <$> dones, one <$> pos).
  Proof.
    unfold parse_single, pos, dones. match goal with |- foldl ?f _ _ = _ => set (F := f) end.
    assert (Hgen : forall l a b c, Forall (fun p => p.2 = labels_of inputs p.1) l -> foldl F (a, b, c) l =
      (a ++ (red <$> filter (fun j => kept j = true) (l.*1)), b ++ ((fun j => Node [Leaf j]) <$> filter (fun j => kept j = false) (l.*1)), c ++ (one <$> filter (fun j => kept j = true) (l.*1)))).
    { induction l as [|[j i] l IH]; intros a b c Hl; [by rewrite !app_nil_r|]. apply Forall_cons in Hl as [Hi Hl]. simpl in Hi. subst i. cbn [foldl fmap list_fmap fst].
      replace (F (a, b, c) (j, labels_of inputs j)) with (if decide (red j = ∅ /\ labels_of inputs j <> ∅) then (a, b ++ [Node [Leaf j]], c) else (a ++ [red j], b, c ++ [one j])) by done.
      rewrite !filter_cons. destruct (decide (red j = ∅ /\ labels_of inputs j <> ∅)) as [Hd|Hd].
      - assert (Hk : kept j = false) by (unfold kept; by rewrite bool_decide_true). rewrite IH by done. rewrite Hk. rewrite decide_False by done. rewrite decide_True by done. rewrite fmap_cons, <-app_assoc. done.
      - assert (Hk : kept j = true) by (unfold kept; by rewrite bool_decide_false). rewrite IH by done. rewrite Hk. rewrite decide_True by done. rewrite decide_False by done. rewrite !fmap_cons, <-!app_assoc. done. }
    rewrite Hgen.
    - rewrite fst_zip by (by rewrite seq_length). done.
    - apply Forall_forall. intros [j i] Hin. apply elem_of_list_lookup in Hin as [k Hk]. apply lookup_zip_with_Some in Hk as (x & y & [= <- <-] & H1 & H2). apply lookup_seq in H1 as [-> _]. simpl. unfold labels_of. by rewrite H2.
  Qed.

  Lemma labels_of_lt j c : c ∈ labels_of inputs j -> j < n.
  Proof. unfold labels_of. destruct (inputs !! j) eqn:E; [by apply lookup_lt_Some in E|by intros ?%elem_of_empty]. Qed.
  Lemma elem_red j c : c ∈ red j <-> c ∈ labels_of inputs j /\ (c ∈ output \/ exists i, i <> j /\ c ∈ labels_of inputs i).
  Proof.
    unfold red. rewrite elem_of_filter. cut (c ∈ labels_of inputs j -> ind_count inputs output c <> 1 <-> (c ∈ output \/ exists i, i <> j /\ c ∈ labels_of inputs i)); [tauto|].
    intros Hc. unfold ind_count.
    pose proof (labels_of_lt j c Hc) as Hj. destruct (lookup_lt_is_Some_2 inputs j Hj) as [k Hk].
    assert (Hck : c ∈ k) by (unfold labels_of in Hc; by rewrite Hk in Hc).
    pose proof (take_drop_middle inputs j k Hk) as E.
    assert (El : length (filter (fun k => c ∈ k) inputs) = length (filter (fun k => c ∈ k) (take j inputs)) + 1 + length (filter (fun k => c ∈ k) (drop (S j) inputs))).
    { rewrite <-E at 1. rewrite filter_app, app_length, filter_cons, decide_True by done. simpl. lia. }
    assert (Hz : forall l : list (gset N), length (filter (fun k => c ∈ k) l) <> 0 <-> exists k, k ∈ l /\ c ∈ k).
    { intros l. destruct (filter (fun k => c ∈ k) l) as [|k' l'] eqn:Ef; simpl; split; try done.
      - intros (k' & H1 & H2). exfalso. assert (Hin : k' ∈ filter (fun k => c ∈ k) l) by (by apply elem_of_list_filter). rewrite Ef in Hin. by apply elem_of_nil in Hin.
      - intros _. exists k'. assert (Hin : k' ∈ filter (fun k => c ∈ k) l) by (rewrite Ef; left). apply elem_of_list_filter in Hin. tauto. }
    assert (Hother : (exists i, i <> j /\ c ∈ labels_of inputs i) <-> length (filter (fun k => c ∈ k) (take j inputs)) <> 0 \/ length (filter (fun k => c ∈ k) (drop (S j) inputs)) <> 0).
    { rewrite !Hz. split.
      - intros (i & Hij & Hi). unfold labels_of in Hi. destruct (inputs !! i) as [k'|] eqn:Ei; [|by apply elem_of_empty in Hi]. simpl in Hi. destruct (decide (i < j)).
        + left. exists k'. split; [|done]. apply elem_of_list_lookup. exists i. by rewrite lookup_take.
        + right. exists k'. split; [|done]. apply elem_of_list_lookup. exists (i - S j). rewrite lookup_drop. by replace (S j + (i - S j)) with i by lia.
      - intros [(k' & Hin & Hk')|(k' & Hin & Hk')]; apply elem_of_list_lookup in Hin as [i Hi].
        + apply lookup_take_Some in Hi as [Hi Hlt]. exists i. split; [lia|]. unfold labels_of. by rewrite Hi.
        + rewrite lookup_drop in Hi. exists (S j + i). split; [lia|]. unfold labels_of. by rewrite Hi. }
    rewrite Hother, El. destruct (decide (c ∈ output)); split; intros; try lia; [by left|]. destruct H as [?|?]; [done|lia].
  Qed.
  Lemma elem_pos j : j ∈ pos <-> j < n /\ kept j = true.
  Proof. unfold pos. rewrite elem_of_list_filter, elem_of_seq. intuition lia. Qed.
End Parse.

(** ** Numbers of terms left and numbers of inputs *)
Fixpoint bmap (f : nat -> nat) (t : btree) : btree := match t with BLeaf j => BLeaf (f j) | BNode l r => BNode (bmap f l) (bmap f r) end.
Lemma bleaves_bmap f t : bleaves (bmap f t) = f <$> bleaves t.
Proof. induction t as [j|l IHl r IHr]; [done|]. cbn [bmap bleaves]. by rewrite fmap_app, IHl, IHr. Qed.
Lemma bset_bmap f t : bset (bmap f t) = set_map f (bset t).
Proof.
  apply set_eq. intros j. unfold bset. rewrite bleaves_bmap, elem_of_list_to_set, elem_of_list_fmap, elem_of_map. split; intros (k & -> & Hk); exists k; (split; [done|]); rewrite elem_of_list_to_set in *; done.
Qed.
Lemma bmap_id f t : (forall j, j ∈ bleaves t -> f j = j) -> bmap f t = t.
Proof. induction t as [j|l IHl r IHr]; simpl; intros H; [f_equal; apply H; left|]. rewrite IHl, IHr; [done| |]; intros j Hj; apply H, elem_of_app; auto. Qed.
Lemma bmap_bmap f g t : bmap f (bmap g t) = bmap (fun j => f (g j)) t.
Proof. induction t as [j|l IHl r IHr]; simpl; [done|]. by rewrite IHl, IHr. Qed.

Section Renumber.
  Variable inputs : list (gset N).
  Variable output : gset N.
  Notation red := (red inputs output).
  Notation kept := (kept inputs output).
  Notation pos := (pos inputs output).
  Notation dones := (dones inputs output).
  Notation parsed := (red <$> pos).
  Notation m := (length pos).
  Definition ren (k : nat) : nat := default 0 (pos !! k).
  Definition nam (j : nat) : nat := match list_find (fun i => i = j) pos with Some (k, _) => k | None => 0 end.
  Lemma pos_NoDup : NoDup pos.
  Proof. unfold DpMain.pos. apply NoDup_filter, NoDup_seq. Qed.
  Lemma ren_lookup k : k < m -> pos !! k = Some (ren k).
  Proof. intros Hk. destruct (lookup_lt_is_Some_2 pos k Hk) as [j Hj]. unfold ren. by rewrite Hj. Qed.
  Lemma ren_inj k k' : k < m -> k' < m -> ren k = ren k' -> k = k'.
  Proof. intros Hk Hk' E. eapply NoDup_lookup; [apply pos_NoDup|by apply ren_lookup|]. rewrite E. by apply ren_lookup. Qed.
  Lemma ren_pos k : k < m -> ren k ∈ pos.
  Proof. intros Hk. apply elem_of_list_lookup. exists k. by apply ren_lookup. Qed.
  Lemma nam_ok j : j ∈ pos -> nam j < m /\ ren (nam j) = j.
  Proof.
    intros Hj. unfold nam. destruct (list_find (fun i => i = j) pos) as [[k i]|] eqn:E.
    - apply list_find_Some in E as (H1 & -> & _). split; [by eapply lookup_lt_Some|]. unfold ren. by rewrite H1.
    - apply list_find_None in E. rewrite Forall_forall in E. by destruct (E j Hj).
  Qed.
  Lemma labels_parsed k : k < m -> labels_of parsed k = red (ren k).
  Proof. intros Hk. unfold labels_of. rewrite list_lookup_fmap, ren_lookup by done. done. Qed.
  Lemma parsed_lt k c : c ∈ labels_of parsed k -> k < m.
  Proof. intros H. apply labels_of_lt in H. by rewrite fmap_length in H. Qed.
  (** A label shared by two inputs, or with the output, stays. *)
  Lemma red_shared i j c : i <> j -> c ∈ labels_of inputs i -> c ∈ labels_of inputs j -> c ∈ red i.
  Proof. intros. apply elem_red. eauto. Qed.
  Lemma red_kept j c : c ∈ red j -> j ∈ pos.
  Proof.
    intros Hc. apply elem_pos. pose proof Hc as [Hl _]%elem_red. split; [by eapply labels_of_lt|]. unfold DpMain.kept. rewrite bool_decide_false; [done|]. intros [E _]. rewrite E in Hc. by apply elem_of_empty in Hc.
  Qed.

  Section OnePart.
    Variable D : N -> nat.
    Variable G : gset nat.
    Hypothesis HG : forall k, k ∈ G -> k < m.
    Notation G' := (set_map (D := gset nat) ren G).
    Lemma elem_ren_set (S : gset nat) k : S ⊆ G -> k ∈ G -> ren k ∈ (set_map ren S : gset nat) <-> k ∈ S.
    Proof.
      intros HS Hk. rewrite elem_of_map. split; [|by eauto]. intros (k' & E & Hk'). by rewrite (ren_inj k k'); [|apply HG|apply HG, HS|].
    Qed.
    Lemma legs_ren (S : gset nat) : S ⊆ G -> legs parsed output G S = legs inputs output G' (set_map ren S).
    Proof.
      intros HS. apply set_eq. intros c. rewrite !elem_legs. split.
      - intros [(k & Hk & Hc) H2]. pose proof (HG k (HS k Hk)) as Hkm. rewrite labels_parsed in Hc by done. pose proof Hc as [Hl _]%elem_red. split.
        + exists (ren k). split; [apply elem_of_map; eauto|done].
        + destruct H2 as [?|(k' & Hk' & Hn & Hc')]; [by left|right]. pose proof (HG k' Hk') as Hkm'. rewrite labels_parsed in Hc' by done. pose proof Hc' as [Hl' _]%elem_red.
          exists (ren k'). split; [apply elem_of_map; eauto|]. split; [|done]. by rewrite elem_ren_set.
      - intros [(j & Hj & Hc) H2]. apply elem_of_map in Hj as (k & -> & Hk). pose proof (HG k (HS k Hk)) as Hkm. destruct H2 as [Ho|(j' & Hj' & Hn & Hc')].
        + split; [|by left]. exists k. split; [done|]. rewrite labels_parsed by done. apply elem_red. auto.
        + apply elem_of_map in Hj' as (k' & -> & Hk'). pose proof (HG k' Hk') as Hkm'. rewrite elem_ren_set in Hn by done.
          assert (Hne : ren k <> ren k') by (intros E; apply ren_inj in E; [|done|done]; by subst k').
          split; [exists k|right; exists k']; (split; [done|]).
          * rewrite labels_parsed by done. by eapply red_shared.
          * split; [done|]. rewrite labels_parsed by done. eapply red_shared; [|exact Hc'|exact Hc]. done.
    Qed.
    Lemma bset_node_sub l r : bset (BNode l r) ⊆ G -> bset l ⊆ G /\ bset r ⊆ G.
    Proof. unfold bset. simpl. rewrite list_to_set_app_L. set_solver. Qed.
    Lemma node_size_ren l r : bset (BNode l r) ⊆ G -> node_size parsed output D G l r = node_size inputs output D G' (bmap ren l) (bmap ren r).
    Proof.
      intros HS. pose proof (bset_node_sub l r HS) as [Hl Hr]. unfold node_size. rewrite !bset_bmap, legs_ren by set_solver. f_equal. f_equal. apply set_eq. intros j. rewrite elem_of_union, !elem_of_map. setoid_rewrite elem_of_union. split.
      - intros (k & -> & [?|?]); [left|right]; eauto.
      - intros [(k & -> & ?)|(k & -> & ?)]; exists k; auto.
    Qed.
    Lemma node_flops_ren l r : bset (BNode l r) ⊆ G -> node_flops parsed output D G l r = node_flops inputs output D G' (bmap ren l) (bmap ren r).
    Proof. intros HS. pose proof (bset_node_sub l r HS) as [Hl Hr]. unfold node_flops. by rewrite !bset_bmap, !legs_ren. Qed.
    Lemma sum_cost_ren w w' t : bset t ⊆ G -> (forall l r, bset (BNode l r) ⊆ G -> w l r = w' (bmap ren l) (bmap ren r)) -> sum_cost w t = sum_cost w' (bmap ren t).
    Proof. intros HS Hw. induction t as [j|l IHl r IHr]; [done|]. pose proof (bset_node_sub l r HS) as [Hl Hr]. simpl. by rewrite IHl, IHr, Hw. Qed.
    Lemma mode_cost_ren mode t : bset t ⊆ G -> mode_cost parsed output D G mode t = mode_cost inputs output D G' mode (bmap ren t).
    Proof.
      intros HS. unfold mode_cost. destruct mode; try (apply sum_cost_ren; [done|]; intros l r Hlr; by rewrite ?node_size_ren, ?node_flops_ren by done).
      induction t as [j|l IHl r IHr]; [done|]. pose proof (bset_node_sub l r HS) as [Hl Hr]. simpl. by rewrite IHl, IHr, node_size_ren.
    Qed.
    Lemma allowed_ren so mem t : bset t ⊆ G -> allowed parsed output D G so mem t <-> allowed inputs output D G' so mem (bmap ren t).
    Proof.
      intros HS. unfold allowed. cut ((no_outer parsed output G t <-> no_outer inputs output G' (bmap ren t)) /\ (fits parsed output D G mem t <-> fits inputs output D G' mem (bmap ren t))); [tauto|].
      induction t as [j|l IHl r IHr]; [done|]. pose proof (bset_node_sub l r HS) as [Hl Hr]. destruct (IHl Hl) as [A1 A2], (IHr Hr) as [B1 B2]. simpl. rewrite !bset_bmap, A1, A2, B1, B2, !legs_ren, node_size_ren by done. done.
    Qed.
    Lemma over_ren t : btree_over G t -> btree_over G' (bmap ren t).
    Proof.
      intros [H1 H2]. split; [|by rewrite bset_bmap, H2]. rewrite bleaves_bmap. apply NoDup_fmap_2_strong; [|done]. intros a b Ha Hb. apply ren_inj; apply HG; rewrite <-H2; unfold bset; by apply elem_of_list_to_set.
    Qed.
    Lemma over_back t' : btree_over G' t' -> exists t, btree_over G t /\ bmap ren t = t'.
    Proof.
      intros [H1 H2]. assert (Hpos : forall j, j ∈ bleaves t' -> exists k, k ∈ G /\ j = ren k).
      { intros j Hj. assert (Hj' : j ∈ bset t') by (unfold bset; by apply elem_of_list_to_set). rewrite H2 in Hj'. apply elem_of_map in Hj' as (k & -> & Hk). eauto. }
      assert (Hnam : forall j, j ∈ bleaves t' -> ren (nam j) = j). { intros j Hj. destruct (Hpos j Hj) as (k & Hk & ->). apply nam_ok, ren_pos. by apply HG. }
      exists (bmap nam t'). split; [|rewrite bmap_bmap; by apply bmap_id].
      assert (Hnk : forall k, k ∈ G -> nam (ren k) = k). { intros k Hk. apply ren_inj; [apply nam_ok, ren_pos; by apply HG|by apply HG|]. apply nam_ok, ren_pos. by apply HG. }
      split.
      - rewrite bleaves_bmap. apply NoDup_fmap_2_strong; [|done]. intros a b Ha Hb E. rewrite <-(Hnam a Ha), <-(Hnam b Hb). by f_equal.
      - rewrite bset_bmap, H2. apply set_eq. intros k. rewrite elem_of_map. split.
        + intros (j & -> & Hj). apply elem_of_map in Hj as (k' & -> & Hk'). by rewrite Hnk.
        + intros Hk. exists (ren k). split; [by rewrite Hnk|]. apply elem_of_map. eauto.
    Qed.
    Lemma best_ren mode so mem t : best_tree parsed output D G mode so mem t -> best_tree inputs output D G' mode so mem (bmap ren t).
    Proof.
      intros (H1 & H2 & H3). assert (Hsub : forall t, btree_over G t -> bset t ⊆ G) by (intros ? [_ ->]; done). split; [by apply over_ren|]. split; [apply allowed_ren; auto|].
      intros t' Ho' Ha'. destruct (over_back t' Ho') as (t0 & Ht0 & <-). rewrite <-allowed_ren in Ha' by auto. rewrite <-!mode_cost_ren by auto. auto.
    Qed.
    Lemma shape_realize t : bset t ⊆ G -> shape inputs output (bmap ren t) (realize (one inputs output <$> pos) t).
    Proof.
      induction t as [k|l IHl r IHr]; intros HS.
      - assert (Hk : k < m) by (apply HG, HS; unfold bset; simpl; set_solver). simpl. rewrite list_lookup_fmap, ren_lookup by done. simpl. unfold one. case_decide as E; constructor.
        + intros c (H1 & H2 & H3). rewrite <-E in H1. apply elem_red in H1 as [_ [?|(i & Hi & Hc)]]; [done|]. by apply (H3 i).
        + destruct (set_choose_or_empty (labels_of inputs (ren k) ∖ red (ren k))) as [(c & [H1 H2]%elem_of_difference)|Hs].
          2: { exfalso. apply E. apply set_eq. intros c. split; [by intros [? _]%elem_red|]. intros Hc. destruct (decide (c ∈ red (ren k))) as [|Hn]; [done|]. exfalso. apply (not_elem_of_empty (C:=gset N) c), Hs. by apply elem_of_difference. }
          exists c. split; [done|]. rewrite elem_red in H2. split; [tauto|]. intros i Hi Hc. apply H2. eauto.
      - pose proof (bset_node_sub l r HS) as [Hl Hr]. simpl. constructor; auto.
    Qed.
  End OnePart.

  (** ** Parts *)
  Lemma linked_ren k k' : k < m -> k' < m -> k <> k' -> linked parsed output k k' <-> linked inputs output (ren k) (ren k').
  Proof.
    intros Hk Hk' Hn. unfold linked. rewrite !labels_parsed by done. assert (Hr : ren k <> ren k') by (intros E; by apply Hn, ren_inj). split.
    - intros (c & H1%elem_red & H2%elem_red & H3). exists c. tauto.
    - intros (c & H1 & H2 & H3). exists c. split; [by eapply red_shared|]. split; [|done]. eapply red_shared; [|exact H2|exact H1]. done.
  Qed.
  Lemma linked_pos i j : i <> j -> linked inputs output i j -> i ∈ pos /\ j ∈ pos.
  Proof. intros Hn (c & H1 & H2 & _). split; eapply red_kept, red_shared; [|exact H1|exact H2| |exact H2|exact H1]; done. Qed.
  Lemma rtc_ren k k' : k < m -> rtc (linked parsed output) k k' -> k' < m /\ rtc (linked inputs output) (ren k) (ren k').
  Proof.
    intros Hk H. revert Hk. induction H as [k|k k1 k2 H1 H2 IH]; intros Hk; [split; [done|apply rtc_refl]|].
    assert (Hk1 : k1 < m) by (destruct H1 as (c & _ & Hc & _); by eapply parsed_lt). destruct (IH Hk1) as [H3 H4]. split; [done|].
    destruct (decide (k = k1)) as [->|Hn]; [done|]. eapply rtc_l; [|exact H4]. by apply linked_ren.
  Qed.
  Lemma rtc_back k j : k < m -> rtc (linked inputs output) (ren k) j -> exists k', k' < m /\ j = ren k' /\ rtc (linked parsed output) k k'.
  Proof.
    intros Hk H. remember (ren k) as i eqn:Ei. revert k Hk Ei. induction H as [i|i i1 i2 H1 H2 IH]; intros k Hk ->; [exists k; split; [done|]; split; [done|apply rtc_refl]|].
    destruct (decide (ren k = i1)) as [E|Hn]; [by apply IH|]. destruct (linked_pos _ _ Hn H1) as [_ Hp]. destruct (nam_ok i1 Hp) as [Ha Hb].
    destruct (IH (nam i1) Ha (eq_sym Hb)) as (k' & H3 & H4 & H5). exists k'. split; [done|]. split; [done|]. eapply rtc_l; [|exact H5]. apply linked_ren; [done|done|by intros ->|by rewrite Hb].
  Qed.
  Lemma rtc_done i j : i ∉ pos -> rtc (linked inputs output) i j -> j = i.
  Proof.
    intros Hi H. induction H as [i|i i1 i2 H1 H2 IH]; [done|]. destruct (decide (i = i1)) as [<-|Hn]; [by apply IH|]. destruct (linked_pos _ _ Hn H1). done.
  Qed.
  Lemma pos_dones j : j < length inputs <-> j ∈ pos \/ j ∈ dones.
  Proof. rewrite elem_pos. unfold DpMain.dones. rewrite elem_of_list_filter, elem_of_seq. destruct (kept j); intuition lia. Qed.
  Lemma pos_not_done j : j ∈ pos -> j ∉ dones.
  Proof. rewrite elem_pos. unfold DpMain.dones. rewrite elem_of_list_filter. intros [_ ->] [? _]. done. Qed.

  Definition all_parts (gs : list (gset nat)) : list (gset nat) := ((fun j => {[j]}) <$> dones) ++ (set_map ren <$> gs).
  Lemma all_parts_lookup gs a g : all_parts gs !! a = Some g ->
    (exists j, a < length dones /\ dones !! a = Some j /\ g = {[j]}) \/ (exists g0, length dones <= a /\ gs !! (a - length dones) = Some g0 /\ g = set_map ren g0).
  Proof.
    unfold all_parts. intros [H|[Hle H]]%lookup_app_Some.
    - left. rewrite list_lookup_fmap in H. destruct (dones !! a) as [j|] eqn:E; [|done]. injection H as <-. exists j. split; [by eapply lookup_lt_Some|done].
    - right. rewrite fmap_length in *. rewrite list_lookup_fmap in H. destruct (gs !! (a - length dones)) as [g0|] eqn:E; [|done]. injection H as <-. eauto.
  Qed.
  (** Parts that are disjoint and cover everything. *)
  Definition cover (n : nat) (gs : list (gset nat)) : Prop :=
    (forall a b g h, gs !! a = Some g -> gs !! b = Some h -> a <> b -> g ## h) /\ (forall j, j < n <-> exists g, g ∈ gs /\ j ∈ g).
  Lemma cover_all gs : cover m gs -> cover (length inputs) (all_parts gs).
  Proof.
    intros [H1 H2]. assert (Hlt : forall g k, g ∈ gs -> k ∈ g -> k < m) by (intros g k Hg Hk; apply H2; eauto). split.
    - intros a b g h Ha Hb Hab. apply all_parts_lookup in Ha as [(j & A1 & A2 & ->)|(g0 & A1 & A2 & ->)]; apply all_parts_lookup in Hb as [(j' & B1 & B2 & ->)|(h0 & B1 & B2 & ->)].
      + assert (Hne : j <> j'). { intros ->. apply Hab. eapply NoDup_lookup; [|exact A2|exact B2]. unfold DpMain.dones. apply NoDup_filter, NoDup_seq. } set_solver.
      + intros x ->%elem_of_singleton (k & -> & Hk)%elem_of_map. apply (pos_not_done (ren k)); [|by eapply elem_of_list_lookup_2]. apply ren_pos. eapply Hlt; [|exact Hk]. by eapply elem_of_list_lookup_2.
      + intros x (k & -> & Hk)%elem_of_map E%elem_of_singleton. apply (pos_not_done (ren k)); [|rewrite E; by eapply elem_of_list_lookup_2]. apply ren_pos. eapply Hlt; [|exact Hk]. by eapply elem_of_list_lookup_2.
      + intros x (k & -> & Hk)%elem_of_map (k' & E & Hk')%elem_of_map. apply ren_inj in E; [|eapply Hlt; [|exact Hk]; by eapply elem_of_list_lookup_2|eapply Hlt; [|exact Hk']; by eapply elem_of_list_lookup_2]. subst k'.
        eapply (H1 _ _ g0 h0 A2 B2); [lia|exact Hk|exact Hk'].
    - intros j. rewrite pos_dones. unfold all_parts. setoid_rewrite elem_of_app. split.
      + intros [Hp|Hd].
        * destruct (nam_ok j Hp) as [Hk E]. apply H2 in Hk as (g & Hg & Hk). exists (set_map ren g). split; [right; apply elem_of_list_fmap; eauto|]. apply elem_of_map. eauto.
        * exists {[j]}. split; [left; apply elem_of_list_fmap; eauto|set_solver].
      + intros (g & [(i & -> & Hi)%elem_of_list_fmap|(g0 & -> & Hg0)%elem_of_list_fmap] & Hj).
        * apply elem_of_singleton in Hj as ->. by right.
        * apply elem_of_map in Hj as (k & -> & Hk). left. apply ren_pos. by eapply Hlt.
  Qed.
  Lemma connected_all gs : connected_parts parsed output gs -> connected_parts inputs output (all_parts gs).
  Proof.
    intros [H1 H2 H3]. rewrite fmap_length in H3. destruct (cover_all gs (conj H2 H3)) as [C1 C2]. split; [|exact C1|exact C2].
    assert (Hlt : forall g k, g ∈ gs -> k ∈ g -> k < m) by (intros g k Hg Hk; apply H3; eauto).
    intros g Hg. unfold all_parts in Hg. apply elem_of_app in Hg as [(j & -> & Hj)%elem_of_list_fmap|(g0 & -> & Hg0)%elem_of_list_fmap].
    - split; [set_solver|]. intros i i' ->%elem_of_singleton. rewrite elem_of_singleton. split; [intros ->; apply rtc_refl|]. apply rtc_done. intros Hp. by apply (pos_not_done j).
    - destruct (H1 g0 Hg0) as [Hne Hcl]. split.
      + apply set_choose_L in Hne as (k & Hk). intros E. assert (Hin : ren k ∈ (set_map ren g0 : gset nat)) by (apply elem_of_map; eauto). rewrite E in Hin. by apply elem_of_empty in Hin.
      + intros i j Hi. apply elem_of_map in Hi as (k & -> & Hk). rewrite elem_of_map. pose proof (Hlt g0 k Hg0 Hk) as Hkm. split.
        * intros (k' & -> & Hk'). apply rtc_ren; [done|]. by apply (Hcl k k' Hk).
        * intros Hr. destruct (rtc_back k j Hkm Hr) as (k' & Hkm' & -> & Hr'). exists k'. split; [done|]. by apply (Hcl k k' Hk).
  Qed.
End Renumber.
