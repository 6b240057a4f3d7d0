(** [_tree_to_sequence] realises its tree. *)
From Verif Require Import Prelude Einsum EinsumFacts Helpers Contract Spec PathSpec StringFacts StepFacts ContractFacts PathFacts Ssa SsaSpec SsaFacts SsaMore Tree TreeSpec.

(** ** Lists *)
Lemma insert_perm {A} p (x : A) l : insert_at p x l ≡ₚ x :: l.
Proof. unfold insert_at. by rewrite <-Permutation_middle, take_drop. Qed.
Lemma insert_length {A} p (x : A) l : length (insert_at p x l) = S (length l).
Proof. by rewrite insert_perm. Qed.
Lemma asc_app l1 l2 : asc l1 -> asc l2 -> (forall x y, x ∈ l1 -> y ∈ l2 -> x < y) -> asc (l1 ++ l2).
Proof.
  intros H1 H2 H. induction H1 as [|x l Hl IH Hx]; [done|]. simpl. constructor.
  - apply IH. intros; apply H; [by right|done].
  - apply Forall_app. split; [done|]. apply Forall_forall. intros y Hy. apply H; [left|done].
Qed.
Lemma asc_insert i t : asc t -> i ∉ t -> asc (insert_at (bisect_left t i) i t).
Proof.
  unfold bisect_left, insert_at. induction 1 as [|x l Hl IH Hx]; intros Hi.
  - simpl. constructor; constructor.
  - rewrite filter_cons. apply not_elem_of_cons in Hi as [Hne Hi]. destruct (decide (x < i)) as [Hlt|Hge].
    + cbn [length take drop]. simpl. constructor; [by apply IH|]. rewrite Forall_app. rewrite Forall_forall in Hx. split.
      * apply Forall_forall. intros y Hy. apply Hx. by eapply elem_of_take_1 || (apply elem_of_list_lookup in Hy as [k Hk]; apply lookup_take_Some in Hk as [Hk _]; by eapply elem_of_list_lookup_2).
      * constructor; [done|]. apply Forall_forall. intros y Hy. apply Hx. apply elem_of_list_lookup in Hy as [k Hk]. rewrite lookup_drop in Hk. by eapply elem_of_list_lookup_2.
    + assert (Hn : filter (fun q => q < i) l = []).
      { apply elem_of_nil_inv. intros y [Hy Hin]%elem_of_list_filter. rewrite Forall_forall in Hx. apply Hx in Hin. lia. }
      rewrite Hn. simpl. constructor; [by constructor|]. constructor; [lia|]. rewrite Forall_forall in *. intros y Hy. apply Hx in Hy. lia.
Qed.
Lemma bisect_perm l l' i : l ≡ₚ l' -> bisect_left l i = bisect_left l' i.
Proof. intros H. unfold bisect_left. by rewrite H. Qed.
Lemma bisect_app l l' i : bisect_left (l ++ l') i = bisect_left l i + bisect_left l' i.
Proof. unfold bisect_left. by rewrite filter_app, app_length. Qed.
Lemma bisect_above l i : (forall x, x ∈ l -> i <= x) -> bisect_left l i = 0.
Proof.
  intros H. unfold bisect_left. assert (Hn : filter (fun x => x < i) l = []); [|by rewrite Hn].
  apply elem_of_nil_inv. intros y [Hy Hin]%elem_of_list_filter. apply H in Hin. lia.
Qed.
Lemma bisect_below l i : (forall x, x ∈ l -> x < i) -> bisect_left l i = length l.
Proof.
  intros H. unfold bisect_left. induction l as [|x l IH]; [done|]. rewrite filter_cons, decide_True by (apply H; left). simpl. f_equal. apply IH. intros; apply H; by right.
Qed.
Lemma bisect_seq a m k : k <= m -> bisect_left (seq a m) (a + k) = k.
Proof.
  intros Hk. replace m with (k + (m - k)) by lia. rewrite seq_app, bisect_app. rewrite bisect_below by (intros x Hx%elem_of_seq; lia).
  rewrite bisect_above by (intros x Hx%elem_of_seq; lia). rewrite seq_length. lia.
Qed.

(** Putting ascending ints at their places: the places are those in the final list. *)
Lemma tts_leaves_ok s0 t l : asc t -> asc l -> (forall i, i ∈ l -> i ∉ t) ->
  exists t', foldl tts_leaf (s0, t) l = (s0 ++ (bisect_left t' <$> l), t') /\ asc t' /\ t' ≡ₚ l ++ t.
Proof.
  intros Ht Hl. revert s0 t Ht. induction Hl as [|i l Hl IH Hi]; intros s0 t Ht Hn.
  - exists t. simpl. rewrite app_nil_r. done.
  - simpl. unfold tts_leaf at 2. cbn [fst snd]. change (length (filter (fun q => q < i) t)) with (bisect_left t i).
    destruct (IH (s0 ++ [bisect_left t i]) (insert_at (bisect_left t i) i t)) as (t' & H1 & H2 & H3).
    + apply asc_insert; [done|]. apply Hn. left.
    + intros j Hj. rewrite insert_perm. rewrite Forall_forall in Hi. apply Hi in Hj as Hij. apply not_elem_of_cons. split; [lia|]. apply Hn. by right.
    + exists t'. rewrite H1. split; [|split; [done|]].
      * f_equal. rewrite <-app_assoc. f_equal. simpl. f_equal. rewrite (bisect_perm _ _ i H3), bisect_app, (bisect_above l i).
        -- rewrite (bisect_perm _ _ i (insert_perm (bisect_left t i) i t)). rewrite Nat.add_0_l. unfold bisect_left. rewrite (filter_cons (fun x => x < i) i t). rewrite decide_False by lia. done.
        -- intros x Hx. rewrite Forall_forall in Hi. apply Hi in Hx. lia.
      * rewrite H3, insert_perm. by rewrite <-Permutation_middle.
Qed.
Lemma tts_nodes_ok nt s0 c l : foldl (tts_node nt) (s0, c) l = (s0 ++ seq (nt + length c) (length l), c ++ l).
Proof.
  revert s0 c. induction l as [|j l IH]; intros s0 c; simpl; [by rewrite !app_nil_r|]. unfold tts_node at 2. cbn [fst snd]. rewrite IH, app_length. simpl.
  rewrite <-!app_assoc. simpl. do 3 f_equal. f_equal. lia.
Qed.
Lemma children_perm j : (Leaf <$> omap leaf_of j) ++ (Node <$> omap node_of j) ≡ₚ j.
Proof.
  induction j as [|[i|l] j IH]; [done| |]; simpl.
  - constructor. exact IH.
  - rewrite <-Permutation_middle. constructor. exact IH.
Qed.

(** ** One step *)
Section Step.
  Variable n : nat.
  Implicit Types c : list (list tree).
  Definition state (t : list nat) c : list tree := (Leaf <$> t) ++ (Node <$> c).
  (** Positions as ids: leaves keep their number, stack entries follow. *)
  Definition ids_of (t : list nat) c : list nat := t ++ seq n (length c).
  Definition tree_of c (i : nat) : tree := if i <? n then Leaf i else Node (default [] (c !! (i - n))).
  Lemma state_ids t c : (forall i, i ∈ t -> i < n) -> state t c = tree_of c <$> ids_of t c.
  Proof.
    intros Ht. unfold state, ids_of. rewrite fmap_app. f_equal.
    - apply list_fmap_ext'. intros i Hi. unfold tree_of. by rewrite (proj2 (Nat.ltb_lt i n)) by by apply Ht.
    - apply list_eq. intros k. rewrite !list_lookup_fmap. destruct (decide (k < length c)) as [Hk|Hk].
      + rewrite lookup_seq_lt by done. simpl. unfold tree_of. rewrite (proj2 (Nat.ltb_ge (n + k) n)) by lia. replace (n + k - n) with k by lia.
        by destruct (lookup_lt_is_Some_2 c k Hk) as [x ->].
      + rewrite !lookup_ge_None_2 by (rewrite ?seq_length; lia). done.
  Qed.
  Lemma tts_step_ok t c j : asc t -> (forall i, i ∈ t -> i < n) -> NoDup (omap leaf_of j) -> (forall i, i ∈ omap leaf_of j -> i ∉ t /\ i < n) -> j <> [] ->
    exists s t', foldl tts_leaf ([], t) (sort_nat (omap leaf_of j)) = (s, t') /\ asc t' /\ t' ≡ₚ omap leaf_of j ++ t /\
      forall s' c', foldl (tts_node (length t')) (s, c) (omap node_of j) = (s', c') ->
        c' = c ++ omap node_of j /\ s' <> [] /\ NoDup s' /\ Forall (fun i => i < length t' + length c') s' /\ length s' = length j /\
        others s' (state t' c') = state t c /\ chosen s' (state t' c') ≡ₚ j.
  Proof.
    intros Ht Htn Hnd Hl Hj. set (lv := sort_nat (omap leaf_of j)). assert (Hlv : lv ≡ₚ omap leaf_of j) by apply sort_nat_perm.
    destruct (tts_leaves_ok [] t lv Ht) as (t' & H1 & Ht' & Hp); [by apply sort_nat_asc| |].
    { intros i. unfold lv. rewrite elem_sort_nat. intros Hi. by apply Hl. }
    exists (bisect_left t' <$> lv), t'. split; [done|]. split; [done|]. split; [by rewrite Hp, Hlv|]. intros s' c'. rewrite tts_nodes_ok.
    intros [= <- <-]. split; [done|]. set (nd := omap node_of j). set (S0 := lv ++ seq (n + length c) (length nd)).
    assert (Ht'n : forall i, i ∈ t' -> i < n).
    { intros i. rewrite Hp. intros [Hi|Hi]%elem_of_app; [|by apply Htn]. rewrite Hlv in Hi. by apply Hl. }
    assert (Hids : asc (ids_of t' (c ++ nd))).
    { apply asc_app; [done|apply asc_seq|]. intros x y Hx Hy%elem_of_seq. apply Ht'n in Hx. lia. }
    assert (HS : bisect_left (ids_of t' (c ++ nd)) <$> S0 = (bisect_left t' <$> lv) ++ seq (length t' + length c) (length nd)).
    { unfold S0. rewrite fmap_app. f_equal.
      - apply list_fmap_ext'. intros i Hi. unfold ids_of. rewrite bisect_app, (bisect_above (seq _ _)), Nat.add_0_r; [done|].
        intros x Hx%elem_of_seq. assert (i < n); [|lia]. apply Ht'n. rewrite Hp. apply elem_of_app. by left.
      - apply list_eq. intros k. rewrite list_lookup_fmap. destruct (decide (k < length nd)) as [Hk|Hk].
        + rewrite !lookup_seq_lt by done. simpl. f_equal. unfold ids_of. rewrite bisect_app, bisect_below by (intros x Hx%Ht'n; lia).
          rewrite <-Nat.add_assoc, bisect_seq by (rewrite app_length; lia). lia.
        + rewrite !lookup_ge_None_2 by (rewrite ?seq_length; lia). done. }
    rewrite <-HS. assert (Hnd0 : NoDup S0).
    { apply NoDup_app. split; [by rewrite Hlv|]. split; [|apply NoDup_seq]. intros x Hx Hx'%elem_of_seq. rewrite Hlv in Hx. apply Hl in Hx. lia. }
    assert (Hin0 : forall i, i ∈ S0 -> i ∈ ids_of t' (c ++ nd)).
    { intros i [Hi|Hi]%elem_of_app; unfold ids_of; apply elem_of_app; [left; rewrite Hp; apply elem_of_app; by left|right].
      apply elem_of_seq in Hi. apply elem_of_seq. rewrite app_length. lia. }
    set (con := bisect_left (ids_of t' (c ++ nd)) <$> S0). assert (Hcon : sort_nat con ≡ₚ con) by apply sort_nat_perm.
    assert (Hlen : length S0 = length j).
    { unfold S0. rewrite app_length, seq_length, Hlv. unfold nd. pose proof (children_perm j) as Hc. apply Permutation_length in Hc. rewrite app_length, !fmap_length in Hc. lia. }
    split; [|split; [|split; [|split; [|split]]]].
    - intros E. apply (f_equal length) in E. unfold con in E. rewrite fmap_length, Hlen in E. by destruct j.
    - rewrite <-Hcon. apply asc_NoDup. by apply con_asc.
    - rewrite <-Hcon. pose proof (con_range _ S0 Hids Hin0) as Hr. fold con in Hr. eapply Forall_impl; [exact Hr|]. intros i Hi. simpl. unfold ids_of in Hi. by rewrite app_length, seq_length in Hi.
    - unfold con. by rewrite fmap_length.
    - rewrite (others_perm con (sort_nat con)) by (by symmetry). rewrite (state_ids t' _ Ht'n), others_fmap. unfold con. rewrite (others_con _ S0 Hids Hin0).
      rewrite (state_ids t c Htn).
      assert (Hf : filter (.∉ S0) (ids_of t' (c ++ nd)) = ids_of t c).
      { apply asc_unique; [by apply asc_filter| |].
        - apply asc_app; [done|apply asc_seq|]. intros x y Hx Hy%elem_of_seq. apply Htn in Hx. lia.
        - intros x. rewrite elem_of_list_filter. unfold S0, ids_of. rewrite !elem_of_app, !elem_of_seq, app_length, Hp, elem_of_app. split.
          + intros (Hno & [[Hx|Hx]|Hx]); [tauto|by left|]. right. destruct (decide (n + length c <= x)); [|lia]. exfalso. apply Hno. right. lia.
          + intros [Hx|Hx].
            * split; [|by auto]. intros [Hx'|Hx']; [rewrite Hlv in Hx'; by apply Hl in Hx' as [? _]|]. apply Htn in Hx. lia.
            * split; [|right; lia]. intros [Hx'|Hx']; [rewrite Hlv in Hx'; apply Hl in Hx' as [_ ?]; lia|lia]. }
      rewrite Hf. apply list_fmap_ext'. intros i [Hi|Hi]%elem_of_app; unfold tree_of.
      + by rewrite (proj2 (Nat.ltb_lt i n)) by by apply Htn.
      + apply elem_of_seq in Hi. rewrite (proj2 (Nat.ltb_ge i n)) by lia. by rewrite lookup_app_l by lia.
    - rewrite (chosen_perm con (sort_nat con)) by (by symmetry). rewrite (state_ids t' _ Ht'n), chosen_fmap. unfold con. rewrite (chosen_con _ S0 Hids Hnd0 Hin0).
      rewrite sort_nat_perm. unfold S0. rewrite fmap_app. etrans; [|apply children_perm]. fold nd.
      assert (E1 : tree_of (c ++ nd) <$> lv = Leaf <$> lv).
      { apply list_fmap_ext'. intros i Hi. unfold tree_of. rewrite (proj2 (Nat.ltb_lt i n)); [done|]. rewrite Hlv in Hi. by apply Hl. }
      assert (E2 : tree_of (c ++ nd) <$> seq (n + length c) (length nd) = Node <$> nd).
      { apply list_eq. intros k. rewrite !list_lookup_fmap. destruct (decide (k < length nd)) as [Hk|Hk].
        - rewrite lookup_seq_lt by done. simpl. unfold tree_of. rewrite (proj2 (Nat.ltb_ge _ n)) by lia. rewrite lookup_app_r by lia.
          replace (n + length c + k - n - length c) with k by lia. by destruct (lookup_lt_is_Some_2 nd k Hk) as [x ->].
        - rewrite !lookup_ge_None_2 by (rewrite ?seq_length; lia). done. }
      rewrite E1, E2, Hlv. done.
  Qed.
End Step.

(** ** The loop *)
Section Loop.
  Variable n : nat.
  Variable root : tree.
  Definition pending (c : list (list tree)) : list tree := mjoin (map nodes (Node <$> c)).
  Record tts_ok (c : list (list tree)) (t : list nat) (s : path) : Prop := TtsOk {
    tt_asc : asc t;
    tt_leaves : t ++ mjoin (map leaves (Node <$> c)) ≡ₚ seq 0 n;
    tt_nonempty : Node [] ∉ pending c;
    tt_runs : path_runs (length t + length c) s;
    tt_value : forall A (f : list A -> A) (L : nat -> A), commutes f -> run_path f s (value f L <$> state t c) = [value f L root];
    tt_nodes : forall A (f : list A -> A) (L : nat -> A), commutes f -> results f s (value f L <$> state t c) ++ (value f L <$> pending c) ≡ₚ value f L <$> nodes root }.

  Lemma mjoin_app {A} (l l' : list (list A)) : mjoin (l ++ l') = mjoin l ++ mjoin l'.
  Proof. induction l as [|x l IH]; [done|]. simpl. rewrite <-app_assoc. f_equal. exact IH. Qed.
  Lemma mjoin_children {A} (g : tree -> list A) j : mjoin (map g j) ≡ₚ mjoin (map g (Leaf <$> omap leaf_of j)) ++ mjoin (map g (Node <$> omap node_of j)).
  Proof. rewrite <-mjoin_app, <-map_app. change (map g) with (fmap (M := list) g). by rewrite <-(children_perm j) at 1. Qed.
  Lemma mjoin_leaves l : mjoin (map leaves (Leaf <$> l)) = l.
  Proof. induction l as [|i l IH]; [done|]. simpl. f_equal. exact IH. Qed.
  Lemma mjoin_nodes_leaf l : mjoin (map nodes (Leaf <$> l)) = [].
  Proof. induction l as [|i l IH]; [done|]. simpl. exact IH. Qed.
  Lemma pending_snoc c j : pending (c ++ [j]) ≡ₚ Node j :: pending (c ++ omap node_of j).
  Proof.
    unfold pending. rewrite !fmap_app, ?map_app, !mjoin_app. simpl. rewrite app_nil_r, <-Permutation_middle. constructor. f_equiv.
    by rewrite (mjoin_children nodes j), mjoin_nodes_leaf.
  Qed.

  Lemma tts_loop_ok fuel c t s : tts_ok c t s -> length (pending c) <= fuel -> exists t' s', tts_loop fuel c t s = Ok s' /\ tts_ok [] t' s'.
  Proof.
    revert c t s. induction fuel as [|fuel IH]; intros c t s Hok Hf; simpl; destruct (reverse c) as [|j rc] eqn:Ec;
      apply (f_equal reverse) in Ec; rewrite reverse_involutive in Ec; rewrite ?reverse_cons in Ec; subst c.
    - eauto.
    - rewrite pending_snoc in Hf. simpl in Hf. lia.
    - eauto.
    - set (c := reverse rc) in *. destruct Hok as [Ha Hl Hne Hr Hv Hn].
      assert (Hlv : mjoin (map leaves (Node <$> (c ++ [j]))) ≡ₚ omap leaf_of j ++ mjoin (map leaves (Node <$> (c ++ omap node_of j)))).
      { rewrite !fmap_app, ?map_app, !mjoin_app. simpl. rewrite app_nil_r, (mjoin_children leaves j), mjoin_leaves. rewrite !app_assoc. apply Permutation_app_tail, Permutation_app_comm. }
      rewrite Hlv in Hl. assert (Hnd : NoDup (t ++ omap leaf_of j ++ mjoin (map leaves (Node <$> (c ++ omap node_of j))))) by (rewrite Hl; apply NoDup_seq).
      apply NoDup_app in Hnd as (Hnd1 & Hnd2 & Hnd3). apply NoDup_app in Hnd3 as (Hnd4 & _ & _).
      assert (Hrange : forall i, i ∈ t \/ i ∈ omap leaf_of j -> i < n).
      { intros i Hi. assert (Hs : i ∈ seq 0 n); [|apply elem_of_seq in Hs; lia]. rewrite <-Hl, !elem_of_app. tauto. }
      rewrite pending_snoc in Hne. apply not_elem_of_cons in Hne as [Hj Hne].
      destruct (tts_step_ok n t c j Ha) as (s0 & t' & H1 & Ht' & Hp & Hstep); [by auto|done| |congruence|].
      { intros i Hi. split; [|by auto]. intros Hin. by apply (Hnd2 i Hin), elem_of_app; left. }
      rewrite H1. destruct (foldl (tts_node (length t')) (s0, c) (omap node_of j)) as [s' c'] eqn:E.
      destruct (Hstep s' c' eq_refl) as (Hc' & Hs1 & Hs2 & Hs3 & Hs4 & Hoth & Hch).
      destruct (IH c' t' (s' :: s)) as (t2 & s2 & H2 & Hok2); [|rewrite pending_snoc in Hf; simpl in Hf; subst c'; lia|eauto].
      assert (Hlen : length t' + length c' - length s' + 1 = length t + length (c ++ [j])).
      { rewrite Hs4, Hp. subst c'. rewrite !app_length. simpl. pose proof (children_perm j) as Hc. apply Permutation_length in Hc. rewrite app_length, !fmap_length in Hc. lia. }
      assert (Hnext : forall A (f : list A -> A) L, commutes f ->
        others s' (value f L <$> state t' c') ++ [f (chosen s' (value f L <$> state t' c'))] = value f L <$> state t (c ++ [j])).
      { intros A f L Hf2. rewrite others_fmap, chosen_fmap, Hoth. unfold state. rewrite !fmap_app, <-app_assoc. do 2 f_equal. simpl. f_equal.
        apply Hf2. fold (state t' c'). change (map (value f L) j) with (value f L <$> j). by rewrite Hch. }
      split; try done.
      + rewrite Hp. subst c'. rewrite <-app_assoc, <-Hl. rewrite !app_assoc. apply Permutation_app_tail, Permutation_app_comm.
      + by subst c'.
      + simpl. split; [done|]. split; [done|]. split; [done|]. by rewrite Hlen.
      + intros A f L Hf2. simpl. rewrite Hnext by done. by apply Hv.
      + intros A f L Hf2. simpl. rewrite Hnext by done. rewrite <-(Hn A f L Hf2), pending_snoc. rewrite fmap_cons. subst c'.
        assert (Hval : f (chosen s' (value f L <$> state t' (c ++ omap node_of j))) = value f L (Node j)).
        { rewrite chosen_fmap. simpl. apply Hf2. change (map (value f L) j) with (value f L <$> j). by rewrite Hch. }
        rewrite Hval. apply Permutation_middle.
  Qed.
End Loop.

Lemma tree_induction (P : tree -> Prop) : (forall i, P (Leaf i)) -> (forall l, Forall P l -> P (Node l)) -> forall t, P t.
Proof.
  intros HL HN. fix IH 1. intros [i|l]; [apply HL|]. apply HN. induction l as [|t l IHl]; constructor; [apply IH|exact IHl].
Qed.
Lemma tree_nodes_length t : length (nodes t) = tree_nodes t.
Proof.
  induction t as [|l IH] using tree_induction; [done|]. simpl. f_equal. induction IH as [|t l Ht Hl IHl]; [done|]. simpl. rewrite app_length. f_equal; [exact Ht|exact IHl].
Qed.

Theorem tree_to_sequence_ok n t : tree_over n t -> exists p, tree_to_sequence t = Ok p /\ path_runs n p /\
  forall A (f : list A -> A) (vals : list A) (L : nat -> A), commutes f -> length vals = n -> (forall i x, vals !! i = Some x -> L i = x) ->
    run_path f p vals = [value f L t] /\ results f p vals ≡ₚ value f L <$> nodes t.
Proof.
  intros [Hl Hne]. destruct t as [i|l].
  - simpl in Hl. assert (Hn : n = 1) by (apply Permutation_length in Hl; rewrite seq_length in Hl; simpl in Hl; lia). subst n. simpl in Hl.
    apply Permutation_singleton_inj in Hl as ->. exists []. split; [done|]. split; [done|]. intros A f vals L _ Hlen HL. destruct vals as [|x [|]]; try done. simpl. split; [|done]. f_equal. symmetry. by apply (HL 0).
  - unfold tree_to_sequence. destruct (tts_loop_ok n (Node l) (tree_nodes (Node l)) [l] [] []) as (t' & s' & H & Hok).
    + split; try done.
      * constructor.
      * simpl. rewrite app_nil_r. exact Hl.
      * unfold pending. simpl. rewrite app_nil_r. exact Hne.
      * intros A f L _. unfold pending. simpl. by rewrite app_nil_r.
    + rewrite <-tree_nodes_length. unfold pending. simpl. rewrite app_nil_r. done.
    + exists s'. split; [done|]. destruct Hok as [Ha Hlv _ Hr Hv Hn]. simpl in Hlv. rewrite app_nil_r in Hlv.
      assert (Ht : t' = seq 0 n). { apply asc_unique; [done|apply asc_seq|]. intros x. by rewrite Hlv. }
      subst t'. rewrite seq_length, Nat.add_0_r in Hr. split; [done|]. intros A f vals L Hf Hlen HL.
      assert (Hst : value f L <$> state (seq 0 n) [] = vals).
      { unfold state. rewrite fmap_nil, app_nil_r. apply list_eq. intros i. rewrite !list_lookup_fmap. destruct (decide (i < n)) as [Hi|Hi].
        - rewrite lookup_seq_lt by done. simpl. destruct (lookup_lt_is_Some_2 vals i) as [x Hx]; [lia|]. rewrite Hx. f_equal. by apply HL.
        - rewrite !lookup_ge_None_2 by (rewrite ?seq_length; lia). done. }
      specialize (Hv A f L Hf). specialize (Hn A f L Hf). rewrite Hst in Hv, Hn. split; [done|]. rewrite <-Hn. unfold pending. simpl. by rewrite app_nil_r.
Qed.
