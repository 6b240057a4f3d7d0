(** C63: at temperature zero random-greedy contracts a cheapest pair at every step. *)
From Verif Require Import Prelude Einsum EinsumFacts Helpers Contract Spec PathSpec StringFacts StepFacts ContractFacts PathFacts Ssa SsaSpec SsaFacts SsaMore Optimal OptimalFacts OptimalBest Branch BranchFacts BranchBest Greedy GreedyFacts GreedySpec GreedyPhases GreedyFirst ZeroSpec.

Lemma pair_not (i a b : nat) : i ∉ [a; b] <-> i <> a /\ i <> b.
Proof. rewrite !not_elem_of_cons. split; [by intros (? & ? & _)|]. intros [? ?]. split_and!; try done. apply not_elem_of_nil. Qed.

Lemma key_union_comm (a b : key) : a ∪ b = b ∪ a.
Proof. set_solver. Qed.

Lemma union_two (a b : key) : union_all [a; b] = a ∪ b.
Proof. unfold union_all. simpl. set_solver. Qed.

Section Generic.
  Variable out : gset N.
  Variable Q : gmap nat key -> nat -> nat -> key -> key -> Prop.
  Fixpoint g_ssa (p : path) (m : gmap nat key) (next : nat) : Prop :=
    match p with
    | [] => True
    | s :: p' => exists a b ka kb, s = [a; b] /\ a <> b /\ m !! a = Some ka /\ m !! b = Some kb /\ Q m a b ka kb /\ g_ssa p' (joined out m a b next ka kb) (S next)
    end.
  Inductive g_steps (n : nat) (m0 : gmap nat key) : path -> gmap nat key -> Prop :=
    | g_steps_nil : g_steps n m0 [] m0
    | g_steps_snoc p m a b ka kb : g_steps n m0 p m -> a <> b -> m !! a = Some ka -> m !! b = Some kb -> Q m a b ka kb ->
        g_steps n m0 (p ++ [[a; b]]) (joined out m a b (n + length p) ka kb).
  Lemma g_steps_forward n m0 p m : g_steps n m0 p m -> forall p', g_ssa p' m (n + length p) -> g_ssa (p ++ p') m0 n.
  Proof.
    induction 1 as [|p m a b ka kb H IH Hab Ha Hb HQ]; intros p' Hp'.
    - simpl in *. by rewrite Nat.add_0_r in Hp'.
    - rewrite <-app_assoc. apply IH. simpl. exists a, b, ka, kb. split_and!; try done. rewrite app_length in Hp'. simpl in Hp'. by replace (S (n + length p)) with (n + (length p + 1)) by lia.
  Qed.
  (** The rest of a path *)
  Lemma ssa_rest fr D n m0 p m : g_steps n m0 p m -> forall l, ssa_steps fr out D (p ++ l) m0 n -> ssa_steps fr out D l m (n + length p).
  Proof.
    induction 1 as [|p m a b ka kb H IH Hab Ha Hb HQ]; intros l Hl; [by rewrite Nat.add_0_r|].
    rewrite <-app_assoc in Hl. apply IH in Hl as (a' & b' & ka' & kb' & [= <- <-] & _ & Ha' & Hb' & _ & Hl). simplify_eq.
    rewrite app_length. simpl. by replace (n + (length p + 1)) with (S (n + length p)) by lia.
  Qed.

  Variable Q' : list key -> list key -> Prop.
  Hypothesis HQ' : forall ids (m : gmap nat key) a b ka kb, asc ids -> (forall i, i ∈ ids <-> is_Some (m !! i)) -> a <> b -> m !! a = Some ka -> m !! b = Some kb -> Q m a b ka kb ->
    Q' ((fun i => default ∅ (m !! i)) <$> sort_nat [a; b]) ((fun i => default ∅ (m !! i)) <$> filter (.∉ [a; b]) ids).
  Lemma g_linear p : forall ids m next lp, asc ids -> Forall (fun i => i < next) ids -> (forall i, i ∈ ids <-> is_Some (m !! i)) ->
    s2l_loop next ids p = Ok lp -> g_ssa p m next -> each_step Q' out lp ((fun i => default ∅ (m !! i)) <$> ids).
  Proof.
    induction p as [|s p IH]; intros ids m next lp Hasc Hlt Hids Hlp Hs; cbn [s2l_loop] in Hlp; [by injection Hlp as <-|].
    destruct Hs as (a & b & ka & kb & -> & Hab & Ha & Hb & HQ & Hs).
    assert (Hin : forall i, i ∈ [a; b] -> i ∈ ids) by (intros i Hi; apply Hids; repeat (apply elem_of_cons in Hi as [->|Hi]; [eauto|]); by apply elem_of_nil in Hi).
    assert (Hnd : NoDup [a; b]) by (apply NoDup_cons; split; [by rewrite elem_of_list_singleton|apply NoDup_singleton]).
    destruct (pops_con ids [a; b] Hasc Hnd Hin) as (tmp & Hpop). rewrite Hpop in Hlp. cbn [mbind res_bind] in Hlp.
    apply bind_Ok in Hlp as (rest & Hrest & Hlp). set (con := sort_nat (bisect_left ids <$> [a; b])) in *. assert (lp = con :: rest) as -> by congruence. clear Hlp.
    set (g := fun i => default ∅ (m !! i)).
    assert (Hch : chosen con (g <$> ids) = g <$> sort_nat [a; b]) by (rewrite chosen_fmap; unfold con; by rewrite chosen_con).
    assert (Hot : others con (g <$> ids) = g <$> filter (.∉ [a; b]) ids) by (rewrite others_fmap; unfold con; by rewrite others_con).
    assert (Hga : g a = ka) by (unfold g; by rewrite Ha). assert (Hgb : g b = kb) by (unfold g; by rewrite Hb).
    assert (Hsort : sort_nat [a; b] = [a; b] \/ sort_nat [a; b] = [b; a]).
    { pose proof (sort_nat_perm [a; b]) as Hp. destruct (sort_nat [a; b]) as [|x [|y [|]]]; try (apply Permutation_length in Hp; done).
      apply Permutation_sym, Permutation_length_2_inv in Hp. tauto. }
    assert (Hr : forall x, x ∈ union_all (g <$> filter (.∉ [a; b]) ids) <-> x ∈ held (delete b (delete a m))).
    { intros x. unfold union_all. rewrite elem_held, elem_of_union_list. split.
      - intros (k & Hk & Hx). apply elem_of_list_fmap in Hk as (i & -> & Hi). apply elem_of_list_filter in Hi as [Hi Hi2]. apply Hids in Hi2 as [k Hk]. unfold g in Hx. rewrite Hk in Hx.
        exists i, k. split; [|done]. apply pair_not in Hi as [Hia Hib]. rewrite !lookup_delete_ne by done. done.
      - intros (i & k & Hk & Hx). apply lookup_delete_Some in Hk as [Hib Hk]. apply lookup_delete_Some in Hk as [Hia Hk]. exists k. split; [|done].
        apply elem_of_list_fmap. exists i. unfold g. rewrite Hk. split; [done|]. apply elem_of_list_filter. split; [by apply pair_not|]. apply Hids. eauto. }
    assert (Hkept : kept out con (g <$> ids) = (ka ∪ kb) ∩ (out ∪ held (delete b (delete a m)))).
    { unfold kept. rewrite Hch, Hot. apply set_eq. intros x. rewrite !elem_of_intersection, !elem_of_union, Hr.
      assert (Hu : union_all (g <$> sort_nat [a; b]) = ka ∪ kb); [|by rewrite Hu, elem_of_union]. destruct Hsort as [-> | ->]; rewrite !fmap_cons, fmap_nil, union_two, Hga, Hgb; [done|apply key_union_comm]. }
    cbn [each_step]. split; [rewrite Hch, Hot; by eapply HQ'|].
    rewrite Hot, Hkept. replace ((g <$> filter (.∉ [a; b]) ids) ++ [(ka ∪ kb) ∩ (out ∪ held (delete b (delete a m)))]) with
      ((fun i => default ∅ (joined out m a b next ka kb !! i)) <$> (filter (.∉ [a; b]) ids ++ [next])).
    { rewrite Forall_forall in Hlt. apply (IH (filter (.∉ [a; b]) ids ++ [next]) _ (S next)); [| | |done|done].
      - apply asc_snoc; [by apply asc_filter|]. apply Forall_forall. intros i [_ Hi]%elem_of_list_filter. by apply Hlt.
      - apply Forall_forall. intros i [Hi%elem_of_list_filter| ->%elem_of_list_singleton]%elem_of_app; [|lia]. destruct Hi as [_ Hi]. apply Hlt in Hi. lia.
      - intros i. unfold joined. rewrite elem_of_app, elem_of_list_singleton, elem_of_list_filter. destruct (decide (i = next)) as [->|Hn].
        + rewrite lookup_insert. split; [by eauto|by right].
        + rewrite lookup_insert_ne by done. split.
          * intros [[Hi Hi2]|?]; [|done]. apply pair_not in Hi as [Hia Hib]. rewrite !lookup_delete_ne by done. by apply Hids.
          * intros [k [Hib [Hia Hk]%lookup_delete_Some]%lookup_delete_Some]. left. split; [by apply pair_not|]. apply Hids. eauto. }
    rewrite fmap_app. f_equal; [|simpl; unfold joined; by rewrite lookup_insert].
    apply list_fmap_ext'. intros i [Hi Hi2]%elem_of_list_filter. unfold joined, g. rewrite Forall_forall in Hlt. apply Hlt in Hi2.
    rewrite lookup_insert_ne by lia. apply pair_not in Hi as [Hia Hib]. rewrite !lookup_delete_ne by done. done.
  Qed.
End Generic.

(** Joining two operands keeps track of the label sets. *)
Lemma join_tracks out T m a b ka kb ta tb K nx : tracks out T m -> a <> b -> T !! a = Some ka -> T !! b = Some kb -> m !! a = Some ta -> m !! b = Some tb ->
  K ⊆ ka ∪ kb -> (ka ∪ kb) ∩ out ⊆ K -> (forall c kc x, c <> a -> c <> b -> T !! c = Some kc -> x ∈ kc -> x ∈ ka ∪ kb -> x ∈ K) ->
  (exists x, x ∈ ka /\ x ∈ kb) \/ ka = kb ->
  tracks out (<[nx := K]> (delete b (delete a T))) (joined out m a b nx ta tb).
Proof.
  intros HT Hab Ha Hb Hta Htb H1 H2 H3 Hsh.
  destruct (steps_join (fun _ => True) out (fun _ => 0) nx m [] m T a b ka kb K) as (m' & Hs & HT'); try done; [constructor| |].
  { destruct Hsh as [(x & ? & ?)| ->]; [left; by exists x|by right; left]. }
  rewrite Nat.add_0_r in HT'. simpl in Hs. inversion Hs as [|p m1 a' b' ka' kb' Hs1 Hne Ha' Hb' _ Hp Hm]; subst.
  destruct p as [|? [|]]; simplify_eq/=. inversion Hs1; subst; [|by destruct p]. simplify_eq. by rewrite Nat.add_0_r in HT'.
Qed.
(** Operands with the same labels, as far as the search knows, have the same labels. *)
Lemma tracks_eq out T m a b k ta tb : tracks out T m -> a <> b -> T !! a = Some k -> T !! b = Some k -> m !! a = Some ta -> m !! b = Some tb -> ta = tb.
Proof.
  intros HT Hab Ha Hb Hta Htb. apply set_eq. intros x. split; intros Hx.
  - destruct (decide (x ∈ tb)) as [|Hn]; [done|]. assert (Hk : x ∈ k) by by eapply (tr_sub _ _ _ HT a).
    destruct (tr_extra _ _ _ HT b k tb x Hb Htb Hk Hn) as [_ H]. by destruct (H a k Hab).
  - destruct (decide (x ∈ ta)) as [|Hn]; [done|]. assert (Hk : x ∈ k) by by eapply (tr_sub _ _ _ HT b).
    destruct (tr_extra _ _ _ HT a k ta x Ha Hta Hk Hn) as [_ H]. by destruct (H b k (not_eq_sym Hab)).
Qed.

(** ** The pairs of [now ++ rest] *)
Section Linear.
  Variable fr : N -> Prop.
  Variable cost : nat -> nat -> nat -> key -> key -> key -> Z.
  Hypothesis Hsym : symmetric_cost cost.
  Variable D : N -> nat.
  Variable out0 : key.
  Definition pc (m : gmap nat key) (i j : nat) (ki kj : key) : Z :=
    let K := (ki ∪ kj) ∩ (out0 ∪ held (delete j (delete i m))) in cost (volume D K) (volume D ki) (volume D kj) K ki kj.
  Definition cheap (m : gmap nat key) (a b : nat) (ka kb : key) : Prop := linked fr ka kb -> ka = kb \/
    forall i j ki kj, i <> j -> m !! i = Some ki -> m !! j = Some kj -> linked fr ki kj -> (pc m a b ka kb <= pc m i j ki kj)%Z.
  Lemma pc_sym m i j ki kj : pc m i j ki kj = pc m j i kj ki.
  Proof. unfold pc. by rewrite (delete_commute m j i), (key_union_comm ki kj), Hsym. Qed.
  Lemma linked_sym a b : linked fr a b -> linked fr b a.
  Proof. intros (x & ? & ? & ?). by exists x. Qed.

  Definition cheap_step (now rest : list key) : Prop := exists a b, now = [a; b] /\ (linked fr a b -> a = b \/
    forall i j ki kj, i <> j -> (now ++ rest) !! i = Some ki -> (now ++ rest) !! j = Some kj -> linked fr ki kj ->
      (cost_of cost D out0 (now ++ rest) 0 1 <= cost_of cost D out0 (now ++ rest) i j)%Z).
  Lemma cost_of_pc (m : gmap nat key) l i j i' j' ki kj : NoDup l -> (forall z, z ∈ l <-> is_Some (m !! z)) -> i <> j -> l !! i = Some i' -> l !! j = Some j' ->
    m !! i' = Some ki -> m !! j' = Some kj -> cost_of cost D out0 ((fun z => default ∅ (m !! z)) <$> l) i j = pc m i' j' ki kj.
  Proof.
    intros Hnd Hl Hij Hi Hj Hki Hkj. set (g := fun z => default ∅ (m !! z)). set (sets := g <$> l).
    assert (Hsi : sets !! i = Some ki) by (unfold sets; rewrite list_lookup_fmap, Hi; simpl; unfold g; by rewrite Hki).
    assert (Hsj : sets !! j = Some kj) by (unfold sets; rewrite list_lookup_fmap, Hj; simpl; unfold g; by rewrite Hkj).
    unfold cost_of, pc. rewrite Hsi, Hsj. cbn [from_option id].
    assert (E : kept out0 [i; j] sets = (ki ∪ kj) ∩ (out0 ∪ held (delete j' (delete i' m)))); [|by rewrite E].
    assert (Hij' : i' <> j') by (intros ->; apply Hij; by eapply NoDup_lookup).
    apply set_eq. intros x. unfold kept. rewrite !elem_of_intersection, !elem_of_union, elem_held. unfold union_all. rewrite !elem_of_union_list. split.
    - intros [(k & (c & Hc & Hcs)%elem_chosen & Hx) Ho]. split.
      + rewrite !elem_of_cons, elem_of_nil in Hcs. destruct Hcs as [->|[->|[]]]; simplify_eq; auto.
      + destruct Ho as [?|(k' & (c' & Hc' & Hcs')%elem_others & Hx')]; [by left|right]. apply pair_not in Hcs' as [Hn1 Hn2].
        unfold sets in Hc'. rewrite list_lookup_fmap in Hc'. destruct (l !! c') as [z|] eqn:Ez; [|done]. simpl in Hc'. injection Hc' as <-. unfold g in Hx'.
        destruct (proj1 (Hl z)) as [kz Hkz]; [by eapply elem_of_list_lookup_2|]. rewrite Hkz in Hx'. exists z, kz. split; [|done].
        rewrite !lookup_delete_ne; [done|intros ->; apply Hn1; by eapply NoDup_lookup|intros ->; apply Hn2; by eapply NoDup_lookup].
    - intros [Hx Ho]. split.
      + destruct Hx as [Hx|Hx]; [exists ki|exists kj]; (split; [|done]); apply elem_chosen; [exists i|exists j]; (split; [done|]); [left|right; left].
      + destruct Ho as [?|(z & kz & [Hzj [Hzi Hz]%lookup_delete_Some]%lookup_delete_Some & Hx')]; [by left|right]. exists kz. split; [|done].
        assert (Hzl : z ∈ l) by (apply Hl; eauto). apply elem_of_list_lookup in Hzl as [c Hc]. apply elem_others. exists c. split.
        * unfold sets. rewrite list_lookup_fmap, Hc. simpl. unfold g. by rewrite Hz.
        * apply pair_not. split; intros ->; simplify_eq.
  Qed.
  Lemma cheap_linear ids (m : gmap nat key) a b ka kb : asc ids -> (forall i, i ∈ ids <-> is_Some (m !! i)) -> a <> b -> m !! a = Some ka -> m !! b = Some kb -> cheap m a b ka kb ->
    cheap_step ((fun i => default ∅ (m !! i)) <$> sort_nat [a; b]) ((fun i => default ∅ (m !! i)) <$> filter (.∉ [a; b]) ids).
  Proof.
    intros Hasc Hids Hab Ha Hb HQ. set (g := fun i => default ∅ (m !! i)). unfold cheap_step. rewrite <-fmap_app. set (l := sort_nat [a; b] ++ filter (.∉ [a; b]) ids).
    assert (Hnd : NoDup l).
    { apply NoDup_app. split; [rewrite sort_nat_perm; apply NoDup_cons; split; [by rewrite elem_of_list_singleton|apply NoDup_singleton]|].
      split; [|apply NoDup_filter; by apply asc_NoDup]. intros z Hz [Hz2 _]%elem_of_list_filter. by rewrite elem_sort_nat in Hz. }
    assert (Hl : forall z, z ∈ l <-> is_Some (m !! z)).
    { intros z. unfold l. rewrite elem_of_app, elem_sort_nat, elem_of_list_filter, Hids. split; [|intros Hz; destruct (decide (z ∈ [a; b])); auto].
      intros [Hz|[_ ?]]; [|done]. rewrite !elem_of_cons, elem_of_nil in Hz. destruct Hz as [->|[->|[]]]; eauto. }
    assert (Hga : g a = ka) by (unfold g; by rewrite Ha). assert (Hgb : g b = kb) by (unfold g; by rewrite Hb).
    assert (Hgen : forall a' b' ka' kb', sort_nat [a; b] = [a'; b'] -> m !! a' = Some ka' -> m !! b' = Some kb' -> cheap m a' b' ka' kb' ->
      exists x y, g <$> sort_nat [a; b] = [x; y] /\ (linked fr x y -> x = y \/ forall i j ki kj, i <> j -> (g <$> l) !! i = Some ki -> (g <$> l) !! j = Some kj -> linked fr ki kj ->
        (cost_of cost D out0 (g <$> l) 0 1 <= cost_of cost D out0 (g <$> l) i j)%Z)).
    { intros a' b' ka' kb' E Ha' Hb' HQ'. exists ka', kb'. split; [rewrite E; unfold g; simpl; by rewrite Ha', Hb'|]. intros Hlk. destruct (HQ' Hlk) as [?|Hc]; [by left|right].
      intros i j ki kj Hij Hi Hj Hlk2. rewrite list_lookup_fmap in Hi, Hj. destruct (l !! i) as [i'|] eqn:Ei; [|done]. destruct (l !! j) as [j'|] eqn:Ej; [|done]. simpl in Hi, Hj.
      destruct (proj1 (Hl i')) as [ki' Hki]; [by eapply elem_of_list_lookup_2|]. destruct (proj1 (Hl j')) as [kj' Hkj]; [by eapply elem_of_list_lookup_2|].
      unfold g in Hi, Hj. rewrite Hki in Hi. rewrite Hkj in Hj. simpl in Hi, Hj. injection Hi as ->. injection Hj as ->.
      assert (El : l !! 0 = Some a' /\ l !! 1 = Some b') by (unfold l; by rewrite E). destruct El as [El0 El1].
      unfold g. rewrite (cost_of_pc m l 0 1 a' b' ka' kb' Hnd Hl), (cost_of_pc m l i j i' j' ki kj Hnd Hl) by done. apply Hc; try done.
      intros ->. apply Hij. by eapply NoDup_lookup. }
    assert (Hsort : sort_nat [a; b] = [a; b] \/ sort_nat [a; b] = [b; a]).
    { pose proof (sort_nat_perm [a; b]) as Hp. destruct (sort_nat [a; b]) as [|x [|y [|]]]; try (apply Permutation_length in Hp; done).
      apply Permutation_sym, Permutation_length_2_inv in Hp. tauto. }
    destruct Hsort as [E|E]; [by apply (Hgen a b ka kb)|]. apply (Hgen b a kb ka); [done|done|done|].
    intros Hlk. destruct (HQ (linked_sym _ _ Hlk)) as [->|Hc]; [by left|right]. intros i j ki kj Hij Hi Hj Hlk2. rewrite (pc_sym m b a). by apply Hc.
  Qed.
  (** Nothing is linked any more. *)
  Lemma tail_cheap D' l : forall m next, none_linked fr m -> ssa_steps fr out0 D' l m next -> g_ssa out0 cheap l m next.
  Proof.
    induction l as [|s l IH]; intros m next Hn Hs; [done|]. destruct Hs as (a & b & ka & kb & -> & Hab & Ha & Hb & _ & Hs).
    exists a, b, ka, kb. split_and!; try done; [intros Hlk; by destruct (Hn a b ka kb)|]. apply IH; [|done].
    assert (Hold : forall i k, (delete b (delete a m)) !! i = Some k -> m !! i = Some k /\ i <> a /\ i <> b) by (intros i k [? [? ?]%lookup_delete_Some]%lookup_delete_Some; done).
    assert (Hnew : forall i k x, (delete b (delete a m)) !! i = Some k -> fr x -> x ∈ k -> x ∉ ka ∪ kb).
    { intros i k x (Hi & Hia & Hib)%Hold Hx Hxk [Hxa|Hxb]%elem_of_union; [apply (Hn i a k ka)|apply (Hn i b k kb)]; try done; by exists x. }
    intros i j x y Hij Hi Hj (c & Hc & Hcx & Hcy). unfold joined in Hi, Hj. destruct (decide (i = next)) as [->|Hin].
    - rewrite lookup_insert in Hi. injection Hi as <-. rewrite lookup_insert_ne in Hj by done. apply elem_of_intersection in Hcx as [Hcx _]. by eapply Hnew.
    - rewrite lookup_insert_ne in Hi by done. destruct (decide (j = next)) as [->|Hjn].
      + rewrite lookup_insert in Hj. injection Hj as <-. apply elem_of_intersection in Hcy as [Hcy _]. by eapply Hnew.
      + rewrite lookup_insert_ne in Hj by done. apply Hold in Hi as (Hi & _), Hj as (Hj & _). apply (Hn i j x y); try done. by exists c.
  Qed.
End Linear.

Definition chooser_cheap (choose : chooser) : Prop := forall k q rem c q', choose k q rem = Ok (Some c, q') -> forall c', c' ∈ q -> obsolete rem c' = false -> (q_cost c <= q_cost c')%Z.

(** ** How many keys have a label *)
Lemma sizes_two (S : gset key) k k' : k ∈ S -> k' ∈ S -> k <> k' -> 2 <= size S.
Proof.
  intros Hk Hk' Hn. assert (Hsub : ({[k; k']} : gset key) ⊆ S) by (intros k0 [->%elem_of_singleton| ->%elem_of_singleton]%elem_of_union; done).
  apply (subseteq_size (C := gset key)) in Hsub. rewrite size_union in Hsub by (intros k0 ->%elem_of_singleton ?%elem_of_singleton; done). by rewrite !size_singleton in Hsub.
Qed.
Lemma sizes_three (S : gset key) a b c : a ∈ S -> b ∈ S -> c ∈ S -> a <> b -> b <> c -> a <> c -> 3 <= size S.
Proof.
  intros Ha Hb Hc Hab Hbc Hac. assert (Hsub : ({[a; b; c]} : gset key) ⊆ S) by (intros k0 [[->%elem_of_singleton| ->%elem_of_singleton]%elem_of_union| ->%elem_of_singleton]%elem_of_union; done).
  apply (subseteq_size (C := gset key)) in Hsub. rewrite size_union in Hsub; [rewrite size_union in Hsub; [rewrite !size_singleton in Hsub; lia|]|].
  - intros k0 ->%elem_of_singleton ?%elem_of_singleton. done.
  - intros k0 [->%elem_of_singleton| ->%elem_of_singleton]%elem_of_union ?%elem_of_singleton; done.
Qed.
Lemma sizes_one (S : gset key) k : (forall k', k' ∈ S -> k' = k) -> size S <= 1.
Proof. intros H. assert (Hsub : S ⊆ {[k]}) by (intros k' Hk'; apply elem_of_singleton; auto). apply (subseteq_size (C := gset key)) in Hsub. by rewrite size_singleton in Hsub. Qed.
Lemma sizes_other (S : gset key) k : 2 <= size S -> exists k', k' ∈ S /\ k' <> k.
Proof.
  intros H. destruct (set_choose_L (C := gset key) (S ∖ {[k]})) as [k' Hk'].
  - intros E. assert (Hsub : S ⊆ {[k]}) by (by apply empty_difference_subseteq_L). apply (subseteq_size (C := gset key)) in Hsub. rewrite size_singleton in Hsub. lia.
  - apply elem_of_difference in Hk' as [Hk' Hn]. exists k'. split; [done|]. intros ->. by apply Hn, elem_of_singleton.
Qed.
Lemma sizes_three_inv (S : gset key) a b : 3 <= size S -> exists k, k ∈ S /\ k <> a /\ k <> b.
Proof.
  intros H. destruct (set_choose_L (C := gset key) (S ∖ {[a; b]})) as [k' Hk'].
  - intros E. assert (Hsub : S ⊆ {[a; b]}) by (by apply empty_difference_subseteq_L). apply (subseteq_size (C := gset key)) in Hsub. rewrite size_union_alt, !size_singleton in Hsub.
    assert (Hle : size ({[b]} ∖ {[a]} : gset key) <= 1) by (rewrite <-(size_singleton (C := gset key) b); apply (subseteq_size (C := gset key)), subseteq_difference_l; done). lia.
  - apply elem_of_difference in Hk' as [Hk' Hn]. exists k'. split; [done|]. split; intros ->; apply Hn, elem_of_union; [left|right]; by apply elem_of_singleton.
Qed.

Section Zero.
  Variable cost : nat -> nat -> nat -> key -> key -> key -> Z.
  Hypothesis Hsym : symmetric_cost cost.
  Variable choose : chooser.
  Hypothesis Hchoose : chooser_ok choose.
  Hypothesis Hfair : chooser_fair choose.
  Hypothesis Hcheap : chooser_cheap choose.
  Variables out0 out : gset N.
  Variable fr : N -> Prop.
  Hypothesis Hout : out0 ⊆ out.
  Hypothesis Hfr : forall x, fr x <-> x ∉ out.
  Variable d : sizes.
  Variable n : nat.
  Variable m0 : gmap nat key.
  (** Labels that are on one input only, and not in [out] *)
  Variable lone : N -> Prop.
  Hypothesis Hlone : forall x, lone x -> x ∉ out.
  Notation cost_fn := (fun _ : nat => cost).
  Notation vol := (volume (size_of d)).
  Notation phase := (phase out0 out fr d n m0).
  Notation cheap := (cheap fr cost (size_of d) out0).
  Notation pc := (pc cost (size_of d) out0).

  Definition priced (c : gcand) : Prop := (forall x, x ∈ q_k12 c -> x ∉ out -> ~ lone x /\ x ∉ q_k1 c ∩ q_k2 c) /\
    q_cost c = cost (vol (q_k12 c)) (vol (q_k1 c)) (vol (q_k2 c)) (q_k12 c) (q_k1 c) (q_k2 c).
  Definition of_pair (c : gcand) (k k' : key) : Prop := (q_k1 c = k /\ q_k2 c = k') \/ (q_k1 c = k' /\ q_k2 c = k).
  Definition covered (rem : gmap key nat) (q : list gcand) : Prop := forall k k', is_Some (rem !! k) -> is_Some (rem !! k') -> k <> k' -> sharing out k k' -> exists c, c ∈ q /\ of_pair c k k'.
  Record tracking (rem : gmap key nat) (p : path) (T m : gmap nat key) : Prop := Tracking {
    tk_steps : g_steps out0 cheap n m0 p m;
    tk_tracks : tracks out0 T m;
    tk_rem : forall i k, T !! i = Some k <-> rem !! k = Some i;
    tk_lone : forall i k t x, T !! i = Some k -> m !! i = Some t -> x ∈ k -> lone x -> x ∈ t }.
  Record zero (st : gstate) : Prop := Zero {
    z_phase : phase st;
    z_two : forall x, size (keys_of (g_dims st) x) <= 2;
    z_lone : forall x, lone x -> size (keys_of (g_dims st) x) <= 1;
    z_foot : forall k s, g_foot st !! k = Some s -> s = vol k;
    z_iso : forall k, is_Some (g_rem st !! k) -> (forall x, x ∈ k -> x ∉ out -> size (keys_of (g_dims st) x) <= 1) \/ (forall x, x ∈ k -> x ∉ out -> size (keys_of (g_dims st) x) <= 1 -> lone x);
    z_cand : forall c, c ∈ g_queue st -> priced c;
    z_track : exists T m, tracking (g_rem st) (g_path st) T m }.

  (** *** New candidates *)
  Lemma get_cand_inv st calls k1 k2 c : (forall k s, g_foot st !! k = Some s -> s = vol k) -> (forall k, is_Some (g_rem st !! k) -> labels_in d k) ->
    get_candidate cost_fn out d st calls k1 k2 = Ok c ->
    new_cand out st k1 k2 c /\ q_cost c = cost (vol (q_k12 c)) (vol (q_k1 c)) (vol (q_k2 c)) (q_k12 c) (q_k1 c) (q_k2 c).
  Proof.
    intros Hf Hl H. unfold get_candidate in H. apply bind_Ok in H as (s & Hs & H). apply bind_Ok in H as (f1 & H1 & H). apply bind_Ok in H as (f2 & H2 & H).
    apply bind_Ok in H as (i1 & Hi1 & H). apply bind_Ok in H as (i2 & Hi2 & H). injection H as H.
    destruct (g_foot st !! k1) as [f1'|] eqn:E1; [|done]. destruct (g_foot st !! k2) as [f2'|] eqn:E2; [|done]. simpl in H1, H2. injection H1 as <-. injection H2 as <-.
    apply Hf in E1, E2. subst f1' f2'. destruct (g_rem st !! k1) as [i1'|] eqn:Er1; [|done]. destruct (g_rem st !! k2) as [i2'|] eqn:Er2; [|done].
    assert (L1 : labels_in d k1) by (apply Hl; eauto). assert (L2 : labels_in d k2) by (apply Hl; eauto).
    rewrite (volume_size d) in Hs.
    2: { clear -L1 L2. intros x Hx. assert (Hx' : x ∈ k1 ∪ k2) by set_solver. apply elem_of_union in Hx' as [?|?]; [by apply L1|by apply L2]. }
    injection Hs as <-. destruct (i2 <? i1); rewrite <-H; unfold new_cand; cbn [q_cost q_k1 q_k2 q_k12]; (split; [split; [by auto|done]|]); [apply Hsym|done].
  Qed.
  Lemma get_cands_inv st k1 k2s : (forall k s, g_foot st !! k = Some s -> s = vol k) -> (forall k, is_Some (g_rem st !! k) -> labels_in d k) ->
    forall calls cs, get_candidates cost_fn out d st calls k1 k2s = Ok cs ->
    (forall c, c ∈ cs -> exists k2, k2 ∈ k2s /\ new_cand out st k1 k2 c /\ q_cost c = cost (vol (q_k12 c)) (vol (q_k1 c)) (vol (q_k2 c)) (q_k12 c) (q_k1 c) (q_k2 c)) /\
    (forall k2, k2 ∈ k2s -> exists c, c ∈ cs /\ of_pair c k1 k2).
  Proof.
    intros Hf Hl. induction k2s as [|k2 k2s IH]; intros calls cs H; simpl in H.
    - injection H as <-. split; intros ? Hc; by apply elem_of_nil in Hc.
    - apply bind_Ok in H as (c & Hc & H). apply bind_Ok in H as (l & Hl' & H). injection H as <-. destruct (IH _ _ Hl') as [I1 I2]. destruct (get_cand_inv _ _ _ _ _ Hf Hl Hc) as [N1 N2]. split.
      + intros c' [->|Hc']%elem_of_cons; [exists k2; split; [left|done]|]. destruct (I1 c' Hc') as (k & Hk & ?). exists k. split; [by right|done].
      + intros k [->|Hk]%elem_of_cons; [exists c; split; [left|apply N1]|]. destruct (I2 k Hk) as (c' & Hc' & ?). exists c'. split; [by right|done].
  Qed.
  Lemma push_inv2 st k1 k2s st' : (forall k s, g_foot st !! k = Some s -> s = vol k) -> (forall k, is_Some (g_rem st !! k) -> labels_in d k) ->
    push_candidate cost_fn true out d st k1 k2s = Ok st' ->
    frame st st' /\ g_foot st' = g_foot st /\ exists new, g_queue st' = g_queue st ++ new /\
    (forall c, c ∈ new -> exists k2, k2 ∈ k2s /\ new_cand out st k1 k2 c /\ q_cost c = cost (vol (q_k12 c)) (vol (q_k1 c)) (vol (q_k2 c)) (q_k12 c) (q_k1 c) (q_k2 c)) /\
    (forall k2, k2 ∈ k2s -> exists c, c ∈ new /\ of_pair c k1 k2).
  Proof.
    intros Hf Hl H. unfold push_candidate in H. apply bind_Ok in H as (cs & Hcs & H). cbn [mbind res_bind] in H. injection H as <-. split; [by split|]. split; [done|].
    exists cs. split; [done|]. by apply (get_cands_inv _ _ _ Hf Hl _ _ Hcs).
  Qed.
  Lemma step_inv2 st con st' : (forall k s, g_foot st !! k = Some s -> s = vol k) -> labels_in d (q_k12 con) -> (forall k, is_Some (g_rem st' !! k) -> labels_in d k) ->
    greedy_step cost_fn true out d st con = Ok st' ->
    let k12 := q_k12 con in let k2s := (⋃ (keys_of (g_dims st') <$> elements k12) : gset key) ∖ {[k12]} in
    (forall k s, g_foot st' !! k = Some s -> s = vol k) /\ exists new, g_queue st' = g_queue st ++ new /\
    (forall c, c ∈ new -> exists k2, k2 ∈ k2s /\ new_cand out st' k12 k2 c /\ q_cost c = cost (vol (q_k12 c)) (vol (q_k1 c)) (vol (q_k2 c)) (q_k12 c) (q_k1 c) (q_k2 c)) /\
    (forall k2, k2 ∈ k2s -> exists c, c ∈ new /\ of_pair c k12 k2).
  Proof.
    unfold greedy_step. intros Hf H12 Hl H. apply bind_Ok in H as (id1 & _ & H). apply bind_Ok in H as (id2 & _ & H). apply bind_Ok in H as (dims1 & _ & H). apply bind_Ok in H as (dims2 & _ & H).
    set (k1 := q_k1 con) in *. set (k2 := q_k2 con) in *. set (k12 := q_k12 con) in *. set (rem := delete k2 (delete k1 (g_rem st))) in *. simpl.
    set (r := match rem !! k12 with Some _ => _ | None => _ end) in H. clearbody r. destruct r as [[p nx] dims].
    destruct (update_ref_counts dims (g_ref2 st, g_ref3 st) (elements (k1 ∪ k2 ∖ out))) as [ref2 ref3]. apply bind_Ok in H as (s12 & Hs & H).
    rewrite (volume_size d) in Hs by done. injection Hs as <-.
    assert (Hf' : forall k s, <[k12 := vol k12]> (g_foot st) !! k = Some s -> s = vol k).
    { intros k s. destruct (decide (k = k12)) as [->|Hk]; [rewrite lookup_insert; congruence|]. rewrite lookup_insert_ne by done. apply Hf. }
    destruct (decide _) as [He|He].
    - injection H as <-. cbn [g_foot g_queue g_dims] in *. split; [done|]. exists []. rewrite app_nil_r. split; [done|]. split; [intros c Hc; by apply elem_of_nil in Hc|].
      intros k Hk. rewrite He in Hk. by apply elem_of_empty in Hk.
    - assert (Hrem : g_rem st' = <[k12 := nx]> rem).
      { unfold push_candidate in H. apply bind_Ok in H as (cs & _ & H). cbn [mbind res_bind] in H. by injection H as <-. }
      rewrite Hrem in Hl. apply push_inv2 in H; [|exact Hf'|exact Hl]. destruct H as ([F1 F2 F3 F4 F5 F6] & F7 & new & Hq & Hn1 & Hn2). cbn [g_rem g_dims g_ref2 g_ref3 g_foot g_path g_next g_queue] in *.
      rewrite F7. split; [done|]. exists new. rewrite F2. split; [done|]. split.
      + intros c Hc. destruct (Hn1 c Hc) as (k & Hk & Hnc & Hcost). exists k. split; [by apply elem_of_elements|]. split; [|done]. unfold new_cand in *. cbn [g_ref2 g_ref3] in Hnc. by rewrite F3, F4.
      + intros k Hk. apply Hn2. by apply elem_of_elements.
  Qed.

  (** *** The label sets of the search are exact. *)
  Section State.
    Variable st : gstate.
    Hypothesis Hst : zero st.
    Notation current k := (is_Some (g_rem st !! k)).
    Lemma st_in x k : k ∈ keys_of (g_dims st) x <-> current k /\ x ∈ k /\ x ∉ out.
    Proof. rewrite (go_reg _ _ _ _ (ph_ok _ _ _ _ _ _ _ (z_phase _ Hst)) x k), elem_of_difference. done. Qed.
    Lemma not_iso k k' : current k -> current k' -> k <> k' -> sharing out k k' -> forall x, x ∈ k -> x ∉ out -> size (keys_of (g_dims st) x) <= 1 -> lone x.
    Proof.
      intros Hk Hk' Hn (y & Hyo & Hy & Hy'). destruct (z_iso _ Hst k Hk) as [Hi|Hi]; [|done]. exfalso. specialize (Hi y Hy Hyo).
      assert (2 <= size (keys_of (g_dims st) y)); [|lia]. apply (sizes_two _ k k'); [by apply st_in|by apply st_in|done].
    Qed.
    Section Cand.
      Variable c : gcand.
      Hypothesis Hc : cand_fair out (g_dims st) c.
      Hypothesis Hp : priced c.
      Hypothesis Hne : q_k1 c <> q_k2 c.
      Hypothesis H1 : current (q_k1 c).
      Hypothesis H2 : current (q_k2 c).
      Lemma exact_other x : x ∈ q_k12 c -> x ∉ out -> exists k, current k /\ k <> q_k1 c /\ k <> q_k2 c /\ x ∈ k.
      Proof.
        intros Hx Hxo. destruct (proj1 Hp x Hx Hxo) as [Hl Hb]. pose proof (cf_sub _ _ _ Hc x Hx) as Hxu. pose proof (cf_share _ _ _ Hc) as Hsh.
        assert (Hsz : 2 <= size (keys_of (g_dims st) x)).
        { destruct (decide (2 <= size (keys_of (g_dims st) x))) as [|Hs]; [done|]. exfalso. apply Hl. apply elem_of_union in Hxu as [Hx1|Hx2].
          - apply (not_iso (q_k1 c) (q_k2 c)); try done. lia.
          - apply (not_iso (q_k2 c) (q_k1 c)); try done; [by apply sharing_sym|lia]. }
        apply elem_of_union in Hxu as [Hx1|Hx2].
        - destruct (sizes_other _ (q_k1 c) Hsz) as (k & Hk & Hkn). apply st_in in Hk as (Hk & Hxk & _). exists k. split_and!; try done. intros ->. apply Hb. by apply elem_of_intersection.
        - destruct (sizes_other _ (q_k2 c) Hsz) as (k & Hk & Hkn). apply st_in in Hk as (Hk & Hxk & _). exists k. split_and!; try done. intros ->. apply Hb. by apply elem_of_intersection.
      Qed.
      Lemma keeps kc x : current kc -> kc <> q_k1 c -> kc <> q_k2 c -> x ∈ kc -> x ∈ q_k1 c ∪ q_k2 c -> x ∈ q_k12 c.
      Proof.
        intros Hkc Hn1 Hn2 Hx Hxu. destruct (decide (x ∈ q_k12 c)) as [|Hnk]; [done|]. exfalso.
        assert (Hxo : x ∉ out) by (intros Ho; apply Hnk, (cf_out _ _ _ Hc); by apply elem_of_intersection).
        destruct (decide (x ∈ q_k1 c ∩ q_k2 c)) as [Hb|Hb].
        - pose proof (cf_one _ _ _ Hc x Hxu Hnk) as Hs. apply elem_of_intersection in Hb as [Hb1 Hb2].
          assert (3 <= size (keys_of (g_dims st) x)); [|lia]. apply (sizes_three _ kc (q_k1 c) (q_k2 c)); try done; by apply st_in.
        - pose proof (cf_two _ _ _ Hc x Hxu Hnk Hb) as Hs. assert (2 <= size (keys_of (g_dims st) x)); [|lia].
          apply elem_of_union in Hxu as [Hx1|Hx2]; [apply (sizes_two _ kc (q_k1 c))|apply (sizes_two _ kc (q_k2 c))]; try done; by apply st_in.
      Qed.
    End Cand.
    Variables T m : gmap nat key.
    Hypothesis HT : tracking (g_rem st) (g_path st) T m.
    (** A label that is on two operands is on what is left of them. *)
    Lemma real_in i j ki kj ti x : i <> j -> T !! i = Some ki -> T !! j = Some kj -> m !! i = Some ti -> x ∈ ki -> x ∈ kj -> x ∈ ti.
    Proof.
      intros Hij Hi Hj Hti Hx Hx2. destruct (decide (x ∈ ti)) as [|Hn]; [done|]. destruct (tr_extra _ _ _ (tk_tracks _ _ _ _ HT) i ki ti x Hi Hti Hx Hn) as [_ H]. by destruct (H j kj).
    Qed.
    Lemma real_eq i j ki kj ti : i <> j -> T !! i = Some ki -> T !! j = Some kj -> m !! i = Some ti -> sharing out ki kj -> ti = ki.
    Proof.
      intros Hij Hi Hj Hti Hsh. pose proof (tk_tracks _ _ _ _ HT) as Htr. apply (tk_rem _ _ _ _ HT) in Hi as Hci. apply (tk_rem _ _ _ _ HT) in Hj as Hcj.
      apply set_eq. intros x. split; [by eapply (tr_sub _ _ _ Htr i)|]. intros Hx.
      destruct (decide (x ∈ ti)) as [|Hn]; [done|]. destruct (tr_extra _ _ _ Htr i ki ti x Hi Hti Hx Hn) as [Hxo Hoth]. exfalso. destruct (decide (x ∈ out)) as [Hxo'|Hxo'].
      - apply (Hoth j kj); [done|done|]. apply (ph_com _ _ _ _ _ _ _ (z_phase _ Hst)); [by eauto|]. by apply elem_of_difference.
      - apply Hn. apply (tk_lone _ _ _ _ HT i ki ti x Hi Hti Hx). apply (not_iso ki kj); try by eauto.
        + intros ->. rewrite Hci in Hcj. congruence.
        + apply (sizes_one _ ki). intros k' (Hk' & Hxk' & _)%st_in. destruct Hk' as [l Hl]. apply (tk_rem _ _ _ _ HT) in Hl. destruct (decide (l = i)) as [->|Hli]; [congruence|]. by destruct (Hoth l k').
    Qed.
    Lemma real_kept c i j l kl : cand_fair out (g_dims st) c -> priced c -> q_k1 c <> q_k2 c -> T !! i = Some (q_k1 c) -> T !! j = Some (q_k2 c) -> T !! l = Some kl -> l <> i -> l <> j ->
      q_k12 c = (q_k1 c ∪ q_k2 c) ∩ (out0 ∪ held (delete j (delete i m))).
    Proof.
      intros Hc Hp Hne Hi Hj Hl Hli Hlj. pose proof (tk_tracks _ _ _ _ HT) as Htr. pose proof (tk_rem _ _ _ _ HT) as Hrem.
      assert (H1 : current (q_k1 c)) by (exists i; by apply Hrem). assert (H2 : current (q_k2 c)) by (exists j; by apply Hrem).
      assert (Hother : forall k' l' x, T !! l' = Some k' -> l' <> i -> l' <> j -> x ∈ k' -> x ∈ q_k1 c ∪ q_k2 c -> x ∈ held (delete j (delete i m))).
      { intros k' l' x Hl' Hn1 Hn2 Hx Hxu. destruct (proj1 (tr_some _ _ _ Htr l')) as [t Ht]; [eauto|]. apply elem_held. exists l', t. split; [by rewrite !lookup_delete_ne|].
        apply elem_of_union in Hxu as [Hx1|Hx2]; [by eapply (real_in l' i)|by eapply (real_in l' j)]. }
      apply set_eq. intros x. rewrite elem_of_intersection. split.
      - intros Hx. pose proof (cf_sub _ _ _ Hc x Hx) as Hxu. split; [done|]. apply elem_of_union. destruct (decide (x ∈ out0)) as [|Hxo0]; [by left|right]. destruct (decide (x ∈ out)) as [Hxo|Hxo].
        + apply (Hother kl l); try done. apply (ph_com _ _ _ _ _ _ _ (z_phase _ Hst)); [exists l; by apply Hrem|]. by apply elem_of_difference.
        + destruct (exact_other c Hc Hp Hne H1 H2 x Hx Hxo) as (k & [l' Hk] & Hk1 & Hk2 & Hxk). apply Hrem in Hk. apply (Hother k l'); try done; intros ->; congruence.
      - intros [Hxu Hx]. apply elem_of_union in Hx as [Hx|Hx]; [apply (cf_out _ _ _ Hc), elem_of_intersection; split; [done|by apply Hout]|].
        apply elem_held in Hx as (l' & t & [Hlj' [Hli' Ht]%lookup_delete_Some]%lookup_delete_Some & Hxt). destruct (proj2 (tr_some _ _ _ Htr l')) as [k Hk]; [eauto|].
        apply (keeps c Hc Hne H1 H2 k); [exists l'; by apply Hrem| | |by eapply (tr_sub _ _ _ Htr l')|done].
        + intros ->. apply Hrem in Hk, Hi. congruence.
        + intros ->. apply Hrem in Hk, Hj. congruence.
    Qed.
    Lemma real_cost c i j l : cand_fair out (g_dims st) c -> priced c -> q_k1 c <> q_k2 c -> T !! i = Some (q_k1 c) -> T !! j = Some (q_k2 c) -> is_Some (T !! l) -> l <> i -> l <> j ->
      q_cost c = pc m i j (q_k1 c) (q_k2 c).
    Proof. intros Hc Hp Hne Hi Hj [kl Hl] Hli Hlj. unfold GreedyZero.pc. rewrite <-(real_kept c i j l kl) by done. apply Hp. Qed.
    (** The cheapest candidate is the cheapest pair. *)
    Lemma cand_cheap q0 con id1 id2 : (forall c, c ∈ q0 -> cand_fair out (g_dims st) c /\ priced c /\ q_k1 c <> q_k2 c) -> covered (g_rem st) q0 -> con ∈ q0 ->
      (forall c, c ∈ q0 -> obsolete (g_rem st) c = false -> (q_cost con <= q_cost c)%Z) -> T !! id1 = Some (q_k1 con) -> T !! id2 = Some (q_k2 con) -> id1 <> id2 ->
      m !! id1 = Some (q_k1 con) -> m !! id2 = Some (q_k2 con) -> cheap m id1 id2 (q_k1 con) (q_k2 con).
    Proof.
      intros Hq Hcov Hcon Hmin Hi1 Hi2 Hid Hm1 Hm2 Hlk. right. intros i j ti tj Hij Hti Htj Hlk2. pose proof (tk_tracks _ _ _ _ HT) as Htr. pose proof (tk_rem _ _ _ _ HT) as Hrem.
      destruct (decide (i = id1 /\ j = id2)) as [[-> ->]|Hn1]; [simplify_eq; lia|]. destruct (decide (i = id2 /\ j = id1)) as [[-> ->]|Hn2]; [simplify_eq; rewrite (pc_sym cost Hsym); lia|].
      destruct (proj2 (tr_some _ _ _ Htr i)) as [ki Hki]; [eauto|]. destruct (proj2 (tr_some _ _ _ Htr j)) as [kj Hkj]; [eauto|].
      destruct Hlk2 as (x & Hx & Hxi & Hxj). assert (Hsh : sharing out ki kj).
      { exists x. split; [by apply Hfr|]. split; [by eapply (tr_sub _ _ _ Htr i)|by eapply (tr_sub _ _ _ Htr j)]. }
      assert (Hkij : ki <> kj) by (intros ->; apply Hrem in Hki, Hkj; congruence).
      assert (ti = ki) as -> by (by eapply (real_eq i j)). assert (tj = kj) as -> by (eapply (real_eq j i); try done; by apply sharing_sym).
      assert (Hci : current ki) by (exists i; by apply Hrem). assert (Hcj : current kj) by (exists j; by apply Hrem).
      destruct (Hcov ki kj) as (c & Hc & Hpair); try done. destruct (Hq c Hc) as (Hf & Hp & Hne). destruct (Hq con Hcon) as (Hf0 & Hp0 & Hne0).
      assert (Hle : (q_cost con <= q_cost c)%Z).
      { apply Hmin; [done|]. unfold obsolete. destruct Hci as [? Hci], Hcj as [? Hcj]. destruct Hpair as [[-> ->]|[-> ->]]; by rewrite Hci, Hcj. }
      assert (Hc0 : q_cost con = pc m id1 id2 (q_k1 con) (q_k2 con)).
      { destruct (decide (i = id1 \/ i = id2)) as [Hii|Hii]; [apply (real_cost con id1 id2 j)|apply (real_cost con id1 id2 i)]; try done; first [lia|by eauto]. }
      assert (Hc1 : q_cost c = pc m i j ki kj).
      { assert (Hthird : exists l, is_Some (T !! l) /\ l <> i /\ l <> j).
        { destruct (decide (id1 = i \/ id1 = j)) as [Hii|Hii]; [exists id2|exists id1]; (split; [by eauto|]); lia. }
        destruct Hthird as (l & Hl & Hli & Hlj). destruct Hpair as [[E1 E2]|[E1 E2]].
        - rewrite <-E1, <-E2. apply (real_cost c i j l); by rewrite ?E1, ?E2.
        - rewrite (pc_sym cost Hsym), <-E1, <-E2. apply (real_cost c j i l); by rewrite ?E1, ?E2. }
      lia.
    Qed.
  End State.

  Lemma new_priced st k1 k2 c : (forall x, x ∈ g_ref2 st <-> 2 <= size (keys_of (g_dims st) x)) -> (forall x, x ∈ g_ref3 st <-> 3 <= size (keys_of (g_dims st) x)) ->
    (forall x, size (keys_of (g_dims st) x) <= 2) -> (forall x, lone x -> size (keys_of (g_dims st) x) <= 1) -> new_cand out st k1 k2 c ->
    q_cost c = cost (vol (q_k12 c)) (vol (q_k1 c)) (vol (q_k2 c)) (q_k12 c) (q_k1 c) (q_k2 c) -> priced c.
  Proof.
    intros H2 H3 Htwo Hlo [Hk Hk12] Hcost. split; [|done]. intros x Hx Hxo. rewrite Hk12 in Hx. apply elem_key in Hx as [Hxu [?|Hx]]; [done|].
    assert (Hi : x ∈ q_k1 c ∩ q_k2 c <-> x ∈ k1 ∩ k2) by (rewrite !elem_of_intersection; destruct Hk as [[-> ->]|[-> ->]]; tauto). rewrite Hi. destruct (decide (x ∈ k1 ∩ k2)) as [Hb|Hb].
    - apply H3 in Hx. specialize (Htwo x). lia.
    - split; [|done]. intros Hl%Hlo. apply H2 in Hx. lia.
  Qed.

  (** *** One contraction *)
  Section Contraction.
    Variables (st st' : gstate) (con : gcand) (q0 : list gcand).
    Hypothesis Hst : zero st.
    Hypothesis Hq0 : forall c, c ∈ q0 -> cand_fair out (g_dims st) c /\ priced c /\ gcand_ok d c.
    Hypothesis Hcov : covered (g_rem st) q0.
    Hypothesis Hin : con ∈ q0.
    Hypothesis Hmin : forall c, c ∈ q0 -> obsolete (g_rem st) c = false -> (q_cost con <= q_cost c)%Z.
    Hypothesis Hkeep : forall c, c ∈ q0 -> obsolete (g_rem st) c = false -> c ∈ g_queue st \/ c = con.
    Hypothesis H1 : is_Some (g_rem st !! q_k1 con).
    Hypothesis H2 : is_Some (g_rem st !! q_k2 con).
    Hypothesis Hstep : greedy_step cost_fn true out d st con = Ok st'.
    Let k1 := q_k1 con.
    Let k2 := q_k2 con.
    Let k12 := q_k12 con.
    Let Hcon : cand_fair out (g_dims st) con := proj1 (Hq0 con Hin).
    Let Hpr : priced con := proj1 (proj2 (Hq0 con Hin)).
    Let Hgood : gcand_ok d con := proj2 (proj2 (Hq0 con Hin)).
    Let Hph := z_phase _ Hst.

    Lemma zs_phase : phase st'.
    Proof. exact (phase_step cost_fn choose Hchoose Hfair true out0 out fr Hout Hfr d n m0 st st' con Hph Hcon Hgood H1 H2 Hstep). Qed.
    Lemma zs_size x : size (keys_of (g_dims st') x) <= size (keys_of (g_dims st) x).
    Proof. exact (proj2 (step_keys cost_fn choose Hchoose Hfair true out0 out fr Hout Hfr d n m0 st st' con Hph Hcon Hgood H1 H2 Hstep x)). Qed.
    Lemma zs_live k : is_Some (g_rem st' !! k) <-> k = k12 \/ (k <> k1 /\ k <> k2 /\ is_Some (g_rem st !! k)).
    Proof. exact (step_live cost_fn true out d st st' con Hstep k). Qed.
    Lemma zs_in x k : k ∈ keys_of (g_dims st') x <-> is_Some (g_rem st' !! k) /\ x ∈ k /\ x ∉ out.
    Proof. rewrite (go_reg _ _ _ _ (ph_ok _ _ _ _ _ _ _ zs_phase) x k), elem_of_difference. done. Qed.
    Lemma zs_new : k12 <> k1 /\ k12 <> k2.
    Proof.
      destruct (cf_share _ _ _ Hcon) as (y & Hyo & Hy1 & Hy2). assert (Hy : y ∉ k12) by (intros Hy; destruct (proj1 Hpr y Hy Hyo) as [_ Hb]; by apply Hb, elem_of_intersection).
      split; intros E; apply Hy; rewrite E; done.
    Qed.
    Lemma zs_iso k : is_Some (g_rem st' !! k) -> (forall x, x ∈ k -> x ∉ out -> size (keys_of (g_dims st') x) <= 1) \/ (forall x, x ∈ k -> x ∉ out -> size (keys_of (g_dims st') x) <= 1 -> lone x).
    Proof.
      destruct zs_new as [Hn1 Hn2]. pose proof (proj1 Hgood) as Hne. intros Hk. apply zs_live in Hk as Hk'. destruct Hk' as [->|(Hk1 & Hk2 & Hkc)].
      - destruct (decide (is_Some (g_rem st !! k12))) as [Hc|Hc]; [left|right]; intros x Hx Hxo.
        + apply (sizes_one _ k12). intros k' (Hk' & Hxk' & _)%zs_in. apply zs_live in Hk' as [?|(Hk1' & Hk2' & Hk')]; [done|]. destruct (decide (k' = k12)) as [|Hkn]; [done|]. exfalso.
          pose proof (z_two _ Hst x) as Htwo. assert (3 <= size (keys_of (g_dims st) x)); [|lia].
          pose proof (cf_sub _ _ _ Hcon x Hx) as Hxu. apply elem_of_union in Hxu as [Hx1|Hx2].
          * apply (sizes_three _ k12 k' k1); try done; by apply (st_in st Hst).
          * apply (sizes_three _ k12 k' k2); try done; by apply (st_in st Hst).
        + intros Hs. exfalso. destruct (exact_other st Hst con Hcon Hpr Hne H1 H2 x Hx Hxo) as (k & Hkc & Hk1 & Hk2 & Hxk).
          assert (2 <= size (keys_of (g_dims st') x)); [|lia]. assert (Hkn : k <> k12) by (intros ->; done).
          apply (sizes_two _ k12 k); [by apply zs_in| |done]. apply zs_in. split; [|done]. apply zs_live. by right.
      - destruct (decide (k = k12)) as [->|Hkn].
        { left. intros x Hx Hxo. apply (sizes_one _ k12). intros k' (Hk' & Hxk' & _)%zs_in. apply zs_live in Hk' as [?|(Hk1' & Hk2' & Hk')]; [done|]. destruct (decide (k' = k12)) as [|Hkn]; [done|]. exfalso.
          pose proof (z_two _ Hst x) as Htwo. assert (3 <= size (keys_of (g_dims st) x)); [|lia].
          pose proof (cf_sub _ _ _ Hcon x Hx) as Hxu. apply elem_of_union in Hxu as [Hx1|Hx2].
          * apply (sizes_three _ k12 k' k1); try done; by apply (st_in st Hst).
          * apply (sizes_three _ k12 k' k2); try done; by apply (st_in st Hst). }
        destruct (z_iso _ Hst k Hkc) as [Hi|Hi]; [left; intros x Hx Hxo; pose proof (zs_size x); specialize (Hi x Hx Hxo); lia|right]. intros x Hx Hxo Hs.
        destruct (decide (size (keys_of (g_dims st) x) <= 1)) as [Hs0|Hs0]; [by apply Hi|]. exfalso.
        destruct (sizes_other (keys_of (g_dims st) x) k) as (k' & Hk' & Hkk'); [lia|]. apply (st_in st Hst) in Hk' as (Hk' & Hxk' & _).
        assert (Hex : exists k0, is_Some (g_rem st' !! k0) /\ x ∈ k0 /\ k0 <> k).
        { destruct (decide (k' = k1 \/ k' = k2)) as [Hd|Hd].
          - exists k12. split; [apply zs_live; by left|]. split; [|done]. apply (keeps st Hst con Hcon Hne H1 H2 k x Hkc Hk1 Hk2 Hx). apply elem_of_union. destruct Hd as [-> | ->]; auto.
          - exists k'. split; [|done]. apply zs_live. right. split; [by intros ->; apply Hd; left|]. split; [by intros ->; apply Hd; right|done]. }
        destruct Hex as (k0 & Hk0 & Hxk0 & Hk0n). assert (2 <= size (keys_of (g_dims st') x)); [|lia]. apply (sizes_two _ k0 k); [by apply zs_in|by apply zs_in|done].
    Qed.
    Lemma zs_queue : (forall k s, g_foot st' !! k = Some s -> s = vol k) /\ (forall c, c ∈ g_queue st' -> priced c) /\ covered (g_rem st') (g_queue st').
    Proof.
      destruct (step_inv2 st con st' (z_foot _ Hst) (proj2 Hgood) (go_labels _ _ _ _ (ph_ok _ _ _ _ _ _ _ zs_phase)) Hstep) as (Hf & new & Hq & Hn1 & Hn2). split; [done|]. fold k12 in Hn1, Hn2.
      assert (Hk2s : forall k, is_Some (g_rem st' !! k) -> k <> k12 -> sharing out k12 k -> k ∈ (⋃ (keys_of (g_dims st') <$> elements k12) : gset key) ∖ {[k12]}).
      { intros k Hl Hn (x & Hxo & Hx & Hxk). rewrite elem_of_difference, elem_of_singleton. split; [|done]. apply elem_of_union_list.
        exists (keys_of (g_dims st') x). split; [apply elem_of_list_fmap; exists x; split; [done|by apply elem_of_elements]|]. by apply zs_in. }
      rewrite Hq. split.
      - intros c [Hc|Hc]%elem_of_app; [by apply (z_cand _ Hst)|]. destruct (Hn1 c Hc) as (k & _ & Hnew & Hcost). pose proof zs_phase as Hph'.
        eapply new_priced; [exact (ph_ref2 _ _ _ _ _ _ _ Hph')|exact (ph_ref3 _ _ _ _ _ _ _ Hph')| | |exact Hnew|exact Hcost].
        + intros x. pose proof (zs_size x). pose proof (z_two _ Hst x). lia.
        + intros x Hl. pose proof (zs_size x). pose proof (z_lone _ Hst x Hl). lia.
      - intros k k' Hk Hk' Hkk Hsh. destruct (decide (k = k12)) as [->|Hkn].
        { destruct (Hn2 k') as (c & Hc & Hp); [by apply Hk2s|]. exists c. split; [apply elem_of_app; by right|done]. }
        destruct (decide (k' = k12)) as [->|Hkn'].
        { destruct (Hn2 k) as (c & Hc & Hp); [apply Hk2s; [done|done|by apply sharing_sym]|]. exists c. split; [apply elem_of_app; by right|]. unfold of_pair in *. tauto. }
        apply zs_live in Hk as [?|(Ha1 & Ha2 & Hk)]; [done|]. apply zs_live in Hk' as [?|(Hb1 & Hb2 & Hk')]; [done|].
        destruct (Hcov k k' Hk Hk' Hkk Hsh) as (c & Hc & Hp). exists c. split; [|done]. apply elem_of_app. left. destruct (Hkeep c Hc) as [?| ->]; [|done|].
        + unfold obsolete. destruct Hk as [? Hk], Hk' as [? Hk']. destruct Hp as [[-> ->]|[-> ->]]; by rewrite Hk, Hk'.
        + destruct Hp as [[<- _]|[<- _]]; done.
    Qed.
    Lemma zs_track : exists T m, tracking (g_rem st') (g_path st') T m.
    Proof.
      destruct (step_inv cost_fn true out d st con st' Hstep) as (id1 & id2 & Hid1 & Hid2 & nx & Hrem & Hnext & Hpath & _). fold k1 k2 k12 in Hid1, Hid2, Hrem, Hpath.
      set (rem := delete k2 (delete k1 (g_rem st))) in *. pose proof (go_next _ _ _ _ (ph_ok _ _ _ _ _ _ _ Hph)) as Hnx0. pose proof (ph_ids _ _ _ _ _ _ _ Hph) as Hids.
      apply lookup_delete_Some in Hid2 as [Hne Hid2].
      assert (Hrem_old : forall k i, rem !! k = Some i <-> k <> k1 /\ k <> k2 /\ g_rem st !! k = Some i).
      { intros k i. unfold rem. rewrite !lookup_delete_Some. split; intros; destruct_and!; split_and!; congruence. }
      destruct (z_track _ Hst) as (T & m & HTm). destruct HTm as [Hs HT HTr HTl] eqn:EHTm. clear EHTm.
      assert (Hid : id1 <> id2) by (intros ->; apply HTr in Hid1, Hid2; rewrite Hid1 in Hid2; injection Hid2 as ?; done).
      assert (Ht1 : T !! id1 = Some k1) by by apply HTr. assert (Ht2 : T !! id2 = Some k2) by by apply HTr.
      destruct (proj1 (tr_some _ _ _ HT id1)) as [t1 Hm1]; [eauto|]. destruct (proj1 (tr_some _ _ _ HT id2)) as [t2 Hm2]; [eauto|].
      pose proof (cf_share _ _ _ Hcon) as Hsh.
      assert (t1 = k1) as -> by (by eapply (real_eq st Hst T m HTm id1 id2)). assert (t2 = k2) as -> by (eapply (real_eq st Hst T m HTm id2 id1); try done; by apply sharing_sym).
      assert (Hch : cheap m id1 id2 k1 k2).
      { apply (cand_cheap st Hst T m HTm q0 con); try done. intros c Hc. destruct (Hq0 c Hc) as (? & ? & [? _]). done. }
      assert (Hfar : forall c kc x, c <> id1 -> c <> id2 -> T !! c = Some kc -> x ∈ kc -> x ∈ k1 ∪ k2 -> x ∈ k12).
      { intros c kc x Hc1 Hc2 Hc%HTr Hx Hx12. apply (keeps st Hst con Hcon (proj1 Hgood) H1 H2 kc x); [eauto| | |done|done]; intros ->; [assert (Some c = Some id1) by (rewrite <-Hc; exact Hid1)|assert (Some c = Some id2) by (rewrite <-Hc; exact Hid2)]; congruence. }
      set (nx0 := g_next st) in *. set (m' := joined out0 m id1 id2 nx0 k1 k2). set (T1 := <[nx0 := k12]> (delete id2 (delete id1 T))).
      assert (Hs' : g_steps out0 cheap n m0 (g_path st ++ [[id1; id2]]) m') by (unfold m'; rewrite Hnx0; by apply g_steps_snoc).
      assert (HT' : tracks out0 T1 m').
      { apply (join_tracks out0 T m id1 id2 k1 k2); try done; [apply Hcon| |].
        - intros x [Hx Hx2]%elem_of_intersection. apply (cf_out _ _ _ Hcon), elem_of_intersection. split; [done|]. by apply Hout.
        - left. destruct Hsh as (x & _ & Hx1 & Hx2). by exists x. }
      assert (HTl' : forall i k t x, T1 !! i = Some k -> m' !! i = Some t -> x ∈ k -> lone x -> x ∈ t).
      { intros i k t x. unfold T1, m', joined. destruct (decide (i = nx0)) as [->|Hi].
        - rewrite !lookup_insert. intros [= <-] _ Hx Hl. exfalso. by destruct (proj1 Hpr x Hx (Hlone x Hl)).
        - rewrite !lookup_insert_ne by done. intros [_ [_ Hk]%lookup_delete_Some]%lookup_delete_Some [_ [_ Hm]%lookup_delete_Some]%lookup_delete_Some. by apply (HTl i). }
      assert (HT1 : forall i k, T1 !! i = Some k <-> (i = nx0 /\ k = k12) \/ rem !! k = Some i).
      { intros i k. unfold T1. destruct (decide (i = nx0)) as [->|Hi].
        - rewrite lookup_insert. split; [intros [= <-]; by left|]. intros [[_ ->]|Hk]; [done|]. apply Hrem_old in Hk as (_ & _ & Hk). apply Hids in Hk. lia.
        - rewrite lookup_insert_ne by done. rewrite !lookup_delete_Some, Hrem_old. split.
          + intros (Hi2 & Hi1 & Hk%HTr). right. split; [intros ->; congruence|]. split; [intros ->; congruence|done].
          + intros [[? _]|(Hk1 & Hk2 & Hk)]; [done|]. apply HTr in Hk as Hk'. split; [intros ->; congruence|]. split; [intros ->; congruence|done]. }
      destruct (rem !! k12) as [id|] eqn:E; destruct Hpath as [Hpath ->]; rewrite Hpath.
      - assert (Hidn : id < nx0) by (apply Hrem_old in E as (_ & _ & E); by apply Hids in E).
        assert (Ha : T1 !! id = Some k12) by (apply HT1; by right). assert (Hb : T1 !! nx0 = Some k12) by (apply HT1; by left). assert (Hidx : id <> nx0) by lia.
        destruct (proj1 (tr_some _ _ _ HT' id)) as [ta Hta]; [eauto|]. destruct (proj1 (tr_some _ _ _ HT' nx0)) as [tb Htb]; [eauto|].
        assert (ta = tb) as -> by (by eapply (tracks_eq out0 T1 m' id nx0 k12)).
        exists (<[S nx0 := k12]> (delete nx0 (delete id T1))), (joined out0 m' id nx0 (S nx0) tb tb). split.
        + replace (S nx0) with (n + length (g_path st ++ [[id1; id2]])) by (rewrite app_length; simpl; lia). apply g_steps_snoc; try done. by intros _; left.
        + apply (join_tracks out0 T1 m' id nx0 k12 k12); try done; [clear; set_solver|clear; set_solver|clear; set_solver|by right].
        + intros i k. rewrite Hrem. destruct (decide (i = S nx0)) as [->|Hi].
          * rewrite lookup_insert. split; [intros [= <-]; by rewrite lookup_insert|]. destruct (decide (k = k12)) as [->|Hk]; [done|]. rewrite lookup_insert_ne by done.
            intros (_ & _ & Hk')%Hrem_old. apply Hids in Hk'. lia.
          * rewrite lookup_insert_ne by done. rewrite !lookup_delete_Some, HT1. split.
            -- intros (Hi2 & Hi1 & [[-> ->]|Hk]); [done|]. rewrite lookup_insert_ne; [done|]. intros <-. congruence.
            -- destruct (decide (k = k12)) as [->|Hk]; [rewrite lookup_insert; congruence|]. rewrite lookup_insert_ne by done. intros Hk'. split; [|split].
               ++ intros <-. apply Hrem_old in Hk' as (_ & _ & Hk'). apply Hids in Hk'. lia.
               ++ intros <-. apply Hrem_old in Hk' as (_ & _ & Hk'), E as (_ & _ & E). apply HTr in Hk', E. congruence.
               ++ by right.
        + intros i k t x. unfold joined. destruct (decide (i = S nx0)) as [->|Hi].
          * rewrite !lookup_insert. intros [= <-] _ Hx Hl. exfalso. by destruct (proj1 Hpr x Hx (Hlone x Hl)).
          * rewrite !lookup_insert_ne by done. intros [_ [_ Hk]%lookup_delete_Some]%lookup_delete_Some [_ [_ Hm]%lookup_delete_Some]%lookup_delete_Some. by apply (HTl' i).
      - exists T1, m'. split; try done. intros i k. rewrite HT1, Hrem. destruct (decide (k = k12)) as [->|Hk].
        + rewrite lookup_insert, E. split; [by intros [[-> _]|?]|intros [= <-]; by left].
        + rewrite lookup_insert_ne by done. split; [by intros [[_ ?]|?]|by right].
    Qed.
    Lemma zero_step : zero st' /\ covered (g_rem st') (g_queue st').
    Proof.
      destruct zs_queue as (Hf & Hq & Hc). split; [|done]. split; try done.
      - apply zs_phase.
      - intros x. pose proof (zs_size x). pose proof (z_two _ Hst x). lia.
      - intros x Hl. pose proof (zs_size x). pose proof (z_lone _ Hst x Hl). lia.
      - apply zs_iso.
      - apply zs_track.
    Qed.
  End Contraction.

  (** *** The main loop *)
  Lemma zero_queue st q calls ch : zero st -> (forall c, c ∈ q -> c ∈ g_queue st) ->
    zero (GState (g_rem st) (g_dims st) (g_ref2 st) (g_ref3 st) (g_foot st) q (g_path st) (g_next st) calls ch).
  Proof. intros [A B C D E F G] Hq. split; simpl; try done; [by apply phase_queue|by auto]. Qed.
  Lemma zero_loop fuel : forall st st', zero st -> covered (g_rem st) (g_queue st) -> greedy_loop cost_fn choose true out d fuel st = Ok st' -> zero st' /\ covered (g_rem st') [].
  Proof.
    induction fuel as [|fuel IH]; intros st st' Hst Hc H; simpl in H.
    - destruct (g_queue st) eqn:Eq; [|done]. by injection H as <-.
    - destruct (g_queue st) as [|c0 q0] eqn:Eq; [by injection H as <-|]. rewrite <-Eq in H, Hc.
      destruct (Hchoose (g_choices st) (g_queue st) (g_rem st)) as (o & q' & E & Hsub & Ho); [by rewrite Eq|]. rewrite E in H. cbn [mbind res_bind] in H.
      assert (Hq' : forall c, c ∈ q' -> c ∈ g_queue st) by (intros c Hcq; by eapply elem_of_submseteq).
      pose proof (Hfair _ _ _ _ _ E) as Hf. destruct o as [con|].
      + apply bind_Ok in H as (st1 & Hstep & H). destruct Ho as (Hin & H1 & H2). pose proof (Hcheap _ _ _ _ _ E) as Hmin.
        pose proof (zero_queue st q' (g_calls st) (S (g_choices st)) Hst Hq') as Hst'. pose proof (z_phase _ Hst) as Hph.
        destruct (zero_step _ st1 con (g_queue st) Hst') as [Hz Hcov]; [|done|done|done| |done|done|exact Hstep|by apply (IH st1 st')].
        * intros c Hcq. split; [by apply Hph|]. split; [by apply Hst|]. pose proof (go_queue _ _ _ _ (ph_ok _ _ _ _ _ _ _ Hph)) as Hall. rewrite Forall_forall in Hall. by apply Hall.
        * simpl. intros c Hcq Hob. destruct (Hf c Hcq Hob) as [?|?]; [by left|right; congruence].
      + refine (IH _ _ (zero_queue st q' _ _ Hst Hq') _ H). simpl. intros k k' Hk Hk' Hn Hsh. destruct (Hc k k' Hk Hk' Hn Hsh) as (c & Hcq & Hp). exists c. split; [|done].
        destruct Hk as [i1 Hi1], Hk' as [i2 Hi2]. destruct (Hf c Hcq) as [?|?]; [|done|done]. unfold obsolete. destruct Hp as [[-> ->]|[-> ->]]; by rewrite Hi1, Hi2.
  Qed.

  (** *** The first candidates *)
  Lemma zero_push st k1 k2s st' : zero st -> is_Some (g_rem st !! k1) -> k2s <> [] -> (forall k2, k2 ∈ k2s -> is_Some (g_rem st !! k2) /\ k2 <> k1 /\ sharing out k1 k2) ->
    push_candidate cost_fn true out d st k1 k2s = Ok st' ->
    zero st' /\ frame st st' /\ exists new, g_queue st' = g_queue st ++ new /\ forall k2, k2 ∈ k2s -> exists c, c ∈ new /\ of_pair c k1 k2.
  Proof.
    intros Hst H1 Hne H2 H. destruct Hst as [A B C D E F G].
    destruct (phase_push cost_fn choose Hchoose Hfair true out0 out fr Hout Hfr d n m0 st k1 k2s st' A H1 Hne H2 H) as (A' & _ & _).
    destruct (push_inv2 st k1 k2s st' D (go_labels _ _ _ _ (ph_ok _ _ _ _ _ _ _ A)) H) as (Hf & Hfoot & new & Hq & Hn1 & Hn2). split; [|split; [done|by exists new]].
    destruct Hf as [F1 F2 F3 F4 F5 F6]. split; rewrite ?F1, ?F2, ?F5, ?Hfoot; try done. rewrite Hq. intros c [Hc|Hc]%elem_of_app; [by apply F|].
    destruct (Hn1 c Hc) as (k & _ & Hnew & Hcost). by eapply (new_priced st k1 k c (ph_ref2 _ _ _ _ _ _ _ A) (ph_ref3 _ _ _ _ _ _ _ A)).
  Qed.
  Lemma zero_rows x l : forall st st', zero st -> NoDup l -> (forall k, k ∈ l -> is_Some (g_rem st !! k) /\ x ∈ k /\ x ∉ out) -> push_rows cost_fn true out d st l = Ok st' ->
    zero st' /\ frame st st' /\ exists new, g_queue st' = g_queue st ++ new /\ forall k k', k ∈ l -> k' ∈ l -> k <> k' -> exists c, c ∈ new /\ of_pair c k k'.
  Proof.
    induction l as [|k1 l IH]; intros st st' Hst Hnd Hl H.
    { injection H as <-. split; [done|]. split; [done|]. exists []. rewrite app_nil_r. split; [done|]. intros k k' Hk. by apply elem_of_nil in Hk. }
    destruct l as [|k2 l].
    { injection H as <-. split; [done|]. split; [done|]. exists []. rewrite app_nil_r. split; [done|]. intros k k' ->%elem_of_list_singleton ->%elem_of_list_singleton. done. }
    cbn [push_rows] in H. apply bind_Ok in H as (st1 & H1 & H). apply NoDup_cons in Hnd as [Hn1 Hnd]. destruct (Hl k1) as (Hk1 & Hx1 & Hxo); [left|].
    destruct (zero_push st k1 (k2 :: l) st1 Hst Hk1) as (Hst1 & Hf1 & new1 & Hq1 & Hall1); [done| |done|].
    { intros k Hk. destruct (Hl k) as (? & ? & ?); [by right|]. split; [done|]. split; [intros ->; done|]. by exists x. }
    destruct (IH st1 st' Hst1 Hnd) as (Hst' & Hf' & new & Hq & Hall); [|exact H|].
    { intros k Hk. rewrite (fr_rem _ _ Hf1). apply Hl. by right. }
    split; [done|]. split; [by eapply frame_trans|]. exists (new1 ++ new). split; [by rewrite Hq, Hq1, app_assoc|]. intros k k' Hk Hk' Hn.
    apply elem_of_cons in Hk as [->|Hk]; apply elem_of_cons in Hk' as [->|Hk']; [done| | |].
    - destruct (Hall1 k' Hk') as (c & Hc & Hp). exists c. split; [apply elem_of_app; by left|done].
    - destruct (Hall1 k Hk) as (c & Hc & Hp). exists c. split; [apply elem_of_app; by left|]. unfold of_pair in *. tauto.
    - destruct (Hall k k' Hk Hk' Hn) as (c & Hc & Hp). exists c. split; [apply elem_of_app; by right|done].
  Qed.
  Lemma zero_dims l : forall st st', zero st -> (forall x ks, (x, ks) ∈ l -> keys_of (g_dims st) x = ks) -> foldM_res (push_dim cost_fn true out d) st l = Ok st' ->
    zero st' /\ frame st st' /\ exists new, g_queue st' = g_queue st ++ new /\ forall x ks k k', (x, ks) ∈ l -> k ∈ ks -> k' ∈ ks -> k <> k' -> exists c, c ∈ new /\ of_pair c k k'.
  Proof.
    induction l as [|[x ks] l IH]; intros st st' Hst Hl H; cbn [foldM_res] in H.
    - injection H as <-. split; [done|]. split; [done|]. exists []. rewrite app_nil_r. split; [done|]. intros x ks k k' Hin. by apply elem_of_nil in Hin.
    - apply bind_Ok in H as (st1 & H1 & H). unfold push_dim in H1. cbn [snd] in H1.
      assert (Hmem : forall k, k ∈ merge_sort (id_le (g_rem st)) (elements ks) <-> k ∈ ks) by (intros k; rewrite merge_sort_Permutation; apply elem_of_elements).
      assert (Hnd : NoDup (merge_sort (id_le (g_rem st)) (elements ks))) by (rewrite merge_sort_Permutation; apply NoDup_elements).
      assert (Hks : keys_of (g_dims st) x = ks) by (apply Hl; left).
      destruct (zero_rows x _ st st1 Hst Hnd) as (Hst1 & Hf1 & new1 & Hq1 & Hn1); [|exact H1|].
      { intros k Hk%Hmem. rewrite <-Hks in Hk. by apply (st_in st Hst) in Hk. }
      destruct (IH st1 st' Hst1) as (Hst' & Hf' & new & Hq & Hn); [|exact H|].
      { intros x' ks' Hin. rewrite (fr_dims _ _ Hf1). apply Hl. by right. }
      split; [done|]. split; [by eapply frame_trans|]. exists (new1 ++ new). split; [by rewrite Hq, Hq1, app_assoc|].
      intros x' ks' k k' [[= -> ->]|Hin]%elem_of_cons Hk Hk' Hkk.
      + destruct (Hn1 k k') as (c & Hc & Hcc); [by apply Hmem|by apply Hmem|done|]. exists c. split; [apply elem_of_app; by left|done].
      + destruct (Hn x' ks' k k' Hin Hk Hk' Hkk) as (c & Hc & Hcc). exists c. split; [apply elem_of_app; by right|done].
  Qed.
  (** At the end of the loop nothing is linked. *)
  Lemma zero_end st T m : zero st -> covered (g_rem st) [] -> tracking (g_rem st) (g_path st) T m -> none_linked fr m.
  Proof.
    intros Hst Hc HT i j a b Hij Hi Hj (x & Hx & Hxa & Hxb). pose proof (tk_tracks _ _ _ _ HT) as Htr. pose proof (tk_rem _ _ _ _ HT) as Hrem.
    destruct (proj2 (tr_some _ _ _ Htr i)) as [ki Hki]; [eauto|]. destruct (proj2 (tr_some _ _ _ Htr j)) as [kj Hkj]; [eauto|].
    destruct (Hc ki kj) as (c & Hc' & _); [exists i; by apply Hrem|exists j; by apply Hrem| | |by apply elem_of_nil in Hc'].
    - intros ->. apply Hrem in Hki, Hkj. congruence.
    - exists x. split; [by apply Hfr|]. split; [by eapply (tr_sub _ _ _ Htr i)|by eapply (tr_sub _ _ _ Htr j)].
  Qed.
End Zero.

Lemma dedup_zero cost fr out d inputs (lone : N -> Prop) rem p next : dedup inputs = (rem, p, next) ->
  (forall x, lone x -> forall i j a b, inputs !! i = Some a -> inputs !! j = Some b -> x ∈ a -> x ∈ b -> i = j) ->
  exists T m, tracking cost out fr d (length inputs) (map_seq 0 inputs) lone rem p T m.
Proof.
  unfold dedup. set (n := length inputs). set (m0 := map_seq 0 inputs : gmap nat key). intros H Hlone.
  assert (Hm0 : forall i k, m0 !! i = Some k <-> inputs !! i = Some k) by (intros i k; unfold m0; rewrite lookup_map_seq_0; done).
  assert (Hgen : forall l i r0 p0 x0 T m, drop i inputs = l -> i + length l = n -> g_steps out (cheap fr cost (size_of d) out) n m0 p0 m -> tracks out T m -> x0 = n + length p0 ->
    (forall j k, T !! j = Some k <-> r0 !! k = Some j \/ (i <= j /\ inputs !! j = Some k)) -> (forall k j, r0 !! k = Some j -> (j < i \/ n <= j < x0) /\ exists z, z < i /\ inputs !! z = Some k) ->
    (forall j k t x, T !! j = Some k -> m !! j = Some t -> x ∈ k -> lone x -> x ∈ t) ->
    foldl dedup_step (r0, p0, x0) (zip (seq i (length l)) l) = (rem, p, next) -> exists T m, tracking cost out fr d n m0 lone rem p T m).
  { clear H. induction l as [|k l IH]; intros i r0 p0 x0 T m Hd Hi Hs HT Hx HTr Hids HTl Hf.
    - simpl in Hf. injection Hf as <- <- <-. simpl in Hi. exists T, m. split; [done|done| |done].
      intros j k. rewrite HTr. split; [|by left]. intros [?|[Hij Hj]]; [done|]. apply lookup_lt_Some in Hj. fold n in Hj. lia.
    - assert (Hk : inputs !! i = Some k) by (rewrite <-(Nat.add_0_r i), <-lookup_drop, Hd; done). assert (Hd' : drop (S i) inputs = l) by (rewrite <-Nat.add_1_r, <-drop_drop, Hd; done).
      simpl in Hi. assert (Hin : i < n) by lia. simpl in Hf. destruct (r0 !! k) as [id|] eqn:E.
      + destruct (Hids _ _ E) as [Hid (z & Hz & Hkz)]. assert (Hne : id <> i) by lia.
        assert (Ha : T !! id = Some k) by (apply HTr; by left). assert (Hb : T !! i = Some k) by (apply HTr; right; split; [lia|done]).
        destruct (proj1 (tr_some _ _ _ HT id)) as [ta Hta]; [eauto|]. destruct (proj1 (tr_some _ _ _ HT i)) as [tb Htb]; [eauto|].
        assert (ta = tb) as -> by (by eapply (tracks_eq out T m id i k)).
        assert (Hs' : g_steps out (cheap fr cost (size_of d) out) n m0 (p0 ++ [[id; i]]) (joined out m id i x0 tb tb)) by (rewrite Hx; apply g_steps_snoc; try done; by intros _; left).
        assert (HT' : tracks out (<[x0 := k]> (delete i (delete id T))) (joined out m id i x0 tb tb)).
        { apply (join_tracks out T m id i k k); try done; [clear; set_solver|clear; set_solver|clear; set_solver|by right]. }
        refine (IH (S i) _ _ _ _ _ Hd' _ Hs' HT' _ _ _ _ Hf); [lia|rewrite app_length; simpl; lia| | |].
        * intros j k'. destruct (decide (j = x0)) as [->|Hj].
          -- rewrite lookup_insert. split; [intros [= <-]; left; by rewrite lookup_insert|]. intros [Hk'|[_ Hk']].
             ++ destruct (decide (k' = k)) as [->|Hk'n]; [done|]. rewrite lookup_insert_ne in Hk' by done. apply Hids in Hk' as [Hk' _]. lia.
             ++ apply lookup_lt_Some in Hk'. fold n in Hk'. lia.
          -- rewrite lookup_insert_ne by done. rewrite !lookup_delete_Some, HTr. split.
             ++ intros (Hji & Hjid & [Hk'|[Hij Hk']]); [left|right; split; [lia|done]]. rewrite lookup_insert_ne; [done|]. intros <-. congruence.
             ++ intros [Hk'|[Hij Hk']].
                ** destruct (decide (k' = k)) as [->|Hk'n]; [rewrite lookup_insert in Hk'; congruence|]. rewrite lookup_insert_ne in Hk' by done.
                   split; [apply Hids in Hk' as [Hk' _]; lia|]. split; [|by left]. intros <-. assert (HT2 : T !! id = Some k') by (apply HTr; by left). congruence.
                ** apply lookup_lt_Some in Hk' as Hlt. fold n in Hlt. split; [lia|]. split; [lia|]. right. split; [lia|done].
        * intros k' j. destruct (decide (k' = k)) as [->|Hk']; [rewrite lookup_insert; intros [= <-]; split; [right; lia|exists i; split; [lia|done]]|]. rewrite lookup_insert_ne by done.
          intros Hj%Hids. destruct Hj as [Hj (z' & Hz' & Hkz')]. split; [lia|]. exists z'. split; [lia|done].
        * intros j k' t x. unfold joined. destruct (decide (j = x0)) as [->|Hj].
          -- rewrite !lookup_insert. intros [= <-] _ Hxk Hl. exfalso. assert (z = i) by (by eapply (Hlone x Hl)). lia.
          -- rewrite !lookup_insert_ne by done. intros [_ [_ Hk']%lookup_delete_Some]%lookup_delete_Some [_ [_ Hm]%lookup_delete_Some]%lookup_delete_Some. by apply (HTl j).
      + refine (IH (S i) _ _ _ T m Hd' _ Hs HT Hx _ _ HTl Hf); [lia| |].
        * intros j k'. rewrite HTr. destruct (decide (k' = k)) as [->|Hk'].
          -- rewrite lookup_insert, E. split; [intros [?|[Hij Hj]]; [done|]|].
             ++ destruct (decide (j = i)) as [->|Hji]; [by left|right; split; [lia|done]].
             ++ intros [[= <-]|[Hij Hj]]; right; [split; [lia|done]|split; [lia|done]].
          -- rewrite lookup_insert_ne by done. split; (intros [?|[Hij Hj]]; [by left|right]); (split; [|done]); [|lia]. destruct (decide (j = i)) as [->|]; [congruence|lia].
        * intros k' j. destruct (decide (k' = k)) as [->|Hk']; [rewrite lookup_insert; intros [= <-]; split; [left; lia|exists i; split; [lia|done]]|]. rewrite lookup_insert_ne by done.
          intros Hj%Hids. destruct Hj as [Hj (z' & Hz' & Hkz')]. split; [lia|]. exists z'. split; [lia|done]. }
  refine (Hgen inputs 0 ∅ [] n m0 m0 _ _ (g_steps_nil _ _ _ _) (tracks_refl _ _) _ _ _ _ H); [done|done|simpl; lia| | |].
  - intros j k. rewrite Hm0, lookup_empty. split; [intros Hk; right; split; [lia|done]|by intros [?|[_ ?]]].
  - intros k j. by rewrite lookup_empty.
  - intros j k t x Hj Ht Hxk _. simplify_eq. done.
Qed.

Theorem greedy_zero cost choose inputs output d p : symmetric_cost cost -> chooser_ok choose -> chooser_fair choose -> chooser_cheap choose -> 2 <= length inputs -> Forall (labels_in d) inputs ->
  on_two inputs output -> ssa_greedy (fun _ => cost) (Some choose) inputs output d = Ok p ->
  g_ssa output (cheap (free inputs output) cost (size_of d) output) p (map_seq 0 inputs) (length inputs).
Proof.
  intros Hsym Hchoose Hfair Hcheap Hlen Hd Htwo H. pose proof (greedy_smallest_first (fun _ => cost) (Some choose) inputs output d p (conj Hchoose Hfair) Hlen Hd H) as Hwhole.
  unfold ssa_greedy in H. destruct inputs as [|ka [|kb inputs']]; [simpl in Hlen; lia|simpl in Hlen; lia|].
  set (inputs := ka :: kb :: inputs') in *. set (n := length inputs) in *.
  apply bind_Ok in H as (com & Hcom & H). set (out := output ∪ com) in *. cbn [from_option id default] in H.
  assert (Hout : output ⊆ out) by (unfold out; clear; set_solver).
  assert (Hfr : forall x, free inputs output x <-> x ∉ out).
  { intros x. unfold free, out. rewrite not_elem_of_union, (common_elem inputs com x Hcom). split.
    - intros [Ho (k & Hk & Hx)]. split; [done|]. intros Hall. by apply Hx, Hall.
    - intros [Ho Hn]. split; [done|]. destruct (decide (Exists (fun k => x ∉ k) inputs)) as [He|He]; [by apply Exists_exists in He|].
      exfalso. apply Hn. intros k Hk. destruct (decide (x ∈ k)); [done|]. exfalso. apply He, Exists_exists. eauto. }
  set (lone := fun x => x ∉ out /\ forall i j a b, inputs !! i = Some a -> inputs !! j = Some b -> x ∈ a -> x ∈ b -> i = j).
  assert (Hlone : forall x, lone x -> x ∉ out) by by intros x [? _].
  destruct (dedup inputs) as [[rem p0] next] eqn:Ed. pose proof (dedup_track (free inputs output) output d _ _ _ _ Ed) as [Htrack Hids].
  pose proof (dedup_zero cost (free inputs output) output d inputs lone _ _ _ Ed (fun x Hl => proj2 Hl)) as Htk. apply dedup_ok in Ed as (Hl & Hn & Hdom). fold n in Hl, Hn, Htrack, Htk.
  assert (Hkeys : forall k, k ∈ (map_to_list rem).*1 <-> is_Some (rem !! k)).
  { intros k. rewrite elem_of_list_fmap. split.
    - intros ([k' i] & -> & Hk%elem_of_map_to_list). eauto.
    - intros [i Hi]. exists (k, i). split; [done|]. by apply elem_of_map_to_list. }
  assert (Hlab : forall k, is_Some (rem !! k) -> labels_in d k).
  { rewrite Forall_forall in Hd. intros k Hk%Hdom. by apply Hd. }
  destruct (mapM_sizes ((map_to_list rem).*1) d) as (foot & Ef & Hfoot).
  { apply Forall_forall. intros k Hk. by apply Hlab, Hkeys. }
  rewrite Ef in H. cbn [mbind res_bind] in H. set (dims := init_dims out (map_to_list rem).*1) in *.
  set (st0 := GState rem dims (init_ref out dims 2) (init_ref out dims 3) (list_to_map foot) [] p0 next 0 0) in *.
  assert (Hreg : registered out rem dims).
  { intros c k. unfold dims. rewrite init_dims_elem, Hkeys. done. }
  assert (Hempty : forall x, x ∈ out -> keys_of dims x = ∅).
  { intros x Hx. apply set_eq. intros k. rewrite (Hreg x k). split; [intros [_ ?]; set_solver|by intros ?%elem_of_empty]. }
  assert (Hst0 : phase output out (free inputs output) d n (map_seq 0 inputs) st0).
  { split; simpl; [split; simpl|done| | | |done|]; try done.
    - intros k Hk. apply Hkeys in Hk. rewrite <-Hfoot in Hk. destruct ((list_to_map foot : gmap key nat) !! k) eqn:E; [eauto|]. by apply not_elem_of_list_to_map in E.
    - intros E. assert (Hk : is_Some (rem !! ka)) by (apply Hdom; left). rewrite E, lookup_empty in Hk. by destruct Hk.
    - intros x. apply init_ref_elem; [lia|apply Hempty].
    - intros x. apply init_ref_elem; [lia|apply Hempty].
    - intros c Hc. by apply elem_of_nil in Hc.
    - intros k Hk%Hdom x Hx. apply (common_elem inputs com x Hcom); [unfold out in Hx; clear -Hx; set_solver|done]. }
  assert (Hin : forall x k, k ∈ keys_of dims x -> k ∈ inputs /\ x ∈ k /\ free inputs output x).
  { intros x k [Hk Hx]%Hreg. apply elem_of_difference in Hx as [Hx Hxo]. split; [by apply Hdom|]. split; [done|by apply Hfr]. }
  assert (Hz0 : zero cost output out (free inputs output) d n (map_seq 0 inputs) lone st0).
  { split; simpl; try done.
    - intros x. destruct (decide (size (keys_of dims x) <= 2)) as [|Hs]; [done|]. exfalso.
      destruct (sizes_other (keys_of dims x) ∅) as (k1 & Hk1 & _); [lia|]. destruct (sizes_other (keys_of dims x) k1) as (k2 & Hk2 & Hn2); [lia|].
      destruct (sizes_three_inv (keys_of dims x) k1 k2) as (k3 & Hk3 & Hn31 & Hn32); [lia|].
      destruct (Hin x k1 Hk1) as (Hi1 & Hx1 & Hf). destruct (Hin x k2 Hk2) as (Hi2 & Hx2 & _). destruct (Hin x k3 Hk3) as (Hi3 & Hx3 & _).
      apply elem_of_list_lookup in Hi1 as [i1 Hi1], Hi2 as [i2 Hi2], Hi3 as [i3 Hi3].
      destruct (Htwo x i1 i2 i3 k1 k2 k3 Hf Hi1 Hi2 Hi3 Hx1 Hx2 Hx3) as [E|[E|E]]; subst; congruence.
    - intros x [_ Hl1]. destruct (decide (size (keys_of dims x) <= 1)) as [|Hs]; [done|]. exfalso.
      destruct (sizes_other (keys_of dims x) ∅) as (k1 & Hk1 & _); [lia|]. destruct (sizes_other (keys_of dims x) k1) as (k2 & Hk2 & Hn2); [lia|].
      destruct (Hin x k1 Hk1) as (Hi1 & Hx1 & _). destruct (Hin x k2 Hk2) as (Hi2 & Hx2 & _). apply elem_of_list_lookup in Hi1 as [i1 Hi1], Hi2 as [i2 Hi2].
      assert (i1 = i2) by (by eapply Hl1). subst. congruence.
    - intros k s Hk. pose proof (list_to_map_sizes _ _ _ _ _ Ef Hk) as Hs. apply elem_of_list_to_map_2 in Hk. assert (Hkk : k ∈ (map_to_list rem).*1) by (rewrite <-Hfoot; apply elem_of_list_fmap; by exists (k, s)).
      rewrite (volume_size d k) in Hs by (by apply Hlab, Hkeys). by injection Hs as <-.
    - intros k Hk. apply Hdom in Hk as Hki. apply elem_of_list_lookup in Hki as [i Hi]. destruct (decide (k ∈ delete i inputs)) as [Hdup|Hdup].
      + left. intros x Hx Hxo. assert (Hj : exists j, j <> i /\ inputs !! j = Some k).
        { apply elem_of_list_lookup in Hdup as [j Hj]. destruct (decide (j < i)) as [Hji|Hji]; [rewrite lookup_delete_lt in Hj by done; exists j; split; [lia|done]|].
          rewrite lookup_delete_ge in Hj by lia. exists (S j). split; [lia|done]. }
        destruct Hj as (j & Hji & Hj). apply (sizes_one _ k). intros k' Hk'. destruct (Hin x k' Hk') as (Hi' & Hx' & Hf). apply elem_of_list_lookup in Hi' as [l Hl'].
        destruct (Htwo x i j l k k k' Hf Hi Hj Hl' Hx Hx Hx') as [E|[E|E]]; subst; congruence.
      + right. intros x Hx Hxo Hs. split; [done|]. assert (Huniq : forall j b, inputs !! j = Some b -> x ∈ b -> j = i).
        { intros j b Hj Hxb. assert (Hbk : b = k).
          { destruct (decide (b = k)) as [|Hbk]; [done|]. exfalso. assert (2 <= size (keys_of dims x)); [|lia].
            apply (sizes_two _ b k); [| |done]; apply Hreg; (split; [apply Hdom; by eapply elem_of_list_lookup_2|by apply elem_of_difference]). }
          subst b. destruct (decide (j = i)) as [|Hji]; [done|]. exfalso. apply Hdup. apply elem_of_list_lookup.
          destruct (decide (j < i)); [exists j; by rewrite lookup_delete_lt|]. exists (j - 1). rewrite lookup_delete_ge by lia. by replace (S (j - 1)) with j by lia. }
        intros j j' a b Hj Hj' Ha Hb. rewrite (Huniq j a Hj Ha), (Huniq j' b Hj' Hb). done.
    - intros c Hc. by apply elem_of_nil in Hc. }
  apply bind_Ok in H as (st1 & H1 & H). apply bind_Ok in H as (st2 & H2 & H). apply bind_Ok in H as (final & _ & H).
  destruct (zero_dims cost Hsym choose Hchoose Hfair output out (free inputs output) Hout Hfr d n (map_seq 0 inputs) lone Hlone (map_to_list dims) st0 st1 Hz0) as (Hz1 & Hf1 & new & Hq & Hnew); [|exact H1|].
  { intros x ks Hin'%elem_of_map_to_list. unfold keys_of. simpl. by rewrite Hin'. }
  assert (Hc1 : covered out (g_rem st1) (g_queue st1)).
  { rewrite (fr_rem _ _ Hf1), Hq. simpl. intros k k' Hk Hk' Hkk (x & Hxo & Hx & Hx').
    assert (Hx1 : k ∈ keys_of dims x) by (apply Hreg; split; [done|by apply elem_of_difference]). assert (Hx2 : k' ∈ keys_of dims x) by (apply Hreg; split; [done|by apply elem_of_difference]).
    unfold keys_of in Hx1, Hx2. destruct (dims !! x) as [ks|] eqn:E; [|by apply elem_of_empty in Hx1]. apply (Hnew x ks); try done. by apply elem_of_map_to_list. }
  destruct (zero_loop cost Hsym choose Hchoose Hfair Hcheap output out (free inputs output) Hout Hfr d n (map_seq 0 inputs) lone Hlone _ st1 st2 Hz1 Hc1 H2) as [Hz2 Hc2].
  destruct (z_track _ _ _ _ _ _ _ _ _ Hz2) as (T & m & HT). pose proof (zero_end _ _ _ _ Hfr _ _ _ _ _ _ _ Hz2 Hc2 HT) as Hend.
  destruct (merge_sort fq_le final) as [|[[s1 id1] k1] q]; [done|]. apply outer_prefix in H as [l ->].
  pose proof (tk_steps _ _ _ _ _ _ _ _ _ _ _ HT) as Hs. pose proof (ssa_rest _ _ _ _ _ _ _ _ Hs l Hwhole) as Hrest.
  eapply g_steps_forward; [exact Hs|]. by eapply tail_cheap.
Qed.

Lemma each_step_and (Q R P : list key -> list key -> Prop) out p : (forall now rest, Q now rest -> R now rest -> P now rest) -> forall sets, each_step Q out p sets -> each_step R out p sets -> each_step P out p sets.
Proof. intros HP. induction p as [|s p IH]; intros sets; [done|]. intros [H1 H2] [H3 H4]. split; [by apply HP|by apply IH]. Qed.
Theorem greedy_zero_linear cost choose ordI inputs output d p : symmetric_cost cost -> chooser_ok choose -> chooser_fair choose -> chooser_cheap choose -> 2 <= length inputs -> Forall (labels_in d) inputs ->
  on_two inputs output -> greedy (fun _ => cost) (Some choose) ordI inputs output d None = Ok p ->
  each_step (cheapest_step (free inputs output) cost (size_of d) output) output p inputs.
Proof.
  intros Hsym Hchoose Hfair Hcheap Hlen Hd Htwo H.
  pose proof (greedy_linear_outer_last (fun _ => cost) (Some choose) ordI inputs output d p (conj Hchoose Hfair) Hlen Hd H) as Houter.
  assert (Hch : each_step (cheap_step (free inputs output) cost (size_of d) output) output p inputs).
  { unfold greedy in H. apply bind_Ok in H as (sp & Hsp & Hp).
    destruct (greedy_ssa_ok (fun _ => cost) (Some choose) inputs output d Hchoose) as (sp' & Hsp' & Hc & _); [by destruct inputs; simpl in Hlen; [lia|]|done|]. rewrite Hsp in Hsp'. injection Hsp' as <-.
    pose proof (greedy_zero _ _ _ _ _ _ Hsym Hchoose Hfair Hcheap Hlen Hd Htwo Hsp) as Hs. unfold ssa_to_linear in Hp. unfold ssa_complete in Hc.
    assert (Hseq : Forall (fun i => i < length inputs) (seq 0 (length inputs))) by (apply Forall_forall; intros i Hi%elem_of_seq; lia).
    assert (Har : path_arity sp = length inputs) by (rewrite (ssa_arity _ _ _ Hc); [apply seq_length|apply NoDup_seq|done]). rewrite Har in Hp.
    assert (Hin : inputs = (fun i => default ∅ ((map_seq 0 inputs : gmap nat key) !! i)) <$> seq 0 (length inputs)).
    { apply list_eq. intros i. rewrite list_lookup_fmap. destruct (decide (i < length inputs)) as [Hi|Hi].
      - rewrite lookup_seq_lt by done. simpl. rewrite lookup_map_seq_0. destruct (lookup_lt_is_Some_2 inputs i Hi) as [k Hk]. by rewrite Hk.
      - rewrite lookup_ge_None_2 by lia. rewrite lookup_ge_None_2 by (rewrite seq_length; lia). done. }
    rewrite Hin at 2. eapply g_linear; [|apply asc_seq|exact Hseq| |exact Hp|exact Hs].
    - intros ids m a b ka kb. by apply cheap_linear.
    - intros i. rewrite elem_of_seq, lookup_map_seq_0. split; [intros; apply lookup_lt_is_Some_2; lia|intros Hi%lookup_lt_is_Some_1; lia]. }
  eapply each_step_and; [|exact Houter|exact Hch]. intros now rest (a & b & -> & Ho) (a' & b' & [= <- <-] & Hc). exists a, b. split; [done|].
  destruct Ho as [Hl|[?|?]]; [|by left|by right; left]. destruct (Hc Hl) as [?|?]; [by left|by right; right].
Qed.

(** ** The chooser at temperature zero *)
Lemma thermal_first b rem q : 1 <= b -> (forall c, c ∈ q -> obsolete rem c = true) /\ (thermal_take b rem q).1 = [] \/
  exists c0 q1 q2, q = q1 ++ c0 :: q2 /\ (forall c, c ∈ q1 -> obsolete rem c = true) /\ obsolete rem c0 = false /\ exists l, (thermal_take b rem q).1 = c0 :: l.
Proof.
  intros Hb. destruct b as [|b]; [lia|]. clear Hb. induction q as [|c q IH]; [left; split; [intros c Hc; by apply elem_of_nil in Hc|done]|]. cbn [thermal_take]. destruct (obsolete rem c) eqn:E.
  - destruct IH as [[H1 H2]|(c0 & q1 & q2 & -> & H1 & H2 & l & H3)].
    + left. split; [by intros c' [->|?]%elem_of_cons; [|apply H1]|done].
    + right. exists c0, (c :: q1), q2. split; [done|]. split; [by intros c' [->|?]%elem_of_cons; [|apply H1]|]. split; [done|]. by exists l.
  - right. exists c, [], q. split; [done|]. split; [intros c' Hc'; by apply elem_of_nil in Hc'|]. split; [done|]. destruct (thermal_take b rem q) as [l r]. by exists l.
Qed.
#[local] Instance gcand_le_trans' : Transitive gcand_le.
Proof. intros a b c. rewrite !gcand_le_spec. lia. Qed.
#[local] Instance gcand_le_total' : Total gcand_le.
Proof. intros a b. rewrite !gcand_le_spec. lia. Qed.
(** The first of the choices costs the least of all current candidates. *)
Lemma thermal_least b rem q c0 l r : 1 <= b -> thermal_take b rem (merge_sort gcand_le q) = (c0 :: l, r) -> forall c, c ∈ q -> obsolete rem c = false -> (q_cost c0 <= q_cost c)%Z.
Proof.
  intros Hb E c Hc Ho. pose proof (merge_sort_Permutation gcand_le q) as Hp. pose proof (StronglySorted_merge_sort gcand_le q) as Hs.
  destruct (thermal_first b rem (merge_sort gcand_le q) Hb) as [[_ H]|(c1 & q1 & q2 & Hq & H1 & _ & l' & H)]; rewrite E in H; [done|]. injection H as <- <-. rewrite <-Hp, Hq in Hc. rewrite Hq in Hs.
  apply elem_of_app in Hc as [Hc|Hc]; [apply H1 in Hc; congruence|]. apply elem_of_cons in Hc as [->|Hc]; [lia|].
  clear -Hs Hc. induction q1 as [|c' q1 IH]; [|apply IH; by apply StronglySorted_inv in Hs as [? _]]. apply StronglySorted_inv in Hs as [_ Hs]. rewrite Forall_forall in Hs. specialize (Hs c Hc). apply gcand_le_spec in Hs. lia.
Qed.
Lemma thermal_zero_cheap nbranch pick : 1 <= nbranch -> draws_weighted zero_energy pick -> chooser_cheap (thermal_chooser nbranch pick).
Proof.
  intros Hb Hp k q rem c q' H c' Hc' Ho. unfold thermal_chooser in H. destruct (thermal_take nbranch rem (merge_sort gcand_le q)) as [l r] eqn:E.
  destruct l as [|c1 [|c2 l]]; [done|injection H as <- _; by eapply thermal_least|]. pose proof (thermal_least _ _ _ _ _ _ Hb E c' Hc' Ho) as Hle.
  destruct (Hp k (c1 :: c2 :: l)) as (c0 & Hc0 & Hw); [done|]. rewrite Hc0 in H. injection H as <- _. unfold zero_energy in Hw. destruct (decide (q_cost c0 = q_cost c1)); lia.
Qed.
