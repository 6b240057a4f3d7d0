(** C49: the greedy search contracts as long as something can be contracted.  C59: then it multiplies the smallest operands first. *)
From Verif Require Import Prelude Einsum EinsumFacts Helpers Contract Spec PathSpec StringFacts StepFacts ContractFacts PathFacts Ssa SsaSpec SsaFacts SsaMore Optimal OptimalFacts Branch BranchFacts Greedy GreedyFacts GreedySpec.

Section Steps.
  Variable fr : N -> Prop.
  Variable out : gset N.
  Variable D : N -> nat.

  Definition none_linked (m : gmap nat key) : Prop := forall i j a b, i <> j -> m !! i = Some a -> m !! j = Some b -> ~ linked fr a b.
  (** Labels of the operands of [m]. *)
  Definition held (m : gmap nat key) : key := ⋃ (map_to_list m).*2.
  Lemma elem_held m x : x ∈ held m <-> exists i k, m !! i = Some k /\ x ∈ k.
  Proof.
    unfold held. rewrite elem_of_union_list. split.
    - intros (k & Hk & Hx). apply elem_of_list_fmap in Hk as ([i k'] & -> & Hik). apply elem_of_map_to_list in Hik. eauto.
    - intros (i & k & Hik & Hx). exists k. split; [|done]. apply elem_of_list_fmap. exists (i, k). split; [done|]. by apply elem_of_map_to_list.
  Qed.
  (** The size of an operand without the labels that are on no other one. *)
  Definition weight (m : gmap nat key) (i : nat) (k : key) : nat := volume D (k ∩ (out ∪ held (delete i m))).
  Definition lightest (m : gmap nat key) (a b : nat) (ka kb : key) : Prop := forall c kc, c <> a -> c <> b -> m !! c = Some kc ->
    weight m a ka <= weight m c kc /\ weight m b kb <= weight m c kc.
  Definition pair_ok (m : gmap nat key) (a b : nat) (ka kb : key) : Prop := linked fr ka kb \/ ka = kb \/ (none_linked m /\ lightest m a b ka kb).
  Definition joined (m : gmap nat key) (a b next : nat) (ka kb : key) : gmap nat key :=
    let r := delete b (delete a m) in <[next := (ka ∪ kb) ∩ (out ∪ held r)]> r.
  Fixpoint ssa_steps (p : path) (m : gmap nat key) (next : nat) : Prop :=
    match p with
    | [] => True
    | s :: p' => exists a b ka kb, s = [a; b] /\ a <> b /\ m !! a = Some ka /\ m !! b = Some kb /\ pair_ok m a b ka kb /\ ssa_steps p' (joined m a b next ka kb) (S next)
    end.
  Inductive steps (n : nat) (m0 : gmap nat key) : path -> gmap nat key -> Prop :=
    | steps_nil : steps n m0 [] m0
    | steps_snoc p m a b ka kb : steps n m0 p m -> a <> b -> m !! a = Some ka -> m !! b = Some kb -> pair_ok m a b ka kb ->
        steps n m0 (p ++ [[a; b]]) (joined m a b (n + length p) ka kb).
  Lemma steps_forward n m0 p m : steps n m0 p m -> forall p', ssa_steps p' m (n + length p) -> ssa_steps (p ++ p') m0 n.
  Proof.
    induction 1 as [|p m a b ka kb H IH Hab Ha Hb HQ]; intros p' Hp'.
    - simpl in *. by rewrite Nat.add_0_r in Hp'.
    - rewrite <-app_assoc. apply IH. simpl. exists a, b, ka, kb. split_and!; try done. rewrite app_length in Hp'. simpl in Hp'. by replace (S (n + length p)) with (n + (length p + 1)) by lia.
  Qed.

  Lemma union_pair (a b : key) : union_all [a; b] = a ∪ b.
  Proof. unfold union_all. simpl. set_solver. Qed.
  Lemma union_all_swap (a b : key) l : union_all (a :: b :: l) = union_all (b :: a :: l).
  Proof. unfold union_all. simpl. set_solver. Qed.
  Lemma held_others ids (m : gmap nat key) i l : asc ids -> (forall j, j ∈ ids <-> is_Some (m !! j)) -> ids ≡ₚ i :: l -> forall x,
    x ∈ union_all ((fun j => default ∅ (m !! j)) <$> l) <-> x ∈ held (delete i m).
  Proof.
    intros Hasc Hids Hl x. assert (Hnd : NoDup (i :: l)) by (rewrite <-Hl; by apply asc_NoDup). apply NoDup_cons in Hnd as [Hil _].
    unfold union_all. rewrite elem_held, elem_of_union_list. split.
    - intros (k & Hk & Hx). apply elem_of_list_fmap in Hk as (j & -> & Hj). assert (Hj2 : is_Some (m !! j)) by (apply Hids; rewrite Hl; by right). destruct Hj2 as [k Hk]. rewrite Hk in Hx.
      exists j, k. split; [|done]. rewrite lookup_delete_ne; [done|]. intros ->. done.
    - intros (j & k & Hk & Hx). apply lookup_delete_Some in Hk as [Hji Hk]. exists k. split; [|done]. apply elem_of_list_fmap. exists j. rewrite Hk. split; [done|].
      assert (Hj : j ∈ i :: l) by (rewrite <-Hl; apply Hids; eauto). apply elem_of_cons in Hj as [->|?]; done.
  Qed.
  Lemma linear_steps p : forall ids m next lp, asc ids -> Forall (fun i => i < next) ids -> (forall i, i ∈ ids <-> is_Some (m !! i)) ->
    s2l_loop next ids p = Ok lp -> ssa_steps p m next -> each_step (smallest_first fr D out) out lp ((fun i => default ∅ (m !! i)) <$> ids).
  Proof.
    induction p as [|s p IH]; intros ids m next lp Hasc Hlt Hids Hlp Hs; cbn [s2l_loop] in Hlp; [by injection Hlp as <-|].
    destruct Hs as (a & b & ka & kb & -> & Hab & Ha & Hb & HQ & Hs).
    assert (Hin : forall i, i ∈ [a; b] -> i ∈ ids) by (intros i Hi; apply Hids; repeat (apply elem_of_cons in Hi as [->|Hi]; [eauto|]); by apply elem_of_nil in Hi).
    assert (Hnd : NoDup [a; b]) by (apply NoDup_cons; split; [by rewrite elem_of_list_singleton|apply NoDup_singleton]).
    destruct (pops_con ids [a; b] Hasc Hnd Hin) as (tmp & Hpop). rewrite Hpop in Hlp. cbn [mbind res_bind] in Hlp.
    apply bind_Ok in Hlp as (rest & Hrest & Hlp). set (con := sort_nat (bisect_left ids <$> [a; b])) in *. assert (lp = con :: rest) as -> by congruence. clear Hlp.
    set (g := fun i => default ∅ (m !! i)).
    assert (Hch : chosen con (g <$> ids) = g <$> sort_nat [a; b]) by (rewrite chosen_fmap; unfold con; by rewrite chosen_con).
    assert (Hot : others con (g <$> ids) = g <$> filter (.∉ [a; b]) ids) by (rewrite others_fmap; unfold con; by rewrite others_con).
    assert (Hga : g a = ka) by (unfold g; by rewrite Ha). assert (Hgb : g b = kb) by (unfold g; by rewrite Hb).
    assert (Hsort : sort_nat [a; b] = [a; b] \/ sort_nat [a; b] = [b; a]).
    { pose proof (sort_nat_perm [a; b]) as Hp. destruct (sort_nat [a; b]) as [|x [|y [|]]]; try (apply Permutation_length in Hp; done).
      apply Permutation_sym, Permutation_length_2_inv in Hp. tauto. }
    assert (Hr : forall x, x ∈ union_all (g <$> filter (.∉ [a; b]) ids) <-> x ∈ held (delete b (delete a m))).
    { intros x. unfold union_all. rewrite elem_held, elem_of_union_list. split.
      - intros (k & Hk & Hx). apply elem_of_list_fmap in Hk as (i & -> & Hi). apply elem_of_list_filter in Hi as [Hi Hi2]. apply Hids in Hi2 as [k Hk]. unfold g in Hx. rewrite Hk in Hx.
        exists i, k. split; [|done]. rewrite !lookup_delete_ne by (intros ->; apply Hi; set_solver). done.
      - intros (i & k & Hk & Hx). apply lookup_delete_Some in Hk as [Hib Hk]. apply lookup_delete_Some in Hk as [Hia Hk]. exists k. split; [|done].
        apply elem_of_list_fmap. exists i. unfold g. rewrite Hk. split; [done|]. apply elem_of_list_filter. split; [set_solver|]. apply Hids. eauto. }
    assert (Hkept : kept out con (g <$> ids) = (ka ∪ kb) ∩ (out ∪ held (delete b (delete a m)))).
    { unfold kept. rewrite Hch, Hot. apply set_eq. intros x. rewrite !elem_of_intersection, !elem_of_union, Hr.
      assert (Hu : union_all (g <$> sort_nat [a; b]) = ka ∪ kb); [|by rewrite Hu, elem_of_union]. destruct Hsort as [-> | ->]; rewrite !fmap_cons, fmap_nil, union_pair, Hga, Hgb; set_solver. }
    cbn [each_step]. split.
    - rewrite Hch, Hot. unfold smallest_first.
      assert (Hun : none_linked m -> unlinked fr (g <$> sort_nat [a; b] ++ filter (.∉ [a; b]) ids)).
      { intros Hn i j x y Hij Hi Hj. rewrite list_lookup_fmap in Hi, Hj.
        assert (Hnd2 : NoDup (sort_nat [a; b] ++ filter (.∉ [a; b]) ids)).
        { apply NoDup_app. split; [by rewrite sort_nat_perm|]. split; [|apply NoDup_filter; by apply asc_NoDup]. intros z Hz [Hz2 _]%elem_of_list_filter. by rewrite elem_sort_nat in Hz. }
        set (l := sort_nat [a; b] ++ filter (.∉ [a; b]) ids) in *. destruct (l !! i) as [i'|] eqn:Ei; [|done]. destruct (l !! j) as [j'|] eqn:Ej; [|done]. simpl in Hi, Hj.
        assert (Hsome : forall z, z ∈ l -> is_Some (m !! z)).
        { intros z [Hz|Hz]%elem_of_app; apply Hids; [apply Hin; by rewrite elem_sort_nat in Hz|by apply elem_of_list_filter in Hz as [_ ?]]. }
        destruct (Hsome i') as [x' Hx']; [by eapply elem_of_list_lookup_2|]. destruct (Hsome j') as [y' Hy']; [by eapply elem_of_list_lookup_2|].
        unfold g in Hi, Hj. rewrite Hx' in Hi. rewrite Hy' in Hj. simpl in Hi, Hj. injection Hi as <-. injection Hj as <-. apply (Hn i' j'); [|done|done].
        intros ->. apply Hij. by eapply NoDup_lookup. }
      assert (Hperm : ids ≡ₚ a :: b :: filter (.∉ [a; b]) ids).
      { apply NoDup_Permutation; [by apply asc_NoDup| |].
        - apply (NoDup_app [a; b] _). split; [done|]. split; [|apply NoDup_filter; by apply asc_NoDup]. intros z Hz [Hz2 _]%elem_of_list_filter. done.
        - intros z. rewrite !elem_of_cons, elem_of_list_filter. split.
          + intros Hz. destruct (decide (z = a)); [by left|]. destruct (decide (z = b)); [by right; left|]. right; right. split; [set_solver|done].
          + intros [->|[->|[_ ?]]]; [apply Hin; left|apply Hin; right; left|done]. }
      assert (Hw : forall i k l, ids ≡ₚ i :: l -> m !! i = Some k -> volume D (k ∩ (out ∪ union_all (g <$> l))) = weight m i k).
      { intros i k l Hl Hi. unfold weight. f_equal. apply set_eq. intros x. rewrite !elem_of_intersection, !elem_of_union. pose proof (held_others ids m i l Hasc Hids Hl x) as Hh. fold g in Hh. by rewrite Hh. }
      set (R := filter (.∉ [a; b]) ids) in *.
      assert (Hl : lightest m a b ka kb -> forall j c, (g <$> R) !! j = Some c ->
        volume D (ka ∩ (out ∪ union_all (kb :: (g <$> R)))) <= volume D (c ∩ (out ∪ union_all (ka :: kb :: delete j (g <$> R)))) /\
        volume D (kb ∩ (out ∪ union_all (ka :: (g <$> R)))) <= volume D (c ∩ (out ∪ union_all (ka :: kb :: delete j (g <$> R))))).
      { intros Hl j c Hj. rewrite list_lookup_fmap in Hj. destruct (R !! j) as [i|] eqn:Ei; [|done]. injection Hj as <-.
        assert (Hi : i ∈ R) by by eapply elem_of_list_lookup_2. unfold R in Hi. apply elem_of_list_filter in Hi as [Hi Hi2]. apply Hids in Hi2 as [kc Hkc].
        assert (Hgi : g i = kc) by (unfold g; by rewrite Hkc). rewrite Hgi.
        destruct (Hl i kc) as [Hla Hlb]; [intros ->; apply Hi; left|intros ->; apply Hi; right; left|done|].
        rewrite <-(Hw a ka (b :: R)) in Hla by done. rewrite <-(Hw b kb (a :: R)) in Hlb by (try done; rewrite Hperm at 1; by apply perm_swap).
        assert (Hpi : ids ≡ₚ i :: a :: b :: delete j R).
        { etrans; [exact Hperm|]. etrans; [do 2 apply perm_skip; exact (delete_Permutation R j i Ei)|]. symmetry. apply (Permutation_middle [a; b] (delete j R) i). }
        rewrite <-(Hw i kc (a :: b :: delete j R) Hpi Hkc) in Hla, Hlb.
        rewrite !fmap_cons, list_fmap_delete, Hga, Hgb in Hla, Hlb. done. }
      rewrite fmap_app in Hun. destruct Hsort as [E|E]; rewrite E in Hun |- *; rewrite !fmap_cons, fmap_nil in Hun |- *; rewrite Hga, Hgb in Hun |- *.
      + exists ka, kb. split; [done|]. destruct HQ as [?|[?|[Hn Hli]]]; [by left|by right; left|]. right; right. split; [by apply Hun|]. by apply Hl.
      + exists kb, ka. split; [done|]. destruct HQ as [(x & ? & ? & ?)|[->|[Hn Hli]]]; [left; by exists x|by right; left|]. right; right. split; [by apply Hun|].
        intros j c Hj. destruct (Hl Hli j c Hj) as [Hl1 Hl2]. rewrite (union_all_swap kb ka). done.
    - rewrite Hot, Hkept. replace ((g <$> filter (.∉ [a; b]) ids) ++ [(ka ∪ kb) ∩ (out ∪ held (delete b (delete a m)))]) with
        ((fun i => default ∅ (joined m a b next ka kb !! i)) <$> (filter (.∉ [a; b]) ids ++ [next])).
      { rewrite Forall_forall in Hlt. apply (IH (filter (.∉ [a; b]) ids ++ [next]) _ (S next)); [| | |done|done].
        - apply asc_snoc; [by apply asc_filter|]. apply Forall_forall. intros i [_ Hi]%elem_of_list_filter. by apply Hlt.
        - apply Forall_forall. intros i [Hi%elem_of_list_filter| ->%elem_of_list_singleton]%elem_of_app; [|lia]. destruct Hi as [_ Hi]. apply Hlt in Hi. lia.
        - intros i. unfold joined. rewrite elem_of_app, elem_of_list_singleton, elem_of_list_filter. destruct (decide (i = next)) as [->|Hn].
          + rewrite lookup_insert. split; [by eauto|by right].
          + rewrite lookup_insert_ne by done. split.
            * intros [[Hi Hi2]|?]; [|done]. rewrite !lookup_delete_ne by (intros ->; apply Hi; set_solver). by apply Hids.
            * intros [k [Hib [Hia Hk]%lookup_delete_Some]%lookup_delete_Some]. left. split; [set_solver|]. apply Hids. eauto. }
      rewrite fmap_app. f_equal; [|simpl; unfold joined; by rewrite lookup_insert].
      apply list_fmap_ext'. intros i [Hi Hi2]%elem_of_list_filter. unfold joined, g. rewrite Forall_forall in Hlt. apply Hlt in Hi2.
      rewrite lookup_insert_ne by lia. rewrite !lookup_delete_ne by (intros ->; apply Hi; set_solver). done.
  Qed.

  (** ** The label sets the search works with contain the real ones; the labels in excess are on no other operand. *)
  Record tracks (T m : gmap nat key) : Prop := Tracks {
    tr_some : forall i, is_Some (T !! i) <-> is_Some (m !! i);
    tr_sub : forall i k t, T !! i = Some k -> m !! i = Some t -> t ⊆ k;
    tr_extra : forall i k t x, T !! i = Some k -> m !! i = Some t -> x ∈ k -> x ∉ t -> x ∉ out /\ forall j k', j <> i -> T !! j = Some k' -> x ∉ k' }.
  Lemma tracks_refl m : tracks m m.
  Proof. split; [done| |]; intros; simplify_eq; [done|by done]. Qed.
  Lemma steps_join n m0 p m T a b ka kb K : steps n m0 p m -> tracks T m -> a <> b -> T !! a = Some ka -> T !! b = Some kb ->
    K ⊆ ka ∪ kb -> (ka ∪ kb) ∩ out ⊆ K -> (forall c kc x, c <> a -> c <> b -> T !! c = Some kc -> x ∈ kc -> x ∈ ka ∪ kb -> x ∈ K) ->
    pair_ok T a b ka kb ->
    exists m', steps n m0 (p ++ [[a; b]]) m' /\ tracks (<[n + length p := K]> (delete b (delete a T))) m'.
  Proof.
    intros Hs HT Hab Ha Hb HK1 HK2 HK3 HQ. destruct (proj1 (tr_some _ _ HT a)) as [ta Hta]; [eauto|]. destruct (proj1 (tr_some _ _ HT b)) as [tb Htb]; [eauto|].
    assert (Hshare : forall i j ki kj ti x, i <> j -> T !! i = Some ki -> T !! j = Some kj -> m !! i = Some ti -> x ∈ ki -> x ∈ kj -> x ∈ ti).
    { intros i j ki kj ti x Hij Hi Hj Hti Hx Hx2. destruct (decide (x ∈ ti)) as [|Hn]; [done|]. destruct (tr_extra _ _ HT i ki ti x Hi Hti Hx Hn) as [_ H]. by destruct (H j kj). }
    exists (joined m a b (n + length p) ta tb). split.
    - apply steps_snoc; [done|done|done|done|]. destruct HQ as [(x & Hf & Hx & Hx2)|[->|[Hn Hli]]].
      + left. exists x. split; [done|]. split; [by eapply (Hshare a b)|]. by eapply (Hshare b a).
      + right. left. apply set_eq. intros x. split; intros Hx.
        * eapply (Hshare b a); try done; by eapply (tr_sub _ _ HT a).
        * eapply (Hshare a b); try done; by eapply (tr_sub _ _ HT b).
      + right. right. split.
        2: { assert (Hwt : forall i ki ti, T !! i = Some ki -> m !! i = Some ti -> weight m i ti = weight T i ki).
             { intros i ki ti Hi Hti. unfold weight. f_equal. apply set_eq. intros x. rewrite !elem_of_intersection, !elem_of_union, !elem_held. split.
               - intros [Hx Hx2]. split; [by eapply (tr_sub _ _ HT i)|]. destruct Hx2 as [?|(j & tj & [Hji Hj]%lookup_delete_Some & Hxj)]; [by left|right].
                 destruct (proj2 (tr_some _ _ HT j)) as [kj Hkj]; [eauto|]. exists j, kj. split; [by rewrite lookup_delete_ne|]. by eapply (tr_sub _ _ HT j).
               - intros [Hx Hx2]. assert (Hxt : x ∈ ti).
                 { destruct (decide (x ∈ ti)) as [|Hnx]; [done|]. destruct (tr_extra _ _ HT i ki ti x Hi Hti Hx Hnx) as [Hxo Hxj]. exfalso.
                   destruct Hx2 as [?|(j & kj & [Hji Hj]%lookup_delete_Some & Hxk)]; [done|]. by apply (Hxj j kj). }
                 split; [done|]. destruct Hx2 as [?|(j & kj & [Hji Hj]%lookup_delete_Some & Hxk)]; [by left|right].
                 destruct (proj1 (tr_some _ _ HT j)) as [tj Htj]; [eauto|]. exists j, tj. split; [by rewrite lookup_delete_ne|]. by eapply (Hshare j i). }
             intros c tc Hca Hcb Hc. destruct (proj2 (tr_some _ _ HT c)) as [kc Hkc]; [eauto|]. rewrite (Hwt a ka ta), (Hwt b kb tb), (Hwt c kc tc) by done. by apply Hli. }
        intros i j x y Hij Hi Hj (c & Hf & Hc & Hc2). destruct (proj2 (tr_some _ _ HT i)) as [ki Hki]; [eauto|]. destruct (proj2 (tr_some _ _ HT j)) as [kj Hkj]; [eauto|].
        apply (Hn i j ki kj Hij Hki Hkj). exists c. split; [done|]. split; [by eapply (tr_sub _ _ HT i)|by eapply (tr_sub _ _ HT j)].
    - set (nx := n + length p). set (T1 := delete b (delete a T)). set (m1 := delete b (delete a m)).
      assert (HT1 : forall i k, T1 !! i = Some k <-> i <> a /\ i <> b /\ T !! i = Some k).
      { intros i k. unfold T1. rewrite !lookup_delete_Some. split; intros; destruct_and!; split_and!; congruence. }
      assert (Hm1 : forall i k, m1 !! i = Some k <-> i <> a /\ i <> b /\ m !! i = Some k).
      { intros i k. unfold m1. rewrite !lookup_delete_Some. split; intros; destruct_and!; split_and!; congruence. }
      assert (Hold : forall i k t x, T1 !! i = Some k -> m1 !! i = Some t -> x ∈ k -> x ∉ t -> x ∉ out /\ x ∉ K /\ forall j k', j <> i -> T1 !! j = Some k' -> x ∉ k').
      { intros i k t x (Hia & Hib & Hi)%HT1 (_ & _ & Hi2)%Hm1 Hx Hxt. destruct (tr_extra _ _ HT i k t x Hi Hi2 Hx Hxt) as [Ho Hj]. split; [done|]. split.
        - intros [HxK|HxK]%HK1%elem_of_union; [by apply (Hj a ka)|by apply (Hj b kb)].
        - intros j k' Hij (_ & _ & Hk')%HT1. by apply (Hj j k'). }
      assert (Hnew : forall x, x ∈ K -> x ∉ (ta ∪ tb) ∩ (out ∪ held m1) -> x ∉ out /\ forall j k', T1 !! j = Some k' -> x ∉ k').
      { intros x Hx Hn. apply HK1 in Hx. destruct (decide (x ∈ ta ∪ tb)) as [Hin|Hnin].
        - split; [intros Ho; apply Hn; set_solver|]. intros j k' (Hja & Hjb & Hk')%HT1 Hxk'. apply Hn. apply elem_of_intersection. split; [done|]. apply elem_of_union. right.
          destruct (proj1 (tr_some _ _ HT j)) as [tj Htj]; [eauto|]. apply elem_held. exists j, tj. split; [by apply Hm1|].
          apply elem_of_union in Hin as [Hin|Hin]; [eapply (Hshare j a); try done; by eapply (tr_sub _ _ HT a)|eapply (Hshare j b); try done; by eapply (tr_sub _ _ HT b)].
        - apply elem_of_union in Hx as [Hx|Hx].
          + destruct (tr_extra _ _ HT a ka ta x) as [Ho Hj]; [done|done|done|set_solver|]. split; [done|]. intros j k' (Hja & _ & Hk')%HT1. by apply (Hj j k').
          + destruct (tr_extra _ _ HT b kb tb x) as [Ho Hj]; [done|done|done|set_solver|]. split; [done|]. intros j k' (_ & Hjb & Hk')%HT1. by apply (Hj j k'). }
      split.
      + intros i. unfold joined. fold m1. destruct (decide (i = nx)) as [->|Hne]; [rewrite !lookup_insert; split; eauto|]. rewrite !lookup_insert_ne by done.
        split; intros [k Hk].
        * apply HT1 in Hk as (Hia & Hib & Hk). destruct (proj1 (tr_some _ _ HT i)) as [t Ht]; [eauto|]. exists t. by apply Hm1.
        * apply Hm1 in Hk as (Hia & Hib & Hk). destruct (proj2 (tr_some _ _ HT i)) as [t Ht]; [eauto|]. exists t. by apply HT1.
      + intros i k t. unfold joined. fold m1. destruct (decide (i = nx)) as [->|Hne].
        * rewrite !lookup_insert. intros [= <-] [= <-]. intros x [Hx Hx2]%elem_of_intersection.
          assert (Hx' : x ∈ ka ∪ kb) by (apply elem_of_union in Hx as [Hx|Hx]; apply elem_of_union; [left; by eapply (tr_sub _ _ HT a)|right; by eapply (tr_sub _ _ HT b)]).
          apply elem_of_union in Hx2 as [Hx2|Hx2]; [apply HK2; set_solver|]. apply elem_held in Hx2 as (j & tj & (Hja & Hjb & Hj)%Hm1 & Hxj).
          destruct (proj2 (tr_some _ _ HT j)) as [kj Hkj]; [eauto|]. eapply (HK3 j kj); try done. by eapply (tr_sub _ _ HT j).
        * rewrite !lookup_insert_ne by done. intros (_ & _ & Hi)%HT1 (_ & _ & Hi2)%Hm1. by eapply (tr_sub _ _ HT i).
      + intros i k t x. unfold joined. fold m1. destruct (decide (i = nx)) as [->|Hne].
        * rewrite !lookup_insert. intros [= <-] [= <-] Hx Hxt. destruct (Hnew x Hx Hxt) as [Ho Hj]. split; [done|]. intros j k' Hjn. rewrite lookup_insert_ne by done. apply Hj.
        * rewrite !lookup_insert_ne by done. intros Hi Hi2 Hx Hxt. destruct (Hold i k t x Hi Hi2 Hx Hxt) as (Ho & HxK & Hj). split; [done|].
          intros j k' Hji. destruct (decide (j = nx)) as [->|Hjn]; [rewrite lookup_insert; by intros [= <-]|]. rewrite lookup_insert_ne by done. by apply Hj.
  Qed.
End Steps.

(** ** Choosers keep the current entries they do not return. *)
Definition chooser_fair (choose : chooser) : Prop := forall k q rem o q', choose k q rem = Ok (o, q') ->
  forall c, c ∈ q -> obsolete rem c = false -> c ∈ q' \/ o = Some c.
Lemma simple_chooser_fair : chooser_fair simple_chooser.
Proof.
  intros k q rem o q' H c Hc Ho. unfold simple_chooser in H. destruct q as [|c0 q0]; [by apply elem_of_nil in Hc|].
  destruct (pop_min_ok (c0 :: q0)) as (c1 & q1 & E & Hp); [done|]. rewrite E in H. injection H as <- <-. rewrite Hp in Hc.
  apply elem_of_cons in Hc as [->|Hc]; [right; by rewrite Ho|by left].
Qed.
Lemma thermal_take_all b rem q l r : thermal_take b rem q = (l, r) -> forall c, c ∈ q -> obsolete rem c = false -> c ∈ l \/ c ∈ r.
Proof.
  revert b l r. induction q as [|c0 q IH]; intros b l r H c Hc Ho; [by apply elem_of_nil in Hc|]. destruct b as [|b]; simpl in H; [simplify_eq; by right|].
  destruct (obsolete rem c0) eqn:E.
  - apply elem_of_cons in Hc as [->|Hc]; [congruence|]. by apply (IH _ _ _ H).
  - destruct (thermal_take b rem q) as [l' r'] eqn:Et. simplify_eq. apply elem_of_cons in Hc as [->|Hc]; [left; left|].
    destruct (IH _ _ _ Et c Hc Ho); [left; by right|by right].
Qed.
Lemma thermal_chooser_fair b pick : chooser_fair (thermal_chooser b pick).
Proof.
  intros k q rem o q' H c Hc Ho. unfold thermal_chooser in H. destruct (thermal_take b rem (merge_sort gcand_le q)) as [l r] eqn:E.
  assert (Hin : c ∈ l \/ c ∈ r) by (eapply thermal_take_all; [exact E| |done]; by rewrite merge_sort_Permutation).
  destruct l as [|c1 [|c2 l]].
  - injection H as <- <-. destruct Hin as [Hin|?]; [by apply elem_of_nil in Hin|by left].
  - injection H as <- <-. destruct Hin as [->%elem_of_list_singleton|?]; [by right|by left].
  - destruct ((c1 :: c2 :: l) !! pick k (c1 :: c2 :: l)) as [c'|] eqn:Ec; [|done]. injection H as <- <-.
    destruct Hin as [Hin|?]; [|left; apply elem_of_app; by left].
    rewrite (delete_Permutation _ _ _ Ec) in Hin. apply elem_of_cons in Hin as [->|Hin]; [by right|]. left. apply elem_of_app. by right.
Qed.

(** ** Reference counts *)
Lemma update_ref_counts_elem dims l r x :
  (x ∈ (update_ref_counts dims r l).1 <-> if decide (x ∈ l) then 2 <= size (keys_of dims x) else x ∈ r.1) /\
  (x ∈ (update_ref_counts dims r l).2 <-> if decide (x ∈ l) then 3 <= size (keys_of dims x) else x ∈ r.2).
Proof.
  unfold update_ref_counts. revert r. induction l as [|c l IH]; intros r; cbn [foldl]; [rewrite !decide_False by (apply not_elem_of_nil); done|].
  destruct (IH (update_ref dims r c)) as [H2 H3]. rewrite H2, H3. destruct (decide (x ∈ l)) as [Hl|Hl]; [rewrite !decide_True by (by right); done|].
  destruct (decide (x = c)) as [->|Hx].
  - rewrite !decide_True by left. unfold update_ref. destruct (size (keys_of dims c)) as [|[|[|s]]]; simpl; split; split; intros; try lia; set_solver.
  - rewrite !decide_False by (intros [?|?]%elem_of_cons; done). unfold update_ref. destruct (size (keys_of dims c)) as [|[|[|s]]]; simpl; split; set_solver.
Qed.

Section Phase.
  Variable cost_fn : cost_fun.
  Variable choose : chooser.
  Hypothesis Hchoose : chooser_ok choose.
  Hypothesis Hfair : chooser_fair choose.
  Variable push_all : bool.
  (** [out] is the output with the labels common to all inputs, [out0] the output. *)
  Variables out0 out : gset N.
  Variable fr : N -> Prop.
  Hypothesis Hout : out0 ⊆ out.
  Hypothesis Hfr : forall x, fr x <-> x ∉ out.
  Variable d : sizes.
  Variable n : nat.
  Variable m0 : gmap nat key.

  Definition sharing (a b : key) : Prop := exists x, x ∉ out /\ x ∈ a /\ x ∈ b.
  Lemma sharing_sym a b : sharing a b -> sharing b a.
  Proof. intros (x & ? & ? & ?). by exists x. Qed.
  Record cand_fair (dims : gmap N (gset key)) (c : gcand) : Prop := CandFair {
    cf_share : sharing (q_k1 c) (q_k2 c);
    cf_sub : q_k12 c ⊆ q_k1 c ∪ q_k2 c;
    cf_out : (q_k1 c ∪ q_k2 c) ∩ out ⊆ q_k12 c;
    cf_one : forall x, x ∈ q_k1 c ∪ q_k2 c -> x ∉ q_k12 c -> size (keys_of dims x) <= 2;
    cf_two : forall x, x ∈ q_k1 c ∪ q_k2 c -> x ∉ q_k12 c -> x ∉ q_k1 c ∩ q_k2 c -> size (keys_of dims x) <= 1 }.
  (** Whenever some operands are connected to each other only and not all separate, the queue has a candidate for two of them. *)
  Definition connected (rem : gmap key nat) (q : list gcand) : Prop := forall S : gset key,
    (forall k, k ∈ S -> is_Some (rem !! k)) -> (forall k k', k ∈ S -> is_Some (rem !! k') -> sharing k k' -> k' ∈ S) ->
    (exists k k', k ∈ S /\ k' ∈ S /\ k <> k' /\ sharing k k') -> exists c, c ∈ q /\ q_k1 c ∈ S /\ q_k2 c ∈ S.
  Definition tracked (rem : gmap key nat) (p : path) : Prop :=
    exists T m, steps fr out0 (size_of d) n m0 p m /\ tracks out0 T m /\ forall i k, T !! i = Some k <-> rem !! k = Some i.
  Record phase (st : gstate) : Prop := Phase {
    ph_ok : g_ok out d n st;
    ph_ids : forall k i, g_rem st !! k = Some i -> i < g_next st;
    ph_ref2 : forall x, x ∈ g_ref2 st <-> 2 <= size (keys_of (g_dims st) x);
    ph_ref3 : forall x, x ∈ g_ref3 st <-> 3 <= size (keys_of (g_dims st) x);
    ph_cands : forall c, c ∈ g_queue st -> cand_fair (g_dims st) c;
    ph_track : tracked (g_rem st) (g_path st);
    ph_com : forall k, is_Some (g_rem st !! k) -> out ∖ out0 ⊆ k }.

  (** *** New candidates *)
  Definition new_cand (st : gstate) (k1 k2 : key) (c : gcand) : Prop :=
    ((q_k1 c = k1 /\ q_k2 c = k2) \/ (q_k1 c = k2 /\ q_k2 c = k1)) /\
    q_k12 c = ((k1 ∪ k2) ∩ out) ∪ (k1 ∩ k2 ∩ g_ref3 st) ∪ (((k1 ∪ k2) ∖ (k1 ∩ k2)) ∩ g_ref2 st).
  Lemma get_candidates_inv st calls k1 k2s cs : get_candidates cost_fn out d st calls k1 k2s = Ok cs ->
    length cs = length k2s /\ forall c, c ∈ cs -> exists k2, k2 ∈ k2s /\ new_cand st k1 k2 c.
  Proof.
    revert calls cs. induction k2s as [|k2 k2s IH]; intros calls cs H; simpl in H; [injection H as <-; split; [done|]; intros c Hc; by apply elem_of_nil in Hc|].
    apply bind_Ok in H as (c & Hc & H). apply bind_Ok in H as (l & Hl & H). injection H as <-. destruct (IH _ _ Hl) as [Hlen Hall]. split; [simpl; by rewrite Hlen|].
    intros c' [->|Hc']%elem_of_cons.
    - exists k2. split; [left|]. unfold get_candidate in Hc. apply bind_Ok in Hc as (s & _ & Hc). apply bind_Ok in Hc as (f1 & _ & Hc). apply bind_Ok in Hc as (f2 & _ & Hc).
      apply bind_Ok in Hc as (i1 & _ & Hc). apply bind_Ok in Hc as (i2 & _ & Hc). injection Hc as <-. destruct (i2 <? i1); split; simpl; auto.
    - destruct (Hall c' Hc') as (k & Hk & Hn). exists k. split; [by right|done].
  Qed.
  Record frame (st st' : gstate) : Prop := Frame {
    fr_rem : g_rem st' = g_rem st; fr_dims : g_dims st' = g_dims st; fr_ref2 : g_ref2 st' = g_ref2 st; fr_ref3 : g_ref3 st' = g_ref3 st;
    fr_path : g_path st' = g_path st; fr_next : g_next st' = g_next st }.
  Lemma push_inv st k1 k2s st' : push_candidate cost_fn push_all out d st k1 k2s = Ok st' ->
    frame st st' /\ exists new, g_queue st' = g_queue st ++ new /\ (k2s <> [] -> new <> []) /\ forall c, c ∈ new -> exists k2, k2 ∈ k2s /\ new_cand st k1 k2 c.
  Proof.
    unfold push_candidate. intros H. apply bind_Ok in H as (cs & Hcs & H). apply bind_Ok in H as (new & Hnew & H). injection H as <-. split; [by split|].
    apply get_candidates_inv in Hcs as [Hlen Hall]. exists new. split; [done|]. destruct push_all.
    - injection Hnew as <-. split; [|done]. intros Hne ->. by destruct k2s.
    - apply bind_Ok in Hnew as (c & Hc & Hnew). injection Hnew as <-. split; [done|]. intros c' ->%elem_of_list_singleton. apply Hall.
      unfold min_cand in Hc. destruct cs as [|c0 cs]; [done|]. destruct (pop_min_ok (c0 :: cs)) as (c1 & q1 & E & Hp); [done|]. rewrite E in Hc. injection Hc as <-. rewrite Hp. left.
  Qed.
  Lemma new_cand_fair st k1 k2 c : (forall x, x ∈ g_ref2 st <-> 2 <= size (keys_of (g_dims st) x)) -> (forall x, x ∈ g_ref3 st <-> 3 <= size (keys_of (g_dims st) x)) ->
    sharing k1 k2 -> new_cand st k1 k2 c -> cand_fair (g_dims st) c.
  Proof.
    intros H2 H3 Hsh [Hk Hk12].
    assert (Hu : q_k1 c ∪ q_k2 c = k1 ∪ k2) by (destruct Hk as [[-> ->]|[-> ->]]; set_solver).
    assert (Hi : q_k1 c ∩ q_k2 c = k1 ∩ k2) by (destruct Hk as [[-> ->]|[-> ->]]; set_solver).
    split; rewrite ?Hu, ?Hi, ?Hk12.
    - destruct Hk as [[-> ->]|[-> ->]]; [done|by apply sharing_sym].
    - set_solver.
    - set_solver.
    - intros x Hx Hn. destruct (decide (3 <= size (keys_of (g_dims st) x))) as [Hs|Hs]; [|lia]. exfalso. apply Hn.
      assert (Hs2 : x ∈ g_ref2 st) by (apply H2; lia). apply H3 in Hs. destruct (decide (x ∈ k1 ∩ k2)); set_solver.
    - intros x Hx Hn Hni. destruct (decide (2 <= size (keys_of (g_dims st) x))) as [Hs|Hs]; [|lia]. exfalso. apply Hn. apply H2 in Hs. set_solver.
  Qed.

  (** *** One contraction *)
  Lemma step_inv st con st' : greedy_step cost_fn push_all out d st con = Ok st' ->
    exists id1 id2, g_rem st !! q_k1 con = Some id1 /\ delete (q_k1 con) (g_rem st) !! q_k2 con = Some id2 /\
    let rem := delete (q_k2 con) (delete (q_k1 con) (g_rem st)) in let k12 := q_k12 con in
    exists nx, g_rem st' = <[k12 := nx]> rem /\ g_next st' = S nx /\
    (match rem !! k12 with
     | Some id => g_path st' = (g_path st ++ [[id1; id2]]) ++ [[id; g_next st]] /\ nx = S (g_next st)
     | None => g_path st' = g_path st ++ [[id1; id2]] /\ nx = g_next st end) /\
    (g_ref2 st', g_ref3 st') = update_ref_counts (g_dims st') (g_ref2 st, g_ref3 st) (elements (q_k1 con ∪ q_k2 con ∖ out)) /\
    exists new, g_queue st' = g_queue st ++ new /\
      ((⋃ (keys_of (g_dims st') <$> elements k12) : gset key) ∖ {[k12]} <> ∅ -> new <> []) /\
      forall c, c ∈ new -> exists k2, k2 ∈ (⋃ (keys_of (g_dims st') <$> elements k12) : gset key) ∖ {[k12]} /\ new_cand st' k12 k2 c.
  Proof.
    unfold greedy_step. intros H. apply bind_Ok in H as (id1 & H1 & H). apply bind_Ok in H as (id2 & H2 & H). apply bind_Ok in H as (dims1 & _ & H). apply bind_Ok in H as (dims2 & _ & H).
    set (k1 := q_k1 con) in *. set (k2 := q_k2 con) in *. set (k12 := q_k12 con) in *. set (rem := delete k2 (delete k1 (g_rem st))) in *.
    exists id1, id2. split; [by destruct (g_rem st !! k1); [simplify_eq/=|]|]. split; [by destruct (delete k1 (g_rem st) !! k2); [simplify_eq/=|]|]. simpl. fold rem.
    set (r := match rem !! k12 with Some _ => _ | None => _ end) in H.
    assert (Hr : match rem !! k12 with
       | Some id => r.1.1 = (g_path st ++ [[id1; id2]]) ++ [[id; g_next st]] /\ r.1.2 = S (g_next st)
       | None => r.1.1 = g_path st ++ [[id1; id2]] /\ r.1.2 = g_next st end) by (unfold r; by destruct (rem !! k12)).
    clearbody r. destruct r as [[p nx] dims]. simpl in Hr. exists nx.
    destruct (update_ref_counts dims (g_ref2 st, g_ref3 st) (elements (k1 ∪ k2 ∖ out))) as [ref2 ref3] eqn:Er.
    apply bind_Ok in H as (s12 & _ & H). destruct (decide _) as [He|He].
    - injection H as <-. simpl. split; [done|]. split; [done|]. split; [done|]. split; [done|]. exists []. rewrite app_nil_r. split; [done|]. split; [done|]. intros c Hc. by apply elem_of_nil in Hc.
    - apply push_inv in H as ([Hf1 Hf2 Hf3 Hf4 Hf5 Hf6] & new & Hq & Hne & Hall). simpl in *. rewrite Hf1, Hf2, Hf3, Hf4, Hf5, Hf6. split; [done|]. split; [done|]. split; [done|]. split; [done|].
      exists new. split; [done|]. split.
      + intros _. apply Hne. intros E. apply He. by apply leibniz_equiv, elements_empty_inv.
      + intros c Hc. destruct (Hall c Hc) as (k & Hk & Hn). exists k. split; [by apply elem_of_elements|]. unfold new_cand in *. simpl in *. by rewrite Hf3, Hf4.
  Qed.

  Section Contraction.
    Variables (st st' : gstate) (con : gcand).
    Hypothesis Hst : phase st.
    Hypothesis Hcon : cand_fair (g_dims st) con.
    Hypothesis Hgood : gcand_ok d con.
    Hypothesis H1 : is_Some (g_rem st !! q_k1 con).
    Hypothesis H2 : is_Some (g_rem st !! q_k2 con).
    Hypothesis Hstep : greedy_step cost_fn push_all out d st con = Ok st'.
    Let k1 := q_k1 con.
    Let k2 := q_k2 con.
    Let k12 := q_k12 con.

    Lemma step_keeps kc x : is_Some (g_rem st !! kc) -> kc <> k1 -> kc <> k2 -> x ∈ kc -> x ∈ k1 ∪ k2 -> x ∈ k12.
    Proof.
      intros Hkc Hn1 Hn2 Hx Hx12. destruct (decide (x ∈ k12)) as [|Hnk]; [done|]. exfalso.
      assert (Hxo : x ∉ out) by (intros Ho; apply Hnk, (cf_out _ _ Hcon); set_solver).
      pose proof (go_reg _ _ _ _ (ph_ok _ Hst) x) as Hreg.
      assert (Hin : forall k, is_Some (g_rem st !! k) -> x ∈ k -> k ∈ keys_of (g_dims st) x) by (intros k Hk Hxk; apply Hreg; set_solver).
      destruct (decide (x ∈ k1 ∩ k2)) as [Hb|Hb].
      - pose proof (cf_one _ _ Hcon x Hx12 Hnk) as Hs. assert (Hsub : ({[kc; k1; k2]} : gset key) ⊆ keys_of (g_dims st) x).
        { apply elem_of_intersection in Hb as [Hb1 Hb2]. intros k [[->%elem_of_singleton| ->%elem_of_singleton]%elem_of_union| ->%elem_of_singleton]%elem_of_union; by apply Hin. }
        apply (subseteq_size (C := gset key)) in Hsub. rewrite size_union in Hsub; [rewrite size_union in Hsub; [rewrite !size_singleton in Hsub; lia|]|].
        + intros k ->%elem_of_singleton ?%elem_of_singleton. done.
        + destruct Hgood as [Hne _]. intros k [->%elem_of_singleton| ->%elem_of_singleton]%elem_of_union ?%elem_of_singleton; done.
      - pose proof (cf_two _ _ Hcon x Hx12 Hnk Hb) as Hs.
        assert (Hk : exists k, (k = k1 \/ k = k2) /\ x ∈ k) by (apply elem_of_union in Hx12 as [?|?]; eauto). destruct Hk as (k & Hk & Hxk).
        assert (Hlk : is_Some (g_rem st !! k)) by (destruct Hk as [-> | ->]; done).
        assert (Hsub : ({[kc; k]} : gset key) ⊆ keys_of (g_dims st) x).
        { intros k' [->%elem_of_singleton| ->%elem_of_singleton]%elem_of_union; by apply Hin. }
        apply (subseteq_size (C := gset key)) in Hsub. rewrite size_union in Hsub; [rewrite !size_singleton in Hsub; lia|].
        intros k' ->%elem_of_singleton ->%elem_of_singleton. destruct Hk; done.
    Qed.
    Lemma step_ok' : g_ok out d n st'.
    Proof.
      destruct (greedy_step_ok cost_fn choose Hchoose push_all out d n st con (ph_ok _ Hst) Hgood H1 H2) as (st2 & E & Hok & _). rewrite Hstep in E. by injection E as <-.
    Qed.
    Lemma step_live k : is_Some (g_rem st' !! k) <-> k = k12 \/ (k <> k1 /\ k <> k2 /\ is_Some (g_rem st !! k)).
    Proof.
      destruct (step_inv _ _ _ Hstep) as (id1 & id2 & _ & _ & nx & Hrem & _). rewrite Hrem. fold k1 k2 k12. destruct (decide (k = k12)) as [->|Hn].
      - rewrite lookup_insert. split; [by left|eauto].
      - rewrite lookup_insert_ne by done. split.
        + intros [i [Hb [Ha Hk]%lookup_delete_Some]%lookup_delete_Some]. right. split; [done|]. split; [done|eauto].
        + intros [?|(Ha & Hb & Hk)]; [done|]. by rewrite !lookup_delete_ne.
    Qed.
    Lemma step_keys x : (if decide (x ∈ k1 ∪ k2) then True else keys_of (g_dims st') x = keys_of (g_dims st) x) /\ size (keys_of (g_dims st') x) <= size (keys_of (g_dims st) x).
    Proof.
      pose proof (go_reg _ _ _ _ (ph_ok _ Hst) x) as Hreg. pose proof (go_reg _ _ _ _ step_ok' x) as Hreg'.
      destruct (decide (x ∈ k1 ∪ k2)) as [Hx|Hx].
      - split; [done|]. destruct (decide (x ∈ k12 ∖ out)) as [Hx12|Hx12].
        + assert (Hk : exists k, (k = k1 \/ k = k2) /\ x ∈ k) by (apply elem_of_union in Hx as [?|?]; eauto). destruct Hk as (k & Hk & Hxk).
          assert (Hlk : k ∈ keys_of (g_dims st) x) by (apply Hreg; split; [destruct Hk as [-> | ->]; done|set_solver]).
          assert (Hsub : keys_of (g_dims st') x ⊆ (keys_of (g_dims st) x ∖ {[k]}) ∪ {[k12]}).
          { intros k' [Hl Hxk']%Hreg'. apply step_live in Hl as [->|(Hn1 & Hn2 & Hl)]; apply elem_of_union; [right; by apply elem_of_singleton|left].
            apply elem_of_difference. split; [by apply Hreg|]. rewrite elem_of_singleton. destruct Hk as [-> | ->]; done. }
          apply (subseteq_size (C := gset key)) in Hsub. pose proof (size_union_alt (keys_of (g_dims st) x ∖ {[k]}) ({[k12]} : gset key)) as Hu.
          assert (Hle : size ({[k12]} ∖ (keys_of (g_dims st) x ∖ {[k]}) : gset key) <= 1) by (rewrite <-(size_singleton (C := gset key) k12); apply (subseteq_size (C := gset key)), subseteq_difference_l; done).
          assert (Hsz : size (keys_of (g_dims st) x) = S (size (keys_of (g_dims st) x ∖ {[k]}))).
          { rewrite (union_difference_L {[k]} (keys_of (g_dims st) x)) at 1 by (by apply singleton_subseteq_l).
            rewrite size_union by (by apply disjoint_difference_r1). by rewrite size_singleton. }
          lia.
        + apply (subseteq_size (C := gset key)). intros k' [Hl Hxk']%Hreg'. apply step_live in Hl as [->|(Hn1 & Hn2 & Hl)]; [done|]. by apply Hreg.
      - assert (E : keys_of (g_dims st') x = keys_of (g_dims st) x); [|by rewrite E]. apply set_eq. intros k. rewrite Hreg, Hreg', step_live.
        assert (Hx12 : x ∉ k12) by (intros Hx12; by apply Hx, (cf_sub _ _ Hcon)). split.
        + intros [[->|(_ & _ & Hl)] Hxk]; [set_solver|done].
        + intros [Hl Hxk]. split; [|done]. right. split; [intros ->; set_solver|]. split; [intros ->; set_solver|done].
    Qed.
    Lemma step_refs : (forall x, x ∈ g_ref2 st' <-> 2 <= size (keys_of (g_dims st') x)) /\ (forall x, x ∈ g_ref3 st' <-> 3 <= size (keys_of (g_dims st') x)).
    Proof.
      destruct (step_inv _ _ _ Hstep) as (id1 & id2 & _ & _ & nx & _ & _ & _ & Hr & _). fold k1 k2 in Hr.
      assert (Hsame : forall x, x ∉ elements (k1 ∪ k2 ∖ out) -> size (keys_of (g_dims st') x) = size (keys_of (g_dims st) x)).
      { intros x Hx. rewrite elem_of_elements in Hx. destruct (step_keys x) as [Hk _]. destruct (decide (x ∈ k1 ∪ k2)) as [Hd|Hd]; [|by rewrite Hk].
        assert (Hxo : x ∈ out) by (destruct (decide (x ∈ out)); [done|set_solver]).
        assert (Hno : forall s, g_ok out d n s -> keys_of (g_dims s) x = ∅).
        { intros s Hs. apply set_eq. intros k. rewrite (go_reg _ _ _ _ Hs x k). split; [intros [_ ?]; set_solver|by intros ?%elem_of_empty]. }
        by rewrite (Hno st' step_ok'), (Hno st (ph_ok _ Hst)). }
      split; intros x; destruct (update_ref_counts_elem (g_dims st') (elements (k1 ∪ k2 ∖ out)) (g_ref2 st, g_ref3 st) x) as [U2 U3]; rewrite <-Hr in U2, U3; simpl in U2, U3.
      - rewrite U2. case_decide as Hd; [done|]. rewrite (Hsame x Hd). apply Hst.
      - rewrite U3. case_decide as Hd; [done|]. rewrite (Hsame x Hd). apply Hst.
    Qed.
    Lemma step_cands c : c ∈ g_queue st' -> cand_fair (g_dims st') c.
    Proof.
      destruct (step_inv _ _ _ Hstep) as (id1 & id2 & _ & _ & nx & _ & _ & _ & _ & new & Hq & _ & Hall). rewrite Hq. intros [Hc|Hc]%elem_of_app.
      - destruct (ph_cands _ Hst c Hc) as [A B C D E]. split; try done.
        + intros x Hx Hn. specialize (D x Hx Hn). destruct (step_keys x). lia.
        + intros x Hx Hn Hb. specialize (E x Hx Hn Hb). destruct (step_keys x). lia.
      - destruct (Hall c Hc) as (k & Hk & Hnew). destruct step_refs as [Hr2 Hr3]. eapply new_cand_fair; [exact Hr2|exact Hr3| |exact Hnew].
        apply elem_of_difference in Hk as [Hk _]. apply elem_of_union_list in Hk as (X & HX & Hk). apply elem_of_list_fmap in HX as (x & -> & Hx%elem_of_elements).
        apply (go_reg _ _ _ _ step_ok') in Hk as [_ Hk]. exists x. set_solver.
    Qed.
    Lemma step_track : tracked (g_rem st') (g_path st') /\ (forall k i, g_rem st' !! k = Some i -> i < g_next st').
    Proof.
      destruct (step_inv _ _ _ Hstep) as (id1 & id2 & Hid1 & Hid2 & nx & Hrem & Hnext & Hpath & _). fold k1 k2 k12 in Hid1, Hid2, Hrem, Hpath.
      set (rem := delete k2 (delete k1 (g_rem st))) in *. pose proof (go_next _ _ _ _ (ph_ok _ Hst)) as Hnx0. pose proof (ph_ids _ Hst) as Hids.
      apply lookup_delete_Some in Hid2 as [Hne Hid2].
      assert (Hrem_old : forall k i, rem !! k = Some i <-> k <> k1 /\ k <> k2 /\ g_rem st !! k = Some i).
      { intros k i. unfold rem. rewrite !lookup_delete_Some. split; intros; destruct_and!; split_and!; congruence. }
      destruct (ph_track _ Hst) as (T & m & Hs & HT & HTr).
      assert (Hid : id1 <> id2) by (intros ->; apply HTr in Hid1, Hid2; rewrite Hid1 in Hid2; injection Hid2 as ?; done).
      destruct (steps_join fr out0 (size_of d) n m0 (g_path st) m T id1 id2 k1 k2 k12) as (m' & Hs' & HT'); [done|done|done|by apply HTr|by apply HTr|apply Hcon| | | |].
      { intros x [Hx Hx2]%elem_of_intersection. apply (cf_out _ _ Hcon), elem_of_intersection. split; [done|]. by apply Hout. }
      { intros c kc x Hc1 Hc2 Hc%HTr Hx Hx12. apply (step_keeps kc x); [eauto| | |done|done]; intros ->; [rewrite Hid1 in Hc|rewrite Hid2 in Hc]; congruence. }
      { left. destruct (cf_share _ _ Hcon) as (x & Hxo & Hx1 & Hx2). exists x. split; [by apply Hfr|done]. }
      set (T1 := <[n + length (g_path st) := k12]> (delete id2 (delete id1 T))) in *.
      assert (HT1 : forall i k, T1 !! i = Some k <-> (i = g_next st /\ k = k12) \/ rem !! k = Some i).
      { intros i k. unfold T1. rewrite <-Hnx0. destruct (decide (i = g_next st)) as [->|Hi].
        - rewrite lookup_insert. split; [intros [= <-]; by left|]. intros [[_ ->]|Hk]; [done|]. apply Hrem_old in Hk as (_ & _ & Hk). apply Hids in Hk. lia.
        - rewrite lookup_insert_ne by done. rewrite !lookup_delete_Some, Hrem_old. split.
          + intros (Hi2 & Hi1 & Hk%HTr). right. split; [intros ->; congruence|]. split; [intros ->; congruence|done].
          + intros [[? _]|(Hk1 & Hk2 & Hk)]; [done|]. apply HTr in Hk as Hk'. split; [intros ->; apply HTr in Hid2; congruence|]. split; [intros ->; apply HTr in Hid1; congruence|done]. }
      split.
      - destruct (rem !! k12) as [id|] eqn:E; destruct Hpath as [Hpath ->]; rewrite Hpath.
        + assert (Hidn : id < g_next st) by (apply Hrem_old in E as (_ & _ & E); by apply Hids in E).
          destruct (steps_join fr out0 (size_of d) n m0 (g_path st ++ [[id1; id2]]) m' T1 id (g_next st) k12 k12 k12) as (m'' & Hs'' & HT'');
            [done|done|lia|apply HT1; by right|apply HT1; by left|set_solver|set_solver|set_solver|by right; left|].
          eexists _, m''. split; [exact Hs''|]. split; [exact HT''|]. intros i k. rewrite Hrem, app_length. simpl. replace (n + (length (g_path st) + 1)) with (S (g_next st)) by lia.
          destruct (decide (i = S (g_next st))) as [->|Hi].
          * rewrite lookup_insert. split; [intros [= <-]; by rewrite lookup_insert|]. destruct (decide (k = k12)) as [->|Hk]; [done|]. rewrite lookup_insert_ne by done.
            intros (_ & _ & Hk')%Hrem_old. apply Hids in Hk'. lia.
          * rewrite lookup_insert_ne by done. rewrite !lookup_delete_Some, HT1. split.
            -- intros (Hi2 & Hi1 & [[-> ->]|Hk]); [done|]. rewrite lookup_insert_ne; [done|]. intros <-. congruence.
            -- destruct (decide (k = k12)) as [->|Hk]; [rewrite lookup_insert; congruence|]. rewrite lookup_insert_ne by done. intros Hk'. split; [|split].
               ++ intros <-. apply Hrem_old in Hk' as (_ & _ & Hk'). apply Hids in Hk'. lia.
               ++ intros <-. apply Hrem_old in Hk' as (_ & _ & Hk'), E as (_ & _ & E). apply HTr in Hk', E. congruence.
               ++ by right.
        + eexists T1, m'. split; [exact Hs'|]. split; [exact HT'|]. intros i k. rewrite HT1, Hrem. destruct (decide (k = k12)) as [->|Hk].
          * rewrite lookup_insert, E. split; [by intros [[-> _]|?]|intros [= <-]; by left].
          * rewrite lookup_insert_ne by done. split; [by intros [[_ ?]|?]|by right].
      - assert (Hnx : g_next st <= nx) by (destruct (rem !! k12); destruct Hpath; lia). intros k i. rewrite Hrem, Hnext. destruct (decide (k = k12)) as [->|Hk].
        + rewrite lookup_insert. intros [= <-]. lia.
        + rewrite lookup_insert_ne by done. intros (_ & _ & Hk')%Hrem_old. apply Hids in Hk'. lia.
    Qed.
    Lemma phase_step : phase st'.
    Proof. destruct step_track as [A B]. destruct step_refs as [C D]. split; [apply step_ok'|done|done|done|apply step_cands|done|].
      intros k [->|(_ & _ & Hk)]%step_live; [|by apply (ph_com _ Hst)]. intros x Hx. apply (cf_out _ _ Hcon). apply (ph_com _ Hst _ H1) in Hx as Hx1. set_solver.
    Qed.
    Lemma connected_step q0 : connected (g_rem st) q0 -> (forall c, c ∈ q0 -> obsolete (g_rem st) c = false -> c ∈ g_queue st \/ c = con) -> connected (g_rem st') (g_queue st').
    Proof.
      intros Hc0 Hq0 S HS1 HS2 (ka & kb & Ha & Hb & Hab & Hsh).
      destruct (step_inv _ _ _ Hstep) as (id1 & id2 & _ & _ & nx & _ & _ & _ & _ & new & Hq & Hne & Hall). fold k12 in Hne, Hall.
      set (k2s := (⋃ (keys_of (g_dims st') <$> elements k12) : gset key) ∖ {[k12]}) in *.
      assert (Hk2s : forall k, k ∈ k2s <-> is_Some (g_rem st' !! k) /\ k <> k12 /\ sharing k12 k).
      { intros k. unfold k2s. rewrite elem_of_difference, elem_of_singleton, elem_of_union_list. split.
        - intros [(X & HX & Hk) Hn]. apply elem_of_list_fmap in HX as (x & -> & Hx%elem_of_elements). apply (go_reg _ _ _ _ step_ok') in Hk as [Hl Hk]. split; [done|]. split; [done|]. exists x. set_solver.
        - intros (Hl & Hn & x & Hxo & Hx & Hxk). split; [|done]. exists (keys_of (g_dims st') x). split; [apply elem_of_list_fmap; exists x; split; [done|by apply elem_of_elements]|].
          apply (go_reg _ _ _ _ step_ok'). split; [done|set_solver]. }
      assert (Hnew : k12 ∈ S -> k2s <> ∅ -> exists c, c ∈ g_queue st' /\ q_k1 c ∈ S /\ q_k2 c ∈ S).
      { intros H12 Hk. apply Hne in Hk. destruct new as [|c new]; [done|]. destruct (Hall c) as (k & Hk' & [Hnc _]); [left|]. exists c. split; [rewrite Hq; apply elem_of_app; right; left|].
        apply Hk2s in Hk' as (Hl & _ & Hs'). assert (k ∈ S) by by eapply HS2. destruct Hnc as [[-> ->]|[-> ->]]; done. }
      destruct (decide (k12 ∈ S)) as [H12|H12]; [destruct (decide (k2s = ∅)) as [Hk|Hk]; [|by apply Hnew]|].
      all: assert (Hsep : forall k, k ∈ S -> k <> k12 -> ~ sharing k12 k) by
        (intros k HSk Hkn Hs'; first [apply (not_elem_of_empty (C := gset key) k); rewrite <-Hk; apply Hk2s; by auto | apply H12; eapply HS2; [exact HSk|apply step_live; by left|by apply sharing_sym]]).
      all: clear Hnew; set (S0 := S ∖ {[k12]}).
      all: assert (HS0 : forall k, k ∈ S0 -> k ∈ S /\ k <> k12 /\ k <> k1 /\ k <> k2 /\ is_Some (g_rem st !! k)) by
        (intros k [Hk0 Hk1]%elem_of_difference; rewrite elem_of_singleton in Hk1; destruct (proj1 (step_live k) (HS1 k Hk0)) as [?|?]; [done|by auto]).
      all: assert (Hapart : forall k k', k ∈ S0 -> k' = k1 \/ k' = k2 -> ~ sharing k k') by
        (intros k k' Hk0 Hk' (x & Hxo & Hx & Hx'); destruct (HS0 k Hk0) as (HSk & Hk12 & Hn1 & Hn2 & Hl); apply (Hsep k HSk Hk12); exists x; split; [done|]; split; [|done];
         apply (step_keeps k x Hl Hn1 Hn2 Hx); destruct Hk' as [-> | ->]; set_solver).
      all: destruct (Hc0 S0) as (c & Hc & Hc1 & Hc2).
      all: try (intros k Hk0; by apply HS0).
      all: try (intros k k' Hk0 Hl Hs'; destruct (HS0 k Hk0) as (HSk & Hk12 & Hn1 & Hn2 & Hlk);
        assert (Hk1' : k' <> k1) by (intros ->; apply (Hapart k k1); auto); assert (Hk2' : k' <> k2) by (intros ->; apply (Hapart k k2); auto);
        assert (HSk' : k' ∈ S) by (eapply HS2; [exact HSk|apply step_live; by auto|done]);
        apply elem_of_difference; split; [done|]; rewrite elem_of_singleton; intros ->; apply (Hsep k HSk Hk12); by apply sharing_sym).
      all: try (assert (Hka : ka <> k12) by (intros ->; apply (Hsep kb Hb); [congruence|done]); assert (Hkb : kb <> k12) by (intros ->; apply (Hsep ka Ha); [congruence|by apply sharing_sym]);
        exists ka, kb; split; [apply elem_of_difference; split; [done|by rewrite elem_of_singleton]|]; split; [apply elem_of_difference; split; [done|by rewrite elem_of_singleton]|done]).
      all: destruct (HS0 _ Hc1) as (HSc1 & _ & Hn1 & _ & [i1 Hl1]); destruct (HS0 _ Hc2) as (HSc2 & _ & _ & _ & [i2 Hl2]); exists c; split; [|done];
        destruct (Hq0 c Hc) as [?| ->]; [unfold obsolete; by rewrite Hl1, Hl2|rewrite Hq; apply elem_of_app; by left|done].
    Qed.
  End Contraction.

  (** *** The main loop *)
  Lemma phase_queue st q calls ch : phase st -> (forall c, c ∈ q -> c ∈ g_queue st) ->
    phase (GState (g_rem st) (g_dims st) (g_ref2 st) (g_ref3 st) (g_foot st) q (g_path st) (g_next st) calls ch).
  Proof.
    intros [[A1 A2 A3 A4 A5 A6 A7] B C D E F G] Hq. split; simpl; try done; [|by auto]. split; simpl; try done. apply Forall_forall. intros c Hc. rewrite Forall_forall in A6. auto.
  Qed.
  Lemma phase_loop fuel st st' : phase st -> connected (g_rem st) (g_queue st) -> greedy_loop cost_fn choose push_all out d fuel st = Ok st' ->
    phase st' /\ connected (g_rem st') [].
  Proof.
    revert st. induction fuel as [|fuel IH]; intros st Hst Hc H; simpl in H.
    - destruct (g_queue st) eqn:Eq; [|done]. by injection H as <-.
    - destruct (g_queue st) as [|c0 q0] eqn:Eq; [by injection H as <-|]. rewrite <-Eq in H, Hc.
      destruct (Hchoose (g_choices st) (g_queue st) (g_rem st)) as (o & q' & E & Hsub & Ho); [by rewrite Eq|]. rewrite E in H. cbn [mbind res_bind] in H.
      assert (Hq' : forall c, c ∈ q' -> c ∈ g_queue st) by (intros c Hcq; by eapply elem_of_submseteq).
      pose proof (Hfair _ _ _ _ _ E) as Hf. destruct o as [con|].
      + apply bind_Ok in H as (st1 & Hstep & H). destruct Ho as (Hin & H1 & H2).
        pose proof (phase_queue st q' (g_calls st) (S (g_choices st)) Hst Hq') as Hst'.
        assert (Hcon : cand_fair (g_dims st) con) by (by apply Hst). assert (Hgood : gcand_ok d con) by (pose proof (go_queue _ _ _ _ (ph_ok _ Hst)) as Hall; rewrite Forall_forall in Hall; by apply Hall).
        refine (IH st1 _ _ H).
        * by eapply (phase_step _ _ con Hst').
        * eapply (connected_step _ _ con Hst' Hcon Hgood H1 H2 Hstep); [exact Hc|]. simpl. intros c Hcq Hob. destruct (Hf c Hcq Hob) as [?|?]; [by left|right; congruence].
      + refine (IH _ (phase_queue st q' _ _ Hst Hq') _ H). simpl. intros S HS1 HS2 HS3. destruct (Hc S HS1 HS2 HS3) as (c & Hcq & Hc1 & Hc2). exists c. split; [|done].
        destruct (HS1 _ Hc1) as [i1 Hi1]. destruct (HS1 _ Hc2) as [i2 Hi2]. destruct (Hf c Hcq) as [?|?]; [unfold obsolete; by rewrite Hi1, Hi2|done|done].
  Qed.
  (** When the queue is empty no two operands can be contracted. *)
  Lemma connected_end (rem : gmap key nat) k k' : connected rem [] -> is_Some (rem !! k) -> is_Some (rem !! k') -> k <> k' -> ~ linked fr k k'.
  Proof.
    intros Hc Hk Hk' Hn (x & Hx & Hxk & Hxk'). destruct (Hc (dom rem)) as (c & Hcq & _).
    - intros k0. by rewrite elem_of_dom.
    - intros k0 k1 _ ? _. by apply elem_of_dom.
    - exists k, k'. rewrite !elem_of_dom. split_and!; try done. exists x. split; [by apply Hfr|done].
    - by apply elem_of_nil in Hcq.
  Qed.

  (** *** The outer products *)
  Definition entry_of (e : nat * nat * key) : nat * key := (e.1.2, e.2).
  (** An entry of the final queue: its size is that of the labels of the output and of those common to all inputs. *)
  Definition entry_size (e : nat * nat * key) : Prop := e.1.1 = volume (size_of d) (e.2 ∩ out).
  Instance fq_le_total : Total fq_le.
  Proof. intros a b. unfold fq_le. lia. Qed.
  Instance fq_le_trans : Transitive fq_le.
  Proof. intros a b c. unfold fq_le. lia. Qed.
  Lemma fq_head l e q : merge_sort fq_le l = e :: q -> forall e', e' ∈ q -> e.1.1 <= e'.1.1.
  Proof.
    intros Hl e' He'. pose proof (Sorted_merge_sort fq_le l) as Hs. rewrite Hl in Hs. apply Sorted_StronglySorted in Hs; [|exact fq_le_trans]. apply StronglySorted_inv in Hs as [_ Hs].
    rewrite Forall_forall in Hs. destruct (Hs e' He'); lia.
  Qed.
  (** With nothing linked, the labels an operand shares with the output and the other ones are those of [out]. *)
  Lemma weight_entry T i j ki kj : (forall i k, T !! i = Some k -> out ∖ out0 ⊆ k) -> none_linked fr T -> i <> j -> T !! i = Some ki -> T !! j = Some kj ->
    weight out0 (size_of d) T i ki = volume (size_of d) (ki ∩ out).
  Proof.
    intros Hcom Hnl Hij Hi Hj. unfold weight. f_equal. apply set_eq. intros x. rewrite !elem_of_intersection, elem_of_union, elem_held. split; intros [Hx Hx2]; (split; [done|]).
    - destruct Hx2 as [?|(l & kl & [Hil Hl]%lookup_delete_Some & Hxl)]; [by apply Hout|]. destruct (decide (x ∈ out)) as [|Hn]; [done|]. exfalso. apply (Hnl i l ki kl); [done|done|done|]. exists x. split; [by apply Hfr|done].
    - destruct (decide (x ∈ out0)) as [|Hn]; [by left|]. right. exists j, kj. split; [by rewrite lookup_delete_ne|]. apply (Hcom j kj Hj). set_solver.
  Qed.
  Lemma phase_outer fuel : forall id1 k1 q p next m T p', steps fr out0 (size_of d) n m0 p m -> tracks out0 T m -> next = n + length p ->
    (forall i k, T !! i = Some k <-> (i, k) ∈ (id1, k1) :: (entry_of <$> q)) -> NoDup (id1 :: (entry_of <$> q).*1) -> Forall (fun i => i < next) (id1 :: (entry_of <$> q).*1) ->
    none_linked fr T -> (forall i k, T !! i = Some k -> out ∖ out0 ⊆ k) -> Forall entry_size q -> (forall e, e ∈ q -> volume (size_of d) (k1 ∩ out) <= e.1.1) ->
    (forall i k, T !! i = Some k -> labels_in d k) -> outer_loop out d fuel id1 k1 q p next = Ok p' -> exists m', steps fr out0 (size_of d) n m0 p' m'.
  Proof.
    induction fuel as [|fuel IH]; intros id1 k1 q p next m T p' Hs HT Hn HTq Hnd Hlt Hnl Hcom Hsz Hmin Hlab H; simpl in H;
      pose proof (merge_sort_Permutation fq_le q) as Hp; destruct (merge_sort fq_le q) as [|[[s2 id2] k2] q'] eqn:Es; [injection H as <-; by exists m|done|injection H as <-; by exists m|].
    apply bind_Ok in H as (cost & Hcost & H). set (K := (k1 ∪ k2) ∩ out) in *.
    pose proof (fq_head _ _ _ Es) as Hmin2. rewrite <-Hp in Hsz. assert (Hmin1 : forall e, e ∈ (s2, id2, k2) :: q' -> volume (size_of d) (k1 ∩ out) <= e.1.1) by (intros e He; apply Hmin; by rewrite <-Hp).
    apply Forall_cons in Hsz as [Hs2 Hsz]. unfold entry_size in Hs2. cbn [fst snd] in Hs2.
    assert (HTq' : forall i k, T !! i = Some k <-> (i, k) ∈ (id1, k1) :: (id2, k2) :: (entry_of <$> q')) by (intros i k; rewrite HTq, <-Hp; done).
    rewrite <-Hp in Hnd, Hlt. rewrite !fmap_cons in Hnd, Hlt. cbn [entry_of fst snd] in Hnd, Hlt. clear HTq.
    pose proof (merge_sort_Permutation fq_le (q' ++ [(cost, next, K)])) as Hp2. destruct (merge_sort fq_le (q' ++ [(cost, next, K)])) as [|[[s3 id3] k3] q''] eqn:Es2; [done|].
    assert (Hid1 : T !! id1 = Some k1) by (apply HTq'; left). assert (Hid2 : T !! id2 = Some k2) by (apply HTq'; right; left).
    apply NoDup_cons in Hnd as [Hnd1 Hnd]. apply NoDup_cons in Hnd as [Hnd2 Hnd]. apply Forall_cons in Hlt as [Hlt1 Hlt]. apply Forall_cons in Hlt as [Hlt2 Hlt]. simpl in Hlt1, Hlt2.
    assert (Hid : id1 <> id2) by (intros ->; apply Hnd1; left).
    assert (Hlight : lightest out0 (size_of d) T id1 id2 k1 k2).
    { intros c kc Hc1 Hc2 Hc. rewrite (weight_entry T id1 id2 k1 k2), (weight_entry T id2 id1 k2 k1), (weight_entry T c id1 kc k1) by done.
      assert (He : (c, kc) ∈ entry_of <$> q') by (apply HTq' in Hc; apply elem_of_cons in Hc as [?|Hc]; [congruence|]; apply elem_of_cons in Hc as [?|Hc]; [congruence|done]).
      apply elem_of_list_fmap in He as ([[s i] k] & [= -> ->] & He). pose proof (Hmin2 _ He) as Hm2. pose proof (Hmin1 (s, i, k)) as Hm1. rewrite Forall_forall in Hsz. specialize (Hsz _ He).
      unfold entry_size in Hsz. cbn [fst snd] in *. rewrite <-Hsz, <-Hs2. split; [apply Hm1; by right|done]. }
    assert (Hjoin : exists m' T', steps fr out0 (size_of d) n m0 (p ++ [[Nat.min id1 id2; Nat.max id1 id2]]) m' /\ tracks out0 T' m' /\ T' = <[next := K]> (delete id2 (delete id1 T))).
    { assert (Hfar : forall c kc x, c <> id1 -> c <> id2 -> T !! c = Some kc -> x ∈ kc -> x ∈ k1 ∪ k2 -> x ∈ K).
      { intros c kc x Hc1 Hc2 Hc Hx Hx12. apply elem_of_intersection. split; [done|]. destruct (decide (x ∈ out)) as [|Hxo]; [done|]. exfalso.
        apply elem_of_union in Hx12 as [Hx1|Hx2]; [apply (Hnl c id1 kc k1)|apply (Hnl c id2 kc k2)]; try done; exists x; (split; [by apply Hfr|done]). }
      destruct (Nat.le_ge_cases id1 id2) as [Hle|Hle].
      - rewrite Nat.min_l, Nat.max_r by lia.
        destruct (steps_join fr out0 (size_of d) n m0 p m T id1 id2 k1 k2 K) as (m' & Hs' & HT'); [done|done|done|done|done|set_solver|set_solver|exact Hfar|by right; right; split|].
        exists m'. eexists. split; [exact Hs'|]. split; [exact HT'|]. by rewrite Hn.
      - rewrite Nat.min_r, Nat.max_l by lia.
        destruct (steps_join fr out0 (size_of d) n m0 p m T id2 id1 k2 k1 K) as (m' & Hs' & HT'); [done|done|congruence|done|done|set_solver|set_solver| |right; right; split; [done|intros c kc Hc1 Hc2 Hc; destruct (Hlight c kc) as [? ?]; done]|].
        { intros c kc x Hc1 Hc2 Hc Hx Hx12. eapply Hfar; try done. set_solver. }
        exists m'. eexists. split; [exact Hs'|]. split; [exact HT'|]. rewrite Hn. by rewrite delete_commute. }
    destruct Hjoin as (m' & T' & Hs' & HT' & HeqT).
    assert (Hp3 : (id3, k3) :: (entry_of <$> q'') ≡ₚ (next, K) :: (entry_of <$> q')).
    { apply (fmap_Permutation entry_of) in Hp2. rewrite fmap_app, fmap_cons in Hp2. cbn [entry_of fst snd] in Hp2. rewrite Hp2. rewrite Permutation_app_comm. done. }
    assert (Hp4 : id3 :: (entry_of <$> q'').*1 ≡ₚ next :: (entry_of <$> q').*1) by exact (fmap_Permutation fst _ _ Hp3).
    rewrite Forall_forall in Hlt.
    assert (HT'q : forall i k, T' !! i = Some k <-> (i, k) ∈ (next, K) :: (entry_of <$> q')).
    { intros i k. rewrite HeqT. rewrite elem_of_cons. destruct (decide (i = next)) as [->|Hi].
      - rewrite lookup_insert. split; [intros [= <-]; by left|]. intros [[= <-]|Hin]; [done|]. exfalso. assert (Hin' : next ∈ (entry_of <$> q').*1) by (apply elem_of_list_fmap; by exists (next, k)). apply Hlt in Hin'. lia.
      - rewrite lookup_insert_ne by done. rewrite !lookup_delete_Some, HTq', !elem_of_cons. split.
        + intros (Hi2 & Hi1 & [?|[?|?]]); [congruence|congruence|by right].
        + intros [?|Hin]; [congruence|]. assert (Hin' : i ∈ (entry_of <$> q').*1) by (apply elem_of_list_fmap; by exists (i, k)).
          split; [intros ->; done|]. split; [intros ->; apply Hnd1; by right|by right; right]. }
    assert (HlK : labels_in d K) by (intros x Hx; assert (Hx' : x ∈ k1 ∪ k2) by set_solver; apply elem_of_union in Hx' as [Hx'|Hx']; [by eapply (Hlab id1 k1)|by eapply (Hlab id2 k2)]).
    assert (Hcost' : cost = volume (size_of d) (K ∩ out)).
    { unfold set_size in Hcost. rewrite (volume_ok d K) in Hcost; [|done|done]. injection Hcost as <-. f_equal. set_solver. }
    assert (Hall : Forall entry_size ((s3, id3, k3) :: q'')) by (rewrite Hp2; apply Forall_app; split; [done|]; by apply Forall_singleton).
    apply Forall_cons in Hall as [Hs3 Hall]. unfold entry_size in Hs3. cbn [fst snd] in Hs3.
    refine (IH id3 k3 q'' _ (S next) m' T' p' Hs' HT' _ _ _ _ _ _ Hall _ _ H).
    - rewrite app_length. simpl. lia.
    - intros i k. rewrite HT'q. by rewrite Hp3.
    - rewrite Hp4. apply NoDup_cons. split; [|done]. intros Hin. apply Hlt in Hin. lia.
    - rewrite Hp4. apply Forall_cons. split; [lia|]. apply Forall_forall. intros i Hi. apply Hlt in Hi. lia.
    - intros i j a b Hij Hi Hj (x & Hx & Hxa & Hxb). rewrite HeqT in Hi, Hj.
      assert (HxK : x ∉ K) by (intros [_ HxK]%elem_of_intersection; by apply Hfr in Hx).
      destruct (decide (i = next)) as [->|Hin]; [rewrite lookup_insert in Hi; congruence|]. destruct (decide (j = next)) as [->|Hjn]; [rewrite lookup_insert in Hj; congruence|].
      rewrite lookup_insert_ne in Hi, Hj by done. apply lookup_delete_Some in Hi as [_ [_ Hi]%lookup_delete_Some], Hj as [_ [_ Hj]%lookup_delete_Some].
      apply (Hnl i j a b Hij Hi Hj). by exists x.
    - intros i k. rewrite HeqT. destruct (decide (i = next)) as [->|Hi].
      + rewrite lookup_insert. intros [= <-] x Hx. pose proof (Hcom _ _ Hid1 x Hx) as Hx1. set_solver.
      + rewrite lookup_insert_ne by done. intros [_ [_ Hk]%lookup_delete_Some]%lookup_delete_Some. by eapply Hcom.
    - intros e He. rewrite <-Hs3. exact (fq_head _ _ _ Es2 e He).
    - intros i k. rewrite HeqT. destruct (decide (i = next)) as [->|Hi]; [rewrite lookup_insert; by intros [= <-]|].
      rewrite lookup_insert_ne by done. intros [_ [_ Hk]%lookup_delete_Some]%lookup_delete_Some. by eapply Hlab.
  Qed.
  Lemma phase_end st final id1 k1 s1 q p' : phase st -> connected (g_rem st) [] -> entry_of <$> final = (fun ki => (ki.2, ki.1)) <$> map_to_list (g_rem st) -> Forall entry_size final ->
    merge_sort fq_le final = (s1, id1, k1) :: q -> outer_loop out d (length q) id1 k1 q (g_path st) (g_next st) = Ok p' -> exists m', steps fr out0 (size_of d) n m0 p' m'.
  Proof.
    intros Hst Hc Hf Hsz Hm H. destruct (ph_track _ Hst) as (T & m & Hs & HT & HTr).
    assert (Hp : (id1, k1) :: (entry_of <$> q) ≡ₚ (fun ki => (ki.2, ki.1)) <$> map_to_list (g_rem st)).
    { rewrite <-Hf. pose proof (merge_sort_Permutation fq_le final) as Hp. rewrite Hm in Hp. rewrite <-Hp. done. }
    assert (Hp2 : id1 :: (entry_of <$> q).*1 ≡ₚ (map_to_list (g_rem st)).*2).
    { apply (fmap_Permutation fst) in Hp. rewrite fmap_cons in Hp. cbn [fst] in Hp. rewrite Hp, <-list_fmap_compose. done. }
    assert (Hall : Forall entry_size ((s1, id1, k1) :: q)) by (rewrite <-Hm; by rewrite merge_sort_Permutation). apply Forall_cons in Hall as [Hs1 Hall]. unfold entry_size in Hs1. cbn [fst snd] in Hs1.
    refine (phase_outer _ id1 k1 q _ _ m T p' Hs HT _ _ _ _ _ _ Hall _ _ H).
    - apply (ph_ok _ Hst).
    - intros i k. rewrite HTr, Hp, elem_of_list_fmap. split.
      + intros Hk. exists (k, i). split; [done|]. by apply elem_of_map_to_list.
      + intros ([k' i'] & [= -> ->] & Hin%elem_of_map_to_list). done.
    - rewrite Hp2. by eapply live_NoDup, (ph_ok _ Hst).
    - rewrite Hp2. apply Forall_forall. intros i Hi. apply elem_of_list_fmap in Hi as ([k i'] & -> & Hin%elem_of_map_to_list). by eapply ph_ids.
    - intros i j a b Hij Hi%HTr Hj%HTr. eapply connected_end; [exact Hc|eauto|eauto|]. intros ->. congruence.
    - intros i k Hk%HTr. apply (ph_com _ Hst). eauto.
    - intros e He. rewrite <-Hs1. exact (fq_head _ _ _ Hm e He).
    - intros i k Hk%HTr. apply (go_labels _ _ _ _ (ph_ok _ Hst)). eauto.
  Qed.

  (** *** The first candidates *)
  Lemma phase_push st k1 k2s st' : phase st -> is_Some (g_rem st !! k1) -> k2s <> [] -> (forall k2, k2 ∈ k2s -> is_Some (g_rem st !! k2) /\ k2 <> k1 /\ sharing k1 k2) ->
    push_candidate cost_fn push_all out d st k1 k2s = Ok st' ->
    phase st' /\ frame st st' /\ exists new, g_queue st' = g_queue st ++ new /\ new <> [] /\ forall c, c ∈ new -> exists k2, k2 ∈ k2s /\ new_cand st k1 k2 c.
  Proof.
    intros Hst H1 Hne H2 H. destruct (push_inv _ _ _ _ H) as (Hf & new & Hq & Hnew & Hall).
    split; [|split; [done|exists new; by auto]].
    destruct (push_candidate_ok cost_fn choose Hchoose push_all out d n st k1 k2s (ph_ok _ Hst) H1 Hne) as (st2 & E & Hok & _); [intros k Hk; by destruct (H2 k Hk) as (? & ? & ?)|].
    rewrite H in E. injection E as <-. destruct Hf as [F1 F2 F3 F4 F5 F6]. destruct Hst as [A B C D E F G]. split; rewrite ?F1, ?F2, ?F3, ?F4, ?F5, ?F6; try done.
    intros c. rewrite Hq. intros [Hc|Hc]%elem_of_app; [by apply E|]. destruct (Hall c Hc) as (k & Hk & Hn). eapply new_cand_fair; [done|done| |exact Hn]. by apply H2.
  Qed.
  Lemma frame_trans a b c : frame a b -> frame b c -> frame a c.
  Proof. intros [] []. split; congruence. Qed.
  Lemma phase_rows x l : forall st st', phase st -> NoDup l -> (forall k, k ∈ l -> is_Some (g_rem st !! k) /\ x ∈ k /\ x ∉ out) -> push_rows cost_fn push_all out d st l = Ok st' ->
    phase st' /\ frame st st' /\ exists new, g_queue st' = g_queue st ++ new /\ (2 <= length l -> exists c, c ∈ new /\ q_k1 c ∈ l /\ q_k2 c ∈ l).
  Proof.
    induction l as [|k1 l IH]; intros st st' Hst Hnd Hl H; [injection H as <-; split; [done|]; split; [done|]; exists []; rewrite app_nil_r; split; [done|simpl; lia]|].
    destruct l as [|k2 l]; [injection H as <-; split; [done|]; split; [done|]; exists []; rewrite app_nil_r; split; [done|simpl; lia]|].
    cbn [push_rows] in H. apply bind_Ok in H as (st1 & H1 & H). apply NoDup_cons in Hnd as [Hn1 Hnd].
    destruct (Hl k1) as (Hk1 & Hx1 & Hxo); [left|].
    destruct (phase_push st k1 (k2 :: l) st1 Hst Hk1) as (Hst1 & Hf1 & new1 & Hq1 & Hne1 & Hall1); [done| |done|].
    { intros k Hk. destruct (Hl k) as (? & ? & ?); [by right|]. split; [done|]. split; [intros ->; done|]. by exists x. }
    destruct (IH st1 st' Hst1 Hnd) as (Hst' & Hf' & new & Hq & _); [|exact H|].
    { intros k Hk. rewrite (fr_rem _ _ Hf1). apply Hl. by right. }
    split; [done|]. split; [by eapply frame_trans|]. exists (new1 ++ new). split; [by rewrite Hq, Hq1, app_assoc|]. intros _.
    destruct new1 as [|c new1]; [done|]. exists c. split; [left|]. destruct (Hall1 c) as (k & Hk & [Hc _]); [left|]. assert (k1 ∈ k1 :: k2 :: l) by left. assert (k ∈ k1 :: k2 :: l) by by right.
    destruct Hc as [[-> ->]|[-> ->]]; done.
  Qed.
  Lemma phase_dims l : forall st st', phase st -> (forall x ks, (x, ks) ∈ l -> keys_of (g_dims st) x = ks) -> foldM_res (push_dim cost_fn push_all out d) st l = Ok st' ->
    phase st' /\ frame st st' /\ exists new, g_queue st' = g_queue st ++ new /\ forall x ks, (x, ks) ∈ l -> 2 <= size ks -> exists c, c ∈ new /\ q_k1 c ∈ ks /\ q_k2 c ∈ ks.
  Proof.
    induction l as [|[x ks] l IH]; intros st st' Hst Hl H; cbn [foldM_res] in H.
    - injection H as <-. split; [done|]. split; [done|]. exists []. rewrite app_nil_r. split; [done|]. intros x ks Hin. by apply elem_of_nil in Hin.
    - apply bind_Ok in H as (st1 & H1 & H). unfold push_dim in H1. cbn [snd] in H1.
      assert (Hmem : forall k, k ∈ merge_sort (id_le (g_rem st)) (elements ks) <-> k ∈ ks) by (intros k; rewrite merge_sort_Permutation; apply elem_of_elements).
      assert (Hnd : NoDup (merge_sort (id_le (g_rem st)) (elements ks))) by (rewrite merge_sort_Permutation; apply NoDup_elements).
      assert (Hks : keys_of (g_dims st) x = ks) by (apply Hl; left).
      destruct (phase_rows x _ st st1 Hst Hnd) as (Hst1 & Hf1 & new1 & Hq1 & Hn1); [|exact H1|].
      { intros k Hk%Hmem. rewrite <-Hks in Hk. apply (go_reg _ _ _ _ (ph_ok _ Hst)) in Hk as [Hk Hx]. set_solver. }
      destruct (IH st1 st' Hst1) as (Hst' & Hf' & new & Hq & Hn); [|exact H|].
      { intros x' ks' Hin. rewrite (fr_dims _ _ Hf1). apply Hl. by right. }
      split; [done|]. split; [by eapply frame_trans|]. exists (new1 ++ new). split; [by rewrite Hq, Hq1, app_assoc|].
      intros x' ks' [[= -> ->]|Hin]%elem_of_cons Hsz.
      + destruct Hn1 as (c & Hc & Hc1 & Hc2); [rewrite merge_sort_Permutation; exact Hsz|]. exists c. split; [apply elem_of_app; by left|]. split; by apply Hmem.
      + destruct (Hn x' ks' Hin Hsz) as (c & Hc & Hcc). exists c. split; [apply elem_of_app; by right|done].
  Qed.
  Lemma connected_start st q : phase st -> (forall x ks, g_dims st !! x = Some ks -> 2 <= size ks -> exists c, c ∈ q /\ q_k1 c ∈ ks /\ q_k2 c ∈ ks) -> connected (g_rem st) q.
  Proof.
    intros Hst Hq S HS1 HS2 (k & k' & Hk & Hk' & Hn & x & Hxo & Hx & Hx').
    pose proof (go_reg _ _ _ _ (ph_ok _ Hst) x) as Hreg.
    assert (Hin : forall k0, k0 ∈ S -> x ∈ k0 -> k0 ∈ keys_of (g_dims st) x) by (intros k0 Hk0 Hx0; apply Hreg; split; [by apply HS1|set_solver]).
    assert (Hall : forall k0, k0 ∈ keys_of (g_dims st) x -> k0 ∈ S).
    { intros k0 [Hl Hx0]%Hreg. apply (HS2 k k0 Hk Hl). exists x. set_solver. }
    assert (Hsub : ({[k; k']} : gset key) ⊆ keys_of (g_dims st) x) by (intros k0 [->%elem_of_singleton| ->%elem_of_singleton]%elem_of_union; by apply Hin).
    apply (subseteq_size (C := gset key)) in Hsub. rewrite size_union in Hsub by (intros k0 ->%elem_of_singleton ?%elem_of_singleton; done). rewrite !size_singleton in Hsub.
    unfold keys_of in Hsub, Hall. destruct (g_dims st !! x) as [ks|] eqn:E; cbn [from_option id] in Hsub, Hall; [|rewrite size_empty in Hsub; lia].
    destruct (Hq x ks E) as (c & Hc & Hc1 & Hc2); [lia|]. exists c. split; [done|]. split; by apply Hall.
  Qed.
End Phase.

Lemma init_ref_elem out dims s x : 1 <= s -> (x ∈ out -> keys_of dims x = ∅) -> x ∈ init_ref out dims s <-> s <= size (keys_of dims x).
Proof.
  intros Hs Ho. unfold init_ref. rewrite elem_of_difference, elem_of_list_to_set, elem_of_list_fmap. split.
  - intros [([c ks] & -> & [Hsz Hin%elem_of_map_to_list]%elem_of_list_filter) _]. unfold keys_of. cbn [fst snd] in *. by rewrite Hin.
  - intros Hsz. split; [|intros Hx; rewrite (Ho Hx), size_empty in Hsz; lia]. unfold keys_of in Hsz. destruct (dims !! x) as [ks|] eqn:E; [|cbn [from_option id] in Hsz; rewrite size_empty in Hsz; lia].
    exists (x, ks). split; [done|]. apply elem_of_list_filter. split; [done|]. by apply elem_of_map_to_list.
Qed.
Lemma dedup_track fr out d inputs rem p next : dedup inputs = (rem, p, next) ->
  tracked out fr d (length inputs) (map_seq 0 inputs) rem p /\ forall k i, rem !! k = Some i -> i < next.
Proof.
  unfold dedup. set (n := length inputs). set (m0 := map_seq 0 inputs : gmap nat key). intros H.
  assert (Hm0 : forall i k, m0 !! i = Some k <-> inputs !! i = Some k) by (intros i k; unfold m0; rewrite lookup_map_seq_0; done).
  assert (Hgen : forall l i r0 p0 x0 T m, drop i inputs = l -> i + length l = n -> steps fr out (size_of d) n m0 p0 m -> tracks out T m -> x0 = n + length p0 ->
    (forall j k, T !! j = Some k <-> r0 !! k = Some j \/ (i <= j /\ inputs !! j = Some k)) -> (forall k j, r0 !! k = Some j -> j < i \/ n <= j < x0) ->
    foldl dedup_step (r0, p0, x0) (zip (seq i (length l)) l) = (rem, p, next) -> tracked out fr d n m0 rem p /\ forall k j, rem !! k = Some j -> j < next).
  { clear H. induction l as [|k l IH]; intros i r0 p0 x0 T m Hd Hi Hs HT Hx HTr Hids Hf.
    - simpl in Hf. injection Hf as <- <- <-. simpl in Hi. split.
      + exists T, m. split; [done|]. split; [done|]. intros j k. rewrite HTr. split; [|by left]. intros [?|[Hij Hj]]; [done|]. apply lookup_lt_Some in Hj. fold n in Hj. lia.
      + intros k j Hj. apply Hids in Hj. lia.
    - assert (Hk : inputs !! i = Some k) by (rewrite <-(Nat.add_0_r i), <-lookup_drop, Hd; done). assert (Hd' : drop (S i) inputs = l) by (rewrite <-Nat.add_1_r, <-drop_drop, Hd; done).
      simpl in Hi. assert (Hin : i < n) by lia. simpl in Hf. destruct (r0 !! k) as [id|] eqn:E.
      + pose proof (Hids _ _ E) as Hid. assert (Hne : id <> i) by lia.
        destruct (steps_join fr out (size_of d) n m0 p0 m T id i k k k) as (m' & Hs' & HT'); [done|done|done|apply HTr; by left|apply HTr; right; split; [lia|done]|set_solver|set_solver|set_solver|by right; left|].
        rewrite <-Hx in HT'. refine (IH (S i) _ _ _ _ m' Hd' _ Hs' HT' _ _ _ Hf); [lia|rewrite app_length; simpl; lia| |].
        * intros j k'. destruct (decide (j = x0)) as [->|Hj].
          -- rewrite lookup_insert. split; [intros [= <-]; left; by rewrite lookup_insert|]. intros [Hk'|[_ Hk']].
             ++ destruct (decide (k' = k)) as [->|Hk'n]; [done|]. rewrite lookup_insert_ne in Hk' by done. apply Hids in Hk'. lia.
             ++ apply lookup_lt_Some in Hk'. fold n in Hk'. lia.
          -- rewrite lookup_insert_ne by done. rewrite !lookup_delete_Some, HTr. split.
             ++ intros (Hji & Hjid & [Hk'|[Hij Hk']]); [left|right; split; [lia|done]]. rewrite lookup_insert_ne; [done|]. intros <-. congruence.
             ++ intros [Hk'|[Hij Hk']].
                ** destruct (decide (k' = k)) as [->|Hk'n]; [rewrite lookup_insert in Hk'; congruence|]. rewrite lookup_insert_ne in Hk' by done.
                   split; [apply Hids in Hk'; lia|]. split; [|by left]. intros <-. assert (HT1 : T !! id = Some k) by (apply HTr; by left). assert (HT2 : T !! id = Some k') by (apply HTr; by left). congruence.
                ** apply lookup_lt_Some in Hk' as Hlt. fold n in Hlt. split; [lia|]. split; [lia|]. right. split; [lia|done].
        * intros k' j. destruct (decide (k' = k)) as [->|Hk']; [rewrite lookup_insert; intros [= <-]; right; lia|]. rewrite lookup_insert_ne by done. intros Hj%Hids. lia.
      + refine (IH (S i) _ _ _ T m Hd' _ Hs HT Hx _ _ Hf); [lia| |].
        * intros j k'. rewrite HTr. destruct (decide (k' = k)) as [->|Hk'].
          -- rewrite lookup_insert, E. split; [intros [?|[Hij Hj]]; [done|]|].
             ++ destruct (decide (j = i)) as [->|Hji]; [by left|right; split; [lia|done]].
             ++ intros [[= <-]|[Hij Hj]]; right; [split; [lia|done]|split; [lia|done]].
          -- rewrite lookup_insert_ne by done. split; (intros [?|[Hij Hj]]; [by left|right]); (split; [|done]); [|lia]. destruct (decide (j = i)) as [->|]; [congruence|lia].
        * intros k' j. destruct (decide (k' = k)) as [->|Hk']; [rewrite lookup_insert; intros [= <-]; left; lia|]. rewrite lookup_insert_ne by done. intros Hj%Hids. lia. }
  refine (Hgen inputs 0 ∅ [] n m0 m0 _ _ (steps_nil _ _ _ _ _) (tracks_refl _ _) _ _ _ H); [done|done|simpl; lia| |].
  - intros j k. rewrite Hm0, lookup_empty. split; [intros Hk; right; split; [lia|done]|by intros [?|[_ ?]]].
  - intros k j. by rewrite lookup_empty.
Qed.

Lemma common_elem inputs com x : common inputs = Ok com -> x ∈ com <-> forall k, k ∈ inputs -> x ∈ k.
Proof.
  destruct inputs as [|k l]; [done|]. simpl. intros [= <-]. revert k. induction l as [|k' l IH]; intros k; cbn [foldl].
  - split; [by intros Hx k0 ->%elem_of_list_singleton|]. intros H. apply H. left.
  - rewrite IH. split.
    + intros H k0. rewrite !elem_of_cons. assert (Hkk : x ∈ k ∩ k') by (apply H; left). intros [->|[->|?]]; [set_solver|set_solver|]. apply H. by right.
    + intros H k0 [->|?]%elem_of_cons; [apply elem_of_intersection; split; apply H; [left|right; left]|]. apply H. by right; right.
Qed.
Theorem greedy_smallest_first cost_fn choose_fn inputs output d p :
  match choose_fn with None => True | Some ch => chooser_ok ch /\ chooser_fair ch end -> 2 <= length inputs -> Forall (labels_in d) inputs ->
  ssa_greedy cost_fn choose_fn inputs output d = Ok p -> ssa_steps (free inputs output) output (size_of d) p (map_seq 0 inputs) (length inputs).
Proof.
  intros Hch Hlen Hd H. unfold ssa_greedy in H. destruct inputs as [|ka [|kb inputs']]; [simpl in Hlen; lia|simpl in Hlen; lia|].
  set (inputs := ka :: kb :: inputs') in *. set (n := length inputs) in *.
  apply bind_Ok in H as (com & Hcom & H). set (out := output ∪ com) in *.
  assert (Hchoose : chooser_ok (default simple_chooser choose_fn)) by (destruct choose_fn; [by apply Hch|apply simple_chooser_ok]).
  assert (Hfair : chooser_fair (default simple_chooser choose_fn)) by (destruct choose_fn; [by apply Hch|apply simple_chooser_fair]).
  assert (Hout : output ⊆ out) by set_solver.
  assert (Hfr : forall x, free inputs output x <-> x ∉ out).
  { intros x. unfold free, out. rewrite not_elem_of_union, (common_elem inputs com x Hcom). split.
    - intros [Ho (k & Hk & Hx)]. split; [done|]. intros Hall. by apply Hx, Hall.
    - intros [Ho Hn]. split; [done|]. destruct (decide (Exists (fun k => x ∉ k) inputs)) as [He|He]; [by apply Exists_exists in He|].
      exfalso. apply Hn. intros k Hk. destruct (decide (x ∈ k)); [done|]. exfalso. apply He, Exists_exists. eauto. }
  destruct (dedup inputs) as [[rem p0] next] eqn:Ed. pose proof (dedup_track (free inputs output) output d _ _ _ _ Ed) as [Htrack Hids]. apply dedup_ok in Ed as (Hl & Hn & Hdom). fold n in Hl, Hn, Htrack.
  assert (Hkeys : forall k, k ∈ (map_to_list rem).*1 <-> is_Some (rem !! k)).
  { intros k. rewrite elem_of_list_fmap. split.
    - intros ([k' i] & -> & Hk%elem_of_map_to_list). eauto.
    - intros [i Hi]. exists (k, i). split; [done|]. by apply elem_of_map_to_list. }
  assert (Hlab : forall k, is_Some (rem !! k) -> labels_in d k).
  { rewrite Forall_forall in Hd. intros k Hk%Hdom. by apply Hd. }
  destruct (mapM_sizes ((map_to_list rem).*1) d) as (foot & Ef & Hfoot).
  { apply Forall_forall. intros k Hk. by apply Hlab, Hkeys. }
  rewrite Ef in H. cbn [mbind res_bind] in H. set (dims := init_dims out (map_to_list rem).*1) in *.
  set (st0 := GState rem dims (init_ref out dims 2) (init_ref out dims 3) (list_to_map foot) [] p0 next 0 0) in *.
  assert (Hreg : registered out rem dims).
  { intros c k. unfold dims. rewrite init_dims_elem, Hkeys. done. }
  assert (Hempty : forall x, x ∈ out -> keys_of dims x = ∅).
  { intros x Hx. apply set_eq. intros k. rewrite (Hreg x k). split; [intros [_ ?]; set_solver|by intros ?%elem_of_empty]. }
  assert (Hst0 : phase output out (free inputs output) d n (map_seq 0 inputs) st0).
  { split; simpl; [split; simpl|done| | | |done|]; try done.
    - intros k Hk. apply Hkeys in Hk. rewrite <-Hfoot in Hk. destruct ((list_to_map foot : gmap key nat) !! k) eqn:E; [eauto|]. by apply not_elem_of_list_to_map in E.
    - intros E. assert (Hk : is_Some (rem !! ka)) by (apply Hdom; left). rewrite E, lookup_empty in Hk. by destruct Hk.
    - intros x. apply init_ref_elem; [lia|apply Hempty].
    - intros x. apply init_ref_elem; [lia|apply Hempty].
    - intros c Hc. by apply elem_of_nil in Hc.
    - intros k Hk%Hdom x Hx. apply (common_elem inputs com x Hcom); [set_solver|done]. }
  apply bind_Ok in H as (st1 & H1 & H). apply bind_Ok in H as (st2 & H2 & H). apply bind_Ok in H as (final & H3 & H).
  set (push_all := match choose_fn with Some _ => true | None => false end) in *.
  destruct (phase_dims cost_fn _ Hchoose Hfair push_all output out (free inputs output) Hout Hfr d n (map_seq 0 inputs) (map_to_list dims) st0 st1 Hst0) as (Hst1 & Hf1 & new & Hq & Hnew); [|exact H1|].
  { intros x ks Hin%elem_of_map_to_list. unfold keys_of. simpl. by rewrite Hin. }
  assert (Hc1 : connected out (g_rem st1) (g_queue st1)).
  { eapply (connected_start _ Hchoose Hfair); [exact Hout|exact Hfr|exact Hst1|]. intros x ks Hx Hsz. rewrite (fr_dims _ _ Hf1) in Hx. simpl in Hx. rewrite Hq. apply (Hnew x ks); [by apply elem_of_map_to_list|done]. }
  destruct (phase_loop cost_fn _ Hchoose Hfair push_all output out (free inputs output) Hout Hfr d n (map_seq 0 inputs) _ st1 st2 Hst1 Hc1 H2) as [Hst2 Hc2].
  assert (Hfin : entry_of <$> final = (fun ki : key * nat => (ki.2, ki.1)) <$> map_to_list (g_rem st2)).
  { clear -H3. revert final H3. generalize (map_to_list (g_rem st2)). induction l as [|[k i] l IH]; intros final H; simpl in H; [by injection H as <-|].
    apply bind_Ok in H as (e & He & H). apply bind_Ok in He as (s & _ & He). injection He as <-. apply bind_Ok in H as (fs & Hfs & H). injection H as <-. rewrite !fmap_cons. by rewrite (IH fs Hfs). }
  assert (Hfsz : Forall (entry_size out d) final).
  { assert (Hl2 : Forall (fun ki : key * nat => labels_in d ki.1) (map_to_list (g_rem st2))).
    { apply Forall_forall. intros [k i] Hin%elem_of_map_to_list. apply (go_labels _ _ _ _ (ph_ok _ _ _ _ _ _ _ Hst2)). eauto. }
    clear -H3 Hl2. revert final H3 Hl2. generalize (map_to_list (g_rem st2)). induction l as [|[k i] l IH]; intros final H Hl; simpl in H; [injection H as <-; by constructor|].
    apply Forall_cons in Hl as [Hk Hl]. apply bind_Ok in H as (e & He & H). apply bind_Ok in He as (s & Hs & He). injection He as <-. apply bind_Ok in H as (fs & Hfs & H). injection H as <-.
    apply Forall_cons. split; [|by apply IH]. unfold entry_size. cbn [fst snd] in *. unfold set_size in Hs. rewrite (volume_ok d (k ∩ out)) in Hs; [by injection Hs as <-|done|].
    intros x Hx. apply Hk. set_solver. }
  destruct (merge_sort fq_le final) as [|[[s1 id1] k1] q] eqn:Es; [done|].
  destruct (phase_end _ Hchoose Hfair output out (free inputs output) Hout Hfr d n (map_seq 0 inputs) st2 final id1 k1 s1 q p Hst2 Hc2 Hfin Hfsz Es H) as (m' & Hm').
  rewrite <-(app_nil_r p). by eapply steps_forward.
Qed.

Theorem greedy_linear_smallest_first cost_fn choose_fn ordI inputs output d p :
  match choose_fn with None => True | Some ch => chooser_ok ch /\ chooser_fair ch end -> 2 <= length inputs -> Forall (labels_in d) inputs ->
  greedy cost_fn choose_fn ordI inputs output d None = Ok p -> each_step (smallest_first (free inputs output) (size_of d) output) output p inputs.
Proof.
  intros Hch Hlen Hd H. unfold greedy in H. apply bind_Ok in H as (sp & Hsp & Hp).
  assert (Hch' : match choose_fn with None => True | Some ch => chooser_ok ch end) by (destruct choose_fn; [by apply Hch|done]).
  destruct (greedy_ssa_ok cost_fn choose_fn inputs output d Hch') as (sp' & Hsp' & Hc & _); [by destruct inputs; simpl in Hlen; [lia|]|done|]. rewrite Hsp in Hsp'. injection Hsp' as <-.
  pose proof (greedy_smallest_first _ _ _ _ _ _ Hch Hlen Hd Hsp) as Hs. unfold ssa_to_linear in Hp. unfold ssa_complete in Hc.
  assert (Hseq : Forall (fun i => i < length inputs) (seq 0 (length inputs))) by (apply Forall_forall; intros i Hi%elem_of_seq; lia).
  assert (Har : path_arity sp = length inputs) by (rewrite (ssa_arity _ _ _ Hc); [apply seq_length|apply NoDup_seq|done]). rewrite Har in Hp.
  assert (Hin : inputs = (fun i => default ∅ ((map_seq 0 inputs : gmap nat key) !! i)) <$> seq 0 (length inputs)).
  { apply list_eq. intros i. rewrite list_lookup_fmap. destruct (decide (i < length inputs)) as [Hi|Hi].
    - rewrite lookup_seq_lt by done. simpl. rewrite lookup_map_seq_0. destruct (lookup_lt_is_Some_2 inputs i Hi) as [k Hk]. by rewrite Hk.
    - rewrite lookup_ge_None_2 by lia. rewrite lookup_ge_None_2 by (rewrite seq_length; lia). done. }
  rewrite Hin at 2. eapply linear_steps; [|exact Hseq| |exact Hp|exact Hs].
  - apply asc_seq.
  - intros i. rewrite elem_of_seq, lookup_map_seq_0. split; [intros; apply lookup_lt_is_Some_2; lia|intros Hi%lookup_lt_is_Some_1; lia].
Qed.
Lemma each_step_mono (Q R : list key -> list key -> Prop) out p : (forall now rest, Q now rest -> R now rest) -> forall sets, each_step Q out p sets -> each_step R out p sets.
Proof. intros HQ. induction p as [|s p IH]; intros sets; [done|]. intros [H1 H2]. split; [by apply HQ|by apply IH]. Qed.
Theorem greedy_linear_outer_last cost_fn choose_fn ordI inputs output d p :
  match choose_fn with None => True | Some ch => chooser_ok ch /\ chooser_fair ch end -> 2 <= length inputs -> Forall (labels_in d) inputs ->
  greedy cost_fn choose_fn ordI inputs output d None = Ok p -> each_step (outer_last (free inputs output)) output p inputs.
Proof.
  intros Hch Hlen Hd H. eapply each_step_mono; [|by eapply greedy_linear_smallest_first].
  intros now rest (a & b & Hab & HQ). exists a, b. split; [done|]. destruct HQ as [?|[?|[? _]]]; auto.
Qed.
