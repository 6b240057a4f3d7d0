(** A larger memory limit never makes the path of [optimal] more expensive: wherever some pair does not fit, going on by pairs costs no more than
    contracting everything that is left in one step. *)
From Verif Require Import Prelude Einsum EinsumFacts Helpers Contract Spec PathSpec StringFacts StepFacts ContractFacts PathFacts Ssa SsaSpec SsaFacts SsaMore Optimal OptimalFacts OptimalBest.

Section Volume.
  Variable D : N -> nat.
  Lemma volume_take (x : N) (A : gset N) : x ∈ A -> volume D A = D x * volume D (A ∖ {[x]}).
  Proof.
    intros Hx. unfold volume. assert (Hp : elements A ≡ₚ x :: elements (A ∖ {[x]})).
    { rewrite (union_difference_L {[x]} A) at 1 by set_solver. rewrite elements_disj_union by set_solver. by rewrite elements_singleton. }
    rewrite (prod_list_perm (D <$> elements A) (D <$> (x :: elements (A ∖ {[x]})))) by (by rewrite Hp). by rewrite fmap_cons.
  Qed.
  Lemma volume_zero (x : N) (A : gset N) : x ∈ A -> D x = 0 -> volume D A = 0.
  Proof. intros Hx Hd. rewrite (volume_take x A Hx), Hd. lia. Qed.
  Lemma volume_zero_inv (A : gset N) : volume D A = 0 -> exists x, x ∈ A /\ D x = 0.
  Proof.
    intros H. unfold volume in H. assert (He : exists x, x ∈ elements A /\ D x = 0); [|destruct He as (x & Hx%elem_of_elements & ?); eauto]. revert H. generalize (elements A). intros l.
    induction l as [|x l IH]; [done|]. rewrite fmap_cons. change (prod_list (?a :: ?b)) with (a * prod_list b). intros [H|H]%Nat.mul_eq_0; [exists x; split; [left|done]|].
    destruct (IH H) as (y & ? & ?). exists y. split; [by right|done].
  Qed.
  Lemma volume_pos (A : gset N) : volume D A <> 0 -> forall c, c ∈ A -> 1 <= D c.
  Proof. intros H c Hc. destruct (D c) as [|m] eqn:E; [|lia]. by destruct (H (volume_zero c A Hc E)). Qed.
  Lemma volume_grow (S S' : gset N) : (forall c, c ∈ S' -> 1 <= D c) -> S ⊆ S' -> volume D S <= volume D S'.
  Proof.
    intros H1 Hs. unfold volume. rewrite (union_difference_L S S' Hs). assert (Hp : elements (S ∪ S' ∖ S) ≡ₚ elements S ++ elements (S' ∖ S)) by (apply elements_disj_union; set_solver).
    rewrite (prod_list_perm (D <$> elements (S ∪ S' ∖ S)) (D <$> (elements S ++ elements (S' ∖ S)))) by (by rewrite Hp). rewrite fmap_app.
    assert (Happ : forall l k, prod_list (l ++ k) = prod_list l * prod_list k) by (unfold prod_list; induction l as [|a l IH]; intros k; simpl; [lia|]; rewrite IH; lia). rewrite Happ.
    assert (Hge : 1 <= prod_list (D <$> elements (S' ∖ S))).
    { assert (Hall : Forall (fun c => 1 <= D c) (elements (S' ∖ S))) by (apply Forall_forall; intros c Hc%elem_of_elements; apply H1; set_solver). clear -Hall. induction Hall as [|c l Hc _ IH]; [cbn; lia|]. rewrite fmap_cons. change (1 <= D c * prod_list (D <$> l)). nia. }
    nia.
  Qed.
  Lemma volume_sub (A B : gset N) : volume D B <> 0 -> A ⊆ B -> volume D A <= volume D B.
  Proof. intros H Hs. apply volume_grow; [by apply volume_pos|done]. Qed.
  Lemma volume_sub_pos (A B : gset N) : volume D B <> 0 -> A ⊆ B -> volume D A <> 0.
  Proof. intros H Hs H0. apply volume_zero_inv in H0 as (x & Hx & Hz). apply H. by apply (volume_zero x); [apply Hs|]. Qed.
  Lemma volume_without (x : N) (A B : gset N) : volume D B <> 0 -> A ⊆ B -> x ∈ B -> x ∉ A -> D x * volume D A <= volume D B.
  Proof.
    intros H Hs Hx Hn. rewrite (volume_take x B Hx). apply Nat.mul_le_mono_l. apply volume_sub; [|set_solver]. apply (volume_sub_pos _ B); [done|set_solver].
  Qed.
  Lemma volume_big (A : gset N) : 2 <= volume D A -> exists x, x ∈ A /\ 2 <= D x.
  Proof.
    intros H. unfold volume in H. assert (He : exists x, x ∈ elements A /\ 2 <= D x); [|destruct He as (x & Hx%elem_of_elements & ?); eauto]. revert H. generalize (elements A). intros l.
    induction l as [|x l IH]; [cbn; lia|]. rewrite fmap_cons. change (prod_list (?a :: ?b)) with (a * prod_list b). intros H.
    destruct (decide (2 <= D x)) as [Hx|Hx]; [exists x; split; [left|done]|]. destruct IH as (y & ? & ?); [nia|]. exists y. split; [by right|done].
  Qed.
End Volume.

Section Potential.
  Variables (D : N -> nat) (out : gset N).
  Notation vol l := (volume D (union_all l)).
  Definition rest_cost (l : list (gset N)) : nat := step_cost D (l, union_all l ∩ out).
  (** What contracting [l] by pairs costs at most. *)
  Definition phi (l : list (gset N)) : nat :=
    if decide (union_all l ⊆ out) then (length l - 1) * vol l else if decide (vol l = 1) then 2 * (length l - 1) else length l * vol l.
  Lemma phi_perm l l' : l ≡ₚ l' -> phi l = phi l'.
  Proof. intros H. unfold phi. rewrite (union_all_perm l l' H). by rewrite (Permutation_length H). Qed.
  Lemma rest_phi l : 2 <= length l -> vol l <> 1 \/ union_all l ⊆ out -> rest_cost l = phi l.
  Proof.
    intros Hl H. unfold rest_cost, phi, step_cost. cbn [fst snd]. rewrite Nat.max_r by lia. destruct (decide (union_all l ⊆ out)) as [E|E].
    - rewrite decide_True by set_solver. lia.
    - rewrite decide_False by set_solver. rewrite decide_False by (destruct H; [done|by destruct E]). nia.
  Qed.
  Definition joined (k1 k2 : gset N) (rest : list (gset N)) : gset N := (k1 ∪ k2) ∩ (out ∪ union_all rest).
  Lemma joined_cost k1 k2 rest : pair_cost D ([k1; k2], joined k1 k2 rest) <= 2 * volume D (k1 ∪ k2).
  Proof. unfold pair_cost. cbn [fst snd]. rewrite union_two. case_decide; lia. Qed.
  Lemma joined_cost_keep k1 k2 rest : k1 ∪ k2 ⊆ out -> pair_cost D ([k1; k2], joined k1 k2 rest) = volume D (k1 ∪ k2).
  Proof. intros H. unfold pair_cost. cbn [fst snd]. rewrite union_two, decide_True by (unfold joined; set_solver). lia. Qed.
  Lemma union_cons k (l : list (gset N)) : union_all (k :: l) = k ∪ union_all l.
  Proof. apply set_eq. intros c. rewrite elem_union_all, elem_of_union, elem_union_all. setoid_rewrite elem_of_cons. naive_solver. Qed.
  Lemma joined_sub k1 k2 rest : union_all (joined k1 k2 rest :: rest) ⊆ union_all (k1 :: k2 :: rest).
  Proof. rewrite !union_cons. unfold joined. set_solver. Qed.
  Lemma joined_pair k1 k2 rest : k1 ∪ k2 ⊆ union_all (k1 :: k2 :: rest).
  Proof. rewrite !union_cons. set_solver. Qed.
  Lemma joined_keeps k1 k2 rest c : c ∈ union_all (k1 :: k2 :: rest) -> c ∈ out ∪ union_all rest -> c ∈ union_all (joined k1 k2 rest :: rest).
  Proof. rewrite !union_cons. unfold joined. set_solver. Qed.
  Lemma holders (l : list (gset N)) c : l ≡ₚ filter (fun k => c ∈ k) l ++ filter (fun k => c ∉ k) l.
  Proof.
    induction l as [|k l IH]; [done|]. rewrite !filter_cons. destruct (decide (c ∈ k)) as [E|E].
    - rewrite decide_False by tauto. simpl. by constructor.
    - rewrite decide_True by done. rewrite <-Permutation_middle. by constructor.
  Qed.
  (** A label in two places is in one set and the result, or in two sets. *)
  Lemma places (l : list (gset N)) c : occurrences out l c = 2 -> exists hs os, l ≡ₚ hs ++ os /\ (forall k, k ∈ os -> c ∉ k) /\
    ((c ∈ out /\ exists k0, hs = [k0] /\ c ∈ k0) \/ (c ∉ out /\ exists k0 k1, hs = [k0; k1] /\ c ∈ k0 /\ c ∈ k1)).
  Proof.
    intros H. exists (filter (fun k => c ∈ k) l), (filter (fun k => c ∉ k) l). split; [apply holders|]. split; [by intros k [? _]%elem_of_list_filter|].
    unfold occurrences in H. assert (Hin : forall k, k ∈ filter (fun k => c ∈ k) l -> c ∈ k) by (by intros k [? _]%elem_of_list_filter).
    destruct (decide (c ∈ out)) as [Ho|Ho]; [left|right]; (split; [done|]); destruct (filter (fun k => c ∈ k) l) as [|a [|b [|]]]; simpl in H; try lia.
    - exists a. split; [done|]. apply Hin. left.
    - exists a, b. split; [done|]. split; apply Hin; [left|right; left].
  Qed.
  Lemma not_in_union c (l : list (gset N)) : (forall k, k ∈ l -> c ∉ k) -> c ∉ union_all l.
  Proof. intros H (k & Hk & Hc)%elem_union_all. by apply (H k). Qed.

  (** Some pair can be contracted without raising the potential. *)
  Lemma good_pair l : 2 <= length l -> (forall c, c ∈ union_all l -> occurrences out l c = 2) ->
    exists k1 k2 rest, l ≡ₚ k1 :: k2 :: rest /\ pair_cost D ([k1; k2], joined k1 k2 rest) + phi (joined k1 k2 rest :: rest) <= phi l.
  Proof.
    intros Hl H2. assert (Hlast : forall k1 k2, phi [joined k1 k2 []] = 0).
    { intros k1 k2. unfold phi. rewrite decide_True; [simpl; lia|]. rewrite union_cons. unfold joined. change (union_all []) with (∅ : gset N). set_solver. }
    destruct (decide (vol l = 0)) as [H0|H0].
    { destruct (volume_zero_inv D _ H0) as (z & Hz & Hd). assert (Hphi : phi l = 0) by (unfold phi; rewrite H0; repeat case_decide; lia). rewrite Hphi.
      assert (Hz1 : forall k1 k2 rest, l ≡ₚ k1 :: k2 :: rest -> z ∈ k1 -> z ∈ out ∪ union_all rest \/ rest = [] -> pair_cost D ([k1; k2], joined k1 k2 rest) + phi (joined k1 k2 rest :: rest) <= 0).
      { intros k1 k2 rest Hp Hz1 Hk. pose proof (joined_cost k1 k2 rest) as Hc. rewrite (volume_zero D z (k1 ∪ k2)) in Hc by set_solver.
        assert (Hph : phi (joined k1 k2 rest :: rest) = 0); [|lia]. destruct Hk as [Hk|Hr]; [|by rewrite Hr].
        unfold phi. rewrite (volume_zero D z (union_all (joined k1 k2 rest :: rest))); [repeat case_decide; lia| |done]. apply joined_keeps; [|done]. rewrite union_cons. set_solver. }
      destruct (places l z (H2 z Hz)) as (hs & os & Hp & Hos & [(Ho & k0 & -> & Hk0)|(Ho & k0 & k1 & -> & Hk0 & Hk1)]).
      - destruct os as [|k1 r]; [apply Permutation_length in Hp; simpl in Hp; lia|]. exists k0, k1, r. split; [done|]. apply Hz1; [done|done|]. left. set_solver.
      - destruct os as [|k2 r]; [exists k0, k1, []; split; [done|]; apply Hz1; [done|done|by right]|]. exists k0, k2, (k1 :: r). split; [rewrite Hp; simpl; constructor; apply perm_swap|].
        apply Hz1; [rewrite Hp; simpl; constructor; apply perm_swap|done|]. left. rewrite union_cons. set_solver. }
    destruct (decide (union_all l ⊆ out)) as [Hsub|Hsub].
    { destruct l as [|k1 [|k2 rest]]; simpl in Hl; [lia|lia|]. exists k1, k2, rest. split; [done|]. pose proof (joined_pair k1 k2 rest) as Hpr. rewrite joined_cost_keep by set_solver.
      assert (Hs2 := joined_sub k1 k2 rest). unfold phi. rewrite decide_True by set_solver. rewrite decide_True by set_solver. simpl length.
      pose proof (volume_sub D _ _ H0 Hpr). pose proof (volume_sub D _ _ H0 Hs2). nia. }
    assert (Hphi : phi l = if decide (vol l = 1) then 2 * (length l - 1) else length l * vol l) by (unfold phi; by rewrite decide_False).
    destruct (decide (vol l = 1)) as [H1|H1].
    { rewrite Hphi. destruct l as [|k1 [|k2 rest]]; simpl in Hl; [lia|lia|]. exists k1, k2, rest. split; [done|]. pose proof (joined_cost k1 k2 rest) as Hc.
      pose proof (volume_sub D _ _ H0 (joined_pair k1 k2 rest)) as Hu. pose proof (volume_sub D _ _ H0 (joined_sub k1 k2 rest)) as Hv.
      assert (Hph : phi (joined k1 k2 rest :: rest) <= 2 * length rest); [|simpl length; lia]. destruct rest as [|k3 rest]; [rewrite Hlast; lia|]. unfold phi. simpl length in *. repeat case_decide; [nia|nia|].
      assert (vol (joined k1 k2 (k3 :: rest) :: k3 :: rest) = 0) as -> by lia. lia. }
    destruct (volume_big D (union_all l)) as (x & Hx & Hd); [lia|]. rewrite Hphi.
    destruct (places l x (H2 x Hx)) as (hs & os & Hp & Hos & [(Ho & k0 & -> & Hk0)|(Ho & k1 & k2 & -> & Hk1 & Hk2)]).
    - destruct os as [|k1 [|k2 r]]; [apply Permutation_length in Hp; simpl in Hp; lia| |].
      + exists k0, k1, []. split; [done|]. rewrite Hlast. pose proof (joined_cost k0 k1 []) as Hc. assert (Hs := joined_pair k0 k1 []). change (k0 :: k1 :: []) with ([k0] ++ [k1]) in Hs. rewrite <-(union_all_perm _ _ Hp) in Hs.
        pose proof (volume_sub D _ _ H0 Hs). rewrite (Permutation_length Hp). simpl length. lia.
      + assert (Hp' : l ≡ₚ k1 :: k2 :: k0 :: r). { rewrite Hp. simpl. change (k1 :: k2 :: k0 :: r) with ([k1; k2] ++ k0 :: r). by rewrite <-Permutation_middle. }
        exists k1, k2, (k0 :: r). split; [done|]. pose proof (joined_cost k1 k2 (k0 :: r)) as Hc. pose proof (joined_pair k1 k2 (k0 :: r)) as Hs. pose proof (joined_sub k1 k2 (k0 :: r)) as Hs2.
        rewrite <-(union_all_perm _ _ Hp') in Hs, Hs2. pose proof (volume_sub D _ _ H0 Hs2) as Hv.
        assert (Hxn : x ∉ k1 ∪ k2) by (pose proof (Hos k1); pose proof (Hos k2); set_solver). pose proof (volume_without D x _ _ H0 Hs Hx Hxn) as Hu.
        assert (Hx2 : x ∈ union_all (joined k1 k2 (k0 :: r) :: k0 :: r)) by (rewrite !union_cons; set_solver).
        assert (Hne1 : vol (joined k1 k2 (k0 :: r) :: k0 :: r) <> 1) by (rewrite (volume_take D x _ Hx2); intros [E _]%Nat.eq_mul_1; lia).
        apply Permutation_length in Hp'. simpl length in Hp'. unfold phi. rewrite (decide_False (P := vol _ = 1)) by done. simpl length. rewrite Hp'.
        clear -Hc Hv Hu Hd. set (V := vol l) in *. set (V' := vol (_ :: k0 :: r)) in *. set (U := volume D (k1 ∪ k2)) in *. set (c := pair_cost _ _) in *. clearbody V V' U c.
        assert (2 * U <= V) by nia. assert (Hm : (S (S (length r))) * V' <= (S (S (length r))) * V) by by apply Nat.mul_le_mono_l. case_decide; nia.
    - assert (Hp' : l ≡ₚ k1 :: k2 :: os) by done. exists k1, k2, os. split; [done|]. pose proof (joined_cost k1 k2 os) as Hc. pose proof (joined_pair k1 k2 os) as Hs. pose proof (joined_sub k1 k2 os) as Hs2.
      rewrite <-(union_all_perm _ _ Hp') in Hs, Hs2. pose proof (volume_sub D _ _ H0 Hs) as Hu.
      assert (Hxn : x ∉ union_all (joined k1 k2 os :: os)) by (pose proof (not_in_union x os Hos); rewrite union_cons; unfold joined; set_solver).
      pose proof (volume_without D x _ _ H0 Hs2 Hx Hxn) as Hv. apply Permutation_length in Hp'. simpl length in Hp'. rewrite Hp'.
      destruct os as [|k3 os]; [rewrite Hlast; simpl length; lia|]. simpl length. set (V' := vol (joined k1 k2 (k3 :: os) :: k3 :: os)) in *.
      assert (Hv2 : 2 * V' <= vol l) by nia. unfold phi. fold V'. simpl length.
      clear -Hc Hv2 Hu H0 H1. set (V := vol l) in *. set (U := volume D (k1 ∪ k2)) in *. set (c := pair_cost _ _) in *. clearbody V V' U c. generalize (length os). intros m.
      assert (Hm : (S (S m)) * (2 * V') <= (S (S m)) * V) by by apply Nat.mul_le_mono_l. repeat case_decide; nia.
  Qed.
End Potential.

Section Reach.
  Variable ordI : gset nat -> list nat.
  Hypothesis ordI_ok : forall s, ordI s ≡ₚ elements s.
  Variables (out : gset N) (d : sizes) (mem : option nat) (inputs0 : list (gset N)).
  Notation D := (size_of d).
  Hypothesis twice : forall c, c ∈ union_all inputs0 -> occurrences out inputs0 c = 2.
  Hypothesis most : forall c, occurrences out inputs0 c <= 2.
  Hypothesis positive : forall limit, mem = Some limit -> 1 <= limit.
  Notation cand := (cand out d mem).
  Notation fits := (fits d mem).

  Record level (av : list nat) (inputs : list (gset N)) : Prop := Level {
    lv_asc : asc av; lv_lt : Forall (fun i => i < length inputs) av; lv_inv : count_inv out inputs0 inputs av; lv_sub : Forall (fun k => k ⊆ union_all inputs0) inputs }.
  Lemma level_step av inputs i j k1 k2 : level av inputs -> i ∈ av -> j ∈ av -> i < j -> inputs !! i = Some k1 -> inputs !! j = Some k2 ->
    level (filter (.∉ [i; j]) av ++ [length inputs]) (inputs ++ [merged out k1 k2 (union_all (at_ids inputs (filter (.∉ [i; j]) av)))]).
  Proof.
    intros [Ha Hlt Hinv Hsub] Hi Hj Hij H1 H2. split.
    - by apply filter_step_asc.
    - rewrite app_length. simpl. rewrite Nat.add_1_r. by apply filter_step_lt.
    - eapply (merge_inv out inputs0 most inputs av i j k1 k2); try done. lia.
    - apply Forall_app. split; [done|]. constructor; [|done]. rewrite Forall_forall in Hsub. pose proof (Hsub k1 (elem_of_list_lookup_2 _ _ _ H1)). pose proof (Hsub k2 (elem_of_list_lookup_2 _ _ _ H2)). unfold merged. set_solver.
  Qed.
  Lemma level_occ av inputs c : level av inputs -> c ∈ union_all (at_ids inputs av) -> occurrences out (at_ids inputs av) c = 2.
  Proof.
    intros [_ _ Hinv Hsub] Hc. rewrite (Hinv c Hc). apply twice. apply elem_union_all in Hc as (k & Hk & Hc). apply elem_at_ids in Hk as (i & _ & Hi). rewrite Forall_forall in Hsub.
    by apply (Hsub k (elem_of_list_lookup_2 _ _ _ Hi)).
  Qed.
  Lemma fits_dec k : fits k \/ ~ fits k.
  Proof.
    destruct mem as [limit|] eqn:Em; [|left; intros l E; congruence]. destruct (decide (volume D k <= limit)) as [Hy|Hn]; [left; intros l E; congruence|right; intros Hf; by apply Hn, Hf].
  Qed.
  Lemma at_ids_nth inputs av : Forall (fun i => i < length inputs) av -> at_ids inputs av = map (fun i => nth i inputs ∅) av.
  Proof.
    induction 1 as [|i av Hi _ IH]; [done|]. unfold at_ids in *. cbn [omap list_omap map]. destruct (lookup_lt_is_Some_2 inputs i Hi) as [k Hk]. rewrite Hk. cbn. f_equal; [|exact IH].
    symmetry. rewrite nth_lookup, Hk. done.
  Qed.
  Lemma pair_comm k1 k2 rest : pair_cost D ([k1; k2], joined out k1 k2 rest) = pair_cost D ([k2; k1], joined out k2 k1 rest).
  Proof. unfold pair_cost, joined. cbn [fst snd]. rewrite !union_two, (comm_L (∪) k1 k2), (comm_L (∩) k1 k2). done. Qed.
  (** A good pair of the sets is a pair of identifiers. *)
  Lemma pair_ids av inputs : level av inputs -> 2 <= length av -> exists i j k1 k2, i ∈ av /\ j ∈ av /\ i < j /\ inputs !! i = Some k1 /\ inputs !! j = Some k2 /\
    let rest := at_ids inputs (filter (.∉ [i; j]) av) in
    at_ids inputs av ≡ₚ k1 :: k2 :: rest /\ pair_cost D ([k1; k2], joined out k1 k2 rest) + phi D out (joined out k1 k2 rest :: rest) <= phi D out (at_ids inputs av).
  Proof.
    intros Hlv Hlen. assert (Hlt := lv_lt _ _ Hlv). assert (Hnd := asc_NoDup _ (lv_asc _ _ Hlv)).
    destruct (good_pair D out (at_ids inputs av)) as (k1 & k2 & rest & Hp & Hle); [by rewrite at_ids_length|intros c; by apply level_occ|].
    assert (Hids : exists i j r, av ≡ₚ i :: j :: r /\ inputs !! i = Some k1 /\ inputs !! j = Some k2 /\ rest = at_ids inputs r).
    { rewrite at_ids_nth in Hp by done. symmetry in Hp. apply Permutation_map_inv in Hp as (l3 & E & Hp). destruct l3 as [|i [|j r]]; try discriminate. cbn [map] in E. injection E as E1 E2 E3. exists i, j, r.
      split; [done|]. rewrite Hp in Hlt. apply Forall_cons in Hlt as [Hi Hlt]. apply Forall_cons in Hlt as [Hj Hlt]. rewrite at_ids_nth by done.
      split; [|split; [|done]]; subst; [destruct (lookup_lt_is_Some_2 inputs i Hi) as [k Hk]; rewrite Hk; f_equal; by rewrite nth_lookup, Hk|destruct (lookup_lt_is_Some_2 inputs j Hj) as [k Hk]; rewrite Hk; f_equal; by rewrite nth_lookup, Hk]. }
    destruct Hids as (i & j & r & Hav & H1 & H2 & ->). assert (Hnd' := Hnd). rewrite Hav in Hnd'. apply NoDup_cons in Hnd' as [Hni Hnd']. apply NoDup_cons in Hnd' as [Hnj Hnr].
    assert (Hfil : forall i' j', [i'; j'] ≡ₚ [i; j] -> filter (.∉ [i'; j']) av ≡ₚ r).
    { intros i' j' Hpij. rewrite (filter_notin_perm _ _ av Hpij). apply NoDup_Permutation; [by apply NoDup_filter|done|]. intros x. rewrite elem_of_list_filter, Hav, !elem_of_cons, elem_of_nil.
      split; [naive_solver|]. intros Hx. split; [|tauto]. intros [->|[->|[]]]; [apply Hni; by right|done]. }
    assert (Hi : i ∈ av) by (rewrite Hav; left). assert (Hj : j ∈ av) by (rewrite Hav; right; left). assert (Hne : i <> j) by (intros ->; apply Hni; left).
    assert (Hrest : forall i' j', [i'; j'] ≡ₚ [i; j] -> at_ids inputs (filter (.∉ [i'; j']) av) ≡ₚ at_ids inputs r) by (intros i' j' Hpij; by apply at_ids_perm, Hfil).
    assert (Hjoin : forall a b l l', l ≡ₚ l' -> joined out a b l = joined out a b l') by (intros a b l l' H; unfold joined; by rewrite (union_all_perm l l' H)).
    destruct (decide (i < j)) as [Hij|Hij].
    - exists i, j, k1, k2. do 5 (split; [done|]). cbv zeta. rewrite (Hjoin _ _ _ _ (Hrest i j (Permutation_refl _))). split; [rewrite (Hrest i j (Permutation_refl _)); done|].
      etrans; [|exact Hle]. apply Nat.add_le_mono_l. apply Nat.eq_le_incl, phi_perm. constructor. by apply Hrest.
    - exists j, i, k2, k1. do 2 (split; [done|]). split; [lia|]. do 2 (split; [done|]). cbv zeta. rewrite (Hjoin _ _ _ _ (Hrest j i (perm_swap _ _ _))). split; [rewrite (Hrest j i (perm_swap _ _ _)), Hp; apply perm_swap|].
      etrans; [|exact Hle]. rewrite pair_comm. apply Nat.add_le_mono_l. apply Nat.eq_le_incl, phi_perm. rewrite (Hrest j i (perm_swap _ _ _)).
      assert (joined out k2 k1 (at_ids inputs r) = joined out k1 k2 (at_ids inputs r)) as -> by (unfold joined; by rewrite (comm_L (∪) k1 k2)). done.
  Qed.
  (** Going on by pairs while they fit never costs more than the bound. *)
  Lemma reach m : forall av inputs, length av = S m -> level av inputs -> exists x, cand av inputs x /\ x <= phi D out (at_ids inputs av).
  Proof.
    induction m as [|m IH]; intros av inputs Hlen Hlv; [exists 0; split; [by apply cand_one|lia]|].
    destruct (pair_ids av inputs Hlv) as (i & j & k1 & k2 & Hi & Hj & Hij & H1 & H2 & Hp & Hle); [lia|]. cbv zeta in Hp, Hle.
    assert (Hnd := asc_NoDup _ (lv_asc _ _ Hlv)). set (rest := at_ids inputs (filter (.∉ [i; j]) av)) in *.
    change (joined out k1 k2 rest) with (merged out k1 k2 (union_all rest)) in Hle. destruct (fits_dec (merged out k1 k2 (union_all rest))) as [Hf|Hf].
    - destruct (IH (filter (.∉ [i; j]) av ++ [length inputs]) (inputs ++ [merged out k1 k2 (union_all rest)])) as (x & Hx & Hxle).
      + pose proof (filter_length_step ordI ordI_ok av i j (length inputs) Hnd Hi Hj ltac:(lia)) as Hfl. lia.
      + by apply level_step.
      + exists (pair_cost D ([k1; k2], merged out k1 k2 (union_all rest)) + x). split; [by apply (cand_pair out d mem av inputs i j k1 k2 x)|]. etrans; [|exact Hle]. apply Nat.add_le_mono_l. etrans; [exact Hxle|]. apply Nat.eq_le_incl, phi_perm. rewrite at_ids_app, at_ids_last, at_ids_grow.
        2: { apply Forall_forall. intros y [_ Hy]%elem_of_list_filter. assert (Hlt := lv_lt _ _ Hlv). rewrite Forall_forall in Hlt. by apply Hlt. }
        fold rest. rewrite Permutation_app_comm. done.
    - assert (Hover : rest_cost D out (at_ids inputs av) = phi D out (at_ids inputs av)).
      { apply rest_phi; [rewrite at_ids_length by apply Hlv; lia|]. left. intros H1'. apply Hf. intros limit Hm.
        assert (Hsub : merged out k1 k2 (union_all rest) ⊆ union_all (at_ids inputs av)) by (intros c Hc; rewrite (union_all_perm _ _ Hp), !union_cons; unfold merged in Hc; apply elem_of_intersection in Hc as [Hc _]; rewrite !elem_of_union in *; tauto).
        assert (Hv0 : volume D (union_all (at_ids inputs av)) <> 0) by lia. pose proof (volume_sub D _ _ Hv0 Hsub) as Hvs. specialize (positive limit Hm). lia. }
      exists (rest_cost D out (at_ids inputs av)). split; [|lia]. eapply (cand_over out d mem av inputs i j k1 k2); try done. fold rest. unfold rest_cost in Hover. lia.
  Qed.
  (** A path of pairs that fit, and one step for the rest, is matched. *)
  Lemma chain s p0 : forall av inputs last, level av inputs -> ssa_runs av (length inputs) (p0 ++ [s]) -> pairwise p0 -> (forall st, st ∈ ssa_replay out p0 inputs av -> fits st.2) ->
    ssa_replay out (p0 ++ [s]) inputs av = ssa_replay out p0 inputs av ++ [last] -> volume D (union_all last.1) <> 1 ->
    exists x, cand av inputs x /\ x <= sum_list (pair_cost D <$> ssa_replay out p0 inputs av) + step_cost D last.
  Proof.
    induction p0 as [|t p0 IH]; intros av inputs last Hlv Hr Hp Hfit Hrep Hvol.
    - simpl in Hr. destruct Hr as (Hs & Hnds & Hin & Hlen). rewrite app_length in Hlen. simpl in Hlen. assert (Hnil : filter (.∉ s) av = []) by (apply nil_length_inv; lia).
      assert (Hperm : s ≡ₚ av).
      { apply NoDup_Permutation; [done|apply asc_NoDup, Hlv|]. intros x. split; [apply Hin|]. intros Hx. destruct (decide (x ∈ s)) as [?|Hn]; [done|]. exfalso.
        assert (Hf : x ∈ filter (.∉ s) av) by by apply elem_of_list_filter. rewrite Hnil in Hf. by apply elem_of_nil in Hf. }
      cbn [app ssa_replay] in Hrep. injection Hrep as <-. rewrite Hnil in *. cbn [fst snd] in *. rewrite (sort_nat_unique s av Hperm), (sort_asc av (lv_asc _ _ Hlv)) in *.
      change (union_all (at_ids inputs [])) with (∅ : gset N). rewrite (right_id_L ∅ (∪)). change (sum_list (_ <$> ssa_replay out [] inputs av)) with 0.
      destruct av as [|i [|j av]]; [by apply Permutation_nil_r in Hperm|exists 0; split; [by apply cand_one|lia]|]. destruct (reach (S (length av)) (i :: j :: av) inputs eq_refl Hlv) as (x & Hx & Hle). exists x. split; [done|].
      etrans; [exact Hle|]. fold (rest_cost D out (at_ids inputs (i :: j :: av))). rewrite rest_phi; [simpl; lia|rewrite at_ids_length by apply Hlv; simpl; lia|by left].
    - apply Forall_cons in Hp as [Ht Hp]. destruct t as [|a [|b [|]]]; try done. cbn [app] in Hr, Hrep.
      assert (Hab : a <> b) by (destruct Hr as (_ & Hq2 & _); apply NoDup_cons in Hq2 as [Hab _]; intros ->; apply Hab; left).
      assert (Hor : exists i j, [a; b] ≡ₚ [i; j] /\ i < j).
      { destruct (decide (a < b)); [exists a, b; done|]. exists b, a. split; [apply perm_swap|lia]. }
      destruct Hor as (i & j & Hperm & Hij). rewrite (ssa_replay_perm out [a; b] [i; j] p0 inputs av Hperm), (ssa_replay_perm out [a; b] [i; j] (p0 ++ [s]) inputs av Hperm) in *. apply (ssa_runs_perm _ [i; j]) in Hr; [|done]. destruct Hr as (_ & _ & Hin & Hr).
      assert (Hi : i ∈ av) by (apply Hin; set_solver). assert (Hj : j ∈ av) by (apply Hin; set_solver). assert (Hlt := lv_lt _ _ Hlv). rewrite Forall_forall in Hlt.
      destruct (lookup_lt_is_Some_2 inputs i (Hlt i Hi)) as [k1 Hk1]. destruct (lookup_lt_is_Some_2 inputs j (Hlt j Hj)) as [k2 Hk2]. set (k12 := merged out k1 k2 (union_all (at_ids inputs (filter (.∉ [i; j]) av)))).
      assert (Hstep : forall q, ssa_replay out ([i; j] :: q) inputs av = ([k1; k2], k12) :: ssa_replay out q (inputs ++ [k12]) (filter (.∉ [i; j]) av ++ [length inputs])).
      { intros q. cbn [ssa_replay]. rewrite sort_pair, (at_ids_two inputs i j k1 k2), union_two by done. done. }
      rewrite !Hstep in *. injection Hrep as Hrep. rewrite fmap_cons. change (sum_list (?x :: ?l)) with (x + sum_list l).
      destruct (IH (filter (.∉ [i; j]) av ++ [length inputs]) (inputs ++ [k12]) last) as (x & Hx & Hle); try done; [by apply level_step|rewrite app_length; simpl; by rewrite Nat.add_1_r|intros st Hst; apply Hfit; by right|].
      exists (pair_cost D ([k1; k2], k12) + x). split; [|lia]. apply (cand_pair out d mem av inputs i j k1 k2 x); try done. apply (Hfit ([k1; k2], k12)). left.
  Qed.
End Reach.

Section Limits.
  Variables (inputs : list (gset N)) (out : gset N) (d : sizes).
  Hypothesis Hne : inputs <> [].
  Hypothesis Hd : Forall (labels_in d) inputs.
  Hypothesis most : forall c, occurrences out inputs c <= 2.
  Hypothesis twice : forall c, c ∈ union_all inputs -> occurrences out inputs c = 2.
  Notation D := (size_of d).
  Notation cost p := (sum_list (step_cost D <$> replay out p inputs)).
  (** The number the search keeps is the cost of the path it returns. *)
  Lemma found_cost ordI mem st f p : (forall s, ordI s ≡ₚ elements s) -> optimal_ssa ordI inputs out d mem = Ok st -> ssa_to_linear (o_path st) = Ok p -> o_flops st = Some f -> cost p = f.
  Proof.
    intros Ho Hst H Hf. destruct (optimal_ssa_ok ordI inputs out d mem Ho Hne Hd) as (st' & Hst' & Hc). assert (st' = st) as -> by congruence.
    destruct (optimal_ssa_best ordI inputs out d mem st Ho Hne Hd most Hst) as [Hbo _]. rewrite (ssa_replay_ok out _ p inputs Hc H).
    assert (Hval : ssa_valid (seq 0 (length inputs)) (length inputs) (o_path st)) by (by apply ssa_runs_valid in Hc as [? _]).
    destruct (bo_cost _ _ _ _ _ Hbo f Hf) as [[-> Hp]|(p0 & s0 & last & Ep & Er & -> & _)].
    - rewrite (valid_costs inputs out d most (o_path st) twice Hval Hp). done.
    - rewrite Er, fmap_app, sum_pairs_app. simpl. unfold total. rewrite Nat.add_0_r. f_equal. f_equal. apply (valid_costs inputs out d most p0 twice).
      { rewrite Ep in Hval. by apply ssa_valid_snoc in Hval as [? _]. }
      pose proof (bo_pairs _ _ _ _ _ Hbo) as Hpre. rewrite Ep, app_length in Hpre. simpl in Hpre. replace (length p0 + 1 - 1) with (length p0) in Hpre by lia. by rewrite take_app in Hpre.
  Qed.
  Lemma more_memory ordI ordI' limit mem p q : (forall s, ordI s ≡ₚ elements s) -> (forall s, ordI' s ≡ₚ elements s) -> 1 <= limit -> (forall limit', mem = Some limit' -> limit <= limit') ->
    optimal ordI inputs out d (Some limit) = Ok p -> optimal ordI' inputs out d mem = Ok q -> cost q <= cost p.
  Proof.
    intros Ho Ho' Hpos Hlim Hp Hq. unfold optimal in Hp, Hq. apply bind_Ok in Hp as (st & Hst & Hp). apply bind_Ok in Hq as (st2 & Hst2 & Hq).
    destruct (optimal_ssa_ok ordI inputs out d (Some limit) Ho Hne Hd) as (st' & Hst' & Hc). assert (st' = st) as -> by congruence.
    destruct (optimal_ssa_best ordI inputs out d (Some limit) st Ho Hne Hd most Hst) as [Hbo Hcands].
    destruct (optimal_ssa_best ordI' inputs out d mem st2 Ho' Hne Hd most Hst2) as [_ Hb].
    assert (Hfits : forall k, volume D k <= limit -> fits d mem k) by (intros k Hk l Hl; specialize (Hlim l Hl); lia).
    assert (Hval : ssa_valid (seq 0 (length inputs)) (length inputs) (o_path st)) by (by apply ssa_runs_valid in Hc as [? _]).
    assert (Hlv : level out inputs (seq 0 (length inputs)) inputs).
    { split; [apply asc_seq|apply seq_lt|by apply start_inv|]. apply Forall_forall. intros k Hk c Hc'. apply elem_union_all. eauto. }
    assert (Hsome : exists f, o_flops st = Some f).
    { destruct (reach ordI Ho out d (Some limit) inputs twice most ltac:(intros ? [= <-]; done) (length inputs - 1) (seq 0 (length inputs)) inputs) as (x & Hx & _); [rewrite seq_length; destruct inputs; [done|simpl; lia]|done|].
      destruct (Hcands x Hx) as (f & Hf & _). eauto. }
    destruct Hsome as [f Hf]. rewrite (found_cost ordI (Some limit) st f p Ho Hst Hp Hf).
    assert (Hx : exists x, cand out d mem (seq 0 (length inputs)) inputs x /\ x <= f).
    { destruct (bo_cost _ _ _ _ _ Hbo f Hf) as [[-> Hpp]|(p0 & s0 & last & Ep & Er & -> & l & k & [= <-] & Hk & Hks)].
      - eexists. split; [|reflexivity]. unfold total. apply (searched_cand ordI Ho) with (inputs0 := inputs); try done; [apply asc_seq|apply seq_lt|]. intros k s Hk.
        destruct (decide (S k < length (o_path st))) as [Hlt|Hge].
        + left. apply Hfits. by eapply (bo_within _ _ _ _ _ Hbo).
        + right. pose proof (lookup_lt_Some _ _ _ Hk) as Hkl. rewrite ssa_replay_length in Hkl. split; [lia|].
          pose proof (valid_costs inputs out d most (o_path st) twice Hval Hpp) as Hag. apply (f_equal (fun l => l !! k)) in Hag. rewrite !list_lookup_fmap, Hk in Hag. by injection Hag.
      - apply (chain ordI' Ho' out d mem inputs twice most) with (s := s0); try done.
        + intros l Hl. specialize (Hlim l Hl). lia.
        + by rewrite <-Ep.
        + pose proof (bo_pairs _ _ _ _ _ Hbo) as Hpre. rewrite Ep, app_length in Hpre. simpl in Hpre. replace (length p0 + 1 - 1) with (length p0) in Hpre by lia. by rewrite take_app in Hpre.
        + intros s Hs. apply Hfits. apply elem_of_list_lookup in Hs as (m & Hm). pose proof (lookup_lt_Some _ _ _ Hm) as Hml. rewrite ssa_replay_length in Hml.
          apply (bo_within _ _ _ _ _ Hbo limit s m); [done|rewrite Er; by apply lookup_app_l_Some|]. rewrite Ep, app_length. simpl. lia.
        + by rewrite <-Ep.
        + intros H1. assert (volume D k <= 1); [|lia]. rewrite <-H1. apply volume_sub; [lia|done]. }
    destruct Hx as (x & Hx & Hle). destruct (Hb x Hx) as (g & Hg & Hgle). rewrite (found_cost ordI' mem st2 g q Ho' Hst2 Hq Hg). lia.
  Qed.
End Limits.
