(** [_find_disconnected_subgraphs] finds the connected parts. *)
From Verif Require Import Prelude Einsum EinsumFacts Helpers Contract Ssa Optimal Tree PathSpec DpSpec Dp.
From stdpp Require Import relations.

Section Parts.
  Variable ordI : gset nat -> list nat.
  Variable pop : gset nat -> nat.
  Hypothesis ordI_ok : forall s, ordI s ≡ₚ elements s.
  Hypothesis pop_ok : forall s, s <> ∅ -> pop s ∈ s.
  Variable inputs : list (gset N).
  Variable out : gset N.
  Notation i_sum := (union_sets inputs ∖ out).
  Notation link := (linked inputs out).

  Lemma elem_union_sets c (l : list (gset N)) : c ∈ union_sets l <-> exists k, k ∈ l /\ c ∈ k.
  Proof.
    unfold union_sets. induction l as [|k l IH]; simpl; [split; [by intros ?%elem_of_empty|by intros (k & ?%elem_of_nil & _)]|].
    rewrite elem_of_union, IH. split.
    - intros [Hc|(k' & H1 & H2)]; [exists k; split; [left|done]|exists k'; split; [by right|done]].
    - intros (k' & [->|Hin]%elem_of_cons & Hc); [by left|right; eauto].
  Qed.
  Lemma neighbour j k : 0 < size (i_sum ∩ input_at inputs j ∩ input_at inputs k) <-> link j k.
  Proof.
    assert (Hs : forall X : gset N, 0 < size X <-> exists c, c ∈ X).
    { intros X. split.
      - intros H. destruct (set_choose_or_empty X) as [[c Hc]|E]; [eauto|]. apply size_empty_iff in E. lia.
      - intros [c Hc]. destruct (decide (size X = 0)) as [E|E]; [|lia]. apply size_empty_iff in E. set_solver. }
    rewrite Hs. unfold linked, input_at, labels_of. split; intros (c & Hc).
    - exists c. set_solver.
    - exists c. destruct Hc as (H1 & H2 & H3). apply elem_of_intersection. split; [|done]. apply elem_of_intersection. split; [|done].
      apply elem_of_difference. split; [|done]. apply elem_union_sets. destruct (inputs !! j) as [kj|] eqn:E; [|by apply elem_of_empty in H1].
      exists kj. split; [by eapply elem_of_list_lookup_2|done].
  Qed.

  Lemma grow_ok fuel q U g j0 : NoDup q -> (forall x, x ∈ q -> x ∉ U) -> (forall x, x ∈ q -> x ∉ g) -> g ## U -> 
    (forall x y, x ∈ g \/ x ∈ q \/ x ∈ U -> link x y -> y ∈ g \/ y ∈ q \/ y ∈ U) -> (forall x y, x ∈ g -> link x y -> y ∉ U) ->
    (forall x, x ∈ g \/ x ∈ q -> rtc link j0 x) -> length q + size U <= fuel ->
    exists g' U', grow ordI inputs i_sum fuel q U g = Ok (g', U') /\ g' ## U' /\ (forall x, x ∈ g' \/ x ∈ U' <-> x ∈ g \/ x ∈ q \/ x ∈ U) /\
      (forall x, x ∈ g \/ x ∈ q -> x ∈ g') /\ (forall x, x ∈ g' -> rtc link j0 x) /\ (forall x y, x ∈ g' -> link x y -> y ∈ g').
  Proof.
    revert q U g. induction fuel as [|fuel IH]; intros q U g Hnd HqU Hqg HgU Hcl Hg Hr Hf; simpl; destruct (reverse q) as [|j rq] eqn:Eq;
      apply (f_equal reverse) in Eq; rewrite reverse_involutive in Eq; rewrite ?reverse_cons in Eq; subst q.
    1, 3: exists g, U; split; [done|]; split; [done|]; split; [intros x; split; [tauto|intros [?|[?%elem_of_nil|?]]; tauto]|];
      split; [by intros x [?|?%elem_of_nil]|]; split; [intros x Hx; apply Hr; by left|]; intros x y Hx Hxy; destruct (Hcl x y) as [?|[?%elem_of_nil|?]]; [by left|done|done|done|by apply (Hg x y) in Hx].
    - rewrite app_length in Hf. simpl in Hf. lia.
    - set (q := reverse rq) in *. set (nb := filter (fun k => 0 < size (i_sum ∩ input_at inputs j ∩ input_at inputs k)) U).
      assert (Hnb : forall k, k ∈ nb <-> link j k /\ k ∈ U) by (intros k; unfold nb; rewrite elem_of_filter, neighbour; done).
      assert (Hin : forall x, x ∈ q ++ ordI nb <-> x ∈ q \/ x ∈ nb) by (intros x; rewrite elem_of_app, ordI_ok, elem_of_elements; done).
      apply NoDup_app in Hnd as (Hq & Hjq & _). assert (Hj : j ∉ q) by (intros Hj; apply (Hjq j Hj); left). clear Hjq.
      assert (HjU : j ∉ U) by (apply HqU, elem_of_app; right; left).
      assert (Hjg : j ∉ g) by (apply Hqg, elem_of_app; right; left).
      assert (HqU' : forall x, x ∈ q -> x ∉ U) by (intros x Hx; apply HqU, elem_of_app; by left).
      assert (Hqg' : forall x, x ∈ q -> x ∉ g) by (intros x Hx; apply Hqg, elem_of_app; by left).
      assert (Hsplit : forall x, x ∈ g ∪ {[j]} \/ x ∈ q ++ ordI nb \/ x ∈ U ∖ nb <-> x ∈ g \/ x ∈ q ++ [j] \/ x ∈ U).
      { intros x. rewrite Hin, elem_of_app, elem_of_list_singleton, elem_of_union, elem_of_singleton, elem_of_difference. pose proof (Hnb x).
        destruct (decide (x ∈ nb)); tauto. }
      destruct (IH (q ++ ordI nb) (U ∖ nb) (g ∪ {[j]})) as (g' & U' & H1 & H2 & H3 & H4 & H5 & H6).
      + apply NoDup_app. split; [done|]. split; [|rewrite ordI_ok; apply NoDup_elements]. intros x Hx Hx'. rewrite ordI_ok, elem_of_elements, Hnb in Hx'. destruct Hx' as [_ Hx']. by apply (HqU' x).
      + intros x [Hx|Hx]%Hin; [|set_solver]. apply HqU' in Hx. set_solver.
      + intros x [Hx|Hx]%Hin; [apply Hqg' in Hx as Hx'; rewrite elem_of_union, elem_of_singleton; intros [?| ->]; done|].
        apply Hnb in Hx as [_ Hx]. rewrite elem_of_union, elem_of_singleton. intros [?| ->]; [set_solver|done].
      + intros x [?| ->%elem_of_singleton]%elem_of_union; set_solver.
      + intros x y Hx%Hsplit Hxy. apply Hsplit. by apply (Hcl x y).
      + intros x y [Hx|Hx%elem_of_singleton]%elem_of_union Hxy Hy%elem_of_difference; destruct Hy as [Hy Hyn]; [by apply (Hg x y)|subst x].
        apply Hyn, Hnb. done.
      + intros x Hx. assert (Hx' : x ∈ g \/ x ∈ q ++ [j] \/ x ∈ nb).
        { rewrite Hin in Hx. rewrite elem_of_app, elem_of_list_singleton. rewrite elem_of_union, elem_of_singleton in Hx. tauto. }
        destruct Hx' as [Hx'|[Hx'|Hx']]; [apply Hr; by left|apply Hr; by right|]. apply Hnb in Hx' as [Hl _].
        eapply rtc_r; [|exact Hl]. apply Hr. right. apply elem_of_app. right. left.
      + rewrite app_length in Hf. simpl in Hf. rewrite app_length, ordI_ok. change (length (elements nb)) with (size nb).
        assert (Hsz : size (U ∖ nb) + size nb = size U); [|lia]. assert (Hsub : nb ⊆ U) by (intros x Hx%Hnb; by destruct Hx).
        rewrite <-size_union by set_solver. f_equal. apply set_eq. intros x. destruct (decide (x ∈ nb)); set_solver.
      + exists g', U'. split; [exact H1|]. split; [done|]. split; [intros x; rewrite H3; apply Hsplit|]. split; [|done].
        intros x Hx. apply H4. rewrite Hin, elem_of_union, elem_of_singleton. rewrite elem_of_app, elem_of_list_singleton in Hx. tauto.
  Qed.

  Lemma link_sym x y : link x y -> link y x.
  Proof. intros (c & ? & ? & ?). exists c. done. Qed.
  Record parts_ok (U : gset nat) (acc : list (gset nat)) : Prop := PartsOk {
    po_part : forall g, g ∈ acc -> g <> ∅ /\ forall i j, i ∈ g -> (j ∈ g <-> rtc link i j);
    po_disjoint : forall a b g h, acc !! a = Some g -> acc !! b = Some h -> a <> b -> g ## h;
    po_unused : forall g, g ∈ acc -> g ## U;
    po_closed : forall x y, x ∈ U -> link x y -> y ∈ U;
    po_cover : forall j, j < length inputs <-> j ∈ U \/ exists g, g ∈ acc /\ j ∈ g }.
  Lemma parts_loop_ok fuel U acc : parts_ok U acc -> size U <= fuel -> exists gs, parts ordI pop inputs i_sum fuel U acc = Ok gs /\ parts_ok ∅ gs.
  Proof.
    revert U acc. induction fuel as [|fuel IH]; intros U acc Hok Hf; simpl; destruct (decide (U = ∅)) as [->|Hne]; try by eauto.
    - exfalso. apply Hne. apply leibniz_equiv, size_empty_iff. lia.
    - pose proof (pop_ok U Hne) as Hj. set (j := pop U) in *.
      assert (HU : forall x, x ∈ (∅ : gset nat) \/ x ∈ [j] \/ x ∈ U ∖ {[j]} <-> x ∈ U).
      { intros x. rewrite elem_of_list_singleton, elem_of_difference, elem_of_singleton. destruct (decide (x = j)) as [->|]; set_solver. }
      destruct (grow_ok (size U) [j] (U ∖ {[j]}) ∅ j) as (g & U' & -> & H2 & H3 & H4 & H5 & H6).
      + apply NoDup_singleton.
      + set_solver.
      + set_solver.
      + set_solver.
      + intros x y Hx%HU Hxy. apply HU. by apply (po_closed _ _ Hok x y).
      + set_solver.
      + intros x [?%elem_of_empty| ->%elem_of_list_singleton]; [done|apply rtc_refl].
      + simpl. assert (Hsz : size (U ∖ {[j]}) + size ({[j]} : gset nat) = size U); [|rewrite size_singleton in Hsz; lia].
        rewrite <-size_union by set_solver. f_equal. apply set_eq. intros x. destruct (decide (x = j)) as [->|]; set_solver.
      + cbn [mbind res_bind]. setoid_rewrite HU in H3. assert (Hjg : j ∈ g) by (apply H4; right; left).
        assert (Hcomp : forall i k, i ∈ g -> (k ∈ g <-> rtc link i k)).
        { assert (Hclosed : forall x y, rtc link x y -> x ∈ g -> y ∈ g) by (induction 1; eauto).
          assert (Hsym : forall x y, rtc link x y -> rtc link y x) by (induction 1 as [|x y z Hxy _ IHr]; [apply rtc_refl|eapply rtc_r; [exact IHr|by apply link_sym]]).
          intros i k Hi. split; [|intros Hr; by apply (Hclosed i k)]. intros Hk. transitivity j; [apply Hsym|]; by apply H5. }
        apply IH.
        * split.
          -- intros g0 [Hg0|Hg0]%elem_of_app; [by apply Hok|]. apply elem_of_list_singleton in Hg0 as ->. split; [|done]. intros E. rewrite E in Hjg. by apply elem_of_empty in Hjg.
          -- assert (Hnew : forall a h, acc !! a = Some h -> h ## g).
             { intros a h Ha%elem_of_list_lookup_2. apply (po_unused _ _ Hok) in Ha. intros x Hx Hxg. apply (Ha x Hx). apply H3. by left. }
             intros a b g1 g2 Ha Hb Hab. apply lookup_app_Some in Ha as [Ha|[La Ha]], Hb as [Hb|[Lb Hb]].
             ++ by eapply (po_disjoint _ _ Hok a b).
             ++ apply list_lookup_singleton_Some in Hb as [_ <-]. by eapply Hnew.
             ++ apply list_lookup_singleton_Some in Ha as [_ <-]. symmetry. by eapply Hnew.
             ++ apply list_lookup_singleton_Some in Ha as [Ea _], Hb as [Eb _]. lia.
          -- intros g0 [Hg0|Hg0]%elem_of_app; [|apply elem_of_list_singleton in Hg0 as ->; done]. apply (po_unused _ _ Hok) in Hg0. intros x Hx HxU. apply (Hg0 x Hx), H3. by right.
          -- intros x y Hx Hxy. assert (Hy : y ∈ U) by (eapply (po_closed _ _ Hok); [apply H3; by right|done]). apply H3 in Hy as [Hy|Hy]; [|done].
             exfalso. apply (H2 x); [|done]. apply (H6 y x Hy). by apply link_sym.
          -- intros k. rewrite (po_cover _ _ Hok k), <-H3. setoid_rewrite elem_of_app. setoid_rewrite elem_of_list_singleton. split.
             ++ intros [[?|?]|(g0 & ? & ?)]; [right; exists g; auto|by left|right; exists g0; auto].
             ++ intros [?|(g0 & [?| ->] & ?)]; [auto|right; eauto|auto].
        * assert (Hlt : size U' < size U); [|lia]. apply subset_size. split.
          -- intros x Hx. apply H3. by right.
          -- intros Hsub. apply Hsub in Hj. by apply (H2 j).
  Qed.
  Lemma find_parts_ok : inputs <> [] -> exists gs, find_parts ordI pop inputs out = Ok gs /\ connected_parts inputs out gs.
  Proof.
    intros Hne. unfold find_parts. destruct inputs as [|k0 l0] eqn:Ei; [done|]. rewrite <-Ei in *.
    destruct (parts_loop_ok (length inputs) (set_seq 0 (length inputs)) []) as (gs & Hgs & Hok).
    - split; [by intros g ?%elem_of_nil|done|by intros g ?%elem_of_nil| |].
      + intros x y _ (c & _ & Hc & _). apply elem_of_set_seq. split; [lia|]. unfold labels_of in Hc. destruct (inputs !! y) eqn:E; [by apply lookup_lt_Some in E|by apply elem_of_empty in Hc].
      + intros j. rewrite elem_of_set_seq. split; [intros; left; lia|intros [?|(g & ?%elem_of_nil & _)]; [lia|done]].
    - by rewrite size_set_seq.
    - exists gs. split; [done|]. destruct Hok as [H1 H2 _ _ H5]. split; [done|done|]. intros j. rewrite H5. split; [by intros [?%elem_of_empty|?]|by right].
  Qed.
End Parts.
