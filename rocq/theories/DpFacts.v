(** The tables of the dynamic programming search hold the cheapest trees. *)
From Verif Require Import Prelude Einsum EinsumFacts Helpers Contract Spec PathSpec StringFacts StepFacts ContractFacts PathFacts Ssa SsaSpec SsaFacts SsaMore Optimal OptimalFacts OptimalBest Tree TreeSpec TreeFacts DpSpec Dp PartsFacts.

(** ** Bitmaps *)
Definition is_bm (s : N) (S : gset nat) : Prop := forall j, N.testbit s (N.of_nat j) = bool_decide (j ∈ S).
Lemma bm_ext s s' : (forall j, N.testbit s (N.of_nat j) = N.testbit s' (N.of_nat j)) -> s = s'.
Proof. intros H. apply N.bits_inj. intros j. specialize (H (N.to_nat j)). by rewrite N2Nat.id in H. Qed.
Lemma bm_unique s s' S : is_bm s S -> is_bm s' S -> s = s'.
Proof. intros H H'. apply bm_ext. intros j. by rewrite H, H'. Qed.
Lemma bm_inj s S S' : is_bm s S -> is_bm s S' -> S = S'.
Proof.
  intros H H'. apply set_eq. intros j. specialize (H j). specialize (H' j). rewrite H in H'.
  rewrite <-(bool_decide_eq_true (j ∈ S)), <-(bool_decide_eq_true (j ∈ S')). by rewrite H'.
Qed.
Lemma bm_bit j : is_bm (bit j) {[j]}.
Proof.
  intros k. unfold bit. rewrite N.shiftl_1_l. destruct (decide (k = j)) as [->|Hn].
  - rewrite N.pow2_bits_true. symmetry. apply bool_decide_true. set_solver.
  - rewrite N.pow2_bits_false by lia. symmetry. apply bool_decide_false. set_solver.
Qed.
Lemma bm_lor s s' S S' : is_bm s S -> is_bm s' S' -> is_bm (N.lor s s') (S ∪ S').
Proof.
  intros H H' j. rewrite N.lor_spec, H, H'. repeat case_bool_decide; simpl; try done; set_solver.
Qed.
Lemma bm_empty : is_bm 0 ∅.
Proof. intros j. rewrite N.bits_0. symmetry. apply bool_decide_false. set_solver. Qed.
Lemma bm_disjoint s s' S S' : is_bm s S -> is_bm s' S' -> N.eqb (N.land s s') 0 = bool_decide (S ## S').
Proof.
  intros H H'. assert (Hi : is_bm (N.land s s') (S ∩ S')).
  { intros j. rewrite N.land_spec, H, H'. repeat case_bool_decide; simpl; try done; set_solver. }
  case_bool_decide as Hd.
  - apply N.eqb_eq. eapply bm_unique; [exact Hi|]. replace (S ∩ S') with (∅ : gset nat) by set_solver. apply bm_empty.
  - apply N.eqb_neq. intros E. apply Hd. rewrite E in Hi. pose proof (bm_inj _ _ _ Hi bm_empty). set_solver.
Qed.
Lemma bm_all n : is_bm (N.sub (bit n) 1) (set_seq 0 n).
Proof.
  assert (E : N.sub (bit n) 1 = N.ones (N.of_nat n)) by (rewrite N.ones_equiv; unfold bit; rewrite N.shiftl_1_l; lia).
  rewrite E. intros j. destruct (decide (j < n)) as [Hj|Hj].
  - rewrite N.ones_spec_low by lia. symmetry. apply bool_decide_true. apply elem_of_set_seq. lia.
  - rewrite N.ones_spec_high by lia. symmetry. apply bool_decide_false. rewrite elem_of_set_seq. lia.
Qed.
Lemma bm_rest g all s G S n : is_bm g G -> is_bm all (set_seq 0 n) -> is_bm s S -> (forall j, j ∈ G -> j < n) -> is_bm (N.land g (N.lxor all s)) (G ∖ S).
Proof.
  intros Hg Ha Hs Hn j. rewrite N.land_spec, N.lxor_spec, Hg, Ha, Hs. destruct (decide (j ∈ G)) as [Hj|Hj].
  - rewrite (bool_decide_true (j ∈ G)) by done. rewrite (bool_decide_true (j ∈ set_seq 0 n)) by (apply elem_of_set_seq; apply Hn in Hj; lia).
    destruct (decide (j ∈ S)); [rewrite (bool_decide_true (j ∈ S)), bool_decide_false|rewrite (bool_decide_false (j ∈ S)), bool_decide_true]; set_solver.
  - rewrite (bool_decide_false (j ∈ G)) by done. simpl. symmetry. apply bool_decide_false. set_solver.
Qed.
Lemma bm_foldl l s S : is_bm s S -> is_bm (foldl (fun a j => N.lor a (bit j)) s l) (S ∪ list_to_set l).
Proof.
  revert s S. induction l as [|j l IH]; intros s S H; simpl; [by replace (S ∪ ∅) with S by set_solver|].
  replace (S ∪ ({[j]} ∪ list_to_set l)) with ((S ∪ {[j]}) ∪ list_to_set l : gset nat) by set_solver. apply IH. apply bm_lor; [done|apply bm_bit].
Qed.
Lemma elem_select s S inputs c : is_bm s S -> c ∈ union_sets (bitmap_select s inputs) <-> exists j, j ∈ S /\ c ∈ labels_of inputs j.
Proof.
  intros H. rewrite elem_union_sets. unfold bitmap_select. setoid_rewrite elem_of_list_omap. split.
  - intros (k & ([j k'] & Hin & Hb) & Hc). simpl in Hb. rewrite H in Hb. case_bool_decide as HS; [|done]. injection Hb as ->. exists j. split; [done|].
    apply elem_of_list_lookup in Hin as [i Hi]. apply lookup_zip_with_Some in Hi as (x & y & [= <- <-] & H1 & H2). apply lookup_seq in H1 as [-> _]. unfold labels_of. simpl. by rewrite H2.
  - intros (j & Hj & Hc). unfold labels_of in Hc. destruct (inputs !! j) as [k|] eqn:E; [|by apply elem_of_empty in Hc]. exists k. split; [|done]. exists (j, k). split.
    + apply elem_of_list_lookup. exists j. apply lookup_zip_with_Some. exists j, k. split; [done|]. split; [|done]. apply lookup_seq. split; [done|]. by eapply lookup_lt_Some.
    + simpl. rewrite H. by rewrite bool_decide_true.
Qed.

(** ** Tables *)
Lemma tbl_get_elem s t e : tbl_get s t = Some e -> (s, e) ∈ t.
Proof.
  induction t as [|[s' e'] t IH]; simpl; [done|]. destruct (N.eqb_spec s s') as [->|]; [intros [= ->]; left|]. intros. right. auto.
Qed.
Lemma tbl_elem_get s t e : NoDup (t.*1) -> (s, e) ∈ t -> tbl_get s t = Some e.
Proof.
  induction t as [|[s' e'] t IH]; simpl; [by intros _ ?%elem_of_nil|]. rewrite NoDup_cons. intros [Hn Hnd] [[= <- <-]|Hin]%elem_of_cons; [by rewrite N.eqb_refl|].
  destruct (N.eqb_spec s s') as [->|]; [|auto]. exfalso. apply Hn. apply elem_of_list_fmap. exists (s', e). done.
Qed.
Lemma tbl_get_none s t : tbl_get s t = None -> s ∉ t.*1.
Proof.
  induction t as [|[s' e'] t IH]; simpl; [intros _ ?%elem_of_nil; done|]. destruct (N.eqb_spec s s') as [->|]; [done|]. intros H [?|?]%elem_of_cons; [done|]. by apply IH.
Qed.
Lemma tbl_get_set s s' e t : tbl_get s (tbl_set s' e t) = if N.eqb s s' then Some e else tbl_get s t.
Proof.
  induction t as [|[s0 e0] t IH]; simpl; [done|]. destruct (N.eqb_spec s' s0) as [->|Hn]; simpl.
  - by destruct (N.eqb s s0).
  - rewrite IH. destruct (N.eqb_spec s s0) as [->|]; [|done]. destruct (N.eqb_spec s0 s') as [->|]; [done|done].
Qed.
Lemma tbl_set_elem s e t p : p ∈ tbl_set s e t -> p = (s, e) \/ p ∈ t.
Proof.
  induction t as [|[s0 e0] t IH]; simpl; [intros ?%elem_of_list_singleton; auto|]. destruct (N.eqb_spec s s0) as [->|]; intros [->|Hp]%elem_of_cons.
  - by left. - right. by right. - right. left. - apply IH in Hp as [?|?]; [by left|right; by right].
Qed.
Lemma tbl_set_keys s e t : (tbl_set s e t).*1 = if decide (s ∈ t.*1) then t.*1 else t.*1 ++ [s].
Proof.
  induction t as [|[s0 e0] t IH]; [done|]. cbn [tbl_set]. destruct (N.eqb_spec s s0) as [->|Hn].
  - rewrite decide_True by left. done.
  - rewrite !fmap_cons. cbn [fst]. rewrite IH. destruct (decide (s ∈ t.*1)).
    + rewrite decide_True by by right. done.
    + rewrite decide_False; [done|]. intros [?|?]%elem_of_cons; done.
Qed.
Lemma tbl_set_NoDup s e t : NoDup (t.*1) -> NoDup ((tbl_set s e t).*1).
Proof.
  rewrite tbl_set_keys. case_decide as H; [done|]. intros Hnd. apply NoDup_app. split; [done|]. split; [|apply NoDup_singleton]. by intros x Hx ->%elem_of_list_singleton.
Qed.
Definition tbl_le (t t' : table) : Prop := forall s e, tbl_get s t = Some e -> exists e', tbl_get s t' = Some e' /\ e'.1.2 <= e.1.2.
Lemma tbl_le_refl t : tbl_le t t.
Proof. intros s e H. eauto. Qed.
Lemma tbl_le_trans t1 t2 t3 : tbl_le t1 t2 -> tbl_le t2 t3 -> tbl_le t1 t3.
Proof. intros H1 H2 s e H. destruct (H1 s e H) as (e2 & He2 & L2). destruct (H2 s e2 He2) as (e3 & He3 & L3). exists e3. split; [done|lia]. Qed.

(** Every element of a fold leaves its mark. *)
Lemma foldM_each {A S} (f : S -> A -> res S) (I : S -> Prop) (R : S -> S -> Prop) (Q : A -> S -> Prop) (l : list A) s :
  (forall s, R s s) -> (forall s1 s2 s3, R s1 s2 -> R s2 s3 -> R s1 s3) -> (forall a s1 s2, Q a s1 -> R s1 s2 -> Q a s2) ->
  (forall s a, I s -> a ∈ l -> exists s', f s a = Ok s' /\ I s' /\ R s s' /\ Q a s') -> I s ->
  exists s', foldM_res f s l = Ok s' /\ I s' /\ R s s' /\ forall a, a ∈ l -> Q a s'.
Proof.
  intros Hrefl Htr Hup. revert s. induction l as [|a l IH]; intros s Hstep Hs.
  - exists s. split; [done|]. split; [done|]. split; [done|]. by intros a ?%elem_of_nil.
  - simpl. destruct (Hstep s a Hs) as (s1 & -> & Hs1 & HR1 & HQ1); [left|]. cbn [mbind res_bind].
    destruct (IH s1) as (s2 & H2 & Hs2 & HR2 & HQ2); [|done|].
    + intros s' a' Hs' Ha'. apply Hstep; [done|by right].
    + exists s2. split; [exact H2|]. split; [done|]. split; [by eapply Htr|]. intros a' [->|Ha']%elem_of_cons; [by eapply Hup|by apply HQ2].
Qed.

(** ** Trees *)
Section Part.
  Variable minimize : dp_min.
  Variable search_outer : bool.
  Variable d : sizes.
  Variable inputs : list (gset N).
  Variable output : gset N.
  Variable G : gset nat.
  Variables (g all : N).
  Variable mem : option nat.
  Variable ctr : list tree.
  Hypothesis HG : forall j, j ∈ G -> j < length inputs.
  Hypothesis Hg : is_bm g G.
  Hypothesis Hall : all = N.sub (bit (length inputs)) 1.
  Hypothesis Hd : forall j c, c ∈ labels_of inputs j -> is_Some (d !! c).
  (** Every label of a term of the part occurs elsewhere, in the part or in the output. *)
  Hypothesis Htwice : forall i c, i ∈ G -> c ∈ labels_of inputs i -> c ∈ output \/ exists j, j ∈ G /\ j <> i /\ c ∈ labels_of inputs j.
  Notation D := (size_of d).
  Notation lg := (legs inputs output G).

  Definition combine (c1 c2 f m : nat) : nat := match minimize with
    | DpFlops => c1 + c2 + f
    | DpSize => Nat.max (Nat.max c1 c2) m
    | DpWrite => c1 + c2 + m
    | DpCombo factor => c1 + c2 + (f + factor * m)
    | DpLimit factor => c1 + c2 + Nat.max f (factor * m)
    | DpLocal cost => c1 + c2 + cost f m
    end.
  Definition tcost : btree -> nat := mode_cost inputs output D G minimize.
  Lemma tcost_leaf j : tcost (BLeaf j) = 0.
  Proof. unfold tcost, mode_cost. by destruct minimize. Qed.
  Lemma tcost_node l r : tcost (BNode l r) = combine (tcost l) (tcost r) (node_flops inputs output D G l r) (node_size inputs output D G l r).
  Proof. unfold tcost, combine, mode_cost. by destruct minimize. Qed.
  Lemma combine_mono c1 c2 c1' c2' f m : c1 <= c1' -> c2 <= c2' -> combine c1 c2 f m <= combine c1' c2' f m.
  Proof. unfold combine. destruct minimize; lia. Qed.
  Lemma combine_ge c1 c2 f m : c1 <= combine c1 c2 f m /\ c2 <= combine c1 c2 f m.
  Proof. unfold combine. destruct minimize; lia. Qed.
  Lemma combine_swap c1 c2 f m : combine c1 c2 f m = combine c2 c1 f m.
  Proof. unfold combine. destruct minimize; lia. Qed.

  Fixpoint realize (t : btree) : tree := match t with BLeaf j => default (Leaf 0) (ctr !! j) | BNode l r => Node [realize l; realize r] end.
  Definition tvalid (t : btree) : Prop := allowed inputs output D G search_outer mem t.
  Definition in_part (t : btree) : Prop := NoDup (bleaves t) /\ bset t ⊆ G.

  Lemma elem_bset j t : j ∈ bset t <-> j ∈ bleaves t.
  Proof. unfold bset. by rewrite elem_of_list_to_set. Qed.
  Lemma bset_node l r : bset (BNode l r) = bset l ∪ bset r.
  Proof. unfold bset. simpl. by rewrite list_to_set_app_L. Qed.
  Lemma in_part_node l r : in_part (BNode l r) <-> in_part l /\ in_part r /\ bset l ## bset r.
  Proof.
    unfold in_part. rewrite bset_node. simpl. rewrite NoDup_app. split.
    - intros ((H1 & H2 & H3) & H4). split; [split; [done|set_solver]|]. split; [split; [done|set_solver]|]. intros j Hj Hj'. rewrite elem_bset in Hj, Hj'. by apply (H2 j).
    - intros ((H1 & H2) & (H3 & H4) & H5). split; [|set_solver]. split; [done|]. split; [|done]. intros j Hj Hj'. apply (H5 j); by rewrite elem_bset.
  Qed.
  Lemma size_bset t : NoDup (bleaves t) -> size (bset t) = length (bleaves t).
  Proof. intros H. unfold bset. by apply size_list_to_set. Qed.

  (** ** Legs *)
  Lemma elem_labels_in_set c S : c ∈ labels_in_set inputs S <-> exists j, j ∈ S /\ c ∈ labels_of inputs j.
  Proof.
    unfold labels_in_set. rewrite elem_of_union_list. split.
    - intros (X & HX & Hc). apply elem_of_list_fmap in HX as (j & -> & Hj%elem_of_elements). eauto.
    - intros (j & Hj & Hc). exists (labels_of inputs j). split; [|done]. apply elem_of_list_fmap. exists j. split; [done|]. by apply elem_of_elements.
  Qed.
  Lemma elem_legs c S : c ∈ lg S <-> (exists j, j ∈ S /\ c ∈ labels_of inputs j) /\ (c ∈ output \/ exists j, j ∈ G /\ j ∉ S /\ c ∈ labels_of inputs j).
  Proof.
    unfold legs. rewrite elem_of_intersection, elem_of_union, !elem_labels_in_set. setoid_rewrite elem_of_difference. split; intros [H1 H2]; (split; [done|]); destruct H2 as [?|(j & H)]; auto; right; exists j; tauto.
  Qed.
  Lemma legs_labels S c : c ∈ lg S -> is_Some (d !! c).
  Proof. intros [(j & _ & Hc) _]%elem_legs. by eapply Hd. Qed.
  Lemma legs_leaf j : j ∈ G -> lg {[j]} = labels_of inputs j.
  Proof.
    intros Hj. apply set_eq. intros c. rewrite elem_legs. split.
    - intros [(j' & ->%elem_of_singleton & Hc) _]. done.
    - intros Hc. split; [exists j; set_solver|]. destruct (Htwice j c Hj Hc) as [?|(j' & H1 & H2 & H3)]; [by left|right]. exists j'. set_solver.
  Qed.
  Lemma calc_legs_ok s1 s2 S1 S2 : is_bm s1 S1 -> is_bm s2 S2 -> S1 ⊆ G -> S2 ⊆ G -> S1 ## S2 ->
    calc_legs g all (N.lor s1 s2) inputs ((lg S1 ∩ lg S2) ∖ output) (lg S1 ∪ lg S2) = lg (S1 ∪ S2).
  Proof.
    intros H1 H2 HS1 HS2 Hdis. unfold calc_legs.
    assert (Hr : is_bm (N.land g (N.lxor all (N.lor s1 s2))) (G ∖ (S1 ∪ S2))).
    { eapply bm_rest; [exact Hg|rewrite Hall; apply bm_all|by apply bm_lor|exact HG]. }
    set (r := N.land g _) in *. set (i_r := if N.eqb r 0 then ∅ else union_sets (bitmap_select r inputs)).
    assert (Hi : forall c, c ∈ i_r <-> exists j, j ∈ G ∖ (S1 ∪ S2) /\ c ∈ labels_of inputs j).
    { intros c. unfold i_r. destruct (N.eqb_spec r 0) as [E|E]; [|by apply elem_select].
      rewrite E in Hr. pose proof (bm_inj _ _ _ Hr bm_empty) as HE. split; [by intros ?%elem_of_empty|]. intros (j & Hj & _). rewrite HE in Hj. by apply elem_of_empty in Hj. }
    apply set_eq. intros c. rewrite !elem_of_difference, !elem_of_union, elem_of_intersection, Hi. split.
    - intros [Hc Hn].
      assert (Hk : c ∈ output \/ exists j, j ∈ G ∖ (S1 ∪ S2) /\ c ∈ labels_of inputs j).
      { destruct (decide (c ∈ output)) as [?|Ho]; [by left|]. destruct (decide (c ∈ i_r)) as [Hir|Hir]; [right; by apply Hi|]. exfalso.
        apply Hn. split; [|by rewrite <-Hi]. split; [|done]. rewrite !elem_legs.
        assert (Hboth : (exists j, j ∈ S1 /\ c ∈ labels_of inputs j) /\ (exists j, j ∈ S2 /\ c ∈ labels_of inputs j)).
        { assert (Hcase : forall j, j ∈ G -> c ∈ labels_of inputs j -> j ∈ S1 \/ j ∈ S2).
          { intros j Hj Hcj. destruct (decide (j ∈ S1)); [by left|]. destruct (decide (j ∈ S2)); [by right|]. exfalso. apply Hir, Hi. exists j. set_solver. }
          destruct Hc as [[(j & Hj & Hcj) [?|(j' & Hj' & Hn' & Hcj')]]%elem_legs|[(j & Hj & Hcj) [?|(j' & Hj' & Hn' & Hcj')]]%elem_legs]; try done.
          - split; [eauto|]. exists j'. destruct (Hcase j' Hj' Hcj'); [done|done].
          - split; [|eauto]. exists j'. destruct (Hcase j' Hj' Hcj'); [done|done]. }
        destruct Hboth as [(j1 & Hj1 & Hc1) (j2 & Hj2 & Hc2)]. split; (split; [eauto|]); right.
        - exists j2. split; [by apply HS2|]. split; [|done]. intros ?. by apply (Hdis j2).
        - exists j1. split; [by apply HS1|]. split; [|done]. intros ?. by apply (Hdis j1). }
      apply elem_legs. split.
      + destruct Hc as [[(j & Hj & Hcj) _]%elem_legs|[(j & Hj & Hcj) _]%elem_legs]; exists j; set_solver.
      + destruct Hk as [?|(j & Hj & Hcj)]; [by left|right]. exists j. set_solver.
    - intros [(j & Hj & Hcj) Hk]%elem_legs. split.
      + apply elem_of_union in Hj as [Hj|Hj]; [left|right]; apply elem_legs; (split; [eauto|]); destruct Hk as [?|(j' & H & H' & H'')]; auto; right; exists j'; set_solver.
      + intros [[_ Ho] Hir]. destruct Hk as [?|(j' & H & H' & H'')]; [done|]. apply Hir. exists j'. set_solver.
  Qed.

  (** ** Entries *)
  Definition fits_entry (cap : option nat) (t : btree) (p : N * entry) : Prop :=
    in_part t /\ is_bm p.1 (bset t) /\ p.2 = (lg (bset t), tcost t, realize t) /\ tvalid t /\ le_cap (tcost t) cap = true.
  Definition entry_ok (cap : option nat) (m : nat) (p : N * entry) : Prop := exists t, fits_entry cap t p /\ length (bleaves t) = m.
  Definition table_ok (cap : option nat) (m : nat) (t : table) : Prop := Forall (entry_ok cap m) t /\ NoDup (t.*1).
  Definition has (x : table) (s : N) (c : nat) : Prop := exists e, tbl_get s x = Some e /\ e.1.2 <= c.
  Lemma has_up x x' s c : has x s c -> tbl_le x x' -> has x' s c.
  Proof. intros (e & H1 & H2) Hle. destruct (Hle s e H1) as (e' & H3 & H4). exists e'. split; [done|lia]. Qed.

  Lemma dp_compare_eq cap s1 s2 t1 t2 e1 e2 xn : fits_entry cap t1 (s1, e1) -> fits_entry cap t2 (s2, e2) -> bset t1 ## bset t2 ->
    dp_compare minimize d inputs g all mem cap s1 s2 e1 e2 ((e1.1.1 ∩ e2.1.1) ∖ output) (e1.1.1 ∪ e2.1.1) xn =
    let cost := tcost (BNode t1 t2) in
    Ok (if le_cap cost cap && (match tbl_get (N.lor s1 s2) xn with None => true | Some (_, old, _) => cost <? old end) && le_cap (node_size inputs output D G t1 t2) mem
        then tbl_set (N.lor s1 s2) (lg (bset (BNode t1 t2)), cost, realize (BNode t1 t2)) xn else xn).
  Proof.
    intros (Hp1 & Hb1 & He1 & _) (Hp2 & Hb2 & He2 & _) Hdis. simpl in Hb1, Hb2, He1, He2. subst e1 e2. cbn [fst snd].
    assert (Hun : labels_in d (lg (bset t1) ∪ lg (bset t2))) by (intros c [Hc|Hc]%elem_of_union; by eapply legs_labels).
    assert (Hi : labels_in d (lg (bset t1 ∪ bset t2))) by (intros c Hc; by eapply legs_labels).
    pose proof (volume_size d _ Hun) as Hf. pose proof (volume_size d _ Hi) as Hm.
    pose proof (calc_legs_ok s1 s2 (bset t1) (bset t2) Hb1 Hb2 (proj2 Hp1) (proj2 Hp2) Hdis) as Hlegs.
    cbv zeta. rewrite bset_node, tcost_node. unfold dp_compare. cbn [realize]. fold (node_flops inputs output D G t1 t2) in Hf. fold (node_size inputs output D G t1 t2) in Hm.
    destruct minimize eqn:Emin.
    - rewrite Hf. cbn [mbind res_bind]. unfold combine. rewrite Hlegs, Hm, Emin. cbn [mbind res_bind].
      destruct (_ && match _ with _ => _ end); [|done]. rewrite andb_true_l. by destruct (le_cap _ mem).
    - rewrite Hlegs, Hm. cbn [mbind res_bind]. unfold combine. by rewrite Emin.
    - rewrite Hlegs, Hm. cbn [mbind res_bind]. unfold combine. by rewrite Emin.
    - rewrite Hlegs, Hm. cbn [mbind res_bind]. rewrite Hf. cbn [mbind res_bind]. unfold combine. by rewrite Emin.
    - rewrite Hlegs, Hm. cbn [mbind res_bind]. rewrite Hf. cbn [mbind res_bind]. unfold combine. by rewrite Emin.
    - rewrite Hlegs, Hm. cbn [mbind res_bind]. rewrite Hf. cbn [mbind res_bind]. unfold combine. by rewrite Emin.
  Qed.

  (** One pair of entries. *)
  Definition pair_post (cap : option nat) (halves : bool) (p : (N * entry) * (N * entry)) (x : table) : Prop :=
    forall t1 t2, fits_entry cap t1 p.1 -> fits_entry cap t2 p.2 -> bset t1 ## bset t2 -> (halves = true -> N.ltb p.1.1 p.2.1 = true) ->
      tvalid (BNode t1 t2) -> le_cap (tcost (BNode t1 t2)) cap = true -> has x (N.lor p.1.1 p.2.1) (tcost (BNode t1 t2)).
  Lemma dp_try_ok cap halves n m xn p : m <= n -> table_ok cap n xn -> entry_ok cap m p.1 -> entry_ok cap (n - m) p.2 ->
    exists xn', dp_try minimize search_outer d inputs output g all mem cap halves xn p = Ok xn' /\ table_ok cap n xn' /\ tbl_le xn xn' /\ pair_post cap halves p xn'.
  Proof.
    intros Hmn Hx (t1 & Hf1 & Hl1) (t2 & Hf2 & Hl2). destruct p as [[s1 e1] [s2 e2]]. cbn [fst snd] in *. unfold dp_try.
    pose proof Hf1 as (Hp1 & Hb1 & He1 & Hv1 & Hc1). pose proof Hf2 as (Hp2 & Hb2 & He2 & Hv2 & Hc2). cbn [fst snd] in *.
    assert (Hsame : forall t1', fits_entry cap t1' (s1, e1) -> bset t1' = bset t1 /\ tcost t1' = tcost t1).
    { intros t1' (_ & Hb & He & _). cbn [fst snd] in *. split; [by eapply bm_inj|congruence]. }
    assert (Hsame2 : forall t2', fits_entry cap t2' (s2, e2) -> bset t2' = bset t2 /\ tcost t2' = tcost t2).
    { intros t2' (_ & Hb & He & _). cbn [fst snd] in *. split; [by eapply bm_inj|congruence]. }
    assert (Hskip : (forall t1' t2', fits_entry cap t1' (s1, e1) -> fits_entry cap t2' (s2, e2) -> bset t1' ## bset t2' -> (halves = true -> N.ltb s1 s2 = true) -> tvalid (BNode t1' t2') -> le_cap (tcost (BNode t1' t2')) cap = true -> False) ->
      exists xn', Ok xn = Ok xn' /\ table_ok cap n xn' /\ tbl_le xn xn' /\ pair_post cap halves (s1, e1, (s2, e2)) xn').
    { intros Hno. exists xn. split; [done|]. split; [done|]. split; [apply tbl_le_refl|]. intros t1' t2' H1 H2 H3 H4 H5 H6. exfalso. by apply (Hno t1' t2'). }
    rewrite (bm_disjoint s1 s2 _ _ Hb1 Hb2). destruct (decide (bset t1 ## bset t2)) as [Hdis|Hdis].
    2: { rewrite bool_decide_false by done. simpl. apply Hskip. intros t1' t2' H1 H2 H3 _ _ _. apply Hdis. by rewrite <-(proj1 (Hsame _ H1)), <-(proj1 (Hsame2 _ H2)). }
    rewrite bool_decide_true by done. rewrite andb_true_l. destruct (negb halves || N.ltb s1 s2) eqn:Eh.
    2: { apply Hskip. intros t1' t2' _ _ _ H4 _ _. apply orb_false_iff in Eh as [Eh1 Eh2]. apply negb_false_iff in Eh1. apply H4 in Eh1. congruence. }
    assert (Hcut : search_outer || negb (bool_decide ((e1.1.1 ∩ e2.1.1) ∖ output = ∅)) = true <->
      (search_outer = false -> exists c, c ∈ lg (bset t1) /\ c ∈ lg (bset t2) /\ c ∉ output)).
    { rewrite He1, He2. cbn [fst snd]. destruct search_outer; [split; done|]. simpl. rewrite negb_true_iff, bool_decide_eq_false. split.
      - intros Hne _. apply set_choose_L in Hne as (c & Hc). exists c. set_solver.
      - intros H E. destruct (H eq_refl) as (c & H1 & H2 & H3). assert (Hc : c ∈ (lg (bset t1) ∩ lg (bset t2)) ∖ output) by set_solver. rewrite E in Hc. by apply elem_of_empty in Hc. }
    destruct (search_outer || negb (bool_decide ((e1.1.1 ∩ e2.1.1) ∖ output = ∅))) eqn:Eo.
    2: { apply Hskip. intros t1' t2' H1 H2 _ _ [H5 _] _. assert (Hf : false = true); [|done]. apply Hcut. intros Hs.
         destruct (H5 Hs) as (_ & _ & c & Hca & Hcb & Hcc). exists c. by rewrite <-(proj1 (Hsame _ H1)), <-(proj1 (Hsame2 _ H2)). }
    rewrite (dp_compare_eq cap s1 s2 t1 t2 e1 e2 xn Hf1 Hf2 Hdis). cbv zeta. set (cost := tcost (BNode t1 t2)).
    destruct (le_cap cost cap) eqn:Ecap; simpl.
    2: { apply Hskip. intros t1' t2' H1 H2 _ _ _ H6. rewrite tcost_node in H6. unfold node_flops, node_size in H6.
         rewrite (proj1 (Hsame _ H1)), (proj1 (Hsame2 _ H2)), (proj2 (Hsame _ H1)), (proj2 (Hsame2 _ H2)) in H6. unfold cost in Ecap. rewrite tcost_node in Ecap. unfold node_flops, node_size in Ecap. congruence. }
    destruct (le_cap (node_size inputs output D G t1 t2) mem) eqn:Em.
    2: { rewrite andb_false_r. apply Hskip. intros t1' t2' H1 H2 _ _ [_ H5] _. simpl in H5. destruct H5 as (_ & _ & H5). destruct mem as [limit|]; [|done]. simpl in Em.
         apply Nat.leb_gt in Em. unfold node_size in H5, Em. rewrite (proj1 (Hsame _ H1)), (proj1 (Hsame2 _ H2)) in H5. lia. }
    rewrite andb_true_r.
    assert (Hpost : forall x, has x (N.lor s1 s2) cost -> pair_post cap halves (s1, e1, (s2, e2)) x).
    { intros x Hhas t1' t2' H1 H2 _ _ _ _. cbn [fst snd]. rewrite tcost_node. unfold node_flops, node_size.
      rewrite (proj1 (Hsame _ H1)), (proj1 (Hsame2 _ H2)), (proj2 (Hsame _ H1)), (proj2 (Hsame2 _ H2)). unfold cost in Hhas. by rewrite tcost_node in Hhas. }
    set (new := (lg (bset (BNode t1 t2)), cost, realize (BNode t1 t2))).
    assert (Hnew : entry_ok cap n (N.lor s1 s2, new)).
    { exists (BNode t1 t2). split; [|simpl; rewrite app_length; lia]. split; [by apply in_part_node|]. cbn [fst snd]. split; [rewrite bset_node; by apply bm_lor|]. split; [done|].
      split; [|done]. destruct Hv1 as [Ho1 Hm1], Hv2 as [Ho2 Hm2]. split.
      - intros Hs. simpl. split; [auto|]. split; [auto|]. by apply Hcut.
      - simpl. split; [done|]. split; [done|]. destruct mem as [limit|]; [|done]. simpl in Em. by apply Nat.leb_le in Em. }
    assert (Hset : (forall e, tbl_get (N.lor s1 s2) xn = Some e -> cost <= e.1.2) ->
      exists xn', Ok (tbl_set (N.lor s1 s2) new xn) = Ok xn' /\ table_ok cap n xn' /\ tbl_le xn xn' /\ pair_post cap halves (s1, e1, (s2, e2)) xn').
    { intros Hold. eexists. split; [done|]. split; [|split].
      - destruct Hx as [Hx1 Hx2]. split; [|by apply tbl_set_NoDup]. apply Forall_forall. intros p [->|Hp]%tbl_set_elem; [done|]. rewrite Forall_forall in Hx1. by apply Hx1.
      - intros s e He. rewrite tbl_get_set. destruct (N.eqb_spec s (N.lor s1 s2)) as [->|]; [|eauto]. exists new. split; [done|]. simpl. by apply Hold.
      - apply Hpost. exists new. rewrite tbl_get_set, N.eqb_refl. done. }
    destruct (tbl_get (N.lor s1 s2) xn) as [[[i0 old] tr0]|] eqn:Eget.
    - destruct (Nat.ltb_spec cost old).
      + apply Hset. intros e [= <-]. simpl. lia.
      + exists xn. split; [done|]. split; [done|]. split; [apply tbl_le_refl|]. apply Hpost. exists (i0, old, tr0). split; [done|]. simpl. lia.
    - apply Hset. done.
  Qed.

  (** ** One level *)
  Definition levels_ok (cap : option nat) (x : list table) : Prop := length x = size G /\ forall m t, x !! m = Some t -> table_ok cap (S m) t.
  Definition complete_at (cap : option nat) (x : list table) (m : nat) : Prop := forall t, in_part t -> length (bleaves t) = m -> tvalid t -> le_cap (tcost t) cap = true ->
    exists s, is_bm s (bset t) /\ has (default [] (x !! (m - 1))) s (tcost t).
  Lemma le_cap_trans a b cap : a <= b -> le_cap b cap = true -> le_cap a cap = true.
  Proof. destruct cap; simpl; [|done]. rewrite !Nat.leb_le. lia. Qed.
  Lemma has_entry cap m x s c : table_ok cap m x -> has x s c -> exists e, (s, e) ∈ x /\ e.1.2 <= c /\ entry_ok cap m (s, e).
  Proof. intros [Hx _] (e & H1%tbl_get_elem & H2). exists e. split; [done|]. split; [done|]. rewrite Forall_forall in Hx. by apply Hx. Qed.
  Lemma tcost_swap l r : tcost (BNode l r) = tcost (BNode r l).
  Proof. rewrite !tcost_node, combine_swap. unfold node_flops, node_size. by rewrite (union_comm_L (bset l)), (union_comm_L (lg (bset l))). Qed.
  Lemma tvalid_swap l r : tvalid (BNode l r) -> tvalid (BNode r l).
  Proof.
    intros [H1 H2]. split.
    - intros Hs. destruct (H1 Hs) as (A & B & c & C1 & C2 & C3). simpl. split; [done|]. split; [done|]. exists c. done.
    - destruct H2 as (A & B & C). simpl. split; [done|]. split; [done|]. unfold node_size in *. by rewrite (union_comm_L (bset r)).
  Qed.

  Lemma dp_level_ok cap x n : 2 <= n <= size G -> levels_ok cap x -> (forall m, 1 <= m < n -> complete_at cap x m) ->
    exists x', dp_level minimize search_outer d inputs output g all mem cap x n = Ok x' /\ levels_ok cap x' /\ x' !! 0 = x !! 0 /\ (forall m, 1 <= m <= n -> complete_at cap x' m).
  Proof.
    intros Hn [Hlen Hx] Hc. unfold dp_level. destruct (lookup_lt_is_Some_2 x (n - 1)) as [xn0 Hxn0]; [lia|]. rewrite Hxn0. change (default [] (Some xn0)) with xn0.
    assert (Htab : forall m, 1 <= m <= size G -> table_ok cap m (default [] (x !! (m - 1)))).
    { intros m Hm. destruct (lookup_lt_is_Some_2 x (m - 1)) as [t Ht]; [lia|]. rewrite Ht. simpl. replace m with (S (m - 1)) by lia. by apply Hx. }
    set (Q := fun (m : nat) (t : table) => forall p, p.1 ∈ default [] (x !! (m - 1)) -> p.2 ∈ default [] (x !! (n - m - 1)) -> pair_post cap (Nat.eqb m (n - m)) p t).
    destruct (foldM_each (dp_split minimize search_outer d inputs output g all mem cap n x) (table_ok cap n) tbl_le Q (seq 1 (n / 2)) xn0) as (xn & -> & Hxn & _ & HQ).
    - apply tbl_le_refl.
    - apply tbl_le_trans.
    - intros m t1 t2 H1 Hle p Hp1 Hp2 u1 u2 A1 A2 A3 A4 A5 A6. eapply has_up; [|exact Hle]. by apply (H1 p).
    - intros xn m Hxn Hm%elem_of_seq. assert (Hm' : 1 <= m /\ m <= n - m). { pose proof (Nat.div_mod n 2). lia. }
      unfold dp_split. set (xa := default [] (x !! (m - 1))). set (xb := default [] (x !! (n - m - 1))).
      destruct (foldM_each (dp_try minimize search_outer d inputs output g all mem cap (Nat.eqb m (n - m))) (table_ok cap n) tbl_le
        (fun p t => pair_post cap (Nat.eqb m (n - m)) p t) (xa ≫= fun p => (fun q => (p, q)) <$> xb) xn) as (xn' & -> & H1 & H2 & H3).
      + apply tbl_le_refl.
      + apply tbl_le_trans.
      + intros p t1 t2 H1 Hle u1 u2 A1 A2 A3 A4 A5 A6. eapply has_up; [|exact Hle]. by apply H1.
      + intros t p Ht Hp. apply elem_of_list_bind in Hp as (p1 & Hp & Hp1). apply elem_of_list_fmap in Hp as (p2 & -> & Hp2).
        assert (Ha : table_ok cap m xa) by (apply Htab; lia). assert (Hb : table_ok cap (n - m) xb) by (apply Htab; lia).
        destruct Ha as [Ha _], Hb as [Hb _]. rewrite Forall_forall in Ha, Hb. apply (dp_try_ok cap (Nat.eqb m (n - m)) n m); [lia|done|by apply Ha|by apply Hb].
      + done.
      + exists xn'. split; [done|]. split; [done|]. split; [done|]. intros p Hp1 Hp2. apply H3. apply elem_of_list_bind. exists p.1. split; [|done].
        apply elem_of_list_fmap. exists p.2. split; [by destruct p|done].
    - replace n with (S (n - 1)) at 1 by lia. by apply Hx.
    - cbn [mbind res_bind]. exists (<[n - 1 := xn]> x). split; [done|]. split.
      { split; [by rewrite stdpp.list.insert_length|]. intros m t Ht. apply list_lookup_insert_Some in Ht as [(<- & -> & _)|(_ & Ht)]; [by replace (S (n - 1)) with n by lia|by apply Hx]. }
      split; [by rewrite list_lookup_insert_ne by lia|].
      intros m Hm. destruct (decide (m = n)) as [->|Hne].
      2: { intros t H1 H2 H3 H4. rewrite list_lookup_insert_ne by lia. apply Hc; [lia|done|done|done|done]. }
      (* trees of the new level *)
      assert (Hmain : forall l r, in_part (BNode l r) -> length (bleaves (BNode l r)) = n -> tvalid (BNode l r) -> le_cap (tcost (BNode l r)) cap = true ->
        length (bleaves l) <= length (bleaves r) -> (length (bleaves l) = length (bleaves r) -> exists sl sr, is_bm sl (bset l) /\ is_bm sr (bset r) /\ N.ltb sl sr = true) ->
        exists s, is_bm s (bset (BNode l r)) /\ has xn s (tcost (BNode l r))).
      { intros l r Hp Hln Hv Hcap Hle Heq. apply in_part_node in Hp as (Hpl & Hpr & Hdis). simpl in Hln. rewrite app_length in Hln.
        assert (Hpos : forall t, 1 <= length (bleaves t)) by (induction t; simpl; rewrite ?app_length; lia). pose proof (Hpos l) as Hl1. pose proof (Hpos r) as Hr1.
        rewrite tcost_node in Hcap. destruct (combine_ge (tcost l) (tcost r) (node_flops inputs output D G l r) (node_size inputs output D G l r)) as [Hg1 Hg2].
        assert (Hvl : tvalid l) by (destruct Hv as [A B]; split; [intros Hs; apply (A Hs)|apply B]).
        assert (Hvr : tvalid r) by (destruct Hv as [A B]; split; [intros Hs; apply (A Hs)|apply B]).
        destruct (Hc (length (bleaves l)) ltac:(lia) l Hpl eq_refl Hvl (le_cap_trans _ _ _ Hg1 Hcap)) as (sl & Hsl & Hhl).
        destruct (Hc (length (bleaves r)) ltac:(lia) r Hpr eq_refl Hvr (le_cap_trans _ _ _ Hg2 Hcap)) as (sr & Hsr & Hhr).
        destruct (has_entry cap (length (bleaves l)) _ _ _ (Htab (length (bleaves l)) ltac:(lia)) Hhl) as (el & Hinl & Hcl & tl & Hfl & Hll).
        destruct (has_entry cap (length (bleaves r)) _ _ _ (Htab (length (bleaves r)) ltac:(lia)) Hhr) as (er & Hinr & Hcr & tr & Hfr & Hlr).
        pose proof Hfl as (_ & Hbl & Hel & Hvtl & _). pose proof Hfr as (_ & Hbr & Her & Hvtr & _). cbn [fst snd] in *.
        assert (Etl : bset tl = bset l) by by eapply bm_inj. assert (Etr : bset tr = bset r) by by eapply bm_inj.
        assert (Hcost : tcost (BNode tl tr) <= tcost (BNode l r)).
        { rewrite !tcost_node. unfold node_flops, node_size. rewrite Etl, Etr. apply combine_mono; [rewrite Hel in Hcl|rewrite Her in Hcr]; done. }
        exists (N.lor sl sr). split; [rewrite bset_node; by apply bm_lor|].
        assert (Hm2 : length (bleaves l) ∈ seq 1 (n / 2)). { apply elem_of_seq. pose proof (Nat.div_le_lower_bound n 2 (length (bleaves l))). lia. }
        specialize (HQ _ Hm2 ((sl, el), (sr, er))). cbn [fst snd] in HQ.
        assert (Hhas : has xn (N.lor sl sr) (tcost (BNode tl tr))).
        { apply (HQ Hinl); [by replace (n - length (bleaves l)) with (length (bleaves r)) by lia|done|done|by rewrite Etl, Etr| | |].
          - intros Hh%Nat.eqb_eq. cbn [fst snd]. destruct (Heq ltac:(lia)) as (a & b & Ha & Hb & Hlt). by rewrite (bm_unique sl a (bset l)), (bm_unique sr b (bset r)).
          - destruct Hv as [A B], Hvtl as [A1 B1], Hvtr as [A2 B2]. split.
            + intros Hs. destruct (A Hs) as (_ & _ & HA). simpl. rewrite Etl, Etr. auto.
            + destruct B as (_ & _ & HB). simpl. unfold node_size in *. rewrite Etl, Etr. auto.
          - rewrite tcost_node in Hcost. eapply le_cap_trans; [|exact Hcap]. rewrite <-!tcost_node in *. exact Hcost. }
        destruct Hhas as (e & H1 & H2). exists e. split; [done|lia]. }
      intros t Hp Hlt Hv Hcap. rewrite list_lookup_insert by (rewrite Hlen; lia). cbn [default]. destruct t as [j|l r]; [simpl in Hlt; lia|].
      assert (Hbm : forall t, exists s, is_bm s (bset t)).
      { intros t. exists (foldl (fun a j => N.lor a (bit j)) 0%N (bleaves t)). pose proof (bm_foldl (bleaves t) 0%N ∅ bm_empty) as Hb. unfold bset. by replace (∅ ∪ list_to_set (bleaves t)) with (list_to_set (bleaves t) : gset nat) in Hb by set_solver. }
      destruct (Hbm l) as (a & Ha). destruct (Hbm r) as (b & Hb).
      assert (Hab : a <> b).
      { intros ->. apply in_part_node in Hp as (Hpl & _ & Hdis). pose proof (bm_inj _ _ _ Ha Hb) as E. rewrite E in Hdis.
        assert (Hj : exists j, j ∈ bset r). { destruct (set_choose_or_empty (bset r)) as [?|E']; [done|]. rewrite <-E in E'. destruct Hpl as [Hnd _].
          pose proof (size_bset l Hnd) as Hs. apply size_empty_iff in E'. assert (Hpos : 1 <= length (bleaves l)) by (clear; induction l; simpl; rewrite ?app_length; lia). lia. }
        destruct Hj as (j & Hj). by apply (Hdis j). }
      destruct (decide (length (bleaves l) < length (bleaves r) \/ (length (bleaves l) = length (bleaves r) /\ N.ltb a b = true))) as [Hord|Hord].
      + apply Hmain; [done|done|done|done|destruct Hord; lia|]. intros E. exists a, b. destruct Hord as [?|[_ ?]]; [lia|done].
      + rewrite bset_node, (union_comm_L (bset l)), <-bset_node, tcost_swap. apply Hmain.
        * apply in_part_node in Hp as (A & B & C). apply in_part_node. done.
        * simpl in *. rewrite app_length in *. lia.
        * by apply tvalid_swap.
        * by rewrite <-tcost_swap.
        * destruct (decide (length (bleaves l) < length (bleaves r))); [|lia]. exfalso. apply Hord. by left.
        * intros E. exists b, a. split; [done|]. split; [done|]. apply N.ltb_lt. destruct (N.ltb_spec a b); [exfalso; apply Hord; right; split; [lia|done]|]. lia.
  Qed.

  Lemma dp_round_ok cap x : size G <> 0 -> length (default [] (x !! 0)) = size G -> levels_ok cap x -> complete_at cap x 1 ->
    exists x', dp_round minimize search_outer d inputs output g all mem cap x = Ok x' /\ levels_ok cap x' /\ x' !! 0 = x !! 0 /\ (forall m, 1 <= m <= size G -> complete_at cap x' m).
  Proof.
    intros Hsz Hx1 Hx Hc1. unfold dp_round. rewrite Hx1.
    assert (Hgen : forall k n x, 2 <= n -> n + k = S (size G) -> levels_ok cap x -> (forall m, 1 <= m < n -> complete_at cap x m) ->
      exists x', foldM_res (dp_level minimize search_outer d inputs output g all mem cap) x (seq n k) = Ok x' /\ levels_ok cap x' /\ x' !! 0 = x !! 0 /\ (forall m, 1 <= m <= size G -> complete_at cap x' m)).
    { induction k as [|k IH]; intros n x0 Hn Hk Hx0 Hc0.
      - exists x0. split; [done|]. split; [done|]. split; [done|]. intros m Hm. apply Hc0. lia.
      - cbn [seq foldM_res]. destruct (dp_level_ok cap x0 n) as (x' & -> & Hx' & H0 & Hc'); [lia|done|done|]. cbn [mbind res_bind]. rewrite <-H0. apply IH; [lia|lia|done|]. intros m Hm. apply Hc'. lia. }
    apply Hgen; [lia|lia|done|]. intros m Hm. by replace m with 1 by lia.
  Qed.

  (** ** The while loop *)
  Definition cap_le (a b : option nat) : Prop := match b with None => True | Some b => match a with None => False | Some a => a <= b end end.
  Lemma le_cap_up c a b : cap_le a b -> le_cap c a = true -> le_cap c b = true.
  Proof. destruct a, b; simpl; try done. rewrite !Nat.leb_le. lia. Qed.
  Lemma levels_up cap cap' x : cap_le cap cap' -> levels_ok cap x -> levels_ok cap' x.
  Proof.
    intros Hle [H1 H2]. split; [done|]. intros m t Ht. destruct (H2 m t Ht) as [H3 H4]. split; [|done]. eapply Forall_impl; [exact H3|].
    intros p (T & (A1 & A2 & A3 & A4 & A5) & A6). exists T. split; [|done]. repeat split; try done; try apply A1; try apply A4. by eapply le_cap_up.
  Qed.
  Lemma complete_one_up cap cap' x : complete_at cap x 1 -> complete_at cap' x 1.
  Proof.
    intros H t H1 H2 H3 _. apply H; [done|done|done|]. destruct t as [j|l r]; [rewrite tcost_leaf; by destruct cap|]. exfalso. simpl in H2. rewrite app_length in H2.
    assert (Hpos : forall t, 1 <= length (bleaves t)) by (induction t; simpl; rewrite ?app_length; lia). pose proof (Hpos l). pose proof (Hpos r). lia.
  Qed.
  Definition start_ok (cap : option nat) (x : list table) : Prop := size G <> 0 /\ length (default [] (x !! 0)) = size G /\ levels_ok cap x /\ complete_at cap x 1.
  Lemma bset_full t : in_part t -> length (bleaves t) = size G <-> bset t = G.
  Proof.
    intros [H1 H2]. rewrite <-size_bset by done. split; [|by intros ->]. intros E. apply set_eq. intros j. split; [apply H2|]. intros Hj. destruct (decide (j ∈ bset t)) as [|Hn]; [done|]. exfalso.
    assert (Hlt : size (bset t) < size G) by (apply subset_size; split; [done|]; intros Hs; by apply Hn, Hs). lia.
  Qed.
  (** What the last table says. *)
  Definition best_of (x : list table) : Prop := exists s t rest, last x = Some ((s, (lg G, tcost t, realize t)) :: rest) /\ btree_over G t /\ tvalid t /\
    forall t', btree_over G t' -> tvalid t' -> tcost t <= tcost t'.
  Lemma best_last cap x : size G <> 0 -> levels_ok cap x -> complete_at cap x (size G) -> default [] (last x) <> [] -> best_of x.
  Proof.
    intros Hsz [Hlen Hx] Hc Hne. rewrite last_lookup, Hlen in *. replace (pred (size G)) with (size G - 1) in * by lia.
    destruct (x !! (size G - 1)) as [tb|] eqn:Etb; [|done]. change (default [] (Some tb)) with tb in Hne. destruct tb as [|[s e] rest]; [done|].
    destruct (Hx _ _ Etb) as [Hent Hnd]. apply Forall_cons in Hent as [(t & (Hp & Hb & He & Hv & Hcap) & Hl) _]. cbn [fst snd] in *. replace (S (size G - 1)) with (size G) in Hl by lia.
    pose proof (proj1 (bset_full t Hp) Hl) as Hfull. exists s, t, rest. rewrite He, Hfull in *. split; [rewrite last_lookup, Hlen; by replace (pred (size G)) with (size G - 1) by lia|].
    split; [split; [apply Hp|done]|]. split; [done|]. intros t' [Ht1 Ht2] Hv'. destruct (le_cap (tcost t') cap) eqn:Ec.
    - destruct (Hc t') as (s' & Hs' & e' & He' & Hle); [split; [done|by rewrite Ht2]|by apply bset_full; [split; [done|by rewrite Ht2]|]|done|done|].
      rewrite Etb in He'. change (default [] (Some ?a)) with a in He'. rewrite Ht2 in Hs'. rewrite (bm_unique s' s G) in He' by done. simpl in He'. rewrite N.eqb_refl in He'. injection He' as <-. done.
    - destruct cap as [c|]; [|done]. simpl in Hcap, Ec. apply Nat.leb_le in Hcap. apply Nat.leb_gt in Ec. lia.
  Qed.
  Lemma start_complete cap x : size G = 1 -> start_ok cap x -> best_of x.
  Proof.
    intros H1 (_ & H2 & H3 & H4). apply (best_last cap); [lia|done|by rewrite H1|]. destruct H3 as [Hlen _]. rewrite last_lookup, Hlen, H1. simpl. intros E. rewrite E in H2. simpl in H2. lia.
  Qed.
  Lemma start_round cap x x' inc : 1 <= inc -> start_ok cap x -> levels_ok cap x' -> x' !! 0 = x !! 0 -> (forall m, 1 <= m <= size G -> complete_at cap x' m) ->
    start_ok (Nat.mul inc <$> cap) x' /\ cap_le cap (Nat.mul inc <$> cap).
  Proof.
    intros Hinc (H1 & H2 & H3 & H4) Hx' H0 Hc. assert (Hle : cap_le cap (Nat.mul inc <$> cap)). { destruct cap as [c|]; simpl; [nia|done]. }
    split; [|done]. split; [done|]. split; [by rewrite H0|]. split; [by eapply levels_up|]. eapply complete_one_up. apply (Hc 1). lia.
  Qed.

  (** The loop ends with a best tree, or out of fuel, or (beyond the naive cost) with nothing found. *)
  Lemma dp_while_ok fuel naive inc cap x : 1 <= inc -> start_ok cap x -> (default [] (last x) <> [] -> best_of x) ->
    match dp_while minimize search_outer d inputs output g all mem fuel naive inc cap x with
    | Ok x' => best_of x'
    | Err RuntimeError => exists cap', gt_inf cap' naive = true /\ forall t, btree_over G t -> tvalid t -> le_cap (tcost t) cap' = false
    | Err NoFuel => fuel = 0 \/ (gt_inf (Nat.mul (inc ^ (fuel - 1)) <$> cap) naive = false /\ forall t, btree_over G t -> tvalid t -> le_cap (tcost t) (Nat.mul (inc ^ (fuel - 1)) <$> cap) = false)
    | Err _ => False
    end.
  Proof.
    intros Hinc. revert cap x. induction fuel as [|fuel IH]; intros cap x Hs Hb; cbn [dp_while].
    - destruct (default [] (last x)) as [|p tb] eqn:E; [by left|by apply Hb].
    - destruct (default [] (last x)) as [|p tb] eqn:E; [|by apply Hb].
      destruct (dp_round_ok cap x) as (x' & -> & Hx' & H0 & Hc'); [apply Hs|apply Hs|apply Hs|apply Hs|]. cbn [mbind res_bind].
      destruct (start_round cap x x' inc Hinc Hs Hx' H0 Hc') as [Hs' _].
      assert (Hcomp : complete_at cap x' (size G)) by (apply Hc'; destruct Hs; lia).
      assert (Hempty : default [] (last x') = [] -> forall t, btree_over G t -> tvalid t -> le_cap (tcost t) cap = false).
      { intros He t [Ht1 Ht2] Hv. destruct (le_cap (tcost t) cap) eqn:Ec; [|done]. exfalso.
        assert (Hp : in_part t) by (split; [done|by rewrite Ht2]).
        destruct (Hcomp t Hp (proj2 (bset_full t Hp) Ht2) Hv Ec) as (s & _ & e & He' & _). destruct Hx' as [Hlen _]. rewrite last_lookup, Hlen in He. replace (pred (size G)) with (size G - 1) in He by lia.
        rewrite He in He'. done. }
      assert (Hne : default [] (last x') <> [] -> best_of x') by (intros H; eapply best_last; [apply Hs|exact Hx'|exact Hcomp|exact H]).
      destruct (gt_inf cap naive && match default [] (last x') with [] => true | _ => false end) eqn:Eg.
      + apply andb_true_iff in Eg as [Eg1 Eg2]. exists cap. split; [done|]. apply Hempty. by destruct (default [] (last x')).
      + specialize (IH (Nat.mul inc <$> cap) x' Hs' Hne). destruct (dp_while _ _ _ _ _ _ _ _ fuel naive inc _ x') as [x''|ex] eqn:Ew; [done|].
        destruct ex; try done. right. destruct fuel as [|fuel].
        * cbn [dp_while] in Ew. destruct (default [] (last x')) eqn:El; [|done]. replace (Nat.mul (inc ^ (1 - 1)) <$> cap) with cap by (destruct cap; simpl; [f_equal; lia|done]). rewrite andb_true_r in Eg. split; [done|]. intros t Ht Hv. by apply Hempty.
        * destruct IH as [?|IH]; [done|]. replace (Nat.mul (inc ^ (S (S fuel) - 1)) <$> cap) with (Nat.mul (inc ^ (S fuel - 1)) <$> (Nat.mul inc <$> cap)); [done|]. destruct cap; simpl; [f_equal|done]. rewrite Nat.sub_0_r. nia.
  Qed.

  (** The tables at the start. *)
  Lemma start_tables cap js : js ≡ₚ elements G -> G <> ∅ ->
    let x := ((fun j => (bit j, (labels_of inputs j, 0, default (Leaf 0) (ctr !! j)))) <$> js) :: replicate (size G - 1) [] in
    start_ok cap x /\ (default [] (last x) <> [] -> best_of x).
  Proof.
    intros Hjs Hne. set (x1 := (fun j => _) <$> js). cbv zeta.
    assert (Hlen : length js = size G) by (rewrite Hjs; done).
    assert (Hsz : size G <> 0) by (intros H%size_empty_inv; apply Hne; set_solver).
    assert (Hel : forall j, j ∈ js <-> j ∈ G) by (intros j; rewrite Hjs; apply elem_of_elements).
    assert (Hnd : NoDup js) by (rewrite Hjs; apply NoDup_elements).
    assert (Hx1 : table_ok cap 1 x1).
    { split.
      - apply Forall_forall. intros p (j & -> & Hj)%elem_of_list_fmap. apply Hel in Hj. exists (BLeaf j). split; [|done]. unfold fits_entry, in_part, bset. cbn [bleaves fst snd list_to_set].
        replace ({[j]} ∪ ∅ : gset nat) with ({[j]} : gset nat) by set_solver. split; [split; [apply NoDup_singleton|set_solver]|]. split; [apply bm_bit|].
        rewrite legs_leaf by done. rewrite tcost_leaf. split; [done|]. split; [by split|]. by destruct cap.
      - unfold x1. rewrite <-list_fmap_compose. apply NoDup_fmap_2_strong; [|done]. intros a b Ha Hb E. simpl in E. pose proof (bm_bit a) as H1. rewrite E in H1. pose proof (bm_inj _ _ _ H1 (bm_bit b)). set_solver. }
    assert (Hstart : start_ok cap (x1 :: replicate (size G - 1) [])).
    { split; [done|]. split; [simpl; unfold x1; by rewrite fmap_length|]. split.
      - split; [simpl; rewrite replicate_length; lia|]. intros [|m] t Ht; [simpl in Ht; by injection Ht as <-|]. simpl in Ht. apply lookup_replicate in Ht as [-> _]. split; [by apply Forall_nil|apply NoDup_nil; done].
      - intros t Hp Hl Hv _. destruct t as [j|l r].
        + exists (bit j). unfold bset. cbn [bleaves list_to_set]. replace ({[j]} ∪ ∅ : gset nat) with ({[j]} : gset nat) by set_solver. split; [apply bm_bit|]. simpl. eexists. split.
          * apply tbl_elem_get; [apply Hx1|]. apply elem_of_list_fmap. exists j. split; [done|]. apply Hel. destruct Hp as [_ Hp]. apply Hp. unfold bset. simpl. set_solver.
          * simpl. lia.
        + exfalso. simpl in Hl. rewrite app_length in Hl. assert (Hpos : forall t, 1 <= length (bleaves t)) by (induction t; simpl; rewrite ?app_length; lia). pose proof (Hpos l). pose proof (Hpos r). lia. }
    split; [done|]. intros Hl. destruct (decide (size G = 1)) as [H1|H1]; [by eapply start_complete|]. exfalso. apply Hl.
    destruct (size G - 1) as [|k] eqn:Ek; [lia|]. rewrite replicate_S_end. by rewrite app_comm_cons, last_snoc.
  Qed.
End Part.
