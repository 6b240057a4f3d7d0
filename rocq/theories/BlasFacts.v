(** C47: can_blas accepts exactly what tensordot can do, and names the operation by where the summed labels are. *)
From Verif Require Import Prelude Helpers StepFacts BlasSpec.

Lemma subseteq_size_eq (X Y : gset N) : X ⊆ Y -> size Y <= size X -> X = Y.
Proof.
  intros H1 H2. apply set_eq. intros j. split; [apply H1|]. intros Hj. destruct (decide (j ∈ X)) as [|Hn]; [done|]. exfalso.
  assert (Hlt : size X < size Y) by (apply subset_size; split; [done|]; intros Hs; by apply Hn, Hs). lia.
Qed.

Section blas.
  Context (l r result : str) (shl shr : list nat) (rest : list (list nat)).
  Notation answer := (can_blas [l; r] result (shared l r) (shl :: shr :: rest)).

  Lemma elem_shared c : c ∈ shared l r <-> c ∈ l /\ c ∈ r.
  Proof. unfold shared. by rewrite elem_of_intersection, !elem_of_list_to_set. Qed.

  Lemma blas_chars_iff : blas_chars_ok l r result = true <-> tensordot_form l r result.
  Proof.
    unfold blas_chars_ok, tensordot_form. rewrite forallb_forall.
    setoid_rewrite <-elem_of_list_In. setoid_rewrite elem_of_elements. setoid_rewrite elem_of_list_to_set. setoid_rewrite elem_of_app.
    setoid_rewrite andb_true_iff. setoid_rewrite negb_true_iff. setoid_rewrite orb_false_iff. setoid_rewrite orb_false_iff.
    setoid_rewrite bool_decide_eq_false. setoid_rewrite Nat.ltb_ge. split.
    - intros H. split; [|split].
      + apply count_NoDup. intros c. destruct (decide (c ∈ l)) as [Hc|Hc]; [destruct (H c); [by left|lia]|apply count_zero in Hc; lia].
      + apply count_NoDup. intros c. destruct (decide (c ∈ r)) as [Hc|Hc]; [destruct (H c); [by right|lia]|apply count_zero in Hc; lia].
      + intros c Hc. destruct (H c Hc) as [[[H1 H2] H3] H4]. rewrite <-(count_pos c l), <-(count_pos c r). pose proof (inb_true c result) as Hi.
        destruct (inb c result) eqn:Ei.
        * assert (c ∈ result) by (by apply Hi). split; [intros _; lia|done].
        * assert (c ∉ result) by (intros Hn; by apply Hi in Hn). split; [done|]. intros Hn. exfalso.
          rewrite <-!count_pos in Hc. lia.
    - intros (Hl & Hr & H) c Hc. rewrite count_NoDup in Hl, Hr. specialize (Hl c). specialize (Hr c). specialize (H c Hc).
      split; [lia|]. pose proof (inb_true c result) as Hi. rewrite <-!count_pos in Hc. rewrite <-(count_pos c l), <-(count_pos c r) in H.
      destruct (inb c result) eqn:Ei.
      + assert (c ∈ result) as Hin by (by apply Hi). apply H in Hin. lia.
      + assert (c ∉ result) as Hin by (intros Hn; by apply Hi in Hn). intros Heq. apply Hin, H. lia.
  Qed.

  Lemma blas_dims_iff : NoDup l -> NoDup r -> length shl = length l -> length shr = length r ->
    blas_dims_ok l r shl shr (shared l r) = true <-> same_dims l r shl shr.
  Proof.
    intros Hl Hr Hsl Hsr. unfold blas_dims_ok, same_dims. rewrite forallb_forall. setoid_rewrite <-elem_of_list_In.
    setoid_rewrite elem_of_elements. split.
    - intros H c i j Hi Hj. specialize (H c). rewrite elem_shared in H.
      rewrite (find_NoDup c l i Hl Hi), (find_NoDup c r j Hr Hj) in H.
      destruct (shl !! i), (shr !! j); try (discriminate H; split; by eapply elem_of_list_lookup_2).
      f_equal. apply Nat.eqb_eq. apply H. split; by eapply elem_of_list_lookup_2.
    - intros H c [Hcl Hcr]%elem_shared.
      destruct (find_elem c l Hcl) as (i & -> & Hi). destruct (find_elem c r Hcr) as (j & -> & Hj).
      destruct (lookup_lt_is_Some_2 shl i) as [a Ha]; [rewrite Hsl; by eapply lookup_lt_Some|].
      destruct (lookup_lt_is_Some_2 shr j) as [b Hb]; [rewrite Hsr; by eapply lookup_lt_Some|].
      specialize (H c i j Hi Hj). rewrite Ha, Hb in *. injection H as ->. apply Nat.eqb_refl.
  Qed.

  Lemma can_blas_accepts : length shl = length l -> length shr = length r ->
    answer <> BFalse <-> tensordot_form l r result /\ same_dims l r shl shr.
  Proof.
    intros Hsl Hsr. unfold can_blas.
    destruct (blas_chars_ok l r result) eqn:Hc; simpl.
    2:{ split; [done|]. intros [H _]. apply blas_chars_iff in H. congruence. }
    apply blas_chars_iff in Hc. assert (Hc' := Hc). destruct Hc' as (Hl & Hr & _).
    destruct (blas_dims_ok l r shl shr (shared l r)) eqn:Hd; simpl.
    2:{ split; [done|]. intros [_ H]. apply blas_dims_iff in H; [congruence|done..]. }
    apply blas_dims_iff in Hd; [|done..]. split; [intros _; done|]. intros _. repeat case_match; done.
  Qed.

  (** ** The kinds *)
  Context (Hl : NoDup l) (Hr : NoDup r).
  Notation rs := (size (shared l r)).

  Lemma shared_le_l : rs <= length l.
  Proof.
    rewrite <-(size_list_to_set (C:=gset N) l Hl). apply subseteq_size. unfold shared. apply intersection_subseteq_l.
  Qed.
  Lemma shared_le_r : rs <= length r.
  Proof.
    rewrite <-(size_list_to_set (C:=gset N) r Hr). apply subseteq_size. unfold shared. apply intersection_subseteq_r.
  Qed.

  (** A block of shared labels of the right length has all of them. *)
  Lemma block_all g a b : at_end g a l -> at_end g b r -> length g = rs -> (forall c, c ∈ a -> c ∉ b).
  Proof.
    intros Hgl Hgr Hlen c Ha Hb.
    assert (Hndg : NoDup (a ++ g)) by (destruct Hgl as [-> | ->]; [done|]; by rewrite (Permutation_app_comm a g)).
    apply NoDup_app in Hndg as (_ & Hag & Hndg).
    assert (Hg : (list_to_set g : gset N) = shared l r).
    { apply subseteq_size_eq.
      - intros x. rewrite elem_of_list_to_set, elem_shared. intros Hx.
        destruct Hgl as [-> | ->], Hgr as [-> | ->]; rewrite !elem_of_app; auto.
      - rewrite size_list_to_set by done. lia. }
    apply (Hag c Ha). rewrite <-(elem_of_list_to_set (C:=gset N)), Hg, elem_shared.
    destruct Hgl as [-> | ->], Hgr as [-> | ->]; rewrite !elem_of_app; auto.
  Qed.
  Lemma block_len g a b : at_end g a l -> at_end g b r -> (forall c, c ∈ a -> c ∉ b) -> length g = rs.
  Proof.
    intros Hgl Hgr Hab.
    assert (Hndg : NoDup g).
    { destruct Hgl as [-> | ->]; by apply NoDup_app in Hl as (? & ? & ?). }
    rewrite <-(size_list_to_set (C:=gset N) g Hndg). f_equal. apply set_eq. intros x.
    rewrite elem_of_list_to_set, elem_shared. split.
    - intros Hx. destruct Hgl as [-> | ->], Hgr as [-> | ->]; rewrite !elem_of_app; auto.
    - intros [H1 H2]. specialize (Hab x).
      destruct Hgl as [-> | ->], Hgr as [-> | ->]; rewrite elem_of_app in H1, H2; tauto.
  Qed.

  Lemma take_at_end k (s : str) : at_end (take k s) (drop k s) s.
  Proof. right. by rewrite take_drop. Qed.
  Lemma suffix_at_end k (s : str) : at_end (suffix k s) (take (length s - k) s) s.
  Proof. left. unfold suffix. by rewrite take_drop. Qed.
  Lemma suffix_len k (s : str) : k <= length s -> length (suffix k s) = k.
  Proof. intros H. unfold suffix. rewrite drop_length. lia. Qed.
  Lemma take_app_block (g a : str) : take (length g) (g ++ a) = g.
  Proof. by rewrite take_app. Qed.
  Lemma suffix_app_block (g a : str) : suffix (length g) (a ++ g) = g.
  Proof. unfold suffix. rewrite app_length, Nat.add_sub. by rewrite drop_app. Qed.

  Lemma matrix_iff : matrix_form l r <->
    suffix rs l = take rs r \/ take rs l = suffix rs r \/ suffix rs l = suffix rs r \/ take rs l = take rs r.
  Proof.
    pose proof shared_le_l as Hll. pose proof shared_le_r as Hlr. split.
    - intros (g & a & b & Hgl & Hgr & Hab). rewrite <-(block_len g a b Hgl Hgr Hab).
      destruct Hgl as [-> | ->], Hgr as [-> | ->]; rewrite ?take_app_block, ?suffix_app_block; auto.
    - intros H. assert (Hgab : exists g a b, at_end g a l /\ at_end g b r /\ length g = rs).
      { destruct H as [H|[H|[H|H]]].
        - exists (suffix rs l), (take (length l - rs) l), (drop rs r). split; [apply suffix_at_end|].
          split; [rewrite H; apply take_at_end|by apply suffix_len].
        - exists (take rs l), (drop rs l), (take (length r - rs) r). split; [apply take_at_end|].
          split; [rewrite H; apply suffix_at_end|rewrite take_length; lia].
        - exists (suffix rs l), (take (length l - rs) l), (take (length r - rs) r). split; [apply suffix_at_end|].
          split; [rewrite H; apply suffix_at_end|by apply suffix_len].
        - exists (take rs l), (drop rs l), (drop rs r). split; [apply take_at_end|].
          split; [rewrite H; apply take_at_end|rewrite take_length; lia]. }
      destruct Hgab as (g & a & b & Hgl & Hgr & Hlen). exists g, a, b. split; [done|]. split; [done|]. by apply block_all with g.
  Qed.

  Lemma same_set_perm : (list_to_set l : gset N) = list_to_set r <-> l ≡ₚ r.
  Proof.
    split.
    - intros H. apply NoDup_Permutation; [done..|]. intros x. rewrite <-!(elem_of_list_to_set (C:=gset N)). by rewrite H.
    - intros H. apply set_eq. intros x. by rewrite !elem_of_list_to_set, H.
  Qed.

  Lemma keep_none (s t : str) : size ((list_to_set s : gset N) ∖ (list_to_set s ∩ list_to_set t)) = 0 <-> (forall c, c ∈ s -> c ∈ t).
  Proof.
    rewrite size_empty_iff. split.
    - intros H c Hc. destruct (decide (c ∈ t)) as [|Hn]; [done|]. exfalso.
      assert (Hin : c ∈ (list_to_set s : gset N) ∖ (list_to_set s ∩ list_to_set t)).
      { rewrite elem_of_difference, elem_of_intersection, !elem_of_list_to_set. tauto. }
      rewrite H in Hin. by apply elem_of_empty in Hin.
    - intros H c. rewrite elem_of_difference, elem_of_intersection, !elem_of_list_to_set, elem_of_empty. specialize (H c). tauto.
  Qed.

  Lemma shared_empty : rs = 0 <-> (forall c, c ∈ l -> c ∉ r).
  Proof.
    rewrite size_empty_iff. split.
    - intros H c Hc Hr'. assert (Hin : c ∈ shared l r) by (by rewrite elem_shared). rewrite H in Hin. by apply elem_of_empty in Hin.
    - intros H c. rewrite elem_shared, elem_of_empty. specialize (H c). tauto.
  Qed.

  Lemma can_blas_kind : answer <> BFalse ->
    (answer = OUTER_EINSUM <-> (forall c, c ∈ l -> c ∉ r)) /\
    (answer = DOT <-> l <> [] /\ l = r) /\
    (answer = DOT_EINSUM <-> l <> r /\ l ≡ₚ r) /\
    (answer = GEMM <-> ~ (forall c, c ∈ l -> c ∉ r) /\ ~ l ≡ₚ r /\ matrix_form l r) /\
    (answer = GEMV_EINSUM <->
      ~ (forall c, c ∈ l -> c ∉ r) /\ ~ l ≡ₚ r /\ ~ matrix_form l r /\ ((forall c, c ∈ l -> c ∈ r) \/ (forall c, c ∈ r -> c ∈ l))) /\
    (answer = TDOT <->
      ~ (forall c, c ∈ l -> c ∉ r) /\ ~ matrix_form l r /\ ~ (forall c, c ∈ l -> c ∈ r) /\ ~ (forall c, c ∈ r -> c ∈ l)).
  Proof.
    rewrite matrix_iff, <-same_set_perm, <-shared_empty.
    assert (Hkl := keep_none l r). assert (Hkr := keep_none r l). rewrite (intersection_comm_L (list_to_set r : gset N) (list_to_set l)) in Hkr.
    fold (shared l r) in Hkl, Hkr. rewrite <-Hkl, <-Hkr.
    assert (Hsub : (list_to_set l : gset N) = list_to_set r -> size ((list_to_set l : gset N) ∖ shared l r) = 0).
    { intros He. apply Hkl. intros c. rewrite <-!(elem_of_list_to_set (C:=gset N)). by rewrite He. }
    assert (Hnil : l = [] -> rs = 0) by (intros ->; unfold shared; simpl; by rewrite intersection_empty_l_L).
    assert (Hne : rs <> 0 -> l <> []) by tauto.
    assert (Hll : l = r -> (list_to_set l : gset N) = list_to_set r) by (by intros ->).
    assert (Hlr : rs = 0 -> l = r -> l = []).
    { intros Hz Heq. pose proof (proj1 shared_empty Hz) as Hz0. clear Hz. rename Hz0 into Hz. clear -Hz Heq. destruct l as [|c l']; [done|]. exfalso. apply (Hz c); [by left|]. rewrite <-Heq. by left. }
    assert (Hsub' : (list_to_set l : gset N) = list_to_set r -> size ((list_to_set r : gset N) ∖ shared l r) = 0).
    { intros He. apply Hkr. intros c. rewrite <-!(elem_of_list_to_set (C:=gset N)). by rewrite He. }
    assert (Hz : rs = 0 -> (list_to_set l : gset N) = list_to_set r -> l = r).
    { intros Hz He. rewrite (same_set_perm) in He. assert (Hln : l = []).
      { pose proof (proj1 shared_empty Hz) as Hz0. clear Hz. rename Hz0 into Hz. clear -Hz He. destruct l as [|c l']; [done|]. exfalso. apply (Hz c); [by left|]. rewrite <-He. by left. }
      rewrite Hln in He |- *. by apply Permutation_nil_l in He. }
    clear Hkl Hkr. unfold can_blas. destruct (blas_chars_ok l r result); [|done]. destruct (blas_dims_ok _ _ _ _ _); [|done].
    cbn [negb]. intros _. destruct (decide (rs = 0)) as [E0|E0].
    { split_and!; split; try done; try tauto. }
    case_bool_decide; [split_and!; split; try done; tauto|].
    case_bool_decide; [split_and!; split; try done; tauto|].
    case_bool_decide; [split_and!; split; try done; tauto|].
    case_bool_decide; [split_and!; split; try done; tauto|].
    case_bool_decide; [split_and!; split; try done; tauto|].
    case_bool_decide; [split_and!; split; try done; tauto|].
    destruct (Nat.eqb_spec (size ((list_to_set l : gset N) ∖ shared l r)) 0); simpl;
      [split_and!; split; try done; tauto|].
    destruct (Nat.eqb_spec (size ((list_to_set r : gset N) ∖ shared l r)) 0); simpl;
      split_and!; split; try done; tauto.
  Qed.
End blas.

Lemma summed_shared l r result : tensordot_form l r result -> summed l r result = shared l r.
Proof.
  intros (_ & _ & H). apply set_eq. intros c. rewrite elem_shared. unfold summed.
  rewrite elem_of_difference, !elem_of_list_to_set, elem_of_app. specialize (H c).
  destruct (decide (c ∈ l)), (decide (c ∈ r)); tauto.
Qed.
Lemma blas_no_form l r result removed shapes : ~ tensordot_form l r result -> can_blas [l; r] result removed shapes = BFalse.
Proof.
  intros H. unfold can_blas. destruct shapes as [|shl [|shr rest]]; [done..|].
  destruct (blas_chars_ok l r result) eqn:E; [|done]. by apply blas_chars_iff in E.
Qed.
