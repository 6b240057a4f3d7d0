(** Property C88: two indices taken as one; statement, with a concrete instance. *)
From Verif Require Import Prelude Einsum EinsumFacts EinsumOps Parser Helpers Contract Spec PathSpec StringFacts SymbolFacts StepFacts ContractFacts PathFacts ParserFacts ParseSpec ParseProof ParseSound TopFacts ContractMain RefBackend PropsContract PropsCompose PropsOnes.

(** The labels, sizes and coordinates when every [c] is written as [a] (of size [da]) followed by [b] (of size [db]). *)
Fixpoint part_labels {L : Type} `{EqDecision L} (a b c : L) (t : list L) : list L :=
  match t with [] => [] | x :: t => (if decide (x = c) then [a; b] else [x]) ++ part_labels a b c t end.
Fixpoint part_sizes {L : Type} `{EqDecision L} (c : L) (da db : nat) (t : list L) (sh : list nat) : list nat :=
  match t, sh with x :: t, d :: sh => (if decide (x = c) then [da; db] else [d]) ++ part_sizes c da db t sh | _, _ => [] end.
Fixpoint part_coords {L : Type} `{EqDecision L} (c : L) (db : nat) (t : list L) (cs : list nat) : list nat :=
  match t, cs with x :: t, v :: cs => (if decide (x = c) then [v / db; v mod db] else [v]) ++ part_coords c db t cs | _, _ => [] end.
(** [q] is the operand [p] reshaped: its adjacent axes [a], [b] are one axis [c]. *)
Definition grouped {K : semiring} {L : Type} `{EqDecision L} (a b c : L) (da db : nat) (p q : list L * tensor K) : Prop :=
  p.1 = part_labels a b c q.1 /\ length (shape q.2) = length q.1 /\ shape p.2 = part_sizes c da db q.1 (shape q.2) /\
  (forall i, q.1 !! i = Some c -> shape q.2 !! i = Some (da * db)) /\
  forall cs, in_range cs (shape q.2) -> get q.2 cs = get p.2 (part_coords c db q.1 cs).

Section Group.
  Context {K : semiring} {L : Type} `{EqDecision L}.
  Notation tens := (tensor K).
  Notation operand := (list L * tens)%type.
  Add Ring K_ring4 : (slaws K).
  Variables (a b c : L) (da db : nat).
  Implicit Types (P Q : list operand) (out : list L).
  (** The values of [a] and [b] for a value of [c]. *)
  Definition parts (e : L -> nat) : L -> nat := upd (upd e a (e c / db)) b (e c mod db).

  Lemma part_labels_elem t x : x ∈ part_labels a b c t <-> (x ∈ t /\ x <> c) \/ ((x = a \/ x = b) /\ c ∈ t).
  Proof.
    induction t as [|y t IH]; cbn; [set_solver|]. rewrite elem_of_app, IH, !elem_of_cons. destruct (decide (y = c)) as [->|Hy]; set_solver.
  Qed.
  Lemma part_axes t sh x d : length sh = length t -> (forall i, t !! i = Some c -> sh !! i = Some (da * db)) ->
    (x, d) ∈ zip (part_labels a b c t) (part_sizes c da db t sh) <-> ((x, d) ∈ zip t sh /\ x <> c) \/ (((x, d) = (a, da) \/ (x, d) = (b, db)) /\ (c, da * db) ∈ zip t sh).
  Proof.
    revert sh. induction t as [|y t IH]; intros [|d' sh] Hlen Hc; try done; [cbn; set_solver|]. injection Hlen as Hlen. cbn.
    assert (Hc' : forall i, t !! i = Some c -> sh !! i = Some (da * db)) by (intros i; apply (Hc (S i))). specialize (IH sh Hlen Hc').
    destruct (decide (y = c)) as [->|Hy].
    - assert (d' = da * db) as -> by (specialize (Hc 0 eq_refl); by injection Hc). cbn. rewrite !elem_of_cons, IH. split.
      + intros [->|[->|[[? ?]|[? ?]]]]; eauto 6.
      + intros [[[[= -> ->]|?] ?]|[[->| ->] _]]; auto; done.
    - cbn. rewrite !elem_of_cons, IH. split.
      + intros [[= -> ->]|[[? ?]|[? ?]]]; eauto.
      + intros [[[[= -> ->]|?] ?]|[? [[= -> _]|?]]]; auto; done.
  Qed.
  Lemma grouped_axes P Q x d : Forall2 (grouped a b c da db) P Q -> (x, d) ∈ axes_of P <-> ((x, d) ∈ axes_of Q /\ x <> c) \/ (((x, d) = (a, da) \/ (x, d) = (b, db)) /\ (c, da * db) ∈ axes_of Q).
  Proof.
    unfold axes_of. induction 1 as [|p q P' Q' (H1 & H2 & H3 & H4 & _) _ IH]; [cbn; set_solver|]. rewrite !bind_cons, !elem_of_app, IH, H1, H3, part_axes by done. tauto.
  Qed.
  Lemma grouped_labels P Q x : Forall2 (grouped a b c da db) P Q -> x ∈ labels_of P <-> (x ∈ labels_of Q /\ x <> c) \/ ((x = a \/ x = b) /\ c ∈ labels_of Q).
  Proof.
    unfold labels_of. induction 1 as [|p q P' Q' (H1 & _) _ IH]; [cbn; set_solver|]. rewrite !bind_cons, !elem_of_app, IH, H1, part_labels_elem. tauto.
  Qed.
  Lemma grouped_c P Q d : Forall2 (grouped a b c da db) P Q -> (c, d) ∈ axes_of Q -> d = da * db.
  Proof.
    intros Hb. unfold axes_of. rewrite elem_of_list_bind. intros (q & Hd & Hq). apply elem_of_list_lookup in Hq as (k & Hq). destruct (Forall2_lookup_r _ _ _ _ _ Hb Hq) as (p & _ & _ & _ & _ & H4 & _).
    apply elem_of_list_lookup in Hd as (i & Hi). apply lookup_zip_with_Some in Hi as (y & d' & [= <- <-] & E1 & E2). rewrite (H4 i E1) in E2. by injection E2.
  Qed.

  Section Dims.
    Context (P Q : list operand).
    Hypothesis Hb : Forall2 (grouped a b c da db) P Q.
    Hypothesis HcQ : compat Q.
    Hypothesis HrQ : ranked Q.
    Hypothesis Hab : a <> b.
    Hypothesis Ha : a ∉ labels_of Q.
    Hypothesis Hbb : b ∉ labels_of Q.
    Hypothesis Hc : c ∈ labels_of Q.
    Lemma group_c_axis : (c, da * db) ∈ axes_of Q.
    Proof.
      apply elem_of_labels in Hc as (q & Hq & Hcq). apply elem_of_list_lookup in Hcq as (i & Hi). assert (Hq' := Hq). apply elem_of_list_lookup in Hq' as (k & Hk). destruct (Forall2_lookup_r _ _ _ _ _ Hb Hk) as (p & _ & _ & _ & _ & H4 & _).
      unfold axes_of. apply elem_of_list_bind. exists q. split; [|done]. apply elem_of_list_lookup. exists i. apply lookup_zip_with_Some. exists c, (da * db). split; [done|]. split; [done|by apply H4].
    Qed.
    Lemma axes_labels x d : (x, d) ∈ axes_of Q -> x ∈ labels_of Q.
    Proof. unfold axes_of. rewrite elem_of_list_bind. intros (q & Hd & Hq). apply elem_of_labels. exists q. split; [done|]. apply elem_of_list_lookup in Hd as (i & Hi). apply lookup_zip_with_Some in Hi as (y & d' & [= <- <-] & E1 & E2). by eapply elem_of_list_lookup_2. Qed.
    Lemma group_ac : a <> c /\ b <> c.
    Proof. split; by intros ->. Qed.
    Lemma group_dim_c : dim Q c = da * db.
    Proof. apply dim_unique; [intros d Hd; right; by eapply grouped_c|right; apply group_c_axis]. Qed.
    Lemma group_dim_a : dim P a = da.
    Proof.
      apply dim_unique.
      - intros d [[Hd%axes_labels _]|[[[= ->]|[= E _]] _]]%(grouped_axes _ _ _ _ Hb); [done|by right|done].
      - right. apply (grouped_axes _ _ _ _ Hb). right. split; [by left|apply group_c_axis].
    Qed.
    Lemma group_dim_b : dim P b = db.
    Proof.
      apply dim_unique.
      - intros d [[Hd%axes_labels _]|[[[= E _]|[= ->]] _]]%(grouped_axes _ _ _ _ Hb); [done|by destruct Hab|by right].
      - right. apply (grouped_axes _ _ _ _ Hb). right. split; [by right|apply group_c_axis].
    Qed.
    Lemma group_dim x : x <> a -> x <> b -> x <> c -> dim P x = dim Q x.
    Proof.
      intros H1 H2 H3. apply dim_ext; [done|]. intros d. rewrite (grouped_axes _ _ _ _ Hb). split; [intros Hd; by left|]. intros [[? _]|[[[= ? ?]|[= ? ?]] _]]; done.
    Qed.

    Lemma part_coords_ok t sh (e : L -> nat) : length sh = length t -> (forall i, t !! i = Some c -> sh !! i = Some (da * db)) -> a ∉ t -> b ∉ t -> (c ∈ t -> e c < da * db) ->
      part_coords c db t (coords t sh e) = coords (part_labels a b c t) (part_sizes c da db t sh) (parts e).
    Proof.
      destruct group_ac as [Hac Hbc]. unfold coords. revert sh. induction t as [|y t IH]; intros [|d' sh] Hlen Hs Hat Hbt He; try done. injection Hlen as Hlen.
      apply not_elem_of_cons in Hat as [Hay Hat]. apply not_elem_of_cons in Hbt as [Hby Hbt].
      assert (Hs' : forall i, t !! i = Some c -> sh !! i = Some (da * db)) by (intros i; apply (Hs (S i))). cbn. rewrite (IH sh Hlen Hs' Hat Hbt) by (intros ?; apply He; by right).
      destruct (decide (y = c)) as [->|Hy]; cbn; [|f_equal; unfold parts; by rewrite !upd_ne by done].
      assert (d' = da * db) as -> by (specialize (Hs 0 eq_refl); by injection Hs). specialize (He ltac:(left)).
      assert (Ea : parts e a = e c / db) by (unfold parts; rewrite upd_ne by done; by rewrite upd_eq). assert (Eb : parts e b = e c mod db) by (unfold parts; by rewrite upd_eq). rewrite Ea, Eb.
      assert (Hdb : db <> 0) by lia.
      assert (Ec : (if decide (da * db = 1) then 0 else e c) = e c) by (case_decide; lia). rewrite Ec. f_equal; [|f_equal].
      - destruct (decide (da = 1)) as [E|]; [|done]. apply Nat.div_small. rewrite E in He. lia.
      - destruct (decide (db = 1)) as [E|]; [|done]. rewrite E. apply Nat.mod_1_r.
    Qed.
    Lemma group_prod e : (forall x, x ∈ labels_of Q -> e x < dim Q x) -> prodl (term e <$> Q) = prodl (term (parts e) <$> P).
    Proof.
      intros He. f_equal. apply list_eq. intros i. rewrite !list_lookup_fmap. destruct (Q !! i) as [q|] eqn:Eq.
      - destruct (Forall2_lookup_r _ _ _ _ _ Hb Eq) as (p & Ep & H1 & H2 & H3 & H4 & H5). rewrite Ep. cbn. f_equal. assert (Hq : q ∈ Q) by (by eapply elem_of_list_lookup_2).
        assert (Hsub : forall x, x ∈ q.1 -> x ∈ labels_of Q) by (intros x Hx; apply elem_of_labels; eauto).
        unfold term. rewrite H5 by (apply (coords_in_range Q); [done|done|done|]; intros x Hx; by apply He, Hsub). rewrite H1, H3. rewrite part_coords_ok; [done|done|done|intros ?; by apply Ha, Hsub|intros ?; by apply Hbb, Hsub|].
        intros Hx. rewrite <-group_dim_c. by apply He, Hsub.
      - apply lookup_ge_None in Eq. rewrite <-(Forall2_length _ _ _ Hb) in Eq. apply lookup_ge_None in Eq. by rewrite Eq.
    Qed.
    Lemma sum_labels_parts dm (ls : list L) (f : (L -> nat) -> K) (S : L -> Prop) e : depends f S -> a ∉ ls -> b ∉ ls -> c ∉ ls -> sum_labels dm ls (fun e => f (parts e)) e = sum_labels dm ls f (parts e).
    Proof.
      intros Hf. revert e. induction ls as [|x ls IH]; intros e H1 H2 H3; [done|]. apply not_elem_of_cons in H1 as [H1 H1']. apply not_elem_of_cons in H2 as [H2 H2']. apply not_elem_of_cons in H3 as [H3 H3'].
      cbn [sum_labels]. apply sumn_ext. intros v _. rewrite IH by done. apply (sum_labels_dep dm ls f S Hf). intros y _. unfold parts. rewrite (upd_ne e x c) by done. unfold upd.
      destruct (decide (y = b)) as [Eb|?], (decide (y = a)) as [Ea|?], (decide (y = x)) as [Ex|?]; try done; exfalso; congruence.
    Qed.
    Lemma group_inner rest e : a ∉ rest -> b ∉ rest -> c ∉ rest -> (forall x, x ∈ rest -> x ∈ labels_of Q) -> (forall x, x ∈ labels_of Q -> x ∉ rest -> e x < dim Q x) ->
      sum_labels (dim Q) rest (fun e => prodl (term e <$> Q)) e = sum_labels (dim P) rest (fun e => prodl (term e <$> P)) (parts e).
    Proof.
      intros H1 H2 H3 Hrest He. rewrite <-(sum_labels_parts _ _ _ _ _ (prod_dep P)) by done. apply sum_labels_ext.
      - intros x Hx. symmetry. apply group_dim; by intros ->.
      - intros e' Hno Hin. apply group_prod. intros x Hx. destruct (decide (x ∈ rest)) as [?|?]; [by apply Hin|]. rewrite Hno by done. by apply He.
    Qed.
    Lemma sumn_mult m n (f : nat -> K) : sumn (m * n) f = sumn m (fun x => sumn n (fun y => f (x * n + y))).
    Proof.
      assert (Hp : forall u v (g : nat -> K), sumn (u + v) g = sadd (sumn u g) (sumn v (fun y => g (u + y)))).
      { intros u v g. induction v as [|v IH]; [rewrite Nat.add_0_r, sumn_0; ring|]. rewrite Nat.add_succ_r, !sumn_S, IH. ring. }
      induction m as [|m IH]; [done|]. rewrite sumn_S, <-IH. replace (S m * n) with (m * n + n) by lia. apply Hp.
    Qed.
    (** The pair of indices is summed. *)
    Lemma group_sum out cs : c ∉ out -> a ∉ out -> b ∉ out -> in_range cs (dim Q <$> out) -> get (einsum Q out) cs = get (einsum P out) cs.
    Proof.
      destruct group_ac as [Hac Hbc]. intros Hco Hao Hbo Hcs. cbn [get einsum]. unfold esum. set (rest := filter (.≠ c) (summed Q out)).
      assert (Hra : a ∉ rest) by (unfold rest; rewrite elem_of_list_filter, elem_of_summed; tauto). assert (Hrb : b ∉ rest) by (unfold rest; rewrite elem_of_list_filter, elem_of_summed; tauto). assert (Hrc : c ∉ rest) by (unfold rest; rewrite elem_of_list_filter; tauto).
      assert (Hs : summed Q out ≡ₚ c :: rest).
      { apply NoDup_Permutation; [apply NoDup_summed|constructor; [done|apply NoDup_filter, NoDup_summed]|]. intros x. rewrite elem_of_cons. unfold rest. rewrite elem_of_list_filter, !elem_of_summed. destruct (decide (x = c)) as [->|]; tauto. }
      assert (Hs' : summed P out ≡ₚ a :: b :: rest).
      { apply NoDup_Permutation; [apply NoDup_summed|constructor; [rewrite elem_of_cons; tauto|constructor; [done|apply NoDup_filter, NoDup_summed]]|]. intros x. rewrite !elem_of_cons. unfold rest. rewrite elem_of_list_filter, !elem_of_summed, (grouped_labels _ _ _ Hb).
        destruct (decide (x = a)) as [->|]; [tauto|]. destruct (decide (x = b)) as [->|]; tauto. }
      rewrite (sum_labels_perm _ _ _ _ _ _ (prod_dep Q) (NoDup_summed _ _) Hs), (sum_labels_perm _ _ _ _ _ _ (prod_dep P) (NoDup_summed _ _) Hs'). cbn [sum_labels]. rewrite group_dim_c, group_dim_a, group_dim_b, sumn_mult.
      apply sumn_ext. intros x Hx. apply sumn_ext. intros y Hy. rewrite group_inner; [|done|done|done|intros z [_ [? _]%elem_of_summed]%elem_of_list_filter; done|].
      - apply (sum_labels_dep _ _ _ _ (prod_dep P)). intros z [Hz _]. apply (grouped_labels _ _ _ Hb) in Hz. unfold parts. rewrite upd_eq.
        replace ((x * db + y) / db) with x by (rewrite Nat.div_add_l by lia; rewrite Nat.div_small by done; lia). replace ((x * db + y) mod db) with y by (rewrite Nat.add_comm, Nat.mod_add by lia; by rewrite Nat.mod_small).
        unfold upd. destruct (decide (z = b)); [done|]. destruct (decide (z = a)); [done|]. rewrite decide_False; [done|]. tauto.
      - intros z Hz Hzr. destruct (decide (z = c)) as [->|Hne].
        + rewrite upd_eq, group_dim_c. nia.
        + rewrite upd_ne by done. apply env_of_range; [done|]. destruct (decide (z ∈ out)); [done|]. destruct Hzr. apply elem_of_list_filter. split; [done|]. by apply elem_of_summed.
    Qed.
    (** The pair is kept. *)
    Lemma part_coords_env out cs x : length cs = length out -> a ∉ out -> b ∉ out -> x ∈ part_labels a b c out -> env_of (part_labels a b c out) (part_coords c db out cs) x = parts (env_of out cs) x.
    Proof.
      destruct group_ac as [Hac Hbc]. revert cs. induction out as [|y out IH]; intros cs Hlen Ha' Hb' Hx; [by apply elem_of_nil in Hx|]. destruct cs as [|v cs]; [done|]. injection Hlen as Hlen.
      apply not_elem_of_cons in Ha' as [Hay Ha']. apply not_elem_of_cons in Hb' as [Hby Hb']. cbn in Hx |- *. destruct (decide (y = c)) as [->|Hy]; cbn.
      - cbn in Hx. destruct (decide (x = a)) as [->|Hxa]; [unfold parts; rewrite upd_eq, (upd_ne _ b a) by done; by rewrite !upd_eq|].
        destruct (decide (x = b)) as [->|Hxb]; [unfold parts; rewrite (upd_ne _ a b) by done; by rewrite !upd_eq|].
        apply elem_of_cons in Hx as [?|Hx]; [done|]. apply elem_of_cons in Hx as [?|Hx]; [done|]. rewrite !upd_ne by done. rewrite IH by done. assert (x <> c) by (apply part_labels_elem in Hx; tauto). unfold parts. by rewrite !upd_ne by done.
      - unfold parts. rewrite (upd_ne _ y c) by done. unfold upd at 1. destruct (decide (x = y)) as [->|Hxy]; [rewrite !upd_ne by done; by rewrite upd_eq|]. cbn in Hx. apply elem_of_cons in Hx as [?|Hx]; [done|]. rewrite IH by done. unfold parts, upd. by rewrite (decide_False (P := x = y)).
    Qed.
    Lemma group_kept out cs : c ∈ out -> a ∉ out -> b ∉ out -> in_range cs (dim Q <$> out) -> get (einsum Q out) cs = get (einsum P (part_labels a b c out)) (part_coords c db out cs).
    Proof.
      destruct group_ac as [Hac Hbc]. intros Hco Hao Hbo Hcs. cbn [get einsum]. unfold esum. assert (Hlen : length cs = length out) by (apply Forall2_length in Hcs; by rewrite Hcs, fmap_length).
      rewrite (group_inner (summed Q out)).
      - rewrite (sum_labels_perm (dim P) (summed P (part_labels a b c out)) (summed Q out) _ _ _ (prod_dep P) (NoDup_summed _ _)).
        + apply (sum_labels_dep' _ _ _ _ (fun x => x ∈ part_labels a b c out) (prod_dep P)).
          * intros x Hx. rewrite elem_of_summed, part_labels_elem. apply (grouped_labels _ _ _ Hb) in Hx. destruct (decide (x ∈ out)); tauto.
          * intros x Hx. symmetry. by apply part_coords_env.
        + apply NoDup_Permutation; [apply NoDup_summed..|]. intros x. rewrite !elem_of_summed, part_labels_elem, (grouped_labels _ _ _ Hb). destruct (decide (x = a)) as [->|]; [tauto|]. destruct (decide (x = b)) as [->|]; [tauto|]. destruct (decide (x = c)) as [->|]; tauto.
      - rewrite elem_of_summed. tauto.
      - rewrite elem_of_summed. tauto.
      - rewrite elem_of_summed. tauto.
      - intros x [? _]%elem_of_summed. done.
      - intros x Hx Hn. apply env_of_range; [done|]. destruct (decide (x ∈ out)); [done|]. destruct Hn. by apply elem_of_summed.
    Qed.
    Lemma part_labels_same out : c ∉ out -> part_labels a b c out = out.
    Proof. induction out as [|y out IH]; [done|]. intros [H1 H2]%not_elem_of_cons. cbn. rewrite decide_False by done. cbn. by rewrite IH. Qed.
    Lemma part_coords_same out (cs : list nat) : c ∉ out -> length cs = length out -> part_coords c db out cs = cs.
    Proof. revert cs. induction out as [|y out IH]; intros [|v cs]; [done..|]. intros [H1 H2]%not_elem_of_cons [= Hl]. cbn. rewrite decide_False by done. cbn. by rewrite IH. Qed.
    Lemma group_out out : a ∉ out -> b ∉ out -> grouped a b c da db (part_labels a b c out, einsum P (part_labels a b c out)) (out, einsum Q out).
    Proof.
      intros Hao Hbo. split; [done|]. cbn [fst snd]. split; [cbn; by rewrite fmap_length|]. split; [|split].
      - cbn. induction out as [|y out IH]; [done|]. apply not_elem_of_cons in Hao as [Hay Hao]. apply not_elem_of_cons in Hbo as [Hby Hbo]. cbn. rewrite fmap_app, IH by done. f_equal. destruct (decide (y = c)) as [->|Hy]; cbn; [by rewrite group_dim_a, group_dim_b|].
        rewrite group_dim; [done|by intros ->..|done].
      - intros i Hi. cbn. rewrite list_lookup_fmap, Hi. cbn. by rewrite group_dim_c.
      - intros cs Hcs. cbn [shape einsum] in Hcs. destruct (decide (c ∈ out)) as [Hco|Hco]; [by apply group_kept|]. rewrite part_labels_same, part_coords_same; [by apply group_sum|done|apply Forall2_length in Hcs; by rewrite Hcs, fmap_length|done].
    Qed.
  End Dims.
  Lemma part_range t sh cs : length sh = length t -> (forall i, t !! i = Some c -> sh !! i = Some (da * db)) -> in_range cs sh -> in_range (part_coords c db t cs) (part_sizes c da db t sh).
  Proof.
    unfold in_range. revert sh cs. induction t as [|y t IH]; intros [|d sh] cs Hlen Hs Hcs; [by constructor|done|done|]. injection Hlen as Hlen. inversion Hcs as [|v ? cs' ? Hv Hcs']; subst. cbn. apply Forall2_app.
    - destruct (decide (y = c)) as [->|]; [|by constructor]. specialize (Hs 0 eq_refl). cbn in Hs. injection Hs as ->. assert (db <> 0) by lia. constructor; [apply Nat.div_lt_upper_bound; lia|]. constructor; [by apply Nat.mod_upper_bound|constructor].
    - apply IH; [done| |done]. intros i. apply (Hs (S i)).
  Qed.
End Group.

(** C88.  Two indices that are adjacent on every operand that has one of them, and in the output if kept, taken as one index by reshaping the operands:
    the result is reshaped likewise. *)
Theorem C88_grouped (K : semiring) (B1 B2 : backend K) (ord1 ord2 : gset N -> list N) (e1 e2 : eqn) (s1 s2 : str) (ops1 ops2 : list (tensor K)) (ub1 ub2 : bool) (opt1 opt2 : optimize_arg) (mem1 mem2 : memory_arg) (a b c : elabel) (da db : nat) :
  backend_ok B1 -> b_has_einsum B1 = true -> (forall x, ord1 x ≡ₚ elements x) -> backend_ok B2 -> b_has_einsum B2 = true -> (forall x, ord2 x ≡ₚ elements x) ->
  e_in e1 <> [] -> plain_eqn e1 -> filter (.≠ c_space) s1 = render e1 -> well_formed e1 (shape <$> ops1) -> e_in e2 <> [] -> plain_eqn e2 -> filter (.≠ c_space) s2 = render e2 -> well_formed e2 (shape <$> ops2) ->
  let P := zip (in_labels e1 (shape <$> ops1)) ops1 in let Q := zip (in_labels e2 (shape <$> ops2)) ops2 in let out1 := out_labels e1 (shape <$> ops1) in let out2 := out_labels e2 (shape <$> ops2) in
  good P -> good Q -> length (remove_dups (labels_of P)) <= 52 -> length (remove_dups (labels_of Q)) <= 52 -> a <> b -> a ∉ labels_of Q -> b ∉ labels_of Q -> c ∈ labels_of Q -> Forall2 (grouped a b c da db) P Q -> out1 = part_labels a b c out2 ->
  mem_valid mem1 -> strategy_ok opt1 (length ops1) -> mem_valid mem2 -> strategy_ok opt2 (length ops2) ->
  exists T T', contract ord1 B1 ub1 opt1 mem1 s1 ops1 = Ok T /\ contract ord2 B2 ub2 opt2 mem2 s2 ops2 = Ok T' /\ grouped a b c da db (out1, T) (out2, T').
Proof.
  intros HB1 He1 Ho1 HB2 He2 Ho2 Hne1 Hpl1 Hs1 Hwf1 Hne2 Hpl2 Hs2 Hwf2 P Q out1 out2 Hg1 Hg2 Hsz1 Hsz2 Hab Ha Hb Hc HR Hout Hm1 Hst1 Hm2 Hst2.
  destruct (contract_ok ord1 Ho1 B1 HB1 e1 s1 ops1 Hne1 Hpl1 Hs1 Hwf1 ub1 opt1 mem1 Hg1 Hm1 Hst1 He1 Hsz1) as (T & HT & [E1 E2]).
  destruct (contract_ok ord2 Ho2 B2 HB2 e2 s2 ops2 Hne2 Hpl2 Hs2 Hwf2 ub2 opt2 mem2 Hg2 Hm2 Hst2 He2 Hsz2) as (T' & HT' & [F1 F2]).
  exists T, T'. split; [done|]. split; [done|]. fold P out1 in E1, E2. fold Q out2 in F1, F2. destruct Hg2 as [Hr' Hc' _ _].
  assert (Hk : forall x, x ∈ out2 -> x ∈ labels_of Q) by (intros x Hx; by apply out_known).
  destruct (group_out a b c da db P Q HR Hc' Hr' Hab Ha Hb Hc out2) as (_ & G2 & G3 & G4 & G5); [intros ?; by apply Ha, Hk|intros ?; by apply Hb, Hk|]. cbn [fst snd] in G2, G3, G4, G5. rewrite <-Hout in G3, G5.
  split; [done|]. cbn [fst snd]. rewrite F1, E1. split; [done|]. split; [done|]. split; [done|]. intros cs Hcs. rewrite F2 by (by rewrite F1). rewrite (G5 cs Hcs). symmetry. apply E2. rewrite E1, G3. by apply part_range.
Qed.
Print Assumptions C88_grouped.

(** 'abd,dfab->f' and 'abd,df->abf' with 'ab' taken as the one index 'c' of size six. *)
Definition s88_m : tensor nat_semiring := arr [2; 3; 2] (seq 1 12 : list nat_semiring).
Definition s88_m' : tensor nat_semiring := arr [6; 2] (seq 1 12 : list nat_semiring).
Definition s88_n : tensor nat_semiring := arr [2; 2; 2; 3] (seq 0 24 : list nat_semiring).
Definition s88_n' : tensor nat_semiring := arr [2; 2; 6] (seq 0 24 : list nat_semiring).
Definition s88_w : tensor nat_semiring := arr [2; 2] ([1; 0; 2; 1] : list nat_semiring).
Definition s88_l (s : str) : elabel := Named (nth 0 s 0%N).
Definition s88_grouped : list elabel * tensor nat_semiring -> list elabel * tensor nat_semiring -> Prop := grouped (s88_l (lit "a")) (s88_l (lit "b")) (s88_l (lit "c")) 2 3.
Lemma s88_gm : s88_grouped (Named <$> lit "abd", s88_m) (Named <$> lit "cd", s88_m').
Proof.
  split; [done|]. split; [done|]. split; [done|]. split; [intros [|[|i]] E; done|]. cbn [fst snd]. intros cs Hcs. change (in_range cs [6; 2]) in Hcs. unfold in_range in Hcs.
  inversion Hcs as [|c1 ? cs1 ? L1 H1]; subst. inversion H1 as [|c2 ? cs2 ? L2 H2]; subst. inversion H2; subst. clear -L1 L2. do 6 (destruct c1 as [|c1]; [do 2 (destruct c2 as [|c2]; [by vm_compute|]); lia|]); lia.
Qed.
Lemma s88_gn : s88_grouped (Named <$> lit "dfab", s88_n) (Named <$> lit "dfc", s88_n').
Proof.
  split; [done|]. split; [done|]. split; [done|]. split; [intros [|[|[|i]]] E; done|]. cbn [fst snd]. intros cs Hcs. change (in_range cs [2; 2; 6]) in Hcs. unfold in_range in Hcs.
  inversion Hcs as [|c1 ? cs1 ? L1 H1]; subst. inversion H1 as [|c2 ? cs2 ? L2 H2]; subst. inversion H2 as [|c3 ? cs3 ? L3 H3]; subst. inversion H3; subst. clear -L1 L2 L3.
  do 2 (destruct c1 as [|c1]; [do 2 (destruct c2 as [|c2]; [do 6 (destruct c3 as [|c3]; [by vm_compute|]); lia|]); lia|]); lia.
Qed.
Lemma s88_gw : s88_grouped (Named <$> lit "df", s88_w) (Named <$> lit "df", s88_w).
Proof.
  split; [done|]. split; [done|]. split; [done|]. split; [intros [|[|i]] E; done|]. cbn [fst snd]. intros cs Hcs. change (in_range cs [2; 2]) in Hcs. unfold in_range in Hcs.
  inversion Hcs as [|c1 ? cs1 ? L1 H1]; subst. inversion H1 as [|c2 ? cs2 ? L2 H2]; subst. inversion H2; subst. done.
Qed.
Example C88_hypotheses :
  Forall (fun p => plain_eqn p.1 /\ well_formed p.1 (shape <$> p.2) /\ good (s83_tops p.1 p.2) /\ length (remove_dups (labels_of (s83_tops p.1 p.2))) <= 52)
    [(s83_eqn [lit "abd"; lit "dfab"] (lit "f"), [s88_m; s88_n]); (s83_eqn [lit "cd"; lit "dfc"] (lit "f"), [s88_m'; s88_n']); (s83_eqn [lit "abd"; lit "df"] (lit "abf"), [s88_m; s88_w]); (s83_eqn [lit "cd"; lit "df"] (lit "cf"), [s88_m'; s88_w])] /\
  Forall2 s88_grouped (s83_tops (s83_eqn [lit "abd"; lit "dfab"] (lit "f")) [s88_m; s88_n]) (s83_tops (s83_eqn [lit "cd"; lit "dfc"] (lit "f")) [s88_m'; s88_n']) /\
  Forall2 s88_grouped (s83_tops (s83_eqn [lit "abd"; lit "df"] (lit "abf")) [s88_m; s88_w]) (s83_tops (s83_eqn [lit "cd"; lit "df"] (lit "cf")) [s88_m'; s88_w]) /\
  (Named <$> lit "abf") = part_labels (s88_l (lit "a")) (s88_l (lit "b")) (s88_l (lit "c")) (Named <$> lit "cf") /\ s88_l (lit "c") ∈ Named <$> lit "cd" /\ s88_l (lit "a") ∉ Named <$> lit "cdfc" /\ s88_l (lit "b") ∉ Named <$> lit "cdfc".
Proof.
  split.
  { repeat (apply Forall_cons; split); [..|by apply Forall_nil]; cbn [fst snd]; (split; [apply plain_check_ok; by vm_compute|]); (split; [apply wf_check_ok; by vm_compute|]); (split; [apply good_check_ok; by vm_compute|apply (bool_decide_unpack _); by vm_compute]). }
  split; [apply Forall2_cons; split; [exact s88_gm|apply Forall2_cons; split; [exact s88_gn|by apply Forall2_nil_2]]|].
  split; [apply Forall2_cons; split; [exact s88_gm|apply Forall2_cons; split; [exact s88_gw|by apply Forall2_nil_2]]|].
  split; [by vm_compute|]. split_and!; apply (bool_decide_unpack _); by vm_compute.
Qed.
Example C88_instance :
  s83_run (lit "abd,dfab->f") [s88_m; s88_n] = s83_run (lit "cd,dfc->f") [s88_m'; s88_n'] /\ option_map fst (s83_run (lit "cd,dfc->f") [s88_m'; s88_n']) = Some [2] /\
  s83_run (lit "abd,df->abf") [s88_m; s88_w] = Some ([2; 3; 2], [5; 2; 11; 4; 17; 6; 23; 8; 29; 10; 35; 12]) /\ s83_run (lit "cd,df->cf") [s88_m'; s88_w] = Some ([6; 2], [5; 2; 11; 4; 17; 6; 23; 8; 29; 10; 35; 12]).
Proof. split_and!; by vm_compute. Qed.
