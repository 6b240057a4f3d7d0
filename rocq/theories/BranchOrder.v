(** What [BranchBound] finds, when every label occurs at most twice and the memory limit, if any, is never exceeded. *)
From Verif Require Import Prelude Einsum EinsumFacts Helpers Contract Spec PathSpec StringFacts StepFacts ContractFacts PathFacts Ssa SsaSpec SsaFacts SsaMore Optimal OptimalFacts OptimalBest GreedySpec Branch BranchFacts BranchBest BranchSpec RandomFacts.

Lemma better_spec m f s bf bs : better m f s (Some bf) (Some bs) = false <-> no_worse m bf bs f s.
Proof. destruct m; simpl; rewrite orb_false_iff, Nat.ltb_ge, andb_false_iff, Nat.eqb_neq, Nat.ltb_ge; lia. Qed.
Lemma no_worse_refl m f s : no_worse m f s f s.
Proof. destruct m; simpl; lia. Qed.
Lemma no_worse_trans m f s f' s' f'' s'' : no_worse m f s f' s' -> no_worse m f' s' f'' s'' -> no_worse m f s f'' s''.
Proof. destruct m; simpl; lia. Qed.
Lemma no_worse_le m f s f' s' : f <= f' -> s <= s' -> no_worse m f s f' s'.
Proof. destruct m; simpl; lia. Qed.
Lemma no_worse_total m f s f' s' : ~ no_worse m f s f' s' -> no_worse m f' s' f s.
Proof. destruct m; simpl; lia. Qed.
(** The best of a state is no worse. *)
Definition bounded (m : minimize) (st : br_state) (f s : nat) : Prop := exists bf bs, b_flops st = Some bf /\ b_size st = Some bs /\ no_worse m bf bs f s.
Definition improves (m : minimize) (st st' : br_state) : Prop := forall f s, bounded m st f s -> bounded m st' f s.
Lemma bounded_weaken m st f s f' s' : bounded m st f s -> no_worse m f s f' s' -> bounded m st f' s'.
Proof. intros (bf & bs & ? & ? & H) H'. exists bf, bs. split; [done|]. split; [done|]. by eapply no_worse_trans. Qed.

Lemma unlinked_perm fr (l l' : list (gset N)) : l ≡ₚ l' -> unlinked fr l -> unlinked fr l'.
Proof.
  intros Hp Hu i j a b Hij Hi Hj. symmetry in Hp. apply Permutation_inj in Hp as (_ & f & Hf & Hl). rewrite Hl in Hi, Hj.
  apply (Hu (f i) (f j)); [|done|done]. intros ?%Hf. done.
Qed.

Lemma lex_leb_refl l : lex_leb l l = true.
Proof. induction l as [|x l IH]; [done|]. simpl. rewrite IH, Z.eqb_refl. by rewrite orb_true_r. Qed.
#[global] Instance cand_le_trans : Transitive cand_le.
Proof.
  intros a b c. unfold cand_le. generalize (cand_key a) (cand_key b) (cand_key c). clear a b c. intros a. induction a as [|x a IH]; intros [|y b] [|z c]; simpl; try done.
  rewrite !orb_true_iff, !andb_true_iff, !Z.ltb_lt, !Z.eqb_eq. intros [?|[-> ?]] [?|[-> ?]]; [left; lia|left; lia|left; lia|right]. split; [done|]. by eapply IH.
Qed.
#[global] Instance cand_le_total : Total cand_le.
Proof.
  intros a b. unfold cand_le. generalize (cand_key a) (cand_key b). clear a b. intros a. induction a as [|x a IH]; intros [|y b]; simpl; auto.
  rewrite !orb_true_iff, !andb_true_iff, !Z.ltb_lt, !Z.eqb_eq. destruct (Z.lt_trichotomy x y) as [?|[->|?]]; [auto| |auto]. destruct (IH b); auto.
Qed.

Section Exact.
  Variable P : bb_params.
  Variable ordI : gset nat -> list nat.
  Hypothesis ordI_ok : forall s, ordI s ≡ₚ elements s.
  Variables (out : gset N) (d : sizes) (mem : option nat) (inputs0 : list (gset N)).
  Notation n := (length inputs0).
  Notation D := (size_of d).
  Notation m0 := (occurrences out inputs0).
  Hypothesis twice : forall c, m0 c <= 2.
  Hypothesis roomy : forall limit k, mem = Some limit -> k ⊆ union_all inputs0 -> volume D k <= limit.
  Notation tracked := (tracked out d mem inputs0).

  Definition key_of (inputs : list (gset N)) (i : nat) : gset N := default ∅ (inputs !! i).
  (** The labels, operations and size of contracting [i] and [j]. *)
  Definition k_of (inputs : list (gset N)) (av : list nat) (i j : nat) : gset N :=
    merged out (key_of inputs i) (key_of inputs j) (union_all (at_ids inputs (filter (.∉ [i; j]) av))).
  Definition f_of (inputs : list (gset N)) (av : list nat) (i j : nat) : nat := pair_cost D ([key_of inputs i; key_of inputs j], k_of inputs av i j).
  Definition v_of (inputs : list (gset N)) (av : list nat) (i j : nat) : nat := volume D (k_of inputs av i j).
  Definition cost_at (inputs : list (gset N)) (av : list nat) (calls i j : nat) : Z :=
    bb_cost P calls (v_of inputs av i j) (volume D (key_of inputs i)) (volume D (key_of inputs j)) (k_of inputs av i j) (key_of inputs i) (key_of inputs j).
  Definition cand_at (inputs : list (gset N)) (av : list nat) (flops size calls i j : nat) : cand :=
    Cand (cost_at inputs av calls i j) (f_of inputs av i j) (flops + f_of inputs av i j) (Nat.max size (v_of inputs av i j)) i j (k_of inputs av i j).

  Definition sound (st : br_state) : Prop := (forall k1 k2 v, b_results st !! (k1, k2) = Some v -> fspec out d inputs0 k1 k2 v) /\ (forall k s, b_sizes st !! k = Some s -> set_size k d = Ok s).
  (** Nothing has been found since. *)
  Definition same_best (st st' : br_state) : Prop := b_flops st' = b_flops st /\ b_size st' = b_size st /\ b_path st' = b_path st.
  Definition sub_labels (inputs : list (gset N)) : Prop := Forall (fun k => k ⊆ union_all inputs0) inputs.

  Lemma assess_exact p av inputs flops size k1 k2 i j st o st' : tracked p av inputs flops -> sub_labels inputs -> i ∈ av -> j ∈ av -> i < j -> inputs !! i = Some k1 -> inputs !! j = Some k2 ->
    sound st -> assess P ordI out d mem p inputs (list_to_set av) flops size k1 k2 i j st = Ok (o, st') ->
    let f := flops + f_of inputs av i j in let s := Nat.max size (v_of inputs av i j) in
    sound st' /\ same_best st st' /\
    ((o = None /\ b_progress st' = b_progress st /\ better (bb_minimize P) f s (b_flops st) (b_size st) = false) \/
     (o = None /\ b_progress st' = b_progress st /\ exists x, b_progress st !! length inputs = Some x /\ x <= f /\ bb_cut P f x = true) \/
     (o = Some (cand_at inputs av flops size (b_calls st) i j) /\ better (bb_minimize P) f s (b_flops st) (b_size st) = true /\
      b_progress st' = match b_progress st !! length inputs with Some x => if f <? x then <[length inputs := f]> (b_progress st) else b_progress st | None => <[length inputs := f]> (b_progress st) end)).
  Proof.
    intros Ht Hsub Hi Hj Hij Hk1 Hk2 Hs H f s. unfold assess in H.
    assert (Hkey1 : key_of inputs i = k1) by (unfold key_of; by rewrite Hk1). assert (Hkey2 : key_of inputs j = k2) by (unfold key_of; by rewrite Hk2).
    set (k12 := merged out k1 k2 (union_all (at_ids inputs (filter (.∉ [i; j]) av)))) in *.
    set (c12 := pair_cost D ([k1; k2], k12)) in *.
    assert (Ek : k_of inputs av i j = k12) by (unfold k_of; by rewrite Hkey1, Hkey2).
    assert (Efo : f_of inputs av i j = c12) by (unfold f_of; by rewrite Ek, Hkey1, Hkey2).
    assert (Es : s = Nat.max size (volume D k12)) by (unfold s, v_of; by rewrite Ek). assert (Ef0 : f = flops + c12) by (unfold f; by rewrite Efo).
    assert (Ecand : cand_at inputs av flops size (b_calls st) i j = Cand (bb_cost P (b_calls st) (volume D k12) (volume D k1) (volume D k2) k12 k1 k2) c12 f s i j k12).
    { unfold cand_at, cost_at. unfold v_of. by rewrite Ek, Efo, Hkey1, Hkey2, Ef0, Es. }
    rewrite Ecand. clearbody f s. clear Ecand Ek Efo Hkey1 Hkey2.
    destruct (calc_fspec ordI ordI_ok out d mem inputs0 twice p av inputs flops i j k1 k2 Ht Hi Hj) as (c & Hcalc & Hfs & Hc); [lia|done|done|]. fold k12 in Hcalc, Hfs, Hc.
    assert (Hmemo : exists c', memo (b_results st) (k1, k2) (calc_k12_flops inputs out (list_to_set av) i j d) = Ok ((k12, c12), c') /\
       forall a b v, c' !! (a, b) = Some v -> fspec out d inputs0 a b v).
    { unfold memo. destruct (b_results st !! (k1, k2)) as [v|] eqn:Ec.
      - exists (b_results st). split; [|apply Hs]. do 2 f_equal. apply (fspec_unique out d inputs0 k1 k2); [by eapply (proj1 Hs)|]. unfold c12. by rewrite <-Hc.
      - rewrite Hcalc. cbn [mbind res_bind]. eexists. split; [unfold c12; by rewrite <-Hc|]. intros a b v. rewrite lookup_insert_Some.
        intros [[[= <- <-] <-]|[_ Hab]]; [done|]. by eapply (proj1 Hs). }
    destruct Hmemo as (c' & Hmemo & Hc'). rewrite Hmemo in H. cbn [mbind res_bind] in H.
    assert (Hlab : forall k, k ∈ inputs -> labels_in d k).
    { destruct (tr_prefix _ _ _ _ _ _ _ _ Ht) as [_ _ _ Hlab]. by rewrite Forall_forall in Hlab. }
    assert (Hlab1 : labels_in d k1) by (apply Hlab; by eapply elem_of_list_lookup_2). assert (Hlab2 : labels_in d k2) by (apply Hlab; by eapply elem_of_list_lookup_2).
    assert (Hlab12 : labels_in d k12).
    { intros x Hx. unfold k12, merged in Hx. apply elem_of_intersection in Hx as [Hx _]. apply elem_of_union in Hx as [Hx|Hx]; [by apply Hlab1|by apply Hlab2]. }
    assert (Hk12 : k12 ⊆ union_all inputs0).
    { unfold sub_labels in Hsub. rewrite Forall_forall in Hsub. assert (k1 ⊆ union_all inputs0) by (apply Hsub; by eapply elem_of_list_lookup_2).
      assert (k2 ⊆ union_all inputs0) by (apply Hsub; by eapply elem_of_list_lookup_2). unfold k12, merged. set_solver. }
    assert (Hms : exists c2, memo (b_sizes st) k12 (set_size k12 d) = Ok (volume D k12, c2) /\ forall k x, c2 !! k = Some x -> set_size k d = Ok x).
    { unfold memo. pose proof (volume_size d k12 Hlab12) as Hv. destruct (b_sizes st !! k12) as [x|] eqn:Ex.
      - exists (b_sizes st). apply (proj2 Hs) in Ex as Ex'. split; [congruence|apply Hs].
      - rewrite Hv. cbn [mbind res_bind]. eexists. split; [done|]. intros k x. rewrite lookup_insert_Some. intros [[<- <-]|[_ Hk]]; [done|]. by apply (proj2 Hs). }
    destruct Hms as (c2 & Hms & Hc2). rewrite Hms in H. cbn [mbind res_bind] in H.
    cbn [b_flops b_size b_path b_progress b_sizes b_results b_calls] in H. rewrite <-Ef0, <-Es in H.
    assert (Hg : forall pr calls, sound (BrState (b_flops st) (b_size st) (b_path st) pr c2 c' calls)) by (intros; by split).
    destruct (better (bb_minimize P) f s (b_flops st) (b_size st)) eqn:Eb; cbn [negb] in H.
    2: { apply Ok_inj in H as [= <- <-]. split; [apply Hg|]. split; [done|]. by left. }
    destruct (match mem with Some limit => limit <? volume D k12 | None => false end) eqn:Em.
    { destruct mem as [limit|] eqn:Emem; [|done]. apply Nat.ltb_lt in Em. pose proof (roomy limit k12 eq_refl Hk12). lia. }
    assert (Hvol : forall k x, c2 !! k = Some x -> labels_in d k -> x = volume D k).
    { intros k x Hk Hl. apply Hc2 in Hk. rewrite (volume_size d k Hl) in Hk. congruence. }
    destruct (b_progress st !! length inputs) as [x|] eqn:Ex.
    - destruct (f <? x) eqn:Ef; cbn [negb andb] in H.
      + cbn [b_flops b_size b_path b_progress b_sizes b_results b_calls] in H. apply bind_Ok in H as (s1 & H1 & H). apply bind_Ok in H as (s2 & H2 & H).
        destruct (c2 !! k1) as [v1|] eqn:E1; [|done]. destruct (c2 !! k2) as [v2|] eqn:E2; [|done]. apply Ok_inj in H1 as ->. apply Ok_inj in H2 as ->.
        apply Hvol in E1; [|done]. apply Hvol in E2; [|done]. subst s1 s2. apply Ok_inj in H as [= <- <-]. split; [apply Hg|]. split; [done|]. right. right. done.
      + destruct (bb_cut P f x) eqn:Ecut.
        * apply Ok_inj in H as [= <- <-]. split; [apply Hg|]. split; [done|]. right. left. split; [done|]. split; [done|]. exists x. split; [done|]. split; [by apply Nat.ltb_ge in Ef|done].
        * cbn [b_flops b_size b_path b_progress b_sizes b_results b_calls] in H. apply bind_Ok in H as (s1 & H1 & H). apply bind_Ok in H as (s2 & H2 & H).
          destruct (c2 !! k1) as [v1|] eqn:E1; [|done]. destruct (c2 !! k2) as [v2|] eqn:E2; [|done]. apply Ok_inj in H1 as ->. apply Ok_inj in H2 as ->.
          apply Hvol in E1; [|done]. apply Hvol in E2; [|done]. subst s1 s2. apply Ok_inj in H as [= <- <-]. split; [apply Hg|]. split; [done|]. right. right. done.
    - cbn [negb andb b_flops b_size b_path b_progress b_sizes b_results b_calls] in H. apply bind_Ok in H as (s1 & H1 & H). apply bind_Ok in H as (s2 & H2 & H).
      destruct (c2 !! k1) as [v1|] eqn:E1; [|done]. destruct (c2 !! k2) as [v2|] eqn:E2; [|done]. apply Ok_inj in H1 as ->. apply Ok_inj in H2 as ->.
      apply Hvol in E1; [|done]. apply Hvol in E2; [|done]. subst s1 s2. apply Ok_inj in H as [= <- <-]. split; [apply Hg|]. split; [done|]. right. right. done.
  Qed.

  Definition wanted (skip : bool) (inputs : list (gset N)) (i j : nat) : Prop := skip = false \/ key_of inputs i ∩ key_of inputs j <> ∅.
  Lemma wanted_dec skip inputs i j : Decision (wanted skip inputs i j).
  Proof. unfold wanted. apply _. Qed.
  (** One pass over the pairs [l]. *)
  Record passed (skip : bool) (av : list nat) (inputs : list (gset N)) (flops size : nat) (st0 : br_state) (l : list (nat * nat)) (acc : list cand * br_state) : Prop := Passed {
    ps_sound : sound acc.2;
    ps_len : length acc.1 <= length l;
    ps_same : same_best st0 acc.2;
    ps_prog : forall m, m <> length inputs -> b_progress acc.2 !! m = b_progress st0 !! m;
    ps_here : forall x, b_progress acc.2 !! length inputs = Some x -> b_progress st0 !! length inputs = Some x \/
      exists i j, i ∈ av /\ j ∈ av /\ i < j /\ wanted skip inputs i j /\ x = flops + f_of inputs av i j;
    ps_cands : forall c, c ∈ acc.1 -> exists calls i j, c = cand_at inputs av flops size calls i j /\ i ∈ av /\ j ∈ av /\ i < j /\ wanted skip inputs i j /\
      better (bb_minimize P) (c_flops c) (c_size c) (b_flops st0) (b_size st0) = true;
    ps_all : forall i j, i < j -> (i, j) ∈ l \/ (j, i) ∈ l -> wanted skip inputs i j ->
      let f := flops + f_of inputs av i j in
      better (bb_minimize P) f (Nat.max size (v_of inputs av i j)) (b_flops st0) (b_size st0) = false \/
      (exists calls, cand_at inputs av flops size calls i j ∈ acc.1) \/
      exists x, bb_cut P f x = true /\ (b_progress st0 !! length inputs = Some x \/ exists i' j', i' ∈ av /\ j' ∈ av /\ i' < j' /\ wanted skip inputs i' j' /\ x = flops + f_of inputs av i' j');
    ps_none : acc.1 = [] -> b_progress acc.2 !! length inputs = b_progress st0 !! length inputs;
    ps_first : b_flops st0 = None -> b_size st0 = None -> b_progress st0 !! length inputs = None ->
      forall i j, i < j -> (i, j) ∈ l \/ (j, i) ∈ l -> wanted skip inputs i j -> acc.1 <> [] }.

  Lemma pass_exact skip p av inputs flops size st0 acc : tracked p av inputs flops -> sub_labels inputs -> sound st0 ->
    foldM_res (assess_pair P ordI out d mem skip p inputs (list_to_set av) flops size) ([], st0) (combos2 (ordI (list_to_set av))) = Ok acc ->
    passed skip av inputs flops size st0 (combos2 (ordI (list_to_set av))) acc.
  Proof.
    intros Ht Hsub Hs0 Hf. destruct (ap_asc _ _ _ _ _ (tr_prefix _ _ _ _ _ _ _ _ Ht)) as [Ha Hlt].
    assert (Hord : ordI (list_to_set av) ≡ₚ av) by (rewrite ordI_ok; apply elements_list_to_set; by apply asc_NoDup).
    refine (foldM_inv _ (fun l acc => passed skip av inputs flops size st0 l acc) _ _ _ _ _ Hf).
    2: { split; simpl; [done|lia|done|done|by left|by intros c ?%elem_of_nil| |done|]; [|intros _ _ _]; intros i j _ [?%elem_of_nil|?%elem_of_nil]; done. }
    intros bef [i0 j0] rest [cands s] acc' Hl [H1 H0 H2 H3 H4 H5 H6 H7 H8] Hp. simpl in H1, H0, H2, H3, H4, H5, H6, H7, H8.
    assert (Hij : (i0, j0) ∈ combos2 (ordI (list_to_set av))) by (rewrite Hl; apply elem_of_app; right; left).
    apply elem_combos2 in Hij as (Hi0 & Hj0 & Hne0); [|rewrite Hord; by apply asc_NoDup]. rewrite Hord in Hi0, Hj0. unfold assess_pair in Hp. cbn [fst snd] in Hp.
    assert (Hpair : exists i j, (if j0 <? i0 then (j0, i0) else (i0, j0)) = (i, j) /\ i ∈ av /\ j ∈ av /\ i < j /\
       forall i' j', i' < j' -> (i', j') ∈ bef ++ [(i0, j0)] \/ (j', i') ∈ bef ++ [(i0, j0)] -> ((i', j') ∈ bef \/ (j', i') ∈ bef) \/ (i' = i /\ j' = j)).
    { destruct (Nat.ltb_spec j0 i0); [exists j0, i0|exists i0, j0]; (split; [done|]); (split; [done|]); (split; [done|]); (split; [lia|]);
        intros i' j' Hlt' Hin; rewrite !elem_of_app, !elem_of_list_singleton in Hin;
        (destruct Hin as [[?|[= -> ->]]|[?|[= -> ->]]]; [by left; left| |by left; right|]; try lia; by right). }
    destruct Hpair as (i & j & Hpe & Hi & Hj & Hij & Hnew). rewrite Hpe in Hp. rewrite Forall_forall in Hlt.
    destruct (lookup_lt_is_Some_2 inputs i (Hlt i Hi)) as [k1 Hk1]. destruct (lookup_lt_is_Some_2 inputs j (Hlt j Hj)) as [k2 Hk2].
    assert (Hw : wanted skip inputs i j <-> skip && bool_decide (k1 ∩ k2 = ∅) = false).
    { unfold wanted, key_of. rewrite Hk1, Hk2. simpl. destruct skip; simpl; [|naive_solver]. rewrite bool_decide_eq_false. naive_solver. }
    rewrite Hk1, Hk2 in Hp. cbn [of_opt mbind res_bind] in Hp. destruct (skip && bool_decide (k1 ∩ k2 = ∅)).
    { apply Ok_inj in Hp as <-. split; simpl; try done; [rewrite app_length; simpl; lia| |].
      - intros i' j' Hlt' Hin Hwa. destruct (Hnew i' j' Hlt' Hin) as [Hb|[-> ->]]; [by apply H6|]. apply Hw in Hwa. done.
      - intros F1 F2 F3 i' j' Hlt' Hin Hwa. destruct (Hnew i' j' Hlt' Hin) as [Hb|[-> ->]]; [by eapply H8|]. apply Hw in Hwa. done. }
    assert (Hw' : wanted skip inputs i j) by by apply Hw. clear Hw.
    apply bind_Ok in Hp as ([o s1] & Has & Hp). apply Ok_inj in Hp as <-.
    destruct (assess_exact p av inputs flops size k1 k2 i j s o s1 Ht Hsub Hi Hj Hij Hk1 Hk2 H1 Has) as (A1 & A2 & A3).
    assert (Hsame : same_best st0 s1) by (destruct A2 as (? & ? & ?), H2 as (? & ? & ?); split; [congruence|split; congruence]). destruct H2 as (Efl & Esz & _). rewrite Efl, Esz in A3.
    destruct A3 as [(-> & Epr & Eb)|[(-> & Epr & x & Ex & _ & Ecut)|(-> & Eb & Epr)]].
    - split; simpl; try done; [rewrite app_length; simpl; lia|intros m Hm; rewrite Epr; by apply H3|intros x; rewrite Epr; apply H4| |by rewrite Epr|].
      + intros i' j' Hlt' Hin Hwa. destruct (Hnew i' j' Hlt' Hin) as [Hb|[-> ->]]; [by apply H6|]. by left.
      + intros F1 F2. rewrite F1, F2 in Eb. by destruct (bb_minimize P).
    - split; simpl; try done; [rewrite app_length; simpl; lia|intros m Hm; rewrite Epr; by apply H3|intros y; rewrite Epr; apply H4| |by rewrite Epr|].
      + intros i' j' Hlt' Hin Hwa. destruct (Hnew i' j' Hlt' Hin) as [Hb|[-> ->]]; [by apply H6|]. right. right. exists x. split; [done|]. by apply H4.
      + intros F1 F2 F3 _ _ _ _ _ ->. rewrite H7, F3 in Ex by done. done.
    - assert (Hne : cands ++ [cand_at inputs av flops size (b_calls s) i j] <> []) by by intros [_ ?]%app_eq_nil.
      split; simpl; try done.
      + rewrite !app_length. simpl. lia.
      + intros m Hm. rewrite Epr. destruct (b_progress s !! length inputs) as [x|]; [destruct (flops + f_of inputs av i j <? x)|]; rewrite ?lookup_insert_ne by done; by apply H3.
      + intros y Hy. rewrite Epr in Hy. destruct (b_progress s !! length inputs) as [x|] eqn:Ex; [destruct (flops + f_of inputs av i j <? x)|].
        * rewrite lookup_insert in Hy. right. exists i, j. split; [done|]. split; [done|]. split; [done|]. split; [done|congruence].
        * apply H4. congruence.
        * rewrite lookup_insert in Hy. right. exists i, j. split; [done|]. split; [done|]. split; [done|]. split; [done|congruence].
      + intros c [Hc|Hc]%elem_of_app; [by apply H5|]. apply elem_of_list_singleton in Hc as ->. exists (b_calls s), i, j. done.
      + intros i' j' Hlt' Hin Hwa. destruct (Hnew i' j' Hlt' Hin) as [Hb|[-> ->]].
        * destruct (H6 i' j' Hlt' Hb Hwa) as [?|[[calls ?]|?]]; [by left| |by right; right]. right. left. exists calls. apply elem_of_app. by left.
        * right. left. exists (b_calls s). apply elem_of_app. right. by apply elem_of_list_singleton.
  Qed.

  Lemma node_passes p av inputs flops size st cands s1 cands2 s2 : tracked p av inputs flops -> sub_labels inputs -> sound st ->
    foldM_res (assess_pair P ordI out d mem true p inputs (list_to_set av) flops size) ([], st) (combos2 (ordI (list_to_set av))) = Ok (cands, s1) ->
    match cands with
    | [] => foldM_res (assess_pair P ordI out d mem false p inputs (list_to_set av) flops size) ([], s1) (combos2 (ordI (list_to_set av)))
    | _ => Ok (cands, s1)
    end = Ok (cands2, s2) ->
    exists skip, passed skip av inputs flops size st (combos2 (ordI (list_to_set av))) (cands2, s2) /\ (skip = true -> cands2 <> []) /\
      (skip = false -> b_flops st = None -> b_size st = None -> b_progress st !! length inputs = None -> forall i j, i ∈ av -> j ∈ av -> i < j -> ~ wanted true inputs i j).
  Proof.
    intros Ht Hsub Hs Hf1 Hf2. destruct (ap_asc _ _ _ _ _ (tr_prefix _ _ _ _ _ _ _ _ Ht)) as [Ha Hlt].
    assert (Hord : ordI (list_to_set av) ≡ₚ av) by (rewrite ordI_ok; apply elements_list_to_set; by apply asc_NoDup).
    apply pass_exact in Hf1 as P1; [|done|done|done].
    destruct cands as [|c cands]; [|apply Ok_inj in Hf2 as [= <- <-]; by exists true].
    apply pass_exact in Hf2; [|done|done|apply P1]. destruct Hf2 as [A1 A2 A3 A4 A5 A6 A7 A8 A9], P1 as [B1 B2 B3 B4 B5 B6 B7 B8 B9]. simpl in *. exists false.
    destruct B3 as (E1 & E2 & E3). split; [|split; [done|]].
    - split; simpl; try done.
      + destruct A3 as (? & ? & ?). split; [congruence|split; congruence].
      + intros m Hm. rewrite A4, B4 by done. done.
      + intros x Hx. destruct (A5 x Hx) as [Hx'|?]; [|by right]. destruct (B5 x Hx') as [?|(i & j & ? & ? & ? & ? & ?)]; [by left|]. right. exists i, j. repeat (split; [done|]). split; [by left|done].
      + intros c Hin. rewrite <-E1, <-E2. by apply A6.
      + intros i j Hij Hin Hw. rewrite <-E1, <-E2. destruct (A7 i j Hij Hin Hw) as [?|[?|(x & Hx & Hx')]]; [by left|by right; left|]. right. right. exists x. split; [done|].
        destruct Hx' as [Hx'|?]; [|by right]. destruct (B5 x Hx') as [?|(i' & j' & ? & ? & ? & ? & ?)]; [by left|]. right. exists i', j'. repeat (split; [done|]). split; [by left|done].
      + intros Hn. rewrite A8, B8 by done. done.
      + intros F1 F2 F3. apply A9; [congruence|congruence|]. rewrite B8 by done. done.
    - intros _ F1 F2 F3 i j Hi Hj Hij Hw. apply (B9 F1 F2 F3 i j Hij); [|done|done]. apply combos2_elem; [by rewrite Hord|by rewrite Hord|lia].
  Qed.

  (** A node of the search as a list of operands: positions and ids. *)
  Lemma at_ids_keys inputs av : Forall (fun i => i < length inputs) av -> at_ids inputs av = key_of inputs <$> av.
  Proof. unfold at_ids, key_of. induction 1 as [|i l Hi _ IH]; [done|]. simpl. destruct (lookup_lt_is_Some_2 inputs i Hi) as [x ->]. simpl. f_equal. exact IH. Qed.
  Lemma con_pair av x y i j : asc av -> x < y -> av !! x = Some i -> av !! y = Some j -> sort_nat (bisect_left av <$> [i; j]) = [x; y].
  Proof. intros Ha Hxy Hx Hy. cbn [fmap list_fmap]. rewrite (bisect_lookup av x i), (bisect_lookup av y j) by done. by apply sort_pair. Qed.
  Lemma asc_lookup_lt av x y i j : asc av -> x < y -> av !! x = Some i -> av !! y = Some j -> i < j.
  Proof.
    intros Ha. revert x y. induction Ha as [|a l Hl IH Hf]; intros x y Hxy Hx Hy; [done|]. destruct y as [|y]; [lia|]. simpl in Hy. destruct x as [|x]; simpl in Hx.
    - injection Hx as ->. rewrite Forall_forall in Hf. by eapply Hf, elem_of_list_lookup_2.
    - apply (IH x y); [lia|done|done].
  Qed.
  Lemma node_step inputs av x y i j : asc av -> Forall (fun i => i < length inputs) av -> x < y -> av !! x = Some i -> av !! y = Some j ->
    chosen [x; y] (key_of inputs <$> av) = [key_of inputs i; key_of inputs j] /\
    others [x; y] (key_of inputs <$> av) = key_of inputs <$> filter (.∉ [i; j]) av /\
    kept out [x; y] (key_of inputs <$> av) = k_of inputs av i j /\
    others [x; y] (key_of inputs <$> av) ++ [kept out [x; y] (key_of inputs <$> av)] = key_of (inputs ++ [k_of inputs av i j]) <$> (filter (.∉ [i; j]) av ++ [length inputs]).
  Proof.
    intros Ha Hlt Hxy Hx Hy. pose proof (asc_lookup_lt av x y i j Ha Hxy Hx Hy) as Hij.
    assert (Hnd : NoDup [i; j]) by (apply NoDup_cons; split; [rewrite elem_of_list_singleton; lia|apply NoDup_singleton]).
    assert (Hin : forall z, z ∈ [i; j] -> z ∈ av) by (intros z [->|Hz]%elem_of_cons; [by eapply elem_of_list_lookup_2|apply elem_of_list_singleton in Hz as ->; by eapply elem_of_list_lookup_2]).
    assert (H1 : chosen [x; y] (key_of inputs <$> av) = [key_of inputs i; key_of inputs j]).
    { rewrite chosen_fmap, <-(con_pair av x y i j), chosen_con, sort_pair by done. done. }
    assert (H2 : others [x; y] (key_of inputs <$> av) = key_of inputs <$> filter (.∉ [i; j]) av).
    { rewrite others_fmap, <-(con_pair av x y i j), others_con by done. done. }
    assert (Hlt2 : Forall (fun i => i < length inputs) (filter (.∉ [i; j]) av)).
    { rewrite Forall_forall in *. intros z [_ Hz]%elem_of_list_filter. by apply Hlt. }
    assert (H3 : kept out [x; y] (key_of inputs <$> av) = k_of inputs av i j).
    { unfold kept, k_of, merged. rewrite H1, H2, union_two, at_ids_keys by done. done. }
    split; [done|]. split; [done|]. split; [done|]. rewrite H2, H3, fmap_app. f_equal.
    - apply list_fmap_ext'. intros z Hz. rewrite Forall_forall in Hlt2. unfold key_of. by rewrite lookup_app_l by by apply Hlt2.
    - simpl. unfold key_of. by rewrite lookup_app_r, Nat.sub_diag by lia.
  Qed.

  Definition consistent (st : br_state) : Prop := b_flops st = None <-> b_size st = None.
  Lemma better_bounded m f s st : consistent st -> better m f s (b_flops st) (b_size st) = false -> bounded m st f s.
  Proof.
    intros Hc Hb. unfold bounded. destruct (b_flops st) as [bf|] eqn:Ef, (b_size st) as [bs|] eqn:Es; unfold consistent in Hc; rewrite Ef, Es in Hc.
    - exists bf, bs. split; [done|]. split; [done|]. by apply better_spec.
    - destruct Hc as [_ Hc]. by specialize (Hc eq_refl).
    - destruct Hc as [Hc _]. by specialize (Hc eq_refl).
    - by destruct m.
  Qed.
  Lemma better_improves m f s st st' : better m f s (b_flops st) (b_size st) = true -> b_flops st' = Some f -> b_size st' = Some s -> improves m st st'.
  Proof.
    intros Hb Hf Hs f' s' (bf & bs & Ef & Es & Hn). rewrite Ef, Es in Hb. exists f, s. split; [done|]. split; [done|].
    eapply no_worse_trans; [|exact Hn]. apply no_worse_total. intros Hx%better_spec. congruence.
  Qed.
  Lemma same_improves m st st' : same_best st st' -> improves m st st'.
  Proof. intros (H1 & H2 & _) f s (bf & bs & ? & ? & ?). exists bf, bs. split; [congruence|]. split; [congruence|done]. Qed.
  Lemma improves_trans m a b c : improves m a b -> improves m b c -> improves m a c.
  Proof. intros H1 H2 f s H. by apply H2, H1. Qed.

  Lemma combos2_length_le {A} (l : list A) : length l = 2 -> length (combos2 l) = 1.
  Proof. destruct l as [|a [|b [|]]]; try done. Qed.
  Lemma sub_labels_step inputs av i j : sub_labels inputs -> i ∈ av -> j ∈ av -> Forall (fun i => i < length inputs) av -> sub_labels (inputs ++ [k_of inputs av i j]).
  Proof.
    intros Hs Hi Hj Hlt. apply Forall_app. split; [done|]. constructor; [|done]. unfold sub_labels in Hs. rewrite Forall_forall in Hs. rewrite Forall_forall in Hlt.
    destruct (lookup_lt_is_Some_2 inputs i (Hlt i Hi)) as [k1 Hk1]. destruct (lookup_lt_is_Some_2 inputs j (Hlt j Hj)) as [k2 Hk2].
    assert (k1 ⊆ union_all inputs0) by (apply Hs; by eapply elem_of_list_lookup_2). assert (k2 ⊆ union_all inputs0) by (apply Hs; by eapply elem_of_list_lookup_2).
    unfold k_of, merged, key_of. rewrite Hk1, Hk2. simpl. set_solver.
  Qed.
  Lemma tracked_cand p av inputs flops i j : tracked p av inputs flops -> sub_labels inputs -> i ∈ av -> j ∈ av -> i < j ->
    tracked (p ++ [[i; j]]) (filter (.∉ [i; j]) av ++ [length inputs]) (inputs ++ [k_of inputs av i j]) (flops + f_of inputs av i j).
  Proof.
    intros Ht Hsub Hi Hj Hij. destruct (ap_asc _ _ _ _ _ (tr_prefix _ _ _ _ _ _ _ _ Ht)) as [Ha Hlt]. pose proof (sub_labels_step inputs av i j Hsub Hi Hj Hlt) as Hs2.
    rewrite Forall_forall in Hlt. destruct (lookup_lt_is_Some_2 inputs i (Hlt i Hi)) as [k1 Hk1]. destruct (lookup_lt_is_Some_2 inputs j (Hlt j Hj)) as [k2 Hk2].
    unfold f_of, k_of, key_of in *. rewrite Hk1, Hk2 in *. simpl in *. apply (tracked_step ordI ordI_ok); try done.
    intros limit Hl. apply (roomy limit _ Hl). unfold sub_labels in Hs2. apply Forall_app in Hs2 as [_ Hs2]. by apply Forall_inv in Hs2.
  Qed.

  Definition psize (p : path) : nat := max_list' ((fun st => volume D st.2) <$> ssa_replay out p inputs0 (seq 0 n)).
  Definition true_best (st : br_state) : Prop := forall p, b_path st = Some p -> b_flops st = Some (total out d inputs0 p) /\ b_size st = Some (psize p) /\ pairwise p.
  Lemma psize_step p av inputs flops i j : tracked p av inputs flops -> i ∈ av -> j ∈ av -> i < j -> psize (p ++ [[i; j]]) = Nat.max (psize p) (v_of inputs av i j).
  Proof.
    intros Ht Hi Hj Hij. destruct (ap_asc _ _ _ _ _ (tr_prefix _ _ _ _ _ _ _ _ Ht)) as [Ha Hlt]. destruct Ht as [Hap Hv _ _ _ _].
    rewrite Forall_forall in Hlt. destruct (lookup_lt_is_Some_2 inputs i (Hlt i Hi)) as [k1 Hk1]. destruct (lookup_lt_is_Some_2 inputs j (Hlt j Hj)) as [k2 Hk2].
    unfold psize. rewrite ssa_replay_snoc by (rewrite app_length, fmap_length, ssa_replay_length; done). rewrite <-Hv, (ap_after _ _ _ _ _ Hap), (step_replay out inputs av i j k1 k2) by done.
    rewrite fmap_app, fmap_cons, fmap_nil, max_list_snoc. cbn [snd]. unfold v_of, k_of, key_of. by rewrite Hk1, Hk2.
  Qed.

  Notation sets inputs av := (key_of inputs <$> av).
  Lemma path_flops_cons q s l : path_flops D out (s :: q) l = pair_cost D (chosen s l, kept out s l) + path_flops D out q (others s l ++ [kept out s l]).
  Proof. done. Qed.
  Lemma path_size_cons q s l : path_size D out (s :: q) l = Nat.max (volume D (kept out s l)) (path_size D out q (others s l ++ [kept out s l])).
  Proof. done. Qed.

  Definition searched (st' : br_state) (flops size : nat) (q : path) (l : list (gset N)) : Prop :=
    bounded (bb_minimize P) st' (flops + path_flops D out q l) (Nat.max size (path_size D out q l)).
  Lemma iterate_search fuel p av inputs flops size st st' : tracked p av inputs flops -> size = psize p -> sub_labels inputs -> sound st -> true_best st -> consistent st -> 1 <= length av ->
    (length av = 1 -> better (bb_minimize P) flops size (b_flops st) (b_size st) = true) ->
    branch_iterate P ordI out d mem fuel p inputs (list_to_set av) flops size st = Ok st' ->
    sound st' /\ true_best st' /\ consistent st' /\ improves (bb_minimize P) st st' /\
    (bb_nbranch P = None -> (forall a b, bb_cut P a b = false) -> forall q, path_runs (length av) q -> each_step contracting out q (sets inputs av) -> searched st' flops size q (sets inputs av)).
  Proof.
    revert p av inputs flops size st st'. induction fuel as [|fuel IH]; intros p av inputs flops size st st' Ht Hsize Hsub Hs Htb Hc Hlen Hleaf H; [done|]. simpl in H.
    destruct (ap_asc _ _ _ _ _ (tr_prefix _ _ _ _ _ _ _ _ Ht)) as [Ha Hlt]. rewrite size_av in H by by apply asc_NoDup. destruct (decide (length av = 1)) as [E|E].
    { apply Ok_inj in H as <-. split; [by split; apply Hs|]. split; [intros q [= <-]; split; [simpl; f_equal; apply Ht|split; [simpl; by rewrite Hsize|apply Ht]]|]. split; [done|]. split; [eapply better_improves; [by apply Hleaf|done|done]|].
      intros _ _ q _ _. exists flops, size. split; [done|]. split; [done|]. apply no_worse_le; lia. }
    assert (Hord : ordI (list_to_set av) ≡ₚ av) by (rewrite ordI_ok; apply elements_list_to_set; by apply asc_NoDup).
    apply bind_Ok in H as ([cands s1] & Hf1 & H). apply bind_Ok in H as ([cands2 s2] & Hf2 & H).
    destruct (node_passes p av inputs flops size st cands s1 cands2 s2 Ht Hsub Hs Hf1 Hf2) as (skip & P2 & Hskip & _).
    pose proof (ps_same _ _ _ _ _ _ _ _ P2) as Hsame. simpl in Hsame.
    set (todo := match bb_nbranch P with Some b => take b (heap_order cands2) | None => heap_order cands2 end) in H.
    assert (Hsubl : todo ⊆+ cands2).
    { transitivity (heap_order cands2); [|unfold heap_order; by rewrite merge_sort_Permutation]. unfold todo. destruct (bb_nbranch P); [|done]. apply sublist_submseteq, sublist_take. }
    assert (Htodo : forall c, c ∈ todo -> exists calls i j, c = cand_at inputs av flops size calls i j /\ i ∈ av /\ j ∈ av /\ i < j /\ better (bb_minimize P) (c_flops c) (c_size c) (b_flops st) (b_size st) = true).
    { intros c Hin. destruct (ps_cands _ _ _ _ _ _ _ _ P2 c) as (calls & i & j & ? & ? & ? & ? & ? & ?); [by eapply elem_of_submseteq|]. eauto 10. }
    assert (Hone : length av = 2 -> length todo <= 1).
    { intros E2. apply submseteq_length in Hsubl. pose proof (ps_len _ _ _ _ _ _ _ _ P2) as Hl. rewrite combos2_length_le in Hl by (rewrite Hord; done). simpl in Hl. lia. }
    set (I := fun (l : list cand) (s : br_state) => sound s /\ true_best s /\ consistent s /\ improves (bb_minimize P) st s /\ (l = [] -> same_best st s) /\
      (bb_nbranch P = None -> (forall a b, bb_cut P a b = false) -> forall c q, c ∈ l -> path_runs (length av - 1) q ->
         let av' := filter (.∉ [c_i c; c_j c]) av ++ [length inputs] in let in' := inputs ++ [c_k12 c] in
         each_step contracting out q (sets in' av') -> searched s (c_flops c) (c_size c) q (sets in' av'))).
    assert (HI : I todo st').
    { refine (foldM_inv _ I _ _ _ _ _ H).
      2: { split; [apply P2|]. split; [destruct Hsame as (Hs1 & Hs2 & Hs3); intros q; simpl; rewrite Hs1, Hs2, Hs3; apply Htb|]. split; [destruct Hsame as (? & ? & _); unfold consistent in *; simpl; congruence|]. split; [by apply same_improves|]. split; [done|]. intros _ _ c q Hin. by apply elem_of_nil in Hin. }
      clear H st'. intros bef c rest s s' Hl (I1 & I0 & I2 & I3 & I4 & I5) Hit.
      destruct (Htodo c) as (calls & i & j & Ec & Hi & Hj & Hij & Hb); [rewrite Hl; apply elem_of_app; right; left|].
      assert (Hci : c_i c = i) by by rewrite Ec. assert (Hcj : c_j c = j) by by rewrite Ec. assert (Hck : c_k12 c = k_of inputs av i j) by by rewrite Ec.
      assert (Hcf : c_flops c = flops + f_of inputs av i j) by by rewrite Ec.
      rewrite (remaining_step ordI ordI_ok) in Hit. rewrite Hci, Hcj, Hck in Hit.
      pose proof (filter_length_step ordI ordI_ok av i j (length inputs) (asc_NoDup _ Ha) Hi Hj ltac:(lia)) as Hfl.
      apply IH in Hit as (G1 & G0 & G2 & G3 & G4).
      - split; [done|]. split; [done|]. split; [done|]. split; [by eapply improves_trans|]. split; [by intros [_ ?]%app_eq_nil|]. intros Hnb Hcut c' q Hin. rewrite elem_of_app, elem_of_list_singleton in Hin.
        cbv zeta. destruct Hin as [Hin| ->]; [intros Hq Hst; apply G3; by apply I5|]. rewrite Hci, Hcj, Hck. intros Hq Hst. apply (G4 Hnb Hcut); [|done]. by replace (length (filter (.∉ [i; j]) av ++ [length inputs])) with (length av - 1) by lia.
      - rewrite Hcf. by apply tracked_cand.
      - rewrite (psize_step p av inputs flops i j), <-Hsize by done. by rewrite Ec.
      - by apply sub_labels_step.
      - done.
      - done.
      - done.
      - lia.
      - intros Hl1. assert (Hbef : bef = []). { assert (Hlt2 : length todo <= 1) by (apply Hone; lia). rewrite Hl, app_length in Hlt2. simpl in Hlt2. destruct bef; [done|simpl in Hlt2; lia]. }
        destruct (I4 Hbef) as (-> & -> & _). done. }
    destruct HI as (G1 & G0 & G2 & G3 & _ & G5). split; [done|]. split; [done|]. split; [done|]. split; [done|]. intros Hnb Hcut q Hq Hst.
    destruct q as [|s0 q]; [simpl in Hq; lia|]. destruct Hq as (_ & Hnd & Hr & Hq). destruct Hst as [(a & b & Hab & Hcon) Hst].
    assert (Hl2 : length s0 = 2) by (rewrite <-(chosen_length s0 (sets inputs av)) by (done || (rewrite fmap_length; exact Hr)); by rewrite Hab).
    assert (Hxy : exists x y, x < y /\ s0 ≡ₚ [x; y]).
    { destruct s0 as [|x [|y [|]]]; try done. apply NoDup_cons in Hnd as [Hnd _]. rewrite elem_of_list_singleton in Hnd.
      destruct (decide (x < y)); [by exists x, y|]. exists y, x. split; [lia|apply perm_swap]. }
    destruct Hxy as (x & y & Hxy & Hperm). unfold searched. rewrite path_flops_cons, path_size_cons. unfold kept in *. rewrite (chosen_perm s0 [x; y]), (others_perm s0 [x; y]) in * by done.
    fold (kept out [x; y] (sets inputs av)) in *. rewrite Hperm in Hr. apply Forall_cons in Hr as [Hx Hr]. apply Forall_cons in Hr as [Hy _].
    destruct (lookup_lt_is_Some_2 av x Hx) as [i Hi]. destruct (lookup_lt_is_Some_2 av y Hy) as [j Hj].
    destruct (node_step inputs av x y i j Ha Hlt Hxy Hi Hj) as (N1 & N2 & N3 & N4). rewrite N1, N4, N3 in *. rewrite N2 in Hcon.
    pose proof (asc_lookup_lt av x y i j Ha Hxy Hi Hj) as Hij. apply elem_of_list_lookup_2 in Hi as Hi', Hj as Hj'.
    injection Hab as <- <-. fold (f_of inputs av i j). fold (v_of inputs av i j).
    assert (Hw : wanted skip inputs i j).
    { destruct skip; [|by left]. right. destruct Hcon as [(c & _ & Hc1 & Hc2)|Hun]; [set_solver|].
      exfalso. specialize (Hskip eq_refl). destruct cands2 as [|c0 cands2']; [done|]. destruct (ps_cands _ _ _ _ _ _ _ _ P2 c0) as (calls & i' & j' & _ & Hi2 & Hj2 & Hij2 & [?|Hw] & _); [left|done|].
      apply set_choose_L in Hw as (c & Hc1). apply elem_of_intersection in Hc1 as [Hc1 Hc2].
      assert (Hperm2 : [key_of inputs i; key_of inputs j] ++ (key_of inputs <$> filter (.∉ [i; j]) av) ≡ₚ sets inputs av).
      { rewrite (av_split av i j) at 2 by (by apply asc_NoDup || lia || done). done. }
      apply (unlinked_perm _ _ _ Hperm2) in Hun. apply elem_of_list_lookup in Hi2 as [x' Hx']. apply elem_of_list_lookup in Hj2 as [y' Hy'].
      apply (Hun x' y' (key_of inputs i') (key_of inputs j')); [intros ->; assert (i' = j') by congruence; lia|by rewrite list_lookup_fmap, Hx'|by rewrite list_lookup_fmap, Hy'|by exists c]. }
    pose proof (ps_all _ _ _ _ _ _ _ _ P2 i j Hij) as Hall. simpl in Hall. destruct Hall as [Hb|[(calls & Hin)|(z & Hz & _)]].
    - apply combos2_elem; [by rewrite Hord|by rewrite Hord|lia].
    - done.
    - apply better_bounded in Hb; [|done]. apply G3 in Hb. eapply bounded_weaken; [exact Hb|]. apply no_worse_le; lia.
    - assert (Hin' : cand_at inputs av flops size calls i j ∈ todo) by (unfold todo; rewrite Hnb; unfold heap_order; by rewrite merge_sort_Permutation).
      eapply bounded_weaken; [apply (G5 Hnb Hcut _ q Hin'); [|done]|].
      + by replace (length av - 1) with (length av - length s0 + 1) by lia.
      + cbn [c_flops c_size cand_at c_i c_j c_k12]. apply no_worse_le; lia.
    - by rewrite Hcut in Hz.
  Qed.

  (** The search with one branch, followed by that of [P] at every node. *)
  Definition P1 : bb_params := BBParams (Some 1) (bb_cut P) (bb_minimize P) (bb_cost P).
  Lemma take_1_head {A} (l : list A) : match l with [] => take 1 l = [] | x :: _ => take 1 l = [x] end.
  Proof. by destruct l. Qed.
  Lemma first_improves fuel p av inputs flops size st st1 st' : bb_nbranch P <> Some 0 -> tracked p av inputs flops -> size = psize p -> sub_labels inputs -> sound st -> true_best st -> consistent st -> 1 <= length av ->
    (length av = 1 -> better (bb_minimize P) flops size (b_flops st) (b_size st) = true) ->
    branch_iterate P1 ordI out d mem fuel p inputs (list_to_set av) flops size st = Ok st1 ->
    branch_iterate P ordI out d mem fuel p inputs (list_to_set av) flops size st = Ok st' ->
    improves (bb_minimize P) st1 st'.
  Proof.
    intros Hnb. revert p av inputs flops size st st1 st'. induction fuel as [|fuel IH]; intros p av inputs flops size st st1 st' Ht Hsize Hsub Hs Htb Hc Hlen Hleaf H1 H; [done|]. simpl in H, H1.
    destruct (ap_asc _ _ _ _ _ (tr_prefix _ _ _ _ _ _ _ _ Ht)) as [Ha Hlt]. rewrite size_av in H, H1 by by apply asc_NoDup. destruct (decide (length av = 1)) as [E|E].
    { apply Ok_inj in H as <-. apply Ok_inj in H1 as <-. by intros f s. }
    assert (Hord : ordI (list_to_set av) ≡ₚ av) by (rewrite ordI_ok; apply elements_list_to_set; by apply asc_NoDup).
    apply bind_Ok in H as ([cands s1] & Hf1 & H). apply bind_Ok in H as ([cands2 s2] & Hf2 & H).
    change (foldM_res (assess_pair P1 ordI out d mem true p inputs (list_to_set av) flops size)) with (foldM_res (assess_pair P ordI out d mem true p inputs (list_to_set av) flops size)) in H1.
    change (foldM_res (assess_pair P1 ordI out d mem false p inputs (list_to_set av) flops size)) with (foldM_res (assess_pair P ordI out d mem false p inputs (list_to_set av) flops size)) in H1.
    rewrite Hf1 in H1. cbn [mbind res_bind] in H1. rewrite Hf2 in H1. cbn [mbind res_bind] in H1.
    destruct (node_passes p av inputs flops size st cands s1 cands2 s2 Ht Hsub Hs Hf1 Hf2) as (skip & P2 & _ & _).
    pose proof (ps_same _ _ _ _ _ _ _ _ P2) as Hsame. simpl in Hsame.
    assert (Htodo : forall c, c ∈ heap_order cands2 -> exists calls i j, c = cand_at inputs av flops size calls i j /\ i ∈ av /\ j ∈ av /\ i < j /\ better (bb_minimize P) (c_flops c) (c_size c) (b_flops st) (b_size st) = true).
    { intros c Hin. unfold heap_order in Hin. rewrite merge_sort_Permutation in Hin. destruct (ps_cands _ _ _ _ _ _ _ _ P2 c Hin) as (calls & i & j & ? & ? & ? & ? & ? & ?). eauto 10. }
    assert (Hone : length av = 2 -> length (heap_order cands2) <= 1).
    { intros E2. unfold heap_order. rewrite merge_sort_Permutation. pose proof (ps_len _ _ _ _ _ _ _ _ P2) as Hl. rewrite combos2_length_le in Hl by (rewrite Hord; done). done. }
    assert (Hsplit : exists c0 tl, (heap_order cands2 = [] /\ c0 = [] /\ tl = [] \/ exists c rest, heap_order cands2 = c :: rest /\ c0 = [c] /\ exists k, tl = take k rest) /\
       take 1 (heap_order cands2) = c0 /\ match bb_nbranch P with Some b => take b (heap_order cands2) | None => heap_order cands2 end = c0 ++ tl).
    { destruct (heap_order cands2) as [|c rest]; [exists [], []; split; [by left|]; split; [done|]; destruct (bb_nbranch P) as [[|b]|]; done|].
      destruct (bb_nbranch P) as [[|b]|]; [done| |].
      - exists [c], (take b rest). split; [right; eauto 10|done].
      - exists [c], rest. split; [right; exists c, rest; split; [done|]; split; [done|]; exists (length rest); by rewrite take_ge|done]. }
    destruct Hsplit as (c0 & tl & Hsp & E1 & E2). simpl in H1. change (bb_nbranch P1) with (Some 1) in H1. rewrite E1 in H1. rewrite E2 in H.
    assert (Hstart : sound s2 /\ true_best s2 /\ consistent s2 /\ improves (bb_minimize P) st s2).
    { split; [apply P2|]. split; [destruct Hsame as (Hs1 & Hs2 & Hs3); intros q; simpl; rewrite Hs1, Hs2, Hs3; apply Htb|]. split; [destruct Hsame as (? & ? & _); unfold consistent in *; simpl; congruence|]. by apply same_improves. }
    destruct Hsp as [(_ & -> & ->)|(c & rest & Eh & -> & k & ->)].
    { simpl in H, H1. apply Ok_inj in H as <-. apply Ok_inj in H1 as <-. by intros f s. }
    cbn [foldM_res app] in H, H1. apply bind_Ok in H1 as (sb & Hb & H1). cbn [foldM_res] in H1. apply Ok_inj in H1 as <-. apply bind_Ok in H as (sa & Hsa & H).
    destruct Hstart as (I1 & I0 & I2 & I3).
    assert (Hchild : forall c, c ∈ heap_order cands2 -> exists av' in', in' = inputs ++ [c_k12 c] /\ (list_to_set av ∖ {[c_i c; c_j c]} ∪ {[length inputs]} : gset nat) = list_to_set av' /\
       tracked (p ++ [[c_i c; c_j c]]) av' in' (c_flops c) /\ c_size c = psize (p ++ [[c_i c; c_j c]]) /\ sub_labels in' /\ 1 <= length av' /\ (length av' = 1 -> length av = 2)).
    { intros c' Hin. destruct (Htodo c' Hin) as (calls & i & j & -> & Hi & Hj & Hij & Hb'). exists (filter (.∉ [i; j]) av ++ [length inputs]), (inputs ++ [k_of inputs av i j]). cbn [c_i c_j c_k12 c_flops c_size cand_at].
      pose proof (filter_length_step ordI ordI_ok av i j (length inputs) (asc_NoDup _ Ha) Hi Hj ltac:(lia)) as Hfl.
      split; [done|]. split; [by rewrite <-(remaining_step ordI ordI_ok)|]. split; [by apply tracked_cand|]. split; [rewrite (psize_step p av inputs flops i j), <-Hsize by done; done|]. split; [by apply sub_labels_step|]. lia. }
    destruct (Hchild c) as (av' & in' & Ein & Erem & C1 & C2 & C3 & C4 & C5); [rewrite Eh; left|]. rewrite Erem, <-Ein in Hb, Hsa.
    assert (Hbetter : better (bb_minimize P) (c_flops c) (c_size c) (b_flops s2) (b_size s2) = true).
    { destruct (Htodo c) as (calls & i & j & _ & _ & _ & _ & Hb'); [rewrite Eh; left|]. destruct Hsame as (-> & -> & _). done. }
    eapply improves_trans; [exact (IH _ _ _ _ _ _ _ _ C1 C2 C3 I1 I0 I2 C4 (fun _ => Hbetter) Hb Hsa)|].
    destruct (iterate_search _ _ _ _ _ _ _ _ C1 C2 C3 I1 I0 I2 C4 (fun _ => Hbetter) Hsa) as (J1 & J0 & J2 & J3 & _).
    assert (HI : sound st' /\ true_best st' /\ consistent st' /\ improves (bb_minimize P) sa st').
    { refine (foldM_inv _ (fun _ s => sound s /\ true_best s /\ consistent s /\ improves (bb_minimize P) sa s) _ _ _ _ _ H); [|split; [done|]; split; [done|]; split; [done|]; by intros ??].
      intros bef c' rest' s s' Hl (K1 & K0 & K2 & K3) Hit. assert (Hin : c' ∈ rest) by (eapply elem_of_submseteq; [|apply sublist_submseteq, (sublist_take rest k)]; rewrite Hl; apply elem_of_app; right; left).
      destruct (Hchild c') as (av2 & in2 & Ein2 & Erem2 & D1 & D2 & D3 & D4 & D5); [rewrite Eh; by right|]. rewrite Erem2, <-Ein2 in Hit.
      destruct (iterate_search _ _ _ _ _ _ _ _ D1 D2 D3 K1 K0 K2 D4 ltac:(intros Hl1; exfalso; specialize (Hone (D5 Hl1)); rewrite Eh in Hone; destruct rest; [by apply elem_of_nil in Hin|simpl in Hone; lia]) Hit) as (L1 & L0 & L2 & L3 & _).
      split; [done|]. split; [done|]. split; [done|]. by eapply improves_trans. }
    apply HI.
  Qed.

  (** A pair may be contracted if and only if it is assessed. *)
  Lemma allowed_wanted skip inputs av x y i j : asc av -> Forall (fun i => i < length inputs) av -> x < y -> av !! x = Some i -> av !! y = Some j ->
    (skip = true -> exists i' j', i' ∈ av /\ j' ∈ av /\ i' < j' /\ wanted true inputs i' j') -> (skip = false -> forall i' j', i' ∈ av -> j' ∈ av -> i' < j' -> ~ wanted true inputs i' j') ->
    allowed (sets inputs av) x y <-> wanted skip inputs i j.
  Proof.
    intros Ha Hlt Hxy Hx Hy Ht Hf.
    assert (Hlk : forall i' j', wanted true inputs i' j' <-> linked any_label (key_of inputs i') (key_of inputs j')).
    { intros i' j'. unfold wanted, linked. split; [intros [?|Hw]; [done|]; apply set_choose_L in Hw as (c & Hc); exists c; set_solver|intros (c & _ & ? & ?); right; set_solver]. }
    assert (Hun : unlinked any_label (sets inputs av) -> skip = false).
    { intros Hu. destruct skip; [|done]. exfalso. destruct (Ht eq_refl) as (i' & j' & Hi' & Hj' & Hij' & Hw). apply Hlk in Hw.
      apply elem_of_list_lookup in Hi' as [x' Hx']. apply elem_of_list_lookup in Hj' as [y' Hy'].
      apply (Hu x' y' (key_of inputs i') (key_of inputs j')); [intros ->; assert (i' = j') by congruence; lia|by rewrite list_lookup_fmap, Hx'|by rewrite list_lookup_fmap, Hy'|done]. }
    unfold allowed. rewrite !list_lookup_fmap, Hx, Hy. simpl. split.
    - intros (a & b & _ & [= <-] & [= <-] & [Hl|Hu]); [|left; by apply Hun]. apply Hlk in Hl as [?|?]; [done|by right].
    - intros Hw. exists (key_of inputs i), (key_of inputs j). split; [done|]. split; [done|]. split; [done|]. destruct skip; [left; by apply Hlk|]. right. specialize (Hf eq_refl).
      intros x' y' a b Hne Ha' Hb' Hl. rewrite list_lookup_fmap in Ha', Hb'. destruct (av !! x') as [i'|] eqn:Ei; [|done]. destruct (av !! y') as [j'|] eqn:Ej; [|done]. simpl in Ha', Hb'. injection Ha' as <-. injection Hb' as <-.
      apply elem_of_list_lookup_2 in Ei as Hi', Ej as Hj'. destruct (decide (x' < y')) as [Hd|Hd].
      + apply (Hf i' j' Hi' Hj'); [by eapply asc_lookup_lt|by apply Hlk].
      + apply (Hf j' i' Hj' Hi'); [eapply (asc_lookup_lt av y' x'); try done; lia|]. apply Hlk. destruct Hl as (c & _ & ? & ?). by exists c.
  Qed.

  (** The first descent of a fresh search takes a best pair at each node. *)
  Lemma heap_head l c rest c' : heap_order l = c :: rest -> c' ∈ l -> (c_cost c < c_cost c')%Z \/ (c_cost c = c_cost c' /\ c_flops12 c <= c_flops12 c').
  Proof.
    intros Hh Hin. assert (Hle : cand_le c c').
    { assert (Hs : StronglySorted cand_le (heap_order l)).
      { apply (StronglySorted_merge_sort cand_le). }
      rewrite Hh in Hs. apply StronglySorted_inv in Hs as [_ Hs]. rewrite Forall_forall in Hs.
      assert (Hin' : c' ∈ heap_order l) by (unfold heap_order; by rewrite merge_sort_Permutation). rewrite Hh in Hin'. apply elem_of_cons in Hin' as [->|Hin']; [|by apply Hs].
      apply lex_leb_refl. }
    unfold cand_le, cand_key in Hle. cbn [lex_leb] in Hle. apply orb_true_iff in Hle as [Hle|Hle]; [left; lia|]. apply andb_true_iff in Hle as [Hc Hle]. right. split; [lia|].
    apply orb_true_iff in Hle as [Hle|Hle]; [lia|]. apply andb_true_iff in Hle as [Hle _]. lia.
  Qed.
  Variable cost : nat -> nat -> nat -> gset N -> gset N -> gset N -> Z.
  Lemma first_choices fuel p av inputs flops size st st' : bb_nbranch P = Some 1 -> (forall calls s12 s1 s2 k12 k1 k2, bb_cost P calls s12 s1 s2 k12 k1 k2 = cost s12 s1 s2 k12 k1 k2) ->
    tracked p av inputs flops -> sub_labels inputs -> sound st -> 1 <= length av ->
    b_flops st = None -> b_size st = None -> (forall m, length inputs <= m -> b_progress st !! m = None) ->
    branch_iterate P ordI out d mem fuel p inputs (list_to_set av) flops size st = Ok st' ->
    exists q, b_path st' = Some (p ++ q) /\ forall lp, s2l_loop (length inputs) av q = Ok lp -> each_choice (best_choice cost (bb_cut P) D out) D out flops lp (sets inputs av).
  Proof.
    intros Hnb Hcost. revert p av inputs flops size st. induction fuel as [|fuel IH]; intros p av inputs flops size st Ht Hsub Hs Hlen Hbf Hbs Hpr H; [done|]. simpl in H.
    destruct (ap_asc _ _ _ _ _ (tr_prefix _ _ _ _ _ _ _ _ Ht)) as [Ha Hlt]. rewrite size_av in H by by apply asc_NoDup. destruct (decide (length av = 1)) as [E|E].
    { apply Ok_inj in H as <-. exists []. rewrite app_nil_r. split; [done|]. intros lp [= <-]. done. }
    assert (Hord : ordI (list_to_set av) ≡ₚ av) by (rewrite ordI_ok; apply elements_list_to_set; by apply asc_NoDup).
    apply bind_Ok in H as ([cands s1] & Hf1 & H). apply bind_Ok in H as ([cands2 s2] & Hf2 & H).
    destruct (node_passes p av inputs flops size st cands s1 cands2 s2 Ht Hsub Hs Hf1 Hf2) as (skip & P2 & Hskip & Hnone).
    specialize (fun e => Hnone e Hbf Hbs (Hpr _ (le_n _))).
    assert (Hsome : skip = true -> exists i' j', i' ∈ av /\ j' ∈ av /\ i' < j' /\ wanted true inputs i' j').
    { intros ->. specialize (Hskip eq_refl). destruct cands2 as [|c0 l0]; [done|]. destruct (ps_cands _ _ _ _ _ _ _ _ P2 c0) as (calls & i' & j' & _ & ? & ? & ? & ? & _); [left|]. eauto 10. }
    assert (Hne : cands2 <> []).
    { destruct skip; [by apply Hskip|]. destruct av as [|i0 [|j0 av']]; [simpl in Hlen; lia|done|]. pose proof (asc_lookup_lt _ 0 1 i0 j0 Ha ltac:(lia) eq_refl eq_refl) as Hlt0.
      apply (ps_first _ _ _ _ _ _ _ _ P2 Hbf Hbs (Hpr _ (le_n _)) i0 j0 Hlt0); [|by left]. apply combos2_elem; [rewrite Hord; left|rewrite Hord; right; left|lia]. }
    rewrite Hnb in H. destruct (heap_order cands2) as [|c rest] eqn:Eh.
    { exfalso. apply Hne, Permutation_nil. rewrite <-Eh. unfold heap_order. by rewrite merge_sort_Permutation. }
    cbn [take foldM_res] in H. apply bind_Ok in H as (sa & Hit & H). apply Ok_inj in H as ->.
    assert (Hc : c ∈ cands2) by (rewrite <-(merge_sort_Permutation cand_le cands2); fold (heap_order cands2); rewrite Eh; left).
    destruct (ps_cands _ _ _ _ _ _ _ _ P2 c Hc) as (calls & i & j & Ec & Hi & Hj & Hij & Hw & _).
    apply elem_of_list_lookup in Hi as Hx. destruct Hx as [x Hx]. apply elem_of_list_lookup in Hj as Hy. destruct Hy as [y Hy].
    assert (Hxy : x < y). { destruct (decide (x < y)); [done|]. destruct (decide (x = y)) as [->|]; [assert (i = j) by congruence; lia|]. pose proof (asc_lookup_lt av y x j i Ha ltac:(lia) Hy Hx). lia. }
    destruct (node_step inputs av x y i j Ha Hlt Hxy Hx Hy) as (N1 & N2 & N3 & N4).
    assert (Hci : c_i c = i) by by rewrite Ec. assert (Hcj : c_j c = j) by by rewrite Ec. assert (Hck : c_k12 c = k_of inputs av i j) by by rewrite Ec.
    assert (Hcf : c_flops c = flops + f_of inputs av i j) by by rewrite Ec.
    rewrite (remaining_step ordI ordI_ok) in Hit. rewrite Hci, Hcj, Hck, Hcf in Hit.
    pose proof (filter_length_step ordI ordI_ok av i j (length inputs) (asc_NoDup _ Ha) Hi Hj ltac:(lia)) as Hfl.
    pose proof (ps_same _ _ _ _ _ _ _ _ P2) as (S1 & S2 & _). simpl in S1, S2.
    apply IH in Hit as (q & Hq & Hlp).
    - exists ([i; j] :: q). split; [by rewrite Hq, <-app_assoc|]. intros lp Hl. cbn [s2l_loop] in Hl. rewrite (con_pair av x y i j) in Hl by done.
      assert (Hpop : exists tmp, pops (reverse [x; y]) av = Ok (tmp, filter (.∉ [i; j]) av)).
      { rewrite <-(con_pair av x y i j) by done. apply pops_con; [done| |].
        - apply NoDup_cons. split; [rewrite elem_of_list_singleton; lia|apply NoDup_singleton].
        - intros z [->|Hz]%elem_of_cons; [done|]. by apply elem_of_list_singleton in Hz as ->. }
      destruct Hpop as (tmp & Hpop). rewrite Hpop in Hl. cbn [mbind res_bind] in Hl. apply bind_Ok in Hl as (lp' & Hl & Hl'). apply Ok_inj in Hl' as <-.
      assert (Hadds : forall x' y' i' j', x' < y' -> av !! x' = Some i' -> av !! y' = Some j' -> adds D out (sets inputs av) x' y' = f_of inputs av i' j' /\
        cost_of cost D out (sets inputs av) x' y' = cost_at inputs av 0 i' j').
      { intros x' y' i' j' Hxy' Hx' Hy'. destruct (node_step inputs av x' y' i' j' Ha Hlt Hxy' Hx' Hy') as (M1 & _ & M3 & _). unfold adds, cost_of, cost_at. rewrite M1, M3, Hcost, !list_lookup_fmap, Hx', Hy'. done. }
      cbn [each_choice]. exists x, y. split; [done|]. rewrite N4. destruct (Hadds x y i j Hxy Hx Hy) as [Ad Co]. split.
      + unfold best_choice. cbv zeta. split; [by apply (allowed_wanted skip inputs av x y i j)|]. intros x' y' Hal Hcut.
        assert (Hids : exists i' j', x' < y' /\ av !! x' = Some i' /\ av !! y' = Some j').
        { destruct Hal as (a & b & Hxy' & Ha' & Hb' & _). rewrite list_lookup_fmap in Ha', Hb'. destruct (av !! x') as [i'|]; [|done]. destruct (av !! y') as [j'|]; [|done]. eauto. }
        destruct Hids as (i' & j' & Hxy' & Hx' & Hy'). apply (allowed_wanted skip inputs av x' y' i' j') in Hal; try done.
        destruct (Hadds x' y' i' j' Hxy' Hx' Hy') as [Ad' Co']. rewrite Ad, Ad', Co, Co'.
        pose proof (asc_lookup_lt av x' y' i' j' Ha Hxy' Hx' Hy') as Hij'. apply elem_of_list_lookup_2 in Hx' as Hi', Hy' as Hj'.
        pose proof (ps_all _ _ _ _ _ _ _ _ P2 i' j' Hij') as Hall. simpl in Hall. destruct Hall as [Hb|[(calls' & Hin)|(z & Hz & Hz')]].
        * apply combos2_elem; [by rewrite Hord|by rewrite Hord|lia].
        * done.
        * rewrite Hbf, Hbs in Hb. by destruct (bb_minimize P).
        * pose proof (heap_head _ _ _ _ Eh Hin) as Hle. rewrite Ec in Hle. cbn [c_cost c_flops12 cand_at] in Hle. unfold cost_at in *. rewrite !Hcost in Hle |- *. done.
        * exfalso. destruct Hz' as [Hz'|(i2 & j2 & Hi2 & Hj2 & Hij2 & Hw2 & ->)]; [by rewrite Hpr in Hz'|].
          apply elem_of_list_lookup in Hi2 as [x2 Hx2]. apply elem_of_list_lookup in Hj2 as [y2 Hy2].
          assert (Hxy2 : x2 < y2). { destruct (decide (x2 < y2)); [done|]. destruct (decide (x2 = y2)) as [->|]; [assert (i2 = j2) by congruence; lia|]. pose proof (asc_lookup_lt av y2 x2 j2 i2 Ha ltac:(lia) Hy2 Hx2). lia. }
          destruct (Hadds x2 y2 i2 j2 Hxy2 Hx2 Hy2) as [Ad2 _]. specialize (Hcut x2 y2). rewrite Ad', Ad2, Hz in Hcut.
          assert (true = false); [|done]. apply Hcut. by apply (allowed_wanted skip inputs av x2 y2 i2 j2).
      + rewrite Ad. apply Hlp. rewrite app_length. simpl. by replace (length inputs + 1) with (S (length inputs)) by lia.
    - by apply tracked_cand.
    - by apply sub_labels_step.
    - apply P2.
    - lia.
    - congruence.
    - congruence.
    - intros m Hm. rewrite app_length in Hm. simpl in Hm. pose proof (ps_prog _ _ _ _ _ _ _ _ P2 m ltac:(lia)) as E0. simpl in E0. rewrite E0. apply Hpr. lia.
  Qed.

  (** A call of a fresh instance. *)
  Hypothesis branches : bb_nbranch P <> Some 0.
  Hypothesis nonempty : inputs0 <> [].
  Hypothesis labelled : Forall (labels_in d) inputs0.
  Lemma start_tracked : tracked [] (seq 0 n) inputs0 0.
  Proof. split; simpl; [by apply at_start|by rewrite app_nil_r|intros c _; by rewrite at_ids_seq|done|done|intros limit s _ Hs; by apply elem_of_nil in Hs]. Qed.
  Lemma start_labels : sub_labels inputs0.
  Proof. apply Forall_forall. intros k Hk c Hc. apply elem_union_all. eauto. Qed.
  Lemma start_keys : key_of inputs0 <$> seq 0 n = inputs0.
  Proof. rewrite <-at_ids_keys by apply seq_lt. apply at_ids_seq. Qed.
  Lemma bb_call_search p b' : bb_call P ordI bb_fresh inputs0 out d mem = Ok (p, b') ->
    pairwise p /\ bi_flops b' = Some (path_flops D out p inputs0) /\ bi_size b' = Some (path_size D out p inputs0) /\
    (bb_nbranch P = None -> (forall a b, bb_cut P a b = false) -> forall q, path_runs n q -> each_step contracting out q inputs0 ->
       no_worse (bb_minimize P) (path_flops D out p inputs0) (path_size D out p inputs0) (path_flops D out q inputs0) (path_size D out q inputs0)).
  Proof.
    intros H. destruct (bb_call_ok P ordI bb_fresh inputs0 out d mem ordI_ok branches nonempty labelled) as (p0 & b0 & H0 & _ & [Hc _] & _); [by split|by left|].
    rewrite H in H0. apply Ok_inj in H0 as [= <- <-].
    unfold bb_call in H. apply bind_Ok in H as (args & _ & H). apply bind_Ok in H as (l & Hl & H). apply bind_Ok in H as (st & Hst & H).
    apply bind_Ok in H as (best & Hbest & H). apply bind_Ok in H as (lp & Hlp & H). apply Ok_inj in H as [= <- <-].
    unfold range_set in Hst. destruct (b_path st) as [q0|] eqn:Eq; [|done]. apply Ok_inj in Hbest as ->. simpl in Hc. specialize (Hc best eq_refl).
    assert (Hgood : sound (BrState (bi_flops bb_fresh) (bi_size bb_fresh) (bi_path bb_fresh) (bi_progress bb_fresh) (list_to_map l) ∅ (bi_calls bb_fresh))).
    { split; simpl; [intros k1 k2 v; by rewrite lookup_empty|intros k s; by apply list_to_map_sizes with inputs0]. }
    apply iterate_search in Hst as (G1 & G2 & G3 & G4 & G5); [|apply start_tracked|done|apply start_labels|done|done|done|rewrite seq_length; destruct inputs0; [done|simpl; lia]|by intros _; destruct (bb_minimize P)].
    destruct (G2 best Eq) as (Hf & Hs & Hpw). simpl.
    assert (Hrep := ssa_replay_ok out best lp inputs0 Hc Hlp). 
    assert (Ef : total out d inputs0 best = path_flops D out lp inputs0) by (unfold total, path_flops; by rewrite Hrep).
    assert (Es : psize best = path_size D out lp inputs0) by (unfold psize, path_size; by rewrite Hrep).
    split; [|split; [by rewrite Hf, Ef|split; [by rewrite Hs, Es|]]].
    - apply ssa_to_linear_lengths in Hlp. by eapply pairwise_lengths.
    - intros Hnb Hcut q Hq Hst. rewrite seq_length in G5. destruct (G5 Hnb Hcut q Hq) as (bf & bs & E1 & E2 & Hn); [by rewrite start_keys|].
      rewrite start_keys in Hn. simpl in Hn. rewrite Hf in E1. rewrite Hs in E2. injection E1 as <-. injection E2 as <-. by rewrite Ef, Es in Hn.
  Qed.

  Lemma bb_call_one p1 b1 p b : bb_call P1 ordI bb_fresh inputs0 out d mem = Ok (p1, b1) -> bb_call P ordI bb_fresh inputs0 out d mem = Ok (p, b) ->
    forall f s, bi_flops b1 = Some f -> bi_size b1 = Some s -> exists f' s', bi_flops b = Some f' /\ bi_size b = Some s' /\ no_worse (bb_minimize P) f' s' f s.
  Proof.
    unfold bb_call. intros H1 H. apply bind_Ok in H as (args & Ea & H). rewrite Ea in H1. cbn [mbind res_bind] in H1. apply bind_Ok in H as (l & Hl & H). rewrite Hl in H1. cbn [mbind res_bind] in H1.
    apply bind_Ok in H as (st & Hst & H). apply bind_Ok in H as (best & Hbest & H). apply bind_Ok in H as (lp & Hlp & H). apply Ok_inj in H as [= <- <-].
    apply bind_Ok in H1 as (st1 & Hst1 & H1). apply bind_Ok in H1 as (best1 & Hbest1 & H1). apply bind_Ok in H1 as (lp1 & Hlp1 & H1). apply Ok_inj in H1 as [= <- <-].
    unfold range_set in Hst, Hst1. assert (Him : improves (bb_minimize P) st1 st).
    { refine (first_improves _ [] (seq 0 n) inputs0 0 0 _ st1 st branches start_tracked _ start_labels _ _ _ _ _ Hst1 Hst); [done| |done|done|rewrite seq_length; destruct inputs0; [done|simpl; lia]|by intros _; destruct (bb_minimize P)].
      split; simpl; [intros k1 k2 v; by rewrite lookup_empty|intros k s; by apply list_to_map_sizes with inputs0]. }
    intros f s Hf Hs. destruct (Him f s) as (f' & s' & ? & ? & ?); [|by exists f', s']. exists f, s. split; [done|]. split; [done|]. apply no_worse_refl.
  Qed.

  Lemma bb_call_choices p b : bb_nbranch P = Some 1 -> (forall calls s12 s1 s2 k12 k1 k2, bb_cost P calls s12 s1 s2 k12 k1 k2 = cost s12 s1 s2 k12 k1 k2) ->
    bb_call P ordI bb_fresh inputs0 out d mem = Ok (p, b) -> each_choice (best_choice cost (bb_cut P) D out) D out 0 p inputs0.
  Proof.
    intros Hnb Hcost H. destruct (bb_call_ok P ordI bb_fresh inputs0 out d mem ordI_ok branches nonempty labelled) as (p0 & b0 & H0 & _ & [Hc _] & _); [by split|by left|].
    rewrite H in H0. apply Ok_inj in H0 as [= <- <-].
    unfold bb_call in H. apply bind_Ok in H as (args & _ & H). apply bind_Ok in H as (l & Hl & H). apply bind_Ok in H as (st & Hst & H).
    apply bind_Ok in H as (best & Hbest & H). apply bind_Ok in H as (lp & Hlp & H). apply Ok_inj in H as [= <- <-].
    unfold range_set in Hst. destruct (b_path st) as [q0|] eqn:Eq; [|done]. apply Ok_inj in Hbest as ->. simpl in Hc. specialize (Hc best eq_refl).
    apply (first_choices _ _ _ _ _ _ _ _ Hnb Hcost) in Hst as (q & Eq' & Hq); [|apply start_tracked|apply start_labels| |rewrite seq_length; destruct inputs0; [done|simpl; lia]|done|done|intros m _; apply lookup_empty].
    - rewrite Eq in Eq'. injection Eq' as ->. rewrite start_keys in Hq. apply Hq. unfold ssa_to_linear in Hlp. 
      replace (path_arity q) with (length inputs0) in Hlp; [done|]. simpl in Hc. rewrite (ssa_arity _ _ _ Hc); [by rewrite seq_length|apply NoDup_seq|apply seq_lt].
    - split; simpl; [intros k1 k2 v; by rewrite lookup_empty|intros k s; by apply list_to_map_sizes with inputs0].
  Qed.
End Exact.
