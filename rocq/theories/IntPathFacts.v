(** Facts about explicit paths of integers. *)
From Coq Require Import Sorting.Sorted.
From stdpp Require Import sorting.
From Verif Require Import Prelude Einsum EinsumFacts EinsumOps Parser Helpers Contract Spec StringFacts SymbolFacts StepFacts ContractFacts ArgFacts PathSpec TopFacts Expression IntPath IntPathSpec.

(** Positions of the list as it is when each is taken out. *)
Fixpoint turns (n : nat) (zs : list Z) : option (list nat) :=
  match zs with [] => Some [] | z :: zs => k ← py_index n z; ks ← turns (n - 1) zs; Some (k :: ks) end.
Lemma py_index_lt n z k : py_index n z = Some k -> k < n.
Proof. unfold py_index. intros H. repeat case_decide; simplify_eq; lia. Qed.
Lemma py_index_some n z : is_Some (py_index n z) <-> (- Z.of_nat n <= z < Z.of_nat n)%Z.
Proof. unfold py_index. split; [intros [k H]; repeat case_decide; simplify_eq; lia|]. intros H. repeat case_decide; eauto. lia. Qed.
Lemma zpops_turns {A} zs : forall l : list A, zpops zs l = match turns (length l) zs with Some ks => pops ks l | None => Err IndexError end.
Proof.
  induction zs as [|z zs IH]; intros l; [done|]. cbn [zpops turns]. unfold zpop. destruct (py_index (length l) z) as [k|] eqn:E; [|done]. cbn [of_opt mbind res_bind option_bind].
  unfold pop_at. apply py_index_lt in E. destruct (lookup_lt_is_Some_2 l k E) as [x Hx]. rewrite Hx. cbn [mbind res_bind]. rewrite IH, length_delete by eauto.
  destruct (turns (length l - 1) zs) as [ks|]; [|done]. cbn [pops mbind option_bind]. unfold pop_at. rewrite Hx. done.
Qed.
Lemma turns_ok {A} zs : forall ks (l : list A), turns (length l) zs = Some ks -> exists tmp rest, pops ks l = Ok (tmp, rest) /\ length tmp = length zs /\ length rest = length l - length zs.
Proof.
  induction zs as [|z zs IH]; intros ks l H; cbn [turns] in H; [injection H as <-; exists [], l; simpl; split; [done|]; split; [done|lia]|].
  destruct (py_index (length l) z) as [k|] eqn:E; [|done]. cbn [mbind option_bind] in H. destruct (turns (length l - 1) zs) as [ks'|] eqn:Ek; [|done]. injection H as <-.
  apply py_index_lt in E. destruct (lookup_lt_is_Some_2 l k E) as [x Hx]. cbn [pops]. unfold pop_at. rewrite Hx. cbn [mbind res_bind]. rewrite <-(length_delete l k) in Ek by eauto.
  destruct (IH _ _ Ek) as (tmp & rest & -> & Hl1 & Hl2). rewrite length_delete in Hl2 by eauto. exists (x :: tmp), rest. split; [done|]. simpl. lia.
Qed.
Lemma turns_some zs : forall n, is_Some (turns n zs) <-> exist_in_turn n zs.
Proof.
  induction zs as [|z zs IH]; intros n; [by split; [|eauto]|]. cbn [turns exist_in_turn]. rewrite <-py_index_some, <-IH. split.
  - intros [x H]. destruct (py_index n z); [|done]. destruct (turns (n - 1) zs) eqn:E; [|done]. eauto.
  - intros [[k ->] [ks E]]. cbn [mbind option_bind]. rewrite E. eauto.
Qed.
Global Instance zgeq_anti : AntiSymm (=) zgeq. Proof. intros a b. unfold zgeq. lia. Qed.
Lemma zsort_perm s : zsort_desc s ≡ₚ s. Proof. apply merge_sort_Permutation. Qed.
Lemma zsort_sorted s : StronglySorted zgeq (zsort_desc s). Proof. apply (StronglySorted_merge_sort zgeq). Qed.
Lemma zsort_largest s t : largest_first s t <-> t = zsort_desc s.
Proof.
  split; [|intros ->; split; [apply zsort_perm|apply zsort_sorted]]. intros [Hp Hs]. apply (StronglySorted_unique zgeq); [exact Hs|apply zsort_sorted|]. by rewrite Hp, zsort_perm.
Qed.
Lemma zsort_idemp s : zsort_desc (zsort_desc s) = zsort_desc s.
Proof. symmetry. apply zsort_largest. split; [done|apply zsort_sorted]. Qed.
Lemma step_exists n s : (exists t, largest_first s t /\ exist_in_turn n t) <-> is_Some (turns n (zsort_desc s)).
Proof. rewrite turns_some. split; [intros (t & ->%zsort_largest & H); done|]. intros H. exists (zsort_desc s). split; [by apply zsort_largest|done]. Qed.

Section Loop.
  Context {K : semiring}.
  Notation tens := (tensor K).
  Variable ord : gset N -> list N.
  Hypothesis ord_ok : forall s, ord s ≡ₚ elements s.
  Variable B : backend K.
  Hypothesis B_ok : backend_ok B.
  (** Every step can run, as for non-negative positions. *)
  Definition z_step_fits (s : zcontraction * step_info) : Prop :=
    (b_has_einsum B = true \/ c_blas s.1.2 <> BFalse) /\ (use_tensordot B (c_blas s.1.2) = true \/ s_scale s.2 <= 52).
  Lemma z_loop_ok use_blas output d p : forall (terms : list str) (ops : list tens),
    p <> [] -> uses_up (length terms) p -> length terms = length ops -> Forall (Forall plain) terms ->
    good (zip terms ops) -> NoDup output -> (forall c, c ∈ output -> c ∈ labels_of (zip terms ops)) ->
    (forall c, c ∈ labels_of (zip terms ops) -> is_Some (d !! c)) ->
    (~ positions_exist (length terms) p /\ z_cp_loop ord use_blas output d p (list_to_set <$> terms) terms (shape <$> ops) = Err IndexError) \/
    (positions_exist (length terms) p /\ exists steps,
      z_cp_loop ord use_blas output d p (list_to_set <$> terms) terms (shape <$> ops) = Ok steps /\
      (b_has_einsum B = true -> size (list_to_set (labels_of (zip terms ops)) : gset N) <= 52 -> Forall z_step_fits steps) /\
      (Forall z_step_fits steps -> forall ops', Forall2 teq ops ops' ->
         exists T, foldM_res (z_core_step ord B) ops' (fst <$> steps) = Ok [T] /\ T ≡ₜ einsum (zip terms ops) output)).
  Proof.
    induction p as [|inds0 p IH]; [done|]. intros terms ops _ [Hne Hruns] Hlen Hpl Hgood Hndo Hout Hd.
    cbn [z_cp_loop uses_up positions_exist]. rewrite step_exists. set (zinds := zsort_desc inds0) in *.
    assert (Hilen : length zinds = length inds0) by (unfold zinds; by rewrite zsort_perm).
    unfold z_find_contraction. assert (zsort_desc zinds = zinds) as -> by apply zsort_idemp. rewrite !zpops_turns, !fmap_length. rewrite <-!Hlen.
    destruct (turns (length terms) zinds) as [inds|] eqn:Eturns; [|left; split; [intros [[? ?] _]; done|done]].
    destruct (turns_ok zinds inds terms Eturns) as (tmp & rest & Hpt & Htlen & Hrlen).
    destruct (turns_ok zinds inds ops) as (tmpo & resto & Hpo & Htolen & Hrolen); [by rewrite <-Hlen|].
    destruct (pops_zip inds terms ops tmp rest tmpo resto Hlen Hpt Hpo) as (Hpz & Hl1 & Hl2).
    pose proof (pops_perm _ _ _ _ Hpz) as Hperm.
    pose proof (pops_fmap list_to_set _ _ _ _ Hpt : pops inds (list_to_set <$> terms : list (gset N)) = _) as Hps.
    pose proof (pops_fmap shape _ _ _ _ Hpo) as Hpsh.
    assert (Htne : tmp <> []) by (destruct tmp; [destruct inds0; simplify_eq/=; lia|done]).
    rewrite Hps. cbn [mbind res_bind].
    assert (Hmatch : forall X (a b : X), match (list_to_set <$> tmp : list (gset N)) with [] => a | _ :: _ => b end = b) by (intros; by destruct tmp).
    rewrite Hmatch. clear Hmatch.
    set (sets' := list_to_set <$> rest : list (gset N)).
    set (contract_ := union_sets (list_to_set <$> tmp)).
    set (out_inds := (list_to_set output ∪ union_sets sets') ∩ contract_).
    simpl.
    assert (HlabP : forall c, c ∈ labels_of (zip tmp tmpo) <-> exists t, t ∈ tmp /\ c ∈ t) by (intros; by apply elem_labels_zip).
    assert (HlabQ : forall c, c ∈ labels_of (zip rest resto) <-> exists t, t ∈ rest /\ c ∈ t) by (intros; by apply elem_labels_zip).
    assert (Hcontract : forall c, c ∈ contract_ <-> c ∈ labels_of (zip tmp tmpo)).
    { intros c. unfold contract_. rewrite elem_union_terms, HlabP. done. }
    assert (Hoi : forall c, c ∈ out_inds <-> (c ∈ output \/ c ∈ labels_of (zip rest resto)) /\ c ∈ labels_of (zip tmp tmpo)).
    { intros c. unfold out_inds. rewrite elem_of_intersection, elem_of_union, Hcontract, elem_of_list_to_set.
      unfold sets'. rewrite elem_union_terms, HlabQ. done. }
    assert (Hlab : forall c, c ∈ labels_of (zip terms ops) <-> c ∈ labels_of (zip tmp tmpo) \/ c ∈ labels_of (zip rest resto)).
    { intros c. rewrite <-(labels_of_perm _ _ Hperm), labels_of_app, elem_of_app. done. }
    assert (HgPQ : good (zip tmp tmpo ++ zip rest resto)) by by eapply good_perm.
    assert (HgP : good (zip tmp tmpo)) by by eapply good_app_l.
    assert (Hpltmp : Forall (Forall plain) tmp /\ Forall (Forall plain) rest).
    { apply Forall_app. by rewrite (pops_perm _ _ _ _ Hpt). }
    destruct Hpltmp as [Hpltmp Hplrest].
    unfold flop_count. rewrite (compute_size_ok d (ord contract_)); [|intros c Hc; apply (ord_elem ord ord_ok), Hcontract in Hc; apply Hd, Hlab; auto].
    simpl. rewrite (compute_size_ok d (ord out_inds)); [|intros c Hc; apply (ord_elem ord ord_ok), Hoi in Hc as [_ Hc]; apply Hd, Hlab; auto].
    simpl. rewrite Hpt. simpl. rewrite Hpsh. simpl.
    set (flag := if use_blas then can_blas tmp (ord out_inds) (contract_ ∖ out_inds) (shape <$> tmpo) else BFalse).
    set (r := match p with [] => output | _ => sort_by_find (join [] tmp) (ord out_inds) end).
    assert (Hr_in : forall c, c ∈ r <-> c ∈ out_inds).
    { intros c. unfold r. destruct p as [|s p'].
      - simpl in Hruns.
        assert (Hrest : rest = []) by (destruct rest; simplify_eq/=; [done|]; lia).
        rewrite Hoi, HlabQ, Hrest. split.
        + intros Hc. split; [auto|]. apply Hout, Hlab in Hc as [?|Hc]; [done|]. apply HlabQ in Hc as (t & Ht & _). rewrite Hrest in Ht. by apply elem_of_nil in Ht.
        + intros [[?|(t & ?%elem_of_nil & _)] _]; done.
      - rewrite sort_by_find_perm. apply (ord_elem ord ord_ok). }
    assert (Hr_nd : NoDup r).
    { unfold r. destruct p; [done|]. rewrite sort_by_find_perm, ord_ok. apply NoDup_elements. }
    rewrite find_output_shape_ok; [|done|done|intros c Hc; by apply Hr_in, Hoi in Hc as [_ ?]].
    simpl.
    assert (Hgood' : good (zip rest resto ++ [(r, einsum (zip tmp tmpo) r)])).
    { apply good_step; [done|done|]. intros c Hc. by apply Hr_in, Hoi in Hc as [_ ?]. }
    assert (Hzip' : zip (rest ++ [r]) (resto ++ [einsum (zip tmp tmpo) r]) = zip rest resto ++ [(r, einsum (zip tmp tmpo) r)]).
    { by rewrite zip_with_app. }
    assert (Heq' : einsum (zip rest resto ++ [(r, einsum (zip tmp tmpo) r)]) output ≡ₜ einsum (zip terms ops) output).
    { rewrite (einsum_perm _ ((r, einsum (zip tmp tmpo) r) :: zip rest resto)); [|by rewrite Permutation_app_comm|by destruct Hgood'].
      rewrite einsum_step.
      - apply einsum_perm; [done|by destruct HgPQ].
      - by destruct HgP.
      - by destruct HgPQ.
      - done.
      - intros c Hc. by apply Hr_in, Hoi in Hc as [_ ?].
      - intros c Hc Hor. apply Hr_in, Hoi. auto.
      - intros c Hc. rewrite labels_of_app, elem_of_app. by apply Hlab, Hout. }
    (* the step itself *)
    assert (Hstep : forall T0s : list tens, Forall2 teq tmpo T0s ->
      (b_has_einsum B = true \/ flag <> BFalse) -> (use_tensordot B flag = true \/ size contract_ <= 52) ->
      exists T, (if use_tensordot B flag then run_tensordot ord B (equation tmp r) (contract_ ∖ out_inds) T0s
                 else run_einsum B (equation tmp r) T0s) = Ok T /\ einsum (zip tmp tmpo) r ≡ₜ T).
    { intros T0s HT0 Hf1 Hf2.
      assert (Hlen0 : length tmp = length T0s) by by rewrite Hl1, (Forall2_length _ _ _ HT0).
      pose proof (top_eq_zip tmp _ _ HT0) as Htop.
      assert (Hlab0 : labels_of (zip tmp T0s) = labels_of (zip tmp tmpo)) by by apply labels_of_congr.
      destruct (one_step_ok ord ord_ok B B_ok tmp T0s r out_inds (contract_ ∖ out_inds) flag) as (T & HT & HTeq); try done.
      - by eapply good_congr.
      - intros c Hc. rewrite Hlab0. by apply Hoi in Hc as [_ ?].
      - intros c. rewrite Hlab0, elem_of_difference, Hcontract. done.
      - intros Hfl. exists (shape <$> tmpo). split; [unfold flag in Hfl; by destruct use_blas|]. left.
        clear -HT0. induction HT0 as [|a b la lb [Hs _] _ IH]; [done|]. rewrite !fmap_cons. by rewrite Hs, IH.
      - destruct Hf2 as [?|Hf2]; [auto|]. right. etrans; [|exact Hf2]. apply subseteq_size. intros c.
        rewrite elem_of_list_to_set, Hlab0. apply Hcontract.
      - exists T. split; [done|]. rewrite HTeq. apply einsum_congr; [by destruct HgP|by destruct HgP|done]. }
    assert (Hfit : b_has_einsum B = true -> size (list_to_set (labels_of (zip terms ops)) : gset N) <= 52 -> (b_has_einsum B = true \/ flag <> BFalse) /\ (use_tensordot B flag = true \/ size contract_ <= 52)).
    { intros He Hsz. split; [by left|]. right. etrans; [|exact Hsz]. apply subseteq_size. intros c Hc. apply elem_of_list_to_set, Hlab. left. by apply Hcontract. }
    destruct p as [|s p'].
    - (* last step *)
      right. split; [by split; [eauto|]|]. simpl. eexists. split; [reflexivity|]. split; [intros He Hsz; constructor; [|constructor]; by apply Hfit|]. intros Hfits ops' Hops'.
      inversion Hfits as [|? ? [Hf1 Hf2] _]; subst. cbn [fst snd c_blas s_scale] in Hf1, Hf2.
      simpl. unfold z_core_step. cbn [fst snd c_blas c_eq c_rm]. rewrite zpops_turns, <-(Forall2_length _ _ _ Hops'), <-Hlen, Eturns.
      destruct (turns_ok zinds inds ops') as (tmp' & rest' & Hpo' & Htl' & Hrl').
      { by rewrite <-(Forall2_length _ _ _ Hops'), <-Hlen. }
      rewrite Hpo'. cbn [mbind res_bind].
      assert (HFT : Forall2 teq tmpo tmp' /\ Forall2 teq resto rest').
      { by eapply pops_Forall2. }
      destruct HFT as [HFT HFR].
      destruct (Hstep tmp' HFT Hf1 Hf2) as (T & HT & HTeq).
      simpl in Hruns.
      assert (Hrest' : rest' = []) by (destruct rest'; [done|]; simpl in *; assert (length ops' = length ops) by (symmetry; by eapply Forall2_length); lia).
      lazymatch goal with |- context [if use_tensordot B flag then ?a else ?b] => replace (if use_tensordot B flag then a else b) with (Ok T) by (symmetry; exact HT) end.
      cbn [mbind res_bind]. exists T. rewrite Hrest'. split; [done|].
      rewrite <-HTeq. assert (Hrest : zip rest resto = []) by (destruct rest; [done|]; simpl in *; lia).
      rewrite Hrest in Hperm. rewrite app_nil_r in Hperm. unfold r. apply einsum_perm; [done|by destruct HgP].
    - assert (Hsets : sets' ++ [out_inds] = list_to_set <$> (rest ++ [r])).
      { rewrite fmap_app. unfold sets'. simpl. do 2 f_equal. apply set_eq. intros c. rewrite elem_of_list_to_set. by rewrite Hr_in. }
      assert (Hshapes : (shape <$> resto) ++ [dim (zip tmp tmpo) <$> r] = shape <$> (resto ++ [einsum (zip tmp tmpo) r])).
      { by rewrite fmap_app. }
      assert (Hnew : length (rest ++ [r]) = length terms - length inds0 + 1) by (rewrite app_length, Hrlen, Hilen; done).
      assert (Hin : forall c, c ∈ labels_of (zip (rest ++ [r]) (resto ++ [einsum (zip tmp tmpo) r])) -> c ∈ labels_of (zip terms ops)).
      { intros c. rewrite Hzip', labels_of_app, elem_of_app. intros [Hc|Hc]; [apply Hlab; auto|].
        apply elem_of_labels in Hc as (q & ->%elem_of_list_singleton & Hc). simpl in Hc. apply Hr_in, Hoi in Hc as [_ Hc]. apply Hlab. auto. }
      destruct (IH (rest ++ [r]) (resto ++ [einsum (zip tmp tmpo) r])) as [[Hno Herr]|(Hyes & steps & Hcp & Hfits0 & Hcore)].
      + done.
      + by rewrite Hnew.
      + rewrite !app_length. simpl. lia.
      + apply Forall_app. split; [done|]. constructor; [|constructor]. rewrite Forall_forall. intros c Hc.
        apply Hr_in, Hoi in Hc as [_ Hc]. apply HlabP in Hc as (t & Ht & Hc). exact (plain_in tmp t c Hpltmp Ht Hc).
      + by rewrite Hzip'.
      + done.
      + intros c Hc. rewrite Hzip'. rewrite labels_of_app, elem_of_app.
        destruct (decide (c ∈ r)) as [Hcr|Hcr]; [right; apply elem_of_labels; eexists; split; [by left|done]|].
        left. apply Hout in Hc as Hc2. apply Hlab in Hc2 as [Hc2|?]; [|done]. destruct Hcr. apply Hr_in, Hoi. auto.
      + intros c Hc. by apply Hd, Hin.
      + left. rewrite Hnew in Hno. split; [by intros [_ ?]|]. fold sets' in Herr. rewrite <-Hsets, <-Hshapes in Herr. rewrite Herr. done.
      + right. rewrite Hnew in Hyes. split; [by split; [eauto|]|]. fold sets' in Hcp. rewrite <-Hsets, <-Hshapes in Hcp. rewrite Hcp. cbn [mbind res_bind].
        eexists. split; [reflexivity|]. split.
        { intros He Hsz. constructor; [by apply Hfit|]. apply Hfits0; [done|]. etrans; [|exact Hsz]. apply subseteq_size. intros c Hc%elem_of_list_to_set. by apply elem_of_list_to_set, Hin. }
        rewrite Hzip' in Hcore. intros Hfits ops' Hops'.
        inversion Hfits as [|? ? [Hf1 Hf2] Hfits']; subst. cbn [fst snd c_blas s_scale] in Hf1, Hf2.
        rewrite fmap_cons. cbn [foldM_res fst].
        destruct (turns_ok zinds inds ops') as (tmp' & rest' & Hpo' & Htl' & Hrl').
        { by rewrite <-(Forall2_length _ _ _ Hops'), <-Hlen. }
        assert (HFT : Forall2 teq tmpo tmp' /\ Forall2 teq resto rest').
        { by eapply pops_Forall2. }
        destruct HFT as [HFT HFR].
        destruct (Hstep tmp' HFT Hf1 Hf2) as (T & HT & HTeq).
        lazymatch goal with |- context [z_core_step ord B ops' ?c] => assert (Hcs : z_core_step ord B ops' c = Ok (rest' ++ [T])) end.
        { unfold z_core_step. cbn [fst snd c_blas c_eq c_rm]. rewrite zpops_turns, <-(Forall2_length _ _ _ Hops'), <-Hlen, Eturns, Hpo'. cbn [mbind res_bind].
          lazymatch goal with |- context [if use_tensordot B flag then ?a else ?b] => replace (if use_tensordot B flag then a else b) with (Ok T) by (symmetry; exact HT) end.
          done. }
        rewrite Hcs. cbn [mbind res_bind].
        destruct (Hcore Hfits' (rest' ++ [T])) as (T' & HT' & HT'eq).
        { apply Forall2_app; [done|]. by constructor. }
        exists T'. split; [exact HT'|]. by rewrite HT'eq.
  Qed.
End Loop.

(** On non-negative positions this is the model of Contract.v. *)
Lemma py_index_nat n i : py_index n (Z.of_nat i) = if decide (i < n) then Some i else None.
Proof. unfold py_index. repeat case_decide; try lia; [by rewrite Nat2Z.id|done]. Qed.
Lemma zpops_nat {A} is_ : forall l : list A, zpops (Z.of_nat <$> is_) l = pops is_ l.
Proof.
  induction is_ as [|i is_ IH]; intros l; [done|]. rewrite fmap_cons. cbn [zpops pops]. unfold zpop. rewrite py_index_nat. unfold pop_at. case_decide as Hi.
  - cbn [of_opt mbind res_bind]. unfold pop_at. destruct (l !! i) as [x|]; [|done]. cbn [mbind res_bind]. by rewrite IH.
  - rewrite (proj2 (lookup_ge_None l i)) by lia. done.
Qed.
Lemma zsort_nat l : zsort_desc (Z.of_nat <$> l) = Z.of_nat <$> sort_desc l.
Proof.
  symmetry. apply zsort_largest. split; [by rewrite sort_desc_perm|]. pose proof (sort_desc_sorted l) as H. induction H as [|x k Hs IH Hall]; [constructor|]. rewrite fmap_cons. constructor; [done|].
  apply Forall_forall. intros y (z & -> & Hz)%elem_of_list_fmap. rewrite Forall_forall in Hall. specialize (Hall z Hz). unfold geq in Hall. lia.
Qed.
Definition lift_step (s : contraction * step_info) : zcontraction * step_info :=
  ((Z.of_nat <$> c_inds s.1, Contraction [] (c_rm s.1) (c_eq s.1) (c_remaining s.1) (c_blas s.1)), s.2).
Definition lift_contraction (c : contraction) : zcontraction := (Z.of_nat <$> c_inds c, Contraction [] (c_rm c) (c_eq c) (c_remaining c) (c_blas c)).
Definition res_map {A B} (f : A -> B) (r : res A) : res B := match r with Ok a => Ok (f a) | Err e => Err e end.
Lemma z_loop_nat ord use_blas output d p : forall sets terms shapes,
  z_cp_loop ord use_blas output d (fmap (M:=list) Z.of_nat <$> p) sets terms shapes = res_map (map lift_step) (cp_loop ord use_blas output d p sets terms shapes).
Proof.
  induction p as [|s p IH]; intros sets terms shapes; [done|]. rewrite fmap_cons. cbn [z_cp_loop cp_loop]. rewrite zsort_nat. unfold z_find_contraction, find_contraction.
  rewrite zsort_nat, !zpops_nat, fmap_length. destruct (pops (sort_desc (sort_desc s)) sets) as [[[|i inputs] remaining]|]; [done| |done]. cbn [mbind res_bind].
  destruct (flop_count _ _ _ _); [|done]. cbn [mbind res_bind]. destruct (compute_size_by_dict _ _); [|done]. cbn [mbind res_bind].
  destruct (pops (sort_desc s) terms) as [[tmp terms']|]; [|done]. cbn [mbind res_bind]. destruct (pops (sort_desc s) shapes) as [[tsh shapes']|]; [|done]. cbn [mbind res_bind].
  assert (E : match fmap (M:=list) Z.of_nat <$> p with [] => output | _ :: _ => sort_by_find (join [] tmp) (ord ((list_to_set output ∪ union_sets remaining) ∩ union_sets (i :: inputs))) end
    = match p with [] => output | _ :: _ => sort_by_find (join [] tmp) (ord ((list_to_set output ∪ union_sets remaining) ∩ union_sets (i :: inputs))) end) by (by destruct p).
  rewrite E. destruct (find_output_shape _ _ _); [|done]. cbn [mbind res_bind]. rewrite IH. destruct (cp_loop _ _ _ _ _ _ _ _); done.
Qed.
Lemma z_core_step_nat {K : semiring} ord (B : backend K) ops c : z_core_step ord B ops (lift_contraction c) = core_step ord B ops c.
Proof. unfold z_core_step, core_step, lift_contraction. cbn [fst snd c_blas c_eq c_rm]. by rewrite zpops_nat. Qed.
Lemma z_core_nat {K : semiring} ord (B : backend K) cl : forall ops, foldM_res (z_core_step ord B) ops (lift_contraction <$> cl) = foldM_res (core_step ord B) ops cl.
Proof.
  induction cl as [|c cl IH]; intros ops; [done|]. rewrite fmap_cons. cbn [foldM_res]. rewrite z_core_step_nat. destruct (core_step ord B ops c); [|done]. cbn [mbind res_bind]. apply IH.
Qed.
