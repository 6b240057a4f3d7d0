(** The equations recorded for the steps of a contraction: after every step the equation recorded as remaining gives the result. *)
From Verif Require Import Prelude Einsum EinsumFacts EinsumOps Parser Helpers Contract Spec StringFacts SymbolFacts StepFacts ContractFacts ReportSpec.

Section Resume.
  Context {K : semiring}.
  Notation tens := (tensor K).
  Variable ord : gset N -> list N.
  Hypothesis ord_ok : forall s, ord s ≡ₚ elements s.
  Variable B : backend K.
  Hypothesis B_ok : backend_ok B.

  (** What the loop relies on. *)
  Record loop_pre (output : str) (d : sizes) (p : path) (terms : list str) (ops : list tens) : Prop := LoopPre {
    lp_runs : path_runs (length terms) p; lp_len : length terms = length ops; lp_plain : Forall (Forall plain) terms; lp_good : good (zip terms ops);
    lp_nd : NoDup output; lp_out : forall c, c ∈ output -> c ∈ labels_of (zip terms ops); lp_d : forall c, c ∈ labels_of (zip terms ops) -> is_Some (d !! c) }.

  Lemma loop_step use_blas output d inds0 p terms ops steps : loop_pre output d (inds0 :: p) terms ops ->
    cp_loop ord use_blas output d (inds0 :: p) (list_to_set <$> terms) terms (shape <$> ops) = Ok steps ->
    exists c si steps' terms' ops', steps = (c, si) :: steps' /\ cp_loop ord use_blas output d p (list_to_set <$> terms') terms' (shape <$> ops') = Ok steps' /\
      loop_pre output d p terms' ops' /\ c_remaining c = (if length terms' <=? 20 then Some terms' else None) /\ c_inds c = sort_desc inds0 /\
      einsum (zip terms' ops') output ≡ₜ einsum (zip terms ops) output /\ (p = [] -> terms' = [output]) /\
      (forall P : N -> Prop, Forall (Forall P) terms -> Forall (Forall P) terms' /\ exists ts r, c_eq c = equation ts r /\ Forall (Forall P) (r :: ts)) /\
      (step_fits B (c, si) -> forall opsr, Forall2 teq ops opsr -> exists taken left T, pops (c_inds c) opsr = Ok (taken, left) /\ computes (c_eq c) taken T /\
         core_step ord B opsr c = Ok (left ++ [T]) /\ Forall2 teq ops' (left ++ [T])).
  Proof.
    intros [(Hne & Hnd & Hrange & Hruns) Hlen Hpl Hgood Hndo Hout Hd] Hcp.
    simpl cp_loop in Hcp. set (inds := sort_desc inds0) in *.
    assert (Hinds : desc inds) by by apply sort_desc_desc.
    assert (Hilen : length inds = length inds0) by (unfold inds; by rewrite sort_desc_perm).
    assert (Hrange' : Forall (fun i => i < length terms) inds) by (unfold inds; by rewrite sort_desc_perm).
    destruct (pops_ok inds terms Hinds Hrange') as (tmp & rest & Hpt & Htlen & Hrlen).
    destruct (pops_ok inds ops Hinds) as (tmpo & resto & Hpo & Htolen & Hrolen); [by rewrite <-Hlen|].
    destruct (pops_zip inds terms ops tmp rest tmpo resto Hlen Hpt Hpo) as (Hpz & Hl1 & Hl2).
    pose proof (pops_perm _ _ _ _ Hpz) as Hperm.
    pose proof (pops_fmap list_to_set _ _ _ _ Hpt : pops inds (list_to_set <$> terms : list (gset N)) = _) as Hps.
    pose proof (pops_fmap shape _ _ _ _ Hpo) as Hpsh.
    assert (Htne : tmp <> []) by (destruct tmp; [destruct inds0; simplify_eq/=; lia|done]).
    unfold find_contraction in Hcp. assert (Es : sort_desc inds = inds) by apply sort_desc_idemp. rewrite Es, Hps in Hcp. clear Es. cbn [mbind res_bind] in Hcp.
    assert (Hmatch : forall X (a b : X), match (list_to_set <$> tmp : list (gset N)) with [] => a | _ :: _ => b end = b) by (intros; by destruct tmp).
    rewrite Hmatch in Hcp. clear Hmatch.
    set (sets' := list_to_set <$> rest : list (gset N)) in *.
    set (contract_ := union_sets (list_to_set <$> tmp)) in *.
    set (out_inds := (list_to_set output ∪ union_sets sets') ∩ contract_) in *.
    simpl in Hcp.
    assert (HlabP : forall c, c ∈ labels_of (zip tmp tmpo) <-> exists t, t ∈ tmp /\ c ∈ t) by (intros; by apply elem_labels_zip).
    assert (HlabQ : forall c, c ∈ labels_of (zip rest resto) <-> exists t, t ∈ rest /\ c ∈ t) by (intros; by apply elem_labels_zip).
    assert (Hcontract : forall c, c ∈ contract_ <-> c ∈ labels_of (zip tmp tmpo)).
    { intros c. unfold contract_. rewrite elem_union_terms, HlabP. done. }
    assert (Hoi : forall c, c ∈ out_inds <-> (c ∈ output \/ c ∈ labels_of (zip rest resto)) /\ c ∈ labels_of (zip tmp tmpo)).
    { intros c. unfold out_inds. rewrite elem_of_intersection, elem_of_union, Hcontract, elem_of_list_to_set.
      unfold sets'. rewrite elem_union_terms, HlabQ. done. }
    assert (Hlab : forall c, c ∈ labels_of (zip terms ops) <-> c ∈ labels_of (zip tmp tmpo) \/ c ∈ labels_of (zip rest resto)).
    { intros c. rewrite <-(labels_of_perm _ _ Hperm), labels_of_app, elem_of_app. done. }
    assert (HgPQ : good (zip tmp tmpo ++ zip rest resto)) by by eapply good_perm.
    assert (HgP : good (zip tmp tmpo)) by by eapply good_app_l.
    assert (Hpltmp : Forall (Forall plain) tmp /\ Forall (Forall plain) rest).
    { apply Forall_app. by rewrite (pops_perm _ _ _ _ Hpt). }
    destruct Hpltmp as [Hpltmp Hplrest].
    unfold flop_count in Hcp. rewrite (compute_size_ok d (ord contract_)) in Hcp; [|intros c Hc; apply (ord_elem ord ord_ok), Hcontract in Hc; apply Hd, Hlab; auto].
    simpl in Hcp. rewrite (compute_size_ok d (ord out_inds)) in Hcp; [|intros c Hc; apply (ord_elem ord ord_ok), Hoi in Hc as [_ Hc]; apply Hd, Hlab; auto].
    simpl in Hcp. rewrite Hpt in Hcp. simpl in Hcp. rewrite Hpsh in Hcp. simpl in Hcp.
    set (flag := if use_blas then can_blas tmp (ord out_inds) (contract_ ∖ out_inds) (shape <$> tmpo) else BFalse) in *.
    set (r := match p with [] => output | _ => sort_by_find (join [] tmp) (ord out_inds) end) in *.
    assert (Hr_in : forall c, c ∈ r <-> c ∈ out_inds).
    { intros c. unfold r. destruct p as [|s p'].
      - simpl in Hruns.
        assert (Hrest : rest = []) by (destruct rest; simplify_eq/=; [done|]; lia).
        rewrite Hoi, HlabQ, Hrest. split.
        + intros Hc. split; [auto|]. apply Hout, Hlab in Hc as [?|Hc]; [done|]. apply HlabQ in Hc as (t & Ht & _). rewrite Hrest in Ht. by apply elem_of_nil in Ht.
        + intros [[?|(t & ?%elem_of_nil & _)] _]; done.
      - rewrite sort_by_find_perm. by apply ord_elem. }
    assert (Hr_nd : NoDup r).
    { unfold r. destruct p; [done|]. rewrite sort_by_find_perm, ord_ok. apply NoDup_elements. }
    rewrite find_output_shape_ok in Hcp; [|done|done|intros c Hc; by apply Hr_in, Hoi in Hc as [_ ?]].
    simpl in Hcp.
    assert (Hgood' : good (zip rest resto ++ [(r, einsum (zip tmp tmpo) r)])).
    { apply good_step; [done|done|]. intros c Hc. by apply Hr_in, Hoi in Hc as [_ ?]. }
    assert (Hzip' : zip (rest ++ [r]) (resto ++ [einsum (zip tmp tmpo) r]) = zip rest resto ++ [(r, einsum (zip tmp tmpo) r)]).
    { by rewrite zip_with_app. }
    assert (Heq' : einsum (zip rest resto ++ [(r, einsum (zip tmp tmpo) r)]) output ≡ₜ einsum (zip terms ops) output).
    { rewrite (einsum_perm _ ((r, einsum (zip tmp tmpo) r) :: zip rest resto)); [|by rewrite Permutation_app_comm|by destruct Hgood'].
      rewrite einsum_step.
      - apply einsum_perm; [done|by destruct HgPQ].
      - by destruct HgP.
      - by destruct HgPQ.
      - done.
      - intros c Hc. by apply Hr_in, Hoi in Hc as [_ ?].
      - intros c Hc Hor. apply Hr_in, Hoi. auto.
      - intros c Hc. rewrite labels_of_app, elem_of_app. by apply Hlab, Hout. }
    assert (Hstep : forall T0s : list tens, Forall2 teq tmpo T0s ->
      (b_has_einsum B = true \/ flag <> BFalse) -> (use_tensordot B flag = true \/ size contract_ <= 52) ->
      exists T, (if use_tensordot B flag then run_tensordot ord B (equation tmp r) (contract_ ∖ out_inds) T0s
                 else run_einsum B (equation tmp r) T0s) = Ok T /\ einsum (zip tmp tmpo) r ≡ₜ T /\ T ≡ₜ einsum (zip tmp T0s) r).
    { intros T0s HT0 Hf1 Hf2.
      assert (Hlen0 : length tmp = length T0s) by by rewrite Hl1, (Forall2_length _ _ _ HT0).
      pose proof (top_eq_zip tmp _ _ HT0) as Htop.
      assert (Hlab0 : labels_of (zip tmp T0s) = labels_of (zip tmp tmpo)) by by apply labels_of_congr.
      destruct (one_step_ok ord ord_ok B B_ok tmp T0s r out_inds (contract_ ∖ out_inds) flag) as (T & HT & HTeq); try done.
      - by eapply good_congr.
      - intros c Hc. rewrite Hlab0. by apply Hoi in Hc as [_ ?].
      - intros c. rewrite Hlab0, elem_of_difference, Hcontract. done.
      - intros Hfl. exists (shape <$> tmpo). split; [unfold flag in Hfl; by destruct use_blas|]. left.
        clear -HT0. induction HT0 as [|a b la lb [Hs _] _ IH]; [done|]. rewrite !fmap_cons. by rewrite Hs, IH.
      - destruct Hf2 as [?|Hf2]; [auto|]. right. etrans; [|exact Hf2]. apply subseteq_size. intros c.
        rewrite elem_of_list_to_set, Hlab0. apply Hcontract.
      - exists T. split; [done|]. split; [|done]. rewrite HTeq. apply einsum_congr; [by destruct HgP|by destruct HgP|done]. }
    apply bind_Ok in Hcp as (steps' & Hcp & [= <-]).
    assert (Hsets : sets' ++ [out_inds] = list_to_set <$> (rest ++ [r])).
    { rewrite fmap_app. unfold sets'. simpl. do 2 f_equal. apply set_eq. intros c. rewrite elem_of_list_to_set. by rewrite Hr_in. }
    assert (Hshapes : (shape <$> resto) ++ [dim (zip tmp tmpo) <$> r] = shape <$> (resto ++ [einsum (zip tmp tmpo) r])).
    { by rewrite fmap_app. }
    rewrite Hsets, Hshapes in Hcp.
    eexists _, _, steps', (rest ++ [r]), (resto ++ [einsum (zip tmp tmpo) r]). split; [reflexivity|]. split; [exact Hcp|]. split.
    { split.
      - rewrite app_length, Hrlen, Hilen. simpl. done.
      - rewrite !app_length. simpl. lia.
      - apply Forall_app. split; [done|]. constructor; [|constructor]. rewrite Forall_forall. intros c Hc.
        apply Hr_in, Hoi in Hc as [_ Hc]. apply HlabP in Hc as (t & Ht & Hc). exact (plain_in tmp t c Hpltmp Ht Hc).
      - by rewrite Hzip'.
      - done.
      - intros c Hc. rewrite Hzip'. rewrite labels_of_app, elem_of_app.
        destruct (decide (c ∈ r)) as [Hcr|Hcr]; [right; apply elem_of_labels; eexists; split; [by left|done]|].
        left. apply Hout in Hc as Hc2. apply Hlab in Hc2 as [Hc2|?]; [|done]. destruct Hcr. apply Hr_in, Hoi. auto.
      - intros c. rewrite Hzip', labels_of_app, elem_of_app. intros [Hc|Hc]; [apply Hd, Hlab; auto|].
        apply elem_of_labels in Hc as (q & ->%elem_of_list_singleton & Hc). simpl in Hc. apply Hr_in, Hoi in Hc as [_ Hc]. apply Hd, Hlab. auto. }
    split; [reflexivity|]. split; [reflexivity|]. split; [by rewrite Hzip'|]. split.
    { intros ->. simpl in Hruns. assert (Hrest : rest = []) by (destruct rest; simplify_eq/=; [done|]; lia). unfold r. by rewrite Hrest. }
    split.
    { intros P HP. assert (HPs : Forall (Forall P) tmp /\ Forall (Forall P) rest) by (apply Forall_app; by rewrite (pops_perm _ _ _ _ Hpt)). destruct HPs as [HP1 HP2].
      assert (HPr : Forall P r).
      { apply Forall_forall. intros c Hc. apply Hr_in, Hoi in Hc as [_ Hc]. apply HlabP in Hc as (t & Ht & Hc). rewrite Forall_forall in HP1. specialize (HP1 t Ht). rewrite Forall_forall in HP1. by apply HP1. }
      split; [apply Forall_app; split; [done|by constructor]|]. exists tmp, r. split; [done|by constructor]. }
    intros [Hf1 Hf2] opsr Hops'. cbn [fst snd c_blas s_scale] in Hf1, Hf2. cbn [c_inds c_eq].
    destruct (pops_ok inds opsr Hinds) as (tmp' & rest' & Hpo' & Htl' & Hrl').
    { by rewrite <-(Forall2_length _ _ _ Hops'), <-Hlen. }
    assert (HFT : Forall2 teq tmpo tmp' /\ Forall2 teq resto rest').
    { by eapply pops_Forall2. }
    destruct HFT as [HFT HFR]. destruct (Hstep tmp' HFT Hf1 Hf2) as (T & HT & HTeq & HTeq').
    exists tmp', rest', T. split; [done|]. split; [|split].
    - exists tmp, r. split; [done|]. split; [by rewrite Hl1, (Forall2_length _ _ _ HFT)|done].
    - unfold core_step. cbn [c_inds c_blas c_eq c_rm]. rewrite Hpo'. cbn [mbind res_bind].
      lazymatch goal with |- context [if use_tensordot B flag then ?a else ?b] => replace (if use_tensordot B flag then a else b) with (Ok T) by (symmetry; exact HT) end.
      done.
    - apply Forall2_app; [done|]. by constructor.
  Qed.

  Lemma loop_rows use_blas output d p : forall terms ops steps opsr, loop_pre output d p terms ops -> cp_loop ord use_blas output d p (list_to_set <$> terms) terms (shape <$> ops) = Ok steps ->
    Forall (step_fits B) steps -> Forall2 teq ops opsr -> forall k c, (fst <$> steps) !! k = Some c ->
    exists held taken left T, held_after ord B opsr (fst <$> steps) k = Ok held /\ pops (c_inds c) held = Ok (taken, left) /\ computes (c_eq c) taken T /\
      held_after ord B opsr (fst <$> steps) (S k) = Ok (left ++ [T]) /\
      exists ts, continues ts output (left ++ [T]) (einsum (zip terms ops) output) /\ c_remaining c = (if length ts <=? 20 then Some ts else None) /\ (S k = length steps -> ts = [output]).
  Proof.
    induction p as [|inds p IH]; intros terms ops steps opsr Hpre Hcp Hfits Hops k c Hk.
    { cbn [cp_loop] in Hcp. apply Ok_inj in Hcp as <-. done. }
    destruct (loop_step use_blas output d inds p terms ops steps Hpre Hcp) as (c0 & si & steps' & terms' & ops' & -> & Hcp' & Hpre' & Hrem & Hinds & Heq & Hlast & _ & Hrun).
    apply Forall_cons in Hfits as [Hf Hfits]. destruct (Hrun Hf opsr Hops) as (taken & left & T & Hpops & Hcomp & Hcs & Hops').
    destruct k as [|k].
    - cbn in Hk. injection Hk as <-. exists opsr, taken, left, T. split; [done|]. split; [done|]. split; [done|].
      split; [unfold held_after; rewrite fmap_cons; cbn [take foldM_res fst]; by rewrite Hcs|].
      exists terms'. split; [|split; [done|]].
      + split; [rewrite (lp_len _ _ _ _ _ Hpre'); by eapply Forall2_length|]. rewrite <-Heq. symmetry.
        apply einsum_congr; [by destruct (lp_good _ _ _ _ _ Hpre')|by destruct (lp_good _ _ _ _ _ Hpre')|by apply top_eq_zip].
      + intros Hl. apply Hlast. destruct p as [|i p]; [done|]. exfalso.
        destruct (loop_step use_blas output d i p terms' ops' steps' Hpre' Hcp') as (? & ? & ? & ? & ? & -> & _). simpl in Hl. lia.
    - rewrite fmap_cons in Hk. cbn in Hk. destruct (IH terms' ops' steps' (left ++ [T]) Hpre' Hcp' Hfits Hops' k c Hk) as (held & taken' & left' & T' & Hh & Hp' & Hc' & Hh' & ts & [Hl Hv] & Hr & Hz).
      exists held, taken', left', T'. unfold held_after in *. rewrite fmap_cons. cbn [take foldM_res fst]. rewrite Hcs. cbn [mbind res_bind].
      split; [exact Hh|]. split; [done|]. split; [done|]. split; [exact Hh'|]. exists ts. split; [split; [done|by rewrite Hv]|]. split; [done|]. intros Hs. apply Hz. simpl in Hs. lia.
  Qed.
  (** The equations consist of labels and separators. *)
  Lemma loop_chars use_blas output d (P : N -> Prop) p : forall terms ops steps, loop_pre output d p terms ops -> cp_loop ord use_blas output d p (list_to_set <$> terms) terms (shape <$> ops) = Ok steps ->
    Forall (Forall P) terms -> Forall (fun s => (exists ts r, c_eq s.1 = equation ts r /\ Forall (Forall P) (r :: ts)) /\ match c_remaining s.1 with Some ts => ts <> [] /\ Forall (Forall P) ts | None => True end) steps.
  Proof.
    induction p as [|inds p IH]; intros terms ops steps Hpre Hcp HP.
    { cbn [cp_loop] in Hcp. apply Ok_inj in Hcp as <-. constructor. }
    destruct (loop_step use_blas output d inds p terms ops steps Hpre Hcp) as (c0 & si & steps' & terms' & ops' & -> & Hcp' & Hpre' & Hrem & _ & _ & _ & Hch & _).
    destruct (Hch P HP) as [HP' Heq]. constructor; [|by eapply IH]. cbn [fst]. split; [done|]. rewrite Hrem. destruct (length terms' <=? 20); [|done].
    split; [|done]. intros ->. pose proof (lp_runs _ _ _ _ _ Hpre') as Hr. destruct p as [|s p]; [done|]. destruct Hr as (Hne & _ & Hr & _). destruct s as [|x s]; [done|]. apply Forall_cons in Hr as [Hr _]. simpl in Hr. lia.
  Qed.
End Resume.
