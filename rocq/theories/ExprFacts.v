(** The contraction list built for some shapes, run on arrays of other sizes; the constant pre-pass. *)
From Verif Require Import Prelude Einsum EinsumFacts EinsumOps Parser Helpers Contract Spec PathSpec StringFacts SymbolFacts StepFacts ContractFacts PathFacts ParserFacts ParseSpec ParseProof ParseSound TopFacts ContractMain Expression ExprSpec.

Section Any.
  Context {K : semiring}.
  Notation tens := (tensor K).
  Variable ord : gset N -> list N.
  Hypothesis ord_ok : forall s, ord s ≡ₚ elements s.
  Variable B : backend K.
  Hypothesis B_ok : backend_ok B.

  Lemma uniform_dim (tops : list (str * tens)) c x : ranked tops -> uniform tops -> (c, x) ∈ axes_of tops -> dim tops c = x.
  Proof. intros Hr Hu Hx. apply dim_unique; [|auto]. intros y Hy. right. by eapply Hu. Qed.
  Lemma uniform_step (P Q : list (str * tens)) r : ranked P -> uniform (P ++ Q) -> (forall c, c ∈ r -> c ∈ labels_of P) -> uniform (Q ++ [(r, einsum P r)]).
  Proof.
    intros Hr Hu Hin. assert (Hnew : forall c x, (c, x) ∈ axes_of ([(r, einsum P r)] : list (str * tens)) -> (c, x) ∈ axes_of P).
    { intros c x Hcx. apply elem_of_axes in Hcx as (q & i & ->%elem_of_list_singleton & Hi & Hx). simpl in Hi, Hx.
      rewrite list_lookup_fmap, Hi in Hx. simpl in Hx. injection Hx as <-.
      assert (Hc : c ∈ labels_of P) by (apply Hin; by eapply elem_of_list_lookup_2). destruct (labels_axes _ _ Hr Hc) as [x Hx].
      rewrite (uniform_dim P c x); [done|done| |done]. intros c' a b Ha Hb. apply (Hu c'); rewrite axes_of_app; apply elem_of_app; auto. }
    intros c x y Hx Hy. apply (Hu c); rewrite axes_of_app, elem_of_app in *; naive_solver.
  Qed.

  (** The steps can be run one after the other on [ops], whatever equal arrays replace the intermediate results, and give [V]. *)
  Fixpoint robust (cl : list contraction) (V : tens) (ops : list tens) : Prop :=
    match cl with
    | [] => exists T, ops = [T] /\ T ≡ₜ V
    | c :: cl => (desc (c_inds c) /\ c_inds c <> []) /\ exists tmp rest W, pops (c_inds c) ops = Ok (tmp, rest) /\
        step_valid ord B (c_blas c) (c_eq c) (c_rm c) tmp W /\ forall ops2, Forall2 teq (rest ++ [W]) ops2 -> robust cl V ops2
    end.
  Lemma teq_trans_list (l k m : list tens) : Forall2 teq l k -> Forall2 teq k m -> Forall2 teq l m.
  Proof. apply Forall2_transitive. intros x y z H1 H2. by rewrite H1. Qed.
  Lemma robust_step c cl V ops : robust (c :: cl) V ops -> (desc (c_inds c) /\ c_inds c <> []) /\
    exists ops2, core_step ord B ops c = Ok ops2 /\ forall ops2', Forall2 teq ops2 ops2' -> robust cl V ops2'.
  Proof.
    clear ord_ok. intros (Hd & tmp & rest & W & Hp & Hv & Hr). split; [done|]. destruct (step_valid_ok ord B B_ok _ _ _ _ _ Hv) as (T & HT & Heq).
    exists (rest ++ [T]). split. { unfold core_step. rewrite Hp. cbn [mbind res_bind]. by rewrite HT. }
    intros ops2 H2. apply Hr. eapply teq_trans_list; [|exact H2]. apply Forall2_app; [|by constructor]. by apply Forall2_same_length_lookup_2; [|intros; simplify_eq].
  Qed.
  Lemma robust_run cl V ops : robust cl V ops -> exists T, foldM_res (core_step ord B) ops cl = Ok [T] /\ T ≡ₜ V.
  Proof.
    clear ord_ok. revert ops. induction cl as [|c cl IH]; intros ops Hr; [destruct Hr as (T & -> & H); simpl; eauto|].
    destruct (robust_step _ _ _ _ Hr) as (_ & ops2 & Hs & H). simpl. rewrite Hs. simpl.
    apply IH, H. by apply Forall2_same_length_lookup_2; [|intros; simplify_eq].
  Qed.
  Lemma robust_V cl V V' ops : V ≡ₜ V' -> robust cl V ops -> robust cl V' ops.
  Proof.
    clear. intros HV. revert ops. induction cl as [|c cl IH]; intros ops; simpl.
    - intros (T & -> & H). exists T. split; [done|]. by rewrite H.
    - intros (Hd & tmp & rest & W & Hp & Hv & H). split; [done|]. exists tmp, rest, W. split; [done|]. split; [done|]. intros. by apply IH, H.
  Qed.

  Lemma loop_any use_blas output d p : forall (terms : list str) (shapes : list (list nat)) (ops : list tens) steps,
    p <> [] -> path_runs (length terms) p -> length terms = length ops -> Forall (Forall plain) terms ->
    good (zip terms ops) -> shapes = shape <$> ops \/ uniform (zip terms ops) -> NoDup output -> (forall c, c ∈ output -> c ∈ labels_of (zip terms ops)) ->
    cp_loop ord use_blas output d p (list_to_set <$> terms) terms shapes = Ok steps ->
    Forall (step_fits B) steps -> forall ops', Forall2 teq ops ops' -> robust (fst <$> steps) (einsum (zip terms ops) output) ops'.
  Proof.
    induction p as [|inds0 p IH]; [done|]. intros terms shapes ops steps _ (Hne & Hnd & Hrange & Hruns) Hlen Hpl Hgood Huni Hndo Hout Hcp Hfits ops' Hops'.
    simpl cp_loop in Hcp. set (inds := sort_desc inds0) in *.
    assert (Hinds : desc inds) by by apply sort_desc_desc.
    assert (Hilen : length inds = length inds0) by (unfold inds; by rewrite sort_desc_perm).
    assert (Hrange' : Forall (fun i => i < length terms) inds) by (unfold inds; by rewrite sort_desc_perm).
    destruct (pops_ok inds terms Hinds Hrange') as (tmp & rest & Hpt & Htlen & Hrlen).
    destruct (pops_ok inds ops Hinds) as (tmpo & resto & Hpo & Htolen & Hrolen); [by rewrite <-Hlen|].
    destruct (pops_zip inds terms ops tmp rest tmpo resto Hlen Hpt Hpo) as (Hpz & Hl1 & Hl2).
    pose proof (pops_perm _ _ _ _ Hpz) as Hperm.
    pose proof (pops_fmap list_to_set _ _ _ _ Hpt : pops inds (list_to_set <$> terms : list (gset N)) = _) as Hps.
    assert (Htne : tmp <> []) by (destruct tmp; [destruct inds0; simplify_eq/=; lia|done]).
    unfold find_contraction in Hcp. assert (Hid : sort_desc inds = inds) by apply sort_desc_idemp. rewrite Hid, Hps in Hcp. cbn [mbind res_bind] in Hcp.
    assert (Hmatch : forall X (a b : X), match (list_to_set <$> tmp : list (gset N)) with [] => a | _ :: _ => b end = b) by (intros; by destruct tmp).
    rewrite Hmatch in Hcp. clear Hmatch.
    set (sets' := list_to_set <$> rest : list (gset N)) in *.
    set (contract_ := union_sets (list_to_set <$> tmp)) in *.
    set (out_inds := (list_to_set output ∪ union_sets sets') ∩ contract_) in *.
    assert (HlabP : forall c, c ∈ labels_of (zip tmp tmpo) <-> exists t, t ∈ tmp /\ c ∈ t) by (intros; by apply elem_labels_zip).
    assert (HlabQ : forall c, c ∈ labels_of (zip rest resto) <-> exists t, t ∈ rest /\ c ∈ t) by (intros; by apply elem_labels_zip).
    assert (Hcontract : forall c, c ∈ contract_ <-> c ∈ labels_of (zip tmp tmpo)).
    { intros c. unfold contract_. rewrite elem_union_terms, HlabP. done. }
    assert (Hoi : forall c, c ∈ out_inds <-> (c ∈ output \/ c ∈ labels_of (zip rest resto)) /\ c ∈ labels_of (zip tmp tmpo)).
    { intros c. unfold out_inds. rewrite elem_of_intersection, elem_of_union, Hcontract, elem_of_list_to_set.
      unfold sets'. rewrite elem_union_terms, HlabQ. done. }
    assert (Hlab : forall c, c ∈ labels_of (zip terms ops) <-> c ∈ labels_of (zip tmp tmpo) \/ c ∈ labels_of (zip rest resto)).
    { intros c. rewrite <-(labels_of_perm _ _ Hperm), labels_of_app, elem_of_app. done. }
    assert (HgPQ : good (zip tmp tmpo ++ zip rest resto)) by by eapply good_perm.
    assert (HgP : good (zip tmp tmpo)) by by eapply good_app_l.
    assert (Hpltmp : Forall (Forall plain) tmp /\ Forall (Forall plain) rest).
    { apply Forall_app. by rewrite (pops_perm _ _ _ _ Hpt). }
    destruct Hpltmp as [Hpltmp Hplrest].
    simpl in Hcp. destruct (flop_count (ord contract_) _ _ d) as [cost|]; [|discriminate]. cbn [mbind res_bind] in Hcp.
    destruct (compute_size_by_dict (ord out_inds) d) as [sz|]; [|discriminate]. cbn [mbind res_bind] in Hcp. rewrite Hpt in Hcp. cbn [mbind res_bind] in Hcp.
    pose proof (pops_fmap shape _ _ _ _ Hpo) as Hpsh.
    destruct (pops inds shapes) as [[tsh rsh]|] eqn:Epsh; [|discriminate]. cbn [mbind res_bind] in Hcp.
    set (flag := if use_blas then can_blas tmp (ord out_inds) (contract_ ∖ out_inds) tsh else BFalse) in *.
    set (r := match p with [] => output | _ => sort_by_find (join [] tmp) (ord out_inds) end) in *.
    destruct (find_output_shape tmp tsh r) as [shr|] eqn:Eshr; [|discriminate]. cbn [mbind res_bind] in Hcp.
    assert (Hr_in : forall c, c ∈ r <-> c ∈ out_inds).
    { intros c. unfold r. destruct p as [|s p'].
      - simpl in Hruns.
        assert (Hrest : rest = []) by (destruct rest; simplify_eq/=; [done|]; lia).
        rewrite Hoi, HlabQ, Hrest. split.
        + intros Hc. split; [auto|]. apply Hout, Hlab in Hc as [?|Hc]; [done|]. apply HlabQ in Hc as (t & Ht & _). rewrite Hrest in Ht. by apply elem_of_nil in Ht.
        + intros [[?|(t & ?%elem_of_nil & _)] _]; done.
      - rewrite sort_by_find_perm, ord_ok. apply elem_of_elements. }
    assert (Hr_nd : NoDup r).
    { unfold r. destruct p; [done|]. rewrite sort_by_find_perm, ord_ok. apply NoDup_elements. }
    assert (Hr_sub : forall c, c ∈ r -> c ∈ labels_of (zip tmp tmpo)) by (intros c Hc; by apply Hr_in, Hoi in Hc as [_ ?]).
    assert (Hgood' : good (zip rest resto ++ [(r, einsum (zip tmp tmpo) r)])) by by apply good_step.
    assert (Hsh : tsh = shape <$> tmpo \/ uniform (zip tmp tmpo)).
    { destruct Huni as [->|Hu]; [left; congruence|right]. intros c x y Hx Hy. apply (Hu c); rewrite <-(axes_of_perm _ _ Hperm), axes_of_app; apply elem_of_app; auto. }
    assert (Huni' : rsh ++ [shr] = shape <$> (resto ++ [einsum (zip tmp tmpo) r]) \/ uniform (zip rest resto ++ [(r, einsum (zip tmp tmpo) r)])).
    { destruct Huni as [->|Hu]; [left|right].
      - assert (tsh = shape <$> tmpo /\ rsh = shape <$> resto) as [-> ->] by (split; congruence). rewrite find_output_shape_ok in Eshr by done. apply Ok_inj in Eshr as <-. by rewrite fmap_app.
      - apply uniform_step; [apply HgP| |done]. intros c x y Hx Hy. apply (Hu c); by rewrite <-(axes_of_perm _ _ Hperm). }
    assert (Hzip' : zip (rest ++ [r]) (resto ++ [einsum (zip tmp tmpo) r]) = zip rest resto ++ [(r, einsum (zip tmp tmpo) r)]).
    { by rewrite zip_with_app. }
    assert (Heq' : einsum (zip rest resto ++ [(r, einsum (zip tmp tmpo) r)]) output ≡ₜ einsum (zip terms ops) output).
    { rewrite (einsum_perm _ ((r, einsum (zip tmp tmpo) r) :: zip rest resto)); [|by rewrite Permutation_app_comm|by destruct Hgood'].
      rewrite einsum_step.
      - apply einsum_perm; [done|by destruct HgPQ].
      - by destruct HgP.
      - by destruct HgPQ.
      - done.
      - done.
      - intros c Hc Hor. apply Hr_in, Hoi. auto.
      - intros c Hc. rewrite labels_of_app, elem_of_app. by apply Hlab, Hout. }
    (* the step itself *)
    assert (Hstep : forall T0s : list tens, Forall2 teq tmpo T0s ->
      (b_has_einsum B = true \/ flag <> BFalse) -> (use_tensordot B flag = true \/ size contract_ <= 52) ->
      exists W, step_valid ord B flag (equation tmp r) (contract_ ∖ out_inds) T0s W /\ einsum (zip tmp tmpo) r ≡ₜ W).
    { intros T0s HT0 Hf1 Hf2.
      assert (Hlen0 : length tmp = length T0s) by by rewrite Hl1, (Forall2_length _ _ _ HT0).
      pose proof (top_eq_zip tmp _ _ HT0) as Htop.
      assert (Hlab0 : labels_of (zip tmp T0s) = labels_of (zip tmp tmpo)) by by apply labels_of_congr.
      exists (einsum (zip tmp T0s) r). split; [apply (one_step_valid ord ord_ok B tmp T0s r out_inds (contract_ ∖ out_inds) flag); try done|].
      - by eapply good_congr.
      - intros c Hc. rewrite Hlab0. by apply Hoi in Hc as [_ ?].
      - intros c. rewrite Hlab0, elem_of_difference, Hcontract. done.
      - intros Hfl. exists tsh. split; [unfold flag in Hfl; by destruct use_blas|]. destruct Hsh as [->|HuP]; [left|right].
        + clear -HT0. induction HT0 as [|a b la lb [Hs _] _ IH]; [done|]. rewrite !fmap_cons. by rewrite Hs, IH.
        + intros c x y. rewrite (axes_of_congr _ _ Htop). apply HuP.
      - destruct Hf2 as [?|Hf2]; [auto|]. right. etrans; [|exact Hf2]. apply subseteq_size. intros c.
        rewrite elem_of_list_to_set, Hlab0. apply Hcontract.
      - apply einsum_congr; [by destruct HgP|by destruct HgP|done]. }
    destruct (cp_loop ord use_blas output d p _ (rest ++ [r]) (rsh ++ [shr])) as [steps'|] eqn:Hcp'; [|discriminate]. cbn [mbind res_bind] in Hcp. apply Ok_inj in Hcp as <-.
    inversion Hfits as [|? ? [Hf1 Hf2] Hfits']; subst. cbn [fst snd c_blas s_scale] in Hf1, Hf2.
    destruct (pops_ok inds ops' Hinds) as (tmp' & rest' & Hpo' & Htl' & Hrl').
    { by rewrite <-(Forall2_length _ _ _ Hops'), <-Hlen. }
    assert (HFT : Forall2 teq tmpo tmp' /\ Forall2 teq resto rest') by by eapply pops_Forall2.
    destruct HFT as [HFT HFR].
    destruct (Hstep tmp' HFT Hf1 Hf2) as (T & HT & HTeq).
    rewrite fmap_cons. cbn [robust fst]. split; [split; [done|]; cbn [c_inds]; intros Hnil; rewrite Hnil in Hilen; by destruct inds0|]. exists tmp', rest', T. split; [done|]. split; [exact HT|].
    intros ops2 Hops2. assert (Hops3 : Forall2 teq (resto ++ [einsum (zip tmp tmpo) r]) ops2).
    { eapply (Forall2_transitive teq teq teq); [intros x y z H1 H2; by rewrite H1| |exact Hops2]. apply Forall2_app; [done|]. by constructor. }
    destruct p as [|s p'].
    - apply Ok_inj in Hcp' as <-. simpl in Hruns |- *.
      assert (Hrest : resto = []) by (destruct resto; [done|]; simpl in *; lia). rewrite Hrest in Hops3. simpl in Hops3.
      inversion Hops3 as [|? T2 ? ? HT2 Hnil]; subst. inversion Hnil; subst. exists T2. split; [done|]. rewrite <-HT2.
      assert (Hz : zip rest [] = ([] : list (str * tens))) by (by destruct rest). rewrite Hz in Hperm. rewrite app_nil_r in Hperm. unfold r. apply einsum_perm; [done|by destruct HgP].
    - apply (robust_V _ _ _ _ Heq'). rewrite <-Hzip'. apply (IH (rest ++ [r]) (rsh ++ [shr]) (resto ++ [einsum (zip tmp tmpo) r]) steps').
      + done.
      + rewrite app_length, Hrlen, Hilen. simpl. done.
      + rewrite !app_length. simpl. lia.
      + apply Forall_app. split; [done|]. constructor; [|constructor]. rewrite Forall_forall. intros c Hc.
        apply Hr_sub, HlabP in Hc as (t & Ht & Hc). exact (plain_in tmp t c Hpltmp Ht Hc).
      + by rewrite Hzip'.
      + by rewrite Hzip'.
      + done.
      + intros c Hc. rewrite Hzip'. rewrite labels_of_app, elem_of_app.
        destruct (decide (c ∈ r)) as [Hcr|Hcr]; [right; apply elem_of_labels; eexists; split; [by left|done]|].
        left. apply Hout in Hc as Hc2. apply Hlab in Hc2 as [Hc2|?]; [|done]. destruct Hcr. apply Hr_in, Hoi. auto.
      + assert (Hsets : sets' ++ [out_inds] = list_to_set <$> (rest ++ [r])).
        { rewrite fmap_app. unfold sets'. simpl. do 2 f_equal. apply set_eq. intros c. rewrite elem_of_list_to_set. by rewrite Hr_in. }
        rewrite <-Hsets. exact Hcp'.
      + done.
      + done.
  Qed.
End Any.

Section Prepass.
  Context {K : semiring}.
  Notation tens := (tensor K).
  Variable ord : gset N -> list N.

  Lemma fill_lookup (ops : list (option tens)) : forall arrays merged i o, fill ops arrays = Ok merged -> ops !! i = Some (Some o) -> merged !! i = Some o.
  Proof.
    induction ops as [|o' ops IH]; intros arrays merged i o Hf Hi; [done|]. destruct o' as [o'|]; simpl in Hf.
    - apply bind_Ok in Hf as (l & Hl & Hf). apply Ok_inj in Hf as <-. destruct i; simpl in *; [congruence|]. by eapply IH.
    - destruct arrays as [|a arrays]; [discriminate|]. apply bind_Ok in Hf as (l & Hl & Hf). apply Ok_inj in Hf as <-. destruct i; simpl in *; [congruence|]. by eapply IH.
  Qed.
  Lemma fill_length (ops : list (option tens)) : forall arrays merged, fill ops arrays = Ok merged -> length merged = length ops.
  Proof.
    induction ops as [|[o'|] ops IH]; intros arrays merged Hf; simpl in Hf; [by apply Ok_inj in Hf as <-| |].
    - apply bind_Ok in Hf as (l & Hl & Hf). apply Ok_inj in Hf as <-. simpl. f_equal. by eapply IH.
    - destruct arrays as [|a arrays]; [discriminate|]. apply bind_Ok in Hf as (l & Hl & Hf). apply Ok_inj in Hf as <-. simpl. f_equal. by eapply IH.
  Qed.
  Lemma fill_delete (ops : list (option tens)) : forall arrays merged i o, fill ops arrays = Ok merged -> ops !! i = Some (Some o) ->
    fill (delete i ops) arrays = Ok (delete i merged).
  Proof.
    induction ops as [|o' ops IH]; intros arrays merged i o Hf Hi; [done|]. destruct o' as [o'|]; simpl in Hf.
    - apply bind_Ok in Hf as (l & Hl & Hf). apply Ok_inj in Hf as <-. destruct i; simpl in *; [done|]. by rewrite (IH _ _ _ _ Hl Hi).
    - destruct arrays as [|a arrays]; [discriminate|]. apply bind_Ok in Hf as (l & Hl & Hf). apply Ok_inj in Hf as <-. destruct i; simpl in *; [congruence|]. by rewrite (IH _ _ _ _ Hl Hi).
  Qed.
  Lemma fill_app (ops : list (option tens)) T : forall arrays merged, fill ops arrays = Ok merged -> fill (ops ++ [Some T]) arrays = Ok (merged ++ [T]).
  Proof.
    induction ops as [|[o'|] ops IH]; intros arrays merged Hf; simpl in Hf; [by apply Ok_inj in Hf as <-| |].
    - apply bind_Ok in Hf as (l & Hl & Hf). apply Ok_inj in Hf as <-. simpl. by rewrite (IH _ _ Hl).
    - destruct arrays as [|a arrays]; [discriminate|]. apply bind_Ok in Hf as (l & Hl & Hf). apply Ok_inj in Hf as <-. simpl. by rewrite (IH _ _ Hl).
  Qed.
  Lemma fill_none (ops : list (option tens)) merged : forall arrays, fill ops arrays = Ok merged -> Forall is_Some ops -> ops = Some <$> merged.
  Proof.
    revert merged. induction ops as [|o' ops IH]; intros merged arrays Hf Hs; [simpl in Hf; by apply Ok_inj in Hf as <-|].
    inversion Hs as [|? ? [o ->] Hs']; subst. simpl in Hf. apply bind_Ok in Hf as (l & Hl & Hf). apply Ok_inj in Hf as <-.
    rewrite fmap_cons. f_equal. by eapply IH.
  Qed.

  (** All indices given are constants: popping them from the constants and from the merged list is the same. *)
  Lemma any_none_false (inds : list nat) (ops : list (option tens)) : any_none inds ops = Ok false <-> Forall (fun i => exists o, ops !! i = Some (Some o)) inds.
  Proof.
    induction inds as [|i inds IH]; simpl; [split; [constructor|done]|]. rewrite Forall_cons, <-IH.
    destruct (ops !! i) as [[o|]|]; naive_solver.
  Qed.
  Lemma any_none_ok (inds : list nat) (ops : list (option tens)) : Forall (fun i => i < length ops) inds -> exists b, any_none inds ops = Ok b.
  Proof.
    induction 1 as [|i inds Hi _ IH]; simpl; [eauto|]. destruct (lookup_lt_is_Some_2 ops i Hi) as [[o|] ->]; eauto.
  Qed.
  Lemma any_none_iff (inds : list nat) (ops1 ops2 : list (option tens)) : Forall2 (fun a b => is_Some a <-> is_Some b) ops1 ops2 -> any_none inds ops1 = any_none inds ops2.
  Proof.
    intros H. induction inds as [|i inds IH]; simpl; [done|]. pose proof (proj1 (Forall2_lookup _ _ _) H i) as Hl. destruct Hl as [a b Hab|]; [|done]. destruct a, b; try done.
    - destruct Hab as [Hab _]. destruct Hab as [? ?]; [eauto|done].
    - destruct Hab as [_ Hab]. destruct Hab as [? ?]; [eauto|done].
  Qed.
  Lemma pops_const (inds : list nat) : forall (ops : list (option tens)) arrays merged, desc inds ->
    Forall (fun i => exists o, ops !! i = Some (Some o)) inds -> fill ops arrays = Ok merged ->
    exists tmp rest restm, pops inds ops = Ok (Some <$> tmp, rest) /\ pops inds merged = Ok (tmp, restm) /\ fill rest arrays = Ok restm.
  Proof.
    induction inds as [|i inds IH]; intros ops arrays merged Hd Ha Hf; [exists [], ops, merged; done|].
    inversion Hd as [|? ? Hd' Hall]; subst. inversion Ha as [|? ? [o Ho] Ha']; subst.
    pose proof (fill_lookup _ _ _ _ _ Hf Ho) as Ho'. pose proof (fill_delete _ _ _ _ _ Hf Ho) as Hf'.
    destruct (IH (delete i ops) arrays (delete i merged)) as (tmp & rest & restm & H1 & H2 & H3); [done| |done|].
    { rewrite Forall_forall in *. intros j Hj. destruct (Ha' j Hj) as [oj Hoj]. exists oj. rewrite lookup_delete_lt; [done|]. by apply Hall. }
    exists (o :: tmp), rest, restm. cbn [pops]. unfold pop_at. rewrite Ho, Ho'. cbn [mbind res_bind]. rewrite H1, H2. done.
  Qed.
  Lemma mapM_some (tmp : list tens) : mapM_res (of_opt TypeError) (Some <$> tmp) = Ok tmp.
  Proof. induction tmp as [|x tmp IH]; [done|]. rewrite fmap_cons. simpl. by rewrite IH. Qed.
  Lemma teq_refl_list (l : list tens) : Forall2 teq l l.
  Proof. by apply Forall2_same_length_lookup_2; [|intros; simplify_eq]. Qed.

  (** The pre-pass runs as long as only constants are needed; what is left gives the same result. *)
  Lemma prepass (B : backend K) V cl : forall ops arrays merged, backend_ok B -> cl <> [] -> ~ Forall is_Some ops -> fill ops arrays = Ok merged ->
    (forall m, Forall2 teq merged m -> robust ord B cl V m) ->
    exists ops' cl' merged', core_constants ord B ops cl = Ok (ops', cl') /\ fill ops' arrays = Ok merged' /\ (forall m, Forall2 teq merged' m -> robust ord B cl' V m).
  Proof.
    induction cl as [|c cl IH]; intros ops arrays merged HB Hne Hnone Hf Hrob; [done|]. clear Hne.
    destruct (robust_step ord B HB _ _ _ _ (Hrob merged (teq_refl_list _))) as ((Hd & _) & ops2 & Hstep & Hrob2). unfold core_step in Hstep.
    apply bind_Ok in Hstep as ([tmp restm] & Hp & Hstep).
    assert (Hb : Forall (fun i => i < length ops) (c_inds c)).
    { rewrite <-(fill_length _ _ _ Hf). clear -Hp Hd. revert merged tmp restm Hp. induction Hd as [|i inds Hd IH Hall]; intros merged tmp restm Hp; [constructor|].
      cbn [pops] in Hp. apply bind_Ok in Hp as ([x l'] & Hx & Hp). apply bind_Ok in Hp as ([xs l2] & Hp & _). unfold pop_at in Hx.
      destruct (merged !! i) as [y|] eqn:E; [|discriminate]. apply Ok_inj in Hx. injection Hx as <- <-. apply lookup_lt_Some in E as Hi.
      constructor; [done|]. rewrite Forall_forall in *. intros j Hj. specialize (Hall j Hj). lia. }
    destruct (any_none_ok _ _ Hb) as [[|] Han]; cbn [core_constants]; rewrite Han; cbn [mbind res_bind].
    { exists ops, (c :: cl), merged. done. }
    apply any_none_false in Han. destruct (pops_const _ _ _ _ Hd Han Hf) as (tmp' & rest & restm' & H1 & H2 & H3).
    assert (tmp' = tmp /\ restm' = restm) as [-> ->] by (rewrite Hp in H2; apply Ok_inj in H2; by simplify_eq).
    rewrite H1. cbn [mbind res_bind]. rewrite mapM_some. cbn [mbind res_bind]. apply bind_Ok in Hstep as (v & Hv & Hstep). apply Ok_inj in Hstep as <-.
    rewrite Hv. cbn [mbind res_bind]. apply fill_app with (T := v) in H3.
    assert (Hnone' : ~ Forall is_Some (rest ++ [Some v])).
    { intros Hall. apply Hnone. apply Forall_app in Hall as [Hall _]. pose proof (pops_perm _ _ _ _ H1) as Hperm. rewrite <-Hperm. apply Forall_app. split; [|done].
      apply Forall_fmap. apply Forall_true. intros x. simpl. eauto. }
    destruct cl as [|c2 cl].
    { destruct (Hrob2 _ (teq_refl_list _)) as (T & HT & _). destruct Hnone'. apply (f_equal length) in HT. apply fill_length in H3. rewrite H3 in HT.
      rewrite app_length in HT. simpl in HT. destruct rest; [|simpl in HT; lia]. simpl. constructor; [eauto|constructor]. }
    apply (IH _ arrays (restm ++ [v])); done.
  Qed.
  Lemma remaining_same (B1 B2 : backend K) cl : forall ops1 ops2 r1 r2 cl1 cl2, Forall2 (fun a b => is_Some a <-> is_Some b) ops1 ops2 ->
    core_constants ord B1 ops1 cl = Ok (r1, cl1) -> core_constants ord B2 ops2 cl = Ok (r2, cl2) -> cl1 = cl2.
  Proof.
    induction cl as [|c cl IH]; intros ops1 ops2 r1 r2 cl1 cl2 H2 Ha Hb; [done|]. cbn [core_constants] in *.
    rewrite (any_none_iff _ _ _ H2) in Ha. destruct (any_none (c_inds c) ops2) as [[|]|]; [| |done]; cbn [mbind res_bind] in *.
    { apply Ok_inj in Ha, Hb. congruence. }
    apply bind_Ok in Ha as ([t1 s1] & Hp1 & Ha). apply bind_Ok in Hb as ([t2 s2] & Hp2 & Hb).
    apply bind_Ok in Ha as (u1 & _ & Ha). apply bind_Ok in Hb as (u2 & _ & Hb).
    apply bind_Ok in Ha as (v1 & _ & Ha). apply bind_Ok in Hb as (v2 & _ & Hb).
    destruct (pops_Forall2 _ _ _ _ _ _ _ _ H2 Hp1 Hp2) as [_ H3]. refine (IH _ _ _ _ _ _ _ Ha Hb). apply Forall2_app; [done|]. constructor; [|constructor]. split; eauto.
  Qed.
End Prepass.

(** [contract_path] depends on the shapes only through the ranks as far as labels are concerned. *)
Lemma zip_with_ranks {A X} (f : A -> list nat -> X) (l : list A) : (forall t sh sh', length sh = length sh' -> f t sh = f t sh') ->
  forall shs shs', Forall2 (fun a b => length a = length b) shs shs' -> zip_with f l shs = zip_with f l shs'.
Proof. intros Hf. induction l as [|t l IH]; intros shs shs' H; [done|]. destruct H as [|sh sh' shs shs' Hs H]; [done|]. simpl. f_equal; auto. Qed.
Lemma labels_ranks e shs shs' : Forall2 (fun a b => length a = length b) shs shs' -> in_labels e shs = in_labels e shs' /\ out_labels e shs = out_labels e shs'.
Proof.
  intros H. unfold in_labels, out_labels, longest. split.
  - apply zip_with_ranks; [|done]. intros t sh sh' Hl. unfold ell_count. by rewrite Hl.
  - rewrite (zip_with_ranks ell_count _ (fun t sh sh' Hl => ltac:(unfold ell_count; by rewrite Hl)) _ _ H). done.
Qed.
Lemma ops_ranks {K : semiring} (ops ops' : list (tensor K)) : same_ranks ops ops' -> Forall2 (fun a b => length a = length b) (shape <$> ops) (shape <$> ops').
Proof. induction 1; constructor; done. Qed.

Lemma contract_path_inv ord use_blas opt mem s shapes inp out info : parse_einsum_input s shapes = Ok (inp, out) ->
  contract_path ord use_blas opt mem s shapes = Ok info ->
  exists d steps, cp_loop ord use_blas out d (pi_path info) (list_to_set <$> split s_comma inp) (split s_comma inp) shapes = Ok steps
    /\ pi_contractions info = fst <$> steps /\ pi_scale_list info = (s_scale ∘ snd) <$> steps.
Proof.
  intros Hp H. unfold contract_path in H. rewrite Hp in H. cbn [mbind res_bind] in H. unfold contract_path_parsed in H.
  apply bind_Ok in H as (d & _ & H). apply bind_Ok in H as (sl & _ & H). apply bind_Ok in H as (m & _ & H).
  apply bind_Ok in H as (nv & _ & H). apply bind_Ok in H as (p & _ & H). apply bind_Ok in H as (steps & Hs & H).
  apply bind_Ok in H as (ps & _ & H). apply Ok_inj in H as <-. simpl. eauto.
Qed.

Section Calls.
  Context {K : semiring}.
  Notation tens := (tensor K).
  Variable ord : gset N -> list N.
  Hypothesis ord_ok : forall s, ord s ≡ₚ elements s.
  Variables (e : eqn) (s : str) (ops0 : list tens).
  Hypothesis Hne : e_in e <> [].
  Hypothesis Hpl : plain_eqn e.
  Hypothesis Hs : filter (.≠ c_space) s = render e.
  Hypothesis Hwf : well_formed e (shape <$> ops0).
  Variables (use_blas : bool) (opt : optimize_arg) (mem : memory_arg).
  Hypothesis Hgood0 : good (zip (in_labels e (shape <$> ops0)) ops0).
  Hypothesis Hmem : mem_valid mem.
  Hypothesis Hstrat : strategy_ok opt (length ops0).

  (** The contraction list built for some shapes, run on other arrays. *)
  Lemma path_robust (B : backend K) info ops : backend_ok B -> contract_path ord use_blas opt mem s (shape <$> ops0) = Ok info -> info_fits B info ->
    same_ranks ops0 ops ->
    let tops := zip (in_labels e (shape <$> ops)) ops in
    good tops -> (shape <$> ops = shape <$> ops0 \/ uniform_dims tops) ->
    pi_contractions info <> [] /\ forall m, Forall2 teq ops m -> robust ord B (pi_contractions info) (einsum tops (out_labels e (shape <$> ops))) m.
  Proof.
    intros HB Hinfo Hfit Hranks tops Hgood Hu.
    destruct (contract_path_ok ord ord_ok B HB e s ops0 Hne Hpl Hs Hwf use_blas opt mem Hgood0 Hmem Hstrat) as (info' & Hinfo' & Hcomp & _).
    assert (info' = info) as -> by congruence. clear Hinfo'.
    pose proof (parsed e s ops0 Hne Hpl Hs Hwf) as Hparse. pose proof (ts_split e ops0 Hne Hpl Hwf) as Hsplit.
    set (g := name (fresh e (shape <$> ops0))) in *. set (ts := fmap (M:=list) g <$> in_labels e (shape <$> ops0)) in *.
    destruct (contract_path_inv _ _ _ _ _ _ _ _ _ Hparse Hinfo) as (d & steps & Hloop & Hcl & Hsc). rewrite Hsplit in Hloop.
    destruct (labels_ranks e _ _ (ops_ranks _ _ Hranks)) as [Hin Hout0]. unfold tops in *. rewrite <-Hin, <-Hout0 in *. clear tops.
    set (tops := zip (in_labels e (shape <$> ops0)) ops) in *.
    assert (Hlen0 : length ts = length ops0) by (unfold ts; rewrite fmap_length; by apply in_labels_length).
    assert (Hlen : length ts = length ops) by (rewrite Hlen0; by eapply Forall2_length).
    assert (Hk : forall a, (a ∈ labels_of tops \/ a ∈ out_labels e (shape <$> ops0)) -> known e (shape <$> ops0) a).
    { intros a' [Ha|Ha]; [|by apply out_known]. apply elem_of_labels in Ha as (p & Hp & Ha).
      unfold tops in Hp. destruct p as [t o]. apply elem_of_zip_l in Hp. by eapply in_known. }
    assert (Hgi : forall a b, (a ∈ labels_of tops \/ a ∈ out_labels e (shape <$> ops0)) -> (b ∈ labels_of tops \/ b ∈ out_labels e (shape <$> ops0)) -> g a = g b -> a = b).
    { intros a b Ha Hb. apply name_inj; auto. }
    assert (Hinj : forall a b, a ∈ labels_of tops -> b ∈ labels_of tops -> g a = g b -> a = b) by (intros; apply Hgi; auto).
    assert (Hplain : Forall (Forall plain) ts).
    { apply Forall_forall. intros t (t' & -> & Ht')%elem_of_list_fmap. apply Forall_forall. intros c (l & -> & Hl)%elem_of_list_fmap.
      apply name_plain; [done|]. by eapply in_known. }
    assert (Hnd : NoDup (g <$> out_labels e (shape <$> ops0))).
    { apply NoDup_fmap_2_strong; [|by destruct Hwf]. intros a b Ha Hb. apply Hgi; auto. }
    assert (Hout : forall c, c ∈ g <$> out_labels e (shape <$> ops0) -> c ∈ labels_of (zip ts ops)).
    { intros c (l & -> & Hl)%elem_of_list_fmap. apply elem_labels_zip; [done|].
      destruct (wf_known _ _ Hwf l Hl) as (t & Ht & Hlt). exists (g <$> t). split; by apply elem_of_list_fmap_1. }
    assert (Hzip : zip ts ops = rename_op g <$> tops) by apply zip_rename_gen.
    assert (Hgood' : good (zip ts ops)) by (rewrite Hzip; by apply good_rename).
    assert (Hfits : Forall (step_fits B) steps).
    { unfold info_fits in Hfit. rewrite Hcl, Hsc, Forall2_fmap in Hfit. rewrite Forall_forall. intros st Hst. apply elem_of_list_lookup in Hst as [i Hi].
      exact (Forall2_lookup_lr _ _ _ i _ _ Hfit Hi Hi). }
    rewrite <-Hlen0 in Hcomp. destruct Hcomp as [Hpne Hruns]. rewrite Hcl. split.
    { intros Hnil. destruct (pi_path info) as [|i p']; [done|]. cbn [cp_loop] in Hloop. revert Hloop. clear -Hnil.
      intros H. assert (steps = []) as -> by (by destruct steps). repeat (first [apply bind_Ok in H as ([? ?] & _ & H) | apply bind_Ok in H as (? & _ & H)]; repeat match goal with q : (_ * _)%type |- _ => destruct q end; cbn beta iota in H). done. }
    intros m Hm. apply (robust_V _ _ _ (einsum (zip ts ops) (g <$> out_labels e (shape <$> ops0)))).
    { rewrite Hzip. apply einsum_rename; [apply Hgi|by destruct Hwf]. }
    apply (loop_any ord ord_ok B use_blas _ d (pi_path info) ts (shape <$> ops0) ops steps); try done.
    destruct Hu as [Hu|Hu]; [by left|right]. unfold uniform. rewrite Hzip. by apply uniform_rename.
  Qed.
End Calls.
