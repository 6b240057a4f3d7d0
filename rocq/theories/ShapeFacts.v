(** C12: contract_path accepts exactly the shapes that fit. *)
From Verif Require Import Prelude Einsum EinsumFacts EinsumOps Parser Helpers Contract Spec PathSpec StringFacts SymbolFacts StepFacts ContractFacts PathFacts ParserFacts ParseSpec ParseProof ParseSound TopFacts ContractMain.

Lemma locs_ok (inputs : list str) shapes c : Forall2 (fun t sh => length t = length sh) inputs shapes ->
  exists ds, locs inputs shapes c = Ok ds /\ ((exists t, t ∈ inputs /\ c ∈ t) -> ds <> []).
Proof.
  unfold locs. induction 1 as [|t sh inputs shapes Hl _ (ds & Hds & Hne)]; simpl.
  - exists []. split; [done|]. by intros (t & ?%elem_of_nil & _).
  - rewrite Hds. simpl. destruct (find c t) as [i|] eqn:Ef.
    + apply find_lookup in Ef. destruct (lookup_lt_is_Some_2 sh i) as [x Hx]; [rewrite <-Hl; by eapply lookup_lt_Some|]. rewrite Hx. simpl. eauto.
    + exists ds. split; [done|]. intros (t' & [->|Ht]%elem_of_cons & Hc); [by apply find_None in Ef|]. apply Hne. eauto.
Qed.
Lemma find_output_shape_succeeds (inputs : list str) shapes output : Forall2 (fun t sh => length t = length sh) inputs shapes ->
  (forall c, c ∈ output -> exists t, t ∈ inputs /\ c ∈ t) -> exists r, find_output_shape inputs shapes output = Ok r /\ length r = length output.
Proof.
  intros H2. unfold find_output_shape. induction output as [|c output IH]; intros Ho; simpl; [by eexists|].
  destruct (locs_ok inputs shapes c H2) as (ds & Hds & Hne). rewrite Hds. simpl.
  destruct ds as [|x ds]; [by destruct Hne; [apply Ho; left|]|].
  cbn [mbind res_bind]. destruct IH as (r & Hr & Hrl); [intros; apply Ho; by right|]. rewrite Hr. simpl. eexists. split; [done|]. simpl. lia.
Qed.
Lemma pops_Forall2' {A B} (R : A -> B -> Prop) inds l k : desc inds -> Forall (fun i => i < length l) inds -> Forall2 R l k ->
  exists tl rl tk rk, pops inds l = Ok (tl, rl) /\ pops inds k = Ok (tk, rk) /\ Forall2 R tl tk /\ Forall2 R rl rk /\ rl = others inds l /\ rk = others inds k /\ reverse tl = chosen inds l.
Proof.
  intros Hd Hr H2. destruct (pops_select inds l Hd Hr) as (tl & Hl & Htl).
  destruct (pops_select inds k Hd) as (tk & Hk & Htk); [by rewrite <-(Forall2_length _ _ _ H2)|].
  destruct (pops_Forall2 R inds l k _ _ _ _ H2 Hl Hk). by exists tl, (others inds l), tk, (others inds k).
Qed.

Section Succ.
  Variable ord : gset N -> list N.
  Hypothesis ord_ok : forall s, ord s ≡ₚ elements s.
  Lemma cp_loop_succeeds use_blas output d p : forall (terms : list str) shapes,
    p <> [] -> path_runs (length terms) p -> Forall2 (fun t sh => length t = length sh) terms shapes ->
    (forall c, c ∈ output -> exists t, t ∈ terms /\ c ∈ t) -> (forall t c, t ∈ terms -> c ∈ t -> is_Some (d !! c)) ->
    exists steps, cp_loop ord use_blas output d p (list_to_set <$> terms) terms shapes = Ok steps.
  Proof.
    induction p as [|inds0 p IH]; [done|]. intros terms shapes _ (Hne & Hnd & Hr & Hruns) H2 Hout Hd. simpl cp_loop.
    set (inds := sort_desc inds0) in *.
    assert (Hinds : desc inds) by by apply sort_desc_desc.
    assert (Hnd' : NoDup inds) by (unfold inds; by rewrite sort_desc_perm).
    assert (Hne' : inds <> []) by (intros H; destruct Hne; apply Permutation_nil; rewrite <-H; apply sort_desc_perm).
    assert (Hr' : Forall (fun i => i < length terms) inds) by (unfold inds; by rewrite sort_desc_perm).
    set (sets := list_to_set <$> terms : list (gset N)).
    rewrite find_contraction_spec; [|done|done|unfold sets; by rewrite fmap_length].
    cbn [mbind res_bind].
    assert (Hsd : forall s c, s ∈ sets -> c ∈ s -> is_Some (d !! c)).
    { intros s c (t & -> & Ht)%elem_of_list_fmap Hc%elem_of_list_to_set. by eapply Hd. }
    assert (Hkd : forall c, c ∈ kept (list_to_set output) inds sets -> is_Some (d !! c)) by (intros c (t & ? & ?)%kept_sub; eauto).
    unfold flop_count. rewrite (volume_ok d (union_all (chosen inds sets)) _ (ord_ok _)); [|intros c (s & Hs & Hc)%elem_union_all; eapply Hsd; [by eapply chosen_sub|done]].
    cbn [mbind res_bind]. rewrite (volume_ok d (kept (list_to_set output) inds sets) _ (ord_ok _)) by done. cbn [mbind res_bind].
    destruct (pops_Forall2' _ inds terms shapes Hinds Hr' H2) as (tmp & rest & tsh & rsh & Hp1 & Hp2 & HF & HFr & Hrest & Hrsh & Htmp).
    rewrite Hp1, Hp2. cbn [mbind res_bind].
    assert (Hch : forall c, c ∈ union_all (chosen inds sets) <-> exists t, t ∈ tmp /\ c ∈ t).
    { intros c. rewrite elem_union_all. unfold sets. rewrite chosen_fmap, <-Htmp. split.
      - intros (s & (t & -> & Ht)%elem_of_list_fmap & Hc%elem_of_list_to_set). rewrite elem_of_reverse in Ht. eauto.
      - intros (t & Ht & Hc). exists (list_to_set t). split; [apply elem_of_list_fmap_1; by rewrite elem_of_reverse|by apply elem_of_list_to_set]. }
    assert (Hoth : forall c, c ∈ union_all (others inds sets) <-> exists t, t ∈ rest /\ c ∈ t).
    { intros c. rewrite elem_union_all. unfold sets. rewrite others_fmap, <-Hrest. split.
      - intros (s & (t & -> & Ht)%elem_of_list_fmap & Hc%elem_of_list_to_set). eauto.
      - intros (t & Ht & Hc). exists (list_to_set t). split; [by apply elem_of_list_fmap_1|by apply elem_of_list_to_set]. }
    assert (Hterms : forall t, t ∈ terms <-> t ∈ tmp \/ t ∈ rest).
    { intros t. rewrite <-elem_of_app. by rewrite (pops_perm _ _ _ _ Hp1). }
    assert (Hrlen : length rest = length terms - length inds0).
    { rewrite Hrest, others_length by done. unfold inds. by rewrite sort_desc_perm. }
    set (r := match p with [] => output | _ => sort_by_find (join [] tmp) (ord (kept (list_to_set output) inds sets)) end).
    assert (Hrin : forall c, c ∈ r <-> c ∈ kept (list_to_set output) inds sets).
    { intros c. unfold r. destruct p as [|s p']; [|by rewrite sort_by_find_perm, ord_ok, elem_of_elements].
      unfold kept. rewrite elem_of_intersection, elem_of_union, elem_of_list_to_set, Hch, Hoth.
      simpl in Hruns. assert (rest = []) as -> by (destruct rest; [done|]; simpl in Hrlen; lia). split.
      - intros Hc. split; [|auto]. destruct (Hout c Hc) as (t & Ht & Hct). apply Hterms in Ht as [Ht|Ht]; [eauto|by apply elem_of_nil in Ht].
      - intros [_ [?|(t & ?%elem_of_nil & _)]]; done. }
    assert (Hrsub : forall c, c ∈ r -> exists t, t ∈ tmp /\ c ∈ t).
    { intros c Hc. apply Hch. apply Hrin in Hc. unfold kept in Hc. set_solver. }
    destruct (find_output_shape_succeeds tmp tsh r HF Hrsub) as (shp & Hshp & Hshl). rewrite Hshp. cbn [mbind res_bind].
    destruct p as [|s p']; [simpl; eauto|].
    assert (Hsets : others inds sets ++ [kept (list_to_set output) inds sets] = list_to_set <$> (rest ++ [r])).
    { rewrite fmap_app. unfold sets at 1. rewrite others_fmap, <-Hrest. simpl. do 2 f_equal. apply set_eq. intros c. by rewrite elem_of_list_to_set, Hrin. }
    rewrite Hsets. destruct (IH (rest ++ [r]) (rsh ++ [shp])) as (steps & Hsteps).
    - done.
    - rewrite app_length, Hrlen. done.
    - apply Forall2_app; [done|]. by constructor.
    - intros c Hc. destruct (decide (c ∈ r)) as [Hcr|Hcr]; [exists r; split; [set_solver|done]|].
      destruct (Hout c Hc) as (t & Ht & Hct). apply Hterms in Ht as Ht'. destruct Ht' as [Ht'|Ht']; [|exists t; split; [set_solver|done]].
      exfalso. apply Hcr, Hrin. unfold kept. rewrite elem_of_intersection, elem_of_union, elem_of_list_to_set. split; [apply Hch; eauto|auto].
    - intros t c [Ht|Ht]%elem_of_app Hct; [eapply Hd; [apply Hterms; by right|done]|]. apply elem_of_list_singleton in Ht as ->. by apply Hkd, Hrin.
    - rewrite Hsteps. cbn [mbind res_bind]. eauto.
  Qed.
End Succ.

Lemma dim_rename {K : semiring} {L M} `{EqDecision L} `{EqDecision M} (g : L -> M) (tops : list (list L * tensor K)) l :
  (forall a b, a ∈ labels_of tops -> b ∈ labels_of tops -> g a = g b -> a = b) -> ranked tops -> compat tops -> l ∈ labels_of tops ->
  dim (rename_op g <$> tops : list (list M * tensor K)) (g l) = dim tops l.
Proof.
  intros Hinj Hr Hc Hl. destruct (dim_char tops l Hc) as [Hall Hin]. apply dim_unique.
  - intros x. rewrite rename_axes, elem_of_list_fmap. intros ([a y] & [= Heq ->] & Ha). simpl in *.
    assert (a = l) as -> by (apply Hinj; [by eapply axes_labels|done|done]). auto.
  - destruct Hin as [?|Hin]; [auto|]. right. rewrite rename_axes. apply elem_of_list_fmap. by exists (l, dim tops l).
Qed.

Section Accept.
  Context {K : semiring}.
  Notation tens := (tensor K).
  Variable ord : gset N -> list N.
  Hypothesis ord_ok : forall s, ord s ≡ₚ elements s.
  Lemma contract_path_accepts use_blas opt mem (e : eqn) s (ops : list tens) :
    e_in e <> [] -> plain_eqn e -> filter (.≠ c_space) s = render e -> well_formed e (shape <$> ops) ->
    let tops := zip (in_labels e (shape <$> ops)) ops in
    ranked tops -> compat tops -> mem_valid mem -> strategy_ok opt (length ops) ->
    exists info, contract_path ord use_blas opt mem s (shape <$> ops) = Ok info /\
      forall c, Named c ∈ labels_of tops -> pi_size_dict info !! c = Some (dim tops (Named c)).
  Proof.
    intros Hne Hpl Hs Hwf tops Hr Hc Hmem Hstr. unfold contract_path.
    set (g := name (fresh e (shape <$> ops))).
    set (ts := fmap (M:=list) g <$> in_labels e (shape <$> ops) : list str). set (out := g <$> out_labels e (shape <$> ops) : str).
    rewrite (parsed e s ops Hne Hpl Hs Hwf). fold g ts out. cbn [mbind res_bind].
    pose proof (ts_split e ops Hne Hpl Hwf) as Hsplit. fold g ts in Hsplit.
    pose proof (in_labels_length e ops Hwf) as Hlen0.
    assert (Hlen : length ts = length ops) by (unfold ts; by rewrite fmap_length).
    assert (Hzip : zip ts ops = rename_op g <$> tops) by apply zip_rename_gen.
    assert (Hinj : forall a b, a ∈ labels_of tops -> b ∈ labels_of tops -> g a = g b -> a = b).
    { intros a b Ha Hb. apply (g_inj e ops Hpl); auto. }
    assert (Hn1 : 1 <= length ops).
    { rewrite <-(fmap_length shape ops). rewrite <-(wf_count _ _ Hwf). destruct (e_in e); [done|]. simpl. lia. }
    assert (Hout : forall c, c ∈ out -> exists t, t ∈ ts /\ c ∈ t).
    { intros c (l & -> & Hl)%elem_of_list_fmap. destruct (wf_known _ _ Hwf l Hl) as (t & Ht & Hlt). exists (g <$> t). split; by apply elem_of_list_fmap_1. }
    unfold contract_path_parsed. rewrite Hsplit.
    pose proof (build_size_dict_spec ts (shape <$> ops)) as Hd. destruct (build_size_dict ts (shape <$> ops)) as [d|er].
    2: { destruct Hd as [_ Hn]. exfalso. apply Hn. rewrite ranks_ops, compat_ops, Hzip. split.
         - unfold ranked in *. apply Forall_fmap. eapply Forall_impl; [exact Hr|]. intros p. simpl. by rewrite fmap_length.
         - intros l x y. rewrite rename_axes, !elem_of_list_fmap. intros ([a x'] & [= -> ->] & Ha) ([b y'] & [= Heq ->] & Hb). simpl in *.
           assert (a = b) as -> by (apply Hinj; [by eapply axes_labels|by eapply axes_labels|done]). by eapply Hc. }
    destruct Hd as [Hrm Hd]. cbn [mbind res_bind]. rewrite sh_axes_ops in Hd.
    assert (Hr' : ranked (zip ts ops)) by by apply ranks_ops.
    assert (Hdim : forall c, c ∈ labels_of (zip ts ops) -> d !! c = Some (dim (zip ts ops) c)) by (intros; by apply sizes_of_dim).
    assert (Hterm : forall t c, t ∈ ts -> c ∈ t -> is_Some (d !! c)).
    { intros t c Ht Hct. rewrite Hdim; [done|]. apply elem_labels_zip; eauto. }
    rewrite (mapM_fmap _ (fun t => prod_list (size_of d <$> t))).
    2: { intros t Ht. apply compute_size_ok. intros c Hct. apply elem_of_app in Ht as [Ht|Ht]; [by eapply Hterm|].
         apply elem_of_list_singleton in Ht as ->. destruct (Hout c Hct) as (t & ? & ?). by eapply Hterm. }
    cbn [mbind res_bind].
    destruct (choose_memory_ok mem ((fun t => prod_list (size_of d <$> t)) <$> (ts ++ [out]))) as [mem' ->]; [done|by destruct ts|].
    cbn [mbind res_bind]. unfold flop_count. rewrite (compute_size_ok d (ord _)).
    2: { intros c Hcin. rewrite ord_ok, elem_of_elements, elem_of_list_to_set in Hcin. unfold s_comma in Hcin. rewrite replace1 in Hcin.
         apply elem_of_list_filter in Hcin as [Hcn Hcin]. apply elem_of_join in Hcin as [Hcin|(t & Ht & Hct)]; [by apply elem_of_list_singleton in Hcin|].
         by eapply Hterm. }
    cbn [mbind res_bind].
    destruct (strategy_path opt (list_to_set <$> ts) (list_to_set out) d mem' (length ops)) as (p & Hp & Hpne & Hruns); try done.
    { by rewrite fmap_length. }
    { intros a c (t & -> & Ht)%elem_of_list_fmap Hct%elem_of_list_to_set. by eapply Hterm. }
    { intros c Hct%elem_of_list_to_set. destruct (Hout c Hct) as (t & Ht & Hct'). apply elem_union_all.
      exists (list_to_set t). split; [by apply elem_of_list_fmap_1|by apply elem_of_list_to_set]. }
    rewrite Hp. cbn [mbind res_bind].
    destruct (cp_loop_succeeds ord ord_ok use_blas out d p ts (shape <$> ops)) as (steps & Hsteps); try done.
    { by rewrite Hlen. }
    { unfold ranked in Hr'. clear -Hr' Hlen. revert Hr' Hlen. generalize ts ops. clear. intros ts. induction ts as [|t ts IH]; intros [|o ops] Hr Hl; simplify_eq/=; constructor.
      - by inversion Hr.
      - apply IH; [by inversion Hr|done]. }
    rewrite Hsteps. cbn [mbind res_bind]. rewrite (mapM_fmap _ (fun ks => size_of d <$> ks)).
    2: { intros t Ht. apply mapM_fmap. intros c Hct. destruct (Hterm t c Ht Hct) as [x Hx]. unfold size_of. by rewrite Hx. }
    cbn [mbind res_bind]. eexists. split; [reflexivity|]. simpl. intros c Hcin.
    assert (Hgc : g (Named c) = c) by done.
    assert (Hlab : c ∈ labels_of (zip ts ops)).
    { rewrite Hzip, labels_rename. rewrite <-Hgc at 1. by apply elem_of_list_fmap_1. }
    rewrite Hdim by done. f_equal. rewrite <-Hgc at 1. rewrite Hzip. by apply dim_rename.
  Qed.
End Accept.
