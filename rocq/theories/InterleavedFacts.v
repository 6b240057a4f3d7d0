(** Interleaved input. *)
From Verif Require Import Prelude Einsum EinsumFacts EinsumOps Parser Helpers Contract Spec PathSpec StringFacts SymbolFacts StepFacts ContractFacts PathFacts ParserFacts ParseSpec ParseProof ParseSound TopFacts ContractMain RenameFacts Api ApiSpec.

(** ** Symbols *)
Definition sorted_labels (subs : list (list (option Z))) : list Z := merge_sort (≤)%Z (elements (list_to_set (omap id (subs ≫= id)) : gset Z)).
Definition sym (subs : list (list (option Z))) (l : Z) : N := default 0%N (symbol_map subs l).
Lemma sorted_labels_perm subs : sorted_labels subs ≡ₚ elements (list_to_set (omap id (subs ≫= id)) : gset Z).
Proof. apply merge_sort_Permutation. Qed.
Lemma elem_sorted_labels subs l : l ∈ sorted_labels subs <-> exists t, t ∈ subs /\ Some l ∈ t.
Proof.
  rewrite sorted_labels_perm, elem_of_elements, elem_of_list_to_set, elem_of_list_omap. split.
  - intros ([x|] & Hx & H); [|done]. simpl in H. injection H as ->. apply elem_of_list_bind in Hx as (t & Ht & ?). eauto.
  - intros (t & Ht & Hl). exists (Some l). split; [|done]. apply elem_of_list_bind. eauto.
Qed.
Lemma sorted_labels_sorted subs : StronglySorted (<)%Z (sorted_labels subs).
Proof.
  assert (Hs : StronglySorted (≤)%Z (sorted_labels subs)) by (apply Sorted_StronglySorted; [intros a b c; lia|apply (Sorted_merge_sort _)]).
  assert (Hn : NoDup (sorted_labels subs)) by (rewrite sorted_labels_perm; apply NoDup_elements).
  induction Hs as [|x l Hs IH Hx]; constructor; apply NoDup_cons in Hn as [Hn1 Hn2]; [by apply IH|].
  rewrite Forall_forall in Hx |- *. intros y Hy. specialize (Hx y Hy). assert (x <> y) by (by intros ->). lia.
Qed.
Lemma symbol_map_ok subs l : l ∈ sorted_labels subs -> exists i, sorted_labels subs !! i = Some l /\ symbol_map subs l = Some (get_symbol (N.of_nat i)) /\ sym subs l = get_symbol (N.of_nat i).
Proof.
  intros Hl. unfold sym, symbol_map. fold (sorted_labels subs). destruct (list_find (fun x => x = l) (sorted_labels subs)) as [[i x]|] eqn:E.
  - apply list_find_Some in E as (E1 & -> & _). exists i. done.
  - apply list_find_None in E. rewrite Forall_forall in E. by destruct (E l Hl).
Qed.
Lemma sorted_lookup (l : list Z) i j a b : StronglySorted (<)%Z l -> l !! i = Some a -> l !! j = Some b -> (a < b)%Z -> i < j.
Proof.
  intros Hs. revert i j. induction Hs as [|x l Hs IH Hx]; intros i j Hi Hj Hab; [done|]. rewrite Forall_forall in Hx. destruct i as [|i], j as [|j]; simpl in *.
  - simplify_eq. lia.
  - lia.
  - simplify_eq. apply elem_of_list_lookup_2 in Hi. specialize (Hx _ Hi). lia.
  - assert (i < j) by (by eapply IH). lia.
Qed.
Lemma sym_inj subs a b : a ∈ sorted_labels subs -> b ∈ sorted_labels subs -> sym subs a = sym subs b -> a = b.
Proof.
  intros Ha Hb H. destruct (symbol_map_ok subs a Ha) as (i & Hi & _ & Ei), (symbol_map_ok subs b Hb) as (j & Hj & _ & Ej).
  rewrite Ei, Ej in H. apply get_symbol_inj in H. assert (i = j) as -> by lia. congruence.
Qed.
Lemma symbol_order i j : i < j -> j < 26 -> (get_symbol (N.of_nat i) < get_symbol (N.of_nat j))%N.
Proof.
  intros Hij Hj. assert (H : Forall (fun i => Forall (fun j => i < j -> (get_symbol (N.of_nat i) < get_symbol (N.of_nat j))%N) (seq 0 26)) (seq 0 26)).
  { apply (bool_decide_unpack _). by vm_compute. }
  rewrite Forall_forall in H. specialize (H i ltac:(apply elem_of_seq; lia)). rewrite Forall_forall in H. apply H; [apply elem_of_seq; lia|done].
Qed.
Lemma sym_order subs a b : length (sorted_labels subs) <= 26 -> a ∈ sorted_labels subs -> b ∈ sorted_labels subs -> (a < b)%Z -> (sym subs a < sym subs b)%N.
Proof.
  intros Hn Ha Hb Hab. destruct (symbol_map_ok subs a Ha) as (i & Hi & _ & ->), (symbol_map_ok subs b Hb) as (j & Hj & _ & ->).
  apply symbol_order; [by eapply sorted_lookup; [apply sorted_labels_sorted|..]|]. apply lookup_lt_Some in Hj. lia.
Qed.

(** ** The converted string *)
Lemma convert_subscripts_ok subs (t : iterm) : (forall l, l ∈ iterm_labels t -> l ∈ sorted_labels subs) ->
  convert_subscripts (symbol_map subs) (isub t) = Ok (render_term (named_term (sym subs) t)).
Proof.
  intros H. assert (Hs : forall (x : list Z) rest r, (forall l, l ∈ x -> l ∈ sorted_labels subs) -> convert_subscripts (symbol_map subs) rest = Ok r ->
    convert_subscripts (symbol_map subs) ((Some <$> x) ++ rest) = Ok ((sym subs <$> x) ++ r)).
  { clear H. intros x rest r H Hr. induction x as [|a x IH]; [done|]. rewrite fmap_cons. cbn [app]. unfold convert_subscripts in *. cbn [foldr].
    rewrite IH by (intros l Hl; apply H; by right). cbn [mbind res_bind]. destruct (symbol_map_ok subs a) as (i & _ & -> & Ei); [apply H; by left|]. cbn [of_opt mbind res_bind].
    rewrite fmap_cons, Ei. done. }
  unfold isub, render_term, named_term. cbn [t_pre t_post]. destruct t as [pre [q|]]; cbn [i_pre i_post].
  - apply Hs; [intros l Hl; apply H; apply elem_of_app; by left|]. assert (Hq : convert_subscripts (symbol_map subs) ((Some <$> q) ++ []) = Ok ((sym subs <$> q) ++ [])).
    { apply Hs; [intros l Hl; apply H; apply elem_of_app; by right|done]. }
    rewrite !app_nil_r in Hq. unfold convert_subscripts in *. cbn [foldr]. rewrite Hq. done.
  - apply Hs; [intros l Hl; apply H; apply elem_of_app; by left|done].
Qed.
Lemma mapM_Ok {A B} (f : A -> res B) (g : A -> B) l : (forall x, x ∈ l -> f x = Ok (g x)) -> mapM_res f l = Ok (g <$> l).
Proof. induction l as [|x l IH]; intros H; [done|]. simpl. rewrite H by (by left). simpl. rewrite IH by (intros; apply H; by right). done. Qed.
Lemma mapM_fmap' {A B C} (h : A -> B) (f : B -> res C) l : mapM_res f (h <$> l) = mapM_res (f ∘ h) l.
Proof. induction l as [|x l IH]; [done|]. rewrite fmap_cons. simpl. by rewrite IH. Qed.
Lemma elem_isub l t : Some l ∈ isub t <-> l ∈ iterm_labels t.
Proof.
  unfold isub, iterm_labels. rewrite !elem_of_app, elem_of_list_fmap. destruct (i_post t) as [q|]; simpl.
  - rewrite elem_of_cons, elem_of_list_fmap. naive_solver.
  - rewrite !elem_of_nil. naive_solver.
Qed.
Definition in_subs (e : ieqn) : list (list (option Z)) := isub <$> ie_in e.
Lemma elem_in_labels e l : l ∈ sorted_labels (in_subs e) <-> l ∈ ie_in e ≫= iterm_labels.
Proof.
  rewrite elem_sorted_labels, elem_of_list_bind. unfold in_subs. split.
  - intros (t & (t' & -> & Ht)%elem_of_list_fmap & Hl). exists t'. by rewrite <-elem_isub.
  - intros (t & Hl & Ht). exists (isub t). split; [by apply elem_of_list_fmap_1|by apply elem_isub].
Qed.
Lemma convert_ok (e : ieqn) : (forall l, l ∈ ieqn_labels e -> l ∈ sorted_labels (in_subs e)) ->
  convert_interleaved (in_subs e) (isub <$> ie_out e) = Ok (render (named_eqn (sym (in_subs e)) e)).
Proof.
  intros H. unfold convert_interleaved. set (subs := in_subs e) in *.
  assert (mapM_res (convert_subscripts (symbol_map subs)) subs = Ok ((fun t => render_term (named_term (sym subs) t)) <$> ie_in e)) as ->.
  { change subs with (isub <$> ie_in e) at 2. rewrite mapM_fmap'. apply mapM_Ok. intros t Ht. apply convert_subscripts_ok. intros l Hl. apply H.
    unfold ieqn_labels. apply elem_of_app. left. apply elem_of_list_bind. eauto. }
  cbn [mbind res_bind]. unfold render. cbn [named_eqn e_in e_out]. rewrite <-list_fmap_compose. unfold ieqn_labels in H. destruct (ie_out e) as [o|].
  - cbn [fmap option_fmap option_map]. rewrite convert_subscripts_ok; [done|]. intros l Hl. apply H. apply elem_of_app. by right.
  - cbn [fmap option_fmap option_map]. by rewrite app_nil_r.
Qed.

(** ** Renaming *)
Section Main.
  Context {K : semiring}.
  Notation tens := (tensor K).
  Variable ord : gset N -> list N.
  Hypothesis ord_ok : forall s, ord s ≡ₚ elements s.
  Variable B : backend K.
  Hypothesis B_ok : backend_ok B.

  Lemma t_named_term g t : t_named (named_term g t) = g <$> iterm_labels t.
  Proof. unfold t_named, iterm_labels. simpl. rewrite fmap_app. by destruct (i_post t). Qed.
  Lemma elem_named_of g e c : c ∈ named_of (named_eqn g e) <-> exists l, c = g l /\ l ∈ ieqn_labels e.
  Proof.
    rewrite <-elem_of_list_fmap. unfold named_of, ieqn_labels. rewrite fmap_app, !elem_of_app. cbn [named_eqn e_in e_out].
    assert (Hb : (named_term g <$> ie_in e) ≫= t_named = g <$> (ie_in e ≫= iterm_labels)).
    { induction (ie_in e) as [|t l IH]; [done|]. rewrite fmap_cons, !bind_cons, fmap_app, t_named_term. f_equal. apply IH. }
    rewrite Hb. destruct (ie_out e) as [o|]; cbn [fmap option_fmap option_map]; [by rewrite t_named_term|done].
  Qed.
  Lemma rename_named f g h e : (forall l, l ∈ ieqn_labels e -> f (g l) = h l) -> rename_eqn f (named_eqn g e) = named_eqn h e.
  Proof.
    intros H. assert (Hl : forall l : list Z, (forall x, x ∈ l -> x ∈ ieqn_labels e) -> f <$> (g <$> l) = h <$> l).
    { intros l Hl. rewrite <-list_fmap_compose. apply list_fmap_ext'. intros x Hx. by apply H, Hl. }
    assert (Ht : forall t, (forall x, x ∈ iterm_labels t -> x ∈ ieqn_labels e) -> rename_term f (named_term g t) = named_term h t).
    { intros t Ht. unfold rename_term, named_term. cbn [t_pre t_post]. f_equal; [apply Hl; intros x Hx; apply Ht, elem_of_app; by left|].
      unfold iterm_labels in Ht. destruct (i_post t) as [q|]; [|done]. cbn [fmap option_fmap option_map]. f_equal. apply Hl. intros x Hx. apply Ht, elem_of_app. by right. }
    unfold rename_eqn. cbn [named_eqn e_in e_out]. unfold named_eqn. f_equal.
    - rewrite <-list_fmap_compose. apply list_fmap_ext'. intros t Hin. apply Ht. intros x Hx. unfold ieqn_labels. apply elem_of_app. left. apply elem_of_list_bind. eauto.
    - unfold ieqn_labels in Ht. destruct (ie_out e) as [o|]; [|done]. cbn [fmap option_fmap option_map]. f_equal. apply Ht. intros x Hx. apply elem_of_app. by right.
  Qed.
  Lemma render_no_space e : plain_eqn e -> filter (.≠ c_space) (render e) = render e.
  Proof.
    intros [Hi Ho]. apply filter_id. apply Forall_forall. intros c Hc ->. revert Hc. unfold render. rewrite elem_of_app. intros [Hc|Hc].
    - apply elem_of_join in Hc as [Hc|(t & Ht & Hc)]; [by apply elem_of_list_singleton in Hc|].
      apply elem_of_list_fmap in Ht as (t' & -> & Ht). apply elem_render_term in Hc as [Hc|[_ Hc]]; [|done].
      rewrite Forall_forall in Hi. specialize (Hi t' Ht). rewrite Forall_forall in Hi. by destruct (Hi _ Hc) as (_ & _ & _ & _ & ?).
    - destruct (e_out e) as [o|]; [|by apply elem_of_nil in Hc]. apply elem_of_app in Hc as [Hc|Hc].
      + unfold s_arrow in Hc. apply elem_of_cons in Hc as [?|Hc]; [done|]. by apply elem_of_list_singleton in Hc.
      + apply elem_render_term in Hc as [Hc|[_ Hc]]; [|done]. rewrite Forall_forall in Ho. by destruct (Ho _ Hc) as (_ & _ & _ & _ & ?).
  Qed.

  Variables (g : Z -> N) (ie : ieqn) (ops : list tens).
  Let e := named_eqn g ie.
  Hypothesis Hne : ie_in ie <> [].
  Hypothesis Hinj : forall a b, a ∈ ieqn_labels ie -> b ∈ ieqn_labels ie -> g a = g b -> a = b.
  Hypothesis Hpl : forall a, a ∈ ieqn_labels ie -> plain (g a).
  Hypothesis Hord : is_Some (ie_out ie) \/
    (length (remove_dups (ieqn_labels ie)) <= 26 /\ forall a b, a ∈ ieqn_labels ie -> b ∈ ieqn_labels ie -> (a < b)%Z -> (g a < g b)%N).
  Hypothesis Hwf : well_formed e (shape <$> ops).

  Lemma labels_known l : l ∈ ieqn_labels ie -> l ∈ sorted_labels (in_subs ie).
  Proof.
    intros Hl. apply elem_in_labels. unfold ieqn_labels in Hl. apply elem_of_app in Hl as [Hl|Hl]; [done|].
    destruct (ie_out ie) as [o|] eqn:Ho; [|by apply elem_of_nil in Hl].
    assert (Hk : Named (g l) ∈ out_labels e (shape <$> ops)).
    { unfold out_labels, e. cbn [named_eqn e_out]. rewrite Ho. cbn [fmap option_fmap option_map]. unfold expand, named_term. cbn [t_pre t_post]. unfold iterm_labels in Hl.
      apply elem_of_app in Hl as [Hl|Hl].
      - apply elem_of_app. left. apply elem_of_list_fmap_1. by apply elem_of_list_fmap_1.
      - apply elem_of_app. right. destruct (i_post o) as [q|]; [|by apply elem_of_nil in Hl]. cbn [fmap option_fmap option_map]. apply elem_of_app. right.
        apply elem_of_list_fmap_1. by apply elem_of_list_fmap_1. }
    destruct (wf_known _ _ Hwf _ Hk) as (t & Ht & Hlt). unfold in_labels, e in Ht. cbn [named_eqn e_in] in Ht.
    apply elem_of_lookup_zip_with in Ht as (i & t' & sh & -> & Ht' & _). apply elem_of_list_lookup_2 in Ht'. apply elem_of_list_fmap in Ht' as (t0 & -> & Ht0).
    assert (Hc : g l ∈ t_named (named_term g t0)).
    { unfold expand in Hlt. unfold t_named. apply elem_of_app in Hlt as [(c & [= <-] & Hc)%elem_of_list_fmap|Hlt]; [apply elem_of_app; by left|].
      destruct (t_post (named_term g t0)) as [q|]; [|by apply elem_of_nil in Hlt]. apply elem_of_app in Hlt as [(c & [=] & Hc)%elem_of_list_fmap|(c & [= <-] & Hc)%elem_of_list_fmap].
      apply elem_of_app. by right. }
    rewrite t_named_term in Hc. apply elem_of_list_fmap in Hc as (l' & Hgl & Hl'). assert (Hin : l' ∈ ie_in ie ≫= iterm_labels) by (apply elem_of_list_bind; eauto).
    assert (l = l') as ->; [|done]. apply Hinj; [|unfold ieqn_labels; apply elem_of_app; by left|done]. unfold ieqn_labels. apply elem_of_app. right. by rewrite Ho.
  Qed.
  Definition back (c : N) : N := match list_find (fun l => g l = c) (ieqn_labels ie) with Some (_, l) => sym (in_subs ie) l | None => c end.
  Lemma back_ok l : l ∈ ieqn_labels ie -> back (g l) = sym (in_subs ie) l.
  Proof.
    intros Hl. unfold back. destruct (list_find _ (ieqn_labels ie)) as [[i x]|] eqn:E.
    - apply list_find_Some in E as (E1 & E2 & _). f_equal. apply Hinj; [by eapply elem_of_list_lookup_2|done|done].
    - apply list_find_None in E. rewrite Forall_forall in E. by destruct (E l Hl).
  Qed.
  Lemma back_inj a b : a ∈ named_of e -> b ∈ named_of e -> back a = back b -> a = b.
  Proof.
    intros (x & -> & Hx)%elem_named_of (y & -> & Hy)%elem_named_of. rewrite !back_ok by done. intros H. f_equal.
    eapply sym_inj; [by apply labels_known|by apply labels_known|done].
  Qed.
  Lemma back_order : order_kept back e.
  Proof.
    destruct Hord as [[o Ho]|[Hn Hm]]; [left; unfold e; simpl; rewrite Ho; by eexists|right].
    intros a b (x & -> & Hx)%elem_named_of (y & -> & Hy)%elem_named_of Hlt. rewrite !back_ok by done.
    assert (Hxy : (x < y)%Z).
    { destruct (Z.lt_trichotomy x y) as [?|[->|Hyx]]; [done|lia|]. specialize (Hm y x Hy Hx Hyx). lia. }
    apply sym_order; [|by apply labels_known|by apply labels_known|done]. etrans; [|exact Hn]. apply submseteq_length, NoDup_submseteq.
    - rewrite sorted_labels_perm. apply NoDup_elements.
    - intros l Hl%elem_in_labels. apply elem_of_remove_dups. unfold ieqn_labels. apply elem_of_app. by left.
  Qed.
  Lemma back_plain c : c ∈ named_of e -> plain (back c).
  Proof.
    intros (x & -> & Hx)%elem_named_of. rewrite back_ok by done. destruct (symbol_map_ok _ x (labels_known x Hx)) as (i & _ & _ & ->). apply get_symbol_plain.
  Qed.
  Lemma named_plain : plain_eqn e.
  Proof.
    split.
    - apply Forall_forall. intros t Ht. apply Forall_forall. intros c Hc.
      assert (Hin : c ∈ named_of e) by (unfold named_of; apply elem_of_app; left; apply elem_of_list_bind; eauto). apply elem_named_of in Hin as (l & -> & Hl). by apply Hpl.
    - destruct (e_out e) as [o|] eqn:Ho; [|done]. apply Forall_forall. intros c Hc.
      assert (Hin : c ∈ named_of e) by (unfold named_of; rewrite Ho; apply elem_of_app; by right). apply elem_named_of in Hin as (l & -> & Hl). by apply Hpl.
  Qed.

  Lemma interleaved_contract use_blas opt mem T : opt <> OFalse ->
    contract ord B use_blas opt mem (render (named_eqn (sym (in_subs ie)) ie)) ops = Ok T ->
    contract_interleaved ord B use_blas opt mem (in_subs ie) (isub <$> ie_out ie) ops = Ok T.
  Proof.
    intros Hopt HT. unfold contract_interleaved, contract_path_interleaved. rewrite convert_ok by apply labels_known. cbn [mbind res_bind].
    set (s := render _) in *. assert (Hs : replace [c_space] [] s = s).
    { unfold s. rewrite <-rename_named with (f := back) (g := g) by apply back_ok. rewrite replace1. apply render_no_space. apply rename_plain. apply back_plain. }
    unfold contract in HT. destruct opt; [done| |]; unfold contract_path, parse_einsum_input in HT; rewrite Hs in HT; exact HT.
  Qed.

  Lemma interleaved_ok use_blas opt mem :
    good (zip (in_labels e (shape <$> ops)) ops) -> mem_valid mem -> strategy_ok opt (length ops) ->
    b_has_einsum B = true -> length (remove_dups (labels_of (zip (in_labels e (shape <$> ops)) ops))) <= 52 ->
    exists T, contract_interleaved ord B use_blas opt mem (in_subs ie) (isub <$> ie_out ie) ops = Ok T /\
      T ≡ₜ einsum (zip (in_labels e (shape <$> ops)) ops) (out_labels e (shape <$> ops)).
  Proof.
    intros Hg Hm Hs He Hsz. assert (Hne' : e_in e <> []) by (unfold e; simpl; intros H%fmap_nil_inv; done). pose proof named_plain as Hp.
    destruct (contract_ok ord ord_ok B B_ok e (render e) ops Hne' Hp (render_no_space e Hp) Hwf use_blas opt mem Hg Hm Hs He Hsz) as (T0 & HT0 & Heq0).
    destruct (contract_rename ord ord_ok B B_ok back e ops use_blas opt mem) as (T & T' & HT & HT' & Heq); try done.
    { apply back_order. } { apply back_inj. } { apply back_plain. }
    unfold e in HT' at 1. rewrite (rename_named back g (sym (in_subs ie))) in HT' by apply back_ok.
    exists T'. split; [apply interleaved_contract; [by intros ->|done]|]. rewrite HT in HT0. apply Ok_inj in HT0 as ->. by rewrite Heq.
  Qed.
End Main.
