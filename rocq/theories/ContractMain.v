(** contract on equations of the grammar: parsing, path, loop and renaming put together. *)
From Verif Require Import Prelude Einsum EinsumFacts EinsumOps Parser Helpers Contract Spec PathSpec StringFacts SymbolFacts StepFacts ContractFacts PathFacts ParserFacts ParseSpec ParseProof ParseSound TopFacts.

(** The optimize argument yields complete paths for [n] operands. *)
Definition strategy_ok (opt : optimize_arg) (n : nat) : Prop :=
  match opt with
  | OFalse => False
  | OPath p => complete n p
  | OFinder f => n <= 2 \/ forall sets out d mem, length sets = n -> (forall s c, s ∈ sets -> c ∈ s -> is_Some (d !! c)) ->
      out ⊆ union_all sets -> exists p, f sets out d mem = Ok p /\ complete n p
  end.
Lemma complete_all n : 1 <= n -> complete n [seq 0 n].
Proof.
  intros Hn. split; [done|]. simpl. split; [by destruct n; [lia|]|]. split; [apply NoDup_seq|]. split.
  - apply Forall_forall. intros i Hi. apply elem_of_seq in Hi. lia.
  - rewrite seq_length. lia.
Qed.
Lemma strategy_path opt sets out d mem n : 1 <= n -> length sets = n -> strategy_ok opt n ->
  (forall s c, s ∈ sets -> c ∈ s -> is_Some (d !! c)) -> out ⊆ union_all sets ->
  exists p, compute_path opt sets out d mem = Ok p /\ complete n p.
Proof.
  intros Hn Hlen Hs Hd Ho. destruct opt as [|p|f]; simpl in *; [done|eauto|].
  destruct (Nat.leb_spec (length sets) 2) as [Hl|Hl].
  - rewrite Hlen. eexists. split; [done|]. by apply complete_all.
  - destruct Hs as [?|Hs]; [lia|]. by apply Hs.
Qed.

Section Rename.
  Context {K : semiring} {L M : Type} `{EqDecision L} `{EqDecision M}.
  Notation tens := (tensor K).
  Lemma zip_rename_gen (g : L -> M) (ts : list (list L)) (ops : list tens) :
    zip (fmap (M:=list) g <$> ts) ops = rename_op g <$> zip ts ops.
  Proof. revert ops. induction ts as [|t ts IH]; intros [|o ops]; try done. rewrite fmap_cons. simpl. f_equal. apply IH. Qed.
  Lemma labels_rename (g : L -> M) (tops : list (list L * tens)) : labels_of (rename_op g <$> tops : list (list M * tens)) = g <$> labels_of tops.
  Proof. unfold labels_of. induction tops as [|p tops IH]; [done|]. rewrite fmap_cons, !bind_cons, IH. by rewrite fmap_app. Qed.
  Lemma good_rename (g : L -> M) (tops : list (list L * tens)) :
    (forall a b, a ∈ labels_of tops -> b ∈ labels_of tops -> g a = g b -> a = b) -> good tops -> good (rename_op g <$> tops : list (list M * tens)).
  Proof.
    intros Hinj [Hr Hc Hd Hz]. split.
    - unfold ranked in *. apply Forall_fmap. eapply Forall_impl; [exact Hr|]. intros p. simpl. by rewrite fmap_length.
    - intros l d d'. rewrite rename_axes, !elem_of_list_fmap.
      intros ([a x] & [= -> ->] & Ha) ([b y] & [= Heq ->] & Hb). simpl in *.
      assert (a = b) as -> by (apply Hinj; [by eapply axes_labels|by eapply axes_labels|done]). by eapply Hc.
    - intros p i j c d d' Hp Hi Hj. apply elem_of_list_fmap in Hp as (q & -> & Hq).
      simpl in *. rewrite list_lookup_fmap in Hi, Hj.
      destruct (q.1 !! i) as [a|] eqn:Ea; simplify_eq/=. destruct (q.1 !! j) as [b|] eqn:Eb; simplify_eq/=.
      assert (a = b) as ->.
      { apply Hinj; [| |congruence]; apply elem_of_labels; exists q; split; try done; by eapply elem_of_list_lookup_2. }
      by eapply Hd.
    - intros l. rewrite rename_axes, !elem_of_list_fmap.
      intros ([a x] & [= -> <-] & Ha) ([b y] & [= Heq <-] & Hb). simpl in *.
      assert (a = b) as -> by (apply Hinj; [by eapply axes_labels|by eapply axes_labels|done]). by eapply Hz.
  Qed.
  Lemma uniform_rename (g : L -> M) (tops : list (list L * tens)) :
    (forall a b, a ∈ labels_of tops -> b ∈ labels_of tops -> g a = g b -> a = b) ->
    (forall c x y, (c, x) ∈ axes_of tops -> (c, y) ∈ axes_of tops -> x = y) ->
    (forall c x y, (c, x) ∈ axes_of (rename_op g <$> tops : list (list M * tens)) -> (c, y) ∈ axes_of (rename_op g <$> tops : list (list M * tens)) -> x = y).
  Proof.
    intros Hinj Hu l d d'. rewrite rename_axes, !elem_of_list_fmap.
    intros ([a x] & [= -> ->] & Ha) ([b y] & [= Heq ->] & Hb). simpl in *.
    assert (a = b) as -> by (apply Hinj; [by eapply axes_labels|by eapply axes_labels|done]). by eapply Hu.
  Qed.
End Rename.
Section RenameN.
  Context {K : semiring} {L : Type} `{EqDecision L}.
  Notation tens := (tensor K).
  Lemma size_rename (g : L -> N) (tops : list (list L * tens)) :
    size (list_to_set (labels_of (rename_op g <$> tops : list (list N * tens))) : gset N) <= length (remove_dups (labels_of tops)).
  Proof.
    rewrite labels_rename.
    assert (Heq : (list_to_set (g <$> labels_of tops) : gset N) = list_to_set (g <$> remove_dups (labels_of tops))).
    { apply set_eq. intros c. rewrite !elem_of_list_to_set, !elem_of_list_fmap. by setoid_rewrite elem_of_remove_dups. }
    rewrite Heq. generalize (remove_dups (labels_of tops)). clear. intros l. induction l as [|x l IH].
    - change (list_to_set (g <$> []) : gset N) with (∅ : gset N). rewrite size_empty. simpl. lia.
    - rewrite fmap_cons, list_to_set_cons, size_union_alt, size_singleton. simpl.
      assert ((list_to_set (g <$> l) ∖ {[g x]} : gset N) ⊆ list_to_set (g <$> l)) as Hs%subseteq_size by set_solver. lia.
  Qed.
End RenameN.

Section Main.
  Context {K : semiring}.
  Notation tens := (tensor K).
  Variable ord : gset N -> list N.
  Hypothesis ord_ok : forall s, ord s ≡ₚ elements s.
  Variable B : backend K.
  Hypothesis B_ok : backend_ok B.

  Variables (e : eqn) (s : str) (ops : list tens).
  Hypothesis Hne : e_in e <> [].
  Hypothesis Hpl : plain_eqn e.
  Hypothesis Hs : filter (.≠ c_space) s = render e.
  Let shapes := shape <$> ops.
  Hypothesis Hwf : well_formed e shapes.
  Let tops := zip (in_labels e shapes) ops.
  Let g := name (fresh e shapes).
  Let ts : list str := fmap (M:=list) g <$> in_labels e shapes.
  Let out : str := g <$> out_labels e shapes.

  Lemma in_labels_length : length (in_labels e shapes) = length ops.
  Proof. clear Hpl Hs Hne. unfold in_labels. rewrite zip_with_length, (wf_count _ _ Hwf). unfold shapes. rewrite fmap_length. lia. Qed.
  Lemma ts_split : split s_comma (join s_comma ts) = ts.
  Proof.
    clear Hs. apply split1_join.
    - unfold ts, in_labels. pose proof (wf_count _ _ Hwf) as Hc. destruct (e_in e); [done|]. destruct shapes; [done|]. done.
    - apply Forall_forall. intros t (t' & -> & Ht')%elem_of_list_fmap Hc. apply elem_of_list_fmap in Hc as (l & Hl & Hlt).
      destruct (name_plain e shapes l Hpl) as (Hp & _); [by eapply in_known|]. by apply Hp.
  Qed.
  Lemma g_inj a b : (a ∈ labels_of tops \/ a ∈ out_labels e shapes) -> (b ∈ labels_of tops \/ b ∈ out_labels e shapes) -> g a = g b -> a = b.
  Proof.
    assert (Hk : forall a, (a ∈ labels_of tops \/ a ∈ out_labels e shapes) -> known e shapes a).
    { intros a' [Ha|Ha]; [|by apply out_known]. apply elem_of_labels in Ha as (p & Hp & Ha).
      unfold tops in Hp. destruct p as [t o]. apply elem_of_zip_l in Hp. by eapply in_known. }
    intros Ha Hb. apply name_inj; auto.
  Qed.

  Lemma parsed : parse_einsum_input s shapes = Ok (join s_comma ts, out).
  Proof. apply (parse_ok_iff e shapes Hne Hpl); [done|]. done. Qed.

  Lemma zip_ts : zip ts ops = rename_op g <$> tops.
  Proof. apply zip_rename_gen. Qed.

  Lemma contract_path_ok use_blas opt mem : good tops -> mem_valid mem -> strategy_ok opt (length ops) ->
    exists info, contract_path ord use_blas opt mem s shapes = Ok info
      /\ complete (length ops) (pi_path info)
      /\ info_numbers (dim (zip ts ops)) (list_to_set <$> ts) (list_to_set out) info
      /\ (exists mem', compute_path opt (list_to_set <$> ts) (list_to_set out) (dims_map (zip ts ops)) mem' = Ok (pi_path info))
      /\ pi_size_dict info = dims_map (zip ts ops)
      /\ (b_has_einsum B = true -> length (remove_dups (labels_of tops)) <= 52 -> info_fits B info)
      /\ (info_fits B info -> forall ops', Forall2 teq ops ops' -> exists T, core_contract ord B ops' (pi_contractions info) = Ok T
           /\ T ≡ₜ einsum tops (out_labels e shapes)
           /\ exists vs, step_results ord B ops' (pi_contractions info) = Ok vs
               /\ ((forall c x y, (c, x) ∈ axes_of tops -> (c, y) ∈ axes_of tops -> x = y) -> (prod_list ∘ shape) <$> vs = pi_size_list info)).
  Proof.
    intros Hgood Hmem Hstrat. unfold contract_path. rewrite parsed. cbn [mbind res_bind].
    pose proof ts_split as Hsplit. pose proof zip_ts as Hzip.
    assert (Hlen : length ts = length ops) by (unfold ts; rewrite fmap_length; apply in_labels_length).
    assert (Hn1 : 1 <= length ops).
    { rewrite <-(fmap_length shape ops). fold shapes. rewrite <-(wf_count _ _ Hwf). destruct (e_in e); [done|]. simpl. lia. }
    assert (Hinj : forall a b, a ∈ labels_of tops -> b ∈ labels_of tops -> g a = g b -> a = b) by (intros; apply g_inj; auto).
    assert (Hplain : Forall (Forall plain) ts).
    { apply Forall_forall. intros t (t' & -> & Ht')%elem_of_list_fmap. apply Forall_forall. intros c (l & -> & Hl)%elem_of_list_fmap.
      apply name_plain; [done|]. by eapply in_known. }
    assert (Hnd : NoDup out).
    { apply NoDup_fmap_2_strong; [|by destruct Hwf]. intros a b Ha Hb. apply g_inj; auto. }
    assert (Hout : forall c, c ∈ out -> c ∈ labels_of (zip ts ops)).
    { intros c (l & -> & Hl)%elem_of_list_fmap. apply elem_labels_zip; [done|].
      destruct (wf_known _ _ Hwf l Hl) as (t & Ht & Hlt). exists (g <$> t). split; by apply elem_of_list_fmap_1. }
    assert (Hgood' : good (zip ts ops)) by (rewrite Hzip; by apply good_rename).
    destruct (contract_path_parsed_ok ord ord_ok B B_ok use_blas opt mem (join s_comma ts) out ops) as (info & Hinfo & H1 & H2 & H3 & H4 & H5 & H6); rewrite ?Hsplit; try done.
    { intros mem'. apply strategy_path; try done.
      - by rewrite fmap_length.
      - intros a c (t & -> & Ht)%elem_of_list_fmap Hc. apply elem_of_list_to_set in Hc. rewrite dims_map_lookup, decide_True; [done|].
        apply elem_labels_zip; eauto.
      - intros c Hc. apply elem_of_list_to_set, Hout, elem_labels_zip in Hc as (t & Ht & Hc); [|done]. apply elem_union_all.
        exists (list_to_set t). split; [by apply elem_of_list_fmap_1|by apply elem_of_list_to_set]. }
    rewrite Hsplit in *. exists info. split; [done|]. split; [done|]. split; [done|]. split; [done|]. split; [done|]. split.
    - intros He Hsz. apply H5; [done|]. etrans; [|exact Hsz]. rewrite Hzip. apply size_rename.
    - intros Hfit ops' Hops'. destruct (H6 Hfit ops' Hops') as (T & HT & HTeq & vs & Hvs & Hvsz). exists T. split; [done|]. split.
      + rewrite HTeq, Hzip. unfold out. apply einsum_rename; [apply g_inj|by destruct Hwf].
      + exists vs. split; [done|]. intros Hu. apply Hvsz. rewrite Hzip. by apply uniform_rename.
  Qed.

  Lemma contract_ok use_blas opt mem : good tops -> mem_valid mem -> strategy_ok opt (length ops) ->
    b_has_einsum B = true -> length (remove_dups (labels_of tops)) <= 52 ->
    exists T, contract ord B use_blas opt mem s ops = Ok T /\ T ≡ₜ einsum tops (out_labels e shapes).
  Proof.
    intros Hgood Hmem Hstrat He Hsz. destruct (contract_path_ok use_blas opt mem Hgood Hmem Hstrat) as (info & Hinfo & _ & _ & _ & _ & Hfit & Hcore).
    destruct (Hcore (Hfit He Hsz) ops) as (T & HT & HTeq & _); [by apply Forall2_same_length_lookup_2; [|intros; simplify_eq]|].
    exists T. split; [|done]. unfold contract. destruct opt; [done| |]; fold shapes; rewrite Hinfo; done.
  Qed.

  (** Without einsum: every step of the path must be a BLAS step. *)
  Lemma contract_fits use_blas opt mem info : good tops -> mem_valid mem -> strategy_ok opt (length ops) ->
    contract_path ord use_blas opt mem s shapes = Ok info -> info_fits B info ->
    exists T, contract ord B use_blas opt mem s ops = Ok T /\ T ≡ₜ einsum tops (out_labels e shapes).
  Proof.
    intros Hgood Hmem Hstrat Hinfo' Hfit. destruct (contract_path_ok use_blas opt mem Hgood Hmem Hstrat) as (info2 & Hinfo & _ & _ & _ & _ & _ & Hcore).
    assert (info2 = info) as -> by congruence.
    destruct (Hcore Hfit ops) as (T & HT & HTeq & _); [by apply Forall2_same_length_lookup_2; [|intros; simplify_eq]|].
    exists T. split; [|done]. unfold contract. destruct opt; [done| |]; fold shapes; rewrite Hinfo; done.
  Qed.

  (** C12: shapes that do not fit the equation are refused. *)
  Lemma contract_path_rejects use_blas opt mem : ~ (ranked tops /\ compat tops) -> contract_path ord use_blas opt mem s shapes = Err ValueError.
  Proof.
    intros Hbad. unfold contract_path. rewrite parsed. cbn [mbind res_bind]. unfold contract_path_parsed. rewrite ts_split.
    pose proof (build_size_dict_spec ts shapes) as Hd. destruct (build_size_dict ts shapes) as [d|er]; [|by destruct Hd as [-> _]].
    exfalso. apply Hbad. destruct Hd as [Hr Hd]. apply sizes_of_compat in Hd. unfold shapes in Hr, Hd.
    rewrite ranks_ops, zip_ts in Hr. rewrite compat_ops, zip_ts in Hd. split.
    - unfold ranked in *. apply Forall_fmap in Hr. eapply Forall_impl; [exact Hr|]. intros p. simpl. by rewrite fmap_length.
    - intros l x y Hx Hy. apply (Hd (g l)); rewrite rename_axes; apply elem_of_list_fmap; by eexists (l, _).
  Qed.
End Main.

(** Every library with einsum can execute the path found. *)
Definition path_fits (K : semiring) (ord : gset N -> list N) (use_blas : bool) (opt : optimize_arg) (mem : memory_arg) (s : str) (shapes : list (list nat)) : Prop :=
  forall (B : backend K) info, backend_ok B -> b_has_einsum B = true -> contract_path ord use_blas opt mem s shapes = Ok info -> info_fits B info.
Section Fits.
  Context {K : semiring}.
  Variable ord : gset N -> list N.
  Hypothesis ord_ok : forall s, ord s ≡ₚ elements s.
  Variables (e : eqn) (s : str) (ops : list (tensor K)).
  Hypothesis Hne : e_in e <> [].
  Hypothesis Hpl : plain_eqn e.
  Hypothesis Hs : filter (.≠ c_space) s = render e.
  Hypothesis Hwf : well_formed e (shape <$> ops).
  Variables (use_blas : bool) (opt : optimize_arg) (mem : memory_arg).
  Hypothesis Hgood : good (zip (in_labels e (shape <$> ops)) ops).
  Hypothesis Hmem : mem_valid mem.
  Hypothesis Hstrat : strategy_ok opt (length ops).

  (** At most 52 labels in all. *)
  Lemma path_fits_few : length (remove_dups (labels_of (zip (in_labels e (shape <$> ops)) ops))) <= 52 -> path_fits K ord use_blas opt mem s (shape <$> ops).
  Proof.
    intros Hsz B info HB He Hinfo. destruct (contract_path_ok ord ord_ok B HB e s ops Hne Hpl Hs Hwf use_blas opt mem Hgood Hmem Hstrat) as (info' & Hinfo' & _ & _ & _ & _ & Hfit & _).
    assert (info' = info) as -> by congruence. by apply Hfit.
  Qed.
  (** At most 52 labels in each step. *)
  Lemma path_fits_steps : let named t : gset N := list_to_set (name (fresh e (shape <$> ops)) <$> t) in
    (forall info, contract_path ord use_blas opt mem s (shape <$> ops) = Ok info ->
      Forall (fun st => size (union_all st.1) <= 52) (replay (named (out_labels e (shape <$> ops))) (pi_path info) (named <$> in_labels e (shape <$> ops)))) ->
    path_fits K ord use_blas opt mem s (shape <$> ops).
  Proof.
    intros named H52 B info HB He Hinfo. specialize (H52 info Hinfo).
    destruct (contract_path_ok ord ord_ok B HB e s ops Hne Hpl Hs Hwf use_blas opt mem Hgood Hmem Hstrat) as (info' & Hinfo' & _ & Hnum & _).
    assert (info' = info) as -> by congruence. apply in_scale in Hnum.
    assert (Hlen : length (pi_contractions info) = length (pi_scale_list info)).
    { clear -Hinfo. unfold contract_path in Hinfo. apply bind_Ok_inv in Hinfo as ([inp out] & _ & Hinfo). unfold contract_path_parsed in Hinfo.
      repeat (apply bind_Ok_inv in Hinfo as (? & _ & Hinfo)). injection Hinfo as <-. simpl. by rewrite !fmap_length. }
    assert (Hsc : Forall (fun x => x <= 52) (pi_scale_list info)).
    { rewrite Hnum, Forall_fmap. rewrite <-list_fmap_compose. exact H52. }
    clear -Hlen Hsc He. unfold info_fits. revert Hlen Hsc. generalize (pi_contractions info) (pi_scale_list info).
    intros cs. induction cs as [|c cs IH]; intros [|x xs] Hlen Hsc; [constructor|done|done|]. simpl in Hlen.
    apply Forall_cons in Hsc as [Hx Hsc]. constructor; [split; [by left|by right]|]. apply IH; [lia|done].
  Qed.
  (** The value, for every such path. *)
  Lemma contract_path_fits (B : backend K) : backend_ok B -> b_has_einsum B = true -> path_fits K ord use_blas opt mem s (shape <$> ops) ->
    exists T, contract ord B use_blas opt mem s ops = Ok T /\ T ≡ₜ einsum (zip (in_labels e (shape <$> ops)) ops) (out_labels e (shape <$> ops)).
  Proof.
    intros HB He Hf. destruct (contract_path_ok ord ord_ok B HB e s ops Hne Hpl Hs Hwf use_blas opt mem Hgood Hmem Hstrat) as (info & Hinfo & _).
    apply (contract_fits ord ord_ok B HB e s ops Hne Hpl Hs Hwf use_blas opt mem info); try done. by apply Hf.
  Qed.
End Fits.
