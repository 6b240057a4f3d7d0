(** C43: optimize=False hands the equation to the library. *)
From Verif Require Import Prelude Einsum EinsumFacts EinsumOps Parser Helpers Contract Spec PathSpec StringFacts SymbolFacts StepFacts ContractFacts PathFacts ParserFacts ParseSpec ParseProof ParseSound TopFacts ContractMain RenameFacts RefBackend Api ApiSpec InterleavedFacts.

Lemma letters_valid e : (forall c, c ∈ named_of e -> c ∈ letters) -> has_valid_einsum_chars_only (render e) = true.
Proof.
  intros H. unfold has_valid_einsum_chars_only. apply forallb_forall. intros c Hc%elem_of_list_In.
  assert (Hl : forall c, c ∈ letters -> is_valid_einsum_char c = true).
  { assert (Hf : Forall (fun c => is_valid_einsum_char c = true) letters) by (apply (bool_decide_unpack _); by vm_compute). by rewrite Forall_forall in Hf. }
  assert (Ht : forall t, (forall c, c ∈ t_named t -> c ∈ named_of e) -> c ∈ render_term t -> is_valid_einsum_char c = true).
  { intros t Ht [Hr|[_ ->]]%elem_render_term; [by apply Hl, H, Ht|by vm_compute]. }
  unfold render in Hc. unfold named_of in Ht. apply elem_of_app in Hc as [Hc|Hc].
  - apply elem_of_join in Hc as [Hc|(t & Htt & Hc)]; [apply elem_of_list_singleton in Hc as ->; by vm_compute|].
    apply elem_of_list_fmap in Htt as (t' & -> & Htt). apply (Ht t'); [|done]. intros x Hx. apply elem_of_app. left. apply elem_of_list_bind. eauto.
  - destruct (e_out e) as [o|]; [|by apply elem_of_nil in Hc]. apply elem_of_app in Hc as [Hc|Hc].
    + unfold s_arrow in Hc. apply elem_of_cons in Hc as [->|Hc]; [by vm_compute|]. apply elem_of_list_singleton in Hc as ->. by vm_compute.
    + apply (Ht o); [|done]. intros x Hx. apply elem_of_app. by right.
Qed.
Lemma get_shape_ok x sh : rectangular x sh -> Forall (fun d => 1 <= d) sh -> get_shape x = Ok sh.
Proof.
  assert (Hl : forall sh x, rectangular x sh -> Forall (fun d => 1 <= d) sh -> shape_loop x = Ok sh).
  { clear. induction sh as [|d sh IH]; intros x Hx Hd; inversion Hx as [|l sh' Hf]; subst; [done|]. inversion Hd as [|? ? H1 H2]; subst.
    destruct l as [|y l]; [simpl in H1; lia|]. inversion Hf; subst. simpl. by rewrite (IH y). }
  intros Hx Hd. pose proof (Hl _ _ Hx Hd) as Hs. by inversion Hx; subst.
Qed.

Section NoOpt.
  Context {K : semiring}.
  Notation tens := (tensor K).
  Variable ord : gset N -> list N.
  Variable B : backend K.
  Hypothesis B_ok : backend_ok B.
  Hypothesis B_doc : documented_einsum B.
  Hypothesis B_has : b_has_einsum B = true.
  Variables (e : eqn) (ops : list tens).
  Hypothesis Hne : e_in e <> [].
  Hypothesis Hpl : plain_eqn e.
  Hypothesis Hwf : well_formed e (shape <$> ops).
  Let tops := zip (in_labels e (shape <$> ops)) ops.
  Hypothesis Hgood : good tops.

  Lemma plain_valid c : plain c -> is_valid_einsum_char c = true -> c ∈ letters.
  Proof.
    intros (H1 & H2 & H3 & H4 & _) Hin. unfold is_valid_einsum_char in Hin. apply orb_true_iff in Hin as [Hin|Hin].
    - by apply inb_true in Hin.
    - apply inb_true in Hin. exfalso. unfold c_comma, c_dash, c_gt, c_dot in *. simpl in Hin. set_solver.
  Qed.
  Lemma named_plain' c : c ∈ named_of e -> plain c.
  Proof.
    destruct Hpl as [Hi Ho]. unfold named_of. rewrite elem_of_app. intros [Hc|Hc].
    - apply elem_of_list_bind in Hc as (t & Hc & Ht). rewrite Forall_forall in Hi. specialize (Hi t Ht). rewrite Forall_forall in Hi. auto.
    - destruct (e_out e); [|by apply elem_of_nil in Hc]. rewrite Forall_forall in Ho. auto.
  Qed.
  Lemma elem_join (c : N) (sep : str) (l : list str) t : t ∈ l -> c ∈ t -> c ∈ join sep l.
  Proof.
    intros Ht Hc. induction l as [|x l IH]; [by apply elem_of_nil in Ht|]. apply elem_of_cons in Ht as [->|Ht].
    - destruct l; [done|]. simpl. apply elem_of_app. by left.
    - destruct l as [|y l]; [by apply elem_of_nil in Ht|]. change (c ∈ x ++ sep ++ join sep (y :: l)). rewrite !elem_of_app. right. right. auto.
  Qed.
  Lemma named_in_render c : c ∈ named_of e -> c ∈ render e.
  Proof.
    assert (Hr : forall t, c ∈ t_named t -> c ∈ render_term t) by (intros t Ht; apply elem_render_term; by left).
    unfold named_of, render. rewrite !elem_of_app. intros [Hc|Hc].
    - left. apply elem_of_list_bind in Hc as (t & Hc & Ht). eapply elem_join; [by apply elem_of_list_fmap_1|auto].
    - right. destruct (e_out e); [|by apply elem_of_nil in Hc]. apply elem_of_app. right. auto.
  Qed.

  Lemma no_opt_valid : has_valid_einsum_chars_only (render e) = true ->
    exists T, run_einsum B (render e) ops = Ok T /\ T ≡ₜ einsum tops (out_labels e (shape <$> ops)).
  Proof.
    intros Hv. unfold run_einsum. rewrite Hv. apply B_doc; try done.
    - apply Forall_forall. intros c Hc. apply plain_valid; [by apply named_plain'|]. unfold has_valid_einsum_chars_only in Hv.
      rewrite forallb_forall in Hv. apply Hv, elem_of_list_In. by apply named_in_render.
    - by apply render_no_space.
  Qed.

  Let ts : list str := t_pre <$> e_in e.
  Let out : str := match e_out e with Some o => t_pre o | None => sortN (filter (fun c => count c (e_in e ≫= t_named) = 1) (e_in e ≫= t_named)) end.
  Lemma plain_render t : t_post t = None -> render_term t = t_pre t.
  Proof. intros H. unfold render_term. by rewrite H, app_nil_r. Qed.
  Lemma plain_labels t : t_post t = None -> t_named t = t_pre t.
  Proof. intros H. unfold t_named. by rewrite H, app_nil_r. Qed.
  Lemma plain_expand m t : t_post t = None -> expand m t = Named <$> t_pre t.
  Proof. intros H. unfold expand. by rewrite H, app_nil_r. Qed.
  Hypothesis Hell : no_ellipsis e.
  Lemma ts_render : render_term <$> e_in e = ts.
  Proof. apply list_fmap_ext'. intros t Ht. apply plain_render. destruct Hell as [H _]. rewrite Forall_forall in H. auto. Qed.
  Lemma ts_named : e_in e ≫= t_named = ts ≫= id.
  Proof.
    unfold ts. destruct Hell as [H _]. clear -H. induction H as [|t l Ht _ IH]; [done|]. rewrite fmap_cons, !bind_cons. f_equal; [by rewrite plain_labels|apply IH].
  Qed.
  Lemma in_labels_plain shapes : length (e_in e) = length shapes -> in_labels e shapes = fmap (M:=list) Named <$> ts.
  Proof.
    unfold in_labels, ts. destruct Hell as [H _]. clear -H. revert shapes. induction H as [|t l Ht _ IH]; intros [|sh shapes] Hlen; try done.
    rewrite !fmap_cons. cbn [zip_with]. f_equal; [by apply plain_expand|]. apply IH. simpl in Hlen. lia.
  Qed.
  Lemma longest_plain shapes : longest e shapes = 0.
  Proof.
    unfold longest. destruct Hell as [H _]. clear -H. revert shapes. induction H as [|t l Ht _ IH]; intros [|sh shapes]; try done.
    cbn [zip_with]. unfold ell_count at 1. rewrite Ht. simpl. apply IH.
  Qed.
  Lemma out_labels_plain shapes : out_labels e shapes = Named <$> out.
  Proof.
    unfold out_labels, out. destruct Hell as [_ H]. destruct (e_out e) as [o|]; [by apply plain_expand|]. by rewrite longest_plain.
  Qed.
  Lemma filter_join_comma (l : list str) : Forall (Forall plain) l -> filter (.≠ c_comma) (join s_comma l) = l ≫= id.
  Proof.
    induction 1 as [|x l Hx Hl IH]; [done|].
    assert (Hfx : filter (.≠ c_comma) x = x) by (apply filter_id; eapply Forall_impl; [exact Hx|]; by intros c (? & _)).
    destruct l as [|y l]; [change (filter (.≠ c_comma) x = x ++ []); by rewrite Hfx, app_nil_r|].
    change (join s_comma (x :: y :: l)) with (x ++ s_comma ++ join s_comma (y :: l)). rewrite !filter_app, Hfx, bind_cons. unfold id at 1. f_equal. simpl filter at 1. exact IH.
  Qed.
  Lemma ts_plain : Forall (Forall plain) ts.
  Proof.
    unfold ts. destruct Hpl as [Hi _], Hell as [H _]. apply Forall_fmap, Forall_forall. intros t Ht. simpl. rewrite Forall_forall in Hi, H. specialize (Hi t Ht). by rewrite plain_labels in Hi by auto.
  Qed.
  Lemma no_opt_invalid : has_valid_einsum_chars_only (render e) = false -> length (remove_dups (labels_of tops)) <= 52 ->
    exists T, run_einsum B (render e) ops = Ok T /\ T ≡ₜ einsum tops (out_labels e (shape <$> ops)).
  Proof.
    intros Hv Hsz.
    assert (Hlen : length (e_in e) = length ops) by (rewrite (wf_count _ _ Hwf); by rewrite fmap_length).
    assert (Hzip : tops = rename_op Named <$> zip ts ops).
    { unfold tops. rewrite in_labels_plain by (by rewrite fmap_length). apply zip_rename_gen. }
    assert (Hr : run_einsum B (render e) ops = run_einsum B (equation ts out) ops).
    { unfold run_einsum. unfold render in Hv |- *. rewrite ts_render in *. unfold out in *. destruct Hell as [_ Ho]. destruct (e_out e) as [o|].
      - rewrite plain_render in * by done. done.
      - rewrite app_nil_r in *. assert (Hd : sub_in s_arrow (join s_comma ts) = false).
        { unfold sub_in, count_sub, s_arrow. rewrite split_none; [done|]. apply plain_join_dash. apply ts_plain. }
        assert (Hd2 : forall x, sub_in s_arrow (equation ts x) = true) by (intros x; apply sub_in_arrow_app, plain_join_dash, ts_plain).
        rewrite Hv, Hd, Hd2, find_output_str_spec, filter_join_comma, ts_named by apply ts_plain.
        assert (Hv2 : forall x, has_valid_einsum_chars_only (equation ts x) = false).
        { intros x. unfold has_valid_einsum_chars_only, equation in *. by rewrite forallb_app, Hv. }
        by rewrite Hv2. }
    assert (Hinj : forall a b, Named a = Named b -> a = b) by (by intros a b [=]).
    assert (Hgood' : good (zip ts ops)).
    { rewrite Hzip in Hgood. destruct Hgood as [H1 H2 H3 H4]. rewrite Hzip in *. split.
      - unfold ranked in *. rewrite Forall_fmap in H1. eapply Forall_impl; [exact H1|]. intros p. simpl. by rewrite fmap_length.
      - intros l d d' Ha Hb. apply (H2 (Named l)); rewrite rename_axes; apply elem_of_list_fmap; by eexists (l, _).
      - intros p i j c d d' Hp Hi Hj. apply (H3 (rename_op Named p) i j (Named c)); [by apply elem_of_list_fmap_1| |]; simpl; by rewrite list_lookup_fmap, ?Hi, ?Hj.
      - intros l Ha Hb. apply (H4 (Named l)); rewrite rename_axes; apply elem_of_list_fmap; by eexists (l, _). }
    assert (Hnd : NoDup out).
    { pose proof (wf_nodup _ _ Hwf) as H. rewrite out_labels_plain in H. by apply NoDup_fmap_1 in H. }
    destruct (run_einsum_ok B B_ok ts out ops) as (T & HT & Heq); try (by apply Hgood'); try done.
    - unfold ts. by intros ?%fmap_nil_inv.
    - unfold ts. by rewrite fmap_length.
    - apply ts_plain.
    - intros c Hc. destruct (wf_known _ _ Hwf (Named c)) as (t & Ht & Hct); [rewrite out_labels_plain; by apply elem_of_list_fmap_1|].
      rewrite in_labels_plain in Ht by (by rewrite fmap_length). apply elem_of_list_fmap in Ht as (t' & -> & Ht'). apply elem_of_list_fmap in Hct as (c' & [= <-] & Hc').
      apply elem_labels_zip; [unfold ts; by rewrite fmap_length|eauto].
    - etrans; [|exact Hsz]. rewrite Hzip, labels_rename. generalize (labels_of (zip ts ops)). intros l.
      assert (size (list_to_set l : gset N) = length (elements (list_to_set l : gset N))) as -> by done.
      rewrite <-(fmap_length Named). apply submseteq_length, NoDup_submseteq.
      + apply NoDup_fmap_2; [intros ? ?; apply Hinj|apply NoDup_elements].
      + intros x (c & -> & Hc)%elem_of_list_fmap. apply elem_of_remove_dups, elem_of_list_fmap_1. apply elem_of_elements, elem_of_list_to_set in Hc. done.
    - exists T. split; [by rewrite Hr|]. rewrite Heq, Hzip, out_labels_plain. symmetry. apply einsum_rename; [intros a b _ _; apply Hinj|done].
  Qed.
End NoOpt.

(** A library meeting both contracts: it parses with the verified parser and computes the definition. *)
Definition doc_backend (K : semiring) : backend K :=
  Backend true
    (fun s ops => '(i, o) ← parse_einsum_input s (shape <$> ops); Ok (einsum (zip (split s_comma i) ops) o))
    (fun x y a b => Ok (tensordot x y a b))
    (fun x axes => Ok (transpose x axes)).
Lemma doc_backend_val (K : semiring) (e : eqn) (s : str) (ops : list (tensor K)) :
  e_in e <> [] -> Forall (fun c => c ∈ letters) (named_of e) -> filter (.≠ c_space) s = render e -> well_formed e (shape <$> ops) ->
  exists T, b_einsum (doc_backend K) s ops = Ok T /\ T ≡ₜ einsum (zip (in_labels e (shape <$> ops)) ops) (out_labels e (shape <$> ops)).
Proof.
  intros Hne Hlet Hs Hwf. simpl.
  assert (Hpl : plain_eqn e).
  { pose proof letters_plain as Hl. rewrite Forall_forall in Hl, Hlet. unfold named_of in Hlet. split.
    - apply Forall_forall. intros t Ht. apply Forall_forall. intros c Hc. apply Hl, Hlet, elem_of_app. left. apply elem_of_list_bind. eauto.
    - destruct (e_out e) as [o|]; [|done]. apply Forall_forall. intros c Hc. apply Hl, Hlet, elem_of_app. by right. }
  rewrite (parsed e s ops Hne Hpl Hs Hwf). cbn [mbind res_bind]. eexists. split; [done|].
  rewrite (ts_split e ops Hne Hpl Hwf), (zip_ts e ops).
  apply einsum_rename; [by apply (g_inj e ops)|by destruct Hwf].
Qed.
Lemma doc_backend_doc K : documented_einsum (doc_backend K).
Proof. intros e s ops Hne Hlet Hs Hwf _. by apply doc_backend_val. Qed.
Lemma doc_backend_ok K : backend_ok (doc_backend K).
Proof.
  split.
  - intros _ ts out ops Hne Hlen Hlet Hnd Hout Hr Hc Hd.
    set (e := Eqn ((fun t => ETerm t None) <$> ts) (Some (ETerm out None))).
    assert (Hts : t_pre <$> e_in e = ts) by (unfold e; simpl; rewrite <-list_fmap_compose; by apply list_fmap_id).
    assert (Hell : no_ellipsis e) by (split; [unfold e; simpl; by apply Forall_fmap, Forall_true|done]).
    assert (Hrend : render e = equation ts out).
    { unfold render. rewrite (ts_render e Hell), Hts. unfold e. simpl. unfold render_term. simpl. by rewrite app_nil_r. }
    assert (Hil : in_labels e (shape <$> ops) = fmap (M:=list) Named <$> ts).
    { rewrite (in_labels_plain e Hell), Hts; [done|]. unfold e. simpl. by rewrite !fmap_length. }
    assert (Hol : out_labels e (shape <$> ops) = Named <$> out) by (rewrite (out_labels_plain e Hell); done).
    assert (Hlet' : Forall (fun c => c ∈ letters) (named_of e)).
    { apply Forall_forall. intros c. unfold named_of. rewrite elem_of_app. intros [Hc'|Hc'].
      - rewrite (ts_named e Hell), Hts in Hc'. apply elem_of_list_bind in Hc' as (t & Hct & Ht). rewrite Forall_forall in Hlet. specialize (Hlet t Ht). rewrite Forall_forall in Hlet. auto.
      - simpl in Hc'. unfold t_named in Hc'. simpl in Hc'. rewrite app_nil_r in Hc'. apply Hout, elem_labels_zip in Hc' as (t & Ht & Hct); [|done].
        rewrite Forall_forall in Hlet. specialize (Hlet t Ht). rewrite Forall_forall in Hlet. auto. }
    assert (Hpl : plain_eqn e).
    { pose proof letters_plain as Hl. rewrite Forall_forall in Hl, Hlet'. unfold named_of in Hlet'. split.
      - apply Forall_forall. intros t Ht. apply Forall_forall. intros c Hct. apply Hl, Hlet', elem_of_app. left. apply elem_of_list_bind. eauto.
      - simpl. apply Forall_forall. intros c Hct. apply Hl, Hlet', elem_of_app. by right. }
    destruct (doc_backend_val K e (equation ts out) ops) as (T & HT & Heq).
    + unfold e. simpl. by intros ?%fmap_nil_inv.
    + done.
    + rewrite <-Hrend. by apply render_no_space.
    + split.
      * unfold e. simpl. by rewrite !fmap_length.
      * unfold e. simpl. apply Forall2_fmap. apply Forall2_same_length_lookup_2; [by rewrite Hlen|]. done.
      * rewrite Hol. apply NoDup_fmap_2; [by intros ? ? [=]|done].
      * rewrite Hol, Hil. intros l (c & -> & Hc')%elem_of_list_fmap. apply Hout, elem_labels_zip in Hc' as (t & Ht & Hct); [|done].
        exists (Named <$> t). split; by apply elem_of_list_fmap_1.
    + exists T. split; [done|]. rewrite Heq, Hil, Hol, (zip_rename_gen Named ts ops). apply einsum_rename; [by intros a b _ _ [=]|done].
  - intros. by eexists.
  - intros. by eexists.
Qed.
