(** What acceptance by the parser guarantees. *)
From Verif Require Import Prelude Parser Spec ParseSpec StringFacts SymbolFacts StepFacts ParserFacts ParseProof.

Lemma check_output_spec inp out : check_output inp out = true <-> NoDup out /\ forall c, c ∈ out -> c ∈ inp.
Proof.
  unfold check_output. rewrite forallb_forall. setoid_rewrite andb_true_iff. setoid_rewrite inb_true. setoid_rewrite Nat.eqb_eq.
  split.
  - intros H. split.
    + apply count_NoDup. intros c. destruct (decide (c ∈ out)) as [Hc|Hc].
      * apply elem_of_list_In, H in Hc. lia.
      * apply count_zero in Hc. lia.
    + intros c Hc%elem_of_list_In. by apply H.
  - intros [H1 H2] c Hc%elem_of_list_In. split; [|auto]. rewrite count_NoDup in H1. specialize (H1 c). apply count_pos in Hc. lia.
Qed.

Lemma ellipsis_term_plain E shapes n t lg r : Forall plain (t_named t) -> Forall plain E ->
  ellipsis_term E shapes n (render_term t) lg = Ok r -> Forall plain r.1.
Proof.
  intros Ht HE. unfold ellipsis_term. rewrite dots_in by done.
  apply plain_named in Ht as Ht'. destruct Ht' as [H1 H2].
  destruct (t_post t) as [q|] eqn:Eq.
  - rewrite bool_decide_true by done. destruct (negb _ || negb _); [done|]. destruct (shapes !! n) as [sh|]; [|done]. cbn [of_opt mbind res_bind].
    rewrite !render_replace by done. rewrite Eq. simpl in H2.
    repeat case_match; intros; simplify_eq/=; rewrite ?Forall_app; repeat split; try done; by apply Forall_drop.
  - rewrite bool_decide_false by (intros [? ?]; done). intros [= <-]. unfold render_term. rewrite Eq, app_nil_r. done.
Qed.
Lemma ellipsis_terms_plain E shapes ts : forall n lg r, Forall (fun t => Forall plain (t_named t)) ts -> Forall plain E ->
  ellipsis_terms E shapes n (render_term <$> ts) lg = Ok r -> Forall (Forall plain) r.1.
Proof.
  induction ts as [|t ts IH]; intros n lg r Hts HE.
  - simpl. intros [= <-]. constructor.
  - inversion_clear Hts. rewrite fmap_cons. cbn [ellipsis_terms].
    destruct (ellipsis_term _ _ _ _ _) as [[s lg']|] eqn:E1; [|done]. cbn [mbind res_bind].
    destruct (ellipsis_terms _ _ _ _ _) as [[ss lg'']|] eqn:E2; [|done]. cbn [mbind res_bind]. intros [= <-]. simpl.
    constructor; [|by apply IH in E2]. by apply ellipsis_term_plain in E1.
Qed.
Lemma fresh_plain e shapes : Forall plain (fresh e shapes).
Proof. apply Forall_forall. intros c Hc. by apply gen_unused_ok in Hc as [_ ?]. Qed.

Section Inv.
  Variables (e : eqn) (shapes : list (list nat)).
  Hypothesis Hne : e_in e <> [].
  Hypothesis Hpl : plain_eqn e.

  Lemma parse_render_inv s r : filter (.≠ c_space) s = render e -> parse_einsum_input s shapes = Ok r ->
    length (e_in e) = length shapes /\ Forall2 fits (e_in e) shapes.
  Proof.
    intros Hs. unfold parse_einsum_input. rewrite replace1, Hs. unfold parse_subscripts. rewrite (render_bad_arrow e Hpl).
    assert (Hrn : forall c, ~ plain c -> c <> c_dot -> Forall (fun t => c ∉ t) (render_term <$> e_in e)).
    { intros c Hc Hcd. apply Forall_fmap, Forall_forall. intros t Ht. simpl. intros [Hj|[_ Hj]]%elem_render_term; [|done].
      destruct Hpl as [Hin _]. rewrite Forall_forall in Hin. by apply (plain_no _ _ (Hin t Ht)) in Hj. }
    destruct (inb c_dot (render e)) eqn:Edot.
    - unfold parse_ellipsis. fold (used_str e). unfold max_rank.
      destruct shapes as [|sh0 shs0] eqn:Esh; [done|]. rewrite <-Esh in *. clear sh0 shs0 Esh.
      cbn [mbind res_bind]. fold (fresh e shapes).
      assert (Hsplit : (if sub_in s_arrow (render e)
                        then '(input_tmp, output_sub) ← split_arrow (render e); Ok (split s_comma input_tmp, Some output_sub)
                        else Ok (split s_comma (render e), None)) = Ok (render_term <$> e_in e, render_term <$> e_out e)).
      { unfold render. destruct (e_out e) as [o|] eqn:Eo.
        - rewrite sub_in_arrow_app by (apply render_in_no; try done; unplain). unfold split_arrow.
          rewrite split_arrow_two; [|apply render_in_no; try done; unplain|eapply render_out_no; try done; unplain].
          cbn [mbind res_bind]. unfold s_comma. rewrite split1_join; [done|by destruct (e_in e)|apply Hrn; [unplain|done]].
        - rewrite app_nil_r. unfold sub_in, count_sub, s_arrow. rewrite split_none by (apply render_in_no; try done; unplain).
          simpl. unfold s_comma. rewrite split1_join; [done|by destruct (e_in e)|apply Hrn; [unplain|done]]. }
      rewrite Hsplit. cbn [mbind res_bind]. clear Hsplit.
      assert (HE : Forall (fun sh => length sh <= length (fresh e shapes)) shapes).
      { apply Forall_forall. intros sh Hsh. rewrite fresh_length. apply (max_list'_le (length <$> shapes) _); [done|].
        by apply elem_of_list_fmap_1. }
      destruct (ellipsis_terms (fresh e shapes) shapes 0 (render_term <$> e_in e) 0) as [[terms lg]|] eqn:Et; [|done].
      cbn [mbind res_bind].
      destruct (ellipsis_terms_inv (fresh e shapes) (e_in e) [] shapes 0 (terms, lg) (proj1 Hpl) HE ltac:(lia) Et) as [Hl Hf]. simpl in Hl.
      pose proof (ellipsis_terms_plain _ _ _ _ _ _ (proj1 Hpl) (fresh_plain e shapes) Et) as Htp. simpl in Htp.
      set (oe := if (lg =? 0)%Z then _ else _).
      assert (Hdash : c_dash ∉ join s_comma terms) by by apply plain_join_dash.
      assert (Hsp : split s_comma (join s_comma terms) = terms).
      { apply split1_join; [intros ->; simpl in Hl; by destruct (e_in e)|]. eapply Forall_impl; [exact Htp|]. simpl. intros t Ht. eapply plain_not; [done|unplain]. }
      assert (Hgo : forall X, ('(inp, out) ← (if sub_in s_arrow (join s_comma terms ++ s_arrow ++ X) then split_arrow (join s_comma terms ++ s_arrow ++ X)
                                     else Ok (join s_comma terms ++ s_arrow ++ X, find_output_str (join s_comma terms ++ s_arrow ++ X)));
          if negb (check_output inp out) then Err ValueError
          else if negb (length (split s_comma inp) =? length shapes) then Err ValueError
          else Ok (inp, out)) = Ok r -> length terms = length shapes).
      { intros X. rewrite sub_in_arrow_app by done. unfold split_arrow. unfold s_arrow at 1. rewrite split_app by done.
        destruct (split [c_dash; c_gt] X) as [|b [|]]; try discriminate.
        cbn [mbind res_bind]. rewrite Hsp. destruct (check_output _ _); [|discriminate]. simpl.
        destruct (Nat.eqb_spec (length terms) (length shapes)); [done|discriminate]. }
      intros Hr. assert (length terms = length shapes); [|split; [lia|apply Hf; lia]].
      destruct (render_term <$> e_out e); cbn [mbind res_bind] in Hr; exact (Hgo _ Hr).
    - destruct (no_dots e Edot) as [Hnd Hndo]. cbn [mbind res_bind]. intros Hr.
      assert (Hsp : split s_comma (join s_comma (render_term <$> e_in e)) = render_term <$> e_in e).
      { unfold s_comma. apply split1_join; [by destruct (e_in e)|apply Hrn; [unplain|done]]. }
      assert (length (e_in e) = length shapes).
      { unfold render in Hr. destruct (e_out e) as [o|] eqn:Eo.
        - rewrite sub_in_arrow_app in Hr by (apply render_in_no; try done; unplain). unfold split_arrow in Hr.
          rewrite split_arrow_two in Hr; [|apply render_in_no; try done; unplain|eapply render_out_no; try done; unplain].
          cbn [mbind res_bind] in Hr. rewrite Hsp in Hr. destruct (check_output _ _); [|discriminate]. simpl in Hr.
          rewrite fmap_length in Hr. destruct (Nat.eqb_spec (length (e_in e)) (length shapes)); [done|discriminate].
        - rewrite app_nil_r in Hr. unfold sub_in, count_sub, s_arrow in Hr. rewrite split_none in Hr by (apply render_in_no; try done; unplain).
          simpl in Hr. rewrite Hsp in Hr. destruct (check_output _ _); [|discriminate]. simpl in Hr.
          rewrite fmap_length in Hr. destruct (Nat.eqb_spec (length (e_in e)) (length shapes)); [done|discriminate]. }
      split; [done|]. apply Forall2_same_length_lookup_2; [done|]. intros i t sh Ht _. apply elem_of_list_lookup_2 in Ht.
      rewrite Forall_forall in Hnd. apply Hnd in Ht. unfold fits. by rewrite Ht.
  Qed.

  (** Acceptance, characterised. *)
  Lemma parse_ok_iff s r : filter (.≠ c_space) s = render e ->
    parse_einsum_input s shapes = Ok r <->
    well_formed e shapes /\ r = (join s_comma (fmap (M:=list) (name (fresh e shapes)) <$> in_labels e shapes), name (fresh e shapes) <$> out_labels e shapes).
  Proof.
    intros Hs.
    assert (Hknown : (forall c, c ∈ name (fresh e shapes) <$> out_labels e shapes -> c ∈ join s_comma (fmap (M:=list) (name (fresh e shapes)) <$> in_labels e shapes))
       <-> forall l, l ∈ out_labels e shapes -> exists t, t ∈ in_labels e shapes /\ l ∈ t).
    { split.
      - intros H l Hl. destruct (elem_of_join (name (fresh e shapes) l) s_comma (fmap (M:=list) (name (fresh e shapes)) <$> in_labels e shapes)) as [Hc|(t & Ht & Hc)].
        + apply H. by apply elem_of_list_fmap_1.
        + apply elem_of_list_singleton in Hc. assert (Hp : plain (name (fresh e shapes) l)) by by apply name_plain, out_known.
          rewrite Hc in Hp. by destruct Hp.
        + apply elem_of_list_fmap in Ht as (t' & -> & Ht). apply elem_of_list_fmap in Hc as (l' & Heq & Hl').
          apply (name_inj e shapes) in Heq; [|done|by apply out_known|by eapply in_known]. subst. eauto.
      - intros H c Hc. apply elem_of_list_fmap in Hc as (l & -> & Hl). destruct (H l Hl) as (t & Ht & Hlt).
        eapply elem_of_join_2; [by apply elem_of_list_fmap_1|]. by apply elem_of_list_fmap_1. }
    split.
    - intros Hr. destruct (parse_render_inv s r Hs Hr) as [Hlen Hf].
      rewrite (parse_core e shapes Hne Hpl Hlen s Hs Hf) in Hr. destruct (check_output _ _) eqn:Ec; [|done]. injection Hr as <-.
      split; [|done]. apply check_output_spec in Ec as [H1 H2]. split; [done|done| |by apply Hknown]. by apply NoDup_fmap_1 in H1.
    - intros [[Hlen Hf Hnd Hk] ->]. rewrite (parse_core e shapes Hne Hpl Hlen s Hs Hf).
      rewrite (proj2 (check_output_spec _ _)); [done|]. split; [|by apply Hknown].
      apply NoDup_fmap_2_strong; [|done]. intros a b Ha Hb Heq. apply (name_inj e shapes) in Heq; [done|done|by apply out_known..].
  Qed.
End Inv.

(** Arbitrary strings. *)
Lemma bad_arrow_false s : bad_arrow s = false ->
  (c_dash ∉ s /\ c_gt ∉ s) \/
  exists A B, s = A ++ s_arrow ++ B /\ c_dash ∉ A /\ c_gt ∉ A /\ c_dash ∉ B /\ c_gt ∉ B.
Proof.
  unfold bad_arrow. rewrite andb_false_iff. intros [H|H].
  - left. apply orb_false_iff in H as [H1 H2]. apply inb_false in H1, H2. done.
  - right. rewrite !orb_false_iff in H. destruct H as [[H1 H2] H3]. apply Nat.ltb_ge in H1, H2.
    apply negb_false_iff, Nat.eqb_eq in H3. unfold count_sub in H3.
    destruct (split s_arrow s) as [|A [|B [|]]] eqn:Es; simpl in H3; try lia.
    assert (Hs : s = A ++ s_arrow ++ B) by (rewrite <-(join_split s_arrow s) by done; by rewrite Es).
    exists A, B. split; [done|]. rewrite Hs in H1, H2. rewrite !count_app in H1, H2.
    change (count c_dash s_arrow) with 1 in H1. change (count c_gt s_arrow) with 1 in H2.
    repeat split; apply count_zero; lia.
Qed.

(** A piece without separators is a term when its dots are one ellipsis. *)
Lemma piece_term (sub : str) : c_comma ∉ sub -> c_dash ∉ sub -> c_gt ∉ sub -> c_space ∉ sub ->
  (c_dot ∉ sub \/ (count c_dot sub = 3 /\ count_sub s_dots sub = 1)) ->
  exists t, sub = render_term t /\ Forall plain (t_named t).
Proof.
  intros H1 H2 H3 H4 Hd.
  assert (Hpl : forall p : str, (forall c, c ∈ p -> c ∈ sub) -> c_dot ∉ p -> Forall plain p).
  { intros p Hp Hn. apply Forall_forall. intros c Hc. apply Hp in Hc as Hc'. unfold plain. repeat split; intros ->; done. }
  destruct Hd as [Hd|[Hc Hs]].
  - exists (ETerm sub None). split; [unfold render_term; simpl; by rewrite app_nil_r|]. apply Hpl; unfold t_named; simpl; rewrite ?app_nil_r; done.
  - unfold count_sub in Hs. destruct (split s_dots sub) as [|a [|b [|]]] eqn:Es; simpl in Hs; try lia.
    assert (Hsub : sub = a ++ s_dots ++ b) by (rewrite <-(join_split s_dots sub) by done; by rewrite Es).
    exists (ETerm a (Some b)). split; [done|]. rewrite Hsub in Hc. rewrite !count_app in Hc. change (count c_dot s_dots) with 3 in Hc.
    unfold t_named. simpl. apply Hpl.
    + intros c Hc'. rewrite Hsub. set_solver.
    + apply count_zero. rewrite count_app. lia.
Qed.
Lemma pieces_terms E shapes (subs : list str) : forall n lg r,
  Forall (fun sub => c_comma ∉ sub /\ c_dash ∉ sub /\ c_gt ∉ sub /\ c_space ∉ sub) subs ->
  ellipsis_terms E shapes n subs lg = Ok r ->
  exists ts, subs = render_term <$> ts /\ Forall (fun t => Forall plain (t_named t)) ts.
Proof.
  induction subs as [|sub subs IH]; intros n lg r Hs.
  - intros _. by exists [].
  - apply Forall_cons in Hs as [(H1 & H2 & H3 & H4) Hs']. cbn [ellipsis_terms].
    destruct (ellipsis_term _ _ _ _ _) as [[s lg']|] eqn:E1; [|discriminate]. cbn [mbind res_bind].
    destruct (ellipsis_terms _ _ _ _ _) as [[ss lg'']|] eqn:E2; [|discriminate]. intros _.
    destruct (IH _ _ _ Hs' E2) as (ts & -> & Hts).
    assert (Hdots : c_dot ∉ sub \/ (count c_dot sub = 3 /\ count_sub s_dots sub = 1)).
    { unfold ellipsis_term in E1. destruct (inb c_dot sub) eqn:Ed; [|left; by apply inb_false]. right.
      destruct (Nat.eqb_spec (count c_dot sub) 3) as [Ea|]; [|discriminate]. destruct (Nat.eqb_spec (count_sub s_dots sub) 1) as [Eb|]; [|discriminate]. done. }
    destruct (piece_term sub H1 H2 H3 H4 Hdots) as (t & -> & Ht).
    exists (t :: ts). split; [done|]. by constructor.
Qed.

Lemma split1_subset c s p x : p ∈ split [c] s -> x ∈ p -> x ∈ s.
Proof. intros Hp Hx. rewrite <-(join_split1 c s). by eapply elem_of_join_2. Qed.

(** An accepted equation is in the grammar, unless its output is (see C06: an output with a comma or two ellipses). *)
Lemma parse_grammar s shapes inp out : parse_einsum_input s shapes = Ok (inp, out) -> c_comma ∉ out ->
  (forall A B, filter (.≠ c_space) s = A ++ s_arrow ++ B -> count_sub s_dots B <= 1) ->
  exists e, e_in e <> [] /\ plain_eqn e /\ filter (.≠ c_space) s = render e.
Proof.
  unfold parse_einsum_input. rewrite replace1. set (s' := filter (.≠ c_space) s).
  assert (Hsp : c_space ∉ s') by (unfold s'; rewrite elem_of_list_filter; naive_solver).
  unfold parse_subscripts. destruct (bad_arrow s') eqn:Eb; [discriminate|]. intros Hr Hcomma Hquirk.
  destruct (bad_arrow_false s' Eb) as [[Hd Hg]|(A & B & Hs & HA1 & HA2 & HB1 & HB2)].
  - assert (Hsub : sub_in s_arrow s' = false) by (unfold sub_in, count_sub, s_arrow; by rewrite split_none).
    assert (Hpieces : Forall (fun sub => c_comma ∉ sub /\ c_dash ∉ sub /\ c_gt ∉ sub /\ c_space ∉ sub) (split s_comma s')).
    { apply Forall_forall. intros p Hp. split.
      - pose proof (split1_pieces c_comma s') as Hp'. rewrite Forall_forall in Hp'. by apply Hp'.
      - repeat split; intros Hc; apply (split1_subset _ _ _ _ Hp) in Hc; done. }
    assert (Hts : exists ts, split s_comma s' = render_term <$> ts /\ Forall (fun t => Forall plain (t_named t)) ts).
    { destruct (inb c_dot s') eqn:Ed.
      - unfold parse_ellipsis in Hr. destruct (max_rank shapes) as [mr|]; [|discriminate]. cbn [mbind res_bind] in Hr.
        rewrite Hsub in Hr. cbn [mbind res_bind] in Hr.
        destruct (ellipsis_terms _ _ _ _ _) as [[terms lg]|] eqn:Et; [|discriminate]. by eapply pieces_terms.
      - apply inb_false in Ed. clear -Hpieces Ed. assert (Hsub : forall p, p ∈ split s_comma s' -> c_dot ∉ p).
        { intros p Hp Hc. apply (split1_subset _ _ _ _ Hp) in Hc. done. }
        revert Hpieces Hsub. generalize (split s_comma s') as l. intros l. induction l as [|p l IH]; intros Hp Hsub; [by exists []|].
        apply Forall_cons in Hp as [(?&?&?&?) ?]. destruct IH as (ts & -> & ?); [done|intros q Hq; exact (Hsub q (elem_of_list_further _ _ _ Hq))|].
        assert (Hpd : c_dot ∉ p) by exact (Hsub p (elem_of_list_here _ _)). destruct (piece_term p) as (t & -> & ?); auto. exists (t :: ts). split; [done|]. by constructor. }
    destruct Hts as (ts & Hts & Hpl). exists (Eqn ts None). split; [|split; [done|]].
    + simpl. intros ->. by apply split_aux_ne in Hts.
    + unfold render. simpl. rewrite app_nil_r, <-Hts. symmetry. apply join_split1.
  - assert (Hsub : sub_in s_arrow s' = true) by (rewrite Hs; by apply sub_in_arrow_app).
    assert (Hsplit : split s_arrow s' = [A; B]) by (rewrite Hs; by apply split_arrow_two).
    assert (Hsa : split_arrow s' = Ok (A, B)) by (unfold split_arrow; by rewrite Hsplit).
    assert (HspA : c_space ∉ A /\ c_space ∉ B) by (rewrite Hs in Hsp; set_solver).
    assert (Hpieces : Forall (fun sub => c_comma ∉ sub /\ c_dash ∉ sub /\ c_gt ∉ sub /\ c_space ∉ sub) (split s_comma A)).
    { apply Forall_forall. intros p Hp. split.
      - pose proof (split1_pieces c_comma A) as Hp'. rewrite Forall_forall in Hp'. by apply Hp'.
      - repeat split; intros Hc; apply (split1_subset _ _ _ _ Hp) in Hc; naive_solver. }
    assert (Hts : (exists ts, split s_comma A = render_term <$> ts /\ Forall (fun t => Forall plain (t_named t)) ts) /\
                  (exists o, B = render_term o /\ Forall plain (t_named o))).
    { destruct (inb c_dot s') eqn:Ed.
      - unfold parse_ellipsis in Hr. destruct (max_rank shapes) as [mr|]; [|discriminate]. cbn [mbind res_bind] in Hr.
        rewrite Hsub, Hsa in Hr. cbn [mbind res_bind] in Hr.
        destruct (ellipsis_terms _ _ _ _ _) as [[terms lg]|] eqn:Et; [|discriminate].
        destruct (pieces_terms _ _ _ _ _ _ Hpieces Et) as (ts & Hts & Hpl).
        split; [eauto|]. cbn [mbind res_bind] in Hr.
        rewrite Hts in Et. apply ellipsis_terms_plain in Et as Htp; [|done|apply Forall_forall; intros c Hc; by apply gen_unused_ok in Hc as [_ ?]].
        simpl in Htp. set (oe := if (lg =? 0)%Z then _ else _) in Hr.
        rewrite sub_in_arrow_app in Hr by by apply plain_join_dash.
        unfold split_arrow, s_arrow in Hr. rewrite split_app in Hr by by apply plain_join_dash.
        destruct (split [c_dash; c_gt] (replace s_dots oe B)) as [|b [|]] eqn:Esb; try discriminate. cbn [mbind res_bind] in Hr.
        assert (Hb : b = replace s_dots oe B).
        { rewrite <-(join_split s_arrow (replace s_dots oe B)) by done. unfold s_arrow. by rewrite Esb. }
        destruct (check_output _ _) eqn:Eco; [|discriminate]. simpl in Hr.
        destruct (length _ =? length shapes); [|discriminate]. simpl in Hr. injection Hr as <- <-.
        apply check_output_spec in Eco as [_ Hin].
        assert (Hbplain : Forall plain b).
        { apply Forall_forall. intros c Hc. apply Hin in Hc as Hc'. apply elem_of_join in Hc' as [Hc'|(t & Ht & Hc')].
          - apply elem_of_list_singleton in Hc' as ->. done.
          - exact (plain_in _ _ _ Htp Ht Hc'). }
        assert (Hpieces2 : forall p x, p ∈ split s_dots B -> x ∈ p -> x ∈ b).
        { intros p x Hp Hx. rewrite Hb. unfold replace. by eapply elem_of_join_2. }
        assert (HB : B = join s_dots (split s_dots B)) by by rewrite join_split.
        specialize (Hquirk A B Hs). unfold count_sub in Hquirk.
        assert (Hpp : forall p, p ∈ split s_dots B -> Forall plain p).
        { intros p Hp. apply Forall_forall. intros x Hx. eapply plain_no; [exact Hbplain|]. by eapply Hpieces2. }
        destruct (split s_dots B) as [|p [|q [|]]] eqn:EB; simpl in Hquirk; [by apply split_aux_ne in EB| | |lia].
        + exists (ETerm p None). unfold render_term, t_named. simpl. rewrite !app_nil_r. split; [done|apply Hpp; by left].
        + exists (ETerm p (Some q)). unfold render_term, t_named. simpl. split; [done|]. apply Forall_app. split; apply Hpp; set_solver.
      - cbn [mbind res_bind] in Hr. rewrite Hsub, Hsa in Hr. cbn [mbind res_bind] in Hr.
        destruct (check_output _ _) eqn:Eco; [|discriminate]. simpl in Hr.
        destruct (length _ =? length shapes); [|discriminate]. simpl in Hr. injection Hr as <- <-.
        apply inb_false in Ed. assert (HdA : c_dot ∉ A /\ c_dot ∉ B) by (rewrite Hs in Ed; set_solver). destruct HdA as [HdA HdB].
        split.
        + clear -Hpieces HdA. assert (Hsub : forall p, p ∈ split s_comma A -> c_dot ∉ p).
          { intros p Hp Hc. apply (split1_subset _ _ _ _ Hp) in Hc. done. }
          revert Hpieces Hsub. generalize (split s_comma A) as l. intros l. induction l as [|p l IH]; intros Hp Hsub; [by exists []|].
          apply Forall_cons in Hp as [(?&?&?&?) ?]. destruct IH as (ts & -> & ?); [done|intros q Hq; exact (Hsub q (elem_of_list_further _ _ _ Hq))|].
          assert (Hpd : c_dot ∉ p) by exact (Hsub p (elem_of_list_here _ _)). destruct (piece_term p) as (t & -> & ?); auto. exists (t :: ts). split; [done|]. by constructor.
        + destruct HspA. apply piece_term; auto. }
    destruct Hts as ((ts & Hts & Hpl) & (o & Ho & Hplo)). exists (Eqn ts (Some o)). split; [|split; [done|]].
    + simpl. intros ->. by apply split_aux_ne in Hts.
    + unfold render. simpl. rewrite <-Hts. unfold s_comma. rewrite join_split1, Hs, Ho. done.
Qed.
