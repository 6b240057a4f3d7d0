(** The parser implements the equation grammar of ParseSpec.v. *)
From Verif Require Import Prelude Parser Spec ParseSpec StringFacts SymbolFacts StepFacts ParserFacts.

Lemma sortN_sorted l : StronglySorted N.le (sortN l).
Proof. apply StronglySorted_merge_sort; apply _. Qed.
Lemma sortN_unique l k : StronglySorted N.le k -> l ≡ₚ k -> sortN l = k.
Proof.
  intros Hs Hp. apply (StronglySorted_unique N.le); [apply sortN_sorted|done|]. by rewrite sortN_perm.
Qed.
Lemma sortN_perm_eq l k : l ≡ₚ k -> sortN l = sortN k.
Proof. intros H. apply sortN_unique; [apply sortN_sorted|]. by rewrite sortN_perm. Qed.
Lemma StronglySorted_filter {A} (R : A -> A -> Prop) (P : A -> Prop) `{forall x, Decision (P x)} l :
  StronglySorted R l -> StronglySorted R (filter P l).
Proof.
  induction 1 as [|x l Hs IH Hall]; [constructor|]. rewrite filter_cons. destruct (decide (P x)); [|done].
  constructor; [done|]. rewrite Forall_forall in *. intros y Hy%elem_of_list_filter. naive_solver.
Qed.
Lemma NoDup_filter_count1 (l k : list N) : NoDup (filter (fun c => count c l = 1) l).
Proof.
  apply count_NoDup. intros c.
  enough (H : forall (P : N -> Prop) {H : forall x, Decision (P x)} k, count c (filter P k) <= (if decide (P c) then count c k else 0)).
  { etrans; [apply H|]. case_decide; lia. }
  clear. intros P H k. induction k as [|x k IH]; [simpl; case_decide; lia|]. rewrite filter_cons.
  destruct (decide (P x)); simpl; destruct (decide (x = c)) as [->|]; try destruct (decide (P c)); try done; lia.
Qed.
Lemma find_output_str_spec s :
  find_output_str s = sortN (filter (fun c => count c (filter (.≠ c_comma) s) = 1) (filter (.≠ c_comma) s)).
Proof.
  unfold find_output_str, s_comma. rewrite replace1. set (t := filter _ s). symmetry. apply sortN_unique.
  - apply StronglySorted_filter, sortN_sorted.
  - apply NoDup_Permutation; [by apply NoDup_filter_count1|apply NoDup_filter; rewrite sortN_perm; apply NoDup_elements|].
    intros c. rewrite !elem_of_list_filter, sortN_perm, elem_of_elements, elem_of_list_to_set. done.
Qed.

Lemma filter_id {A} (P : A -> Prop) `{forall x, Decision (P x)} l : Forall P l -> filter P l = l.
Proof. induction 1; [done|]. rewrite filter_cons_True by done. by f_equal. Qed.
Lemma filter_join c (ts : list str) : Forall (fun t => c ∉ t) ts -> filter (.≠ c) (join [c] ts) = ts ≫= id.
Proof.
  induction 1 as [|t ts Ht Hts IH]; [done|].
  assert (Hf : filter (.≠ c) t = t) by (apply filter_id, Forall_forall; intros x Hx ->; done).
  destruct ts as [|u ts]; [unfold join; simpl; by rewrite app_nil_r|].
  rewrite join_cons by done. rewrite !filter_app, IH, Hf. rewrite filter_cons_False by naive_solver. done.
Qed.

(** How a label is written after parsing. *)
Definition name (E : str) (l : elabel) : N :=
  match l with Named c => c | Bcast k => default 0%N (E !! (length E - 1 - k)) end.

Lemma name_named E (t : list N) : name E <$> (Named <$> t) = t.
Proof. rewrite <-list_fmap_compose. rewrite <-(list_fmap_id t) at 2. by apply list_fmap_ext. Qed.
Lemma name_bcast E m : m <= length E -> name E <$> (Bcast <$> reverse (seq 0 m)) = last_k m E.
Proof.
  intros Hm. unfold last_k. rewrite <-list_fmap_compose. apply list_eq. intros i. rewrite list_lookup_fmap, lookup_drop.
  destruct (decide (i < m)) as [Hi|Hi].
  - rewrite reverse_lookup by (rewrite seq_length; done). rewrite seq_length, lookup_seq_lt by lia. simpl.
    destruct (E !! (length E - m + i)) as [c|] eqn:Ec; [|apply lookup_ge_None in Ec; lia].
    replace (length E - 1 - (m - S i)) with (length E - m + i) by lia. by rewrite Ec.
  - rewrite (lookup_ge_None_2 (reverse _)) by (rewrite reverse_length, seq_length; lia). simpl.
    symmetry. apply lookup_ge_None_2. lia.
Qed.
Lemma name_expand E m t : m <= length E ->
  name E <$> expand m t = t_pre t ++ match t_post t with None => [] | Some q => last_k m E ++ q end.
Proof.
  intros Hm. unfold expand. rewrite fmap_app, name_named. destruct (t_post t); [|done].
  by rewrite fmap_app, name_named, name_bcast.
Qed.

Lemma plain_not (t : list N) c : Forall plain t -> ~ plain c -> c ∉ t.
Proof. intros H Hn Hc. destruct Hn. exact (plain_no t c H Hc). Qed.
Ltac unplain := let H := fresh in intros H; by (destruct H as (?&?&?&?&?)).

Lemma count_none c (t : str) : c ∉ t -> count c t = 0.
Proof. apply count_zero. Qed.
Lemma plain_named t : Forall plain (t_named t) <-> Forall plain (t_pre t) /\ Forall plain (default [] (t_post t)).
Proof. unfold t_named. apply Forall_app. Qed.

Lemma dots_count t : Forall plain (t_named t) ->
  count c_dot (render_term t) = match t_post t with None => 0 | Some _ => 3 end.
Proof.
  rewrite plain_named. intros [H1 H2]. unfold render_term. rewrite count_app.
  rewrite (count_none c_dot (t_pre t)) by (eapply plain_not; [done|unplain]).
  destruct (t_post t) as [q|]; [|done]. simpl in H2. rewrite count_app.
  rewrite (count_none c_dot q) by (eapply plain_not; [done|unplain]). done.
Qed.
Lemma dots_in t : Forall plain (t_named t) -> inb c_dot (render_term t) = bool_decide (is_Some (t_post t)).
Proof.
  intros H. pose proof (dots_count t H) as Hc. destruct (t_post t) as [q|].
  - rewrite bool_decide_true by done. apply inb_true, count_pos. lia.
  - rewrite bool_decide_false by (intros [? ?]; done). apply inb_false, count_zero. done.
Qed.
Lemma render_length t : length (render_term t) = length (t_named t) + match t_post t with None => 0 | Some _ => 3 end.
Proof.
  unfold render_term, t_named. destruct (t_post t); simpl; rewrite !app_length; simpl; lia.
Qed.
Lemma render_replace t new : Forall plain (t_named t) ->
  replace s_dots new (render_term t) = t_pre t ++ match t_post t with None => [] | Some q => new ++ q end.
Proof.
  rewrite plain_named. intros [H1 H2]. unfold render_term, s_dots. destruct (t_post t) as [q|].
  - apply replace_one; (eapply plain_not; [done|unplain]).
  - rewrite app_nil_r. apply replace_none. eapply plain_not; [done|unplain].
Qed.
Lemma render_count_sub t q : Forall plain (t_named t) -> t_post t = Some q -> count_sub s_dots (render_term t) = 1.
Proof.
  rewrite plain_named. intros [H1 H2] Hq. rewrite Hq in H2. unfold render_term, s_dots, count_sub. rewrite Hq.
  rewrite split_app by (eapply plain_not; [done|unplain]). rewrite split_none by (eapply plain_not; [exact H2|unplain]). done.
Qed.

Lemma last_k_0 E : last_k 0 E = [].
Proof. unfold last_k. rewrite Nat.sub_0_r. by rewrite drop_all. Qed.

Definition fitsb (t : eterm) (sh : list nat) : bool :=
  match t_post t with None => true | Some _ => bool_decide (sh = []) || (length (t_named t) <=? length sh) end.
Lemma fitsb_spec t sh : fitsb t sh = true <-> fits t sh.
Proof.
  unfold fitsb, fits. destruct (t_post t); [|done]. rewrite orb_true_iff, bool_decide_eq_true, Nat.leb_le. done.
Qed.

Lemma ellipsis_term_ok E shapes num t sh lg :
  Forall plain (t_named t) -> shapes !! num = Some sh -> length sh <= length E -> (0 <= lg)%Z ->
  ellipsis_term E shapes num (render_term t) lg =
    (if fitsb t sh then Ok (name E <$> expand (ell_count t sh) t, Z.max lg (Z.of_nat (ell_count t sh))) else Err ValueError).
Proof.
  intros Hpl Hsh HE Hlg. unfold ellipsis_term. rewrite dots_in by done.
  rewrite name_expand by (unfold ell_count; destruct (t_post t); lia).
  unfold fitsb, ell_count. destruct (t_post t) as [q|] eqn:Eq.
  - rewrite bool_decide_true by done. rewrite dots_count by done. rewrite Eq. rewrite (render_count_sub t q) by done.
    simpl negb. cbn [orb]. rewrite Hsh. cbn [of_opt mbind res_bind]. rewrite !render_replace by done. rewrite Eq.
    rewrite render_length, Eq.
    destruct sh as [|d sh].
    + simpl. replace (lg <? 0)%Z with false by lia. rewrite last_k_0. do 2 f_equal. lia.
    + rewrite bool_decide_false by done. cbn [orb].
      set (n := length (d :: sh)). assert (Hn : 1 <= n) by (simpl in n; lia).
      destruct (Nat.leb_spec (length (t_named t)) n).
      * match goal with |- context [(?x <? 0)%Z] => assert (Hx : x = Z.of_nat (n - length (t_named t))) by lia; rewrite !Hx end.
        replace (Z.of_nat (n - length (t_named t)) <? 0)%Z with false by lia.
        assert (Hm : (if (lg <? Z.of_nat (n - length (t_named t)))%Z then Z.of_nat (n - length (t_named t)) else lg) = Z.max lg (Z.of_nat (n - length (t_named t)))).
        { destruct (Z.ltb_spec lg (Z.of_nat (n - length (t_named t)))); lia. }
        rewrite Hm. destruct (Z.eqb_spec (Z.of_nat (n - length (t_named t))) 0) as [Hz|Hz].
        -- assert (Hz' : n - length (t_named t) = 0) by lia. rewrite Hz'. by rewrite last_k_0.
        -- rewrite Nat2Z.id. done.
      * match goal with |- context [(?x <? 0)%Z] => replace (x <? 0)%Z with true by lia end. done.
  - rewrite bool_decide_false by (intros [? ?]; done). unfold render_term. rewrite Eq. do 2 f_equal. lia.
Qed.

Lemma ellipsis_terms_ok E ts : forall shs0 shs lg,
  Forall (fun t => Forall plain (t_named t)) ts -> Forall (fun sh => length sh <= length E) shs -> length ts = length shs ->
  Forall2 fits ts shs -> (0 <= lg)%Z ->
  ellipsis_terms E (shs0 ++ shs) (length shs0) (render_term <$> ts) lg =
    Ok (fmap (M:=list) (name E) <$> zip_with (fun t sh => expand (ell_count t sh) t) ts shs,
        Z.max lg (Z.of_nat (max_list' (zip_with ell_count ts shs)))).
Proof.
  induction ts as [|t ts IH]; intros shs0 [|sh shs] lg Hpl HE Hlen Hfit Hlg; simplify_eq/=.
  - do 2 f_equal. lia.
  - inversion_clear Hpl. inversion_clear HE. inversion_clear Hfit.
    rewrite (ellipsis_term_ok _ _ _ _ sh); [|done|by rewrite lookup_app_r, Nat.sub_diag by lia|done|done].
    rewrite (proj2 (fitsb_spec t sh)) by done. cbn [mbind res_bind].
    specialize (IH (shs0 ++ [sh]) shs). rewrite <-app_assoc, app_length in IH. simpl in IH.
    replace (S (length shs0)) with (length shs0 + 1) by lia. rewrite IH by (done || lia). cbn [mbind res_bind].
    do 2 f_equal. rewrite <-Z.max_assoc. f_equal. lia.
Qed.
Lemma ellipsis_terms_inv E ts : forall shs0 shs lg r,
  Forall (fun t => Forall plain (t_named t)) ts -> Forall (fun sh => length sh <= length E) shs -> (0 <= lg)%Z ->
  ellipsis_terms E (shs0 ++ shs) (length shs0) (render_term <$> ts) lg = Ok r ->
  length r.1 = length ts /\ (length ts = length shs -> Forall2 fits ts shs).
Proof.
  induction ts as [|t ts IH]; intros shs0 shs lg r Hpl HE Hlg; simpl.
  - intros [= <-]. simpl. split; [done|]. destruct shs; [constructor|done].
  - inversion_clear Hpl. intros H'.
    destruct (ellipsis_term E (shs0 ++ shs) (length shs0) (render_term t) lg) as [[s lg']|] eqn:E1; simplify_eq/=.
    destruct (ellipsis_terms _ _ _ _ lg') as [[ss lg'']|] eqn:E2; simplify_eq/=.
    destruct shs as [|sh shs].
    + assert (Hl : length ss = length ts); [|simpl; split; [by rewrite Hl|done]].
      clear -E2. revert E2. generalize (S (length shs0)) as n. generalize (shs0 ++ [] : list (list nat)) as S0. revert ss lg' lg''.
      induction ts as [|t ts IH]; intros ss lg' lg'' S0 n; simpl; [by intros [= <- <-]|].
      destruct (ellipsis_term E S0 n (render_term t) lg') as [[s lg]|]; simpl; [|discriminate].
      destruct (ellipsis_terms E S0 (S n) _ lg) as [[ss' l]|] eqn:E3; simpl; [|discriminate].
      intros ?. simplify_eq/=. f_equal. by eapply IH.
    + inversion_clear HE.
      rewrite (ellipsis_term_ok _ _ _ _ sh) in E1; [|done|by rewrite lookup_app_r, Nat.sub_diag by lia|done|done].
      destruct (fitsb t sh) eqn:Ef; [|done]. simplify_eq/=.
      specialize (IH (shs0 ++ [sh]) shs (Z.max lg (Z.of_nat (ell_count t sh))) (ss, lg'') ltac:(done) ltac:(done) ltac:(lia)).
      rewrite <-app_assoc, app_length in IH. simpl in IH. replace (length shs0 + 1) with (S (length shs0)) in IH by lia.
      destruct (IH E2) as [HA HB]. simpl in *. split; [by rewrite HA|]. intros [= Hl]. constructor; [by apply fitsb_spec|auto].
Qed.

(** The fresh labels the parser draws. *)
Definition used_str (e : eqn) : str := replace s_arrow [] (replace s_comma [] (replace [c_dot] [] (render e))).
Definition fresh (e : eqn) (shapes : list (list nat)) : str := gen_unused_symbols (used_str e) (max_list' (length <$> shapes)).
Definition named_of (e : eqn) : list N := (e_in e ≫= t_named) ++ match e_out e with None => [] | Some o => t_named o end.

Lemma elem_render_term c t : c ∈ render_term t <-> c ∈ t_named t \/ (is_Some (t_post t) /\ c = c_dot).
Proof.
  unfold render_term, t_named. destruct (t_post t) as [q|]; simpl; rewrite !elem_of_app.
  - assert (is_Some (Some q)) by done. unfold s_dots. set_solver.
  - split; [naive_solver|]. intros [?|[[? ?] _]]; done.
Qed.
Lemma named_used e c : plain_eqn e -> c ∈ named_of e -> c ∈ used_str e.
Proof.
  intros [Hin Hout] Hc. unfold used_str, s_comma. rewrite !replace1.
  assert (Hpc : plain c).
  { unfold named_of in Hc. apply elem_of_app in Hc as [Hc|Hc].
    - apply elem_of_list_bind in Hc as (t & Hc & Ht). rewrite Forall_forall in Hin. exact (plain_no _ _ (Hin t Ht) Hc).
    - destruct (e_out e) as [o|]; [exact (plain_no _ _ Hout Hc)|by apply elem_of_nil in Hc]. }
  destruct Hpc as (P1 & P2 & P3 & P4 & P5).
  unfold named_of, render in *. destruct (e_out e) as [o|].
  - rewrite !filter_app. change (filter (.≠ c_comma) (filter (.≠ c_dot) s_arrow)) with s_arrow.
    set (a := filter (.≠ c_comma) (filter (.≠ c_dot) (join s_comma _))).
    set (b := filter (.≠ c_comma) (filter (.≠ c_dot) (render_term o))).
    assert (Ha : c_dash ∉ a).
    { unfold a. rewrite !elem_of_list_filter. intros (_ & _ & Hj). apply elem_of_join in Hj as [Hj|(t & Ht & Hj)].
      - by apply elem_of_list_singleton in Hj.
      - apply elem_of_list_fmap in Ht as (t' & -> & Ht'). apply elem_render_term in Hj as [Hj|[_ Hj]]; [|done].
        rewrite Forall_forall in Hin. by apply (plain_no _ _ (Hin t' Ht')) in Hj as (_ & ? & _). }
    assert (Hb : c_dash ∉ b).
    { unfold b. rewrite !elem_of_list_filter. intros (_ & _ & Hj). apply elem_render_term in Hj as [Hj|[_ Hj]]; [|done].
      by apply (plain_no _ _ Hout) in Hj as (_ & ? & _). }
    unfold s_arrow. rewrite replace_one by done. simpl. apply elem_of_app. apply elem_of_app in Hc as [Hc|Hc].
    + left. unfold a. rewrite !elem_of_list_filter. split; [done|]. split; [done|].
      apply elem_of_list_bind in Hc as (t & Hc & Ht). eapply elem_of_join_2; [by apply elem_of_list_fmap_1|]. apply elem_render_term. auto.
    + right. unfold b. rewrite !elem_of_list_filter. split; [done|]. split; [done|]. apply elem_render_term. auto.
  - rewrite app_nil_r in Hc. rewrite app_nil_r. unfold s_arrow. rewrite replace_none.
    + rewrite !elem_of_list_filter. split; [done|]. split; [done|].
      apply elem_of_list_bind in Hc as (t & Hc & Ht). eapply elem_of_join_2; [by apply elem_of_list_fmap_1|]. apply elem_render_term. auto.
    + rewrite !elem_of_list_filter. intros (_ & _ & Hj). apply elem_of_join in Hj as [Hj|(t & Ht & Hj)].
      * by apply elem_of_list_singleton in Hj.
      * apply elem_of_list_fmap in Ht as (t' & -> & Ht'). apply elem_render_term in Hj as [Hj|[_ Hj]]; [|done].
        rewrite Forall_forall in Hin. by apply (plain_no _ _ (Hin t' Ht')) in Hj as (_ & ? & _).
Qed.

(** Labels the equation can mention. *)
Definition known (e : eqn) (shapes : list (list nat)) (l : elabel) : Prop :=
  match l with Named c => c ∈ named_of e | Bcast k => k < max_list' (length <$> shapes) end.
Lemma fresh_length e shapes : length (fresh e shapes) = max_list' (length <$> shapes).
Proof. apply gen_unused_ok. Qed.
Lemma name_inj e shapes a b : plain_eqn e -> known e shapes a -> known e shapes b ->
  name (fresh e shapes) a = name (fresh e shapes) b -> a = b.
Proof.
  intros Hpl. pose proof (fresh_length e shapes) as Hlen.
  destruct (gen_unused_ok (used_str e) (max_list' (length <$> shapes))) as (_ & Hnd & Hfresh). fold (fresh e shapes) in *.
  assert (HB : forall k, k < max_list' (length <$> shapes) -> fresh e shapes !! (length (fresh e shapes) - 1 - k) = Some (name (fresh e shapes) (Bcast k))).
  { intros k Hk. simpl. destruct (lookup_lt_is_Some_2 (fresh e shapes) (length (fresh e shapes) - 1 - k)) as [c Hc]; [lia|]. by rewrite Hc. }
  assert (HNB : forall c k, c ∈ named_of e -> k < max_list' (length <$> shapes) -> c <> name (fresh e shapes) (Bcast k)).
  { intros c k Hc Hk ->. apply HB, elem_of_list_lookup_2, Hfresh in Hk as [Hk _]. destruct Hk. by apply named_used. }
  destruct a as [c|k], b as [c'|k']; simpl known; intros Ha Hb Heq.
  - simpl in Heq. by subst.
  - by apply HNB in Heq.
  - symmetry in Heq. by apply HNB in Heq.
  - apply HB in Ha as Ha', Hb as Hb'. rewrite Heq in Ha'. pose proof (NoDup_lookup _ _ _ _ Hnd Ha' Hb'). f_equal. lia.
Qed.
Lemma name_plain e shapes a : plain_eqn e -> known e shapes a -> plain (name (fresh e shapes) a).
Proof.
  intros [Hin Hout]. destruct a as [c|k]; simpl; intros H.
  - unfold named_of in H. apply elem_of_app in H as [Hc|Hc].
    + apply elem_of_list_bind in Hc as (t & Hc & Ht). rewrite Forall_forall in Hin. exact (plain_no _ _ (Hin t Ht) Hc).
    + destruct (e_out e) as [o|]; [exact (plain_no _ _ Hout Hc)|by apply elem_of_nil in Hc].
  - pose proof (fresh_length e shapes). destruct (lookup_lt_is_Some_2 (fresh e shapes) (length (fresh e shapes) - 1 - k)) as [c Hc]; [lia|].
    rewrite Hc. simpl. apply elem_of_list_lookup_2 in Hc. unfold fresh in Hc. by apply gen_unused_ok in Hc as [_ ?].
Qed.

Lemma elem_expand l m t : l ∈ expand m t <->
  match l with Named c => c ∈ t_named t | Bcast k => is_Some (t_post t) /\ k < m end.
Proof.
  unfold expand, t_named. rewrite elem_of_app. destruct (t_post t) as [q|]; simpl.
  - rewrite !elem_of_app, !elem_of_list_fmap. setoid_rewrite elem_of_reverse. setoid_rewrite elem_of_seq. destruct l as [c|k]; split.
    + intros [(c' & [= ->] & ?)|[(? & ? & ?)|(c' & [= ->] & ?)]]; simplify_eq; apply elem_of_app; auto.
    + rewrite elem_of_app. intros [?|?]; [left|right; right]; exists c; done.
    + intros [(? & ? & ?)|[(k' & [= ->] & ?)|(? & ? & ?)]]; simplify_eq. split; [done|lia].
    + intros [_ Hk]. right. left. exists k. split; [done|lia].
  - rewrite elem_of_list_fmap. destruct l as [c|k]; split.
    + rewrite app_nil_r. intros [(c' & [= ->] & ?)|?%elem_of_nil]; done.
    + rewrite app_nil_r. intros ?. left. exists c. done.
    + intros [(c' & ? & ?)|?%elem_of_nil]; done.
    + intros [[? ?] _]. done.
Qed.

Lemma ell_count_le t sh : ell_count t sh <= length sh.
Proof. unfold ell_count. destruct (t_post t); lia. Qed.
Lemma max_list'_le l n : max_list' l <= n <-> forall x, x ∈ l -> x <= n.
Proof.
  unfold max_list'. induction l as [|y l IH]; simpl; [split; [by intros _ ? ?%elem_of_nil|lia]|].
  rewrite Nat.max_lub_iff, IH. split; [intros [? ?] x [->|?]%elem_of_cons; auto|]. intros H. split; [apply H; by left|].
  intros x Hx. apply H. by right.
Qed.
Lemma longest_le e shapes : longest e shapes <= max_list' (length <$> shapes).
Proof.
  unfold longest. apply max_list'_le. intros x Hx. apply elem_of_lookup_zip_with in Hx as (i & t & sh & -> & _ & Hsh).
  etrans; [apply ell_count_le|]. apply (max_list'_le (length <$> shapes) _); [done|]. apply elem_of_list_fmap_1. by eapply elem_of_list_lookup_2.
Qed.
Lemma in_known e shapes t l : t ∈ in_labels e shapes -> l ∈ t -> known e shapes l.
Proof.
  unfold in_labels. intros Ht Hl. apply elem_of_lookup_zip_with in Ht as (i & t' & sh & -> & Ht' & Hsh).
  apply elem_expand in Hl. destruct l as [c|k]; simpl.
  - apply elem_of_app. left. apply elem_of_list_bind. exists t'. split; [done|]. by eapply elem_of_list_lookup_2.
  - destruct Hl as [_ Hk]. eapply Nat.lt_le_trans; [exact Hk|]. etrans; [apply ell_count_le|].
    apply (max_list'_le (length <$> shapes) _); [done|]. apply elem_of_list_fmap_1. by eapply elem_of_list_lookup_2.
Qed.
Lemma out_known e shapes l : l ∈ out_labels e shapes -> known e shapes l.
Proof.
  unfold out_labels. pose proof (longest_le e shapes). unfold known, named_of. destruct (e_out e) as [o|].
  - intros Hl. apply elem_expand in Hl. destruct l as [c|k]; [apply elem_of_app; by right|]. destruct Hl. lia.
  - rewrite elem_of_app, !elem_of_list_fmap. intros [(k & -> & Hk)|(c & -> & Hc)].
    + rewrite elem_of_reverse, elem_of_seq in Hk. lia.
    + rewrite sortN_perm, elem_of_list_filter in Hc. rewrite app_nil_r. naive_solver.
Qed.

Definition named_part (T : list elabel) : list N := omap (fun l => match l with Named c => Some c | Bcast _ => None end) T.
Lemma named_part_app S T : named_part (S ++ T) = named_part S ++ named_part T.
Proof. apply omap_app. Qed.
Lemma named_part_named t : named_part (Named <$> t) = t.
Proof. unfold named_part. induction t as [|c t IH]; [done|]. simpl. by f_equal. Qed.
Lemma named_part_bcast ks : named_part (Bcast <$> ks) = [].
Proof. unfold named_part. by induction ks. Qed.
Lemma named_part_expand m t : named_part (expand m t) = t_named t.
Proof.
  unfold expand, t_named. rewrite named_part_app, named_part_named. destruct (t_post t) as [q|]; [|done].
  by rewrite named_part_app, named_part_bcast, named_part_named.
Qed.
Lemma named_part_in e shapes : length (e_in e) = length shapes -> named_part (in_labels e shapes ≫= id) = e_in e ≫= t_named.
Proof.
  unfold in_labels. generalize (e_in e) as ts. intros ts. revert shapes. induction ts as [|t ts IH]; intros [|sh shs] H; simplify_eq/=; [done|].
  rewrite named_part_app, named_part_expand. by rewrite IH.
Qed.
Lemma count_name e shapes T c : plain_eqn e -> (forall l, l ∈ T -> known e shapes l) -> c ∈ named_of e ->
  count c (name (fresh e shapes) <$> T) = count c (named_part T).
Proof.
  intros Hpl HT Hc. induction T as [|l T IH]; [done|]. specialize (IH ltac:(intros; apply HT; by right)).
  specialize (HT l ltac:(by left)). rewrite fmap_cons. cbn [count]. rewrite IH.
  destruct l as [c'|k]; [done|]. rewrite decide_False; [done|]. intros Heq.
  apply (name_inj e shapes (Bcast k) (Named c)) in Heq; done.
Qed.

Section ParseCore.
  Variables (e : eqn) (shapes : list (list nat)).
  Hypothesis Hne : e_in e <> [].
  Hypothesis Hpl : plain_eqn e.
  Hypothesis Hlen : length (e_in e) = length shapes.
  Let E := fresh e shapes.
  Let fin := fmap (M:=list) (name E) <$> in_labels e shapes.
  Let fout := name E <$> out_labels e shapes.

  Lemma fin_plain : Forall (Forall plain) fin.
  Proof.
    apply Forall_fmap, Forall_forall. intros t Ht. simpl. apply Forall_fmap, Forall_forall. intros l Hl. simpl.
    apply name_plain; [done|]. by eapply in_known.
  Qed.
  Lemma fout_plain : Forall plain fout.
  Proof. apply Forall_fmap, Forall_forall. intros l Hl. simpl. apply name_plain; [done|]. by apply out_known. Qed.
  Lemma fin_ne : fin <> [].
  Proof. unfold fin, in_labels. destruct (e_in e); [done|]. by destruct shapes. Qed.
  Lemma fin_length : length fin = length shapes.
  Proof. unfold fin, in_labels. rewrite fmap_length, zip_with_length. lia. Qed.

  Lemma render_in_no c : ~ plain c -> c <> c_comma -> c <> c_dot -> c ∉ join s_comma (render_term <$> e_in e).
  Proof.
    intros Hc H1 H2 Hj. apply elem_of_join in Hj as [Hj|(t & Ht & Hj)].
    - by apply elem_of_list_singleton in Hj.
    - apply elem_of_list_fmap in Ht as (t' & -> & Ht'). apply elem_render_term in Hj as [Hj|[_ Hj]]; [|done].
      destruct Hpl as [Hin _]. rewrite Forall_forall in Hin. by apply (plain_no _ _ (Hin t' Ht')) in Hj.
  Qed.
  Lemma render_out_no o c : e_out e = Some o -> ~ plain c -> c <> c_dot -> c ∉ render_term o.
  Proof.
    intros Ho Hc H2 Hj. apply elem_render_term in Hj as [Hj|[_ Hj]]; [|done].
    destruct Hpl as [_ Hout]. rewrite Ho in Hout. by apply (plain_no _ _ Hout) in Hj.
  Qed.

  Lemma render_bad_arrow : bad_arrow (render e) = false.
  Proof.
    unfold bad_arrow, render. destruct (e_out e) as [o|] eqn:Eo.
    - assert (H1 : forall c, c = c_dash \/ c = c_gt -> count c (join s_comma (render_term <$> e_in e) ++ s_arrow ++ render_term o) = 1).
      { intros c Hc. rewrite !count_app.
        rewrite (count_none c (join _ _)) by (apply render_in_no; destruct Hc as [->| ->]; try done; unplain).
        rewrite (count_none c (render_term o)) by (apply render_out_no; destruct Hc as [->| ->]; try done; unplain).
        destruct Hc as [->| ->]; done. }
      rewrite !H1 by auto. unfold count_sub.
      rewrite split_arrow_two; [by rewrite andb_false_r|apply render_in_no; try done; unplain|apply render_out_no; try done; unplain].
    - rewrite app_nil_r.
      replace (inb c_dash _) with false by (symmetry; apply inb_false, render_in_no; try done; unplain).
      by replace (inb c_gt _) with false by (symmetry; apply inb_false, render_in_no; try done; unplain).
  Qed.

  (** The fresh labels are only drawn when there is an ellipsis somewhere. *)
  Lemma no_dots : inb c_dot (render e) = false ->
    Forall (fun t => t_post t = None) (e_in e) /\ match e_out e with Some o => t_post o = None | None => True end.
  Proof.
    rewrite inb_false. unfold render. rewrite elem_of_app. intros Hn. split.
    - apply Forall_forall. intros t Ht. destruct (t_post t) eqn:Et; [|done]. destruct Hn. left.
      eapply elem_of_join_2; [by apply elem_of_list_fmap_1|]. apply elem_render_term. rewrite Et. eauto.
    - destruct (e_out e) as [o|]; [|done]. destruct (t_post o) eqn:Et; [|done]. destruct Hn. right. apply elem_of_app. right.
      apply elem_render_term. rewrite Et. eauto.
  Qed.
  Lemma fin_no_dots : Forall (fun t => t_post t = None) (e_in e) -> fin = render_term <$> e_in e /\ longest e shapes = 0 /\ fin = t_named <$> e_in e.
  Proof.
    intros Hnd. unfold fin, in_labels, longest. revert Hnd Hlen.
    generalize E as E', (e_in e) as ts, shapes as shs0. clear. intros E' ts shs0 Hnd. revert shs0.
    induction Hnd as [|t ts Ht Hnd IH]; intros [|sh shs] Hl; simplify_eq/=; [done|].
    destruct (IH shs Hl) as (H1 & H2 & H3).
    assert (He : name E' <$> expand (ell_count t sh) t = t_pre t).
    { unfold expand. rewrite Ht, app_nil_r. apply name_named. }
    assert (Hr : render_term t = t_pre t) by (unfold render_term; by rewrite Ht, app_nil_r).
    assert (Hn : t_named t = t_pre t) by (unfold t_named; by rewrite Ht, app_nil_r).
    assert (Hc : ell_count t sh = 0) by (unfold ell_count; by rewrite Ht).
    split; [|split].
    - by rewrite He, Hr, H1.
    - unfold max_list' in *. simpl. rewrite H2, Hc. done.
    - by rewrite He, Hn, H3.
  Qed.

  Lemma fin_concat : fin ≫= id = name E <$> (in_labels e shapes ≫= id).
  Proof. unfold fin. induction (in_labels e shapes) as [|t T IH]; [done|]. rewrite fmap_cons, !bind_cons, fmap_app, IH. done. Qed.
  Lemma fin_filter : filter (.≠ c_comma) (join s_comma fin) = name E <$> (in_labels e shapes ≫= id).
  Proof.
    unfold s_comma. rewrite filter_join; [apply fin_concat|]. eapply Forall_impl; [apply fin_plain|]. simpl. intros t Ht.
    eapply plain_not; [done|unplain].
  Qed.
  Lemma ell_count_longest t sh i : e_in e !! i = Some t -> shapes !! i = Some sh -> ell_count t sh <= longest e shapes.
  Proof.
    intros Ht Hsh. apply (max_list'_le (zip_with ell_count (e_in e) shapes) (longest e shapes)); [done|]. apply elem_of_list_lookup. exists i.
    rewrite lookup_zip_with, Ht, Hsh. done.
  Qed.

  Lemma implicit_out : e_out e = None ->
    sortN (elements (list_to_set (find_output_str (join s_comma fin)) ∖ list_to_set (last_k (longest e shapes) E) : gset N))
    = sortN (filter (fun c => count c (e_in e ≫= t_named) = 1) (e_in e ≫= t_named)).
  Proof.
    intros Eo. apply sortN_perm_eq. apply NoDup_Permutation; [apply NoDup_elements|by apply NoDup_filter_count1|].
    intros c. rewrite elem_of_elements, elem_of_difference, !elem_of_list_to_set.
    rewrite find_output_str_spec, sortN_perm, fin_filter, !elem_of_list_filter.
    pose proof (named_part_in e shapes Hlen) as Hnp.
    assert (HT : forall l, l ∈ in_labels e shapes ≫= id -> known e shapes l).
    { intros l (t & Hl & Ht)%elem_of_list_bind. by eapply in_known. }
    assert (Hno : named_of e = e_in e ≫= t_named) by (unfold named_of; by rewrite Eo, app_nil_r).
    rewrite <-name_bcast; [|unfold E; rewrite fresh_length; apply longest_le].
    split.
    - intros [[Hc1 Hin] Hn]. apply elem_of_list_fmap in Hin as (l & -> & Hl).
      destruct l as [c|k].
      + assert (Hc : c ∈ e_in e ≫= t_named).
        { rewrite <-Hnp. unfold named_part. apply elem_of_list_omap. exists (Named c). done. }
        split; [|done]. rewrite (count_name e shapes) in Hc1; [|done|done|by rewrite Hno]. simpl in Hc1. by rewrite Hnp in Hc1.
      + destruct Hn. apply elem_of_list_fmap. exists (Bcast k). split; [done|]. apply elem_of_list_fmap. exists k. split; [done|].
        rewrite elem_of_reverse, elem_of_seq. apply elem_of_list_bind in Hl as (t & Hl & Ht).
        unfold in_labels in Ht. apply elem_of_lookup_zip_with in Ht as (i & t' & sh & -> & Ht' & Hsh).
        apply elem_expand in Hl as [_ Hk]. pose proof (ell_count_longest t' sh i Ht' Hsh). lia.
    - intros [Hc1 Hc]. rewrite <-Hnp in Hc1, Hc.
      assert (Hcn : c ∈ named_of e) by by rewrite Hno, <-Hnp.
      assert (Hl : Named c ∈ in_labels e shapes ≫= id).
      { unfold named_part in Hc. apply elem_of_list_omap in Hc as ([c'|k] & Hl & [= ->]). done. }
      split; [split|].
      + by rewrite (count_name e shapes).
      + apply elem_of_list_fmap. exists (Named c). done.
      + intros Hb. apply elem_of_list_fmap in Hb as (l & Heq & Hb). apply elem_of_list_fmap in Hb as (k & -> & Hk).
        rewrite elem_of_reverse, elem_of_seq in Hk. symmetry in Heq.
        apply (name_inj e shapes (Bcast k) (Named c)) in Heq; [done|done| |done]. simpl. pose proof (longest_le e shapes). lia.
  Qed.

  Lemma parse_core s : filter (.≠ c_space) s = render e -> Forall2 fits (e_in e) shapes ->
    parse_einsum_input s shapes =
      if check_output (join s_comma fin) fout then Ok (join s_comma fin, fout) else Err ValueError.
  Proof.
    intros Hs Hfit. unfold parse_einsum_input. rewrite replace1, Hs. unfold parse_subscripts. rewrite render_bad_arrow.
    assert (Hfinish : forall subs,
      ((subs = join s_comma fin ++ s_arrow ++ fout) \/ (subs = join s_comma fin /\ fout = find_output_str subs)) ->
      ('(inp, out) ← (if sub_in s_arrow subs then split_arrow subs else Ok (subs, find_output_str subs));
       if negb (check_output inp out) then Err ValueError
       else if negb (length (split s_comma inp) =? length shapes) then Err ValueError
       else Ok (inp, out)) = if check_output (join s_comma fin) fout then Ok (join s_comma fin, fout) else Err ValueError).
    { assert (Hdash : c_dash ∉ join s_comma fin) by apply plain_join_dash, fin_plain.
      assert (Hsp : split s_comma (join s_comma fin) = fin).
      { apply split1_join; [apply fin_ne|]. eapply Forall_impl; [apply fin_plain|]. simpl. intros t Ht. eapply plain_not; [done|unplain]. }
      intros subs [->|[-> Hf]].
      - rewrite sub_in_arrow_app by done. unfold split_arrow. rewrite split_arrow_two; [|done|eapply plain_not; [apply fout_plain|unplain]].
        cbn [mbind res_bind]. rewrite Hsp, fin_length, Nat.eqb_refl. simpl. by destruct (check_output _ _).
      - unfold sub_in, count_sub, s_arrow. rewrite split_none by done. simpl. rewrite <-Hf.
        rewrite Hsp, fin_length, Nat.eqb_refl. simpl. by destruct (check_output _ _). }
    destruct (inb c_dot (render e)) eqn:Edot.
    - (* ellipsis *)
      unfold parse_ellipsis. fold (used_str e).
      assert (Hmr : max_rank shapes = Ok (max_list' (length <$> shapes))).
      { unfold max_rank. destruct shapes; [|done]. by destruct (e_in e). }
      rewrite Hmr. cbn [mbind res_bind]. fold (fresh e shapes). fold E.
      assert (HE : Forall (fun sh => length sh <= length E) shapes).
      { apply Forall_forall. intros sh Hsh. unfold E. rewrite fresh_length. apply (max_list'_le (length <$> shapes) _); [done|].
        by apply elem_of_list_fmap_1. }
      assert (Hrn : forall c, ~ plain c -> c <> c_dot -> Forall (fun t => c ∉ t) (render_term <$> e_in e)).
      { intros c Hc Hcd. apply Forall_fmap, Forall_forall. intros t Ht. simpl. intros [Hj|[_ Hj]]%elem_render_term; [|done].
        destruct Hpl as [Hin _]. rewrite Forall_forall in Hin. by apply (plain_no _ _ (Hin t Ht)) in Hj. }
      assert (Hsplit : (if sub_in s_arrow (render e)
                        then '(input_tmp, output_sub) ← split_arrow (render e); Ok (split s_comma input_tmp, Some output_sub)
                        else Ok (split s_comma (render e), None)) = Ok (render_term <$> e_in e, render_term <$> e_out e)).
      { unfold render. destruct (e_out e) as [o|] eqn:Eo.
        - rewrite sub_in_arrow_app by (apply render_in_no; try done; unplain). unfold split_arrow.
          rewrite split_arrow_two; [|apply render_in_no; try done; unplain|apply render_out_no; try done; unplain].
          cbn [mbind res_bind]. unfold s_comma. rewrite split1_join; [done|by destruct (e_in e)|apply Hrn; [unplain|done]].
        - rewrite app_nil_r. unfold sub_in, count_sub, s_arrow. rewrite split_none by (apply render_in_no; try done; unplain).
          simpl. unfold s_comma. rewrite split1_join; [done|by destruct (e_in e)|apply Hrn; [unplain|done]]. }
      rewrite Hsplit. cbn [mbind res_bind].
      pose proof (ellipsis_terms_ok E (e_in e) [] shapes 0 (proj1 Hpl) HE Hlen Hfit ltac:(lia)) as Het.
      simpl in Het. rewrite Het. clear Het.
      cbn [mbind res_bind]. fold (in_labels e shapes). fold fin. fold (longest e shapes).
      replace (Z.max 0 (Z.of_nat (longest e shapes))) with (Z.of_nat (longest e shapes)) by lia.
      assert (Hell : (if (Z.of_nat (longest e shapes) =? 0)%Z then [] else last_k (Z.to_nat (Z.of_nat (longest e shapes))) E) = last_k (longest e shapes) E).
      { rewrite Nat2Z.id. destruct (Z.eqb_spec (Z.of_nat (longest e shapes)) 0) as [Hz|]; [|done].
        assert (longest e shapes = 0) as -> by lia. by rewrite last_k_0. }
      rewrite Hell. assert (HlE : longest e shapes <= length E) by (unfold E; rewrite fresh_length; apply longest_le).
      destruct (e_out e) as [o|] eqn:Eo; simpl option_map; cbn [fmap option_fmap option_map mbind res_bind].
      + apply Hfinish. left. f_equal. f_equal. unfold fout, out_labels. rewrite Eo.
        rewrite render_replace by (destruct Hpl as [_ Hout]; by rewrite Eo in Hout). by rewrite name_expand.
      + apply Hfinish. left. f_equal. f_equal. rewrite implicit_out by done. unfold fout, out_labels. rewrite Eo.
        rewrite fmap_app, name_named, name_bcast by done. done.
    - destruct (no_dots Edot) as [Hnd Hndo]. destruct (fin_no_dots Hnd) as (Hf1 & Hl0 & Hf2). cbn [mbind res_bind].
      unfold render. destruct (e_out e) as [o|] eqn:Eo.
      + apply Hfinish. left. rewrite Hf1. f_equal. f_equal. unfold fout, out_labels. rewrite Eo, Hl0.
        rewrite name_expand by lia. unfold render_term. by rewrite Hndo.
      + rewrite app_nil_r. apply Hfinish. right. rewrite <-Hf1. split; [done|].
        rewrite find_output_str_spec. rewrite fin_filter, <-fin_concat, Hf2.
        unfold fout, out_labels. rewrite Eo, Hl0. simpl. rewrite name_named.
        assert (Hb : (t_named <$> e_in e) ≫= id = e_in e ≫= t_named) by apply list_fmap_bind.
        by rewrite Hb.
  Qed.
End ParseCore.
