(** contract_path and contract as a whole. *)
From Verif Require Import Prelude Einsum EinsumFacts EinsumOps Parser Helpers Contract Spec PathSpec StringFacts SymbolFacts StepFacts ContractFacts PathFacts ParserFacts ParseSpec ParseProof ParseSound.

(** ** The size dictionary (C12) *)
(** (label, dimension) of every axis. *)
Definition sh_axes (ts : list str) (shs : list (list nat)) : list (N * nat) := zip ts shs ≫= fun p => zip p.1 p.2.
Definition compat_axes (A : list (N * nat)) : Prop := forall c x y, (c, x) ∈ A -> (c, y) ∈ A -> x = y \/ x = 1 \/ y = 1.
(** [d] gives every label its broadcast size: the dimension that is not 1 if there is one. *)
Definition sizes_of (d : sizes) (A : list (N * nat)) : Prop :=
  forall c, match d !! c with
            | None => forall x, (c, x) ∉ A
            | Some s => (c, s) ∈ A /\ forall x, (c, x) ∈ A -> x = 1 \/ x = s
            end.
Lemma sizes_of_compat d A : sizes_of d A -> compat_axes A.
Proof.
  intros H c x y Hx Hy. specialize (H c). destruct (d !! c) as [s|]; [|by apply H in Hx].
  destruct H as [_ H]. apply H in Hx, Hy. destruct Hx, Hy; subst; auto.
Qed.
Lemma size_char_ok d A cd : sizes_of d A ->
  match size_char d cd with
  | Ok d' => sizes_of d' (A ++ [cd])
  | Err e => e = ValueError /\ ~ compat_axes (A ++ [cd])
  end.
Proof.
  intros H. destruct cd as [c x]. unfold size_char. simpl. pose proof (H c) as Hc. destruct (d !! c) as [s|] eqn:Ed.
  - destruct Hc as [Hs Hall]. destruct (decide (s = 1)) as [->|Hs1].
    + intros c'. destruct (decide (c' = c)) as [->|Hne].
      * rewrite lookup_insert. split; [set_solver|]. intros y. rewrite elem_of_app, elem_of_list_singleton.
        intros [Hy|[= ->]]; [|auto]. apply Hall in Hy. naive_solver.
      * rewrite lookup_insert_ne by done. specialize (H c'). destruct (d !! c') as [s'|].
        -- destruct H as [H1 H2]. split; [set_solver|]. intros y. rewrite elem_of_app, elem_of_list_singleton. intros [?|[= ? ?]]; [auto|done].
        -- intros y. rewrite elem_of_app, elem_of_list_singleton. intros [?|[= ? ?]]; [by apply (H y)|done].
    + destruct (decide (x = 1 \/ x = s)) as [Hx|Hx].
      * intros c'. destruct (decide (c' = c)) as [->|Hne].
        -- rewrite Ed. split; [set_solver|]. intros y. rewrite elem_of_app, elem_of_list_singleton. intros [Hy|[= ->]]; auto.
        -- specialize (H c'). destruct (d !! c') as [s'|].
           ++ destruct H as [H1 H2]. split; [set_solver|]. intros y. rewrite elem_of_app, elem_of_list_singleton. intros [?|[= ? ?]]; [auto|done].
           ++ intros y. rewrite elem_of_app, elem_of_list_singleton. intros [?|[= ? ?]]; [by apply (H y)|done].
      * split; [done|]. intros Hcom. destruct (Hcom c x s) as [?|[?|?]]; [set_solver|set_solver|..]; naive_solver.
  - intros c'. destruct (decide (c' = c)) as [->|Hne].
    + rewrite lookup_insert. split; [set_solver|]. intros y. rewrite elem_of_app, elem_of_list_singleton.
      intros [Hy|[= ->]]; [|auto]. by apply Hc in Hy.
    + rewrite lookup_insert_ne by done. specialize (H c'). destruct (d !! c') as [s'|].
      * destruct H as [H1 H2]. split; [set_solver|]. intros y. rewrite elem_of_app, elem_of_list_singleton. intros [?|[= ? ?]]; [auto|done].
      * intros y. rewrite elem_of_app, elem_of_list_singleton. intros [?|[= ? ?]]; [by apply (H y)|done].
Qed.
Lemma compat_axes_app A B : compat_axes (A ++ B) -> compat_axes A.
Proof. intros H c x y Hx Hy. apply (H c); set_solver. Qed.
Lemma size_chars_ok l : forall d A, sizes_of d A ->
  match foldM_res size_char d l with
  | Ok d' => sizes_of d' (A ++ l)
  | Err e => e = ValueError /\ ~ compat_axes (A ++ l)
  end.
Proof.
  induction l as [|cd l IH]; intros d A H; simpl; [by rewrite app_nil_r|].
  pose proof (size_char_ok d A cd H) as Hc. destruct (size_char d cd) as [d'|e]; simpl.
  - specialize (IH d' (A ++ [cd]) Hc). by rewrite <-app_assoc in IH.
  - destruct Hc as [-> Hn]. split; [done|]. intros Hc. apply Hn.
    replace (A ++ cd :: l) with ((A ++ [cd]) ++ l) in Hc by by rewrite <-app_assoc. by apply compat_axes_app in Hc.
Qed.
Definition ranks_match (ts : list str) (shs : list (list nat)) : Prop := Forall (fun p => length p.1 = length p.2) (zip ts shs).
Lemma size_terms_ok l : forall d A, sizes_of d A ->
  match foldM_res size_term d l with
  | Ok d' => sizes_of d' (A ++ (l ≫= fun p => zip p.1 p.2)) /\ Forall (fun p => length p.1 = length p.2) l
  | Err e => e = ValueError /\ (~ compat_axes (A ++ (l ≫= fun p => zip p.1 p.2)) \/ ~ Forall (fun p => length p.1 = length p.2) l)
  end.
Proof.
  induction l as [|p l IH]; intros d A H; [simpl; rewrite app_nil_r; done|].
  change (foldM_res size_term d (p :: l)) with (d' ← size_term d p; foldM_res size_term d' l). 
  replace (size_term d p) with (if negb (length p.2 =? length p.1) then Err ValueError else foldM_res size_char d (zip p.1 p.2)) by done. destruct (Nat.eqb_spec (length p.2) (length p.1)) as [Hl|Hl]; simpl negb; cbn [mbind res_bind].
  - pose proof (size_chars_ok (zip p.1 p.2) d A H) as Hc. destruct (foldM_res size_char d (zip p.1 p.2)) as [d'|e]; cbn [mbind res_bind].
    + specialize (IH d' _ Hc). rewrite bind_cons, app_assoc. destruct (foldM_res size_term d' l) as [d''|e'].
      * destruct IH. split; [done|]. by constructor.
      * destruct IH as [-> [?|Hn]]; (split; [done|]); [by left|right]. by intros [_ ?]%Forall_cons.
    + destruct Hc as [-> Hn]. split; [done|]. left. rewrite bind_cons, app_assoc. intros Hc. by apply compat_axes_app in Hc.
  - split; [done|]. right. intros [? _]%Forall_cons. lia.
Qed.
Lemma build_size_dict_spec ts shs :
  match build_size_dict ts shs with
  | Ok d => ranks_match ts shs /\ sizes_of d (sh_axes ts shs)
  | Err e => e = ValueError /\ ~ (ranks_match ts shs /\ compat_axes (sh_axes ts shs))
  end.
Proof.
  unfold build_size_dict, sh_axes, ranks_match. pose proof (size_terms_ok (zip ts shs) ∅ []) as H.
  destruct (foldM_res size_term ∅ (zip ts shs)); simpl in H.
  - destruct H; [|done]. intros c. rewrite lookup_empty. by intros ? ?%elem_of_nil.
  - destruct H as [-> H]; [intros c; rewrite lookup_empty; by intros ? ?%elem_of_nil|]. split; [done|]. tauto.
Qed.

Section Sh.
  Context {K : semiring}.
  Notation tens := (tensor K).
  Lemma sh_axes_ops (ts : list str) (ops : list tens) : sh_axes ts (shape <$> ops) = axes_of (zip ts ops).
  Proof.
    unfold sh_axes, axes_of. revert ops. induction ts as [|t ts IH]; intros [|o ops]; try done.
    rewrite fmap_cons. cbn [zip zip_with]. rewrite !bind_cons. simpl. f_equal. apply IH.
  Qed.
  Lemma ranks_ops (ts : list str) (ops : list tens) : ranks_match ts (shape <$> ops) <-> ranked (zip ts ops).
  Proof.
    unfold ranks_match, ranked. revert ops. induction ts as [|t ts IH]; intros [|o ops]; try (split; intros; by constructor).
    rewrite fmap_cons. cbn [zip zip_with]. rewrite !Forall_cons. simpl. by rewrite IH.
  Qed.
  Lemma compat_ops (ts : list str) (ops : list tens) : compat_axes (sh_axes ts (shape <$> ops)) <-> compat (zip ts ops).
  Proof. rewrite sh_axes_ops. done. Qed.
  Lemma sizes_of_dim d (ts : list str) (ops : list tens) c :
    sizes_of d (axes_of (zip ts ops)) -> c ∈ labels_of (zip ts ops) -> ranked (zip ts ops) -> d !! c = Some (dim (zip ts ops) c).
  Proof.
    intros Hd Hc Hr. destruct (labels_axes _ _ Hr Hc) as [x Hx]. specialize (Hd c). destruct (d !! c) as [s|]; [|by apply Hd in Hx].
    f_equal. symmetry. apply dim_unique; naive_solver.
  Qed.
End Sh.

(** ** Guarantees of the parser for arbitrary strings *)
Lemma parse_guarantees s shapes inp out : parse_einsum_input s shapes = Ok (inp, out) ->
  NoDup out /\ (forall c, c ∈ out -> c ∈ inp) /\ length (split s_comma inp) = length shapes /\ Forall (Forall plain) (split s_comma inp).
Proof.
  unfold parse_einsum_input. rewrite replace1. set (s' := filter (.≠ c_space) s).
  assert (Hsp : c_space ∉ s') by (unfold s'; rewrite elem_of_list_filter; naive_solver).
  unfold parse_subscripts. destruct (bad_arrow s') eqn:Eb; [discriminate|]. intros Hr.
  assert (Hfin : forall subs,
     ('(inp, out) ← (if sub_in s_arrow subs then split_arrow subs else Ok (subs, find_output_str subs));
       if negb (check_output inp out) then Err ValueError
       else if negb (length (split s_comma inp) =? length shapes) then Err ValueError
       else Ok (inp, out)) = Ok (inp, out) ->
     NoDup out /\ (forall c, c ∈ out -> c ∈ inp) /\ length (split s_comma inp) = length shapes /\
     (if sub_in s_arrow subs then split_arrow subs else Ok (subs, find_output_str subs)) = Ok (inp, out)).
  { intros subs. destruct (if sub_in s_arrow subs then split_arrow subs else Ok (subs, find_output_str subs)) as [[inp' out']|]; [|discriminate].
    cbn [mbind res_bind]. destruct (check_output inp' out') eqn:Ec; [|discriminate].
    simpl. destruct (Nat.eqb_spec (length (split s_comma inp')) (length shapes)); [|discriminate]. simpl. intros [= -> ->].
    apply check_output_spec in Ec as [? ?]. done. }
  assert (Hplain : forall A, c_dash ∉ A -> c_gt ∉ A -> c_space ∉ A -> c_dot ∉ A -> Forall (Forall plain) (split s_comma A)).
  { intros A H1 H2 H3 H4. apply Forall_forall. intros p Hp. apply Forall_forall. intros c Hc.
    pose proof (split1_pieces c_comma A) as Hp'. rewrite Forall_forall in Hp'. specialize (Hp' p Hp).
    pose proof (split1_subset _ _ _ _ Hp Hc). unfold plain. repeat split; intros ->; done. }
  destruct (bad_arrow_false s' Eb) as [[Hd Hg]|(A & B & Hs & HA1 & HA2 & HB1 & HB2)].
  - assert (Hsub : sub_in s_arrow s' = false) by (unfold sub_in, count_sub, s_arrow; by rewrite split_none).
    destruct (inb c_dot s') eqn:Ed.
    + unfold parse_ellipsis in Hr. destruct (max_rank shapes) as [mr|]; [|discriminate]. cbn [mbind res_bind] in Hr.
      rewrite Hsub in Hr. cbn [mbind res_bind] in Hr.
      destruct (ellipsis_terms _ _ _ _ _) as [[terms lg]|] eqn:Et; [|discriminate]. cbn [mbind res_bind] in Hr.
      apply Hfin in Hr as (H1 & H2 & H3 & H4). do 3 (split; [done|]).
      assert (Hpcs : Forall (fun sub => c_comma ∉ sub /\ c_dash ∉ sub /\ c_gt ∉ sub /\ c_space ∉ sub) (split s_comma s')).
      { apply Forall_forall. intros p Hp. split.
        - pose proof (split1_pieces c_comma s') as Hp'. rewrite Forall_forall in Hp'. by apply Hp'.
        - repeat split; intros Hc; apply (split1_subset _ _ _ _ Hp) in Hc; done. }
      destruct (pieces_terms _ _ _ _ _ _ Hpcs Et) as (ts & Hts & Hpl).
      rewrite Hts in Et. apply ellipsis_terms_plain in Et as Htp; [|done|apply Forall_forall; intros c Hc; by apply gen_unused_ok in Hc as [_ ?]].
      simpl in Htp. rewrite sub_in_arrow_app in H4 by by apply plain_join_dash.
      unfold split_arrow, s_arrow in H4. rewrite split_app in H4 by by apply plain_join_dash.
      destruct (split [c_dash; c_gt] _) as [|b [|]]; try discriminate. injection H4 as <- _.
      destruct terms as [|t0 terms']; [repeat constructor|]. unfold s_comma. rewrite split1_join; [done|done|].
      eapply Forall_impl; [exact Htp|]. simpl. intros t Ht. eapply plain_not; [done|unplain].
    + cbn [mbind res_bind] in Hr. apply Hfin in Hr as (H1 & H2 & H3 & H4). do 3 (split; [done|]). rewrite Hsub in H4. injection H4 as <- _.
      apply inb_false in Ed. by apply Hplain.
  - assert (Hsub : sub_in s_arrow s' = true) by (rewrite Hs; by apply sub_in_arrow_app).
    assert (Hsplit : split s_arrow s' = [A; B]) by (rewrite Hs; by apply split_arrow_two).
    assert (Hsa : split_arrow s' = Ok (A, B)) by (unfold split_arrow; by rewrite Hsplit).
    assert (HspA : c_space ∉ A) by (rewrite Hs in Hsp; set_solver).
    destruct (inb c_dot s') eqn:Ed.
    + unfold parse_ellipsis in Hr. destruct (max_rank shapes) as [mr|]; [|discriminate]. cbn [mbind res_bind] in Hr.
      rewrite Hsub, Hsa in Hr. cbn [mbind res_bind] in Hr.
      destruct (ellipsis_terms _ _ _ _ _) as [[terms lg]|] eqn:Et; [|discriminate]. cbn [mbind res_bind] in Hr.
      apply Hfin in Hr as (H1 & H2 & H3 & H4). do 3 (split; [done|]).
      assert (Hpcs : Forall (fun sub => c_comma ∉ sub /\ c_dash ∉ sub /\ c_gt ∉ sub /\ c_space ∉ sub) (split s_comma A)).
      { apply Forall_forall. intros p Hp. split.
        - pose proof (split1_pieces c_comma A) as Hp'. rewrite Forall_forall in Hp'. by apply Hp'.
        - repeat split; intros Hc; apply (split1_subset _ _ _ _ Hp) in Hc; done. }
      destruct (pieces_terms _ _ _ _ _ _ Hpcs Et) as (ts & Hts & Hpl).
      rewrite Hts in Et. apply ellipsis_terms_plain in Et as Htp; [|done|apply Forall_forall; intros c Hc; by apply gen_unused_ok in Hc as [_ ?]].
      simpl in Htp. rewrite sub_in_arrow_app in H4 by by apply plain_join_dash.
      unfold split_arrow, s_arrow in H4. rewrite split_app in H4 by by apply plain_join_dash.
      destruct (split [c_dash; c_gt] _) as [|b [|]]; try discriminate. injection H4 as <- _.
      destruct terms as [|t0 terms']; [repeat constructor|]. unfold s_comma. rewrite split1_join; [done|done|].
      eapply Forall_impl; [exact Htp|]. simpl. intros t Ht. eapply plain_not; [done|unplain].
    + cbn [mbind res_bind] in Hr. apply Hfin in Hr as (H1 & H2 & H3 & H4). do 3 (split; [done|]). rewrite Hsub, Hsa in H4. injection H4 as <- _.
      apply inb_false in Ed. apply Hplain; try done. rewrite Hs in Ed. set_solver.
Qed.

(** ** contract *)
Definition mem_valid (m : memory_arg) : Prop :=
  match m with MNone => True | MStr s => s = lit "max_input" | MInt z => (z = -1 \/ 1 <= z)%Z end.
Lemma choose_memory_ok m l : mem_valid m -> l <> [] -> exists r, choose_memory_arg m l = Ok r.
Proof.
  intros Hm Hl. unfold choose_memory_arg. destruct m as [|s|z]; simpl in Hm; [eauto| |].
  - rewrite decide_True by done. destruct l; [done|]. eauto.
  - destruct (Z.ltb_spec z 1); [|eauto]. rewrite decide_True by lia. eauto.
Qed.


Lemma volume_ext (d d' : N -> nat) s : (forall c, c ∈ s -> d c = d' c) -> volume d s = volume d' s.
Proof. intros H. unfold volume. f_equal. apply list_fmap_ext'. intros c Hc. apply H. by apply elem_of_elements. Qed.
Lemma replay_kept out p sets : Forall (fun st => st.2 ⊆ union_all st.1) (replay out p sets).
Proof. revert sets. induction p as [|s p IH]; intros sets; constructor; [|apply IH]. simpl. unfold kept. set_solver. Qed.
Lemma step_numbers_ext d d' out p sets : steps_valid (length sets) p -> (forall c, c ∈ union_all sets -> d c = d' c) ->
  step_numbers d <$> replay out p sets = step_numbers d' <$> replay out p sets.
Proof.
  intros Hv Hd. apply list_fmap_ext'. intros st Hst.
  pose proof (replay_scale out p sets Hv) as H1. pose proof (replay_kept out p sets) as H2.
  rewrite Forall_forall in H1, H2. specialize (H1 st Hst). specialize (H2 st Hst).
  unfold step_numbers, step_cost. f_equal; [f_equal|]; apply volume_ext; set_solver.
Qed.

(** Some label occurs on two operands. *)
Definition shared_label (sets : list (gset N)) : Prop :=
  exists i j s t c, i < j /\ sets !! i = Some s /\ sets !! j = Some t /\ c ∈ s /\ c ∈ t.
Lemma sum_sizes sets : size (union_all sets) <= sum_list (size <$> sets) /\ (size (union_all sets) < sum_list (size <$> sets) <-> shared_label sets).
Proof.
  unfold union_all. induction sets as [|s sets [Hle Hiff]].
  - change (⋃ ([] : list (gset N))) with (∅ : gset N). rewrite size_empty. simpl. split; [lia|]. split; [lia|]. intros (? & ? & ? & ? & ? & _ & H & _). by rewrite lookup_nil in H.
  - change (⋃ (s :: sets)) with (s ∪ ⋃ sets). rewrite size_union_alt, fmap_cons. simpl.
    assert (Hsub : (⋃ sets ∖ s) ⊆ ⋃ sets) by set_solver. apply subseteq_size in Hsub as Hsz. split; [lia|].
    destruct (decide (⋃ sets ∩ s = ∅)) as [Hd|Hd].
    + assert (Heq : ⋃ sets ∖ s = ⋃ sets) by set_solver. rewrite Heq. split.
      * intros Hlt. destruct Hiff as [Hiff _]. destruct Hiff as (i & j & a & b & c & ? & ? & ? & ? & ?); [lia|].
        exists (S i), (S j), a, b, c. split; [lia|done].
      * intros (i & j & a & b & c & Hij & Hi & Hj & Ha & Hb). destruct j as [|j]; [lia|]. simpl in Hj. destruct i as [|i].
        -- simpl in Hi. injection Hi as ->. exfalso. apply (not_elem_of_empty (C:=gset N) c). rewrite <-Hd. apply elem_of_intersection.
           split; [|done]. apply elem_of_union_list. exists b. split; [by eapply elem_of_list_lookup_2|done].
        -- assert (size (⋃ sets) < sum_list (size <$> sets)); [|lia]. apply Hiff. exists i, j, a, b, c. split; [lia|done].
    + split.
      * intros _. apply set_choose_L in Hd as [c Hc]. apply elem_of_intersection in Hc as [Hu Hs].
        apply elem_of_union_list in Hu as (t & Ht & Hct). apply elem_of_list_lookup in Ht as [j Hj].
        exists 0, (S j), s, t, c. split; [lia|done].
      * intros _. assert (size (⋃ sets ∖ s) < size (⋃ sets)); [|lia]. apply subset_size. split; [done|].
        intros Hincl. apply Hd. set_solver.
Qed.
Global Instance shared_label_dec sets : Decision (shared_label sets).
Proof.
  destruct (decide (size (union_all sets) < sum_list (size <$> sets))) as [H|H].
  - left. by apply sum_sizes.
  - right. intros Hs. by apply sum_sizes in Hs.
Qed.

(** The step data of a PathInfo: every step can be executed by backend [B]. *)
Definition info_fits {K : semiring} (B : backend K) (info : path_info) : Prop :=
  Forall2 (fun c scale => (b_has_einsum B = true \/ c_blas c <> BFalse) /\ (use_tensordot B (c_blas c) = true \/ scale <= 52))
    (pi_contractions info) (pi_scale_list info).
(** The numbers of a PathInfo are those of the path, with [D] the size of each label. *)
Record info_numbers (D : N -> nat) (sets : list (gset N)) (out : gset N) (info : path_info) : Prop := InfoNumbers {
  in_cost : pi_opt_cost info = sum_list (step_cost D <$> replay out (pi_path info) sets);
  in_scale : pi_scale_list info = (fun st => size (union_all st.1)) <$> replay out (pi_path info) sets;
  in_size : pi_size_list info = (fun st => volume D st.2) <$> replay out (pi_path info) sets;
  in_largest : (forall x, x ∈ pi_size_list info -> x <= pi_largest info) /\ pi_largest info ∈ pi_size_list info;
  in_naive : pi_naive_cost info = volume D (union_all sets) * (Nat.max 1 (length sets - 1) + if decide (shared_label sets) then 1 else 0) }.

Section Contract.
  Context {K : semiring}.
  Notation tens := (tensor K).
  Variable ord : gset N -> list N.
  Hypothesis ord_ok : forall s, ord s ≡ₚ elements s.
  Variable B : backend K.
  Hypothesis B_ok : backend_ok B.

  Lemma mapM_fmap {X Y} (f : X -> res Y) (g : X -> Y) (l : list X) : (forall x, x ∈ l -> f x = Ok (g x)) -> mapM_res f l = Ok (g <$> l).
  Proof.
    clear. induction l as [|x l IH]; intros H; simpl; [done|]. rewrite H by (by left). simpl.
    rewrite IH by (intros; apply H; by right). done.
  Qed.
  (** The size of every label, as a dictionary. *)
  Definition dims_map (tops : list (str * tens)) : sizes := list_to_map ((fun c => (c, dim tops c)) <$> remove_dups (labels_of tops)).
  Lemma dims_map_lookup tops c : dims_map tops !! c = if decide (c ∈ labels_of tops) then Some (dim tops c) else None.
  Proof.
    clear. unfold dims_map. assert (Hf : ((fun c => (c, dim tops c)) <$> remove_dups (labels_of tops)).*1 = remove_dups (labels_of tops)).
    { rewrite <-list_fmap_compose. simpl. apply list_fmap_id. }
    case_decide as E.
    - apply elem_of_list_to_map_1; [rewrite Hf; apply NoDup_remove_dups|]. apply elem_of_list_fmap. exists c. split; [done|].
      by apply elem_of_remove_dups.
    - apply not_elem_of_list_to_map. by rewrite Hf, elem_of_remove_dups.
  Qed.

  Lemma contract_path_parsed_ok use_blas opt mem inp out (ops : list tens) :
    let ts := split s_comma inp in
    let tops := zip ts ops in
    length ts = length ops -> Forall (Forall plain) ts -> NoDup out -> (forall c, c ∈ out -> c ∈ labels_of tops) ->
    good tops -> mem_valid mem ->
    (forall mem', exists p, compute_path opt (list_to_set <$> ts) (list_to_set out) (dims_map tops) mem' = Ok p /\ complete (length ops) p) ->
    exists info, contract_path_parsed ord use_blas opt mem inp out (shape <$> ops) = Ok info
      /\ complete (length ops) (pi_path info)
      /\ (exists mem', compute_path opt (list_to_set <$> ts) (list_to_set out) (dims_map tops) mem' = Ok (pi_path info))
      /\ info_numbers (dim tops) (list_to_set <$> ts) (list_to_set out) info
      /\ pi_size_dict info = dims_map tops
      /\ (b_has_einsum B = true -> size (list_to_set (labels_of tops) : gset N) <= 52 -> info_fits B info)
      /\ (info_fits B info -> forall ops', Forall2 teq ops ops' -> exists T, core_contract ord B ops' (pi_contractions info) = Ok T /\ T ≡ₜ einsum tops out
          /\ exists vs, step_results ord B ops' (pi_contractions info) = Ok vs
               /\ ((forall c x y, (c, x) ∈ axes_of tops -> (c, y) ∈ axes_of tops -> x = y) -> (prod_list ∘ shape) <$> vs = pi_size_list info)).
  Proof.
    intros ts tops Hlen Hpl Hnd Hout Hgood Hmem Hpath. destruct Hgood as [Hr Hc Hdg Hz] eqn:Hgood'. clear Hgood'.
    unfold contract_path_parsed. fold ts.
    pose proof (build_size_dict_spec ts (shape <$> ops)) as Hd.
    destruct (build_size_dict ts (shape <$> ops)) as [d|e].
    2: { destruct Hd as [_ Hn]. destruct Hn. split; [by apply ranks_ops|by apply compat_ops]. }
    destruct Hd as [_ Hd]. cbn [mbind res_bind]. rewrite sh_axes_ops in Hd. fold tops in Hd.
    assert (Hdim : forall c, c ∈ labels_of tops -> d !! c = Some (dim tops c)) by (intros; by apply sizes_of_dim).
    assert (Hdin : forall c, c ∈ labels_of tops -> is_Some (d !! c)) by (intros c Hc'; rewrite Hdim by done; eauto).
    assert (Hdeq : d = dims_map tops).
    { apply map_eq. intros c. rewrite dims_map_lookup. case_decide as Hcin; [by apply Hdim|].
      specialize (Hd c). destruct (d !! c) as [s|]; [|done]. destruct Hd as [Hd _]. by apply axes_labels in Hd. }
    assert (Hterm : forall t c, t ∈ ts -> c ∈ t -> c ∈ labels_of tops).
    { intros t c Ht Hct. apply elem_labels_zip; [done|]. eauto. }
    assert (Hinp : forall c, c ∈ (list_to_set (replace s_comma [] inp) : gset N) <-> c ∈ labels_of tops).
    { intros c. rewrite elem_of_list_to_set. unfold s_comma. rewrite replace1, elem_of_list_filter. split.
      - intros [Hne Hcin]. rewrite <-(join_split1 c_comma inp) in Hcin.
        apply elem_of_join in Hcin as [Hcin|(t & Ht & Hct)]; [by apply elem_of_list_singleton in Hcin|]. by eapply Hterm.
      - intros Hcin. apply elem_labels_zip in Hcin as (t & Ht & Hct); [|done]. split.
        + destruct (plain_in ts t c Hpl Ht Hct) as (? & _). done.
        + rewrite <-(join_split1 c_comma inp). by eapply elem_of_join_2. }
    rewrite (mapM_fmap _ (fun t => prod_list (size_of d <$> t))).
    2: { intros t Ht. apply compute_size_ok. intros c Hct. apply Hdin. apply elem_of_app in Ht as [Ht|Ht]; [by eapply Hterm|].
         apply elem_of_list_singleton in Ht as ->. by apply Hout. }
    cbn [mbind res_bind].
    destruct (choose_memory_ok mem ((fun t => prod_list (size_of d <$> t)) <$> (ts ++ [out]))) as [mem' ->]; [done|by destruct ts|].
    cbn [mbind res_bind].
    assert (Hind : (list_to_set (replace s_comma [] inp) : gset N) = union_all (list_to_set <$> ts)).
    { apply set_eq. intros c. rewrite Hinp. unfold tops. rewrite elem_labels_zip by done. rewrite elem_union_all. split.
      - intros (t & Ht & Hct). exists (list_to_set t). split; [by apply elem_of_list_fmap_1|by apply elem_of_list_to_set].
      - intros (s & (t & -> & Ht)%elem_of_list_fmap & Hct). apply elem_of_list_to_set in Hct. eauto. }
    rewrite Hind. unfold flop_count. rewrite (volume_ok d (union_all (list_to_set <$> ts)) _ (ord_ok _)).
    2: { intros c. rewrite <-Hind, Hinp. apply Hdin. }
    cbn [mbind res_bind]. destruct (Hpath mem') as (p & Hp & Hcomp). rewrite <-Hdeq in Hp. rewrite Hp. cbn [mbind res_bind].
    destruct Hcomp as [Hpne Hruns].
    destruct (loop_ok ord ord_ok B B_ok use_blas out d p ts ops) as (steps & Hsteps & Hcore); try done.
    { by rewrite Hlen. }
    rewrite Hsteps. cbn [mbind res_bind].
    rewrite (mapM_fmap _ (fun ks => size_of d <$> ks)).
    2: { intros t Ht. apply mapM_fmap. intros c Hct. destruct (Hdin c) as [s Hs]; [by eapply Hterm|]. unfold size_of. by rewrite Hs. }
    cbn [mbind res_bind]. eexists. split; [reflexivity|]. simpl. split; [done|]. split; [exists mem'; by rewrite <-Hdeq|].
    assert (Hv : steps_valid (length (list_to_set <$> ts : list (gset N))) p) by (rewrite fmap_length, Hlen; by apply path_runs_valid).
    assert (Hsetd : forall s c, s ∈ (list_to_set <$> ts : list (gset N)) -> c ∈ s -> is_Some (d !! c)).
    { intros s c (t & -> & Ht)%elem_of_list_fmap Hct. apply elem_of_list_to_set in Hct. apply Hdin. by eapply Hterm. }
    pose proof (cp_loop_numbers ord use_blas out d p ord_ok _ _ _ _ Hv Hsetd Hsteps) as Hnum.
    assert (Hsizeof : forall c, c ∈ union_all (list_to_set <$> ts) -> size_of d c = dim tops c).
    { intros c. rewrite <-Hind, Hinp. intros Hcin. unfold size_of. by rewrite Hdim. }
    rewrite (step_numbers_ext _ (dim tops)) in Hnum by done.
    assert (Hnum' : forall (X : Type) (f : step_info -> X), (f ∘ snd) <$> steps = (f ∘ step_numbers (dim tops)) <$> replay (list_to_set out) p (list_to_set <$> ts)).
    { intros X f. rewrite !list_fmap_compose. by rewrite Hnum. }
    split; [|split; [done|split]].
    - constructor; simpl.
      + rewrite Hnum'. done.
      + rewrite Hnum'. done.
      + rewrite Hnum'. done.
      + assert (Hsne : (s_size ∘ snd) <$> steps <> []).
        { rewrite Hnum'. by destruct p. }
        destruct ((s_size ∘ snd) <$> steps) as [|x0 xs] eqn:Exs; [done|]. split; [intros x; apply max_list'_ge|by apply max_list'_in].
      + rewrite (volume_ext (size_of d) (dim tops)) by done. f_equal.
        rewrite fmap_length. f_equal. destruct (sum_sizes (list_to_set <$> ts)) as [_ Hss].
        case_bool_decide as E; case_decide as E2; try done; exfalso; tauto.
    - intros He Hsz. unfold info_fits. simpl. apply Forall2_fmap, Forall_Forall2_diag, Forall_forall. intros st Hst. split; [by left|right].
      assert (Hin : s_scale (snd st) ∈ (s_scale ∘ snd) <$> steps) by (by apply (elem_of_list_fmap_1 (s_scale ∘ snd))).
      rewrite Hnum' in Hin. apply elem_of_list_fmap in Hin as (rst & Heq & Hrst). simpl. rewrite Heq. simpl.
      etrans; [|exact Hsz]. apply subseteq_size.
      pose proof (replay_scale (list_to_set out) p (list_to_set <$> ts) Hv) as Hrs. rewrite Forall_forall in Hrs. specialize (Hrs rst Hrst).
      rewrite <-Hind in Hrs. intros c Hcin. apply Hrs, Hinp in Hcin. by apply elem_of_list_to_set.
    - intros Hfit ops' Hops'. unfold info_fits in Hfit. simpl in Hfit.
      destruct (Hcore) with (ops' := ops') as (T & HT & HTeq & vs & Hvs & Hvsz); [|done|].
      { rewrite Forall2_fmap in Hfit. clear -Hfit. induction steps as [|s steps IH]; [constructor|]. inversion_clear Hfit. constructor; auto. }
      exists T. unfold core_contract. rewrite HT. split; [done|]. split; [done|]. exists vs. split; [done|].
      intros Huni. apply Hvsz. intros c x Hcx. rewrite Hdim by by eapply axes_labels. f_equal. apply dim_unique; [|auto].
      intros y Hy. right. by eapply Huni.
  Qed.
End Contract.
