(** Properties C78 and C79: the helpers for equations, and for steps; statements, each with a concrete instance. *)
From stdpp Require Import sorting.
From Verif Require Import Prelude Einsum EinsumFacts EinsumOps Parser Helpers Contract Spec PathSpec StringFacts SymbolFacts ParserFacts ParseSpec ParseProof StepFacts ContractFacts AlphaFacts InterleavedFacts PathFacts ArgFacts TopFacts SsaFacts PropsPaths.

(** ** C78 *)
(** The characters an equation may have without renaming: letters without accents and the four signs. *)
Theorem C78_valid (s : str) : has_valid_einsum_chars_only s = true <-> forall c, c ∈ s -> (97 <= c <= 122)%N \/ (65 <= c <= 90)%N \/ c ∈ syntax.
Proof.
  unfold has_valid_einsum_chars_only. rewrite forallb_forall. assert (H : forall c, is_valid_einsum_char c = true <-> (97 <= c <= 122)%N \/ (65 <= c <= 90)%N \/ c ∈ syntax).
  { intros c. unfold is_valid_einsum_char. rewrite orb_true_iff, !inb_true. split.
    - intros [Hc|Hc]; [|right; right; revert c Hc; apply Forall_forall; apply (bool_decide_unpack _); by vm_compute].
      pose proof base_range as Hb. rewrite Forall_forall in Hb. specialize (Hb c Hc). lia.
    - assert (Hr : forall lo n, Forall (fun c => c ∈ symbols_base) (N.of_nat <$> seq lo n) -> (N.of_nat lo <= c < N.of_nat (lo + n))%N -> c ∈ symbols_base).
      { intros lo n Hf Hc. rewrite Forall_forall in Hf. apply Hf. apply elem_of_list_fmap. exists (N.to_nat c). split; [lia|]. apply elem_of_seq. lia. }
      intros [Hc|[Hc|Hc]]; [left; apply (Hr 97 26); [apply (bool_decide_unpack _); by vm_compute|lia]|left; apply (Hr 65 26); [apply (bool_decide_unpack _); by vm_compute|lia]|right].
      revert c Hr Hc. intros c _. revert c. apply Forall_forall. apply (bool_decide_unpack _). by vm_compute. }
  split; intros Hs c Hc; apply H, Hs; by apply elem_of_list_In.
Qed.
Print Assumptions C78_valid.
(** [convert_to_valid_einsum_chars] renames the labels one to one; with at most 52 labels all characters are then valid, and with at most 26 the labels stay in order, as the implicit output needs.
    Full statement: for all equations (false for the dots of an ellipsis, see below). *)
Theorem C78_converted_partial (s : str) : c_dot ∉ s -> let n := length (remove_dups (filter (.∉ syntax) s)) in
  exists f, relabels f s /\ convert_to_valid_einsum_chars s = f <$> s /\ (n <= 52 -> has_valid_einsum_chars_only (f <$> s) = true) /\
    (n <= 26 -> forall a b, a ∈ s -> b ∈ s -> a ∉ syntax -> b ∉ syntax -> (a < b)%N -> (f a < f b)%N).
Proof.
  intros Hdot n. assert (Hsyn : forall c, c ∈ s -> c ∈ syntax <-> c ∈ lit ",->").
  { intros c Hc. unfold syntax. change (lit ",->") with [c_comma; c_dash; c_gt]. rewrite (elem_of_cons _ c c_dot). split; [intros [->|?]; done|by right]. }
  assert (Hvs : forall c, c ∈ valid_symbols s <-> c ∈ s /\ c ∉ syntax) by (intros c; rewrite elem_valid_symbols; split; intros [H1 H2]; (split; [done|]); by rewrite Hsyn in *).
  assert (Hn : length (valid_symbols s) = n).
  { apply Permutation_length, NoDup_Permutation; [apply NoDup_valid_symbols|apply NoDup_remove_dups|]. intros c. rewrite Hvs, elem_of_remove_dups, elem_of_list_filter. tauto. }
  exists (valid_rename s). split; [split|split; [done|split]].
  - intros c Hc Hs. apply valid_rename_syntax. by apply Hsyn.
  - intros c Hc Hs. destruct (valid_rename_label s c) as (j & _ & ->); [by apply Hvs|]. apply symbol_not_syntax.
  - intros a b Ha Hb E. destruct (decide (a ∈ syntax)) as [Sa|Sa], (decide (b ∈ syntax)) as [Sb|Sb].
    + rewrite !valid_rename_syntax in E by (by apply Hsyn). done.
    + rewrite (valid_rename_syntax s a) in E by (by apply Hsyn). destruct (valid_rename_label s b) as (j & _ & Ej); [by apply Hvs|]. rewrite Ej in E. subst a. by destruct (symbol_not_syntax (N.of_nat j)).
    + rewrite (valid_rename_syntax s b) in E by (by apply Hsyn). destruct (valid_rename_label s a) as (j & _ & Ej); [by apply Hvs|]. rewrite Ej in E. subst b. by destruct (symbol_not_syntax (N.of_nat j)).
    + apply (valid_rename_inj s); [by apply Hvs..|done].
  - intros H52. unfold has_valid_einsum_chars_only. apply forallb_forall. intros c Hc%elem_of_list_In. apply elem_of_list_fmap in Hc as (x & -> & Hx). unfold is_valid_einsum_char. apply orb_true_iff. rewrite !inb_true.
    destruct (decide (x ∈ syntax)) as [Sx|Sx]; [right; rewrite valid_rename_syntax by (by apply Hsyn); apply Hsyn in Sx; [|done]; revert x Hx Sx; intros x _; revert x; apply Forall_forall; apply (bool_decide_unpack _); by vm_compute|].
    left. apply (valid_rename_letter s x); [by apply Hvs|lia].
  - intros H26 a b Ha Hb Sa Sb Hab. destruct (valid_rename_label s a) as (i & Hi & ->); [by apply Hvs|]. destruct (valid_rename_label s b) as (j & Hj & ->); [by apply Hvs|].
    assert (Hso : StronglySorted (≤)%N (valid_symbols s)) by apply sortN_sorted. apply symbol_order; [|apply lookup_lt_Some in Hj; lia].
    destruct (decide (i < j)) as [?|Hij]; [done|]. exfalso. clear -Hso Hi Hj Hab Hij. revert i j Hi Hj Hij. induction Hso as [|x l Hs IH Hx]; intros i j Hi Hj Hij; [done|].
    destruct j as [|j].
    + simpl in Hj. simplify_eq. destruct i as [|i]; simpl in Hi; [simplify_eq; lia|]. rewrite Forall_forall in Hx. apply elem_of_list_lookup_2 in Hi. specialize (Hx _ Hi). lia.
    + destruct i as [|i]; [lia|]. simpl in Hi, Hj. eapply (IH i j); [done|done|lia].
Qed.
Print Assumptions C78_converted_partial.
(** The dots of an ellipsis are taken for a label. *)
Theorem C78_dots_refuted : exists s, render (Eqn [ETerm [] (Some [98%N])] None) = s /\ ~ alpha_equiv s (convert_to_valid_einsum_chars s).
Proof. exists (lit "...b"). split; [done|]. intros (f & [H1 _ _] & E). change (convert_to_valid_einsum_chars (lit "...b")) with (lit "aaab") in E. assert (Hd : f c_dot = c_dot) by (apply H1; set_solver). change (lit "aaab" = [f c_dot; f c_dot; f c_dot; f 98%N]) in E. rewrite Hd in E. done. Qed.
Print Assumptions C78_dots_refuted.
(** With 27 labels the order is lost: [a] to [z] and then [A]. *)
Theorem C78_order_refuted : exists s a b, c_dot ∉ s /\ a ∈ s /\ b ∈ s /\ (a < b)%N /\ forall f, convert_to_valid_einsum_chars s = f <$> s -> (f b < f a)%N.
Proof.
  exists (lit "abcdefghijklmnopqrstuvwxyz" ++ [945%N]), 122%N, 945%N. split; [apply (bool_decide_unpack _); by vm_compute|]. split; [apply (bool_decide_unpack _); by vm_compute|]. split; [apply (bool_decide_unpack _); by vm_compute|]. split; [done|].
  intros f E. set (s := lit "abcdefghijklmnopqrstuvwxyz" ++ [945%N]) in *. assert (E25 : convert_to_valid_einsum_chars s !! 25 = Some (f 122%N)) by (by rewrite E). assert (E26 : convert_to_valid_einsum_chars s !! 26 = Some (f 945%N)) by (by rewrite E).
  vm_compute in E25, E26. injection E25 as <-. injection E26 as <-. done.
Qed.
Print Assumptions C78_order_refuted.
(** [find_output_str]: the characters that occur once, in increasing order. *)
Theorem C78_output (s : str) : StronglySorted N.lt (find_output_str s) /\
  forall c, c ∈ find_output_str s <-> c <> c_comma /\ exists s1 s2, s = s1 ++ c :: s2 /\ c ∉ s1 /\ c ∉ s2.
Proof.
  rewrite find_output_str_spec. set (t := filter (.≠ c_comma) s). split.
  - assert (Hnd : NoDup (sortN (filter (fun c => count c t = 1) t))) by (rewrite sortN_perm; by apply NoDup_filter_count1).
    pose proof (sortN_sorted (filter (fun c => count c t = 1) t)) as Hs. clear -Hnd Hs. induction Hs as [|x l Hs IH Hx]; [constructor|]. apply NoDup_cons in Hnd as [Hn Hnd]. constructor; [by apply IH|].
    rewrite Forall_forall in Hx |- *. intros y Hy. specialize (Hx y Hy). assert (x <> y) by (intros ->; done). lia.
  - intros c. rewrite sortN_perm, elem_of_list_filter. unfold t. rewrite elem_of_list_filter.
    assert (Hcnt : c <> c_comma -> count c (filter (.≠ c_comma) s) = count c s).
    { intros Hne. clear -Hne. induction s as [|x s IH]; [done|]. destruct (decide (x = c_comma)) as [->|Hx].
      - rewrite filter_cons_False by naive_solver. rewrite IH. cbn [count]. by rewrite decide_False by congruence.
      - rewrite filter_cons_True by done. cbn [count]. by rewrite IH. }
    split.
    + intros (H1 & Hne & Hin). split; [done|]. rewrite Hcnt in H1 by done. apply elem_of_list_split in Hin as (s1 & s2 & ->). exists s1, s2. split; [done|].
      rewrite count_app in H1. cbn [count] in H1. rewrite decide_True in H1 by done. split; apply count_zero; lia.
    + intros (Hne & s1 & s2 & -> & H1 & H2). rewrite Hcnt by done. split; [|split; [done|rewrite elem_of_app, elem_of_cons; tauto]].
      apply count_zero in H1, H2. rewrite count_app. cbn [count]. rewrite decide_True by done. lia.
Qed.
Print Assumptions C78_output.
Example C78_instance : c_dot ∉ lit "zb,bX->Xz" /\ convert_to_valid_einsum_chars (lit "zb,bX->Xz") = lit "cb,ba->ac" /\ has_valid_einsum_chars_only (lit "zb,b...->z") = true /\
  has_valid_einsum_chars_only (lit "z b") = false /\ find_output_str (lit "zb,bX,cc") = lit "Xz".
Proof. split; [by apply (bool_decide_unpack _); vm_compute|]. by vm_compute. Qed.

(** ** C79 *)
(** [find_contraction] for distinct positions: the errors, and what it returns if all positions exist. *)
Theorem C79_find_contraction (positions : list nat) (sets : list (gset N)) (output : gset N) : NoDup positions ->
  ((exists i, i ∈ positions /\ length sets <= i) -> find_contraction positions sets output = Err IndexError) /\
  (positions = [] -> find_contraction positions sets output = Err TypeError) /\
  (positions <> [] -> (forall i, i ∈ positions -> i < length sets) ->
   exists result left removed involved, find_contraction positions sets output = Ok (result, left ++ [result], removed, involved) /\
    (forall c, c ∈ involved <-> exists i t, i ∈ positions /\ sets !! i = Some t /\ c ∈ t) /\
    (exists js, StronglySorted lt js /\ (forall j, j ∈ js <-> j < length sets /\ j ∉ positions) /\ Forall2 (fun j t => sets !! j = Some t) js left) /\
    (forall c, c ∈ removed <-> c ∈ involved /\ c ∉ output /\ forall j t, sets !! j = Some t -> c ∈ t -> j ∈ positions) /\
    (forall c, c ∈ result <-> c ∈ involved /\ c ∉ removed)).
Proof.
  intros Hnd. split; [|split].
  - intros (i & Hi & Hl). unfold find_contraction. rewrite <-(sort_desc_perm positions) in Hi. pose proof (sort_desc_sorted positions) as Hs.
    destruct (sort_desc positions) as [|m l]; [by apply elem_of_nil in Hi|]. apply StronglySorted_inv in Hs as [_ Hm]. rewrite Forall_forall in Hm.
    assert (i <= m) by (apply elem_of_cons in Hi as [->|Hi]; [done|by apply Hm]). cbn [pops]. unfold pop_at. by rewrite lookup_ge_None_2 by lia.
  - by intros ->.
  - intros Hne Hr. rewrite find_contraction_spec; [|done|done|by apply Forall_forall]. eexists _, _, _, _. split; [done|]. split; [|split; [|split]].
    + intros c. rewrite elem_union_all. split.
      * intros (t & Ht & Hc). apply elem_chosen in Ht as (i & Hi & Hin). eauto.
      * intros (i & t & Hi & Ht & Hc). exists t. split; [|done]. apply elem_chosen. eauto.
    + exists (filter (.∉ positions) (seq 0 (length sets))). split; [|split].
      * apply StronglySorted_filter. clear. generalize 0. induction (length sets) as [|n IH]; intros k; [constructor|]. cbn [seq]. constructor; [apply IH|]. apply Forall_forall. intros x Hx. apply elem_of_seq in Hx. lia.
      * intros j. rewrite elem_of_list_filter, elem_of_seq. intuition lia.
      * unfold others. set (Q := fun (j : nat) (t : gset N) => sets !! j = Some t).
        assert (G : forall l k, (forall j t, l !! j = Some t -> sets !! (k + j) = Some t) -> Forall2 Q (filter (.∉ positions) (seq k (length l))) (filter (fun p => p.1 ∉ positions) (zip (seq k (length l)) l)).*2).
        { induction l as [|x l IH]; intros k Hk; [constructor|]. assert (Hk' : forall j t, l !! j = Some t -> sets !! (S k + j) = Some t) by (intros j t Hj; replace (S k + j) with (k + S j) by lia; by apply Hk).
          cbn [length seq zip zip_with]. rewrite !filter_cons. cbn [fst]. destruct (decide (k ∉ positions)) as [Hp|Hp]; [|by apply IH].
          constructor; [|by apply IH]. unfold Q. rewrite <-(Nat.add_0_r k). by apply Hk. }
        by apply G.
    + intros c. rewrite elem_of_difference. unfold kept. rewrite elem_of_intersection, elem_of_union, elem_union_all, (elem_union_all c (others _ _)). split.
      * intros [H1 H2]. split; [done|]. split; [naive_solver|]. intros j t Hj Hc. destruct (decide (j ∈ positions)) as [?|Hn]; [done|]. exfalso. apply H2. split; [done|]. right. exists t. split; [|done]. apply elem_others. eauto.
      * intros (H1 & H2 & H3). split; [done|]. intros [_ [Ho|(t & Ht & Hc)]]; [done|]. apply elem_others in Ht as (i & Hi & Hn). by apply Hn, (H3 i t).
    + intros c. rewrite elem_of_difference. unfold kept. set (U := union_all (chosen positions sets)). rewrite elem_of_intersection. destruct (decide (c ∈ output ∪ union_all (others positions sets))); tauto.
Qed.
Print Assumptions C79_find_contraction.
Lemma NoDup_tuples (tuples : list (list nat)) (n : nat) : NoDup tuples -> forall k, NoDup (seq k n ≫= fun i => cons i <$> tuples).
Proof.
  intros Hnd. induction n as [|n IH]; intros k; [constructor|]. cbn [seq]. rewrite bind_cons. apply NoDup_app. split; [apply NoDup_fmap_2; [by intros ? ? [= ->]|done]|]. split; [|apply IH].
  intros v Hv Hw. apply elem_of_list_fmap in Hv as (u & -> & _). apply elem_of_list_bind in Hw as (i & Hi & Hs). apply elem_of_list_fmap in Hi as (u' & E & _). injection E as <- _. apply elem_of_seq in Hs. lia.
Qed.
(** [compute_size_by_dict] counts the values of the indices together; a label without size is a KeyError. *)
Theorem C79_size (labels : list N) (d : gmap N nat) :
  ((exists c, c ∈ labels /\ d !! c = None) -> compute_size_by_dict labels d = Err KeyError) /\
  (forall dims, Forall2 (fun c n => d !! c = Some n) labels dims -> exists tuples, NoDup tuples /\ (forall v, v ∈ tuples <-> Forall2 lt v dims) /\ compute_size_by_dict labels d = Ok (length tuples)).
Proof.
  split.
  - intros (c & Hc & Hd). unfold compute_size_by_dict. generalize 1. induction labels as [|x l IH]; intros a; [by apply elem_of_nil in Hc|]. cbn [foldM_res]. destruct (d !! x) as [n|] eqn:Ex; [|done].
    cbn [of_opt mbind res_bind]. apply IH. apply elem_of_cons in Hc as [->|?]; [congruence|done].
  - intros dims Hd. rewrite compute_size_ok.
    + assert (E : size_of d <$> labels = dims). { induction Hd as [|c n l k Hc _ IH]; [done|]. rewrite fmap_cons, IH. f_equal. unfold size_of. by rewrite Hc. }
      rewrite E. clear. induction dims as [|n dims (tuples & Hnd & Hin & Hlen)].
      * exists [[]]. split; [apply NoDup_singleton|]. split; [|done]. intros v. rewrite elem_of_list_singleton. split; [by intros ->|]. by intros H%Forall2_nil_inv_r.
      * injection Hlen as Hlen. exists (seq 0 n ≫= fun i => cons i <$> tuples). split; [|split].
        -- by apply NoDup_tuples.
        -- intros v. rewrite elem_of_list_bind. split.
           ++ intros (i & (u & -> & Hu)%elem_of_list_fmap & Hi%elem_of_seq). constructor; [lia|by apply Hin].
           ++ intros (i & u & Hi & Hu & ->)%Forall2_cons_inv_r. exists i. split; [apply elem_of_list_fmap_1; by apply Hin|]. apply elem_of_seq. lia.
        -- cbn [prod_list]. rewrite Hlen. f_equal. assert (G : forall k, length (seq k n ≫= fun i => cons i <$> tuples) = n * length tuples); [|by rewrite G].
           clear. induction n as [|n IH]; intros k; [done|]. cbn [seq mbind list_bind]. rewrite app_length, fmap_length. cbn [mbind list_bind] in IH. rewrite IH. done.
    + intros c Hc. apply elem_of_list_lookup in Hc as (i & Hi). destruct (Forall2_lookup_l _ _ _ _ _ Hd Hi) as (n & _ & Hn). eauto.
Qed.
Print Assumptions C79_size.
(** [flop_count]: for every value of the indices one multiplication less than there are terms, but at least one operation, and an addition if labels are summed; it is told a step of
    [find_contraction] by its indices, whether some are removed, and the number of terms. *)
Theorem C79_flops (positions : list nat) (sets : list (gset N)) (output result removed involved : gset N) (left : list (gset N)) (d : gmap N nat) (indices : list N) :
  NoDup positions -> find_contraction positions sets output = Ok (result, left, removed, involved) -> indices ≡ₚ elements involved -> (forall c, c ∈ involved -> is_Some (d !! c)) ->
  exists size, compute_size_by_dict indices d = Ok size /\
    flop_count indices (bool_decide (removed <> ∅)) (length positions) d = Ok (size * ((if decide (length positions = 1) then 1 else length positions - 1) + (if decide (involved ⊆ result) then 0 else 1))).
Proof.
  intros Hnd Hf Hi Hd. destruct (C79_find_contraction positions sets output Hnd) as (E1 & E2 & E3).
  assert (Hne : positions <> []) by (intros E; rewrite E2 in Hf by done; discriminate).
  assert (Hr : forall i, i ∈ positions -> i < length sets). { intros i Hin. destruct (decide (i < length sets)) as [?|Hn]; [done|]. rewrite E1 in Hf; [discriminate|]. exists i. split; [done|lia]. }
  destruct (E3 Hne Hr) as (result' & left' & removed' & involved' & E & _ & _ & _ & Hres). rewrite E in Hf. injection Hf as <- <- <- <-.
  assert (Hrem : removed' ⊆ involved'). { rewrite find_contraction_spec in E; [|done|done|by apply Forall_forall]. injection E as _ _ <- <-. set_solver. }
  exists (volume (size_of d) involved'). assert (Hs : compute_size_by_dict indices d = Ok (volume (size_of d) involved')) by (by apply volume_ok). split; [done|].
  unfold flop_count. rewrite Hs. cbn [mbind res_bind]. do 2 f_equal. f_equal.
  - destruct positions as [|a [|b l]]; [done|done|]. cbn [length]. rewrite decide_False by lia. lia.
  - destruct (decide (involved' ⊆ result')) as [Hsub|Hsub].
    + rewrite bool_decide_false; [done|]. intros Hx. apply Hx. apply set_eq. intros c. split; [|set_solver]. intros Hc. assert (Hcr : c ∈ result') by (apply Hsub, Hrem, Hc). apply Hres in Hcr as [_ ?]. done.
    + rewrite bool_decide_true; [done|]. intros Hx. apply Hsub. intros c Hc. apply Hres. split; [done|]. rewrite Hx. set_solver.
Qed.
Print Assumptions C79_flops.
(** The examples of the documentation. *)
Example C79_instance : NoDup [0; 2] /\ match find_contraction [0; 2] [lset "abd"; lset "ac"; lset "bdc"] (lset "ac") with Ok (r, l, x, y) => bool_decide (r = lset "ac" /\ l = [lset "ac"; lset "ac"] /\ x = lset "bd" /\ y = lset "abcd") | Err _ => false end = true /\
  find_contraction [0; 3] [lset "abd"; lset "ac"; lset "bdc"] (lset "ac") = Err IndexError /\ find_contraction [] [lset "ab"] (lset "a") = Err TypeError /\
  compute_size_by_dict (lit "abbc") (ldict [("a", 2); ("b", 3); ("c", 5)]%string) = Ok 90 /\ compute_size_by_dict (lit "ax") (ldict [("a", 2)]%string) = Err KeyError /\
  flop_count (lit "abc") false 1 (ldict [("a", 2); ("b", 3); ("c", 5)]%string) = Ok 30 /\ flop_count (lit "abc") true 2 (ldict [("a", 2); ("b", 3); ("c", 5)]%string) = Ok 60.
Proof.
  split; [apply (bool_decide_unpack _); by vm_compute|]. by vm_compute.
Qed.
