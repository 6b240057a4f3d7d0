(** The greedy search returns a complete path for every cost function and every chooser that makes progress. *)
From Verif Require Import Prelude Einsum EinsumFacts Helpers Contract Spec PathSpec StringFacts StepFacts ContractFacts PathFacts Ssa SsaSpec SsaFacts SsaMore Optimal OptimalFacts Branch BranchFacts Greedy.

(** What a chooser must do: only remove entries; return a current entry, or [None] after removing at least one. *)
Definition chooser_ok (choose : chooser) : Prop := forall k q rem, q <> [] ->
  exists o q', choose k q rem = Ok (o, q') /\ q' ⊆+ q /\
    match o with
    | None => length q' < length q
    | Some c => c ∈ q /\ is_Some (rem !! q_k1 c) /\ is_Some (rem !! q_k2 c)
    end.

(** ** The choosers *)
Lemma pop_min_ok q : q <> [] -> exists c q', pop_min q = Some (c, q') /\ q ≡ₚ c :: q'.
Proof.
  intros Hq. unfold pop_min. pose proof (merge_sort_Permutation gcand_le q) as Hp. destruct (merge_sort gcand_le q) as [|c q'].
  - by apply Permutation_nil_l in Hp.
  - exists c, q'. done.
Qed.
Lemma obsolete_false rem c : obsolete rem c = false -> is_Some (rem !! q_k1 c) /\ is_Some (rem !! q_k2 c).
Proof.
  unfold obsolete. intros [H1 H2]%orb_false_iff. apply bool_decide_eq_false in H1, H2.
  split; by apply not_eq_None_Some.
Qed.
Lemma simple_chooser_ok : chooser_ok simple_chooser.
Proof.
  intros k q rem Hq. unfold simple_chooser. destruct (pop_min_ok q Hq) as (c & q' & -> & Hp). eexists _, _. split; [done|].
  split; [rewrite Hp; by apply submseteq_cons|]. destruct (obsolete rem c) eqn:E; [rewrite Hp; simpl; lia|]. split; [rewrite Hp; left|]. by apply obsolete_false.
Qed.
Lemma thermal_take_ok b rem q l r : thermal_take b rem q = (l, r) -> l ++ r ⊆+ q /\ Forall (fun c => obsolete rem c = false) l /\ (1 <= b -> l = [] -> r = []).
Proof.
  revert b l r. induction q as [|c q IH]; intros b l r H; destruct b as [|b]; simpl in H.
  - simplify_eq. split; [done|]. split; [done|]. done.
  - simplify_eq. split; [done|]. split; [done|]. done.
  - simplify_eq. split; [done|]. split; [done|]. lia.
  - destruct (obsolete rem c) eqn:E.
    + destruct (IH (S b) l r H) as (H1 & H2 & H3). split; [by apply submseteq_cons|done].
    + destruct (thermal_take b rem q) as [l' r'] eqn:Et. simplify_eq. destruct (IH b l' r Et) as (H1 & H2 & H3). split; [by apply submseteq_skip|]. split; [by constructor|done].
Qed.
Lemma thermal_chooser_ok b pick : 1 <= b -> (forall k l, l <> [] -> pick k l < length l) -> chooser_ok (thermal_chooser b pick).
Proof.
  intros Hb Hpick k q rem Hq. unfold thermal_chooser. destruct (thermal_take b rem (merge_sort gcand_le q)) as [l r] eqn:E.
  apply thermal_take_ok in E as (H1 & H2 & H3). rewrite (merge_sort_Permutation gcand_le q) in H1. rewrite Forall_forall in H2.
  assert (Hsome : forall c, c ∈ l -> c ∈ q /\ is_Some (rem !! q_k1 c) /\ is_Some (rem !! q_k2 c)).
  { intros c Hc. split; [|by apply obsolete_false, H2]. eapply elem_of_submseteq; [|exact H1]. apply elem_of_app. by left. }
  destruct l as [|c1 [|c2 l]].
  - eexists _, _. split; [done|]. simpl in H1. split; [done|]. rewrite (H3 Hb eq_refl). destruct q; [done|simpl; lia].
  - eexists _, _. split; [done|]. split; [etrans; [|exact H1]; by apply submseteq_cons|]. apply Hsome. left.
  - destruct (lookup_lt_is_Some_2 (c1 :: c2 :: l) (pick k (c1 :: c2 :: l))) as [c Hc]; [by apply Hpick|]. rewrite Hc.
    eexists _, _. split; [done|]. split; [|apply Hsome; by eapply elem_of_list_lookup_2].
    etrans; [|exact H1]. rewrite (Permutation_app_comm r). apply submseteq_skips_r, sublist_submseteq, sublist_delete.
Qed.

(** ** Live operands *)
Definition live (n : nat) (p : path) (L : list nat) : Prop := ssa_valid (seq 0 n) n p /\ L ≡ₚ ssa_after (seq 0 n) n p /\ pairwise p.
Lemma live_perm n p L L' : L ≡ₚ L' -> live n p L -> live n p L'.
Proof. intros H (H1 & H2 & H3). split; [done|]. by rewrite <-H. Qed.
#[global] Instance live_proper n p : Proper (Permutation ==> iff) (live n p).
Proof. intros L L' H. split; apply live_perm; done. Qed.
Lemma live_NoDup n p L : live n p L -> NoDup L.
Proof. intros (_ & H & _). rewrite H. apply asc_NoDup. apply ssa_after_asc; [apply asc_seq|apply seq_lt]. Qed.
Lemma live_step n p a b L : live n p (a :: b :: L) -> live n (p ++ [[a; b]]) (n + length p :: L).
Proof.
  intros H. pose proof (live_NoDup _ _ _ H) as Hnd. destruct H as (Hv & Hp & Hpw). apply NoDup_cons in Hnd as [Ha Hnd]. apply NoDup_cons in Hnd as [Hb Hnd].
  split; [|split; [|apply Forall_app; split; [done|by repeat constructor]]].
  - apply ssa_valid_snoc. split; [done|]. split; [done|]. split; [apply NoDup_cons; split; [set_solver|apply NoDup_singleton]|].
    intros i Hi. rewrite <-Hp. set_solver.
  - rewrite ssa_after_snoc, <-Hp, Permutation_app_comm. simpl. constructor.
    rewrite !filter_cons, !decide_False by set_solver.
    assert (Hf : filter (.∉ [a; b]) L = L); [|by rewrite Hf]. clear -Ha Hb. induction L as [|x L IH]; [done|]. rewrite filter_cons, decide_True by set_solver.
    f_equal. apply IH; set_solver.
Qed.
Lemma live_one n p i : live n p [i] -> ssa_complete n p /\ pairwise p.
Proof. intros (Hv & Hp & Hpw). split; [|done]. apply ssa_runs_valid. split; [done|]. by rewrite <-Hp. Qed.
Lemma live_start n : live n [] (seq 0 n).
Proof. done. Qed.

(** ** Registered keys *)
Ltac keys := repeat match goal with
  | H : _ ∈ _ ∖ _ |- _ => apply elem_of_difference in H as [? ?]
  | H : _ ∈ _ ∪ _ |- _ => apply elem_of_union in H as [?|?]
  | H : _ ∈ {[_]} |- _ => apply elem_of_singleton in H
  | H : _ ∉ {[_]} |- _ => rewrite elem_of_singleton in H
  | |- _ <-> _ => split; intros ?
  | |- _ ∈ _ ∖ _ => apply elem_of_difference; split
  | |- _ ∈ _ ∪ {[_]} => apply elem_of_union; first [by right; apply elem_of_singleton | left]
  | |- _ ∉ {[_]} => rewrite elem_of_singleton
  end; try first [done | congruence].
Section Keys.
  Variable output : gset N.
  Definition registered (rem : gmap key nat) (dims : gmap N (gset key)) : Prop :=
    forall c k, k ∈ keys_of dims c <-> is_Some (rem !! k) /\ c ∈ k ∖ output.
  Lemma keys_insert dims c c' v : keys_of (<[c := v]> dims) c' = if decide (c = c') then v else keys_of dims c'.
  Proof. unfold keys_of. destruct (decide (c = c')) as [->|Hn]; [by rewrite lookup_insert|by rewrite lookup_insert_ne]. Qed.
  Lemma remove_keys_ok k dims l : NoDup l -> (forall c, c ∈ l -> k ∈ keys_of dims c) ->
    exists dims', foldM_res (remove_key k) dims l = Ok dims' /\ forall c, keys_of dims' c = if decide (c ∈ l) then keys_of dims c ∖ {[k]} else keys_of dims c.
  Proof.
    intros Hnd. revert dims. induction Hnd as [|c l Hc Hnd IH]; intros dims Hl; cbn [foldM_res].
    - exists dims. split; done.
    - assert (Hr : remove_key k dims c = Ok (<[c := keys_of dims c ∖ {[k]}]> dims)) by (unfold remove_key; rewrite decide_True by (apply Hl; left); done).
      rewrite Hr. cbn [mbind res_bind].
      destruct (IH (<[c:=keys_of dims c ∖ {[k]}]> dims)) as (dims' & -> & H').
      { intros c' Hc'. rewrite keys_insert, decide_False by (intros ->; done). apply Hl. by right. }
      exists dims'. split; [done|]. intros c'. rewrite H', keys_insert. destruct (decide (c = c')) as [->|Hn].
      + rewrite decide_False by done. rewrite decide_True by left. done.
      + destruct (decide (c' ∈ l)); [by rewrite decide_True by by right|]. rewrite decide_False; [done|]. intros [->|?]%elem_of_cons; done.
  Qed.
  Lemma add_keys k dims l c : keys_of (foldl (add_key k) dims l) c = if decide (c ∈ l) then keys_of dims c ∪ {[k]} else keys_of dims c.
  Proof.
    revert dims. induction l as [|c' l IH]; intros dims; [done|]; cbn [foldl].
    rewrite IH. unfold add_key. rewrite !keys_insert. destruct (decide (c' = c)) as [->|Hn].
    - assert (c ∈ c :: l) by left. repeat case_decide; try done. set_solver.
    - destruct (decide (c ∈ l)); [by rewrite decide_True by by right|]. rewrite decide_False; [done|]. intros [->|?]%elem_of_cons; done.
  Qed.
  Lemma init_dims_elem keys c k : k ∈ keys_of (init_dims output keys) c <-> k ∈ keys /\ c ∈ k ∖ output.
  Proof.
    unfold init_dims. assert (Hgen : forall l m, k ∈ keys_of (foldl (fun m k => foldl (add_key k) m (elements (k ∖ output))) m l) c <-> k ∈ keys_of m c \/ (k ∈ l /\ c ∈ k ∖ output)).
    { induction l as [|k' l IH]; intros m; simpl; [split; [by left|by intros [?|[H%elem_of_nil _]]]|]. rewrite IH, add_keys. case_decide as Hd.
      - rewrite elem_of_elements in Hd. rewrite elem_of_cons, elem_of_union, elem_of_singleton. split; [intros [[?| ->]|[? ?]]; eauto 6|intros [?|[[->|?] ?]]; eauto].
      - rewrite elem_of_elements in Hd. rewrite elem_of_cons. split; [intros [?|[? ?]]; eauto|]. intros [?|[[->|?] ?]]; [by left|done|by right]. }
    rewrite Hgen. unfold keys_of. rewrite lookup_empty. simpl. split; [by intros [?%elem_of_empty|?]|by right].
  Qed.
End Keys.

Section Ok.
  Variable cost_fn : cost_fun.
  Variable choose : chooser.
  Hypothesis Hchoose : chooser_ok choose.
  Variable push_all : bool.
  Variable output : gset N.
  Variable d : sizes.
  Variable n : nat.

  Definition gcand_ok (c : gcand) : Prop := q_k1 c <> q_k2 c /\ labels_in d (q_k12 c).
  Record g_ok (st : gstate) : Prop := GOk {
    go_live : live n (g_path st) ((map_to_list (g_rem st)).*2);
    go_next : g_next st = n + length (g_path st);
    go_reg : registered output (g_rem st) (g_dims st);
    go_foot : forall k, is_Some (g_rem st !! k) -> is_Some (g_foot st !! k);
    go_labels : forall k, is_Some (g_rem st !! k) -> labels_in d k;
    go_queue : Forall gcand_ok (g_queue st);
    go_some : g_rem st <> ∅ }.

  Lemma get_candidates_ok st calls k1 k2s : g_ok st -> is_Some (g_rem st !! k1) -> (forall k2, k2 ∈ k2s -> is_Some (g_rem st !! k2) /\ k2 <> k1) ->
    exists cs, get_candidates cost_fn output d st calls k1 k2s = Ok cs /\ length cs = length k2s /\ Forall gcand_ok cs.
  Proof.
    intros Hs H1. revert calls. induction k2s as [|k2 k2s IH]; intros calls H2; [by exists []|]. simpl.
    destruct (H2 k2) as [Hk2 Hne]; [left|].
    assert (Hlab : labels_in d ((k1 ∪ k2) ∩ output ∪ (k1 ∩ k2 ∩ g_ref3 st) ∪ ((k1 ∪ k2) ∖ (k1 ∩ k2) ∩ g_ref2 st))).
    { intros c Hc. destruct (decide (c ∈ k1)) as [Hc1|Hc1]; [by eapply (go_labels _ Hs k1)|]. eapply (go_labels _ Hs k2); [done|]. set_solver. }
    unfold get_candidate. destruct (set_size_ok d _ Hlab) as [s12 ->]. cbn [mbind res_bind].
    destruct (go_foot _ Hs k1 H1) as [f1 ->]. destruct (go_foot _ Hs k2 Hk2) as [f2 ->]. destruct H1 as [i1 Hi1]. destruct Hk2 as [i2 Hi2].
    rewrite Hi1, Hi2. cbn [of_opt mbind res_bind]. destruct (IH (S calls)) as (cs & -> & Hl & Hc); [intros; apply H2; by right|]. cbn [mbind res_bind].
    eexists. split; [done|]. split; [simpl; by rewrite Hl|]. constructor; [|done]. destruct (i2 <? i1); split; simpl; try done; congruence.
  Qed.
  Lemma push_candidate_ok st k1 k2s : g_ok st -> is_Some (g_rem st !! k1) -> k2s <> [] -> (forall k2, k2 ∈ k2s -> is_Some (g_rem st !! k2) /\ k2 <> k1) ->
    exists st', push_candidate cost_fn push_all output d st k1 k2s = Ok st' /\ g_ok st' /\ g_rem st' = g_rem st /\ length (g_queue st') <= length (g_queue st) + length k2s.
  Proof.
    intros Hs H1 Hne H2. unfold push_candidate. destruct (get_candidates_ok st (g_calls st) k1 k2s Hs H1 H2) as (cs & -> & Hl & Hc). cbn [mbind res_bind].
    assert (Hnew : exists new, (if push_all then Ok cs else c ← min_cand cs; Ok [c]) = Ok new /\ Forall gcand_ok new /\ length new <= length k2s).
    { destruct push_all; [exists cs; split; [done|]; split; [done|lia]|]. unfold min_cand. destruct (pop_min_ok cs) as (c & q' & -> & Hp); [by destruct cs, k2s|].
      cbn [mbind res_bind]. exists [c]. split; [done|]. split; [|destruct k2s; [done|simpl; lia]]. rewrite Hp in Hc. apply Forall_cons in Hc as [Hc _]. by constructor. }
    destruct Hnew as (new & -> & Hn & Hln). cbn [mbind res_bind]. eexists. split; [done|]. split; [|split; [done|simpl; rewrite app_length; lia]].
    destruct Hs. split; simpl; try done. apply Forall_app. done.
  Qed.

  Lemma ids_delete (m : gmap key nat) k i : m !! k = Some i -> (map_to_list m).*2 ≡ₚ i :: (map_to_list (delete k m)).*2.
  Proof. intros H. rewrite <-(map_to_list_delete m k i H). done. Qed.
  Lemma ids_insert (m : gmap key nat) k i : m !! k = None -> (map_to_list (<[k := i]> m)).*2 ≡ₚ i :: (map_to_list m).*2.
  Proof. intros H. rewrite map_to_list_insert by done. done. Qed.

  Lemma greedy_step_ok st con : g_ok st -> gcand_ok con -> is_Some (g_rem st !! q_k1 con) -> is_Some (g_rem st !! q_k2 con) ->
    exists st', greedy_step cost_fn push_all output d st con = Ok st' /\ g_ok st' /\ S (size (g_rem st')) <= size (g_rem st) /\
      length (g_queue st') <= length (g_queue st) + size (g_rem st').
  Proof.
    intros Hs [Hne Hlab] [id1 H1] [id2 H2]. unfold greedy_step. set (k1 := q_k1 con) in *. set (k2 := q_k2 con) in *. set (k12 := q_k12 con) in *.
    rewrite H1. cbn [of_opt mbind res_bind]. rewrite (lookup_delete_ne (g_rem st) k1 k2) by exact Hne. rewrite H2. cbn [of_opt mbind res_bind].
    destruct (remove_keys_ok k1 (g_dims st) (elements (k1 ∖ output))) as (dims1 & -> & Hd1); [apply NoDup_elements| |].
    { intros c Hc%elem_of_elements. apply (go_reg _ Hs). eauto. }
    cbn [mbind res_bind]. destruct (remove_keys_ok k2 dims1 (elements (k2 ∖ output))) as (dims2 & -> & Hd2); [apply NoDup_elements| |].
    { intros c Hc%elem_of_elements. rewrite Hd1. assert (k2 ∈ keys_of (g_dims st) c) by (apply (go_reg _ Hs); eauto). case_decide; keys. }
    cbn [mbind res_bind]. set (rem := delete k2 (delete k1 (g_rem st))).
    assert (Hreg2 : registered output rem dims2).
    { intros c k. rewrite Hd2, Hd1. pose proof (go_reg _ Hs c k) as Hr. unfold rem.
      destruct (decide (k = k1)) as [->|Hk1]; [|destruct (decide (k = k2)) as [->|Hk2]].
      - rewrite lookup_delete_ne, lookup_delete by done. split; [|intros [[? ?] ?]; done].
        intros Hin. exfalso. assert (Hin' : k1 ∈ (if decide (c ∈ elements (k1 ∖ output)) then keys_of (g_dims st) c ∖ {[k1]} else keys_of (g_dims st) c)) by (destruct (decide (c ∈ elements (k2 ∖ output))); keys).
        case_decide as E; [keys|]. apply Hr in Hin' as [_ Hc]. by rewrite elem_of_elements in E.
      - rewrite lookup_delete. split; [|intros [[? ?] ?]; done]. intros Hin. exfalso. case_decide as E; [keys|].
        assert (Hin' : k2 ∈ keys_of (g_dims st) c) by (case_decide; keys). apply Hr in Hin' as [_ Hc]. by rewrite elem_of_elements in E.
      - rewrite !lookup_delete_ne by done. rewrite <-Hr. repeat case_decide; keys. }
    assert (Hlive : live n (g_path st ++ [[id1; id2]]) (n + length (g_path st) :: (map_to_list rem).*2)).
    { apply live_step. eapply live_perm; [|apply (go_live _ Hs)]. unfold rem. rewrite (ids_delete _ k1 id1 H1). constructor.
      by rewrite (ids_delete _ k2 id2) by by rewrite lookup_delete_ne. }
    assert (Hsz : size (g_rem st) = S (S (size rem))).
    { assert (H2' : delete k1 (g_rem st) !! k2 = Some id2) by (rewrite lookup_delete_ne by exact Hne; done).
      pose proof (Permutation_length (map_to_list_delete _ _ _ H1)) as P1. pose proof (Permutation_length (map_to_list_delete _ _ _ H2')) as P2.
      cbn [List.length] in P1, P2. fold rem in P2. unfold size, map_size. lia. }
    (* the result, merged with an equal label set if there is one *)
    set (next := g_next st). assert (Hn : next = n + length (g_path st)) by apply Hs.
    assert (Hres : exists p nx dims, match rem !! k12 with
        | Some id => ((g_path st ++ [[id1; id2]]) ++ [[id; next]], S next, dims2)
        | None => (g_path st ++ [[id1; id2]], next, foldl (add_key k12) dims2 (elements (k12 ∖ output))) end = (p, nx, dims) /\
        live n p ((map_to_list (<[k12 := nx]> rem)).*2) /\ S nx = n + length p /\ registered output (<[k12 := nx]> rem) dims /\ size (<[k12 := nx]> rem) <= S (size rem)).
    { destruct (rem !! k12) as [id|] eqn:E.
      - eexists _, _, _. split; [done|]. split; [|split; [rewrite !app_length; simpl; lia|split]].
        + assert (Hl2 : live n ((g_path st ++ [[id1; id2]]) ++ [[id; next]]) (n + length (g_path st ++ [[id1; id2]]) :: (map_to_list (delete k12 rem)).*2)).
          { apply live_step. eapply live_perm; [|exact Hlive]. rewrite (ids_delete _ _ _ E), Hn. constructor. }
          eapply live_perm; [|exact Hl2]. rewrite <-insert_delete_insert, ids_insert by apply lookup_delete. rewrite app_length. simpl. rewrite Hn. by replace (n + (length (g_path st) + 1)) with (S (n + length (g_path st))) by lia.
        + intros c k. rewrite (Hreg2 c k). destruct (decide (k = k12)) as [->|Hk]; [|by rewrite lookup_insert_ne]. rewrite lookup_insert, E. split; intros [_ ?]; eauto.
        + rewrite map_size_insert_Some by eauto. lia.
      - eexists _, _, _. split; [done|]. split; [|split; [rewrite !app_length; simpl; lia|split]].
        + eapply live_perm; [|exact Hlive]. by rewrite ids_insert, Hn by done.
        + intros c k. rewrite add_keys. destruct (decide (k = k12)) as [->|Hk].
          * rewrite lookup_insert. case_decide as Ed; rewrite elem_of_elements in Ed; [split; [by eauto|intros _; apply elem_of_union; right; by apply elem_of_singleton]|]. rewrite (Hreg2 c k12), E. split; [intros [[? ?] ?]; done|intros [_ ?]; done].
          * rewrite lookup_insert_ne by done. rewrite <-(Hreg2 c k). case_decide; keys.
        + rewrite map_size_insert_None by done. lia. }
    destruct Hres as (p & nx & dims & -> & Hl & Hnx & Hreg & Hsz2).
    destruct (update_ref_counts dims (g_ref2 st, g_ref3 st) (elements (k1 ∪ k2 ∖ output))) as [ref2 ref3].
    destruct (set_size_ok d k12 Hlab) as [s12 Hs12]. rewrite Hs12. cbn [mbind res_bind].
    set (st1 := GState _ _ _ _ _ _ _ _ _ _).
    assert (Hst1 : g_ok st1).
    { split; simpl; try done.
      - intros k. destruct (decide (k = k12)) as [->|Hk]; [rewrite !lookup_insert; eauto|]. rewrite !lookup_insert_ne by done. unfold rem. intros [i [_ [_ Hi]%lookup_delete_Some]%lookup_delete_Some].
        apply Hs. eauto.
      - intros k. destruct (decide (k = k12)) as [->|Hk]; [done|]. rewrite !lookup_insert_ne by done. unfold rem. intros [i [_ [_ Hi]%lookup_delete_Some]%lookup_delete_Some].
        apply Hs. eauto.
      - apply Hs.
      - apply insert_non_empty. }
    assert (Hk2s : forall k, k ∈ elements ((⋃ (keys_of dims <$> elements k12) : gset key) ∖ {[k12]}) -> is_Some (g_rem st1 !! k) /\ k <> k12).
    { intros k [Hk Hn12]%elem_of_elements%elem_of_difference. split; [|by rewrite elem_of_singleton in Hn12]. apply elem_of_union_list in Hk as (X & HX & Hk).
      apply elem_of_list_fmap in HX as (c & -> & _). apply Hreg in Hk as [Hk _]. done. }
    assert (Hcount : length (elements ((⋃ (keys_of dims <$> elements k12) : gset key) ∖ {[k12]})) <= size (g_rem st1)).
    { change (size ((⋃ (keys_of dims <$> elements k12) : gset key) ∖ {[k12]}) <= size (g_rem st1)). rewrite <-(size_dom (D := gset key)). apply (subseteq_size (C := gset key)). intros k Hk. apply elem_of_dom. apply Hk2s. by apply elem_of_elements. }
    destruct (decide ((⋃ (keys_of dims <$> elements k12) : gset key) ∖ {[k12]} = ∅)) as [Hemp|Hnemp].
    - exists st1. split; [done|]. split; [done|]. simpl in *. split; lia.
    - destruct (push_candidate_ok st1 k12 (elements ((⋃ (keys_of dims <$> elements k12) : gset key) ∖ {[k12]})) Hst1) as (st2 & -> & Hst2 & Hrem & Hq).
      + simpl. rewrite lookup_insert. eauto.
      + intros He. apply Hnemp. by apply leibniz_equiv, elements_empty_inv.
      + done.
      + exists st2. split; [done|]. split; [done|]. rewrite Hrem. simpl in *. split; lia.
  Qed.

  Lemma greedy_loop_ok m fuel st : g_ok st -> size (g_rem st) <= m -> length (g_queue st) + size (g_rem st) * (m + 1) <= fuel ->
    exists st', greedy_loop cost_fn choose push_all output d fuel st = Ok st' /\ g_ok st'.
  Proof.
    revert st. induction fuel as [|fuel IH]; intros st Hs Hm Hf; simpl; destruct (g_queue st) as [|c0 q0] eqn:Eq; try by eauto.
    - simpl in Hf. lia.
    - rewrite <-Eq. destruct (Hchoose (g_choices st) (g_queue st) (g_rem st)) as (o & q' & -> & Hsub & Ho); [by rewrite Eq|]. cbn [mbind res_bind].
      assert (Hq' : Forall gcand_ok q').
      { apply Forall_forall. intros c Hc. pose proof (go_queue _ Hs) as Hall. rewrite Forall_forall in Hall. apply Hall. by eapply elem_of_submseteq. }
      pose proof (submseteq_length _ _ Hsub) as Hlen.
      assert (Hs' : forall ch, g_ok (GState (g_rem st) (g_dims st) (g_ref2 st) (g_ref3 st) (g_foot st) q' (g_path st) (g_next st) (g_calls st) ch)) by (intros ch; destruct Hs; by split).
      rewrite <-Eq in Hf. destruct o as [con|].
      + destruct Ho as (Hin & H1 & H2). assert (Hcon : gcand_ok con) by (pose proof (go_queue _ Hs) as Hall; rewrite Forall_forall in Hall; by apply Hall).
        destruct (greedy_step_ok _ con (Hs' (S (g_choices st))) Hcon H1 H2) as (st1 & -> & Hs1 & Hsz & Hq1). cbn [mbind res_bind]. simpl in *.
        apply IH; [done|lia|]. nia.
      + apply IH; [done|done|]. simpl. lia.
  Qed.

  Lemma outer_loop_ok fuel id1 k1 q p next : length q <= fuel -> live n p (id1 :: ((fun e : nat * nat * key => e.1.2) <$> q)) -> next = n + length p ->
    labels_in d k1 -> Forall (fun e : nat * nat * key => labels_in d e.2) q ->
    exists p', outer_loop output d fuel id1 k1 q p next = Ok p' /\ ssa_complete n p' /\ pairwise p'.
  Proof.
    revert id1 k1 q p next. induction fuel as [|fuel IH]; intros id1 k1 q p next Hf Hl Hn Hk1 Hq; simpl.
    - destruct q; [|simpl in Hf; lia]. exists p. split; [done|]. by eapply live_one.
    - pose proof (merge_sort_Permutation fq_le q) as Hp. destruct (merge_sort fq_le q) as [|[[s2 id2] k2] q'] eqn:Es.
      { apply Permutation_nil_l in Hp; subst q. exists p. split; [done|]. by eapply live_one. }
      rewrite <-Hp in Hq, Hl. rewrite fmap_cons in Hl. simpl in Hl. apply Forall_cons in Hq as [Hk2 Hq']. simpl in Hk2.
      assert (Hlab : labels_in d ((k1 ∪ k2) ∩ output)).
      { intros c [[Hc|Hc]%elem_of_union _]%elem_of_intersection; [by apply Hk1|by apply Hk2]. }
      destruct (set_size_ok d _ Hlab) as [cost ->]. cbn [mbind res_bind].
      assert (Hl2 : live n (p ++ [[Nat.min id1 id2; Nat.max id1 id2]]) (next :: ((fun e : nat * nat * key => e.1.2) <$> q'))).
      { rewrite Hn. apply live_step. eapply live_perm; [|exact Hl]. destruct (Nat.le_ge_cases id1 id2).
        - by rewrite Nat.min_l, Nat.max_r by lia.
        - rewrite Nat.min_r, Nat.max_l by lia. constructor. }
      pose proof (merge_sort_Permutation fq_le (q' ++ [(cost, next, (k1 ∪ k2) ∩ output)])) as Hp2.
      destruct (merge_sort fq_le (q' ++ [(cost, next, (k1 ∪ k2) ∩ output)])) as [|[[s3 id3] k3] q''].
      { apply Permutation_nil_l in Hp2. by destruct q'. }
      assert (Hall : Forall (fun e : nat * nat * key => labels_in d e.2) ((s3, id3, k3) :: q'')) by (rewrite Hp2; apply Forall_app; split; [done|by constructor]).
      apply Forall_cons in Hall as [Hk3 Hq''].
      apply IH; [|eapply live_perm; [|exact Hl2]|rewrite app_length; simpl; lia|done|done].
      + apply Permutation_length in Hp, Hp2. rewrite app_length in Hp2. simpl in Hp, Hp2. lia.
      + apply (fmap_Permutation (fun e : nat * nat * key => e.1.2)) in Hp2. rewrite fmap_app, fmap_cons in Hp2. simpl in Hp2. rewrite Hp2. by rewrite Permutation_app_comm.
  Qed.

  Lemma push_rows_ok st l : g_ok st -> NoDup l -> (forall k, k ∈ l -> is_Some (g_rem st !! k)) ->
    exists st', push_rows cost_fn push_all output d st l = Ok st' /\ g_ok st' /\ g_rem st' = g_rem st.
  Proof.
    intros Hs Hnd. revert st Hs. induction Hnd as [|k1 l Hk1 Hnd IH]; intros st Hs Hl; [by exists st|]. destruct l as [|k2 l]; [by exists st|].
    cbn [push_rows]. destruct (push_candidate_ok st k1 (k2 :: l) Hs) as (st1 & -> & Hs1 & Hr1 & _); [apply Hl; left|done| |].
    { intros k Hk. split; [apply Hl; by right|]. intros ->. done. }
    cbn [mbind res_bind]. destruct (IH st1 Hs1) as (st2 & H2 & Hs2 & Hr2); [rewrite Hr1; intros; apply Hl; by right|]. exists st2. split; [exact H2|]. split; [done|]. congruence.
  Qed.
End Ok.

(** ** The start *)
Lemma dedup_ok inputs rem p next : dedup inputs = (rem, p, next) ->
  live (length inputs) p ((map_to_list rem).*2) /\ next = length inputs + length p /\ (forall k, is_Some (rem !! k) <-> k ∈ inputs).
Proof.
  unfold dedup. set (n := length inputs). intros H.
  assert (Hgen : forall l i r0 p0 x0, i + length l = n -> live n p0 ((map_to_list r0).*2 ++ seq i (length l)) -> x0 = n + length p0 ->
    foldl dedup_step (r0, p0, x0) (zip (seq i (length l)) l) = (rem, p, next) ->
    live n p ((map_to_list rem).*2) /\ next = n + length p /\ forall k, is_Some (rem !! k) <-> is_Some (r0 !! k) \/ k ∈ l).
  { clear H. induction l as [|k l IH]; intros i r0 p0 x0 Hi Hl Hx Hf.
    - simpl in Hf. simplify_eq. rewrite app_nil_r in Hl. split; [done|]. split; [done|]. intros k. split; [by left|]. by intros [?|?%elem_of_nil].
    - simpl in Hf, Hl. destruct (r0 !! k) as [id|] eqn:E.
      + destruct (IH (S i) (<[k := x0]> r0) (p0 ++ [[id; i]]) (S x0)) as (A1 & A2 & A3); [simpl in Hi; lia| |rewrite app_length; simpl; lia|done|].
        * assert (Hl2 : live n (p0 ++ [[id; i]]) (n + length p0 :: (map_to_list (delete k r0)).*2 ++ seq (S i) (length l))).
          { apply live_step. eapply live_perm; [|exact Hl]. rewrite (ids_delete _ _ _ E). simpl. constructor. by rewrite <-Permutation_middle. }
          eapply live_perm; [|exact Hl2]. rewrite <-insert_delete_insert, ids_insert by apply lookup_delete. by rewrite Hx.
        * split; [done|]. split; [done|]. intros k'. rewrite A3, elem_of_cons. destruct (decide (k' = k)) as [->|Hk]; [|rewrite lookup_insert_ne by done; naive_solver].
          rewrite lookup_insert, E. split; intros _; left; eauto.
      + destruct (IH (S i) (<[k := i]> r0) p0 x0) as (A1 & A2 & A3); [simpl in Hi; lia| |done|done|].
        * eapply live_perm; [|exact Hl]. rewrite ids_insert by done. simpl. by rewrite <-Permutation_middle.
        * split; [done|]. split; [done|]. intros k'. rewrite A3, elem_of_cons. destruct (decide (k' = k)) as [->|Hk]; [|rewrite lookup_insert_ne by done; naive_solver].
          rewrite lookup_insert, E. split; intros _; [right|left]; eauto. }
  destruct (Hgen inputs 0 ∅ [] n) as (A1 & A2 & A3); [done| |simpl; lia|done|].
  - rewrite map_to_list_empty. simpl. apply live_start.
  - split; [done|]. split; [done|]. intros k. rewrite A3, lookup_empty. split; [intros [[? ?]|?]; done|by right].
Qed.

Lemma greedy_ssa_ok cost_fn choose_fn inputs output d : match choose_fn with None => True | Some ch => chooser_ok ch end ->
  inputs <> [] -> Forall (labels_in d) inputs ->
  exists p, ssa_greedy cost_fn choose_fn inputs output d = Ok p /\ ssa_complete (length inputs) p /\ (2 <= length inputs -> pairwise p).
Proof.
  intros Hch Hne Hd. unfold ssa_greedy. set (rest := com ← common inputs; _).
  assert (Hrest : exists p, rest = Ok p /\ ssa_complete (length inputs) p /\ pairwise p); [|destruct inputs as [|k [|k' l]]; [done| |destruct Hrest as (p & H1 & H2 & H3); exists p; split; [exact H1|by split]]].
  2: { exists [[0]]. split; [done|]. split; [|simpl; lia]. apply ssa_runs_valid. split; [|done]. simpl. split; [done|]. split; [apply NoDup_singleton|]. done. }
  unfold rest. clear rest. assert (Hcom : exists com, common inputs = Ok com) by (destruct inputs; [done|]; eauto). destruct Hcom as (com & ->). cbn [mbind res_bind].
  set (out := output ∪ com). destruct (dedup inputs) as [[rem p] next] eqn:Ed. apply dedup_ok in Ed as (Hl & Hn & Hdom).
  assert (Hlab : forall k, is_Some (rem !! k) -> labels_in d k).
  { rewrite Forall_forall in Hd. intros k Hk%Hdom. by apply Hd. }
  assert (Hkeys : forall k, k ∈ (map_to_list rem).*1 <-> is_Some (rem !! k)).
  { intros k. rewrite elem_of_list_fmap. split.
    - intros ([k' i] & -> & H%elem_of_map_to_list). eauto.
    - intros [i Hi]. exists (k, i). split; [done|]. by apply elem_of_map_to_list. }
  destruct (mapM_sizes ((map_to_list rem).*1) d) as (foot & -> & Hfoot).
  { apply Forall_forall. intros k Hk. by apply Hlab, Hkeys. }
  cbn [mbind res_bind]. set (dims := init_dims out (map_to_list rem).*1).
  set (st0 := GState rem dims (init_ref out dims 2) (init_ref out dims 3) (list_to_map foot) [] p next 0 0).
  assert (Hreg : registered out rem dims).
  { intros c k. unfold dims. rewrite init_dims_elem, Hkeys. done. }
  assert (Hst0 : g_ok out d (length inputs) st0).
  { split; simpl; try done.
    - intros k Hk. apply Hkeys in Hk. rewrite <-Hfoot in Hk. destruct ((list_to_map foot : gmap key nat) !! k) eqn:E; [eauto|]. by apply not_elem_of_list_to_map in E.
    - intros E. destruct inputs as [|k l]; [done|]. assert (Hk : is_Some (rem !! k)) by (apply Hdom; left). rewrite E, lookup_empty in Hk. by destruct Hk. }
  set (push_all := match choose_fn with Some _ => true | None => false end).
  assert (Hchoose : chooser_ok (default simple_chooser choose_fn)) by (destruct choose_fn; [done|apply simple_chooser_ok]).
  assert (Hfold : exists st1, foldM_res (push_dim cost_fn push_all out d) st0 (map_to_list dims) = Ok st1 /\ g_ok out d (length inputs) st1 /\ g_rem st1 = rem).
  { apply (foldM_total (push_dim cost_fn push_all out d) (fun st => g_ok out d (length inputs) st /\ g_rem st = rem)); [|done].
    intros st [c ks] [Hs Hr] Hin. unfold push_dim. apply elem_of_map_to_list in Hin.
    cbn [snd].     destruct (push_rows_ok cost_fn _ Hchoose push_all out d (length inputs) st (merge_sort (id_le (g_rem st)) (elements ks)) Hs) as (st' & -> & Hs' & Hr').
    - rewrite merge_sort_Permutation. apply NoDup_elements.
    - intros k Hk. rewrite merge_sort_Permutation in Hk. apply elem_of_elements in Hk. rewrite Hr. destruct (Hreg c k) as [Hk' _]. apply Hk'. unfold keys_of. by rewrite Hin.
    - exists st'. split; [done|]. split; [done|]. congruence. }
  destruct Hfold as (st1 & -> & Hst1 & _). cbn [mbind res_bind].
  destruct (greedy_loop_ok cost_fn (default simple_chooser choose_fn) Hchoose push_all out d (length inputs) (size (g_rem st1))
    (length (g_queue st1) + size (g_rem st1) * (size (g_rem st1) + 1)) st1 Hst1) as (st2 & -> & Hst2); [done|done|]. cbn [mbind res_bind].
  assert (Hfin : exists final, mapM_res (fun ki : key * nat => s ← set_size (ki.1 ∩ out) d; Ok (s, ki.2, ki.1)) (map_to_list (g_rem st2)) = Ok final /\
     (fun e : nat * nat * key => e.1.2) <$> final = (map_to_list (g_rem st2)).*2 /\ Forall (fun e : nat * nat * key => labels_in d e.2) final).
  { assert (Hall : forall ki, ki ∈ map_to_list (g_rem st2) -> labels_in d ki.1).
    { intros [k i] H%elem_of_map_to_list. apply (go_labels _ _ _ _ Hst2). eauto. }
    revert Hall. generalize (map_to_list (g_rem st2)). induction l as [|[k i] l IH]; intros Hall; [by exists []|]. simpl.
    assert (Hk : labels_in d k) by (apply (Hall (k, i)); left). destruct (set_size_ok d (k ∩ out)) as [s ->]; [intros c [Hc _]%elem_of_intersection; by apply Hk|]. cbn [mbind res_bind].
    destruct IH as (final & -> & Hf1 & Hf2); [intros; apply Hall; by right|]. cbn [mbind res_bind]. eexists. split; [done|]. split; [simpl; f_equal; exact Hf1|]. by constructor. }
  destruct Hfin as (final & -> & Hids & Hflab). cbn [mbind res_bind].
  pose proof (merge_sort_Permutation fq_le final) as Hp. destruct (merge_sort fq_le final) as [|[[s1 id1] k1] q] eqn:Es.
  { exfalso. apply Permutation_nil_l in Hp. rewrite <-Hp in Hids. apply (go_some _ _ _ _ Hst2). symmetry in Hids. apply fmap_nil_inv, map_to_list_empty_iff in Hids. done. }
  rewrite <-Hp in Hflab. apply Forall_cons in Hflab as [Hk1 Hq].
  eapply outer_loop_ok; [done| |apply Hst2|done|done]. eapply live_perm; [|apply Hst2]. rewrite <-Hids, <-Hp. done.
Qed.

Lemma greedy_complete cost_fn choose_fn ordI inputs output d mem : match choose_fn with None => True | Some ch => chooser_ok ch end ->
  (forall s, ordI s ≡ₚ elements s) -> inputs <> [] -> Forall (labels_in d) inputs ->
  exists p, greedy cost_fn choose_fn ordI inputs output d mem = Ok p /\ path_runs (length inputs) p.
Proof.
  intros Hch Ho Hne Hd. unfold greedy. destruct mem as [limit|].
  - by apply branch_complete.
  - destruct (greedy_ssa_ok cost_fn choose_fn inputs output d Hch Hne Hd) as (p & -> & Hc & _). cbn [mbind res_bind].
    destruct (ssa_to_linear_ok _ _ Hc) as (lp & Hlp & Hr & _). eauto.
Qed.
