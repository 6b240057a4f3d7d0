(** [DynamicProgramming.__call__]: the tree is made of best trees of the parts, and the search succeeds without a memory limit. *)
From Verif Require Import Prelude Einsum EinsumFacts Helpers Contract Spec PathSpec StringFacts StepFacts ContractFacts PathFacts TopFacts Ssa SsaSpec SsaFacts SsaMore Optimal OptimalFacts OptimalBest Tree TreeSpec TreeFacts DpSpec Dp PartsFacts DpFacts DpMain.
From stdpp Require Import relations sorting.

(** ** Lists *)
Lemma cover_perm n gs gs' : gs ≡ₚ gs' -> cover n gs -> cover n gs'.
Proof.
  intros Hp [H1 H2]. split.
  - intros a b g h Ha Hb Hab. symmetry in Hp. apply Permutation_inj in Hp as (_ & f & Hf & Hl). rewrite Hl in Ha, Hb. eapply H1; [exact Ha|exact Hb|]. intros E. by apply Hab, Hf.
  - intros j. rewrite H2. by setoid_rewrite Hp.
Qed.
Lemma connected_perm inputs out gs gs' : gs ≡ₚ gs' -> connected_parts inputs out gs -> connected_parts inputs out gs'.
Proof.
  intros Hp [H1 H2 H3]. destruct (cover_perm (length inputs) gs gs' Hp (conj H2 H3)) as [H4 H5]. split; [|done|done]. intros g Hg. rewrite <-Hp in Hg. by apply H1.
Qed.
Lemma Forall2_pick {A B C} (P : A -> C -> B -> Prop) l k : Forall2 (fun a b => exists c, P a c b) l k -> exists L : list (A * C * B), L.*1.*1 = l /\ L.*2 = k /\ Forall (fun p => P p.1.1 p.1.2 p.2) L.
Proof.
  induction 1 as [|a b l k (c & Hc) _ (L & <- & <- & HL)]; [exists []; split; [done|]; split; [done|by apply Forall_nil]|]. exists ((a, c, b) :: L). split; [done|]. split; [done|]. by apply Forall_cons.
Qed.

#[global] Instance size_le_trans : Transitive size_le.
Proof. intros a b c. unfold size_le. lia. Qed.
#[global] Instance size_le_total : Total size_le.
Proof. intros a b. unfold size_le. lia. Qed.
Lemma sorted_fmap {A B} (R : A -> A -> Prop) (S : B -> B -> Prop) (f : A -> B) l : (forall a b, R a b -> S (f a) (f b)) -> StronglySorted R l -> StronglySorted S (f <$> l).
Proof. intros H. induction 1 as [|a l _ IH Hl]; [by constructor|]. rewrite fmap_cons. constructor; [done|]. apply Forall_fmap. eapply Forall_impl; [exact Hl|]. intros b. apply H. Qed.
Lemma by_size_pick {A} (f : A -> tree * nat) (L : list A) : exists L', L' ≡ₚ L /\ by_size (f <$> L) = (fun a => (f a).1) <$> L' /\ StronglySorted le ((fun a => (f a).2) <$> L').
Proof.
  unfold by_size. set (F := fun p : nat * (tree * nat) => (p.2.2, p.1, p.2.1)).
  assert (E : F <$> zip (seq 0 (length (f <$> L))) (f <$> L) = (fun p : nat * A => F (p.1, f p.2)) <$> zip (seq 0 (length L)) L).
  { rewrite fmap_length. generalize (seq 0 (length L)). induction L as [|a L IH]; intros [|k ks]; try done. simpl. f_equal. apply IH. }
  rewrite E. set (h := fun p : nat * A => F (p.1, f p.2)). set (B := zip (seq 0 (length L)) L).
  pose proof (merge_sort_Permutation size_le (h <$> B)) as Hp. destruct (Permutation_map_inv h _ Hp) as (B' & HB & HB').
  pose proof (StronglySorted_merge_sort size_le (h <$> B)) as Hs. rewrite HB in *. change (map h B') with (h <$> B') in *. exists (B'.*2). split; [|split].
  - rewrite <-HB'. unfold B. by rewrite snd_zip by (by rewrite seq_length).
  - rewrite <-!list_fmap_compose. done.
  - rewrite <-list_fmap_compose. change (StronglySorted le ((fun p => (h p).1.1) <$> B')). rewrite (list_fmap_compose h (fun q => q.1.1)). eapply sorted_fmap; [|exact Hs]. intros a b [?|[? ?]]; lia.
Qed.

Lemma set_subseteq_size_eq (X Y : gset nat) : X ⊆ Y -> size Y <= size X -> X = Y.
Proof.
  intros H1 H2. apply set_eq. intros j. split; [apply H1|]. intros Hj. destruct (decide (j ∈ X)) as [|Hn]; [done|]. exfalso.
  assert (Hlt : size X < size Y) by (apply subset_size; split; [done|]; intros Hs; by apply Hn, Hs). lia.
Qed.

(** ** Trees made of parts *)
Lemma shape_leaves inputs out b t : shape inputs out b t -> leaves t = bleaves b /\ Node [] ∉ nodes t.
Proof.
  induction 1 as [j|j|l r a b _ [IH1 IH2] _ [IH3 IH4]].
  - split; [done|]. apply not_elem_of_nil.
  - split; [done|]. simpl. rewrite elem_of_list_singleton. done.
  - split; [simpl; rewrite IH1, IH3; by rewrite app_nil_r|]. simpl. rewrite app_nil_r, elem_of_cons, elem_of_app. naive_solver.
Qed.
Lemma left_comb_leaves ts t : leaves (left_comb t ts) = leaves t ++ (ts ≫= leaves) /\ (Node [] ∈ nodes (left_comb t ts) -> exists t', t' ∈ t :: ts /\ Node [] ∈ nodes t').
Proof.
  revert t. induction ts as [|a ts IH]; intros t; simpl.
  - rewrite app_nil_r. split; [done|]. intros H. exists t. split; [left|done].
  - destruct (IH (Node [t; a])) as [H1 H2]. unfold left_comb in *. simpl. rewrite H1. simpl. rewrite app_nil_r, <-app_assoc. split; [done|]. intros H. destruct (H2 H) as (t' & [->|Ht']%elem_of_cons & Hn).
    + simpl in Hn. rewrite app_nil_r in Hn. apply elem_of_cons in Hn as [?|[?|?]%elem_of_app]; [done| |]; [exists t|exists a]; (split; [|done]); [left|right; left].
    + exists t'. split; [by right; right|done].
Qed.
Lemma parts_leaves n gs bts : cover n gs -> Forall2 (fun g t => btree_over g t) gs bts -> bts ≫= bleaves ≡ₚ seq 0 n.
Proof.
  intros [H1 H2] HF. apply NoDup_Permutation; [|apply NoDup_seq|].
  - clear H2. revert bts HF. induction gs as [|g gs IH]; intros bts HF; [apply Forall2_nil_inv_l in HF as ->; apply NoDup_nil; done|].
    apply Forall2_cons_inv_l in HF as (t & bts' & [Ht1 Ht2] & HF & ->). simpl. apply NoDup_app. split; [done|]. split.
    + intros j Hj Hj'. apply elem_of_list_bind in Hj' as (t' & Hj' & Ht'). apply elem_of_list_lookup in Ht' as [a Ha]. destruct (Forall2_lookup_r _ _ _ _ _ HF Ha) as (g' & Hg' & _ & E).
      eapply (H1 0 (S a) g g'); [done|done|done| |]; [rewrite <-Ht2|rewrite <-E]; unfold bset; by apply elem_of_list_to_set.
    + apply IH; [|done]. intros a b g' h' Ha Hb Hab. apply (H1 (S a) (S b)); [done|done|lia].
  - intros j. rewrite elem_of_seq. split.
    + intros (t & Hj & Ht)%elem_of_list_bind. apply elem_of_list_lookup in Ht as [a Ha]. destruct (Forall2_lookup_r _ _ _ _ _ HF Ha) as (g & Hg & _ & E). split; [lia|]. simpl. apply H2. exists g.
      split; [by eapply elem_of_list_lookup_2|]. rewrite <-E. unfold bset. by apply elem_of_list_to_set.
    + intros [_ Hj]. simpl in Hj. apply H2 in Hj as (g & Hg & Hj). apply elem_of_list_lookup in Hg as [a Ha]. destruct (Forall2_lookup_l _ _ _ _ _ HF Ha) as (t & Ht & _ & E). apply elem_of_list_bind. exists t.
      split; [|by eapply elem_of_list_lookup_2]. rewrite <-E in Hj. unfold bset in Hj. by apply elem_of_list_to_set in Hj.
Qed.
Lemma comb_over inputs out n gs bts t ts : cover n gs -> Forall2 (fun g t => btree_over g t) gs bts -> Forall2 (shape inputs out) bts (t :: ts) -> tree_over n (left_comb t ts).
Proof.
  intros Hc HF Hs. destruct (left_comb_leaves ts t) as [H1 H2]. split.
  - rewrite H1. rewrite <-(parts_leaves n gs bts Hc HF). change (leaves t ++ (ts ≫= leaves)) with ((t :: ts) ≫= leaves). clear - Hs. induction Hs as [|b a bs l Hb _ IH]; [done|]. simpl. destruct (shape_leaves _ _ _ _ Hb) as [-> _]. by rewrite IH.
  - intros H. destruct (H2 H) as (t' & Ht' & Hn). apply elem_of_list_lookup in Ht' as [a Ha]. destruct (Forall2_lookup_r _ _ _ _ _ Hs Ha) as (b & _ & Hb). by apply shape_leaves in Hb as [_ ?].
Qed.

(** ** One part *)
Section Top.
  Variable ordI : gset nat -> list nat.
  Variable pop : gset nat -> nat.
  Variable minimize : dp_min.
  Variable cost_cap : capping.
  Variable search_outer : bool.
  Variable inputs : list (gset N).
  Variable output : gset N.
  Variable d : sizes.
  Variable mem : option nat.
  Hypothesis ordI_ok : forall s, ordI s ≡ₚ elements s.
  Hypothesis pop_ok : forall s, s <> ∅ -> pop s ∈ s.
  Hypothesis Hd : forall j c, c ∈ labels_of inputs j -> is_Some (d !! c).
  Hypothesis Hdo : forall c, c ∈ output -> is_Some (d !! c).
  Notation D := (size_of d).
  Notation red := (DpMain.red inputs output).
  Notation pos := (pos inputs output).
  Notation dones := (dones inputs output).
  Notation parsed := (red <$> pos).
  Notation ctr := (one inputs output <$> pos).
  Notation ren := (ren inputs output).

  (** Sets of terms containing all terms linked to a member. *)
  Definition closed (G : gset nat) : Prop := forall k, k ∈ G -> k < length pos /\ forall k', linked parsed output k k' -> k' ∈ G.
  Lemma parsed_labels j c : c ∈ labels_of parsed j -> is_Some (d !! c).
  Proof. intros Hc. pose proof (parsed_lt inputs output _ _ Hc). rewrite labels_parsed in Hc by done. apply elem_red in Hc as [Hc _]. by eapply Hd. Qed.
  Lemma closed_twice G : closed G -> forall i c, i ∈ G -> c ∈ labels_of parsed i -> c ∈ output \/ exists j, j ∈ G /\ j <> i /\ c ∈ labels_of parsed j.
  Proof.
    intros HG i c Hi Hc. destruct (HG i Hi) as [Him Hcl]. destruct (decide (c ∈ output)) as [|Ho]; [by left|right]. pose proof Hc as Hc0. rewrite labels_parsed in Hc by done. apply elem_red in Hc as [Hl [?|(i' & Hn & Hl')]]; [done|].
    assert (Hr : c ∈ red i') by (eapply red_shared; [|exact Hl'|exact Hl]; done). destruct (nam_ok inputs output i') as [Ha Hb]; [by eapply red_kept|]. set (k := nam inputs output i') in *.
    assert (Hk : c ∈ labels_of parsed k) by (by rewrite labels_parsed, Hb). exists k. split; [apply Hcl; exists c; done|]. split; [|done]. intros ->. done.
  Qed.
  Definition start_cap (G : gset nat) : option nat :=
    match cost_cap with CapTrue => Some (volume D (labels_in_set parsed G ∩ output)) | CapFalse => None | CapInt c => Some c end.
  Lemma legs_whole ins G : legs ins output G G = labels_in_set ins G ∩ output.
  Proof. unfold legs. replace (G ∖ G) with (∅ : gset nat) by set_solver. unfold labels_in_set at 2. rewrite elements_empty. simpl. set_solver. Qed.
  Lemma dp_part_cases rounds naive G : G <> ∅ -> closed G ->
    match dp_part ordI minimize cost_cap search_outer rounds parsed ctr output d mem naive G with
    | Ok (c, sz) => exists t, best_tree parsed output D G minimize search_outer mem t /\ c = realize ctr t /\ sz = volume D (labels_in_set parsed G ∩ output)
    | Err RuntimeError => exists cap', gt_inf cap' naive = true /\ forall t, btree_over G t -> allowed parsed output D G search_outer mem t -> le_cap (mode_cost parsed output D G minimize t) cap' = false
    | Err NoFuel => rounds = 0 \/ exists inc, 2 <= inc /\ gt_inf (Nat.mul (inc ^ (rounds - 1)) <$> start_cap G) naive = false /\ forall t, btree_over G t -> allowed parsed output D G search_outer mem t -> le_cap (mode_cost parsed output D G minimize t) (Nat.mul (inc ^ (rounds - 1)) <$> start_cap G) = false
    | Err _ => False
    end.
  Proof.
    intros Hne Hcl. unfold dp_part. set (g := foldl _ 0%N (ordI G)). set (all := N.sub (bit (length parsed)) 1).
    assert (Hg : is_bm g G).
    { pose proof (bm_foldl (ordI G) 0%N ∅ bm_empty) as Hb. replace (∅ ∪ list_to_set (ordI G)) with G in Hb; [done|]. apply set_eq. intros j. rewrite elem_of_union, elem_of_list_to_set, ordI_ok, elem_of_elements. set_solver. }
    assert (HG : forall j, j ∈ G -> j < length parsed) by (intros j Hj; rewrite fmap_length; by apply Hcl).
    assert (Einds : union_sets (bitmap_select g parsed) = labels_in_set parsed G) by (apply set_eq; intros c; rewrite (elem_select g G), elem_labels_in_set; done).
    rewrite Einds. assert (Hlab : labels_in d (labels_in_set parsed G)) by (intros c (j & _ & Hc)%elem_labels_in_set; by eapply parsed_labels).
    assert (Hlabo : labels_in d (labels_in_set parsed G ∩ output)) by (intros c [Hc _]%elem_of_intersection; by apply Hlab).
    assert (Ecap : (match cost_cap with CapTrue => c ← set_size (labels_in_set parsed G ∩ output) d; Ok (Some c) | CapFalse => Ok None | CapInt c => Ok (Some c) end) = Ok (start_cap G)).
    { unfold start_cap. destruct cost_cap; [|done|done]. by rewrite (volume_size d _ Hlabo). }
    rewrite Ecap. cbn [mbind res_bind]. rewrite (mapM_fmap (fun c => of_opt KeyError (d !! c)) D).
    2: { intros c Hc%elem_of_elements. apply Hlab in Hc as [v Hv]. unfold size_of. by rewrite Hv. }
    cbn [mbind res_bind]. set (inc := match D <$> elements (labels_in_set parsed G) with [] => 2 | v :: vs => Nat.max (foldl Nat.min v vs) 2 end).
    assert (Hinc : 2 <= inc) by (unfold inc; destruct (D <$> _); lia).
    pose proof (closed_twice G Hcl) as Htw.
    destruct (start_tables minimize search_outer d parsed output G g all mem ctr HG Hg eq_refl parsed_labels Htw (start_cap G) (ordI G) (ordI_ok G) Hne) as [Hs Hb].
    pose proof (dp_while_ok minimize search_outer d parsed output G g all mem ctr HG Hg eq_refl parsed_labels Htw rounds naive inc (start_cap G) _ ltac:(lia) Hs Hb) as Hw.
    match goal with |- context [dp_while ?a ?b ?c ?e ?f ?h ?i ?j ?k ?l ?m ?n ?o] => change (dp_while a b c e f h i j k l m n o) with (dp_while minimize search_outer d parsed output g all mem rounds naive inc (start_cap G)
      (((fun j => (bit j, (labels_of parsed j, 0, default (Leaf 0) (ctr !! j)))) <$> ordI G) :: replicate (size G - 1) [])) end.
    destruct (dp_while _ _ _ _ _ _ _ _ _ _ _ _ _) as [x|ex] eqn:Ew.
    - cbn [mbind res_bind]. destruct Hw as (s & t & rest & El & Ht1 & Ht2 & Ht3). unfold entry in El. rewrite El. change (default [] (Some ?a)) with a. cbv iota beta. rewrite legs_whole, (volume_size d _ Hlabo). cbn [mbind res_bind].
      exists t. split; [|done]. split; [done|]. split; [done|]. exact Ht3.
    - cbn [mbind res_bind]. destruct ex; try done. destruct Hw as [?|Hw]; [by left|right]. exists inc. done.
  Qed.

  (** ** All parts *)
  Lemma done_lone j : j < length inputs -> j ∈ dones <-> lone inputs output j.
  Proof.
    intros Hj. unfold DpMain.dones. rewrite elem_of_list_filter, elem_of_seq. unfold kept. rewrite negb_false_iff, bool_decide_eq_true. unfold lone. split.
    - intros [[H1 H2] _]. split; [done|]. intros c Hc. split.
      + intros Ho. assert (Hr : c ∈ red j) by (apply elem_red; auto). rewrite H1 in Hr. by apply elem_of_empty in Hr.
      + intros i Hi Hc'. assert (Hr : c ∈ red j) by (apply elem_red; eauto). rewrite H1 in Hr. by apply elem_of_empty in Hr.
    - intros [H1 H2]. split; [|lia]. split; [|done]. apply set_eq. intros c. split; [|by intros ?%elem_of_empty]. intros [Hc Ho]%elem_red. exfalso. destruct (H2 c Hc) as [H3 H4]. destruct Ho as [?|(i & Hi & Hci)]; [done|]. by apply (H4 i).
  Qed.
  Definition subgraphs : res (list (gset nat)) := if search_outer then Ok [set_seq 0 (length parsed)] else find_parts ordI pop parsed output.
  Lemma subgraphs_ok : pos <> [] -> exists gs, subgraphs = Ok gs /\ cover (length pos) gs /\ Forall (fun g => g <> ∅ /\ closed g) gs /\
    (search_outer = false -> connected_parts parsed output gs) /\ (search_outer = true -> gs = [set_seq 0 (length pos)]).
  Proof.
    intros Hne. unfold subgraphs. destruct search_outer.
    - rewrite fmap_length. eexists. split; [done|]. assert (Hel : forall j, j ∈ (set_seq 0 (length pos) : gset nat) <-> j < length pos) by (intros j; rewrite elem_of_set_seq; lia). split; [|split].
      + split.
        * intros [|a] [|b] g h Ha Hb Hab; try done.
        * intros j. rewrite <-Hel. split; [intros Hj; eexists; split; [left|done]|]. by intros (g & ->%elem_of_list_singleton & Hj).
      + apply Forall_singleton. split.
        * intros E. destruct pos as [|j l] eqn:Ep; [done|]. assert (H0 : 0 ∈ (set_seq 0 (length (j :: l)) : gset nat)) by (apply Hel; simpl; lia). rewrite E in H0. by apply elem_of_empty in H0.
        * intros k Hk%Hel. split; [done|]. intros k' (c & _ & Hc & _). apply Hel. by eapply parsed_lt.
      + done.
    - destruct (find_parts_ok ordI pop ordI_ok pop_ok parsed output) as (gs & Hgs & Hcp); [by intros ?%fmap_nil_inv|]. exists gs. split; [done|]. pose proof Hcp as [H1 H2 H3]. rewrite fmap_length in H3. split; [done|]. split; [|done].
      apply Forall_forall. intros g Hg. destruct (H1 g Hg) as [Hg1 Hg2]. split; [done|]. intros k Hk. split; [apply H3; eauto|]. intros k' Hl. apply (Hg2 k k' Hk). by apply rtc_once.
  Qed.
  Definition naive_of : option nat := match minimize with DpCombo _ | DpLimit _ | DpLocal _ => None | _ => Some (length inputs * volume D (union_sets inputs ∪ output)) end.
  Lemma naive_ok : dp_naive minimize inputs output d = Ok naive_of.
  Proof.
    unfold dp_naive, naive_of. assert (Hl : labels_in d (union_sets inputs ∪ output)).
    { intros c [Hc|Hc]%elem_of_union; [|by apply Hdo]. apply elem_union_sets in Hc as (k & Hk & Hc). apply elem_of_list_lookup in Hk as [j Hj]. apply (Hd j). unfold labels_of. by rewrite Hj. }
    rewrite (volume_size d _ Hl). by destruct minimize.
  Qed.
  Lemma dp_tree_unfold rounds : dp_tree ordI pop minimize cost_cap search_outer rounds inputs output d mem =
    match pos with
    | [] => simple_tree ((fun j => Node [Leaf j]) <$> dones)
    | _ => gs ← subgraphs; cs ← mapM_res (dp_part ordI minimize cost_cap search_outer rounds parsed ctr output d mem naive_of) gs;
           simple_tree (by_size (((fun t => (t, 1)) <$> ((fun j => Node [Leaf j]) <$> dones)) ++ cs))
    end.
  Proof. unfold dp_tree. rewrite naive_ok. cbn [mbind res_bind]. rewrite parse_single_eq. unfold subgraphs. destruct pos; done. Qed.

  Lemma volume_empty (E : N -> nat) : volume E ∅ = 1.
  Proof. unfold volume. by rewrite elements_empty. Qed.
  Definition part_ok (g : gset nat) (b : btree) (p : tree * nat) : Prop :=
    best_tree inputs output D g minimize search_outer mem b /\ shape inputs output b p.1 /\ p.2 = result_size inputs output D g.
  Lemma done_ok j : j ∈ dones -> part_ok {[j]} (BLeaf j) (Node [Leaf j], 1).
  Proof.
    intros Hj. assert (Hlt : j < length inputs) by (apply (pos_dones inputs output); by right). split; [|split].
    - split; [|split].
      + split; [apply NoDup_singleton|]. unfold bset. simpl. set_solver.
      + by split.
      + intros t' _ _. replace (mode_cost inputs output D {[j]} minimize (BLeaf j)) with 0 by (by destruct minimize). lia.
    - apply done_lone in Hj as [Hne Hj]; [|done]. apply set_choose_L in Hne as [c Hc]. apply shape_single. exists c. split; [done|]. by apply Hj.
    - simpl. unfold result_size. apply done_lone in Hj as [_ Hj]; [|done]. replace (labels_in_set inputs {[j]} ∩ output) with (∅ : gset N); [by rewrite volume_empty|]. apply set_eq. intros c. split; [by intros ?%elem_of_empty|].
      intros [Hc Ho]%elem_of_intersection. apply elem_labels_in_set in Hc as (i & ->%elem_of_singleton & Hc). exfalso. by apply (Hj c).
  Qed.
  Lemma part_done rounds g p : g <> ∅ -> closed g -> dp_part ordI minimize cost_cap search_outer rounds parsed ctr output d mem naive_of g = Ok p -> exists b, part_ok (set_map ren g) b p.
  Proof.
    intros Hne Hcl H. pose proof (dp_part_cases rounds naive_of g Hne Hcl) as Hp. rewrite H in Hp. destruct p as [c sz]. destruct Hp as (t & Hbest & -> & ->).
    assert (Hlt : forall k, k ∈ g -> k < length pos) by (intros k Hk; by apply Hcl). exists (bmap ren t). assert (Hb : bset t ⊆ g) by (destruct Hbest as [[_ ->] _]; done). split; [by apply best_ren|]. split; [by eapply shape_realize|]. simpl. unfold result_size.
    rewrite <-!(legs_whole), legs_ren by done. done.
  Qed.
  Notation item := (gset nat * btree * (tree * nat))%type.
  Definition items_ok (gs : list (gset nat)) (T : tree) (L : list item) : Prop :=
    L.*1.*1 ≡ₚ gs /\ Forall (fun p => part_ok p.1.1 p.1.2 p.2) L /\ StronglySorted le ((fun a => a.2.2) <$> L) /\ simple_tree ((fun a => a.2.1) <$> L) = Ok T.
  Lemma tree_of_items gs T L : items_ok gs T L ->
    exists gs' bts t ts, gs' ≡ₚ gs /\ Forall2 (fun g b => best_tree inputs output D g minimize search_outer mem b) gs' bts /\ Forall2 (shape inputs output) bts (t :: ts) /\ T = left_comb t ts /\ StronglySorted le (result_size inputs output D <$> gs').
  Proof.
    intros (Hp & HL & Hs & HT). destruct L as [|q L]; [done|].
    exists ((q :: L).*1.*1), ((q :: L).*1.*2), q.2.1, ((fun a => a.2.1) <$> L). split; [done|]. split; [|split; [|split]].
    - clear -HL. induction HL as [|p l [H _] _ IH]; [constructor|]. rewrite !fmap_cons. constructor; done.
    - change (q.2.1 :: ((fun a : item => a.2.1) <$> L)) with ((fun a : item => a.2.1) <$> (q :: L)).
      clear -HL. induction HL as [|p l (_ & H & _) _ IH]; [constructor|]. rewrite !fmap_cons. constructor; done.
    - simpl in HT. by injection HT as <-.
    - replace (result_size inputs output D <$> (q :: L).*1.*1) with ((fun a : item => a.2.2) <$> (q :: L)); [done|].
      rewrite <-!list_fmap_compose. apply list_fmap_ext. intros i p Hi. rewrite Forall_forall in HL. apply elem_of_list_lookup_2 in Hi. destruct (HL p Hi) as (_ & _ & ->). done.
  Qed.
  Lemma items_sorted gs l T : Forall2 (fun g p => exists b, part_ok g b p) gs l -> simple_tree (by_size l) = Ok T -> exists L, items_ok gs T L.
  Proof.
    intros HF HT. destruct (Forall2_pick _ _ _ HF) as (L & HL1 & HL2 & HL). destruct (by_size_pick (snd : item -> tree * nat) L) as (L' & Hp & Hb & Hs). rewrite HL2 in Hb. exists L'.
    split; [by rewrite Hp, HL1|]. split; [by rewrite Hp|]. split; [done|]. by rewrite <-Hb.
  Qed.
  Theorem dp_tree_ok rounds T : dp_tree ordI pop minimize cost_cap search_outer rounds inputs output d mem = Ok T ->
    exists gs bts t ts, cover (length inputs) gs /\ searched_parts inputs output D search_outer gs /\ Forall2 (fun g b => best_tree inputs output D g minimize search_outer mem b) gs bts /\ Forall2 (shape inputs output) bts (t :: ts) /\ T = left_comb t ts.
  Proof.
    rewrite dp_tree_unfold. intros HT.
    assert (Hfin : exists gs0 l, cover (length pos) gs0 /\ (search_outer = false -> connected_parts parsed output gs0) /\ (search_outer = true -> forall g, g ∈ gs0 -> forall k, k ∈ g <-> k < length pos) /\
      items_ok (all_parts inputs output gs0) T l).
    { assert (Hdn : Forall2 (fun g p => exists b, part_ok g b p) ((fun j => {[j]}) <$> dones) ((fun t => (t, 1)) <$> ((fun j => Node [Leaf j]) <$> dones))).
      { assert (Hin : forall j, j ∈ dones -> exists b, part_ok {[j]} b (Node [Leaf j], 1)) by (intros j Hj; eexists; by apply done_ok).
        revert Hin. generalize dones. induction l as [|j l IH]; intros Hin; [constructor|]. rewrite !fmap_cons. constructor; [apply Hin; left|]. apply IH. intros i Hi. apply Hin. by right. }
      destruct pos as [|j0 l0] eqn:Ep.
      - exists [], ((fun j => ({[j]}, BLeaf j, (Node [Leaf j], 1))) <$> dones). split; [|split; [|split]].
        + split; [done|]. intros j. simpl. split; [lia|]. by intros (g & ?%elem_of_nil & _).
        + intros _. split; [by intros ? ?%elem_of_nil|done|]. intros j. simpl. split; [lia|]. by intros (g & ?%elem_of_nil & _).
        + by intros _ g ?%elem_of_nil.
        + split; [|split; [|split]].
          * unfold all_parts. rewrite app_nil_r, <-!list_fmap_compose. done.
          * apply Forall_fmap. apply Forall_forall. intros j Hj. by apply done_ok.
          * rewrite <-list_fmap_compose. clear. induction dones as [|j l IH]; [constructor|]. rewrite fmap_cons. constructor; [done|]. apply Forall_fmap. apply Forall_forall. intros i _. simpl. lia.
          * rewrite <-list_fmap_compose. exact HT.
      - rewrite <-Ep in *. destruct subgraphs_ok as (gs & Egs & Hc & HFa & Hcp & Hall); [by rewrite Ep|]. rewrite Egs in HT. cbn [mbind res_bind] in HT.
        destruct (mapM_res _ gs) as [cs|] eqn:Ecs; [|done]. cbn [mbind res_bind] in HT. apply mapM_res_Forall2 in Ecs. destruct (items_sorted (all_parts inputs output gs) (((fun t => (t, 1)) <$> ((fun j => Node [Leaf j]) <$> dones)) ++ cs) T) as (L & HL); [|done|].
        2: { exists gs, L. split; [done|]. split; [done|]. split; [|done]. intros Hs g Hg k. rewrite (Hall Hs) in Hg. apply elem_of_list_singleton in Hg as ->. rewrite elem_of_set_seq. lia. }
        apply Forall2_app; [done|]. clear -HFa Ecs Hd Hdo ordI_ok pop_ok. induction Ecs as [|g p gs cs Hgp _ IH]; [constructor|]. apply Forall_cons in HFa as [[H1 H2] HFa]. rewrite fmap_cons. constructor; [by eapply part_done|by apply IH]. }
    destruct Hfin as (gs0 & l & Hc0 & Hcp & Hall & Hit). destruct (tree_of_items _ _ _ Hit) as (gs & bts & t & ts & Hperm & H1 & H2 & H3 & H4).
    pose proof (cover_perm _ _ _ (symmetry Hperm) (cover_all inputs output gs0 Hc0)) as Hcov. exists gs, bts, t, ts. split; [done|]. split; [|done].
    split; [|split; [|split; [apply Hcov|split; [apply Hcov|done]]]].
    - intros Hs. eapply connected_perm; [symmetry; exact Hperm|]. apply connected_all. by apply Hcp.
    - intros Hs g Hg. rewrite Hperm in Hg. unfold all_parts in Hg. apply elem_of_app in Hg as [(j & -> & Hj)%elem_of_list_fmap|(g0 & -> & Hg0)%elem_of_list_fmap].
      + left. exists j. assert (Hlt : j < length inputs) by (apply (pos_dones inputs output); by right). split; [done|]. split; [done|]. by apply done_lone.
      + right. intros j. rewrite elem_of_map. split.
        * intros (k & -> & Hk). apply (Hall Hs g0 Hg0) in Hk. apply (ren_pos inputs output) in Hk. assert (Hlt : ren k < length inputs) by (apply (pos_dones inputs output); by left). split; [done|]. rewrite <-done_lone by done. by apply pos_not_done.
        * intros [Hlt Hnl]. rewrite <-done_lone in Hnl by done. apply (pos_dones inputs output) in Hlt as [Hp|?]; [|done]. destruct (nam_ok inputs output j Hp) as [Hk E]. exists (nam inputs output j). split; [done|]. by apply (Hall Hs g0 Hg0).
  Qed.
  (** ** Success *)
  Lemma volume_mono (S S' : gset N) : (forall c, c ∈ S' -> 1 <= D c) -> S ⊆ S' -> volume D S <= volume D S'.
  Proof.
    intros H1 Hs. unfold volume. rewrite (union_difference_L S S' Hs). assert (Hp : elements (S ∪ S' ∖ S) ≡ₚ elements S ++ elements (S' ∖ S)) by (apply elements_disj_union; set_solver).
    rewrite (prod_list_perm (D <$> elements (S ∪ S' ∖ S)) (D <$> (elements S ++ elements (S' ∖ S)))) by (by rewrite Hp). rewrite fmap_app.
    assert (Happ : forall l k, prod_list (l ++ k) = prod_list l * prod_list k) by (unfold prod_list; induction l as [|a l IH]; intros k; simpl; [lia|]; rewrite IH; lia). rewrite Happ.
    assert (Hge : 1 <= prod_list (D <$> elements (S' ∖ S))).
    { assert (Hall : Forall (fun c => 1 <= D c) (elements (S' ∖ S))) by (apply Forall_forall; intros c Hc%elem_of_elements; apply H1; set_solver). clear -Hall. induction Hall as [|c l Hc _ IH]; [cbn; lia|]. rewrite fmap_cons. change (1 <= D c * prod_list (D <$> l)). nia. }
    nia.
  Qed.
  Lemma volume_ge1 (S : gset N) : (forall c, c ∈ S -> 1 <= D c) -> 1 <= volume D S.
  Proof. intros H. rewrite <-(volume_empty D). apply volume_mono; [done|set_solver]. Qed.
  Definition dims_pos : Prop := forall c, c ∈ union_sets inputs ∪ output -> 1 <= D c.
  Lemma parsed_union j c : c ∈ labels_of parsed j -> c ∈ union_sets inputs ∪ output.
  Proof.
    intros Hc. pose proof (parsed_lt inputs output _ _ Hc). rewrite labels_parsed in Hc by done. apply elem_red in Hc as [Hc _]. apply elem_of_union_l, elem_union_sets. unfold labels_of in Hc.
    destruct (inputs !! ren j) as [k|] eqn:E; [|by apply elem_of_empty in Hc]. exists k. split; [by eapply elem_of_list_lookup_2|done].
  Qed.
  Lemma legs_sub G S : legs parsed output G S ⊆ union_sets inputs ∪ output.
  Proof. intros c [(j & _ & Hc) _]%elem_legs. by eapply parsed_union. Qed.
  Lemma cost_naive G t v : dims_pos -> length (bleaves t) <= length inputs -> naive_of = Some v -> mode_cost parsed output D G minimize t <= v.
  Proof.
    intros Hdim Hl Hv. set (P := volume D (union_sets inputs ∪ output)).
    assert (Hf : forall l r, node_flops parsed output D G l r <= P) by (intros l r; apply volume_mono; [done|]; pose proof (legs_sub G (bset l)); pose proof (legs_sub G (bset r)); set_solver).
    assert (Hm : forall l r, node_size parsed output D G l r <= P) by (intros l r; apply volume_mono; [done|]; apply legs_sub).
    assert (Hlen : forall t, 1 <= length (bleaves t)) by (induction t0; simpl; rewrite ?app_length; lia).
    assert (Hsum : forall w, (forall l r, w l r <= P) -> forall t, sum_cost w t + P <= length (bleaves t) * P).
    { intros w Hw. induction t0 as [j|l IHl r IHr]; simpl; [lia|]. rewrite app_length. specialize (Hw l r). lia. }
    assert (Hmax : forall t, max_size parsed output D G t <= P) by (induction t0 as [j|l IHl r IHr]; simpl; [lia|]; specialize (Hm l r); lia).
    specialize (Hlen t). unfold naive_of in Hv. fold P in Hv. unfold mode_cost. destruct minimize; try done; injection Hv as <-.
    - pose proof (Hsum _ Hf t). unfold flops_cost. nia.
    - specialize (Hmax t). nia.
    - pose proof (Hsum _ Hm t). unfold write_cost. nia.
  Qed.
  Lemma part_size G t : closed G -> btree_over G t -> length (bleaves t) <= length inputs.
  Proof.
    intros Hcl [H1 H2]. transitivity (length pos); [|unfold DpMain.pos; rewrite filter_length, seq_length; lia].
    rewrite <-(seq_length (length pos) 0). apply submseteq_length, NoDup_submseteq; [done|]. intros k Hk. apply elem_of_seq. split; [lia|]. simpl. apply Hcl. rewrite <-H2. unfold bset. by apply elem_of_list_to_set.
  Qed.
  (** A connected part can be contracted without outer products. *)
  Lemma connected_tree ins G : (forall i j, i ∈ G -> (j ∈ G <-> rtc (linked ins output) i j)) -> forall n, 1 <= n <= size G -> exists t, NoDup (bleaves t) /\ bset t ⊆ G /\ length (bleaves t) = n /\ no_outer ins output G t.
  Proof.
    intros HG. induction n as [|n IH]; [lia|]. intros Hn. destruct (decide (n = 0)) as [->|Hn0].
    - assert (Hne : G <> ∅) by (intros ->; rewrite size_empty in Hn; lia). apply set_choose_L in Hne as (j & Hj). exists (BLeaf j). split; [apply NoDup_singleton|]. split; [unfold bset; simpl; set_solver|done].
    - destruct IH as (t & H1 & H2 & H3 & H4); [lia|].
      assert (Hout : exists j, j ∈ G /\ j ∉ bset t).
      { destruct (set_choose_or_empty (G ∖ bset t)) as [(j & Hj)|E]; [exists j; set_solver|]. exfalso. assert (Hsub : G ⊆ bset t) by set_solver. apply subseteq_size in Hsub. rewrite size_bset, H3 in Hsub by done. lia. }
      assert (Hin : exists i, i ∈ bset t). { destruct t as [j|l r]; [exists j; unfold bset; simpl; set_solver|]. destruct (bleaves (BNode l r)) as [|j k] eqn:E; [simpl in H3; lia|]. exists j. unfold bset. rewrite E. simpl. set_solver. }
      destruct Hin as (i & Hi). destruct Hout as (j & Hj & Hjn).
      assert (Hr : rtc (linked ins output) i j) by (apply (HG i j); [by apply H2|done]).
      assert (Hstep : exists a b, a ∈ bset t /\ b ∉ bset t /\ linked ins output a b).
      { clear -Hr Hi Hjn. induction Hr as [i|i i1 i2 Hl _ IH]; [done|]. destruct (decide (i1 ∈ bset t)); [by apply IH|]. eauto. }
      destruct Hstep as (a & b & Ha & Hb & c & Hca & Hcb & Hco). assert (HbG : b ∈ G) by (apply (HG a b); [by apply H2|]; apply rtc_once; exists c; done).
      exists (BNode t (BLeaf b)). simpl. split; [|split; [|split]].
      + apply NoDup_app. split; [done|]. split; [|apply NoDup_singleton]. intros x Hx ->%elem_of_list_singleton. apply Hb. unfold bset. by apply elem_of_list_to_set.
      + rewrite bset_node. unfold bset at 2. simpl. set_solver.
      + rewrite app_length. simpl. lia.
      + split; [done|]. split; [done|]. exists c. replace (bset (BLeaf b)) with ({[b]} : gset nat) by (unfold bset; simpl; set_solver). split; [|split; [|done]]; apply elem_legs.
        * split; [eauto|]. right. exists b. done.
        * split; [exists b; set_solver|]. right. exists a. split; [by apply H2|]. split; [|done]. intros ->%elem_of_singleton. done.
  Qed.
  Lemma any_tree (G : gset nat) : G <> ∅ -> exists t, btree_over G t.
  Proof.
    intros Hne. assert (Hl : forall l : list nat, l <> [] -> exists t, bleaves t ≡ₚ l).
    { induction l as [|j l IH]; [done|]. intros _. destruct l as [|j' l']; [by exists (BLeaf j)|]. destruct IH as (t & Ht); [done|]. exists (BNode (BLeaf j) t). simpl. by rewrite Ht. }
    destruct (Hl (elements G)) as (t & Ht). { intros E. apply Hne. by apply leibniz_equiv, elements_empty_inv. }
    exists t. split; [rewrite Ht; apply NoDup_elements|]. unfold bset. apply set_eq. intros j. by rewrite elem_of_list_to_set, Ht, elem_of_elements.
  Qed.
  Lemma fits_none ins G t : fits ins output D G None t.
  Proof. induction t; simpl; auto. Qed.

  (** One part succeeds after finitely many rounds if some tree is allowed. *)
  Lemma part_success G : dims_pos -> cost_cap <> CapInt 0 -> G <> ∅ -> closed G -> (exists t, btree_over G t /\ allowed parsed output D G search_outer mem t) ->
    exists R, forall rounds, R <= rounds -> exists p, dp_part ordI minimize cost_cap search_outer rounds parsed ctr output d mem naive_of G = Ok p.
  Proof.
    intros Hdim Hcap Hne Hcl (t & Ht1 & Ht2). set (c := mode_cost parsed output D G minimize t). exists (S (S c)). intros rounds Hr. pose proof (dp_part_cases rounds naive_of G Hne Hcl) as H.
    destruct (dp_part _ _ _ _ _ _ _ _ _ _ _ _) as [p|ex]; [eauto|]. exfalso. destruct ex; try done.
    - destruct H as (cap' & Hgt & H). specialize (H t Ht1 Ht2). fold c in H. destruct naive_of as [v|] eqn:En; [|by destruct cap']. destruct cap' as [b|]; [|done]. simpl in *. apply Nat.ltb_lt in Hgt. apply Nat.leb_gt in H.
      assert (Hle : c <= v) by (apply cost_naive; [done|by eapply part_size|done]). lia.
    - destruct H as [?|(inc & Hinc & _ & H)]; [lia|]. specialize (H t Ht1 Ht2). fold c in H. destruct (start_cap G) as [b|] eqn:Eb; [|done]. simpl in H. apply Nat.leb_gt in H.
      assert (Hb : 1 <= b).
      { unfold start_cap in Eb. destruct cost_cap as [| |v]; [injection Eb as <-|done|injection Eb as <-; destruct v; [done|lia]]. apply volume_ge1. intros c' [Hc' _]%elem_of_intersection. apply elem_labels_in_set in Hc' as (j & _ & Hc'). apply Hdim. by eapply parsed_union. }
      assert (Hpow : 2 ^ (rounds - 1) <= inc ^ (rounds - 1)) by (apply Nat.pow_le_mono_l; lia). pose proof (Nat.pow_gt_lin_r 2 (rounds - 1) ltac:(lia)). nia.
  Qed.
  Lemma start_cap_pos G b : dims_pos -> cost_cap <> CapInt 0 -> start_cap G = Some b -> 1 <= b.
  Proof.
    intros Hdim Hcap Eb. unfold start_cap in Eb. destruct cost_cap as [| |v]; [injection Eb as <-|done|injection Eb as <-; destruct v; [done|lia]].
    apply volume_ge1. intros c' [Hc' _]%elem_of_intersection. apply elem_labels_in_set in Hc' as (j & _ & Hc'). apply Hdim. by eapply parsed_union.
  Qed.
  (** With a finite naive cost the search always ends: with a tree, or an error if no tree is allowed. *)
  Lemma part_decides G : dims_pos -> cost_cap <> CapInt 0 -> naive_of <> None -> G <> ∅ -> closed G ->
    exists R, forall rounds, R <= rounds -> (exists p, dp_part ordI minimize cost_cap search_outer rounds parsed ctr output d mem naive_of G = Ok p) \/
      (dp_part ordI minimize cost_cap search_outer rounds parsed ctr output d mem naive_of G = Err RuntimeError /\ forall t, btree_over G t -> ~ allowed parsed output D G search_outer mem t).
  Proof.
    intros Hdim Hcap Hnv Hne Hcl. destruct naive_of as [v|] eqn:En; [|done]. exists (S (S v)). intros rounds Hr. pose proof (dp_part_cases rounds naive_of G Hne Hcl) as H. rewrite En in H.
    destruct (dp_part _ _ _ _ _ _ _ _ _ _ _ _) as [p|ex]; [left; eauto|]. destruct ex; try done.
    - right. split; [done|]. intros t Ht1 Ht2. destruct H as (cap' & Hgt & H). specialize (H t Ht1 Ht2). destruct cap' as [b|]; [|done]. simpl in *. apply Nat.ltb_lt in Hgt. apply Nat.leb_gt in H.
      pose proof (cost_naive G t v Hdim (part_size G t Hcl Ht1) En). lia.
    - exfalso. destruct H as [?|(inc & Hinc & H & _)]; [lia|]. destruct (start_cap G) as [b|] eqn:Eb; [|done]. simpl in H. apply Nat.ltb_ge in H. pose proof (start_cap_pos G b Hdim Hcap Eb).
      assert (Hpow : 2 ^ (rounds - 1) <= inc ^ (rounds - 1)) by (apply Nat.pow_le_mono_l; lia). pose proof (Nat.pow_gt_lin_r 2 (rounds - 1) ltac:(lia)). nia.
  Qed.
  Lemma uniform_rounds {A} (P : A -> nat -> Prop) (l : list A) : (forall a, a ∈ l -> exists R, forall r, R <= r -> P a r) -> exists R, forall r, R <= r -> forall a, a ∈ l -> P a r.
  Proof.
    induction l as [|a l IH]; intros H; [exists 0; by intros ? _ ? ?%elem_of_nil|]. destruct (H a) as (R1 & H1); [left|]. destruct IH as (R2 & H2); [intros b Hb; apply H; by right|]. exists (Nat.max R1 R2).
    intros r Hr b [->|Hb]%elem_of_cons; [apply H1; lia|apply H2; [lia|done]].
  Qed.
  Theorem dp_tree_success : inputs <> [] -> dims_pos -> cost_cap <> CapInt 0 -> mem = None -> exists R, forall rounds, R <= rounds -> exists T, dp_tree ordI pop minimize cost_cap search_outer rounds inputs output d mem = Ok T.
  Proof.
    intros Hi Hdim Hcap Hmem. setoid_rewrite dp_tree_unfold. destruct pos as [|j0 l0] eqn:Ep.
    - exists 0. intros _ _. destruct dones as [|j l] eqn:Ed; [|simpl; eauto]. exfalso. destruct inputs as [|k l] eqn:Ei; [done|]. rewrite <-Ei in *. assert (H0 : 0 < length inputs) by (rewrite Ei; simpl; lia).
      apply (pos_dones inputs output) in H0. rewrite Ep, Ed in H0. by destruct H0 as [?%elem_of_nil|?%elem_of_nil].
    - rewrite <-Ep in *. destruct subgraphs_ok as (gs & Egs & Hc & HFa & Hcp & Hall); [by rewrite Ep|]. rewrite Forall_forall in HFa.
      destruct (uniform_rounds (fun G r => exists p, dp_part ordI minimize cost_cap search_outer r parsed ctr output d mem naive_of G = Ok p) gs) as (R & HR).
      { intros G HG. destruct (HFa G HG) as [Hne Hcl]. apply part_success; [done|done|done|done|]. destruct search_outer eqn:Eso.
        - destruct (any_tree G Hne) as (t & Ht). exists t. split; [done|]. split; [done|]. rewrite Hmem. apply fits_none.
        - destruct (Hcp eq_refl) as [H1 _ _]. destruct (H1 G HG) as [_ H2]. assert (Hsz : 1 <= size G). { destruct (decide (size G = 0)) as [E|]; [|lia]. apply size_empty_inv in E. exfalso. apply Hne. set_solver. }
          destruct (connected_tree parsed G H2 (size G) ltac:(lia)) as (t & A1 & A2 & A3 & A4). exists t. split; [split; [done|]; apply set_subseteq_size_eq; [done|]; rewrite size_bset by done; lia|]. split; [done|]. rewrite Hmem. apply fits_none. }
      exists R. intros r Hr. rewrite Egs. cbn [mbind res_bind]. destruct (mapM_res_ok (dp_part ordI minimize cost_cap search_outer r parsed ctr output d mem naive_of) gs) as (cs & Hcs); [by apply HR|]. rewrite Hcs. cbn [mbind res_bind].
      set (l := _ ++ cs). destruct (by_size_pick (id : tree * nat -> tree * nat) l) as (L' & HL & HL2 & _). rewrite list_fmap_id in HL2. rewrite HL2.
      destruct L' as [|q L']; [|simpl; eauto]. exfalso. apply Permutation_nil_l in HL. unfold l in HL. symmetry in HL. apply app_eq_nil in HL as [_ ->]. apply mapM_res_Forall2 in Hcs. apply Forall2_nil_inv_r in Hcs. subst gs.
      destruct Hc as [_ Hc]. assert (H0 : 0 < length pos) by (rewrite Ep; simpl; lia). apply Hc in H0 as (g & ?%elem_of_nil & _). done.
  Qed.
  Theorem dp_tree_decides : inputs <> [] -> dims_pos -> cost_cap <> CapInt 0 -> naive_of <> None -> exists R, forall rounds, R <= rounds ->
    (exists T, dp_tree ordI pop minimize cost_cap search_outer rounds inputs output d mem = Ok T) \/
    (dp_tree ordI pop minimize cost_cap search_outer rounds inputs output d mem = Err RuntimeError /\
     exists g, g <> ∅ /\ (forall j, j ∈ g -> j < length inputs) /\ (search_outer = false -> forall i j, i ∈ g -> (j ∈ g <-> rtc (linked inputs output) i j)) /\ forall t, btree_over g t -> ~ allowed inputs output D g search_outer mem t).
  Proof.
    intros Hi Hdim Hcap Hnv. setoid_rewrite dp_tree_unfold. destruct pos as [|j0 l0] eqn:Ep.
    - exists 0. intros _ _. left. destruct dones as [|j l] eqn:Ed; [|simpl; eauto]. exfalso. destruct inputs as [|k l] eqn:Ei; [done|]. rewrite <-Ei in *. assert (H0 : 0 < length inputs) by (rewrite Ei; simpl; lia).
      apply (pos_dones inputs output) in H0. rewrite Ep, Ed in H0. by destruct H0 as [?%elem_of_nil|?%elem_of_nil].
    - rewrite <-Ep in *. destruct subgraphs_ok as (gs & Egs & Hc & HFa & Hcp & Hall); [by rewrite Ep|]. rewrite Forall_forall in HFa. setoid_rewrite Egs. cbn [mbind res_bind].
      destruct (uniform_rounds (fun G r => (exists p, dp_part ordI minimize cost_cap search_outer r parsed ctr output d mem naive_of G = Ok p) \/
        (dp_part ordI minimize cost_cap search_outer r parsed ctr output d mem naive_of G = Err RuntimeError /\ forall t, btree_over G t -> ~ allowed parsed output D G search_outer mem t)) gs) as (R & HR).
      { intros G HG. destruct (HFa G HG) as [Hne Hcl]. by apply part_decides. }
      exists R. intros r Hr. specialize (HR r Hr).
      assert (Hcase : (exists cs, mapM_res (dp_part ordI minimize cost_cap search_outer r parsed ctr output d mem naive_of) gs = Ok cs) \/
        (mapM_res (dp_part ordI minimize cost_cap search_outer r parsed ctr output d mem naive_of) gs = Err RuntimeError /\ exists G, G ∈ gs /\ forall t, btree_over G t -> ~ allowed parsed output D G search_outer mem t)).
      { clear -HR. induction gs as [|G gs IH]; [left; eauto|]. simpl. destruct (HR G) as [(p & ->)|(-> & Hno)]; [left|cbn [mbind res_bind]|right; split; [done|]; exists G; split; [left|done]].
        destruct IH as [(cs & ->)|(-> & G' & HG' & Hno)]; [intros G' HG'; apply HR; by right|left; cbn [mbind res_bind]; eauto|right]. split; [done|]. exists G'. split; [by right|done]. }
      destruct Hcase as [(cs & Hcs)|(Herr & G & HG & Hno)].
      + left. rewrite Hcs. cbn [mbind res_bind]. set (l := _ ++ cs). destruct (by_size_pick (id : tree * nat -> tree * nat) l) as (L' & HL & HL2 & _). rewrite list_fmap_id in HL2. rewrite HL2.
        destruct L' as [|q L']; [|simpl; eauto]. exfalso. apply Permutation_nil_l in HL. unfold l in HL. symmetry in HL. apply app_eq_nil in HL as [_ ->]. apply mapM_res_Forall2 in Hcs. apply Forall2_nil_inv_r in Hcs. subst gs.
        destruct Hc as [_ Hc]. assert (H0 : 0 < length pos) by (rewrite Ep; simpl; lia). apply Hc in H0 as (g & ?%elem_of_nil & _). done.
      + right. split; [by rewrite Herr|]. destruct (HFa G HG) as [Hne Hcl]. assert (Hlt : forall k, k ∈ G -> k < length pos) by (intros k Hk; by apply Hcl).
        exists (set_map ren G). split; [|split; [|split]].
        * apply set_choose_L in Hne as (k & Hk). intros E. assert (Hin : ren k ∈ (set_map ren G : gset nat)) by (apply elem_of_map; eauto). rewrite E in Hin. by apply elem_of_empty in Hin.
        * intros j (k & -> & Hk)%elem_of_map. apply (pos_dones inputs output). left. apply ren_pos. by apply Hlt.
        * intros Hs i j Hij. destruct (connected_all inputs output gs (Hcp Hs)) as [H1 _ _]. apply (H1 (set_map ren G)); [|done]. unfold all_parts. apply elem_of_app. right. apply elem_of_list_fmap. eauto.
        * intros t Ht Ha. destruct (over_back inputs output G Hlt t Ht) as (t0 & Ht0 & <-). apply (Hno t0 Ht0). apply (allowed_ren inputs output D G Hlt); [by destruct Ht0 as [_ ->]|done].
  Qed.
  (** With an infinite naive cost there is no RuntimeError. *)
  Lemma dp_tree_no_error rounds : inputs <> [] -> naive_of = None -> (exists T, dp_tree ordI pop minimize cost_cap search_outer rounds inputs output d mem = Ok T) \/ dp_tree ordI pop minimize cost_cap search_outer rounds inputs output d mem = Err NoFuel.
  Proof.
    intros Hi Hnv. rewrite dp_tree_unfold. destruct pos as [|j0 l0] eqn:Ep.
    - left. destruct dones as [|j l] eqn:Ed; [|simpl; eauto]. exfalso. destruct inputs as [|k l] eqn:Ei; [done|]. rewrite <-Ei in *. assert (H0 : 0 < length inputs) by (rewrite Ei; simpl; lia).
      apply (pos_dones inputs output) in H0. rewrite Ep, Ed in H0. by destruct H0 as [?%elem_of_nil|?%elem_of_nil].
    - rewrite <-Ep in *. destruct subgraphs_ok as (gs & Egs & Hc & HFa & Hcp & Hall); [by rewrite Ep|]. rewrite Egs. cbn [mbind res_bind].
      assert (Hcase : (exists cs, mapM_res (dp_part ordI minimize cost_cap search_outer rounds parsed ctr output d mem naive_of) gs = Ok cs) \/ mapM_res (dp_part ordI minimize cost_cap search_outer rounds parsed ctr output d mem naive_of) gs = Err NoFuel).
      { clear -HFa Hnv Hd Hdo ordI_ok pop_ok. induction HFa as [|G gs [Hne Hcl] _ IH]; [left; eauto|]. simpl. pose proof (dp_part_cases rounds naive_of G Hne Hcl) as H. destruct (dp_part _ _ _ _ _ _ _ _ _ _ _ G) as [p|ex]; cbn [mbind res_bind].
        - destruct IH as [(cs & ->)| ->]; cbn [mbind res_bind]; eauto.
        - right. destruct ex; try done. exfalso. destruct H as (cap' & Hgt & _). rewrite Hnv in Hgt. by destruct cap'. }
      destruct Hcase as [(cs & Hcs)| ->]; [|by right]. left. rewrite Hcs. cbn [mbind res_bind]. set (l := _ ++ cs). destruct (by_size_pick (id : tree * nat -> tree * nat) l) as (L' & HL & HL2 & _). rewrite list_fmap_id in HL2. rewrite HL2.
      destruct L' as [|q L']; [|simpl; eauto]. exfalso. apply Permutation_nil_l in HL. unfold l in HL. symmetry in HL. apply app_eq_nil in HL as [_ ->]. apply mapM_res_Forall2 in Hcs. apply Forall2_nil_inv_r in Hcs. subst gs.
      destruct Hc as [_ Hc]. assert (H0 : 0 < length pos) by (rewrite Ep; simpl; lia). apply Hc in H0 as (g & ?%elem_of_nil & _). done.
  Qed.
  Theorem dp_complete rounds p : dp ordI pop minimize cost_cap search_outer rounds inputs output d mem = Ok p -> path_runs (length inputs) p.
  Proof.
    unfold dp. intros H. destruct (dp_tree _ _ _ _ _ _ _ _ _ _) as [T|] eqn:ET; [|done]. cbn [mbind res_bind] in H. destruct (dp_tree_ok rounds T ET) as (gs & bts & t & ts & Hc & _ & H1 & H2 & ->).
    destruct (tree_to_sequence_ok (length inputs) (left_comb t ts)) as (p' & Hp' & Hrun & _); [|by rewrite Hp' in H; injection H as <-].
    eapply comb_over; [exact Hc| |exact H2]. eapply Forall2_impl; [exact H1|]. by intros g b [? _].
  Qed.
  Theorem dp_success : inputs <> [] -> dims_pos -> cost_cap <> CapInt 0 -> mem = None -> exists R, forall rounds, R <= rounds -> exists p, dp ordI pop minimize cost_cap search_outer rounds inputs output d mem = Ok p /\ path_runs (length inputs) p.
  Proof.
    intros Hi Hdim Hcap Hmem. destruct (dp_tree_success Hi Hdim Hcap Hmem) as (R & HR). exists R. intros rounds Hr. destruct (HR rounds Hr) as (T & ET). destruct (dp_tree_ok rounds T ET) as (gs & bts & t & ts & Hc & _ & H1 & H2 & ->).
    destruct (tree_to_sequence_ok (length inputs) (left_comb t ts)) as (p' & Hp' & Hrun & _).
    - eapply comb_over; [exact Hc| |exact H2]. eapply Forall2_impl; [exact H1|]. by intros g b [? _].
    - exists p'. split; [|done]. unfold dp. rewrite ET. exact Hp'.
  Qed.
End Top.
