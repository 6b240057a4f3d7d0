(** contract with the built-in path finders. *)
From Verif Require Import Prelude Einsum EinsumFacts EinsumOps Parser Helpers Contract Spec PathSpec StringFacts SymbolFacts StepFacts ContractFacts PathFacts ParserFacts ParseSpec ParseProof ParseSound TopFacts ContractMain Ssa SsaSpec SsaFacts SsaMore Optimal OptimalFacts Branch BranchFacts Greedy GreedyFacts DpSpec Dp DpTop Random RandomSpec RandomFacts.
From Verif Require Import Einsum.

(** The oracles are what they should be: set iteration enumerates the set, [set.pop] takes an element, a random choice takes
    one of the candidates. *)
Record env_ok (E : env) : Prop := EnvOk {
  eo_ord : forall s, en_ord E s ≡ₚ elements s;
  eo_pop : forall s, s <> ∅ -> en_pop E s ∈ s;
  eo_pick : forall r k l, l <> [] -> dr_pick (en_draws E) r k l < length l }.
Definition with_rounds (E : env) (rounds : nat) : env := Env (en_ord E) (en_pop E) (en_draws E) rounds.

(** The arguments a finder is called with. *)
Definition labelled (d : sizes) (sets : list (gset N)) (out : gset N) : Prop :=
  (forall s c, s ∈ sets -> c ∈ s -> is_Some (d !! c)) /\ out ⊆ union_all sets.
(** On [n > 2] operands the finder succeeds with a complete path; or, weaker, its results are complete. *)
Definition finder_total (f : finder) : Prop :=
  forall sets out d mem, 2 < length sets -> labelled d sets out -> exists p, f sets out d mem = Ok p /\ path_runs (length sets) p.
Definition finder_sound (f : finder) : Prop :=
  forall sets out d mem p, 2 < length sets -> labelled d sets out -> f sets out d mem = Ok p -> path_runs (length sets) p.

Lemma runs_complete n p : 2 < n -> path_runs n p -> complete n p.
Proof. intros Hn H. split; [|done]. intros ->. simpl in H. lia. Qed.
Lemma total_strategy f n : finder_total f -> strategy_ok (OFinder f) n.
Proof.
  intros Hf. simpl. destruct (decide (n <= 2)) as [?|Hn]; [by left|]. right. intros sets out d mem <- Hd Ho.
  destruct (Hf sets out d mem) as (p & Hp & Hr); [lia|by split|]. exists p. split; [done|]. apply runs_complete; [lia|done].
Qed.
Lemma total_sound f : finder_total f -> finder_sound f.
Proof. intros Hf sets out d mem p Hn Hl Hp. destruct (Hf sets out d mem Hn Hl) as (p' & Hp' & Hr). rewrite Hp in Hp'. by apply Ok_inj in Hp' as ->. Qed.

(** ** A finder that may fail *)
Definition safe (f : finder) : finder := fun sets out d mem => match f sets out d mem with Ok p => Ok p | Err _ => Ok [seq 0 (length sets)] end.
Lemma safe_total f : finder_sound f -> finder_total (safe f).
Proof.
  intros Hf sets out d mem Hn Hl. unfold safe. specialize (Hf sets out d mem). destruct (f sets out d mem) as [p|e].
  - exists p. split; [done|]. by apply Hf.
  - eexists. split; [done|]. destruct (complete_all (length sets)) as [_ H]; [lia|done].
Qed.
Lemma contract_path_safe (ord : gset N -> list N) use_blas f mem s shapes info :
  contract_path ord use_blas (OFinder f) mem s shapes = Ok info -> contract_path ord use_blas (OFinder (safe f)) mem s shapes = Ok info.
Proof.
  unfold contract_path. intros H. apply bind_Ok in H as ([inp out] & -> & H). cbn [mbind res_bind]. unfold contract_path_parsed in *.
  apply bind_Ok in H as (d & -> & H). apply bind_Ok in H as (sl & Hsl & H). cbn [mbind res_bind]. rewrite Hsl. cbn [mbind res_bind]. apply bind_Ok in H as (m & -> & H). cbn [mbind res_bind].
  apply bind_Ok in H as (naive & -> & H). cbn [mbind res_bind]. apply bind_Ok in H as (p & Hp & H).
  assert (Hp' : compute_path (OFinder (safe f)) (list_to_set <$> split s_comma inp) (list_to_set out) d m = Ok p).
  { simpl in *. destruct (Nat.leb _ _); [done|]. unfold safe. by rewrite Hp. }
  rewrite Hp'. cbn [mbind res_bind]. exact H.
Qed.
Lemma contract_safe {K : semiring} (ord : gset N -> list N) (B : backend K) use_blas f mem s ops T :
  contract ord B use_blas (OFinder f) mem s ops = Ok T -> contract ord B use_blas (OFinder (safe f)) mem s ops = Ok T.
Proof. unfold contract. intros H. apply bind_Ok in H as (info & H & Hc). by rewrite (contract_path_safe _ _ _ _ _ _ _ H). Qed.

Section Args.
  Context {K : semiring}.
  Notation tens := (tensor K).
  Variable ord : gset N -> list N.
  Hypothesis ord_ok : forall s, ord s ≡ₚ elements s.
  Variable B : backend K.
  Hypothesis B_ok : backend_ok B.
  Hypothesis B_einsum : b_has_einsum B = true.
  Variables (e : eqn) (s : str) (ops : list tens).
  Hypothesis Hne : e_in e <> [].
  Hypothesis Hpl : plain_eqn e.
  Hypothesis Hs : filter (.≠ c_space) s = render e.
  Let shapes := shape <$> ops.
  Hypothesis Hwf : well_formed e shapes.
  Let tops := zip (in_labels e shapes) ops.
  Hypothesis Hgood : good tops.
  Hypothesis Hsmall : length (remove_dups (labels_of tops)) <= 52.

  Lemma contract_sound use_blas f mem T : mem_valid mem -> finder_sound f -> contract ord B use_blas (OFinder f) mem s ops = Ok T ->
    T ≡ₜ einsum tops (out_labels e shapes).
  Proof.
    intros Hm Hf HT%contract_safe. destruct (contract_ok ord ord_ok B B_ok e s ops Hne Hpl Hs Hwf use_blas (OFinder (safe f)) mem) as (T' & HT' & Heq); try done.
    { by apply total_strategy, safe_total. }
    assert (T' = T) as -> by congruence. done.
  Qed.

  (** The arguments the finder gets without a memory limit. *)
  Lemma finder_args : 2 < length ops -> exists sets out d, length sets = length ops /\ labelled d sets out /\
    (Forall (fun t => Forall (fun x => 1 <= x) (shape t)) ops -> forall c, c ∈ union_all sets -> 1 <= size_of d c) /\
    forall use_blas f p, f sets out d None = Ok p -> path_runs (length sets) p ->
      exists T, contract ord B use_blas (OFinder f) MNone s ops = Ok T /\ T ≡ₜ einsum tops (out_labels e shapes).
  Proof.
    intros Hn. set (g := name (fresh e shapes)). set (ts := fmap (M:=list) g <$> in_labels e shapes : list str). set (out := g <$> out_labels e shapes).
    assert (Hlen : length ts = length ops) by (unfold ts; rewrite fmap_length; by apply in_labels_length).
    assert (Hsplit : split s_comma (join s_comma ts) = ts) by (by apply (ts_split e ops Hne Hpl Hwf)).
    assert (Hinj : forall a b, a ∈ labels_of tops -> b ∈ labels_of tops -> g a = g b -> a = b) by (intros a b Ha Hb; apply (g_inj e ops Hpl); by left).
    assert (Hgood' : good (zip ts ops)) by (unfold ts; rewrite (zip_rename_gen g); by apply good_rename).
    exists (list_to_set <$> ts), (list_to_set out), (dims_map (zip ts ops)). rewrite fmap_length. split; [done|].
    assert (Hlab : labelled (dims_map (zip ts ops)) (list_to_set <$> ts) (list_to_set out)).
    { split.
      - intros a c (t & -> & Ht)%elem_of_list_fmap Hc. apply elem_of_list_to_set in Hc. rewrite dims_map_lookup, decide_True; [done|]. apply elem_labels_zip; eauto.
      - intros c Hc. apply elem_of_list_to_set in Hc. unfold out in Hc. apply elem_of_list_fmap in Hc as (l & -> & Hl).
        destruct (wf_known _ _ Hwf l Hl) as (t & Ht & Hlt). apply elem_union_all. exists (list_to_set (g <$> t)). split; [|apply elem_of_list_to_set; by apply elem_of_list_fmap_1].
        apply elem_of_list_fmap_1. by apply (elem_of_list_fmap_1 (fmap (M:=list) g)). }
    split; [done|]. split.
    - intros Hpos c Hc. apply elem_union_all in Hc as (k & (t & -> & Ht)%elem_of_list_fmap & Hc). apply elem_of_list_to_set in Hc.
      unfold size_of. rewrite dims_map_lookup, decide_True by (apply elem_labels_zip; eauto). simpl.
      destruct (dim_char (zip ts ops) c) as [_ [-> |Hd]]; [by destruct Hgood'|lia|]. apply elem_of_axes in Hd as ([t' o] & i & Ho & _ & Hi). simpl in Hi.
      apply elem_of_zip_r in Ho. rewrite Forall_forall in Hpos. specialize (Hpos o Ho). rewrite Forall_forall in Hpos. apply Hpos. by eapply elem_of_list_lookup_2.
    - intros use_blas f p Hp Hr. rewrite Hlen in Hr.
      assert (Hcomp : complete (length ops) p) by (by apply runs_complete).
      destruct (contract_ok ord ord_ok B B_ok e s ops Hne Hpl Hs Hwf use_blas (OPath p) MNone) as (T & HT & Heq); try done. exists T. split; [|done].
      destruct (contract_path_ok ord ord_ok B B_ok e s ops Hne Hpl Hs Hwf use_blas (OPath p) MNone) as (info & Hinfo & _ & _ & _ & Hd & _); try done.
      unfold contract in *. fold shapes in HT, Hinfo, Hd |- *. rewrite Hinfo in HT. fold g in Hd. fold ts in Hd.
      enough (contract_path ord use_blas (OFinder f) MNone s shapes = Ok info) as -> by done.
      pose proof (parsed e s ops Hne Hpl Hs Hwf) as Hpar. fold shapes in Hpar. fold g in Hpar. fold ts in Hpar. fold out in Hpar.
      unfold contract_path in *. rewrite Hpar in Hinfo. rewrite Hpar. cbn [mbind res_bind] in *.
      unfold contract_path_parsed in *. rewrite Hsplit in Hinfo. rewrite Hsplit.
      apply bind_Ok in Hinfo as (d & Hd' & Hinfo). rewrite Hd'. cbn [mbind res_bind]. apply bind_Ok in Hinfo as (sl & Hsl & Hinfo). rewrite Hsl. cbn [mbind res_bind].
      cbn [choose_memory_arg mbind res_bind] in *. apply bind_Ok in Hinfo as (naive & Hnv & Hinfo). rewrite Hnv. cbn [mbind res_bind compute_path] in *.
      assert (d = dims_map (zip ts ops)) as ->.
      { rewrite <-Hd. apply bind_Ok in Hinfo as (st & _ & Hinfo). apply bind_Ok in Hinfo as (ps & _ & Hinfo). by apply Ok_inj in Hinfo as <-. }
      rewrite fmap_length, Hlen. destruct (Nat.leb_spec (length ops) 2); [lia|]. rewrite Hp. cbn [mbind res_bind]. exact Hinfo.
  Qed.
End Args.

(** ** The built-in finders *)
Lemma labelled_Forall d sets out : labelled d sets out -> Forall (labels_in d) sets.
Proof. intros [H _]. apply Forall_forall. intros k Hk c. by apply H. Qed.
Lemma optimal_total ordI : (forall s, ordI s ≡ₚ elements s) -> finder_total (optimal ordI).
Proof. intros Ho sets out d mem Hn Hl. apply optimal_complete; [done|by destruct sets; [simpl in Hn; lia|]|by eapply labelled_Forall]. Qed.
Lemma branch_total nb E : env_ok E -> nb <> Some 0 -> finder_total (branch_n nb E).
Proof. intros HE Hb sets out d mem Hn Hl. assert (sets <> []) by (by intros ->; simpl in Hn; lia).
  apply branch_complete; [by apply eo_ord|done|done|by eapply labelled_Forall]. Qed.
Lemma greedy_total E : env_ok E -> finder_total (greedy_default E).
Proof. intros HE sets out d mem Hn Hl. assert (sets <> []) by (by intros ->; simpl in Hn; lia).
  exact (greedy_complete cost_memory_removed None (en_ord E) sets out d mem I (eo_ord _ HE) H (labelled_Forall _ _ _ Hl)). Qed.
Lemma random_total reps E : env_ok E -> 1 <= reps -> finder_total (random_greedy reps (en_draws E)).
Proof.
  intros HE Hr sets out d mem Hn Hl. destruct (random_greedy_ok reps (en_draws E) sets out d mem) as (p & Hp & Hrun & _); [lia|done|by eapply labelled_Forall|by apply eo_pick|]. eauto.
Qed.
Lemma auto_total E : env_ok E -> finder_total (auto E).
Proof.
  intros HE sets out d mem Hn Hl. unfold auto. repeat case_decide; [apply optimal_total|apply branch_total|apply branch_total|apply branch_total|apply greedy_total]; try done; by apply eo_ord.
Qed.
Lemma labelled_sized d sets out : labelled d sets out -> (forall j c, c ∈ DpSpec.labels_of sets j -> is_Some (d !! c)) /\ (forall c, c ∈ out -> is_Some (d !! c)).
Proof.
  intros [H Ho]. split.
  - intros j c Hc. unfold DpSpec.labels_of in Hc. destruct (sets !! j) as [k|] eqn:E; [|by apply elem_of_empty in Hc]. apply (H k); [by eapply elem_of_list_lookup_2|done].
  - intros c Hc%Ho. apply elem_union_all in Hc as (k & Hk & Hc). by apply (H k).
Qed.
Lemma dp_sound E : env_ok E -> finder_sound (dp_default E).
Proof.
  intros HE sets out d mem p Hn Hl. destruct (labelled_sized _ _ _ Hl) as [H1 H2]. apply (dp_complete (en_ord E) (en_pop E) DpFlops CapTrue false sets out d mem (eo_ord _ HE) (eo_pop _ HE) H1 H2).
Qed.
Lemma auto_hq_sound E : env_ok E -> finder_sound (auto_hq E).
Proof.
  intros HE sets out d mem p Hn Hl. unfold auto_hq. repeat case_decide; intros Hp.
  - eapply total_sound; [apply optimal_total; by apply eo_ord|done|done|exact Hp].
  - eapply dp_sound; done.
  - eapply total_sound; [apply (random_total 128); [done|lia]|done|done|exact Hp].
Qed.
