(** [alpha_canonicalize]: specification of renaming and facts. *)
From Verif Require Import Prelude Parser Spec SymbolFacts ContractFacts.

(** Characters that are not labels. *)
Definition syntax : list N := [c_dot; c_comma; c_dash; c_gt].
(** [f] renames the labels of [s] injectively. *)
Record relabels (f : N -> N) (s : str) : Prop := Relabels {
  rl_syntax : forall c, c ∈ s -> c ∈ syntax -> f c = c;
  rl_label : forall c, c ∈ s -> c ∉ syntax -> f c ∉ syntax;
  rl_inj : forall a b, a ∈ s -> b ∈ s -> f a = f b -> a = b }.
Definition alpha_equiv (s t : str) : Prop := exists f, relabels f s /\ t = f <$> s.

Lemma alpha_refl s : alpha_equiv s s.
Proof. exists id. split; [by split|by rewrite list_fmap_id]. Qed.
Lemma alpha_trans s t u : alpha_equiv s t -> alpha_equiv t u -> alpha_equiv s u.
Proof.
  intros (f & [F1 F2 F3] & ->) (g & [G1 G2 G3] & ->). exists (g ∘ f). split; [split; simpl|by rewrite <-list_fmap_compose].
  - intros c Hc Hs. rewrite (F1 c Hc Hs). apply G1; [|done]. rewrite <-(F1 c Hc Hs). by apply elem_of_list_fmap_1.
  - intros c Hc Hs. apply G2; [by apply elem_of_list_fmap_1|by apply F2].
  - intros a b Ha Hb H. apply F3; [done|done|]. by apply G3; [apply elem_of_list_fmap_1|apply elem_of_list_fmap_1|].
Qed.
Lemma alpha_sym s t : alpha_equiv s t -> alpha_equiv t s.
Proof.
  intros (f & [F1 F2 F3] & ->).
  set (g := fun y => match list_find (fun x => f x = y) s with Some (_, x) => x | None => y end).
  assert (Hg : forall c, c ∈ s -> g (f c) = c).
  { intros c Hc. unfold g. destruct (list_find _ s) as [[i x]|] eqn:E.
    - apply list_find_Some in E as (E1 & E2 & _). apply F3; [by eapply elem_of_list_lookup_2|done|done].
    - apply list_find_None in E. rewrite Forall_forall in E. by destruct (E c Hc). }
  exists g. split; [split|].
  - intros y (c & -> & Hc)%elem_of_list_fmap Hs. rewrite Hg by done. destruct (decide (c ∈ syntax)); [by rewrite F1|]. by apply F2 in Hs.
  - intros y (c & -> & Hc)%elem_of_list_fmap Hs. rewrite Hg by done. intros Hs'. apply Hs. by rewrite F1.
  - intros a b (a' & -> & Ha)%elem_of_list_fmap (b' & -> & Hb)%elem_of_list_fmap. rewrite !Hg by done. by intros ->.
  - rewrite <-list_fmap_compose. symmetry. rewrite <-(list_fmap_id s) at 2. apply list_fmap_ext'. intros c Hc. by apply Hg.
Qed.

Lemma inb_syntax c : inb c (lit ".,->") = bool_decide (c ∈ syntax).
Proof. reflexivity. Qed.
(** The dictionary after some characters. *)
Record renaming (m : gmap N N) : Prop := Renaming {
  rn_dom : forall c x, m !! c = Some x -> c ∉ syntax /\ exists i, i < size m /\ x = get_symbol (N.of_nat i);
  rn_inj : forall a b x, m !! a = Some x -> m !! b = Some x -> a = b }.
Lemma alpha_step_ok m c : renaming m -> renaming (alpha_step m c) /\ m ⊆ alpha_step m c /\ (c ∉ syntax -> is_Some (alpha_step m c !! c)).
Proof.
  intros [M1 M2]. unfold alpha_step. rewrite inb_syntax. case_bool_decide as Hs; [done|]. case_decide as Hc; [done|].
  apply eq_None_not_Some in Hc. split; [|split; [by apply insert_subseteq|by rewrite lookup_insert]]. split.
  - intros a x. rewrite map_size_insert_None by done. destruct (decide (a = c)) as [->|Ha].
    + rewrite lookup_insert. intros [= <-]. split; [done|]. exists (size m). split; [lia|done].
    + rewrite lookup_insert_ne by done. intros (H1 & i & Hi & ->)%M1. split; [done|]. exists i. split; [lia|done].
  - intros a b x. destruct (decide (a = c)) as [->|Ha], (decide (b = c)) as [->|Hb]; rewrite ?lookup_insert, ?lookup_insert_ne by done; [done| | |by apply M2].
    + intros [= <-] (_ & i & Hi & H)%M1. apply get_symbol_inj in H. lia.
    + intros (_ & i & Hi & H)%M1 [= <-]. apply get_symbol_inj in H. lia.
Qed.
Lemma alpha_fold_ok s m : renaming m -> renaming (foldl alpha_step m s) /\ m ⊆ foldl alpha_step m s /\ (forall c, c ∈ s -> c ∉ syntax -> is_Some (foldl alpha_step m s !! c)).
Proof.
  revert m. induction s as [|a s IH]; intros m Hm; simpl; [split; [done|split; [done|by intros ? ?%elem_of_nil]]|].
  destruct (alpha_step_ok m a Hm) as (H1 & H2 & H3). destruct (IH _ H1) as (G1 & G2 & G3). split; [done|]. split; [by etrans|].
  intros c [-> |Hc]%elem_of_cons Hs; [|by apply G3]. destruct (H3 Hs) as [x Hx]. exists x. by eapply lookup_weaken.
Qed.
Lemma renaming_empty : renaming ∅.
Proof. split; intros; by rewrite lookup_empty in *. Qed.
Lemma symbol_not_syntax i : get_symbol i ∉ syntax.
Proof. pose proof (get_symbol_plain i) as (H1 & H2 & H3 & H4 & _). unfold syntax. set_solver. Qed.

Lemma alpha_canonical s : alpha_equiv s (alpha_canonicalize s).
Proof.
  unfold alpha_canonicalize. destruct (alpha_fold_ok s ∅ renaming_empty) as ([M1 M2] & _ & M3). set (m := foldl alpha_step ∅ s) in *.
  exists (get_or_self m). split; [|done]. unfold get_or_self. split.
  - intros c Hc Hs. destruct (m !! c) as [x|] eqn:E; [by apply M1 in E as []|done].
  - intros c Hc Hs. destruct (M3 c Hc Hs) as [x Hx]. rewrite Hx. simpl. apply M1 in Hx as (_ & i & _ & ->). apply symbol_not_syntax.
  - intros a b Ha Hb. destruct (m !! a) as [x|] eqn:E1, (m !! b) as [y|] eqn:E2; simpl.
    + intros ->. by eapply M2.
    + intros ->. apply M1 in E1 as (_ & i & _ & ->). destruct (decide (get_symbol (N.of_nat i) ∈ syntax)) as [H|H]; [by apply symbol_not_syntax in H|].
      destruct (M3 _ Hb H) as [? ?]. congruence.
    + intros ->. apply M1 in E2 as (_ & i & _ & ->). destruct (decide (get_symbol (N.of_nat i) ∈ syntax)) as [H|H]; [by apply symbol_not_syntax in H|].
      destruct (M3 _ Ha H) as [? ?]. congruence.
    + done.
Qed.

Lemma alpha_fold_rename f S s m m' : relabels f S -> (forall c, c ∈ s -> c ∈ S) -> size m = size m' -> (forall c, c ∈ S -> m' !! f c = m !! c) ->
  let M := foldl alpha_step m s in let M' := foldl alpha_step m' (f <$> s) in forall c, c ∈ S -> M' !! f c = M !! c.
Proof.
  intros [F1 F2 F3]. revert m m'. induction s as [|a s IH]; intros m m' Hs Hsz Hm; [done|]. rewrite fmap_cons. cbn [foldl].
  assert (Ha : a ∈ S) by (apply Hs; by left). apply IH; [intros c Hc; apply Hs; by right| |].
  - unfold alpha_step. rewrite !inb_syntax. destruct (decide (a ∈ syntax)) as [H|H].
    + rewrite (F1 a Ha H). by rewrite !bool_decide_true.
    + rewrite !bool_decide_false by (try done; by apply F2). rewrite (Hm a Ha). destruct (decide (is_Some (m !! a))) as [E|E]; [done|].
      apply eq_None_not_Some in E. rewrite !map_size_insert_None; [by rewrite Hsz|by rewrite Hm|done].
  - intros c Hc. unfold alpha_step. rewrite !inb_syntax. destruct (decide (a ∈ syntax)) as [H|H].
    + rewrite (F1 a Ha H). rewrite !bool_decide_true by done. by apply Hm.
    + rewrite !bool_decide_false by (try done; by apply F2). rewrite (Hm a Ha). destruct (decide (is_Some (m !! a))) as [E|E]; [by apply Hm|].
      destruct (decide (c = a)) as [->|Hne]; [by rewrite !lookup_insert, Hsz|].
      rewrite !lookup_insert_ne; [by apply Hm|done|]. intros Hf. apply Hne. by apply F3.
Qed.
Lemma alpha_invariant s t : alpha_equiv s t -> alpha_canonicalize s = alpha_canonicalize t.
Proof.
  intros (f & Hf & ->). unfold alpha_canonicalize. rewrite <-list_fmap_compose. apply list_fmap_ext'. intros c Hc. simpl.
  pose proof (alpha_fold_rename f s s ∅ ∅ Hf (fun _ H => H) eq_refl) as H. simpl in H. unfold get_or_self. rewrite H by done.
  destruct (alpha_fold_ok s ∅ renaming_empty) as (_ & _ & M3). destruct (foldl alpha_step ∅ s !! c) as [x|] eqn:E; [done|]. simpl. symmetry. apply (rl_syntax _ _ Hf); [done|].
  destruct (decide (c ∈ syntax)) as [?|Hn]; [done|]. destruct (M3 c Hc Hn) as [? ?]. congruence.
Qed.
Lemma alpha_complete s t : alpha_canonicalize s = alpha_canonicalize t <-> alpha_equiv s t.
Proof.
  split; [|apply alpha_invariant]. intros H. eapply alpha_trans; [apply alpha_canonical|]. rewrite H. apply alpha_sym, alpha_canonical.
Qed.
