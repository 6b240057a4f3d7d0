(** Algebra of the einsum specification. *)
From Verif Require Import Prelude Einsum.
From Coq Require Import Ring_theory Ring.

Section Facts.
  Context {K : semiring}.
  Add Ring Kr : (slaws K).
  Notation tens := (tensor K).
  Local Notation "a +' b" := (sadd a b) (at level 50, left associativity).
  Local Notation "a *' b" := (smul a b) (at level 40, left associativity).

  Lemma foldr_sadd_app (l : list K) k : foldr sadd k l = foldr sadd szero l +' k.
  Proof. induction l as [|a l IH]; simpl; [ring|]. rewrite IH. ring. Qed.
  Lemma sumn_0 (f : nat -> K) : sumn 0 f = szero.
  Proof. done. Qed.
  Lemma sumn_S d (f : nat -> K) : sumn (S d) f = sumn d f +' f d.
  Proof.
    unfold sumn. rewrite seq_S, fmap_app, foldr_app. simpl. rewrite foldr_sadd_app. ring.
  Qed.
  Lemma sumn_1 (f : nat -> K) : sumn 1 f = f 0.
  Proof. unfold sumn. simpl. ring. Qed.
  Lemma sumn_ext d (f g : nat -> K) : (forall v, v < d -> f v = g v) -> sumn d f = sumn d g.
  Proof.
    induction d as [|d IH]; intros H; [done|]. rewrite !sumn_S, H by lia. f_equal. apply IH. intros. apply H. lia.
  Qed.
  Lemma sumn_zero d : sumn d (fun _ => szero : K) = szero.
  Proof. induction d as [|d IH]; [done|]. rewrite sumn_S, IH. ring. Qed.
  Lemma sumn_add d (f g : nat -> K) : sumn d (fun v => f v +' g v) = sumn d f +' sumn d g.
  Proof. induction d as [|d IH]; [rewrite !sumn_0; ring|]. rewrite !sumn_S, IH. ring. Qed.
  Lemma sumn_mul_l d (f : nat -> K) k : sumn d (fun v => k *' f v) = k *' sumn d f.
  Proof. induction d as [|d IH]; [rewrite !sumn_0; ring|]. rewrite !sumn_S, IH. ring. Qed.
  Lemma sumn_mul_r d (f : nat -> K) k : sumn d (fun v => f v *' k) = sumn d f *' k.
  Proof. induction d as [|d IH]; [rewrite !sumn_0; ring|]. rewrite !sumn_S, IH. ring. Qed.
  Lemma sumn_swap a b (f : nat -> nat -> K) :
    sumn a (fun x => sumn b (fun y => f x y)) = sumn b (fun y => sumn a (fun x => f x y)).
  Proof.
    induction a as [|a IH].
    - rewrite sumn_0. symmetry. rewrite <-(sumn_zero b). apply sumn_ext. intros. by rewrite sumn_0.
    - rewrite sumn_S, IH, <-sumn_add. apply sumn_ext. intros. by rewrite sumn_S.
  Qed.

  Lemma prodl_app (l1 l2 : list K) : prodl (l1 ++ l2) = prodl l1 *' prodl l2.
  Proof. unfold prodl. induction l1 as [|a l1 IH]; simpl; [ring|]. rewrite IH. ring. Qed.
  Lemma prodl_perm (l1 l2 : list K) : l1 ≡ₚ l2 -> prodl l1 = prodl l2.
  Proof. unfold prodl. induction 1; simpl; try congruence; ring. Qed.

  Section Labels.
    Context {L : Type} `{EqDecision L}.
    Implicit Types e : L -> nat.
    Implicit Types f g : (L -> nat) -> K.
    Notation operand := (list L * tens)%type.
    Implicit Types tops P Q : list operand.
    Implicit Types out ls : list L.
    Implicit Types l : L.

    Lemma upd_eq e l v : upd e l v l = v.
    Proof. unfold upd. by rewrite decide_True. Qed.
    Lemma upd_ne e l l' v : l' <> l -> upd e l v l' = e l'.
    Proof. intros. unfold upd. by rewrite decide_False. Qed.

    (** [f] only looks at labels in [S]. *)
    Definition depends (f : (L -> nat) -> K) (S : L -> Prop) : Prop :=
      forall e e', (forall l, S l -> e l = e' l) -> f e = f e'.

    Lemma depends_weaken f (S S' : L -> Prop) : depends f S -> (forall l, S l -> S' l) -> depends f S'.
    Proof. intros H HS e e' He. apply H. intros. apply He. auto. Qed.
    Lemma depends_mul f g (S : L -> Prop) : depends f S -> depends g S -> depends (fun e => f e *' g e) S.
    Proof. intros Hf Hg e e' He. by rewrite (Hf e e'), (Hg e e'). Qed.
    Lemma sum_labels_dep dm ls f (S : L -> Prop) :
      depends f S -> depends (sum_labels dm ls f) (fun l => S l /\ l ∉ ls).
    Proof.
      induction ls as [|l ls IH]; intros Hf e e' He; simpl.
      - apply Hf. intros l Hl. apply He. split; [done|apply not_elem_of_nil].
      - apply sumn_ext. intros v _. apply IH; [done|]. intros l' [Hl' Hnin].
        destruct (decide (l' = l)) as [->|Hne]; [by rewrite !upd_eq|].
        rewrite !upd_ne by done. apply He. split; [done|]. by apply not_elem_of_cons.
    Qed.
    Lemma sum_labels_dep' dm ls f (S S' : L -> Prop) :
      depends f S -> (forall l, S l -> l ∈ ls \/ S' l) -> depends (sum_labels dm ls f) S'.
    Proof.
      intros Hf HS. eapply depends_weaken; [by apply sum_labels_dep|]. simpl. naive_solver.
    Qed.

    Lemma sum_labels_ext dm dm' ls f g e :
      (forall l, l ∈ ls -> dm l = dm' l) ->
      (forall e', (forall l, l ∉ ls -> e' l = e l) -> (forall l, l ∈ ls -> e' l < dm l) -> f e' = g e') ->
      sum_labels dm ls f e = sum_labels dm' ls g e.
    Proof.
      revert e. induction ls as [|l ls IH]; intros e Hdm Hf; simpl.
      - apply Hf; [done|]. by intros l ?%elem_of_nil.
      - rewrite <-Hdm by (apply elem_of_cons; auto). apply sumn_ext. intros v Hv. apply IH.
        + intros l' Hl'. apply Hdm. by apply elem_of_cons; right.
        + intros e' Ho Hr. apply Hf.
          * intros l' [Hne Hnin]%not_elem_of_cons. rewrite Ho by done. by apply upd_ne.
          * intros l' Hl'. destruct (decide (l' ∈ ls)) as [Hin|Hnin]; [by apply Hr|].
            apply elem_of_cons in Hl' as [->|?]; [|done]. rewrite Ho by done. by rewrite upd_eq.
    Qed.

    Lemma sum_labels_app dm (l1 l2 : list L) f e :
      sum_labels dm (l1 ++ l2) f e = sum_labels dm l1 (sum_labels dm l2 f) e.
    Proof. revert e. induction l1 as [|l l1 IH]; intros e; simpl; [done|]. apply sumn_ext. intros. apply IH. Qed.

    Lemma sum_labels_perm dm (l1 l2 : list L) f e S :
      depends f S -> NoDup l1 -> l1 ≡ₚ l2 -> sum_labels dm l1 f e = sum_labels dm l2 f e.
    Proof.
      intros Hf Hnd Hp. revert e. induction Hp as [|l l1 l2 Hp IH|l l' ls|l1 l2 l3 H1 IH1 H2 IH2]; intros e; simpl.
      - done.
      - apply NoDup_cons in Hnd as [_ Hnd]. apply sumn_ext. intros. by apply IH.
      - rewrite sumn_swap. apply sumn_ext. intros v _. apply sumn_ext. intros v' _.
        apply NoDup_cons in Hnd as [Hn _]. apply not_elem_of_cons in Hn as [Hn _].
        eapply sum_labels_dep; [done|]. intros x _. simpl. unfold upd.
        destruct (decide (x = l)); destruct (decide (x = l')); try done; by subst.
      - rewrite IH1 by done. apply IH2. by rewrite <-H1.
    Qed.

    Lemma sum_labels_mul_r dm ls f g e :
      (forall l, l ∈ ls -> depends g (fun l' => l' <> l)) ->
      sum_labels dm ls (fun e => f e *' g e) e = sum_labels dm ls f e *' g e.
    Proof.
      revert e. induction ls as [|l ls IH]; intros e Hg; simpl; [done|].
      rewrite <-sumn_mul_r. apply sumn_ext. intros v _. rewrite IH.
      - f_equal. apply (Hg l); [apply elem_of_cons; auto|]. intros. by apply upd_ne.
      - intros l' Hl'. apply Hg. by apply elem_of_cons; right.
    Qed.

    (** Broadcast sizes. *)
    Definition compatl (ds : list nat) : Prop := forall d d', d ∈ ds -> d' ∈ ds -> d = d' \/ d = 1 \/ d' = 1.
    Lemma bcast_char ds : compatl ds ->
      (forall d, d ∈ ds -> d = 1 \/ d = bcast ds) /\ (bcast ds = 1 \/ bcast ds ∈ ds).
    Proof.
      intros Hc. induction ds as [|d ds IH]; simpl; [split; [by intros ? ?%elem_of_nil|auto]|].
      destruct IH as [H1 H2]; [intros x y Hx Hy; apply Hc; by apply elem_of_cons; right|].
      destruct (decide (d = 1)) as [->|Hd].
      - split; [|set_solver]. intros x [->|Hx]%elem_of_cons; [auto|]. by apply H1.
      - split; [|set_solver]. intros x [->|Hx]%elem_of_cons; [auto|].
        destruct (Hc x d) as [?|[?|?]]; set_solver.
    Qed.
    Lemma bcast_unique ds b :
      (forall d, d ∈ ds -> d = 1 \/ d = b) -> (b = 1 \/ b ∈ ds) -> bcast ds = b.
    Proof.
      induction ds as [|d ds IH]; simpl; intros H1 H2.
      - destruct H2 as [->|?%elem_of_nil]; done.
      - destruct (decide (d = 1)) as [->|Hd].
        + apply IH; [set_solver|]. set_solver.
        + destruct (H1 d); set_solver.
    Qed.
    Lemma bcast_perm ds ds' : compatl ds -> ds ≡ₚ ds' -> bcast ds = bcast ds'.
    Proof.
      intros Hc Hp. symmetry. destruct (bcast_char ds Hc) as [H1 H2].
      apply bcast_unique; intros; [apply H1; by rewrite Hp|]. by rewrite <-Hp.
    Qed.
    Lemma bcast_incl ds ds' : compatl ds -> (forall d, d ∈ ds' <-> d ∈ ds) -> bcast ds' = bcast ds.
    Proof.
      intros Hc Hp. destruct (bcast_char ds Hc) as [H1 H2].
      apply bcast_unique; intros; [apply H1; by apply Hp|]. rewrite Hp. done.
    Qed.

    Lemma elem_of_axes tops l d :
      (l, d) ∈ axes_of tops <-> exists p i, p ∈ tops /\ p.1 !! i = Some l /\ shape p.2 !! i = Some d.
    Proof.
      unfold axes_of. rewrite elem_of_list_bind. setoid_rewrite elem_of_lookup_zip_with. split.
      - intros (p & (i & x & y & [= -> ->] & H1 & H2) & Hp). eauto 10.
      - intros (p & i & Hp & H1 & H2). exists p. split; [|done]. eauto 10.
    Qed.
    Lemma elem_of_labels tops l : l ∈ labels_of tops <-> exists p, p ∈ tops /\ l ∈ p.1.
    Proof. unfold labels_of. rewrite elem_of_list_bind. naive_solver. Qed.
    Lemma elem_of_dims tops l d : d ∈ dims_of tops l <-> (l, d) ∈ axes_of tops.
    Proof.
      unfold dims_of. rewrite elem_of_list_fmap. split.
      - intros ([l' d'] & -> & Hf). apply elem_of_list_filter in Hf as [Hl Hin]. simpl in *. by subst.
      - intros H. exists (l, d). split; [done|]. by apply elem_of_list_filter.
    Qed.
    Lemma labels_axes tops l : ranked tops -> l ∈ labels_of tops -> exists d, (l, d) ∈ axes_of tops.
    Proof.
      intros Hr (p & Hp & (i & Hi)%elem_of_list_lookup)%elem_of_labels.
      apply (proj1 (Forall_forall _ _) Hr) in Hp as Hlen.
      destruct (lookup_lt_is_Some_2 (shape p.2) i) as [d Hd].
      { rewrite <-Hlen. by eapply lookup_lt_Some. }
      exists d. apply elem_of_axes. eauto 10.
    Qed.
    Lemma axes_labels tops l d : (l, d) ∈ axes_of tops -> l ∈ labels_of tops.
    Proof.
      intros (p & i & Hp & H1 & H2)%elem_of_axes. apply elem_of_labels. exists p. split; [done|].
      by eapply elem_of_list_lookup_2.
    Qed.

    Lemma compat_dims tops l : compat tops -> compatl (dims_of tops l).
    Proof. intros Hc d d' H1%elem_of_dims H2%elem_of_dims. by eapply Hc. Qed.
    Lemma dim_char tops l : compat tops ->
      (forall d, (l, d) ∈ axes_of tops -> d = 1 \/ d = dim tops l) /\ (dim tops l = 1 \/ (l, dim tops l) ∈ axes_of tops).
    Proof.
      intros Hc. destruct (bcast_char (dims_of tops l)) as [H1 H2]; [by apply compat_dims|].
      setoid_rewrite elem_of_dims in H1. rewrite elem_of_dims in H2. done.
    Qed.
    Lemma dim_unique tops l b :
      (forall d, (l, d) ∈ axes_of tops -> d = 1 \/ d = b) -> (b = 1 \/ (l, b) ∈ axes_of tops) -> dim tops l = b.
    Proof. intros H1 H2. apply bcast_unique; [setoid_rewrite elem_of_dims|rewrite elem_of_dims]; done. Qed.
    Lemma dim_ext tops tops' l : compat tops ->
      (forall d, (l, d) ∈ axes_of tops <-> (l, d) ∈ axes_of tops') -> dim tops' l = dim tops l.
    Proof.
      intros Hc H. destruct (dim_char tops l Hc) as [H1 H2].
      apply dim_unique; [intros d Hd; apply H1; by apply H|]. by rewrite <-H.
    Qed.
    Lemma compat_ext tops tops' :
      (forall l d, (l, d) ∈ axes_of tops' -> (l, d) ∈ axes_of tops) -> compat tops -> compat tops'.
    Proof. intros H Hc l d d' H1 H2. eapply Hc; by apply H. Qed.
    Lemma axes_of_app P Q : axes_of (P ++ Q) = axes_of P ++ axes_of Q.
    Proof. unfold axes_of. by rewrite bind_app. Qed.
    Lemma labels_of_app P Q : labels_of (P ++ Q) = labels_of P ++ labels_of Q.
    Proof. unfold labels_of. by rewrite bind_app. Qed.
    Lemma axes_of_perm P Q : P ≡ₚ Q -> axes_of P ≡ₚ axes_of Q.
    Proof. intros H. unfold axes_of. by rewrite H. Qed.
    Lemma labels_of_perm P Q : P ≡ₚ Q -> labels_of P ≡ₚ labels_of Q.
    Proof. intros H. unfold labels_of. by rewrite H. Qed.

    Lemma elem_of_summed tops out l : l ∈ summed tops out <-> l ∈ labels_of tops /\ l ∉ out.
    Proof. unfold summed. rewrite elem_of_list_filter, elem_of_remove_dups. naive_solver. Qed.
    Lemma NoDup_summed tops out : NoDup (summed tops out).
    Proof. unfold summed. apply NoDup_filter, NoDup_remove_dups. Qed.

    Lemma coords_ext t sh e e' : (forall l, l ∈ t -> e l = e' l) -> coords t sh e = coords t sh e'.
    Proof.
      unfold coords. revert sh. induction t as [|l t IH]; intros [|d sh] H; simpl; try done.
      rewrite H by (apply elem_of_cons; auto). f_equal. apply IH. intros. apply H. by apply elem_of_cons; right.
    Qed.
    Lemma term_dep (p : operand) : depends (fun e => term e p) (fun l => l ∈ p.1).
    Proof. intros e e' He. unfold term. by erewrite coords_ext. Qed.
    Lemma prod_dep tops : depends (fun e => prodl (term e <$> tops)) (fun l => l ∈ labels_of tops).
    Proof.
      intros e e' He. f_equal. apply list_fmap_ext. intros i p Hi%elem_of_list_lookup_2.
      apply term_dep. intros l Hl. apply He. apply elem_of_labels. eauto.
    Qed.
    Lemma esum_dep tops out : depends (esum tops out) (fun l => l ∈ labels_of tops /\ l ∈ out).
    Proof.
      eapply depends_weaken; [apply sum_labels_dep, prod_dep|]. simpl. intros l [H1 H2]. split; [done|].
      destruct (decide (l ∈ out)); [done|]. destruct H2. by apply elem_of_summed.
    Qed.

    (** In-range access. *)
    Lemma coords_in_range tops e p :
      ranked tops -> compat tops -> p ∈ tops -> (forall l, l ∈ p.1 -> e l < dim tops l) ->
      in_range (coords p.1 (shape p.2) e) (shape p.2).
    Proof.
      intros Hr Hc Hp He. apply (proj1 (Forall_forall _ _) Hr) in Hp as Hlen.
      unfold in_range. apply Forall2_same_length_lookup_2.
      { unfold coords. rewrite zip_with_length. lia. }
      intros i c d H1 H2. unfold coords in H1. rewrite lookup_zip_with_Some in H1.
      destruct H1 as (l & d' & -> & Hl & Hd'). rewrite H2 in Hd'. injection Hd' as <-.
      case_decide; [lia|].
      assert (Hax : (l, d) ∈ axes_of tops) by (apply elem_of_axes; eauto 10).
      destruct (dim_char tops l Hc) as [Hch _]. destruct (Hch d Hax) as [|Heq]; [done|]. rewrite Heq. apply He.
      by eapply elem_of_list_lookup_2.
    Qed.

    Lemma env_of_lookup out cs i l c :
      NoDup out -> out !! i = Some l -> cs !! i = Some c -> env_of out cs l = c.
    Proof.
      revert cs i. induction out as [|x out IH]; intros cs i Hnd Hl Hc; [done|].
      apply NoDup_cons in Hnd as [Hx Hnd]. destruct cs as [|y cs]; [done|]. simpl.
      destruct i as [|i]; simplify_eq/=; [by rewrite upd_eq|].
      rewrite upd_ne; [by eapply IH|]. intros ->. apply Hx. by eapply elem_of_list_lookup_2.
    Qed.
    Lemma env_of_range out cs dm l : in_range cs (dm <$> out) -> l ∈ out -> env_of out cs l < dm l.
    Proof.
      revert cs. induction out as [|x out IH]; intros cs Hr Hl; [by apply elem_of_nil in Hl|].
      inversion Hr as [|c d cs' ds Hc Hr' Ecs Eds]; simplify_eq/=.
      unfold upd. case_decide; [by subst|]. apply IH; [done|]. set_solver.
    Qed.

    (** Replacing operands by equal arrays. *)
    Definition top_eq (p q : operand) : Prop := p.1 = q.1 /\ p.2 ≡ₜ q.2.
    Lemma axes_of_congr tops tops' : Forall2 top_eq tops tops' -> axes_of tops' = axes_of tops.
    Proof.
      unfold axes_of. induction 1 as [|[t T] [t' T'] ? ? [? [? ?]] _ IH]; simplify_eq/=; [done|]. congruence.
    Qed.
    Lemma labels_of_congr tops tops' : Forall2 top_eq tops tops' -> labels_of tops' = labels_of tops.
    Proof.
      unfold labels_of. induction 1 as [|[t T] [t' T'] ? ? [? [? ?]] _ IH]; simplify_eq/=; [done|]. congruence.
    Qed.
    Lemma einsum_congr tops tops' out :
      ranked tops -> compat tops -> Forall2 top_eq tops tops' -> einsum tops out ≡ₜ einsum tops' out.
    Proof.
      intros Hr Hc H2.
      assert (Hdim : forall l, dim tops' l = dim tops l).
      { intros l. unfold dim, dims_of. by rewrite (axes_of_congr _ _ H2). }
      split.
      - simpl. apply list_fmap_ext. intros. by rewrite Hdim.
      - intros cs Hcs. simpl in *. unfold esum.
        assert (Hs : summed tops' out = summed tops out) by (unfold summed; by rewrite (labels_of_congr _ _ H2)).
        rewrite Hs. apply sum_labels_ext; [intros; by rewrite Hdim|].
        intros e' Ho Hin. f_equal.
        assert (Hrange : forall l, l ∈ labels_of tops -> e' l < dim tops l).
        { intros l Hl. destruct (decide (l ∈ summed tops out)) as [Hl'|Hl']; [by apply Hin|].
          rewrite Ho by done. apply env_of_range; [done|]. destruct (decide (l ∈ out)); [done|].
          destruct Hl'. by apply elem_of_summed. }
        assert (Hterm : forall p q, p ∈ tops -> top_eq p q -> term e' p = term e' q).
        { intros [t T] [t' T'] Hp [Ht [Hsh Hg]]. simpl in *. subst t'. unfold term. simpl. rewrite <-Hsh. apply Hg.
          apply (coords_in_range tops e' (t, T)); try done. simpl. intros l Hl. apply Hrange, elem_of_labels. eauto. }
        clear -H2 Hterm. induction H2 as [|p q tops tops' Hpq _ IH]; simpl; [done|].
        f_equal; [apply Hterm; [by left|done]|]. apply IH. intros. apply Hterm; [by right|done].
    Qed.

    (** The order of the operands is irrelevant. *)
    Lemma compat_perm P Q : P ≡ₚ Q -> compat P -> compat Q.
    Proof. intros Hp. apply compat_ext. intros l d. by rewrite (axes_of_perm P Q Hp). Qed.
    Lemma ranked_perm P Q : P ≡ₚ Q -> ranked P -> ranked Q.
    Proof. intros Hp. unfold ranked. by rewrite Hp. Qed.
    Lemma dim_perm P Q l : P ≡ₚ Q -> compat P -> dim Q l = dim P l.
    Proof. intros Hp Hc. apply dim_ext; [done|]. intros d. by rewrite (axes_of_perm P Q Hp). Qed.
    Lemma esum_perm P Q out e : P ≡ₚ Q -> compat P -> esum P out e = esum Q out e.
    Proof.
      intros Hp Hc. unfold esum.
      rewrite (sum_labels_perm _ _ (summed Q out) _ _ _ (prod_dep P)); [|apply NoDup_summed|].
      - apply sum_labels_ext; [intros; symmetry; by apply dim_perm|].
        intros. apply prodl_perm. by rewrite Hp.
      - apply NoDup_Permutation; try apply NoDup_summed. intros l. rewrite !elem_of_summed.
        by rewrite (labels_of_perm P Q Hp).
    Qed.
    Lemma einsum_perm P Q out : P ≡ₚ Q -> compat P -> einsum P out ≡ₜ einsum Q out.
    Proof.
      intros Hp Hc. split.
      - simpl. apply list_fmap_ext. intros. symmetry. by apply dim_perm.
      - intros cs _. simpl. by apply esum_perm.
    Qed.

    (** A label all of whose axes have size one is never looked at. *)
    Lemma coords_shift tops p e e' :
      p ∈ tops -> (forall l, l ∈ p.1 -> dim tops l = 1 \/ e l = e' l) -> compat tops ->
      coords p.1 (shape p.2) e = coords p.1 (shape p.2) e'.
    Proof.
      intros Hp He Hc. unfold coords.
      apply list_eq. intros i. rewrite !lookup_zip_with.
      destruct (p.1 !! i) as [l|] eqn:Hl; [|done]. destruct (shape p.2 !! i) as [d|] eqn:Hd; [|done]. simpl.
      case_decide as Hd1; [done|]. f_equal.
      destruct (He l) as [H1|H1]; [by eapply elem_of_list_lookup_2| |done].
      destruct (dim_char tops l Hc) as [Hch _]. destruct (Hch d) as [?|?]; [|done|congruence].
      apply elem_of_axes. eauto 10.
    Qed.
    Lemma sum_labels_shift tops ls e e' :
      compat tops -> (forall l, l ∈ labels_of tops -> l ∉ ls -> dim tops l = 1 \/ e l = e' l) ->
      sum_labels (dim tops) ls (fun e => prodl (term e <$> tops)) e
      = sum_labels (dim tops) ls (fun e => prodl (term e <$> tops)) e'.
    Proof.
      intros Hc. revert e e'. induction ls as [|l ls IH]; intros e e' He; simpl.
      - f_equal. apply list_fmap_ext. intros i p Hp%elem_of_list_lookup_2. unfold term. f_equal.
        eapply coords_shift; [done| |done]. intros l Hl. apply He; [|apply not_elem_of_nil]. apply elem_of_labels. eauto.
      - apply sumn_ext. intros v _. apply IH. intros l' Hl' Hn. unfold upd. case_decide; [by right|].
        apply He; [done|]. by apply not_elem_of_cons.
    Qed.

    (** One contraction step: contracting the operands [P] into a new operand labelled [r] does not change the
        total, as long as [r] keeps every label of [P] that is still needed. *)
    Lemma einsum_step P Q r out :
      ranked P -> compat (P ++ Q) -> NoDup r ->
      (forall l, l ∈ r -> l ∈ labels_of P) ->
      (forall l, l ∈ labels_of P -> l ∈ out \/ l ∈ labels_of Q -> l ∈ r) ->
      (forall l, l ∈ out -> l ∈ labels_of (P ++ Q)) ->
      einsum ((r, einsum P r) :: Q) out ≡ₜ einsum (P ++ Q) out.
    Proof.
      intros Hr Hc Hnd Hsub Hkeep Hout.
      set (N := (r, einsum P r) :: Q).
      assert (HcP : compat P).
      { eapply compat_ext; [|exact Hc]. intros l d. rewrite axes_of_app. set_solver. }
      assert (HaxN : forall l d, (l, d) ∈ axes_of N <-> (l ∈ r /\ d = dim P l) \/ (l, d) ∈ axes_of Q).
      { intros l d. unfold N. change ((r, einsum P r) :: Q) with ([(r, einsum P r)] ++ Q).
        rewrite axes_of_app, elem_of_app. f_equiv. rewrite elem_of_axes. simpl. split.
        - intros (p & i & ->%elem_of_list_singleton & H1 & H2). simpl in *.
          rewrite list_lookup_fmap, H1 in H2. simpl in H2. injection H2 as <-. split; [|done].
          by eapply elem_of_list_lookup_2.
        - intros [(i & Hi)%elem_of_list_lookup ->]. exists (r, einsum P r), i. split; [by apply elem_of_list_singleton|].
          simpl. rewrite list_lookup_fmap, Hi. done. }
      assert (HlabN : forall l, l ∈ labels_of N <-> l ∈ r \/ l ∈ labels_of Q).
      { intros l. unfold N, labels_of. simpl. by rewrite elem_of_app. }
      assert (Hdim : forall l, (l ∈ labels_of N) -> dim N l = dim (P ++ Q) l).
      { intros l Hl. destruct (dim_char (P ++ Q) l Hc) as [H1 H2].
        destruct (dim_char P l HcP) as [H3 H4].
        rewrite axes_of_app in *. setoid_rewrite elem_of_app in H1. rewrite elem_of_app in H2.
        apply dim_unique.
        - intros d [[Hlr ->]|Hd]%HaxN; [|by apply H1; right].
          destruct H4 as [?|H4]; [auto|]. apply H1. by left.
        - destruct H2 as [?|[H2|H2]]; [auto| |].
          + destruct (H3 _ H2) as [Heq|Heq]; [by left|]. right. apply HaxN.
            destruct (decide (l ∈ r)) as [Hlr|Hnlr]; [left; auto|].
              exfalso. apply HlabN in Hl as [?|Hl]; [done|]. apply Hnlr, Hkeep; [|by right].
              by eapply axes_labels.
          + right. apply HaxN. by right. }
      assert (HdimP : forall l, l ∈ summed P r -> dim P l = dim (P ++ Q) l).
      { intros l [HlP Hnr]%elem_of_summed. apply dim_ext; [done|]. intros d. rewrite axes_of_app, elem_of_app.
        split; [|by left]. intros [?|HQ]; [done|]. destruct Hnr. apply Hkeep; [done|]. right. by eapply axes_labels. }
      assert (Hterm : forall e, term e (r, einsum P r)
                = sum_labels (dim (P ++ Q)) (summed P r) (fun e => prodl (term e <$> P)) e).
      { intros e. unfold term at 1. simpl. unfold esum.
        trans (sum_labels (dim P) (summed P r) (fun e => prodl (term e <$> P)) e);
          [|by apply sum_labels_ext].
        apply sum_labels_shift; [done|]. intros l HlP Hns.
        assert (Hlr : l ∈ r). { destruct (decide (l ∈ r)); [done|]. destruct Hns. by apply elem_of_summed. }
        apply elem_of_list_lookup in Hlr as (i & Hi).
        rewrite (env_of_lookup r _ i l (if decide (dim P l = 1) then 0 else e l)); [|done|done|].
        - case_decide; auto.
        - unfold coords. apply lookup_zip_with_Some. exists l, (dim P l).
          rewrite list_lookup_fmap, Hi. done. }
      split.
      - simpl. apply list_fmap_ext. intros i l Hl%elem_of_list_lookup_2. apply Hdim, HlabN.
        apply Hout in Hl as Hl'. rewrite labels_of_app in Hl'. apply elem_of_app in Hl' as [Hl'|Hl']; [|by right].
        left. apply Hkeep; auto.
      - intros cs _. simpl. generalize (env_of out cs) as e. intros e. unfold esum.
        rewrite (sum_labels_perm (dim (P ++ Q)) (summed (P ++ Q) out) (summed N out ++ summed P r) _ _ _ (prod_dep (P ++ Q)));
          [|apply NoDup_summed|].
        + rewrite sum_labels_app. apply sum_labels_ext.
          { intros l [Hl _]%elem_of_summed. by apply Hdim. }
          intros e' _ _. unfold N. rewrite fmap_cons. change (prodl (?a :: ?b)) with (a *' prodl b).
          rewrite Hterm, <-(sum_labels_mul_r _ _ _ (fun e => prodl (term e <$> Q))).
          * apply sum_labels_ext; [done|]. intros. by rewrite fmap_app, prodl_app.
          * intros l [HlP Hnr]%elem_of_summed. eapply depends_weaken; [apply prod_dep|].
            intros l' Hl' ->. destruct Hnr. apply Hkeep; auto.
        + apply NoDup_Permutation.
          * apply NoDup_summed.
          * apply NoDup_app. split; [apply NoDup_summed|]. split; [|apply NoDup_summed].
            intros l [Hl _]%elem_of_summed [HlP Hnr]%elem_of_summed. apply HlabN in Hl as [?|?]; [done|].
            destruct Hnr. apply Hkeep; auto.
          * intros l. rewrite elem_of_app, !elem_of_summed, HlabN, labels_of_app, elem_of_app. split.
            -- intros [[HlP|HlQ] Ho]; [|by left; auto]. destruct (decide (l ∈ r)); auto.
            -- intros [[[?|?] ?]|[HlP Hnr]]; auto. split; [auto|]. intros Ho. apply Hnr, Hkeep; auto.
    Qed.
  End Labels.
End Facts.
