(** tensordot, transpose and renaming against einsum. *)
From Verif Require Import Prelude Einsum EinsumFacts.
From Coq Require Import Ring_theory Ring.

Lemma index_of_Some a l i : index_of a l = Some i -> l !! i = Some a.
Proof.
  revert i. induction l as [|x l IH]; intros i; simpl; [done|].
  destruct (decide (x = a)) as [->|Hne]; [by intros [= <-]|].
  intros (j & Hj & ->)%fmap_Some. by apply IH.
Qed.
Lemma index_of_None a l : index_of a l = None <-> a ∉ l.
Proof.
  induction l as [|x l IH]; simpl; [split; [by intros _ ?%elem_of_nil|done]|].
  rewrite not_elem_of_cons. destruct (decide (x = a)) as [->|]; [naive_solver|].
  rewrite fmap_None, IH. naive_solver.
Qed.
Lemma index_of_NoDup a l i : NoDup l -> l !! i = Some a -> index_of a l = Some i.
Proof.
  intros Hnd Hi. destruct (index_of a l) as [j|] eqn:E.
  - f_equal. eapply NoDup_lookup; [done| |done]. by apply index_of_Some.
  - apply index_of_None in E. destruct E. by eapply elem_of_list_lookup_2.
Qed.
Lemma find_NoDup c s i : NoDup s -> s !! i = Some c -> find c s = Some i.
Proof.
  intros Hnd Hi. destruct (find_elem c s) as (j & Hj & Hl); [by eapply elem_of_list_lookup_2|].
  rewrite Hj. f_equal. by eapply NoDup_lookup.
Qed.
Lemma nth0_lookup l i v : l !! i = Some v -> nth0 l i = v.
Proof. unfold nth0. by intros ->. Qed.
Lemma elem_free_axes ax n a : a ∈ free_axes ax n <-> a < n /\ a ∉ ax.
Proof. unfold free_axes. rewrite elem_of_list_filter, elem_of_seq. naive_solver lia. Qed.
Lemma NoDup_free_axes ax n : NoDup (free_axes ax n).
Proof. apply NoDup_filter, NoDup_seq. Qed.

(** Removing labels from a term, as a selection of its axes. *)
Lemma filter_free_axes {L} (l : list L) ax (P : L -> Prop) {Pdec : forall c, Decision (P c)} :
  (forall a c, l !! a = Some c -> (a ∉ ax <-> P c)) ->
  Some <$> filter P l = (fun a => l !! a) <$> free_axes ax (length l).
Proof.
  unfold free_axes. induction l as [|c l IH] using rev_ind; intros H; [done|].
  rewrite app_length, seq_app, !filter_app, !fmap_app. simpl. rewrite IH.
  - f_equal.
    + apply list_fmap_ext. intros i a Ha%elem_of_list_lookup_2. apply elem_of_list_filter in Ha as [_ Ha].
      apply elem_of_seq in Ha. by rewrite lookup_app_l by lia.
    + assert (Hc : (l ++ [c]) !! length l = Some c) by by apply list_lookup_middle.
      specialize (H (length l) c Hc). cbn [filter list_filter].
      destruct (decide (P c)) as [Hp|Hp]; destruct (decide (length l ∉ ax)) as [Hq|Hq]; simpl; try naive_solver.
      by rewrite Hc.
  - intros a c' Ha. apply H. apply lookup_app_Some. by left.
Qed.

Section Ops.
  Context {K : semiring}.
  Add Ring Kr : (slaws K).
  Notation tens := (tensor K).

  (** Tensor equality is an equivalence. *)
  Global Instance teq_equiv {T : Type} : Equivalence (@teq T).
  Proof.
    split.
    - done.
    - intros A B [H1 H2]. split; [done|]. intros cs Hcs. symmetry. apply H2. by rewrite H1.
    - intros A B C [H1 H2] [H3 H4]. split; [congruence|]. intros cs Hcs. rewrite H2 by done. apply H4. by rewrite <-H1.
  Qed.

  Lemma sum_multi_ext dims (f g : list nat -> K) :
    (forall ks, in_range ks dims -> f ks = g ks) -> sum_multi dims f = sum_multi dims g.
  Proof.
    revert f g. induction dims as [|d dims IH]; intros f g H; simpl; [apply H; constructor|].
    apply sumn_ext. intros v Hv. apply IH. intros ks Hks. apply H. by constructor.
  Qed.

  Section Labels.
    Context {L : Type} `{EqDecision L}.
    (** Assign [ks] to [ls] on top of [e]. *)
    Fixpoint upds (e : L -> nat) (ls : list L) (ks : list nat) : L -> nat :=
      match ls, ks with l :: ls', k :: ks' => upds (upd e l k) ls' ks' | _, _ => e end.
    Lemma sum_labels_multi dm (ls : list L) (f : (L -> nat) -> K) e :
      sum_labels dm ls f e = sum_multi (dm <$> ls) (fun ks => f (upds e ls ks)).
    Proof. revert e. induction ls as [|l ls IH]; intros e; simpl; [done|]. apply sumn_ext. intros v _. apply IH. Qed.
    Lemma upds_ne e ls ks l : l ∉ ls -> upds e ls ks l = e l.
    Proof.
      revert e ks. induction ls as [|x ls IH]; intros e [|k ks] Hl; simpl; try done.
      apply not_elem_of_cons in Hl as [H1 H2]. rewrite IH by done. by apply upd_ne.
    Qed.
    Lemma upds_lookup e ls ks l i k : NoDup ls -> ls !! i = Some l -> ks !! i = Some k -> upds e ls ks l = k.
    Proof.
      revert e ks i. induction ls as [|x ls IH]; intros e [|y ks] i Hnd Hl Hk; simpl; try done.
      apply NoDup_cons in Hnd as [Hx Hnd]. destruct i as [|i]; simplify_eq/=.
      - rewrite upds_ne by done. apply upd_eq.
      - by eapply IH.
    Qed.

    (** Reordering the output axes of an einsum. *)
    Lemma summed_out_ext (tops : list (list L * tens)) out out' :
      (forall l, l ∈ out <-> l ∈ out') -> summed tops out = summed tops out'.
    Proof. intros H. unfold summed. apply list_filter_iff. intros l. by rewrite H. Qed.

    (** Injective renaming of labels. *)
    Context {M : Type} `{EqDecision M}.
    Definition rename_op (f : L -> M) (p : list L * tens) : list M * tens := (f <$> p.1, p.2).
    Lemma einsum_rename (f : L -> M) (tops : list (list L * tens)) (out : list L) :
      (forall a b, (a ∈ labels_of tops \/ a ∈ out) -> (b ∈ labels_of tops \/ b ∈ out) -> f a = f b -> a = b) ->
      NoDup out ->
      einsum (rename_op f <$> tops : list (list M * tens)) (f <$> out : list M) ≡ₜ einsum tops out.
    Proof.
      intros Hinj Hnd. set (tops' := _ <$> tops).
      assert (Hlab : labels_of tops' = f <$> labels_of tops).
      { unfold labels_of, tops'. clear. induction tops as [|p tops IH]; [done|]. rewrite fmap_cons, !bind_cons, IH. by rewrite fmap_app. }
      assert (Hax : axes_of tops' = (fun p => (f p.1, p.2)) <$> axes_of tops).
      { unfold axes_of, tops'. clear. induction tops as [|[t T] tops IH]; [done|]. rewrite fmap_cons, !bind_cons, IH, fmap_app. f_equal. simpl.
        generalize (shape T) as sh. induction t as [|x t IHt]; intros [|d sh]; simpl; try done. by rewrite IHt. }
      assert (Hdim : forall a, a ∈ labels_of tops \/ a ∈ out -> dim tops' (f a) = dim tops a).
      { intros a Ha. unfold dim. f_equal. unfold dims_of. rewrite Hax.
        assert (Hall : forall p, p ∈ axes_of tops -> p.1 ∈ labels_of tops).
        { intros [l d]. simpl. apply axes_labels. }
        clear -Hinj Ha Hall. revert Hall. induction (axes_of tops) as [|[l d] ax IH]; intros Hall; [done|].
        rewrite fmap_cons. rewrite !filter_cons. simpl.
        assert (Hl : l ∈ labels_of tops) by (apply (Hall (l, d)); by left).
        destruct (decide (l = a)) as [->|Hne].
        - rewrite !decide_True by done. simpl. f_equal. apply IH. intros. apply Hall. by right.
        - rewrite !decide_False by first [done | intros Heq; apply Hne; apply Hinj; auto].
          apply IH. intros. apply Hall. by right. }
      assert (Hsum : forall dm ls e' e, (forall a, a ∈ labels_of tops \/ a ∈ out -> e' (f a) = e a) ->
          (forall a, a ∈ ls -> a ∈ labels_of tops) ->
          (forall a, a ∈ ls -> dm (f a) = dim tops a) ->
          sum_labels dm (f <$> ls) (fun e => prodl (term e <$> tops')) e'
          = sum_labels (dim tops) ls (fun e => prodl (term e <$> tops)) e).
      { intros dm ls. induction ls as [|l ls IH]; intros e' e He Hls Hdm; simpl.
        - f_equal. unfold tops'. rewrite <-list_fmap_compose. apply list_fmap_ext. intros i [t T] Hp%elem_of_list_lookup_2.
          unfold term. simpl. f_equal.
          assert (Ht : forall a, a ∈ t -> a ∈ labels_of tops) by (intros; apply elem_of_labels; exists (t, T); done).
          clear -He Ht. generalize (shape T) as sh. unfold coords. induction t as [|x t IHt]; intros [|d sh]; simpl; try done.
          rewrite He by (left; apply Ht; by left). f_equal. apply IHt. intros. apply Ht. by right.
        - rewrite Hdm by by left. apply sumn_ext. intros v _. apply IH.
          + intros a Ha. unfold upd. destruct (decide (a = l)) as [->|Hne]; [by rewrite !decide_True|].
            rewrite decide_False; [by apply He|]. intros Heq. apply Hne, Hinj; auto. left. apply Hls. by left.
          + intros. apply Hls. by right.
          + intros. apply Hdm. by right. }
      assert (Hsummed : summed tops' (f <$> out) = f <$> summed tops out).
      { unfold summed. rewrite Hlab.
        assert (Hrd : remove_dups (f <$> labels_of tops) = f <$> remove_dups (labels_of tops)).
        { assert (Hi : forall a b, a ∈ labels_of tops -> b ∈ labels_of tops -> f a = f b -> a = b) by auto.
          clear -Hi. induction (labels_of tops) as [|x ls IH]; [done|]. rewrite fmap_cons. cbn [remove_dups].
          assert (IH' : remove_dups (f <$> ls) = f <$> remove_dups ls) by (apply IH; intros; apply Hi; auto; by right).
          destruct (decide_rel (∈) x ls) as [Hin|Hin]; destruct (decide_rel (∈) (f x) (f <$> ls)) as [Hf|Hf].
          - done.
          - destruct Hf. by apply elem_of_list_fmap_1.
          - exfalso. apply elem_of_list_fmap in Hf as (y & Hy & Hyin). apply Hin.
            assert (x = y) as -> by (apply Hi; [by left|by right|done]). done.
          - rewrite fmap_cons. by f_equal. }
        rewrite Hrd.
        assert (Hall : forall l, l ∈ remove_dups (labels_of tops) -> l ∈ labels_of tops) by (intros l; by rewrite elem_of_remove_dups).
        revert Hall. generalize (remove_dups (labels_of tops)) as ls. intros ls. clear -Hinj.
        induction ls as [|l ls IH]; intros Hall; [done|]. rewrite fmap_cons, !filter_cons.
        assert (Hiff : f l ∉ f <$> out <-> l ∉ out).
        { rewrite elem_of_list_fmap. split; [naive_solver|]. intros Hn (y & Hy & Hyin). apply Hn.
          assert (l = y) as -> by (apply Hinj; auto; left; apply Hall; by left). done. }
        destruct (decide (l ∉ out)) as [Hl|Hl].
        - rewrite decide_True by by apply Hiff. rewrite fmap_cons. f_equal. apply IH. intros. apply Hall. by right.
        - rewrite decide_False by by rewrite Hiff. apply IH. intros. apply Hall. by right. }
      split.
      - simpl. rewrite <-list_fmap_compose. apply list_fmap_ext. intros i a Ha%elem_of_list_lookup_2. simpl. apply Hdim. auto.
      - intros cs Hcs. simpl in *. unfold esum. rewrite Hsummed.
        assert (Henv : forall a, a ∈ labels_of tops \/ a ∈ out -> env_of (f <$> out) cs (f a) = env_of out cs a).
        { intros a Ha.
          assert (Hi : forall b, b ∈ out -> f a = f b -> a = b) by (intros; apply Hinj; auto).
          clear -Hi. revert cs. induction out as [|x out IH]; intros [|c cs]; simpl; try done.
          unfold upd. destruct (decide (a = x)) as [->|Hne]; [by rewrite decide_True|].
          rewrite decide_False; [apply IH; intros; apply Hi; [by right|done]|].
          intros Heq. apply Hne, Hi; [by left|done]. }
        apply Hsum; [done| |].
        + by intros a [? _]%elem_of_summed.
        + intros a [? _]%elem_of_summed. apply Hdim. auto.
    Qed.
  End Labels.

  Section Moves.
    Context {L : Type} `{EqDecision L}.
    Implicit Types l r out kl fl fr : list L.

    (** Transposing an einsum result. *)
    Lemma transpose_einsum (tops : list (list L * tens)) r out axes (T : tens) :
      NoDup r -> out ≡ₚ r -> Forall2 (fun c a => r !! a = Some c) out axes ->
      T ≡ₜ einsum tops r -> transpose T axes ≡ₜ einsum tops out.
    Proof.
      intros Hr Hp Hax [Hsh Hget]. simpl in *.
      assert (Hout : NoDup out) by by rewrite Hp.
      assert (Hshape : nth0 (shape T) <$> axes = dim tops <$> out).
      { rewrite Hsh. clear -Hax. induction Hax as [|c a out axes Hca _ IH]; [done|]. rewrite !fmap_cons, IH. f_equal.
        apply nth0_lookup. by rewrite list_lookup_fmap, Hca. }
      split; [done|]. intros cs Hcs. simpl in *. rewrite Hshape in Hcs.
      set (cs' := (fun a => nth0 cs (default 0 (index_of a axes))) <$> seq 0 (length (shape T))).
      assert (Hnda : NoDup axes).
      { clear -Hax Hout Hr. apply NoDup_alt. intros i j a Hi Hj.
        destruct (Forall2_lookup_r _ _ _ _ _ Hax Hi) as (c & Hc & Hra).
        destruct (Forall2_lookup_r _ _ _ _ _ Hax Hj) as (c' & Hc' & Hra').
        rewrite Hra in Hra'. injection Hra' as <-. by eapply NoDup_lookup. }
      assert (Hlook : forall i c, out !! i = Some c -> exists a, r !! a = Some c /\ index_of a axes = Some i).
      { intros i c Hi. destruct (Forall2_lookup_l _ _ _ _ _ Hax Hi) as (a & Ha & Hra). exists a. split; [done|].
        by apply index_of_NoDup. }
      assert (Hcs' : forall a c i, r !! a = Some c -> out !! i = Some c -> cs' !! a = Some (nth0 cs i)).
      { intros a c i Ha Hi. destruct (Hlook i c Hi) as (a' & Ha' & Hidx).
        assert (a' = a) as -> by eauto using NoDup_lookup. unfold cs'. rewrite list_lookup_fmap, lookup_seq_lt.
        - simpl. by rewrite Hidx.
        - rewrite Hsh, fmap_length. by eapply lookup_lt_Some. }
      assert (Hrange : in_range cs' (shape T)).
      { rewrite Hsh. apply Forall2_same_length_lookup_2; [unfold cs'; by rewrite fmap_length, seq_length, Hsh|].
        intros a v d Hv Hd. rewrite list_lookup_fmap in Hd. destruct (r !! a) as [c|] eqn:Hc; [|done]. simpl in Hd.
        injection Hd as <-.
        assert (Hin : c ∈ out) by (rewrite Hp; by eapply elem_of_list_lookup_2).
        apply elem_of_list_lookup in Hin as (i & Hi).
        rewrite (Hcs' a c i) in Hv by done. injection Hv as <-.
        unfold in_range in Hcs.
        destruct (Forall2_lookup_r _ _ _ i (dim tops c) Hcs) as (x & Hx & Hlt); [by rewrite list_lookup_fmap, Hi|].
        by rewrite (nth0_lookup _ _ _ Hx). }
      rewrite Hget by done. unfold esum. rewrite (summed_out_ext tops r out) by (intros; by rewrite Hp).
      eapply sum_labels_dep; [apply prod_dep|]. simpl. intros c [Hc Hns].
      assert (Hin : c ∈ out).
      { destruct (decide (c ∈ out)); [done|]. destruct Hns. by apply elem_of_summed. }
      apply elem_of_list_lookup in Hin as (i & Hi). destruct (Hlook i c Hi) as (a & Ha & _).
      rewrite (env_of_lookup r cs' a c (nth0 cs i)); [|done|done|by eapply Hcs'].
      destruct (Forall2_lookup_r _ _ _ i (dim tops c) Hcs) as (x & Hx & Hlt); [by rewrite list_lookup_fmap, Hi|].
      rewrite (nth0_lookup _ _ _ Hx). symmetry. by eapply env_of_lookup.
    Qed.

    (** The coordinates tensordot uses for one operand. *)
    Lemma td_coords_ok (t : list L) sh ax kl ks cs fr (e : L -> nat) :
      NoDup t -> NoDup kl -> length t = length sh ->
      Forall2 (fun c a => t !! a = Some c) kl ax ->
      Some <$> fr = (fun a => t !! a) <$> free_axes ax (length t) ->
      in_range ks (nth0 sh <$> ax) ->
      in_range cs (nth0 sh <$> free_axes ax (length t)) ->
      (forall i c k, kl !! i = Some c -> ks !! i = Some k -> e c = k) ->
      (forall i c k, fr !! i = Some c -> cs !! i = Some k -> e c = k) ->
      td_coords ax (length sh) ks cs = coords t sh e.
    Proof.
      intros Ht Hkl Hlen Hax Hfr Hks Hcs Hek Hec. unfold td_coords, coords.
      rewrite <-Hlen. apply list_eq. intros a.
      rewrite list_lookup_fmap, lookup_zip_with.
      destruct (decide (a < length t)) as [Ha|Ha].
      2: { rewrite lookup_seq_ge by lia. rewrite (lookup_ge_None_2 t) by lia. done. }
      rewrite lookup_seq_lt by done. simpl.
      destruct (lookup_lt_is_Some_2 t a Ha) as [c Hc]. destruct (lookup_lt_is_Some_2 sh a) as [d Hd]; [lia|].
      rewrite Hc, Hd. simpl. f_equal.
      destruct (index_of a ax) as [j|] eqn:Hj.
      - apply index_of_Some in Hj.
        destruct (Forall2_lookup_r _ _ _ _ _ Hax Hj) as (c' & Hc' & Hta). rewrite Hc in Hta. injection Hta as <-.
        destruct (Forall2_lookup_r _ _ _ j d Hks) as (k & Hk & Hlt).
        { rewrite list_lookup_fmap, Hj. simpl. by rewrite (nth0_lookup _ _ _ Hd). }
        rewrite (nth0_lookup _ _ _ Hk). case_decide; [lia|]. symmetry. by eapply Hek.
      - apply index_of_None in Hj.
        assert (Hin : a ∈ free_axes ax (length t)) by by apply elem_free_axes.
        apply elem_of_list_lookup in Hin as (j & Hfj).
        rewrite (index_of_NoDup a _ j) by (done || apply NoDup_free_axes). simpl.
        assert (Hfrj : fr !! j = Some c).
        { assert (H1 : (Some <$> fr) !! j = Some (Some c)) by by rewrite Hfr, list_lookup_fmap, Hfj; simpl; rewrite Hc.
          rewrite list_lookup_fmap in H1. destruct (fr !! j); simplify_eq/=. done. }
        destruct (Forall2_lookup_r _ _ _ j d Hcs) as (k & Hk & Hlt).
        { rewrite list_lookup_fmap, Hfj. simpl. by rewrite (nth0_lookup _ _ _ Hd). }
        rewrite (nth0_lookup _ _ _ Hk). case_decide; [lia|]. symmetry. by eapply Hec.
    Qed.

    (** tensordot is the einsum that sums the shared labels. *)
    Lemma tensordot_einsum l r kl axl axr (x y : tens) fl fr :
      NoDup l -> NoDup r -> NoDup kl -> length l = length (shape x) -> length r = length (shape y) ->
      Forall2 (fun c a => l !! a = Some c) kl axl ->
      Forall2 (fun c a => r !! a = Some c) kl axr ->
      (forall c, c ∈ l -> c ∈ r -> c ∈ kl) ->
      (nth0 (shape x) <$> axl) = (nth0 (shape y) <$> axr) ->
      fl = filter (fun c => c ∉ kl) l -> fr = filter (fun c => c ∉ kl) r ->
      tensordot x y axl axr ≡ₜ einsum [(l, x); (r, y)] (fl ++ fr).
    Proof.
      intros Hl Hr Hk Hlx Hry Hal Har Hshared Hdims Hfl Hfr.
      set (tops := [(l, x); (r, y)]).
      assert (Hsel : forall t ax, NoDup t -> Forall2 (fun c a => t !! a = Some c) kl ax ->
                Some <$> filter (fun c => c ∉ kl) t = (fun a => t !! a) <$> free_axes ax (length t)).
      { intros t ax Ht Hax. apply filter_free_axes. intros a c Ha. split.
        - intros Hn Hin. apply Hn. apply elem_of_list_lookup in Hin as (i & Hi).
          destruct (Forall2_lookup_l _ _ _ _ _ Hax Hi) as (a' & Ha' & Hta).
          assert (a' = a) as -> by eauto using NoDup_lookup. by eapply elem_of_list_lookup_2.
        - intros Hn (i & Hi)%elem_of_list_lookup.
          destruct (Forall2_lookup_r _ _ _ _ _ Hax Hi) as (c' & Hc' & Hta). rewrite Ha in Hta. injection Hta as <-.
          apply Hn. by eapply elem_of_list_lookup_2. }
      pose proof (Hsel l axl Hl Hal) as Hsl. pose proof (Hsel r axr Hr Har) as Hsr. rewrite <-Hfl in Hsl. rewrite <-Hfr in Hsr.
      assert (Haxes : forall c d, (c, d) ∈ axes_of tops <-> (exists a, l !! a = Some c /\ shape x !! a = Some d) \/
                                   (exists a, r !! a = Some c /\ shape y !! a = Some d)).
      { intros c d. rewrite elem_of_axes. unfold tops. split.
        - intros (p & i & Hp & H1 & H2). apply elem_of_cons in Hp as [->|Hp]; [left; eauto|].
          apply elem_of_list_singleton in Hp as ->. right; eauto.
        - intros [(a & H1 & H2)|(a & H1 & H2)]; [exists (l, x)|exists (r, y)]; exists a; (split; [set_solver|done]). }
      assert (Hsame : forall c a b d, l !! a = Some c -> r !! b = Some c -> shape x !! a = Some d -> shape y !! b = Some d).
      { intros c a b d Ha Hb Hd.
        assert (Hc : c ∈ kl) by (apply Hshared; by eapply elem_of_list_lookup_2).
        apply elem_of_list_lookup in Hc as (i & Hi).
        destruct (Forall2_lookup_l _ _ _ _ _ Hal Hi) as (a' & Ha' & Hla).
        destruct (Forall2_lookup_l _ _ _ _ _ Har Hi) as (b' & Hb' & Hrb).
        assert (a' = a) as -> by eauto using NoDup_lookup. assert (b' = b) as -> by eauto using NoDup_lookup.
        assert (Hx : (nth0 (shape x) <$> axl) !! i = Some d) by (rewrite list_lookup_fmap, Ha'; simpl; by rewrite (nth0_lookup _ _ _ Hd)).
        rewrite Hdims, list_lookup_fmap, Hb' in Hx. simpl in Hx. injection Hx as Hx.
        destruct (lookup_lt_is_Some_2 (shape y) b) as [d' Hd']; [rewrite <-Hry; by eapply lookup_lt_Some|].
        rewrite (nth0_lookup _ _ _ Hd') in Hx. congruence. }
      assert (HdimL : forall a c d, l !! a = Some c -> shape x !! a = Some d -> dim tops c = d).
      { intros a c d Ha Hd. apply dim_unique.
        - intros d' [(a' & Ha' & Hd')|(b & Hb & Hd')]%Haxes.
          + assert (a' = a) as -> by eauto using NoDup_lookup. right. congruence.
          + right. pose proof (Hsame c a b d Ha Hb Hd). congruence.
        - right. apply Haxes. left. eauto. }
      assert (HdimR : forall a c d, r !! a = Some c -> shape y !! a = Some d -> dim tops c = d).
      { intros b c d Hb Hd. destruct (decide (c ∈ l)) as [Hcl|Hcl].
        - apply elem_of_list_lookup in Hcl as (a & Ha).
          destruct (lookup_lt_is_Some_2 (shape x) a) as [d' Hd']; [rewrite <-Hlx; by eapply lookup_lt_Some|].
          pose proof (Hsame c a b d' Ha Hb Hd'). rewrite (HdimL a c d' Ha Hd'). congruence.
        - apply dim_unique.
          + intros d' [(a' & Ha' & Hd')|(b' & Hb' & Hd')]%Haxes.
            * destruct Hcl. by eapply elem_of_list_lookup_2.
            * assert (b' = b) as -> by eauto using NoDup_lookup. right. congruence.
          + right. apply Haxes. right. eauto. }
      assert (Hkeep : forall t (z : tens) ax f, length t = length (shape z) ->
                (forall a c d, t !! a = Some c -> shape z !! a = Some d -> dim tops c = d) ->
                Some <$> f = (fun a => t !! a) <$> free_axes ax (length t) ->
                nth0 (shape z) <$> free_axes ax (length t) = dim tops <$> f).
      { intros t z ax f Hlen Hd Hs. apply list_eq. intros i. rewrite !list_lookup_fmap.
        assert (Hi : (Some <$> f) !! i = ((fun a => t !! a) <$> free_axes ax (length t)) !! i) by by rewrite Hs.
        rewrite !list_lookup_fmap in Hi.
        destruct (free_axes ax (length t) !! i) as [a|] eqn:Ea; destruct (f !! i) as [c|] eqn:Ec; simplify_eq/=; [|done].
        destruct (lookup_lt_is_Some_2 (shape z) a) as [d Hd']; [rewrite <-Hlen; by eapply lookup_lt_Some|].
        rewrite (nth0_lookup _ _ _ Hd'). f_equal. symmetry. by eapply Hd. }
      pose proof (Hkeep l x axl fl Hlx HdimL Hsl) as HkL. pose proof (Hkeep r y axr fr Hry HdimR Hsr) as HkR.
      assert (Hndout : NoDup (fl ++ fr)).
      { rewrite Hfl, Hfr. apply NoDup_app. repeat split; [by apply NoDup_filter| |by apply NoDup_filter].
        intros c [Hn Hcl]%elem_of_list_filter [_ Hcr]%elem_of_list_filter. apply Hn. by apply Hshared. }
      assert (Hshape : shape (tensordot x y axl axr) = shape (einsum tops (fl ++ fr))).
      { simpl. rewrite fmap_app, <-HkL, <-HkR, Hlx, Hry. done. }
      split; [done|]. intros cs Hcs. rewrite Hshape in Hcs. simpl in Hcs.
      simpl. unfold esum.
      assert (Hperm : summed tops (fl ++ fr) ≡ₚ kl).
      { apply NoDup_Permutation; [apply NoDup_summed|done|]. intros c. rewrite elem_of_summed, elem_of_app, Hfl, Hfr.
        rewrite !elem_of_list_filter. unfold tops, labels_of. simpl. rewrite app_nil_r, elem_of_app. split.
        - intros [Hc Hn]. destruct (decide (c ∈ kl)); [done|]. naive_solver.
        - intros Hc. split; [|naive_solver]. left. apply elem_of_list_lookup in Hc as (i & Hi).
          destruct (Forall2_lookup_l _ _ _ _ _ Hal Hi) as (a & _ & Hla). by eapply elem_of_list_lookup_2. }
      rewrite (sum_labels_perm (dim tops) _ kl _ _ _ (prod_dep tops) (NoDup_summed _ _) Hperm).
      rewrite sum_labels_multi.
      assert (Hdk : nth0 (shape x) <$> axl = dim tops <$> kl).
      { clear -Hal HdimL Hlx. induction Hal as [|c a kl axl Hca _ IH]; [done|]. rewrite !fmap_cons, IH. f_equal.
        destruct (lookup_lt_is_Some_2 (shape x) a) as [d Hd]; [rewrite <-Hlx; by eapply lookup_lt_Some|].
        rewrite (nth0_lookup _ _ _ Hd). symmetry. by eapply HdimL. }
      rewrite Hdk. apply sum_multi_ext. intros ks Hks.
      set (e := upds (env_of (fl ++ fr) cs) kl ks).
      unfold prodl. simpl. unfold term. simpl.
      rewrite fmap_app in Hcs.
      assert (Hlenfl : length (free_axes axl (length (shape x))) = length fl).
      { rewrite <-Hlx. assert (Hll := f_equal length Hsl). rewrite !fmap_length in Hll. done. }
      assert (Htake : in_range (take (length fl) cs) (dim tops <$> fl)).
      { unfold in_range in *. apply Forall2_app_inv_r in Hcs as (c1 & c2 & H1 & H2 & ->).
        assert (Hl1 := Forall2_length _ _ _ H1). rewrite fmap_length in Hl1. by rewrite take_app_alt. }
      assert (Hdrop : in_range (drop (length fl) cs) (dim tops <$> fr)).
      { unfold in_range in *. apply Forall2_app_inv_r in Hcs as (c1 & c2 & H1 & H2 & ->).
        assert (Hl1 := Forall2_length _ _ _ H1). rewrite fmap_length in Hl1. by rewrite drop_app_alt. }
      assert (Hek : forall i c k, kl !! i = Some c -> ks !! i = Some k -> e c = k).
      { intros i c k Hi Hki. unfold e. by eapply upds_lookup. }
      assert (Hnk : forall c, c ∈ fl \/ c ∈ fr -> c ∉ kl).
      { intros c. rewrite Hfl, Hfr, !elem_of_list_filter. naive_solver. }
      rewrite (td_coords_ok l (shape x) axl kl ks _ fl e); [|done|done|done|done|done|by rewrite Hdk|..].
      2: { rewrite Hlenfl, HkL. done. }
      2: { done. }
      2: { intros i c k Hi Hci. unfold e. rewrite upds_ne by (apply Hnk; left; by eapply elem_of_list_lookup_2).
        rewrite Hlenfl in Hci. apply lookup_take_Some in Hci as [Hci _].
        eapply env_of_lookup; [done| |done]. apply lookup_app_Some. by left. }
      rewrite (td_coords_ok r (shape y) axr kl ks _ fr e); [|done|done|done|done|done|by rewrite <-Hdims, Hdk|..].
      2: { rewrite Hlenfl, HkR. done. }
      2: { done. }
      2: { intros i c k Hi Hci. unfold e. rewrite upds_ne by (apply Hnk; right; by eapply elem_of_list_lookup_2).
        rewrite Hlenfl in Hci. rewrite lookup_drop in Hci.
        eapply env_of_lookup; [done| |exact Hci]. rewrite lookup_app_r by lia. by replace (length fl + i - length fl) with i by lia. }
      ring.
    Qed.
  End Moves.
End Ops.
