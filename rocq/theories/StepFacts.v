(** One contraction step computes the einsum of its operands. *)
From Verif Require Import Prelude Einsum EinsumFacts EinsumOps Parser Helpers Contract Spec StringFacts SymbolFacts.

Lemma bind_Ok_inv {A B} (m : res A) (f : A -> res B) b : m ≫= f = Ok b -> exists a, m = Ok a /\ f a = Ok b.
Proof. destruct m; simpl; [eauto|done]. Qed.
Lemma mapM_res_Forall2 {A B} (f : A -> res B) l k : mapM_res f l = Ok k <-> Forall2 (fun a b => f a = Ok b) l k.
Proof.
  revert k. induction l as [|a l IH]; intros k; simpl.
  - split; [by intros [= <-]|]. intros H. by inversion H.
  - split.
    + destruct (f a) as [b|] eqn:Ea; simpl; [|done]. destruct (mapM_res f l) as [bs|] eqn:El; simpl; [|done].
      intros [= <-]. constructor; [done|]. by apply IH.
    + intros H. inversion H as [|? b ? bs Hab Hl]; subst. rewrite Hab. simpl. apply IH in Hl. by rewrite Hl.
Qed.
Lemma mapM_res_ok {A B} (f : A -> res B) l : (forall a, a ∈ l -> exists b, f a = Ok b) -> exists k, mapM_res f l = Ok k.
Proof.
  induction l as [|a l IH]; intros H; simpl; [by eauto|].
  destruct (H a) as [b Hb]; [by left|]. rewrite Hb. simpl.
  destruct IH as [k Hk]; [intros; apply H; by right|]. rewrite Hk. simpl. eauto.
Qed.

Lemma labels_zip {K : semiring} (ts : list str) (ops : list (tensor K)) :
  length ts = length ops -> labels_of (zip ts ops) = ts ≫= id.
Proof.
  unfold labels_of. revert ops. induction ts as [|t ts IH]; intros [|o ops] H; simplify_eq/=; [done|].
  f_equal. by apply IH.
Qed.
Lemma elem_labels_zip {K : semiring} (ts : list str) (ops : list (tensor K)) c :
  length ts = length ops -> c ∈ labels_of (zip ts ops) <-> exists t, t ∈ ts /\ c ∈ t.
Proof. intros H. rewrite labels_zip by done. rewrite elem_of_list_bind. simpl. naive_solver. Qed.

Lemma plain_in (ts : list str) t c : Forall (Forall plain) ts -> t ∈ ts -> c ∈ t -> plain c.
Proof. rewrite Forall_forall. intros H Ht. apply plain_no, H, Ht. Qed.

Section Step.
  Context {K : semiring}.
  Notation tens := (tensor K).
  Variable ord : gset N -> list N.
  Hypothesis ord_ok : forall s, ord s ≡ₚ elements s.
  Variable B : backend K.
  Hypothesis B_ok : backend_ok B.

  Lemma rename_axes {L M : Type} (f : L -> M) (tops : list (list L * tens)) :
    axes_of (rename_op f <$> tops : list (list M * tens)) = (fun p => (f p.1, p.2)) <$> axes_of tops.
  Proof.
    unfold axes_of. induction tops as [|[t T] tops IH]; [done|]. rewrite fmap_cons, !bind_cons, IH, fmap_app. f_equal. simpl.
    generalize (shape T) as sh. induction t as [|x t IHt]; intros [|d sh]; simpl; try done. by rewrite IHt.
  Qed.

  Lemma zip_rename (g : N -> N) (ts : list str) (ops : list tens) :
    zip (fmap (M:=list) g <$> ts) ops = rename_op g <$> zip ts ops.
  Proof. revert ops. induction ts as [|t ts IH]; intros [|o ops]; try done. rewrite fmap_cons. simpl. f_equal. apply IH. Qed.

  (** When the functions of an array library may be called (the premises of [backend_ok], and at most 52 labels). *)
  Definition v_tensordot (x y : tens) (axl axr : list nat) : Prop :=
    NoDup axl /\ NoDup axr /\ length axl = length axr /\ Forall (fun a => a < length (shape x)) axl /\ Forall (fun a => a < length (shape y)) axr /\
    (nth0 (shape x) <$> axl) = (nth0 (shape y) <$> axr).
  Definition v_transpose (x : tens) (axes : list nat) : Prop := axes ≡ₚ seq 0 (length (shape x)).
  Definition v_einsum (ts : list str) (out : str) (ops : list tens) : Prop :=
    ts <> [] /\ length ts = length ops /\ Forall (Forall plain) ts /\ NoDup out /\ (forall c, c ∈ out -> c ∈ labels_of (zip ts ops)) /\
    ranked (zip ts ops) /\ compat (zip ts ops) /\ diagonal (zip ts ops) /\ size (list_to_set (labels_of (zip ts ops)) : gset N) <= 52.

  Lemma convert_einsum_ok ts out (ops : list tens) :
    b_has_einsum B = true -> ts <> [] -> length ts = length ops -> Forall (Forall plain) ts -> NoDup out ->
    (forall c, c ∈ out -> c ∈ labels_of (zip ts ops)) ->
    ranked (zip ts ops) -> compat (zip ts ops) -> diagonal (zip ts ops) ->
    size (list_to_set (labels_of (zip ts ops)) : gset N) <= 52 ->
    exists T, b_einsum B (convert_to_valid_einsum_chars (equation ts out)) ops = Ok T /\ T ≡ₜ einsum (zip ts ops) out.
  Proof.
    clear ord_ok ord.
    intros He Hne Hlen Hpl Hnd Hout Hr Hc Hd Hsz.
    rewrite convert_equation. set (f := valid_rename (equation ts out)).
    assert (Hsym : forall c, c ∈ valid_symbols (equation ts out) <-> c ∈ labels_of (zip ts ops)).
    { intros c. rewrite elem_valid_symbols, elem_labels_zip by done. split.
      - intros [Hc' Hns]. unfold equation in Hc'. rewrite !elem_of_app in Hc'. destruct Hc' as [Hc'|[Hc'|Hc']].
        + apply elem_of_join in Hc' as [Hc'|?]; [|done]. exfalso. apply Hns.
          apply elem_of_list_singleton in Hc' as ->. vm_compute. set_solver.
        + exfalso. apply Hns. unfold s_arrow in Hc'. vm_compute. revert Hc'. unfold c_dash, c_gt. set_solver.
        + apply Hout, elem_labels_zip in Hc'; done.
      - intros (t & Ht & Hct).
        assert (Hp : plain c) by exact (plain_in ts t c Hpl Ht Hct).
        split; [apply elem_of_equation; eauto|by apply plain_not_syntax]. }
    assert (Hinj : forall a b, (a ∈ labels_of (zip ts ops) \/ a ∈ out) -> (b ∈ labels_of (zip ts ops) \/ b ∈ out) ->
                   f a = f b -> a = b).
    { intros a b Ha Hb. apply valid_rename_inj; apply Hsym; naive_solver. }
    assert (Hlen52 : length (valid_symbols (equation ts out)) <= 52).
    { etrans; [|exact Hsz].
      rewrite <-(size_list_to_set (C := gset N) (valid_symbols (equation ts out))) by apply NoDup_valid_symbols.
      apply subseteq_size. intros c. rewrite !elem_of_list_to_set. by rewrite Hsym. }
    assert (Hzip : zip (fmap (M:=list) f <$> ts) ops = rename_op f <$> zip ts ops).
    { apply zip_rename. }
    destruct (ok_einsum _ B_ok He (fmap (M:=list) f <$> ts) (f <$> out) ops) as (T & HT & HTeq).
    + by destruct ts.
    + by rewrite fmap_length.
    + apply Forall_fmap. rewrite Forall_forall. intros t Ht. simpl. apply Forall_fmap.
      rewrite Forall_forall. intros c Hct. simpl. apply valid_rename_letter; [|done].
      apply Hsym, elem_labels_zip; eauto.
    + apply NoDup_fmap_2_strong; [|done]. intros a b Ha Hb. apply Hinj; auto.
    + intros c (a & -> & Ha)%elem_of_list_fmap. apply Hout in Ha. rewrite elem_labels_zip in Ha |- * by (try rewrite fmap_length; done).
      destruct Ha as (t & Ht & Hat). exists (f <$> t). split; by apply elem_of_list_fmap_1.
    + rewrite Hzip. unfold ranked in *. apply Forall_fmap. eapply Forall_impl; [exact Hr|].
      intros p. simpl. by rewrite fmap_length.
    + rewrite Hzip. intros l d d'. rewrite rename_axes, !elem_of_list_fmap.
      intros ([a x] & [= -> ->] & Ha) ([b y] & [= Heq ->] & Hb). simpl in *.
      assert (a = b) as -> by (apply Hinj; [left; by eapply axes_labels|left; by eapply axes_labels|done]).
      by eapply Hc.
    + rewrite Hzip. intros p i j c d d' Hp Hi Hj. apply elem_of_list_fmap in Hp as (q & -> & Hq).
      simpl in *. rewrite list_lookup_fmap in Hi, Hj.
      destruct (q.1 !! i) as [a|] eqn:Ea; simplify_eq/=. destruct (q.1 !! j) as [b|] eqn:Eb; simplify_eq/=.
      assert (a = b) as ->.
      { apply Hinj; [left|left|congruence]; apply elem_of_labels; exists q; split; try done; by eapply elem_of_list_lookup_2. }
      by eapply Hd.
    + exists T. split; [done|]. rewrite HTeq, Hzip. by apply einsum_rename.
  Qed.
  Lemma run_einsum_ok ts out (ops : list tens) :
    b_has_einsum B = true -> ts <> [] -> length ts = length ops -> Forall (Forall plain) ts -> NoDup out ->
    (forall c, c ∈ out -> c ∈ labels_of (zip ts ops)) ->
    ranked (zip ts ops) -> compat (zip ts ops) -> diagonal (zip ts ops) ->
    size (list_to_set (labels_of (zip ts ops)) : gset N) <= 52 ->
    exists T, run_einsum B (equation ts out) ops = Ok T /\ T ≡ₜ einsum (zip ts ops) out.
  Proof.
    clear ord_ok ord.
    intros He Hne Hlen Hpl Hnd Hout Hr Hc Hd Hsz. unfold run_einsum.
    assert (Hplout : Forall plain out).
    { rewrite Forall_forall. intros c Hc'%Hout. apply elem_labels_zip in Hc' as (t & Ht & Hc'); [|done].
      exact (plain_in ts t c Hpl Ht Hc'). }
    destruct (has_valid_einsum_chars_only (equation ts out)) eqn:Hv.
    - apply (ok_einsum _ B_ok); try done. rewrite Forall_forall. intros t Ht. rewrite Forall_forall. intros c Hct.
      assert (Hp : plain c) by exact (plain_in ts t c Hpl Ht Hct).
      unfold has_valid_einsum_chars_only in Hv. rewrite forallb_forall in Hv.
      specialize (Hv c). rewrite <-elem_of_list_In in Hv.
      assert (Hin : c ∈ equation ts out) by (apply elem_of_equation; eauto).
      apply Hv in Hin. unfold is_valid_einsum_char in Hin. apply orb_true_iff in Hin as [Hin|Hin].
      + by apply inb_true in Hin.
      + apply inb_true in Hin. exfalso. destruct Hp as (H1 & H2 & H3 & H4 & _).
        unfold c_comma, c_dash, c_gt, c_dot in *. simpl in Hin. set_solver.
    - assert (Hsub : sub_in s_arrow (equation ts out) = true) by (apply sub_in_arrow_app; by apply plain_join_dash).
      rewrite Hsub. by apply convert_einsum_ok.
  Qed.

  (** C04: what a BLAS answer guarantees. *)
  Lemma can_blas_sound inputs result removed shapes :
    can_blas inputs result removed shapes <> BFalse ->
    exists l r shl shr rest, inputs = [l; r] /\ shapes = shl :: shr :: rest /\
      NoDup l /\ NoDup r /\
      (forall c, c ∈ l -> c ∈ r -> c ∉ result) /\
      (forall c, c ∈ l -> c ∉ r -> c ∈ result) /\
      (forall c, c ∈ r -> c ∉ l -> c ∈ result) /\
      (forall c, c ∈ removed -> exists i j d, find c l = Some i /\ find c r = Some j /\ shl !! i = Some d /\ shr !! j = Some d).
  Proof.
    clear ord_ok ord.
    unfold can_blas. destruct inputs as [|l [|r [|]]]; try done. destruct shapes as [|shl [|shr rest]]; try done.
    destruct (blas_chars_ok l r result) eqn:H1; [|done]. destruct (blas_dims_ok l r shl shr removed) eqn:H2; [|done].
    intros _. exists l, r, shl, shr, rest. split; [done|]. split; [done|].
    assert (Hch : forall c, c ∈ l \/ c ∈ r ->
              count c l <= 1 /\ count c r <= 1 /\ (count c l + count c r <> (if inb c result then 1 else 0) + 1)).
    { intros c Hc. unfold blas_chars_ok in H1. rewrite forallb_forall in H1. specialize (H1 c).
      rewrite <-elem_of_list_In, elem_of_elements, elem_of_list_to_set, elem_of_app in H1. specialize (H1 Hc).
      rewrite andb_true_iff, !negb_true_iff, !orb_false_iff, bool_decide_eq_false, !Nat.ltb_ge in H1. lia. }
    repeat split.
    - apply count_NoDup. intros c. destruct (decide (c ∈ l)) as [Hc|Hc]; [apply Hch; auto|]. apply count_zero in Hc. lia.
    - apply count_NoDup. intros c. destruct (decide (c ∈ r)) as [Hc|Hc]; [apply Hch; auto|]. apply count_zero in Hc. lia.
    - intros c Hl Hr Hres. destruct (Hch c) as (Ha & Hb & Hn); [auto|]. apply inb_true in Hres. rewrite Hres in Hn.
      apply count_pos in Hl, Hr. lia.
    - intros c Hl Hr. destruct (Hch c) as (Ha & Hb & Hn); [auto|]. destruct (inb c result) eqn:Hres; [by apply inb_true|].
      apply count_pos in Hl. apply count_zero in Hr. lia.
    - intros c Hr Hl. destruct (Hch c) as (Ha & Hb & Hn); [auto|]. destruct (inb c result) eqn:Hres; [by apply inb_true|].
      apply count_pos in Hr. apply count_zero in Hl. lia.
    - intros c Hc. unfold blas_dims_ok in H2. rewrite forallb_forall in H2. specialize (H2 c).
      rewrite <-elem_of_list_In, elem_of_elements in H2. specialize (H2 Hc).
      destruct (find c l) as [i|]; [|done]. destruct (find c r) as [j|]; [|done].
      destruct (shl !! i) as [a|] eqn:Ea; [|done]. destruct (shr !! j) as [b|] eqn:Eb; [|done].
      apply Nat.eqb_eq in H2 as ->. eauto 10.
  Qed.

  (** Sorting the axis pairs permutes the labels along. *)
  Lemma Forall2_perm_r {X Y} (R : X -> Y -> Prop) l k k' :
    Forall2 R l k -> k ≡ₚ k' -> exists l', l ≡ₚ l' /\ Forall2 R l' k'.
  Proof.
    intros H Hp. revert l H. induction Hp as [|y k k' Hp IH|y z k|k1 k2 k3 H1 IH1 H2 IH2]; intros l H.
    - inversion H; subst. by exists [].
    - inversion H as [|x ? l0 ? Hxy Hl]; subst. destruct (IH _ Hl) as (l' & Hl' & HF). exists (x :: l'). split; [by constructor|by constructor].
    - inversion H as [|x1 ? l0 ? Hx1 Hl]; subst. inversion Hl as [|x2 ? l1 ? Hx2 Hl1]; subst.
      exists (x2 :: x1 :: l1). split; [constructor|by repeat constructor].
    - destruct (IH1 _ H) as (l' & Hp1 & HF1). destruct (IH2 _ HF1) as (l'' & Hp2 & HF2). exists l''. split; [by etrans|done].
  Qed.

  (** A BLAS step: the calls made are allowed, and any results they have give [W]. *)
  Definition td_valid l r out (removed : gset N) (x y W : tens) : Prop :=
    Forall plain l /\ Forall plain r /\ Forall plain out /\
    exists ax, td_axes ord l r removed = Ok ax /\ v_tensordot x y ax.*1 ax.*2 /\
      forall T, T ≡ₜ tensordot x y ax.*1 ax.*2 ->
        let tr := filter (fun s => s ∉ removed) (l ++ r) in
        (tr = out -> T ≡ₜ W) /\
        (exists axes, mapM_res (fun c => of_opt ValueError (find c tr)) out = Ok axes /\ v_transpose T axes /\
          forall T', T' ≡ₜ transpose T axes -> T' ≡ₜ W).
  Lemma tensordot_valid l r out removed (x y : tens) :
    Forall plain l -> Forall plain r -> NoDup out -> NoDup l -> NoDup r ->
    length l = length (shape x) -> length r = length (shape y) ->
    (forall c, c ∈ removed <-> c ∈ l /\ c ∈ r) ->
    (forall c, c ∈ out <-> (c ∈ l \/ c ∈ r) /\ c ∉ removed) ->
    (forall c i j, l !! i = Some c -> r !! j = Some c -> shape x !! i = shape y !! j) ->
    td_valid l r out removed x y (einsum [(l, x); (r, y)] out).
  Proof.
    clear B_ok.
    intros Hpl Hpr Hnd Hl Hr Hlx Hry Hrm Hout Hdims.
    assert (Hplout : Forall plain out).
    { rewrite Forall_forall. intros c Hc. apply Hout in Hc as [[Hc|Hc] _]; [exact (plain_no l c Hpl Hc)|exact (plain_no r c Hpr Hc)]. }
    split; [done|]. split; [done|]. split; [done|]. unfold td_axes.
    destruct (mapM_res_ok (fun s => i ← of_opt IndexError (find s l); j ← of_opt IndexError (find s r); Ok (i, j)) (ord removed))
      as [ps Hps].
    { intros c Hc. rewrite ord_ok, elem_of_elements, Hrm in Hc. destruct Hc as [Hcl Hcr].
      destruct (find_elem _ _ Hcl) as (i & Hi & _). destruct (find_elem _ _ Hcr) as (j & Hj & _).
      rewrite Hi, Hj. simpl. eauto. }
    exists (merge_sort pair_le ps). split; [by rewrite Hps|]. apply mapM_res_Forall2 in Hps.
    set (ax := merge_sort pair_le ps).
    assert (Hax : ps ≡ₚ ax) by (symmetry; apply merge_sort_Permutation).
    destruct (Forall2_perm_r _ _ _ _ Hps Hax) as (kl & Hkl & HF).
    assert (HF' : Forall2 (fun c p => l !! p.1 = Some c /\ r !! p.2 = Some c) kl ax).
    { eapply Forall2_impl; [exact HF|]. intros c [i j]. simpl. destruct (find c l) as [i'|] eqn:Ei; simpl; [|done].
      destruct (find c r) as [j'|] eqn:Ej; simpl; [|done]. intros [= -> ->]. split; by apply find_lookup. }
    assert (Hkl_nd : NoDup kl) by (rewrite <-Hkl, ord_ok; apply NoDup_elements).
    assert (Hkl_in : forall c, c ∈ kl <-> c ∈ removed) by (intros c; rewrite <-Hkl, ord_ok, elem_of_elements; done).
    assert (HFl : Forall2 (fun c a => l !! a = Some c) kl ax.*1).
    { apply Forall2_fmap_r. eapply Forall2_impl; [exact HF'|]. naive_solver. }
    assert (HFr : Forall2 (fun c a => r !! a = Some c) kl ax.*2).
    { apply Forall2_fmap_r. eapply Forall2_impl; [exact HF'|]. naive_solver. }
    assert (Hnd1 : forall t a, NoDup t -> Forall2 (fun c a => t !! a = Some c) kl a -> NoDup a).
    { intros t a Ht HFt. apply NoDup_alt. intros i j v Hi Hj.
      destruct (Forall2_lookup_r _ _ _ _ _ HFt Hi) as (c & Hc & Hta).
      destruct (Forall2_lookup_r _ _ _ _ _ HFt Hj) as (c' & Hc' & Hta').
      rewrite Hta in Hta'. injection Hta' as <-. exact (NoDup_lookup kl i j c Hkl_nd Hc Hc'). }
    assert (Hrange : forall t a n, length t = n -> Forall2 (fun c a => t !! a = Some c) kl a -> Forall (fun i => i < n) a).
    { intros t a n <- HFt. rewrite Forall_forall. intros v (i & Hi)%elem_of_list_lookup.
      destruct (Forall2_lookup_r _ _ _ _ _ HFt Hi) as (c & Hc & Hta). by eapply lookup_lt_Some. }
    assert (Hd : nth0 (shape x) <$> ax.*1 = nth0 (shape y) <$> ax.*2).
    { clear -HF' Hdims Hlx Hry. induction HF' as [|c [i j] kl ax [Hi Hj] _ IH]; [done|]. rewrite !fmap_cons. simpl in *.
      rewrite IH. f_equal. unfold nth0. by rewrite (Hdims c i j). }
    fold ax. split.
    { split; [exact (Hnd1 l _ Hl HFl)|]. split; [exact (Hnd1 r _ Hr HFr)|]. split; [by rewrite !fmap_length|].
      split; [exact (Hrange l _ _ Hlx HFl)|]. split; [exact (Hrange r _ _ Hry HFr)|]. done. }
    intros T HTeq. set (tr := filter (fun s => s ∉ removed) (l ++ r)).
    assert (Hfil : filter (fun s => s ∉ removed) (l ++ r)
                   = filter (fun c => c ∉ kl) l ++ filter (fun c => c ∉ kl) r).
    { rewrite filter_app. f_equal; apply list_filter_iff; intros c; by rewrite Hkl_in. }
    assert (HTe : T ≡ₜ einsum [(l, x); (r, y)] (filter (fun s => s ∉ removed) (l ++ r))).
    { rewrite HTeq, Hfil. eapply tensordot_einsum; try done. intros c H1 H2. by apply Hkl_in, Hrm. }
    change (filter (fun s => s ∉ removed) (l ++ r)) with tr in HTe. split; [by intros <-|].
    assert (Htr : NoDup tr).
    { unfold tr; rewrite Hfil. apply NoDup_app. repeat split; [by apply NoDup_filter| |by apply NoDup_filter].
      intros c [Hn Hcl]%elem_of_list_filter [_ Hcr]%elem_of_list_filter. apply Hn, Hkl_in, Hrm. done. }
    assert (Hpo : out ≡ₚ tr).
    { apply NoDup_Permutation; [done|done|]. intros c. rewrite Hout. unfold tr. rewrite elem_of_list_filter, elem_of_app. naive_solver. }
    destruct (mapM_res_ok (fun c => of_opt ValueError (find c tr)) out) as [axes Haxes].
    { intros c Hc. rewrite Hpo in Hc. destruct (find_elem _ _ Hc) as (i & Hi & _). rewrite Hi. simpl. eauto. }
    exists axes. split; [done|]. apply mapM_res_Forall2 in Haxes.
    assert (HFo : Forall2 (fun c a => tr !! a = Some c) out axes).
    { eapply Forall2_impl; [exact Haxes|]. intros c a. simpl. destruct (find c tr) as [i|] eqn:Ei; simpl; [|done].
      intros [= ->]. by apply find_lookup. }
    split.
    { unfold v_transpose. rewrite (proj1 HTe). simpl. rewrite fmap_length. apply NoDup_Permutation; [|apply NoDup_seq|].
      - apply NoDup_alt. intros i j v Hi Hj.
        destruct (Forall2_lookup_r _ _ _ _ _ HFo Hi) as (c & Hc & Hta).
        destruct (Forall2_lookup_r _ _ _ _ _ HFo Hj) as (c' & Hc' & Hta').
        rewrite Hta in Hta'. injection Hta' as <-. exact (NoDup_lookup out i j c Hnd Hc Hc').
      - intros v. rewrite elem_of_seq. split.
        + intros (i & Hi)%elem_of_list_lookup. destruct (Forall2_lookup_r _ _ _ _ _ HFo Hi) as (c & Hc & Hta).
          apply lookup_lt_Some in Hta. lia.
        + intros [_ Hv]. destruct (lookup_lt_is_Some_2 tr v) as [c Hc]; [lia|].
          assert (Hco : c ∈ out) by (rewrite Hpo; by eapply elem_of_list_lookup_2).
          apply elem_of_list_lookup in Hco as (i & Hi). destruct (Forall2_lookup_l _ _ _ _ _ HFo Hi) as (a & Ha & Hta).
          assert (a = v) as -> by eauto using NoDup_lookup. by eapply elem_of_list_lookup_2. }
    intros T' HTeq'. rewrite HTeq'. by eapply transpose_einsum.
  Qed.
  Lemma td_valid_ok l r out removed (x y W : tens) : td_valid l r out removed x y W ->
    exists T, run_tensordot ord B (equation [l; r] out) removed [x; y] = Ok T /\ T ≡ₜ W.
  Proof.
    clear ord_ok. intros (Hpl & Hpr & Hplout & ax & Hax & (V1 & V2 & V3 & V4 & V5 & V6) & Hrest). unfold run_tensordot, split_arrow.
    unfold equation. rewrite split_arrow_two.
    2: { apply plain_join_dash. by repeat constructor. }
    2: { intros Hc. by apply (plain_no _ _ Hplout) in Hc as (_ & ? & _). }
    simpl. unfold s_comma. rewrite split1_join; [|done|].
    2: { repeat constructor; intros Hc; [by apply (plain_no _ _ Hpl) in Hc as (? & _)|by apply (plain_no _ _ Hpr) in Hc as (? & _)]. }
    simpl. rewrite Hax. simpl. destruct (ok_tensordot _ B_ok x y ax.*1 ax.*2) as (T & HT & HTeq); try done.
    rewrite HT. simpl. destruct (Hrest T HTeq) as [H1 H2]. case_decide as Heq; [exists T; split; [done|by apply H1]|].
    destruct H2 as (axes & Haxes & Hv & H3). rewrite Haxes. simpl.
    destruct (ok_transpose _ B_ok T axes) as (T' & HT' & HTeq'); [done|]. exists T'. split; [done|]. by apply H3.
  Qed.
  Lemma v_einsum_ok ts out (ops : list tens) : b_has_einsum B = true -> v_einsum ts out ops ->
    exists T, run_einsum B (equation ts out) ops = Ok T /\ T ≡ₜ einsum (zip ts ops) out.
  Proof. intros He (H1 & H2 & H3 & H4 & H5 & H6 & H7 & H8 & H9). by apply run_einsum_ok. Qed.
End Step.
