(** [object_einsum] computes the definition. *)
From Verif Require Import Prelude Einsum EinsumFacts EinsumOps Parser Spec StringFacts StepFacts ContractFacts ObjectEinsum ObjectSpec.

(** ** Dictionaries *)
Lemma dict_get_set {A} k k' (v : A) l : dict_get k (dict_set k' v l) = if decide (k = k') then Some v else dict_get k l.
Proof.
  induction l as [|[q u] l IH]; simpl; [done|]. destruct (decide (k' = q)) as [->|Hne]; simpl.
  - by destruct (decide (k = q)).
  - rewrite IH. repeat case_decide; congruence.
Qed.
Lemma dict_keys_set {A} k (v : A) l : (dict_set k v l).*1 = if decide (k ∈ l.*1) then l.*1 else l.*1 ++ [k].
Proof.
  induction l as [|[q u] l IH]; [done|]. cbn [dict_set]. rewrite (fmap_cons fst (q, u)). cbn [fst].
  destruct (decide (k = q)) as [->|Hne].
  - rewrite decide_True; [done|by left].
  - rewrite fmap_cons, IH. cbn [fst]. destruct (decide (k ∈ l.*1)) as [Hk|Hk]; [rewrite decide_True; [done|by right]|]. rewrite decide_False; [done|].
    by intros [?|?]%elem_of_cons.
Qed.
Notation setall := (foldl (fun s (p : N * nat) => dict_set p.1 p.2 s)).
Lemma firsts_snoc l c : firsts (l ++ [c]) = if decide (c ∈ l) then firsts l else firsts l ++ [c].
Proof.
  unfold firsts. rewrite reverse_app. simpl. destruct (decide_rel _ c (reverse l)) as [Hc|Hc]; rewrite elem_of_reverse in Hc.
  - by rewrite decide_True.
  - rewrite decide_False by done. by rewrite reverse_cons.
Qed.
Lemma elem_firsts l c : c ∈ firsts l <-> c ∈ l.
Proof. unfold firsts. by rewrite elem_of_reverse, elem_of_remove_dups, elem_of_reverse. Qed.
Lemma NoDup_firsts l : NoDup (firsts l).
Proof. unfold firsts. rewrite reverse_Permutation; apply NoDup_remove_dups. Qed.
(** Setting (k, d k) for a list of keys. *)
Lemma sizes_keys (l : list (N * nat)) : (setall [] l).*1 = firsts l.*1.
Proof.
  induction l as [|p l IH] using rev_ind; [done|]. rewrite foldl_app. cbn [foldl]. rewrite dict_keys_set, IH, fmap_app; change ([p].*1) with [p.1]; rewrite firsts_snoc.
  destruct (decide (p.1 ∈ l.*1)) as [H|H]; [rewrite decide_True; [done|by apply elem_firsts]|rewrite decide_False; [done|by rewrite elem_firsts]].
Qed.
Lemma sizes_get (d : N -> nat) (l : list (N * nat)) s k : Forall (fun p => p.2 = d p.1) l -> dict_get k (setall s l) = if decide (k ∈ l.*1) then Some (d k) else dict_get k s.
Proof.
  intros Hl. revert s. induction Hl as [|p l Hp Hl IH]; intros s; [done|]; cbn [foldl]; rewrite fmap_cons.
  rewrite IH, dict_get_set. destruct (decide (k ∈ l.*1)) as [H|H]; [rewrite decide_True; [done|by right]|].
  destruct (decide (k = p.1)) as [->|Hne]; [rewrite decide_True; [by rewrite Hp|by left]|]. rewrite decide_False; [done|]. by intros [?|?]%elem_of_cons.
Qed.
Lemma assigned_ne e ls ks l : l ∉ ls -> assigned e ls ks l = e l.
Proof. revert ks. induction ls as [|x ls IH]; intros [|k ks] H; try done. apply not_elem_of_cons in H as [H1 H2]. simpl. rewrite upd_ne by done. by apply IH. Qed.
Lemma coord_get e ls ks s k : NoDup ls -> length ls = length ks -> dict_get k (setall s (zip ls ks)) = if decide (k ∈ ls) then Some (assigned e ls ks k) else dict_get k s.
Proof.
  intros Hnd Hl. revert ks s Hl. induction Hnd as [|x ls Hx Hnd IH]; intros [|y ks] s Hl; try done. cbn [zip_with foldl fst snd assigned].
  injection Hl as Hl. rewrite (IH ks _ Hl), dict_get_set. destruct (decide (k ∈ ls)) as [H|H].
  - rewrite decide_True by (by right). rewrite upd_ne; [done|]. intros ->. done.
  - destruct (decide (k = x)) as [->|Hne]; [rewrite decide_True by (by left); by rewrite upd_eq|]. rewrite decide_False; [done|]. by intros [?|?]%elem_of_cons.
Qed.
Lemma assigned_env out cs l : l ∈ out -> assigned (fun _ => 0) out cs l = env_of out cs l.
Proof. intros _. revert cs. induction out as [|x out IH]; intros [|c cs]; try done. simpl. unfold upd. case_decide; [done|]. apply IH. Qed.

(** ** Coordinates *)
Lemma ndindex_lex dims : ndindex dims = lexicographic dims.
Proof. induction dims as [|d ds IH]; [done|]. simpl. by rewrite IH. Qed.
Lemma lex_range dims cs : cs ∈ lexicographic dims <-> in_range cs dims.
Proof.
  revert cs. induction dims as [|d ds IH]; intros cs; simpl.
  - rewrite elem_of_list_singleton. split; [by intros ->; constructor|]. by inversion 1.
  - rewrite elem_of_list_bind. split.
    + intros (i & (cs' & -> & Hcs)%elem_of_list_fmap & Hi%elem_of_seq). constructor; [lia|by apply IH].
    + inversion 1 as [|c ? cs' ? Hc H']; subst. exists c. split; [apply elem_of_list_fmap; exists cs'; split; [done|by apply IH]|apply elem_of_seq; lia].
Qed.
Lemma in_rangeb_ok cs dims : in_rangeb cs dims = true <-> in_range cs dims.
Proof.
  revert dims. induction cs as [|c cs IH]; intros [|d dims]; simpl; try (split; [done|by inversion 1]); [split; [constructor|done]|].
  rewrite andb_true_iff, Nat.ltb_lt, IH. split; [intros []; by constructor|]. by inversion 1.
Qed.
Lemma mapM_fmap {A B} (f : A -> res B) (g : A -> B) l : (forall a, a ∈ l -> f a = Ok (g a)) -> mapM_res f l = Ok (g <$> l).
Proof.
  induction l as [|a l IH]; intros H; [done|]. cbn [mapM_res]. rewrite H by (by left). cbn [mbind res_bind]. rewrite IH; [done|]. intros x Hx. apply H. by right.
Qed.
Lemma mapM_res_ext {A B} (f g : A -> res B) l : (forall a, a ∈ l -> f a = g a) -> mapM_res f l = mapM_res g l.
Proof. induction l as [|a l IH]; intros H; [done|]. cbn [mapM_res]. rewrite H by (by left). destruct (g a); cbn [mbind res_bind]; [|done]. rewrite IH; [done|]. intros x Hx. apply H. by right. Qed.

Section Facts.
  Context {A : Type}.
  Variable add mul : A -> A -> A.
  Variable none : A.
  Notation tens := (tensor A).
  Lemma reduce_total f (l : list A) : l <> [] -> reduce f l = Ok (total_of f none l).
  Proof. by destruct l. Qed.
  Lemma find_fmap {B} (g : list nat -> B) l cs : cs ∈ l -> exists i, list_find (fun p => p.1 = cs) (zip l (g <$> l)) = Some (i, (cs, g cs)).
  Proof.
    intros H. induction l as [|x l IH]; [by apply elem_of_nil in H|]. rewrite fmap_cons. simpl. destruct (decide (x = cs)) as [->|Hne]; [by exists 0|].
    apply elem_of_cons in H as [->|H]; [done|]. destruct (IH H) as [i ->]. by exists (S i).
  Qed.
  Definition object_result (dims : list nat) (entries : list A) : tens :=
    Tensor dims (fun cs => match list_find (fun p => p.1 = cs) (zip (ndindex dims) entries) with Some (_, p) => p.2 | None => none end).
  Lemma object_unfold (d : N -> nat) (ts : list str) (out : str) (arrays : list tens) :
    ts <> [] -> Forall (Forall plain) ts -> Forall plain out -> NoDup out -> (forall c, c ∈ out -> c ∈ mjoin ts) ->
    Forall2 (fun t x => shape x = d <$> t) ts arrays ->
    object_einsum add mul none (equation ts out) arrays = entries ← mapM_res (fun cs =>
      reduce add ((fun ks => product mul none (assigned (env_of out cs) (inner_of ts out) ks) (zip ts arrays)) <$> lexicographic (d <$> inner_of ts out))) (lexicographic (d <$> out));
      Ok (object_result (d <$> out) entries).
  Proof.
    intros Hne Hpl Hplo Hnd Hout Hsh. unfold object_einsum, split_arrow, equation. rewrite split_arrow_two.
    2: { by apply plain_join_dash. }
    2: { intros Hc. by apply (plain_no _ _ Hplo) in Hc as (_ & ? & _). }
    cbn [mbind res_bind]. unfold s_comma. rewrite split1_join; [|done|].
    2: { eapply Forall_impl; [exact Hpl|]. intros t Ht Hc. by apply (plain_no _ _ Ht) in Hc as (? & _). }
    set (pairs := mjoin (zip_with (fun t (x : tens) => zip t (shape x)) ts arrays)).
    assert (Hp1 : pairs.*1 = mjoin ts).
    { unfold pairs. clear -Hsh. induction Hsh as [|t x ts xs Hx _ IH]; [done|]. simpl. rewrite fmap_app, IH. f_equal. rewrite fst_zip; [done|]. by rewrite Hx, fmap_length. }
    assert (Hp2 : Forall (fun p => p.2 = d p.1) pairs).
    { unfold pairs. clear -Hsh. induction Hsh as [|t x ts xs Hx _ IH]; [constructor|]. simpl. apply Forall_app. split; [|done]. rewrite Hx. clear. induction t; simpl; [constructor|]. by constructor. }
    set (sizes := setall [] pairs).
    assert (Hk : sizes.*1 = firsts (mjoin ts)) by (unfold sizes; by rewrite sizes_keys, Hp1).
    assert (Hg : forall k, k ∈ mjoin ts -> of_opt KeyError (dict_get k sizes) = Ok (d k)).
    { intros k H. unfold sizes. rewrite (sizes_get d) by done. rewrite decide_True; [done|by rewrite Hp1]. }
    rewrite (mapM_fmap _ d out) by (intros k H; apply Hg; apply Hout; exact H). cbn [mbind res_bind]. rewrite Hk. fold (inner_of ts out). set (inner := inner_of ts out).
    assert (Hin : forall k, k ∈ inner <-> k ∈ mjoin ts /\ k ∉ out).
    { intros k. unfold inner, inner_of. rewrite elem_of_list_filter, elem_firsts. tauto. }
    assert (Hndi : NoDup inner) by (apply NoDup_filter, NoDup_firsts).
    rewrite (mapM_fmap _ d) by (intros k H; apply Hg; by apply Hin in H as [? _]). cbn [mbind res_bind].
    change (setall [] pairs) with sizes. unfold object_result. rewrite !ndindex_lex. f_equal. apply mapM_res_ext. intros cs Hcs.
    apply lex_range in Hcs. pose proof (Forall2_length _ _ _ Hcs) as Hlc. rewrite fmap_length in Hlc.
    { rewrite (mapM_fmap _ (fun ks => product mul none (assigned (env_of out cs) inner ks) (zip ts arrays))).
      - cbn [mbind res_bind]. done.
      - intros ks Hks. apply lex_range in Hks. pose proof (Forall2_length _ _ _ Hks) as Hlk. rewrite fmap_length in Hlk.
        set (e := assigned (env_of out cs) inner ks).
        assert (Hcoord : forall k, k ∈ mjoin ts -> dict_get k (setall (setall [] (zip out cs)) (zip inner ks)) = Some (e k) /\ e k < d k).
        { intros k Hkt. rewrite (coord_get (env_of out cs)) by done. destruct (decide (k ∈ inner)) as [Hki|Hki].
          - split; [done|]. unfold e. clear -Hki Hndi Hks. revert ks Hks. induction inner as [|x l IH]; intros ks Hks; [by apply elem_of_nil in Hki|].
            inversion Hks as [|y ? ks' ? Hy Hks']; subst. apply NoDup_cons in Hndi as [Hx Hndi]. simpl. destruct (decide (k = x)) as [->|Hne]; [by rewrite upd_eq|]. rewrite upd_ne by done.
            apply IH; [done| |done]. apply elem_of_cons in Hki as [?|?]; done.
          - assert (Hko : k ∈ out). { destruct (decide (k ∈ out)) as [?|Hno]; [done|]. destruct Hki. by apply Hin. }
            rewrite (coord_get (fun _ => 0)) by done. rewrite decide_True by done. unfold e. rewrite (assigned_ne (env_of out cs)) by done; rewrite assigned_env by done. split; [done|]. by apply env_of_range. }
        rewrite (mapM_fmap _ (fun p => get p.1 (e <$> p.2))).
        + cbn [mbind res_bind]. rewrite (reduce_total mul).
          * unfold product. do 2 f_equal. clearbody e; clear -Hsh. induction Hsh as [|t x ts xs _ _ IH]; [done|]. simpl. f_equal. apply IH.
          * intros E%fmap_nil_inv. inversion Hsh; subst; done.
        + intros [x t] Hxt. cbn [fst snd].
          assert (Ht : shape x = d <$> t /\ forall k, k ∈ t -> k ∈ mjoin ts).
          { apply elem_of_list_lookup in Hxt as [i Hi]. apply lookup_zip_with_Some in Hi as (x' & t' & [= <- <-] & Hx & Ht).
            split; [exact (proj2 (Forall2_lookup _ _ _) Hsh i) || idtac|]; [|intros k Hkt; apply elem_of_list_join; exists t; split; [done|by eapply elem_of_list_lookup_2]].
            pose proof (Forall2_lookup_lr _ _ _ i _ _ Hsh Ht Hx) as H. exact H. }
          destruct Ht as [Hx Ht]. rewrite (mapM_fmap _ e).
          * cbn [mbind res_bind]. unfold item. assert (Hr : in_rangeb (e <$> t) (shape x) = true); [|by rewrite Hr]. apply in_rangeb_ok. rewrite Hx. unfold in_range.
            apply Forall2_fmap, Forall_Forall2_diag, Forall_forall. intros k Hkt. by apply Hcoord, Ht.
          * intros k Hkt. destruct (Hcoord k (Ht k Hkt)) as [-> _]. done. }
  Qed.
  Lemma object_ok (d : N -> nat) (ts : list str) (out : str) (arrays : list tens) :
    ts <> [] -> Forall (Forall plain) ts -> Forall plain out -> NoDup out -> (forall c, c ∈ out -> c ∈ mjoin ts) ->
    Forall2 (fun t x => shape x = d <$> t) ts arrays ->
    (forall k, k ∈ inner_of ts out -> d k <> 0) \/ (exists k, k ∈ out /\ d k = 0) ->
    exists T, object_einsum add mul none (equation ts out) arrays = Ok T /\ shape T = d <$> out /\
      forall cs, in_range cs (d <$> out) -> get T cs = object_entry add mul none d (zip ts arrays) out cs.
  Proof.
    intros Hne Hpl Hplo Hnd Hout Hsh Hz. rewrite (object_unfold d) by done.
    assert (Hfst : (zip ts arrays).*1 = ts) by (apply fst_zip; rewrite (Forall2_length _ _ _ Hsh); lia).
    rewrite (mapM_fmap _ (object_entry add mul none d (zip ts arrays) out)).
    - cbn [mbind res_bind]. eexists. split; [done|]. split; [done|]. intros cs Hcs. unfold object_result. cbn [get]. rewrite ndindex_lex.
      destruct (find_fmap (object_entry add mul none d (zip ts arrays) out) (lexicographic (d <$> out)) cs) as [i ->]; [by apply lex_range|]. done.
    - intros cs Hcs%lex_range. unfold object_entry. rewrite Hfst. apply reduce_total. intros E%fmap_nil_inv. destruct Hz as [Hz|(k & Hko & Hk0)].
      + assert (Hr : in_range ((fun _ => 0) <$> inner_of ts out) (d <$> inner_of ts out)).
        { unfold in_range. apply Forall2_fmap. apply Forall_Forall2_diag. apply Forall_forall. intros k H. apply Hz in H. lia. }
        apply lex_range in Hr. rewrite E in Hr. by apply elem_of_nil in Hr.
      + apply elem_of_list_lookup in Hko as [i Hi]. destruct (Forall2_lookup_r _ _ _ i (d k) Hcs) as (c & _ & Hc); [rewrite list_lookup_fmap, Hi; done|]. lia.
  Qed.
  (** A sum over no elements fails. *)
  Lemma object_empty (d : N -> nat) (ts : list str) (out : str) (arrays : list tens) k :
    ts <> [] -> Forall (Forall plain) ts -> Forall plain out -> NoDup out -> (forall c, c ∈ out -> c ∈ mjoin ts) ->
    Forall2 (fun t x => shape x = d <$> t) ts arrays ->
    k ∈ mjoin ts -> k ∉ out -> d k = 0 -> (forall c, c ∈ out -> d c <> 0) ->
    object_einsum add mul none (equation ts out) arrays = Err TypeError.
  Proof.
    intros Hne Hpl Hplo Hnd Hout Hsh Hk Hko Hk0 Hz. rewrite (object_unfold d) by done.
    assert (E : lexicographic (d <$> inner_of ts out) = []).
    { destruct (lexicographic (d <$> inner_of ts out)) as [|ks l] eqn:E; [done|]. exfalso. assert (Hks : ks ∈ lexicographic (d <$> inner_of ts out)) by (rewrite E; left).
      apply lex_range in Hks. assert (Hi : k ∈ inner_of ts out) by (apply elem_of_list_filter; split; [done|by apply elem_firsts]).
      apply elem_of_list_lookup in Hi as [i Hi]. destruct (Forall2_lookup_r _ _ _ i (d k) Hks) as (c & _ & Hc); [rewrite list_lookup_fmap, Hi; done|]. lia. }
    rewrite E. assert (Hr : in_range ((fun _ => 0) <$> out) (d <$> out)).
    { unfold in_range. apply Forall2_fmap. apply Forall_Forall2_diag. apply Forall_forall. intros c H. apply Hz in H. lia. }
    apply lex_range in Hr. destruct (lexicographic (d <$> out)); [by apply elem_of_nil in Hr|]. done.
  Qed.
End Facts.

(** ** Over a semiring the folds are the sums and products of [einsum] *)
Section Semi.
  Context {K : semiring}.
  Notation tens := (tensor K).
  Add Ring Kring : (@slaws K).
  Notation "x +' y" := (sadd x y) (at level 50, left associativity).
  Notation "x *' y" := (smul x y) (at level 40, left associativity).
  Lemma total_sum n (l : list K) : l <> [] -> total_of sadd n l = foldr sadd szero l.
  Proof.
    destruct l as [|x l]; [done|]. intros _. cbn [total_of foldr]. revert x. induction l as [|y l IH]; intros x; cbn [foldl foldr]; [ring|]. rewrite IH. ring.
  Qed.
  Lemma total_prod n (l : list K) : l <> [] -> total_of smul n l = prodl l.
  Proof.
    unfold prodl. destruct l as [|x l]; [done|]. intros _. cbn [total_of foldr]. revert x. induction l as [|y l IH]; intros x; cbn [foldl foldr]; [ring|]. rewrite IH. ring.
  Qed.
  Lemma foldr_app_sum (l1 l2 : list K) : foldr sadd szero (l1 ++ l2) = foldr sadd szero l1 +' foldr sadd szero l2.
  Proof. induction l1 as [|x l IH]; cbn [app foldr]; [ring|]. rewrite IH. ring. Qed.
  Lemma sum_multi_lex dims (f : list nat -> K) : sum_multi dims f = foldr sadd szero (f <$> lexicographic dims).
  Proof.
    revert f. induction dims as [|d ds IH]; intros f; cbn [sum_multi lexicographic]; [cbn; ring|]. unfold sumn.
    induction (seq 0 d) as [|i l IHl]; [done|]. cbn [fmap list_fmap foldr]. rewrite IH, IHl. rewrite bind_cons, fmap_app, foldr_app_sum. f_equal.
    by rewrite <- list_fmap_compose.
  Qed.
  Lemma assigned_upds (e : N -> nat) ls ks l : NoDup ls -> assigned e ls ks l = upds e ls ks l.
  Proof.
    intros Hnd. revert e ks. induction Hnd as [|x ls Hx Hnd IH]; intros e [|k ks]; try done. cbn [assigned upds]. rewrite <- IH. unfold upd at 1.
    destruct (decide (l = x)) as [->|Hne]; [rewrite assigned_ne by done; by rewrite upd_eq|].
    clear -Hne. revert ks. induction ls as [|y ls IH]; intros [|k' ks]; cbn [assigned]; try (by rewrite upd_ne). unfold upd at 1 2. case_decide; [done|]. apply IH.
  Qed.
  Lemma object_facts (d : N -> nat) (ts : list str) (arrays : list tens) : Forall2 (fun t x => shape x = d <$> t) ts arrays ->
    let tops := zip ts arrays in
    tops.*1 = ts /\ (forall p, p ∈ tops -> shape p.2 = d <$> p.1) /\ (forall l, l ∈ labels_of tops <-> l ∈ mjoin ts) /\ (forall l, l ∈ mjoin ts -> dim tops l = d l).
  Proof.
    intros Hsh tops.
    assert (Hfst : tops.*1 = ts) by (apply fst_zip; rewrite (Forall2_length _ _ _ Hsh); lia).
    assert (Hax : forall p, p ∈ tops -> shape p.2 = d <$> p.1).
    { intros [t x] Hp. apply elem_of_list_lookup in Hp as [i Hi]. apply lookup_zip_with_Some in Hi as (t' & x' & [= <- <-] & Ht & Hx). exact (Forall2_lookup_lr _ _ _ i _ _ Hsh Ht Hx). }
    assert (Hlab : forall l, l ∈ labels_of tops <-> l ∈ mjoin ts).
    { intros l. rewrite <- Hfst, elem_of_labels, elem_of_list_join. split.
      - intros (p & Hp & Hl). exists p.1. split; [done|]. by apply elem_of_list_fmap_1.
      - intros (t & Ht & (p & -> & Hp)%elem_of_list_fmap). eauto. }
    assert (Hdim : forall l, l ∈ mjoin ts -> dim tops l = d l).
    { intros l Hl. apply dim_unique.
      - intros d' (p & i & Hp & H1 & H2)%elem_of_axes. right. rewrite (Hax p Hp), list_lookup_fmap, H1 in H2. by injection H2 as <-.
      - right. apply Hlab, elem_of_labels in Hl as (p & Hp & [i Hi]%elem_of_list_lookup). apply elem_of_axes. exists p, i. split_and!; [done..|]. by rewrite (Hax p Hp), list_lookup_fmap, Hi. }
    done.
  Qed.
  Lemma einsum_object_shape (d : N -> nat) (ts : list str) (out : str) (arrays : list tens) :
    (forall c, c ∈ out -> c ∈ mjoin ts) -> Forall2 (fun t x => shape x = d <$> t) ts arrays -> shape (einsum (zip ts arrays) out) = d <$> out.
  Proof.
    intros Hout Hsh. destruct (object_facts d ts arrays Hsh) as (_ & _ & _ & Hdim). cbn. apply list_fmap_ext. intros i l Hi. apply Hdim, Hout. by eapply elem_of_list_lookup_2.
  Qed.
  Lemma object_entry_einsum none (d : N -> nat) (ts : list str) (out : str) (arrays : list tens) cs :
    ts <> [] -> (forall c, c ∈ out -> c ∈ mjoin ts) -> Forall2 (fun t x => shape x = d <$> t) ts arrays ->
    (forall k, k ∈ inner_of ts out -> d k <> 0) -> in_range cs (d <$> out) ->
    object_entry sadd smul none d (zip ts arrays) out cs = get (einsum (zip ts arrays) out) cs.
  Proof.
    intros Hne Hout Hsh Hz Hcs. set (tops := zip ts arrays).
    destruct (object_facts d ts arrays Hsh) as (Hfst & Hax & Hlab & Hdim). fold tops in Hfst, Hax, Hlab, Hdim.
    unfold object_entry. rewrite Hfst. set (inner := inner_of ts out). cbn [get einsum]. unfold esum.
    assert (Hndi : NoDup inner) by (apply NoDup_filter, NoDup_firsts).
    rewrite (sum_labels_perm (dim tops) (summed tops out) inner _ _ _ (prod_dep tops) (NoDup_summed _ _)).
    2: { apply NoDup_Permutation; [apply NoDup_summed|done|]. intros l. rewrite elem_of_summed. unfold inner, inner_of. rewrite elem_of_list_filter, elem_firsts, Hlab. tauto. }
    rewrite sum_labels_multi, sum_multi_lex.
    assert (Hdi : dim tops <$> inner = d <$> inner).
    { apply list_fmap_ext. intros i l Hi. apply Hdim. apply elem_of_list_lookup_2 in Hi. unfold inner, inner_of in Hi. apply elem_of_list_filter in Hi as [_ Hi]. exact (proj1 (elem_firsts _ _) Hi). }
    rewrite Hdi. rewrite total_sum.
    - f_equal. apply list_fmap_ext. intros i ks Hks%elem_of_list_lookup_2%lex_range. unfold product. rewrite total_prod.
      2: { intros E%fmap_nil_inv. destruct ts as [|t ts]; [done|]. apply (f_equal (fmap fst)) in E. rewrite Hfst in E. done. }
      f_equal. apply list_fmap_ext. intros j p Hp%elem_of_list_lookup_2. unfold term. f_equal. unfold coords. rewrite (Hax p Hp).
      assert (Hr : forall l, l ∈ p.1 -> assigned (env_of out cs) inner ks l < d l).
      { intros l Hl. assert (Hlm : l ∈ mjoin ts) by (apply Hlab, elem_of_labels; eauto). destruct (decide (l ∈ inner)) as [Hi|Hi].
        - apply elem_of_list_lookup in Hi as [m Hm]. rewrite assigned_upds by done. destruct (Forall2_lookup_r _ _ _ m (d l) Hks) as (k & Hk & Hlt); [by rewrite list_lookup_fmap, Hm|].
          by rewrite (upds_lookup _ inner ks l m k).
        - rewrite assigned_ne by done. apply env_of_range; [done|]. destruct (decide (l ∈ out)) as [?|Hno]; [done|]. destruct Hi. unfold inner, inner_of. apply elem_of_list_filter. split; [done|by apply elem_firsts]. }
      assert (Hext : forall l, assigned (env_of out cs) inner ks l = upds (env_of out cs) inner ks l) by (intros; by apply assigned_upds).
      clear -Hr Hext. induction p.1 as [|l t IH]; [done|]. cbn [fmap list_fmap zip_with]. f_equal.
      + rewrite <- Hext. specialize (Hr l ltac:(left)). case_decide; [lia|done].
      + apply IH. intros l' Hl'. apply Hr. by right.
    - intros E%fmap_nil_inv.
      assert (Hr : in_range ((fun _ => 0) <$> inner) (d <$> inner)).
      { unfold in_range. apply Forall2_fmap. apply Forall_Forall2_diag. apply Forall_forall. intros k H. apply Hz in H. lia. }
      apply lex_range in Hr. rewrite E in Hr. by apply elem_of_nil in Hr.
  Qed.
End Semi.
