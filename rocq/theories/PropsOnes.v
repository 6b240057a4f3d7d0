(** Property C83: operands that change nothing; statements, each with a concrete instance. *)
From Verif Require Import Prelude Einsum EinsumFacts EinsumOps Parser Helpers Contract Spec PathSpec StringFacts SymbolFacts StepFacts ContractFacts PathFacts ParserFacts ParseSpec ParseProof ParseSound TopFacts ContractMain RefBackend PropsContract PropsCompose.

(** All entries are one. *)
Definition all_ones {K : semiring} (o : tensor K) : Prop := forall cs, in_range cs (shape o) -> get o cs = sone.
(** A square array with ones where the two coordinates agree and zeros elsewhere. *)
Definition identity {K : semiring} (n : nat) (o : tensor K) : Prop :=
  shape o = [n; n] /\ forall i j, i < n -> j < n -> get o [i; j] = if decide (i = j) then sone else szero.

Section Ones.
  Context {K : semiring} {L : Type} `{EqDecision L}.
  Notation tens := (tensor K).
  Notation operand := (list L * tens)%type.
  Add Ring K_ring : (slaws K).
  Implicit Types (tops rest : list operand) (o : tens) (t out : list L).

  Lemma sumn_pick n (f : nat -> K) k : k < n -> sumn n (fun v => smul (if decide (v = k) then sone else szero) (f v)) = f k.
  Proof.
    revert k. induction n as [|n IH]; intros k Hk; [lia|]. rewrite sumn_S. destruct (decide (n = k)) as [->|Hne].
    - rewrite (sumn_ext k _ (fun _ => szero)), sumn_zero; [ring|]. intros v Hv. rewrite decide_False by lia. ring.
    - rewrite IH by lia. ring.
  Qed.
  Lemma prod_cons e (p : operand) tops : prodl (term e <$> (p :: tops)) = smul (term e p) (prodl (term e <$> tops)).
  Proof. done. Qed.
  Lemma ones_dim tops t o : compat ((t, o) :: tops) -> (forall l d, (l, d) ∈ zip t (shape o) -> d = 1 \/ d = dim tops l) -> forall l, dim ((t, o) :: tops) l = dim tops l.
  Proof.
    intros Hc Ho l. assert (Hc' : compat tops) by (eapply compat_ext; [|exact Hc]; intros a d Ha; unfold axes_of; rewrite bind_cons; apply elem_of_app; by right).
    destruct (dim_char tops l Hc') as [H1 H2]. apply dim_unique.
    - intros d. unfold axes_of. rewrite bind_cons, elem_of_app. cbn [fst snd]. intros [Hd|Hd]; [by apply Ho|by apply H1].
    - destruct H2 as [H2|H2]; [by left|right]. unfold axes_of. rewrite bind_cons. apply elem_of_app. by right.
  Qed.
  Lemma ones_einsum tops t o out : ranked ((t, o) :: tops) -> compat ((t, o) :: tops) -> NoDup out -> (forall l, l ∈ out -> l ∈ labels_of tops) ->
    (forall l, l ∈ t -> l ∈ labels_of tops) -> (forall l d, (l, d) ∈ zip t (shape o) -> d = 1 \/ d = dim tops l) -> all_ones o ->
    einsum ((t, o) :: tops) out ≡ₜ einsum tops out.
  Proof.
    intros Hr Hc Hnd Hout Ht Ho H1. pose proof (ones_dim tops t o Hc Ho) as Hd. split.
    - cbn [shape einsum]. apply list_fmap_ext. intros. by rewrite Hd.
    - intros cs Hcs. cbn [shape einsum] in Hcs. cbn [get einsum]. unfold esum.
      rewrite (sum_labels_perm _ _ (summed tops out) _ _ _ (prod_dep ((t, o) :: tops))); [|apply NoDup_summed|].
      2: { apply NoDup_Permutation; try apply NoDup_summed. intros l. rewrite !elem_of_summed. unfold labels_of at 1. rewrite bind_cons, elem_of_app. cbn [fst]. fold (labels_of tops). naive_solver. }
      apply sum_labels_ext; [intros; apply Hd|]. intros e' Hno Hin. rewrite prod_cons. unfold term at 1. cbn [fst snd]. rewrite H1; [ring|].
      apply (coords_in_range ((t, o) :: tops) e' (t, o) Hr Hc); [by left|]. intros l Hl. cbn [fst] in Hl.
      destruct (decide (l ∈ summed tops out)) as [Hs|Hs]; [by apply Hin|]. rewrite Hno by done.
      assert (Hlo : l ∈ out). { destruct (decide (l ∈ out)); [done|]. destruct Hs. apply elem_of_summed. split; [by apply Ht|done]. }
      by apply env_of_range.
  Qed.
  Lemma fresh_einsum tops l o n out : ranked (([l], o) :: tops) -> compat (([l], o) :: tops) -> NoDup out -> (forall a, a ∈ out -> a ∈ labels_of tops) ->
    l ∉ labels_of tops -> shape o = [n] -> all_ones o ->
    shape (einsum (([l], o) :: tops) out) = shape (einsum tops out) /\
    forall cs, in_range cs (dim tops <$> out) -> get (einsum (([l], o) :: tops) out) cs = sumn n (fun _ => get (einsum tops out) cs).
  Proof.
    intros Hr Hc Hnd Hout Hl Hsh H1. assert (Hlo : l ∉ out) by (intros ?; by apply Hl, Hout).
    assert (Hax : forall a d, (a, d) ∈ axes_of (([l], o) :: tops) <-> (a = l /\ d = n) \/ (a, d) ∈ axes_of tops).
    { intros a d. unfold axes_of. rewrite bind_cons, elem_of_app. cbn [fst snd]. rewrite Hsh. cbn [zip zip_with]. rewrite elem_of_list_singleton. split; (intros [Hx|?]; [left|by right]); [by injection Hx as -> ->|by destruct Hx as [-> ->]]. }
    assert (Hd : forall a, a ∈ labels_of tops -> dim (([l], o) :: tops) a = dim tops a).
    { intros a Ha. assert (Hc' : compat tops) by (eapply compat_ext; [|exact Hc]; intros b d Hb; apply Hax; by right). apply dim_ext; [done|]. intros d. rewrite Hax. split; [by right|]. intros [[-> _]|?]; done. }
    assert (Hdl : dim (([l], o) :: tops) l = n).
    { apply dim_unique; [|right; apply Hax; by left]. intros d Hx. apply Hax in Hx as [[_ ->]|Hx]; [by right|]. exfalso. apply Hl. by eapply axes_labels. }
    split; [cbn [shape einsum]; apply list_fmap_ext; intros i a Ha%elem_of_list_lookup_2; by apply Hd, Hout|].
    intros cs Hcs. cbn [get einsum]. unfold esum.
    rewrite (sum_labels_perm _ _ (l :: summed tops out) _ _ _ (prod_dep (([l], o) :: tops))); [|apply NoDup_summed|].
    2: { apply NoDup_Permutation; [apply NoDup_summed|constructor; [rewrite elem_of_summed; tauto|apply NoDup_summed]|]. intros a. rewrite elem_of_cons, !elem_of_summed. unfold labels_of at 1.
         rewrite bind_cons, elem_of_app. cbn [fst]. fold (labels_of tops). rewrite elem_of_list_singleton. destruct (decide (a = l)) as [->|]; naive_solver. }
    cbn [sum_labels]. rewrite Hdl. apply sumn_ext. intros v Hv.
    transitivity (sum_labels (dim tops) (summed tops out) (fun e' => prodl (term e' <$> tops)) (upd (env_of out cs) l v)).
    - apply sum_labels_ext; [intros a [Ha _]%elem_of_summed; by apply Hd|]. intros e' Hno Hin. rewrite prod_cons. unfold term at 1. cbn [fst snd]. rewrite H1; [ring|].
      apply (coords_in_range (([l], o) :: tops) e' ([l], o) Hr Hc); [by left|]. intros a ->%elem_of_list_singleton. rewrite Hdl, Hno by (rewrite elem_of_summed; tauto). by rewrite upd_eq.
    - eapply (sum_labels_dep _ _ _ _ (prod_dep tops)). intros a [Ha _]. apply upd_ne. intros ->. done.
  Qed.

  (** Renaming [l] to [m] on one operand. *)
  Definition renamed (l m : L) (t : list L) : list L := (fun a => if decide (a = l) then m else a) <$> t.
  Lemma renamed_elem l m t a : l <> m -> m ∉ t -> a ∈ renamed l m t <-> (a = m /\ l ∈ t) \/ (a <> l /\ a ∈ t).
  Proof.
    intros Hlm Hm. unfold renamed. rewrite elem_of_list_fmap. split.
    - intros (b & -> & Hb). case_decide as Hd; [left; by subst|by right].
    - intros [[-> Hl]|[Hne Ha]]; [exists l; by rewrite decide_True|exists a; by rewrite decide_False].
  Qed.
  Lemma renamed_axes (l m : L) t (sh : list nat) a d : m ∉ t -> (a, d) ∈ zip (renamed l m t) sh <-> (a = m /\ (l, d) ∈ zip t sh) \/ (a <> l /\ (a, d) ∈ zip t sh).
  Proof.
    intros Hm. revert sh. induction t as [|b t IH]; intros sh; [cbn; setoid_rewrite elem_of_nil; tauto|]. apply not_elem_of_cons in Hm as [Hmb Hm].
    destruct sh as [|c sh]; [cbn; setoid_rewrite elem_of_nil; tauto|]. unfold renamed. cbn [fmap list_fmap zip zip_with]. fold (renamed l m t). rewrite !elem_of_cons, IH by done.
    destruct (decide (b = l)) as [->|Hb]; split; intros H; naive_solver.
  Qed.
  Lemma renamed_coords (l m : L) t (sh : list nat) e : m ∉ t -> coords (renamed l m t) sh (upd e m (e l)) = coords t sh e.
  Proof.
    intros Hm. unfold coords. revert sh. induction t as [|b t IH]; intros [|c sh]; [done..|]. apply not_elem_of_cons in Hm as [Hmb Hm]. unfold renamed. cbn [fmap list_fmap zip_with]. fold (renamed l m t).
    rewrite IH by done. f_equal. destruct (decide (b = l)) as [->|Hb]; [by rewrite upd_eq|]. by rewrite upd_ne.
  Qed.
  Lemma identity_einsum rest t x l m o out : let tops := (t, x) :: rest in let tops' := ([l; m], o) :: (renamed l m t, x) :: rest in
    ranked tops' -> compat tops -> (forall a, a ∈ out -> a ∈ labels_of tops) -> l ∈ t -> m ∉ labels_of tops -> identity (dim tops l) o ->
    einsum tops' out ≡ₜ einsum tops out.
  Proof.
    intros tops tops' Hr Hc Hout Hl Hm [Hsh Hid]. set (n := dim tops l) in *.
    assert (Hlt : l ∈ labels_of tops) by (unfold labels_of, tops; rewrite bind_cons; apply elem_of_app; by left).
    assert (Hlm : l <> m) by (intros ->; done). assert (Hmo : m ∉ out) by (intros ?; by apply Hm, Hout).
    assert (Hmt : m ∉ t) by (intros ?; apply Hm; unfold labels_of, tops; rewrite bind_cons; apply elem_of_app; by left).
    assert (Hmr : m ∉ labels_of rest) by (intros ?; apply Hm; unfold labels_of, tops; rewrite bind_cons; apply elem_of_app; by right).
    assert (Hax : forall a d, (a, d) ∈ axes_of tops' <-> (a = l /\ d = n) \/ (a = m /\ d = n) \/ (a = m /\ (l, d) ∈ zip t (shape x)) \/ (a <> l /\ (a, d) ∈ zip t (shape x)) \/ (a, d) ∈ axes_of rest).
    { intros a d. unfold axes_of, tops'. rewrite !bind_cons, !elem_of_app. cbn [fst snd]. rewrite Hsh. cbn [zip zip_with]. rewrite renamed_axes by done. rewrite !elem_of_cons, elem_of_nil. naive_solver. }
    assert (Hax0 : forall a d, (a, d) ∈ axes_of tops <-> (a, d) ∈ zip t (shape x) \/ (a, d) ∈ axes_of rest) by (intros; unfold axes_of, tops; by rewrite bind_cons, elem_of_app).
    destruct (dim_char tops l Hc) as [Hd1 Hd2]. fold n in Hd1, Hd2.
    assert (Hdm : dim tops' m = n).
    { apply dim_unique; [|right; apply Hax; tauto]. intros d [[? _]|[[_ ->]|[[_ H]|[[_ H]|H]]]]%Hax; [done|by right|apply Hd1, Hax0; by left| |].
      - exfalso. apply Hm. eapply axes_labels. apply Hax0. by left.
      - exfalso. apply Hm. eapply axes_labels. apply Hax0. by right. }
    assert (Hdo : forall a, a <> m -> dim tops' a = dim tops a).
    { intros a Ha. destruct (decide (a = l)) as [->|Hal].
      - apply dim_unique; [|right; apply Hax; tauto]. fold n. intros d [[_ ->]|[[? _]|[[? _]|[[? _]|H]]]]%Hax; [by right|done..|]. apply Hd1, Hax0. by right.
      - apply dim_ext; [done|]. intros d. rewrite Hax, Hax0. naive_solver. }
    assert (Hlab : forall a, a ∈ labels_of tops' <-> a = m \/ a ∈ labels_of tops).
    { intros a. assert (Hlt' := Hlt). revert Hlt'. unfold labels_of, tops', tops. rewrite !bind_cons, !elem_of_app. cbn [fst]. rewrite renamed_elem by done. rewrite !elem_of_cons, elem_of_nil. destruct (decide (a = l)) as [->|]; naive_solver. }
    split; [cbn [shape einsum]; apply list_fmap_ext; intros i a Ha%elem_of_list_lookup_2; apply Hdo; by intros ->|].
    intros cs Hcs. cbn [shape einsum] in Hcs. cbn [get einsum]. unfold esum.
    rewrite (sum_labels_perm _ _ (summed tops out ++ [m]) _ _ _ (prod_dep tops')); [|apply NoDup_summed|].
    2: { apply NoDup_Permutation; [apply NoDup_summed| |].
         - apply NoDup_app. split; [apply NoDup_summed|]. split; [|apply NoDup_singleton]. intros a [Ha _]%elem_of_summed ->%elem_of_list_singleton. done.
         - intros a. rewrite elem_of_app, elem_of_list_singleton, !elem_of_summed, Hlab. destruct (decide (a = m)) as [->|]; naive_solver. }
    rewrite sum_labels_app. apply sum_labels_ext; [intros a [Ha _]%elem_of_summed; apply Hdo; by intros ->|]. intros e' Hno Hin.
    assert (Hel : e' l < n).
    { rewrite <-(Hdo l Hlm : _ = n). destruct (decide (l ∈ summed tops out)) as [Hs|Hs]; [by apply Hin|]. rewrite Hno by done. assert (Hlo : l ∈ out).
      { destruct (decide (l ∈ out)); [done|]. destruct Hs. by apply elem_of_summed. } by apply (env_of_range _ _ (dim tops')). }
    cbn [sum_labels]. rewrite Hdm. transitivity (prodl (term (upd e' m (e' l)) <$> (renamed l m t, x) :: rest)).
    - rewrite <-(sumn_pick n (fun v => prodl (term (upd e' m v) <$> (renamed l m t, x) :: rest)) (e' l) Hel). apply sumn_ext. intros v Hv. unfold tops'. rewrite prod_cons. f_equal. unfold term. cbn [fst snd]. rewrite Hsh.
      assert (Hcv : coords [l; m] [n; n] (upd e' m v) = [e' l; v]).
      { unfold coords. cbn [zip_with]. rewrite upd_eq, upd_ne by done. destruct (decide (n = 1)) as [H1|H1]; [|done]. f_equal; [lia|f_equal; lia]. }
      rewrite Hcv, Hid by done. destruct (decide (e' l = v)) as [<-|Hne]; [by rewrite decide_True|by rewrite decide_False].
    - unfold tops. rewrite !prod_cons. f_equal; [unfold term; cbn [fst snd]; by rewrite renamed_coords|]. apply (prod_dep rest). intros a Ha. apply upd_ne. by intros ->.
  Qed.
End Ones.

Lemma out_known {K : semiring} (e : eqn) (ops : list (tensor K)) l : well_formed e (shape <$> ops) -> l ∈ out_labels e (shape <$> ops) -> l ∈ labels_of (zip (in_labels e (shape <$> ops)) ops).
Proof.
  intros Hwf Hl. destruct (wf_known _ _ Hwf l Hl) as (t & Ht & Hlt). apply elem_zip_labels; [|eauto].
  pose proof (wf_count _ _ Hwf) as Hc. unfold in_labels. rewrite zip_with_length, fmap_length. rewrite fmap_length in Hc. lia.
Qed.

(** C83.  One more operand with all entries one, on labels that are there already, changes nothing. *)
Theorem C83_ones (K : semiring) (B B' : backend K) (ord ord' : gset N -> list N) (e e' : eqn) (s s' : str) (ops ops' : list (tensor K)) (t : list elabel) (o : tensor K) (ub ub' : bool) (opt opt' : optimize_arg) (mem mem' : memory_arg) :
  backend_ok B -> b_has_einsum B = true -> (forall x, ord x ≡ₚ elements x) -> backend_ok B' -> b_has_einsum B' = true -> (forall x, ord' x ≡ₚ elements x) ->
  e_in e <> [] -> plain_eqn e -> filter (.≠ c_space) s = render e -> well_formed e (shape <$> ops) -> e_in e' <> [] -> plain_eqn e' -> filter (.≠ c_space) s' = render e' -> well_formed e' (shape <$> ops') ->
  let tops := zip (in_labels e (shape <$> ops)) ops in let tops' := zip (in_labels e' (shape <$> ops')) ops' in
  good tops -> good tops' -> length (remove_dups (labels_of tops)) <= 52 -> length (remove_dups (labels_of tops')) <= 52 -> out_labels e' (shape <$> ops') = out_labels e (shape <$> ops) ->
  tops' ≡ₚ (t, o) :: tops -> (forall l, l ∈ t -> l ∈ labels_of tops) -> (forall l d, (l, d) ∈ zip t (shape o) -> d = 1 \/ d = dim tops l) -> all_ones o ->
  mem_valid mem -> strategy_ok opt (length ops) -> mem_valid mem' -> strategy_ok opt' (length ops') ->
  exists T T', contract ord B ub opt mem s ops = Ok T /\ contract ord' B' ub' opt' mem' s' ops' = Ok T' /\ T' ≡ₜ T.
Proof.
  intros HB He Ho HB' He' Ho' Hne Hpl Hs Hwf Hne' Hpl' Hs' Hwf' tops tops' Hg Hg' Hsz Hsz' Hout Hp Ht Hd H1 Hm Hst Hm' Hst'.
  destruct (contract_ok ord Ho B HB e s ops Hne Hpl Hs Hwf ub opt mem Hg Hm Hst He Hsz) as (T & HT & ET).
  destruct (contract_ok ord' Ho' B' HB' e' s' ops' Hne' Hpl' Hs' Hwf' ub' opt' mem' Hg' Hm' Hst' He' Hsz') as (T' & HT' & ET'). fold tops in ET. fold tops' in ET'.
  exists T, T'. split; [done|]. split; [done|]. rewrite ET', ET, Hout. destruct Hg' as [Hr' Hc' _ _]. rewrite (einsum_perm _ _ _ Hp Hc').
  apply ones_einsum; [by apply (ranked_perm _ _ Hp)|by apply (compat_perm _ _ Hp)|by destruct Hwf| |done..]. intros l Hl. by apply out_known.
Qed.
Print Assumptions C83_ones.

(** A vector of ones on a label of its own adds every entry to itself once per element of the vector. *)
Theorem C83_fresh (K : semiring) (B B' : backend K) (ord ord' : gset N -> list N) (e e' : eqn) (s s' : str) (ops ops' : list (tensor K)) (l : elabel) (o : tensor K) (n : nat) (ub ub' : bool) (opt opt' : optimize_arg) (mem mem' : memory_arg) :
  backend_ok B -> b_has_einsum B = true -> (forall x, ord x ≡ₚ elements x) -> backend_ok B' -> b_has_einsum B' = true -> (forall x, ord' x ≡ₚ elements x) ->
  e_in e <> [] -> plain_eqn e -> filter (.≠ c_space) s = render e -> well_formed e (shape <$> ops) -> e_in e' <> [] -> plain_eqn e' -> filter (.≠ c_space) s' = render e' -> well_formed e' (shape <$> ops') ->
  let tops := zip (in_labels e (shape <$> ops)) ops in let tops' := zip (in_labels e' (shape <$> ops')) ops' in
  good tops -> good tops' -> length (remove_dups (labels_of tops)) <= 52 -> length (remove_dups (labels_of tops')) <= 52 -> out_labels e' (shape <$> ops') = out_labels e (shape <$> ops) ->
  tops' ≡ₚ ([l], o) :: tops -> l ∉ labels_of tops -> shape o = [n] -> all_ones o ->
  mem_valid mem -> strategy_ok opt (length ops) -> mem_valid mem' -> strategy_ok opt' (length ops') ->
  exists T T', contract ord B ub opt mem s ops = Ok T /\ contract ord' B' ub' opt' mem' s' ops' = Ok T' /\ shape T' = shape T /\ forall cs, in_range cs (shape T) -> get T' cs = sumn n (fun _ => get T cs).
Proof.
  intros HB He Ho HB' He' Ho' Hne Hpl Hs Hwf Hne' Hpl' Hs' Hwf' tops tops' Hg Hg' Hsz Hsz' Hout Hp Hl Hsh H1 Hm Hst Hm' Hst'.
  destruct (contract_ok ord Ho B HB e s ops Hne Hpl Hs Hwf ub opt mem Hg Hm Hst He Hsz) as (T & HT & ET).
  destruct (contract_ok ord' Ho' B' HB' e' s' ops' Hne' Hpl' Hs' Hwf' ub' opt' mem' Hg' Hm' Hst' He' Hsz') as (T' & HT' & ET'). fold tops in ET. fold tops' in ET'.
  exists T, T'. split; [done|]. split; [done|]. rewrite Hout in ET'. destruct Hg' as [Hr' Hc' _ _]. rewrite (einsum_perm _ _ _ Hp Hc') in ET'.
  destruct (fresh_einsum tops l o n (out_labels e (shape <$> ops))) as [E1 E2]; [by apply (ranked_perm _ _ Hp)|by apply (compat_perm _ _ Hp)|by destruct Hwf|intros a Ha; by apply out_known|done..|].
  destruct ET as [Es Eg], ET' as [Es' Eg']. assert (E0 : shape T' = shape T) by by rewrite Es', E1, Es. split; [done|]. intros cs Hcs. rewrite Eg' by (by rewrite E0). rewrite E2 by (by rewrite Es in Hcs). apply sumn_ext. intros v _. symmetry. by apply Eg.
Qed.
Print Assumptions C83_fresh.

(** An identity matrix put on an edge, its other side carrying a new label, changes nothing. *)
Theorem C83_identity (K : semiring) (B B' : backend K) (ord ord' : gset N -> list N) (e e' : eqn) (s s' : str) (ops ops' : list (tensor K)) (t : list elabel) (x o : tensor K) (rest : list (list elabel * tensor K)) (l m : elabel)
    (ub ub' : bool) (opt opt' : optimize_arg) (mem mem' : memory_arg) :
  backend_ok B -> b_has_einsum B = true -> (forall x, ord x ≡ₚ elements x) -> backend_ok B' -> b_has_einsum B' = true -> (forall x, ord' x ≡ₚ elements x) ->
  e_in e <> [] -> plain_eqn e -> filter (.≠ c_space) s = render e -> well_formed e (shape <$> ops) -> e_in e' <> [] -> plain_eqn e' -> filter (.≠ c_space) s' = render e' -> well_formed e' (shape <$> ops') ->
  let tops := zip (in_labels e (shape <$> ops)) ops in let tops' := zip (in_labels e' (shape <$> ops')) ops' in
  good tops -> good tops' -> length (remove_dups (labels_of tops)) <= 52 -> length (remove_dups (labels_of tops')) <= 52 -> out_labels e' (shape <$> ops') = out_labels e (shape <$> ops) ->
  tops ≡ₚ (t, x) :: rest -> tops' ≡ₚ ([l; m], o) :: (((fun a => if decide (a = l) then m else a) <$> t), x) :: rest -> l ∈ t -> m ∉ labels_of tops -> identity (dim tops l) o ->
  mem_valid mem -> strategy_ok opt (length ops) -> mem_valid mem' -> strategy_ok opt' (length ops') ->
  exists T T', contract ord B ub opt mem s ops = Ok T /\ contract ord' B' ub' opt' mem' s' ops' = Ok T' /\ T' ≡ₜ T.
Proof.
  intros HB He Ho HB' He' Ho' Hne Hpl Hs Hwf Hne' Hpl' Hs' Hwf' tops tops' Hg Hg' Hsz Hsz' Hout Hp Hp' Hl Hm0 Hid Hm Hst Hm' Hst'.
  destruct (contract_ok ord Ho B HB e s ops Hne Hpl Hs Hwf ub opt mem Hg Hm Hst He Hsz) as (T & HT & ET).
  destruct (contract_ok ord' Ho' B' HB' e' s' ops' Hne' Hpl' Hs' Hwf' ub' opt' mem' Hg' Hm' Hst' He' Hsz') as (T' & HT' & ET'). fold tops in ET. fold tops' in ET'.
  exists T, T'. split; [done|]. split; [done|]. destruct Hg as [Hr Hc _ _], Hg' as [Hr' Hc' _ _]. rewrite ET', ET, Hout, (einsum_perm _ _ _ Hp' Hc'), (einsum_perm _ _ _ Hp Hc).
  assert (Hlab : forall a, a ∈ labels_of tops <-> a ∈ labels_of ((t, x) :: rest)) by (intros a; by rewrite (labels_of_perm _ _ Hp)).
  apply (identity_einsum rest t x l m o).
  - by apply (ranked_perm _ _ Hp').
  - by apply (compat_perm _ _ Hp).
  - intros a Ha. apply Hlab. by apply out_known.
  - done.
  - by rewrite <-Hlab.
  - by rewrite (dim_perm _ _ l Hp Hc).
Qed.
Print Assumptions C83_identity.

(** 'ab,bc->ac' with ones on b, on ca (with an axis of size one), on a label of its own, and with an identity on b. *)
Definition s83_x : tensor nat_semiring := arr [2; 3] (seq 1 6 : list nat_semiring).
Definition s83_y : tensor nat_semiring := arr [3; 2] (seq 1 6 : list nat_semiring).
Definition s83_ones (sh : list nat) : tensor nat_semiring := Tensor sh (fun _ => 1 : nat_semiring).
Definition s83_eye (n : nat) : tensor nat_semiring := Tensor [n; n] (fun cs => (if decide (nth 0 cs 0 = nth 1 cs 0) then 1 else 0) : nat_semiring).
Definition s83_eqn (ts : list str) (out : str) : eqn := Eqn ((fun t => ETerm t None) <$> ts) (Some (ETerm out None)).
Definition s83_tops (e : eqn) (ops : list (tensor nat_semiring)) : list (list elabel * tensor nat_semiring) := zip (in_labels e (shape <$> ops)) ops.
Example C83_hypotheses :
  let e := s83_eqn [lit "ab"; lit "bc"] (lit "ac") in let ops := [s83_x; s83_y] in
  let e1 := s83_eqn [lit "ab"; lit "ca"; lit "bc"] (lit "ac") in let ops1 := [s83_x; s83_ones [1; 2]; s83_y] in
  let e2 := s83_eqn [lit "ab"; lit "bc"; lit "d"] (lit "ac") in let ops2 := [s83_x; s83_y; s83_ones [4]] in
  let e3 := s83_eqn [lit "ab"; lit "bd"; lit "dc"] (lit "ac") in let ops3 := [s83_x; s83_eye 3; s83_y] in
  Forall (fun p => plain_eqn p.1 /\ well_formed p.1 (shape <$> p.2) /\ good (s83_tops p.1 p.2) /\ length (remove_dups (labels_of (s83_tops p.1 p.2))) <= 52 /\ out_labels p.1 (shape <$> p.2) = Named <$> lit "ac") [(e, ops); (e1, ops1); (e2, ops2); (e3, ops3)] /\
  s83_tops e1 ops1 ≡ₚ (Named <$> lit "ca", s83_ones [1; 2]) :: s83_tops e ops /\ (forall l d, (l, d) ∈ zip (Named <$> lit "ca") [1; 2] -> d = 1 \/ d = dim (s83_tops e ops) l) /\ all_ones (s83_ones [1; 2]) /\
  s83_tops e2 ops2 ≡ₚ ([Named 100%N], s83_ones [4]) :: s83_tops e ops /\
  s83_tops e ops ≡ₚ (Named <$> lit "bc", s83_y) :: [(Named <$> lit "ab", s83_x)] /\
  s83_tops e3 ops3 ≡ₚ ([Named 98%N; Named 100%N], s83_eye 3) :: (((fun a => if decide (a = Named 98%N) then Named 100%N else a) <$> (Named <$> lit "bc")), s83_y) :: [(Named <$> lit "ab", s83_x)] /\
  identity (dim (s83_tops e ops) (Named 98%N)) (s83_eye 3).
Proof.
  cbn zeta. split.
  { repeat (apply Forall_cons; split); [..|by apply Forall_nil]; cbn [fst snd]; (split; [apply plain_check_ok; by vm_compute|]); (split; [apply wf_check_ok; by vm_compute|]); (split; [apply good_check_ok; by vm_compute|]); (split; [apply (bool_decide_unpack _); by vm_compute|by vm_compute]). }
  split; [apply perm_swap|]. split.
  { intros l d. cbn. rewrite !elem_of_cons, elem_of_nil. intros [H|[H|[]]]; injection H as -> ->; [by left|right; by vm_compute]. }
  split; [done|]. split; [apply (Permutation_app_comm [_; _] [_])|]. split; [apply perm_swap|]. split.
  { etrans; [apply perm_swap|]. apply perm_skip. apply perm_swap. }
  split; [by vm_compute|]. intros i j _ _. done.
Qed.
Definition s83_run (s : str) (ops : list (tensor nat_semiring)) :=
  match contract ord0 (ref_backend nat_semiring true) true (OPath (replicate (pred (length ops)) [0; 1])) MNone s ops with Ok T => Some (shape T, entries T) | Err _ => None end.
Example C83_instance :
  s83_run (lit "ab,bc->ac") [s83_x; s83_y] = Some ([2; 2], [22; 28; 49; 64]) /\
  s83_run (lit "ab,ca,bc->ac") [s83_x; s83_ones [1; 2]; s83_y] = Some ([2; 2], [22; 28; 49; 64]) /\
  s83_run (lit "ab,bc,d->ac") [s83_x; s83_y; s83_ones [4]] = Some ([2; 2], [88; 112; 196; 256]) /\
  s83_run (lit "ab,bd,dc->ac") [s83_x; s83_eye 3; s83_y] = Some ([2; 2], [22; 28; 49; 64]).
Proof. split_and!; by vm_compute. Qed.
