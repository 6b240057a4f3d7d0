(** Properties C71 and C72: the order of the operands, and contractions done in two calls; statements, each with a concrete instance. *)
From Verif Require Import Prelude Einsum EinsumFacts EinsumOps Parser Helpers Contract Spec PathSpec StringFacts SymbolFacts StepFacts ContractFacts PathFacts ParserFacts ParseSpec ParseProof ParseSound TopFacts ContractMain RefBackend PropsContract.

Section Zip.
  Context {K : semiring}.
  Notation tens := (tensor K).
  Definition label_op (p : eterm * tens) : list elabel * tens := (expand (ell_count p.1 (shape p.2)) p.1, p.2).
  Lemma zip_in_labels ts (ops : list tens) o : zip (in_labels (Eqn ts o) (shape <$> ops)) ops = label_op <$> zip ts ops.
  Proof. revert ops. induction ts as [|t ts IH]; intros [|op ops]; [done..|]. unfold in_labels in *. cbn [e_in] in *. cbn. f_equal. apply IH. Qed.
  Lemma longest_zip ts (ops : list tens) o : longest (Eqn ts o) (shape <$> ops) = max_list' ((fun p => ell_count p.1 (shape p.2)) <$> zip ts ops).
  Proof. unfold longest. cbn [e_in]. f_equal. revert ops. induction ts as [|t ts IH]; intros [|op ops]; [done..|]. cbn. f_equal. apply IH. Qed.
  Lemma max_list'_perm l k : l ≡ₚ k -> max_list' l = max_list' k.
  Proof. induction 1; simpl; lia. Qed.
  Lemma elem_zip_labels {L} (ts : list (list L)) (ops : list tens) c : length ts = length ops -> c ∈ labels_of (zip ts ops) <-> exists t, t ∈ ts /\ c ∈ t.
  Proof.
    revert ops. induction ts as [|t ts IH]; intros [|o ops] H; try done; [cbn; split; [by intros ?%elem_of_nil|by intros (? & ?%elem_of_nil & _)]|].
    change (labels_of (zip (t :: ts) (o :: ops))) with (t ++ labels_of (zip ts ops)). rewrite elem_of_app, IH by (by injection H). split.
    - intros [Hc|(t' & Ht & Hc)]; [exists t; split; [left|done]|exists t'; split; [by right|done]].
    - intros (t' & Ht & Hc). apply elem_of_cons in Ht as [-> |Ht]; [by left|]. right. eauto.
  Qed.
  Lemma eqn_eta e : e = Eqn (e_in e) (e_out e).
  Proof. by destruct e. Qed.
End Zip.

(** ** C71 *)
(** Giving the operands, with their terms, in another order changes nothing: not that the equation is accepted, nor the value; with ellipses and implicit
    outputs too.  The two calls may differ in everything else: library, iteration order of sets, strategy, memory limit, use of BLAS. *)
Section Order.
  Context {K : semiring}.
  Variables (e e' : eqn) (ops ops' : list (tensor K)).
  Hypothesis Hlen' : length (e_in e') = length ops'.
  Hypothesis Hp : zip (e_in e') ops' ≡ₚ zip (e_in e) ops.
  Hypothesis Ho : e_out e' = e_out e.
  Lemma order_labels : zip (in_labels e' (shape <$> ops')) ops' ≡ₚ zip (in_labels e (shape <$> ops)) ops.
  Proof. rewrite (eqn_eta e), (eqn_eta e'), !zip_in_labels. by rewrite Hp. Qed.
  Lemma order_longest : longest e' (shape <$> ops') = longest e (shape <$> ops).
  Proof. rewrite (eqn_eta e), (eqn_eta e'), !longest_zip. apply max_list'_perm. by rewrite Hp. Qed.
  Hypothesis Hwf : well_formed e (shape <$> ops).
  Lemma order_in : e_in e' ≡ₚ e_in e.
  Proof.
    pose proof (wf_count _ _ Hwf) as Hl. rewrite fmap_length in Hl. rewrite <-(fst_zip (e_in e) ops), <-(fst_zip (e_in e') ops') by lia.
    by apply fmap_Permutation.
  Qed.
  Lemma order_out : out_labels e' (shape <$> ops') = out_labels e (shape <$> ops).
  Proof.
    unfold out_labels. rewrite Ho, order_longest. destruct (e_out e); [done|]. do 2 f_equal. apply sortN_perm_eq.
    assert (H : e_in e' ≫= t_named ≡ₚ e_in e ≫= t_named) by by rewrite order_in. 
    rewrite H. match goal with |- ?a ≡ₚ ?b => enough (Hf : a = b) by by rewrite Hf end. apply list_filter_iff. intros c. by rewrite (count_perm c _ _ H).
  Qed.
  Lemma order_wf : well_formed e' (shape <$> ops').
  Proof.
    split.
    - by rewrite fmap_length.
    - pose proof (wf_fits _ _ Hwf) as Hf. assert (H : Forall (fun p => fits p.1 (shape p.2)) (zip (e_in e') ops')).
      { rewrite Hp. apply Forall_forall. intros [t o] Hin. apply elem_of_list_lookup in Hin as [i Hi]. apply lookup_zip_with_Some in Hi as (t0 & o0 & [= -> ->] & H1 & H2).
        cbn. eapply Forall2_lookup_lr; [exact Hf|exact H1|]. by rewrite list_lookup_fmap, H2. }
      apply Forall2_fmap_r. revert H Hlen'. clear. generalize (e_in e'). intros ts. revert ts. induction ops' as [|o os IH]; intros [|t ts] H Hl; try done. cbn in H. inversion H; subst. constructor; [done|]. apply IH; [done|]. by injection Hl.
    - rewrite order_out. by destruct Hwf.
    - rewrite order_out. intros l Hl. destruct (wf_known _ _ Hwf l Hl) as (t & Ht & Hlt).
      assert (Hin : l ∈ labels_of (zip (in_labels e' (shape <$> ops')) ops')).
      { rewrite (labels_of_perm _ _ order_labels). apply elem_zip_labels; [by apply in_labels_length|]. eauto. }
      apply elem_zip_labels in Hin; [done|]. unfold in_labels. rewrite zip_with_length, fmap_length. lia.
  Qed.
End Order.
Theorem C71_operand_order (K : semiring) (B B' : backend K) (ord ord' : gset N -> list N) (e e' : eqn) (s s' : str) (ops ops' : list (tensor K)) (use_blas use_blas' : bool) (opt opt' : optimize_arg) (mem mem' : memory_arg) :
  backend_ok B -> b_has_einsum B = true -> (forall x, ord x ≡ₚ elements x) -> backend_ok B' -> b_has_einsum B' = true -> (forall x, ord' x ≡ₚ elements x) ->
  e_in e <> [] -> plain_eqn e -> filter (.≠ c_space) s = render e -> filter (.≠ c_space) s' = render e' -> well_formed e (shape <$> ops) ->
  length (e_in e') = length ops' -> zip (e_in e') ops' ≡ₚ zip (e_in e) ops -> e_out e' = e_out e ->
  good (zip (in_labels e (shape <$> ops)) ops) -> length (remove_dups (labels_of (zip (in_labels e (shape <$> ops)) ops))) <= 52 ->
  mem_valid mem -> strategy_ok opt (length ops) -> mem_valid mem' -> strategy_ok opt' (length ops') ->
  exists T T', contract ord B use_blas opt mem s ops = Ok T /\ contract ord' B' use_blas' opt' mem' s' ops' = Ok T' /\ T ≡ₜ T'.
Proof.
  intros HB He Hord HB' He' Hord' Hne Hpl Hs Hs' Hwf Hl' Hp Ho Hg Hsz Hm Hst Hm' Hst'.
  pose proof (order_wf e e' ops ops' Hl' Hp Ho Hwf) as Hwf'. pose proof (order_labels e e' ops ops' Hp) as Hlab. pose proof (order_in e e' ops ops' Hl' Hp Hwf) as Hin.
  destruct (contract_ok ord Hord B HB e s ops Hne Hpl Hs Hwf use_blas opt mem Hg Hm Hst He Hsz) as (T & HT & ET).
  destruct (contract_ok ord' Hord' B' HB' e' s' ops') with (use_blas := use_blas') (opt := opt') (mem := mem') as (T' & HT' & ET'); try done.
  - intros E. apply Hne. rewrite E in Hin. by apply Permutation_nil in Hin.
  - unfold plain_eqn. rewrite Hin, Ho. exact Hpl.
  - eapply good_perm; [|exact Hg]. by symmetry.
  - etrans; [|exact Hsz]. apply Nat.eq_le_incl, Permutation_length, NoDup_Permutation; [apply NoDup_remove_dups..|]. intros l. by rewrite !elem_of_remove_dups, (labels_of_perm _ _ Hlab).
  - exists T, T'. split; [done|]. split; [done|]. rewrite ET, ET', (order_out e e' ops ops' Hl' Hp Ho Hwf). symmetry. apply einsum_perm; [done|]. eapply compat_perm; [by symmetry|]. by destruct Hg.
Qed.
Print Assumptions C71_operand_order.

(** The equation of C01 with its operands in reverse order; and "ba,b..." without output against "b...,ba": the implicit output is "...a" both times. *)
Definition ex71_rev : eqn := Eqn (reverse (e_in ex_eqn)) (e_out ex_eqn).
Definition ex71_data (r : res (tensor nat_semiring)) := match r with Ok T => Some (shape T, entries T) | Err _ => None end.
Example C71_instance :
  length (e_in ex71_rev) = length (reverse ex_ops) /\ zip (e_in ex71_rev) (reverse ex_ops) ≡ₚ zip (e_in ex_eqn) ex_ops /\ e_out ex71_rev = e_out ex_eqn /\
  ex71_data (contract ord0 (ref_backend nat_semiring true) true (OPath [[0; 1]; [0; 1]]) MNone (render ex71_rev) (reverse ex_ops)) = Some ([2; 3; 2], [19; 91; 43; 115; 67; 139; 88; 424; 200; 536; 312; 648]) /\
  let x := arr [2; 3] (seq 1 6 : list nat_semiring) in let y := arr [2; 2] (seq 1 4 : list nat_semiring) in
  ex71_data (contract ord0 (ref_backend nat_semiring true) true (OPath [[0; 1]]) MNone (lit "ba,b...") [x; y]) = Some ([2; 3], [13; 17; 21; 18; 24; 30]) /\
  ex71_data (contract ord0 (ref_backend nat_semiring true) true (OPath [[0; 1]]) MNone (lit "b...,ba") [y; x]) = Some ([2; 3], [13; 17; 21; 18; 24; 30]).
Proof. split; [done|]. split; [apply (Permutation_sym (Permutation_rev (zip (e_in ex_eqn) ex_ops)))|]. split; [done|]. split; [by vm_compute|]. split; by vm_compute. Qed.

(** ** C72 *)
(** Contracting some operands first, in a call of their own, and then the result with the others: if the output of the first equation has the labels
    of its operands that are still needed, the value is that of one call.  Ellipses are allowed everywhere; the three calls may differ in all else. *)
Section Calls.
  Context {K : semiring}.
  Variables (ts1 ts2 : list eterm) (r o : eterm) (ops1 ops2 : list (tensor K)).
  Notation e1 := (Eqn ts1 (Some r)). Notation e2 := (Eqn (r :: ts2) (Some o)). Notation e := (Eqn (ts1 ++ ts2) (Some o)).
  Notation P := (zip (in_labels e1 (shape <$> ops1)) ops1). Notation Q := (zip (in_labels (Eqn ts2 None) (shape <$> ops2)) ops2).
  Hypothesis Hwf1 : well_formed e1 (shape <$> ops1).
  Hypothesis Hwf : well_formed e (shape <$> (ops1 ++ ops2)).
  (** The labels still needed. *)
  Hypothesis Hkeep : forall l, l ∈ labels_of P -> l ∈ out_labels e (shape <$> (ops1 ++ ops2)) \/ l ∈ labels_of Q -> l ∈ out_labels e1 (shape <$> ops1).
  Hypothesis Hg : good (zip (in_labels e (shape <$> (ops1 ++ ops2))) (ops1 ++ ops2)).
  Lemma calls_len1 : length ts1 = length ops1.
  Proof. pose proof (wf_count _ _ Hwf1) as H. by rewrite fmap_length in H. Qed.
  Lemma calls_len2 : length ts2 = length ops2.
  Proof. pose proof (wf_count _ _ Hwf) as H. rewrite fmap_length in H. cbn [e_in] in H. rewrite !app_length in H. pose proof calls_len1. lia. Qed.
  Lemma calls_tops : zip (in_labels e (shape <$> (ops1 ++ ops2))) (ops1 ++ ops2) = P ++ Q.
  Proof. rewrite !zip_in_labels, zip_with_app by apply calls_len1. by rewrite fmap_app. Qed.
  Lemma calls_known l : l ∈ out_labels e1 (shape <$> ops1) -> l ∈ labels_of P.
  Proof.
    intros Hl. destruct (wf_known _ _ Hwf1 l Hl) as (t & Ht & Hlt). apply elem_zip_labels; [|eauto]. unfold in_labels. rewrite zip_with_length, fmap_length. cbn [e_in]. rewrite calls_len1. lia.
  Qed.
  Variable T1 : tensor K.
  Hypothesis HT1 : T1 ≡ₜ einsum P (out_labels e1 (shape <$> ops1)).
  Lemma calls_rank : length (shape T1) = length (out_labels e1 (shape <$> ops1)).
  Proof. destruct HT1 as [-> _]. simpl. by rewrite fmap_length. Qed.
  Lemma expand_length m t : length (expand m t) = length (t_named t) + match t_post t with None => 0 | Some _ => m end.
  Proof. unfold expand, t_named. rewrite !app_length. destruct (t_post t); simpl; rewrite ?app_length, ?fmap_length, ?reverse_length, ?seq_length; simpl; lia. Qed.
  Lemma calls_ell : expand (ell_count r (shape T1)) r = out_labels e1 (shape <$> ops1) /\ ell_count r (shape T1) = match t_post r with None => 0 | Some _ => longest e1 (shape <$> ops1) end.
  Proof.
    unfold ell_count. rewrite calls_rank. unfold out_labels. cbn [e_out]. rewrite expand_length. unfold expand. destruct (t_post r); [|done].
    replace (length (t_named r) + longest e1 (shape <$> ops1) - length (t_named r)) with (longest e1 (shape <$> ops1)) by lia. done.
  Qed.
  Lemma calls_tops2 : zip (in_labels e2 (shape <$> (T1 :: ops2))) (T1 :: ops2) = (out_labels e1 (shape <$> ops1), T1) :: Q.
  Proof. rewrite !zip_in_labels. cbn [zip zip_with]. rewrite fmap_cons. f_equal. unfold label_op. cbn [fst snd]. by rewrite (proj1 calls_ell). Qed.
  Lemma max_list'_app l k : max_list' (l ++ k) = max_list' l `max` max_list' k.
  Proof. induction l; simpl; lia. Qed.
  (** A broadcast label of the whole is one of some operand. *)
  Lemma bcast_in ts (ops : list (tensor K)) oo k : length ts = length ops -> k < longest (Eqn ts oo) (shape <$> ops) -> Bcast k ∈ labels_of (zip (in_labels (Eqn ts oo) (shape <$> ops)) ops).
  Proof.
    intros Hl. rewrite zip_in_labels, longest_zip. generalize (zip ts ops). clear. intros l. induction l as [|[t op] l IH]; [simpl; lia|]. rewrite !fmap_cons. cbn [max_list' foldr fst snd].
    change (labels_of (label_op (t, op) :: (label_op <$> l))) with (expand (ell_count t (shape op)) t ++ labels_of (label_op <$> l)). intros Hk. apply elem_of_app.
    destruct (decide (k < ell_count t (shape op))) as [Hk'|Hk']; [left|right; apply IH; unfold max_list' in *; lia].
    unfold expand. destruct (t_post t) as [q|] eqn:Et; [|unfold ell_count in Hk'; rewrite Et in Hk'; lia]. apply elem_of_app. right. apply elem_of_app. left. apply elem_of_list_fmap_1, elem_of_reverse, elem_of_seq. lia.
  Qed.
  Lemma calls_out : out_labels e2 (shape <$> (T1 :: ops2)) = out_labels e (shape <$> (ops1 ++ ops2)).
  Proof.
    unfold out_labels. cbn [e_out]. destruct (t_post o) as [q|] eqn:Eo; [|unfold expand; by rewrite Eo]. f_equal.
    rewrite !longest_zip. rewrite zip_with_app by apply calls_len1. rewrite fmap_app, max_list'_app. cbn [zip zip_with]. rewrite fmap_cons. cbn [max_list' foldr fst snd]. f_equal.
    rewrite (proj2 calls_ell), longest_zip. destruct (t_post r) as [q'|] eqn:Er; [done|]. destruct (max_list' _) as [|m] eqn:Em; [done|]. exfalso.
    assert (H0 : Bcast 0 ∈ labels_of P) by (apply bcast_in; [apply calls_len1|rewrite longest_zip, Em; lia]).
    assert (H1 : Bcast 0 ∈ out_labels e1 (shape <$> ops1)).
    { apply Hkeep; [done|]. left. unfold out_labels. cbn [e_out]. unfold expand. rewrite Eo. apply elem_of_app. right. apply elem_of_app. left. apply elem_of_list_fmap_1, elem_of_reverse, elem_of_seq.
      rewrite longest_zip, zip_with_app, fmap_app, max_list'_app, Em by apply calls_len1. lia. }
    unfold out_labels in H1. cbn [e_out] in H1. unfold expand in H1. rewrite Er, app_nil_r in H1. by apply elem_of_list_fmap in H1 as (? & ? & _).
  Qed.
  Lemma calls_wf : well_formed e2 (shape <$> (T1 :: ops2)).
  Proof.
    split.
    - rewrite fmap_length. simpl. by rewrite calls_len2.
    - rewrite fmap_cons. constructor.
      + unfold fits. destruct (t_post r) eqn:Er; [|done]. right. rewrite calls_rank. unfold out_labels. cbn [e_out]. rewrite expand_length. lia.
      + pose proof (wf_fits _ _ Hwf) as H. rewrite fmap_app in H. apply Forall2_app_inv in H as [_ H]; [done|]. by rewrite fmap_length, calls_len1.
    - rewrite calls_out. by destruct Hwf.
    - rewrite calls_out. intros l Hl. destruct (wf_known _ _ Hwf l Hl) as (t & Ht & Hlt).
      assert (Hin : l ∈ labels_of (P ++ Q)).
      { rewrite <-calls_tops. apply elem_zip_labels; [|eauto]. unfold in_labels. rewrite zip_with_length, fmap_length. cbn [e_in]. rewrite !app_length, calls_len1, calls_len2. lia. }
      unfold labels_of in Hin. rewrite bind_app in Hin. apply elem_of_app in Hin as [Hin|Hin].
      + exists (out_labels e1 (shape <$> ops1)). split; [|by apply Hkeep; [|left]]. unfold in_labels. rewrite fmap_cons. cbn [e_in zip_with]. rewrite (proj1 calls_ell). left.
      + apply (elem_zip_labels (in_labels (Eqn ts2 None) (shape <$> ops2)) ops2) in Hin as (t' & Ht' & Hl'); [|unfold in_labels; rewrite zip_with_length, fmap_length; cbn [e_in]; rewrite calls_len2; lia].
        exists t'. split; [|done]. unfold in_labels. rewrite fmap_cons. cbn [e_in zip_with]. by right.
  Qed.
  Lemma calls_good1 : good P.
  Proof. apply (good_app_l P Q). by rewrite <-calls_tops. Qed.
  Lemma calls_top_eq : Forall2 top_eq ((out_labels e1 (shape <$> ops1), einsum P (out_labels e1 (shape <$> ops1))) :: Q) ((out_labels e1 (shape <$> ops1), T1) :: Q).
  Proof. constructor; [split; [done|by symmetry]|]. apply Forall2_same_length_lookup_2; [done|]. intros; simplify_eq. done. Qed.
  Lemma calls_good2' : good ((out_labels e1 (shape <$> ops1), einsum P (out_labels e1 (shape <$> ops1))) :: Q).
  Proof.
    eapply good_perm; [|apply (good_step P Q (out_labels e1 (shape <$> ops1))); [by rewrite <-calls_tops|by destruct Hwf1|apply calls_known]].
    symmetry. apply Permutation_cons_append.
  Qed.
  Lemma calls_good2 : good ((out_labels e1 (shape <$> ops1), T1) :: Q).
  Proof. eapply good_congr; [apply calls_top_eq|apply calls_good2']. Qed.
  Lemma calls_value : einsum ((out_labels e1 (shape <$> ops1), T1) :: Q) (out_labels e2 (shape <$> (T1 :: ops2))) ≡ₜ einsum (P ++ Q) (out_labels e (shape <$> (ops1 ++ ops2))).
  Proof.
    rewrite calls_out. destruct calls_good2' as [Hr Hc _ _]. rewrite <-(einsum_congr _ _ (out_labels e (shape <$> (ops1 ++ ops2))) Hr Hc calls_top_eq). apply einsum_step.
    - by destruct calls_good1.
    - rewrite <-calls_tops. by destruct Hg.
    - by destruct Hwf1.
    - apply calls_known.
    - apply Hkeep.
    - intros l Hl. rewrite <-calls_tops. destruct (wf_known _ _ Hwf l Hl) as (t & Ht & Hlt). apply elem_zip_labels; [|eauto]. unfold in_labels. rewrite zip_with_length, fmap_length. cbn [e_in]. rewrite !app_length, calls_len1, calls_len2. lia.
  Qed.
End Calls.
Theorem C72_two_calls (K : semiring) (B1 B2 B : backend K) (ord1 ord2 ord : gset N -> list N) (ts1 ts2 : list eterm) (r o : eterm) (s1 s2 s : str) (ops1 ops2 : list (tensor K))
    (ub1 ub2 ub : bool) (opt1 opt2 opt : optimize_arg) (mem1 mem2 mem : memory_arg) :
  backend_ok B1 -> b_has_einsum B1 = true -> (forall x, ord1 x ≡ₚ elements x) -> backend_ok B2 -> b_has_einsum B2 = true -> (forall x, ord2 x ≡ₚ elements x) -> backend_ok B -> b_has_einsum B = true -> (forall x, ord x ≡ₚ elements x) ->
  let e1 := Eqn ts1 (Some r) in let e2 := Eqn (r :: ts2) (Some o) in let e := Eqn (ts1 ++ ts2) (Some o) in
  let ops := ops1 ++ ops2 in let P := zip (in_labels e1 (shape <$> ops1)) ops1 in let Q := zip (in_labels (Eqn ts2 None) (shape <$> ops2)) ops2 in
  ts1 <> [] -> plain_eqn e1 -> plain_eqn e -> filter (.≠ c_space) s1 = render e1 -> filter (.≠ c_space) s2 = render e2 -> filter (.≠ c_space) s = render e ->
  well_formed e1 (shape <$> ops1) -> well_formed e (shape <$> ops) -> good (zip (in_labels e (shape <$> ops)) ops) -> length (remove_dups (labels_of (zip (in_labels e (shape <$> ops)) ops))) <= 52 ->
  (forall l, l ∈ labels_of P -> l ∈ out_labels e (shape <$> ops) \/ l ∈ labels_of Q -> l ∈ out_labels e1 (shape <$> ops1)) ->
  mem_valid mem1 -> strategy_ok opt1 (length ops1) -> mem_valid mem2 -> strategy_ok opt2 (S (length ops2)) -> mem_valid mem -> strategy_ok opt (length ops) ->
  exists T1 T2 T, contract ord1 B1 ub1 opt1 mem1 s1 ops1 = Ok T1 /\ contract ord2 B2 ub2 opt2 mem2 s2 (T1 :: ops2) = Ok T2 /\ contract ord B ub opt mem s ops = Ok T /\ T2 ≡ₜ T.
Proof.
  intros HB1 He1 Ho1 HB2 He2 Ho2 HB He Ho e1 e2 e ops P Q Hne Hpl1 Hpl Hs1 Hs2 Hs Hwf1 Hwf Hg Hsz Hkeep Hm1 Hst1 Hm2 Hst2 Hm Hst.
  pose proof (calls_tops ts1 ts2 r o ops1 ops2 Hwf1) as Htops. fold e1 e ops P Q in Htops.
  assert (Hsub : forall (X : list (list elabel * tensor K)), (forall l, l ∈ labels_of X -> l ∈ labels_of (P ++ Q)) -> length (remove_dups (labels_of X)) <= 52).
  { intros X HX. etrans; [|exact Hsz]. rewrite Htops. apply submseteq_length, NoDup_submseteq; [apply NoDup_remove_dups|]. intros l. rewrite !elem_of_remove_dups. apply HX. }
  assert (Hpq : forall l, l ∈ labels_of (P ++ Q) <-> l ∈ labels_of P \/ l ∈ labels_of Q) by (intros l; unfold labels_of; by rewrite bind_app, elem_of_app).
  destruct (contract_ok ord1 Ho1 B1 HB1 e1 s1 ops1 Hne Hpl1 Hs1 Hwf1 ub1 opt1 mem1) as (T1 & HT1 & E1); try done.
  { by apply (calls_good1 ts1 ts2 r o ops1 ops2). }
  { apply Hsub. intros l Hl. apply Hpq. by left. }
  fold P in E1.
  pose proof (calls_tops2 ts1 ts2 r o ops1 ops2 T1 E1) as Htops2. fold e1 e2 Q in Htops2.
  pose proof (calls_good2 ts1 ts2 r o ops1 ops2 Hwf1 Hkeep Hg T1 E1) as Hg2. fold e1 Q in Hg2.
  destruct (contract_ok ord2 Ho2 B2 HB2 e2 s2 (T1 :: ops2)) with (use_blas := ub2) (opt := opt2) (mem := mem2) as (T2 & HT2 & E2); try done.
  { split; [constructor; [exact (proj2 Hpl1)|]|exact (proj2 Hpl)]. destruct Hpl as [Hpl _]. cbn [e e_in] in Hpl. by apply Forall_app in Hpl as [_ Hpl]. }
  { apply (calls_wf ts1 ts2 r o ops1 ops2 Hwf1 Hwf Hkeep T1 E1). }
  { by rewrite Htops2. }
  { rewrite Htops2. apply Hsub. intros l Hl. apply Hpq. change (l ∈ out_labels e1 (shape <$> ops1) ++ labels_of Q) in Hl. apply elem_of_app in Hl as [Hl|Hl]; [left|by right]. by apply (calls_known ts1 ts2 r o ops1 ops2 Hwf1 Hkeep). }
  destruct (contract_ok ord Ho B HB e s ops) with (use_blas := ub) (opt := opt) (mem := mem) as (T & HT & E); try done.
  { cbn [e e_in]. by destruct ts1. }
  exists T1, T2, T. split; [done|]. split; [done|]. split; [done|]. rewrite E2, E, Htops2, Htops. apply (calls_value ts1 ts2 r o ops1 ops2 Hwf1 Hwf Hkeep Hg T1 E1).
Qed.
Print Assumptions C72_two_calls.
(** The equation of C01 in two calls: "a...b, b...α -> a...α", then "a...α, αα -> α...a". *)
Definition ex72_r : eterm := ETerm (lit "a") (Some [945%N]).
Definition ex72_1 : eqn := Eqn (take 2 (e_in ex_eqn)) (Some ex72_r).
Definition ex72_2 : eqn := Eqn (ex72_r :: drop 2 (e_in ex_eqn)) (e_out ex_eqn).
Example C72_instance :
  e_in ex_eqn = e_in ex72_1 ++ drop 2 (e_in ex_eqn) /\ plain_eqn ex72_1 /\ well_formed ex72_1 (shape <$> take 2 ex_ops) /\
  (forall l, l ∈ labels_of (zip (in_labels ex72_1 (shape <$> take 2 ex_ops)) (take 2 ex_ops)) ->
    l ∈ out_labels ex_eqn (shape <$> ex_ops) \/ l ∈ labels_of (zip (in_labels (Eqn (drop 2 (e_in ex_eqn)) None) (shape <$> drop 2 ex_ops)) (drop 2 ex_ops)) -> l ∈ out_labels ex72_1 (shape <$> take 2 ex_ops)) /\
  ex71_data (T1 ← contract ord0 (ref_backend nat_semiring true) true (OPath [[0; 1]]) MNone (render ex72_1) (take 2 ex_ops);
             contract ord0 (ref_backend nat_semiring true) true (OPath [[0; 1]]) MNone (render ex72_2) (T1 :: drop 2 ex_ops)) = Some ([2; 3; 2], [19; 91; 43; 115; 67; 139; 88; 424; 200; 536; 312; 648]).
Proof.
  split; [done|]. split; [apply plain_check_ok; by vm_compute|]. split; [apply wf_check_ok; by vm_compute|]. split; [|by vm_compute].
  intros l Hl Hn. assert (H : Forall (fun l => l ∈ out_labels ex_eqn (shape <$> ex_ops) ++ labels_of (zip (in_labels (Eqn (drop 2 (e_in ex_eqn)) None) (shape <$> drop 2 ex_ops)) (drop 2 ex_ops)) -> l ∈ out_labels ex72_1 (shape <$> take 2 ex_ops))
    (labels_of (zip (in_labels ex72_1 (shape <$> take 2 ex_ops)) (take 2 ex_ops)))) by (apply (bool_decide_unpack _); by vm_compute).
  rewrite Forall_forall in H. apply (H l Hl). by apply elem_of_app.
Qed.
(** A label that is still needed must be kept: 'ab,bc->a' and then 'a,c->ac' is accepted and is not 'ab,bc,c->ac'. *)
Example C72_lost_label : exists (s1 s2 s : str) (ops1 ops2 : list (tensor nat_semiring)) T1 T2 T,
  contract ord0 (ref_backend nat_semiring true) true (OPath [[0; 1]]) MNone s1 ops1 = Ok T1 /\ contract ord0 (ref_backend nat_semiring true) true (OPath [[0; 1]]) MNone s2 (T1 :: ops2) = Ok T2 /\
  contract ord0 (ref_backend nat_semiring true) true (OPath [[0; 1]; [0; 1]]) MNone s (ops1 ++ ops2) = Ok T /\ s1 = lit "ab,bc->a" /\ s2 = lit "a,c->ac" /\ s = lit "ab,bc,c->ac" /\
  entries T2 = [10; 10; 13; 13] /\ entries T = [4; 6; 5; 8].
Proof.
  exists (lit "ab,bc->a"), (lit "a,c->ac"), (lit "ab,bc,c->ac"), [arr [2; 2] ([1; 1; 2; 1] : list nat_semiring); arr [2; 2] ([1; 2; 3; 4] : list nat_semiring)], [arr [2] ([1; 1] : list nat_semiring)].
  do 3 eexists. split; [vm_compute; reflexivity|]. split; [vm_compute; reflexivity|]. split; [vm_compute; reflexivity|]. split; [done|]. split; [done|]. split; [done|]. split; by vm_compute.
Qed.
