(** The contraction loop computes the einsum. *)
From Verif Require Import Prelude Einsum EinsumFacts EinsumOps Parser Helpers Contract Spec StringFacts SymbolFacts StepFacts.

Definition size_of (d : sizes) (c : N) : nat := default 0 (d !! c).
Lemma compute_size_ok d l : (forall c, c ∈ l -> is_Some (d !! c)) ->
  compute_size_by_dict l d = Ok (prod_list (size_of d <$> l)).
Proof.
  intros H. unfold compute_size_by_dict.
  enough (Hg : forall a, foldM_res (fun ret i => s ← of_opt KeyError (d !! i); Ok (ret * s)) a l = Ok (a * prod_list (size_of d <$> l))).
  { rewrite Hg. f_equal. lia. }
  induction l as [|c l IH]; intros a; simpl; [f_equal; lia|].
  destruct (H c) as [s Hs]; [by left|]. rewrite Hs. simpl. rewrite IH by (intros; apply H; by right).
  f_equal. replace (size_of d c) with s by (unfold size_of; by rewrite Hs). symmetry. apply Nat.mul_assoc.
Qed.

Lemma elem_union_sets c l : c ∈ union_sets l <-> exists s, s ∈ l /\ c ∈ s.
Proof. unfold union_sets. induction l as [|s l IH]; simpl; [set_solver|]. rewrite elem_of_union, IH. set_solver. Qed.
Lemma elem_union_terms c (ts : list str) :
  c ∈ union_sets (list_to_set <$> ts) <-> exists t, t ∈ ts /\ c ∈ t.
Proof.
  rewrite elem_union_sets. split.
  - intros (s & (t & -> & Ht)%elem_of_list_fmap & Hc). exists t. split; [done|]. by apply elem_of_list_to_set in Hc.
  - intros (t & Ht & Hc). exists (list_to_set t). split; [by apply elem_of_list_fmap_1|]. by apply elem_of_list_to_set.
Qed.

Lemma pops_Forall2 {A B} (R : A -> B -> Prop) inds l k tl rl tk rk :
  Forall2 R l k -> pops inds l = Ok (tl, rl) -> pops inds k = Ok (tk, rk) -> Forall2 R tl tk /\ Forall2 R rl rk.
Proof.
  revert l k tl rl tk rk. induction inds as [|i inds IH]; intros l k tl rl tk rk HR Hl Hk; simpl in *; [by simplify_eq|].
  unfold pop_at in *. destruct (l !! i) as [x|] eqn:Ex; simpl in *; [|done]. destruct (k !! i) as [y|] eqn:Ey; simpl in *; [|done].
  destruct (pops inds (delete i l)) as [[xs l1]|] eqn:E1; simplify_eq/=. destruct (pops inds (delete i k)) as [[ys l2]|] eqn:E2; simplify_eq/=.
  destruct (IH (delete i l) (delete i k) xs rl ys rk) as [H1 H2]; [by apply Forall2_delete|done|done|].
  split; [|done]. constructor; [|done]. exact (Forall2_lookup_lr _ _ _ _ _ _ HR Ex Ey).
Qed.

Lemma list_fmap_ext' {A B} (f g : A -> B) (l : list A) : (forall x, x ∈ l -> f x = g x) -> f <$> l = g <$> l.
Proof. induction l as [|x l IH]; intros H; [done|]. rewrite !fmap_cons. f_equal; [apply H; by left|apply IH; intros; apply H; by right]. Qed.

Section Loop.
  Context {K : semiring}.
  Notation tens := (tensor K).

  Lemma good_congr {L} (tops tops' : list (list L * tens)) : Forall2 top_eq tops tops' -> good tops -> good tops'.
  Proof.
    intros H2 [H3 H4 H5 H6]. pose proof (axes_of_congr _ _ H2) as Hax. split.
    - unfold ranked in *. clear -H2 H3. induction H2 as [|p q tops tops' [Hl [Hs _]] _ IH]; [constructor|].
      inversion H3; subst. constructor; [by rewrite <-Hl, <-Hs|by apply IH].
    - unfold compat. by rewrite Hax.
    - intros q i j c d d' Hq. destruct (elem_of_list_lookup_1 _ _ Hq) as (k & Hk).
      destruct (Forall2_lookup_r _ _ _ _ _ H2 Hk) as (p & Hp & [Hl [Hs _]]). rewrite <-Hl, <-Hs. eapply H5.
      by eapply elem_of_list_lookup_2.
    - unfold no_empty_broadcast. by rewrite Hax.
  Qed.
  Lemma good_perm {L} (P Q : list (list L * tens)) : P ≡ₚ Q -> good P -> good Q.
  Proof.
    intros Hp [H1 H2 H3 H4]. split; [by eapply ranked_perm|by eapply compat_perm| |].
    - intros p i j c d d' Hin. rewrite <-Hp in Hin. by eapply H3.
    - intros l. rewrite <-(axes_of_perm P Q Hp). apply H4.
  Qed.
  Lemma good_app_l {L} (P Q : list (list L * tens)) : good (P ++ Q) -> good P.
  Proof.
    intros [H1 H2 H3 H4]. split.
    - by apply Forall_app in H1 as [? _].
    - eapply compat_ext; [|exact H2]. intros l d. rewrite axes_of_app. set_solver.
    - intros p i j c d d' Hin. eapply H3. set_solver.
    - intros l Ha Hb. eapply (H4 l); rewrite axes_of_app; set_solver.
  Qed.
  Lemma top_eq_zip (ts : list str) (ops ops' : list tens) :
    Forall2 teq ops ops' -> Forall2 top_eq (zip ts ops) (zip ts ops').
  Proof.
    intros H. revert ts. induction H as [|o o' ops ops' Ho _ IH]; intros [|t ts]; simpl; try constructor; [|apply IH].
    split; [done|]. done.
  Qed.

  (** Keeping the invariant after a step. *)
  Lemma good_step `{EqDecision L} (P Q : list (list L * tens)) r :
    good (P ++ Q) -> NoDup r -> (forall l, l ∈ r -> l ∈ labels_of P) -> good (Q ++ [(r, einsum P r)]).
  Proof.
    intros Hg Hnd Hsub. pose proof (good_app_l _ _ Hg) as HgP. destruct Hg as [H1 H2 H3 H4]. destruct HgP as [P1 P2 P3 P4].
    assert (Hax : forall l d, (l, d) ∈ axes_of (Q ++ [(r, einsum P r)]) -> (l, d) ∈ axes_of Q \/ (l, d) ∈ axes_of P).
    { intros l d. rewrite axes_of_app, elem_of_app. intros [?|Hd]; [auto|]. right.
      apply elem_of_axes in Hd as (p & i & ->%elem_of_list_singleton & Hi & Hs). simpl in *.
      rewrite list_lookup_fmap, Hi in Hs. simpl in Hs. injection Hs as <-.
      destruct (labels_axes P l P1) as [d Hd]; [apply Hsub; by eapply elem_of_list_lookup_2|].
      destruct (dim_char P l P2) as [Hall [Hone|Hin]]; [|done].
      destruct (Hall d Hd) as [->| ->]; rewrite ?Hone in *; done. }
    split.
    - apply Forall_app. split; [by apply Forall_app in H1 as [_ ?]|]. constructor; [|constructor].
      simpl. by rewrite fmap_length.
    - intros l d d' Ha Hb. apply (H2 l); rewrite axes_of_app, elem_of_app; apply Hax in Ha, Hb; naive_solver.
    - intros p i j c d d' Hin Hi Hj Hd Hd'. apply elem_of_app in Hin as [Hin|Hin].
      + refine (H3 p i j c d d' _ Hi Hj Hd Hd'). apply elem_of_app. by right.
      + apply elem_of_list_singleton in Hin as ->. simpl in *.
        assert (i = j) as -> by eauto using NoDup_lookup. congruence.
    - intros l Ha Hb. apply (H4 l); rewrite axes_of_app, elem_of_app; apply Hax in Ha, Hb; naive_solver.
  Qed.

  (** C13: the tracked shape is the real one. *)
  Lemma locs_spec (inputs : list str) (ops : list tens) c :
    length inputs = length ops -> ranked (zip inputs ops) -> diagonal (zip inputs ops) ->
    exists ds, locs inputs (shape <$> ops) c = Ok ds /\ forall d, d ∈ ds <-> (c, d) ∈ axes_of (zip inputs ops).
  Proof.
    unfold locs. revert ops. induction inputs as [|t inputs IH]; intros [|o ops] Hlen Hr Hd; simplify_eq/=.
    - exists []. split; [done|]. intros d. split; by intros ?%elem_of_nil.
    - destruct (IH ops) as (ds & Hds & Hin); [done|by inversion Hr| |].
      { intros p i j c' d d' Hp. apply Hd. by right. }
      rewrite Hds. simpl.
      assert (Hax : forall d, (c, d) ∈ axes_of ((t, o) :: zip inputs ops) <->
                 (exists i, t !! i = Some c /\ shape o !! i = Some d) \/ (c, d) ∈ axes_of (zip inputs ops)).
      { intros d. rewrite !elem_of_axes. split.
        - intros (p & i & [->|Hp]%elem_of_cons & H1 & H2); [left; eauto|right; eauto].
        - intros [(i & H1 & H2)|(p & i & Hp & H1 & H2)]; [exists (t, o), i|exists p, i]; (split; [set_solver|done]). }
      setoid_rewrite Hax.
      inversion Hr as [|? ? Hlen' Hr']; subst. simpl in Hlen'.
      destruct (find c t) as [i|] eqn:Ef.
      + apply find_lookup in Ef as Hti. destruct (lookup_lt_is_Some_2 (shape o) i) as [d0 Hd0].
        { rewrite <-Hlen'. by eapply lookup_lt_Some. }
        rewrite Hd0. simpl. exists (d0 :: ds). split; [done|]. intros d. rewrite elem_of_cons, Hin. split.
        * intros [->|?]; [left; eauto|auto].
        * intros [(j & Hj & Hdj)|?]; [left|auto]. eapply (Hd (t, o) j i c); simpl; eauto. by left.
      + exists ds. split; [done|]. intros d. rewrite Hin. apply find_None in Ef. split; [auto|].
        intros [(j & Hj & _)|?]; [|done]. destruct Ef. by eapply elem_of_list_lookup_2.
  Qed.
  Lemma max_list'_ge l x : x ∈ l -> x <= max_list' l.
  Proof. unfold max_list'. induction l as [|y l IH]; [by intros ?%elem_of_nil|]. simpl. intros [->|H]%elem_of_cons; [lia|]. apply IH in H. lia. Qed.
  Lemma max_list'_in l : l <> [] -> max_list' l ∈ l.
  Proof.
    unfold max_list'. induction l as [|y l IH]; [done|]. intros _. simpl.
    destruct l as [|z l]; [simpl; rewrite Nat.max_0_r; by left|].
    specialize (IH ltac:(done)). destruct (Nat.max_spec y (foldr Nat.max 0 (z :: l))) as [[_ ->]|[_ ->]]; [by right|by left].
  Qed.
  Lemma find_output_shape_ok (inputs : list str) (ops : list tens) output :
    length inputs = length ops -> good (zip inputs ops) ->
    (forall c, c ∈ output -> c ∈ labels_of (zip inputs ops)) ->
    find_output_shape inputs (shape <$> ops) output = Ok (dim (zip inputs ops) <$> output).
  Proof.
    intros Hlen [Hr Hc Hd Hz] Hout. unfold find_output_shape. apply mapM_res_Forall2.
    apply Forall2_fmap_r. apply Forall2_same_length_lookup_2; [done|]. intros i c c' Hi Hi'.
    assert (c' = c) as -> by congruence. assert (Hcin : c ∈ output) by by eapply elem_of_list_lookup_2. clear i Hi Hi'.
    destruct (locs_spec inputs ops c Hlen Hr Hd) as (ds & Hds & Hin). rewrite Hds. simpl.
    destruct (labels_axes _ _ Hr (Hout c Hcin)) as [d0 Hd0]. apply Hin in Hd0.
    assert (Hne : ds <> []) by (intros ->; by apply elem_of_nil in Hd0).
    assert (Hmax : max_list' ds = dim (zip inputs ops) c).
    { symmetry. pose proof (max_list'_in ds Hne) as Hm. apply dim_unique.
      - intros d Hda. apply Hin in Hda as Hdd. apply max_list'_ge in Hdd as Hle.
        apply Hin in Hm as Hma. destruct (Hc c d (max_list' ds) Hda Hma) as [?|[?|Hone]]; auto.
        destruct (decide (d = 1)); [auto|]. exfalso. apply (Hz c).
        + assert (d = 0) as <- by lia. done.
        + by rewrite <-Hone.
      - right. by apply Hin. }
    destruct ds; [done|]. by rewrite Hmax.
  Qed.

  Variable ord : gset N -> list N.
  Hypothesis ord_ok : forall s, ord s ≡ₚ elements s.
  Variable B : backend K.
  Hypothesis B_ok : backend_ok B.

  Lemma ord_elem c s : c ∈ ord s <-> c ∈ s.
  Proof. by rewrite ord_ok, elem_of_elements. Qed.

  (** A single step, whichever branch it takes. *)
  Definition uniform (tops : list (str * tens)) : Prop := forall c x y, (c, x) ∈ axes_of tops -> (c, y) ∈ axes_of tops -> x = y.
  (** The calls a step makes are allowed, and any results they have give [W]. *)
  Definition step_valid flag (eq : str) (removed : gset N) (ops : list tens) (W : tens) : Prop :=
    if use_tensordot B flag
    then exists l r out x y, eq = equation [l; r] out /\ ops = [x; y] /\ td_valid ord l r out removed x y W
    else b_has_einsum B = true /\ exists ts out, eq = equation ts out /\ v_einsum ts out ops /\ einsum (zip ts ops) out ≡ₜ W.
  Lemma step_valid_ok flag eq removed ops W : step_valid flag eq removed ops W ->
    exists T, (if use_tensordot B flag then run_tensordot ord B eq removed ops else run_einsum B eq ops) = Ok T /\ T ≡ₜ W.
  Proof.
    clear ord_ok. unfold step_valid. destruct (use_tensordot B flag).
    - intros (l & r & out & x & y & -> & -> & H). by apply td_valid_ok.
    - intros (He & ts & out & -> & H & HW). destruct (v_einsum_ok B B_ok ts out ops He H) as (T & HT & Heq). exists T. split; [done|]. by rewrite Heq.
  Qed.
  Lemma one_step_valid (tmp : list str) (ops : list tens) out (out_inds removed : gset N) flag :
    tmp <> [] -> length tmp = length ops -> Forall (Forall plain) tmp -> good (zip tmp ops) -> NoDup out ->
    (forall c, c ∈ out <-> c ∈ out_inds) ->
    (forall c, c ∈ out_inds -> c ∈ labels_of (zip tmp ops)) ->
    (forall c, c ∈ removed <-> c ∈ labels_of (zip tmp ops) /\ c ∉ out_inds) ->
    (flag <> BFalse -> exists shs, can_blas tmp (ord out_inds) removed shs <> BFalse /\ (shs = shape <$> ops \/ uniform (zip tmp ops))) ->
    b_has_einsum B = true \/ flag <> BFalse ->
    use_tensordot B flag = true \/ size (list_to_set (labels_of (zip tmp ops)) : gset N) <= 52 ->
    step_valid flag (equation tmp out) removed ops (einsum (zip tmp ops) out).
  Proof.
    intros Hne Hlen Hpl [Hr Hc Hd Hz] Hnd Hout Hsub Hrm Hflag Heither Hsize.
    unfold step_valid. destruct (use_tensordot B flag) eqn:Hu.
    - assert (Hf : flag <> BFalse).
      { unfold use_tensordot in Hu. apply andb_true_iff in Hu as [Hu _]. by rewrite negb_true_iff, bool_decide_eq_false in Hu. }
      destruct (Hflag Hf) as (shs & Hblas & Huni).
      destruct (can_blas_sound _ _ _ _ Hblas) as (l & r & shl & shr & rest & -> & Hsh & Hl & Hr' & Hboth & Hlonly & Hronly & Hdims).
      destruct ops as [|x [|y [|]]]; simplify_eq/=.
      unfold labels_of in *. simpl in *. rewrite app_nil_r in *.
      setoid_rewrite elem_of_app in Hrm. setoid_rewrite elem_of_app in Hsub. setoid_rewrite ord_elem in Hboth. setoid_rewrite ord_elem in Hlonly. setoid_rewrite ord_elem in Hronly.
      inversion Hpl as [|? ? Hpl1 Hpl2]; subst. inversion Hpl2 as [|? ? Hpl3 _]; subst.
      inversion Hr as [|? ? Hr1 Hr2]; subst. inversion Hr2 as [|? ? Hr3 _]; subst. simpl in *.
      assert (Hrm2 : forall c, c ∈ removed <-> c ∈ l /\ c ∈ r).
      { intros c. split.
        - intros Hcr. destruct (Hdims c Hcr) as (i & j & d & Hi & Hj & _).
          split; [apply find_lookup in Hi|apply find_lookup in Hj]; by eapply elem_of_list_lookup_2.
        - intros [H1 H2]. apply Hrm. split; [auto|]. by apply Hboth. }
      exists l, r, out, x, y. split; [done|]. split; [done|]. apply tensordot_valid; try done.
      + intros c. rewrite Hout, Hrm. split.
        * intros Hco. split; [by apply Hsub|]. by intros [_ ?].
        * intros [Hlr Hn]. destruct (decide (c ∈ out_inds)); [done|]. by destruct Hn.
      + intros c i j Hi Hj. destruct (Hdims c) as (i' & j' & d & Hi' & Hj' & Hdx & Hdy).
        { apply Hrm2. split; by eapply elem_of_list_lookup_2. }
        apply find_lookup in Hi', Hj'.
        assert (i' = i) as -> by exact (NoDup_lookup l _ _ _ Hl Hi' Hi).
        assert (j' = j) as -> by exact (NoDup_lookup r _ _ _ Hr' Hj' Hj).
        destruct Huni as [Huni|Huni]; [simplify_eq/=; congruence|].
        assert (Hx : i < length (shape x)) by (rewrite <-Hr1; by eapply lookup_lt_Some).
        assert (Hy : j < length (shape y)) by (rewrite <-Hr3; by eapply lookup_lt_Some).
        apply lookup_lt_is_Some in Hx as [dx Hx], Hy as [dy Hy]. rewrite Hx, Hy. f_equal.
        apply (Huni c); apply elem_of_axes; [exists (l, x), i; split; [by left|done]|exists (r, y), j; split; [right; by left|done]].
    - assert (He : b_has_einsum B = true).
      { destruct Heither as [?|Hf]; [done|]. unfold use_tensordot in Hu.
        rewrite (bool_decide_false _ Hf) in Hu. simpl in Hu. apply orb_false_iff in Hu as [_ Hu]. by apply negb_false_iff in Hu. }
      split; [done|]. exists tmp, out. split; [done|]. split; [|done]. unfold v_einsum. destruct Hsize as [?|Hsize]; [done|].
      repeat (split; [try done|]); [|done]. intros c Hco. by apply Hsub, Hout.
  Qed.
  Lemma one_step_ok (tmp : list str) (ops : list tens) out (out_inds removed : gset N) flag :
    tmp <> [] -> length tmp = length ops -> Forall (Forall plain) tmp -> good (zip tmp ops) -> NoDup out ->
    (forall c, c ∈ out <-> c ∈ out_inds) ->
    (forall c, c ∈ out_inds -> c ∈ labels_of (zip tmp ops)) ->
    (forall c, c ∈ removed <-> c ∈ labels_of (zip tmp ops) /\ c ∉ out_inds) ->
    (flag <> BFalse -> exists shs, can_blas tmp (ord out_inds) removed shs <> BFalse /\ (shs = shape <$> ops \/ uniform (zip tmp ops))) ->
    b_has_einsum B = true \/ flag <> BFalse ->
    use_tensordot B flag = true \/ size (list_to_set (labels_of (zip tmp ops)) : gset N) <= 52 ->
    exists T, (if use_tensordot B flag then run_tensordot ord B (equation tmp out) removed ops
               else run_einsum B (equation tmp out) ops) = Ok T
      /\ T ≡ₜ einsum (zip tmp ops) out.
  Proof. intros. apply step_valid_ok. by eapply one_step_valid. Qed.

  (** Every step can run: a step without BLAS needs einsum, and einsum takes at most 52 labels. *)
  Definition step_fits (s : contraction * step_info) : Prop :=
    (b_has_einsum B = true \/ c_blas s.1 <> BFalse) /\ (use_tensordot B (c_blas s.1) = true \/ s_scale s.2 <= 52).

  Lemma sort_by_find_perm s l : sort_by_find s l ≡ₚ l.
  Proof. apply merge_sort_Permutation. Qed.

  (** The arrays the steps produce, in order. *)
  Fixpoint step_results (ops : list tens) (cl : list contraction) : res (list tens) :=
    match cl with
    | [] => Ok []
    | c :: cl' => ops' ← core_step ord B ops c; v ← of_opt IndexError (last ops'); vs ← step_results ops' cl'; Ok (v :: vs)
    end.
  Lemma prod_list_perm (l k : list nat) : l ≡ₚ k -> prod_list l = prod_list k.
  Proof. clear. induction 1; simpl; [done|lia| |lia]. rewrite !Nat.mul_assoc. f_equal. lia. Qed.

  Lemma loop_ok use_blas output d p : forall (terms : list str) (ops : list tens),
    p <> [] -> path_runs (length terms) p -> length terms = length ops -> Forall (Forall plain) terms ->
    good (zip terms ops) -> NoDup output -> (forall c, c ∈ output -> c ∈ labels_of (zip terms ops)) ->
    (forall c, c ∈ labels_of (zip terms ops) -> is_Some (d !! c)) ->
    exists steps,
      cp_loop ord use_blas output d p (list_to_set <$> terms) terms (shape <$> ops) = Ok steps /\
      (Forall step_fits steps -> forall ops', Forall2 teq ops ops' ->
         exists T, foldM_res (core_step ord B) ops' (fst <$> steps) = Ok [T] /\ T ≡ₜ einsum (zip terms ops) output /\
         exists vs, step_results ops' (fst <$> steps) = Ok vs /\
           ((forall c x, (c, x) ∈ axes_of (zip terms ops) -> d !! c = Some x) -> (prod_list ∘ shape) <$> vs = (s_size ∘ snd) <$> steps)).
  Proof.
    induction p as [|inds0 p IH]; [done|]. intros terms ops _ (Hne & Hnd & Hrange & Hruns) Hlen Hpl Hgood Hndo Hout Hd.
    simpl cp_loop. set (inds := sort_desc inds0) in *.
    assert (Hinds : desc inds) by by apply sort_desc_desc.
    assert (Hilen : length inds = length inds0) by (unfold inds; by rewrite sort_desc_perm).
    assert (Hrange' : Forall (fun i => i < length terms) inds) by (unfold inds; by rewrite sort_desc_perm).
    destruct (pops_ok inds terms Hinds Hrange') as (tmp & rest & Hpt & Htlen & Hrlen).
    destruct (pops_ok inds ops Hinds) as (tmpo & resto & Hpo & Htolen & Hrolen); [by rewrite <-Hlen|].
    destruct (pops_zip inds terms ops tmp rest tmpo resto Hlen Hpt Hpo) as (Hpz & Hl1 & Hl2).
    pose proof (pops_perm _ _ _ _ Hpz) as Hperm.
    pose proof (pops_fmap list_to_set _ _ _ _ Hpt : pops inds (list_to_set <$> terms : list (gset N)) = _) as Hps.
    pose proof (pops_fmap shape _ _ _ _ Hpo) as Hpsh.
    assert (Htne : tmp <> []) by (destruct tmp; [destruct inds0; simplify_eq/=; lia|done]).
    unfold find_contraction. assert (sort_desc inds = inds) as -> by apply sort_desc_idemp. rewrite Hps. cbn [mbind res_bind].
    assert (Hmatch : forall X (a b : X), match (list_to_set <$> tmp : list (gset N)) with [] => a | _ :: _ => b end = b) by (intros; by destruct tmp).
    rewrite Hmatch. clear Hmatch.
    set (sets' := list_to_set <$> rest : list (gset N)).
    set (contract_ := union_sets (list_to_set <$> tmp)).
    set (out_inds := (list_to_set output ∪ union_sets sets') ∩ contract_).
    simpl.
    assert (HlabP : forall c, c ∈ labels_of (zip tmp tmpo) <-> exists t, t ∈ tmp /\ c ∈ t) by (intros; by apply elem_labels_zip).
    assert (HlabQ : forall c, c ∈ labels_of (zip rest resto) <-> exists t, t ∈ rest /\ c ∈ t) by (intros; by apply elem_labels_zip).
    assert (Hcontract : forall c, c ∈ contract_ <-> c ∈ labels_of (zip tmp tmpo)).
    { intros c. unfold contract_. rewrite elem_union_terms, HlabP. done. }
    assert (Hoi : forall c, c ∈ out_inds <-> (c ∈ output \/ c ∈ labels_of (zip rest resto)) /\ c ∈ labels_of (zip tmp tmpo)).
    { intros c. unfold out_inds. rewrite elem_of_intersection, elem_of_union, Hcontract, elem_of_list_to_set.
      unfold sets'. rewrite elem_union_terms, HlabQ. done. }
    assert (Hlab : forall c, c ∈ labels_of (zip terms ops) <-> c ∈ labels_of (zip tmp tmpo) \/ c ∈ labels_of (zip rest resto)).
    { intros c. rewrite <-(labels_of_perm _ _ Hperm), labels_of_app, elem_of_app. done. }
    assert (HgPQ : good (zip tmp tmpo ++ zip rest resto)) by by eapply good_perm.
    assert (HgP : good (zip tmp tmpo)) by by eapply good_app_l.
    assert (Hpltmp : Forall (Forall plain) tmp /\ Forall (Forall plain) rest).
    { apply Forall_app. by rewrite (pops_perm _ _ _ _ Hpt). }
    destruct Hpltmp as [Hpltmp Hplrest].
    unfold flop_count. rewrite (compute_size_ok d (ord contract_)); [|intros c Hc; apply ord_elem, Hcontract in Hc; apply Hd, Hlab; auto].
    simpl. rewrite (compute_size_ok d (ord out_inds)); [|intros c Hc; apply ord_elem, Hoi in Hc as [_ Hc]; apply Hd, Hlab; auto].
    simpl. rewrite Hpt. simpl. rewrite Hpsh. simpl.
    set (flag := if use_blas then can_blas tmp (ord out_inds) (contract_ ∖ out_inds) (shape <$> tmpo) else BFalse).
    set (r := match p with [] => output | _ => sort_by_find (join [] tmp) (ord out_inds) end).
    assert (Hr_in : forall c, c ∈ r <-> c ∈ out_inds).
    { intros c. unfold r. destruct p as [|s p'].
      - simpl in Hruns.
        assert (Hrest : rest = []) by (destruct rest; simplify_eq/=; [done|]; lia).
        rewrite Hoi, HlabQ, Hrest. split.
        + intros Hc. split; [auto|]. apply Hout, Hlab in Hc as [?|Hc]; [done|]. apply HlabQ in Hc as (t & Ht & _). rewrite Hrest in Ht. by apply elem_of_nil in Ht.
        + intros [[?|(t & ?%elem_of_nil & _)] _]; done.
      - rewrite sort_by_find_perm. apply ord_elem. }
    assert (Hr_nd : NoDup r).
    { unfold r. destruct p; [done|]. rewrite sort_by_find_perm, ord_ok. apply NoDup_elements. }
    rewrite find_output_shape_ok; [|done|done|intros c Hc; by apply Hr_in, Hoi in Hc as [_ ?]].
    simpl.
    assert (Hgood' : good (zip rest resto ++ [(r, einsum (zip tmp tmpo) r)])).
    { apply good_step; [done|done|]. intros c Hc. by apply Hr_in, Hoi in Hc as [_ ?]. }
    assert (Hzip' : zip (rest ++ [r]) (resto ++ [einsum (zip tmp tmpo) r]) = zip rest resto ++ [(r, einsum (zip tmp tmpo) r)]).
    { by rewrite zip_with_app. }
    assert (Heq' : einsum (zip rest resto ++ [(r, einsum (zip tmp tmpo) r)]) output ≡ₜ einsum (zip terms ops) output).
    { rewrite (einsum_perm _ ((r, einsum (zip tmp tmpo) r) :: zip rest resto)); [|by rewrite Permutation_app_comm|by destruct Hgood'].
      rewrite einsum_step.
      - apply einsum_perm; [done|by destruct HgPQ].
      - by destruct HgP.
      - by destruct HgPQ.
      - done.
      - intros c Hc. by apply Hr_in, Hoi in Hc as [_ ?].
      - intros c Hc Hor. apply Hr_in, Hoi. auto.
      - intros c Hc. rewrite labels_of_app, elem_of_app. by apply Hlab, Hout. }
    (* the step itself *)
    assert (Hstep : forall T0s : list tens, Forall2 teq tmpo T0s ->
      (b_has_einsum B = true \/ flag <> BFalse) -> (use_tensordot B flag = true \/ size contract_ <= 52) ->
      exists T, (if use_tensordot B flag then run_tensordot ord B (equation tmp r) (contract_ ∖ out_inds) T0s
                 else run_einsum B (equation tmp r) T0s) = Ok T /\ einsum (zip tmp tmpo) r ≡ₜ T).
    { intros T0s HT0 Hf1 Hf2.
      assert (Hlen0 : length tmp = length T0s) by by rewrite Hl1, (Forall2_length _ _ _ HT0).
      pose proof (top_eq_zip tmp _ _ HT0) as Htop.
      assert (Hlab0 : labels_of (zip tmp T0s) = labels_of (zip tmp tmpo)) by by apply labels_of_congr.
      destruct (one_step_ok tmp T0s r out_inds (contract_ ∖ out_inds) flag) as (T & HT & HTeq); try done.
      - by eapply good_congr.
      - intros c Hc. rewrite Hlab0. by apply Hoi in Hc as [_ ?].
      - intros c. rewrite Hlab0, elem_of_difference, Hcontract. done.
      - intros Hfl. exists (shape <$> tmpo). split; [unfold flag in Hfl; by destruct use_blas|]. left.
        clear -HT0. induction HT0 as [|a b la lb [Hs _] _ IH]; [done|]. rewrite !fmap_cons. by rewrite Hs, IH.
      - destruct Hf2 as [?|Hf2]; [auto|]. right. etrans; [|exact Hf2]. apply subseteq_size. intros c.
        rewrite elem_of_list_to_set, Hlab0. apply Hcontract.
      - exists T. split; [done|]. rewrite HTeq. apply einsum_congr; [by destruct HgP|by destruct HgP|done]. }
    assert (Hrperm : r ≡ₚ ord out_inds).
    { apply NoDup_Permutation; [done|rewrite ord_ok; apply NoDup_elements|]. intros c. by rewrite ord_elem. }
    assert (Hsz : (forall c x, (c, x) ∈ axes_of (zip terms ops) -> d !! c = Some x) ->
       prod_list (dim (zip tmp tmpo) <$> r) = prod_list (size_of d <$> ord out_inds)).
    { intros Huni. rewrite <-(prod_list_perm (size_of d <$> r) (size_of d <$> ord out_inds)) by (by rewrite Hrperm). f_equal. apply list_fmap_ext'. intros c Hc. apply Hr_in, Hoi in Hc as [_ Hc].
      destruct (labels_axes _ _ (good_ranked _ HgP) Hc) as [x Hx].
      assert (Hd' : forall y, (c, y) ∈ axes_of (zip tmp tmpo) -> d !! c = Some y).
      { intros y Hy. apply Huni. rewrite <-(axes_of_perm _ _ Hperm), axes_of_app. apply elem_of_app. auto. }
      unfold size_of. rewrite (Hd' x Hx). simpl. apply dim_unique; [|auto]. intros y Hy. apply Hd' in Hy, Hx. right. congruence. }
    destruct p as [|s p'].
    - (* last step *)
      simpl. eexists. split; [reflexivity|]. intros Hfits ops' Hops'.
      inversion Hfits as [|? ? [Hf1 Hf2] _]; subst. cbn [fst snd c_blas s_scale] in Hf1, Hf2.
      simpl. unfold core_step. cbn [c_inds c_blas c_eq c_rm].
      destruct (pops_ok inds ops' Hinds) as (tmp' & rest' & Hpo' & Htl' & Hrl').
      { by rewrite <-(Forall2_length _ _ _ Hops'), <-Hlen. }
      rewrite Hpo'. cbn [mbind res_bind].
      assert (HFT : Forall2 teq tmpo tmp' /\ Forall2 teq resto rest').
      { by eapply pops_Forall2. }
      destruct HFT as [HFT HFR].
      destruct (Hstep tmp' HFT Hf1 Hf2) as (T & HT & HTeq).
      simpl in Hruns.
      assert (Hrest' : rest' = []) by (destruct rest'; [done|]; simpl in *; assert (length ops' = length ops) by (symmetry; by eapply Forall2_length); lia).
      lazymatch goal with |- context [if use_tensordot B flag then ?a else ?b] => replace (if use_tensordot B flag then a else b) with (Ok T) by (symmetry; exact HT) end.
      cbn [mbind res_bind]. exists T. rewrite Hrest'. split; [done|].
      split; [|exists [T]; split; [done|]; intros Huni; simpl; f_equal; rewrite <-Hsz by done; destruct HTeq as [HTs _]; by rewrite <-HTs].
      rewrite <-HTeq. assert (Hrest : zip rest resto = []) by (destruct rest; [done|]; simpl in *; lia).
      rewrite Hrest in Hperm. rewrite app_nil_r in Hperm. unfold r. apply einsum_perm; [done|by destruct HgP].
    - destruct (IH (rest ++ [r]) (resto ++ [einsum (zip tmp tmpo) r])) as (steps & Hcp & Hcore).
      + done.
      + rewrite app_length, Hrlen, Hilen. simpl. done.
      + rewrite !app_length. simpl. lia.
      + apply Forall_app. split; [done|]. constructor; [|constructor]. rewrite Forall_forall. intros c Hc.
        apply Hr_in, Hoi in Hc as [_ Hc]. apply HlabP in Hc as (t & Ht & Hc). exact (plain_in tmp t c Hpltmp Ht Hc).
      + by rewrite Hzip'.
      + done.
      + intros c Hc. rewrite Hzip'. rewrite labels_of_app, elem_of_app.
        destruct (decide (c ∈ r)) as [Hcr|Hcr]; [right; apply elem_of_labels; eexists; split; [by left|done]|].
        left. apply Hout in Hc as Hc2. apply Hlab in Hc2 as [Hc2|?]; [|done]. destruct Hcr. apply Hr_in, Hoi. auto.
      + intros c. rewrite Hzip', labels_of_app, elem_of_app. intros [Hc|Hc]; [apply Hd, Hlab; auto|].
        apply elem_of_labels in Hc as (q & ->%elem_of_list_singleton & Hc). simpl in Hc. apply Hr_in, Hoi in Hc as [_ Hc]. apply Hd, Hlab. auto.
      + rewrite Hzip' in Hcore.
        assert (Hsets : sets' ++ [out_inds] = list_to_set <$> (rest ++ [r])).
        { rewrite fmap_app. unfold sets'. simpl. do 2 f_equal. apply set_eq. intros c. rewrite elem_of_list_to_set. by rewrite Hr_in. }
        assert (Hshapes : (shape <$> resto) ++ [dim (zip tmp tmpo) <$> r] = shape <$> (resto ++ [einsum (zip tmp tmpo) r])).
        { by rewrite fmap_app. }
        fold sets' in Hcp. rewrite <-Hsets, <-Hshapes in Hcp. rewrite Hcp. cbn [mbind res_bind].
        eexists. split; [reflexivity|]. intros Hfits ops' Hops'.
        inversion Hfits as [|? ? [Hf1 Hf2] Hfits']; subst. cbn [fst snd c_blas s_scale] in Hf1, Hf2.
        rewrite fmap_cons. cbn [foldM_res fst].
        destruct (pops_ok inds ops' Hinds) as (tmp' & rest' & Hpo' & Htl' & Hrl').
        { by rewrite <-(Forall2_length _ _ _ Hops'), <-Hlen. }
        assert (HFT : Forall2 teq tmpo tmp' /\ Forall2 teq resto rest').
        { by eapply pops_Forall2. }
        destruct HFT as [HFT HFR].
        destruct (Hstep tmp' HFT Hf1 Hf2) as (T & HT & HTeq).
        lazymatch goal with |- context [core_step ord B ops' ?c] => assert (Hcs : core_step ord B ops' c = Ok (rest' ++ [T])) end.
        { unfold core_step. cbn [c_inds c_blas c_eq c_rm]. rewrite Hpo'. cbn [mbind res_bind].
          lazymatch goal with |- context [if use_tensordot B flag then ?a else ?b] => replace (if use_tensordot B flag then a else b) with (Ok T) by (symmetry; exact HT) end.
          done. }
        rewrite Hcs. cbn [mbind res_bind].
        destruct (Hcore Hfits' (rest' ++ [T])) as (T' & HT' & HT'eq & vs & Hvs & Hvsz).
        { apply Forall2_app; [done|]. by constructor. }
        exists T'. split; [exact HT'|]. split; [by rewrite HT'eq|].
        exists (T :: vs). cbn [step_results]. rewrite Hcs. cbn [mbind res_bind]. rewrite last_snoc. cbn [of_opt mbind res_bind].
        rewrite Hvs. cbn [mbind res_bind]. split; [done|]. intros Huni. rewrite !fmap_cons. f_equal.
        * simpl. destruct HTeq as [HTs _]. rewrite <-HTs. simpl. by rewrite Hsz.
        * apply Hvsz. intros c x Hcx. rewrite axes_of_app, elem_of_app in Hcx. destruct Hcx as [Hcx|Hcx].
          -- apply Huni. rewrite <-(axes_of_perm _ _ Hperm), axes_of_app. apply elem_of_app. auto.
          -- apply elem_of_axes in Hcx as (q & i & ->%elem_of_list_singleton & Hi & Hx). simpl in Hi, Hx.
             rewrite list_lookup_fmap, Hi in Hx. simpl in Hx. injection Hx as <-.
             assert (Hc : c ∈ labels_of (zip tmp tmpo)) by (apply elem_of_list_lookup_2, Hr_in, Hoi in Hi as [_ ?]; done).
             destruct (labels_axes _ _ (good_ranked _ HgP) Hc) as [x Hx].
             assert (Hd' : forall y, (c, y) ∈ axes_of (zip tmp tmpo) -> d !! c = Some y).
             { intros y Hy. apply Huni. rewrite <-(axes_of_perm _ _ Hperm), axes_of_app. apply elem_of_app. auto. }
             rewrite (Hd' x Hx). f_equal. symmetry. apply dim_unique; [|auto]. intros y Hy. apply Hd' in Hy, Hx. right. congruence.
  Qed.
End Loop.
