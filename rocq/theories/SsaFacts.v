(** ssa_to_linear and linear_to_ssa keep the contraction tree and undo each other. *)
From Verif Require Import Prelude Contract Spec PathSpec StringFacts StepFacts ContractFacts PathFacts Ssa SsaSpec.

(** ** Ascending lists *)
Notation asc := (StronglySorted lt).
Lemma asc_NoDup l : asc l -> NoDup l.
Proof.
  induction 1 as [|x l Hl IH Hx]; constructor; [|done]. intros Hin. rewrite Forall_forall in Hx. apply Hx in Hin. lia.
Qed.
Lemma asc_unique l k : asc l -> asc k -> (forall x, x ∈ l <-> x ∈ k) -> l = k.
Proof.
  intros Hl Hk H. eapply (@StronglySorted_unique nat lt); [|exact Hl|exact Hk|].
  - intros x1 x2 ? ?. lia.
  - apply NoDup_Permutation; [by apply asc_NoDup..|done].
Qed.
Lemma asc_sublist l k : sublist l k -> asc k -> asc l.
Proof.
  induction 1 as [|x l k Hs IH|x l k Hs IH]; intros Hk; [done| |]; inversion_clear Hk as [|? ? Hk' Hx]; [|auto].
  constructor; [auto|]. rewrite Forall_forall in *. intros y Hy. apply Hx. by eapply elem_of_submseteq; [|apply sublist_submseteq].
Qed.
Lemma asc_snoc l x : asc l -> Forall (fun y => y < x) l -> asc (l ++ [x]).
Proof.
  induction 1 as [|y l Hl IH Hy]; intros Hlt; simpl; [repeat constructor|]. apply Forall_cons in Hlt as [Hyx Hlt].
  constructor; [auto|]. rewrite Forall_app. split; [done|]. by repeat constructor.
Qed.
Lemma asc_seq s n : asc (seq s n).
Proof.
  revert s. induction n as [|n IH]; intros s; simpl; constructor; [apply IH|]. apply Forall_forall. intros x Hx%elem_of_seq. lia.
Qed.
Lemma filter_sub {A} (P : A -> Prop) `{forall x, Decision (P x)} l : sublist (filter P l) l.
Proof. induction l as [|x l IH]; [done|]. rewrite filter_cons. case_decide; by constructor. Qed.
Lemma asc_filter (P : nat -> Prop) `{forall x, Decision (P x)} l : asc l -> asc (filter P l).
Proof. apply asc_sublist, filter_sub. Qed.
Lemma sort_nat_asc l : NoDup l -> asc (sort_nat l).
Proof.
  intros Hnd. unfold sort_nat. pose proof (StronglySorted_merge_sort (≤) l) as Hs.
  pose proof (merge_sort_Permutation (≤) l) as Hp. assert (Hnd' : NoDup (merge_sort (≤) l)) by by rewrite Hp.
  clear Hp Hnd. induction Hs as [|x k Hk IH Hx]; [constructor|]. apply NoDup_cons in Hnd' as [Hn Hnd'].
  constructor; [auto|]. rewrite Forall_forall in *. intros y Hy. specialize (Hx y Hy). assert (x <> y) by by intros ->. lia.
Qed.
Lemma elem_sort_nat x l : x ∈ sort_nat l <-> x ∈ l.
Proof. unfold sort_nat. by rewrite merge_sort_Permutation. Qed.
Lemma sort_nat_perm l : sort_nat l ≡ₚ l.
Proof. apply merge_sort_Permutation. Qed.
Lemma sort_desc_rev l : NoDup l -> sort_desc l = reverse (sort_nat l).
Proof.
  intros Hnd. eapply (@StronglySorted_unique nat geq).
  - intros x y. unfold geq. lia.
  - apply (StronglySorted_merge_sort geq).
  - assert (Ha : asc (sort_nat l)) by by apply sort_nat_asc. induction Ha as [|x k Hk IH Hx]; [constructor|].
    rewrite reverse_cons. clear Hk. revert IH. assert (Hx' : Forall (fun y => x < y) (reverse k)) by by rewrite reverse_Permutation.
    clear Hx. revert Hx'. generalize (reverse k). intros m Hm. induction m as [|z m IHm]; intros Hs; [repeat constructor|].
    apply Forall_cons in Hm as [Hz Hm]. inversion_clear Hs as [|? ? Hs' Hzm]. simpl. constructor; [auto|].
    apply Forall_app. split; [done|]. repeat constructor. unfold geq. lia.
  - unfold sort_desc. by rewrite merge_sort_Permutation, reverse_Permutation, sort_nat_perm.
Qed.

(** ** Selection *)
Section Sel2.
  Context {A : Type}.
  Implicit Types l : list A.
  Lemma sel_sublist P k l : sublist (sel P k l) l.
  Proof. revert k. induction l as [|x l IH]; intros k; simpl; [done|]. destruct (P k); [by apply sublist_skip|by apply sublist_cons]. Qed.
  Lemma elem_sel P k l x : x ∈ sel P k l <-> exists i, l !! i = Some x /\ P (k + i) = true.
  Proof.
    revert k. induction l as [|y l IH]; intros k; simpl.
    - split; [by intros ?%elem_of_nil|by intros (i & ? & _)].
    - assert (Hrest : x ∈ sel P (S k) l <-> exists i, (y :: l) !! (S i) = Some x /\ P (k + S i) = true).
      { rewrite IH. by setoid_rewrite <-plus_n_Sm. }
      destruct (P k) eqn:HP; [rewrite elem_of_cons, Hrest|rewrite Hrest]; split.
      + intros [->|(i & ?)]; [exists 0; by rewrite Nat.add_0_r|by exists (S i)].
      + intros ([|i] & H1 & H2); [left; simpl in H1; congruence|right; eauto].
      + intros (i & ?). by exists (S i).
      + intros ([|i] & H1 & H2); [rewrite Nat.add_0_r in H2; congruence|eauto].
  Qed.
  Lemma elem_chosen s l x : x ∈ chosen s l <-> exists i, l !! i = Some x /\ i ∈ s.
  Proof. rewrite sel_chosen, elem_sel. by setoid_rewrite bool_decide_eq_true. Qed.
  Lemma elem_others s l x : x ∈ others s l <-> exists i, l !! i = Some x /\ i ∉ s.
  Proof. rewrite sel_others, elem_sel. by setoid_rewrite bool_decide_eq_true. Qed.
  Lemma chosen_sublist s l : sublist (chosen s l) l.
  Proof. rewrite sel_chosen. apply sel_sublist. Qed.
  Lemma others_sublist s l : sublist (others s l) l.
  Proof. rewrite sel_others. apply sel_sublist. Qed.
End Sel2.
  (** Taking the operands at ascending positions one by one is the selection. *)
  Lemma chosen_asc {A} s (l : list A) : asc s -> Forall (fun i => i < length l) s -> Some <$> chosen s l = (fun i => l !! i) <$> s.
  Proof.
    intros Ha Hr. rewrite <-chosen_fmap.
    assert (Hl : Some <$> l = (fun i => l !! i) <$> seq 0 (length l)).
    { apply list_eq. intros i. rewrite !list_lookup_fmap. destruct (decide (i < length l)) as [Hi|Hi].
      - rewrite lookup_seq_lt by done. simpl. by destruct (lookup_lt_is_Some_2 l i Hi) as [x ->].
      - rewrite (lookup_ge_None_2 l), (lookup_ge_None_2 (seq _ _)) by (rewrite ?seq_length; lia). done. }
    rewrite Hl, chosen_fmap. f_equal. apply asc_unique; [eapply asc_sublist; [apply chosen_sublist|apply asc_seq]|done|].
    intros x. rewrite elem_chosen. rewrite Forall_forall in Hr. split.
    - intros (i & Hi & Hs). apply lookup_seq in Hi as [-> _]. done.
    - intros Hx. exists x. split; [|done]. by rewrite lookup_seq_lt by auto.
  Qed.


Lemma bisect_lookup ids k s : asc ids -> ids !! k = Some s -> bisect_left ids s = k.
Proof.
  unfold bisect_left. intros Ha. revert k. induction Ha as [|x l Hl IH Hx]; intros k Hk; [done|].
  rewrite filter_cons. rewrite Forall_forall in Hx. destruct k as [|k]; simpl in Hk.
  - injection Hk as ->. rewrite decide_False by lia. assert (Hn : filter (fun x => x < s) l = []); [|by rewrite Hn].
    apply elem_of_nil_inv. intros y Hy%elem_of_list_filter. destruct Hy as [Hy Hin]. apply Hx in Hin. lia.
  - rewrite decide_True by (eapply Hx, elem_of_list_lookup_2; exact Hk). simpl. f_equal. by apply IH.
Qed.

(** ** One step *)
Section Step.
  Variables (ids s : list nat).
  Hypothesis Hasc : asc ids.
  Hypothesis Hs : NoDup s.
  Hypothesis Hin : forall i, i ∈ s -> i ∈ ids.
  Let con := sort_nat (bisect_left ids <$> s).

  Lemma bisect_mem i : i ∈ s -> ids !! bisect_left ids i = Some i.
  Proof. intros Hi. destruct (elem_of_list_lookup_1 _ _ (Hin i Hi)) as [k Hk]. by rewrite (bisect_lookup ids k i). Qed.
  Lemma bisect_NoDup : NoDup (bisect_left ids <$> s).
  Proof.
    apply NoDup_fmap_2_strong; [|done]. intros x y Hx Hy Heq. apply bisect_mem in Hx, Hy. rewrite Heq in Hx. congruence.
  Qed.
  Lemma con_asc : asc con.
  Proof. apply sort_nat_asc, bisect_NoDup. Qed.
  Lemma elem_con k : k ∈ con <-> exists i, i ∈ s /\ ids !! k = Some i.
  Proof.
    unfold con. rewrite elem_sort_nat, elem_of_list_fmap. split.
    - intros (i & -> & Hi). exists i. split; [done|]. by apply bisect_mem.
    - intros (i & Hi & Hk). exists i. split; [|done]. symmetry. by apply bisect_lookup.
  Qed.
  Lemma con_range : Forall (fun i => i < length ids) con.
  Proof. apply Forall_forall. intros k (i & _ & Hk)%elem_con. by apply lookup_lt_Some in Hk. Qed.
  Lemma con_length : length con = length s.
  Proof. unfold con. by rewrite sort_nat_perm, fmap_length. Qed.
  Lemma chosen_con : chosen con ids = sort_nat s.
  Proof.
    apply asc_unique; [eapply asc_sublist; [apply chosen_sublist|done]|by apply sort_nat_asc|]. intros x.
    rewrite elem_chosen, elem_sort_nat. setoid_rewrite elem_con. split.
    - intros (k & Hk & i & Hi & Hk'). congruence.
    - intros Hx. exists (bisect_left ids x). split; [by apply bisect_mem|]. exists x. split; [done|]. by apply bisect_mem.
  Qed.
  Lemma others_con : others con ids = filter (.∉ s) ids.
  Proof.
    apply asc_unique; [eapply asc_sublist; [apply others_sublist|done]|by apply asc_filter|]. intros x.
    rewrite elem_others, elem_of_list_filter. setoid_rewrite elem_con. split.
    - intros (k & Hk & Hn). split; [|by eapply elem_of_list_lookup_2]. intros Hx. apply Hn. eauto.
    - intros (Hn & Hx). apply elem_of_list_lookup in Hx as [k Hk]. exists k. split; [done|]. intros (i & Hi & Hk'). congruence.
  Qed.
  Lemma con_rev_desc : desc (reverse con).
  Proof.
    unfold con. rewrite <-sort_desc_rev by apply bisect_NoDup. apply sort_desc_desc, bisect_NoDup.
  Qed.
  Lemma pops_con : exists tmp, pops (reverse con) ids = Ok (tmp, filter (.∉ s) ids).
  Proof.
    destruct (pops_select (reverse con) ids con_rev_desc) as (tmp & Hp & _).
    { rewrite reverse_Permutation. apply con_range. }
    exists tmp. rewrite Hp. rewrite (others_perm _ con) by apply reverse_Permutation. by rewrite others_con.
  Qed.
End Step.

(** ** ssa_to_linear *)
Lemma run_path_results {A} (f : list A -> A) p l d : path_runs (length l) p -> p <> [] -> run_path f p l = [List.last (results f p l) d].
Proof.
  revert l. induction p as [|s p IH]; intros l Hr Hne; [done|]. simpl in Hr. destruct Hr as (H1 & H2 & H3 & H4).
  simpl run_path. simpl results. destruct p as [|s' p]; [|].
  - simpl in *. assert (Hl : length (others s l) = 0) by (rewrite others_length by done; lia). by destruct (others s l).
  - rewrite IH; [done| |done]. rewrite app_length, others_length by done. done.
Qed.

Lemma omap_some {A B} (g : A -> option B) (x : list B) (y : list A) : Some <$> x = g <$> y -> omap g y = x.
Proof.
  revert x. induction y as [|b y IH]; intros x H; [by destruct x|]. destruct x as [|a x]; [done|]. rewrite !fmap_cons in H. injection H as Ha H.
  simpl. rewrite <-Ha. f_equal. by apply IH.
Qed.

Lemma s2l_loop_ok p ids next : asc ids -> Forall (fun i => i < next) ids -> ssa_runs ids next p ->
  exists lp, s2l_loop next ids p = Ok lp /\ path_runs (length ids) lp /\
    (forall A (f : list A -> A) vals l, length vals = next -> Some <$> l = (fun i => vals !! i) <$> ids ->
       run_ssa f p vals = vals ++ results f lp l).
Proof.
  revert ids next. induction p as [|s p IH]; intros ids next Ha Hlt Hr.
  - exists []. simpl. split; [done|]. split; [done|]. intros. by rewrite app_nil_r.
  - destruct Hr as (Hne & Hnd & Hin & Hr). simpl s2l_loop.
    destruct (pops_con ids s Ha Hnd Hin) as (tmp & ->). cbn [mbind res_bind].
    assert (Hlt' : Forall (fun i => i < S next) (filter (.∉ s) ids ++ [next])).
    { rewrite Forall_forall in Hlt. apply Forall_forall. intros i [Hi%elem_of_list_filter| ->%elem_of_list_singleton]%elem_of_app; [|lia].
      destruct Hi as [_ Hi]. apply Hlt in Hi. lia. }
    destruct (IH (filter (.∉ s) ids ++ [next]) (S next)) as (lp & -> & Hp & Hrun); [|done|done|].
    { apply asc_snoc; [by apply asc_filter|]. rewrite Forall_forall in Hlt. apply Forall_forall. intros i Hi%elem_of_list_filter. by apply Hlt, Hi. }
    cbn [mbind res_bind]. set (con := sort_nat (bisect_left ids <$> s)) in *. exists (con :: lp). split; [done|].
    pose proof (con_range ids s Ha Hin) as Hcr. pose proof (con_asc ids s Ha Hnd Hin) as Hca. pose proof (con_length ids s) as Hcl.
    pose proof (others_con ids s Ha Hin) as Hoc. fold con in Hcr, Hca, Hcl, Hoc.
    split.
    + simpl. split; [intros E; rewrite E in Hcl; by destruct s|]. split; [by apply asc_NoDup|]. split; [done|].
      rewrite app_length, <-Hoc, others_length in Hp by (done || by apply asc_NoDup). done.
    + intros A f vals l Hlv Hl. simpl. rewrite (Hrun A f _ (others con l ++ [f (chosen con l)])).
      * rewrite <-app_assoc. simpl. f_equal.
        assert (Hsel : omap (fun i => vals !! i) (sort_nat s) = chosen con l); [|by rewrite Hsel].
        apply omap_some. rewrite <-chosen_fmap, Hl, chosen_fmap. f_equal. by apply chosen_con.
      * rewrite app_length. simpl. lia.
      * rewrite !fmap_app. f_equal.
        -- rewrite <-others_fmap, Hl, others_fmap, Hoc. apply list_fmap_ext'. intros i Hi%elem_of_list_filter. destruct Hi as [_ Hi].
           rewrite lookup_app_l; [done|]. rewrite Hlv. rewrite Forall_forall in Hlt. by apply Hlt.
        -- simpl. rewrite lookup_app_r by lia. rewrite Hlv, Nat.sub_diag. simpl. do 3 f_equal.
           symmetry. apply omap_some. rewrite <-chosen_fmap, Hl, chosen_fmap. f_equal. by apply chosen_con.
Qed.

Lemma ssa_arity p ids next : ssa_runs ids next p -> NoDup ids -> Forall (fun i => i < next) ids -> path_arity p = length ids.
Proof.
  unfold path_arity. intros H Hnd Hlt. cut (sum_list (length <$> p) + 1 = length ids + length p); [lia|]. revert ids next H Hnd Hlt.
  induction p as [|s p IH]; intros ids next H Hnd Hlt; simpl in *; [lia|].
  destruct H as (Hne & Hs & Hin & H). assert (Hf : length (filter (.∉ s) ids) + length s = length ids).
  { assert (Hp : filter (.∉ s) ids ++ s ≡ₚ ids).
    { apply NoDup_Permutation; [|done|].
      - apply NoDup_app. split; [by apply NoDup_filter|]. split; [|done]. intros x Hx%elem_of_list_filter. naive_solver.
      - intros x. rewrite elem_of_app, elem_of_list_filter. destruct (decide (x ∈ s)); naive_solver. }
    apply Permutation_length in Hp. rewrite app_length in Hp. done. }
  apply IH in H.
  - rewrite app_length in H. simpl in H. change (list_fmap (list nat) nat length p) with (length <$> p). lia.
  - apply NoDup_app. split; [by apply NoDup_filter|]. split; [|apply NoDup_singleton]. intros x [_ Hx]%elem_of_list_filter ->%elem_of_list_singleton.
    rewrite Forall_forall in Hlt. apply Hlt in Hx. lia.
  - rewrite Forall_forall in *. intros x [Hx| ->%elem_of_list_singleton]%elem_of_app; [|lia]. apply elem_of_list_filter in Hx as [_ Hx]. apply Hlt in Hx. lia.
Qed.
Lemma seq_lt n : Forall (fun i => i < n) (seq 0 n).
Proof. apply Forall_forall. intros i Hi%elem_of_seq. lia. Qed.

Lemma ssa_to_linear_ok n p : ssa_complete n p -> exists lp, ssa_to_linear p = Ok lp /\ path_runs n lp /\ length lp = length p /\
  forall A (f : list A -> A) l, length l = n -> run_ssa f p l = l ++ results f lp l.
Proof.
  intros H. unfold ssa_complete in H. unfold ssa_to_linear.
  rewrite (ssa_arity p (seq 0 n) n H (NoDup_seq 0 n) (seq_lt n)), seq_length.
  destruct (s2l_loop_ok p (seq 0 n) n (asc_seq 0 n) (seq_lt n) H) as (lp & Hlp & Hp & Hrun). rewrite seq_length in Hp.
  exists lp. split; [done|]. split; [done|]. split.
  - clear -Hlp. revert Hlp. generalize (seq 0 n). revert n lp. induction p as [|s p IH]; intros n lp ids H; simpl in H; [by injection H as <-|].
    apply bind_Ok in H as ([tmp ids'] & _ & H). apply bind_Ok in H as (rest & Hr & H). injection H as <-. simpl. f_equal. by eapply IH.
  - intros A f l Hl. apply (Hrun A f l l Hl). apply list_eq. intros i. rewrite !list_lookup_fmap. destruct (decide (i < n)) as [Hi|Hi].
    + rewrite lookup_seq_lt by done. simpl. by destruct (lookup_lt_is_Some_2 l i) as [x ->]; [lia|].
    + rewrite (lookup_ge_None_2 l), (lookup_ge_None_2 (seq _ _)) by (rewrite ?seq_length; lia). done.
Qed.

(** ** Round trips *)
Lemma mapM_lookup_chosen (s l : list nat) : asc s -> Forall (fun i => i < length l) s ->
  mapM_res (fun i => of_opt IndexError (l !! i)) s = Ok (chosen s l).
Proof.
  intros Ha Hr. apply chosen_asc in Hr as Hc; [|done]. clear Ha. revert Hc. generalize (chosen s l). clear Hr.
  induction s as [|i s IH]; intros c Hc; destruct c as [|x c]; try done. rewrite !fmap_cons in Hc. injection Hc as Hx Hc.
  simpl. rewrite <-Hx. simpl. by rewrite (IH c Hc).
Qed.
Lemma pops_sort_desc s (l : list nat) : NoDup s -> Forall (fun i => i < length l) s -> exists tmp, pops (sort_desc s) l = Ok (tmp, others s l).
Proof.
  intros Hnd Hr. destruct (pops_select (sort_desc s) l) as (tmp & Hp & _); [by apply sort_desc_desc|by rewrite sort_desc_perm|].
  exists tmp. rewrite Hp. by rewrite (others_perm _ s) by apply sort_desc_perm.
Qed.

Lemma s2l_l2s_loop p ids next lp : asc ids -> Forall (fun i => i < next) ids -> ssa_runs ids next p ->
  s2l_loop next ids p = Ok lp -> l2s_loop next ids lp = Ok (sort_nat <$> p).
Proof.
  revert ids next lp. induction p as [|s p IH]; intros ids next lp Ha Hlt Hr H; simpl in H; [by injection H as <-|].
  destruct Hr as (Hne & Hnd & Hin & Hr). destruct (pops_con ids s Ha Hnd Hin) as (tmp & Hp). rewrite Hp in H. cbn [mbind res_bind] in H.
  apply bind_Ok in H as (rest & Hrest & H). apply Ok_inj in H as <-. simpl.
  pose proof (con_range ids s Ha Hin) as Hcr. pose proof (con_asc ids s Ha Hnd Hin) as Hca.
  rewrite mapM_lookup_chosen by done. cbn [mbind res_bind]. rewrite chosen_con by done.
  destruct (pops_sort_desc (sort_nat (bisect_left ids <$> s)) ids) as (tmp' & ->); [by apply asc_NoDup|done|]. cbn [mbind res_bind].
  rewrite others_con by done. erewrite IH; [done| | |exact Hr|exact Hrest].
  - apply asc_snoc; [by apply asc_filter|]. rewrite Forall_forall in Hlt. apply Forall_forall. intros i Hi%elem_of_list_filter. by apply Hlt, Hi.
  - rewrite Forall_forall in *. intros i [Hi%elem_of_list_filter| ->%elem_of_list_singleton]%elem_of_app; [|lia].
    destruct Hi as [_ Hi]. apply Hlt in Hi. lia.
Qed.
Lemma ssa_linear_ssa n p lp : ssa_complete n p -> ssa_to_linear p = Ok lp -> linear_to_ssa lp = Ok (sort_nat <$> p).
Proof.
  intros H Hlp. assert (Hl : path_arity lp = path_arity p).
  { destruct (ssa_to_linear_ok n p H) as (lp' & Hlp' & _ & Hlen & _). assert (lp' = lp) as -> by congruence. clear Hlp'.
    unfold path_arity. rewrite Hlen. do 2 f_equal. clear -Hlp. unfold ssa_to_linear in Hlp. revert Hlp.
    generalize (seq 0 (path_arity p)). generalize (path_arity p). revert lp. induction p as [|s p IH]; intros lp n ids H; simpl in H; [by injection H as <-|].
    apply bind_Ok in H as ([tmp ids'] & _ & H). apply bind_Ok in H as (rest & Hr & H). injection H as <-. rewrite !fmap_cons. simpl. f_equal; [|by eapply IH].
    by rewrite sort_nat_perm, fmap_length. }
  unfold linear_to_ssa, ssa_to_linear in *. rewrite Hl. unfold ssa_complete in H.
  rewrite (ssa_arity p (seq 0 n) n H (NoDup_seq 0 n) (seq_lt n)), seq_length in *.
  eapply s2l_l2s_loop; [apply asc_seq|apply seq_lt|done|done].
Qed.

Lemma l2s_step (s l : list nat) : NoDup s -> Forall (fun i => i < length l) s ->
  exists scon, mapM_res (fun i => of_opt IndexError (l !! i)) s = Ok scon /\ length scon = length s /\ (fun i => l !! i) <$> s = Some <$> scon.
Proof.
  intros _. induction s as [|i s IH]; intros Hr; [by exists []|]. apply Forall_cons in Hr as [Hi Hr].
  destruct (lookup_lt_is_Some_2 l i Hi) as [x Hx]. destruct (IH Hr) as (scon & Hm & Hl & Hf). exists (x :: scon). simpl. rewrite Hx. simpl. rewrite Hm.
  split; [done|]. split; [by rewrite Hl|]. rewrite <-Hx. by f_equal.
Qed.
Lemma l2s_loop_ok p l next : asc l -> Forall (fun i => i < next) l -> path_runs (length l) p ->
  exists sp, l2s_loop next l p = Ok sp /\ ssa_runs l next sp /\ s2l_loop next l sp = Ok (sort_nat <$> p) /\ length <$> sp = length <$> p.
Proof.
  revert l next. induction p as [|s p IH]; intros l next Ha Hlt Hr; [by exists []|].
  destruct Hr as (Hne & Hnd & Hr & Hp). simpl l2s_loop. destruct (l2s_step s l Hnd Hr) as (scon & Hm & Hlen & Hf). rewrite Hm. cbn [mbind res_bind].
  destruct (pops_sort_desc s l Hnd Hr) as (tmp & ->). cbn [mbind res_bind].
  assert (Hmem : forall x, x ∈ scon <-> exists i, i ∈ s /\ l !! i = Some x).
  { intros x. split.
    - intros Hx. apply (elem_of_list_fmap_1 Some) in Hx. rewrite <-Hf in Hx. apply elem_of_list_fmap in Hx as (i & Hi & ?). eauto.
    - intros (i & Hi & Hx). assert (Hy : Some x ∈ Some <$> scon) by (rewrite <-Hf; apply elem_of_list_fmap; eauto).
      apply elem_of_list_fmap in Hy as (y & Hy & ?). congruence. }
  assert (Hsin : forall i, i ∈ scon -> i ∈ l) by (intros i (k & _ & Hk)%Hmem; by eapply elem_of_list_lookup_2).
  assert (Hsnd : NoDup scon).
  { apply (NoDup_fmap_1 Some). rewrite <-Hf. apply NoDup_fmap_2_strong; [|done]. intros i j Hi Hj Heq.
    rewrite Forall_forall in Hr. destruct (lookup_lt_is_Some_2 l i (Hr i Hi)) as [x Hx]. rewrite Hx in Heq. symmetry in Heq.
    by apply (NoDup_lookup l i j x (asc_NoDup l Ha)). }
  assert (Hbis : bisect_left l <$> scon = s).
  { clear -Hf Ha. revert scon Hf. induction s as [|i s IH]; intros scon Hf; destruct scon as [|x scon]; try done.
    rewrite !fmap_cons in Hf. injection Hf as Hx Hf. rewrite fmap_cons. f_equal; [by apply bisect_lookup|by apply IH]. }
  assert (Ho : others s l = filter (.∉ scon) l).
  { rewrite <-(others_con l scon Ha Hsin), Hbis. symmetry. apply others_perm, sort_nat_perm. }
  rewrite Ho. destruct (IH (filter (.∉ scon) l ++ [next]) (S next)) as (sp & -> & H1 & H2 & H3).
  - apply asc_snoc; [by apply asc_filter|]. rewrite Forall_forall in Hlt. apply Forall_forall. intros i Hi%elem_of_list_filter. by apply Hlt, Hi.
  - rewrite Forall_forall in *. intros i [Hi%elem_of_list_filter| ->%elem_of_list_singleton]%elem_of_app; [|lia].
    destruct Hi as [_ Hi]. apply Hlt in Hi. lia.
  - rewrite app_length, <-Ho, others_length by done. done.
  - cbn [mbind res_bind]. exists (scon :: sp). split; [done|]. split.
    + simpl. split; [intros ->; by destruct s|]. done.
    + simpl. destruct (pops_con l scon Ha Hsnd Hsin) as (tmp' & Hp'). rewrite Hbis in *. rewrite Hp'. cbn [mbind res_bind]. rewrite H2. cbn [mbind res_bind].
      split; [done|]. by f_equal.
Qed.
Lemma path_runs_arity n p : path_runs n p -> path_arity p = n.
Proof.
  unfold path_arity. intros H. cut (sum_list (length <$> p) + 1 = n + length p); [lia|]. revert n H.
  induction p as [|s p IH]; intros n H; simpl in *; [lia|]. destruct H as (Hne & Hnd & Hr & H). apply IH in H.
  change (list_fmap (list nat) nat length p) with (length <$> p).
  assert (length s <= n); [|lia]. replace n with (length (seq 0 n)) by apply seq_length. apply submseteq_length, NoDup_submseteq; [done|].
  rewrite Forall_forall in Hr. intros x Hx. apply elem_of_seq. specialize (Hr x Hx). lia.
Qed.
Lemma linear_ssa_linear n p : path_runs n p -> exists sp, linear_to_ssa p = Ok sp /\ ssa_complete n sp /\ ssa_to_linear sp = Ok (sort_nat <$> p) /\ length <$> sp = length <$> p.
Proof.
  intros H. unfold linear_to_ssa. rewrite (path_runs_arity n p H).
  destruct (l2s_loop_ok p (seq 0 n) n (asc_seq 0 n) (seq_lt n)) as (sp & Hsp & Hr & Hl & Hlen); [by rewrite seq_length|].
  exists sp. split; [done|]. split; [done|]. unfold ssa_to_linear. replace (path_arity sp) with n; [done|].
  symmetry. rewrite (ssa_arity sp (seq 0 n) n Hr (NoDup_seq 0 n) (seq_lt n)). apply seq_length.
Qed.
