(** C48: what was computed in a context is not computed again. *)
From Verif Require Import Prelude Einsum Parser Helpers Contract Spec StringFacts StepFacts ContractFacts ExprFacts Sharing SharingSpec SharingFacts SharingMain Threads ThreadSpec.

Section Hit.
  Context {K : semiring}.
  Notation tens := (tensor K).
  Variable ord : gset N -> list N.
  Variable lib : str -> backend K.
  Variable alloc : nat -> gset nat -> nat.
  Hypothesis alloc_ok : forall t X, alloc t X ∉ X.
  Variable keep : nat -> nat -> bool.
  Variable conv : str -> tens -> res tens.
  Definition P (X : list nat) (h : gmap nat tens) (m : cache) (k : key) (r : nat) : Prop := True.
  Notation winv := (winv P).
  Notation act := (act ord lib alloc keep conv).

  Lemma P_t : forall X (h : gmap nat tens) (m : cache) i, P X h m (KTensor i) i. Proof. done. Qed.
  Lemma P_m : forall (X X' : list nat) (h h' : gmap nat tens) (m m' : cache) (k : key) (r : nat), P X h m k r -> m ⊆ m' -> (forall i, i ∈ X -> i ∈ X') ->
    (forall k r, m !! k = Some r -> h' !! r = h !! r) -> (forall i, i ∈ X -> h' !! i = h !! i) -> m !! k = Some r -> P X' h' m' k r.
  Proof. done. Qed.
  Lemma any : any_op lib P.
  Proof. done. Qed.

  Definition top (w : world K) (tid c : nat) : Prop := exists l, w_stacks w !! tid = Some (c :: l).
  (** The cache [c] of [w'] is still there in [w2], and its arrays have their values. *)
  Definition remembers (c : nat) (w' w2 : world K) : Prop :=
    exists m' m2, w_caches w' !! c = Some m' /\ w_caches w2 !! c = Some m2 /\ m' ⊆ m2 /\ (forall k r, m' !! k = Some r -> w_heap w2 !! r = w_heap w' !! r).
  (** Nothing is added. *)
  Record quiet (w w' : world K) : Prop := Quiet {
    q_heap : w_heap w' ⊆ w_heap w; q_caches : w_caches w' = w_caches w; q_stacks : w_stacks w' = w_stacks w; q_held : w_held w' = w_held w;
    q_keeps : keeps w w' [] }.

  Lemma quiet_refl w : quiet w w. Proof. by split. Qed.
  Lemma quiet_trans w1 w2 w3 : quiet w1 w2 -> quiet w2 w3 -> quiet w1 w3.
  Proof.
    intros [A1 A2 A3 A4 A5] [B1 B2 B3 B4 B5]. split; [by etrans|congruence..|]. intros i Hl Hi. rewrite B5; [by apply A5| |].
    - unfold live. by rewrite A5.
    - destruct Hi as [Hi|[Hi|(c & m & k & Hc & Hk)]]; [by left|right; left; by rewrite A4|right; right]. exists c, m, k. by rewrite A2.
  Qed.
  Lemma quiet_grows w w' : quiet w w' -> grows w w' [].
  Proof. intros [A1 A2 A3 A4 A5]. split; [done..|]. intros c m Hc. exists m. by rewrite A2. Qed.
  Lemma quiet_inv w w' : winv w -> quiet w w' -> winv w'.
  Proof. intros HW HQ. eapply (grows_inv P P_m w w' []); [done|by apply quiet_grows|by destruct HQ]. Qed.
  Lemma quiet_top w w' tid c : quiet w w' -> top w tid c -> top w' tid c.
  Proof. intros [_ _ A _ _] [l Hl]. exists l. by rewrite A. Qed.
  Lemma quiet_remembers c w w2 w3 : winv w2 -> quiet w2 w3 -> remembers c w w2 -> remembers c w w3.
  Proof.
    intros HW [A1 A2 A3 A4 A5] (m & m2 & H1 & H2 & H3 & H4). exists m, m2. split; [done|]. split; [by rewrite A2|]. split; [done|].
    intros k r Hk. assert (Hk2 : m2 !! k = Some r) by by eapply lookup_weaken. rewrite A5; [by eapply H4| |].
    - by destruct (wi_entry _ _ HW _ _ _ _ H2 Hk2).
    - right. right. by exists c, m2, k.
  Qed.
  Lemma collect_quiet w X : quiet w (collect keep w X).
  Proof.
    split; [|done..|].
    - apply map_subseteq_spec. intros i x Hx. simpl in Hx. by apply map_filter_lookup_Some in Hx as [? _].
    - intros i Hl Hi. apply (gr_keeps _ _ _ (collect_grows keep w X)); [done|]. destruct Hi as [Hi|Hi]; [by apply elem_of_nil in Hi|by right].
  Qed.
  Lemma remembers_earlier c w w' w2 X : winv w -> grows w w' X -> is_Some (w_caches w !! c) -> remembers c w' w2 -> remembers c w w2.
  Proof.
    intros HW HG [m Hm] (m' & m2 & H1 & H2 & H3 & H4). destruct (gr_caches _ _ _ HG c m Hm) as (m1 & Hm1 & Hs).
    assert (m1 = m') as -> by congruence. exists m, m2. split; [done|]. split; [done|]. split; [by etrans|].
    intros k r Hk. rewrite (H4 k r) by by eapply lookup_weaken. apply (gr_keeps _ _ _ HG).
    - by destruct (wi_entry _ _ HW _ _ _ _ Hm Hk).
    - right. right. by exists c, m, k.
  Qed.
  Lemma top_cache w tid c : winv w -> top w tid c -> is_Some (w_caches w !! c).
  Proof. intros HW [l Hl]. destruct (wi_stack _ _ HW _ _ Hl) as [_ H]. by apply Forall_cons in H as [? _]. Qed.
  Lemma grows_top w w' X tid c : grows w w' X -> top w tid c -> top w' tid c.
  Proof. intros HG [l Hl]. exists l. by rewrite (gr_stacks _ _ _ HG). Qed.

  Lemma save_same (m : cache) ids : (forall i, i ∈ ids -> m !! KTensor i = Some i) -> foldl (fun m i => <[KTensor i := i]> m) m ids = m.
  Proof.
    revert m. induction ids as [|i ids IH]; intros m H; simpl; [done|].
    rewrite insert_id by (apply H; by left). apply IH. intros j Hj. apply H. by right.
  Qed.

  (** The first call leaves its entry, and a later call with the same key finds it. *)
  Lemma op_entry w tid c roots save kf fn ids w' r : winv w -> top w tid c -> Forall (live w) ids ->
    (forall k, kf (collect keep w (ids ++ roots)) = Ok k -> forall i, k <> KTensor i) ->
    cached_op alloc keep w tid roots save kf fn ids = (w', Ok r) ->
    exists k m', kf (collect keep w (ids ++ roots)) = Ok k /\ w_caches w' !! c = Some m' /\ m' !! k = Some r /\
      (save = true -> forall i, i ∈ ids -> m' !! KTensor i = Some i).
  Proof.
    intros HW [l Hst] Hl Hkt. unfold cached_op. set (w0 := collect keep w (ids ++ roots)) in *. unfold currently_sharing.
    assert (Hst0 : w_stacks w0 !! tid = Some (c :: l)) by done. rewrite bool_decide_true by (rewrite Hst0; eauto). cbn [negb].
    destruct (kf w0) as [k|e] eqn:Hk; [|done]. cbn [lift]. unfold get_sharing_cache. rewrite Hst0. cbn [sbind].
    destruct (top_cache w tid c HW) as [m Hm]; [by exists l|]. assert (Hm0 : w_caches w0 !! c = Some m) by done.
    pose proof (save_map m ids) as [Hsm _].
    set (m1 := if save then foldl (fun m i => <[KTensor i := i]> m) m ids else m).
    assert (Hsv : save = true -> forall i, i ∈ ids -> m1 !! KTensor i = Some i) by (intros E; unfold m1; by rewrite E).
    assert (Hc1 : exists w1, (if save then save_tensors w0 c ids else w0) = w1 /\ w_caches w1 !! c = Some m1).
    { unfold m1, save_tensors, get_cache. rewrite Hm0. destruct save; [|by exists w0]. eexists. split; [reflexivity|]. simpl. by rewrite lookup_insert. }
    destruct Hc1 as (w1 & -> & Hc1). unfold memoize, get_cache. rewrite Hc1. simpl.
    destruct (m1 !! k) as [r'|] eqn:Hmk.
    - intros [= <- <-]. exists k, m1. split; [done|]. split; [done|]. split; [done|]. done.
    - unfold plain_call. destruct (values w1 ids ≫= fn) as [T|e]; cbn [lift]; [|done].
      destruct (new_object alloc w1 T) as [w2 r2] eqn:En. destruct (new_object_grows alloc alloc_ok w1 T w2 r2 [] En) as (_ & _ & _ & Hcs).
      cbn [sbind]. intros [= <- <-]. exists k, (<[k := r2]> m1). split; [done|]. rewrite Hcs, Hc1. simpl. rewrite lookup_insert. split; [done|].
      rewrite lookup_insert. split; [done|]. intros E i Hi. rewrite lookup_insert_ne; [by apply Hsv|]. by apply Hkt.
  Qed.
  Lemma op_again w tid c roots save kf fn ids k r m : winv w -> top w tid c -> w_caches w !! c = Some m -> m !! k = Some r ->
    (save = true -> forall i, i ∈ ids -> m !! KTensor i = Some i) -> kf (collect keep w (ids ++ roots)) = Ok k ->
    exists w', cached_op alloc keep w tid roots save kf fn ids = (w', Ok r) /\ quiet w w'.
  Proof.
    intros HW [l Hst] Hm Hk Hsv Hkf. unfold cached_op. pose proof (collect_quiet w (ids ++ roots)) as HQ. set (w0 := collect keep w (ids ++ roots)) in *.
    unfold currently_sharing. assert (Hst0 : w_stacks w0 !! tid = Some (c :: l)) by done. rewrite bool_decide_true by (rewrite Hst0; eauto). cbn [negb].
    rewrite Hkf. cbn [lift]. unfold get_sharing_cache. rewrite Hst0. cbn [sbind]. assert (Hm0 : w_caches w0 !! c = Some m) by done.
    assert (Hw1 : exists w1, (if save then save_tensors w0 c ids else w0) = w1 /\ quiet w0 w1 /\ w_caches w1 !! c = Some m).
    { destruct save; [|exists w0; split; [done|]; split; [apply quiet_refl|done]]. eexists. split; [reflexivity|].
      unfold save_tensors, get_cache. rewrite Hm0. simpl. rewrite save_same by auto. unfold set_cache. split; [|simpl; by rewrite lookup_insert].
      split; [done| |done..]. simpl. by rewrite insert_id. }
    destruct Hw1 as (w1 & -> & HQ1 & Hc1). unfold memoize, get_cache. rewrite Hc1. simpl. rewrite Hk. exists w1. split; [done|]. by eapply quiet_trans.
  Qed.
  Lemma op_hit w tid c roots save kf fn ids w' r w2 tid2 roots2 kf2 fn2 ids2 :
    winv w -> top w tid c -> Forall (live w) ids -> grows w w' (ids ++ roots) -> winv w' ->
    (forall k, kf (collect keep w (ids ++ roots)) = Ok k -> forall i, k <> KTensor i) ->
    cached_op alloc keep w tid roots save kf fn ids = (w', Ok r) ->
    winv w2 -> top w2 tid2 c -> remembers c w' w2 -> (forall i, i ∈ ids2 -> i ∈ ids) ->
    (forall k, kf (collect keep w (ids ++ roots)) = Ok k ->
      (save = true -> forall i, i ∈ ids2 -> w_heap (collect keep w2 (ids2 ++ roots2)) !! i = w_heap w !! i) -> kf2 (collect keep w2 (ids2 ++ roots2)) = Ok k) ->
    exists w3, cached_op alloc keep w2 tid2 roots2 save kf2 fn2 ids2 = (w3, Ok r) /\ quiet w2 w3 /\ w_heap w3 !! r = w_heap w' !! r.
  Proof.
    intros HW Ht Hl HG HW' Hkt E HW2 Ht2 (m' & m2 & Hm' & Hm2 & Hs & Hh) Hids Hkf.
    destruct (op_entry w tid c roots save kf fn ids w' r HW Ht Hl Hkt E) as (k & m1 & Hk & Hm1 & Hkr & Hsv).
    assert (m1 = m') as -> by congruence.
    destruct (op_again w2 tid2 c roots2 save kf2 fn2 ids2 k r m2) as (w3 & E3 & HQ); try done.
    - by eapply lookup_weaken.
    - intros Es i Hi. eapply lookup_weaken; [apply Hsv; auto|done].
    - apply Hkf; [done|]. intros Es i Hi. assert (Hi' : m' !! KTensor i = Some i) by (apply Hsv; auto).
      assert (Hl2 : live w2 i). { destruct (wi_entry _ _ HW2 c m2 (KTensor i) i Hm2) as [? _]; [by eapply lookup_weaken|done]. }
      rewrite (gr_keeps _ _ _ (collect_grows keep w2 (ids2 ++ roots2)) i Hl2) by (left; apply elem_of_app; by left).
      rewrite (Hh _ _ Hi'). apply (gr_keeps _ _ _ HG); [rewrite Forall_forall in Hl; apply Hl; auto|]. left. apply elem_of_app. left. auto.
    - exists w3. split; [done|]. split; [done|]. assert (Hk2 : m2 !! k = Some r) by by eapply lookup_weaken.
      rewrite (q_keeps _ _ HQ); [by eapply Hh| |right; right; by exists c, m2, k].
      by destruct (wi_entry _ _ HW2 c m2 k r Hm2 Hk2).
  Qed.

  (** The cached operations. *)
  Lemma tr_hit w tid c roots b i axes w' r w2 tid2 roots2 : winv w -> top w tid c -> live w i ->
    cached_transpose lib alloc keep w tid roots b i axes = (w', Ok r) -> winv w2 -> top w2 tid2 c -> remembers c w' w2 ->
    exists w3, cached_transpose lib alloc keep w2 tid2 roots2 b i axes = (w3, Ok r) /\ quiet w2 w3 /\ w_heap w3 !! r = w_heap w' !! r.
  Proof.
    intros HW Ht Hl E HW2 Ht2 Hr.
    destruct (tr_fine lib alloc alloc_ok keep P P_t P_m w tid roots b i axes HW Hl) as (H1 & H2 & _); [done|]. rewrite E in H1, H2. simpl in H1, H2.
    rewrite transpose_op in E |- *. refine (op_hit w tid c roots true _ _ [i] w' r _ _ _ _ _ _ HW Ht _ H2 H1 _ E HW2 Ht2 Hr _ _); [by repeat constructor|by intros k [= <-]|done|]. intros k Hk _. exact Hk.
  Qed.
  Lemma td_hit w tid c roots b i j axl axr w' r w2 tid2 roots2 : winv w -> top w tid c -> live w i -> live w j ->
    cached_tensordot lib alloc keep w tid roots b i j axl axr = (w', Ok r) -> winv w2 -> top w2 tid2 c -> remembers c w' w2 ->
    exists w3, cached_tensordot lib alloc keep w2 tid2 roots2 b i j axl axr = (w3, Ok r) /\ quiet w2 w3 /\ w_heap w3 !! r = w_heap w' !! r.
  Proof.
    intros HW Ht Hl Hl2 E HW2 Ht2 Hr.
    destruct (td_fine lib alloc alloc_ok keep P P_t P_m w tid roots b i j axl axr HW Hl Hl2) as (H1 & H2 & _); [done|]. rewrite E in H1, H2. simpl in H1, H2.
    rewrite tensordot_op in E |- *. refine (op_hit w tid c roots true _ _ [i; j] w' r _ _ _ _ _ _ HW Ht _ H2 H1 _ E HW2 Ht2 Hr _ _); [by repeat constructor|by intros k [= <-]|done|]. intros k Hk _. exact Hk.
  Qed.
  Lemma cv_hit w tid c roots n i w' r w2 tid2 roots2 : winv w -> top w tid c -> live w i ->
    cached_convert alloc keep conv w tid roots n i = (w', Ok r) -> winv w2 -> top w2 tid2 c -> remembers c w' w2 ->
    exists w3, cached_convert alloc keep conv w2 tid2 roots2 n i = (w3, Ok r) /\ quiet w2 w3 /\ w_heap w3 !! r = w_heap w' !! r.
  Proof.
    intros HW Ht Hl E HW2 Ht2 Hr.
    destruct (cv_fine alloc alloc_ok keep conv P P_t P_m w tid roots n i HW Hl) as (H1 & H2 & _); [done|]. rewrite E in H1, H2. simpl in H1, H2.
    rewrite convert_op in E |- *. refine (op_hit w tid c roots false _ _ [i] w' r _ _ _ _ _ _ HW Ht _ H2 H1 _ E HW2 Ht2 Hr _ _); [by repeat constructor|by intros k [= <-]|done|]. intros k Hk _. exact Hk.
  Qed.
  (** Another equation with the same key also finds the entry. *)
  Lemma es_hit w tid c roots b s ids w' r w2 tid2 roots2 s2 ids2 vals vals2 : winv w -> top w tid c -> values w ids = Ok vals -> values w ids2 = Ok vals2 ->
    (forall i, i ∈ ids2 -> i ∈ ids) -> call_key b s2 ids2 (shape <$> vals2) = call_key b s ids (shape <$> vals) ->
    cached_einsum lib alloc keep w tid roots b s ids = (w', Ok r) -> winv w2 -> top w2 tid2 c -> remembers c w' w2 ->
    exists w3, cached_einsum lib alloc keep w2 tid2 roots2 b s2 ids2 = (w3, Ok r) /\ quiet w2 w3 /\ w_heap w3 !! r = w_heap w' !! r.
  Proof.
    intros HW Ht Hv Hv2 Hids Hss E HW2 Ht2 Hr.
    assert (Hl : Forall (live w) ids). { apply values_spec in Hv. clear -Hv. induction Hv; constructor; [unfold live; eauto|done]. }
    destruct (es_fine lib alloc alloc_ok keep P P_t P_m w tid roots b s ids HW Hl) as (H1 & H2 & _); [done|]. rewrite E in H1, H2. simpl in H1, H2.
    assert (Hvc : values (collect keep w (ids ++ roots)) ids = Ok vals).
    { eapply values_same; [done|]. intros i Hi. rewrite Forall_forall in Hl. apply (gr_keeps _ _ _ (collect_grows keep w (ids ++ roots))); [by apply Hl|].
      left. apply elem_of_app. by left. }
    rewrite einsum_op in E |- *. refine (op_hit w tid c roots true _ _ ids w' r _ _ _ _ _ _ HW Ht Hl H2 H1 _ E HW2 Ht2 Hr Hids _).
    - rewrite Hvc. simpl. intros k Hk. by eapply call_key_ok.
    - rewrite Hvc. simpl. intros k Hk Hsame. erewrite values_same; [|exact Hv2|by apply Hsame]. simpl. by rewrite Hss.
  Qed.

  (** A result is in the cache. *)
  Definition stored (c : nat) (w : world K) (r : nat) : Prop := exists m k, w_caches w !! c = Some m /\ m !! k = Some r.
  Lemma stored_grows c w w' X r : grows w w' X -> stored c w r -> stored c w' r.
  Proof.
    intros HG (m & k & Hm & Hk). destruct (gr_caches _ _ _ HG c m Hm) as (m' & Hm' & Hs). exists m', k. split; [done|]. by eapply lookup_weaken.
  Qed.
  Lemma op_stored w tid c roots save kf fn ids w' r : cached_op alloc keep w tid roots save kf fn ids = (w', Ok r) -> winv w -> top w tid c -> Forall (live w) ids ->
    (forall k, kf (collect keep w (ids ++ roots)) = Ok k -> forall i, k <> KTensor i) -> stored c w' r.
  Proof. intros E HW Ht Hl Hk. destruct (op_entry _ _ _ _ _ _ _ _ _ _ HW Ht Hl Hk E) as (k & m & _ & H1 & H2 & _). by exists m, k. Qed.
  Lemma tr_stored w tid c roots b i axes w' r : winv w -> top w tid c -> live w i -> cached_transpose lib alloc keep w tid roots b i axes = (w', Ok r) -> stored c w' r.
  Proof.
    intros HW Ht Hl E. rewrite transpose_op in E. eapply op_stored; [exact E|done|done|by repeat constructor|by intros k [= <-]].
  Qed.
  Lemma td_stored w tid c roots b i j axl axr w' r : winv w -> top w tid c -> live w i -> live w j ->
    cached_tensordot lib alloc keep w tid roots b i j axl axr = (w', Ok r) -> stored c w' r.
  Proof.
    intros HW Ht Hl Hl2 E. rewrite tensordot_op in E. eapply op_stored; [exact E|done|done|by repeat constructor|by intros k [= <-]].
  Qed.
  Lemma es_stored w tid c roots b s ids w' r : winv w -> top w tid c -> Forall (live w) ids -> cached_einsum lib alloc keep w tid roots b s ids = (w', Ok r) -> stored c w' r.
  Proof.
    intros HW Ht Hl E. rewrite einsum_op in E. eapply op_stored; [exact E|done|done|done|].
    intros k (vals & _ & Hk)%bind_Ok. by eapply call_key_ok.
  Qed.

  (** Everything a call can do that matters below. *)
  Definition hits {A} (f : world K -> nat -> @st K A) (w : world K) (tid c : nat) : Prop := forall w' a, f w tid = (w', Ok a) ->
    forall w2 tid2, winv w2 -> top w2 tid2 c -> remembers c w' w2 -> exists w3, f w2 tid2 = (w3, Ok a) /\ quiet w2 w3.

  Lemma step_hit w tid c b ops cn : winv w -> top w tid c -> Forall (live w) ops ->
    hits (fun w tid => sh_step ord lib alloc keep w tid b ops cn) w tid c /\
    (forall w' l, sh_step ord lib alloc keep w tid b ops cn = (w', Ok l) -> forall r, r ∈ l -> r ∈ ops \/ stored c w' r).
  Proof.
    intros HW Ht Hl. unfold hits, sh_step. destruct (pops (c_inds cn) ops) as [[tmp rest]|e] eqn:Hp; [|by split]. cbn [lift].
    destruct (pops_live _ _ _ _ _ Hl Hp) as [Htmp Hrest].
    assert (Hsub : forall r, r ∈ rest -> r ∈ ops).
    { intros r Hr. assert (Hin : Forall (fun x => x ∈ ops) ops) by by apply Forall_forall.
      destruct (pops_live _ _ _ _ _ Hin Hp) as [_ H]. rewrite Forall_forall in H. by apply H. }
    destruct (use_tensordot (lib b) (c_blas cn)).
    - destruct (split_arrow (c_eq cn)) as [[input_str results]|e]; [|by split]. cbn [lift].
      destruct (match split s_comma input_str with [l; r] => Ok (l, r) | _ => Err ValueError end) as [[l r]|e]; [|by split]. cbn [lift].
      destruct tmp as [|x [|y [|]]]; [by split..| |by split]. cbn [lift]. destruct (td_axes ord l r (c_rm cn)) as [axes|e]; [|by split]. cbn [lift].
      apply Forall_cons in Htmp as [Hx Htmp]. apply Forall_cons in Htmp as [Hy _].
      destruct (td_fine lib alloc alloc_ok keep P P_t P_m w tid ([x; y] ++ rest) b x y axes.*1 axes.*2 HW Hx Hy) as (H1 & H2 & H3); [done|].
      destruct (cached_tensordot lib alloc keep w tid ([x; y] ++ rest) b x y axes.*1 axes.*2) as [w1 [v|e]] eqn:Etd; [|by split]. simpl in H1, H2, H3. cbn [sbind].
      assert (Hst : stored c w1 v) by exact (td_stored _ _ _ _ _ _ _ _ _ _ _ HW Ht Hx Hy Etd).
      case_decide as Hd.
      { cbn [sbind]. split.
        - intros w' a [= <- <-] w2 tid2 HW2 Ht2 Hr. destruct (td_hit _ _ _ _ _ _ _ _ _ _ _ w2 tid2 ([x; y] ++ rest) HW Ht Hx Hy Etd HW2 Ht2 Hr) as (w3 & -> & HQ & _). by exists w3.
        - intros w' a [= <- <-] z [Hz|Hz]%elem_of_app; [left; by apply Hsub|]. apply elem_of_list_singleton in Hz as ->. by right. }
      destruct (mapM_res _ results) as [perm|e]; cbn [lift]; [|by split].
      assert (Ht1 : top w1 tid c) by by eapply grows_top.
      destruct (tr_fine lib alloc alloc_ok keep P P_t P_m w1 tid (v :: [x; y] ++ rest) b v perm H1 H3) as (G1 & G2 & G3); [done|].
      destruct (cached_transpose lib alloc keep w1 tid (v :: [x; y] ++ rest) b v perm) as [w1' [v2|e]] eqn:Etr; [|by split]. simpl in G1, G2, G3. cbn [sbind].
      assert (Hst2 : stored c w1' v2) by exact (tr_stored _ _ _ _ _ _ _ _ _ H1 Ht1 H3 Etr). split.
      + intros w' a [= <- <-] w2 tid2 HW2 Ht2 Hr.
        destruct (td_hit _ _ _ _ _ _ _ _ _ _ _ w2 tid2 ([x; y] ++ rest) HW Ht Hx Hy Etd HW2 Ht2) as (w3 & -> & HQ & _).
        { eapply remembers_earlier; [exact H1|exact G2|by eapply top_cache|done]. }
        cbn [sbind]. assert (HW3 : winv w3) by by eapply quiet_inv.
        destruct (tr_hit _ _ _ _ _ _ _ _ _ w3 tid2 (v :: [x; y] ++ rest) H1 Ht1 H3 Etr HW3) as (w4 & -> & HQ2 & _); [exact (quiet_top _ _ _ _ HQ Ht2)|exact (quiet_remembers _ _ _ _ HW2 HQ Hr)|].
        exists w4. split; [done|]. by eapply quiet_trans.
      + intros w' a [= <- <-] z [Hz|Hz]%elem_of_app; [left; by apply Hsub|]. apply elem_of_list_singleton in Hz as ->. by right.
    - destruct (cached_einsum lib alloc keep w tid (tmp ++ rest) b (c_eq cn) tmp) as [w1 [v|e]] eqn:Ees; [|by split]. cbn [sbind].
      destruct (values_live w tmp Htmp) as [vals Hv]. split.
      + intros w' a [= <- <-] w2 tid2 HW2 Ht2 Hr.
        destruct (es_hit _ _ _ _ _ _ _ _ _ w2 tid2 (tmp ++ rest) (c_eq cn) tmp vals vals HW Ht Hv Hv ltac:(done) eq_refl Ees HW2 Ht2 Hr) as (w3 & -> & HQ & _). by exists w3.
      + intros w' a [= <- <-] z [Hz|Hz]%elem_of_app; [left; by apply Hsub|]. apply elem_of_list_singleton in Hz as ->. right. exact (es_stored _ _ _ _ _ _ _ _ _ HW Ht Htmp Ees).
  Qed.
  Lemma loop_hit tid c b cl : forall w ops, winv w -> top w tid c -> Forall (live w) ops ->
    hits (fun w tid => sh_loop ord lib alloc keep w tid b ops cl) w tid c /\
    (forall w' l, sh_loop ord lib alloc keep w tid b ops cl = (w', Ok l) -> forall r, r ∈ l -> r ∈ ops \/ stored c w' r).
  Proof.
    induction cl as [|cn cl IH]; intros w ops HW Ht Hl.
    - split; [|intros w' l [= <- <-]; by left]. intros w' l [= <- <-] w2 tid2 HW2 Ht2 Hr. exists w2. split; [done|apply quiet_refl].
    - unfold hits. cbn [sh_loop]. destruct (step_hit w tid c b ops cn HW Ht Hl) as [S1 S2].
      pose proof (sh_step_any ord lib alloc alloc_ok keep P P_t P_m w tid b ops cn any HW Hl) as (H1 & H2 & H3).
      unfold hits in S1. destruct (sh_step ord lib alloc keep w tid b ops cn) as [w1 [ops1|e]] eqn:Es; [|by split]. cbn [sbind]. simpl in H1, H2, H3.
      assert (Ht1 : top w1 tid c) by by eapply grows_top. destruct (IH w1 ops1 H1 Ht1 H3) as [L1 L2].
      pose proof (sh_loop_any ord lib alloc alloc_ok keep P P_t P_m tid b cl any w1 ops1 H1 H3) as (G1 & G2 & G3). split.
      + intros w' l El w2 tid2 HW2 Ht2 Hr. rewrite El in G2. simpl in G2. destruct (S1 w1 ops1 eq_refl w2 tid2 HW2 Ht2) as (w3 & -> & HQ).
        { eapply remembers_earlier; [exact H1|exact G2|by eapply top_cache|done]. }
        cbn [sbind]. destruct (L1 w' l El w3 tid2) as (w4 & E4 & HQ2); [exact (quiet_inv _ _ HW2 HQ)|exact (quiet_top _ _ _ _ HQ Ht2)|exact (quiet_remembers _ _ _ _ HW2 HQ Hr)|].
        exists w4. split; [done|]. by eapply quiet_trans.
      + intros w' l El r Hr. rewrite El in G2. simpl in G2. destruct (L2 w' l El r Hr) as [Hr1|]; [|by right].
        destruct (S2 w1 ops1 eq_refl r Hr1); [by left|right]. by eapply stored_grows.
  Qed.
  Lemma contract_hit w tid c b use_blas opt mem s ids vals w' r w2 tid2 : winv w -> top w tid c -> values w ids = Ok vals ->
    sh_contract ord lib alloc keep w tid b use_blas opt mem s ids = (w', Ok r) ->
    winv w2 -> top w2 tid2 c -> remembers c w' w2 -> values w2 ids = Ok vals ->
    (r ∈ ids \/ stored c w' r) /\ exists w3, sh_contract ord lib alloc keep w2 tid2 b use_blas opt mem s ids = (w3, Ok r) /\ quiet w2 w3.
  Proof.
    intros HW Ht Hv E HW2 Ht2 Hr Hv2.
    assert (Hl : Forall (live w) ids). { apply values_spec in Hv. clear -Hv. induction Hv; constructor; [unfold live; eauto|done]. }
    assert (Hcase : opt = OFalse \/ forall w tid, sh_contract ord lib alloc keep w tid b use_blas opt mem s ids =
      lift w (vals ← values w ids; contract_path ord use_blas opt mem s (shape <$> vals)) (fun info => sh_core ord lib alloc keep w tid b ids (pi_contractions info))) by (destruct opt; by (left + right)).
    destruct Hcase as [->|Hcase].
    - unfold sh_contract in *. split; [right; exact (es_stored _ _ _ _ _ _ _ _ _ HW Ht Hl E)|].
      destruct (es_hit _ _ _ _ _ _ _ _ _ w2 tid2 [] s ids vals vals HW Ht Hv Hv ltac:(done) eq_refl E HW2 Ht2 Hr) as (w3 & -> & HQ & _). by exists w3.
    - rewrite Hcase in E |- *. rewrite Hv in E. rewrite Hv2. cbn [mbind res_bind] in *. destruct (contract_path ord use_blas opt mem s (shape <$> vals)) as [info|e]; [|done]. cbn [lift] in *.
      unfold sh_core in *. destruct (loop_hit tid c b (pi_contractions info) w ids HW Ht Hl) as [L1 L2]. unfold hits in L1.
      destruct (sh_loop ord lib alloc keep w tid b ids (pi_contractions info)) as [w1 [l|e]]; [|done]. cbn [sbind] in E. destruct l as [|r0 l]; [done|]. cbn in E. injection E as <- <-.
      split; [eapply L2; [done|by left]|]. destruct (L1 w1 (r0 :: l) eq_refl w2 tid2 HW2 Ht2 Hr) as (w3 & -> & HQ). by exists w3.
  Qed.

  (** ** Actions *)
  Lemma remembers_trans c w w1 w2 : remembers c w w1 -> remembers c w1 w2 -> remembers c w w2.
  Proof.
    intros (m & m1 & H1 & H2 & H3 & H4) (m1' & m2 & G1 & G2 & G3 & G4). assert (m1' = m1) as -> by congruence.
    exists m, m2. split; [done|]. split; [done|]. split; [by etrans|]. intros k r Hk. rewrite (G4 k r) by by eapply lookup_weaken. by eapply H4.
  Qed.
  Lemma grows_remembers c w w' X : winv w -> grows w w' X -> is_Some (w_caches w !! c) -> remembers c w w'.
  Proof.
    intros HW HG [m Hm]. destruct (gr_caches _ _ _ HG c m Hm) as (m' & Hm' & Hs). exists m, m'. split; [done|]. split; [done|]. split; [done|].
    intros k r Hk. apply (gr_keeps _ _ _ HG); [by destruct (wi_entry _ _ HW _ _ _ _ Hm Hk)|]. right. right. by exists c, m, k.
  Qed.
  Lemma same_remembers c w w' : w_heap w' = w_heap w -> w_caches w' !! c = w_caches w !! c -> is_Some (w_caches w !! c) -> remembers c w w'.
  Proof. intros E1 E2 [m Hm]. exists m, m. rewrite E1, E2. done. Qed.
  Lemma act_remembers w a c : winv w -> is_Some (w_caches w !! c) -> a <> WForget c -> remembers c w (act w a).
  Proof.
    intros HW Hc Ha. destruct (decide (args_held w a)) as [Hh|Hh]; [|rewrite act_unfold by done; by apply same_remembers].
    pose proof HW as [W1 W2 W3]. assert (Hlive : Forall (live w) (action_args a)) by (eapply Forall_impl; [exact Hh|]; done).
    assert (Hres : forall p X, fine P w p X -> remembers c w (hold_result p)).
    { intros [w' [r|e]] X (_ & HG & _); simpl in HG; [|by eapply grows_remembers]. eapply remembers_trans; [by eapply grows_remembers|]. apply same_remembers; [done..|].
      destruct Hc as [m Hm]. destruct (gr_caches _ _ _ HG c m Hm) as (m' & Hm' & _). simpl. by eexists. }
    unfold Sharing.act. rewrite (act_held w a Hh). cbn [negb]. destruct a.
    - set (w0 := collect keep w []). destruct (new_object alloc w0 T) as [w1 r] eqn:E. pose proof (collect_grows keep w []) as HG0. fold w0 in HG0.
      destruct (new_object_grows alloc alloc_ok w0 T w1 r [] E) as (HG1 & Hr & _ & Hcs).
      assert (HG : grows w w1 []) by by eapply grows_then. apply (Hres (w1, Ok r) []). split; [|split; [done|simpl; unfold live; rewrite Hr; eauto]]. simpl.
      by apply (grows_inv P P_m w w1 []).
    - by apply same_remembers.
    - eapply grows_remembers; [done|apply collect_grows|done].
    - destruct c0 as [c0|]; [case_decide; by apply same_remembers|]. apply same_remembers; [done| |done]. unfold add_sharing_cache, set_stacks, set_cache. cbn [w_caches].
      rewrite lookup_insert_ne; [done|]. intros <-. assert (Hn : w_caches w !! base.fresh (dom (w_caches w) : gset nat) = None) by (apply not_elem_of_dom, is_fresh).
      rewrite Hn in Hc. by destruct Hc.
    - destruct (currently_sharing w tid); [|by apply same_remembers]. unfold remove_sharing_cache. destruct (w_stacks w !! tid) as [[|? [|? ?]]|]; by apply same_remembers.
    - case_decide; [by apply same_remembers|]. apply same_remembers; [done| |done]. simpl. rewrite lookup_delete_ne; [done|]. congruence.
    - apply Forall_cons in Hlive as [Hl _]. apply (Hres _ [i]). by apply tr_fine.
    - apply Forall_cons in Hlive as [Hl Hl2]. apply Forall_cons in Hl2 as [Hl2 _]. apply (Hres _ [i; j]). by apply td_fine.
    - apply (Hres _ (ids ++ [])). by apply es_fine.
    - apply (Hres _ []). by apply sh_contract_any.
    - apply Forall_cons in Hlive as [Hl _]. apply (Hres _ [i]). by apply cv_fine.
  Qed.
  Lemma act_winv w a : winv w -> winv (act w a).
  Proof. intros HW. apply (act_inv ord lib alloc alloc_ok keep conv P P_t P_m w a HW). by destruct a. Qed.
  Lemma acts_winv h : forall w, winv w -> winv (foldl act w h).
  Proof. induction h as [|a h IH]; intros w HW; simpl; [done|]. by apply IH, act_winv. Qed.
  Lemma acts_remember c h : forall w, winv w -> is_Some (w_caches w !! c) -> WForget c ∉ h -> remembers c w (foldl act w h).
  Proof.
    induction h as [|a h IH]; intros w HW Hc Hf; simpl; [by apply same_remembers|]. apply not_elem_of_cons in Hf as [Hne Hf].
    assert (Hr : remembers c w (act w a)) by by apply act_remembers. eapply remembers_trans; [exact Hr|]. apply IH; [by apply act_winv| |done].
    destruct Hr as (? & m & _ & ? & _). by eexists.
  Qed.
  Notation outcome := (outcome ord lib alloc keep conv).
  Lemma innermost_top (w : world K) tid c : innermost w tid c <-> top w tid c.
  Proof.
    unfold innermost, top. destruct (w_stacks w !! tid) as [[|c' l]|]; simpl; (split; [|intros [? ?]; by simplify_eq]); [done| |done].
    intros [= ->]. by eexists.
  Qed.
  Lemma act_outcome (w : world K) a : is_Some (op_thread a) -> args_held w a -> act w a = hold_result (outcome w a).
  Proof. intros Hop Ha. unfold Sharing.act. rewrite (act_held w a Ha). destruct a; simpl in Hop; try done; by destruct Hop. Qed.
  Lemma hold_remembers c (w w2 : world K) r : remembers c (hold w r) w2 -> remembers c w w2.
  Proof. done. Qed.

  Lemma repeated h a h' tid tid' c ids vals w' r :
    op_thread a = Some tid -> ids = action_args a -> let w := run ord lib alloc keep conv h in let w2 := run ord lib alloc keep conv (h ++ a :: h') in
    refer w ids vals -> innermost w tid c -> outcome w a = (w', Ok r) -> WForget c ∉ h' ->
    innermost w2 tid' c -> refer w2 ids vals ->
    exists w3, outcome w2 (in_thread tid' a) = (w3, Ok r) /\ w_heap w3 !! r = w_heap w' !! r /\ w_heap w3 ⊆ w_heap w2 /\ w_caches w3 = w_caches w2.
  Proof.
    intros Hop -> w w2 [Hh Hv] Ht%innermost_top E Hf Ht2%innermost_top [Hh2 Hv2].
    assert (HW : winv w) by apply acts_winv, start_inv. assert (HW1 : winv (act w a)) by by apply act_winv.
    assert (E1 : act w a = hold w' r) by (rewrite act_outcome by eauto; by rewrite E).
    assert (E2 : w2 = foldl act (hold w' r) h') by (unfold w2, w, run in *; rewrite foldl_app; simpl; by rewrite E1).
    assert (HW2 : winv w2) by apply acts_winv, start_inv.
    assert (Hl : Forall (live w) (action_args a)) by (eapply Forall_impl; [exact Hh|apply (wi_held _ _ HW)]).
    assert (HC : is_Some (w_caches w' !! c)).
    { destruct (act_remembers w a c HW) as (_ & m & _ & Hm & _); [by eapply top_cache|intros ->; done|]. rewrite E1 in Hm. simpl in Hm. by eexists. }
    assert (Hr : remembers c w' w2).
    { apply (hold_remembers c w' w2 r). rewrite E2. rewrite E1 in HW1. by apply acts_remember. }
    assert (Hend : forall w3, quiet w2 w3 -> stored c w' r \/ (r ∈ action_args a /\ w_heap w' !! r = w_heap w !! r) ->
      w_heap w3 !! r = w_heap w' !! r /\ w_heap w3 ⊆ w_heap w2 /\ w_caches w3 = w_caches w2).
    { intros w3 HQ Hs. split; [|by destruct HQ]. destruct Hs as [(m & k & Hm & Hk)|[Hin Hsame]].
      - destruct Hr as (m1 & m2 & Hm1 & Hm2 & Hs & Hheap). assert (m1 = m) as -> by congruence. assert (Hk2 : m2 !! k = Some r) by by eapply lookup_weaken.
        rewrite (q_keeps _ _ HQ); [by eapply Hheap|by destruct (wi_entry _ _ HW2 c m2 k r Hm2 Hk2)|right; right; by exists c, m2, k].
      - rewrite Hsame. assert (Hin2 : r ∈ w_held w2) by (rewrite Forall_forall in Hh2; by apply Hh2). rewrite (q_keeps _ _ HQ); [|by apply (wi_held _ _ HW2)|right; by left].
        clear -Hv Hv2 Hin. generalize (action_args a) Hv Hv2 Hin. clear. intros ids. revert vals. induction ids as [|i ids IH]; intros vals Hv Hv2 Hin; [by apply elem_of_nil in Hin|].
        inversion Hv; subst. inversion Hv2; subst. apply elem_of_cons in Hin as [->|Hin]; [congruence|]. by eapply IH. }
    destruct a; simpl in Hop; try done; injection Hop as ->; simpl in E, Hl |- *.
    - apply Forall_cons in Hl as [Hl _]. pose proof (tr_stored _ _ _ _ _ _ _ _ _ HW Ht Hl E) as Hst.
      destruct (tr_hit _ _ _ _ _ _ _ _ _ w2 tid' [] HW Ht Hl E HW2 Ht2 Hr) as (w3 & E3 & HQ & _). exists w3. split; [done|]. apply Hend; [done|by left].
    - apply Forall_cons in Hl as [Hl Hl2]. apply Forall_cons in Hl2 as [Hl2 _]. pose proof (td_stored _ _ _ _ _ _ _ _ _ _ _ HW Ht Hl Hl2 E) as Hst.
      destruct (td_hit _ _ _ _ _ _ _ _ _ _ _ w2 tid' [] HW Ht Hl Hl2 E HW2 Ht2 Hr) as (w3 & E3 & HQ & _). exists w3. split; [done|]. apply Hend; [done|by left].
    - pose proof (es_stored _ _ _ _ _ _ _ _ _ HW Ht Hl E) as Hst. apply values_spec in Hv.
      destruct (es_hit _ _ _ _ _ _ _ _ _ w2 tid' [] eq ids vals vals HW Ht Hv Hv ltac:(done) eq_refl E HW2 Ht2 Hr) as (w3 & E3 & HQ & _). exists w3. split; [done|]. apply Hend; [done|by left].
    - pose proof (sh_contract_any ord lib alloc alloc_ok keep P P_t P_m w tid b use_blas opt mem s ids any HW Hl) as (_ & HG & _). rewrite E in HG. simpl in HG.
      apply values_spec in Hv, Hv2. destruct (contract_hit _ _ _ _ _ _ _ _ _ _ _ _ w2 tid' HW Ht Hv E HW2 Ht2 Hr Hv2) as (Hs & w3 & E3 & HQ).
      exists w3. split; [done|]. apply Hend; [done|]. destruct Hs as [Hs|Hs]; [|by left]. right. split; [done|]. apply (gr_keeps _ _ _ HG).
      + rewrite Forall_forall in Hl. by apply Hl.
      + right. left. simpl in Hh. rewrite Forall_forall in Hh. by apply Hh.
    - apply Forall_cons in Hl as [Hl _].
      assert (Hst : stored c w' r) by (rewrite convert_op in E; eapply op_stored; [exact E|done|done|by repeat constructor|by intros k [= <-]]).
      destruct (cv_hit _ _ _ _ _ _ _ _ w2 tid' [] HW Ht Hl E HW2 Ht2 Hr) as (w3 & E3 & HQ & _). exists w3. split; [done|]. apply Hend; [done|by left].
  Qed.
  Lemma repeated_einsum h a h' tid tid' c b s ids vals s2 ids2 vals2 w' r :
    a = WEinsum tid b s ids -> let w := run ord lib alloc keep conv h in let w2 := run ord lib alloc keep conv (h ++ a :: h') in
    refer w ids vals -> refer w ids2 vals2 -> (forall i, i ∈ ids2 -> i ∈ ids) -> call_key b s2 ids2 (shape <$> vals2) = call_key b s ids (shape <$> vals) ->
    innermost w tid c -> outcome w a = (w', Ok r) -> WForget c ∉ h' -> innermost w2 tid' c ->
    exists w3, outcome w2 (WEinsum tid' b s2 ids2) = (w3, Ok r) /\ w_heap w3 !! r = w_heap w' !! r /\ w_heap w3 ⊆ w_heap w2 /\ w_caches w3 = w_caches w2.
  Proof.
    intros -> w w2 [Hh Hv] [_ Hv2] Hids Hk Ht%innermost_top E Hf Ht2%innermost_top.
    assert (HW : winv w) by apply acts_winv, start_inv. assert (HW1 : winv (act w (WEinsum tid b s ids))) by by apply act_winv.
    assert (E1 : act w (WEinsum tid b s ids) = hold w' r) by (rewrite act_outcome; [by rewrite E|by eexists|done]).
    assert (E2 : w2 = foldl act (hold w' r) h') by (unfold w2, w, run in *; rewrite foldl_app; simpl; by rewrite E1).
    assert (HW2 : winv w2) by apply acts_winv, start_inv.
    assert (HC : is_Some (w_caches w' !! c)).
    { destruct (act_remembers w (WEinsum tid b s ids) c HW) as (_ & m & _ & Hm & _); [by eapply top_cache|done|]. rewrite E1 in Hm. simpl in Hm. by eexists. }
    assert (Hr : remembers c w' w2).
    { apply (hold_remembers c w' w2 r). rewrite E2. rewrite E1 in HW1. by apply acts_remember. }
    apply values_spec in Hv, Hv2. simpl in E |- *.
    destruct (es_hit _ _ _ _ _ _ _ _ _ w2 tid' [] s2 ids2 vals vals2 HW Ht Hv Hv2 Hids Hk E HW2 Ht2 Hr) as (w3 & E3 & HQ & Hr3). exists w3. by destruct HQ.
  Qed.

  (** ** Schedules: no invariant but that a saved array is stored under its own name. *)
  Definition kt (w : world K) : Prop := forall c i r, entry w c (KTensor i) = Some r -> r = i.
  Definition cg (w w' : world K) : Prop := kt w -> kt w' /\ forall c k r, entry w c k = Some r -> entry w' c k = Some r.
  Lemma cg_refl w : cg w w. Proof. done. Qed.
  Lemma cg_trans w1 w2 w3 : cg w1 w2 -> cg w2 w3 -> cg w1 w3.
  Proof. intros H1 H2 Hk. destruct (H1 Hk) as [K2 M1]. destruct (H2 K2) as [K3 M2]. split; [done|]. auto. Qed.
  Lemma cg_same w w' : w_caches w' = w_caches w -> cg w w'.
  Proof. intros E Hk. unfold kt, entry in *. by rewrite E. Qed.
  Lemma cg_set w c m' : (forall k r, get_cache w c !! k = Some r -> m' !! k = Some r \/ exists i, k = KTensor i /\ m' !! k = Some i) ->
    (forall i r, m' !! KTensor i = Some r -> get_cache w c !! KTensor i = Some r \/ r = i) -> cg w (set_cache w c m').
  Proof.
    intros H1 H2 Hk. unfold kt, entry, set_cache, get_cache in *. cbn [w_caches]. split.
    - intros c2 i r. destruct (decide (c2 = c)) as [->|Hne]; [|rewrite lookup_insert_ne by done; apply Hk]. rewrite lookup_insert. simpl. intros Hr.
      destruct (H2 i r Hr) as [Hr2| ->]; [|done]. destruct (w_caches w !! c) as [m|] eqn:E; simpl in Hr2; [|by rewrite lookup_empty in Hr2]. apply (Hk c i r). by rewrite E.
    - intros c2 k r. destruct (decide (c2 = c)) as [->|Hne]; [|by rewrite lookup_insert_ne by done]. rewrite lookup_insert. simpl. intros Hr.
      destruct (w_caches w !! c) as [m|] eqn:E; [|done]. simpl in Hr, H1. destruct (H1 k r Hr) as [|(i & -> & Hi)]; [done|].
      assert (r = i) as ->; [|done]. apply (Hk c i r). by rewrite E.
  Qed.
  Lemma cg_save w c ids : cg w (save_tensors w c ids).
  Proof.
    unfold save_tensors. destruct (save_map (get_cache w c) ids) as [_ H]. apply cg_set.
    - intros k r Hr. destruct (H k) as [->|(i & _ & -> & Hi)]; [by left|right; by exists i].
    - intros i r Hr. destruct (H (KTensor i)) as [<-|(j & _ & [= <-] & Hj)]; [by left|right]. congruence.
  Qed.
  Lemma cg_new w T : cg w (new_object alloc w T).1. Proof. by apply cg_same. Qed.
  Lemma cg_bind {A B} w (p : @st K A) (f : world K -> A -> @st K B) : cg w p.1 -> (forall w a, cg w (f w a).1) -> cg w (sbind p f).1.
  Proof. destruct p as [w' [a|e]]; simpl; [|done]. intros H Hf. eapply cg_trans; [done|apply Hf]. Qed.
  Lemma cg_lift {A B} w w0 (r : res A) (f : A -> @st K B) : cg w w0 -> (forall a, cg w (f a).1) -> cg w (lift w0 r f).1.
  Proof. intros H Hf. destruct r; [apply Hf|exact H]. Qed.
  Lemma cg_plain w fn ids : cg w (plain_call alloc w fn ids).1.
  Proof. apply cg_lift; [done|]. intros T. pose proof (cg_new w T). by destruct (new_object alloc w T). Qed.
  Lemma cg_memo w c k fn ids : (forall i, k <> KTensor i) -> cg w (memoize alloc w c k fn ids).1.
  Proof.
    intros Hk. unfold memoize. destruct (get_cache w c !! k) as [r|] eqn:E; [done|]. pose proof (cg_plain w fn ids) as Hp.
    assert (Hc : w_caches (plain_call alloc w fn ids).1 = w_caches w). { unfold plain_call. by destruct (values w ids ≫= fn). }
    destruct (plain_call alloc w fn ids) as [w1 [r|e]]; simpl in *; [|done]. eapply cg_trans; [exact Hp|]. apply cg_set.
    - intros k2 r2 Hr. left. rewrite lookup_insert_ne; [done|]. intros <-. unfold get_cache in *. rewrite Hc in Hr. by rewrite E in Hr.
    - intros i r2. rewrite lookup_insert_ne by apply Hk. by left.
  Qed.
  Lemma cg_op w tid roots save kf fn ids : (forall w k, kf w = Ok k -> forall i, k <> KTensor i) -> cg w (cached_op alloc keep w tid roots save kf fn ids).1.
  Proof.
    intros Hk. unfold cached_op. eapply cg_trans; [by apply (cg_same w (collect keep w (ids ++ roots)))|]. set (w0 := collect keep w (ids ++ roots)).
    destruct (currently_sharing w0 tid); [|apply cg_plain]. cbn [negb]. destruct (kf w0) as [k|e] eqn:E; [|done]. cbn [lift]. apply cg_bind.
    - unfold get_sharing_cache. destruct (w_stacks w0 !! tid) as [[|]|]; by apply cg_same.
    - intros w1 c. destruct save; [eapply cg_trans; [apply cg_save|]|]; by apply cg_memo, (Hk w0 k E).
  Qed.
  Lemma cg_tr w tid roots b i axes : cg w (cached_transpose lib alloc keep w tid roots b i axes).1.
  Proof. rewrite transpose_op. apply cg_op. by intros ? k [= <-]. Qed.
  Lemma cg_td w tid roots b i j axl axr : cg w (cached_tensordot lib alloc keep w tid roots b i j axl axr).1.
  Proof. rewrite tensordot_op. apply cg_op. by intros ? k [= <-]. Qed.
  Lemma cg_es w tid roots b s ids : cg w (cached_einsum lib alloc keep w tid roots b s ids).1.
  Proof. rewrite einsum_op. apply cg_op. intros ? k (vals & _ & Hk)%bind_Ok. by eapply call_key_ok. Qed.
  Lemma cg_cv w tid roots n i : cg w (cached_convert alloc keep conv w tid roots n i).1.
  Proof. rewrite convert_op. apply cg_op. by intros ? k [= <-]. Qed.
  Lemma cg_step w tid b ops c : cg w (sh_step ord lib alloc keep w tid b ops c).1.
  Proof.
    unfold sh_step. apply cg_lift; [done|]. intros [tmp rest]. apply cg_bind; [|done]. destruct (use_tensordot (lib b) (c_blas c)); [|apply cg_es].
    apply cg_lift; [done|]. intros [? ?]. apply cg_lift; [done|]. intros [? ?]. apply cg_lift; [done|]. intros [? ?]. apply cg_lift; [done|]. intros axes. apply cg_bind; [apply cg_td|]. intros w1 v. case_decide; [done|]. apply cg_lift; [done|]. intros perm. apply cg_tr.
  Qed.
  Lemma cg_loop tid b cl : forall w ops, cg w (sh_loop ord lib alloc keep w tid b ops cl).1.
  Proof. induction cl as [|c cl IH]; intros w ops; simpl; [done|]. apply cg_bind; [apply cg_step|done]. Qed.
  Lemma cg_contract w tid b use_blas opt mem s ids : cg w (sh_contract ord lib alloc keep w tid b use_blas opt mem s ids).1.
  Proof.
    unfold sh_contract. destruct opt; [apply cg_es|..]; (apply cg_lift; [done|]; intros info; apply cg_bind; [apply cg_loop|]; intros w1 l; by apply cg_lift).
  Qed.
  Lemma cg_hold w (p : @st K nat) : cg w p.1 -> cg w (hold_result p).
  Proof. destruct p as [w' [r|e]]; simpl; [|done]. intros H. eapply cg_trans; [exact H|]. by apply cg_same. Qed.
  Lemma cg_ev w tid e : cg w (do_ev ord lib alloc keep conv w tid e).1.
  Proof.
    destruct e as [c| | | |a]; simpl.
    - eapply cg_trans; [apply (cg_set w c (get_cache w c)); by left|]. by apply cg_same.
    - unfold remove_sharing_cache. destruct (w_stacks w !! tid) as [[|? [|]]|]; by apply cg_same.
    - done.
    - unfold get_sharing_cache. destruct (w_stacks w !! tid) as [[|]|]; by apply cg_same.
    - destruct a; try done; unfold Sharing.act; (destruct (forallb _ _); [cbn [negb]|done]); try by apply cg_same.
      + apply cg_hold, cg_tr.
      + apply cg_hold, cg_td.
      + apply cg_hold, cg_es.
      + apply cg_hold, cg_contract.
      + apply cg_hold, cg_cv.
  Qed.
  Lemma cg_after sched : forall w, cg w (after ord lib alloc keep conv w sched).
  Proof. induction sched as [|[tid e] sched IH]; intros w; simpl; [done|]. eapply cg_trans; [apply cg_ev|apply IH]. Qed.
  Lemma entries_stay sched sched' c k r : let w := after ord lib alloc keep conv start sched in entry w c k = Some r -> entry (after ord lib alloc keep conv w sched') c k = Some r.
  Proof.
    intros w Hr. assert (H0 : kt (@start K)) by (intros ? ? ?; unfold entry, start; simpl; by rewrite lookup_empty).
    destruct (cg_after sched start H0) as [H1 _]. by apply (cg_after sched').
  Qed.
End Hit.
