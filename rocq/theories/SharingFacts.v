(** Facts about Sharing.v: what every operation keeps, for any property of cache entries. *)
From Verif Require Import Prelude Einsum Parser Helpers Contract Spec StringFacts StepFacts ContractFacts ExprFacts Sharing.

Section Facts.
  Context {K : semiring}.
  Notation tens := (tensor K).
  Notation heap := (gmap nat tens).
  Variable ord : gset N -> list N.
  Variable lib : str -> backend K.
  Variable alloc : nat -> gset nat -> nat.
  Hypothesis alloc_ok : forall t X, alloc t X ∉ X.
  Variable keep : nat -> nat -> bool.
  Variable conv : str -> tens -> res tens.

  Definition live (w : world K) (i : nat) : Prop := is_Some (w_heap w !! i).
  Definition in_cache (w : world K) (i : nat) : Prop := exists c m k, w_caches w !! c = Some m /\ m !! k = Some i.
  (** [P held heap m k r]: the entry [k ↦ r] of the cache [m] is as it should be. *)
  Variable P : list nat -> heap -> cache -> key -> nat -> Prop.
  Hypothesis P_tensor : forall X h m i, P X h m (KTensor i) i.
  Hypothesis P_mono : forall X X' h h' m m' k r, P X h m k r -> m ⊆ m' -> (forall i, i ∈ X -> i ∈ X') ->
    (forall k r, m !! k = Some r -> h' !! r = h !! r) -> (forall i, i ∈ X -> h' !! i = h !! i) -> m !! k = Some r -> P X' h' m' k r.
  Record winv (w : world K) : Prop := Winv {
    wi_held : forall i, i ∈ w_held w -> live w i;
    wi_entry : forall c m k r, w_caches w !! c = Some m -> m !! k = Some r -> live w r /\ (forall i, k = KTensor i -> r = i) /\ P (w_held w) (w_heap w) m k r;
    wi_stack : forall tid l, w_stacks w !! tid = Some l -> l <> [] /\ Forall (fun c => is_Some (w_caches w !! c)) l }.
  (** The live objects among [X], those in variables and those in caches keep their values. *)
  Definition keeps (w w' : world K) (X : list nat) : Prop :=
    forall i, live w i -> i ∈ X \/ i ∈ w_held w \/ in_cache w i -> w_heap w' !! i = w_heap w !! i.
  (** What an operation may change. *)
  Record grows (w w' : world K) (X : list nat) : Prop := Grows {
    gr_keeps : keeps w w' X;
    gr_held : w_held w' = w_held w;
    gr_stacks : w_stacks w' = w_stacks w;
    gr_caches : forall c m, w_caches w !! c = Some m -> exists m', w_caches w' !! c = Some m' /\ m ⊆ m' }.

  Lemma elem_cached w i : i ∈ cached_ids w <-> in_cache w i.
  Proof.
    unfold cached_ids, in_cache. rewrite elem_of_list_bind. split.
    - intros (m & Hi & Hm). apply elem_of_list_fmap in Hm as ([c m'] & -> & Hm). apply elem_of_map_to_list in Hm. apply elem_of_list_fmap in Hi as ([k r] & -> & Hi).
      apply elem_of_map_to_list in Hi. by exists c, m', k.
    - intros (c & m & k & Hc & Hk). exists m. split.
      + apply elem_of_list_fmap. exists (k, i). split; [done|]. by apply elem_of_map_to_list.
      + apply elem_of_list_fmap. exists (c, m). split; [done|]. by apply elem_of_map_to_list.
  Qed.
  Lemma grows_in w w' X i : grows w w' X -> in_cache w i -> in_cache w' i.
  Proof. intros [_ _ _ H] (c & m & k & Hc & Hk). destruct (H c m Hc) as (m' & Hc' & Hs). exists c, m', k. split; [done|]. by eapply lookup_weaken. Qed.
  Lemma grows_trans w w' w'' X Y : (forall i, i ∈ X -> i ∈ Y) -> grows w w' X -> grows w' w'' Y -> grows w w'' X.
  Proof.
    intros HXY H1 H2. pose proof H1 as [A1 A2 A3 A4]. pose proof H2 as [B1 B2 B3 B4]. split.
    - intros i Hl Hi. pose proof (A1 i Hl Hi) as E. rewrite <-E. apply B1; [unfold live; by rewrite E|].
      destruct Hi as [Hi|[Hi|Hi]]; [left; auto|right; left; by rewrite A2|right; right]. by eapply grows_in.
    - by rewrite B2.
    - by rewrite B3.
    - intros c m Hc. destruct (A4 c m Hc) as (m' & Hc' & Hs). destruct (B4 c m' Hc') as (m2 & Hc2 & Hs2). exists m2. split; [done|]. by etrans.
  Qed.
  Lemma grows_refl w X : grows w w X.
  Proof. split; [done|done|done|]. intros c m Hc. by exists m. Qed.
  Lemma grows_then w w' w'' X : grows w w' X -> grows w' w'' X -> grows w w'' X.
  Proof. by apply grows_trans. Qed.
  Lemma grows_weaken w w' X Y : (forall i, i ∈ X -> i ∈ Y) -> grows w w' Y -> grows w w' X.
  Proof. intros H [A1 A2 A3 A4]. split; [|done..]. intros i Hl Hi. apply A1; [done|]. destruct Hi as [Hi|Hi]; [left; auto|by right]. Qed.
  Lemma grows_live w w' X i : grows w w' X -> live w i -> i ∈ X \/ i ∈ w_held w \/ in_cache w i -> live w' i.
  Proof. intros [A _ _ _] Hl Hi. unfold live. rewrite A; done. Qed.
  (** Entries survive. *)
  Lemma entry_mono w w' X c m m' k r : winv w -> grows w w' X -> w_caches w !! c = Some m -> m !! k = Some r -> m ⊆ m' ->
    P (w_held w') (w_heap w') m' k r.
  Proof.
    intros [W1 W2 W3] [A1 A2 A3 A4] Hc Hk Hs. destruct (W2 _ _ _ _ Hc Hk) as (_ & _ & HP). eapply P_mono; [exact HP|done|by rewrite A2| | |exact Hk].
    - intros k' r' Hk'. destruct (W2 _ _ _ _ Hc Hk') as (Hl & _). apply A1; [done|]. right. right. by exists c, m, k'.
    - intros i Hi. apply A1; [by apply W1|]. right. by left.
  Qed.

  Lemma collect_grows w X : grows w (collect keep w X) X.
  Proof.
    split; [|done|done|by eauto]. intros i [x Hx] Hi. rewrite Hx. unfold collect. simpl. apply map_filter_lookup_Some. split; [done|]. simpl.
    destruct Hi as [Hi|[Hi|Hi%elem_cached]]; [by left|by right; left|by right; right; left].
  Qed.
  Lemma collect_inv w X : winv w -> winv (collect keep w X).
  Proof.
    intros HW. pose proof HW as [W1 W2 W3]. pose proof (collect_grows w X) as HG. split.
    - intros i Hi. eapply grows_live; [exact HG|by apply W1|right; by left].
    - intros c m k r Hc Hk. simpl in Hc. destruct (W2 _ _ _ _ Hc Hk) as (H1 & H2 & _). split; [|split; [done|by eapply entry_mono]].
      eapply grows_live; [exact HG|done|]. right. right. by exists c, m, k.
    - done.
  Qed.
  Lemma new_object_grows w T w' r X : new_object alloc w T = (w', r) -> grows w w' X /\ w_heap w' !! r = Some T /\ ~ live w r /\ w_caches w' = w_caches w.
  Proof.
    unfold new_object. set (r0 := alloc _ _). intros [= <- <-]. pose proof (alloc_ok (w_clock w) (dom (w_heap w))) as Hf. fold r0 in Hf. simpl.
    assert (Hn : ~ live w r0) by (unfold live; by rewrite <-elem_of_dom).
    split; [|split; [by rewrite lookup_insert|done]]. split; [|done|done|by eauto]. intros i Hl _. simpl. rewrite lookup_insert_ne; [done|]. intros ->. done.
  Qed.
  Lemma grows_inv w w' X : winv w -> grows w w' X -> w_caches w' = w_caches w -> winv w'.
  Proof.
    intros HW HG Hc0. pose proof HW as [W1 W2 W3]. pose proof HG as [A1 A2 A3 A4]. split.
    - intros i Hi. rewrite A2 in Hi. eapply grows_live; [exact HG|by apply W1|right; by left].
    - intros c m k r Hc Hk. rewrite Hc0 in Hc. destruct (W2 _ _ _ _ Hc Hk) as (H1 & H2 & _). split; [|split; [done|by eapply entry_mono]].
      eapply grows_live; [exact HG|done|]. right. right. by exists c, m, k.
    - intros tid l Hl. rewrite A3 in Hl. rewrite Hc0. by eapply W3.
  Qed.
  (** Replacing the cache [c] by a larger one. *)
  Lemma set_cache_grows w c m m' X : w_caches w !! c = Some m -> m ⊆ m' -> grows w (set_cache w c m') X.
  Proof.
    intros Hc Hs. split; [done|done|done|]. intros c2 m2 Hc2. unfold set_cache. simpl. destruct (decide (c2 = c)) as [->|Hne].
    - exists m'. rewrite lookup_insert. split; [done|]. by assert (m2 = m) as -> by congruence.
    - exists m2. by rewrite lookup_insert_ne by done.
  Qed.
  Lemma set_cache_inv w c m m' : winv w -> w_caches w !! c = Some m -> m ⊆ m' ->
    (forall k r, m' !! k = Some r -> m !! k = None -> live w r /\ (forall i, k = KTensor i -> r = i) /\ P (w_held w) (w_heap w) m' k r) -> winv (set_cache w c m').
  Proof.
    intros HW Hc Hs Hnew. pose proof HW as [W1 W2 W3]. pose proof (set_cache_grows w c m m' [] Hc Hs) as HG. split.
    - done.
    - intros c2 m2 k r Hc2 Hk. unfold set_cache in Hc2. simpl in Hc2. destruct (decide (c2 = c)) as [->|Hne].
      + rewrite lookup_insert in Hc2. injection Hc2 as <-. destruct (m !! k) as [r'|] eqn:E; [|by apply Hnew].
        assert (r' = r) as -> by (apply (lookup_weaken _ m') in E; [congruence|done]). destruct (W2 _ _ _ _ Hc E) as (H1 & H2 & _). split; [done|]. split; [done|].
        by eapply (entry_mono w (set_cache w c m') []).
      + rewrite lookup_insert_ne in Hc2 by done. by apply (W2 c2).
    - intros tid l Hl. destruct (W3 tid l Hl) as [H1 H2]. split; [done|]. eapply Forall_impl; [exact H2|]. intros c2 [x Hx]. unfold set_cache. simpl.
      destruct (decide (c2 = c)) as [->|Hne]; [rewrite lookup_insert; by eauto|]. rewrite lookup_insert_ne; by eauto.
  Qed.
  Lemma save_map (m : cache) ids :
    let m' := foldl (fun m i => <[KTensor i := i]> m) m ids in
    (forall i, i ∈ ids -> m' !! KTensor i = Some i) /\ (forall k, m' !! k = m !! k \/ exists i, i ∈ ids /\ k = KTensor i /\ m' !! k = Some i).
  Proof.
    revert m. induction ids as [|i ids IH]; intros m; simpl; [split; [by intros ? ?%elem_of_nil|by left]|].
    destruct (IH (<[KTensor i := i]> m)) as [H1 H2]. split.
    - intros j [->|Hj]%elem_of_cons; [|by apply H1]. destruct (H2 (KTensor i)) as [->|(j & Hj & [= <-] & Hk)]; [by rewrite lookup_insert|done].
    - intros k. destruct (H2 k) as [H|(j & Hj & -> & Hk)]; [|right; exists j; split; [by right|done]].
      destruct (decide (k = KTensor i)) as [->|Hne]; [|left; by rewrite H, lookup_insert_ne].
      right. exists i. split; [by left|]. split; [done|]. by rewrite H, lookup_insert.
  Qed.
  Lemma save_inv w c m ids : winv w -> w_caches w !! c = Some m -> Forall (live w) ids ->
    exists m', save_tensors w c ids = set_cache w c m' /\ m ⊆ m' /\ winv (set_cache w c m') /\ (forall i, i ∈ ids -> m' !! KTensor i = Some i).
  Proof.
    intros HW Hc Hl. destruct (save_map m ids) as [H1 H2]. set (m' := foldl _ m ids) in *. exists m'.
    assert (Hs : m ⊆ m').
    { apply map_subseteq_spec. intros k r Hk. destruct (H2 k) as [->|(i & Hi & -> & E)]; [done|].
      destruct (wi_entry _ HW _ _ _ _ Hc Hk) as (_ & Hr & _). by rewrite (Hr i eq_refl). }
    split; [unfold save_tensors, get_cache; by rewrite Hc|]. split; [done|]. split; [|done]. apply (set_cache_inv w c m m'); [done|done|done|]. intros k r Hk Hn.
    destruct (H2 k) as [E|(i & Hi & -> & E)]; [congruence|]. assert (r = i) as -> by congruence. rewrite Forall_forall in Hl. split; [by apply Hl|]. split; [by intros ? [=]|]. apply P_tensor.
  Qed.

  Lemma values_spec (w : world K) ids vals : values w ids = Ok vals <-> Forall2 (fun i x => w_heap w !! i = Some x) ids vals.
  Proof.
    unfold values. revert vals. induction ids as [|i ids IH]; intros vals; cbn [mapM_res].
    - split; [by intros <-%Ok_inj|by inversion 1].
    - split.
      + intros (x & Hx & H)%bind_Ok. apply bind_Ok in H as (xs & Hxs & H). apply Ok_inj in H as <-. constructor; [|by apply IH].
        by destruct (w_heap w !! i) as [y|]; [apply Ok_inj in Hx as <-|].
      + inversion 1 as [|? x ? xs Hx Hxs]; subst. rewrite Hx. cbn [of_opt mbind res_bind]. apply IH in Hxs. by rewrite Hxs.
  Qed.
  Lemma values_live w ids : Forall (live w) ids -> exists vals, values w ids = Ok vals.
  Proof.
    intros H. assert (exists vals, Forall2 (fun i x => w_heap w !! i = Some x) ids vals) as [vals Hv].
    { induction H as [|i ids [x Hx] _ [vals IH]]; [by exists []|]. exists (x :: vals). by constructor. }
    exists vals. by apply values_spec.
  Qed.
  Lemma values_same (w w' : world K) ids vals : values w ids = Ok vals -> (forall i, i ∈ ids -> w_heap w' !! i = w_heap w !! i) -> values w' ids = Ok vals.
  Proof.
    rewrite !values_spec. intros H Hi. induction H as [|i x ids vals Hx H IH]; constructor; [rewrite Hi; [done|by left]|]. apply IH. intros j Hj. apply Hi. by right.
  Qed.

  (** All the cached operations have this form. *)
  Definition cached_op (w : world K) (tid : nat) (roots : list nat) (save : bool) (kf : world K -> res key) (fn : list tens -> res tens) (ids : list nat) : @st K nat :=
    let w := collect keep w (ids ++ roots) in
    if negb (currently_sharing w tid) then plain_call alloc w fn ids
    else lift w (kf w) (fun k => sbind (get_sharing_cache w tid) (fun w c => memoize alloc (if save then save_tensors w c ids else w) c k fn ids)).
  Lemma transpose_op w tid roots b i axes : cached_transpose lib alloc keep w tid roots b i axes =
    cached_op w tid roots true (fun _ => Ok (KTranspose b i axes)) (fun vals => match vals with [x] => b_transpose (lib b) x axes | _ => Err TypeError end) [i].
  Proof. done. Qed.
  Lemma tensordot_op w tid roots b i j axl axr : cached_tensordot lib alloc keep w tid roots b i j axl axr =
    cached_op w tid roots true (fun _ => Ok (KTensordot b i j axl axr)) (fun vals => match vals with [x; y] => b_tensordot (lib b) x y axl axr | _ => Err TypeError end) [i; j].
  Proof. done. Qed.
  Lemma einsum_op w tid roots b eq ids : cached_einsum lib alloc keep w tid roots b eq ids =
    cached_op w tid roots true (fun w => vals ← values w ids; call_key b eq ids (shape <$> vals)) (run_einsum (lib b) eq) ids.
  Proof. done. Qed.
  Lemma convert_op w tid roots name i : cached_convert alloc keep conv w tid roots name i =
    cached_op w tid roots false (fun _ => Ok (KConvert name i)) (fun vals => match vals with [x] => conv name x | _ => Err TypeError end) [i].
  Proof. done. Qed.

  Lemma plain_call_ok w fn ids vals X : values w ids = Ok vals -> 
    (exists T r w', fn vals = Ok T /\ plain_call alloc w fn ids = (w', Ok r) /\ w_heap w' !! r = Some T /\ grows w w' X /\ w_caches w' = w_caches w /\ ~ live w r) \/
    (exists e, fn vals = Err e /\ plain_call alloc w fn ids = (w, Err e)).
  Proof.
    intros Hv. unfold plain_call. rewrite Hv. cbn [mbind res_bind]. destruct (fn vals) as [T|e] eqn:E; [|by right; exists e]. left. cbn [lift].
    destruct (new_object alloc w T) as [w' r] eqn:En. destruct (new_object_grows _ _ _ _ X En) as (H1 & H2 & H3 & H4). exists T, r, w'. split_and!; assumption || reflexivity.
  Qed.

  Lemma cached_op_ok w tid roots save kf fn ids vals kres :
    winv w -> Forall (live w) ids -> values w ids = Ok vals -> kf (collect keep w (ids ++ roots)) = kres ->
    (forall k, kres = Ok k -> (forall i, k <> KTensor i) /\
      forall h m r T, fn vals = Ok T -> h !! r = Some T -> Forall2 (fun i x => h !! i = Some x) ids vals ->
        (save = true -> forall i, i ∈ ids -> m !! KTensor i = Some i) -> P (w_held w) h m k r) ->
    exists w' o, cached_op w tid roots save kf fn ids = (w', o) /\ winv w' /\ grows w w' (ids ++ roots) /\
      match o with
      | Ok r => exists T, w_heap w' !! r = Some T /\ (fn vals = Ok T \/ exists c k m, kres = Ok k /\ w_caches w' !! c = Some m /\ m !! k = Some r /\ P (w_held w') (w_heap w') m k r)
      | Err e => fn vals = Err e \/ kres = Err e
      end.
  Proof.
    intros HW Hl Hv Hk Hnew. unfold cached_op. set (w0 := collect keep w (ids ++ roots)) in *.
    pose proof (collect_grows w (ids ++ roots)) as HG0. fold w0 in HG0. pose proof (collect_inv w (ids ++ roots) HW) as HW0. fold w0 in HW0.
    assert (Hl0 : Forall (live w0) ids).
    { rewrite Forall_forall in *. intros i Hi. eapply grows_live; [exact HG0|by apply Hl|left; apply elem_of_app; by left]. }
    assert (Hv0 : values w0 ids = Ok vals).
    { eapply values_same; [exact Hv|]. intros i Hi. apply (gr_keeps _ _ _ HG0); [rewrite Forall_forall in Hl; by apply Hl|]. left. apply elem_of_app. by left. }
    unfold currently_sharing. case_bool_decide as Hsh; simpl.
    2: { destruct (plain_call_ok w0 fn ids vals (ids ++ roots) Hv0) as [(T & r & w' & Hf & -> & Hr & HG & Hc & _)|(e & Hf & ->)].
      - exists w', (Ok r). split; [done|]. split; [exact (grows_inv _ _ _ HW0 HG Hc)|]. split; [by eapply grows_then|]. exists T. split; [done|]. by left.
      - exists w0, (Err e). split; [done|]. split; [done|]. split; [done|]. by left. }
    rewrite Hk. destruct kres as [k|e]; simpl.
    2: { exists w0, (Err e). split; [done|]. split; [done|]. split; [done|]. by right. }
    destruct (Hnew k eq_refl) as [Hnt Hent]. unfold get_sharing_cache. destruct Hsh as [l Hst]. destruct (wi_stack _ HW0 tid l Hst) as [Hne Hall].
    rewrite Hst. destruct l as [|c l]; [done|]. simpl. apply Forall_cons in Hall as [[m Hc] _].
    assert (exists w1 m1, (if save then save_tensors w0 c ids else w0) = w1 /\ winv w1 /\ grows w0 w1 (ids ++ roots) /\ w_caches w1 !! c = Some m1 /\
      (save = true -> forall i, i ∈ ids -> m1 !! KTensor i = Some i) /\ w_heap w1 = w_heap w0) as (w1 & m1 & -> & HW1 & HG1 & Hc1 & Hsv & Hh1).
    { destruct save; [|exists w0, m; split_and!; done || apply grows_refl]. destruct (save_inv w0 c m ids HW0 Hc Hl0) as (m' & E & Hs & HW1 & Hsv). exists (set_cache w0 c m'), m'.
      split; [done|]. split; [done|]. split; [by eapply set_cache_grows|]. split; [unfold set_cache; simpl; by rewrite lookup_insert|done]. }
    assert (HG01 : grows w w1 (ids ++ roots)) by by eapply grows_then.
    unfold memoize, get_cache. rewrite Hc1. simpl.
    assert (Hv1 : values w1 ids = Ok vals) by (apply (values_same w0); [done|by rewrite Hh1]).
    destruct (m1 !! k) as [r|] eqn:Hm1.
    { destruct (wi_entry _ HW1 _ _ _ _ Hc1 Hm1) as ([T HT] & _ & HP). exists w1, (Ok r). split; [done|]. split; [done|]. split; [done|].
      exists T. split; [done|]. right. exists c, k, m1. split_and!; done || exact HP. }
    destruct (plain_call_ok w1 fn ids vals (ids ++ roots) Hv1) as [(T & r & w2 & Hf & -> & Hr & HG2 & Hc2 & Hfresh)|(e & Hf & ->)].
    2: { exists w1, (Err e). split; [done|]. split; [done|]. split; [done|]. by left. }
    simpl. rewrite Hc2, Hc1. simpl. exists (set_cache w2 c (<[k:=r]> m1)), (Ok r). split; [done|].
    assert (HW2 : winv w2) by exact (grows_inv _ _ _ HW1 HG2 Hc2). assert (Hc2' : w_caches w2 !! c = Some m1) by by rewrite Hc2.
    assert (Hs2 : m1 ⊆ <[k:=r]> m1) by by apply insert_subseteq.
    split; [|split].
    - apply (set_cache_inv w2 c m1); [done|done|done|]. intros k' r' Hk' Hn. destruct (decide (k' = k)) as [->|Hne']; [|rewrite lookup_insert_ne in Hk' by done; congruence].
      rewrite lookup_insert in Hk'. injection Hk' as <-. split; [unfold live; rewrite Hr; eauto|]. split; [intros i ->; by destruct (Hnt i)|].
      assert (w_held w2 = w_held w) as -> by (by rewrite (gr_held _ _ _ HG2), (gr_held _ _ _ HG01)).
      apply (Hent _ _ r T); [done|done| |].
      + rewrite <-values_spec. eapply values_same; [exact Hv1|]. intros i Hi. apply (gr_keeps _ _ _ HG2); [|left; apply elem_of_app; by left].
        unfold live. rewrite Hh1. rewrite Forall_forall in Hl0. by apply Hl0.
      + intros Hsave i Hi. rewrite lookup_insert_ne by done. by apply Hsv.
    - eapply grows_then; [exact HG01|]. eapply grows_then; [exact HG2|]. by eapply set_cache_grows.
    - exists T. split; [done|]. by left.
  Qed.
End Facts.

Lemma pops_rel {A B} (R : A -> B -> Prop) inds l k tk rk : Forall2 R l k -> pops inds k = Ok (tk, rk) ->
  exists tl rl, pops inds l = Ok (tl, rl) /\ Forall2 R tl tk /\ Forall2 R rl rk.
Proof.
  revert l k tk rk. induction inds as [|i inds IH]; intros l k tk rk HR Hk; cbn [pops] in *.
  { apply Ok_inj in Hk. injection Hk as <- <-. by exists [], l. }
  apply bind_Ok in Hk as ([x k'] & Hx & Hk). apply bind_Ok in Hk as ([xs k2] & Hp & Hk). apply Ok_inj in Hk. injection Hk as <- <-.
  unfold pop_at in *. destruct (k !! i) as [y|] eqn:E; [|discriminate]. apply Ok_inj in Hx. injection Hx as <- <-.
  destruct (Forall2_lookup_r _ _ _ _ _ HR E) as (z & Hz & HRz). destruct (IH (delete i l) (delete i k) xs k2) as (tl & rl & H1 & H2 & H3); [by apply Forall2_delete|done|].
  exists (z :: tl), rl. rewrite Hz. cbn [mbind res_bind]. rewrite H1. cbn [mbind res_bind]. split; [done|]. split; [by constructor|done].
Qed.
Lemma pops_live {A} (Q : A -> Prop) inds l tl rl : Forall Q l -> pops inds l = Ok (tl, rl) -> Forall Q tl /\ Forall Q rl.
Proof. intros H Hp. apply pops_perm in Hp. rewrite <-Hp in H. by apply Forall_app in H. Qed.
