(** Values of shared operations. *)
From Verif Require Import Prelude Einsum EinsumFacts EinsumOps Parser Helpers Contract Spec StringFacts StepFacts ContractFacts PathSpec ParseSpec ParseProof TopFacts ContractMain ApiSpec NoOptFacts ExprSpec ExprFacts Sharing SharingSpec SharingKey SharingFacts SharingMain.

Section Value.
  Context {K : semiring}.
  Notation tens := (tensor K).
  Notation heap := (gmap nat tens).
  Variable ord : gset N -> list N.
  Variable lib : str -> backend K.
  Variable alloc : nat -> gset nat -> nat.
  Hypothesis alloc_ok : forall t X, alloc t X ∉ X.
  Variable keep : nat -> nat -> bool.
  Variable conv : str -> tens -> res tens.

  (** Terms [ts] and output [out] mean something for the operands [vals]. *)
  Definition sound (ts : list str) (out : str) (vals : list tens) : Prop :=
    ts <> [] /\ length ts = length vals /\ Forall (Forall plain) ts /\ Forall plain out /\ NoDup out /\ compat (zip ts vals).
  Definition entry_ok (full : bool) (X : list nat) (h : heap) (m : cache) (k : key) (r : nat) : Prop :=
    match k with
    | KTensor _ | KConvert _ _ => True
    | KTranspose b i axes => pinned m [i] /\ exists x T, h !! i = Some x /\ h !! r = Some T /\ b_transpose (lib b) x axes = Ok T
    | KTensordot b i j axl axr => pinned m [i; j] /\ exists x y T, h !! i = Some x /\ h !! j = Some y /\ h !! r = Some T /\ b_tensordot (lib b) x y axl axr = Ok T
    | KEinsum b eq ids => full = true -> exists ts out ids0 vals T, KEinsum b eq ids = einsum_key b ts out ids0 /\ pinned m ids0 /\
        Forall2 (fun i x => h !! i = Some x) ids0 vals /\ h !! r = Some T /\ sound ts out vals /\ T ≡ₜ einsum (zip ts vals) out
    end.
  Lemma entry_tensor full X h m i : entry_ok full X h m (KTensor i) i.
  Proof. done. Qed.
  Lemma entry_mono' full X X' h h' m m' k r : entry_ok full X h m k r -> m ⊆ m' -> (forall i, i ∈ X -> i ∈ X') ->
    (forall k r, m !! k = Some r -> h' !! r = h !! r) -> (forall i, i ∈ X -> h' !! i = h !! i) -> m !! k = Some r -> entry_ok full X' h' m' k r.
  Proof.
    intros He Hs _ Hh _ Hk. pose proof (Hh _ _ Hk) as Hr.
    assert (Hpin : forall ids, pinned m ids -> pinned m' ids /\ forall i, i ∈ ids -> h' !! i = h !! i).
    { intros ids Hp. split; [|intros i Hi; by eapply Hh, Hp]. intros i Hi. eapply lookup_weaken; [by apply Hp|done]. }
    destruct k as [i|b i axes|b i j axl axr|b eq ids|n i]; simpl in *; [done| | | |done].
    - destruct He as ([Hp Hi]%Hpin & x & T & H1 & H2 & H3). split; [done|]. exists x, T. by rewrite (Hi i) by (by left); rewrite Hr.
    - destruct He as ([Hp Hi]%Hpin & x & y & T & H1 & H2 & H3 & H4). split; [done|]. exists x, y, T. rewrite (Hi i) by (by left). rewrite (Hi j) by (right; by left). by rewrite Hr.
    - intros Hf. destruct (He Hf) as (ts & out & ids0 & vals & T & H1 & [Hp Hi]%Hpin & H2 & H3 & H4 & H5). exists ts, out, ids0, vals, T. rewrite Hr.
      split; [done|]. split; [done|]. split; [|done]. clear -H2 Hi. induction H2 as [|i x ids vals Hx H2 IH]; constructor; [rewrite Hi; [done|by left]|]. apply IH. intros j Hj. apply Hi. by right.
  Qed.
  Lemma tr_new full X b i axes vals : new_ok (entry_ok full) X true (KTranspose b i axes) (fun vals => match vals with [x] => b_transpose (lib b) x axes | _ => Err TypeError end) [i] vals.
  Proof.
    intros h m r T Hf Hr H2 Hp. inversion H2 as [|? x ? ? Hx H3]; subst. inversion H3; subst. simpl. split; [by apply Hp|]. by exists x, T.
  Qed.
  Lemma td_new full X b i j axl axr vals : new_ok (entry_ok full) X true (KTensordot b i j axl axr) (fun vals => match vals with [x; y] => b_tensordot (lib b) x y axl axr | _ => Err TypeError end) [i; j] vals.
  Proof.
    intros h m r T Hf Hr H2 Hp. inversion H2 as [|? x ? ? Hx H3]; subst. inversion H3 as [|? y ? ? Hy H4]; subst. inversion H4; subst. simpl. split; [by apply Hp|]. by exists x, y, T.
  Qed.
  Lemma cv_new full X n i fn vals : new_ok (entry_ok full) X false (KConvert n i) fn [i] vals.
  Proof. by intros h m r T. Qed.
  Lemma any_exact : any_op lib (entry_ok false).
  Proof.
    intros X k fn ids vals [(b & i & axes & -> & -> & ->)|[(b & i & j & axl & axr & -> & -> & ->)|(b & s & Hk & ->)]]; [apply tr_new|apply td_new|].
    unfold call_key in Hk. apply bind_Ok in Hk as ([inp out] & _ & <-%Ok_inj). by intros h m r T.
  Qed.

  Lemma tr_outcome full w tid roots b i axes x : winv (entry_ok full) w -> w_heap w !! i = Some x ->
    exists w' o, cached_transpose lib alloc keep w tid roots b i axes = (w', o) /\ winv (entry_ok full) w' /\ grows w w' (i :: roots) /\
      same_outcome eq (b_transpose (lib b) x axes) (w', o).
  Proof.
    intros HW Hx. rewrite transpose_op.
    destruct (cached_op_ok alloc alloc_ok keep _ (entry_tensor full) (entry_mono' full) w tid roots true (fun _ => Ok (KTranspose b i axes))
      (fun vals => match vals with [x] => b_transpose (lib b) x axes | _ => Err TypeError end) [i] [x] (Ok (KTranspose b i axes)) HW) as (w' & o & -> & HW' & HG & Ho).
    { constructor; [|done]. unfold live. rewrite Hx. eauto. } { apply values_spec. by constructor. } { done. }
    { intros k [= <-]. split; [done|]. exact (tr_new full _ b i axes [x]). }
    exists w', o. split; [done|]. split; [done|]. split; [done|]. unfold same_outcome. simpl.
    assert (Hx' : w_heap w' !! i = Some x). { rewrite (gr_keeps _ _ _ HG); [done|unfold live; rewrite Hx; eauto|left; by left]. }
    destruct o as [r|e].
    - destruct Ho as (T & HT & [->|(c & k & m & Hk & Hc & Hm & HP)]); [by exists T|]. injection Hk as <-. destruct HP as (_ & x' & T' & H1 & H2 & H3).
      assert (x' = x) as -> by congruence. rewrite H3. exists T'. done.
    - destruct Ho as [->|?]; done.
  Qed.
  Lemma td_outcome full w tid roots b i j axl axr x y : winv (entry_ok full) w -> w_heap w !! i = Some x -> w_heap w !! j = Some y ->
    exists w' o, cached_tensordot lib alloc keep w tid roots b i j axl axr = (w', o) /\ winv (entry_ok full) w' /\ grows w w' (i :: j :: roots) /\
      same_outcome eq (b_tensordot (lib b) x y axl axr) (w', o).
  Proof.
    intros HW Hx Hy. rewrite tensordot_op.
    destruct (cached_op_ok alloc alloc_ok keep _ (entry_tensor full) (entry_mono' full) w tid roots true (fun _ => Ok (KTensordot b i j axl axr))
      (fun vals => match vals with [x; y] => b_tensordot (lib b) x y axl axr | _ => Err TypeError end) [i; j] [x; y] (Ok (KTensordot b i j axl axr)) HW) as (w' & o & -> & HW' & HG & Ho).
    { constructor; [|constructor; [|done]]; unfold live; [rewrite Hx|rewrite Hy]; eauto. } { apply values_spec. by repeat constructor. } { done. }
    { intros k [= <-]. split; [done|]. exact (td_new full _ b i j axl axr [x; y]). }
    exists w', o. split; [done|]. split; [done|]. split; [done|]. unfold same_outcome. simpl.
    assert (Hx' : w_heap w' !! i = Some x). { rewrite (gr_keeps _ _ _ HG); [done|unfold live; rewrite Hx; eauto|left; by left]. }
    assert (Hy' : w_heap w' !! j = Some y). { rewrite (gr_keeps _ _ _ HG); [done|unfold live; rewrite Hy; eauto|left; right; by left]. }
    destruct o as [r|e].
    - destruct Ho as (T & HT & [->|(c & k & m & Hk & Hc & Hm & HP)]); [by exists T|]. injection Hk as <-. destruct HP as (_ & x' & y' & T' & H1 & H2 & H3 & H4).
      assert (x' = x) as -> by congruence. assert (y' = y) as -> by congruence. rewrite H4. exists T'. done.
    - destruct Ho as [->|?]; done.
  Qed.

  (** An einsum call computed by the library as parsed. *)
  Definition sound_call (b s : str) (vals : list tens) (T : tens) : Prop :=
    exists ts out, parse_einsum_input s (shape <$> vals) = Ok (join s_comma ts, out) /\ sound ts out vals /\ run_einsum (lib b) s vals = Ok T /\ T ≡ₜ einsum (zip ts vals) out.
  Lemma sound_key b s ids vals ts out : parse_einsum_input s (shape <$> vals) = Ok (join s_comma ts, out) -> sound ts out vals ->
    call_key b s ids (shape <$> vals) = Ok (einsum_key b ts out ids).
  Proof.
    intros Hp (Hne & _ & Hpl & _). unfold call_key. rewrite Hp. cbn [mbind res_bind]. unfold s_comma. rewrite split1_join; [done|done|].
    eapply Forall_impl; [exact Hpl|]. intros t Ht. by apply (plain_clean t).
  Qed.
  Definition total (h : heap) (i : nat) : tens := match h !! i with Some x => x | None => einsum ([] : list (list N * tens)) [] end.
  Lemma total_vals (h : heap) ids vals : Forall2 (fun i x => h !! i = Some x) ids vals -> total h <$> ids = vals.
  Proof. induction 1 as [|i x ids vals Hx _ IH]; [done|]. rewrite fmap_cons. unfold total at 1. by rewrite Hx, IH. Qed.
  Lemma same_key (h : heap) b b' ts out ids vals ts' out' ids' vals' :
    Forall2 (fun i x => h !! i = Some x) ids vals -> Forall2 (fun i x => h !! i = Some x) ids' vals' -> sound ts out vals -> sound ts' out' vals' ->
    einsum_key b ts out ids = einsum_key b' ts' out' ids' -> einsum (zip ts vals) out ≡ₜ einsum (zip ts' vals') out'.
  Proof.
    intros H1 H2 (A1 & A2 & A3 & A4 & A5 & A6) (B1 & B2 & B3 & B4 & B5 & B6) Hk. pose proof (Forall2_length _ _ _ H1) as L1. pose proof (Forall2_length _ _ _ H2) as L2.
    apply total_vals in H1, H2. subst vals vals'. eapply key_sound; try done; [by rewrite A2, fmap_length|by rewrite B2, fmap_length].
  Qed.
  Lemma es_outcome w tid roots b s ids vals T : winv (entry_ok true) w -> Forall2 (fun i x => w_heap w !! i = Some x) ids vals -> sound_call b s vals T ->
    exists w' r T', cached_einsum lib alloc keep w tid roots b s ids = (w', Ok r) /\ winv (entry_ok true) w' /\ grows w w' (ids ++ roots) /\
      w_heap w' !! r = Some T' /\ T' ≡ₜ T.
  Proof.
    intros HW H2 (ts & out & Hp & Hs & Hrun & HT). rewrite einsum_op.
    assert (Hl : Forall (live w) ids). { clear -H2. induction H2 as [|i x ids vals Hx _ IH]; constructor; [|done]. unfold live. rewrite Hx. eauto. }
    assert (Hv : values w ids = Ok vals) by by apply values_spec.
    pose proof (sound_key b s ids vals ts out Hp Hs) as Hk.
    destruct (cached_op_ok alloc alloc_ok keep _ (entry_tensor true) (entry_mono' true) w tid roots true (fun w => vals ← values w ids; call_key b s ids (shape <$> vals))
      (run_einsum (lib b) s) ids vals (Ok (einsum_key b ts out ids)) HW Hl Hv) as (w' & o & -> & HW' & HG & Ho).
    { erewrite values_same; [|exact Hv|]; [exact Hk|]. intros i Hi. apply (gr_keeps _ _ _ (collect_grows keep w (ids ++ roots))); [rewrite Forall_forall in Hl; by apply Hl|]. left. apply elem_of_app. by left. }
    { intros k [= <-]. split; [done|]. intros h m r T0 Hf Hr H2' Hpin. simpl. intros _. exists ts, out, ids, vals, T0. rewrite Hrun in Hf. apply Ok_inj in Hf as <-.
      split; [done|]. split; [exact (Hpin eq_refl)|]. done. }
    destruct o as [r|e]; [|destruct Ho as [Ho|?]; [congruence|done]]. destruct Ho as (T' & HT' & Ho). exists w', r, T'. split; [done|]. split; [done|]. split; [done|]. split; [done|].
    destruct Ho as [Ho|(c & k & m & Hkk & Hc & Hm & HP)]; [rewrite Hrun in Ho; by apply Ok_inj in Ho as <-|].
    injection Hkk as <-. simpl in HP. destruct (HP eq_refl) as (ts0 & out0 & ids0 & vals0 & T0 & Ek & Hpin & H20 & HT0 & Hs0 & Heq0).
    assert (T0 = T') as -> by congruence. rewrite Heq0, HT. symmetry. apply (same_key (w_heap w') b b ts out ids vals ts0 out0 ids0 vals0); [|done|done|done|exact Ek].
    apply values_spec. eapply values_same; [exact Hv|]. intros i Hi. apply (gr_keeps _ _ _ HG); [rewrite Forall_forall in Hl; by apply Hl|]. left. apply elem_of_app. by left.
  Qed.
  (** A call that fails outside changes no entry. *)
  Lemma es_fails w tid roots b s ids vals e : winv (entry_ok true) w -> Forall2 (fun i x => w_heap w !! i = Some x) ids vals -> run_einsum (lib b) s vals = Err e ->
    fine (entry_ok true) w (cached_einsum lib alloc keep w tid roots b s ids) (ids ++ roots).
  Proof.
    intros HW H2 Hrun. apply es_fine; [done|apply entry_tensor|apply entry_mono'|done| |].
    { clear -H2. induction H2 as [|i x ids vals Hx _ IH]; constructor; [|done]. unfold live. rewrite Hx. eauto. }
    intros k vals' Hv' Hk. apply values_spec in H2. rewrite H2 in Hv'. apply Ok_inj in Hv' as <-. intros h m r T Hf. congruence.
  Qed.
End Value.
