(** Cached conversions. *)
From Verif Require Import Prelude Einsum EinsumFacts EinsumOps Parser Helpers Contract Spec StringFacts StepFacts ContractFacts PathSpec ParseSpec ParseProof TopFacts ContractMain ApiSpec NoOptFacts ExprSpec ExprFacts Sharing SharingSpec SharingKey SharingFacts SharingMain SharingValue SharingLoop SharingHist.

Section Convert.
  Context {K : semiring}.
  Notation tens := (tensor K).
  Variable ord : gset N -> list N.
  Variable lib : str -> backend K.
  Variable alloc : nat -> gset nat -> nat.
  Hypothesis alloc_ok : forall t X, alloc t X ∉ X.
  Variable keep : nat -> nat -> bool.
  Variable conv : str -> tens -> res tens.
  Notation run := (run ord lib alloc keep conv).

  Definition conv_ok (h : list (action K)) (X : list nat) (hp : gmap nat tens) (m : cache) (k : key) (r : nat) : Prop :=
    match k with
    | KConvert n i => converted h i /\ i ∈ X /\ exists x T, hp !! i = Some x /\ hp !! r = Some T /\ conv n x = Ok T
    | _ => True
    end.
  Lemma conv_tensor h X hp m i : conv_ok h X hp m (KTensor i) i.
  Proof. done. Qed.
  Lemma conv_mono h X X' hp hp' m m' k r : conv_ok h X hp m k r -> m ⊆ m' -> (forall i, i ∈ X -> i ∈ X') ->
    (forall k r, m !! k = Some r -> hp' !! r = hp !! r) -> (forall i, i ∈ X -> hp' !! i = hp !! i) -> m !! k = Some r -> conv_ok h X' hp' m' k r.
  Proof.
    intros He _ HX Hr Hi Hk. destruct k; try done. destruct He as (H1 & H2 & x & T & H3 & H4 & H5). split; [done|]. split; [auto|]. exists x, T. by rewrite Hi, (Hr _ _ Hk).
  Qed.
  Lemma winv_impl (P Q : list nat -> gmap nat tens -> cache -> key -> nat -> Prop) w : (forall X hp m k r, P X hp m k r -> Q X hp m k r) -> winv P w -> winv Q w.
  Proof. intros H [W1 W2 W3]. split; [done| |done]. intros c m k r Hc Hk. destruct (W2 _ _ _ _ Hc Hk) as (? & ? & ?). auto. Qed.
  Lemma conv_run h : kept ord lib alloc keep conv h -> winv (conv_ok h) (run h).
  Proof.
    induction h as [|a h IH] using rev_ind; intros Hk; [apply start_inv|]. rewrite run_snoc.
    assert (HW : winv (conv_ok (h ++ [a])) (run h)).
    { eapply winv_impl; [|apply IH]; [|intros h1 i h2 ->; apply (Hk h1 i (h2 ++ [a])); by rewrite <-app_assoc]. intros X hp m k r. destruct k; try done. intros ([tid [n' Hin]] & H). split; [|done].
      exists tid, n'. apply elem_of_app. by left. }
    destruct (decide (args_held (run h) a)) as [Ha|Ha]; [|by rewrite act_unfold].
    apply act_inv; [done|apply conv_tensor|apply conv_mono|done|].
    assert (Hany : any_op lib (conv_ok (h ++ [a]))).
    { intros X k fn ids vals [(b & i & axes & -> & -> & ->)|[(b & i & j & axl & axr & -> & -> & ->)|(b & s & Hkey & ->)]]; [by intros ???..|].
      unfold call_key in Hkey. apply bind_Ok in Hkey as ([inp out] & _ & <-%Ok_inj). by intros ???. }
    destruct a; simpl; try done.
    - intros c m k r Hc Hm. destruct HW as [_ W2 _]. destruct (W2 _ _ _ _ Hc Hm) as (_ & _ & HP). destruct k as [| | | |n j]; try done.
      destruct HP as (H1 & H2 & H3). split; [done|]. split; [|done]. destruct (decide (i = j)) as [->|Hne].
      + specialize (Hk h j [] eq_refl). rewrite run_snoc in Hk. unfold act in Hk. rewrite act_held in Hk by done.
        apply Hk. destruct H1 as (tid & n' & Hin). exists tid, n'. apply elem_of_app in Hin as [?|Hin]; [done|]. by apply elem_of_list_singleton in Hin.
      + clear -H2 Hne. induction (w_held (run h)) as [|q l IHl]; [done|]. simpl. apply elem_of_cons in H2 as [->|H2]; case_decide; subst; try done; [by left|right; auto].
    - intros x Hx hp m r T Hf Hr H2 _. inversion H2 as [|? x' ? ? Hx' H3]; subst. simpl.
      split; [exists tid, name; apply elem_of_app; right; by left|]. split; [|by exists x, T]. by apply Forall_cons in Ha as [? _].
  Qed.
  Lemma convert_outcome h tid n i x : kept ord lib alloc keep conv h -> refer (run h) [i] [x] ->
    same_outcome eq (conv n x) (cached_convert alloc keep conv (run h) tid [] n i).
  Proof.
    intros Hk [Hh Hv]. apply Forall_cons in Hh as [Hh _]. inversion Hv as [|? ? ? ? Hx _]; subst. pose proof (conv_run (h ++ [WConvert tid n i])) as HW0.
    assert (HW : winv (conv_ok (h ++ [WConvert tid n i])) (run h)).
    { eapply winv_impl; [|by apply conv_run]. intros X hp m k r. destruct k; try done. intros ([tid' [n' Hin]] & H). split; [|done]. exists tid', n'. apply elem_of_app. by left. }
    rewrite convert_op.
    destruct (cached_op_ok alloc alloc_ok keep _ (conv_tensor _) (conv_mono _) (run h) tid [] false (fun _ => Ok (KConvert n i))
      (fun vals => match vals with [x] => conv n x | _ => Err TypeError end) [i] [x] (Ok (KConvert n i)) HW) as (w' & o & -> & HW' & HG & Ho).
    { constructor; [|done]. unfold live. rewrite Hx. eauto. } { apply values_spec. by constructor. } { done. }
    { intros k [= <-]. split; [done|]. intros hp m r T Hf Hr H2 _. inversion H2 as [|? x' ? ? Hx' H3]; subst. simpl.
      split; [exists tid, n; apply elem_of_app; right; by left|]. split; [done|by exists x, T]. }
    unfold same_outcome. simpl.
    assert (Hx' : w_heap w' !! i = Some x). { rewrite (gr_keeps _ _ _ HG); [done|unfold live; rewrite Hx; eauto|left; by left]. }
    destruct o as [r|e].
    - destruct Ho as (T & HT & [->|(c & k & m & Hk' & Hc & Hm & HP)]); [by exists T|]. injection Hk' as <-. destruct HP as (_ & _ & x' & T' & H1 & H2 & H3).
      assert (x' = x) as -> by congruence. rewrite H3. exists T'. done.
    - destruct Ho as [->|?]; done.
  Qed.
End Convert.
