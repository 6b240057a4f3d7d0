(** Histories with sharing contexts. *)
From Verif Require Import Prelude Einsum EinsumFacts EinsumOps Parser Helpers Contract Spec StringFacts StepFacts ContractFacts PathSpec ParseSpec ParseProof TopFacts ContractMain ApiSpec NoOptFacts ExprSpec ExprFacts Sharing SharingSpec SharingKey SharingFacts SharingMain SharingValue SharingLoop.

Section Hist.
  Context {K : semiring}.
  Notation tens := (tensor K).
  Variable ord : gset N -> list N.
  Variable lib : str -> backend K.
  Variable alloc : nat -> gset nat -> nat.
  Hypothesis alloc_ok : forall t X, alloc t X ∉ X.
  Variable keep : nat -> nat -> bool.
  Variable conv : str -> tens -> res tens.
  Notation act := (act ord lib alloc keep conv).
  Notation run := (run ord lib alloc keep conv).

  Lemma run_snoc h a : run (h ++ [a]) = act (run h) a.
  Proof. unfold SharingSpec.run. by rewrite foldl_app. Qed.
  (** What actions other than einsum and contract must satisfy is satisfied, for entries that do not depend on the held objects. *)
  Lemma other_ok full w a : winv (entry_ok lib full) w -> ~ is_op a -> act_ok lib conv (entry_ok lib full) w a.
  Proof.
    intros [_ W2 _] Ha. destruct a; simpl in *; try done.
    - intros c m k r Hc Hk. by destruct (W2 _ _ _ _ Hc Hk) as (_ & _ & ?).
    - intros vals. apply tr_new.
    - intros vals. apply td_new.
  Qed.
  Lemma exact_ok w a : winv (entry_ok lib false) w -> act_ok lib conv (entry_ok lib false) w a.
  Proof.
    intros HW. destruct a; try (apply other_ok; [done|by intros []]); apply any_exact.
  Qed.
  Lemma exact_act w a : winv (entry_ok lib false) w ->
    winv (entry_ok lib false) (act w a) /\ (forall i, i ∈ w_held w -> w_heap (act w a) !! i = w_heap w !! i).
  Proof. intros HW. apply act_inv; [done|apply entry_tensor|apply entry_mono'|done|]. by apply exact_ok. Qed.
  Lemma exact_run h : winv (entry_ok lib false) (run h).
  Proof. induction h as [|a h IH] using rev_ind; [apply start_inv|]. rewrite run_snoc. by apply exact_act. Qed.

  Hypothesis ord_ok : forall s, ord s ≡ₚ elements s.
  Hypothesis lib_ok : forall b, backend_ok (lib b).
  Hypothesis lib_doc : forall b, b_has_einsum (lib b) = true -> documented_einsum (lib b).
  Lemma held_values w ids : winv (entry_ok lib true) w -> Forall (fun i => i ∈ w_held w) ids -> exists vals, refer w ids vals.
  Proof.
    intros [W1 _ _] H. destruct (values_live w ids) as [vals Hv]; [by eapply Forall_impl; [exact H|]|]. exists vals. split; [done|]. by apply values_spec.
  Qed.
  Lemma call_fine w tid roots b s ids vals : winv (entry_ok lib true) w -> Forall2 (fun i x => w_heap w !! i = Some x) ids vals ->
    valid_einsum lib b s vals \/ (exists e, run_einsum (lib b) s vals = Err e) -> fine (entry_ok lib true) w (cached_einsum lib alloc keep w tid roots b s ids) (ids ++ roots).
  Proof.
    intros HW Hv [Hval|[e He]]; [|by eapply es_fails]. destruct (valid_sound_call lib lib_ok lib_doc b s vals Hval) as [T HT].
    destruct (es_outcome lib alloc alloc_ok keep w tid roots b s ids vals T HW Hv HT) as (w' & r & T' & -> & H1 & H2 & H3 & _). split; [done|]. split; [done|]. simpl. unfold live. rewrite H3. eauto.
  Qed.
  Lemma accepted_act w a : winv (entry_ok lib true) w -> accepted lib w a -> winv (entry_ok lib true) (act w a).
  Proof.
    intros HW Hacc. destruct (decide (args_held w a)) as [Ha|Ha]; [|by rewrite act_unfold].
    assert (Hother : ~ is_op a -> winv (entry_ok lib true) (act w a)).
    { intros Hop. apply act_inv_other; [done|apply entry_tensor|apply entry_mono'|done|done|by apply other_ok]. }
    destruct a; try (apply Hother; by intros []); unfold args_held in Ha; simpl in Ha; destruct (held_values w ids HW Ha) as [vals Hv]; specialize (Hacc vals Hv);
      unfold Sharing.act; (rewrite act_held by done); cbn [negb].
    - eapply hold_inv; [apply entry_mono'|]. eapply call_fine; [done|apply Hv|done].
    - assert (opt = OFalse \/ opt <> OFalse) as [->|Hopt] by (destruct opt; by (left + right)).
      { eapply hold_inv; [apply entry_mono'|]. unfold sh_contract. eapply call_fine; [done|apply Hv|done]. }
      assert (Hval : valid_contract lib b opt mem s vals) by by destruct opt.
      destruct (contract_outcome ord ord_ok lib lib_ok alloc alloc_ok keep w tid b use_blas opt mem s ids vals HW (proj2 Hv) Hval) as (w' & r & T & T' & E & H1 & H2 & H3 & _).
      rewrite E. eapply hold_inv; [apply entry_mono'|]. split; [exact H1|]. split; [exact H2|]. simpl. unfold live. rewrite H3. eauto.
  Qed.
  Lemma accepted_run h : accepted_history ord lib alloc keep conv h -> winv (entry_ok lib true) (run h).
  Proof.
    unfold accepted_history, SharingSpec.run. generalize (start_inv (entry_ok lib true)). generalize (@start K). induction h as [|a h IH]; intros w HW; simpl; [done|].
    intros [H1 H2]. apply IH; [by apply accepted_act|done].
  Qed.
End Hist.
