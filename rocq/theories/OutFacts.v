(** Contractions into a given array. *)
From Verif Require Import Prelude Einsum EinsumFacts EinsumOps Parser Helpers Contract Spec StringFacts StepFacts ContractFacts PathSpec ParseSpec ParseProof TopFacts ContractMain ApiSpec NoOptFacts ExprSpec ExprFacts Sharing SharingSpec SharingKey SharingFacts SharingMain SharingValue SharingLoop SharingOut.

Section OutFacts.
  Context {K : semiring}.
  Notation tens := (tensor K).
  Variable ord : gset N -> list N.
  Hypothesis ord_ok : forall s, ord s ≡ₚ elements s.
  Variable lib : str -> backend K.
  Hypothesis lib_ok : forall b, backend_ok (lib b).
  Hypothesis lib_doc : forall b, b_has_einsum (lib b) = true -> documented_einsum (lib b).
  Variable alloc : nat -> gset nat -> nat.
  Hypothesis alloc_ok : forall t X, alloc t X ∉ X.
  Variable keep : nat -> nat -> bool.
  Notation E := (entry_ok lib true).
  Notation points w := (Forall2 (fun i x => w_heap w !! i = Some x)).

  Lemma assign_same (T : tens) : shape T <> [] -> exists T', assign (shape T) T = Ok T' /\ T' ≡ₜ T.
  Proof.
    intros Hne. unfold assign. rewrite decide_False by done. rewrite Nat.sub_diag, drop_0. rewrite decide_True.
    - eexists. split; [done|]. split; [done|]. simpl. intros cs Hcs. f_equal. unfold in_range in Hcs. rewrite drop_0. clear Hne. revert Hcs. generalize (shape T). intros sh Hcs.
      induction Hcs as [|c d cs ds Hc _ IH]; [done|]. simpl. rewrite IH. case_decide; [|done]. f_equal. lia.
    - split; [done|]. generalize (shape T). intros sh. induction sh; constructor; [by left|done].
  Qed.

  (** What is claimed after a contraction into [o]. *)
  Definition filled (w w' : world K) (o : nat) (V : tens) : Prop :=
    (exists T, w_heap w' !! o = Some T /\ T ≡ₜ V) /\ (forall i, i ∈ w_held w -> i <> o -> w_heap w' !! i = w_heap w !! i) /\
    w_held w' = w_held w /\ w_stacks w' = w_stacks w.
  Lemma grows_filled w w' w'' X o V : winv E w -> grows w w' X -> filled w' w'' o V -> filled w w'' o V.
  Proof.
    intros [W1 _ _] HG (H1 & H2 & H3 & H4). split; [done|]. split; [|split; [by rewrite H3, (gr_held _ _ _ HG)|by rewrite H4, (gr_stacks _ _ _ HG)]].
    intros i Hi Hio. rewrite H2; [|by rewrite (gr_held _ _ _ HG)|done]. apply (gr_keeps _ _ _ HG); [by apply W1|right; by left].
  Qed.
  Lemma write_filled (w : world K) o T V : T ≡ₜ V -> filled w (write w o T) o V.
  Proof.
    intros HT. split; [|split; [|done]]; unfold write; cbn [w_heap].
    - exists T. by rewrite lookup_insert.
    - intros i _ Hi. by rewrite lookup_insert_ne.
  Qed.
  Lemma into_filled w roots b s ids vals T O o : winv E w -> points w ids vals -> run_einsum (lib b) s vals = Ok T -> o ∈ w_held w -> w_heap w !! o = Some O -> shape O = shape T ->
    exists w', einsum_into lib keep w roots b s ids o = (w', Ok o) /\ filled w w' o T.
  Proof.
    intros HW Hv HT Ho HO Hsh. unfold einsum_into. set (w0 := collect keep w (ids ++ roots)). pose proof (collect_grows keep w (ids ++ roots)) as HG. fold w0 in HG.
    assert (Hv0 : values w0 ids = Ok vals).
    { apply values_spec. eapply points_keep; [exact HG| |exact Hv]. intros i Hi. left. apply elem_of_app. by left. }
    assert (HO0 : w_heap w0 !! o = Some O). { rewrite (gr_keeps _ _ _ HG); [done|unfold live; rewrite HO; eauto|right; by left]. }
    rewrite Hv0. cbn [mbind res_bind]. rewrite HT. cbn [mbind res_bind]. rewrite HO0. cbn [of_opt mbind res_bind]. rewrite decide_True by done. cbn [lift].
    exists (write w0 o T). split; [done|]. eapply grows_filled; [done|exact HG|]. by apply write_filled.
  Qed.
  Lemma last_filled w tid b ops c V vals o O : winv E w -> points w ops vals -> robust ord (lib b) [c] V vals -> o ∈ w_held w -> w_heap w !! o = Some O -> shape O = shape V ->
    (if use_tensordot (lib b) (c_blas c) then shape V <> [] else currently_sharing w tid = false) ->
    exists w', sh_last ord lib alloc keep w tid b ops c o = (w', Ok tt) /\ filled w w' o V.
  Proof.
    intros HW Hops (Hd & tmpv & restv & W & Hp & Hv & Hr) Ho HO Hsh Hcond.
    destruct (Hr (restv ++ [W]) (teq_refl_list _)) as (T0 & HT0 & HTV). destruct restv as [|? restv]; [|by destruct restv]. simpl in HT0. injection HT0 as ->.
    destruct (pops_rel _ _ _ _ _ _ Hops Hp) as (tmp & rest & Hp' & Ht & Hrest). inversion Hrest; subst rest. unfold sh_last. rewrite Hp'. cbn [lift].
    unfold step_valid in Hv. destruct (use_tensordot (lib b) (c_blas c)).
    - destruct Hv as (l & r & out & x & y & -> & -> & (Hpl & Hpr & Hplout & ax & Hax & Hvt & Hrest2)).
      inversion Ht as [|ix ? ? ? Hx Ht2]; subst. inversion Ht2 as [|iy ? ? ? Hy Ht3]; subst. inversion Ht3; subst.
      unfold split_arrow, equation. rewrite split_arrow_two.
      2: { apply plain_join_dash. by repeat constructor. }
      2: { intros Hc. by apply (plain_no _ _ Hplout) in Hc as (_ & ? & _). }
      cbn [lift]. unfold s_comma. rewrite split1_join; [|done|].
      2: { repeat constructor; intros Hc; [by apply (plain_no _ _ Hpl) in Hc as (? & _)|by apply (plain_no _ _ Hpr) in Hc as (? & _)]. }
      cbn [lift]. rewrite Hax. cbn [lift].
      destruct (td_outcome lib alloc alloc_ok keep true w tid ([ix; iy] ++ []) b ix iy ax.*1 ax.*2 x y HW Hx Hy) as (w1 & oc & -> & HW1 & HG1 & Hoc).
      destruct Hvt as (V1 & V2 & V3 & V4 & V5 & V6). destruct (ok_tensordot _ (lib_ok b) x y ax.*1 ax.*2) as (T & HT & HTeq); try done.
      unfold same_outcome in Hoc. rewrite HT in Hoc. simpl in Hoc. destruct oc as [v|]; [|done]. destruct Hoc as (T' & Hv & ->). cbn [sbind].
      destruct (Hrest2 T HTeq) as [_ (axes & Haxes & Hvp & R3)]. rewrite Haxes. cbn [lift].
      destruct (tr_outcome lib alloc alloc_ok keep true w1 tid (v :: [ix; iy] ++ []) b v axes T HW1 Hv) as (w2 & oc & -> & HW2 & HG2 & Hoc).
      destruct (ok_transpose _ (lib_ok b) T axes) as (T2 & HT2 & HT2eq); [done|]. unfold same_outcome in Hoc. rewrite HT2 in Hoc. simpl in Hoc.
      destruct oc as [v2|]; [|done]. destruct Hoc as (T2' & Hv2 & ->). cbn [sbind].
      assert (HG : grows w w2 []). { eapply (grows_trans w w1 w2 []); [by intros ? ?%elem_of_nil|eapply grows_weaken; [|exact HG1]; by intros ? ?%elem_of_nil|exact HG2]. }
      assert (HO2 : w_heap w2 !! o = Some O). { rewrite (gr_keeps _ _ _ HG); [done|unfold live; rewrite HO; eauto|right; by left]. }
      pose proof (R3 T2 HT2eq) as HT2W. assert (HT2V : T2 ≡ₜ V) by by rewrite HT2W.
      rewrite HO2, Hv2. cbn [of_opt mbind res_bind]. rewrite Hsh. destruct HT2V as [HT2sh HT2V]. rewrite <-HT2sh.
      destruct (assign_same T2) as (T3 & -> & HT3); [by rewrite HT2sh|]. cbn [lift]. exists (write w2 o T3). split; [done|].
      eapply grows_filled; [done|exact HG|]. apply write_filled. rewrite HT3. by split.
    - destruct Hv as (He & ts & out & -> & Hve & HW2). destruct (v_einsum_ok (lib b) (lib_ok b) ts out tmpv He Hve) as (T & HT & HTeq).
      unfold einsum_out. rewrite Hcond. assert (HTV' : T ≡ₜ V) by by rewrite HTeq, HW2.
      destruct (into_filled w (tmp ++ []) b (equation ts out) tmp tmpv T O o HW Ht HT Ho HO) as (w' & Hinto & Hf); [rewrite Hsh; symmetry; apply HTV'|].
      rewrite Hinto. exists w'. split; [done|]. destruct Hf as ((T1 & H1 & H2) & H3). split; [|done]. exists T1. split; [done|]. by rewrite H2.
  Qed.
  Lemma loop_filled tid b V o : forall cl c w ops vals O, winv E w -> points w ops vals -> robust ord (lib b) (cl ++ [c]) V vals -> o ∈ w_held w -> w_heap w !! o = Some O -> shape O = shape V ->
    (if use_tensordot (lib b) (c_blas c) then shape V <> [] else currently_sharing w tid = false) ->
    exists w', sh_loop_out ord lib alloc keep w tid b ops (cl ++ [c]) o = (w', Ok tt) /\ filled w w' o V.
  Proof.
    induction cl as [|c0 cl IH]; intros c w ops vals O HW Hops Hr Ho HO Hsh Hc; [by eapply last_filled|].
    destruct (step_outcome ord lib lib_ok alloc alloc_ok keep w tid b ops c0 (cl ++ [c]) V vals HW Hops Hr) as (w1 & ops1 & vals1 & Hs & HW1 & HG1 & Hp1 & Hr1).
    destruct (IH c w1 ops1 vals1 O HW1 Hp1 Hr1) as (w2 & Hl & Hf); [by rewrite (gr_held _ _ _ HG1)|rewrite (gr_keeps _ _ _ HG1); [done|unfold live; rewrite HO; eauto|right; by left]|done| |].
    { unfold currently_sharing in *. by rewrite (gr_stacks _ _ _ HG1). }
    exists w2. split; [|by eapply grows_filled]. change ((c0 :: cl) ++ [c]) with (c0 :: (cl ++ [c])). cbn [sh_loop_out]. rewrite Hs. cbn [sbind]. rewrite Hl. by destruct cl.
  Qed.
  Lemma contract_filled w tid b use_blas opt mem s ids vals o O T : winv E w -> points w ids vals -> valid_contract lib b opt mem s vals ->
    contract ord (lib b) use_blas opt mem s vals = Ok T -> o ∈ w_held w -> w_heap w !! o = Some O -> shape O = shape T ->
    (forall info c, contract_path ord use_blas opt mem s (shape <$> vals) = Ok info -> last (pi_contractions info) = Some c ->
      if use_tensordot (lib b) (c_blas c) then shape T <> [] else currently_sharing w tid = false) ->
    exists w', sh_contract_out ord lib alloc keep w tid b use_blas opt mem s ids o = (w', Ok o) /\ filled w w' o T.
  Proof.
    intros HW Hops (e & Hs & Hne & Hpl & Hwf & Hg & Hsz & Hmem & Hst & He) HT Ho HO Hsh Hcond.
    destruct (contract_path_ok ord ord_ok (lib b) (lib_ok b) e s vals Hne Hpl Hs Hwf use_blas opt mem Hg Hmem Hst) as (info & Hinfo & _ & _ & _ & _ & Hfit & _).
    destruct (contract_ok ord ord_ok (lib b) (lib_ok b) e s vals Hne Hpl Hs Hwf use_blas opt mem Hg Hmem Hst He Hsz) as (T1 & HT1 & HTeq).
    rewrite HT in HT1. apply Ok_inj in HT1 as <-.
    destruct (path_robust ord ord_ok e s vals Hne Hpl Hs Hwf use_blas opt mem Hg Hmem Hst (lib b) info vals (lib_ok b) Hinfo (Hfit He Hsz)) as [Hcl Hrob].
    { unfold same_ranks. by apply Forall2_same_length_lookup_2; [|intros; simplify_eq]. } { done. } { by left. }
    specialize (Hrob vals (teq_refl_list vals)). specialize (Hcond info). destruct (pi_contractions info) as [|c cl _] eqn:Ecl using rev_ind; [done|].
    specialize (Hcond c Hinfo). rewrite last_snoc in Hcond. specialize (Hcond eq_refl).
    destruct (loop_filled tid b _ o cl c w ids vals O HW Hops Hrob Ho HO) as (w' & Hl & Hf).
    { rewrite Hsh. apply HTeq. } { destruct (use_tensordot _ _); [|done]. destruct HTeq as [<- _]. done. }
    exists w'. split.
    - assert (Hcore : lift w (vals ← values w ids; contract_path ord use_blas opt mem s (shape <$> vals)) (fun info =>
           sbind (sh_loop_out ord lib alloc keep w tid b ids (pi_contractions info) o) (fun w _ => (w, Ok o))) = (w', Ok o)).
      { apply values_spec in Hops. rewrite Hops. cbn [mbind res_bind]. rewrite Hinfo. cbn [lift]. rewrite Ecl. by rewrite Hl. }
      unfold sh_contract_out. destruct opt; [done|exact Hcore..].
    - destruct Hf as ((T2 & H1 & H2) & H3). split; [|done]. exists T2. split; [done|]. by rewrite H2, HTeq.
  Qed.
  Lemma no_opt_filled w tid b use_blas mem s ids vals o O T : winv E w -> points w ids vals -> run_einsum (lib (lit "numpy")) s vals = Ok T ->
    o ∈ w_held w -> w_heap w !! o = Some O -> shape O = shape T -> currently_sharing w tid = false ->
    exists w', sh_contract_out ord lib alloc keep w tid b use_blas OFalse mem s ids o = (w', Ok o) /\ filled w w' o T.
  Proof.
    intros HW Hops HT Ho HO Hsh Hc. unfold sh_contract_out, einsum_out. rewrite Hc. by eapply into_filled.
  Qed.
End OutFacts.
