(** Equivalent calls have the same key. *)
From Verif Require Import Prelude Einsum EinsumFacts EinsumOps Parser Helpers Contract Spec StringFacts StepFacts ContractFacts PathSpec ParseSpec ParseProof TopFacts ContractMain AlphaFacts ApiSpec NoOptFacts ExprSpec ExprFacts Sharing SharingSpec SharingKey SharingFacts SharingMain SharingValue SharingLoop.

Lemma sorted_ids_unique (l1 l2 : list (str * nat)) : StronglySorted by_id l1 -> StronglySorted by_id l2 -> NoDup l1.*2 -> l1 ≡ₚ l2 -> l1 = l2.
Proof.
  intros H1. revert l2. induction H1 as [|p l1 H1 IH Hp]; intros l2 H2 Hnd HP; [by apply Permutation_nil in HP as ->|].
  rewrite fmap_cons in Hnd. apply NoDup_cons in Hnd as [Hn Hnd].
  inversion H2 as [|q l2' H2' Hq]; subst; [symmetry in HP; by apply Permutation_nil in HP|].
  assert (p = q) as ->.
  { assert (Hp2 : p ∈ q :: l2') by (rewrite <-HP; by left). apply elem_of_cons in Hp2 as [->|Hp2]; [done|].
    assert (Hq2 : q ∈ p :: l1) by (rewrite HP; by left). apply elem_of_cons in Hq2 as [->|Hq2]; [done|].
    rewrite Forall_forall in Hp, Hq. specialize (Hp q Hq2). specialize (Hq p Hp2). unfold by_id in *. destruct Hn. assert (p.2 = q.2) as -> by lia. by apply elem_of_list_fmap_1. }
  f_equal. apply IH; [done|done|]. by apply Permutation_cons_inv in HP.
Qed.
Global Instance by_id_trans : Transitive by_id.
Proof. intros p q r. unfold by_id. lia. Qed.
Global Instance by_id_total : Total by_id.
Proof. intros p q. unfold by_id. lia. Qed.

Lemma key_complete (f : N -> N) b (ts ts' : list str) (out : str) ids ids' :
  length ts = length ids -> NoDup ids -> zip ts' ids' ≡ₚ zip (fmap (M:=list) f <$> ts) ids ->
  (forall c, c ∈ join [] ts ++ out -> c ∉ syntax /\ f c ∉ syntax) -> (forall c c', c ∈ join [] ts ++ out -> c' ∈ join [] ts ++ out -> f c = f c' -> c = c') ->
  einsum_key b ts out ids = einsum_key b ts' (f <$> out) ids'.
Proof.
  intros Hl Hnd HP Hsyn Hinj. unfold einsum_key.
  set (L := merge_sort by_id (zip ts ids)). set (L' := merge_sort by_id (zip ts' ids')).
  assert (HL : L ≡ₚ zip ts ids) by apply merge_sort_Permutation.
  assert (HL' : L' ≡ₚ zip ts' ids') by apply merge_sort_Permutation.
  set (F := fun p : str * nat => (f <$> p.1, p.2)).
  assert (HF : F <$> zip ts ids = zip (fmap (M:=list) f <$> ts) ids).
  { clear. revert ids. induction ts as [|t ts IH]; intros [|i ids]; [done..|]. simpl. f_equal. apply IH. }
  assert (HFL : F <$> L = L').
  { apply sorted_ids_unique.
    - assert (HS : StronglySorted by_id L) by (apply StronglySorted_merge_sort; apply _). clear -HS. induction HS as [|p l HS IH Hp]; rewrite ?fmap_cons; constructor; [done|].
      apply Forall_fmap. eapply Forall_impl; [exact Hp|]. done.
    - apply StronglySorted_merge_sort; apply _.
    - rewrite HL, HF, snd_zip; [done|]. rewrite fmap_length. lia.
    - by rewrite HL', HP, HL, HF. }
  rewrite <-HFL.
  assert (Hm : forall c, c ∈ join s_comma L.*1 -> c = c_comma \/ c ∈ join [] ts).
  { assert (Hj : forall (l : list str) c, c ∈ join s_comma l -> c = c_comma \/ exists t, t ∈ l /\ c ∈ t).
    { clear. intros l c. induction l as [|t [|t2 l] IH]; intros Hc; [by apply elem_of_nil in Hc|right; exists t; split; [by left|done]|].
      change (c ∈ t ++ s_comma ++ join s_comma (t2 :: l)) in Hc. rewrite !elem_of_app in Hc. destruct Hc as [Hc|[Hc|Hc]].
      - right. exists t. split; [by left|done].
      - left. unfold s_comma in Hc. by apply elem_of_list_singleton in Hc.
      - destruct (IH Hc) as [?|(t' & ? & ?)]; [by left|]. right. exists t'. split; [by right|done]. }
    assert (Hj2 : forall (l : list str) t c, t ∈ l -> c ∈ t -> c ∈ join [] l).
    { clear. intros l t c Ht Hct. induction l as [|x l IH]; [by apply elem_of_nil in Ht|]. apply elem_of_cons in Ht as [->|Ht].
      - destruct l as [|y l]; [done|]. change (c ∈ x ++ [] ++ join [] (y :: l)). apply elem_of_app. by left.
      - destruct l as [|y l]; [by apply elem_of_nil in Ht|]. change (c ∈ x ++ [] ++ join [] (y :: l)). rewrite !elem_of_app. right. right. auto. }
    intros c [?|(t & Ht & Hc)]%Hj; [by left|]. right. eapply Hj2; [|exact Hc]. rewrite HL in Ht. rewrite fst_zip in Ht by (by rewrite Hl). done. }
  f_equal.
  - set (G := fun c => if decide (c ∈ syntax) then c else f c). apply alpha_invariant. exists G.
    assert (HG : forall c, c ∈ join [] ts ++ out -> G c = f c) by (intros c Hc; unfold G; rewrite decide_False; [done|by apply Hsyn]).
    assert (Hcase : forall c, c ∈ join s_comma L.*1 ++ s_arrow ++ out -> c ∈ syntax \/ c ∈ join [] ts ++ out).
    { intros c. rewrite !elem_of_app. intros [Hc|[Hc|Hc]].
      - destruct (Hm c Hc) as [->|Hc']; [left; unfold syntax; set_solver|right; by left].
      - left. unfold s_arrow in Hc. unfold syntax. set_solver.
      - right. by right. }
    split; [split|].
    + intros c _ Hs. unfold G. by rewrite decide_True.
    + intros c Hc Hs. destruct (Hcase c Hc) as [?|Hc']; [done|]. rewrite HG by done. by apply Hsyn.
    + intros a c Ha Hc Hac. destruct (Hcase a Ha) as [Ha'|Ha'], (Hcase c Hc) as [Hc'|Hc'].
      * unfold G in Hac. rewrite !decide_True in Hac by done. done.
      * rewrite (HG c Hc') in Hac. unfold G in Hac. rewrite decide_True in Hac by done. subst a. by destruct (Hsyn c Hc').
      * rewrite (HG a Ha') in Hac. unfold G in Hac. rewrite decide_True in Hac by done. subst c. by destruct (Hsyn a Ha').
      * rewrite !HG in Hac by done. by apply Hinj.
    + rewrite !fmap_app. f_equal; [|f_equal].
      * rewrite (fmap_join G); [|intros _; unfold G; rewrite decide_True; [done|unfold syntax; set_solver]]. f_equal. rewrite <-!list_fmap_compose. apply list_fmap_ext'.
        intros p Hp. simpl. apply list_fmap_ext'. intros c Hc. symmetry. apply HG, elem_of_app. left.
        assert (Ht : p.1 ∈ ts). { rewrite <-(fst_zip ts ids) by (by rewrite Hl). apply elem_of_list_fmap_1. by rewrite <-HL. }
        clear -Ht Hc. induction ts as [|x l IH]; [by apply elem_of_nil in Ht|]. apply elem_of_cons in Ht as [E|Ht].
        -- subst x. destruct l as [|y l]; [done|]. change (c ∈ p.1 ++ [] ++ join [] (y :: l)). apply elem_of_app. by left.
        -- destruct l as [|y l]; [by apply elem_of_nil in Ht|]. change (c ∈ x ++ [] ++ join [] (y :: l)). rewrite !elem_of_app. right. right. auto.
      * apply list_fmap_ext'. intros c Hc. symmetry. apply HG, elem_of_app. by right.
  - rewrite <-list_fmap_compose. apply list_fmap_ext'. done.
Qed.

Lemma transfer {A} (S : list A) (p q : A -> N) : (forall a c, a ∈ S -> c ∈ S -> p a = p c -> a = c) -> exists f : N -> N, forall a, a ∈ S -> f (p a) = q a.
Proof.
  intros Hp. exists (fun c => match list_find (fun a => p a = c) S with Some (_, a) => q a | None => c end). intros a Ha.
  destruct (list_find _ S) as [[i x]|] eqn:E.
  - apply list_find_Some in E as (E1 & E2 & _). f_equal. apply Hp; [by eapply elem_of_list_lookup_2|done|done].
  - apply list_find_None in E. rewrite Forall_forall in E. by destruct (E a Ha).
Qed.

Section Calls.
  Context {K : semiring}.
  Notation tens := (tensor K).
  Lemma parse_key b e s ids (ops : list tens) : e_in e <> [] -> plain_eqn e -> filter (.≠ c_space) s = render e -> well_formed e (shape <$> ops) ->
    let g := name (ParseProof.fresh e (shape <$> ops)) in
    call_key b s ids (shape <$> ops) = Ok (einsum_key b (fmap (M:=list) g <$> in_labels e (shape <$> ops)) (g <$> out_labels e (shape <$> ops)) ids).
  Proof.
    intros Hne Hpl Hs Hwf g. unfold call_key. rewrite (parsed e s ops Hne Hpl Hs Hwf). fold g. cbn [mbind res_bind]. unfold s_comma. rewrite split1_join; [done| |].
    - intros E%fmap_nil_inv. assert (Hil : length (in_labels e (shape <$> ops)) = length ops) by by apply in_labels_length. rewrite E in Hil. destruct ops; [|done].
      pose proof (wf_count _ _ Hwf) as Hc. by destruct (e_in e).
    - apply Forall_forall. intros t (t' & -> & Ht')%elem_of_list_fmap. apply plain_clean, Forall_forall. intros c (l & -> & Hl)%elem_of_list_fmap.
      apply name_plain; [done|]. by eapply in_known.
  Qed.
  Lemma elem_join_nil (l : list str) c : c ∈ join [] l -> exists t, t ∈ l /\ c ∈ t.
  Proof.
    induction l as [|t [|t2 l] IH]; intros Hc; [by apply elem_of_nil in Hc|exists t; split; [by left|done]|].
    change (c ∈ t ++ [] ++ join [] (t2 :: l)) in Hc. rewrite !elem_of_app in Hc. destruct Hc as [Hc|[Hc|Hc]]; [exists t; split; [by left|done]|by apply elem_of_nil in Hc|].
    destruct (IH Hc) as (t' & ? & ?). exists t'. split; [by right|done].
  Qed.
  Lemma calls_complete b e e' s s' ids ids' (ops ops' : list tens) (g : elabel -> elabel) :
    e_in e <> [] -> plain_eqn e -> filter (.≠ c_space) s = render e -> well_formed e (shape <$> ops) ->
    e_in e' <> [] -> plain_eqn e' -> filter (.≠ c_space) s' = render e' -> well_formed e' (shape <$> ops') ->
    length ids = length ops -> length ids' = length ops' -> NoDup ids ->
    zip (in_labels e' (shape <$> ops')) ids' ≡ₚ zip (fmap (M:=list) g <$> in_labels e (shape <$> ops)) ids ->
    out_labels e' (shape <$> ops') = g <$> out_labels e (shape <$> ops) ->
    (forall a c, a ∈ mjoin (in_labels e (shape <$> ops)) -> c ∈ mjoin (in_labels e (shape <$> ops)) -> g a = g c -> a = c) ->
    exists k, call_key b s ids (shape <$> ops) = Ok k /\ call_key b s' ids' (shape <$> ops') = Ok k.
  Proof.
    intros Hne Hpl Hs Hwf Hne' Hpl' Hs' Hwf' Hl Hl' Hnd HP Hout Hg. rewrite (parse_key b e s ids ops), (parse_key b e' s' ids' ops') by done.
    set (p := name (ParseProof.fresh e (shape <$> ops))). set (p' := name (ParseProof.fresh e' (shape <$> ops'))).
    set (I := in_labels e (shape <$> ops)) in *. set (O := out_labels e (shape <$> ops)) in *. set (I' := in_labels e' (shape <$> ops')) in *.
    assert (HlI : length I = length ops) by by apply in_labels_length. assert (HlI' : length I' = length ops') by by apply in_labels_length.
    set (S := mjoin I).
    assert (HO : forall l, l ∈ O -> l ∈ S).
    { intros l H. destruct (wf_known _ _ Hwf l H) as (t & Ht & Hlt). apply elem_of_list_join. by exists t. }
    assert (Hk : forall l, l ∈ S -> known e (shape <$> ops) l).
    { intros l (t & Hlt & Ht)%elem_of_list_join. by eapply in_known. }
    assert (Hinj : forall a c, a ∈ S -> c ∈ S -> p a = p c -> a = c).
    { intros a c Ha Hc. apply name_inj; auto. }
    assert (HI' : forall l, l ∈ S -> exists t, t ∈ I' /\ g l ∈ t).
    { intros l (t & Hlt & Ht)%elem_of_list_join. exists (g <$> t). split; [|by apply elem_of_list_fmap_1].
      rewrite <-(fst_zip I' ids') by (rewrite HlI'; lia). rewrite HP, fst_zip by (rewrite fmap_length, HlI; lia). by apply elem_of_list_fmap_1. }
    assert (Hk' : forall l, l ∈ S -> known e' (shape <$> ops') (g l)).
    { intros l Hl0. destruct (HI' l Hl0) as (t & Ht & Hlt). by eapply in_known. }
    destruct (transfer S p (fun l => p' (g l)) Hinj) as [f Hf].
    assert (Hjoin : forall c, c ∈ join [] (fmap (M:=list) p <$> I) ++ (p <$> O) -> exists l, c = p l /\ l ∈ S).
    { intros c [Hc|Hc]%elem_of_app.
      - apply elem_join_nil in Hc as (t & (t0 & -> & Ht0)%elem_of_list_fmap & (l & -> & Hlt)%elem_of_list_fmap). exists l. split; [done|]. apply elem_of_list_join. by exists t0.
      - apply elem_of_list_fmap in Hc as (l & -> & Hc). exists l. auto. }
    exists (einsum_key b (fmap (M:=list) p <$> I) (p <$> O) ids). split; [done|]. f_equal. symmetry. rewrite Hout.
    assert (HpO : p' <$> (g <$> O) = f <$> (p <$> O)).
    { rewrite <-!list_fmap_compose. apply list_fmap_ext'. intros l Hlo. simpl. rewrite Hf by auto. done. }
    rewrite HpO. apply key_complete.
    - rewrite fmap_length. lia.
    - done.
    - assert (Hmap : forall (q : elabel -> N) (A : list (list elabel)) (B : list nat), zip (fmap (M:=list) q <$> A) B = (fun x : list elabel * nat => (q <$> x.1, x.2)) <$> zip A B).
      { clear. intros q A. induction A as [|t A IH]; intros [|i B]; [done..|]. simpl. f_equal. apply IH. }
      rewrite Hmap, HP. rewrite <-Hmap. f_equiv. rewrite <-!list_fmap_compose. apply list_fmap_ext'. intros t Ht. simpl. rewrite <-!list_fmap_compose. apply list_fmap_ext'. intros l Hlt. simpl.
      rewrite Hf; [done|]. apply elem_of_list_join. by exists t.
    - intros c (l & -> & Hl0)%Hjoin. assert (Hsyn : forall c, plain c -> c ∉ syntax) by (intros c (H1 & H2 & H3 & H4 & _); unfold syntax; set_solver).
      split; [apply Hsyn, name_plain; auto|]. rewrite Hf by done. apply Hsyn, name_plain; auto.
    - intros c c' (l & -> & Hl0)%Hjoin (l' & -> & Hl0')%Hjoin. rewrite !Hf by done. intros H. f_equal. apply Hg; [done|done|]. eapply name_inj; [exact Hpl'| | |exact H]; auto.
  Qed.
  (** Calls with the same key have the same value. *)
  Lemma calls_sound (h : gmap nat tens) b b' e e' s s' ids ids' (ops ops' : list tens) k :
    e_in e <> [] -> plain_eqn e -> filter (.≠ c_space) s = render e -> well_formed e (shape <$> ops) -> good (zip (in_labels e (shape <$> ops)) ops) ->
    e_in e' <> [] -> plain_eqn e' -> filter (.≠ c_space) s' = render e' -> well_formed e' (shape <$> ops') -> good (zip (in_labels e' (shape <$> ops')) ops') ->
    Forall2 (fun i x => h !! i = Some x) ids ops -> Forall2 (fun i x => h !! i = Some x) ids' ops' ->
    call_key b s ids (shape <$> ops) = Ok k -> call_key b' s' ids' (shape <$> ops') = Ok k ->
    b = b' /\ einsum (zip (in_labels e (shape <$> ops)) ops) (out_labels e (shape <$> ops)) ≡ₜ einsum (zip (in_labels e' (shape <$> ops')) ops') (out_labels e' (shape <$> ops')).
  Proof.
    intros Hne Hpl Hs Hwf Hg Hne' Hpl' Hs' Hwf' Hg' Hh Hh' Hk Hk'.
    destruct (user_parse e s ops Hne Hpl Hs Hwf Hg) as (ts & out & H1 & H2 & H3). destruct (user_parse e' s' ops' Hne' Hpl' Hs' Hwf' Hg') as (ts' & out' & H1' & H2' & H3').
    rewrite (sound_key b s ids ops ts out H1 H2) in Hk. rewrite (sound_key b' s' ids' ops' ts' out' H1' H2') in Hk'. apply Ok_inj in Hk as <-. apply Ok_inj in Hk'.
    rewrite <-H3, <-H3'. split; [by injection Hk'|]. by eapply same_key.
  Qed.
End Calls.
