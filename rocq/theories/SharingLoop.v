(** Whole contractions with sharing. *)
From Verif Require Import Prelude Einsum EinsumFacts EinsumOps Parser Helpers Contract Spec StringFacts StepFacts ContractFacts PathSpec ParseSpec ParseProof TopFacts ContractMain ArgFacts ShapeFacts ParseSound RenameFacts Api ApiSpec InterleavedFacts NoOptFacts ExprSpec ExprFacts Sharing SharingSpec SharingKey SharingFacts SharingMain SharingValue.

Section Parse.
  Context {K : semiring}.
  Notation tens := (tensor K).
  (** A step equation parses to itself. *)
  Lemma step_parse (ts : list str) (out : str) (ops : list tens) : v_einsum ts out ops ->
    parse_einsum_input (equation ts out) (shape <$> ops) = Ok (join s_comma ts, out) /\ sound ts out ops.
  Proof.
    intros (Hne & Hlen & Hpl & Hnd & Hout & Hr & Hc & Hd & _).
    set (e := Eqn ((fun t => ETerm t None) <$> ts) (Some (ETerm out None))).
    assert (Hts : t_pre <$> e_in e = ts) by (unfold e; simpl; rewrite <-list_fmap_compose; by apply list_fmap_id).
    assert (Hell : no_ellipsis e) by (split; [unfold e; simpl; by apply Forall_fmap, Forall_true|done]).
    assert (Hrend : render e = equation ts out).
    { unfold render. rewrite (ts_render e Hell), Hts. unfold e. simpl. unfold render_term. simpl. by rewrite app_nil_r. }
    assert (Hil : in_labels e (shape <$> ops) = fmap (M:=list) Named <$> ts).
    { rewrite (in_labels_plain e Hell), Hts; [done|]. unfold e. simpl. by rewrite !fmap_length. }
    assert (Hol : out_labels e (shape <$> ops) = Named <$> out) by (rewrite (out_labels_plain e Hell); done).
    assert (Hpo : Forall plain out).
    { apply Forall_forall. intros c Hco. apply Hout, elem_labels_zip in Hco as (t & Ht & Hct); [|done]. rewrite Forall_forall in Hpl. specialize (Hpl t Ht). by apply (plain_no t). }
    assert (Hpe : plain_eqn e).
    { split; unfold e; simpl.
      - apply Forall_fmap. eapply Forall_impl; [exact Hpl|]. intros t Ht. simpl. unfold t_named. simpl. by rewrite app_nil_r.
      - unfold t_named. simpl. by rewrite app_nil_r. }
    assert (Hwf : well_formed e (shape <$> ops)).
    { split.
      - unfold e. simpl. by rewrite !fmap_length.
      - unfold e. simpl. apply Forall2_fmap. apply Forall2_same_length_lookup_2; [by rewrite Hlen|]. done.
      - rewrite Hol. apply NoDup_fmap_2; [by intros ? ? [=]|done].
      - rewrite Hol, Hil. intros l (c & -> & Hc')%elem_of_list_fmap. apply Hout, elem_labels_zip in Hc' as (t & Ht & Hct); [|done].
        exists (Named <$> t). split; by apply elem_of_list_fmap_1. }
    split; [|by split_and!].
    rewrite (parsed e (equation ts out) ops); [|by unfold e; simpl; intros ?%fmap_nil_inv|done|rewrite <-Hrend; by apply render_no_space|done].
    rewrite Hil, Hol, name_named. do 3 f_equal. rewrite <-list_fmap_compose. rewrite <-(list_fmap_id ts) at 2. apply list_fmap_ext. intros ? t _. simpl. apply name_named.
  Qed.
  (** The parse of an equation means what the equation means. *)
  Lemma user_parse (e : eqn) s (ops : list tens) : e_in e <> [] -> plain_eqn e -> filter (.≠ c_space) s = render e -> well_formed e (shape <$> ops) ->
    good (zip (in_labels e (shape <$> ops)) ops) ->
    exists ts out, parse_einsum_input s (shape <$> ops) = Ok (join s_comma ts, out) /\ sound ts out ops /\
      einsum (zip ts ops) out ≡ₜ einsum (zip (in_labels e (shape <$> ops)) ops) (out_labels e (shape <$> ops)).
  Proof.
    intros Hne Hpl Hs Hwf Hg. set (g := name (fresh e (shape <$> ops))). exists (fmap (M:=list) g <$> in_labels e (shape <$> ops)), (g <$> out_labels e (shape <$> ops)).
    split; [by apply parsed|].
    pose proof (zip_ts e ops) as Hzip. fold g in Hzip. pose proof (g_inj e ops Hpl) as Hinj. fold g in Hinj. 
    assert (Hil : length (in_labels e (shape <$> ops)) = length ops) by by apply in_labels_length.
    split.
    - split; [|split; [|split; [|split; [|split]]]].
      + intros E%fmap_nil_inv. rewrite E in Hil. destruct ops; [|done]. pose proof (wf_count _ _ Hwf) as Hc. by destruct (e_in e).
      + by rewrite fmap_length.
      + apply Forall_forall. intros t (t' & -> & Ht')%elem_of_list_fmap. apply Forall_forall. intros c (l & -> & Hl)%elem_of_list_fmap.
        apply name_plain; [done|]. by eapply in_known.
      + apply Forall_forall. intros c (l & -> & Hl)%elem_of_list_fmap. apply name_plain; [done|]. by apply out_known.
      + apply NoDup_fmap_2_strong; [|by destruct Hwf]. intros a b Ha Hb. apply Hinj; by right.
      + rewrite Hzip. apply good_rename; [|done]. intros a b Ha Hb. apply Hinj; by left.
    - rewrite Hzip. apply einsum_rename; [apply Hinj|by destruct Hwf].
  Qed.
End Parse.

Section Loop.
  Context {K : semiring}.
  Notation tens := (tensor K).
  Variable ord : gset N -> list N.
  Hypothesis ord_ok : forall s, ord s ≡ₚ elements s.
  Variable lib : str -> backend K.
  Hypothesis lib_ok : forall b, backend_ok (lib b).
  Hypothesis lib_doc : forall b, b_has_einsum (lib b) = true -> documented_einsum (lib b).
  Variable alloc : nat -> gset nat -> nat.
  Hypothesis alloc_ok : forall t X, alloc t X ∉ X.
  Variable keep : nat -> nat -> bool.
  Variable conv : str -> tens -> res tens.
  Notation E := (entry_ok lib true).
  Notation points w := (Forall2 (fun i x => w_heap w !! i = Some x)).

  Lemma points_keep (w w' : world K) X ids vals : grows w w' X -> (forall i, i ∈ ids -> i ∈ X \/ i ∈ w_held w) -> points w ids vals -> points w' ids vals.
  Proof.
    intros HG Hi H. rewrite <-values_spec in *. eapply values_same; [exact H|]. intros i Hin. apply (gr_keeps _ _ _ HG).
    - apply values_spec in H. apply elem_of_list_lookup in Hin as [j Hj]. destruct (Forall2_lookup_l _ _ _ _ _ H Hj) as (x & _ & Hx). unfold live. rewrite Hx. eauto.
    - destruct (Hi i Hin) as [?|?]; [by left|right; by left].
  Qed.
  Lemma step_outcome w tid b ops c cl V vals : winv E w -> points w ops vals -> robust ord (lib b) (c :: cl) V vals ->
    exists w' ops' vals', sh_step ord lib alloc keep w tid b ops c = (w', Ok ops') /\ winv E w' /\ grows w w' [] /\ points w' ops' vals' /\ robust ord (lib b) cl V vals'.
  Proof.
    intros HW Hops (Hd & tmpv & restv & W & Hp & Hv & Hr). destruct (pops_rel _ _ _ _ _ _ Hops Hp) as (tmp & rest & Hp' & Ht & Hrest).
    unfold sh_step. rewrite Hp'. cbn [lift].
    assert (Hend : forall p X w' r T, p = (w', Ok r) -> winv E w' -> grows w w' X -> (forall i, i ∈ rest -> i ∈ X) -> w_heap w' !! r = Some T -> T ≡ₜ W ->
      exists w' ops' vals', sbind p (fun w v => (w, Ok (rest ++ [v]))) = (w', Ok ops') /\ winv E w' /\ grows w w' [] /\ points w' ops' vals' /\ robust ord (lib b) cl V vals').
    { intros p X w' r T -> HW' HG HX Hr' HT. exists w', (rest ++ [r]), (restv ++ [T]). split; [done|]. split; [done|]. split; [eapply grows_weaken; [|exact HG]; by intros ? ?%elem_of_nil|]. split.
      - apply Forall2_app; [|by constructor]. eapply points_keep; [exact HG| |exact Hrest]. intros i Hi. left. auto.
      - apply Hr. apply Forall2_app; [apply teq_refl_list|]. constructor; [by symmetry|done]. }
    unfold step_valid in Hv. destruct (use_tensordot (lib b) (c_blas c)).
    - destruct Hv as (l & r & out & x & y & -> & -> & (Hpl & Hpr & Hplout & ax & Hax & Hvt & Hrest2)).
      inversion Ht as [|ix ? ? ? Hx Ht2]; subst. inversion Ht2 as [|iy ? ? ? Hy Ht3]; subst. inversion Ht3; subst.
      unfold split_arrow, equation. rewrite split_arrow_two.
      2: { apply plain_join_dash. by repeat constructor. }
      2: { intros Hc. by apply (plain_no _ _ Hplout) in Hc as (_ & ? & _). }
      cbn [lift]. unfold s_comma. rewrite split1_join; [|done|].
      2: { repeat constructor; intros Hc; [by apply (plain_no _ _ Hpl) in Hc as (? & _)|by apply (plain_no _ _ Hpr) in Hc as (? & _)]. }
      cbn [lift]. rewrite Hax. cbn [lift].
      destruct (td_outcome lib alloc alloc_ok keep true w tid ([ix; iy] ++ rest) b ix iy ax.*1 ax.*2 x y HW Hx Hy) as (w1 & o & -> & HW1 & HG1 & Ho).
      destruct Hvt as (V1 & V2 & V3 & V4 & V5 & V6). destruct (ok_tensordot _ (lib_ok b) x y ax.*1 ax.*2) as (T & HT & HTeq); try done.
      unfold same_outcome in Ho. rewrite HT in Ho. simpl in Ho. destruct o as [v|]; [|done]. destruct Ho as (T' & Hv & ->). cbn [sbind].
      destruct (Hrest2 T HTeq) as [R1 R2]. case_decide as Heq.
      { eapply (Hend _ _ w1 v T); [done|done|exact HG1| |done|by apply R1]. intros i Hi. by do 4 right. }
      destruct R2 as (axes & Haxes & Hvp & R3). rewrite Haxes. cbn [lift].
      destruct (tr_outcome lib alloc alloc_ok keep true w1 tid (v :: [ix; iy] ++ rest) b v axes T HW1 Hv) as (w2 & o & -> & HW2 & HG2 & Ho).
      destruct (ok_transpose _ (lib_ok b) T axes) as (T2 & HT2 & HT2eq); [done|]. unfold same_outcome in Ho. rewrite HT2 in Ho. simpl in Ho.
      destruct o as [v2|]; [|done]. destruct Ho as (T2' & Hv2 & ->).
      eapply (Hend _ rest w2 v2 T2); [done|done| |done|done|by apply R3]. eapply (grows_trans w w1 w2); [|eapply grows_weaken; [|exact HG1]|exact HG2].
      + intros i Hi. by do 4 right.
      + intros i Hi. by do 4 right.
    - destruct Hv as (He & ts & out & -> & Hve & HW2). destruct (v_einsum_ok (lib b) (lib_ok b) ts out tmpv He Hve) as (T & HT & HTeq).
      destruct (step_parse ts out tmpv Hve) as [Hpa Hso].
      destruct (es_outcome lib alloc alloc_ok keep w tid (tmp ++ rest) b (equation ts out) tmp tmpv T HW Ht) as (w1 & r & T' & -> & HW1 & HG1 & Hr1 & HT').
      { exists ts, out. done. }
      eapply (Hend _ _ w1 r T'); [done|done|exact HG1| |done|]; [intros i Hi; rewrite !elem_of_app; by right; right|]. by rewrite HT', HTeq.
  Qed.
  Lemma loop_outcome tid b cl V : forall w ops vals, winv E w -> points w ops vals -> robust ord (lib b) cl V vals ->
    exists w' r T, sh_loop ord lib alloc keep w tid b ops cl = (w', Ok [r]) /\ winv E w' /\ grows w w' [] /\ w_heap w' !! r = Some T /\ T ≡ₜ V.
  Proof.
    induction cl as [|c cl IH]; intros w ops vals HW Hops Hr.
    - destruct Hr as (T & -> & HT). inversion Hops as [|r ? ? ? Hx H2]; subst. inversion H2; subst. exists w, r, T. split; [done|]. split; [done|]. split; [apply grows_refl|done].
    - destruct (step_outcome w tid b ops c cl V vals HW Hops Hr) as (w1 & ops1 & vals1 & Hs & HW1 & HG1 & Hp1 & Hr1).
      destruct (IH w1 ops1 vals1 HW1 Hp1 Hr1) as (w2 & r & T & Hl & HW2 & HG2 & H1 & H2). exists w2, r, T. cbn [sh_loop]. rewrite Hs. cbn [sbind]. split; [done|]. split; [done|]. split; [by eapply grows_then|done].
  Qed.

  Lemma valid_sound_call b s vals : valid_einsum lib b s vals -> exists T, sound_call lib b s vals T.
  Proof.
    intros (e & -> & Hne & Hpl & Hwf & Hg & Hsz & Hcase & He).
    assert (Hrun : exists T, run_einsum (lib b) (render e) vals = Ok T /\ T ≡ₜ einsum (zip (in_labels e (shape <$> vals)) vals) (out_labels e (shape <$> vals))).
    { destruct (has_valid_einsum_chars_only (render e)) eqn:Hv.
      - by apply no_opt_valid; try done; apply lib_doc.
      - destruct Hcase as [Hell|Hlet]; [exact (no_opt_invalid (lib b) (lib_ok b) He e vals Hne Hpl Hwf Hg Hell Hv Hsz)|].
        rewrite (letters_valid e) in Hv by done. done. }
    destruct Hrun as (T & HT & Heq). destruct (user_parse e (render e) vals Hne Hpl) as (ts & out & H1 & H2 & H3); [by apply render_no_space|done|done|].
    exists T, ts, out. split; [done|]. split; [done|]. split; [done|]. by rewrite Heq, H3.
  Qed.
  Lemma contract_outcome w tid b use_blas opt mem s ids vals : winv E w -> points w ids vals -> valid_contract lib b opt mem s vals ->
    exists w' r T T', sh_contract ord lib alloc keep w tid b use_blas opt mem s ids = (w', Ok r) /\ winv E w' /\ grows w w' [] /\ w_heap w' !! r = Some T' /\
      contract ord (lib b) use_blas opt mem s vals = Ok T /\ T' ≡ₜ T.
  Proof.
    intros HW Hops (e & Hs & Hne & Hpl & Hwf & Hg & Hsz & Hmem & Hst & He).
    destruct (contract_path_ok ord ord_ok (lib b) (lib_ok b) e s vals Hne Hpl Hs Hwf use_blas opt mem Hg Hmem Hst) as (info & Hinfo & _ & _ & _ & _ & Hfit & _).
    destruct (contract_ok ord ord_ok (lib b) (lib_ok b) e s vals Hne Hpl Hs Hwf use_blas opt mem Hg Hmem Hst He Hsz) as (T & HT & HTeq).
    destruct (path_robust ord ord_ok e s vals Hne Hpl Hs Hwf use_blas opt mem Hg Hmem Hst (lib b) info vals (lib_ok b) Hinfo (Hfit He Hsz)) as [_ Hrob].
    { unfold same_ranks. by apply Forall2_same_length_lookup_2; [|intros; simplify_eq]. } { done. } { by left. }
    destruct (loop_outcome tid b (pi_contractions info) _ w ids vals HW Hops (Hrob vals (teq_refl_list vals))) as (w' & r & T' & Hl & HW' & HG & Hr & HT').
    exists w', r, T, T'. split; [|split; [done|split; [done|split; [done|split; [done|by rewrite HT', HTeq]]]]].
    assert (Hcore : lift w (vals ← values w ids; contract_path ord use_blas opt mem s (shape <$> vals)) (fun info => sh_core ord lib alloc keep w tid b ids (pi_contractions info)) = (w', Ok r)).
    { apply values_spec in Hops. rewrite Hops. cbn [mbind res_bind]. rewrite Hinfo. cbn [lift]. unfold sh_core. by rewrite Hl. }
    unfold sh_contract. destruct opt; [|exact Hcore..]. done.
  Qed.
End Loop.
