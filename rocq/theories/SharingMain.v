(** Invariants of histories, for any property of cache entries; exactness of transpose and tensordot; einsum and whole contractions. *)
From Verif Require Import Prelude Einsum EinsumFacts EinsumOps Parser Helpers Contract Spec StringFacts StepFacts ContractFacts PathSpec ParseSpec ParseProof TopFacts ContractMain ApiSpec NoOptFacts ExprSpec ExprFacts Sharing SharingSpec SharingKey SharingFacts.

Section Any.
  Context {K : semiring}.
  Notation tens := (tensor K).
  Notation heap := (gmap nat tens).
  Variable ord : gset N -> list N.
  Variable lib : str -> backend K.
  Variable alloc : nat -> gset nat -> nat.
  Hypothesis alloc_ok : forall t X, alloc t X ∉ X.
  Variable keep : nat -> nat -> bool.
  Variable conv : str -> tens -> res tens.
  Variable P : list nat -> heap -> cache -> key -> nat -> Prop.
  Hypothesis P_tensor : forall X h m i, P X h m (KTensor i) i.
  Hypothesis P_mono : forall X X' h h' m m' k r, P X h m k r -> m ⊆ m' -> (forall i, i ∈ X -> i ∈ X') ->
    (forall k r, m !! k = Some r -> h' !! r = h !! r) -> (forall i, i ∈ X -> h' !! i = h !! i) -> m !! k = Some r -> P X' h' m' k r.
  Notation winv := (winv P).
  Definition pinned (m : cache) (ids : list nat) : Prop := forall i, i ∈ ids -> m !! KTensor i = Some i.
  (** What a new entry satisfies. *)
  Definition new_ok (X : list nat) (save : bool) (k : key) (fn : list tens -> res tens) (ids : list nat) (vals : list tens) : Prop :=
    forall h m r T, fn vals = Ok T -> h !! r = Some T -> Forall2 (fun i x => h !! i = Some x) ids vals -> (save = true -> pinned m ids) -> P X h m k r.
  Definition fine (w : world K) (p : world K * res nat) (X : list nat) : Prop :=
    winv p.1 /\ grows w p.1 X /\ match p.2 with Ok r => live p.1 r | Err _ => True end.

  Lemma op_fine w tid roots save kf fn ids : winv w -> Forall (live w) ids ->
    (forall k vals, values w ids = Ok vals -> kf (collect keep w (ids ++ roots)) = Ok k -> (forall i, k <> KTensor i) /\ new_ok (w_held w) save k fn ids vals) ->
    fine w (cached_op alloc keep w tid roots save kf fn ids) (ids ++ roots).
  Proof.
    intros HW Hl Hnew. destruct (values_live w ids Hl) as [vals Hv].
    destruct (cached_op_ok alloc alloc_ok keep P P_tensor P_mono w tid roots save kf fn ids vals _ HW Hl Hv eq_refl) as (w' & o & -> & HW' & HG & Ho).
    { intros k Hk. by apply Hnew. }
    split; [done|]. split; [done|]. simpl. destruct o as [r|]; [|done]. destruct Ho as (T & HT & _). unfold live. rewrite HT. eauto.
  Qed.
  Lemma tr_fine w tid roots b i axes : winv w -> live w i -> (forall x, w_heap w !! i = Some x -> new_ok (w_held w) true (KTranspose b i axes) (fun vals => match vals with [x] => b_transpose (lib b) x axes | _ => Err TypeError end) [i] [x]) ->
    fine w (cached_transpose lib alloc keep w tid roots b i axes) (i :: roots).
  Proof.
    intros HW Hl Hnew. rewrite transpose_op. apply (op_fine w tid roots true _ _ [i]); [done|by constructor|]. intros k vals Hv [= <-]. split; [done|].
    apply values_spec in Hv. inversion Hv as [|? x ? ? Hx Hv']; subst. inversion Hv'; subst. by apply Hnew.
  Qed.
  Lemma td_fine w tid roots b i j axl axr : winv w -> live w i -> live w j ->
    (forall x y, w_heap w !! i = Some x -> w_heap w !! j = Some y -> new_ok (w_held w) true (KTensordot b i j axl axr) (fun vals => match vals with [x; y] => b_tensordot (lib b) x y axl axr | _ => Err TypeError end) [i; j] [x; y]) ->
    fine w (cached_tensordot lib alloc keep w tid roots b i j axl axr) (i :: j :: roots).
  Proof.
    intros HW Hl Hl2 Hnew. rewrite tensordot_op. apply (op_fine w tid roots true _ _ [i; j]); [done|by repeat constructor|]. intros k vals Hv [= <-]. split; [done|].
    apply values_spec in Hv. inversion Hv as [|? x ? ? Hx Hv']; subst. inversion Hv' as [|? y ? ? Hy Hv2]; subst. inversion Hv2; subst. by apply Hnew.
  Qed.
  Lemma call_key_ok b s ids shapes k : call_key b s ids shapes = Ok k -> forall i, k <> KTensor i.
  Proof. unfold call_key. intros ([inp out] & _ & <-%Ok_inj)%bind_Ok. done. Qed.
  Lemma es_fine w tid roots b s ids : winv w -> Forall (live w) ids ->
    (forall k vals, values w ids = Ok vals -> call_key b s ids (shape <$> vals) = Ok k -> new_ok (w_held w) true k (run_einsum (lib b) s) ids vals) ->
    fine w (cached_einsum lib alloc keep w tid roots b s ids) (ids ++ roots).
  Proof.
    intros HW Hl Hnew. rewrite einsum_op. apply op_fine; [done|done|]. intros k vals Hv Hk. apply bind_Ok in Hk as (vals' & Hv' & Hk).
    assert (vals' = vals) as ->.
    { assert (Hv2 : values (collect keep w (ids ++ roots)) ids = Ok vals).
      { eapply values_same; [exact Hv|]. intros i Hi. apply (gr_keeps _ _ _ (collect_grows keep w (ids ++ roots))); [rewrite Forall_forall in Hl; by apply Hl|]. left. apply elem_of_app. by left. }
      rewrite Hv2 in Hv'. by apply Ok_inj in Hv'. }
    split; [by eapply call_key_ok|]. by apply Hnew.
  Qed.
  Lemma cv_fine w tid roots name i : winv w -> live w i -> (forall x, w_heap w !! i = Some x -> new_ok (w_held w) false (KConvert name i) (fun vals => match vals with [x] => conv name x | _ => Err TypeError end) [i] [x]) ->
    fine w (cached_convert alloc keep conv w tid roots name i) (i :: roots).
  Proof.
    intros HW Hl Hnew. rewrite convert_op. apply (op_fine w tid roots false _ _ [i]); [done|by constructor|]. intros k vals Hv [= <-]. split; [done|].
    apply values_spec in Hv. inversion Hv as [|? x ? ? Hx Hv']; subst. inversion Hv'; subst. by apply Hnew.
  Qed.

  (** When the property says nothing special about einsum entries, any contraction is fine. *)
  Definition any_op : Prop := forall X k fn ids vals,
    (exists b i axes, k = KTranspose b i axes /\ fn = (fun vals => match vals with [x] => b_transpose (lib b) x axes | _ => Err TypeError end) /\ ids = [i]) \/
    (exists b i j axl axr, k = KTensordot b i j axl axr /\ fn = (fun vals => match vals with [x; y] => b_tensordot (lib b) x y axl axr | _ => Err TypeError end) /\ ids = [i; j]) \/
    (exists b s, call_key b s ids (shape <$> vals) = Ok k /\ fn = run_einsum (lib b) s) ->
    new_ok X true k fn ids vals.
  Definition fine_list (w : world K) (p : world K * res (list nat)) : Prop :=
    winv p.1 /\ grows w p.1 [] /\ match p.2 with Ok l => Forall (live p.1) l | Err _ => True end.
  Lemma fine_err {A} w (e : exn) : winv w -> winv (w, Err e : res A).1 /\ grows w (w, Err e : res A).1 [].
  Proof. intros HW. split; [done|apply grows_refl]. Qed.

  Lemma sh_step_any w tid b ops c : any_op -> winv w -> Forall (live w) ops -> fine_list w (sh_step ord lib alloc keep w tid b ops c).
  Proof.
    intros Hany HW Hl. assert (Herr : forall e, fine_list w (w, Err e)) by (intros e; split; [done|split; [apply grows_refl|done]]).
    unfold sh_step. destruct (pops (c_inds c) ops) as [[tmp rest]|e] eqn:Hp; [|apply Herr]. cbn [lift].
    destruct (pops_live _ _ _ _ _ Hl Hp) as [Ht Hr].
    assert (Hend : forall p X, fine w p X -> (forall i, i ∈ rest -> i ∈ X) -> fine_list w (sbind p (fun w v => (w, Ok (rest ++ [v]))))).
    { intros [w' [v|e]] X (H1 & H2 & H3) HX; simpl in *; (split; [done|]; split; [by eapply grows_weaken; [|exact H2]; intros ? ?%elem_of_nil|]); [|done]. simpl.
      apply Forall_app. split; [|by constructor]. rewrite Forall_forall in *. intros i Hi. eapply grows_live; [exact H2|by apply Hr|left; auto]. }
    destruct (use_tensordot (lib b) (c_blas c)).
    2: { apply (Hend _ (tmp ++ tmp ++ rest)); [|intros i Hi; rewrite !elem_of_app; by right; right]. apply es_fine; [done|done|]. intros k vals Hv Hk. apply Hany. right. right. by exists b, (c_eq c). }
    destruct (split_arrow (c_eq c)) as [[input_str results]|e]; [|apply Herr]. cbn [lift].
    destruct (match split s_comma input_str with [l; r] => Ok (l, r) | _ => Err ValueError end) as [[l r]|e]; [|apply Herr]. cbn [lift].
    destruct tmp as [|x [|y [|]]]; try apply Herr. cbn [lift]. destruct (td_axes ord l r (c_rm c)) as [axes|e]; [|apply Herr]. cbn [lift].
    apply Forall_cons in Ht as [Hx Ht]. apply Forall_cons in Ht as [Hy _].
    assert (Htd : fine w (cached_tensordot lib alloc keep w tid ([x; y] ++ rest) b x y axes.*1 axes.*2) (x :: y :: [x; y] ++ rest)).
    { apply td_fine; [done|done|done|]. intros vx vy _ _. apply Hany. right. left. by exists b, x, y, (axes.*1), (axes.*2). }
    destruct (cached_tensordot lib alloc keep w tid ([x; y] ++ rest) b x y axes.*1 axes.*2) as [w1 [v|e]]; destruct Htd as (H1 & H2 & H3); simpl in H1, H2, H3.
    2: { split; [done|]. split; [|done]. simpl. eapply grows_weaken; [|exact H2]. by intros ? ?%elem_of_nil. }
    cbn [sbind]. case_decide as Hd.
    { apply (Hend (w1, Ok v) (x :: y :: [x; y] ++ rest)); [done|]. intros i Hi. by do 4 right. }
    destruct (mapM_res _ results) as [perm|e]; cbn [lift].
    2: { split; [done|]. split; [|done]. simpl. eapply grows_weaken; [|exact H2]. by intros ? ?%elem_of_nil. }
    assert (Htr : fine w1 (cached_transpose lib alloc keep w1 tid (v :: [x; y] ++ rest) b v perm) (v :: v :: [x; y] ++ rest)).
    { apply tr_fine; [done|done|]. intros vv _. apply Hany. left. by exists b, v, perm. }
    destruct (cached_transpose lib alloc keep w1 tid (v :: [x; y] ++ rest) b v perm) as [w2 [v2|e]]; destruct Htr as (G1 & G2 & G3); simpl in G1, G2, G3.
    - apply (Hend (w2, Ok v2) ([x; y] ++ rest)); [|intros i Hi; by do 2 right]. split; [done|]. split; [|done]. simpl. eapply (grows_trans w w1 w2); [|eapply grows_weaken; [|exact H2]|exact G2].
      + intros i Hi. by do 2 right.
      + intros i Hi. by do 2 right.
    - split; [done|]. split; [|done]. simpl. eapply (grows_trans w w1 w2); [|eapply grows_weaken; [|exact H2]|exact G2]; by intros ? ?%elem_of_nil.
  Qed.
  Lemma sh_loop_any tid b cl : any_op -> forall w ops, winv w -> Forall (live w) ops -> fine_list w (sh_loop ord lib alloc keep w tid b ops cl).
  Proof.
    intros Hany. induction cl as [|c cl IH]; intros w ops HW Hl; cbn [sh_loop]; [split; [done|split; [apply grows_refl|done]]|].
    pose proof (sh_step_any w tid b ops c Hany HW Hl) as (H1 & H2 & H3). destruct (sh_step ord lib alloc keep w tid b ops c) as [w1 [ops1|e]]; [|done].
    cbn [sbind]. simpl in H1, H2, H3. destruct (IH w1 ops1 H1 H3) as (G1 & G2 & G3). split; [done|]. split; [|done]. by eapply grows_then.
  Qed.
  Lemma sh_contract_any w tid b use_blas opt mem s ids : any_op -> winv w -> Forall (live w) ids ->
    fine w (sh_contract ord lib alloc keep w tid b use_blas opt mem s ids) [].
  Proof.
    intros Hany HW Hl.
    assert (Hc : fine w (lift w (vals ← values w ids; contract_path ord use_blas opt mem s (shape <$> vals)) (fun info => sh_core ord lib alloc keep w tid b ids (pi_contractions info))) []).
    { destruct (vals ← values w ids; contract_path ord use_blas opt mem s (shape <$> vals)) as [info|e]; cbn [lift]; [|split; [done|split; [apply grows_refl|done]]].
      unfold sh_core. destruct (sh_loop_any tid b (pi_contractions info) Hany w ids HW Hl) as (H1 & H2 & H3). destruct (sh_loop _ _ _ _ w tid b ids _) as [w1 [l|e]]; [|done].
      cbn [sbind]. simpl in H1, H2, H3. destruct l as [|r l]; [split; [done|split; [done|done]]|]. split; [done|]. split; [done|]. simpl. by apply Forall_cons in H3 as [? _]. }
    unfold sh_contract. destruct opt; [|exact Hc..].
    destruct (es_fine w tid [] (lit "numpy") s ids HW Hl) as (H1 & H2 & H3).
    { intros k vals Hv Hk. apply Hany. right. right. by exists (lit "numpy"), s. }
    split; [done|]. split; [|done]. eapply grows_weaken; [|exact H2]. by intros ? ?%elem_of_nil.
  Qed.

  (** ** Every action keeps the invariant. *)
  Lemma hold_inv w p X : fine w p X -> winv (hold_result p) /\ (forall i, i ∈ w_held w -> live w i -> w_heap (hold_result p) !! i = w_heap w !! i).
  Proof.
    intros (HW & HG & Hr). destruct p as [w' [r|e]]; simpl in *; (split; [|intros i Hi Hli; by apply (gr_keeps _ _ _ HG); [|right; left]]); [|done].
    pose proof HW as [W1 W2 W3]. split.
    - intros i [->|Hi]%elem_of_cons; [done|]. by apply W1.
    - intros c m k r' Hc Hk. destruct (W2 c m k r' Hc Hk) as (H1 & H2 & H3). split; [done|]. split; [done|]. eapply P_mono; [exact H3|done| |done|done|exact Hk]. intros i Hi. by right.
    - done.
  Qed.
  Definition args_held (w : world K) (a : action K) : Prop := Forall (fun i => i ∈ w_held w) (action_args a).
  Lemma act_unfold w a : ~ args_held w a -> act ord lib alloc keep conv w a = w.
  Proof.
    intros H. unfold act. destruct (forallb (fun i => bool_decide (i ∈ w_held w)) (action_args a)) eqn:E; [|done]. destruct H.
    apply Forall_forall. intros i Hi. rewrite forallb_forall in E. apply elem_of_list_In, E, bool_decide_eq_true in Hi. done.
  Qed.
  Lemma act_held w a : args_held w a -> forallb (fun i => bool_decide (i ∈ w_held w)) (action_args a) = true.
  Proof. unfold args_held. rewrite Forall_forall. intros H. apply forallb_forall. intros i Hi%elem_of_list_In. by apply bool_decide_eq_true, H. Qed.
  Lemma stacks_inv w s : winv w -> (forall tid l, s !! tid = Some l -> l <> [] /\ Forall (fun c => is_Some (w_caches w !! c)) l) -> winv (set_stacks w s).
  Proof. intros [W1 W2 W3] H. by split. Qed.
  (** What an action adds to the caches, and what it drops, satisfies [P]. *)
  Definition act_ok (w : world K) (a : action K) : Prop :=
    match a with
    | WDrop i => forall c m k r, w_caches w !! c = Some m -> m !! k = Some r -> P (remove_one i (w_held w)) (w_heap w) m k r
    | WTranspose _ b i axes => forall vals, new_ok (w_held w) true (KTranspose b i axes) (fun vals => match vals with [x] => b_transpose (lib b) x axes | _ => Err TypeError end) [i] vals
    | WTensordot _ b i j axl axr => forall vals, new_ok (w_held w) true (KTensordot b i j axl axr) (fun vals => match vals with [x; y] => b_tensordot (lib b) x y axl axr | _ => Err TypeError end) [i; j] vals
    | WEinsum _ _ _ _ | WContract _ _ _ _ _ _ _ => any_op
    | WConvert _ name i => forall x, w_heap w !! i = Some x -> new_ok (w_held w) false (KConvert name i) (fun vals => match vals with [x] => conv name x | _ => Err TypeError end) [i] [x]
    | _ => True
    end.
  Lemma remove_one_in i l j : j ∈ remove_one i l -> j ∈ l.
  Proof. induction l as [|k l IH]; simpl; [done|]. case_decide; rewrite ?elem_of_cons; [by right|]. intros [->|H']; [by left|right; auto]. Qed.
  (** Everything except the operations on arrays. *)
  Definition is_op (a : action K) : Prop := match a with WEinsum _ _ _ _ | WContract _ _ _ _ _ _ _ => True | _ => False end.
  Lemma act_inv_other w a : winv w -> (~ is_op a) -> act_ok w a -> 
    winv (act ord lib alloc keep conv w a) /\ (forall i, i ∈ w_held w -> w_heap (act ord lib alloc keep conv w a) !! i = w_heap w !! i).
  Proof.
    intros HW Hop Hok. destruct (decide (args_held w a)) as [Ha|Ha]; [|by rewrite act_unfold]. pose proof HW as [W1 W2 W3].
    assert (Hlive : Forall (live w) (action_args a)) by (eapply Forall_impl; [exact Ha|]; done).
    assert (Hres : forall p X, fine w p X -> winv (hold_result p) /\ (forall i, i ∈ w_held w -> w_heap (hold_result p) !! i = w_heap w !! i)).
    { intros p X H. destruct (hold_inv w p X H) as [H1 H2]. split; [done|]. intros i Hi. by apply H2, W1. }
    unfold act. rewrite (act_held w a Ha). cbn [negb]. destruct a; simpl in Hok, Hop; try done.
    - set (w0 := collect keep w []). destruct (new_object alloc w0 T) as [w1 r] eqn:E. pose proof (collect_grows keep w []) as HG0. fold w0 in HG0.
      destruct (new_object_grows alloc alloc_ok w0 T w1 r [] E) as (HG1 & Hr & _ & Hc).
      assert (HG : grows w w1 []) by by eapply grows_then. apply (Hres (w1, Ok r) []). split; [|split; [done|simpl; unfold live; rewrite Hr; eauto]]. simpl.
      by apply (grows_inv P P_mono w w1 []).
    - split; [|done]. split.
      + intros j Hj. simpl in Hj. apply remove_one_in in Hj. by apply W1.
      + intros c m k r Hc Hk. simpl in Hc. destruct (W2 _ _ _ _ Hc Hk) as (H1 & H2 & _). split; [done|]. split; [done|]. by eapply Hok.
      + done.
    - split; [by apply collect_inv|]. intros i Hi. apply (gr_keeps _ _ _ (collect_grows keep w [])); [by apply W1|right; by left].
    - destruct c as [c|].
      + case_decide as Hc; [|done]. split; [|done]. apply stacks_inv; [done|]. intros t l. destruct (decide (t = tid)) as [->|Hne].
        * rewrite lookup_insert. intros [= <-]. split; [done|]. constructor; [done|]. destruct (w_stacks w !! tid) as [l|] eqn:E; [|constructor]. by apply (W3 tid l).
        * rewrite lookup_insert_ne by done. apply W3.
      + set (c := base.fresh (dom (w_caches w) : gset nat)). assert (Hc : w_caches w !! c = None) by (apply not_elem_of_dom, is_fresh). split; [|done]. split.
        * intros i Hi. by apply W1.
        * intros c2 m k r Hc2 Hk. unfold add_sharing_cache, set_stacks, set_cache in Hc2. cbn [w_caches] in Hc2. destruct (decide (c2 = c)) as [->|Hne].
          -- rewrite lookup_insert in Hc2. injection Hc2 as <-. by rewrite lookup_empty in Hk.
          -- rewrite lookup_insert_ne in Hc2 by done. by apply (W2 c2).
        * intros t l. unfold add_sharing_cache, set_stacks, set_cache. cbn [w_stacks w_caches]. intros Hl.
          assert (Hold : forall c2, is_Some (w_caches w !! c2) -> is_Some (<[c:=∅]> (w_caches w) !! c2)).
          { intros c2 [m Hm]. destruct (decide (c2 = c)) as [->|Hne]; [rewrite lookup_insert; by eexists|]. rewrite lookup_insert_ne by done. by eexists. }
          destruct (decide (t = tid)) as [->|Hne].
          -- rewrite lookup_insert in Hl. injection Hl as <-. split; [done|]. constructor; [rewrite lookup_insert; by eexists|]. destruct (w_stacks w !! tid) as [l|] eqn:E; [|constructor].
             simpl. eapply Forall_impl; [by apply (W3 tid l)|]. apply Hold.
          -- rewrite lookup_insert_ne in Hl by done. destruct (W3 _ _ Hl) as [H1 H2]. split; [done|]. eapply Forall_impl; [exact H2|]. apply Hold.
    - unfold currently_sharing. case_bool_decide as Hs; [|done]. destruct Hs as [l Hl]. unfold remove_sharing_cache. rewrite Hl. destruct (W3 _ _ Hl) as [Hne Hall].
      destruct l as [|c [|c2 l]]; [done| |]; (split; [|done]); apply stacks_inv; try done; intros t l'.
      + intros [_ H]%lookup_delete_Some. by eapply W3.
      + destruct (decide (t = tid)) as [->|Hne2]; [|rewrite lookup_insert_ne by done; apply W3]. rewrite lookup_insert. intros [= <-]. split; [done|]. by apply Forall_cons in Hall as [_ ?].
    - case_decide as Hs; [done|]. split; [|done]. split; [done| |].
      + intros c2 m k r Hc2 Hk. cbn [w_caches] in Hc2. apply lookup_delete_Some in Hc2 as [_ Hc2]. by apply (W2 c2).
      + intros t l Hl. cbn [w_stacks w_caches] in *. destruct (W3 _ _ Hl) as [H1 H2]. split; [done|]. rewrite Forall_forall in *. intros c2 Hc2. rewrite lookup_delete_ne; [by apply H2|].
        intros ->. apply Hs. by exists t, l.
    - apply Forall_cons in Hlive as [Hl _]. apply (Hres _ [i]). apply tr_fine; [done|done|]. intros x _. apply Hok.
    - apply Forall_cons in Hlive as [Hl Hl2]. apply Forall_cons in Hl2 as [Hl2 _]. apply (Hres _ [i; j]). apply td_fine; [done|done|done|]. intros x y _ _. apply Hok.
    - apply Forall_cons in Hlive as [Hl _]. apply (Hres _ [i]). by apply cv_fine.
  Qed.
  Lemma act_inv w a : winv w -> act_ok w a -> 
    winv (act ord lib alloc keep conv w a) /\ (forall i, i ∈ w_held w -> w_heap (act ord lib alloc keep conv w a) !! i = w_heap w !! i).
  Proof.
    intros HW Hok. destruct (decide (args_held w a)) as [Ha|Ha]; [|by rewrite act_unfold]. pose proof HW as [W1 W2 W3].
    assert (Hlive : Forall (live w) (action_args a)) by (eapply Forall_impl; [exact Ha|]; done).
    destruct a; try (apply act_inv_other; [exact HW|by intros []|exact Hok]); unfold act; rewrite (act_held w _ Ha); cbn [negb]; simpl in Hok.
    - destruct (hold_inv w (cached_einsum lib alloc keep w tid [] b eq ids) (ids ++ [])) as [H1 H2].
      { apply es_fine; [done|done|]. intros k vals Hv Hk. apply Hok. right. right. by exists b, eq. }
      split; [done|]. intros i Hi. by apply H2, W1.
    - destruct (hold_inv w (sh_contract ord lib alloc keep w tid b use_blas opt mem s ids) []) as [H1 H2]; [by apply sh_contract_any|].
      split; [done|]. intros i Hi. by apply H2, W1.
  Qed.
  Lemma start_inv : winv start.
  Proof. split; unfold start; cbn [w_held w_caches w_stacks]; [by intros ? ?%elem_of_nil|intros; by rewrite lookup_empty in *..]. Qed.
End Any.
