(** A graph gives what the contraction gives on the arrays fed. *)
From Verif Require Import Prelude Einsum EinsumFacts EinsumOps Parser Helpers Contract Spec PathSpec ContractFacts ParseSpec TopFacts ContractMain RefBackend Expression ExprSpec ExprFacts ExprMain Graph GraphSpec.

Section Convert.
  Context {K : semiring}.
  Notation tens := (tensor K).
  Definition op_ids (ops : list (graph_op K)) : list (nat * tens) := ops ≫= fun o => match o with GArray i T => [(i, T)] | GTensor _ => [] end.
  Lemma op_ids_arrays ops : (op_ids ops).*2 = op_arrays ops.
  Proof. induction ops as [|[i T|T] ops IH]; [done| |done]. unfold op_ids, op_arrays in *. cbn. by rewrite <-IH. Qed.

  (** The state of the conversions: outside sharing contexts, or with objects of known shapes. *)
  Definition cache_ok (b : str) (obj : nat -> list nat) (next : nat) (m : gmap (str * nat) placeholder) : Prop :=
    (forall key p, m !! key = Some p -> p.1 < next) /\ (forall i p, m !! (b, i) = Some p -> p.2 = obj i) /\
    (forall i j p q, m !! (b, i) = Some p -> m !! (b, j) = Some q -> p.1 = q.1 -> i = j).
  Definition cv_inv (b : str) (oo : option (nat -> list nat)) (cv : converter) : Prop :=
    match oo with None => cv_stack cv = [] | Some obj => Forall (cache_ok b obj (cv_next cv)) (cv_stack cv) end.
  Lemma cache_ok_le b obj n n' m : n <= n' -> cache_ok b obj n m -> cache_ok b obj n' m.
  Proof. intros Hn (H1 & H2 & H3). split; [|done]. intros key p Hp. apply H1 in Hp. lia. Qed.
  Lemma to_graph_inv b oo cv b' i (T : tens) : cv_inv b oo cv -> (forall obj, oo = Some obj -> b' = b -> shape T = obj i) -> cv_inv b oo (to_graph cv b' i T).1.
  Proof.
    intros Hi Hs. unfold to_graph. destruct (cv_stack cv) as [|m ms] eqn:E; [by destruct oo; cbn|]. destruct (m !! (b', i)) as [p|] eqn:Em; [done|].
    destruct oo as [obj|]; cbn in Hi; [|by rewrite Hi in E]. rewrite E in Hi. cbn. apply Forall_cons in Hi as [(H1 & H2 & H3) Hms]. constructor; [|eapply Forall_impl; [exact Hms|]; intros; eapply cache_ok_le; [|done]; lia].
    split; [|split].
    - intros key p Hp. destruct (decide (key = (b', i))) as [->|Hne]; [rewrite lookup_insert in Hp; by injection Hp as <-; cbn; lia|]. rewrite lookup_insert_ne in Hp by done. apply H1 in Hp. lia.
    - intros j p Hp. destruct (decide ((b, j) = (b', i))) as [Heq|Hne]; [rewrite Heq, lookup_insert in Hp; injection Hp as <-; injection Heq as <- <-; by apply Hs|]. rewrite lookup_insert_ne in Hp by done. by apply H2.
    - intros j j' p q Hp Hq Heq. destruct (decide ((b, j) = (b', i))) as [E1|E1], (decide ((b, j') = (b', i))) as [E2|E2].
      + congruence.
      + rewrite E1, lookup_insert in Hp. rewrite lookup_insert_ne in Hq by done. injection Hp as <-. apply H1 in Hq. cbn in Heq. lia.
      + rewrite E2, lookup_insert in Hq. rewrite lookup_insert_ne in Hp by done. injection Hq as <-. apply H1 in Hp. cbn in Heq. lia.
      + rewrite lookup_insert_ne in Hp, Hq by done. by eapply H3.
  Qed.
  Lemma to_graph_all_inv b oo b' ops : forall cv, cv_inv b oo cv -> (forall obj, oo = Some obj -> b' = b -> forall a, a ∈ op_ids ops -> shape a.2 = obj a.1) -> cv_inv b oo (to_graph_all cv b' ops).1.
  Proof.
    induction ops as [|[i T|T] ops IH]; intros cv Hi Hs; [done| |].
    - cbn [to_graph_all]. destruct (to_graph cv b' i T) as [cv1 p] eqn:E1. specialize (IH cv1). destruct (to_graph_all cv1 b' ops) as [cv2 vs] eqn:E2. cbn in *. apply IH.
      + pose proof (to_graph_inv b oo cv b' i T Hi) as H. rewrite E1 in H. apply H. intros obj Ho Hb. apply (Hs obj Ho Hb (i, T)). by left.
      + intros obj Ho Hb a Ha. apply (Hs obj Ho Hb). by right.
    - cbn [to_graph_all]. specialize (IH cv). destruct (to_graph_all cv b' ops) as [cv2 vs]. by apply IH.
  Qed.

  (** What a variable of the graph is fed with. *)
  Definition fed (k : graph_kind) (v : graph_var K) (o : graph_op K) : Prop :=
    match v, o with GPlace p, GArray _ T => feedable k p.2 (shape T) | GConst T, GTensor T' => T = T' | _, _ => False end.
  Lemma fed_any k v o : fed Tensorflow v o -> fed k v o.
  Proof. destruct v, o; try done. cbn. intros ->. by destruct k. Qed.
  Lemma convert_fresh b ops : forall cv, cv_stack cv = [] -> let '(cv', vs) := to_graph_all cv b ops in
    cv_stack cv' = [] /\ Forall2 (fed Tensorflow) vs ops /\ Forall (fun p => cv_next cv <= p) (places vs).*1 /\ NoDup (places vs).*1.
  Proof.
    induction ops as [|[i T|T] ops IH]; intros cv Hs; [split; [done|]; split; [constructor|]; split; constructor| |].
    - cbn [to_graph_all]. unfold to_graph. rewrite Hs. specialize (IH (Converter (S (cv_next cv)) []) eq_refl).
      destruct (to_graph_all (Converter (S (cv_next cv)) []) b ops) as [cv2 vs]. destruct IH as (H1 & H2 & H3 & H4). split; [done|]. split; [by constructor|].
      change (places (GPlace (cv_next cv, shape T) :: vs)) with ((cv_next cv, shape T) :: places vs). rewrite fmap_cons. cbn [cv_next fst] in *. split.
      + constructor; [done|]. eapply Forall_impl; [exact H3|]. cbn. lia.
      + constructor; [|done]. intros Hin. rewrite Forall_forall in H3. apply H3 in Hin. cbn in Hin. lia.
    - cbn [to_graph_all]. specialize (IH cv Hs). destruct (to_graph_all cv b ops) as [cv2 vs]. destruct IH as (H1 & H2 & H3 & H4). split; [done|]. split; [by constructor|]. done.
  Qed.
  Lemma convert_shared b obj ops : forall m ms n, Forall (cache_ok b obj n) (m :: ms) -> (forall a, a ∈ op_ids ops -> shape a.2 = obj a.1) ->
    let '(cv', vs) := to_graph_all (Converter n (m :: ms)) b ops in
    exists m', cv_stack cv' = m' :: ms /\ m ⊆ m' /\ cache_ok b obj (cv_next cv') m' /\ Forall2 (fed Tensorflow) vs ops /\ Forall2 (fun p i => m' !! (b, i) = Some p) (places vs) (op_ids ops).*1.
  Proof.
    induction ops as [|[i T|T] ops IH]; intros m ms n Hm Hs.
    - exists m. apply Forall_cons in Hm as [Hm _]. split; [done|]. split; [done|]. split; [done|]. split; constructor.
    - cbn [to_graph_all]. pose proof (to_graph_inv b (Some obj) (Converter n (m :: ms)) b i T Hm) as Hinv.
      assert (HT : shape T = obj i) by (apply (Hs (i, T)); by left).
      assert (Hrest : forall a, a ∈ op_ids ops -> shape a.2 = obj a.1) by (intros a Ha; apply Hs; by right).
      assert (Hone : exists n1 m1 p, to_graph (Converter n (m :: ms)) b i T = (Converter n1 (m1 :: ms), p) /\ m ⊆ m1 /\ m1 !! (b, i) = Some p /\ p.2 = shape T).
      { unfold to_graph. cbn [cv_stack cv_next]. destruct (m !! (b, i)) as [p|] eqn:Em.
        - exists n, m, p. split; [done|]. split; [done|]. split; [done|]. apply Forall_cons in Hm as [(_ & H2 & _) _]. apply H2 in Em. congruence.
        - exists (S n), (<[(b, i) := (n, shape T)]> m), (n, shape T). split; [done|]. split; [by apply insert_subseteq|]. split; [apply lookup_insert|done]. }
      destruct Hone as (n1 & m1 & p & Eg & Hsub & Hp & Hsh). rewrite Eg in Hinv |- *. cbn in Hinv. specialize (Hinv ltac:(intros ? [= <-] _; done)).
      specialize (IH m1 ms n1 Hinv Hrest). destruct (to_graph_all (Converter n1 (m1 :: ms)) b ops) as [cv2 vs]. destruct IH as (m' & H1 & H2 & H3 & H4 & H5).
      exists m'. split; [done|]. split; [by etrans|]. split; [done|]. split; [by constructor|]. unfold op_ids, places in *. cbn. constructor; [|exact H5]. by eapply lookup_weaken.
    - cbn [to_graph_all]. specialize (IH m ms n Hm Hs). destruct (to_graph_all (Converter n (m :: ms)) b ops) as [cv2 vs]. destruct IH as (m' & H1 & H2 & H3 & H4 & H5). exists m'.
      split; [done|]. split; [done|]. split; [done|]. split; [by constructor|done].
  Qed.
  Lemma convert_ok b oo ops cv : cv_inv b oo cv -> (forall obj, oo = Some obj -> NoDup (op_ids ops).*1 /\ forall a, a ∈ op_ids ops -> shape a.2 = obj a.1) ->
    let '(cv', vs) := to_graph_all cv b ops in Forall2 (fed Tensorflow) vs ops /\ NoDup (places vs).*1.
  Proof.
    intros Hi Hs. destruct (cv_stack cv) as [|m ms] eqn:E.
    - pose proof (convert_fresh b ops cv E) as H. destruct (to_graph_all cv b ops). naive_solver.
    - destruct oo as [obj|]; [|cbn in Hi; congruence]. destruct (Hs obj eq_refl) as [Hnd Hsh]. cbn in Hi. destruct cv as [n st]. cbn in E, Hi. subst st.
      pose proof (convert_shared b obj ops m ms n Hi Hsh) as H. destruct (to_graph_all (Converter n (m :: ms)) b ops) as [cv' vs]. destruct H as (m' & _ & _ & (_ & _ & Hinj) & H4 & H5). split; [done|].
      clear -Hinj H5 Hnd. revert Hnd H5. generalize (op_ids ops).*1 as ids. generalize (places vs) as ps. induction ps as [|p ps IH]; intros ids Hnd H5; inversion H5 as [|? i ? ids' Hp Hps]; subst; [constructor|].
      rewrite fmap_cons. apply NoDup_cons in Hnd as [Hni Hnd]. constructor; [|by eapply IH]. intros (q & Hq & Hin)%elem_of_list_fmap.
      apply elem_of_list_lookup in Hin as [j Hj]. destruct (Forall2_lookup_l _ _ _ _ _ Hps Hj) as (i' & Hi' & Hm'). destruct Hni. rewrite (Hinj i i' p q); [by eapply elem_of_list_lookup_2|done|done|done].
  Qed.
End Convert.

Section Run.
  Context {K : semiring}.
  Notation tens := (tensor K).
  Variable ord : gset N -> list N.
  Variable lib : str -> library K.
  Definition op_val (b : str) (o : graph_op K) : tens := match o with GArray _ T => l_to (lib b) T | GTensor T => T end.

  Lemma theano_ok b (vs : list (graph_var K)) ops : Forall2 (fed Theano) vs ops -> theano_values lib b vs (op_arrays ops) = Ok (op_val b <$> ops).
  Proof.
    induction 1 as [|v o vs ops Hf _ IH]; [done|]. destruct v as [p|T], o as [i T'|T']; try done; cbn [fed] in Hf.
    - change (op_arrays (GArray i T' :: ops)) with (T' :: op_arrays ops). cbn [theano_values]. rewrite decide_True by (symmetry; exact Hf). rewrite IH. done.
    - subst T'. change (op_arrays (GTensor T :: ops)) with (op_arrays ops). cbn [theano_values]. by rewrite IH.
  Qed.
  Lemma feed_other (vs : list (graph_var K)) ops : forall (m : gmap nat tens) q, q ∉ (places vs).*1 ->
    foldl (fun m '(v, o) => match v, o with GPlace p, GArray _ T => <[p.1 := T]> m | _, _ => m end) m (zip vs ops) !! q = m !! q.
  Proof.
    revert ops. induction vs as [|v vs IH]; intros [|o ops] m q Hq; try done. cbn [zip_with foldl]. destruct v as [p|T].
    - change (places (GPlace p :: vs)) with (p :: places vs) in Hq. rewrite fmap_cons, not_elem_of_cons in Hq. destruct Hq as [Hne Hq].
      rewrite IH by done. destruct o; [by rewrite lookup_insert_ne|done].
    - rewrite IH by done. by destruct o.
  Qed.
  Lemma feed_ok (vs : list (graph_var K)) ops : forall (m : gmap nat tens) j p i T, NoDup (places vs).*1 -> vs !! j = Some (GPlace p) -> ops !! j = Some (GArray i T) ->
    foldl (fun m '(v, o) => match v, o with GPlace p, GArray _ T => <[p.1 := T]> m | _, _ => m end) m (zip vs ops) !! p.1 = Some T.
  Proof.
    revert ops. induction vs as [|v vs IH]; intros [|o ops] m j p i T Hnd Hv Ho; [done|done|done|]. cbn [zip_with foldl]. destruct j as [|j]; cbn in Hv, Ho.
    - injection Hv as ->. injection Ho as ->. change (places (GPlace p :: vs)) with (p :: places vs) in Hnd. rewrite fmap_cons, NoDup_cons in Hnd.
      rewrite feed_other by apply Hnd. apply lookup_insert.
    - eapply IH; [|exact Hv|exact Ho]. destruct v; [|done]. by apply NoDup_cons in Hnd as [_ ?].
  Qed.
  Lemma mapM_ok_lookup {A B} (f : A -> res B) (l : list A) : forall k, length l = length k -> (forall i a y, l !! i = Some a -> k !! i = Some y -> f a = Ok y) -> mapM_res f l = Ok k.
  Proof.
    induction l as [|a l IH]; intros [|y k] Hl H; try done. cbn [mapM_res]. rewrite (H 0 a y) by done. cbn [mbind res_bind]. rewrite (IH k); [done|cbn in Hl; lia|].
    intros i a' y' Ha Hy. by apply (H (S i)).
  Qed.
  Lemma tf_ok b (vs : list (graph_var K)) ops : Forall2 (fed Tensorflow) vs ops -> NoDup (places vs).*1 -> tf_values lib b vs ops = Ok (op_val b <$> ops).
  Proof.
    intros Hf Hnd. unfold tf_values. apply mapM_ok_lookup; [by rewrite fmap_length, (Forall2_length _ _ _ Hf)|]. intros j v y Hv Hy.
    rewrite list_lookup_fmap in Hy. destruct (ops !! j) as [o|] eqn:Ho; [|done]. cbn in Hy. injection Hy as <-.
    pose proof (Forall2_lookup_lr _ _ _ _ _ _ Hf Hv Ho) as H. destruct v as [p|T], o as [i T'|T']; try done; cbn in H.
    - unfold feed_dict. rewrite (feed_ok vs ops ∅ j p i T') by done. cbn [of_opt mbind res_bind]. by rewrite decide_True.
    - by subst.
  Qed.
  Lemma run_ok k b g ops : Forall2 (fed k) (g_vars g) ops -> NoDup (places (g_vars g)).*1 ->
    run_graph ord lib k b g ops = (T ← core_contract ord (l_funs (lib b)) (op_val b <$> ops) (g_steps g); Ok (l_from (lib b) T)).
  Proof. intros Hf Hnd. unfold run_graph. destruct k; [by rewrite tf_ok|by rewrite theano_ok]. Qed.

  Lemma graph_fill_ok b cs : forall arrays, (exists er, graph_fill cs arrays = Err er /\ fill cs (l_to (lib b) <$> arrays.*2) = Err er) \/
    exists ops, graph_fill cs arrays = Ok ops /\ fill cs (l_to (lib b) <$> arrays.*2) = Ok (op_val b <$> ops) /\ op_ids ops = take (length (op_ids ops)) arrays.
  Proof.
    induction cs as [|[o|] cs IH]; intros arrays; [right; by exists []| |].
    - cbn [graph_fill fill]. destruct (IH arrays) as [(er & H1 & H2)|(ops & H1 & H2 & H3)]; rewrite H1, H2; cbn [mbind res_bind]; [left; by exists er|].
      right. eexists. split; [done|]. split; [done|]. exact H3.
    - cbn [graph_fill]. destruct arrays as [|[i T] arrays]; [left; by eexists|]. rewrite !fmap_cons. cbn [fill fst snd]. destruct (IH arrays) as [(er & H1 & H2)|(ops & H1 & H2 & H3)]; rewrite H1, H2; cbn [mbind res_bind]; [left; by exists er|].
      right. eexists. split; [done|]. split; [done|]. change (op_ids (GArray i T :: ops)) with ((i, T) :: op_ids ops). cbn. by rewrite <-H3.
  Qed.
  (** A graph built for the constants [cs]. *)
  Definition pattern (v : graph_var K) (c : option tens) : Prop := match c with None => exists p, v = GPlace p | Some T => v = GConst T end.
  Lemma fed_pattern k cs : forall arrays ops vs, graph_fill cs arrays = Ok ops -> Forall2 (fed k) vs ops -> Forall2 pattern vs cs.
  Proof.
    induction cs as [|[o|] cs IH]; intros arrays ops vs Hg Hf; cbn [graph_fill] in Hg.
    - apply Ok_inj in Hg as <-. inversion Hf. constructor.
    - apply bind_Ok in Hg as (l & Hl & Hg). apply Ok_inj in Hg as <-. inversion Hf as [|v ? vs' ? Hv Hvs]; subst. constructor; [|by eapply IH]. destruct v; [done|]. by cbn in *; subst.
    - destruct arrays as [|a arrays]; [discriminate|]. apply bind_Ok in Hg as (l & Hl & Hg). apply Ok_inj in Hg as <-. inversion Hf as [|v ? vs' ? Hv Hvs]; subst. constructor; [|by eapply IH]. destruct v; [|done]. cbn. eauto.
  Qed.
  Lemma pattern_fed k cs : forall arrays ops vs, Forall2 pattern vs cs -> graph_fill cs arrays = Ok ops ->
    Forall2 (fun p sh => feedable k p.2 sh) (places vs) (take (length (places vs)) (shape <$> arrays.*2)) -> Forall2 (fed k) vs ops.
  Proof.
    induction cs as [|[o|] cs IH]; intros arrays ops vs Hp Hg Hs; inversion Hp as [|v ? vs' ? Hv Hvs]; subst; cbn [graph_fill] in Hg.
    - apply Ok_inj in Hg as <-. constructor.
    - apply bind_Ok in Hg as (l & Hl & Hg). apply Ok_inj in Hg as <-. cbn in Hv. subst v. constructor; [done|]. by eapply IH.
    - destruct arrays as [|a arrays]; [discriminate|]. apply bind_Ok in Hg as (l & Hl & Hg). apply Ok_inj in Hg as <-. destruct Hv as [p ->].
      change (places (GPlace p :: vs')) with (p :: places vs') in Hs. rewrite !fmap_cons in Hs. cbn [length take] in Hs. inversion Hs as [|? ? ? ? Hp1 Hps]; subst. constructor; [done|]. by eapply IH.
  Qed.
  Lemma fed_places k (vs : list (graph_var K)) (ops : list (graph_op K)) : Forall2 (fed k) vs ops -> Forall2 (fun p a => feedable k p.2 (shape a.2)) (places vs) (op_ids ops).
  Proof.
    induction 1 as [|v o vs ops Hf _ IH]; [constructor|]. destruct v as [p|T], o as [i T'|T']; try done. unfold places, op_ids in *. cbn. by constructor.
  Qed.
  Lemma fill_nones (arrays : list (nat * tens)) : graph_fill (replicate (length arrays) None) arrays = Ok ((fun a => GArray a.1 a.2) <$> arrays).
  Proof. induction arrays as [|a arrays IH]; [done|]. cbn [length replicate graph_fill]. by rewrite IH. Qed.
End Run.

Section History.
  Context {K : semiring}.
  Notation tens := (tensor K).
  Variable ord : gset N -> list N.
  Variable lib : str -> library K.
  Variable kind : str -> option graph_kind.
  Variable x0 : expression K.
  (** Evaluating the constants of an expression without constants does nothing. *)
  Hypothesis Hfull : x_constants x0 = ∅ -> forall b ops cl, core_constants ord (l_funs (lib b)) (start_ops lib x0 b) (x_full x0) = Ok (ops, cl) -> cl = x_full x0.
  Notation einv := (inv ord lib x0).

  Lemma list_steady x x' : einv x -> einv x' -> x_constants x0 = ∅ \/ x_evaluated x <> ∅ -> dom (x_evaluated x) ⊆ dom (x_evaluated x') -> x_list x' = x_list x.
  Proof.
    intros (_ & _ & _ & H4 & H5) (_ & _ & _ & H4' & H5') Hs Hd. destruct (decide (x_constants x0 = ∅)) as [E|E].
    - assert (H : forall y, (forall b ops, x_evaluated y !! b = Some ops -> core_constants ord (l_funs (lib b)) (start_ops lib x0 b) (x_full x0) = Ok (ops, x_list y)) -> (x_evaluated y = ∅ -> x_list y = x_full x0) -> x_list y = x_full x0).
      { intros y G4 G5. destruct (decide (x_evaluated y = ∅)) as [Ey|Ey]; [auto|]. apply map_choose in Ey as (b & ops & Hb). apply G4 in Hb. by eapply Hfull. }
      by rewrite (H x H4 H5), (H x' H4' H5').
    - destruct Hs as [?|Hs]; [done|]. apply map_choose in Hs as (b & ops & Hb). assert (Hb' : is_Some (x_evaluated x' !! b)) by (apply elem_of_dom, Hd, elem_of_dom; eauto).
      destruct Hb' as [ops' Hb']. apply H4 in Hb. apply H4' in Hb'. congruence.
  Qed.
  Definition grows (x x' : expression K) : Prop := einv x' /\ dom (x_evaluated x) ⊆ dom (x_evaluated x').
  Lemma evaluate_grows x b x' : einv x -> evaluate_constants ord lib x b = Ok x' -> grows x x'.
  Proof.
    intros Hi H. split; [by eapply evaluate_inv|]. unfold evaluate_constants in H. apply bind_Ok in H as ([ops cl] & Hc & H). apply Ok_inj in H as <-.
    cbn [x_evaluated]. rewrite dom_insert. set_solver.
  Qed.
  Lemma get_grows x b x' ops : einv x -> get_evaluated ord lib x b = Ok (x', ops) -> grows x x'.
  Proof.
    intros Hi H. unfold get_evaluated in H. destruct (x_evaluated x !! b) as [o|] eqn:E; [apply Ok_inj in H; simplify_eq; by split|].
    apply bind_Ok in H as (x2 & Hx & H). apply bind_Ok in H as (o & Ho & H). apply Ok_inj in H. simplify_eq. by eapply evaluate_grows.
  Qed.
  Lemma call_grows x b np arrays : einv x -> grows x (expr_call ord lib x b np arrays).1.
  Proof.
    intros Hi. unfold expr_call. destruct (negb _); [by split|]. case_decide; [by split|]. destruct (get_evaluated ord lib x b) as [[x' ops]|] eqn:E; [|by split]. cbn. by eapply get_grows.
  Qed.

  Variables (b : str) (k : graph_kind) (shs : list (list nat)) (oo : option (nat -> list nat)).
  Hypothesis Hkind : kind b = Some k.
  (** The constants a graph for [b] has. *)
  Definition consts_are (x : expression K) (cs : list (option tens)) : Prop :=
    if decide (x_constants x0 = ∅) then cs = replicate (x_num x0) None else x_evaluated x !! b = Some cs.
  Definition graph_ok (x : expression K) (g : graph K) : Prop :=
    g_steps g = x_list x /\ NoDup (places (g_vars g)).*1 /\ Forall2 (fun p sh => feedable k p.2 sh) (places (g_vars g)) (take (length (places (g_vars g))) shs) /\
    exists cs, consts_are x cs /\ Forall2 pattern (g_vars g) cs.
  Definition ginv (st : graph_expr * converter) : Prop :=
    einv (gx st.1) /\ cv_inv b oo st.2 /\ forall g, gx_built st.1 !! b = Some g -> graph_ok (gx st.1) g.
  Lemma consts_steady x x' cs : einv x -> grows x x' -> consts_are x cs -> consts_are x' cs.
  Proof.
    intros Hi [Hi' Hd]. unfold consts_are. case_decide; [done|]. intros Hcs. assert (Hb : is_Some (x_evaluated x' !! b)) by (apply elem_of_dom, Hd, elem_of_dom; eauto).
    destruct Hb as [cs' Hb]. rewrite Hb. f_equal. destruct Hi as (_ & _ & _ & H4 & _), Hi' as (_ & _ & _ & H4' & _). apply H4 in Hcs. apply H4' in Hb. congruence.
  Qed.
  Lemma graph_steady x x' g : einv x -> grows x x' -> graph_ok x g -> graph_ok x' g.
  Proof.
    intros Hi Hg (H1 & H2 & H3 & cs & H4 & H5). split; [|split; [done|]; split; [done|]; exists cs; split; [by eapply consts_steady|done]].
    rewrite H1. symmetry. apply list_steady; [done|apply Hg| |apply Hg]. unfold consts_are in H4. case_decide; [by left|]. right. intros E. by rewrite E, lookup_empty in H4.
  Qed.

  (** A call with arrays that reaches the graph. *)
  Definition arrays_ok (arrays : list (nat * tens)) : Prop :=
    (length arrays = length shs -> Forall2 (feedable k) shs (shape <$> arrays.*2)) /\ forall obj, oo = Some obj -> NoDup arrays.*1 /\ forall a, a ∈ arrays -> shape a.2 = obj a.1.
  Hypothesis Hcount : x_num x0 - size (x_constants x0) = length shs.
  Lemma feedable_sym sh sh' : feedable k sh sh' -> feedable k sh' sh.
  Proof. unfold feedable. by destruct k. Qed.
  Lemma feedable_trans sh sh' sh'' : feedable k sh sh' -> feedable k sh' sh'' -> feedable k sh sh''.
  Proof. unfold feedable. destruct k; congruence. Qed.
  Lemma Forall2_take_same {A B} (P : A -> B -> Prop) l l' n : Forall2 P l l' -> Forall2 P (take n l) (take n l').
  Proof. intros H. by apply Forall2_take. Qed.

  (** Running the operands filled in: the state stays right and the result is that of the contraction. *)
  Lemma graph_run_ok x cv cs ops arrays : ginv (x, cv) -> consts_are (gx x) cs -> x_constants x0 = ∅ \/ x_evaluated (gx x) <> ∅ ->
    arrays_ok arrays -> length arrays = length shs -> graph_fill cs arrays = Ok ops -> op_ids ops = take (length (op_ids ops)) arrays ->
    let '(x', cv', r) := graph_run ord lib k b x cv ops in
    ginv (x', cv') /\ gx x' = gx x /\ r = (T ← core_contract ord (l_funs (lib b)) (op_val lib b <$> ops) (x_list (gx x)); Ok (l_from (lib b) T)).
  Proof.
    intros Hall Hcs Hset [Hsh Hobj] Hlen Hfill Hids. pose proof Hall as (Hi & Hcv & Hg). cbn [fst snd] in Hi, Hcv, Hg. specialize (Hsh Hlen). unfold graph_run. destruct (gx_built x !! b) as [g|] eqn:Eb.
    - destruct (Hg g eq_refl) as (H1 & H2 & H3 & cs' & H4 & H5). assert (cs' = cs) as ->. { unfold consts_are in *. case_decide; congruence. }
      split; [done|]. split; [done|]. rewrite <-H1. apply run_ok; [|done]. eapply pattern_fed; [exact H5|exact Hfill|].
      eapply (Forall2_transitive (fun p sh => feedable k p.2 sh) (feedable k)); [|exact H3|by apply Forall2_take]. intros p sh sh'. apply feedable_trans.
    - unfold build_graph. destruct (to_graph_all cv b ops) as [cv' vs] eqn:Ec.
      assert (Hops : forall obj, oo = Some obj -> NoDup (op_ids ops).*1 /\ forall a, a ∈ op_ids ops -> shape a.2 = obj a.1).
      { intros obj Ho. destruct (Hobj obj Ho) as [Hnd Hs]. rewrite Hids. rewrite <-(take_drop (length (op_ids ops)) arrays) in Hnd, Hs. rewrite fmap_app in Hnd. apply NoDup_app in Hnd as (Hnd & _ & _).
        split; [done|]. intros a Ha. apply Hs. apply elem_of_app. by left. }
      pose proof (convert_ok b oo ops cv Hcv Hops) as Hconv. rewrite Ec in Hconv. destruct Hconv as [Hfed Hnd].
      pose proof (to_graph_all_inv b oo b ops cv Hcv (fun obj Ho _ => proj2 (Hops obj Ho))) as Hcv'. rewrite Ec in Hcv'. cbn in Hcv'.
      rewrite decide_False by (intros [_ H]; by apply H). assert (Hfk : Forall2 (fed k) vs ops) by (eapply Forall2_impl; [exact Hfed|apply fed_any]).
      split; [|split; [done|]; apply (run_ok ord lib k b (Graph vs (x_list (gx x)))); done]. split; [done|]. split; [done|]. cbn [fst gx gx_built]. intros g. rewrite lookup_insert. intros [= <-].
      split; [done|]. split; [done|]. cbn [g_vars]. split; [|exists cs; split; [done|by eapply fed_pattern]].
      pose proof (fed_places _ _ _ Hfk) as Hp. rewrite Hids in Hp. assert (Hl : length (places vs) = length (op_ids ops)) by (apply Forall2_length in Hp; rewrite Hp; by rewrite <-Hids).
      rewrite Hl. assert (Hx : Forall2 (fun (a : nat * tens) sh => feedable k (shape a.2) sh) arrays shs).
      { apply Forall2_flip. rewrite !Forall2_fmap_r in Hsh. eapply Forall2_impl; [exact Hsh|]. intros sh a. apply feedable_sym. }
      eapply (Forall2_transitive (fun p a => feedable k p.2 (shape a.2))); [|exact Hp|by apply Forall2_take, Hx]. intros p a sh. apply feedable_trans.
  Qed.

  (** A call through the graph is a call on the converted arrays. *)
  Lemma graph_call_ok x cv arrays : l_convert (lib b) = true -> ginv (x, cv) -> arrays_ok arrays ->
    let '(x', cv', r) := graph_call ord lib kind x cv b true arrays in
    let '(y, r') := expr_call ord lib (gx x) b false (l_to (lib b) <$> arrays.*2) in
    ginv (x', cv') /\ gx x' = y /\ r = (T ← r'; Ok (l_from (lib b) T)).
  Proof.
    intros Hcvt Hall Ha. pose proof Hall as (Hi & Hcv & Hg). cbn [fst snd] in Hi, Hcv, Hg. pose proof Hi as (Hx1 & Hx2 & Hx3 & _).
    unfold graph_call, expr_call. rewrite Hkind, Hcvt. cbn [andb]. rewrite !fmap_length. rewrite Hx2, Hx3, Hcount.
    destruct (length arrays =? length shs) eqn:El; cbn [negb]; [|done]. apply Nat.eqb_eq in El.
    assert (Hrunx : forall x' m, run_expression ord lib x' b false m = core_contract ord (l_funs (lib b)) m (x_list x')) by (intros; unfold run_expression; by rewrite andb_false_r).
    case_decide as E.
    - assert (Hn : x_num x0 = length arrays). { rewrite El, <-Hcount, E, map_size_empty. lia. }
      destruct (graph_fill_ok lib b (replicate (length arrays) None) arrays) as [(er & H1 & _)|(ops & H1 & H2 & H3)]; rewrite fill_nones in H1; [discriminate|]. apply Ok_inj in H1.
      pose proof (graph_run_ok x cv (replicate (length arrays) None) ops arrays) as H. rewrite <-H1 in *.
      assert (Hc : consts_are (gx x) (replicate (length arrays) None)) by (unfold consts_are; rewrite decide_True by done; by rewrite Hn).
      specialize (H Hall Hc (or_introl E) Ha El (fill_nones arrays) H3). destruct (graph_run ord lib k b x cv _) as [[x' cv'] r]. destruct H as (Hg' & Hgx & ->).
      split; [done|]. split; [done|]. rewrite Hrunx. do 2 f_equal. rewrite <-!list_fmap_compose. done.
    - destruct (get_evaluated ord lib (gx x) b) as [[y cs]|er] eqn:Ey; [|done]. destruct (get_inv _ _ _ _ _ _ _ Hi Ey) as [Hiy Hcs]. pose proof (get_grows _ _ _ _ Hi Ey) as Hgr.
      assert (Hgy : ginv (GraphExpr y (gx_built x), cv)). { split; [done|]. split; [done|]. cbn [fst gx gx_built]. intros g Hb. eapply graph_steady; [exact Hi|exact Hgr|by apply Hg]. }
      destruct (graph_fill_ok lib b cs arrays) as [(er & H1 & H2)|(ops & H1 & H2 & H3)]; rewrite H1, H2; cbn [mbind res_bind]; [done|].
      pose proof (graph_run_ok (GraphExpr y (gx_built x)) cv cs ops arrays Hgy) as H.
      assert (Hc : consts_are y cs) by (unfold consts_are; by rewrite decide_False).
      assert (Hne : x_constants x0 = ∅ \/ x_evaluated y <> ∅) by (right; intros Hem; by rewrite Hem, lookup_empty in Hcs).
      specialize (H Hc Hne Ha El H1 H3). destruct (graph_run ord lib k b _ cv ops) as [[x' cv'] r]. destruct H as (Hg' & Hgx & ->). cbn [gx] in *. split; [done|]. split; [done|]. by rewrite Hrunx.
  Qed.

  (** Calls with other backends. *)
  Lemma other_run k' b' x cv ops : ginv (x, cv) -> b' <> b -> let '(x', cv', _) := graph_run ord lib k' b' x cv ops in ginv (x', cv') /\ gx x' = gx x.
  Proof.
    intros Hall Hne. pose proof Hall as (Hi & Hcv & Hg). unfold graph_run. destruct (gx_built x !! b'); [done|]. unfold build_graph.
    pose proof (to_graph_all_inv b oo b' ops cv Hcv) as Hcv'. destruct (to_graph_all cv b' ops) as [cv' vs]. cbn in Hcv'. specialize (Hcv' ltac:(done)).
    case_decide; [split; [|done]; by split; [|split]|]. split; [|done]. split; [done|]. split; [done|]. cbn [fst gx gx_built]. intros g. rewrite lookup_insert_ne by done. apply Hg.
  Qed.
  Lemma grown x cv y : ginv (x, cv) -> grows (gx x) y -> ginv (GraphExpr y (gx_built x), cv).
  Proof. intros (Hi & Hcv & Hg) Hgr. split; [apply Hgr|]. split; [done|]. cbn [fst gx gx_built]. intros g Hb. eapply graph_steady; [exact Hi|exact Hgr|by apply Hg]. Qed.
  Lemma other_call x cv b' np arrays : ginv (x, cv) -> b' <> b \/ np = false -> ginv (graph_call ord lib kind x cv b' np arrays).1.
  Proof.
    intros Hg Hne. pose proof Hg as (Hi & Hcv & Hb). cbn [fst snd] in Hi. pose proof (call_grows (gx x) b' np arrays.*2 Hi) as Hgr. unfold graph_call.
    destruct (expr_call ord lib (gx x) b' np arrays.*2) as [y r]. cbn in Hgr. pose proof (grown x cv y Hg Hgr) as Hy.
    destruct (kind b') as [k'|]; [|done]. destruct (l_convert (lib b') && np) eqn:Enp; [|done].
    assert (Hb' : b' <> b). { destruct Hne as [?| ->]; [done|]. by rewrite andb_false_r in Enp. }
    destruct (negb _); [done|]. case_decide as E.
    - pose proof (other_run k' b' x cv ((fun a => GArray a.1 a.2) <$> arrays) Hg Hb') as H. destruct (graph_run ord lib k' b' x cv _) as [[? ?] ?]. apply H.
    - destruct (get_evaluated ord lib (gx x) b') as [[z cs]|] eqn:Ez; [|done]. pose proof (grown x cv z Hg (get_grows _ _ _ _ Hi Ez)) as Hz.
      destruct (graph_fill cs arrays) as [ops|]; [|done]. pose proof (other_run k' b' _ cv ops Hz Hb') as H. destruct (graph_run ord lib k' b' _ cv _) as [[? ?] ?]. apply H.
  Qed.

  (** What is required of the events of a history. *)
  Definition event_ok (ev : graph_event K) : Prop :=
    match ev with
    | GCall b' np arrays => b' = b -> np = true -> arrays_ok arrays
    | GEnter => oo <> None
    | GConvert b' i T => b' = b -> forall obj, oo = Some obj -> shape T = obj i
    | _ => True
    end.
  Lemma event_ginv st ev : l_convert (lib b) = true -> ginv st -> event_ok ev -> ginv (run_graph_event ord lib kind st ev).
  Proof.
    intros Hcvt Hg He. destruct st as [x cv]. destruct ev as [b' np arrays|b'| | |b' i T]; cbn [run_graph_event fst snd event_ok] in *.
    - destruct (decide (b' = b /\ np = true)) as [[-> ->]|Hne]; [|apply other_call; [done|]; destruct (decide (b' = b)); [|by left]; right; destruct np; [tauto|done]].
      pose proof (graph_call_ok x cv arrays Hcvt Hg (He eq_refl eq_refl)) as H. destruct (graph_call ord lib kind x cv b true arrays) as [[x' cv'] r], (expr_call _ _ _ _ _ _). apply H.
    - destruct (evaluate_constants ord lib (gx x) b') as [y|] eqn:E; [|done]. apply grown; [done|]. eapply evaluate_grows; [apply Hg|exact E].
    - destruct Hg as (Hi & Hcv & Hg). split; [done|]. split; [|done]. cbn [snd]. cbn in Hcv. destruct oo as [obj|]; [|done]. cbn in *. constructor; [|done].
      split; [intros ? ?; by rewrite lookup_empty|]. split; [intros ? ?; by rewrite lookup_empty|]. intros ? ? ? ?. by rewrite lookup_empty.
    - destruct Hg as (Hi & Hcv & Hg). split; [done|]. split; [|done]. cbn [snd]. cbn in Hcv. destruct oo as [obj|]; cbn in *; [|by rewrite Hcv]. destruct (cv_stack cv); [done|]. by apply Forall_cons in Hcv as [_ ?].
    - destruct Hg as (Hi & Hcv & Hg). split; [done|]. split; [|done]. cbn [snd] in *. apply to_graph_inv; [done|]. intros obj Ho Hb. by apply He.
  Qed.
  Lemma after_ginv h : forall st, l_convert (lib b) = true -> ginv st -> Forall event_ok h -> ginv (foldl (run_graph_event ord lib kind) st h).
  Proof. induction h as [|ev h IH]; intros st Hc Hg He; [done|]. apply Forall_cons in He as [He1 He2]. cbn. apply IH; [done|by apply event_ginv|done]. Qed.
End History.

Section Main.
  Context {K : semiring}.
  Notation tens := (tensor K).
  Variable ord : gset N -> list N.
  Hypothesis ord_ok : forall s, ord s ≡ₚ elements s.

  (** The operands with the arrays given replaced by their conversions. *)
  Fixpoint converted (f : tens -> tens) (i : nat) (constants : list nat) (ops : list tens) : list tens :=
    match ops with [] => [] | o :: ops => (if decide (i ∈ constants) then o else f o) :: converted f (S i) constants ops end.
  Lemma given_converted f constants ops : forall i, given_from i constants (converted f i constants ops) = f <$> given_from i constants ops.
  Proof. induction ops as [|o ops IH]; intros i; [done|]. cbn [converted given_from]. destruct (decide (i ∈ constants)); [apply IH|]. rewrite fmap_cons. by rewrite IH. Qed.
  Lemma converted_teq f constants ops : (forall x, f x ≡ₜ x) -> forall i, Forall2 teq ops (converted f i constants ops).
  Proof. intros Hf. induction ops as [|o ops IH]; intros i; [constructor|]. cbn [converted]. constructor; [|done]. destruct (decide _); [done|]. symmetry. apply Hf. Qed.
  Lemma converted_lookup f constants ops : forall i j o, i + j ∈ constants -> ops !! j = Some o -> converted f i constants ops !! j = Some o.
  Proof.
    induction ops as [|o' ops IH]; intros i j o Hi Hj; [done|]. destruct j as [|j]; cbn in *.
    - injection Hj as ->. rewrite Nat.add_0_r in Hi. by rewrite decide_True.
    - apply IH; [|done]. by replace (S i + j) with (i + S j) by lia.
  Qed.

  Variables (e : eqn) (s : str) (args : list (operand_arg K)) (constants : list nat) (ops0 : list tens).
  Hypothesis Hne : e_in e <> [].
  Hypothesis Hpl : plain_eqn e.
  Hypothesis Hs : filter (.≠ c_space) s = render e.
  Hypothesis Hargs : arg_shape <$> args = shape <$> ops0.
  Hypothesis Hconst : forall i, i ∈ constants -> exists T, args !! i = Some (AArray T).
  Hypothesis Hwf : well_formed e (shape <$> ops0).
  Variables (use_blas : bool) (opt : optimize_arg) (mem : memory_arg).
  Hypothesis Hgood0 : good (zip (in_labels e (shape <$> ops0)) ops0).
  Hypothesis Hmem : mem_valid mem.
  Hypothesis Hstrat : strategy_ok opt (length ops0).
  Hypothesis Hfits : path_fits K ord use_blas opt mem s (shape <$> ops0).

  Lemma graph_expression_ok : exists x0, contract_expression ord use_blas opt mem s args constants = Ok x0 /\
    forall (lib : str -> library K) (kind : str -> option graph_kind) (h : list (graph_event K)) (b : str) (k : graph_kind) (ops : list tens) (arrays : list (nat * tens)),
      kind b = Some k -> l_convert (lib b) = true -> library_ok (lib b) -> b_has_einsum (l_funs (lib b)) = true -> same_ranks ops0 ops ->
      let tops := zip (in_labels e (shape <$> ops)) ops in
      good tops -> (shape <$> ops = shape <$> ops0 \/ uniform_dims tops) -> agrees args constants ops ->
      (constants = [] \/ exists i, i < length ops /\ i ∉ constants) ->
      arrays.*2 = given constants ops -> calls_alike k b arrays h -> GEnter ∉ h \/ separate_objects b (h ++ [GCall b true arrays]) ->
      let '(x, cv) := graph_after ord lib kind x0 h in
      exists T, (graph_call ord lib kind x cv b true arrays).2 = Ok T /\ T ≡ₜ einsum tops (out_labels e (shape <$> ops)).
  Proof.
    destruct (expression_ok ord ord_ok e s args constants ops0 Hne Hpl Hs Hargs Hconst Hwf use_blas opt mem Hgood0 Hmem Hstrat Hfits) as (x0 & Hx0 & Hx).
    exists x0. split; [done|]. intros lib kind h b k ops arrays Hk Hcvt Hlib He Hr tops Hg Hu Hag Hvar Harr Hal Hsep.
    (* the expression as built *)
    assert (Hbuilt : exists m info, constants_dict args constants = Ok m /\ contract_path ord use_blas opt mem s (shape <$> ops0) = Ok info /\
      x0 = Expression (pi_contractions info) (pi_contractions info) (count c_comma s + 1) m ∅).
    { unfold contract_expression in Hx0. rewrite Hargs in Hx0. destruct opt as [|[|s1 p1]|f]; try discriminate;
        apply bind_Ok in Hx0 as (m & Hm & Hx0); apply bind_Ok in Hx0 as (info & Hinfo & Hx0); apply Ok_inj in Hx0 as <-; by exists m, info. }
    destruct Hbuilt as (m & info & Hm & Hinfo & Ex0). pose proof (constants_dict_ok _ _ _ Hm) as Hdict.
    assert (Hnum : x_num x0 = length ops0). { rewrite Ex0. cbn [x_num]. rewrite (render_commas e s Hpl Hne Hs), (wf_count _ _ Hwf). apply fmap_length. }
    assert (Hlops : length ops = length ops0) by (symmetry; by eapply Forall2_length).
    assert (Hcount : x_num x0 - size (x_constants x0) = length arrays).
    { rewrite Hnum, <-Hlops. assert (Hsize : size (x_constants x0) = length (filter (.∈ constants) (seq 0 (length ops)))).
      { rewrite Ex0. cbn [x_constants]. apply dict_size; [|intros i; apply Hdict|]. { intros i Hi. destruct (proj1 (Hdict i) Hi) as (T & _ & ->). eauto. }
        intros i Hi. destruct (Hag i Hi) as (T & _ & HT). by eapply lookup_lt_Some. }
      pose proof (given_count constants ops 0) as Hc. rewrite Hsize, <-(fmap_length snd arrays), Harr. unfold given. lia. }
    destruct (contract_path_ok ord ord_ok _ (ref_backend_ok K true) e s ops0 Hne Hpl Hs Hwf use_blas opt mem Hgood0 Hmem Hstrat) as (info' & Hi' & _).
    assert (info' = info) as -> by congruence.
    destruct (path_robust ord ord_ok e s ops0 Hne Hpl Hs Hwf use_blas opt mem Hgood0 Hmem Hstrat (ref_backend K true) info ops0) as [Hclne Hrob]; [apply ref_backend_ok|done|apply Hfits; [apply ref_backend_ok|done|done]| |done|by left|].
    { apply Forall2_same_length_lookup_2; [done|]. intros; by simplify_eq. }
    assert (Hfull : x_constants x0 = ∅ -> forall b ops cl, core_constants ord (l_funs (lib b)) (start_ops lib x0 b) (x_full x0) = Ok (ops, cl) -> cl = x_full x0).
    { intros E b' ops' cl Hc. assert (Hs0 : start_ops lib x0 b' = (fun _ => None) <$> seq 0 (length ops0)).
      { unfold start_ops. rewrite Hnum, E. assert (Hz : ((fun i => (∅ : gmap nat tens) !! i) <$> seq 0 (length ops0)) = (fun _ => None) <$> seq 0 (length ops0)) by (apply list_fmap_ext; intros _ j _; apply lookup_empty).
        rewrite Hz. destruct (l_convert (lib b')); [|done]. by rewrite <-list_fmap_compose. }
      rewrite Hs0 in Hc. rewrite Ex0 in Hc |- *. cbn [x_full] in Hc |- *. erewrite (no_constants ord) in Hc; [|exact Hrob|exact Hclne|done]. apply Ok_inj in Hc. congruence. }
    set (shs := shape <$> arrays.*2).
    assert (Hoo : exists oo, arrays_ok k shs oo arrays /\ Forall (event_ok b k shs oo) h).
    { assert (Hfa : forall arrays' : list (nat * tens), Forall2 (fun a a' : nat * tens => feedable k (shape a.2) (shape a'.2)) arrays arrays' -> Forall2 (feedable k) shs (shape <$> arrays'.*2)).
      { intros arrays' H. unfold shs. rewrite !Forall2_fmap_l, !Forall2_fmap_r. exact H. }
      assert (Hself : Forall2 (feedable k) shs shs) by (apply Forall2_same_length_lookup_2; [done|]; intros ? ? ? ? ?; simplify_eq; by destruct k).
      assert (Hll : forall arrays' : list (nat * tens), length arrays' = length shs -> length arrays' = length arrays) by (intros ?; unfold shs; by rewrite !fmap_length).
      destruct Hsep as [Hsep|(obj & Hs1 & Hs2)].
      - exists None. split; [split; [done|discriminate]|]. apply Forall_forall. intros [b' np arrays'|b'| | |b' i T] Hev; cbn [event_ok]; try done.
        intros -> ->. split; [|discriminate]. intros Hl. apply Hfa, Hal; [done|by apply Hll].
      - exists (Some obj). split. { split; [done|]. intros ? [= <-]. apply Hs1. apply elem_of_app. right. by left. }
        apply Forall_forall. intros [b' np arrays'|b'| | |b' i T] Hev; cbn [event_ok]; try done.
        + intros -> ->. split; [intros Hl; apply Hfa, Hal; [done|by apply Hll]|]. intros ? [= <-]. apply Hs1. apply elem_of_app. by left.
        + intros -> ? [= <-]. apply Hs2. apply elem_of_app. by left. }
    destruct Hoo as (oo & Hok & Hev).
    assert (Hg0 : ginv ord lib x0 b k shs oo (GraphExpr x0 ∅, Converter 0 [])).
    { split; [|split; [by destruct oo; cbn|intros g; cbn; by rewrite lookup_empty]]. split; [done|]. split; [done|]. split; [done|]. cbn [fst gx]. rewrite Ex0. split; [intros b' o; cbn [x_evaluated]; by rewrite lookup_empty|done]. }
    assert (Hcount' : x_num x0 - size (x_constants x0) = length shs) by (unfold shs; by rewrite !fmap_length).
    pose proof (after_ginv ord lib kind x0 Hfull b k shs oo Hk Hcount' h _ Hcvt Hg0 Hev) as Hgi. unfold graph_after. destruct (foldl (run_graph_event ord lib kind) (GraphExpr x0 ∅, Converter 0 []) h) as [x cv].
    pose proof (graph_call_ok ord lib kind x0 Hfull b k shs oo Hk Hcount' x cv arrays Hcvt Hgi Hok) as Hcall.
    destruct (graph_call ord lib kind x cv b true arrays) as [[x' cv'] r]. destruct (expr_call ord lib (gx x) b false (l_to (lib b) <$> arrays.*2)) as [y r'] eqn:Ey. destruct Hcall as (_ & _ & ->).
    pose proof Hgi as (Hinv & _ & _). cbn [fst] in Hinv. set (ops' := converted (l_to (lib b)) 0 constants ops).
    assert (Hteq : Forall2 teq ops ops') by (apply converted_teq; apply Hlib).
    destruct (contract_path_ok ord ord_ok _ (proj1 Hlib) e s ops0 Hne Hpl Hs Hwf use_blas opt mem Hgood0 Hmem Hstrat) as (info' & Hi2 & _).
    assert (info' = info) as -> by congruence.
    destruct (path_robust ord ord_ok e s ops0 Hne Hpl Hs Hwf use_blas opt mem Hgood0 Hmem Hstrat (l_funs (lib b)) info ops) as [_ Hrob2]; [apply Hlib|done|apply Hfits; [apply Hlib|done|done]|done|done|done|].
    destruct (call_ok ord lib x0 (gx x) b false constants ops' (einsum tops (out_labels e (shape <$> ops)))) as (T & HT & Heq).
    - done.
    - done.
    - by rewrite Ex0.
    - rewrite Hnum, <-Hlops. by eapply Forall2_length.
    - intros i Hi. destruct (proj1 (Hdict i) Hi) as (T & HT1 & HT2). destruct (Hag i Hi) as (T' & HT3 & HT4). exists T. rewrite Ex0. split; [done|]. apply converted_lookup; [done|]. congruence.
    - intros i Hi. rewrite Ex0. by apply Hdict.
    - destruct Hvar as [?|(i & Hi & ?)]; [by left|right]. exists i. split; [|done]. by rewrite <-(Forall2_length _ _ _ Hteq).
    - intros m' Hm'. rewrite Ex0. cbn [x_full]. apply Hrob2. eapply teq_trans_list; [exact Hteq|exact Hm'].
    - unfold given in HT. unfold ops' in HT. rewrite given_converted in HT. fold (given constants ops) in HT. rewrite <-Harr, Ey in HT. cbn [snd] in HT |- *. rewrite HT. cbn [mbind res_bind].
      eexists. split; [done|]. etrans; [apply Hlib|done].
  Qed.
End Main.
