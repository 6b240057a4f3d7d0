(** Properties C74, C75 and C76: the order of axes, linearity in each operand, and entries converted before or after; statements, each with a concrete instance. *)
From Verif Require Import Prelude Einsum EinsumFacts EinsumOps Parser Helpers Contract Spec PathSpec StringFacts SymbolFacts StepFacts ContractFacts PathFacts ParserFacts ParseSpec ParseProof ParseSound TopFacts ContractMain RefBackend PropsContract.
From Coq Require Import Ring_theory Ring.

(** ** C74 *)
(** [out] lists the entries of [r] at the positions [axes]. *)
Definition picked {A} (r out : list A) (axes : list nat) : Prop := Forall2 (fun c a => r !! a = Some c) out axes.
Lemma picked_perm {A} (r out : list A) axes : picked r out axes -> axes ≡ₚ seq 0 (length r) -> out ≡ₚ r.
Proof.
  intros H Hp. assert (Ho : out = omap (fun a => r !! a) axes) by (clear Hp; induction H as [|c a out axes Hc _ IH]; [done|]; cbn; rewrite Hc; by rewrite <-IH).
  subst out. clear H.
  assert (Hall : omap (fun a => r !! a) (seq 0 (length r)) = r).
  { clear. induction r as [|x r IH] using rev_ind; [done|]. rewrite app_length, Nat.add_1_r, seq_S, omap_app. f_equal.
    - etrans; [|exact IH]. apply list_omap_ext, Forall_Forall2_diag, Forall_forall. intros a Ha. apply elem_of_seq in Ha. by rewrite lookup_app_l by lia.
    - cbn. by rewrite lookup_app_r, Nat.sub_diag by lia. }
  etrans; [by apply omap_Permutation, Hp|]. by rewrite Hall.
Qed.
Section Turned.
  Context {K : semiring} {L : Type} `{EqDecision L}.
  Notation tens := (tensor K). Notation operand := (list L * tens)%type.
  (** The same operand with its axes, and the labels of them, in another order. *)
  Definition turned (p p' : operand) : Prop := exists axes, axes ≡ₚ seq 0 (length (shape p.2)) /\ picked p.1 p'.1 axes /\ p'.2 ≡ₜ transpose p.2 axes.

  Lemma coords_lookup (t : list L) sh (e : L -> nat) a : coords t sh e !! a = match t !! a, sh !! a with Some l, Some d => Some (if decide (d = 1) then 0 else e l) | _, _ => None end.
  Proof. unfold coords. rewrite lookup_zip_with. by destruct (t !! a), (sh !! a). Qed.
  Lemma picked_fmap {A} (x0 : A) (r : list A) axes : axes ≡ₚ seq 0 (length r) -> picked r ((fun a => default x0 (r !! a)) <$> axes) axes.
  Proof.
    intros Hp. apply Forall2_fmap_l, Forall_Forall2_diag, Forall_forall. intros a Ha. rewrite Hp, elem_of_seq in Ha. destruct (lookup_lt_is_Some_2 r a) as [x Hx]; [lia|]. cbn. by rewrite Hx.
  Qed.
  Lemma picked_zip {A B} (r : list A) (r' : list B) out out' axes : picked r out axes -> picked r' out' axes -> picked (zip r r') (zip out out') axes.
  Proof.
    intros H. revert out'. induction H as [|c a out axes Hc _ IH]; intros out' H'; inversion H' as [|c' ? ? ? Hc' H'']; subst; [constructor|]. constructor; [|by apply IH].
    by rewrite lookup_zip_with, Hc, Hc'.
  Qed.
  Lemma turned_axes p p' : turned p p' -> length p.1 = length (shape p.2) -> zip p'.1 (shape p'.2) ≡ₚ zip p.1 (shape p.2) /\ p'.1 ≡ₚ p.1 /\ length p'.1 = length (shape p'.2).
  Proof.
    intros (axes & Hp & Hl & [Hsh _]) Hr. assert (Hs : picked (shape p.2) (shape p'.2) axes) by (rewrite Hsh; by apply (picked_fmap 0)).
    split; [|split].
    - apply (picked_perm _ _ axes); [by apply picked_zip|]. rewrite zip_with_length, Hr, Nat.min_id. done.
    - apply (picked_perm _ _ axes); [done|]. by rewrite Hr.
    - pose proof (Forall2_length _ _ _ Hl). pose proof (Forall2_length _ _ _ Hs). congruence.
  Qed.
  Lemma index_picked {A} (r out : list A) axes a i c : picked r out axes -> index_of a axes = Some i -> r !! a = Some c -> out !! i = Some c.
  Proof. intros H Hi Hc. apply index_of_Some in Hi. destruct (Forall2_lookup_r _ _ _ _ _ H Hi) as (c' & Hc' & Hr). congruence. Qed.
  Lemma turned_term p p' e : turned p p' -> length p.1 = length (shape p.2) -> (forall i l d, p.1 !! i = Some l -> shape p.2 !! i = Some d -> d = 1 \/ e l < d) -> term e p' = term e p.
  Proof.
    intros (axes & Hp & Hl & HT) Hr Hin. assert (Hnd : NoDup axes) by (rewrite Hp; apply NoDup_seq).
    assert (Hs : picked (shape p.2) (shape p'.2) axes) by (rewrite (proj1 HT); by apply (picked_fmap 0)).
    assert (Hin' : in_range (coords p'.1 (shape p'.2) e) (shape p'.2)).
    { unfold in_range. apply Forall2_same_length_lookup_2.
      - unfold coords. rewrite zip_with_length. pose proof (Forall2_length _ _ _ Hl). pose proof (Forall2_length _ _ _ Hs). lia.
      - intros i x d Hx Hd. rewrite coords_lookup, Hd in Hx. destruct (p'.1 !! i) as [l|] eqn:El; [|done]. injection Hx as <-.
        destruct (Forall2_lookup_l _ _ _ _ _ Hl El) as (a & Ha & Hla). destruct (Forall2_lookup_l _ _ _ _ _ Hs Hd) as (a' & Ha' & Hda). rewrite Ha in Ha'. injection Ha' as <-.
        destruct (Hin a l d Hla Hda) as [->|Hlt]; case_decide; lia. }
    unfold term. rewrite (proj2 HT) by done. cbn [transpose get]. f_equal. apply list_eq. intros a. rewrite list_lookup_fmap, coords_lookup.
    destruct (decide (a < length (shape p.2))) as [Ha|Ha].
    - rewrite lookup_seq_lt by done. cbn [fmap option_fmap option_map]. destruct (lookup_lt_is_Some_2 (shape p.2) a) as [d Hd]; [done|]. destruct (lookup_lt_is_Some_2 p.1 a) as [l Hla]; [lia|].
      rewrite Hd, Hla. f_equal. destruct (index_of a axes) as [i|] eqn:Ei; [|apply index_of_None in Ei; destruct Ei; rewrite Hp, elem_of_seq; lia]. cbn [default]. unfold nth0.
      rewrite coords_lookup. rewrite Nat.add_0_l, Ei. change (default 0 (Some i)) with i. rewrite (index_picked _ _ _ _ _ _ Hl Ei Hla), (index_picked _ _ _ _ _ _ Hs Ei Hd). done.
    - rewrite lookup_seq_ge by lia. rewrite (lookup_ge_None_2 (shape p.2)) by lia. by destruct (p.1 !! a).
  Qed.
  Lemma turned_all tops tops' : Forall2 turned tops tops' -> ranked tops -> axes_of tops' ≡ₚ axes_of tops /\ labels_of tops' ≡ₚ labels_of tops /\ ranked tops'.
  Proof.
    induction 1 as [|p p' tops tops' Hpp _ IH]; intros Hr; [done|]. inversion Hr as [|? ? Hr1 Hr2]; subst. destruct (IH Hr2) as (H1 & H2 & H3). destruct (turned_axes p p' Hpp Hr1) as (G1 & G2 & G3).
    split; [|split; [|by constructor]]; unfold axes_of, labels_of in *; cbn; by f_equiv.
  Qed.
  Lemma turned_good tops tops' : Forall2 turned tops tops' -> good tops -> good tops'.
  Proof.
    intros H [Hr Hc Hd Hz]. destruct (turned_all _ _ H Hr) as (H1 & H2 & H3). constructor; [done| | |].
    - eapply compat_ext; [|exact Hc]. intros l d. by rewrite H1.
    - intros p' i j c d d' Hp' Hi Hj Hdi Hdj. apply elem_of_list_lookup in Hp' as (k & Hk). destruct (Forall2_lookup_r _ _ _ _ _ H Hk) as (p & Hp & axes & Hax & Hl & HT).
      assert (Hs : picked (shape p.2) (shape p'.2) axes) by (rewrite (proj1 HT); by apply (picked_fmap 0)).
      destruct (Forall2_lookup_l _ _ _ _ _ Hl Hi) as (a & Ha & Hla). destruct (Forall2_lookup_l _ _ _ _ _ Hs Hdi) as (a' & Ha' & Hda). rewrite Ha in Ha'. injection Ha' as <-.
      destruct (Forall2_lookup_l _ _ _ _ _ Hl Hj) as (b & Hb & Hlb). destruct (Forall2_lookup_l _ _ _ _ _ Hs Hdj) as (b' & Hb' & Hdb). rewrite Hb in Hb'. injection Hb' as <-.
      eapply (Hd p a b c); eauto using elem_of_list_lookup_2.
    - intros l. rewrite !H1. apply Hz.
  Qed.
  Lemma turned_einsum tops tops' out : Forall2 turned tops tops' -> ranked tops -> compat tops -> einsum tops' out ≡ₜ einsum tops out.
  Proof.
    intros H Hr Hc. destruct (turned_all _ _ H Hr) as (H1 & H2 & H3). assert (Hdim : forall l, dim tops' l = dim tops l) by (intros l; apply dim_ext; [done|]; intros d; by rewrite H1).
    split; [cbn; apply list_fmap_ext; intros; apply Hdim|]. intros cs Hcs. cbn in *.
    assert (Hcs' : in_range cs (dim tops <$> out)) by (erewrite list_fmap_ext; [exact Hcs|]; intros; by rewrite Hdim).
    unfold esum. rewrite (sum_labels_perm _ _ (summed tops out) _ _ _ (prod_dep tops')); [|apply NoDup_summed|].
    2:{ apply NoDup_Permutation; try apply NoDup_summed. intros l. by rewrite !elem_of_summed, H2. }
    apply sum_labels_ext; [intros; apply Hdim|]. intros e' Ho Hin.
    assert (Hrange : forall l, l ∈ labels_of tops -> e' l < dim tops l).
    { intros l Hl. destruct (decide (l ∈ summed tops out)) as [Hl'|Hl']; [by rewrite <-Hdim; apply Hin|]. rewrite Ho by done. apply env_of_range; [done|]. destruct (decide (l ∈ out)); [done|]. destruct Hl'. by apply elem_of_summed. }
    f_equal. assert (Hterm : forall p p', p ∈ tops -> turned p p' -> term e' p' = term e' p).
    { intros p p' Hp Hpp. apply turned_term; [done| |].
      - unfold ranked in Hr. rewrite Forall_forall in Hr. by apply Hr.
      - intros i l d Hl Hd. assert (Hax : (l, d) ∈ axes_of tops) by (apply elem_of_axes; eauto 10). destruct (decide (d = 1)) as [?|Hd1]; [by left|]. right.
        assert (Hlab : l ∈ labels_of tops) by by eapply axes_labels. specialize (Hrange l Hlab). enough (dim tops l = d) by lia.
        destruct (dim_char tops l Hc) as [Hx _]. by destruct (Hx d Hax). }
    clear -H Hterm. induction H as [|p p' tops tops' Hpp _ IH]; cbn; [done|]. f_equal; [apply Hterm; [by left|done]|]. apply IH. intros. apply Hterm; [by right|done].
  Qed.
End Turned.

(** Axes in another order, of the operands (with their labels) or of the result, only turn the result: 'ij,jk->ik' of x and y and 'kj,ij->ki' of y turned and x...
    are the same up to a transposition.  Labels include those an ellipsis stands for. *)
Theorem C74_axes (K : semiring) (B B' : backend K) (ord ord' : gset N -> list N) (e e' : eqn) (s s' : str) (ops ops' : list (tensor K)) (axes : list nat) (use_blas use_blas' : bool) (opt opt' : optimize_arg) (mem mem' : memory_arg) :
  backend_ok B -> b_has_einsum B = true -> (forall x, ord x ≡ₚ elements x) -> backend_ok B' -> b_has_einsum B' = true -> (forall x, ord' x ≡ₚ elements x) ->
  e_in e <> [] -> plain_eqn e -> filter (.≠ c_space) s = render e -> well_formed e (shape <$> ops) -> plain_eqn e' -> filter (.≠ c_space) s' = render e' -> well_formed e' (shape <$> ops') ->
  let tops := zip (in_labels e (shape <$> ops)) ops in
  good tops -> length (remove_dups (labels_of tops)) <= 52 ->
  Forall2 turned tops (zip (in_labels e' (shape <$> ops')) ops') ->
  axes ≡ₚ seq 0 (length (out_labels e (shape <$> ops))) -> picked (out_labels e (shape <$> ops)) (out_labels e' (shape <$> ops')) axes ->
  mem_valid mem -> strategy_ok opt (length ops) -> mem_valid mem' -> strategy_ok opt' (length ops') ->
  exists T T', contract ord B use_blas opt mem s ops = Ok T /\ contract ord' B' use_blas' opt' mem' s' ops' = Ok T' /\ T' ≡ₜ transpose T axes.
Proof.
  intros HB He Ho HB' He' Ho' Hne Hpl Hs Hwf Hpl' Hs' Hwf' tops Hg Hsz Htu Hax Hpk Hm Hst Hm' Hst'.
  destruct (contract_ok ord Ho B HB e s ops Hne Hpl Hs Hwf use_blas opt mem Hg Hm Hst He Hsz) as (T & HT & ET).
  destruct (turned_all _ _ Htu (good_ranked _ Hg)) as (Hax' & Hlab & _).
  destruct (contract_ok ord' Ho' B' HB' e' s' ops') with (use_blas := use_blas') (opt := opt') (mem := mem') as (T' & HT' & ET'); try done.
  - intros E0. pose proof (wf_count _ _ Hwf) as H1. pose proof (wf_count _ _ Hwf') as H2. rewrite fmap_length in H1. rewrite E0 in H2. apply Forall2_length in Htu. unfold tops, in_labels in Htu. rewrite E0 in Htu.
    rewrite !zip_with_length, !fmap_length in Htu. cbn [zip zip_with length] in Htu. assert (length (e_in e) <> 0) by (by destruct (e_in e)). lia.
  - by eapply turned_good.
  - etrans; [|exact Hsz]. apply Nat.eq_le_incl, Permutation_length, NoDup_Permutation; [apply NoDup_remove_dups..|]. intros l. by rewrite !elem_of_remove_dups, Hlab.
  - exists T, T'. split; [done|]. split; [done|]. etrans; [exact ET'|]. etrans; [apply turned_einsum; [exact Htu|by apply Hg|by apply Hg]|]. symmetry.
    apply transpose_einsum with (r := out_labels e (shape <$> ops)); [by apply Hwf|by eapply picked_perm|exact Hpk|exact ET].
Qed.
Print Assumptions C74_axes.
(** 'ab,bc->ac' and 'ba,bc->ca', the first operand turned. *)
Definition ex74_x : tensor nat_semiring := arr [2; 3] (seq 1 6 : list nat_semiring).
Definition ex74_xt : tensor nat_semiring := arr [3; 2] ([1; 4; 2; 5; 3; 6] : list nat_semiring).
Definition ex74_y : tensor nat_semiring := arr [3; 4] (seq 1 12 : list nat_semiring).
Definition ex74_data (r : res (tensor nat_semiring)) := match r with Ok T => Some (shape T, entries T) | Err _ => None end.
Example C74_hypothesis : turned (lit "ab", ex74_x) (lit "ba", ex74_xt) /\ turned (lit "bc", ex74_y) (lit "bc", ex74_y).
Proof.
  split; [exists [1; 0]|exists [0; 1]].
  - split; [apply Permutation_swap|]. split; [repeat constructor|]. split; [done|]. intros cs Hcs. cbn in Hcs.
    inversion Hcs as [|c1 ? ? ? H1 Hcs']; subst. inversion Hcs' as [|c2 ? ? ? H2 Hcs'']; subst. inversion Hcs''; subst. do 3 (destruct c1 as [|c1]; [do 2 (destruct c2 as [|c2]; [by vm_compute|]); lia|]). lia.
  - split; [done|]. split; [repeat constructor|]. split; [done|]. intros cs Hcs. cbn in Hcs.
    inversion Hcs as [|c1 ? ? ? H1 Hcs']; subst. inversion Hcs' as [|c2 ? ? ? H2 Hcs'']; subst. inversion Hcs''; subst. do 3 (destruct c1 as [|c1]; [do 4 (destruct c2 as [|c2]; [by vm_compute|]); lia|]). lia.
Qed.
Example C74_instance :
  ex74_data (contract ord0 (ref_backend nat_semiring true) true (OPath [[0; 1]]) MNone (lit "ab,bc->ac") [ex74_x; ex74_y]) = Some ([2; 4], [38; 44; 50; 56; 83; 98; 113; 128]) /\
  ex74_data (contract ord0 (ref_backend nat_semiring true) true (OPath [[0; 1]]) MNone (lit "ba,bc->ca") [ex74_xt; ex74_y]) = Some ([4; 2], [38; 83; 44; 98; 50; 113; 56; 128]).
Proof. split; by vm_compute. Qed.

(** ** C75 *)
Section Linear.
  Context {K : semiring}.
  Notation tens := (tensor K).
  Add Ring K_ring : (slaws K).
  Notation "a +' b" := (sadd a b) (at level 50, left associativity). Notation "a *' b" := (smul a b) (at level 40, left associativity).
  (** The sum of two arrays of one shape, and a multiple of an array, entry by entry. *)
  Definition t_add (x y : tens) : tens := Tensor (shape x) (fun cs => get x cs +' get y cs).
  Definition t_scale (k : K) (x : tens) : tens := Tensor (shape x) (fun cs => k *' get x cs).
  Context {L : Type} `{EqDecision L}.
  Notation operand := (list L * tens)%type.
  Lemma sum_labels_add dm (ls : list L) (f g : (L -> nat) -> K) e : sum_labels dm ls (fun e => f e +' g e) e = sum_labels dm ls f e +' sum_labels dm ls g e.
  Proof. revert e. induction ls as [|l ls IH]; intros e; cbn; [done|]. rewrite <-sumn_add. apply sumn_ext. intros v _. apply IH. Qed.
  Lemma sum_labels_scale dm (ls : list L) (f : (L -> nat) -> K) k e : sum_labels dm ls (fun e => k *' f e) e = k *' sum_labels dm ls f e.
  Proof. revert e. induction ls as [|l ls IH]; intros e; cbn; [done|]. rewrite <-sumn_mul_l. apply sumn_ext. intros v _. apply IH. Qed.
  (** The labels and shapes of operands. *)
  Definition outline (tops : list operand) : list (list L * list nat) := (fun p => (p.1, shape p.2)) <$> tops.
  Lemma outline_axes tops tops' : outline tops = outline tops' -> axes_of tops = axes_of tops' /\ labels_of tops = labels_of tops'.
  Proof.
    revert tops'. induction tops as [|[t o] tops IH]; intros [|[t' o'] tops'] H; try done. injection H as -> Hs H. destruct (IH tops' H) as [H1 H2]. unfold axes_of, labels_of in *. cbn in *. rewrite H1, H2, Hs. done.
  Qed.
  Lemma outline_good tops tops' : outline tops = outline tops' -> good tops -> good tops'.
  Proof.
    intros H [Hr Hc Hd Hz]. destruct (outline_axes _ _ H) as [H1 H2].
    assert (Hin : forall p', p' ∈ tops' -> exists p, p ∈ tops /\ p.1 = p'.1 /\ shape p.2 = shape p'.2).
    { intros p' Hp'. apply (elem_of_list_fmap_1 (fun p => (p.1, shape p.2))) in Hp'. fold (outline tops') in Hp'. rewrite <-H in Hp'. apply elem_of_list_fmap in Hp' as (p & Hpp & Hp). injection Hpp as E1 E2. exists p. done. }
    constructor.
    - unfold ranked in *. rewrite Forall_forall in *. intros p' Hp'. destruct (Hin p' Hp') as (p & Hp & <- & <-). by apply Hr.
    - unfold compat. by rewrite <-H1.
    - intros p' i j c d d' Hp'. destruct (Hin p' Hp') as (p & Hp & <- & <-). by apply Hd.
    - unfold no_empty_broadcast. by rewrite <-H1.
  Qed.
  Lemma prod_app (P Q : list K) x : prodl (P ++ x :: Q) = x *' prodl (P ++ Q).
  Proof. rewrite !prodl_app. change (prodl (x :: Q)) with (x *' prodl Q). ring. Qed.
  Lemma einsum_add P (t : list L) x y Q out : shape x = shape y -> einsum (P ++ (t, t_add x y) :: Q) out ≡ₜ t_add (einsum (P ++ (t, x) :: Q) out) (einsum (P ++ (t, y) :: Q) out).
  Proof.
    intros Hs. assert (Ho : outline (P ++ (t, t_add x y) :: Q) = outline (P ++ (t, x) :: Q) /\ outline (P ++ (t, t_add x y) :: Q) = outline (P ++ (t, y) :: Q)).
    { unfold outline. rewrite !fmap_app, !fmap_cons. cbn. by rewrite Hs. }
    destruct Ho as [Ho1 Ho2]. destruct (outline_axes _ _ Ho1) as [A1 L1]. destruct (outline_axes _ _ Ho2) as [A2 L2]. split.
    - cbn. apply list_fmap_ext. intros _ l _. unfold dim, dims_of. by rewrite A1.
    - intros cs _. cbn. unfold esum, summed, dim, dims_of. rewrite A1, L1, <-A1, A2, <-L1, L2. rewrite <-sum_labels_add. apply sum_labels_ext; [done|]. intros e' _ _.
      rewrite !fmap_app, !fmap_cons, !prod_app. replace (term e' (t, t_add x y)) with (term e' (t, x) +' term e' (t, y)) by (unfold term; cbn; by rewrite Hs). ring.
  Qed.
  Lemma einsum_scale P (t : list L) k x Q out : einsum (P ++ (t, t_scale k x) :: Q) out ≡ₜ t_scale k (einsum (P ++ (t, x) :: Q) out).
  Proof.
    assert (Ho : outline (P ++ (t, t_scale k x) :: Q) = outline (P ++ (t, x) :: Q)) by (unfold outline; by rewrite !fmap_app, !fmap_cons).
    destruct (outline_axes _ _ Ho) as [A1 L1]. split.
    - cbn. apply list_fmap_ext. intros _ l _. unfold dim, dims_of. by rewrite A1.
    - intros cs _. cbn. unfold esum, summed, dim, dims_of. rewrite A1, L1. rewrite <-sum_labels_scale. apply sum_labels_ext; [done|]. intros e' _ _.
      rewrite !fmap_app, !fmap_cons, !prod_app. change (term e' (t, t_scale k x)) with (k *' term e' (t, x)). ring.
  Qed.
End Linear.

(** The operands in front of one, that one, and those behind it, with their labels. *)
Lemma split_zip {K : semiring} (e : eqn) (pre : list (tensor K)) x post : well_formed e (shape <$> (pre ++ x :: post)) ->
  exists t P Q, forall z, shape z = shape x -> zip (in_labels e (shape <$> (pre ++ x :: post))) (pre ++ z :: post) = P ++ (t, z) :: Q.
Proof.
  intros Hwf. pose proof (wf_count _ _ Hwf) as Hc. rewrite fmap_length, app_length in Hc. cbn in Hc.
  set (ls := in_labels e _). assert (Hl : length ls = length pre + S (length post)) by (unfold ls, in_labels; rewrite zip_with_length, fmap_length, app_length; cbn; lia).
  clearbody ls. clear Hc Hwf. assert (Hd : length pre < length ls) by lia. destruct (lookup_lt_is_Some_2 ls (length pre) Hd) as [t Ht].
  exists t, (zip (take (length pre) ls) pre), (zip (drop (S (length pre)) ls) post). intros z _. rewrite <-(take_drop_middle ls (length pre) t Ht) at 1.
  rewrite zip_with_app by (rewrite take_length; lia). done.
Qed.
Lemma call_with {K : semiring} (e : eqn) (s : str) (pre post : list (tensor K)) (x : tensor K) : e_in e <> [] -> plain_eqn e -> filter (.≠ c_space) s = render e ->
  let ops := pre ++ x :: post in let tops := zip (in_labels e (shape <$> ops)) ops in
  well_formed e (shape <$> ops) -> good tops -> length (remove_dups (labels_of tops)) <= 52 ->
  exists t P Q, forall (B : backend K) (ord : gset N -> list N) ub opt mem z, backend_ok B -> b_has_einsum B = true -> (forall w, ord w ≡ₚ elements w) -> shape z = shape x -> mem_valid mem -> strategy_ok opt (length ops) ->
    exists T, contract ord B ub opt mem s (pre ++ z :: post) = Ok T /\ T ≡ₜ einsum (P ++ (t, z) :: Q) (out_labels e (shape <$> ops)).
Proof.
  intros Hne Hpl Hs ops tops Hwf Hg Hsz. destruct (split_zip e pre x post Hwf) as (t & P & Q & Hz). exists t, P, Q.
  assert (Esh : forall z, shape z = shape x -> shape <$> (pre ++ z :: post) = shape <$> ops) by (intros z Hz'; unfold ops; by rewrite !fmap_app, !fmap_cons, Hz').
  intros Bz ordz ubz optz memz z HBz Hez Hoz Hzx Hmz Hstz.
  assert (Ez : zip (in_labels e (shape <$> (pre ++ z :: post))) (pre ++ z :: post) = P ++ (t, z) :: Q) by (rewrite (Esh z Hzx); by apply Hz).
  assert (Eo : outline tops = outline (zip (in_labels e (shape <$> (pre ++ z :: post))) (pre ++ z :: post))).
  { rewrite Ez. unfold tops, ops. rewrite (Hz x eq_refl). unfold outline. rewrite !fmap_app, !fmap_cons. cbn. by rewrite Hzx. }
  rewrite <-Ez, <-(Esh z Hzx). apply contract_ok; try done.
  - by rewrite (Esh z Hzx).
  - by eapply outline_good.
  - unfold ops in Hstz. rewrite app_length in *. done.
  - by rewrite <-(proj2 (outline_axes _ _ Eo)).
Qed.

(** In one operand at a time, contract is linear: of a sum it gives the sum, of a multiple the multiple; the calls may differ in all but the equation. *)
Theorem C75_sum (K : semiring) (B B1 B2 : backend K) (ord ord1 ord2 : gset N -> list N) (e : eqn) (s : str) (pre post : list (tensor K)) (x y : tensor K) (ub ub1 ub2 : bool) (opt opt1 opt2 : optimize_arg) (mem mem1 mem2 : memory_arg) :
  backend_ok B -> b_has_einsum B = true -> (forall z, ord z ≡ₚ elements z) -> backend_ok B1 -> b_has_einsum B1 = true -> (forall z, ord1 z ≡ₚ elements z) -> backend_ok B2 -> b_has_einsum B2 = true -> (forall z, ord2 z ≡ₚ elements z) ->
  e_in e <> [] -> plain_eqn e -> filter (.≠ c_space) s = render e -> shape x = shape y ->
  let ops := pre ++ x :: post in let tops := zip (in_labels e (shape <$> ops)) ops in
  well_formed e (shape <$> ops) -> good tops -> length (remove_dups (labels_of tops)) <= 52 ->
  mem_valid mem -> strategy_ok opt (length ops) -> mem_valid mem1 -> strategy_ok opt1 (length ops) -> mem_valid mem2 -> strategy_ok opt2 (length ops) ->
  exists T T1 T2, contract ord B ub opt mem s (pre ++ t_add x y :: post) = Ok T /\ contract ord1 B1 ub1 opt1 mem1 s (pre ++ x :: post) = Ok T1 /\ contract ord2 B2 ub2 opt2 mem2 s (pre ++ y :: post) = Ok T2 /\ T ≡ₜ t_add T1 T2.
Proof.
  intros HB He Ho HB1 He1 Ho1 HB2 He2 Ho2 Hne Hpl Hs Hxy ops tops Hwf Hg Hsz Hm Hst Hm1 Hst1 Hm2 Hst2.
  destruct (call_with e s pre post x Hne Hpl Hs Hwf Hg Hsz) as (t & P & Q & Hall).
  destruct (Hall B ord ub opt mem (t_add x y)) as (T & HT & ET); try done. destruct (Hall B1 ord1 ub1 opt1 mem1 x) as (T1 & HT1 & ET1); try done. destruct (Hall B2 ord2 ub2 opt2 mem2 y) as (T2 & HT2 & ET2); try done.
  exists T, T1, T2. split; [done|]. split; [done|]. split; [done|]. etrans; [exact ET|]. etrans; [by apply einsum_add|]. symmetry. split; [cbn; by rewrite (proj1 ET1)|]. intros cs Hcs. cbn in *. f_equal; [by apply ET1|].
  apply ET2. rewrite (proj1 ET1) in Hcs. rewrite (proj1 ET2). cbn in *. erewrite list_fmap_ext; [exact Hcs|]. intros _ l _. unfold dim, dims_of.
  assert (Ho' : outline (P ++ (t, x) :: Q) = outline (P ++ (t, y) :: Q)) by (unfold outline; rewrite !fmap_app, !fmap_cons; cbn; by rewrite Hxy). by rewrite (proj1 (outline_axes _ _ Ho')).
Qed.
Print Assumptions C75_sum.
Theorem C75_multiple (K : semiring) (B B1 : backend K) (ord ord1 : gset N -> list N) (e : eqn) (s : str) (pre post : list (tensor K)) (k : K) (x : tensor K) (ub ub1 : bool) (opt opt1 : optimize_arg) (mem mem1 : memory_arg) :
  backend_ok B -> b_has_einsum B = true -> (forall z, ord z ≡ₚ elements z) -> backend_ok B1 -> b_has_einsum B1 = true -> (forall z, ord1 z ≡ₚ elements z) ->
  e_in e <> [] -> plain_eqn e -> filter (.≠ c_space) s = render e ->
  let ops := pre ++ x :: post in let tops := zip (in_labels e (shape <$> ops)) ops in
  well_formed e (shape <$> ops) -> good tops -> length (remove_dups (labels_of tops)) <= 52 ->
  mem_valid mem -> strategy_ok opt (length ops) -> mem_valid mem1 -> strategy_ok opt1 (length ops) ->
  exists T T1, contract ord B ub opt mem s (pre ++ t_scale k x :: post) = Ok T /\ contract ord1 B1 ub1 opt1 mem1 s (pre ++ x :: post) = Ok T1 /\ T ≡ₜ t_scale k T1.
Proof.
  intros HB He Ho HB1 He1 Ho1 Hne Hpl Hs ops tops Hwf Hg Hsz Hm Hst Hm1 Hst1. destruct (call_with e s pre post x Hne Hpl Hs Hwf Hg Hsz) as (t & P & Q & Hall).
  destruct (Hall B ord ub opt mem (t_scale k x)) as (T & HT & ET); try done. destruct (Hall B1 ord1 ub1 opt1 mem1 x) as (T1 & HT1 & ET1); try done.
  exists T, T1. split; [done|]. split; [done|]. etrans; [exact ET|]. etrans; [by apply einsum_scale|]. symmetry. split; [cbn; by rewrite (proj1 ET1)|]. intros cs Hcs. cbn in *. f_equal. by apply ET1.
Qed.
Print Assumptions C75_multiple.
(** The second of three operands is a sum; its entries are broadcast. *)
Definition ex75 (y : list nat_semiring) : res (tensor nat_semiring) :=
  contract ord0 (ref_backend nat_semiring true) true (OPath [[0; 1]; [0; 1]]) MNone (lit "ab,b...,a->a...") [ex74_x; arr [3; 2] y; arr [2] ([1; 2] : list nat_semiring)].
Example C75_instance : ex74_data (ex75 [1; 2; 3; 4; 5; 6]) = Some ([2; 2], [22; 28; 98; 128]) /\ ex74_data (ex75 [1; 0; 0; 1; 1; 0]) = Some ([2; 2], [4; 2; 20; 10]) /\
  ex74_data (ex75 [2; 2; 3; 5; 6; 6]) = Some ([2; 2], [26; 30; 118; 138]) /\ ex74_data (ex75 [3; 6; 9; 12; 15; 18]) = Some ([2; 2], [66; 84; 294; 384]) /\ t_add (arr [1] ([5] : list nat_semiring)) (arr [1] ([6] : list nat_semiring)) ≡ₜ arr [1] ([11] : list nat_semiring).
Proof. repeat (split; [by vm_compute|]). intros cs Hcs. cbn in Hcs. inversion Hcs as [|c ? ? ? H1 Hcs']; subst. inversion Hcs'; subst. destruct c; [done|lia]. Qed.

(** ** C76 *)
(** A map of entries that keeps zero, one, sums and products; for instance a change of precision that is exact, or the counting of paths as naturals seen as integers. *)
Record keeps {K K' : semiring} (f : K -> K') : Prop := Keeps {
  keeps_zero : f szero = szero; keeps_one : f sone = sone; keeps_add : forall a b, f (sadd a b) = sadd (f a) (f b); keeps_mul : forall a b, f (smul a b) = smul (f a) (f b) }.
Definition t_map {K K' : semiring} (f : K -> K') (x : tensor K) : tensor K' := Tensor (shape x) (fun cs => f (get x cs)).
Section Keeps.
  Context {K K' : semiring} (f : K -> K') (Hf : keeps f) {L : Type} `{EqDecision L}.
  Lemma keeps_sumn d (g : nat -> K) : f (sumn d g) = sumn d (fun v => f (g v)).
  Proof. unfold sumn. generalize (seq 0 d). intros l. induction l as [|v l IH]; cbn; [apply keeps_zero, Hf|]. rewrite keeps_add by done. f_equal. exact IH. Qed.
  Lemma keeps_prodl (l : list K) : f (prodl l) = prodl (f <$> l).
  Proof. induction l as [|v l IH]; cbn; [apply keeps_one, Hf|]. rewrite keeps_mul by done. f_equal. exact IH. Qed.
  Lemma keeps_sum_labels dm (ls : list L) (g : (L -> nat) -> K) e : f (sum_labels dm ls g e) = sum_labels dm ls (fun e => f (g e)) e.
  Proof. revert e. induction ls as [|l ls IH]; intros e; cbn; [done|]. rewrite keeps_sumn. apply sumn_ext. intros v _. apply IH. Qed.
  Definition map_op (p : list L * tensor K) : list L * tensor K' := (p.1, t_map f p.2).
  Lemma map_axes tops : axes_of (map_op <$> tops) = axes_of tops.
  Proof. unfold axes_of. induction tops as [|p tops IH]; cbn; [done|]. by rewrite IH. Qed.
  Lemma map_labels tops : labels_of (map_op <$> tops) = labels_of tops.
  Proof. unfold labels_of. induction tops as [|p tops IH]; cbn; [done|]. by rewrite IH. Qed.
  Lemma map_good tops : good tops -> good (map_op <$> tops).
  Proof.
    intros [Hr Hc Hd Hz]. constructor.
    - apply Forall_fmap. eapply Forall_impl; [exact Hr|]. done.
    - unfold compat. by rewrite map_axes.
    - intros q i j c d d' Hq. apply elem_of_list_fmap in Hq as (p & -> & Hp). by apply (Hd p).
    - unfold no_empty_broadcast. by rewrite map_axes.
  Qed.
  Lemma map_einsum tops out : einsum (map_op <$> tops) out ≡ₜ t_map f (einsum tops out).
  Proof.
    split; [cbn; apply list_fmap_ext; intros; unfold dim, dims_of; by rewrite map_axes|]. intros cs _. cbn. unfold esum, summed, dim, dims_of. rewrite map_axes, map_labels, keeps_sum_labels.
    apply sum_labels_ext; [done|]. intros e' _ _. rewrite keeps_prodl. f_equal. by rewrite <-!list_fmap_compose.
  Qed.
End Keeps.
(** Converting the entries before the contraction or after it makes no difference. *)
Theorem C76_converted (K K' : semiring) (f : K -> K') (B : backend K) (B' : backend K') (ord ord' : gset N -> list N) (e : eqn) (s : str) (ops : list (tensor K)) (ub ub' : bool) (opt opt' : optimize_arg) (mem mem' : memory_arg) :
  keeps f -> backend_ok B -> b_has_einsum B = true -> (forall z, ord z ≡ₚ elements z) -> backend_ok B' -> b_has_einsum B' = true -> (forall z, ord' z ≡ₚ elements z) ->
  e_in e <> [] -> plain_eqn e -> filter (.≠ c_space) s = render e -> well_formed e (shape <$> ops) ->
  let tops := zip (in_labels e (shape <$> ops)) ops in good tops -> length (remove_dups (labels_of tops)) <= 52 ->
  mem_valid mem -> strategy_ok opt (length ops) -> mem_valid mem' -> strategy_ok opt' (length ops) ->
  exists T T', contract ord B ub opt mem s ops = Ok T /\ contract ord' B' ub' opt' mem' s (t_map f <$> ops) = Ok T' /\ T' ≡ₜ t_map f T.
Proof.
  intros Hf HB He Ho HB' He' Ho' Hne Hpl Hs Hwf tops Hg Hsz Hm Hst Hm' Hst'.
  destruct (contract_ok ord Ho B HB e s ops Hne Hpl Hs Hwf ub opt mem Hg Hm Hst He Hsz) as (T & HT & ET).
  assert (Esh : shape <$> (t_map f <$> ops) = shape <$> ops) by (rewrite <-list_fmap_compose; done).
  assert (Etops : zip (in_labels e (shape <$> (t_map f <$> ops))) (t_map f <$> ops) = map_op f <$> tops).
  { rewrite Esh. unfold tops. generalize (in_labels e (shape <$> ops)). clear. intros ls. revert ops. induction ls as [|l ls IH]; intros [|o ops]; [done..|]. cbn. f_equal. apply IH. }
  destruct (contract_ok ord' Ho' B' HB' e s (t_map f <$> ops)) with (use_blas := ub') (opt := opt') (mem := mem') as (T' & HT' & ET'); try done.
  - by rewrite Esh.
  - rewrite Etops. by apply map_good.
  - by rewrite fmap_length.
  - by rewrite Etops, map_labels.
  - exists T, T'. split; [done|]. split; [done|]. etrans; [exact ET'|]. rewrite Etops, Esh. etrans; [by apply map_einsum|]. symmetry. split; [cbn; by rewrite (proj1 ET)|]. intros cs Hcs. cbn in *. f_equal. by apply ET.
Qed.
Print Assumptions C76_converted.
(** Counting and existence: natural numbers seen as "is it not zero". *)
Definition bool_semiring : semiring.
Proof. refine (Semiring bool false true orb andb _). by constructor; repeat intros []. Defined.
Definition nonzero (n : nat_semiring) : bool_semiring := match n with 0 => false | S _ => true end.
Example C76_keeps : keeps nonzero.
Proof. constructor; [done|done|by intros [|a] [|b]|]. intros [|a] [|b]; try done. cbn. by rewrite Nat.mul_0_r. Qed.
Definition ex76_a : tensor nat_semiring := arr [2; 2] ([0; 2; 0; 1] : list nat_semiring).
Definition ex76_b : tensor nat_semiring := arr [2; 2] ([1; 1; 0; 3] : list nat_semiring).
Example C76_instance : ex74_data (contract ord0 (ref_backend nat_semiring true) true (OPath [[0; 1]]) MNone (lit "ab,bc->ac") [ex76_a; ex76_b]) = Some ([2; 2], [0; 6; 0; 3]) /\
  match contract ord0 (ref_backend bool_semiring true) false (OPath [[1; 0]]) MNone (lit "ab,bc->ac") [t_map nonzero ex76_a; t_map nonzero ex76_b] with Ok T => entries T = [false; true; false; true] | Err _ => False end.
Proof. split; by vm_compute. Qed.
