(** Where keyword arguments go. *)
From Verif Require Import Prelude Einsum Parser Helpers Contract Expression Keywords ContractFacts.

(** The library with keyword arguments fixed (functools.partial). *)
Definition bind_kw {K} (L : kwlib K) (kw : kwargs) : backend K := Backend (k_has_einsum L) (k_einsum L kw) (k_tensordot L) (k_transpose L).
(** The keyword arguments of einsum that say what it does anyway. *)
Definition default_kw (p : str * kwval) : Prop :=
  p = (lit "order", VStr (lit "K")) \/ p = (lit "casting", VStr (lit "safe")) \/ p = (lit "dtype", VNone) \/ p = (lit "out", VNone).
#[global] Instance default_kw_dec p : Decision (default_kw p).
Proof. unfold default_kw. apply _. Defined.
Definition given_kw (kw : kwargs) : kwargs := filter (fun p => ~ default_kw p) kw.
(** A dictionary: no name twice. *)
Definition kw_dict (kw : kwargs) : Prop := NoDup kw.*1.
(** The order of keyword arguments does not matter to a library. *)
Definition kw_unordered {K} (L : kwlib K) : Prop := forall kw kw', kw ≡ₚ kw' -> k_einsum L kw = k_einsum L kw'.

Lemma kw_dict_inv k v kw : kw_dict ((k, v) :: kw) -> k ∉ kw.*1 /\ kw_dict kw.
Proof. unfold kw_dict. simpl. by intros [??]%NoDup_cons. Qed.
Lemma kw_del_notin k kw : k ∉ kw.*1 -> kw_del k kw = kw.
Proof.
  unfold kw_del. induction kw as [|[k' v] kw IH]; intros H; [done|]. simpl in H. apply not_elem_of_cons in H as [H1 H2]. rewrite filter_cons_True by (simpl; congruence). f_equal. by apply IH.
Qed.
Lemma kw_get_notin k d kw : k ∉ kw.*1 -> kw_get k d kw = d.
Proof.
  intros H. unfold kw_get. destruct (list_find _ kw) as [[i [k' v]]|] eqn:E; [|done]. apply list_find_Some in E as (H1 & H2 & _). simpl in H2. subst k'. exfalso. apply H, elem_of_list_fmap. exists (k, v). split; [done|]. by eapply elem_of_list_lookup_2.
Qed.
(** A dictionary has the name at the value [kw_get] gives, and the others. *)
Lemma kw_split k kw : kw_dict kw -> (k ∉ kw.*1 /\ kw_del k kw = kw) \/ (exists v, (forall d, kw_get k d kw = v) /\ kw ≡ₚ (k, v) :: kw_del k kw).
Proof.
  intros Hd. destruct (decide (k ∈ kw.*1)) as [H|H]; [|left; split; [done|by apply kw_del_notin]]. right.
  apply elem_of_list_fmap in H as ([k' v] & Hk & Hin). simpl in Hk. subst k'. exists v. apply elem_of_list_split in Hin as (l1 & l2 & ->).
  unfold kw_dict in Hd. rewrite fmap_app in Hd. simpl in Hd. apply NoDup_app in Hd as (H1 & H2 & H3). apply NoDup_cons in H3 as [H3 _].
  assert (N1 : k ∉ l1.*1) by (intros Hx; apply (H2 k Hx); left). split.
  - intros d. unfold kw_get. destruct (list_find (fun p : str * kwval => p.1 = k) (l1 ++ (k, v) :: l2)) as [[i [k' v']]|] eqn:E.
    + apply list_find_Some in E as (E1 & E2 & E3). simpl in E2. subst k'.
      destruct (decide (i < length l1)) as [Hi|Hi]. { exfalso. apply N1, elem_of_list_fmap. exists (k, v'). split; [done|]. rewrite lookup_app_l in E1 by done. by eapply elem_of_list_lookup_2. }
      rewrite lookup_app_r in E1 by lia. destruct (i - length l1) as [|j] eqn:Ej; [by injection E1 as <-|]. simpl in E1. exfalso. apply H3, elem_of_list_fmap. exists (k, v'). split; [done|]. by eapply elem_of_list_lookup_2.
    + exfalso. apply list_find_None in E. rewrite Forall_forall in E. apply (E (k, v)); [|done]. apply elem_of_app. right. left.
  - unfold kw_del. rewrite filter_app, filter_cons_False by (simpl; intros Hn; by apply Hn). fold (kw_del k l1) (kw_del k l2). rewrite !kw_del_notin by done. by rewrite Permutation_middle.
Qed.
Lemma kw_del_dict k kw : kw_dict kw -> kw_dict (kw_del k kw) /\ k ∉ (kw_del k kw).*1.
Proof.
  intros H. split.
  - unfold kw_dict, kw_del. induction kw as [|[k' v] kw IH]; [constructor|]. apply kw_dict_inv in H as [H1 H2]. rewrite filter_cons. destruct (decide _); [|by apply IH]. simpl. apply NoDup_cons. split; [|by apply IH].
    intros Hx. apply H1. apply elem_of_list_fmap in Hx as (p & -> & Hp). apply elem_of_list_filter in Hp as [_ Hp]. by apply elem_of_list_fmap_1.
  - intros (p & -> & Hp)%elem_of_list_fmap. by apply elem_of_list_filter in Hp as [Hp _].
Qed.
(** One name of a dictionary, unless it has its default *)
Lemma kw_one k dflt kw (rest : kwargs) : kw_dict kw -> (default_kw (k, dflt)) -> (forall v, default_kw (k, v) -> v = dflt) ->
  rest ≡ₚ given_kw (kw_del k kw) -> (if decide (kw_get k dflt kw = dflt) then [] else [(k, kw_get k dflt kw)]) ++ rest ≡ₚ given_kw kw.
Proof.
  intros Hd Hk Hv Hr. rewrite Hr. destruct (kw_split k kw Hd) as [[H1 H2]|(v & H1 & H2)].
  - by rewrite kw_get_notin, decide_True, H2 by done.
  - rewrite !H1. unfold given_kw. rewrite H2 at 2. destruct (decide (v = dflt)) as [->|Hn].
    + by rewrite filter_cons_False by (intros Hx; by apply Hx).
    + rewrite filter_cons_True by (intros Hx; by apply Hn, Hv). done.
Qed.
Lemma filter_defaults_perm kw : kw_dict kw -> filter_einsum_defaults kw ≡ₚ given_kw kw.
Proof.
  intros Hd. unfold filter_einsum_defaults. pose proof (kw_del_dict (lit "order") kw Hd) as [D1 N1]. pose proof (kw_del_dict (lit "casting") _ D1) as [D2 N2]. pose proof (kw_del_dict (lit "dtype") _ D2) as [D3 N3].
  pose proof (kw_del_dict (lit "out") _ D3) as [D4 N4].
  assert (Hdef : forall k v, default_kw (k, v) <-> (k = lit "order" /\ v = VStr (lit "K")) \/ (k = lit "casting" /\ v = VStr (lit "safe")) \/ (k = lit "dtype" /\ v = VNone) \/ (k = lit "out" /\ v = VNone)).
  { intros k v. unfold default_kw. split; intros [H|[H|[H|H]]]; [..|]; try (injection H as -> ->; tauto); destruct H as [-> ->]; tauto. }
  apply kw_one; [done|apply Hdef; by left|intros v Hv; apply Hdef in Hv as [[_ Hv]|[[Hv _]|[[Hv _]|[Hv _]]]]; done|].
  apply kw_one; [done|apply Hdef; auto|intros v Hv; apply Hdef in Hv as [[Hv _]|[[_ Hv]|[[Hv _]|[Hv _]]]]; done|].
  apply kw_one; [done|apply Hdef; auto|intros v Hv; apply Hdef in Hv as [[Hv _]|[[Hv _]|[[_ Hv]|[Hv _]]]]; done|].
  apply kw_one; [done|apply Hdef; auto|intros v Hv; apply Hdef in Hv as [[Hv _]|[[Hv _]|[[Hv _]|[_ Hv]]]]; done|].
  set (l := kw_del (lit "out") _) in *. assert (Hnot : forall p, p ∈ l -> ~ default_kw p).
  { intros [k v] Hp Hx. apply Hdef in Hx. assert (Hk : k ∈ l.*1) by (by apply (elem_of_list_fmap_1 fst) in Hp).
    assert (Hsub : forall n kw', k ∈ (kw_del n kw').*1 -> k ∈ kw'.*1 /\ k <> n).
    { intros n kw' ([k0 v0] & -> & H0)%elem_of_list_fmap. apply elem_of_list_filter in H0 as [H1 H2]. split; [by apply elem_of_list_fmap_1|done]. }
    apply Hsub in Hk as [Hk E4]. apply Hsub in Hk as [Hk E3]. apply Hsub in Hk as [Hk E2]. apply Hsub in Hk as [Hk E1]. tauto. }
  clearbody l. clear -Hnot. unfold given_kw. induction l as [|p l IH]; [done|]. rewrite filter_cons_True by (apply Hnot; left). constructor. apply IH. intros p' Hp. apply Hnot. by right.
Qed.

Section Facts.
  Context {K : semiring}.
  Notation tens := (tensor K).
  Variable ord : gset N -> list N.
  Variable L : kwlib K.
  Variable kw : kwargs.
  Hypothesis Hd : kw_dict kw.
  Hypothesis Hu : kw_unordered L.
  Notation B := (bind_kw L (given_kw kw)).
  Lemma kw_einsum_bound s ops : kw_einsum L false kw s ops = run_einsum B s ops.
  Proof. unfold kw_einsum, run_einsum. cbn [b_einsum]. by rewrite (Hu _ _ (filter_defaults_perm kw Hd)). Qed.
  Lemma kw_blas_bound k : kw_blas L k = use_tensordot B k.
  Proof. done. Qed.
  Lemma kw_step_einsum ops c : kw_blas L (c_blas c) = false -> kw_step ord L false kw ops c = core_step ord B ops c.
  Proof. intros H. unfold kw_step, core_step. rewrite <-kw_blas_bound, H. destruct (pops _ _) as [[tmp rest]|]; [|done]. cbn [mbind res_bind]. by rewrite kw_einsum_bound. Qed.
  Lemma kw_step_tensordot ops c r : kw_blas L (c_blas c) = true -> kw <> [] -> core_step ord B ops c = Ok r -> kw_step ord L false kw ops c = Err TypeError.
  Proof.
    intros H Hne Hs. unfold kw_step, core_step in *. rewrite <-kw_blas_bound, H in Hs. rewrite H. apply bind_Ok in Hs as ([tmp rest] & -> & Hs). cbn [mbind res_bind]. apply bind_Ok in Hs as (v & Hs & _).
    unfold run_tensordot, kw_tensordot in *. apply bind_Ok in Hs as ([a b] & -> & Hs). cbn [mbind res_bind]. apply bind_Ok in Hs as ([l r'] & -> & Hs). cbn [mbind res_bind].
    apply bind_Ok in Hs as ([x y] & -> & Hs). cbn [mbind res_bind]. apply bind_Ok in Hs as (axes & -> & Hs). cbn [mbind res_bind]. by rewrite decide_True.
  Qed.
  Lemma kw_step_error ops c : kw_blas L (c_blas c) = true -> kw <> [] -> exists e, kw_step ord L false kw ops c = Err e.
  Proof.
    intros H Hne. unfold kw_step. rewrite H. destruct (pops _ _) as [[tmp rest]|e]; [|by eexists]. cbn [mbind res_bind]. unfold kw_tensordot.
    destruct (split_arrow _) as [[a b]|e]; [|by eexists]. cbn [mbind res_bind]. destruct (match split s_comma a with [l; r] => Ok (l, r) | _ => Err ValueError end) as [[l r']|e]; [|by eexists]. cbn [mbind res_bind].
    destruct (match tmp with [x; y] => Ok (x, y) | _ => Err TypeError end) as [[x y]|e]; [|by eexists]. cbn [mbind res_bind]. destruct (td_axes _ _ _ _) as [axes|e]; [|by eexists]. cbn [mbind res_bind].
    rewrite decide_True by done. by eexists.
  Qed.
  Definition uses_tensordot (cl : list contraction) : Prop := Exists (fun c => kw_blas L (c_blas c) = true) cl.
  Lemma kw_fold_einsum cl : forall ops, ~ uses_tensordot cl -> foldM_res (kw_step ord L false kw) ops cl = foldM_res (core_step ord B) ops cl.
  Proof.
    induction cl as [|c cl IH]; intros ops H; [done|]. cbn [foldM_res]. rewrite kw_step_einsum by (destruct (kw_blas L (c_blas c)) eqn:E; [exfalso; apply H; by left|done]).
    destruct (core_step ord B ops c) as [ops'|]; [|done]. cbn [mbind res_bind]. apply IH. intros Hx. apply H. by right.
  Qed.
  Lemma kw_fold_error cl : forall ops, uses_tensordot cl -> kw <> [] -> exists e, foldM_res (kw_step ord L false kw) ops cl = Err e /\ forall r, foldM_res (core_step ord B) ops cl = Ok r -> e = TypeError.
  Proof.
    induction cl as [|c cl IH]; intros ops H Hne; [by inversion H|]. cbn [foldM_res]. destruct (kw_blas L (c_blas c)) eqn:E.
    - destruct (kw_step_error ops c E Hne) as [e He]. exists e. rewrite He. split; [done|]. intros r Hr. apply bind_Ok in Hr as (o & Ho & _). rewrite (kw_step_tensordot _ _ _ E Hne Ho) in He. by injection He as <-.
    - rewrite (kw_step_einsum _ _ E). destruct (core_step ord B ops c) as [ops'|e]; cbn [mbind res_bind]; [|by exists e]. apply IH; [|done]. inversion H; [congruence|done].
  Qed.
End Facts.
