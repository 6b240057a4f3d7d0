(** Property C58: the generators of random contractions and of test shapes; statements, each with a concrete instance. *)
From Verif Require Import Prelude Einsum EinsumFacts EinsumOps Parser Helpers Contract Spec PathSpec StringFacts SymbolFacts StepFacts ContractFacts PathFacts ParserFacts ParseSpec ParseProof ParseSound TopFacts ContractMain RenameFacts RefBackend Api ApiSpec InterleavedFacts NoOptFacts Ssa SsaMore Random RandomSpec FinderFacts PropsContract PropsPaths PropsSearch PropsDp PropsRandom Testing TestingSpec TestingFacts.
From Verif Require Import Einsum.

(** ** C58 *)
(** Whatever is drawn from the ranges asked for: the equation and the shapes that are returned describe a network with [n] operands, [n * regularity / 2] bonds
    and [n_out] outer labels (and the global one), without traces, with dimensions between [lo] and [hi]; the shapes are the dimensions of the labels. *)
Theorem C58_network (R : eq_draws) (n regularity n_out lo hi fuel : nat) (global : bool) (eq : str) (shapes : list (list nat)) (d : sizes) :
  draws_in R n lo hi -> rand_equation R fuel n regularity n_out global = Ok (eq, shapes, d) ->
  exists inputs out, eq = equation inputs out /\ shapes = (fun t : str => size_of d <$> t) <$> inputs /\
    random_network n (n * regularity / 2) n_out global lo hi inputs out (size_of d).
Proof. intros HR H. destruct (rand_ok R n regularity n_out global lo hi HR fuel eq shapes d H) as (inputs & out & H1 & H2 & H3 & _). eauto. Qed.
Print Assumptions C58_network.

(** With two or more operands it returns, if every operand is drawn again and again. *)
Theorem C58_returns_partial (R : eq_draws) (n regularity n_out lo hi : nat) (global : bool) :
  draws_in R n lo hi -> 2 <= n -> (forall k w, w < n -> exists k', k <= k' /\ ed_where R k' = w) ->
  exists fuel eq shapes d, rand_equation R fuel n regularity n_out global = Ok (eq, shapes, d).
Proof. intros HR Hn Hf. destruct (rand_total R n regularity n_out global lo hi HR Hn Hf) as (fuel & [[eq shapes] d] & H). eauto. Qed.
Print Assumptions C58_returns_partial.

Lemma equation_facts (ts : list str) (out : str) (shapes : list (list nat)) : let e := Eqn ((fun t => ETerm t None) <$> ts) (Some (ETerm out None)) in
  ts <> [] -> length ts = length shapes -> Forall (Forall plain) ts -> Forall plain out -> NoDup out -> (forall c, c ∈ out -> exists t, t ∈ ts /\ c ∈ t) ->
  e_in e <> [] /\ plain_eqn e /\ render e = equation ts out /\ well_formed e shapes /\ in_labels e shapes = fmap (M:=list) Named <$> ts /\ out_labels e shapes = Named <$> out.
Proof.
  intros e Hne Hlen Hp Hpo Hnd Hout.
  assert (Hts : t_pre <$> e_in e = ts) by (unfold e; simpl; rewrite <-list_fmap_compose; by apply list_fmap_id).
  assert (Hell : no_ellipsis e) by (split; [unfold e; simpl; by apply Forall_fmap, Forall_true|done]).
  assert (Hil : in_labels e shapes = fmap (M:=list) Named <$> ts).
  { rewrite (in_labels_plain e Hell), Hts; [done|]. unfold e. simpl. by rewrite !fmap_length. }
  assert (Hol : out_labels e shapes = Named <$> out) by (rewrite (out_labels_plain e Hell); done).
  split; [unfold e; simpl; by intros ?%fmap_nil_inv|]. split; [|split; [|split; [|done]]].
  - split; [unfold e; simpl; apply Forall_fmap; eapply Forall_impl; [exact Hp|]; intros t Ht; unfold t_named; simpl; by rewrite app_nil_r|]. unfold t_named. simpl. by rewrite app_nil_r.
  - unfold render. rewrite (ts_render e Hell), Hts. unfold e. simpl. unfold render_term. simpl. by rewrite app_nil_r.
  - split.
    + unfold e. simpl. by rewrite !fmap_length.
    + unfold e. simpl. apply Forall2_fmap_l. apply Forall2_same_length_lookup_2; [done|]. done.
    + rewrite Hol. apply NoDup_fmap_2; [by intros ? ? [=]|done].
    + rewrite Hol, Hil. intros l (c & -> & Hc')%elem_of_list_fmap. apply Hout in Hc' as (t & Ht & Hct). exists (Named <$> t). split; by apply elem_of_list_fmap_1.
Qed.
Lemma dups_le {A} `{EqDecision A} (l k : list A) : (forall x, x ∈ l -> x ∈ k) -> length (remove_dups l) <= length k.
Proof. intros Hlk. apply submseteq_length. apply NoDup_submseteq; [apply NoDup_remove_dups|]. intros x Hx. apply Hlk. by rewrite elem_of_remove_dups in Hx. Qed.
(** Arrays of the returned shapes can be contracted: with at most 52 labels, every option of [safe_names] gives the Einstein sum. *)
Theorem C58_contract (K : semiring) (B : backend K) (ord : gset N -> list N) (E : env) (name : str) (use_blas : bool) (mem : memory_arg)
    (R : eq_draws) (n regularity n_out lo hi fuel : nat) (global : bool) (eq : str) (shapes : list (list nat)) (d : sizes) (ops : list (tensor K)) :
  backend_ok B -> b_has_einsum B = true -> (forall x, ord x ≡ₚ elements x) -> env_ok E -> mem_valid mem -> lower name ∈ safe_names ->
  draws_in R n lo hi -> 1 <= n -> n * regularity / 2 + n_out + (if global then 1 else 0) <= 52 ->
  rand_equation R fuel n regularity n_out global = Ok (eq, shapes, d) -> shape <$> ops = shapes ->
  exists inputs out T, eq = equation inputs out /\ contract ord B use_blas (named (all_options E) name) mem eq ops = Ok T /\ T ≡ₜ einsum (zip inputs ops) out.
Proof.
  intros HB He Ho HE Hm Hname HR Hn H52 Hr Hsh.
  destruct (rand_ok R n regularity n_out global lo hi HR fuel eq shapes d Hr) as (inputs & out & -> & -> & [Hcount Hnd (outer & inner & glob & Hl1 & Hl2 & Hl3 & Hl4 & Hl5 & Hl6 & Hl7 & Hl8 & Hl9) Hsz Hu] & _ & Hin).
  exists inputs, out. set (m := n * regularity / 2 + n_out) in *. set (gs := if global then [get_symbol (N.of_nat m)] else []) in *.
  assert (Hpin : Forall (Forall plain) inputs).
  { apply Forall_forall. intros t Ht. apply Forall_forall. intros c Hc. specialize (Hin t c Ht Hc). apply elem_of_app in Hin as [Hin|Hin].
    - unfold syms in Hin. apply elem_of_list_fmap in Hin as (i & -> & _). apply get_symbol_plain.
    - unfold gs in Hin. destruct global; [|by apply elem_of_nil in Hin]. apply elem_of_list_singleton in Hin as ->. apply get_symbol_plain. }
  assert (Hex : forall c, 1 <= on inputs c -> exists t, t ∈ inputs /\ c ∈ t).
  { intros c Hc. unfold on in Hc. destruct (filter (fun t => c ∈ t) inputs) as [|t l] eqn:Ef; [simpl in Hc; lia|]. exists t.
    assert (Ht : t ∈ filter (fun t => c ∈ t) inputs) by (rewrite Ef; by left). apply elem_of_list_filter in Ht. naive_solver. }
  assert (Hout : forall c, c ∈ out -> exists t, t ∈ inputs /\ c ∈ t).
  { intros c Hc. rewrite Hl5 in Hc. apply Hex. apply elem_of_app in Hc as [Hc|Hc]; [by rewrite Hl6|by rewrite Hl8]. }
  assert (Hlen : length inputs = length ops) by (pose proof (f_equal length Hsh) as Hx; rewrite !fmap_length in Hx; done).
  destruct (equation_facts inputs out (shape <$> ops)) as (F1 & F2 & F3 & F4 & F5 & F6); [intros ->; simpl in Hcount; lia|by rewrite fmap_length|done| | |done|].
  { apply Forall_forall. intros c (t & Ht & Hc)%Hout. by apply (plain_in inputs t). }
  { rewrite Hl5. rewrite (Permutation_app_comm inner glob), app_assoc in Hl1. by apply NoDup_app in Hl1 as [? _]. }
  set (e := Eqn _ _) in *. assert (Hg : good (zip inputs ops)) by (by eapply sized_good).
  assert (Hzip : zip (in_labels e (shape <$> ops)) ops = rename_op Named <$> zip inputs ops) by (rewrite F5; apply zip_rename_gen).
  destruct (C02_total_options K B ord E e (equation inputs out) ops name use_blas mem) as (T & HT & Heq); try done.
  - rewrite <-F3. by apply render_no_space.
  - rewrite Hzip. apply good_rename; [by intros a b _ _ [=]|done].
  - rewrite Hzip, labels_rename. etrans; [apply (dups_le _ (Named <$> (syms m ++ gs)))|].
    + intros x (c & -> & Hc)%elem_of_list_fmap. apply elem_of_list_fmap_1. apply elem_labels_zip in Hc as (t & Ht & Hct); [|done]. by apply (Hin t).
    + rewrite fmap_length, app_length, syms_length. unfold gs. destruct global; simpl in *; lia.
  - exists T. split; [done|]. split; [done|]. rewrite Heq, F6, Hzip. apply einsum_rename; [by intros a b _ _ [=]|]. rewrite Hl5. rewrite (Permutation_app_comm inner glob), app_assoc in Hl1. by apply NoDup_app in Hl1 as [? _].
Qed.
Print Assumptions C58_contract.

(** With one operand and a bond the loop never ends: the second end of the bond has no operand to go to. *)
Lemma one_stuck R ix t k fuel : (forall k, ed_where R k < 1) -> ix ∈ t -> draw_where R fuel ix [t] k = Err NoFuel.
Proof.
  intros Hw Ht. revert k. induction fuel as [|fuel IH]; intros k; [done|]. simpl. assert (ed_where R k = 0) as -> by (specialize (Hw k); lia). simpl. unfold inb. rewrite bool_decide_eq_true_2 by done. apply IH.
Qed.
Definition draws0 (n : nat) : eq_draws := EqDraws (fun i => 2 + i mod 3) 4 reverse (fun k => k mod n) reverse.
Lemma draws0_in n : 1 <= n -> draws_in (draws0 n) n 2 4.
Proof.
  intros Hn. split; simpl; intros; [pose proof (Nat.mod_upper_bound i 3); lia|lia|apply reverse_Permutation|apply Nat.mod_upper_bound; lia|apply reverse_Permutation].
Qed.
Lemma draws0_fair n k w : w < n -> exists k', k <= k' /\ ed_where (draws0 n) k' = w.
Proof. intros Hw. exists (w + k * n). split; [nia|]. simpl. rewrite Nat.mod_add by lia. by apply Nat.mod_small. Qed.
Theorem C58_single_refuted : exists (R : eq_draws), draws_in R 1 2 4 /\ (forall k w, w < 1 -> exists k', k <= k' /\ ed_where R k' = w) /\
  forall fuel, rand_equation R fuel 1 2 0 false = Err NoFuel.
Proof.
  exists (draws0 1). split; [by apply draws0_in|]. split; [intros k w; by apply draws0_fair|]. intros fuel. unfold rand_equation. change (gen 0 _) with [97%N; 97%N].
  change (ed_shuffle (draws0 1) [97%N; 97%N]) with [97%N; 97%N]. cbn [length seq zip zip_with foldM_res replicate]. change (place (draws0 1) fuel 1 ([[]], 0) (0, 97%N)) with (Ok ([[97%N]], 0) : res (list str * nat)).
  cbn [mbind res_bind]. change (place (draws0 1) fuel 1 ([[97%N]], 0) (1, 97%N)) with ('(w, k) ← draw_where (draws0 1) fuel 97%N [[97%N]] 0; Ok (alter (fun t => t ++ [97%N]) w [[97%N]], k) : res (list str * nat)).
  rewrite one_stuck; [done|apply (di_where _ _ _ _ (draws0_in 1 ltac:(lia)))|by left].
Qed.
Print Assumptions C58_single_refuted.
(** No operand without labels is promised ("make sure all inputs have at least one index"), but there are too few ends when [n] is larger than their number. *)
Theorem C58_empty_refuted : exists (R : eq_draws) eq shapes d, draws_in R 3 2 4 /\ rand_equation R 5 3 1 0 false = Ok (eq, shapes, d) /\ [] ∈ shapes.
Proof.
  exists (draws0 3), (lit "a,a,->"), [[2]; [2]; []], {[97%N := 2]}. split; [apply draws0_in; lia|]. split; [|by right; right; left].
  vm_compute. reflexivity.
Qed.
Print Assumptions C58_empty_refuted.

(** An instance: four operands, regularity 3, two outer labels and a global one. *)
Example C58_network_ex : draws_in (draws0 4) 4 2 4 /\ exists shapes d, rand_equation (draws0 4) 9 4 3 2 true = Ok (lit "hfdbi,hfdai,geci,geci->iba", shapes, d).
Proof. split; [apply draws0_in; lia|]. eexists _, _. vm_compute. reflexivity. Qed.

(** ** build_shapes *)
(** The dimension of a label: as the dictionary says; an ellipsis stands for three axes, with the dimensions of the characters 7000, 7001 and 7002. *)
Definition label_dim (D : sizes) (l : elabel) : option nat := match l with Named c => D !! c | Bcast k => D !! (7002 - N.of_nat k)%N end.
Theorem C58_shapes (e : eqn) (dims : option sizes) (r : bool) :
  plain_eqn e -> e_in e <> [] ->
  let D := default default_dim_dict dims in
  (no_ellipsis e \/ r = true -> (forall t l, t ∈ e_in e -> l ∈ expand 3 t -> is_Some (label_dim D l)) ->
    build_shapes (render e) dims r = Ok ((fun t => (fun l => default 0 (label_dim D l)) <$> expand 3 t) <$> e_in e)) /\
  (no_ellipsis e \/ r = true -> forall t l, t ∈ e_in e -> l ∈ expand 3 t -> label_dim D l = None -> build_shapes (render e) dims r = Err KeyError) /\
  (~ no_ellipsis e -> build_shapes (render e) dims false = Err ValueError).
Proof.
  intros Hpl Hne D.
  assert (Hlab : forall t l, l ∈ expand 3 t -> label_dim D l = D !! name dots_chars l).
  { intros t [c|k] Hl; [done|]. unfold expand in Hl. apply elem_of_app in Hl as [Hl|Hl]; [by apply elem_of_list_fmap in Hl as (? & [=] & _)|]. destruct (t_post t) as [q|]; [|by apply elem_of_nil in Hl].
    apply elem_of_app in Hl as [Hl|Hl]; [|by apply elem_of_list_fmap in Hl as (? & [=] & _)]. apply elem_of_list_fmap in Hl as (k' & [= <-] & Hk). rewrite elem_of_reverse in Hk. apply elem_of_seq in Hk.
    destruct k as [|[|[|k]]]; [done|done|done|lia]. }
  split; [|split; [|by apply build_shapes_dots]].
  - intros Hr Hk. rewrite build_shapes_ok by done. fold D. apply mapM_res_Forall2, Forall2_fmap. apply Forall2_same_length_lookup_2; [done|]. intros i t t' Ht Ht'. simplify_eq. apply mapM_res_Forall2.
    rewrite filled_expand. apply Forall2_fmap, Forall2_same_length_lookup_2; [done|]. intros j l l' Hl Hl'. simplify_eq. apply elem_of_list_lookup_2 in Ht, Hl.
    destruct (Hk t l Ht Hl) as [x Hx]. rewrite <-(Hlab t l Hl), Hx. done.
  - intros Hr t l Ht Hl Hnone. rewrite build_shapes_ok by done. fold D.
    assert (Hkey : forall s, (exists c, c ∈ s /\ D !! c = None) -> mapM_res (fun x => of_opt KeyError (D !! x)) s = Err KeyError).
    { intros s (c & Hc & Hn). induction s as [|a s IH]; [by apply elem_of_nil in Hc|]. simpl. destruct (D !! a) as [x|] eqn:Ea; [|done]. apply elem_of_cons in Hc as [->|Hc]; [congruence|]. simpl. by rewrite IH. }
    assert (Hkeys : forall ss : list str, (exists s, s ∈ ss /\ exists c, c ∈ s /\ D !! c = None) -> mapM_res (fun t => mapM_res (fun x => of_opt KeyError (D !! x)) t) ss = Err KeyError).
    { intros ss (s & Hs & Hn). induction ss as [|a ss IH]; [by apply elem_of_nil in Hs|]. cbn [mapM_res]. destruct (mapM_res (fun x => of_opt KeyError (D !! x)) a) as [sh|ex] eqn:Ea.
      - apply elem_of_cons in Hs as [->|Hs]; [rewrite Hkey in Ea by done; done|]. cbn [mbind res_bind]. by rewrite IH.
      - cbn [mbind res_bind]. f_equal. clear -Ea. revert ex Ea. induction a as [|y a IH]; intros ex Ea; [done|]. simpl in Ea. destruct (D !! y); [|simpl in Ea; congruence]. simpl in Ea.
        destruct (mapM_res _ a); [done|]. simpl in Ea. injection Ea as <-. by apply IH. }
    apply Hkeys. exists (filled dots_chars t). split; [by apply elem_of_list_fmap_1|]. exists (name dots_chars l). rewrite filled_expand. split; [by apply elem_of_list_fmap_1|]. by rewrite <-(Hlab t l Hl).
Qed.
Print Assumptions C58_shapes.

(** So the axes with one label have one dimension, and arrays of these shapes can be contracted. *)
Theorem C58_views (K : semiring) (B : backend K) (ord : gset N -> list N) (E : env) (name : str) (use_blas : bool) (mem : memory_arg)
    (e : eqn) (dims : option sizes) (r : bool) (shapes : list (list nat)) (ops : list (tensor K)) :
  backend_ok B -> b_has_einsum B = true -> (forall x, ord x ≡ₚ elements x) -> env_ok E -> mem_valid mem -> lower name ∈ safe_names ->
  plain_eqn e -> e_in e <> [] -> build_shapes (render e) dims r = Ok shapes -> shape <$> ops = shapes ->
  well_formed e shapes -> length (remove_dups (labels_of (zip (expand 3 <$> e_in e) ops))) <= 52 ->
  exists T, contract ord B use_blas (named (all_options E) name) mem (render e) ops = Ok T /\ T ≡ₜ einsum (zip (expand 3 <$> e_in e) ops) (out_labels e shapes).
Proof.
  intros HB He Ho HE Hm Hname Hpl Hne Hb Hsh Hwf Hsz. destruct (C58_shapes e dims r Hpl Hne) as (H1 & H2 & H3). set (D := default default_dim_dict dims) in *.
  assert (Hr : no_ellipsis e \/ r = true).
  { destruct r; [by right|left]. apply (dots_absent e Hpl). destruct (sub_in s_dots (render e)) eqn:Es; [|done]. rewrite H3 in Hb; [done|]. intros Hn. apply (dots_absent e Hpl) in Hn. congruence. }
  assert (Hk : forall t l, t ∈ e_in e -> l ∈ expand 3 t -> is_Some (label_dim D l)).
  { intros t l Ht Hl. destruct (label_dim D l) as [x|] eqn:El; [by eexists|]. rewrite (H2 Hr t l Ht Hl El) in Hb. done. }
  rewrite (H1 Hr Hk) in Hb. apply Ok_inj in Hb as <-. set (f := fun l => default 0 (label_dim D l)) in *.
  assert (Hex : in_labels e (shape <$> ops) = expand 3 <$> e_in e).
  { rewrite Hsh. unfold in_labels. clear. induction (e_in e) as [|t l IH]; [done|]. rewrite !fmap_cons. cbn [zip_with]. f_equal; [|apply IH]. unfold expand, ell_count. destruct (t_post t) as [q|] eqn:Eq; [|done].
    match goal with |- context [seq 0 (?a - ?b)] => replace (a - b) with 3; [done|] end. rewrite fmap_length. unfold t_named. rewrite Eq. rewrite !app_length, !fmap_length, reverse_length, seq_length. simpl. lia. }
  rewrite <-Hex in *. assert (Hg : good (zip (in_labels e (shape <$> ops)) ops)).
  { apply (sized_good f). rewrite Hex, Hsh. rewrite <-list_fmap_compose. done. }
  rewrite <-Hsh in *. apply C02_total_options; try done. by apply render_no_space.
Qed.
Print Assumptions C58_views.

Definition zeros_of (shapes : list (list nat)) : list (tensor nat_semiring) := (fun sh => Tensor sh (fun cs => S (sum_list cs) : nat_semiring)) <$> shapes.
Example C58_contract_ex : match rand_equation (draws0 4) 9 4 3 2 true with
  | Ok (eq, shapes, _) => match contract ord0 (ref_backend nat_semiring true) true (named (all_options (env0 20)) (lit "greedy")) MNone eq (zeros_of shapes) with Ok T => bool_decide (shape T = [4; 3; 2]) | Err _ => false end
  | Err _ => false end = true.
Proof. by vm_compute. Qed.
Definition ell_eqn : eqn := Eqn [ETerm (lit "ab") (Some []); ETerm [] (Some (lit "c")); ETerm (lit "ca") None] (Some (ETerm (lit "b") (Some []))).
Example C58_shapes_ex : plain_eqn ell_eqn /\ ~ no_ellipsis ell_eqn /\ render ell_eqn = lit "ab...,...c,ca->b..." /\
  build_shapes (render ell_eqn) None true = Ok [[2; 3; 10; 2; 4]; [10; 2; 4; 4]; [4; 2]] /\ well_formed ell_eqn [[2; 3; 10; 2; 4]; [10; 2; 4; 4]; [4; 2]].
Proof.
  split; [apply plain_check_ok; by vm_compute|]. split; [intros [H _]; by inversion H|]. split; [by vm_compute|]. split; [by vm_compute|].
  apply wf_check_ok. by vm_compute.
Qed.
