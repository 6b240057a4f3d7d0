(** Property C80: the common operations as textbook formulas; statements, each with a concrete instance. *)
From Verif Require Import Prelude Einsum EinsumFacts EinsumOps Parser Helpers Contract Spec PathSpec StringFacts SymbolFacts StepFacts ContractFacts PathFacts ParserFacts ParseSpec ParseProof TopFacts ContractMain RefBackend.
From Coq Require Import Ring_theory Ring.

(** [s] on [ops] gives an array of shape [sh] with entries [f], whatever the array library, the order of sets, the
    strategy, the memory limit and the use of tensordot. *)
Definition yields {K : semiring} (s : str) (ops : list (tensor K)) (sh : list nat) (f : list nat -> K) : Prop :=
  forall (B : backend K) (ord : gset N -> list N) (use_blas : bool) (opt : optimize_arg) (mem : memory_arg),
    backend_ok B -> b_has_einsum B = true -> (forall x, ord x ≡ₚ elements x) -> mem_valid mem -> strategy_ok opt (length ops) ->
    exists T, contract ord B use_blas opt mem s ops = Ok T /\ shape T = sh /\ forall cs, in_range cs sh -> get T cs = f cs.

Section Uniform.
  Context {K : semiring} {L : Type} `{EqDecision L}.
  Notation tens := (tensor K).
  Lemma good_sized (d : L -> nat) (tops : list (list L * tens)) : Forall (fun p => shape p.2 = d <$> p.1) tops -> good tops.
  Proof.
    intros Hs. rewrite Forall_forall in Hs. assert (Hax : forall l x, (l, x) ∈ axes_of tops -> x = d l).
    { intros l x (p & i & Hp & H1 & H2)%elem_of_axes. rewrite (Hs p Hp), list_lookup_fmap, H1 in H2. by injection H2 as <-. }
    split.
    - apply Forall_forall. intros p Hp. rewrite (Hs p Hp), fmap_length. done.
    - intros l x y Hx%Hax Hy%Hax. left. congruence.
    - intros p i j c x y Hp Hi Hj Hdi Hdj. rewrite (Hs p Hp), list_lookup_fmap in Hdi, Hdj. rewrite Hi in Hdi. rewrite Hj in Hdj. simplify_eq/=. done.
    - intros l H1%Hax H0%Hax. congruence.
  Qed.
  Lemma dim_sized (d : L -> nat) (tops : list (list L * tens)) l : Forall (fun p => shape p.2 = d <$> p.1) tops -> l ∈ labels_of tops -> dim tops l = d l.
  Proof.
    intros Hs Hl. rewrite Forall_forall in Hs. apply dim_unique.
    - intros x (p & i & Hp & H1 & H2)%elem_of_axes. right. rewrite (Hs p Hp), list_lookup_fmap, H1 in H2. by injection H2 as <-.
    - right. apply elem_of_labels in Hl as (p & Hp & [i Hi]%elem_of_list_lookup). apply elem_of_axes. exists p, i. split_and!; [done..|]. by rewrite (Hs p Hp), list_lookup_fmap, Hi.
  Qed.
  Lemma coords_sized (d : L -> nat) t (e : L -> nat) : (forall l, l ∈ t -> e l < d l) -> coords t (d <$> t) e = e <$> t.
  Proof.
    intros He. unfold coords. induction t as [|l t IH]; [done|]. cbn [fmap list_fmap zip_with]. f_equal.
    - specialize (He l ltac:(left)). case_decide; lia.
    - apply IH. intros l' Hl'. apply He. by right.
  Qed.
  (** The sum without broadcasting: sizes and coordinates are those of the labels. *)
  Lemma esum_sized (d : L -> nat) (tops : list (list L * tens)) out (e : L -> nat) : Forall (fun p => shape p.2 = d <$> p.1) tops ->
    (forall l, l ∈ out -> e l < d l) ->
    esum tops out e = sum_labels d (summed tops out) (fun e' => prodl ((fun p => get p.2 (e' <$> p.1)) <$> tops)) e.
  Proof.
    intros Hs Ho. unfold esum.
    assert (Hgen : forall ls e0, (forall l, l ∈ ls -> l ∈ labels_of tops) -> (forall l, l ∈ labels_of tops -> l ∈ ls \/ e0 l < d l) ->
      sum_labels (dim tops) ls (fun e' => prodl (term e' <$> tops)) e0 = sum_labels d ls (fun e' => prodl ((fun p => get p.2 (e' <$> p.1)) <$> tops)) e0).
    { induction ls as [|x ls IH]; intros e0 H1 H2; cbn [sum_labels].
      - f_equal. apply list_fmap_ext. intros i p Hp%elem_of_list_lookup_2. unfold term. f_equal. rewrite Forall_forall in Hs. rewrite (Hs p Hp). apply coords_sized.
        intros l Hl. destruct (H2 l) as [H|H]; [apply elem_of_labels; eauto|by apply elem_of_nil in H|done].
      - rewrite (dim_sized d) by (done || apply H1; left). apply sumn_ext. intros v Hv. apply IH.
        + intros l Hl. apply H1. by right.
        + intros l Hl. unfold upd. case_decide; [subst; by right|]. destruct (H2 l Hl) as [[?|?]%elem_of_cons|?]; [done|by left|by right]. }
    apply Hgen.
    - intros l Hl%elem_of_summed. tauto.
    - intros l Hl. rewrite elem_of_summed. destruct (decide (l ∈ out)); [right; auto|left; done].
  Qed.
End Uniform.

Lemma yields_sized {K : semiring} (e : eqn) (s : str) (ops : list (tensor K)) (d : elabel -> nat) ins out f :
  e_in e <> [] -> plain_eqn e -> filter (.≠ c_space) s = render e -> well_formed e (shape <$> ops) ->
  in_labels e (shape <$> ops) = ins -> out_labels e (shape <$> ops) = out -> length (remove_dups (mjoin ins)) <= 52 ->
  Forall2 (fun t x => shape x = d <$> t) ins ops ->
  (forall cs, in_range cs (d <$> out) -> f cs = sum_labels d (filter (fun l => l ∉ out) (remove_dups (mjoin ins)))
     (fun e' => prodl ((fun p => get p.2 (e' <$> p.1)) <$> zip ins ops)) (env_of out cs)) ->
  yields s ops (d <$> out) f.
Proof.
  intros Hne Hpl Hs Hwf Hin Hout H52 Hsh Hf B ord ub opt mem HB He Hord Hm Hst.
  assert (Hlab : labels_of (zip ins ops) = mjoin ins).
  { clear -Hsh. unfold labels_of. induction Hsh as [|t x ts xs _ _ IH]; [done|]. cbn [zip_with]. rewrite bind_cons, IH. done. }
  assert (Hsz : Forall (fun p => shape p.2 = d <$> p.1) (zip ins ops)).
  { clear -Hsh. induction Hsh; constructor; auto. }
  destruct (contract_ok ord Hord B HB e s ops Hne Hpl Hs Hwf ub opt mem) as (T & HT & Esh & Eget); try done; rewrite ?Hin.
  { by eapply good_sized. }
  { by rewrite Hlab. }
  assert (Hsub : forall l, l ∈ out -> l ∈ mjoin ins).
  { intros l Hl. rewrite <- Hout in Hl. destruct (wf_known _ _ Hwf l Hl) as (t & Ht & Hlt). rewrite Hin in Ht. apply elem_of_list_join. eauto. }
  rewrite Hin, Hout in Esh, Eget. assert (Esh' : shape T = d <$> out).
  { rewrite Esh. cbn [shape einsum]. apply list_fmap_ext. intros i l Hi%elem_of_list_lookup_2. apply dim_sized; [done|]. rewrite Hlab. auto. }
  exists T. split; [done|]. split; [done|]. intros cs Hcs. rewrite Eget by (by rewrite Esh'). cbn [get einsum]. rewrite (esum_sized d); [|done|].
  - unfold summed. rewrite Hlab. symmetry. by apply Hf.
  - intros l Hl. by apply env_of_range.
Qed.

(** ** C80 *)

(** The product of matrices of inner dimensions [ds], by its definition. *)
Fixpoint matprod {K : semiring} (ds : list nat) (Ms : list (tensor K)) (i j : nat) : K :=
  match Ms with
  | [] => szero
  | M :: Ms' => match ds with [] => get M [i; j] | d :: ds' => sumn d (fun k => smul (get M [i; k]) (matprod ds' Ms' k j)) end
  end.
  (** Sizes of letters from a table. *)
  Fixpoint sizes_of (l : list (N * nat)) (c : elabel) : nat :=
    match l with [] => 0 | (a, n) :: l' => if decide (c = Named a) then n else sizes_of l' c end.
Section Common.
  Context {K : semiring}.
  Notation tens := (tensor K).
  Local Infix "*'" := (smul (s:=K)) (at level 40, left associativity).
  Add Ring Kring : (slaws K).
  Lemma in_range0 cs : in_range cs [] -> cs = [].
  Proof. intros H. by inversion H. Qed.
  Lemma in_range1 cs n : in_range cs [n] -> exists i, cs = [i] /\ i < n.
  Proof. intros H. inversion_clear H as [|i ? cs' ? Hi H']. inversion H'; subst. eauto. Qed.
  Lemma in_range2 cs n m : in_range cs [n; m] -> exists i j, cs = [i; j] /\ i < n /\ j < m.
  Proof. intros H. inversion_clear H as [|i ? cs' ? Hi H']. apply in_range1 in H' as (j & -> & ?). eauto. Qed.
  Lemma in_range3 cs n m k : in_range cs [n; m; k] -> exists i j l, cs = [i; j; l] /\ i < n /\ j < m /\ l < k.
  Proof. intros H. inversion_clear H as [|i ? cs' ? Hi H']. apply in_range2 in H' as (j & l & -> & ? & ?). eauto 10. Qed.
  Lemma in_range4 cs n m k o : in_range cs [n; m; k; o] -> exists i j l q, cs = [i; j; l; q] /\ i < n /\ j < m /\ l < k /\ q < o.
  Proof. intros H. inversion_clear H as [|i ? cs' ? Hi H']. apply in_range3 in H' as (j & l & q & -> & ? & ? & ?). eauto 12. Qed.
  (** All the side conditions, and the sum by computation. *)
  Ltac common e d :=
    match goal with |- yields ?s ?ops ?sh ?f =>
      let ins := eval vm_compute in (zip_with (fun t _ => expand 0 t) (e_in e) (e_in e)) in
      let out := eval vm_compute in (out_labels e ((fun _ => []) <$> e_in e)) in
      change (yields s ops (d <$> out) f); apply (yields_sized e s ops d ins out f)
    end;
    [done | apply plain_check_ok; by vm_compute | by vm_compute
    | cbn [fmap list_fmap]; repeat match goal with H : shape _ = _ |- _ => rewrite H; clear H end; apply wf_check_ok; by vm_compute
    | by vm_compute | by vm_compute | vm_compute; lia | repeat (apply Forall2_cons_2; [assumption|]); apply Forall2_nil_2
    | intros cs Hcs;
      match goal with |- context [filter ?p (remove_dups ?l)] => let r := eval vm_compute in (filter p (remove_dups l)) in change (filter p (remove_dups l)) with r end;
      first [apply in_range0 in Hcs as -> | apply in_range1 in Hcs as (? & -> & _) | apply in_range2 in Hcs as (? & ? & -> & _)
            | apply in_range3 in Hcs as (? & ? & ? & -> & _) | apply in_range4 in Hcs as (? & ? & ? & ? & -> & _)];
      cbn [sum_labels]; repeat (apply sumn_ext; intros ? _); cbn; repeat (rewrite upd_eq || rewrite upd_ne by done); ring ].

  (** Matrix product. *)
  Theorem C80_matmul (A B : tens) (n m k : nat) : shape A = [n; m] -> shape B = [m; k] ->
    yields (lit "ab,bc->ac") [A; B] [n; k] (fun cs => sumn m (fun x => get A [nth 0 cs 0; x] *' get B [x; nth 1 cs 0])).
  Proof. intros. common (Eqn [ETerm (lit "ab") None; ETerm (lit "bc") None] (Some (ETerm (lit "ac") None))) (sizes_of [(97, n); (98, m); (99, k)]%N). Qed.
  (** The same with the output left out. *)
  Theorem C80_matmul_implicit (A B : tens) (n m k : nat) : shape A = [n; m] -> shape B = [m; k] ->
    yields (lit "ab,bc") [A; B] [n; k] (fun cs => sumn m (fun x => get A [nth 0 cs 0; x] *' get B [x; nth 1 cs 0])).
  Proof. intros. common (Eqn [ETerm (lit "ab") None; ETerm (lit "bc") None] None) (sizes_of [(97, n); (98, m); (99, k)]%N). Qed.
  (** Matrix and vector. *)
  Theorem C80_matvec (A v : tens) (n m : nat) : shape A = [n; m] -> shape v = [m] ->
    yields (lit "ab,b->a") [A; v] [n] (fun cs => sumn m (fun x => get A [nth 0 cs 0; x] *' get v [x])).
  Proof. intros. common (Eqn [ETerm (lit "ab") None; ETerm (lit "b") None] (Some (ETerm (lit "a") None))) (sizes_of [(97, n); (98, m)]%N). Qed.
  (** Bilinear form. *)
  Theorem C80_bilinear (u A v : tens) (n m : nat) : shape u = [n] -> shape A = [n; m] -> shape v = [m] ->
    yields (lit "a,ab,b->") [u; A; v] [] (fun cs => sumn n (fun x => sumn m (fun y => get u [x] *' get A [x; y] *' get v [y]))).
  Proof. intros. common (Eqn [ETerm (lit "a") None; ETerm (lit "ab") None; ETerm (lit "b") None] (Some (ETerm (lit "") None))) (sizes_of [(97, n); (98, m)]%N). Qed.
  (** Inner product. *)
  Theorem C80_inner (u v : tens) (n : nat) : shape u = [n] -> shape v = [n] ->
    yields (lit "a,a->") [u; v] [] (fun cs => sumn n (fun x => get u [x] *' get v [x])).
  Proof. intros. common (Eqn [ETerm (lit "a") None; ETerm (lit "a") None] (Some (ETerm (lit "") None))) (sizes_of [(97, n)]%N). Qed.
  (** Outer product. *)
  Theorem C80_outer (u v : tens) (n m : nat) : shape u = [n] -> shape v = [m] ->
    yields (lit "a,b->ab") [u; v] [n; m] (fun cs => get u [nth 0 cs 0] *' get v [nth 1 cs 0]).
  Proof. intros. common (Eqn [ETerm (lit "a") None; ETerm (lit "b") None] (Some (ETerm (lit "ab") None))) (sizes_of [(97, n); (98, m)]%N). Qed.
  (** Entrywise product. *)
  Theorem C80_hadamard (A B : tens) (n m : nat) : shape A = [n; m] -> shape B = [n; m] ->
    yields (lit "ab,ab->ab") [A; B] [n; m] (fun cs => get A [nth 0 cs 0; nth 1 cs 0] *' get B [nth 0 cs 0; nth 1 cs 0]).
  Proof. intros. common (Eqn [ETerm (lit "ab") None; ETerm (lit "ab") None] (Some (ETerm (lit "ab") None))) (sizes_of [(97, n); (98, m)]%N). Qed.
  (** Scalar multiple. *)
  Theorem C80_scale (c A : tens) (n m : nat) : shape c = [] -> shape A = [n; m] ->
    yields (lit ",ab->ab") [c; A] [n; m] (fun cs => get c [] *' get A [nth 0 cs 0; nth 1 cs 0]).
  Proof. intros. common (Eqn [ETerm (lit "") None; ETerm (lit "ab") None] (Some (ETerm (lit "ab") None))) (sizes_of [(97, n); (98, m)]%N). Qed.
  (** Transpose. *)
  Theorem C80_transpose (A : tens) (n m : nat) : shape A = [n; m] ->
    yields (lit "ab->ba") [A] [m; n] (fun cs => get A [nth 1 cs 0; nth 0 cs 0]).
  Proof. intros. common (Eqn [ETerm (lit "ab") None] (Some (ETerm (lit "ba") None))) (sizes_of [(97, n); (98, m)]%N). Qed.
  (** The output left out is in alphabetical order, so "ba" is the transpose. *)
  Theorem C80_transpose_implicit (A : tens) (n m : nat) : shape A = [n; m] ->
    yields (lit "ba") [A] [m; n] (fun cs => get A [nth 1 cs 0; nth 0 cs 0]).
  Proof. intros. common (Eqn [ETerm (lit "ba") None] None) (sizes_of [(98, n); (97, m)]%N). Qed.
  (** Trace. *)
  Theorem C80_trace (A : tens) (n : nat) : shape A = [n; n] ->
    yields (lit "aa->") [A] [] (fun cs => sumn n (fun x => get A [x; x])).
  Proof. intros. common (Eqn [ETerm (lit "aa") None] (Some (ETerm (lit "") None))) (sizes_of [(97, n)]%N). Qed.
  (** Trace, with the output left out. *)
  Theorem C80_trace_implicit (A : tens) (n : nat) : shape A = [n; n] ->
    yields (lit "aa") [A] [] (fun cs => sumn n (fun x => get A [x; x])).
  Proof. intros. common (Eqn [ETerm (lit "aa") None] None) (sizes_of [(97, n)]%N). Qed.
  (** Diagonal. *)
  Theorem C80_diagonal (A : tens) (n : nat) : shape A = [n; n] ->
    yields (lit "aa->a") [A] [n] (fun cs => get A [nth 0 cs 0; nth 0 cs 0]).
  Proof. intros. common (Eqn [ETerm (lit "aa") None] (Some (ETerm (lit "a") None))) (sizes_of [(97, n)]%N). Qed.
  (** Row sums. *)
  Theorem C80_row_sums (A : tens) (n m : nat) : shape A = [n; m] ->
    yields (lit "ab->a") [A] [n] (fun cs => sumn m (fun x => get A [nth 0 cs 0; x])).
  Proof. intros. common (Eqn [ETerm (lit "ab") None] (Some (ETerm (lit "a") None))) (sizes_of [(97, n); (98, m)]%N). Qed.
  (** Sum of all entries. *)
  Theorem C80_total (A : tens) (n m : nat) : shape A = [n; m] ->
    yields (lit "ab->") [A] [] (fun cs => sumn n (fun x => sumn m (fun y => get A [x; y]))).
  Proof. intros. common (Eqn [ETerm (lit "ab") None] (Some (ETerm (lit "") None))) (sizes_of [(97, n); (98, m)]%N). Qed.
  (** Batches of matrix products. *)
  Theorem C80_batch (A B : tens) (p n m k : nat) : shape A = [p; n; m] -> shape B = [p; m; k] ->
    yields (lit "zab,zbc->zac") [A; B] [p; n; k] (fun cs => sumn m (fun x => get A [nth 0 cs 0; nth 1 cs 0; x] *' get B [nth 0 cs 0; x; nth 2 cs 0])).
  Proof. intros. common (Eqn [ETerm (lit "zab") None; ETerm (lit "zbc") None] (Some (ETerm (lit "zac") None))) (sizes_of [(122, p); (97, n); (98, m); (99, k)]%N). Qed.
  (** Kronecker product, before the axes are merged. *)
  Theorem C80_kron (A B : tens) (n m p q : nat) : shape A = [n; m] -> shape B = [p; q] ->
    yields (lit "ab,cd->acbd") [A; B] [n; p; m; q] (fun cs => get A [nth 0 cs 0; nth 2 cs 0] *' get B [nth 1 cs 0; nth 3 cs 0]).
  Proof. intros. common (Eqn [ETerm (lit "ab") None; ETerm (lit "cd") None] (Some (ETerm (lit "acbd") None))) (sizes_of [(97, n); (98, m); (99, p); (100, q)]%N). Qed.
  (** Frobenius inner product. *)
  Theorem C80_frobenius (A B : tens) (n m : nat) : shape A = [n; m] -> shape B = [n; m] ->
    yields (lit "ab,ab->") [A; B] [] (fun cs => sumn n (fun x => sumn m (fun y => get A [x; y] *' get B [x; y]))).
  Proof. intros. common (Eqn [ETerm (lit "ab") None; ETerm (lit "ab") None] (Some (ETerm (lit "") None))) (sizes_of [(97, n); (98, m)]%N). Qed.
  (** Trace of a product of three matrices. *)
  Theorem C80_matrix_trace (A B C : tens) (n m k : nat) : shape A = [k; n] -> shape B = [n; m] -> shape C = [m; k] ->
    yields (lit "ca,ab,bc->") [A; B; C] [] (fun cs => sumn n (fun x => sumn m (fun y => sumn k (fun z => get A [z; x] *' get B [x; y] *' get C [y; z])))).
  Proof. intros. common (Eqn [ETerm (lit "ca") None; ETerm (lit "ab") None; ETerm (lit "bc") None] (Some (ETerm (lit "") None))) (sizes_of [(97, n); (98, m); (99, k)]%N). Qed.
End Common.
Print Assumptions C80_matmul.
Print Assumptions C80_matmul_implicit.
Print Assumptions C80_matvec.
Print Assumptions C80_bilinear.
Print Assumptions C80_inner.
Print Assumptions C80_outer.
Print Assumptions C80_hadamard.
Print Assumptions C80_scale.
Print Assumptions C80_transpose.
Print Assumptions C80_transpose_implicit.
Print Assumptions C80_trace.
Print Assumptions C80_trace_implicit.
Print Assumptions C80_diagonal.
Print Assumptions C80_row_sums.
Print Assumptions C80_total.
Print Assumptions C80_batch.
Print Assumptions C80_kron.
Print Assumptions C80_frobenius.
Print Assumptions C80_matrix_trace.

Section Chain.
  Context {K : semiring}.
  Notation tens := (tensor K).
  Add Ring Kring2 : (slaws K).
  Implicit Types (x y z : N) (mid : list N).
  (** Consecutive pairs of a list. *)
  Definition pairs (ls : list N) : list (N * N) := zip ls (drop 1 ls).
  Lemma pairs_cons x mid y : pairs (x :: mid ++ [y]) = match mid with [] => [(x, y)] | z :: mid' => (x, z) :: pairs (z :: mid' ++ [y]) end.
  Proof. unfold pairs. by destruct mid. Qed.
  Definition both (p : N * N) : list elabel := [Named p.1; Named p.2].
  Lemma chain_sum (d : elabel -> nat) x mid y (Ms : list tens) (e : elabel -> nat) : NoDup (x :: mid ++ [y]) ->
    length Ms = length (pairs (x :: mid ++ [y])) ->
    sum_labels d (Named <$> mid) (fun e' => prodl ((fun p => get p.2 (e' <$> p.1)) <$> zip (both <$> pairs (x :: mid ++ [y])) Ms)) e
    = matprod (d <$> (Named <$> mid)) Ms (e (Named x)) (e (Named y)).
  Proof.
    revert x Ms e. induction mid as [|z mid IH]; intros x Ms e Hnd Hlen; rewrite pairs_cons in *.
    - destruct Ms as [|M [|]]; try done. cbn. ring.
    - destruct Ms as [|M Ms]; [done|]. cbn [fmap list_fmap sum_labels matprod zip_with]. apply sumn_ext. intros v _.
      apply NoDup_cons in Hnd as [Hx Hnd]. cbn [app] in Hnd, Hx.
      assert (E1 : upd e (Named z) v (Named z) = v) by apply upd_eq. assert (E2 : upd e (Named z) v (Named y) = e (Named y)).
      { apply upd_ne. intros [= ->]. apply NoDup_cons in Hnd as [H _]. apply H, elem_of_app. right. left. }
      assert (E3 : upd e (Named z) v (Named x) = e (Named x)) by (apply upd_ne; intros [= ->]; apply Hx; left).
      pose proof (IH z Ms (upd e (Named z) v) Hnd) as IH'. rewrite E1, E2 in IH'. rewrite <- IH' by (cbn [length] in Hlen; lia). clear IH IH'.
      transitivity (sum_labels d (Named <$> mid) (fun e' => smul (prodl ((fun p => get p.2 (e' <$> p.1)) <$> zip (both <$> pairs (z :: mid ++ [y])) Ms)) (get M [e' (Named x); e' (Named z)])) (upd e (Named z) v)).
      { apply sum_labels_ext; [done|]. intros e' _ _. cbn. ring. }
      rewrite sum_labels_mul_r.
      + rewrite E1, E3. ring.
      + intros l (c & -> & Hc)%elem_of_list_fmap e1 e2 He. rewrite !He; [done| |].
        * intros [= ->]. apply NoDup_cons in Hnd as [H _]. apply H, elem_of_app. by left.
        * intros [= ->]. apply Hx. right. apply elem_of_app. by left.
  Qed.
  Lemma pairs_labels x mid y c : c ∈ mjoin (both <$> pairs (x :: mid ++ [y])) <-> c ∈ Named <$> (x :: mid ++ [y]).
  Proof.
    revert x. induction mid as [|z mid IH]; intros x; rewrite pairs_cons; [done|]. cbn [fmap list_fmap]. change (mjoin (?a :: ?l)) with (a ++ mjoin l).
    rewrite elem_of_app, IH. cbn [app fmap list_fmap both fst snd]. change (both (x, z)) with [Named x; Named z]. rewrite !elem_of_cons, elem_of_nil. tauto.
  Qed.
  Lemma pairs_length x mid y : length (pairs (x :: mid ++ [y])) = S (length mid).
  Proof. revert x. induction mid as [|z mid IH]; intros x; rewrite pairs_cons; [done|]. cbn [length]. by rewrite IH. Qed.

  (** A chain of any number of matrices, whatever the order in which it is multiplied. *)
  Theorem C80_chain (x y : N) (mid : list N) (d : N -> nat) (Ms : list tens) (s : str) :
    let ls := x :: mid ++ [y] in
    NoDup ls -> Forall plain ls -> length ls <= 52 ->
    Forall2 (fun p M => shape M = [d p.1; d p.2]) (pairs ls) Ms ->
    filter (.≠ c_space) s = join s_comma ((fun p => [p.1; p.2]) <$> pairs ls) ++ s_arrow ++ [x; y] ->
    yields s Ms [d x; d y] (fun cs => matprod (d <$> mid) Ms (nth 0 cs 0) (nth 1 cs 0)).
  Proof.
    intros ls Hnd Hpl H52 Hsh Hs. set (D c := match c with Named a => d a | Bcast _ => 0 end).
    set (e := Eqn ((fun p => ETerm [p.1; p.2] None) <$> pairs ls) (Some (ETerm [x; y] None))).
    assert (Hlen : length Ms = length (pairs ls)) by (symmetry; by eapply Forall2_length).
    assert (Hin : in_labels e (shape <$> Ms) = both <$> pairs ls).
    { unfold in_labels, e. cbn [e_in]. clear -Hlen. revert Ms Hlen. induction (pairs ls) as [|p l IH]; intros [|M Ms] Hlen; try done. cbn [fmap list_fmap zip_with]. f_equal. apply IH. cbn in Hlen. lia. }
    assert (Hpx : forall p, p ∈ pairs ls -> p.1 ∈ ls /\ p.2 ∈ ls).
    { intros [a b] Hp. unfold pairs in Hp. split; [by eapply elem_of_zip_l|]. apply elem_of_zip_r in Hp. unfold ls in *. cbn [drop] in Hp. by right. }
    change [d x; d y] with (D <$> [Named x; Named y]).
    apply (yields_sized e s Ms D (both <$> pairs ls) [Named x; Named y]); try done.
    - unfold e. cbn [e_in]. intros E%fmap_nil_inv. apply (f_equal length) in E. unfold ls in E. rewrite pairs_length in E. done.
    - rewrite Forall_forall in Hpl. assert (Hp : forall c, c ∈ ls -> plain c) by done. split; cbn [e e_in e_out].
      + apply Forall_fmap, Forall_forall. intros p [H1 H2]%Hpx. cbn. apply Forall_cons. split; [by apply Hp|]. apply Forall_singleton. by apply Hp.
      + cbn. unfold ls in Hp. apply Forall_cons. split; [|apply Forall_singleton]; apply Hp; [left|right; apply elem_of_app; right; left].
    - rewrite Hs. unfold render. cbn [e_in e e_out]. rewrite <- list_fmap_compose. done.
    - split.
      + cbn [e e_in]. rewrite !fmap_length. done.
      + unfold e. cbn [e_in]. clear -Hlen. revert Ms Hlen. induction (pairs ls) as [|p l IH]; intros [|M Ms] Hlen; try done; constructor; [done|]. apply IH. cbn in Hlen. lia.
      + cbn. apply NoDup_cons in Hnd as [Hx _]. rewrite NoDup_cons, elem_of_list_singleton. split; [|apply NoDup_singleton]. intros [= ->]. apply Hx, elem_of_app. right. left.
      + intros l Hl. change (out_labels e (shape <$> Ms)) with [Named x; Named y] in Hl. rewrite Hin.
        assert (Hj : l ∈ mjoin (both <$> pairs ls)).
        { apply pairs_labels. apply elem_of_cons in Hl as [->|Hl%elem_of_list_singleton]; [left|subst l; apply elem_of_list_fmap_1; right; apply elem_of_app; right; left]. }
        apply elem_of_list_join in Hj as (t & ? & ?). eauto.
    - assert (Hq : remove_dups (mjoin (both <$> pairs ls)) ≡ₚ Named <$> ls).
      { apply NoDup_Permutation; [apply NoDup_remove_dups|by apply NoDup_fmap_2; [intros ? ? [= ->]|]|]. intros c. rewrite elem_of_remove_dups. apply pairs_labels. }
      rewrite Hq, fmap_length. done.
    - clear -Hsh. induction Hsh; constructor; auto.
    - intros cs (i & j & -> & _ & _)%in_range2. cbn [nth]. symmetry.
      assert (Hxy : x <> y) by (intros ->; apply NoDup_cons in Hnd as [Hx _]; apply Hx, elem_of_app; right; left).
      rewrite (sum_labels_perm D _ (Named <$> mid) _ _ (fun l => l ∈ mjoin (both <$> pairs ls))).
      + unfold ls. rewrite chain_sum by done. rewrite <- list_fmap_compose. cbn [env_of]. by rewrite upd_eq, upd_ne, upd_eq by congruence.
      + intros e1 e2 He. f_equal. apply list_fmap_ext. intros q p Hp%elem_of_list_lookup_2. f_equal. destruct p as [t M]. apply elem_of_zip_l in Hp. cbn [fst].
        apply list_fmap_ext. intros w l Hl%elem_of_list_lookup_2. apply He, elem_of_list_join. eauto.
      + apply NoDup_filter, NoDup_remove_dups.
      + apply NoDup_cons in Hnd as [Hx Hnd]. apply NoDup_app in Hnd as (Hm & Hy & _). apply NoDup_Permutation; [apply NoDup_filter, NoDup_remove_dups|by apply NoDup_fmap_2; [intros ? ? [= ->]|]|].
        intros c. unfold ls. rewrite elem_of_list_filter, elem_of_remove_dups, pairs_labels. cbn [fmap list_fmap]. rewrite fmap_app. cbn [fmap list_fmap]. rewrite !elem_of_cons, elem_of_app, elem_of_cons, elem_of_nil. split; [tauto|].
        intros Hc. split; [|tauto]. intros [->|[->|[]]]; apply elem_of_list_fmap in Hc as (b & [= <-] & Hb); [apply Hx, elem_of_app; by left|apply (Hy y Hb); left].
  Qed.
End Chain.
Print Assumptions C80_chain.

(** Four matrices, of shapes (2, 3), (3, 1), (1, 2), (2, 2), multiplied from the middle: "αb,bc, cd,de->αe". *)
Definition chain_ops : list (tensor nat_semiring) :=
  [arr [2; 3] (seq 1 6 : list nat_semiring); arr [3; 1] (seq 2 3 : list nat_semiring); arr [1; 2] (seq 5 2 : list nat_semiring); arr [2; 2] (seq 1 4 : list nat_semiring)].
Definition chain_str : str := [945%N] ++ lit "b,bc, cd,de->" ++ [945%N] ++ lit "e".
Definition chain_d (c : N) : nat := match c with 945%N => 2 | 98%N => 3 | 99%N => 1 | _ => 2 end.
Example C80_instance :
  let x := 945%N in let mid := lit "bcd" in let y := 101%N in let ls := x :: mid ++ [y] in
  NoDup ls /\ Forall plain ls /\ length ls <= 52 /\ Forall2 (fun p M => shape M = [chain_d p.1; chain_d p.2]) (pairs ls) chain_ops /\
  filter (.≠ c_space) chain_str = join s_comma ((fun p => [p.1; p.2]) <$> pairs ls) ++ s_arrow ++ [x; y] /\
  matprod (chain_d <$> mid) chain_ops 1 0 = 1081 /\
  exists T, contract ord0 (ref_backend nat_semiring true) true (OPath [[1; 2]; [1; 2]; [0; 1]]) (MInt (-1)) chain_str chain_ops = Ok T /\ shape T = [2; 2] /\ get T [1; 0] = 1081.
Proof.
  cbn zeta. assert (H1 : NoDup (945%N :: lit "bcd" ++ [101%N])) by (apply (bool_decide_unpack _); by vm_compute).
  assert (H2 : Forall plain (945%N :: lit "bcd" ++ [101%N])) by (apply (bool_decide_unpack _); by vm_compute).
  assert (H3 : length (945%N :: lit "bcd" ++ [101%N]) <= 52) by (vm_compute; lia).
  assert (H4 : Forall2 (fun p M => shape M = [chain_d p.1; chain_d p.2]) (pairs (945%N :: lit "bcd" ++ [101%N])) chain_ops) by (repeat constructor).
  assert (H5 : filter (.≠ c_space) chain_str = join s_comma ((fun p => [p.1; p.2]) <$> pairs (945%N :: lit "bcd" ++ [101%N])) ++ s_arrow ++ [945%N; 101%N]) by (by vm_compute).
  assert (H6 : matprod (chain_d <$> lit "bcd") chain_ops 1 0 = 1081) by (by vm_compute).
  split_and!; try done.
  destruct (C80_chain 945 101 (lit "bcd") chain_d chain_ops chain_str H1 H2 H3 H4 H5 (ref_backend nat_semiring true) ord0 true (OPath [[1; 2]; [1; 2]; [0; 1]]) (MInt (-1))) as (T & HT & Hsh & Hget).
  - apply ref_backend_ok.
  - done.
  - apply ord0_ok.
  - by left.
  - apply complete_check. by vm_compute.
  - exists T. split; [done|]. split; [done|]. rewrite Hget; [exact H6|]. repeat constructor.
Qed.
(** The matrix product on numbers: the theorem gives the entries, and the program computes them. *)
Definition mm_ops : list (tensor nat_semiring) := [arr [2; 3] (seq 1 6 : list nat_semiring); arr [3; 2] (seq 1 6 : list nat_semiring)].
Example C80_matmul_instance :
  match contract ord0 (ref_backend nat_semiring true) true (OPath [[0; 1]]) MNone (lit "ab,bc->ac") mm_ops with
  | Ok T => shape T = [2; 2] /\ entries T = [22; 28; 49; 64] | Err _ => False end.
Proof. by vm_compute. Qed.
