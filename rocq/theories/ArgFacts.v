(** C41, C42: explicit paths and the memory_limit argument. *)
From Verif Require Import Prelude Einsum Parser Helpers Contract Spec PathSpec StringFacts StepFacts ContractFacts PathFacts TopFacts.

(** Every step names at least one position, all within the operands present. *)
Fixpoint in_bounds (n : nat) (p : path) : Prop :=
  match p with
  | [] => True
  | s :: p' => s <> [] /\ Forall (fun i => i < n) s /\ length s <= n /\ in_bounds (n - length s + 1) p'
  end.
Lemma pops_bounds {A} inds (l tmp rest : list A) : pops inds l = Ok (tmp, rest) ->
  length inds <= length l /\ length rest = length l - length inds /\ length tmp = length inds /\ Forall (fun i => i < length l) inds.
Proof.
  revert l tmp rest. induction inds as [|i inds IH]; intros l tmp rest H; simpl in H.
  - injection H as <- <-. simpl. split; [lia|]. split; [lia|]. split; [done|constructor].
  - unfold pop_at in H. destruct (l !! i) as [x|] eqn:Ex; [|discriminate]. cbn [mbind res_bind] in H.
    apply bind_Ok in H as ([tmp' rest'] & Hp & H). apply Ok_inj in H. injection H as <- <-.
    apply IH in Hp as (H1 & H2 & H3 & H4). apply lookup_lt_Some in Ex as Hi. pose proof (length_delete l i (mk_is_Some _ _ Ex)) as Hd.
    rewrite Hd in *. simpl. split; [lia|]. split; [lia|]. split; [lia|]. constructor; [done|]. eapply Forall_impl; [exact H4|]. simpl. lia.
Qed.
Lemma cp_loop_bounds ord use_blas output d p : forall sets terms shapes steps,
  cp_loop ord use_blas output d p sets terms shapes = Ok steps -> in_bounds (length sets) p.
Proof.
  induction p as [|s p IH]; intros sets terms shapes steps H; simpl; [done|]. simpl cp_loop in H.
  apply bind_Ok in H as ([[[o sets'] rm] con] & Hf & H). unfold find_contraction in Hf.
  apply bind_Ok in Hf as ([inputs remaining] & Hp & Hf). apply pops_bounds in Hp as (H1 & H2 & H3 & H4).
  rewrite !sort_desc_perm in H1, H2, H3, H4. destruct inputs as [|i0 inputs]; [done|]. apply Ok_inj in Hf. injection Hf as <- <- <- <-.
  apply bind_Ok in H as (cost & _ & H). apply bind_Ok in H as (sz & _ & H). apply bind_Ok in H as ([ti t'] & _ & H).
  apply bind_Ok in H as ([sh' r'] & _ & H). apply bind_Ok in H as (shp & _ & H). apply bind_Ok in H as (rest & Hrest & H).
  apply IH in Hrest. rewrite app_length, H2 in Hrest. split; [by intros ->|]. done.
Qed.

(** What a memory_limit argument means, given the sizes of the operands and the output. *)
Definition mem_meaning (m : memory_arg) (sizes : list nat) (r : option nat) : Prop :=
  match m with
  | MNone => r = None
  | MInt z => (z = -1 /\ r = None)%Z \/ (exists k, 1 <= k /\ z = Z.of_nat k /\ r = Some k)
  | MStr s => s = lit "max_input" /\ exists x, r = Some x /\ x ∈ sizes /\ forall y, y ∈ sizes -> y <= x
  end.
Lemma choose_memory_meaning m sizes : sizes <> [] ->
  match choose_memory_arg m sizes with
  | Ok r => mem_meaning m sizes r
  | Err e => e = ValueError /\ forall r, ~ mem_meaning m sizes r
  end.
Proof.
  intros Hne. unfold choose_memory_arg, mem_meaning. destruct m as [|s|z]; [done| |].
  - case_decide as Hs.
    + destruct sizes as [|x l]; [done|]. split; [done|]. eexists. split; [done|]. split; [by apply max_list'_in|]. intros y. apply max_list'_ge.
    + split; [done|]. by intros r [? _].
  - destruct (Z.ltb_spec z 1).
    + case_decide; [by left|]. split; [done|]. intros r [[? _]|(k & ? & ? & _)]; lia.
    + right. exists (Z.to_nat z). repeat split; lia.
Qed.
Section Mem.
  Variable ord : gset N -> list N.
  Lemma parsed_memory use_blas f mem inp out shapes info : length (split s_comma inp) > 2 ->
    contract_path_parsed ord use_blas (OFinder f) mem inp out shapes = Ok info ->
    exists r, mem_meaning mem ((fun t => prod_list (size_of (pi_size_dict info) <$> t)) <$> (split s_comma inp ++ [out])) r /\
      f (list_to_set <$> split s_comma inp) (list_to_set out) (pi_size_dict info) r = Ok (pi_path info).
  Proof.
    intros Hn H. unfold contract_path_parsed in H. apply bind_Ok in H as (d & Hd & H). apply bind_Ok in H as (sl & Hsl & H).
    apply bind_Ok in H as (m & Hm & H). apply bind_Ok in H as (naive & _ & H). apply bind_Ok in H as (p & Hp & H).
    apply bind_Ok in H as (steps & _ & H). apply bind_Ok in H as (psh & _ & H). apply Ok_inj in H as <-. simpl.
    unfold compute_path in Hp. destruct (Nat.leb_spec (length (list_to_set <$> split s_comma inp : list (gset N))) 2) as [Hl|_].
    { rewrite fmap_length in Hl. lia. }
    exists m. split; [|done].
    assert (Heq : sl = (fun t => prod_list (size_of d <$> t)) <$> (split s_comma inp ++ [out])).
    { clear -Hsl. revert sl Hsl. generalize (split s_comma inp ++ [out]). intros l. induction l as [|t l IH]; intros sl H; simpl in H; [by injection H as <-|].
      apply bind_Ok in H as (x & Hx & H). apply bind_Ok in H as (xs & Hxs & H). apply Ok_inj in H as <-. rewrite fmap_cons. f_equal; [|by apply IH].
      assert (Hall : forall c, c ∈ t -> is_Some (d !! c)); [|rewrite (compute_size_ok d t Hall) in Hx; by apply Ok_inj in Hx].
      unfold compute_size_by_dict in Hx. revert x Hx. generalize 1. clear. induction t as [|c t IH]; intros a x H c' Hc'; [by apply elem_of_nil in Hc'|].
      simpl in H. destruct (d !! c) as [s|] eqn:E; [|discriminate]. simpl in H. apply elem_of_cons in Hc' as [->|Hc']; [by rewrite E|by eapply IH]. }
    rewrite <-Heq. assert (Hne : sl <> []) by (rewrite Heq; by destruct (split s_comma inp)).
    pose proof (choose_memory_meaning mem sl Hne) as Hmm. by rewrite Hm in Hmm.
  Qed.
End Mem.
