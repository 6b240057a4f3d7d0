(** Facts about get_symbol and the renaming into valid characters. *)
From Verif Require Import Prelude Einsum EinsumFacts EinsumOps Parser Spec StringFacts.

Lemma base_length : length symbols_base = 52.
Proof. reflexivity. Qed.
Lemma base_NoDup : NoDup symbols_base.
Proof. apply (bool_decide_unpack _). vm_compute. done. Qed.
Lemma base_range : Forall (fun c => 65 <= c <= 90 \/ 97 <= c <= 122)%N symbols_base.
Proof. apply (bool_decide_unpack _). vm_compute. done. Qed.

Lemma get_symbol_small i : (i < 52)%N -> symbols_base !! N.to_nat i = Some (get_symbol i).
Proof.
  intros H. unfold get_symbol. destruct (N.ltb_spec i 52); [|lia].
  destruct (lookup_lt_is_Some_2 symbols_base (N.to_nat i)) as [c Hc]; [rewrite base_length; lia|].
  by rewrite Hc.
Qed.
Lemma get_symbol_cases i :
  ((i < 52)%N /\ (65 <= get_symbol i <= 90 \/ 97 <= get_symbol i <= 122)%N) \/
  (52 <= i < 55296 /\ get_symbol i = i + 140)%N \/ (55296 <= i /\ get_symbol i = i + 2048)%N.
Proof.
  destruct (decide (i < 52)%N) as [H|H].
  - left. split; [done|]. pose proof (get_symbol_small i H) as Hl. apply elem_of_list_lookup_2 in Hl.
    pose proof base_range as Hb. rewrite Forall_forall in Hb. by apply Hb.
  - right. unfold get_symbol. destruct (N.ltb_spec i 52); [lia|]. destruct (N.leb_spec 55296 i); lia.
Qed.
Lemma get_symbol_inj i j : get_symbol i = get_symbol j -> i = j.
Proof.
  intros H. destruct (decide (i < 52)%N) as [Hi|Hi], (decide (j < 52)%N) as [Hj|Hj].
  - pose proof (get_symbol_small i Hi) as H1. pose proof (get_symbol_small j Hj) as H2. rewrite H in H1.
    pose proof (NoDup_lookup _ _ _ _ base_NoDup H1 H2). lia.
  - destruct (get_symbol_cases i), (get_symbol_cases j); lia.
  - destruct (get_symbol_cases i), (get_symbol_cases j); lia.
  - destruct (get_symbol_cases i), (get_symbol_cases j); lia.
Qed.
Lemma get_symbol_plain i : plain (get_symbol i).
Proof.
  unfold plain, c_comma, c_dash, c_gt, c_dot, c_space. destruct (get_symbol_cases i); lia.
Qed.
Lemma get_symbol_letter i : (i < 52)%N -> get_symbol i ∈ letters.
Proof. intros H. apply get_symbol_small in H. by apply elem_of_list_lookup_2 in H. Qed.
Lemma letters_plain c : c ∈ letters -> plain c.
Proof.
  intros H. pose proof base_range as Hb. rewrite Forall_forall in Hb. apply Hb in H.
  unfold plain, c_comma, c_dash, c_gt, c_dot, c_space. lia.
Qed.

Lemma enum_symbols_lookup i symbols x : NoDup symbols ->
  enum_symbols i symbols !! x = (fun j => get_symbol (i + N.of_nat j)) <$> find x symbols.
Proof.
  revert i. induction symbols as [|y symbols IH]; intros i Hnd; simpl; [done|].
  apply NoDup_cons in Hnd as [Hy Hnd]. destruct (decide (y = x)) as [->|Hne].
  - rewrite lookup_insert. simpl. by rewrite N.add_0_r.
  - rewrite lookup_insert_ne by done. rewrite IH by done. destruct (find x symbols); simpl; [|done].
    do 2 f_equal. lia.
Qed.

(** The renaming performed by convert_to_valid_einsum_chars. *)
Definition valid_symbols (s : str) : list N := sortN (elements (list_to_set s ∖ list_to_set (lit ",->") : gset N)).
Definition valid_rename (s : str) : N -> N := get_or_self (enum_symbols 0 (valid_symbols s)).
Lemma sortN_perm l : sortN l ≡ₚ l.
Proof. apply merge_sort_Permutation. Qed.
Lemma elem_valid_symbols s c : c ∈ valid_symbols s <-> c ∈ s /\ c ∉ lit ",->".
Proof.
  unfold valid_symbols. rewrite sortN_perm, elem_of_elements, elem_of_difference, !elem_of_list_to_set. done.
Qed.
Lemma NoDup_valid_symbols s : NoDup (valid_symbols s).
Proof. unfold valid_symbols. rewrite sortN_perm. apply NoDup_elements. Qed.
Lemma valid_rename_syntax s c : c ∈ lit ",->" -> valid_rename s c = c.
Proof.
  intros H. unfold valid_rename, get_or_self. rewrite enum_symbols_lookup by apply NoDup_valid_symbols.
  destruct (find c (valid_symbols s)) as [j|] eqn:E; [|done].
  apply find_lookup, elem_of_list_lookup_2, elem_valid_symbols in E. naive_solver.
Qed.
Lemma valid_rename_label s c : c ∈ valid_symbols s ->
  exists j, valid_symbols s !! j = Some c /\ valid_rename s c = get_symbol (N.of_nat j).
Proof.
  intros H. destruct (find_elem _ _ H) as (j & Hj & Hl). exists j. split; [done|].
  unfold valid_rename, get_or_self. rewrite enum_symbols_lookup by apply NoDup_valid_symbols. by rewrite Hj.
Qed.
Lemma valid_rename_inj s a b : a ∈ valid_symbols s -> b ∈ valid_symbols s -> valid_rename s a = valid_rename s b -> a = b.
Proof.
  intros (i & Hi & Ei)%valid_rename_label (j & Hj & Ej)%valid_rename_label H.
  rewrite Ei, Ej in H. apply get_symbol_inj in H. assert (i = j) as -> by lia. congruence.
Qed.
Lemma valid_rename_letter s c : c ∈ valid_symbols s -> length (valid_symbols s) <= 52 -> valid_rename s c ∈ letters.
Proof.
  intros (i & Hi & Ei)%valid_rename_label Hlen. rewrite Ei. apply get_symbol_letter. apply lookup_lt_Some in Hi. lia.
Qed.
Lemma fmap_join (f : N -> N) sep l : f <$> join sep l = join (f <$> sep : list N) (fmap (M:=list) f <$> l : list (list N)).
Proof.
  induction l as [|t l IH]; [done|]. destruct l as [|t' l]; [done|].
  rewrite join_cons by done. rewrite !fmap_app. rewrite (fmap_cons (fmap (M:=list) f)).
  rewrite (join_cons (f <$> sep : list N)) by done. by rewrite IH.
Qed.
Lemma convert_equation ts out :
  convert_to_valid_einsum_chars (equation ts out) =
    equation (fmap (M:=list) (valid_rename (equation ts out)) <$> ts) (valid_rename (equation ts out) <$> out).
Proof.
  set (s := equation ts out).
  change (convert_to_valid_einsum_chars s) with (valid_rename s <$> s). unfold s at 2, equation.
  rewrite !fmap_app, fmap_join. unfold s_comma, s_arrow. simpl.
  rewrite !valid_rename_syntax by (vm_compute; set_solver). done.
Qed.

Lemma elem_of_equation c ts out : plain c -> c ∈ equation ts out <-> c ∈ out \/ exists t, t ∈ ts /\ c ∈ t.
Proof.
  intros (H1 & H2 & H3 & _). unfold equation. rewrite !elem_of_app. split.
  - intros [Hc|[Hc|Hc]]; [|set_solver|auto]. apply elem_of_join in Hc as [Hc|Hc]; [|auto].
    apply elem_of_list_singleton in Hc. done.
  - intros [?|(t & Ht & Hc)]; [auto|]. left. by eapply elem_of_join_2.
Qed.
Lemma plain_not_syntax c : plain c -> c ∉ lit ",->".
Proof. intros (H1 & H2 & H3 & _). unfold c_comma, c_dash, c_gt in *. simpl. set_solver. Qed.
