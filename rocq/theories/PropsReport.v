(** Property C68: the report of a contraction ([PathInfo.__repr__], contract.py 31-99); statements, each with a concrete instance. *)
From Coq Require Import QArith.
From Verif Require Import Prelude Einsum EinsumFacts EinsumOps Parser Helpers Contract Spec StringFacts SymbolFacts StepFacts ContractFacts TopFacts RefBackend PropsContract ReportSpec ResumeFacts Report ReportNumbers ReportFacts.
Local Open Scope nat_scope.

Section Path.
  Context {K : semiring}.
  Lemma path_loop (ord : gset N -> list N) use_blas opt mem s (ops : list (tensor K)) inp out info :
    parse_einsum_input s (shape <$> ops) = Ok (inp, out) -> c_comma ∉ out -> contract_path ord use_blas opt mem s (shape <$> ops) = Ok info -> good (zip (split s_comma inp) ops) -> complete (length ops) (pi_path info) ->
    exists d steps, loop_pre out d (pi_path info) (split s_comma inp) ops /\ cp_loop ord use_blas out d (pi_path info) (list_to_set <$> split s_comma inp) (split s_comma inp) (shape <$> ops) = Ok steps /\
      pi_contractions info = fst <$> steps /\ pi_scale_list info = (s_scale ∘ snd) <$> steps /\ pi_eq info = inp ++ s_arrow ++ out /\
      contract_path_parsed ord use_blas opt mem inp out (shape <$> ops) = Ok info.
  Proof.
    intros Hp Hcm Hi Hg Hc. pose proof (parse_guarantees _ _ _ _ Hp) as (Hnd & Hsub & Hlen & Hpl). rewrite fmap_length in Hlen.
    set (ts := split s_comma inp) in *. set (tops := zip ts ops) in *.
    assert (Hout : forall c, c ∈ out -> c ∈ labels_of tops).
    { intros c Hco. apply elem_labels_zip; [done|]. apply Hsub in Hco as Hci. rewrite <-(join_split1 c_comma inp) in Hci.
      apply elem_of_join in Hci as [Hci|?]; [|done]. apply elem_of_list_singleton in Hci. congruence. }
    unfold contract_path in Hi. rewrite Hp in Hi. cbn [mbind res_bind] in Hi. pose proof Hi as Hi0.
    unfold contract_path_parsed in Hi. fold ts in Hi. apply bind_Ok in Hi as (d & Hd & Hi). apply bind_Ok in Hi as (sl & _ & Hi). apply bind_Ok in Hi as (m & _ & Hi). apply bind_Ok in Hi as (naive & _ & Hi).
    apply bind_Ok in Hi as (p & _ & Hi). apply bind_Ok in Hi as (steps & Hs & Hi). apply bind_Ok in Hi as (ps & _ & Hi). apply Ok_inj in Hi as <-. cbn [pi_path pi_contractions pi_scale_list pi_eq] in *.
    exists d, steps. split; [|done]. destruct Hc as [Hne Hruns].
    pose proof (build_size_dict_spec ts (shape <$> ops)) as Hb. rewrite Hd in Hb. destruct Hb as [_ Hb]. rewrite sh_axes_ops in Hb. fold tops in Hb.
    split; try done; [by rewrite Hlen|]. intros c Hcl. pose proof Hg as [Hr Hco _ _]. rewrite (sizes_of_dim d ts ops) by done. eauto.
  Qed.
End Path.

(** The equation recorded for a step gives, from the arrays it takes, the array put at the end; and after every step the equation that remains gives the result from the arrays then held.
    It is recorded if there are at most 20 of them (contract.py 400-403); after the last step it is the output alone. *)
Theorem C68_rows (K : semiring) (B : backend K) (ord : gset N -> list N) (use_blas : bool) (opt : optimize_arg) (mem : memory_arg) (s : str) (ops : list (tensor K)) (inp out : str) (info : path_info) (k : nat) (c : contraction) :
  backend_ok B -> (forall x, ord x ≡ₚ elements x) -> parse_einsum_input s (shape <$> ops) = Ok (inp, out) -> c_comma ∉ out ->
  let tops := zip (split s_comma inp) ops in good tops -> contract_path ord use_blas opt mem s (shape <$> ops) = Ok info -> complete (length ops) (pi_path info) -> info_fits B info ->
  pi_contractions info !! k = Some c ->
  exists held taken left T, held_after ord B ops (pi_contractions info) k = Ok held /\ pops (c_inds c) held = Ok (taken, left) /\ computes (c_eq c) taken T /\
    held_after ord B ops (pi_contractions info) (S k) = Ok (left ++ [T]) /\
    match c_remaining c with Some ts => length (left ++ [T]) <= 20 /\ continues ts out (left ++ [T]) (einsum tops out) /\ (S k = length (pi_contractions info) -> ts = [out]) | None => 20 < length (left ++ [T]) end.
Proof.
  intros HB Ho Hp Hcm tops Hg Hi Hc Hf Hk. destruct (path_loop ord use_blas opt mem s ops inp out info Hp Hcm Hi Hg Hc) as (d & steps & Hpre & Hcp & Ecl & Esc & _ & _). rewrite Ecl in *.
  assert (Hfits : Forall (step_fits B) steps).
  { unfold info_fits in Hf. rewrite Ecl, Esc in Hf. clear -Hf. induction steps as [|x l IH]; [constructor|]. rewrite !fmap_cons in Hf. apply Forall2_cons in Hf as [H1 H2]. constructor; [exact H1|by apply IH]. }
  destruct (loop_rows ord Ho B HB use_blas out d (pi_path info) (split s_comma inp) ops steps ops Hpre Hcp Hfits) with (k := k) (c := c) as (held & taken & left & T & H1 & H2 & H3 & H4 & ts & H5 & H6 & H7); [by apply Forall2_same_length_lookup_2; [|intros; simplify_eq]|done|].
  exists held, taken, left, T. do 4 (split; [done|]). rewrite H6. destruct H5 as [Hl Hv]. rewrite Hl. destruct (Nat.leb_spec (length (left ++ [T])) 20).
  - split; [done|]. split; [by split|]. intros E. apply H7. by rewrite E, fmap_length.
  - done.
Qed.
Print Assumptions C68_rows.

(** The report has ten lines and then one for each step, whose words are the number of labels, the kind of BLAS call, the equation of the step and the remaining equation. *)
Theorem C68_report (K : semiring) (ord : gset N -> list N) (use_blas : bool) (opt : optimize_arg) (mem : memory_arg) (s : str) (ops : list (tensor K)) (inp out : str) (info : path_info) :
  (forall x, ord x ≡ₚ elements x) -> parse_einsum_input s (shape <$> ops) = Ok (inp, out) -> c_comma ∉ out -> 10%N ∉ inp ->
  good (zip (split s_comma inp) ops) -> contract_path ord use_blas opt mem s (shape <$> ops) = Ok info -> complete (length ops) (pi_path info) ->
  exists rep heads rows, contract_path_repr ord use_blas opt mem s (shape <$> ops) = Ok rep /\ split [10%N] rep = heads ++ rows /\ length heads = 10 /\
    (exists n o, words <$> take 3 heads = [[lit "Complete"; lit "contraction:"; pi_eq info]; [lit "Naive"; lit "scaling:"; n]; [lit "Optimized"; lit "scaling:"; o]] /\
       writes n (size (list_to_set (mjoin (split s_comma inp)) : gset N)) /\ exists top, writes o top /\ (forall k, k ∈ pi_scale_list info -> k <= top) /\ (top ∈ pi_scale_list info \/ top = 0)) /\
    (exists n o q l, words <$> take 4 (drop 3 heads) = [[lit "Naive"; lit "FLOP"; lit "count:"; n]; [lit "Optimized"; lit "FLOP"; lit "count:"; o]; [lit "Theoretical"; lit "speedup:"; q]; [lit "Largest"; lit "intermediate:"; l; lit "elements"]] /\
       about (inject_Z (Z.of_nat (pi_naive_cost info))) (1 # 2000) n /\ about (inject_Z (Z.of_nat (pi_opt_cost info))) (1 # 2000) o /\
       about (inject_Z (Z.of_nat (pi_naive_cost info)) / inject_Z (Z.of_nat (pi_opt_cost info `max` 1))) (1 # 1999) q /\ about (inject_Z (Z.of_nat (pi_largest info))) (1 # 2000) l) /\
    words <$> drop 7 heads = [[replicate 80 c_dash]; [lit "scaling"; lit "BLAS"; lit "current"; lit "remaining"]; [replicate 80 c_dash]] /\
    Forall2 (fun line x => exists a b d, words line = [a; b; c_eq x.1; d] /\ writes a x.2 /\ kind_name (c_blas x.1) b /\ match c_remaining x.1 with Some ts => d = equation ts out | None => d = lit "..." end /\
                           (length a <= 4 -> length (c_eq x.1) <= 22 -> length d <= 34 -> length line = 80)) rows (zip (pi_contractions info) (pi_scale_list info)) /\
    length rows = length (pi_contractions info).
Proof.
  intros Ho Hp Hcm Hnl Hg Hi Hc. destruct (path_loop ord use_blas opt mem s ops inp out info Hp Hcm Hi Hg Hc) as (d & steps & Hpre & Hcp & Ecl & Esc & Heq & Hpp).
  pose proof (parse_guarantees _ _ _ _ Hp) as (_ & Hsub & _ & Hpl). set (ts := split s_comma inp) in *.
  assert (Hlen : length (pi_contractions info) = length (pi_scale_list info)) by (by rewrite Ecl, Esc, !fmap_length).
  assert (Hfree : forall t c, t ∈ ts -> c ∈ t -> c ∈ inp) by (intros t c Ht Hct; rewrite <-(join_split1 c_comma inp); by eapply elem_of_join_2).
  assert (Hsp : c_space ∉ inp).
  { intros Hs. rewrite <-(join_split1 c_comma inp) in Hs. apply elem_of_join in Hs as [Hs|(t & Ht & Hs)]; [by apply elem_of_list_singleton in Hs|].
    by destruct (plain_in ts t c_space Hpl Ht Hs) as (_ & _ & _ & _ & ?). }
  assert (Hclean : forall c0, c0 ∉ inp -> c0 <> c_comma -> c0 <> c_dash -> c0 <> c_gt -> c0 <> c_dot -> Forall (row_clean c0 out) (pi_contractions info)).
  { intros c0 H0 H1 H2 H3 H4. assert (Hts : Forall (Forall (.≠ c0)) ts).
    { apply Forall_forall. intros t Ht. apply Forall_forall. intros c Hct ->. by apply H0, (Hfree t). }
    pose proof (loop_chars ord Ho (ref_backend K true) (ref_backend_ok K true) use_blas out d (.≠ c0) (pi_path info) ts ops steps Hpre Hcp Hts) as Hch. rewrite Ecl. apply Forall_fmap. eapply Forall_impl; [exact Hch|].
    intros x [(es & r & Ex & Hes) Hrem]. cbn. split; [rewrite Ex; by apply equation_free|]. destruct (c_remaining x.1) as [l|]; [|change (c0 ∉ [c_dot; c_dot; c_dot]); rewrite !elem_of_cons, elem_of_nil; tauto].
    apply (equation_free c0 l out); [done..|]. constructor; [|by destruct Hrem]. apply Forall_forall. intros c Hco ->. by apply H0, Hsub. }
  assert (Hne : Forall (fun x => c_eq x <> []) (pi_contractions info)).
  { pose proof (loop_chars ord Ho (ref_backend K true) (ref_backend_ok K true) use_blas out d (fun _ => True) (pi_path info) ts ops steps Hpre Hcp) as Hch. rewrite Ecl. apply Forall_fmap. eapply Forall_impl; [apply Hch|].
    - apply Forall_forall. intros t _. by apply Forall_forall.
    - intros x [(es & r & Ex & _) _]. cbn. rewrite Ex. apply equation_ne. }
  set (n := size (list_to_set (replace s_comma [] inp) : gset N)). exists (join newline (head_lines n info ++ the_rows out info)), (head_lines n info), (the_rows out info).
  split; [unfold contract_path_repr; rewrite Hp; cbn [mbind res_bind]; rewrite Hpp; cbn [mbind res_bind]; by apply repr_lines|].
  pose proof (int_about (pi_naive_cost info)) as A1. pose proof (int_about (pi_opt_cost info)) as A2. pose proof (ratio_about (pi_naive_cost info) (pi_opt_cost info `max` 1) ltac:(lia)) as A3. pose proof (int_about (pi_largest info)) as A4.
  fold (speedup info) in A3.
  assert (Heq10 : forall c0, c0 ∉ inp -> c0 <> c_dash -> c0 <> c_gt -> c0 ∉ pi_eq info).
  { intros c0 H0 H1 H2. rewrite Heq, !elem_of_app. unfold s_arrow. rewrite elem_of_cons, elem_of_list_singleton. intros [?|[[?|?]|?]]; try done. by apply H0, Hsub. }
  split; [|split; [done|]].
  { apply (split1_join 10%N); [done|]. apply Forall_app. split.
    - assert (Hap : forall l s : str, 10%N ∉ l -> 10%N ∉ s -> 10%N ∉ l ++ s) by (intros l s0 H1 H2; rewrite elem_of_app; tauto).
      assert (Hlit : forall l : str, bool_decide (10%N ∉ l) = true -> 10%N ∉ l) by (intros l; apply bool_decide_eq_true).
      assert (Hdg : ~ digit 10%N) by (unfold digit; lia).
      unfold head_lines. apply Forall_cons. split; [apply Hap; [apply Hlit; by vm_compute|]; apply Heq10; [done|by unfold c_dash|by unfold c_gt]|].
      apply Forall_cons. split; [apply Hap; [apply Hlit; by vm_compute|by apply decimal_free]|]. apply Forall_cons. split; [apply Hap; [apply Hlit; by vm_compute|by apply decimal_free]|].
      apply Forall_cons. split; [apply Hap; [apply Hlit; by vm_compute|by eapply about_lines]|]. apply Forall_cons. split; [apply Hap; [apply Hlit; by vm_compute|by eapply about_lines]|].
      apply Forall_cons. split; [apply Hap; [apply Hlit; by vm_compute|by eapply about_lines]|].
      apply Forall_cons. split; [apply Hap; [apply Hlit; by vm_compute|]; apply Hap; [by eapply about_lines|apply Hlit; by vm_compute]|].
      apply Forall_cons. split; [apply Hlit; by vm_compute|]. apply Forall_cons. split; [apply Hlit; by vm_compute|]. apply Forall_cons. split; [apply Hlit; by vm_compute|constructor].
    - unfold the_rows. apply Forall_lookup. intros i l Hl. apply lookup_zip_with_Some in Hl as (x & sc & -> & Hx & _). apply row_lines.
      assert (H10 : Forall (row_clean 10%N out) (pi_contractions info)) by (by apply Hclean). rewrite Forall_lookup in H10. by eapply H10. }
  assert (Hpre' : forall pre pre' w : str, pre = pre' ++ [c_space] -> c_space ∉ w -> w <> [] -> words (pre ++ w) = words pre' ++ [w]).
  { intros pre pre' w -> H1 H2. rewrite <-app_assoc. cbn [app]. by rewrite words_space, (words_one w). }
  assert (Hab : forall v r w, about v r w -> c_space ∉ w /\ w <> []).
  { intros v r w (m & x & Hr & _). split; [apply (reads_free w m x c_space Hr); unfold digit, c_space, c_dot; lia|]. by destruct Hr as (? & ? & ? & ? & ? & ? & -> & _). }
  assert (Hdec : forall m, c_space ∉ decimal m /\ decimal m <> []) by (intros m; split; [apply decimal_free; unfold digit, c_space; lia|apply decimal_ne]).
  destruct (Hab _ _ _ A1) as [B1 B1']. destruct (Hab _ _ _ A2) as [B2 B2']. destruct (Hab _ _ _ A3) as [B3 B3']. destruct (Hab _ _ _ A4) as [B4 B4'].
  split; [|split; [|split; [|split]]].
  - exists (decimal (N.of_nat n)), (decimal (N.of_nat (match pi_scale_list info with [] => 0 | l => max_list' l end))). split; [|split].
    2:{ pose proof (decimal_writes n) as Hw. unfold n in Hw at 2. unfold replace in Hw. by rewrite join_mjoin in Hw. }
    2:{ eexists. split; [apply decimal_writes|]. destruct (pi_scale_list info) as [|k0 kl]; [split; [intros k Hk; by apply elem_of_nil in Hk|by right]|]. split; [intros k; apply max_list'_ge|left; by apply max_list'_in]. }
    unfold head_lines. cbn [take fmap list_fmap].
    rewrite (Hpre' (lit "  Complete contraction:  ") (lit "  Complete contraction: ") (pi_eq info) ltac:(by vm_compute)); [|apply Heq10; [done|by unfold c_dash|by unfold c_gt]|rewrite Heq; by destruct inp].
    rewrite (Hpre' (lit "         Naive scaling:  ") (lit "         Naive scaling: ") _ ltac:(by vm_compute)) by apply Hdec.
    rewrite (Hpre' (lit "     Optimized scaling:  ") (lit "     Optimized scaling: ") _ ltac:(by vm_compute)) by apply Hdec.
    repeat f_equal.
  - eexists _, _, _, _. split; [|split; [exact A1|]; split; [exact A2|]; split; [exact A3|exact A4]]. unfold head_lines. cbn [take drop fmap list_fmap].
    rewrite (Hpre' (lit "      Naive FLOP count:  ") (lit "      Naive FLOP count: ") _ ltac:(by vm_compute)) by done.
    rewrite (Hpre' (lit "  Optimized FLOP count:  ") (lit "  Optimized FLOP count: ") _ ltac:(by vm_compute)) by done.
    rewrite (Hpre' (lit "   Theoretical speedup:  ") (lit "   Theoretical speedup: ") _ ltac:(by vm_compute)) by done.
    change (lit " elements") with (c_space :: lit "elements"). rewrite app_assoc, words_space.
    rewrite (Hpre' (lit "  Largest intermediate:  ") (lit "  Largest intermediate: ") _ ltac:(by vm_compute)) by done. repeat f_equal.
  - done.
  - unfold the_rows. assert (Hcs : Forall (row_clean c_space out) (pi_contractions info)) by (by apply Hclean). clear -Hlen Hcs Hne. revert Hlen. generalize (pi_scale_list info). generalize dependent (pi_contractions info).
    induction l as [|x l IH]; intros H1 H2 scs Hl; destruct scs as [|sc scs]; try discriminate Hl; [constructor|]. apply Forall_cons in H1 as [H1 H1']. apply Forall_cons in H2 as [H2 H2'].
    cbn [zip zip_with]. constructor; [eexists _, _, _; split; [by apply row_words|]; split; [apply decimal_writes|]; split; [apply kind_shown|]; cbn [fst snd]; split; [by destruct (c_remaining x)|]; apply row_length|]. apply IH; [done|done|simpl in Hl; lia].
  - unfold the_rows. rewrite zip_with_length. lia.
Qed.
Print Assumptions C68_report.

(** The hypotheses hold for "ab,bc,cd->da" with the path [(1, 2), (0, 1)]. *)
Example C68_instance : exists info inp out, parse_einsum_input ex2_str (shape <$> ex2_ops) = Ok (inp, out) /\ c_comma ∉ out /\ 10%N ∉ inp /\ good (zip (split s_comma inp) ex2_ops) /\
  contract_path ord0 true (OPath [[1; 2]; [0; 1]]) MNone ex2_str (shape <$> ex2_ops) = Ok info /\ complete (length ex2_ops) (pi_path info) /\ info_fits (ref_backend nat_semiring true) info /\
  (c_eq <$> pi_contractions info) = [lit "cd,bc->db"; lit "db,ab->da"] /\ (c_remaining <$> pi_contractions info) = [Some [lit "ab"; lit "db"]; Some [lit "da"]].
Proof.
  destruct (contract_path ord0 true (OPath [[1; 2]; [0; 1]]) MNone ex2_str (shape <$> ex2_ops)) as [info|] eqn:E; [|by vm_compute in E].
  exists info, (lit "ab,bc,cd"), (lit "da"). split; [by vm_compute|]. split; [by apply (bool_decide_unpack _); vm_compute|]. split; [by apply (bool_decide_unpack _); vm_compute|].
  split; [apply good_check_ok; by vm_compute|]. split; [done|]. vm_compute in E. injection E as <-. cbn [pi_path pi_contractions]. split; [|split; [|by vm_compute]].
  - apply complete_check. by vm_compute.
  - unfold info_fits. simpl. constructor; [split; left; by vm_compute|]. constructor; [split; left; by vm_compute|constructor].
Qed.
(** And its report. *)
Example C68_instance_report : (rep ← contract_path_repr ord0 true (OPath [[1; 2]; [0; 1]]) MNone ex2_str (shape <$> ex2_ops); Ok (split [10%N] rep)) = Ok
  [lit "  Complete contraction:  ab,bc,cd->da"; lit "         Naive scaling:  4"; lit "     Optimized scaling:  3"; lit "      Naive FLOP count:  7.200e+1"; lit "  Optimized FLOP count:  4.800e+1"; lit "   Theoretical speedup:  1.500e+0"; lit "  Largest intermediate:  6.000e+0 elements"; dashes; lit "scaling        BLAS                current                             remaining"; dashes; lit "   3           GEMM              cd,bc->db                             ab,db->da"; lit "   3           GEMM              db,ab->da                                da->da"].
Proof. by vm_compute. Qed.
(** Numbers as Python shows them: 99995, 10005, 10015, 0 and quotients. *)
Example C68_instance_numbers : format_3e (Dec 99995 0) = lit "1.000e+5" /\ format_3e (Dec 10005 0) = lit "1.000e+4" /\ format_3e (Dec 10015 0) = lit "1.002e+4" /\ format_3e (Dec 0 0) = lit "0.000e+3" /\
  format_3e (dec_div (Dec 1 0) (Dec 3 0)) = lit "3.333e-1" /\ format_3e (dec_div (Dec 2 0) (Dec 3000 0)) = lit "6.667e-4" /\ format_3e (dec_div (Dec (10 ^ 40) 0) (Dec 7 0)) = lit "1.429e+39".
Proof. by vm_compute. Qed.
