(** Property C69: what expressions print ([ContractExpression.__repr__] and [__str__], contract.py 907-921); statements, each with a concrete instance. *)
From stdpp Require Import sorting.
From Verif Require Import Prelude Einsum EinsumFacts Parser Helpers Contract Spec StringFacts StepFacts ContractFacts TopFacts RefBackend PropsContract Expression ExprSpec ExprMain PropsExpr Api ApiSpec FormatFacts
  ReportSpec ResumeFacts Report ReportNumbers ReportFacts PropsReport ExprReport.
Local Open Scope nat_scope.

Lemma scan_plain s : no_brackets s -> forall cur, c_comma ∉ cur -> scan false false cur s = imap (fun _ t => (false, t)) (split s_comma (cur ++ s)).
Proof.
  induction s as [|c s IH]; intros [H1 H2] cur Hc; unfold s_comma in *.
  - rewrite app_nil_r, (split1_no c_comma cur Hc). done.
  - apply not_elem_of_cons in H1 as [H1 H1'], H2 as [H2 H2']. cbn [scan]. rewrite (decide_False (P := c = c_open)), (decide_False (P := c = c_close)) by congruence. destruct (decide (c = c_comma)) as [->|Hne].
    + rewrite (split1_app c_comma cur s Hc), imap_cons. f_equal. rewrite (IH (conj H1' H2') [] (not_elem_of_nil _)). done.
    + rewrite (IH (conj H1' H2') (cur ++ [c])); [by rewrite <-app_assoc|]. rewrite elem_of_app, elem_of_list_singleton. intuition congruence.
Qed.

(** [repr(expression)] shows the equation, the terms of the constants in brackets, and the positions of the constants in increasing order. *)
Theorem C69_repr (lhs : str) (out : option str) (constants : list nat) :
  let s := lhs ++ match out with None => [] | Some o => s_arrow ++ o end in
  no_brackets s -> c_dash ∉ lhs -> c_dash ∉ default [] out ->
  exists l tail shown, expression_repr s constants = Ok (lit "<ContractExpression('" ++ l ++ tail ++ lit "'" ++ shown ++ lit ")>") /\ drop_brackets (l ++ tail) = s /\ tail = match out with None => [] | Some o => s_arrow ++ o end /\
    scan false false [] l = imap (fun i t => (bool_decide (i ∈ constants), t)) (split s_comma lhs) /\
    ((constants = [] /\ shown = []) \/
     exists k ks, shown = lit ", constants=[" ++ join (lit ", ") (k :: ks) ++ lit "]" /\ StronglySorted N.lt (numeral <$> k :: ks) /\ Forall (Forall digit) (k :: ks) /\ forall i, i ∈ constants <-> N.of_nat i ∈ numeral <$> k :: ks).
Proof.
  intros s Hb Hl Ho. set (tail := match out with None => [] | Some o => s_arrow ++ o end) in *.
  destruct (decide (constants = [])) as [->|Hne].
  - exists lhs, tail, []. unfold expression_repr. cbn [remove_dups]. rewrite decide_True by done. split; [|split; [|split; [done|split; [|by left]]]].
    + change (format_const_einsum_str s []) with (Ok s). cbn [mbind res_bind app]. unfold s. by rewrite <-!app_assoc.
    + destruct Hb as [Hb1 Hb2]. unfold drop_brackets. fold s. clear -Hb1 Hb2. induction s as [|c s IH]; [done|]. apply not_elem_of_cons in Hb1 as [? ?], Hb2 as [? ?]. rewrite filter_cons_True by (split; congruence). by rewrite IH.
    + rewrite scan_plain; [|destruct Hb as [Hb1 Hb2]; unfold s in *; split; [by apply not_elem_of_app in Hb1 as [? _]|by apply not_elem_of_app in Hb2 as [? _]]|apply not_elem_of_nil]. apply imap_ext. intros i t _. by rewrite bool_decide_false by apply not_elem_of_nil.
  - assert (Hd : remove_dups constants <> []).
    { intros E. destruct constants as [|c cs]; [done|]. assert (H : c ∈ remove_dups (c :: cs)) by (apply elem_of_remove_dups; left). rewrite E in H. by apply elem_of_nil in H. }
    destruct (format_ok lhs out (remove_dups constants) Hb Hl Ho Hd) as (r & Hr & Hdrop & Hscan). fold tail in Hr, Hdrop. fold s in Hr, Hdrop.
    exists r, tail, (lit ", constants=" ++ list_show (merge_sort le (remove_dups constants))). split; [|split; [done|split; [done|split; [|right]]]].
    + unfold expression_repr. rewrite Hr. cbn [mbind res_bind]. rewrite decide_False by done. by rewrite <-!app_assoc.
    + rewrite Hscan. apply imap_ext. intros i t _. f_equal. apply bool_decide_ext. apply elem_of_remove_dups.
    + set (l := merge_sort le (remove_dups constants)). assert (Hp : l ≡ₚ remove_dups constants) by apply merge_sort_Permutation.
      assert (Hs : StronglySorted le l) by (apply (StronglySorted_merge_sort le)).
      assert (Hnd : NoDup l) by (rewrite Hp; apply NoDup_remove_dups).
      assert (Hlt : StronglySorted N.lt (N.of_nat <$> l)).
      { clear -Hs Hnd. induction Hs as [|x l Hs IH Hf]; [constructor|]. apply NoDup_cons in Hnd as [Hx Hnd]. rewrite fmap_cons. constructor; [by apply IH|]. apply Forall_fmap, Forall_forall. intros y Hy. simpl.
        rewrite Forall_forall in Hf. specialize (Hf y Hy). assert (x <> y) by (by intros ->). lia. }
      assert (Hnum : numeral <$> ((fun n => decimal (N.of_nat n)) <$> l) = N.of_nat <$> l).
      { rewrite <-list_fmap_compose. apply list_fmap_ext. intros i x _. simpl. apply numeral_decimal. }
      destruct ((fun n => decimal (N.of_nat n)) <$> l) as [|k ks] eqn:E.
      * apply fmap_nil_inv in E. exfalso. rewrite E in Hp. apply Hd. by apply Permutation_nil.
      * exists k, ks. split; [|split; [|split]].
        -- unfold list_show. rewrite E. done.
        -- rewrite Hnum. exact Hlt.
        -- rewrite <-E. apply Forall_fmap, Forall_forall. intros n _. simpl. apply decimal_digits.
        -- intros i. rewrite Hnum. rewrite elem_of_list_fmap. split.
           ++ intros Hi. exists i. split; [done|]. rewrite Hp. by apply elem_of_remove_dups.
           ++ intros (j & Hj & Hin). apply Nat2N.inj in Hj as ->. rewrite Hp, elem_of_remove_dups in Hin. exact Hin.
Qed.
Print Assumptions C69_repr.

(** What is left of the steps after the constant ones were done. *)
Lemma constants_suffix {K : semiring} (ord : gset N -> list N) (B : backend K) cl : forall ops ops' cl', core_constants ord B ops cl = Ok (ops', cl') -> exists d, cl = d ++ cl'.
Proof.
  induction cl as [|c cl IH]; intros ops ops' cl' H; [done|]. cbn [core_constants] in H. apply bind_Ok in H as (stop & _ & H). destruct stop; [apply Ok_inj in H; simplify_eq; by exists []|].
  apply bind_Ok in H as ([tmp rest] & _ & H). apply bind_Ok in H as (tmp' & _ & H). apply bind_Ok in H as (v & _ & H). apply IH in H as (d & ->). by exists (c :: d).
Qed.

Lemma lines_of (r kw : str) (cl : list contraction) : forall i, 10%N ∉ r -> 10%N ∉ kw -> Forall (fun c => 10%N ∉ c_eq c) cl ->
  split [10%N] (r ++ mjoin (imap (fun k c => step_show (i + k) c kw) cl)) =
  r :: mjoin (imap (fun k c => [lit "  " ++ decimal (N.of_nat (i + k + 1)) ++ lit ".  '" ++ c_eq c ++ lit "'" ++ (if decide (c_blas c = BFalse) then [] else lit " [" ++ blas_show (c_blas c) ++ lit "]"); lit "einsum_kwargs=" ++ kw]) cl).
Proof.
  revert r. induction cl as [|c cl IH]; intros r i Hr Hk Hc; [cbn [imap mjoin list_join]; rewrite app_nil_r; by apply split1_no|].
  apply Forall_cons in Hc as [Hc Hcl]. rewrite !imap_cons. cbn [mjoin list_join].
  set (l1 := lit "  " ++ decimal (N.of_nat (i + 0 + 1)) ++ lit ".  '" ++ c_eq c ++ lit "'" ++ (if decide (c_blas c = BFalse) then [] else lit " [" ++ blas_show (c_blas c) ++ lit "]")).
  set (l2 := lit "einsum_kwargs=" ++ kw).
  assert (E : step_show (i + 0) c kw = 10%N :: l1 ++ 10%N :: l2).
  { unfold step_show, l1, l2, newline. change (lit ".  '") with (lit ".  " ++ lit "'"). by rewrite <-!app_assoc. }
  rewrite E. assert (H1 : 10%N ∉ l1).
  { assert (Hlit : forall l : str, bool_decide (10%N ∉ l) = true -> 10%N ∉ l) by (intros l; apply bool_decide_eq_true).
    assert (Hap : forall l s : str, 10%N ∉ l -> 10%N ∉ s -> 10%N ∉ l ++ s) by (intros l s0 ? ?; rewrite elem_of_app; tauto).
    unfold l1. apply Hap; [by apply Hlit; vm_compute|]. apply Hap; [apply decimal_free; unfold digit; lia|]. apply Hap; [by apply Hlit; vm_compute|]. apply Hap; [done|]. apply Hap; [by apply Hlit; vm_compute|].
    clear -Hlit. destruct (c_blas c); simpl; by apply Hlit; vm_compute. }
  cbn [app]. rewrite <-app_assoc. cbn [app]. rewrite (split1_app 10%N r _ Hr), (split1_app 10%N l1 _ H1).
  do 2 f_equal. etrans; [|etrans; [apply (IH l2 (S i))|]].
  - do 3 f_equal. apply imap_ext. intros k x _. simpl. f_equal. lia.
  - unfold l2. rewrite elem_of_app. intros [H|H]; [|done]. revert H. by apply (bool_decide_unpack _); vm_compute.
  - done.
  - done.
  - f_equal. f_equal. apply imap_ext. intros k x _. simpl. do 4 f_equal. f_equal. lia.
Qed.

(** [str(expression)] after any history of calls: the line of [repr], and for every step that calls still do, in order, its number, equation and kind of BLAS call, followed by the keyword arguments.
    Full statement: the keyword arguments are shown once (false, see below). *)
Theorem C69_str_partial (K : semiring) (ord : gset N -> list N) (lib : str -> library K) (use_blas : bool) (opt : optimize_arg) (mem : memory_arg) (s inp out kw r : str) (args : list (operand_arg K)) (ops : list (tensor K)) (constants : list nat)
    (info : path_info) (x0 : expression K) (h : list (event K)) :
  (forall x, ord x ≡ₚ elements x) -> arg_shape <$> args = shape <$> ops -> parse_einsum_input s (shape <$> ops) = Ok (inp, out) -> c_comma ∉ out -> 10%N ∉ inp -> 10%N ∉ r -> 10%N ∉ kw -> good (zip (split s_comma inp) ops) ->
  contract_path ord use_blas opt mem s (shape <$> ops) = Ok info -> complete (length ops) (pi_path info) -> contract_expression ord use_blas opt mem s args constants = Ok x0 -> expression_repr s constants = Ok r ->
  let x := after ord lib x0 h in
  exists finished txt, pi_contractions info = finished ++ x_list x /\ expression_str s constants kw (x_list x) = Ok txt /\
    length (split [10%N] txt) = 1 + 2 * length (x_list x) /\ split [10%N] txt !! 0 = Some r /\
    forall k c, x_list x !! k = Some c -> exists line, split [10%N] txt !! (2 * k + 1) = Some line /\ split [10%N] txt !! (2 * k + 2) = Some (lit "einsum_kwargs=" ++ kw) /\
      exists number name, writes number (k + 1) /\ kind_name (c_blas c) name /\
        words line = [number ++ lit "."; lit "'" ++ c_eq c ++ lit "'"] ++ (if decide (c_blas c = BFalse) then [] else [lit "[" ++ name ++ lit "]"]).
Proof.
  intros Ho Ha Hp Hcm Hnl Hr Hkw Hg Hi Hc Hx0 Hrep x. destruct (path_loop ord use_blas opt mem s ops inp out info Hp Hcm Hi Hg Hc) as (d & steps & Hpre & Hcp & Ecl & Esc & _ & _).
  pose proof (parse_guarantees _ _ _ _ Hp) as (_ & _ & _ & Hpl). set (ts := split s_comma inp) in *.
  assert (Hfull : x_full x0 = pi_contractions info /\ x_list x0 = pi_contractions info /\ x_evaluated x0 = ∅).
  { unfold contract_expression in Hx0. rewrite Ha in Hx0. destruct opt as [|[|s1 p1]|f]; try discriminate; apply bind_Ok in Hx0 as (m & _ & Hx0); rewrite Hi in Hx0; cbn [mbind res_bind] in Hx0; apply Ok_inj in Hx0 as <-; done. }
  destruct Hfull as (F1 & F2 & F3).
  assert (Hinv : inv ord lib x0 x). { apply after_inv. split; [done|]. split; [done|]. split; [done|]. rewrite F3. split; [intros b o H; by rewrite lookup_empty in H|]. by rewrite F1, F2. }
  assert (Hsuf : exists fin, pi_contractions info = fin ++ x_list x).
  { destruct Hinv as (_ & _ & _ & I4 & I5). destruct (decide (x_evaluated x = ∅)) as [E|E]; [exists []; by rewrite I5, F1|]. apply map_choose in E as (b & o & Hb). apply I4 in Hb. rewrite F1 in Hb. by apply constants_suffix in Hb. }
  destruct Hsuf as (fin & Hfin).
  assert (Hsp : c_space ∉ inp).
  { intros Hs. rewrite <-(join_split1 c_comma inp) in Hs. apply elem_of_join in Hs as [Hs|(t & Ht & Hs)]; [by apply elem_of_list_singleton in Hs|]. by destruct (plain_in ts t c_space Hpl Ht Hs) as (_ & _ & _ & _ & ?). }
  assert (Hfree : forall t c, t ∈ ts -> c ∈ t -> c ∈ inp) by (intros t c Ht Hct; rewrite <-(join_split1 c_comma inp); by eapply elem_of_join_2).
  assert (Hclean : forall c0, c0 ∉ inp -> c0 <> c_comma -> c0 <> c_dash -> c0 <> c_gt -> Forall (fun c => c0 ∉ c_eq c) (x_list x)).
  { intros c0 H0 H1 H2 H3. assert (Hts : Forall (Forall (.≠ c0)) ts). { apply Forall_forall. intros t Ht. apply Forall_forall. intros c Hct ->. by apply H0, (Hfree t). }
    pose proof (loop_chars ord Ho (ref_backend K true) (ref_backend_ok K true) use_blas out d (.≠ c0) (pi_path info) ts ops steps Hpre Hcp Hts) as Hch.
    assert (Hall : Forall (fun c => c0 ∉ c_eq c) (pi_contractions info)).
    { rewrite Ecl. apply Forall_fmap. eapply Forall_impl; [exact Hch|]. intros y [(es & r0 & Ex & Hes) _]. cbn. rewrite Ex. by apply equation_free. }
    rewrite Hfin in Hall. by apply Forall_app in Hall as [_ ?]. }
  assert (H10 : Forall (fun c => 10%N ∉ c_eq c) (x_list x)) by (by apply Hclean). assert (H32 : Forall (fun c => c_space ∉ c_eq c) (x_list x)) by (by apply Hclean).
  exists fin, (r ++ mjoin (imap (fun i c => step_show i c kw) (x_list x))). split; [done|]. split; [unfold expression_str; by rewrite Hrep|].
  pose proof (lines_of r kw (x_list x) 0 Hr Hkw H10) as HL. cbn [Nat.add] in HL. rewrite HL. clear HL.
  set (f := fun (k : nat) (c : contraction) => _ : list str). 
  assert (Hlen : forall l g, (forall k c, length (g k c : list str) = 2) -> length (mjoin (imap g l) : list str) = 2 * length (l : list contraction)).
  { intros l. induction l as [|c l IH]; intros g Hg2; [done|]. rewrite imap_cons. cbn [mjoin list_join]. rewrite app_length, Hg2, IH; [cbn [length]; lia|]. intros. apply Hg2. }
  assert (Hget : forall l (g : nat -> contraction -> list str) k c j, (forall k c, length (g k c) = 2) -> l !! k = Some c -> j < 2 -> mjoin (imap g l) !! (2 * k + j) = g k c !! j).
  { intros l. induction l as [|c l IH]; intros g k c' j Hg2 Hk Hj; [done|]. rewrite imap_cons. cbn [mjoin list_join]. destruct k as [|k].
    - simpl in Hk. simplify_eq. rewrite lookup_app_l; [f_equal; lia|]. rewrite Hg2. lia.
    - rewrite lookup_app_r by (rewrite Hg2; lia). rewrite Hg2. replace (2 * S k + j - 2) with (2 * k + j) by lia. apply (IH (fun i => g (S i)) k c' j); [intros; apply Hg2|done|done]. }
  split; [cbn [length]; rewrite (Hlen (x_list x) f); [lia|done]|]. split; [done|]. intros k c Hk.
  assert (Hl2 : forall k c, length (f k c) = 2) by done.
  exists (lit "  " ++ decimal (N.of_nat (k + 1)) ++ lit ".  '" ++ c_eq c ++ lit "'" ++ (if decide (c_blas c = BFalse) then [] else lit " [" ++ blas_show (c_blas c) ++ lit "]")).
  split; [|split].
  - replace (2 * k + 1) with (S (2 * k + 0)) by lia. etrans; [exact (Hget (x_list x) f k c 0 Hl2 Hk ltac:(lia))|done].
  - replace (2 * k + 2) with (S (2 * k + 1)) by lia. etrans; [exact (Hget (x_list x) f k c 1 Hl2 Hk ltac:(lia))|done].
  - exists (decimal (N.of_nat (k + 1))), (blas_show (c_blas c)). split; [apply decimal_writes|]. split; [apply kind_shown|].
    rewrite Forall_lookup in H32. specialize (H32 k c Hk). clear -H32. change (lit "  ") with [c_space; c_space]. cbn [app]. rewrite !words_cons. change (lit ".  '") with (lit "." ++ c_space :: c_space :: lit "'").
    rewrite <-!app_assoc. cbn [app]. rewrite app_assoc. rewrite words_space, words_cons.
    rewrite (words_one (decimal (N.of_nat (k + 1)) ++ lit ".")); [|rewrite elem_of_app; intros [H|H]; [revert H; apply decimal_free; unfold digit, c_space; lia|by apply elem_of_list_singleton in H]|by destruct (decimal (N.of_nat (k + 1)))].
    cbn [app]. f_equal. set (q := lit "'" ++ c_eq c ++ lit "'"). assert (Hq : c_space ∉ q /\ q <> []).
    { split; [|done]. unfold q. rewrite !elem_of_app. intros [H|[H|H]]; [by apply elem_of_list_singleton in H|done|by apply elem_of_list_singleton in H]. }
    destruct Hq as [Hq1 Hq2]. rewrite app_assoc, (app_assoc (lit "'" ++ c_eq c)). rewrite <-(app_assoc (lit "'")). fold q. clearbody q.
    destruct (c_blas c); simpl; [by rewrite app_nil_r, (words_one q)| | | | | |]; change (lit " [") with (c_space :: lit "["); cbn [app]; rewrite words_space, (words_one q) by done; cbn [app]; f_equal; by vm_compute.
Qed.
Print Assumptions C69_str_partial.
(** "ab,bc,cd->da" with operands 1 and 2 constant: before the first call both steps are listed, afterwards the one that is left.  The hypotheses hold. *)
Example C69_instance : exists info inp out, arg_shape <$> ex_x_args = shape <$> ex_x_ops0 /\ parse_einsum_input ex_x_str (shape <$> ex_x_ops0) = Ok (inp, out) /\ c_comma ∉ out /\ 10%N ∉ inp /\
  good (zip (split s_comma inp) ex_x_ops0) /\ contract_path ord0 true (OPath [[1; 2]; [0; 1]]) MNone ex_x_str (shape <$> ex_x_ops0) = Ok info /\ complete (length ex_x_ops0) (pi_path info).
Proof.
  destruct (contract_path ord0 true (OPath [[1; 2]; [0; 1]]) MNone ex_x_str (shape <$> ex_x_ops0)) as [info|] eqn:E; [|by vm_compute in E].
  exists info, (lit "ab,bc,cd"), (lit "da"). split; [done|]. split; [by vm_compute|]. split; [by apply (bool_decide_unpack _); vm_compute|]. split; [by apply (bool_decide_unpack _); vm_compute|].
  split; [apply good_check_ok; by vm_compute|]. split; [done|]. assert (Hp : pi_path info = [[1; 2]; [0; 1]]).
  { change (pi_path info) with (match Ok info with Ok i => pi_path i | Err _ => [] end). rewrite <-E. by vm_compute. }
  rewrite Hp. apply complete_check. by vm_compute.
Qed.
Example C69_instance_text :
  (x0 ← contract_expression ord0 true (OPath [[1; 2]; [0; 1]]) MNone ex_x_str ex_x_args [2; 1];
   let x := after ord0 ex_lib x0 [ECall (lit "numpy") true (take 1 ex_x_ops0); ECall (lit "torch") true []] in
   before ← expression_str ex_x_str [2; 1] (lit "{}") (x_list x0); now ← expression_str ex_x_str [2; 1] (lit "{}") (x_list x); Ok (split [10%N] before, split [10%N] now)) =
  Ok ([lit "<ContractExpression('ab,[bc,cd]->da', constants=[1, 2])>"; lit "  1.  'cd,bc->db' [GEMM]"; lit "einsum_kwargs={}"; lit "  2.  'db,ab->da' [GEMM]"; lit "einsum_kwargs={}"],
      [lit "<ContractExpression('ab,[bc,cd]->da', constants=[1, 2])>"; lit "  1.  'db,ab->da' [GEMM]"; lit "einsum_kwargs={}"]).
Proof. by vm_compute. Qed.
(** The keyword arguments are shown after every step, not once. *)
Theorem C69_once_refuted : exists (x0 : expression nat_semiring) (txt : str), contract_expression ord0 true (OPath [[1; 2]; [0; 1]]) MNone ex_x_str ex_x_args [2; 1] = Ok x0 /\
  expression_str ex_x_str [2; 1] (lit "{}") (x_list x0) = Ok txt /\ length (filter (.= lit "einsum_kwargs={}") (split [10%N] txt)) = 2.
Proof. eexists _, _. split; [vm_compute; reflexivity|]. split; vm_compute; reflexivity. Qed.
Print Assumptions C69_once_refuted.
