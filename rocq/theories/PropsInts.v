(** Property C66: explicit paths of any integers; statements, each with a concrete instance. *)
From Verif Require Import Prelude Einsum EinsumFacts EinsumOps Parser Helpers Contract Spec PathSpec StringFacts SymbolFacts StepFacts ContractFacts PathFacts ParserFacts ParseSpec ParseProof ParseSound TopFacts ContractMain ArgFacts RefBackend PropsContract Expression IntPath IntPathSpec IntPathFacts.

Section Main.
  Context {K : semiring}.
  Variables (B : backend K) (ord : gset N -> list N) (e : eqn) (s : str) (ops : list (tensor K)).
  Hypothesis ord_ok : forall x, ord x ≡ₚ elements x.
  Hypothesis B_ok : backend_ok B.
  Hypothesis Hne : e_in e <> [].
  Hypothesis Hpl : plain_eqn e.
  Hypothesis Hs : filter (.≠ c_space) s = render e.
  Hypothesis Hwf : well_formed e (shape <$> ops).
  Notation tops := (zip (in_labels e (shape <$> ops)) ops).
  Lemma ints_ok use_blas p mem : good tops -> mem_valid mem -> p <> [] -> uses_up (length ops) p ->
    (~ positions_exist (length ops) p /\ z_contract_path ord use_blas p mem s (shape <$> ops) = Err IndexError) \/
    (positions_exist (length ops) p /\ exists steps, z_contract_path ord use_blas p mem s (shape <$> ops) = Ok steps /\
      (b_has_einsum B = true -> length (remove_dups (labels_of tops)) <= 52 -> Forall (z_step_fits B) steps) /\
      (Forall (z_step_fits B) steps -> exists T, z_core_contract ord B ops (fst <$> steps) = Ok T /\ T ≡ₜ einsum tops (out_labels e (shape <$> ops)))).
  Proof.
    intros Hgood Hmem Hp Hup. set (shapes := shape <$> ops) in *. set (g := name (fresh e shapes)). set (ts := fmap (M:=list) g <$> in_labels e shapes : list str). set (out := g <$> out_labels e shapes).
    assert (Hn1 : 1 <= length ops).
    { rewrite <-(fmap_length shape ops). fold shapes. rewrite <-(wf_count _ _ Hwf). destruct (e_in e); [done|]. simpl. lia. }
    destruct (contract_path_ok ord ord_ok B B_ok e s ops Hne Hpl Hs Hwf use_blas (OPath [seq 0 (length ops)]) mem Hgood Hmem) as (info & Hinfo & _ & _ & _ & Hdict & _); [by apply complete_all|].
    fold shapes g ts in Hdict. unfold contract_path in Hinfo. pose proof (parsed e s ops Hne Hpl Hs Hwf) as Hparse. fold shapes g ts out in Hparse. fold shapes in Hinfo. rewrite Hparse in Hinfo. cbn [mbind res_bind] in Hinfo. fold shapes g ts out in Hinfo. unfold contract_path_parsed in Hinfo.
    pose proof (ts_split e ops Hne Hpl Hwf) as Hsplit. fold shapes g ts in Hsplit. rewrite Hsplit in Hinfo.
    apply bind_Ok in Hinfo as (d & Hd & Hinfo). apply bind_Ok in Hinfo as (sl & Hsl & Hinfo). apply bind_Ok in Hinfo as (m & Hm & Hinfo). apply bind_Ok in Hinfo as (naive & Hnaive & Hinfo).
    apply bind_Ok in Hinfo as (p0 & _ & Hinfo). apply bind_Ok in Hinfo as (steps0 & _ & Hinfo). apply bind_Ok in Hinfo as (psh & Hpsh & Hinfo). apply Ok_inj in Hinfo. subst info. cbn [pi_size_dict] in Hdict.
    unfold z_contract_path. rewrite Hparse. cbn [mbind res_bind]. rewrite Hsplit, Hd. cbn [mbind res_bind]. rewrite Hsl. cbn [mbind res_bind]. rewrite Hm. cbn [mbind res_bind]. rewrite Hnaive. cbn [mbind res_bind].
    pose proof (zip_ts e ops) as Hzip. fold shapes g ts in Hzip.
    assert (Hlen : length ts = length ops) by (unfold ts; rewrite fmap_length; by apply in_labels_length).
    pose proof (g_inj e ops Hpl) as Hinj. fold shapes g in Hinj.
    assert (Hplain : Forall (Forall plain) ts).
    { apply Forall_forall. intros t (t' & -> & Ht')%elem_of_list_fmap. apply Forall_forall. intros c (l & -> & Hl)%elem_of_list_fmap.
      apply name_plain; [done|]. by eapply in_known. }
    assert (Hnd : NoDup out).
    { apply NoDup_fmap_2_strong; [|by destruct Hwf]. intros a b Ha Hb. apply Hinj; auto. }
    assert (Hout : forall c, c ∈ out -> c ∈ labels_of (zip ts ops)).
    { intros c (l & -> & Hl)%elem_of_list_fmap. apply elem_labels_zip; [done|].
      destruct (wf_known _ _ Hwf l Hl) as (t & Ht & Hlt). exists (g <$> t). split; by apply elem_of_list_fmap_1. }
    assert (Hgood' : good (zip ts ops)) by (rewrite Hzip; apply good_rename; [|done]; intros a b Ha Hb; apply Hinj; auto).
    assert (Hdin : forall c, c ∈ labels_of (zip ts ops) -> is_Some (d !! c)) by (intros c Hc; rewrite Hdict, dims_map_lookup, decide_True by done; eauto).
    destruct (z_loop_ok ord ord_ok B B_ok use_blas out d p ts ops) as [[Hno Herr]|(Hyes & steps & Hcp & Hfits & Hcore)]; try done; rewrite ?Hlen in *; [done| |].
    - left. split; [done|]. unfold shapes. by rewrite Herr.
    - right. split; [done|]. unfold shapes at 1. rewrite Hcp. cbn [mbind res_bind]. rewrite Hpsh. cbn [mbind res_bind]. exists steps. split; [done|]. split.
      + intros He Hsz. apply Hfits; [done|]. etrans; [|exact Hsz]. rewrite Hzip. apply size_rename.
      + intros Hfit. destruct (Hcore Hfit ops) as (T & HT & HTeq); [by apply Forall2_same_length_lookup_2; [|intros; simplify_eq]|].
        exists T. split; [unfold z_core_contract; by rewrite HT|]. rewrite HTeq, Hzip. unfold out. apply einsum_rename; [apply Hinj|by destruct Hwf].
  Qed.
End Main.

(** ** C66 *)
(** Full statement: the positions of a step are Python's indices into the operands left; if they exist and differ the path is accepted and the operands
    pointed to are contracted, by [contract] and by an expression with constants.  False (below): a step takes its positions out one by one, the largest
    first.  Proved: a path of any integers whose steps use up the operands is rejected if, and only if, a position does not exist at its turn (an IndexError)... *)
Theorem C66_accepted_partial (K : semiring) (B : backend K) (ord : gset N -> list N) (e : eqn) (s : str) (ops : list (tensor K)) (p : zpath) (use_blas : bool) (mem : memory_arg) :
  backend_ok B -> (forall x, ord x ≡ₚ elements x) -> e_in e <> [] -> plain_eqn e -> filter (.≠ c_space) s = render e -> well_formed e (shape <$> ops) ->
  good (zip (in_labels e (shape <$> ops)) ops) -> mem_valid mem -> p <> [] -> uses_up (length ops) p ->
  ((exists steps, z_contract_path ord use_blas p mem s (shape <$> ops) = Ok steps) <-> positions_exist (length ops) p) /\
  (~ positions_exist (length ops) p -> z_contract_path ord use_blas p mem s (shape <$> ops) = Err IndexError).
Proof.
  intros HB Ho Hne Hpl Hs Hwf Hg Hm Hp Hup. destruct (ints_ok B ord e s ops Ho HB Hne Hpl Hs Hwf use_blas p mem Hg Hm Hp Hup) as [[H1 H2]|(H1 & steps & H2 & _)].
  - split; [|done]. split; [intros [steps H]; congruence|done].
  - split; [|done]. split; [done|eauto].
Qed.
Print Assumptions C66_accepted_partial.
(** ... and if it is accepted the value is right, negative and repeated positions included. *)
Theorem C66_value_partial (K : semiring) (B : backend K) (ord : gset N -> list N) (e : eqn) (s : str) (ops : list (tensor K)) (p : zpath) (use_blas : bool) (mem : memory_arg) :
  backend_ok B -> b_has_einsum B = true -> (forall x, ord x ≡ₚ elements x) -> e_in e <> [] -> plain_eqn e -> filter (.≠ c_space) s = render e -> well_formed e (shape <$> ops) ->
  let tops := zip (in_labels e (shape <$> ops)) ops in
  good tops -> length (remove_dups (labels_of tops)) <= 52 -> mem_valid mem -> p <> [] -> uses_up (length ops) p -> positions_exist (length ops) p ->
  exists T, z_contract ord B use_blas p mem s ops = Ok T /\ T ≡ₜ einsum tops (out_labels e (shape <$> ops)).
Proof.
  intros HB He Ho Hne Hpl Hs Hwf tops Hg Hsz Hm Hp Hup Hpos. destruct (ints_ok B ord e s ops Ho HB Hne Hpl Hs Hwf use_blas p mem Hg Hm Hp Hup) as [[H1 _]|(_ & steps & H2 & H3 & H4)]; [done|].
  destruct (H4 (H3 He Hsz)) as (T & HT & Heq). exists T. split; [|done]. unfold z_contract. rewrite H2. done.
Qed.
Print Assumptions C66_value_partial.
(** Non-negative positions, repeated or not, are the paths of the other properties. *)
Theorem C66_non_negative (K : semiring) (B : backend K) (ord : gset N -> list N) (use_blas : bool) (p : path) (mem : memory_arg) (s : str) (ops : list (tensor K)) :
  z_contract ord B use_blas (fmap (M:=list) Z.of_nat <$> p) mem s ops = contract ord B use_blas (OPath p) mem s ops.
Proof.
  unfold z_contract, contract, z_contract_path, contract_path, contract_path_parsed. destruct (parse_einsum_input s (shape <$> ops)) as [[inp out]|]; [|done]. cbn [mbind res_bind].
  destruct (build_size_dict _ _) as [d|]; [|done]. cbn [mbind res_bind]. destruct (mapM_res _ (split s_comma inp ++ [out])) as [sl|]; [|done]. cbn [mbind res_bind].
  destruct (choose_memory_arg mem sl) as [m|]; [|done]. cbn [mbind res_bind]. destruct (flop_count _ _ _ _); [|done]. cbn [mbind res_bind compute_path].
  rewrite z_loop_nat. destruct (cp_loop _ _ _ _ _ _ _ _) as [steps|]; [|done]. cbn [mbind res_bind res_map]. destruct (mapM_res _ (split s_comma inp)); [|done]. cbn [mbind res_bind pi_contractions].
  unfold z_core_contract, core_contract. rewrite <-z_core_nat. do 2 f_equal. rewrite <-!list_fmap_compose. done.
Qed.
Print Assumptions C66_non_negative.
Lemma uses_check n p : (fix go n (p : zpath) := match p with [] => n =? 1 | s :: p => negb (length s =? 0) && go (n - length s + 1) p end) n p = true -> uses_up n p.
Proof.
  revert n. induction p as [|s p IH]; intros n; [apply Nat.eqb_eq|]. intros [H1 H2]%andb_prop. split; [|by apply IH]. by intros ->.
Qed.
(** The equation of C01 with the path [(-1, 1), (-1, -1)] : the first step takes out position 1, then the last of the two left; the second
    takes out the last of two, then the last of one. *)
Definition ex_zpath : zpath := [[-1; 1]; [-1; -1]]%Z.
Example C66_instance :
  ex_zpath <> [] /\ uses_up (length ex_ops) ex_zpath /\ positions_exist (length ex_ops) ex_zpath /\
  match z_contract ord0 (ref_backend nat_semiring true) true ex_zpath (MInt (-1)) ex_str ex_ops with
  | Ok T => (shape T, entries T) = ([2; 3; 2], [19; 91; 43; 115; 67; 139; 88; 424; 200; 536; 312; 648])
  | Err _ => False
  end /\
  uses_up (length ex_ops) [[0; 0; 0]]%Z /\ positions_exist (length ex_ops) [[0; 0; 0]]%Z /\
  z_contract_path ord0 true [[0; 3]; [0; 1]]%Z MNone ex_str (shape <$> ex_ops) = Err IndexError.
Proof.
  split; [done|]. split; [apply uses_check; by vm_compute|]. split.
  { split; [exists [1; -1]%Z; split; [split; [apply perm_swap|repeat constructor; lia]|simpl; lia]|]. split; [|done]. exists [-1; -1]%Z. split; [split; [done|repeat constructor; lia]|simpl; lia]. }
  split; [by vm_compute|]. split; [apply uses_check; by vm_compute|]. split; [|by vm_compute]. split; [|done]. exists [0; 0; 0]%Z. split; [split; [done|repeat constructor; lia]|simpl; lia].
Qed.

(** The positions are not Python's indices into the operands of the step.  Full statement: a path whose steps each point to different operands, as
    indexing counts, is accepted... *)
Theorem C66_indices_refuted : exists (s : str) (shapes : list (list nat)) (p : zpath),
  uses_up (length shapes) p /\ p = [[-3; -1]; [0; 1]]%Z /\ length shapes = 3 /\ NoDup (points_to 3 <$> [-3; -1]%Z) /\ Forall (fun z => (0 <= points_to 3 z < 3)%Z) [-3; -1]%Z /\
  (exists steps, z_contract_path ord0 true [[0; 2]; [0; 1]]%Z MNone s shapes = Ok steps) /\ z_contract_path ord0 true p MNone s shapes = Err IndexError.
Proof.
  exists (lit "ab,bc,cd->ad"), [[2; 3]; [3; 4]; [4; 5]], [[-3; -1]; [0; 1]]%Z. split; [apply uses_check; by vm_compute|]. split; [done|]. split; [done|].
  split; [apply (bool_decide_unpack _); by vm_compute|]. split; [repeat constructor; vm_compute; intuition congruence|]. split; [eexists; by vm_compute|by vm_compute].
Qed.
Print Assumptions C66_indices_refuted.
(** ... and contracts the operands pointed to: (-1, -2) of three operands contracts the last and the first. *)
Theorem C66_pointed_to_refuted : exists (s : str) (shapes : list (list nat)) (p q : zpath),
  p = [[-1; -2]; [0; 1]]%Z /\ q = [[2; 1]; [0; 1]]%Z /\ length shapes = 3 /\ points_to 3 <$> [-1; -2]%Z = [2; 1]%Z /\
  (steps ← z_contract_path ord0 true p MNone s shapes; Ok (map (fun st => c_eq st.1.2) steps)) = Ok [lit "cd,ab->cdab"; lit "cdab,bc->ad"] /\
  (steps ← z_contract_path ord0 true q MNone s shapes; Ok (map (fun st => c_eq st.1.2) steps)) = Ok [lit "cd,bc->db"; lit "db,ab->ad"].
Proof. exists (lit "ab,bc,cd->ad"), [[2; 3]; [3; 4]; [4; 5]]. eexists _, _. repeat split; by vm_compute. Qed.
Print Assumptions C66_pointed_to_refuted.
(** With constants the value is not always returned: whether a step can be done in advance is decided by indexing, but its operands are taken out one
    by one.  Here the step (-1, -2) points to the two constants and takes out one of them and the operand to come. *)
Theorem C66_constants_refuted : exists (s : str) (a b c : tensor nat_semiring) (p : zpath),
  uses_up 3 p /\ positions_exist 3 p /\
  z_expression_call ord0 (ref_backend nat_semiring true) true p MNone s [AShape (shape a); AArray b; AArray c] [1; 2] [a] = Err TypeError /\
  exists T, z_contract ord0 (ref_backend nat_semiring true) true p MNone s [a; b; c] = Ok T /\
  z_expression_call ord0 (ref_backend nat_semiring true) true p MNone s [AShape (shape a); AShape (shape b); AShape (shape c)] [] [a; b; c] = Ok T.
Proof.
  exists (lit "ab,bc,cd->ad"), (arr [2; 3] (seq 1 6 : list nat_semiring)), (arr [3; 2] (seq 1 6 : list nat_semiring)), (arr [2; 2] (seq 1 4 : list nat_semiring)), [[-1; -2]; [0; 1]]%Z.
  split; [apply uses_check; by vm_compute|]. split.
  { split; [exists [-1; -2]%Z; split; [split; [done|repeat constructor; lia]|simpl; lia]|]. split; [|done]. exists [1; 0]%Z. split; [split; [apply perm_swap|repeat constructor; lia]|simpl; lia]. }
  split; [by vm_compute|]. eexists. split; vm_compute; reflexivity.
Qed.
Print Assumptions C66_constants_refuted.
