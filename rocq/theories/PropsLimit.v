(** Property C70: the memory limit bounds every array that is built on the way; statements, each with a concrete instance. *)
From stdpp Require Import relations sorting.
From Verif Require Import Prelude Einsum EinsumFacts Parser Helpers Contract Spec PathSpec StringFacts ParseSpec StepFacts ContractFacts PathFacts ArgFacts RefBackend TopFacts ApiSpec ContractMain Ssa SsaSpec SsaFacts SsaMore Optimal OptimalFacts OptimalBest OptimalMore Tree TreeSpec DpSpec DpPathSpec Dp DpFacts DpMain DpTop DpPath
  Branch BranchFacts BranchSpec BranchBest BranchOrder Greedy GreedyFacts GreedySpec Random RandomSpec RandomFacts FinderFacts PropsContract PropsPaths PropsSearch PropsDp PropsRandom PropsDpPath PropsBranch PropsChoice NetworkSpec NetworkFacts PropsNetwork PropsMemory.

(** The options that keep to the limit by giving up, that is by contracting all that is left at once, when every further pair is too large. *)
Definition limited (name : str) (n : nat) : Prop :=
  lower name ∈ lit <$> ["auto"; "optimal"; "branch-all"; "branch-2"; "branch-1"; "greedy"; "eager"; "opportunistic"]%string \/ lower name = lit "auto-hq" /\ n <= 5.
Lemma limited_finder (E : env) name inputs output d limit p : inputs <> [] -> limited name (length inputs) -> by_name E name inputs output d (Some limit) = Ok p ->
  optimal (en_ord E) inputs output d (Some limit) = Ok p \/ exists nb, nb <> Some 0 /\ branch_n nb E inputs output d (Some limit) = Ok p.
Proof.
  intros Hne Hn Hp. assert (H1 : 1 <= length inputs) by (destruct inputs; [done|simpl; lia]).
  assert (Hgreedy : greedy_default E inputs output d (Some limit) = Ok p -> exists nb, nb <> Some 0 /\ branch_n nb E inputs output d (Some limit) = Ok p) by (intros H; by exists (Some 1)).
  destruct Hn as [Hn|[Hn H5]].
  - cbn [fmap list_fmap] in Hn. apply elem_of_cons in Hn as [Hn|Hn].
    { erewrite by_name_lookup in Hp by (rewrite Hn; instantiate (1 := auto E); lookup). unfold auto in Hp.
      destruct (decide (1 <= length inputs < 5)); [by left|]. right. destruct (decide (5 <= length inputs < 7)); [by exists None|]. destruct (decide (7 <= length inputs < 9)); [by exists (Some 2)|].
      destruct (decide (9 <= length inputs < 15)); [by exists (Some 1)|]. by apply Hgreedy. }
    apply elem_of_cons in Hn as [Hn|Hn]; [left; erewrite by_name_lookup in Hp by (rewrite Hn; instantiate (1 := optimal (en_ord E)); lookup); done|].
    right. apply elem_of_cons in Hn as [Hn|Hn]; [exists None; erewrite by_name_lookup in Hp by (rewrite Hn; instantiate (1 := branch_n None E); lookup); done|].
    apply elem_of_cons in Hn as [Hn|Hn]; [exists (Some 2); erewrite by_name_lookup in Hp by (rewrite Hn; instantiate (1 := branch_n (Some 2) E); lookup); done|].
    apply elem_of_cons in Hn as [Hn|Hn]; [exists (Some 1); erewrite by_name_lookup in Hp by (rewrite Hn; instantiate (1 := branch_n (Some 1) E); lookup); done|].
    apply Hgreedy. rewrite <-Hp. symmetry. repeat (apply elem_of_cons in Hn as [Hn|Hn]; [apply by_name_lookup; rewrite Hn; lookup|]). by apply elem_of_nil in Hn.
  - left. erewrite by_name_lookup in Hp by (rewrite Hn; instantiate (1 := auto_hq E); lookup). unfold auto_hq in Hp. by rewrite decide_True in Hp by lia.
Qed.
(** The paths: whatever is put back on the list of operands before the last step is within the limit. *)
Theorem C70_paths_partial (E : env) name inputs output d limit p k st : env_ok E -> inputs <> [] -> (forall t c, t ∈ inputs -> c ∈ t -> is_Some (d !! c)) ->
  (forall c, occurrences output inputs c <= 2) -> limited name (length inputs) -> by_name E name inputs output d (Some limit) = Ok p ->
  replay output p inputs !! k = Some st -> S k < length p -> volume (size_of d) st.2 <= limit.
Proof.
  intros HE Hne Hd H2 Hn Hp Hk Hlt. assert (Ho : forall s, en_ord E s ≡ₚ elements s) by by apply eo_ord.
  destruct (limited_finder E name inputs output d limit p Hne Hn Hp) as [Hp'|(nb & Hnb & Hp')]; clear Hp; rename Hp' into Hp.
  - by apply (C18_optimal_memory_partial (en_ord E) inputs output d limit p k st).
  - unfold branch_n, branch in Hp. rewrite decide_False in Hp by exact Hnb. apply bind_Ok in Hp as ([p' b] & H & Hp). apply Ok_inj in Hp as ->.
    exact (proj1 (C19_branch_cost (bb_std nb) (en_ord E) inputs output d (Some limit) p b Ho Hnb Hne Hd H2 H) limit k st eq_refl Hk Hlt).
Qed.
Print Assumptions C70_paths_partial.
(** The dynamic programming search, on connected networks: no contraction at all, the last one included, has a result beyond the limit. *)
Theorem C70_dp_partial (E : env) name inputs output d limit p st : env_ok E -> sized d inputs output -> (forall k c, k ∈ inputs -> c ∈ k -> 1 <= size_of d c) -> joined inputs output ->
  lower name ∈ lit <$> ["dp"; "dynamic-programming"]%string \/ lower name = lit "auto-hq" /\ 6 <= length inputs <= 16 -> by_name E name inputs output d (Some limit) = Ok p ->
  st ∈ replay output p inputs -> 2 <= length st.1 -> volume (size_of d) st.2 <= limit.
Proof.
  intros HE Hs Hdim Hj Hn Hp Hst H2. assert (Hdp : dp_default E inputs output d (Some limit) = Ok p).
  { rewrite <-Hp. symmetry. destruct Hn as [Hn|[Hn Hl]].
    - cbn [fmap list_fmap] in Hn. repeat (apply elem_of_cons in Hn as [Hn|Hn]; [apply by_name_lookup; rewrite Hn; lookup|]). by apply elem_of_nil in Hn.
    - erewrite by_name_lookup by (rewrite Hn; instantiate (1 := auto_hq E); lookup). unfold auto_hq. rewrite decide_False by lia. by rewrite decide_True by lia. }
  apply C60_connected_best in Hdp as (_ & [_ Hw] & _); try done; [|split; [by apply eo_ord|by apply eo_pop]].
  rewrite Forall_forall in Hw. apply (Hw st). unfold contractions. by apply elem_of_list_filter.
Qed.
Print Assumptions C70_dp_partial.

Lemma limited_strategy (E : env) name n : env_ok E -> limited name n -> strategy_ok (named (all_options E) name) n.
Proof.
  intros HE Hn. unfold named. destruct Hn as [Hn|[Hn H5]].
  - assert (Hs : lower name ∈ safe_names). { revert Hn. generalize (lower name). intros x Hx. unfold safe_names. cbn [fmap list_fmap] in Hx. repeat (apply elem_of_cons in Hx as [-> |Hx]; [repeat (first [by left|right])|]). by apply elem_of_nil in Hx. }
    apply total_strategy. intros sets out d m Hl Hlab. destruct (safe_lookup E _ HE Hs) as (f & Hf & Ht). unfold get_path_fn. rewrite Hf. cbn [of_opt mbind res_bind]. by apply Ht.
  - destruct (decide (n <= 2)) as [?|H2]; [by left|]. right. intros sets out d mem <- Hd Ho.
    destruct (optimal_complete (en_ord E) sets out d mem (eo_ord _ HE)) as (p & Hp & Hr); [by intros ->; simpl in *; lia|by apply Forall_forall; intros k Hk c; apply Hd|].
    exists p. split; [|by apply runs_complete; [lia|]]. change (by_name E name sets out d mem = Ok p).
    erewrite by_name_lookup by (rewrite Hn; instantiate (1 := auto_hq E); lookup). unfold auto_hq. by rewrite decide_True by lia.
Qed.
Lemma replay_count out p (sets : list (gset N)) : length (replay out p sets) = length p.
Proof. revert sets. induction p as [|s p IH]; intros sets; [done|]. cbn [replay length]. by rewrite IH. Qed.
Lemma mem_meaning_unique m l l' r r' : l ≡ₚ l' -> mem_meaning m l r -> mem_meaning m l' r' -> r = r'.
Proof.
  intros Hl. destruct m as [|s|z]; simpl; [by intros -> ->| |].
  - intros (_ & x & -> & Hx & Hmax) (_ & y & -> & Hy & Hmay). f_equal. apply Nat.le_antisymm; [apply Hmay; by rewrite <-Hl|apply Hmax; by rewrite Hl].
  - intros [[-> ->]|(k & Hk & -> & ->)] [[H1 ->]|(k' & Hk' & H1 & ->)]; [done|lia|lia|]. f_equal. lia.
Qed.
(** The arrays: [contract] with one of these names and a limit (given, or the largest of the operands and the result), every label in at most two places among the
    terms and the output, any library, on operands without broadcasting: every array made before the last has at most [limit] entries, and so says [PathInfo]. *)
Theorem C70_arrays_partial (K : semiring) (B : backend K) (ord : gset N -> list N) (E : env) (name : str) (use_blas : bool) (mem : memory_arg) (s : str)
    (ops : list (tensor K)) (inp out : str) (limit : nat) :
  backend_ok B -> b_has_einsum B = true -> (forall x, ord x ≡ₚ elements x) -> env_ok E ->
  parse_einsum_input s (Einsum.shape <$> ops) = Ok (inp, out) -> c_comma ∉ out ->
  let ts := split s_comma inp in let tops := zip ts ops in
  good tops -> size (list_to_set (Einsum.labels_of tops) : gset N) <= 52 -> (forall c x y, (c, x) ∈ axes_of tops -> (c, y) ∈ axes_of tops -> x = y) ->
  (forall c, occurrences (list_to_set out) (list_to_set <$> ts : list (gset N)) c <= 2) ->
  limited name (length ops) -> mem_meaning mem ((fun t => prod_list (dim tops <$> t)) <$> (ts ++ [out])) (Some limit) ->
  exists info vs, contract_path ord use_blas (named (all_options E) name) mem s (Einsum.shape <$> ops) = Ok info /\ step_results ord B ops (pi_contractions info) = Ok vs /\
    forall k v, vs !! k = Some v -> S k < length vs -> prod_list (Einsum.shape v) <= limit /\ pi_size_list info !! k = Some (prod_list (Einsum.shape v)).
Proof.
  intros HB He Ho HE Hp Hcm ts tops Hg H52 Hbr H2 Hn Hmm. pose proof (parse_guarantees _ _ _ _ Hp) as (Hnd & Hsub & Hlen & Hpl). rewrite fmap_length in Hlen. fold ts in Hlen.
  assert (Hout : forall c, c ∈ out -> c ∈ Einsum.labels_of tops).
  { intros c Hc. apply elem_labels_zip; [done|]. apply Hsub in Hc as Hci. rewrite <-(join_split1 c_comma inp) in Hci.
    apply elem_of_join in Hci as [Hci|?]; [|done]. apply elem_of_list_singleton in Hci. congruence. }
  assert (Hn1 : 1 <= length ops) by (rewrite <-Hlen; pose proof (split_aux_ne s_comma 0 inp) as Hsn; fold (split s_comma inp) in Hsn; unfold ts; destruct (split s_comma inp); [done|simpl; lia]).
  assert (Hd : forall (t : gset N) c, t ∈ (list_to_set <$> ts : list (gset N)) -> c ∈ t -> is_Some (dims_map tops !! c)).
  { intros a c (t & -> & Ht)%elem_of_list_fmap Hc. apply elem_of_list_to_set in Hc. rewrite dims_map_lookup, decide_True; [done|]. apply elem_labels_zip; eauto. }
  assert (Hdim : forall c, c ∈ Einsum.labels_of tops -> size_of (dims_map tops) c = dim tops c) by (intros c Hc; unfold size_of; rewrite dims_map_lookup, decide_True by done; done).
  assert (Hmem : mem_valid mem). { destruct mem as [|m|z]; simpl in *; [done|by destruct Hmm|]. destruct Hmm as [[_ [=]]|(k & Hk & -> & _)]. right. lia. }
  destruct (contract_path_parsed_ok ord Ho B HB use_blas (named (all_options E) name) mem inp out ops) as (info & H1 & Hcomp & (mem' & Hcp) & Hnum & Hsd & Hfit & Hrun); try done.
  { intros mem'. apply strategy_path; try done; [by rewrite fmap_length|by apply limited_strategy|].
    intros c Hc. apply elem_of_list_to_set, Hout, elem_labels_zip in Hc as (t & Ht & Hc); [|done]. apply elem_union_all. exists (list_to_set t). split; [by apply elem_of_list_fmap_1|by apply elem_of_list_to_set]. }
  assert (Hfits : info_fits B info) by (by apply Hfit).
  destruct (Hrun Hfits ops) as (T & _ & _ & vs & Hvs & Hsz); [by apply Forall2_same_length_lookup_2; [|intros; simplify_eq]|]. specialize (Hsz Hbr).
  exists info, vs. split; [by unfold contract_path; rewrite Hp|]. split; [done|]. intros k v Hk Hlt.
  assert (Hk' : pi_size_list info !! k = Some (prod_list (Einsum.shape v))) by (rewrite <-Hsz, list_lookup_fmap, Hk; done). split; [|done].
  destruct Hnum as [_ _ Hsize _ _]. fold ts tops in Hsize. rewrite Hsize, list_lookup_fmap in Hk'. destruct (replay (list_to_set out) (pi_path info) (list_to_set <$> ts) !! k) as [st|] eqn:Est; [|done].
  simpl in Hk'. injection Hk' as Hk'. rewrite <-Hk'.
  assert (Hlp : length vs = length (pi_path info)).
  { rewrite <-(fmap_length (prod_list ∘ Einsum.shape) vs), Hsz, Hsize, fmap_length. apply replay_count. }
  unfold named, compute_path in Hcp. fold ts in Hcp. rewrite fmap_length in Hcp. destruct (Nat.leb_spec (length ts) 2) as [Hle|Hgt].
  { apply Ok_inj in Hcp. rewrite Hlp, <-Hcp in Hlt. simpl in Hlt. lia. }
  destruct (parsed_memory ord use_blas _ mem inp out (Einsum.shape <$> ops) info ltac:(fold ts; lia) H1) as (r & Hr & Hf). rewrite Hsd in Hr, Hf. fold ts tops in Hr, Hf.
  assert (r = Some limit) as ->.
  { refine (eq_sym (mem_meaning_unique _ _ _ _ _ _ Hmm Hr)). apply Permutation_refl'. apply list_fmap_ext'. intros t Ht. f_equal. apply list_fmap_ext'. intros c Hc. symmetry. apply Hdim.
    apply elem_of_app in Ht as [Ht| ->%elem_of_list_singleton]; [apply elem_labels_zip; eauto|by apply Hout]. }
  rewrite <-(volume_ext (size_of (dims_map tops)) (dim tops)).
  - apply (C70_paths_partial E name (list_to_set <$> ts) (list_to_set out) (dims_map tops) limit (pi_path info) k st); try done.
    + intros E0. apply (f_equal length) in E0. rewrite fmap_length in E0. simpl in E0. lia.
    + by rewrite fmap_length, Hlen.
    + by rewrite <-Hlp.
  - intros c Hc. apply Hdim. apply elem_of_list_lookup_2 in Est. apply PropsRandom.replay_labels with (c := c) in Est; [|set_solver]. apply elem_union_all in Est as (t' & (t & -> & Ht)%elem_of_list_fmap & Hct).
    apply elem_labels_zip; [done|]. exists t. split; [done|by apply elem_of_list_to_set in Hct].
Qed.
Print Assumptions C70_arrays_partial.
(** 'ab,bc,cd->ad' with a=2, b=d=4, c=9 (C67): without limit the intermediate has 18 entries.  With limit 16 it has 16, with limit 7 all is contracted at once;
    'max_input' is 36 here.  The hypotheses of the three theorems hold. *)
Definition ex70_ops : list (tensor nat_semiring) := [arr [2; 4] (seq 1 8 : list nat_semiring); arr [4; 9] (seq 1 36 : list nat_semiring); arr [9; 4] (seq 1 36 : list nat_semiring)].
Definition ex70_sizes (name : string) (mem : memory_arg) : res (list nat) :=
  match contract_path ord0 true (named (all_options (env0 20)) (lit name)) mem (lit "ab,bc,cd->ad") (map (fun o => Einsum.shape o) ex70_ops) with
  | Ok info => match step_results ord0 (ref_backend nat_semiring true) ex70_ops (pi_contractions info) with Ok vs => Ok (map (fun v => prod_list (Einsum.shape v)) vs) | Err e => Err e end
  | Err e => Err e
  end.
Example C70_instance : ex70_sizes "auto" MNone = Ok [18; 8] /\ ex70_sizes "auto" (MInt 16) = Ok [16; 8] /\ ex70_sizes "Greedy" (MInt 16) = Ok [16; 8] /\ ex70_sizes "branch-all" (MInt 16) = Ok [16; 8] /\
  ex70_sizes "auto-hq" (MInt 7) = Ok [8] /\ ex70_sizes "auto-hq" (MInt 17) = Ok [16; 8] /\ ex70_sizes "optimal" (MStr (lit "max_input")) = Ok [18; 8] /\
  ex70_sizes "dp" (MInt 16) = Ok [16; 8] /\ ex70_sizes "dp" (MInt 7) = Err RuntimeError.
Proof. by vm_compute. Qed.
Example C70_hypotheses : parse_einsum_input (lit "ab,bc,cd->ad") (map (fun o => Einsum.shape o) ex70_ops) = Ok (lit "ab,bc,cd", lit "ad") /\ c_comma ∉ lit "ad" /\
  good_check (zip (split s_comma (lit "ab,bc,cd")) ex70_ops) = true /\ size (list_to_set (Einsum.labels_of (zip (split s_comma (lit "ab,bc,cd")) ex70_ops)) : gset N) <= 52 /\
  (forall c, occurrences (lset "ad") (list_to_set <$> split s_comma (lit "ab,bc,cd")) c <= 2) /\ limited (lit "Greedy") (length ex70_ops) /\ limited (lit "auto-hq") (length ex70_ops) /\
  mem_meaning (MInt 16) ((fun t => prod_list (dim (zip (split s_comma (lit "ab,bc,cd")) ex70_ops) <$> t)) <$> (split s_comma (lit "ab,bc,cd") ++ [lit "ad"])) (Some 16).
Proof.
  split; [by vm_compute|]. split; [by apply (bool_decide_unpack _); vm_compute|]. split; [by vm_compute|]. split; [apply Nat.leb_le; by vm_compute|].
  split; [by apply twice_check_ok; vm_compute|]. split; [left; apply (elem_of_list_lookup_2 _ 5); by vm_compute|]. split; [right; split; [by vm_compute|simpl; lia]|].
  right. exists 16. split; [lia|]. done.
Qed.

(** Refuted in general.  'random-greedy' (and with it 'auto-hq' for more than 16 operands) never looks at the limit … *)
Theorem C70_random_refuted name : name ∈ lit <$> ["random-greedy"; "random-greedy-128"]%string -> exists inputs output (d : sizes) limit p k st,
  (forall t c, t ∈ inputs -> c ∈ t -> is_Some (d !! c)) /\ (forall c, occurrences output inputs c <= 2) /\ 1 <= limit /\ by_name (env0 20) name inputs output d (Some limit) = Ok p /\
  replay output p inputs !! k = Some st /\ S k < length p /\ limit < volume (size_of d) st.2.
Proof.
  intros Hn. exists ex67c_in, (lset "ad"), ex67c_d, 16, [[0; 1]; [0; 1]], 0. eexists. split; [apply sized_check_ok; by vm_compute|]. split; [by apply twice_check_ok; vm_compute|]. split; [lia|].
  split; [cbn [fmap list_fmap] in Hn; apply elem_of_cons in Hn as [-> |Hn]; [by vm_compute|]; apply elem_of_cons in Hn as [-> |Hn]; [by vm_compute|by apply elem_of_nil in Hn]|].
  split; [done|]. split; [simpl; lia|]. apply Nat.ltb_lt. by vm_compute.
Qed.
Print Assumptions C70_random_refuted.
(** … dynamic programming joins separate parts whatever the limit … *)
Theorem C70_dp_parts_refuted : exists inputs output (d : sizes) limit p k st,
  (forall t c, t ∈ inputs -> c ∈ t -> is_Some (d !! c)) /\ (forall c, occurrences output inputs c <= 2) /\ 1 <= limit /\ by_name (env0 20) (lit "dp") inputs output d (Some limit) = Ok p /\
  replay output p inputs !! k = Some st /\ S k < length p /\ limit < volume (size_of d) st.2.
Proof.
  exists [lset "a"; lset "b"; lset "c"], (lset "abc"), (ldict [("a", 2); ("b", 3); ("c", 4)]%string), 5, [[0; 1]; [0; 1]], 0. eexists.
  split; [apply sized_check_ok; by vm_compute|]. split; [by apply twice_check_ok; vm_compute|]. split; [lia|].
  split; [by vm_compute|]. split; [done|]. split; [simpl; lia|]. apply Nat.ltb_lt. by vm_compute.
Qed.
Print Assumptions C70_dp_parts_refuted.
(** … and with a label in three places the remembered results of the exhaustive searches are wrong (C18). *)
Theorem C70_shared_refuted name : name ∈ lit <$> ["optimal"; "auto"; "auto-hq"]%string -> exists inputs output (d : sizes) limit p k st,
  (forall t c, t ∈ inputs -> c ∈ t -> is_Some (d !! c)) /\ 1 <= limit /\ by_name (env0 20) name inputs output d (Some limit) = Ok p /\
  replay output p inputs !! k = Some st /\ S k < length p /\ limit < volume (size_of d) st.2.
Proof.
  intros Hn. set (P := [[0; 2]; [0; 1]; [0; 1]]). assert (Eo : optimal ordI0 ex18_in (lset "ac") ex18_d (Some 10) = Ok P) by (vm_cast_no_check (eq_refl (Ok P))).
  destruct C18_memory_refuted as (p' & st & Hp & H3 & Hst & Hv). rewrite Eo in Hp. apply Ok_inj in Hp as <-. exists ex18_in, (lset "ac"), ex18_d, 10, P, 0, st.
  split; [apply sized_check_ok; by vm_compute|]. split; [lia|]. split; [|split; [done|split; [rewrite H3; lia|rewrite Hv; lia]]].
  cbn [fmap list_fmap] in Hn. apply elem_of_cons in Hn as [-> |Hn]; [vm_cast_no_check (eq_refl (Ok P))|]. apply elem_of_cons in Hn as [-> |Hn]; [vm_cast_no_check (eq_refl (Ok P))|].
  apply elem_of_cons in Hn as [-> |Hn]; [vm_cast_no_check (eq_refl (Ok P))|]. exfalso. by apply elem_of_nil in Hn.
Qed.
Print Assumptions C70_shared_refuted.
(** The paths of the example; the hypotheses of [C70_dp_partial] are those of [C67_dp_hypotheses]. *)
Example C70_paths_instance : by_name (env0 20) (lit "dp") ex67c_in (lset "ad") ex67c_d (Some 16) = Ok [[1; 2]; [0; 1]] /\ by_name (env0 20) (lit "OPTIMAL") ex67c_in (lset "ad") ex67c_d (Some 16) = Ok [[1; 2]; [0; 1]] /\
  by_name (env0 20) (lit "optimal") ex67c_in (lset "ad") ex67c_d (Some 15) = Ok [[0; 1; 2]] /\ (fun st => volume (size_of ex67c_d) (snd st)) <$> replay (lset "ad") [[1; 2]; [0; 1]] ex67c_in = [16; 8] /\
  sized ex67c_d ex67c_in (lset "ad") /\ joined ex67c_in (lset "ad").
Proof. split; [by vm_compute|]. split; [by vm_compute|]. split; [by vm_compute|]. split; [by vm_compute|]. split; apply C67_dp_hypotheses. Qed.
