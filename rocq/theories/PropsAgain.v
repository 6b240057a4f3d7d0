(** Property C73: a path that was found can be given back, also for other arrays; statements, each with a concrete instance. *)
From stdpp Require Import relations sorting.
From Verif Require Import Prelude Einsum EinsumFacts EinsumOps Parser Helpers Contract Spec PathSpec StringFacts SymbolFacts StepFacts ContractFacts PathFacts ParserFacts ParseSpec ParseProof ParseSound TopFacts ContractMain RefBackend Ssa SsaSpec SsaFacts SsaMore
  Optimal Branch Greedy Dp Random RandomSpec RandomFacts FinderFacts PropsContract PropsPaths PropsSearch PropsRandom.

(** ** The pieces of a successful contract_path *)
Lemma again_path (ord : gset N -> list N) use_blas opt mem s shapes info mem' :
  contract_path ord use_blas opt mem s shapes = Ok info -> mem_valid mem' -> contract_path ord use_blas (OPath (pi_path info)) mem' s shapes = Ok info.
Proof.
  unfold contract_path. intros H Hm. apply bind_Ok in H as ([inp out] & -> & H). cbn [mbind res_bind]. unfold contract_path_parsed in *.
  apply bind_Ok in H as (d & -> & H). apply bind_Ok in H as (sl & Hsl & H). cbn [mbind res_bind]. rewrite Hsl. cbn [mbind res_bind]. apply bind_Ok in H as (m & Hc & H).
  assert (Hne : sl <> []).
  { intros ->. apply mapM_res_Forall2 in Hsl. apply Forall2_length in Hsl. rewrite app_length in Hsl. simpl in Hsl. lia. }
  destruct (choose_memory_ok mem' sl Hm Hne) as (m' & ->). cbn [mbind res_bind]. apply bind_Ok in H as (naive & -> & H). cbn [mbind res_bind]. apply bind_Ok in H as (p & Hp & H).
  apply bind_Ok in H as (steps & Hst & H). apply bind_Ok in H as (ps & Hps & H). apply Ok_inj in H as <-. cbn [pi_path compute_path mbind res_bind]. rewrite Hst. cbn [mbind res_bind]. rewrite Hps. done.
Qed.
(** The order in which the positions of one step are written. *)
Lemma sort_desc_same l k : l ≡ₚ k -> sort_desc l = sort_desc k.
Proof. intros H. apply (StronglySorted_unique geq); [apply sort_desc_sorted|apply sort_desc_sorted|]. by rewrite !sort_desc_perm. Qed.
Lemma cp_loop_order (ord : gset N -> list N) use_blas out d p q sets terms shapes : Forall2 Permutation p q ->
  cp_loop ord use_blas out d p sets terms shapes = cp_loop ord use_blas out d q sets terms shapes.
Proof.
  intros H. revert sets terms shapes. induction H as [|l k p q Hlk Hpq IH]; intros sets terms shapes; [done|]. cbn [cp_loop]. rewrite (sort_desc_same l k Hlk).
  destruct (find_contraction _ _ _) as [[[[oi sets'] ir] ic]|x]; [|done]. cbn [mbind res_bind]. destruct (flop_count _ _ _ _) as [cost|x]; [|done]. cbn [mbind res_bind]. destruct (compute_size_by_dict _ _) as [sz|x]; [|done]. cbn [mbind res_bind].
  destruct (pops _ terms) as [[ti terms']|x]; [|done]. cbn [mbind res_bind]. destruct (pops _ shapes) as [[tsh shapes']|x]; [|done]. cbn [mbind res_bind].
  assert (Ep : forall A (a b : A), match p with [] => a | _ => b end = match q with [] => a | _ => b end) by (intros; by destruct Hpq).
  rewrite Ep. destruct (find_output_shape _ _ _) as [sh|x]; [|done]. cbn [mbind res_bind]. by rewrite IH.
Qed.

Definition with_path (p : path) (i : path_info) : path_info := PathInfo p (pi_contractions i) (pi_scale_list i) (pi_naive_cost i) (pi_opt_cost i) (pi_size_list i) (pi_size_dict i) (pi_largest i) (pi_shapes i) (pi_eq i).

(** ** C73 *)
(** The report for the path found is the report for the search, whatever was searched with and whatever the memory limit now is: all its numbers, all its steps. *)
Theorem C73_same_report (ord : gset N -> list N) (use_blas : bool) (opt : optimize_arg) (mem mem' : memory_arg) (s : str) (shapes : list (list nat)) (info : path_info) :
  contract_path ord use_blas opt mem s shapes = Ok info -> mem_valid mem' -> contract_path ord use_blas (OPath (pi_path info)) mem' s shapes = Ok info.
Proof. apply again_path. Qed.
Print Assumptions C73_same_report.
(** And so is the run: the same operations in the same order, the same value or the same error. *)
Theorem C73_same_run (K : semiring) (B : backend K) (ord : gset N -> list N) (use_blas : bool) (opt : optimize_arg) (mem mem' : memory_arg) (s : str) (ops : list (tensor K)) (info : path_info) :
  opt <> OFalse -> contract_path ord use_blas opt mem s (Einsum.shape <$> ops) = Ok info -> mem_valid mem' ->
  contract ord B use_blas (OPath (pi_path info)) mem' s ops = contract ord B use_blas opt mem s ops.
Proof. intros Hf H Hm. pose proof (again_path _ _ _ _ _ _ _ _ H Hm) as H'. unfold contract. rewrite H'. destruct opt; [done|by rewrite H..]. Qed.
Print Assumptions C73_same_run.
(** In which order the positions of a step are written does not matter. *)
Theorem C73_order_in_step (ord : gset N -> list N) (use_blas : bool) (p q : path) (mem : memory_arg) (s : str) (shapes : list (list nat)) (info : path_info) :
  Forall2 Permutation p q -> contract_path ord use_blas (OPath p) mem s shapes = Ok info -> contract_path ord use_blas (OPath q) mem s shapes = Ok (with_path q info).
Proof.
  unfold contract_path. intros Hpq H. apply bind_Ok in H as ([inp out] & -> & H). cbn [mbind res_bind]. unfold contract_path_parsed in *.
  apply bind_Ok in H as (d & -> & H). apply bind_Ok in H as (sl & Hsl & H). cbn [mbind res_bind]. rewrite Hsl. cbn [mbind res_bind]. apply bind_Ok in H as (m & -> & H). cbn [mbind res_bind].
  apply bind_Ok in H as (naive & -> & H). cbn [compute_path mbind res_bind] in *. apply bind_Ok in H as (steps & Hst & H). apply bind_Ok in H as (ps & Hps & H). apply Ok_inj in H as <-.
  rewrite <-(cp_loop_order _ _ _ _ p q _ _ _ Hpq), Hst. cbn [mbind res_bind]. rewrite Hps. done.
Qed.
Print Assumptions C73_order_in_step.
(** So the path may also be kept as a path of identifiers (SSA) and turned back. *)
Theorem C73_through_ssa (ord : gset N -> list N) (use_blas : bool) (opt : optimize_arg) (mem mem' : memory_arg) (s : str) (shapes : list (list nat)) (info : path_info) :
  contract_path ord use_blas opt mem s shapes = Ok info -> path_runs (length shapes) (pi_path info) -> mem_valid mem' ->
  exists sp lp, linear_to_ssa (pi_path info) = Ok sp /\ ssa_to_linear sp = Ok lp /\ contract_path ord use_blas (OPath lp) mem' s shapes = Ok (with_path lp info).
Proof.
  intros H Hr Hm. destruct (C14_linear_ssa_linear _ _ Hr) as (sp & H1 & H2). exists sp, (sort_nat <$> pi_path info). split; [done|]. split; [done|].
  apply (C73_order_in_step _ _ (pi_path info)); [|by eapply again_path]. apply Forall2_fmap_r, Forall_Forall2_diag, Forall_forall. intros l _. unfold compose. symmetry. apply sort_nat_perm.
Qed.
Print Assumptions C73_through_ssa.
(** The path serves for all other arrays, and even all other equations, of as many operands: what is found with small arrays can be used with large ones. *)
Theorem C73_other_arrays (K K' : semiring) (B' : backend K') (ord ord' : gset N -> list N) (E : env) (name : str) (e e' : eqn) (s s' : str) (ops : list (tensor K)) (ops' : list (tensor K'))
    (use_blas use_blas' : bool) (mem mem' : memory_arg) (info : path_info) :
  (forall x, ord x ≡ₚ elements x) -> env_ok E -> e_in e <> [] -> plain_eqn e -> filter (.≠ c_space) s = render e -> well_formed e (Einsum.shape <$> ops) -> good (zip (in_labels e (Einsum.shape <$> ops)) ops) -> mem_valid mem ->
  contract_path ord use_blas (named (all_options E) name) mem s (Einsum.shape <$> ops) = Ok info ->
  backend_ok B' -> b_has_einsum B' = true -> (forall x, ord' x ≡ₚ elements x) -> plain_eqn e' -> filter (.≠ c_space) s' = render e' -> well_formed e' (Einsum.shape <$> ops') ->
  let tops := zip (in_labels e' (Einsum.shape <$> ops')) ops' in
  good tops -> length (remove_dups (labels_of tops)) <= 52 -> mem_valid mem' -> length ops' = length ops ->
  exists T, contract ord' B' use_blas' (OPath (pi_path info)) mem' s' ops' = Ok T /\ T ≡ₜ einsum tops (out_labels e' (Einsum.shape <$> ops')).
Proof.
  intros Ho HE Hne Hpl Hs Hwf Hg Hm HP HB' He' Ho' Hpl' Hs' Hwf' tops Hg' Hsz Hm' Hlen.
  pose proof (named_sound E name HE) as Hf. unfold named in *. set (f := fun inputs output d mem => _) in *.
  pose proof (contract_path_safe _ _ _ _ _ _ _ HP) as HP'.
  destruct (contract_path_ok ord Ho (ref_backend K true) (ref_backend_ok K true) e s ops Hne Hpl Hs Hwf use_blas (OFinder (safe f)) mem Hg Hm (total_strategy _ _ (safe_total _ Hf))) as (info' & HP'' & Hc & _).
  rewrite HP' in HP''. apply Ok_inj in HP'' as <-. apply contract_ok; try done.
  - intros E0. pose proof (wf_count _ _ Hwf') as H1. pose proof (wf_count _ _ Hwf) as H2. rewrite fmap_length in H1. rewrite fmap_length in H2. rewrite E0 in H1. simpl in H1. destruct (e_in e); [done|]. simpl in H2. lia.
  - simpl. by rewrite Hlen.
Qed.
Print Assumptions C73_other_arrays.
(** A chain of four matrices: 'auto' with a limit finds a path for small arrays, of which the report comes back, also through SSA; the path serves for arrays of other sizes. *)
Definition ex73_s : str := lit "ab,bc,cd,de->ae".
Definition ex73_ops (k : nat) : list (tensor nat_semiring) := [arr [2; k] (seq 1 (2 * k) : list nat_semiring); arr [k; 3] (seq 1 (3 * k) : list nat_semiring); arr [3; k] (seq 1 (3 * k) : list nat_semiring); arr [k; 2] (seq 1 (2 * k) : list nat_semiring)].
Definition ex73_info (k : nat) : res path_info := contract_path ord0 true (named (all_options (env0 1)) (lit "Auto")) (MInt 100) ex73_s (map (fun o => Einsum.shape o) (ex73_ops k)).
Example C73_instance : match ex73_info 2 with
  | Ok info => pi_path info = [[1; 2]; [0; 2]; [0; 1]] /\ contract_path ord0 true (OPath (pi_path info)) MNone ex73_s (map (fun o => Einsum.shape o) (ex73_ops 2)) = Ok info
      /\ linear_to_ssa (pi_path info) = Ok [[1; 2]; [0; 4]; [3; 5]]
      /\ match contract ord0 (ref_backend nat_semiring true) true (OPath (pi_path info)) MNone ex73_s (ex73_ops 3), contract ord0 (ref_backend nat_semiring true) true (OPath [[1; 2]; [1; 2]; [1; 0]]) MNone ex73_s (ex73_ops 3) with
         | Ok T, Ok T' => Einsum.shape T = [2; 2] /\ (get T <$> [[0; 0]; [0; 1]; [1; 0]; [1; 1]]) = get T' <$> [[0; 0]; [0; 1]; [1; 0]; [1; 1]] | _, _ => False end
  | Err _ => False end.
Proof. vm_compute. done. Qed.
