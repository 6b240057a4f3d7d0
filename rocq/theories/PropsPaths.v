(** Properties C14-C19 and C39: path conversions, [optimal] and [BranchBound]; statements, each with a concrete instance. *)
From Verif Require Import Prelude Einsum EinsumFacts Helpers Contract Spec PathSpec StringFacts StepFacts ContractFacts PathFacts RefBackend Ssa SsaSpec SsaFacts SsaMore Optimal OptimalFacts OptimalBest Branch BranchFacts BranchBest.

(** Notation for examples: label sets, size dictionaries, an iteration order. *)
Definition lset (s : string) : gset N := list_to_set (lit s).
Definition ldict (l : list (string * nat)) : sizes := list_to_map (l ≫= fun p => (fun c => (c, p.2)) <$> lit p.1).
Definition ordI0 (s : gset nat) : list nat := merge_sort (≤) (elements s).
Lemma ordI0_ok s : ordI0 s ≡ₚ elements s.
Proof. apply merge_sort_Permutation. Qed.

(** ** C14 *)
Theorem C14_ssa_linear_ssa (n : nat) (p : path) : ssa_complete n p -> exists lp, ssa_to_linear p = Ok lp /\ linear_to_ssa lp = Ok (sort_nat <$> p).
Proof. intros H. destruct (ssa_to_linear_ok n p H) as (lp & Hlp & _). exists lp. split; [done|]. by eapply ssa_linear_ssa. Qed.
Print Assumptions C14_ssa_linear_ssa.
Theorem C14_linear_ssa_linear (n : nat) (p : path) : path_runs n p -> exists sp, linear_to_ssa p = Ok sp /\ ssa_to_linear sp = Ok (sort_nat <$> p).
Proof. intros H. destruct (linear_ssa_linear n p H) as (sp & H1 & _ & H2 & _). eauto. Qed.
Print Assumptions C14_linear_ssa_linear.
Definition ex_ssa : path := [[3; 1]; [0; 5; 2]; [4; 6]].
Example C14_instance : ssa_to_linear ex_ssa = Ok [[1; 3]; [0; 1; 3]; [0; 1]] /\ linear_to_ssa [[1; 3]; [0; 1; 3]; [0; 1]] = Ok [[1; 3]; [0; 2; 5]; [4; 6]].
Proof. by vm_compute. Qed.
Example C14_hypothesis : ssa_complete 5 ex_ssa.
Proof.
  unfold ssa_complete, ex_ssa. simpl. repeat (split; [done|]). split; [repeat constructor; set_solver|]. split; [set_solver|].
  split; [done|]. split; [repeat constructor; set_solver|]. split; [vm_compute; set_solver|]. split; [done|]. split; [repeat constructor; set_solver|]. split; [vm_compute; set_solver|]. done.
Qed.

(** ** C15 *)
(** Executing the linear path creates the same operands, in the same order, as executing the SSA path; here [f] is any
    way to combine operands, for instance building the contraction tree. *)
Theorem C15_same_tree (n : nat) (p : path) : ssa_complete n p ->
  exists lp, ssa_to_linear p = Ok lp /\ path_runs n lp /\
    forall A (f : list A -> A) (l : list A), length l = n -> run_ssa f p l = l ++ results f lp l.
Proof. intros H. destruct (ssa_to_linear_ok n p H) as (lp & H1 & H2 & _ & H3). eauto. Qed.
Print Assumptions C15_same_tree.
Theorem C15_result (n : nat) (p lp : path) : ssa_complete n p -> ssa_to_linear p = Ok lp -> p <> [] ->
  forall A (f : list A -> A) (l : list A) x, length l = n -> run_path f lp l = [List.last (run_ssa f p l) x].
Proof.
  intros H Hlp Hne A f l x Hl. destruct (ssa_to_linear_ok n p H) as (lp' & H1 & H2 & H3 & H4). assert (lp' = lp) as -> by congruence.
  rewrite (H4 A f l Hl), (run_path_results f lp l x); [|by rewrite Hl|by intros ->; destruct p].
  f_equal. assert (Hres : results f lp l <> []) by (destruct lp; [by destruct p|done]).
  destruct (exists_last Hres) as (r & y & ->). by rewrite app_assoc, !last_last.
Qed.
Print Assumptions C15_result.
Example C15_instance : run_ssa (fun l => sum_list l + 1) ex_ssa [1; 2; 3; 4; 5] = [1; 2; 3; 4; 5] ++ results (fun l => sum_list l + 1) [[1; 3]; [0; 1; 3]; [0; 1]] [1; 2; 3; 4; 5]
  /\ results (fun l => sum_list l + 1) [[1; 3]; [0; 1; 3]; [0; 1]] [1; 2; 3; 4; 5] = [7; 12; 18].
Proof. by vm_compute. Qed.
(** The converse fails: a path naming a used-up operand is not detected and becomes a complete linear path. *)
Theorem C15_converse_refuted : exists p lp, ~ ssa_complete 3 p /\ ssa_to_linear p = Ok lp /\ path_runs 3 lp.
Proof.
  exists [[0; 1]; [0; 3]], [[0; 1]; [0; 1]]. split; [|split; [by vm_compute|]].
  - intros (_ & _ & _ & _ & _ & H & _). specialize (H 0). assert (Hin : 0 ∈ filter (.∉ [0; 1]) (seq 0 3) ++ [3]) by (apply H; left).
    vm_compute in Hin. set_solver.
  - simpl. repeat (split; [done|]). split; [repeat constructor; set_solver|]. split; [repeat constructor; lia|]. repeat (split; [done|]).
    split; [repeat constructor; set_solver|]. split; [repeat constructor; lia|]. done.
Qed.

(** ** C16 *)
Theorem C16_optimal_complete (ordI : gset nat -> list nat) (inputs : list (gset N)) (output : gset N) (d : sizes) (mem : option nat) :
  (forall s, ordI s ≡ₚ elements s) -> inputs <> [] -> (forall k c, k ∈ inputs -> c ∈ k -> is_Some (d !! c)) ->
  exists p, optimal ordI inputs output d mem = Ok p /\ path_runs (length inputs) p.
Proof. intros Ho Hne Hd. apply optimal_complete; [done|done|]. apply Forall_forall. intros k Hk c. by apply Hd. Qed.
Print Assumptions C16_optimal_complete.
Definition ex_in : list (gset N) := [lset "ab"; lset "bcd"; lset "da"; lset "ce"].
Definition ex_d : sizes := ldict [("abc", 5); ("d", 2); ("e", 7)]%string.
Example C16_instance : optimal ordI0 ex_in (lset "e") ex_d None = Ok [[0; 2]; [0; 2]; [0; 1]] /\
  optimal ordI0 ex_in (lset "e") ex_d (Some 5) = Ok [[0; 1; 2; 3]].
Proof. by vm_compute. Qed.

(** ** C17 *)
(** With every label in exactly two places (two operands, or one operand and the output), no pairwise path is cheaper. *)
Theorem C17_optimal_cheapest_partial (ordI : gset nat -> list nat) (inputs : list (gset N)) (output : gset N) (d : sizes) (p q : path) :
  (forall s, ordI s ≡ₚ elements s) -> inputs <> [] -> (forall k c, k ∈ inputs -> c ∈ k -> is_Some (d !! c)) ->
  (forall c, occurrences output inputs c <= 2) -> (forall c, c ∈ union_all inputs -> occurrences output inputs c = 2) ->
  optimal ordI inputs output d None = Ok p -> path_runs (length inputs) q -> pairwise q ->
  pairwise p /\ sum_list (step_cost (size_of d) <$> replay output p inputs) <= sum_list (step_cost (size_of d) <$> replay output q inputs).
Proof. intros Ho Hne Hd H2 Htw. eapply optimal_step_best; try done. apply Forall_forall. intros k Hk c. by apply Hd. Qed.
Print Assumptions C17_optimal_cheapest_partial.
(** With every label in at most two places the same holds for the operation count that the search itself uses. *)
Theorem C17_optimal_cheapest_pair_partial (ordI : gset nat -> list nat) (inputs : list (gset N)) (output : gset N) (d : sizes) (p q : path) :
  (forall s, ordI s ≡ₚ elements s) -> inputs <> [] -> (forall k c, k ∈ inputs -> c ∈ k -> is_Some (d !! c)) ->
  (forall c, occurrences output inputs c <= 2) ->
  optimal ordI inputs output d None = Ok p -> path_runs (length inputs) q -> pairwise q ->
  pairwise p /\ sum_list (pair_cost (size_of d) <$> replay output p inputs) <= sum_list (pair_cost (size_of d) <$> replay output q inputs).
Proof. intros Ho Hne Hd H2. eapply optimal_pair_best; try done. apply Forall_forall. intros k Hk c. by apply Hd. Qed.
Print Assumptions C17_optimal_cheapest_pair_partial.
Definition path_cost (output : gset N) (d : sizes) (p : path) (inputs : list (gset N)) : nat := sum_list (step_cost (size_of d) <$> replay output p inputs).
Example C17_instance : optimal ordI0 ex_in (lset "e") ex_d None = Ok [[0; 2]; [0; 2]; [0; 1]] /\ path_cost (lset "e") ex_d [[0; 2]; [0; 2]; [0; 1]] ex_in = 270
  /\ path_cost (lset "e") ex_d [[0; 1]; [0; 2]; [0; 1]] ex_in = 670.
Proof. by vm_compute. Qed.
Example C17_hypothesis : (forall c, occurrences (lset "e") ex_in c <= 2) /\ (forall c, c ∈ union_all ex_in -> occurrences (lset "e") ex_in c = 2).
Proof.
  assert (H : forall c, c ∈ union_all ex_in -> occurrences (lset "e") ex_in c = 2).
  { assert (Hb : forallb (fun c => bool_decide (occurrences (lset "e") ex_in c = 2)) (elements (union_all ex_in)) = true) by by vm_compute.
    intros c Hc%elem_of_elements. rewrite forallb_forall in Hb. apply elem_of_list_In, Hb in Hc. by apply bool_decide_eq_true in Hc. }
  split; [|done]. intros c. destruct (decide (c ∈ union_all ex_in)) as [Hc|Hc]; [by rewrite H|].
  unfold occurrences. destruct (filter (fun k => c ∈ k) ex_in) as [|k l] eqn:E; [destruct (decide (c ∈ lset "e")); simpl; lia|].
  destruct Hc. apply elem_union_all. exists k. assert (Hk : k ∈ filter (fun k => c ∈ k) ex_in) by (rewrite E; left). apply elem_of_list_filter in Hk. tauto.
Qed.
(** In general it is false: the cache of [optimal] is keyed by the two label sets only, though the result also depends on
    what remains.  'ab,bc,b->ac' with a=2, b=2, c=10: the returned path costs 100, another one 84. *)
Definition ex17_in : list (gset N) := [lset "ab"; lset "bc"; lset "b"].
Definition ex17_d : sizes := ldict [("ab", 2); ("c", 10)]%string.
Theorem C17_cheapest_refuted : exists p q, optimal ordI0 ex17_in (lset "ac") ex17_d None = Ok p /\ path_runs 3 q /\ pairwise q /\
  path_cost (lset "ac") ex17_d q ex17_in < path_cost (lset "ac") ex17_d p ex17_in.
Proof.
  exists [[1; 2]; [0; 1]], [[0; 2]; [0; 1]]. split; [by vm_compute|]. split; [|split; [by repeat constructor|apply Nat.ltb_lt; by vm_compute]].
  simpl. repeat (split; [done|]). split; [repeat constructor; set_solver|]. split; [repeat constructor; lia|]. repeat (split; [done|]).
  split; [repeat constructor; set_solver|]. split; [repeat constructor; lia|]. done.
Qed.

(** ** C18 *)
Theorem C18_optimal_memory_partial (ordI : gset nat -> list nat) (inputs : list (gset N)) (output : gset N) (d : sizes) (limit : nat) (p : path) (k : nat) (st : list (gset N) * gset N) :
  (forall s, ordI s ≡ₚ elements s) -> inputs <> [] -> (forall k c, k ∈ inputs -> c ∈ k -> is_Some (d !! c)) ->
  (forall c, occurrences output inputs c <= 2) ->
  optimal ordI inputs output d (Some limit) = Ok p -> replay output p inputs !! k = Some st -> S k < length p ->
  length st.1 = 2 /\ volume (size_of d) st.2 <= limit.
Proof. intros Ho Hne Hd H2. eapply optimal_within; try done. apply Forall_forall. intros x Hk c. by apply Hd. Qed.
Print Assumptions C18_optimal_memory_partial.
Example C18_instance : optimal ordI0 ex_in (lset "e") ex_d (Some 10) = Ok [[0; 2]; [0; 2]; [0; 1]] /\ ((fun st => volume (size_of ex_d) st.2) <$> replay (lset "e") [[0; 2]; [0; 2]; [0; 1]] ex_in) = [10; 5; 7].
Proof. by vm_compute. Qed.
(** Of the pairwise paths that keep the limit until the last step, none costs less than the path found (which may itself contract more than two
    operands in its last step). *)
Theorem C18_cheapest_within_partial (ordI : gset nat -> list nat) (inputs : list (gset N)) (output : gset N) (d : sizes) (limit : nat) (p q : path) :
  (forall s, ordI s ≡ₚ elements s) -> inputs <> [] -> (forall k c, k ∈ inputs -> c ∈ k -> is_Some (d !! c)) ->
  (forall c, occurrences output inputs c <= 2) -> (forall c, c ∈ union_all inputs -> occurrences output inputs c = 2) ->
  optimal ordI inputs output d (Some limit) = Ok p -> path_runs (length inputs) q -> pairwise q ->
  (forall k st, replay output q inputs !! k = Some st -> S k < length q -> volume (size_of d) st.2 <= limit) ->
  sum_list (step_cost (size_of d) <$> replay output p inputs) <= sum_list (step_cost (size_of d) <$> replay output q inputs).
Proof. intros Ho Hne Hd H2 Htw. eapply optimal_limit_best; try done. apply Forall_forall. intros x Hk c. by apply Hd. Qed.
Print Assumptions C18_cheapest_within_partial.
(** 'ab,bc,cd->ad' with a=2, b=d=3, c=5: the cheapest path has an intermediate 'ac' of 10 elements; with a limit of 9 the one by 'bd' is found, and with 8 all
    operands are contracted at once. *)
Definition ex18c_in : list (gset N) := [lset "ab"; lset "bc"; lset "cd"].
Definition ex18c_d : sizes := ldict [("a", 2); ("bd", 3); ("c", 5)]%string.
Example C18_cheapest_instance :
  optimal ordI0 ex18c_in (lset "ad") ex18c_d None = Ok [[0; 1]; [0; 1]] /\ path_cost (lset "ad") ex18c_d [[0; 1]; [0; 1]] ex18c_in = 120 /\
  optimal ordI0 ex18c_in (lset "ad") ex18c_d (Some 9) = Ok [[1; 2]; [0; 1]] /\ path_cost (lset "ad") ex18c_d [[1; 2]; [0; 1]] ex18c_in = 126 /\
  optimal ordI0 ex18c_in (lset "ad") ex18c_d (Some 8) = Ok [[0; 1; 2]] /\ path_cost (lset "ad") ex18c_d [[0; 1; 2]] ex18c_in = 270.
Proof. by vm_compute. Qed.
Example C18_cheapest_hypothesis : (forall k c, k ∈ ex18c_in -> c ∈ k -> is_Some (ex18c_d !! c)) /\ (forall c, c ∈ union_all ex18c_in -> occurrences (lset "ad") ex18c_in c = 2) /\ path_runs 3 [[1; 2]; [0; 1]] /\
  (forall k st, replay (lset "ad") [[1; 2]; [0; 1]] ex18c_in !! k = Some st -> S k < 2 -> volume (size_of ex18c_d) st.2 <= 9).
Proof.
  split; [|split; [|split]].
  - assert (Hb : forallb (fun k => forallb (fun c => bool_decide (is_Some (ex18c_d !! c))) (elements k)) ex18c_in = true) by by vm_compute.
    intros k c Hk Hc. rewrite forallb_forall in Hb. apply elem_of_list_In, Hb in Hk. rewrite forallb_forall in Hk. apply elem_of_elements, elem_of_list_In, Hk in Hc. by apply bool_decide_eq_true in Hc.
  - assert (Hb : forallb (fun c => bool_decide (occurrences (lset "ad") ex18c_in c = 2)) (elements (union_all ex18c_in)) = true) by by vm_compute.
    intros c Hc%elem_of_elements. rewrite forallb_forall in Hb. apply elem_of_list_In, Hb in Hc. by apply bool_decide_eq_true in Hc.
  - simpl. repeat (split; [done|]). split; [repeat constructor; set_solver|]. split; [repeat constructor; lia|]. repeat (split; [done|]). split; [repeat constructor; set_solver|]. split; [repeat constructor; lia|]. done.
  - intros [|k] st Hk Hlt; [|lia]. assert (E : (fun st => volume (size_of ex18c_d) st.2) <$> replay (lset "ad") [[1; 2]; [0; 1]] ex18c_in = [9; 6]) by by vm_compute.
    apply (f_equal (fun l => l !! 0)) in E. rewrite list_lookup_fmap, Hk in E. injection E as ->. lia.
Qed.
(** In general it is false, for the same reason: 'ab,b,bc,b->ac' with a=c=2, b=5 and limit 10 starts with an intermediate 'abc' of 20 elements. *)
Definition ex18_in : list (gset N) := [lset "ab"; lset "b"; lset "bc"; lset "b"].
Definition ex18_d : sizes := ldict [("ac", 2); ("b", 5)]%string.
Theorem C18_memory_refuted : exists p st, optimal ordI0 ex18_in (lset "ac") ex18_d (Some 10) = Ok p /\ length p = 3 /\
  replay (lset "ac") p ex18_in !! 0 = Some st /\ volume (size_of ex18_d) st.2 = 20.
Proof. eexists _, _. split; [by vm_compute|]. split; [done|]. split; [done|by vm_compute]. Qed.

(** ** C19 *)
(** For every number of branches, cutoff, [minimize], cost function and iteration order of sets. *)
Theorem C19_branch_complete (P : bb_params) (ordI : gset nat -> list nat) (inputs : list (gset N)) (output : gset N) (d : sizes) (mem : option nat) :
  (forall s, ordI s ≡ₚ elements s) -> bb_nbranch P <> Some 0 -> inputs <> [] -> (forall k c, k ∈ inputs -> c ∈ k -> is_Some (d !! c)) ->
  exists p, branch P ordI inputs output d mem = Ok p /\ path_runs (length inputs) p.
Proof. intros Ho Hb Hne Hd. apply branch_complete; [done..|]. apply Forall_forall. intros k Hk c. by apply Hd. Qed.
Print Assumptions C19_branch_complete.
Definition bb_std (nbranch : option nat) : bb_params := BBParams nbranch (fun new best => 4 * best <? new) MinFlops cost_memory_removed.
Example C19_instance : branch (bb_std None) ordI0 ex_in (lset "e") ex_d None = Ok [[0; 2]; [0; 2]; [0; 1]] /\
  branch (bb_std (Some 1)) ordI0 ex_in (lset "e") ex_d (Some 5) = Ok [[0; 1; 2; 3]] /\ branch (bb_std (Some 0)) ordI0 ex_in (lset "e") ex_d None = Err ValueError.
Proof. by vm_compute. Qed.
(** With every label in at most two places the path of a fresh instance keeps the limit, and its flops are those of its path. *)
Theorem C19_branch_cost (P : bb_params) (ordI : gset nat -> list nat) (inputs : list (gset N)) (output : gset N) (d : sizes) (mem : option nat) (p : path) (b' : bb_inst) :
  (forall s, ordI s ≡ₚ elements s) -> bb_nbranch P <> Some 0 -> inputs <> [] -> (forall k c, k ∈ inputs -> c ∈ k -> is_Some (d !! c)) ->
  (forall c, occurrences output inputs c <= 2) -> bb_call P ordI bb_fresh inputs output d mem = Ok (p, b') ->
  (forall limit k st, mem = Some limit -> replay output p inputs !! k = Some st -> S k < length p -> volume (size_of d) st.2 <= limit) /\
  (mem = None -> pairwise p /\ bi_flops b' = Some (sum_list (pair_cost (size_of d) <$> replay output p inputs))).
Proof. intros Ho Hb Hne Hd. apply bb_call_good; [done..|]. apply Forall_forall. intros k Hk c. by apply Hd. Qed.
Print Assumptions C19_branch_cost.

(** ** C39 *)
(** In every history of calls on one instance, a call with the contraction of the first call returns a complete path, and
    any other raises ValueError. *)
Theorem C39_history_partial (P : bb_params) (ordI : gset nat -> list nat) (first : bb_call_args) (calls : list bb_call_args) :
  (forall s, ordI s ≡ₚ elements s) -> bb_nbranch P <> Some 0 ->
  (forall c, c ∈ first :: calls -> c.1.1.1 <> [] /\ forall k l, k ∈ c.1.1.1 -> l ∈ k -> is_Some (c.1.2 !! l)) ->
  Forall2 (fun (c : bb_call_args) r => if decide (c.1 = first.1) then exists p, r = Ok p /\ path_runs (length c.1.1.1) p else r = Err ValueError)
    (first :: calls) (bb_history P ordI bb_fresh (first :: calls)).
Proof.
  intros Ho Hb Hc. apply bb_history_ok; [done|done| |by split|].
  - apply Forall_forall. intros c Hin. destruct (Hc c Hin) as [H1 H2]. split; [done|]. apply Forall_forall. intros k Hk l. by apply H2.
  - right. split; [done|]. by intros c [= <-].
Qed.
Print Assumptions C39_history_partial.
Definition ex39 : list (gset N) * gset N * sizes := ([lset "ab"; lset "bc"; lset "cd"], lset "ad", ldict [("ad", 5); ("bc", 2)]%string).
Example C39_instance : bb_history (bb_std None) ordI0 bb_fresh [(ex39, None); (ex39, None); ((ex39.1.1, lset "a", ex39.2), None); (ex39, Some 50)]
  = [Ok [[0; 1]; [0; 1]]; Ok [[0; 1]; [0; 1]]; Err ValueError; Ok [[0; 1]; [0; 1]]].
Proof. by vm_compute. Qed.
(** The limit of a later call is not honoured: with limit 4 a fresh instance contracts all at once, a used one returns the
    path found without limit, whose first intermediate has 10 elements. *)
Theorem C39_memory_limit_refuted : exists st,
  bb_history (bb_std None) ordI0 bb_fresh [(ex39, Some 4)] = [Ok [[0; 1; 2]]] /\
  bb_history (bb_std None) ordI0 bb_fresh [(ex39, None); (ex39, Some 4)] = [Ok [[0; 1]; [0; 1]]; Ok [[0; 1]; [0; 1]]] /\
  replay ex39.1.2 [[0; 1]; [0; 1]] ex39.1.1 !! 0 = Some st /\ volume (size_of ex39.2) st.2 = 10.
Proof. eexists. split; [by vm_compute|]. split; [by vm_compute|]. split; [done|by vm_compute]. Qed.
