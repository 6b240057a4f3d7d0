(** Properties C20 and following: greedy and the other path searches; statements, each with a concrete instance. *)
From Verif Require Import Prelude Einsum EinsumFacts Helpers Contract Spec PathSpec StringFacts StepFacts ContractFacts PathFacts RefBackend Ssa SsaSpec SsaFacts SsaMore Optimal OptimalFacts Branch BranchFacts Greedy GreedyFacts Tree TreeSpec TreeFacts DpSpec Dp PartsFacts DpFacts PropsPaths.

(** ** C20 *)
(** [cost_fn] may depend on the number of earlier calls, the sizes and the label sets (so also on a random source).  [choose_fn] may be
    any function that only removes queue entries and returns a current entry, or [None] after removing something. *)
Theorem C20_greedy_ssa_complete (cost_fn : cost_fun) (choose_fn : option chooser) (inputs : list (gset N)) (output : gset N) (d : sizes) :
  match choose_fn with None => True | Some ch => chooser_ok ch end -> inputs <> [] -> (forall k c, k ∈ inputs -> c ∈ k -> is_Some (d !! c)) ->
  exists p, ssa_greedy cost_fn choose_fn inputs output d = Ok p /\ ssa_complete (length inputs) p /\ (2 <= length inputs -> pairwise p).
Proof. intros Hc Hne Hd. apply greedy_ssa_ok; [done|done|]. apply Forall_forall. intros k Hk c. by apply Hd. Qed.
Print Assumptions C20_greedy_ssa_complete.
Theorem C20_greedy_complete (cost_fn : cost_fun) (choose_fn : option chooser) (ordI : gset nat -> list nat) (inputs : list (gset N)) (output : gset N) (d : sizes) (mem : option nat) :
  match choose_fn with None => True | Some ch => chooser_ok ch end -> (forall s, ordI s ≡ₚ elements s) -> inputs <> [] -> (forall k c, k ∈ inputs -> c ∈ k -> is_Some (d !! c)) ->
  exists p, greedy cost_fn choose_fn ordI inputs output d mem = Ok p /\ path_runs (length inputs) p.
Proof. intros Hc Ho Hne Hd. apply greedy_complete; [done|done|done|]. apply Forall_forall. intros k Hk c. by apply Hd. Qed.
Print Assumptions C20_greedy_complete.
(** The two choosers of the library meet the contract, whatever [thermal_chooser] draws. *)
Theorem C20_simple_chooser : chooser_ok simple_chooser.
Proof. exact simple_chooser_ok. Qed.
Print Assumptions C20_simple_chooser.
Theorem C20_thermal_chooser (nbranch : nat) (pick : nat -> list gcand -> nat) : 1 <= nbranch -> (forall k l, l <> [] -> pick k l < length l) -> chooser_ok (thermal_chooser nbranch pick).
Proof. apply thermal_chooser_ok. Qed.
Print Assumptions C20_thermal_chooser.
(** Repeated terms, a scalar, a hyper-edge ([a] on four terms), two parts. *)
Definition ex_greedy_in : list (gset N) := [lset "ab"; lset "bc"; lset "ab"; lset ""; lset "ac"; lset "ade"; lset "e"; lset "fg"; lset "g"].
Definition ex_greedy_d : sizes := ldict [("a"%string, 2); ("b"%string, 3); ("c"%string, 4); ("d"%string, 5); ("e"%string, 2); ("f"%string, 0); ("g"%string, 1)].
Definition removed (_ s12 s1 s2 : nat) (_ _ _ : gset N) : Z := (Z.of_nat s12 - Z.of_nat s1 - Z.of_nat s2)%Z.
Example C20_instance :
  ssa_greedy removed None ex_greedy_in (lset "df") ex_greedy_d = Ok [[0; 2]; [1; 4]; [9; 10]; [5; 11]; [6; 12]; [7; 8]; [3; 14]; [13; 15]] /\
  ssa_greedy removed (Some (thermal_chooser 2 (fun k _ => k mod 2))) ex_greedy_in (lset "df") ex_greedy_d = Ok [[0; 2]; [1; 4]; [9; 10]; [5; 6]; [11; 12]; [7; 8]; [3; 14]; [13; 15]] /\
  forallb (fun k => forallb (fun c => bool_decide (is_Some (ex_greedy_d !! c))) (elements k)) ex_greedy_in = true.
Proof. by vm_compute. Qed.
(** With [nbranch = 0] [thermal_chooser] takes nothing from the queue and the main loop never ends. *)
Theorem C20_nbranch0_refuted (cost_fn : cost_fun) (pick : nat -> list gcand -> nat) (output : gset N) (d : sizes) (st : gstate) (fuel : nat) :
  g_queue st <> [] -> greedy_loop cost_fn (thermal_chooser 0 pick) true output d fuel st = Err NoFuel.
Proof.
  revert st. induction fuel as [|fuel IH]; intros st Hq; simpl; destruct (g_queue st) as [|c q] eqn:E; try done.
  unfold thermal_chooser. assert (Ht : thermal_take 0 (g_rem st) (merge_sort gcand_le (c :: q)) = ([], merge_sort gcand_le (c :: q))) by (by destruct (merge_sort gcand_le (c :: q))).
  rewrite Ht. cbn [mbind res_bind]. apply IH. cbn [g_queue]. intros H. pose proof (merge_sort_Permutation gcand_le (c :: q)) as Hp. rewrite H in Hp. apply Permutation_nil_l in Hp. discriminate Hp.
Qed.
Print Assumptions C20_nbranch0_refuted.
Example C20_nbranch0_instance : ssa_greedy removed (Some (thermal_chooser 0 (fun _ _ => 0))) ex_greedy_in (lset "df") ex_greedy_d = Err NoFuel.
Proof. by vm_compute. Qed.

(** ** C21 *)
(** Running the path contracts exactly the nodes of the tree, whatever the (commutative) contraction [f] is, and ends with the root. *)
Theorem C21_tree_realised (n : nat) (t : tree) : tree_over n t ->
  exists p, tree_to_sequence t = Ok p /\ path_runs n p /\
    forall A (f : list A -> A) (vals : list A) (L : nat -> A), commutes f -> length vals = n -> (forall i x, vals !! i = Some x -> L i = x) ->
      run_path f p vals = [value f L t] /\ results f p vals ≡ₚ value f L <$> nodes t.
Proof. apply tree_to_sequence_ok. Qed.
Print Assumptions C21_tree_realised.
(** The example of the docstring. *)
Definition ex_tree : tree := Node [Node [Leaf 1; Leaf 2]; Node [Leaf 0; Node [Leaf 4; Leaf 5; Leaf 3]]].
Example C21_instance : tree_to_sequence ex_tree = Ok [[1; 2]; [1; 2; 3]; [0; 2]; [0; 1]].
Proof. by vm_compute. Qed.
Example C21_hypothesis : tree_over 6 ex_tree.
Proof.
  split; [|simpl; rewrite !elem_of_cons, elem_of_nil; intros H; repeat destruct H as [H|H]; done]. change (leaves ex_tree) with [1; 2; 0; 4; 5; 3]. apply NoDup_Permutation; [by apply (bool_decide_unpack _); vm_compute|apply NoDup_seq|].
  intros i. rewrite elem_of_seq, !elem_of_cons, elem_of_nil. lia.
Qed.

(** ** C22 *)
(** Whatever order sets are iterated in and whichever element [set.pop] takes. *)
Theorem C22_parts_connected (ordI : gset nat -> list nat) (pop : gset nat -> nat) (inputs : list (gset N)) (output : gset N) :
  (forall s, ordI s ≡ₚ elements s) -> (forall s, s <> ∅ -> pop s ∈ s) -> inputs <> [] ->
  exists gs, find_parts ordI pop inputs output = Ok gs /\ connected_parts inputs output gs.
Proof. intros. by apply find_parts_ok. Qed.
Print Assumptions C22_parts_connected.
Definition pop0 (s : gset nat) : nat := default 0 (head (ordI0 s)).
(** The examples of the docstring, and a chain of four terms (through labels absent from the output) next to two other parts. *)
Definition part_lists (r : res (list (gset nat))) : list (list nat) := match r with Ok gs => ordI0 <$> gs | Err _ => [] end.
Example C22_instance :
  part_lists (find_parts ordI0 pop0 [lset "ab"; lset "c"; lset "ad"] (lset "bd")) = [[0; 2]; [1]] /\
  part_lists (find_parts ordI0 pop0 [lset "ab"; lset "c"; lset "ad"] (lset "abd")) = [[0]; [1]; [2]] /\
  part_lists (find_parts ordI0 pop0 [lset "abx"; lset "xy"; lset "cd"; lset "bc"; lset ""; lset "ae"; lset "y"] (lset "xy")) = [[0; 2; 3; 5]; [1]; [4]; [6]].
Proof. by vm_compute. Qed.
Example C22_hypothesis : (forall s, ordI0 s ≡ₚ elements s) /\ (forall s, s <> ∅ -> pop0 s ∈ s).
Proof.
  split; [exact ordI0_ok|]. intros s Hs. unfold pop0. destruct (ordI0 s) as [|j l] eqn:E.
  - exfalso. apply Hs. pose proof (ordI0_ok s) as H. rewrite E in H. apply Permutation_nil_l in H. apply leibniz_equiv, elements_empty_inv. by rewrite <-H.
  - simpl. apply elem_of_elements. rewrite <-(ordI0_ok s), E. left.
Qed.
