(** Properties C53-C55: the quality of the path found by [BranchBound]; statements, each with a concrete instance.  Every label is in at most two places (two
    operands, or one operand and the output), and the memory limit, if there is one, is not exceeded by any set of labels of the operands. *)
From Verif Require Import Prelude Helpers Contract Spec PathSpec ContractFacts PathFacts Ssa SsaSpec Optimal OptimalFacts Branch BranchFacts BranchSpec BranchOrder Greedy GreedySpec PropsContract PropsPaths.

Definition never_exceeded (d : sizes) (inputs : list (gset N)) (mem : option nat) : Prop :=
  forall limit k, mem = Some limit -> k ⊆ union_all inputs -> volume (size_of d) k <= limit.
Lemma no_limit d inputs : never_exceeded d inputs None.
Proof. done. Qed.

(** Computable checks for the examples. *)
Definition twice_check (out : gset N) (l : list (gset N)) : bool := forallb (fun c => occurrences out l c <=? 2) (elements (union_all l)).
Lemma twice_check_ok out l : twice_check out l = true -> forall c, occurrences out l c <= 2.
Proof.
  unfold twice_check. rewrite forallb_forall. intros H c. destruct (decide (c ∈ union_all l)) as [Hc|Hc].
  - apply Nat.leb_le, H, elem_of_list_In. by apply elem_of_elements.
  - unfold occurrences. destruct (filter (fun k => c ∈ k) l) as [|k r] eqn:E; [destruct (decide (c ∈ out)); simpl; lia|].
    destruct Hc. apply elem_union_all. exists k. assert (Hk : k ∈ filter (fun k => c ∈ k) l) by (rewrite E; left). apply elem_of_list_filter in Hk. tauto.
Qed.
Fixpoint contracting_check (out : gset N) (p : path) (l : list (gset N)) : bool :=
  match p with
  | [] => true
  | s :: p => match chosen s l with [a; b] => negb (bool_decide (a ∩ b = ∅)) | _ => false end && contracting_check out p (others s l ++ [kept out s l])
  end.
Lemma contracting_check_ok out p l : contracting_check out p l = true -> each_step contracting out p l.
Proof.
  revert l. induction p as [|s p IH]; intros l; cbn [contracting_check each_step]; [done|]. rewrite andb_true_iff. intros [H1 H2]. split; [|by apply IH].
  destruct (chosen s l) as [|a [|b [|]]]; try done. exists a, b. split; [done|]. left. apply negb_true_iff, bool_decide_eq_false in H1. apply set_choose_L in H1 as (c & Hc). exists c. set_solver.
Qed.
Fixpoint runs_check (n : nat) (p : path) : bool :=
  match p with
  | [] => n =? 1
  | s :: p => negb (bool_decide (s = [])) && bool_decide (NoDup s) && forallb (fun i => i <? n) s && runs_check (n - length s + 1) p
  end.
Lemma runs_check_ok n p : runs_check n p = true -> path_runs n p.
Proof.
  revert n. induction p as [|s p IH]; intros n; simpl; [by intros ?%Nat.eqb_eq|]. rewrite !andb_true_iff. intros [[[H1 H2] H3] H4].
  apply negb_true_iff, bool_decide_eq_false in H1. apply bool_decide_eq_true in H2. split; [done|]. split; [done|]. split; [|by apply IH].
  rewrite forallb_forall in H3. apply Forall_forall. intros i Hi. apply Nat.ltb_lt, H3. by apply elem_of_list_In.
Qed.
Definition sized_check (d : sizes) (l : list (gset N)) : bool := forallb (fun k => forallb (fun c => bool_decide (is_Some (d !! c))) (elements k)) l.
Lemma sized_check_ok d l : sized_check d l = true -> forall k c, k ∈ l -> c ∈ k -> is_Some (d !! c).
Proof.
  unfold sized_check. rewrite forallb_forall. intros H k c Hk Hc. apply elem_of_list_In, H in Hk. rewrite forallb_forall in Hk. apply elem_of_elements, elem_of_list_In, Hk in Hc.
  by apply bool_decide_eq_true in Hc.
Qed.

Lemma volume_grows (D : N -> nat) (S S' : gset N) : (forall c, c ∈ S' -> 1 <= D c) -> S ⊆ S' -> volume D S <= volume D S'.
Proof.
  intros H1 Hs. unfold volume. rewrite (union_difference_L S S' Hs). assert (Hp : elements (S ∪ S' ∖ S) ≡ₚ elements S ++ elements (S' ∖ S)) by (apply elements_disj_union; set_solver).
  rewrite (prod_list_perm (D <$> elements (S ∪ S' ∖ S)) (D <$> (elements S ++ elements (S' ∖ S)))) by (by rewrite Hp). rewrite fmap_app.
  assert (Happ : forall l k, prod_list (l ++ k) = prod_list l * prod_list k) by (unfold prod_list; induction l as [|a l IH]; intros k; simpl; [lia|]; rewrite IH; lia). rewrite Happ.
  assert (Hge : 1 <= prod_list (D <$> elements (S' ∖ S))).
  { assert (Hall : Forall (fun c => 1 <= D c) (elements (S' ∖ S))) by (apply Forall_forall; intros c Hc%elem_of_elements; apply H1; set_solver). clear -Hall. induction Hall as [|c l Hc _ IH]; [cbn; lia|]. rewrite fmap_cons. change (1 <= D c * prod_list (D <$> l)). nia. }
  nia.
Qed.

(** ** C53 *)
(** All branches and no cutoff: the path is at least as good as any path that contracts operands with a common label while there are some. *)
Theorem C53_all_branches_best_partial (P : bb_params) (ordI : gset nat -> list nat) (inputs : list (gset N)) (output : gset N) (d : sizes) (mem : option nat) (p q : path) :
  (forall s, ordI s ≡ₚ elements s) -> inputs <> [] -> (forall k c, k ∈ inputs -> c ∈ k -> is_Some (d !! c)) -> (forall c, occurrences output inputs c <= 2) ->
  never_exceeded d inputs mem -> bb_nbranch P = None -> (forall new best, bb_cut P new best = false) ->
  branch P ordI inputs output d mem = Ok p -> path_runs (length inputs) q -> each_step contracting output q inputs ->
  pairwise p /\ no_worse (bb_minimize P) (path_flops (size_of d) output p inputs) (path_size (size_of d) output p inputs) (path_flops (size_of d) output q inputs) (path_size (size_of d) output q inputs).
Proof.
  intros Ho Hne Hd H2 Hm Hb Hcut H Hq Hst. unfold branch in H. rewrite decide_False in H by (rewrite Hb; done). apply bind_Ok in H as ([p' b'] & H & Hp). apply Ok_inj in Hp as ->.
  destruct (bb_call_search P ordI Ho output d mem inputs H2 Hm) with p b' as (Hpw & _ & _ & Hbest); [by rewrite Hb|done| |done|].
  - apply Forall_forall. intros k Hk c. by apply Hd.
  - split; [done|]. by apply Hbest.
Qed.
Print Assumptions C53_all_branches_best_partial.
Definition bb_nocut (m : minimize) : bb_params := BBParams None (fun _ _ => false) m cost_memory_removed.
Definition ex53_in : list (gset N) := [lset "bc"; lset "b"; lset "a"; lset "ac"].
Definition ex53_d : sizes := ldict [("a"%string, 10); ("b"%string, 2); ("c"%string, 20)].
Definition costs (d : sizes) (out : gset N) (p : path) (l : list (gset N)) : nat * nat := (path_flops (size_of d) out p l, path_size (size_of d) out p l).
(** bc,b,a,ac->: without cutoff the search finds 484 operations. *)
Example C53_instance : branch (bb_nocut MinFlops) ordI0 ex53_in ∅ ex53_d None = Ok [[2; 3]; [0; 2]; [0; 1]] /\ costs ex53_d ∅ [[2; 3]; [0; 2]; [0; 1]] ex53_in = (484, 20).
Proof. by vm_compute. Qed.
Example C53_hypothesis : (forall k c, k ∈ ex53_in -> c ∈ k -> is_Some (ex53_d !! c)) /\ (forall c, occurrences ∅ ex53_in c <= 2) /\
  path_runs 4 [[0; 3]; [0; 2]; [0; 1]] /\ each_step contracting ∅ [[0; 3]; [0; 2]; [0; 1]] ex53_in /\ costs ex53_d ∅ [[0; 3]; [0; 2]; [0; 1]] ex53_in = (860, 20).
Proof. split; [by apply sized_check_ok; vm_compute|]. split; [by apply twice_check_ok; vm_compute|]. split; [by apply runs_check_ok; vm_compute|]. split; [by apply contracting_check_ok; vm_compute|]. by vm_compute. Qed.
(** The default cutoff (a factor of 4) can drop the best path: on the same network it leaves 500 operations. *)
Theorem C53_cutoff_refuted : exists (inputs : list (gset N)) (output : gset N) (d : sizes) (p q : path),
  (forall k c, k ∈ inputs -> c ∈ k -> is_Some (d !! c)) /\ (forall c, occurrences output inputs c <= 2) /\ branch (bb_std None) ordI0 inputs output d None = Ok p /\
  path_runs (length inputs) q /\ each_step contracting output q inputs /\ path_flops (size_of d) output q inputs < path_flops (size_of d) output p inputs.
Proof.
  exists ex53_in, ∅, ex53_d, [[0; 1]; [1; 2]; [0; 1]], [[2; 3]; [0; 2]; [0; 1]]. split; [by apply sized_check_ok; vm_compute|]. split; [by apply twice_check_ok; vm_compute|].
  split; [by vm_compute|]. split; [by apply runs_check_ok; vm_compute|]. split; [by apply contracting_check_ok; vm_compute|]. apply Nat.ltb_lt. by vm_compute.
Qed.
Print Assumptions C53_cutoff_refuted.
(** A path with an early outer product can be better than any path found: for ,acd,bc->abd the product of the first and last operand first. *)
Definition ex53o_in : list (gset N) := [lset ""; lset "acd"; lset "bc"].
Definition ex53o_d : sizes := ldict [("acd"%string, 10); ("b"%string, 3)].
Theorem C53_outer_refuted : exists (inputs : list (gset N)) (output : gset N) (d : sizes) (p q : path),
  (forall k c, k ∈ inputs -> c ∈ k -> is_Some (d !! c)) /\ (forall c, occurrences output inputs c <= 2) /\ branch (bb_nocut MinFlops) ordI0 inputs output d None = Ok p /\
  path_runs (length inputs) q /\ pairwise q /\ path_flops (size_of d) output q inputs < path_flops (size_of d) output p inputs.
Proof.
  exists ex53o_in, (lset "abd"), ex53o_d, [[1; 2]; [0; 1]], [[0; 2]; [0; 1]]. split; [by apply sized_check_ok; vm_compute|]. split; [by apply twice_check_ok; vm_compute|].
  split; [by vm_compute|]. split; [by apply runs_check_ok; vm_compute|]. split; [by repeat constructor|]. apply Nat.ltb_lt. by vm_compute.
Qed.
Print Assumptions C53_outer_refuted.

(** ** C54 *)
(** Whatever the number of branches, the cutoff, the cost function (possibly random) and [minimize], the path is at least as good as the one found with one branch. *)
Theorem C54_no_worse_than_one_branch (P : bb_params) (ordI : gset nat -> list nat) (inputs : list (gset N)) (output : gset N) (d : sizes) (mem : option nat) (p p1 : path) :
  (forall s, ordI s ≡ₚ elements s) -> inputs <> [] -> (forall k c, k ∈ inputs -> c ∈ k -> is_Some (d !! c)) -> (forall c, occurrences output inputs c <= 2) ->
  never_exceeded d inputs mem ->
  branch P ordI inputs output d mem = Ok p -> branch (BBParams (Some 1) (bb_cut P) (bb_minimize P) (bb_cost P)) ordI inputs output d mem = Ok p1 ->
  no_worse (bb_minimize P) (path_flops (size_of d) output p inputs) (path_size (size_of d) output p inputs) (path_flops (size_of d) output p1 inputs) (path_size (size_of d) output p1 inputs).
Proof.
  intros Ho Hne Hd H2 Hm H H1. assert (Hl : Forall (labels_in d) inputs) by (apply Forall_forall; intros k Hk c; by apply Hd).
  unfold branch in H, H1. destruct (decide (bb_nbranch P = Some 0)) as [|Hb]; [done|]. apply bind_Ok in H as ([p' b] & H & Hp). apply Ok_inj in Hp as ->.
  rewrite decide_False in H1 by done. apply bind_Ok in H1 as ([p' b1] & H1 & Hp). apply Ok_inj in Hp as ->. fold (P1 P) in H1.
  destruct (bb_call_search P ordI Ho output d mem inputs H2 Hm Hb Hne Hl p b H) as (_ & Hf & Hs & _).
  assert (Hb1 : bb_nbranch (P1 P) <> Some 0) by done.
  destruct (bb_call_search (P1 P) ordI Ho output d mem inputs H2 Hm Hb1 Hne Hl p1 b1 H1) as (_ & Hf1 & Hs1 & _).
  destruct (bb_call_one P ordI Ho output d mem inputs H2 Hm Hb Hne Hl p1 b1 p b H1 H _ _ Hf1 Hs1) as (f' & s' & Ef & Es & Hn). rewrite Hf in Ef. rewrite Hs in Es. injection Ef as <-. injection Es as <-. exact Hn.
Qed.
Print Assumptions C54_no_worse_than_one_branch.
(** bc,a,cd,abd->: 1520 operations with one branch, 858 with two, 848 with all. *)
Definition ex54_in : list (gset N) := [lset "bc"; lset "a"; lset "cd"; lset "abd"].
Definition ex54_d : sizes := ldict [("a"%string, 4); ("b"%string, 20); ("cd"%string, 3)].
Definition found (nbranch : option nat) : res (nat * nat) := p ← branch (bb_std nbranch) ordI0 ex54_in ∅ ex54_d None; Ok (costs ex54_d ∅ p ex54_in).
Example C54_instance : found (Some 1) = Ok (1520, 36) /\ found (Some 2) = Ok (858, 60) /\ found None = Ok (848, 60) /\ bb_std (Some 1) = BBParams (Some 1) (bb_cut (bb_std None)) (bb_minimize (bb_std None)) (bb_cost (bb_std None)).
Proof. by vm_compute. Qed.
Example C54_hypothesis : (forall k c, k ∈ ex54_in -> c ∈ k -> is_Some (ex54_d !! c)) /\ (forall c, occurrences ∅ ex54_in c <= 2).
Proof. split; [by apply sized_check_ok; vm_compute|by apply twice_check_ok; vm_compute]. Qed.

(** ** C55 *)
(** One branch: at each step, of the pairs with a common label (of all pairs if there is none), one with the least cost; ties go to the fewer operations.  A pair is
    passed over only if another one makes it fall under the cutoff. *)
Theorem C55_one_branch_cheapest_partial (P : bb_params) (cost : nat -> nat -> nat -> gset N -> gset N -> gset N -> Z) (ordI : gset nat -> list nat) (inputs : list (gset N)) (output : gset N) (d : sizes) (mem : option nat) (p : path) :
  (forall s, ordI s ≡ₚ elements s) -> inputs <> [] -> (forall k c, k ∈ inputs -> c ∈ k -> is_Some (d !! c)) -> (forall c, occurrences output inputs c <= 2) ->
  never_exceeded d inputs mem -> bb_nbranch P = Some 1 -> (forall calls s12 s1 s2 k12 k1 k2, bb_cost P calls s12 s1 s2 k12 k1 k2 = cost s12 s1 s2 k12 k1 k2) ->
  branch P ordI inputs output d mem = Ok p -> each_choice (best_choice cost (bb_cut P) (size_of d) output) (size_of d) output 0 p inputs.
Proof.
  intros Ho Hne Hd H2 Hm Hb Hc H. assert (Hl : Forall (labels_in d) inputs) by (apply Forall_forall; intros k Hk c; by apply Hd).
  unfold branch in H. rewrite decide_False in H by (rewrite Hb; done). apply bind_Ok in H as ([p' b] & H & Hp). apply Ok_inj in Hp as ->.
  apply (bb_call_choices P ordI Ho output d mem inputs H2 Hm cost) with b; [by rewrite Hb|done..].
Qed.
Print Assumptions C55_one_branch_cheapest_partial.
(** Greedy with a memory limit that is not exceeded: the cost is the memory added, the cutoff a factor of 4. *)
Theorem C55_greedy_with_limit_partial (ordI : gset nat -> list nat) (choose_fn : option chooser) (inputs : list (gset N)) (output : gset N) (d : sizes) (limit : nat) (p : path) :
  (forall s, ordI s ≡ₚ elements s) -> inputs <> [] -> (forall k c, k ∈ inputs -> c ∈ k -> is_Some (d !! c)) -> (forall c, occurrences output inputs c <= 2) ->
  never_exceeded d inputs (Some limit) -> greedy cost_memory_removed choose_fn ordI inputs output d (Some limit) = Ok p ->
  each_choice (best_choice memory_added (fun new best => 4 * best <? new) (size_of d) output) (size_of d) output 0 p inputs.
Proof.
  intros Ho Hne Hd H2 Hm H. refine (C55_one_branch_cheapest_partial (BBParams (Some 1) (fun new best => 4 * best <? new) MinFlops cost_memory_removed) memory_added ordI inputs output d (Some limit) p Ho Hne Hd H2 Hm eq_refl _ H).
  intros. simpl. unfold cost_memory_removed, memory_added. lia.
Qed.
Print Assumptions C55_greedy_with_limit_partial.
(** bc,a,cd,abd->: the first step frees most memory (264 elements) though others add fewer operations; a,bc is not a candidate. *)
Example C55_instance : branch (bb_std (Some 1)) ordI0 ex54_in ∅ ex54_d None = Ok [[0; 3]; [1; 2]; [0; 1]] /\
  greedy cost_memory_removed None ordI0 ex54_in ∅ ex54_d (Some 720) = Ok [[0; 3]; [1; 2]; [0; 1]] /\
  (fun ij : nat * nat => (cost_of memory_added (size_of ex54_d) ∅ ex54_in ij.1 ij.2, adds (size_of ex54_d) ∅ ex54_in ij.1 ij.2)) <$> [(0, 2); (0, 3); (1, 3); (2, 3)] =
    [((-9)%Z, 360); ((-264)%Z, 1440); ((-184)%Z, 480); ((-9)%Z, 1440)].
Proof. by vm_compute. Qed.
Example C55_hypothesis : never_exceeded ex54_d ex54_in (Some 720) /\ ~ best_choice memory_added (fun new best => 4 * best <? new) (size_of ex54_d) ∅ 0 ex54_in 1 3.
Proof.
  split.
  - intros limit k [= <-] Hk. transitivity (volume (size_of ex54_d) (union_all ex54_in)); [|apply Nat.leb_le; by vm_compute]. apply volume_grows; [|done].
    assert (Hb : forallb (fun c => 1 <=? size_of ex54_d c) (elements (union_all ex54_in)) = true) by by vm_compute.
    intros c Hc%elem_of_elements%elem_of_list_In. rewrite forallb_forall in Hb. by apply Nat.leb_le, Hb.
  - intros [_ H]. specialize (H 0 3). destruct H as [H|[H _]].
    + exists (lset "bc"), (lset "abd"). split; [lia|]. split; [done|]. split; [done|]. left. exists 98%N. split; [done|]. split; by apply (bool_decide_unpack _); vm_compute.
    + intros i j (a & b & Hij & Ha & Hb & Hl). assert (Hi : i < 4) by by apply lookup_lt_Some in Ha. assert (Hj : j < 4) by by apply lookup_lt_Some in Hb.
      assert (Hd : forall x y, bool_decide (x ∩ y = ∅) = true -> ~ linked any_label x y) by (intros x y Hxy%bool_decide_eq_true (c & _ & ? & ?); set_solver).
      assert (Hl' : linked any_label a b).
      { destruct Hl as [?|Hu]; [done|]. destruct (Hu 0 2 (lset "bc") (lset "cd")); [done|done|done|]. exists 99%N. split; [done|]. split; by apply (bool_decide_unpack _); vm_compute. }
      destruct j as [|[|[|[|j]]]], i as [|[|[|[|i]]]]; try lia; try (by vm_compute); exfalso; injection Ha as <-; injection Hb as <-; revert Hl'; apply Hd; by vm_compute.
    + by vm_compute in H.
    + by vm_compute in H.
Qed.
(** The cutoff can exclude the cheapest pair: for bc,b,a,ac-> the first step adds 80 operations and frees 22 elements; a,ac would add 400 and free 190. *)
Theorem C55_cutoff_refuted : exists (inputs : list (gset N)) (output : gset N) (d : sizes) (i j i' j' : nat) (p : path),
  (forall k c, k ∈ inputs -> c ∈ k -> is_Some (d !! c)) /\ (forall c, occurrences output inputs c <= 2) /\ branch (bb_std (Some 1)) ordI0 inputs output d None = Ok ([i; j] :: p) /\
  allowed inputs i' j' /\ (cost_of memory_added (size_of d) output inputs i' j' < cost_of memory_added (size_of d) output inputs i j)%Z.
Proof.
  exists ex53_in, ∅, ex53_d, 0, 1, 2, 3, [[1; 2]; [0; 1]]. split; [by apply sized_check_ok; vm_compute|]. split; [by apply twice_check_ok; vm_compute|]. split; [by vm_compute|].
  split; [|vm_compute; reflexivity]. exists (lset "a"), (lset "ac"). split; [lia|]. split; [done|]. split; [done|]. left. exists 97%N. split; [done|]. split; by apply (bool_decide_unpack _); vm_compute.
Qed.
Print Assumptions C55_cutoff_refuted.
