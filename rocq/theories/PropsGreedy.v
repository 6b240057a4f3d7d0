(** Properties C49 and following: the order of the steps of the greedy search; statements, each with a concrete instance. *)
From Verif Require Import Prelude Helpers Contract Spec PathSpec ContractFacts PathFacts Ssa SsaSpec Optimal OptimalFacts Branch Greedy GreedyFacts GreedySpec GreedyPhases GreedyFirst PropsContract PropsPaths PropsSearch.

(** ** C49 *)
(** For every cost function; [choose_fn=None] is the default. *)
Theorem C49_outer_last (cost_fn : cost_fun) (ordI : gset nat -> list nat) (inputs : list (gset N)) (output : gset N) (d : sizes) (p : path) :
  2 <= length inputs -> (forall k c, k ∈ inputs -> c ∈ k -> is_Some (d !! c)) -> greedy cost_fn None ordI inputs output d None = Ok p ->
  each_step (outer_last (free inputs output)) output p inputs.
Proof. intros Hl Hd. apply greedy_linear_outer_last; [done|done|]. apply Forall_forall. intros k Hk c. by apply Hd. Qed.
Print Assumptions C49_outer_last.
(** With the chooser of [RandomGreedy], whatever it draws. *)
Theorem C49_random_outer_last (cost_fn : cost_fun) (nbranch : nat) (pick : nat -> list gcand -> nat) (ordI : gset nat -> list nat) (inputs : list (gset N)) (output : gset N) (d : sizes) (p : path) :
  1 <= nbranch -> (forall k l, l <> [] -> pick k l < length l) -> 2 <= length inputs -> (forall k c, k ∈ inputs -> c ∈ k -> is_Some (d !! c)) ->
  greedy cost_fn (Some (thermal_chooser nbranch pick)) ordI inputs output d None = Ok p -> each_step (outer_last (free inputs output)) output p inputs.
Proof.
  intros Hb Hp Hl Hd. apply greedy_linear_outer_last; [|done|].
  - split; [by apply thermal_chooser_ok|apply thermal_chooser_fair].
  - apply Forall_forall. intros k Hk c. by apply Hd.
Qed.
Print Assumptions C49_random_outer_last.
(** The network of C20: the first step multiplies equal terms, four contractions follow, the last three steps are outer products.  A path that starts with an
    outer product does not have the property. *)
Example C49_instance :
  greedy cost_memory_removed None ordI0 ex_greedy_in (lset "df") ex_greedy_d None = Ok [[0; 2]; [0; 2]; [5; 6]; [1; 5]; [1; 4]; [1; 2]; [0; 2]; [0; 1]] /\
  (chosen [1; 2] [lset ""; lset "fg"; lset "g"; lset "d"] = [lset "fg"; lset "g"]) /\
  ~ each_step (outer_last (free ex_greedy_in (lset "df"))) (lset "df") [[0; 3]] ex_greedy_in.
Proof.
  split; [by vm_compute|]. split; [by vm_compute|]. intros [(a & b & Hab & Hq) _].
  assert (E : chosen [0; 3] ex_greedy_in = [lset "ab"; lset ""]) by by vm_compute. rewrite E in Hab. injection Hab as <- <-. destruct Hq as [(c & _ & _ & Hc)|[Hq|Hq]].
  - assert (Hn : lset "" = ∅) by by vm_compute. rewrite Hn in Hc. by apply elem_of_empty in Hc.
  - assert (Hn : bool_decide (lset "ab" = lset "") = false) by by vm_compute. by apply bool_decide_eq_false in Hn.
  - apply (Hq 0 2 (lset "ab") (lset "bc")); [done|by vm_compute|by vm_compute|]. exists 98%N. split; [|split; by apply (bool_decide_unpack _); vm_compute].
    split; [apply (bool_decide_unpack (98%N ∉ lset "df")); by vm_compute|]. exists (lset ""). split; [apply (elem_of_list_lookup_2 _ 3); by vm_compute|apply (bool_decide_unpack (98%N ∉ lset "")); by vm_compute].
Qed.

(** ** C50 *)
(** For every cost function that depends on sizes and labels only. *)
Theorem C50_first_step_partial (cost : nat -> nat -> nat -> gset N -> gset N -> gset N -> Z) (ordI : gset nat -> list nat) (inputs : list (gset N)) (output : gset N) (d : sizes) (p : path) :
  NoDup inputs -> (forall k c, k ∈ inputs -> c ∈ k -> is_Some (d !! c)) ->
  (exists i j a b, i < j /\ inputs !! i = Some a /\ inputs !! j = Some b /\ linked (free inputs output) a b) ->
  greedy (fun _ => cost) None ordI inputs output d None = Ok p ->
  exists i j p', p = [i; j] :: p' /\ cheapest_pair (free inputs output) (cost_of cost (size_of d) output inputs) inputs i j.
Proof. intros Hnd Hd. apply greedy_linear_first; [done|]. apply Forall_forall. intros k Hk c. by apply Hd. Qed.
Print Assumptions C50_first_step_partial.
(** The default cost function. *)
Theorem C50_first_step_memory_partial (ordI : gset nat -> list nat) (inputs : list (gset N)) (output : gset N) (d : sizes) (p : path) :
  NoDup inputs -> (forall k c, k ∈ inputs -> c ∈ k -> is_Some (d !! c)) ->
  (exists i j a b, i < j /\ inputs !! i = Some a /\ inputs !! j = Some b /\ linked (free inputs output) a b) ->
  greedy cost_memory_removed None ordI inputs output d None = Ok p ->
  exists i j p', p = [i; j] :: p' /\ cheapest_pair (free inputs output) (cost_of memory_added (size_of d) output inputs) inputs i j.
Proof.
  intros Hnd Hd He H. destruct (C50_first_step_partial (fun s12 s1 s2 _ _ _ => (Z.of_nat s12 - Z.of_nat s1 - Z.of_nat s2)%Z) ordI inputs output d p Hnd Hd He H) as (i & j & p' & Hp & Hc & Hm).
  exists i, j, p'. split; [done|]. split; [done|]. intros i' j' Hij'. specialize (Hm i' j' Hij'). unfold cost_of, memory_added in *. lia.
Qed.
Print Assumptions C50_first_step_memory_partial.
Definition ex_later_in : list (gset N) := [lset "d"; lset "ab"; lset "bc"; lset "bde"].
Definition ex_later_d : sizes := ldict [("a"%string, 3); ("b"%string, 3); ("c"%string, 2); ("d"%string, 3); ("e"%string, 3)].
(** d,ab,bc,bde->: two pairs save 27 elements, the first one is taken. *)
Example C50_instance :
  NoDup ex_later_in /\ greedy cost_memory_removed None ordI0 ex_later_in ∅ ex_later_d None = Ok [[0; 3]; [0; 2]; [0; 1]] /\
  (fun ij : nat * nat => cost_of memory_added (size_of ex_later_d) ∅ ex_later_in ij.1 ij.2) <$> [(0, 3); (1, 2); (1, 3); (2, 3)] = [-27; -12; -27; -24]%Z.
Proof. split; [by apply (bool_decide_unpack _); vm_compute|]. by vm_compute. Qed.
Example C50_hypothesis : exists i j a b, i < j /\ ex_later_in !! i = Some a /\ ex_later_in !! j = Some b /\ linked (free ex_later_in ∅) a b.
Proof.
  exists 1, 2, (lset "ab"), (lset "bc"). split; [lia|]. split; [done|]. split; [done|]. exists 98%N. split; [|split; by apply (bool_decide_unpack _); vm_compute].
  split; [apply not_elem_of_empty|]. exists (lset "d"). split; [left|by apply (bool_decide_unpack (98%N ∉ lset "d")); vm_compute].
Qed.
(** Later steps need not be the cheapest: after d,bde->b the pair ab,bc saves 12 elements but is not in the queue (it was dropped for ab,bde), and ab,b is contracted, which saves 9. *)
Theorem C50_every_step_refuted : exists (inputs : list (gset N)) (output : gset N) (d : sizes) (s1 : list nat) (i j : nat) (p : path),
  NoDup inputs /\ (forall k c, k ∈ inputs -> c ∈ k -> is_Some (d !! c)) /\ greedy cost_memory_removed None ordI0 inputs output d None = Ok (s1 :: [i; j] :: p) /\
  let sets := others s1 inputs ++ [kept output s1 inputs] in exists i' j' a b, i' < j' /\ sets !! i' = Some a /\ sets !! j' = Some b /\ linked (free inputs output) a b /\
    (cost_of memory_added (size_of d) output sets i' j' < cost_of memory_added (size_of d) output sets i j)%Z.
Proof.
  exists ex_later_in, ∅, ex_later_d, [0; 3], 0, 2, [[0; 1]]. split; [by apply (bool_decide_unpack _); vm_compute|]. split; [|split; [by vm_compute|]].
  - assert (H : forallb (fun k => forallb (fun c => bool_decide (is_Some (ex_later_d !! c))) (elements k)) ex_later_in = true) by by vm_compute.
    intros k c Hk Hc. rewrite forallb_forall in H. apply elem_of_list_In, H in Hk. rewrite forallb_forall in Hk. apply elem_of_elements, elem_of_list_In, Hk in Hc. by apply bool_decide_eq_true in Hc.
  - assert (E : others [0; 3] ex_later_in ++ [kept ∅ [0; 3] ex_later_in] = [lset "ab"; lset "bc"; lset "b"]) by (by apply (bool_decide_unpack _); vm_compute). cbv zeta. rewrite E.
    exists 0, 1, (lset "ab"), (lset "bc"). split; [lia|]. split; [done|]. split; [done|]. split; [|vm_compute; reflexivity]. exists 98%N. split; [|split; by apply (bool_decide_unpack _); vm_compute].
    split; [apply not_elem_of_empty|]. exists (lset "d"). split; [left|by apply (bool_decide_unpack (98%N ∉ lset "d")); vm_compute].
Qed.
Print Assumptions C50_every_step_refuted.

(** ** C59 *)
(** For every cost function; [choose_fn=None] is the default. *)
Theorem C59_smallest_first (cost_fn : cost_fun) (ordI : gset nat -> list nat) (inputs : list (gset N)) (output : gset N) (d : sizes) (p : path) :
  2 <= length inputs -> (forall k c, k ∈ inputs -> c ∈ k -> is_Some (d !! c)) -> greedy cost_fn None ordI inputs output d None = Ok p ->
  each_step (smallest_first (free inputs output) (size_of d) output) output p inputs.
Proof. intros Hl Hd. apply greedy_linear_smallest_first; [done|done|]. apply Forall_forall. intros k Hk c. by apply Hd. Qed.
Print Assumptions C59_smallest_first.
(** With the chooser of [RandomGreedy], whatever it draws. *)
Theorem C59_random_smallest_first (cost_fn : cost_fun) (nbranch : nat) (pick : nat -> list gcand -> nat) (ordI : gset nat -> list nat) (inputs : list (gset N)) (output : gset N) (d : sizes) (p : path) :
  1 <= nbranch -> (forall k l, l <> [] -> pick k l < length l) -> 2 <= length inputs -> (forall k c, k ∈ inputs -> c ∈ k -> is_Some (d !! c)) ->
  greedy cost_fn (Some (thermal_chooser nbranch pick)) ordI inputs output d None = Ok p -> each_step (smallest_first (free inputs output) (size_of d) output) output p inputs.
Proof.
  intros Hb Hp Hl Hd. apply greedy_linear_smallest_first; [|done|].
  - split; [by apply thermal_chooser_ok|apply thermal_chooser_fair].
  - apply Forall_forall. intros k Hk c. by apply Hd.
Qed.
Print Assumptions C59_random_smallest_first.
(** "ax,b,cy,dy->abcd" with sizes a = 5, b = 2, c = 3, d = 1, x = 9, y = 7: after the contraction over y there are "ax", of which 5 elements count, "b" and "cd".
    Then "b" and "cd" are multiplied.  A path that multiplies "ax" and "b" first does not have the property. *)
Definition ex_parts : list (gset N) := [lset "ax"; lset "b"; lset "cy"; lset "dy"].
Definition ex_parts_d : sizes := ldict [("a"%string, 5); ("b"%string, 2); ("c"%string, 3); ("d"%string, 1); ("x"%string, 9); ("y"%string, 7)].
Example C59_instance :
  greedy cost_memory_removed None ordI0 ex_parts (lset "abcd") ex_parts_d None = Ok [[2; 3]; [1; 2]; [0; 1]] /\
  chosen [1; 2] [lset "ax"; lset "b"; lset "cd"] = [lset "b"; lset "cd"] /\
  ~ each_step (smallest_first (free ex_parts (lset "abcd")) (size_of ex_parts_d) (lset "abcd")) (lset "abcd") [[2; 3]; [0; 1]] ex_parts.
Proof.
  split; [by vm_compute|]. split; [by vm_compute|]. cbn [each_step]. intros [_ [(a & b & Hab & Hq) _]].
  assert (E : others [2; 3] ex_parts ++ [kept (lset "abcd") [2; 3] ex_parts] = [lset "ax"; lset "b"; lset "cd"]) by by apply (bool_decide_unpack _); vm_compute. rewrite E in Hab, Hq.
  assert (E2 : chosen [0; 1] [lset "ax"; lset "b"; lset "cd"] = [lset "ax"; lset "b"]) by by vm_compute. rewrite E2 in Hab. injection Hab as <- <-. destruct Hq as [(c & _ & Hc & Hc2)|[Hq|[_ Hq]]].
  - assert (Hn : c ∈ lset "ax" ∩ lset "b") by (apply elem_of_intersection; done). assert (En : lset "ax" ∩ lset "b" = ∅) by by apply (bool_decide_unpack _); vm_compute. rewrite En in Hn. by apply elem_of_empty in Hn.
  - assert (Hn : bool_decide (lset "ax" = lset "b") = false) by by vm_compute. by apply bool_decide_eq_false in Hn.
  - destruct (Hq 0 (lset "cd")) as [Hq1 _]; [by vm_compute|]. revert Hq1. apply Nat.lt_nge. vm_compute. lia.
Qed.
