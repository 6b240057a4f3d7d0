(** Properties C23 to C25: the dynamic programming search; statements, each with a concrete instance. *)
From Verif Require Import Prelude Einsum EinsumFacts Helpers Contract Spec PathSpec StringFacts StepFacts ContractFacts PathFacts Ssa SsaSpec Optimal OptimalFacts Tree TreeSpec DpSpec Dp PartsFacts DpFacts DpMain DpTop PropsPaths PropsSearch.
From stdpp Require Import relations sorting.

(** All labels have sizes. *)
Definition sized (d : sizes) (inputs : list (gset N)) (output : gset N) : Prop := (forall k c, k ∈ inputs -> c ∈ k -> is_Some (d !! c)) /\ forall c, c ∈ output -> is_Some (d !! c).
Lemma sized_at d inputs output : sized d inputs output -> forall j c, c ∈ labels_of inputs j -> is_Some (d !! c).
Proof. intros [H _] j c Hc. unfold labels_of in Hc. destruct (inputs !! j) as [k|] eqn:E; [|by apply elem_of_empty in Hc]. apply (H k); [by eapply elem_of_list_lookup_2|done]. Qed.
(** Oracles: iteration order of sets, and the element [set.pop] takes. *)
Definition orders (ordI : gset nat -> list nat) (pop : gset nat -> nat) : Prop := (forall s, ordI s ≡ₚ elements s) /\ (forall s, s <> ∅ -> pop s ∈ s).

(** ** C23 *)
(** Every mode, cost cap, memory limit and number of rounds; also with outer products. *)
Theorem C23_dp_complete ordI pop minimize cost_cap search_outer rounds inputs output d mem p : orders ordI pop -> sized d inputs output ->
  dp ordI pop minimize cost_cap search_outer rounds inputs output d mem = Ok p -> path_runs (length inputs) p.
Proof. intros [Ho Hp] Hs. apply (dp_complete ordI pop minimize cost_cap search_outer inputs output d mem Ho Hp (sized_at _ _ _ Hs) (proj2 Hs)). Qed.
Print Assumptions C23_dp_complete.
(** Two parts, a scalar, a lone input ([k]), labels to be summed on their own ([h], [l]). *)
Definition ex_dp_in : list (gset N) := [lset "ab"; lset "bcl"; lset "cd"; lset "da"; lset "k"; lset "ef"; lset "fgh"; lset ""; lset "ge"].
Definition ex_dp_d : sizes := ldict [("a"%string, 2); ("b"%string, 3); ("c"%string, 4); ("d"%string, 5); ("e"%string, 2); ("f"%string, 3); ("g"%string, 1); ("h"%string, 2); ("k"%string, 3); ("l"%string, 2)].
Example C23_instance : dp ordI0 pop0 DpFlops CapTrue false 20 ex_dp_in (lset "e") ex_dp_d None = Ok [[4]; [1]; [1; 2]; [6; 7]; [0; 6]; [4; 5]; [2; 4]; [1]; [0; 3]; [0; 2]; [0; 1]].
Proof. by vm_compute. Qed.
Example C23_hypothesis : orders ordI0 pop0 /\ forallb (fun k => forallb (fun c => bool_decide (is_Some (ex_dp_d !! c))) (elements k)) (lset "e" :: ex_dp_in) = true.
Proof. split; [exact C22_hypothesis|by vm_compute]. Qed.

(** ** C24 *)
(** If no dimension is 0, the loop ends after finitely many rounds and a complete path is returned: every mode, with or without outer
    products, every cost cap but the explicit cap 0. *)
Theorem C24_dp_succeeds_partial ordI pop minimize cost_cap search_outer inputs output d : orders ordI pop -> sized d inputs output -> inputs <> [] ->
  (forall c, (exists k, k ∈ inputs /\ c ∈ k) \/ c ∈ output -> 1 <= size_of d c) -> cost_cap <> CapInt 0 ->
  exists R, forall rounds, R <= rounds -> exists p, dp ordI pop minimize cost_cap search_outer rounds inputs output d None = Ok p /\ path_runs (length inputs) p.
Proof.
  intros [Ho Hp] Hs Hne Hdim Hcap. apply (dp_success ordI pop minimize cost_cap search_outer inputs output d None Ho Hp (sized_at _ _ _ Hs) (proj2 Hs)); [done| |done|done].
  intros c [Hc|Hc]%elem_of_union; apply Hdim; [left; by apply elem_union_sets|by right].
Qed.
Print Assumptions C24_dp_succeeds_partial.
Example C24_instance : forallb (fun k => forallb (fun c => 1 <=? size_of ex_dp_d c) (elements k)) (lset "e" :: ex_dp_in) = true /\
  dp ordI0 pop0 DpSize CapTrue false 3 ex_dp_in (lset "e") ex_dp_d None = Err NoFuel /\
  dp ordI0 pop0 DpSize CapTrue false 5 ex_dp_in (lset "e") ex_dp_d None = Ok [[4]; [1]; [1; 2]; [6; 7]; [0; 6]; [4; 5]; [2; 4]; [1]; [0; 3]; [0; 2]; [0; 1]].
Proof. by vm_compute. Qed.
(** With a dimension 0 the naive cost is 0 and another part, whose contraction costs something, is given up after the first round. *)
Theorem C24_zero_dim_refuted : exists inputs output d, sized d inputs output /\ inputs <> [] /\ forall rounds, dp ordI0 pop0 DpFlops CapTrue false (S rounds) inputs output d None = Err RuntimeError.
Proof.
  exists [lset "ab"; lset "ba"; lset "cd"; lset "dc"], ∅, (ldict [("a"%string, 2); ("b"%string, 2); ("c"%string, 0); ("d"%string, 2)]). split; [|split; [done|]].
  - split; [|by intros c ?%elem_of_empty]. assert (H : forallb (fun k => forallb (fun c => bool_decide (is_Some (ldict [("a"%string, 2); ("b"%string, 2); ("c"%string, 0); ("d"%string, 2)] !! c))) (elements k)) [lset "ab"; lset "ba"; lset "cd"; lset "dc"] = true) by (by vm_compute).
    intros k c Hk Hc. rewrite forallb_forall in H. specialize (H k (proj1 (elem_of_list_In _ _) Hk)). rewrite forallb_forall in H. apply elem_of_elements, elem_of_list_In in Hc. specialize (H c Hc). by apply bool_decide_eq_true in H.
  - intros rounds. vm_compute. reflexivity.
Qed.
Print Assumptions C24_zero_dim_refuted.
(** With the explicit cost cap 0 the loop never ends if every contraction costs something. *)
Theorem C24_cap0_refuted : exists inputs output d, sized d inputs output /\ inputs <> [] /\ forall rounds, dp ordI0 pop0 DpFlops (CapInt 0) false rounds inputs output d None = Err NoFuel.
Proof.
  exists [lset "ab"; lset "bc"], (lset "ac"), (ldict [("a"%string, 2); ("b"%string, 2); ("c"%string, 2)]). split; [|split; [done|]].
  - assert (H : forallb (fun k => forallb (fun c => bool_decide (is_Some (ldict [("a"%string, 2); ("b"%string, 2); ("c"%string, 2)] !! c))) (elements k)) [lset "ac"; lset "ab"; lset "bc"] = true) by (by vm_compute).
    assert (H' : forall k c, k ∈ [lset "ac"; lset "ab"; lset "bc"] -> c ∈ k -> is_Some (ldict [("a"%string, 2); ("b"%string, 2); ("c"%string, 2)] !! c)).
    { intros k c Hk Hc. rewrite forallb_forall in H. specialize (H k (proj1 (elem_of_list_In _ _) Hk)). rewrite forallb_forall in H. apply elem_of_elements, elem_of_list_In in Hc. specialize (H c Hc). by apply bool_decide_eq_true in H. }
    split; [intros k c Hk; apply H'; by right|intros c; apply H'; left].
  - intros rounds. induction rounds as [|r IH]; [by vm_compute|]. vm_compute in IH |- *. exact IH.
Qed.
Print Assumptions C24_cap0_refuted.

(** ** C25 *)
(** The tree built joins, in order of size, trees of the connected parts (with outer products allowed: of the lone inputs and of all others)
    each of which is cheapest among all allowed trees and is itself allowed, so keeps the memory limit. *)
Theorem C25_dp_optimal ordI pop minimize cost_cap search_outer rounds inputs output d mem T : orders ordI pop -> sized d inputs output ->
  dp_tree ordI pop minimize cost_cap search_outer rounds inputs output d mem = Ok T ->
  exists gs bts t ts, searched_parts inputs output (size_of d) search_outer gs /\
    Forall2 (fun g b => best_tree inputs output (size_of d) g minimize search_outer mem b) gs bts /\ Forall2 (shape inputs output) bts (t :: ts) /\ T = left_comb t ts.
Proof.
  intros [Ho Hp] Hs HT. destruct (dp_tree_ok ordI pop minimize cost_cap search_outer inputs output d mem Ho Hp (sized_at _ _ _ Hs) (proj2 Hs) rounds T HT) as (gs & bts & t & ts & _ & H). by exists gs, bts, t, ts.
Qed.
Print Assumptions C25_dp_optimal.
(** For 'flops', 'size' and 'write', if no dimension is 0, the search always ends, and fails only if some part has no allowed tree. *)
Theorem C25_dp_decides ordI pop minimize cost_cap search_outer inputs output d mem : orders ordI pop -> sized d inputs output -> inputs <> [] ->
  (forall c, (exists k, k ∈ inputs /\ c ∈ k) \/ c ∈ output -> 1 <= size_of d c) -> cost_cap <> CapInt 0 -> match minimize with DpCombo _ | DpLimit _ | DpLocal _ => False | _ => True end ->
  exists R, forall rounds, R <= rounds ->
    (exists T, dp_tree ordI pop minimize cost_cap search_outer rounds inputs output d mem = Ok T) \/
    (dp_tree ordI pop minimize cost_cap search_outer rounds inputs output d mem = Err RuntimeError /\
     exists g, g <> ∅ /\ (forall j, j ∈ g -> j < length inputs) /\ (search_outer = false -> forall i j, i ∈ g -> (j ∈ g <-> rtc (linked inputs output) i j)) /\
       forall t, btree_over g t -> ~ allowed inputs output (size_of d) g search_outer mem t).
Proof.
  intros [Ho Hp] Hs Hne Hdim Hcap Hm. apply (dp_tree_decides ordI pop minimize cost_cap search_outer inputs output d mem Ho Hp (sized_at _ _ _ Hs) (proj2 Hs)); [done| |done|by destruct minimize].
  intros c [Hc|Hc]%elem_of_union; apply Hdim; [left; by apply elem_union_sets|by right].
Qed.
Print Assumptions C25_dp_decides.
(** A ring of four terms: the tree found costs 58, two others 60 and 84; within a limit of 6 entries it is still found, within 5 none. *)
Definition ex_ring : list (gset N) := [lset "ab"; lset "bc"; lset "cd"; lset "da"].
Definition ex_ring_d : sizes := ldict [("a"%string, 2); ("b"%string, 7); ("c"%string, 3); ("d"%string, 2)].
Definition ex_all4 : gset nat := set_seq 0 4.
Example C25_instance :
  dp_tree ordI0 pop0 DpFlops CapTrue false 20 ex_ring ∅ ex_ring_d None = Ok (Node [Leaf 3; Node [Leaf 2; Node [Leaf 0; Leaf 1]]]) /\
  flops_cost ex_ring ∅ (size_of ex_ring_d) ex_all4 (BNode (BLeaf 3) (BNode (BLeaf 2) (BNode (BLeaf 0) (BLeaf 1)))) = 58 /\
  flops_cost ex_ring ∅ (size_of ex_ring_d) ex_all4 (BNode (BNode (BLeaf 2) (BLeaf 3)) (BNode (BLeaf 0) (BLeaf 1))) = 60 /\
  flops_cost ex_ring ∅ (size_of ex_ring_d) ex_all4 (BNode (BNode (BLeaf 1) (BLeaf 2)) (BNode (BLeaf 3) (BLeaf 0))) = 84 /\
  dp_tree ordI0 pop0 DpFlops CapTrue false 20 ex_ring ∅ ex_ring_d (Some 6) = Ok (Node [Leaf 3; Node [Leaf 2; Node [Leaf 0; Leaf 1]]]) /\
  dp_tree ordI0 pop0 DpFlops CapTrue false 20 ex_ring ∅ ex_ring_d (Some 5) = Err RuntimeError.
Proof. by vm_compute. Qed.
(** For 'combo' and 'limit' (naive cost infinite) a memory limit that no tree of some part meets makes the loop run for ever. *)
Theorem C25_combo_diverges ordI pop minimize cost_cap rounds inputs output d mem g : orders ordI pop -> sized d inputs output -> match minimize with DpCombo _ | DpLimit _ | DpLocal _ => True | _ => False end ->
  (exists i, i ∈ g /\ i < length inputs) -> (forall i j, i ∈ g -> (j ∈ g <-> rtc (linked inputs output) i j)) -> (forall t, btree_over g t -> ~ allowed inputs output (size_of d) g false mem t) ->
  dp ordI pop minimize cost_cap false rounds inputs output d mem = Err NoFuel.
Proof.
  intros [Ho Hp] Hs Hm (i & Hi & Hlt) Hg Hno. unfold dp. assert (Hne : inputs <> []) by (intros ->; simpl in Hlt; lia).
  destruct (dp_tree_no_error ordI pop minimize cost_cap false inputs output d mem Ho Hp (sized_at _ _ _ Hs) (proj2 Hs) rounds Hne) as [(T & HT)| ->]; [by destruct minimize| |done].
  exfalso. destruct (C25_dp_optimal ordI pop minimize cost_cap false rounds inputs output d mem T (conj Ho Hp) Hs HT) as (gs & bts & t & ts & (Hcp & _) & HF & _). destruct (Hcp eq_refl) as [H1 _ H3].
  apply H3 in Hlt as (g' & Hg' & Hi'). destruct (H1 g' Hg') as [_ Hcl]. assert (E : g' = g) by (apply set_eq; intros j; by rewrite (Hcl i j Hi'), (Hg i j Hi)). subst g'.
  apply elem_of_list_lookup in Hg' as [a Ha]. destruct (Forall2_lookup_l _ _ _ _ _ HF Ha) as (b & _ & Hb1 & Hb2 & _). by apply (Hno b).
Qed.
Print Assumptions C25_combo_diverges.
Theorem C25_combo_refuted : exists inputs output d mem, sized d inputs output /\ inputs <> [] /\ forall rounds, dp ordI0 pop0 (DpCombo 64) CapTrue false rounds inputs output d mem = Err NoFuel.
Proof.
  set (ins := [lset "ab"; lset "bc"]). set (dd := ldict [("a"%string, 2); ("b"%string, 2); ("c"%string, 2)]). exists ins, (lset "ac"), dd, (Some 3).
  assert (Hs : sized dd ins (lset "ac")).
  { assert (H : forallb (fun k => forallb (fun c => bool_decide (is_Some (dd !! c))) (elements k)) (lset "ac" :: ins) = true) by (by vm_compute).
    assert (H' : forall k c, k ∈ lset "ac" :: ins -> c ∈ k -> is_Some (dd !! c)).
    { intros k c Hk Hc. rewrite forallb_forall in H. specialize (H k (proj1 (elem_of_list_In _ _) Hk)). rewrite forallb_forall in H. apply elem_of_elements, elem_of_list_In in Hc. specialize (H c Hc). by apply bool_decide_eq_true in H. }
    split; [intros k c Hk; apply H'; by right|intros c; apply H'; left]. }
  split; [done|]. split; [done|]. intros rounds. assert (Hl : linked ins (lset "ac") 0 1) by (exists 98%N; split; [by apply (bool_decide_unpack _); vm_compute|]; split; by apply (bool_decide_unpack _); vm_compute).
  assert (Hsym : linked ins (lset "ac") 1 0) by (destruct Hl as (c & ? & ? & ?); by exists c).
  apply (C25_combo_diverges ordI0 pop0 (DpCombo 64) CapTrue rounds ins (lset "ac") dd (Some 3) ({[0; 1]} : gset nat) C22_hypothesis Hs I).
  - exists 0. split; [set_solver|simpl; lia].
  - intros i j Hi. assert (Hi' : i = 0 \/ i = 1) by set_solver. split.
    + intros Hj. assert (Hj' : j = 0 \/ j = 1) by set_solver. destruct Hi' as [-> | ->], Hj' as [-> | ->]; try apply rtc_refl; by apply rtc_once.
    + intros Hr. clear Hi'. revert Hi. induction Hr as [i|i i1 i2 Hl1 _ IH]; [done|]. intros _. apply IH. destruct Hl1 as (c & _ & Hc & _). apply labels_of_lt in Hc. simpl in Hc. assert (i1 = 0 \/ i1 = 1) by lia. set_solver.
  - intros t [Hnd Hb] [_ Hf]. destruct t as [j|l r].
    + assert (H0 : 0 ∈ bset (BLeaf j)) by (rewrite Hb; set_solver). assert (H1 : 1 ∈ bset (BLeaf j)) by (rewrite Hb; set_solver). unfold bset in H0, H1. simpl in H0, H1. set_solver.
    + destruct Hf as (_ & _ & Hf). unfold node_size in Hf. rewrite <-bset_node, Hb in Hf. vm_compute in Hf. lia.
Qed.
Print Assumptions C25_combo_refuted.
