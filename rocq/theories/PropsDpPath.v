(** Property C60: the path of dynamic programming is a cheapest path; statements, each with a concrete instance. *)
From Verif Require Import Prelude Einsum EinsumFacts Helpers Contract Spec PathSpec StringFacts StepFacts ContractFacts PathFacts Ssa SsaSpec Optimal OptimalFacts Tree TreeSpec DpSpec DpPathSpec Dp PartsFacts DpFacts DpMain DpTop DpPath PropsPaths PropsSearch PropsDp Random FinderFacts PropsRandom.
From stdpp Require Import relations sorting.

(** ** C60 *)
(** All inputs hang together: every mode, cost cap and memory limit; against all paths without outer products. *)
Theorem C60_connected_best ordI pop minimize cost_cap rounds inputs output d mem p : orders ordI pop -> sized d inputs output -> monotone_mode minimize ->
  (forall k c, k ∈ inputs -> c ∈ k -> 1 <= size_of d c) -> (forall i j, i < length inputs -> j < length inputs -> rtc (linked inputs output) i j) ->
  dp ordI pop minimize cost_cap false rounds inputs output d mem = Ok p -> best_path minimize false mem (size_of d) output inputs p.
Proof.
  intros [Ho Hp] Hs Hmm Hdim Hcon. apply (dp_best ordI pop minimize cost_cap false inputs output d mem Ho Hp (sized_at _ _ _ Hs) (proj2 Hs)); [|done..].
  intros j c Hc. unfold labels_of in Hc. destruct (inputs !! j) as [k|] eqn:E; [|by apply elem_of_empty in Hc]. apply (Hdim k); [by eapply elem_of_list_lookup_2|done].
Qed.
Print Assumptions C60_connected_best.
(** With outer products, if no input has all its labels to itself: against all paths. *)
Theorem C60_outer_best ordI pop minimize cost_cap rounds inputs output d mem p : orders ordI pop -> sized d inputs output -> monotone_mode minimize ->
  (forall k c, k ∈ inputs -> c ∈ k -> 1 <= size_of d c) -> (forall j, j < length inputs -> ~ lone inputs output j) ->
  dp ordI pop minimize cost_cap true rounds inputs output d mem = Ok p -> best_path minimize true mem (size_of d) output inputs p.
Proof.
  intros [Ho Hp] Hs Hmm Hdim Hcon. apply (dp_best ordI pop minimize cost_cap true inputs output d mem Ho Hp (sized_at _ _ _ Hs) (proj2 Hs)); [|done..].
  intros j c Hc. unfold labels_of in Hc. destruct (inputs !! j) as [k|] eqn:E; [|by apply elem_of_empty in Hc]. apply (Hdim k); [by eapply elem_of_list_lookup_2|done].
Qed.
Print Assumptions C60_outer_best.

(** A contraction takes at most twice the operations it has index values to loop over, and at least as many. *)
Lemma step_cost_two D st : length st.1 = 2 -> step_flops D st <= step_cost D st <= 2 * step_flops D st.
Proof. intros Hl. unfold step_flops, step_cost. rewrite Hl. change (Nat.max 1 (2 - 1)) with 1. case_decide; nia. Qed.
Lemma sum_between {A} (f g : A -> nat) l : Forall (fun x => f x <= g x <= 2 * f x) l -> sum_list (f <$> l) <= sum_list (g <$> l) <= 2 * sum_list (f <$> l).
Proof. induction 1 as [|x l Hx _ IH]; [simpl; lia|]. rewrite !fmap_cons. cbn [sum_list_with]. unfold id in *. lia. Qed.
Lemma pairs_between D out p inputs : path_runs (length inputs) p -> Forall (fun s => length s <= 2) p -> let l := contractions (replay out p inputs) in
  path_measure DpFlops D out p inputs <= sum_list (step_cost D <$> l) <= 2 * path_measure DpFlops D out p inputs.
Proof.
  intros Hr H2 l. unfold path_measure, steps_measure. apply sum_between. apply contractions_ok. apply Forall_forall. intros st Hst Hge. apply step_cost_two. apply Nat.le_antisymm; [|done].
  assert (Hl : Forall (fun n => n <= 2) (length <$> p)) by (by rewrite Forall_fmap). rewrite (replay_lengths out p inputs Hr), Forall_fmap in Hl. rewrite Forall_forall in Hl. by apply Hl.
Qed.
(** The operations the contractions of the path take, as [contract_path] counts them, are at most twice those of any path with pairwise
    contractions. *)
Theorem C60_within_twice ordI pop cost_cap rounds inputs output d p q : orders ordI pop -> sized d inputs output ->
  (forall k c, k ∈ inputs -> c ∈ k -> 1 <= size_of d c) -> (forall j, j < length inputs -> ~ lone inputs output j) ->
  dp ordI pop DpFlops cost_cap true rounds inputs output d None = Ok p -> path_runs (length inputs) q -> Forall (fun s => length s <= 2) q ->
  sum_list (step_cost (size_of d) <$> contractions (replay output p inputs)) <= 2 * sum_list (step_cost (size_of d) <$> contractions (replay output q inputs)).
Proof.
  intros Ho Hs Hdim Hl Hp Hq Hq2. destruct (C60_outer_best ordI pop DpFlops cost_cap rounds inputs output d None p Ho Hs I Hdim Hl Hp) as (Hr & [Ha _] & Hbest).
  specialize (Hbest q Hq). pose proof (pairs_between (size_of d) output p inputs Hr Ha) as H1. pose proof (pairs_between (size_of d) output q inputs Hq Hq2) as H2. cbv zeta in H1, H2.
  assert (Hal : path_allowed true None (size_of d) output q inputs) by (split; [done|]; apply Forall_forall; intros st _; by split). specialize (Hbest Hal). lia.
Qed.
Print Assumptions C60_within_twice.

(** The options 'dp' and 'dynamic-programming' look for the fewest index values looped over, so does 'auto-hq' on 6 to 16 operands. *)
Theorem C60_named_best (E : env) name inputs output d mem p : env_ok E -> sized d inputs output ->
  (forall k c, k ∈ inputs -> c ∈ k -> 1 <= size_of d c) -> (forall i j, i < length inputs -> j < length inputs -> rtc (linked inputs output) i j) ->
  lower name ∈ [lit "dp"; lit "dynamic-programming"] \/ (lower name = lit "auto-hq" /\ 6 <= length inputs <= 16) ->
  (f ← get_path_fn (all_options E) name; f inputs output d mem) = Ok p -> best_path DpFlops false mem (size_of d) output inputs p.
Proof.
  intros HE Hs Hdim Hcon Hn H. assert (Hdp : dp_default E inputs output d mem = Ok p).
  { unfold get_path_fn in H. assert (Ef : exists f, lookup_fn (all_options E) (lower name) = Some f /\ f inputs output d mem = dp_default E inputs output d mem).
    { destruct Hn as [[-> |[-> |Hn%elem_of_nil]%elem_of_cons]%elem_of_cons|[-> Hlen]]; [exists (dp_default E); split; [lookup|done]|exists (dp_default E); split; [lookup|done]|done|].
      exists (auto_hq E). split; [lookup|]. unfold auto_hq. by rewrite decide_False, decide_True by lia. }
    destruct Ef as (f & Ef & Hf). rewrite Ef in H. cbn [of_opt mbind res_bind] in H. by rewrite <-Hf. }
  eapply C60_connected_best; [|exact Hs|done|exact Hdim|exact Hcon|exact Hdp]. split; [by apply eo_ord|by apply eo_pop].
Qed.
Print Assumptions C60_named_best.
(** A ring of five terms with a label summed on its own ([k]): the path found loops over 74 index values, the left-to-right one over 78, or 120
    if [k] is not summed first; its intermediates have at most 6 entries. *)
Definition ex60_in : list (gset N) := [lset "ab"; lset "bck"; lset "cd"; lset "de"; lset "ea"].
Definition ex60_d : sizes := ldict [("a"%string, 2); ("b"%string, 7); ("c"%string, 3); ("d"%string, 2); ("e"%string, 4); ("k"%string, 2)].
Lemma ex60_sized : sized ex60_d ex60_in ∅ /\ forall k c, k ∈ ex60_in -> c ∈ k -> 1 <= size_of ex60_d c.
Proof.
  assert (H : forallb (fun k => forallb (fun c => bool_decide (is_Some (ex60_d !! c)) && (1 <=? size_of ex60_d c)) (elements k)) ex60_in = true) by (by vm_compute).
  assert (H' : forall k c, k ∈ ex60_in -> c ∈ k -> is_Some (ex60_d !! c) /\ 1 <= size_of ex60_d c).
  { intros k c Hk Hc. rewrite forallb_forall in H. specialize (H k (proj1 (elem_of_list_In _ _) Hk)). rewrite forallb_forall in H. apply elem_of_elements, elem_of_list_In in Hc. specialize (H c Hc). apply andb_true_iff in H as [H1 H2]. apply bool_decide_eq_true in H1. apply Nat.leb_le in H2. done. }
  split; [split; [intros k c Hk Hc; by apply (H' k)|by intros c ?%elem_of_empty]|]. intros k c Hk Hc. by apply (H' k).
Qed.
Lemma ex60_linked : forall i j, i < 5 -> j < 5 -> rtc (linked ex60_in ∅) i j.
Proof.
  assert (Hsym : forall i j, rtc (linked ex60_in ∅) i j -> rtc (linked ex60_in ∅) j i).
  { intros i j H. induction H as [|i i1 j H1 _ IH]; [apply rtc_refl|]. eapply rtc_r; [exact IH|]. destruct H1 as (c & ? & ? & ?). by exists c. }
  assert (Hnext : forall i c, c ∈ labels_of ex60_in i -> c ∈ labels_of ex60_in (S i) -> linked ex60_in ∅ i (S i)) by (intros i c H1 H2; exists c; split; [done|]; split; [done|apply not_elem_of_empty]).
  assert (H0 : forall i, i < 5 -> rtc (linked ex60_in ∅) 0 i).
  { intros i. induction i as [|i IH]; intros Hi; [apply rtc_refl|]. eapply rtc_r; [apply IH; lia|]. destruct i as [|[|[|[|i]]]]; [apply (Hnext 0 98%N)|apply (Hnext 1 99%N)|apply (Hnext 2 100%N)|apply (Hnext 3 101%N)|lia]; by apply (bool_decide_unpack _); vm_compute. }
  intros i j Hi Hj. etrans; [apply Hsym|]; by apply H0.
Qed.
Example C60_instance : let p := [[3; 4]; [1]; [0; 3]; [0; 2]; [0; 1]] in let q := [[1]; [0; 4]; [0; 3]; [0; 2]; [0; 1]] in let q' := [[0; 1]; [0; 3]; [0; 2]; [0; 1]] in
  dp ordI0 pop0 DpFlops CapTrue false 20 ex60_in ∅ ex60_d None = Ok p /\ dp ordI0 pop0 DpFlops CapTrue true 20 ex60_in ∅ ex60_d None = Ok p /\
  dp ordI0 pop0 DpFlops CapTrue false 20 ex60_in ∅ ex60_d (Some 6) = Ok p /\
  path_measure DpFlops (size_of ex60_d) ∅ p ex60_in = 74 /\ path_measure DpFlops (size_of ex60_d) ∅ q ex60_in = 78 /\ path_measure DpFlops (size_of ex60_d) ∅ q' ex60_in = 120 /\
  path_measure DpSize (size_of ex60_d) ∅ p ex60_in = 6 /\
  (get_path_fn (all_options (env0 20)) (lit "DP") ≫= fun f => f ex60_in ∅ ex60_d None) = Ok p.
Proof. by vm_compute. Qed.
Example C60_hypotheses : orders ordI0 pop0 /\ env_ok (env0 20) /\ sized ex60_d ex60_in ∅ /\ (forall k c, k ∈ ex60_in -> c ∈ k -> 1 <= size_of ex60_d c) /\
  (forall i j, i < length ex60_in -> j < length ex60_in -> rtc (linked ex60_in ∅) i j) /\ (forall j, j < length ex60_in -> ~ lone ex60_in ∅ j).
Proof.
  split; [exact C22_hypothesis|]. split; [apply env0_ok|]. split; [apply ex60_sized|]. split; [apply ex60_sized|]. split; [exact ex60_linked|].
  intros j Hj [_ Hl]. assert (Hx : exists c i, i <> j /\ c ∈ labels_of ex60_in j /\ c ∈ labels_of ex60_in i).
  { simpl in Hj. destruct j as [|[|[|[|[|j]]]]]; [exists 98%N, 1|exists 98%N, 0|exists 100%N, 3|exists 100%N, 2|exists 97%N, 0|lia]; (split; [lia|]); split; by apply (bool_decide_unpack _); vm_compute. }
  destruct Hx as (c & i & Hi & H1 & H2). by apply (proj2 (Hl c H1) i).
Qed.
(** A cost function of the caller's, the index values to loop over times the size of the result: it grows with its arguments, and leads to
    another path than ['flops'], cheaper by that cost and dearer by the number of index values. *)
Definition ex60_cost (f m : nat) : nat := f * m.
Definition ex60_d' : sizes := ldict [("a"%string, 1); ("b"%string, 2); ("c"%string, 7); ("d"%string, 2); ("e"%string, 3); ("k"%string, 2)].
Example C60_custom : let p := [[1]; [1; 4]; [1; 2]; [1; 2]; [0; 1]] in let q := [[1]; [2; 3]; [1; 3]; [1; 2]; [0; 1]] in
  monotone_mode (DpLocal ex60_cost) /\ dp ordI0 pop0 (DpLocal ex60_cost) CapTrue false 20 ex60_in ∅ ex60_d' None = Ok p /\
  dp ordI0 pop0 DpFlops CapTrue false 20 ex60_in ∅ ex60_d' None = Ok q /\
  path_measure (DpLocal ex60_cost) (size_of ex60_d') ∅ p ex60_in = 134 /\ path_measure (DpLocal ex60_cost) (size_of ex60_d') ∅ q ex60_in = 140 /\
  path_measure DpFlops (size_of ex60_d') ∅ p ex60_in = 40 /\ path_measure DpFlops (size_of ex60_d') ∅ q ex60_in = 36.
Proof. split; [|by vm_compute]. intros a a' b b' Ha Hb. by apply Nat.mul_le_mono. Qed.
