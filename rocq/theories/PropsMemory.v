(** Property C67: a larger memory limit does not make the path found more expensive; statements, each with a concrete instance. *)
From Verif Require Import Prelude Einsum EinsumFacts Helpers Contract Spec PathSpec StringFacts StepFacts ContractFacts PathFacts Ssa SsaSpec SsaFacts SsaMore Optimal OptimalFacts OptimalBest OptimalMore Tree TreeSpec DpSpec DpPathSpec Dp DpFacts DpMain DpTop DpPath
  Greedy GreedySpec Branch BranchSpec BranchOrder PropsContract PropsPaths PropsSearch PropsDp Random FinderFacts PropsRandom PropsDpPath PropsBranch NetworkSpec NetworkFacts PropsNetwork.
From stdpp Require Import relations sorting.

(** [mem'] allows everything that [mem] allows; no limit is the largest one. *)
Definition no_tighter (mem mem' : option nat) : Prop := forall limit', mem' = Some limit' -> exists limit, mem = Some limit /\ limit <= limit'.

Lemma twice_most (inputs : list (gset N)) out : (forall c, c ∈ union_all inputs ∪ out -> occurrences out inputs c = 2) -> forall c, occurrences out inputs c <= 2.
Proof.
  intros H2 c. destruct (decide (c ∈ union_all inputs ∪ out)) as [Hc|Hc]; [by rewrite H2|].
  unfold occurrences. destruct (filter (fun k => c ∈ k) inputs) as [|k l] eqn:Ek; [destruct (decide (c ∈ out)); simpl; lia|].
  destruct Hc. apply elem_of_union_l, elem_union_all. exists k. assert (Hk : k ∈ filter (fun k => c ∈ k) inputs) by (rewrite Ek; left). apply elem_of_list_filter in Hk. tauto.
Qed.

(** C67, [optimal] (paths.py 201-285), for the networks of C17: every label in exactly two places among the operands and the output.
    The limits are positive, as [contract_path] insists (contract.py 102-118), or absent. *)
Theorem C67_optimal_partial (ordI ordI' : gset nat -> list nat) (inputs : list (gset N)) out (d : sizes) mem mem' p p' :
  (forall s, ordI s ≡ₚ elements s) -> (forall s, ordI' s ≡ₚ elements s) -> inputs <> [] -> (forall k c, k ∈ inputs -> c ∈ k -> is_Some (d !! c)) ->
  (forall c, c ∈ union_all inputs ∪ out -> occurrences out inputs c = 2) -> (forall limit, mem = Some limit -> 1 <= limit) -> no_tighter mem mem' ->
  optimal ordI inputs out d mem = Ok p -> optimal ordI' inputs out d mem' = Ok p' -> path_cost out d p' inputs <= path_cost out d p inputs.
Proof.
  intros Ho Ho' Hne Hd H2 Hpos Hm Hp Hp'. assert (Hdf : Forall (labels_in d) inputs) by (apply Forall_forall; intros k Hk c Hc; by apply (Hd k)).
  assert (Htw : forall c, c ∈ union_all inputs -> occurrences out inputs c = 2) by (intros c Hc; apply H2; by apply elem_of_union_l).
  destruct mem as [limit|].
  - apply (more_memory inputs out d Hne Hdf (twice_most _ _ H2) Htw ordI ordI' limit mem'); try done; [by apply Hpos|].
    intros limit' ->. by destruct (Hm limit' eq_refl) as (l & [= ->] & Hl).
  - destruct mem' as [limit'|]; [by destruct (Hm limit' eq_refl) as (l & [=] & _)|].
    apply (C65_optimal_same_partial ordI ordI' id inputs out inputs out d d p p') in Hp; try done; [apply Nat.eq_le_incl; symmetry; by apply Hp| |exact (twice_most _ _ H2)].
    split; [by intros a b _ _|..].
    + assert (E : set_map id <$> inputs = inputs); [|by rewrite E]. rewrite <-(list_fmap_id inputs) at 2. apply list_fmap_ext. intros i k _. apply set_eq. intros c. rewrite elem_of_map. unfold id. split; [by intros (? & -> & ?)|eauto].
    + apply set_eq. intros c. rewrite elem_of_map. unfold id. split; [eauto|by intros (? & -> & ?)].
Qed.
Print Assumptions C67_optimal_partial.
(** The same through the names under which the search is reached. *)
Theorem C67_named_partial (E E' : env) name inputs out (d : sizes) mem mem' p p' : env_ok E -> env_ok E' -> inputs <> [] ->
  (forall k c, k ∈ inputs -> c ∈ k -> is_Some (d !! c)) -> (forall c, c ∈ union_all inputs ∪ out -> occurrences out inputs c = 2) ->
  (forall limit, mem = Some limit -> 1 <= limit) -> no_tighter mem mem' ->
  lower name = lit "optimal" \/ (lower name = lit "auto" /\ length inputs <= 4) \/ (lower name = lit "auto-hq" /\ length inputs <= 5) ->
  (g ← get_path_fn (all_options E) name; g inputs out d mem) = Ok p -> (g ← get_path_fn (all_options E') name; g inputs out d mem') = Ok p' ->
  path_cost out d p' inputs <= path_cost out d p inputs.
Proof.
  intros HE HE' Hne Hd H2 Hpos Hm Hn Hp Hp'. assert (Hl : 1 <= length inputs) by (destruct inputs; [done|simpl; lia]).
  assert (Hn' : lower name = lit "optimal" \/ (lower name = lit "auto" /\ 1 <= length inputs <= 4) \/ (lower name = lit "auto-hq" /\ 1 <= length inputs <= 5)) by (destruct Hn as [?|[[? ?]|[? ?]]]; [by left|right; left; split; [done|lia]|right; right; split; [done|lia]]).
  rewrite (named_optimal E name (length inputs) Hn') in Hp by done. rewrite (named_optimal E' name (length inputs) Hn') in Hp' by done.
  apply (C67_optimal_partial (en_ord E) (en_ord E') inputs out d mem mem'); try done; by apply eo_ord.
Qed.
Print Assumptions C67_named_partial.
(** C67, the dynamic programming search (paths.py 1148-1306), for each of its measures, on connected networks. *)
Theorem C67_dp_partial ordI pop ordI' pop' minimize cost_cap cost_cap' rounds rounds' inputs out (d : sizes) mem mem' p p' :
  orders ordI pop -> orders ordI' pop' -> monotone_mode minimize -> sized d inputs out -> (forall c, c ∈ union_all inputs -> 1 <= size_of d c) -> joined inputs out -> no_tighter mem mem' ->
  dp ordI pop minimize cost_cap false rounds inputs out d mem = Ok p -> dp ordI' pop' minimize cost_cap' false rounds' inputs out d mem' = Ok p' ->
  path_measure minimize (size_of d) out p' inputs <= path_measure minimize (size_of d) out p inputs.
Proof.
  intros Ho Ho' Hmm Hs Hpos Hj Hm Hp Hp'. apply (C65_dp_grows_partial ordI' pop' ordI pop minimize cost_cap' cost_cap rounds' rounds id inputs out inputs out d d mem' mem p' p); try done.
  - split; [by intros a b _ _|..].
    + assert (E : set_map id <$> inputs = inputs); [|by rewrite E]. rewrite <-(list_fmap_id inputs) at 2. apply list_fmap_ext. intros i k _. apply set_eq. intros c. rewrite elem_of_map. unfold id. split; [by intros (? & -> & ?)|eauto].
    + apply set_eq. intros c. rewrite elem_of_map. unfold id. split; [eauto|by intros (? & -> & ?)].
  - intros c Hc. split; [by apply Hpos|done].
Qed.
Print Assumptions C67_dp_partial.

(** An instance: 'ab,bc,cd->ad' with a=2, b=d=4, c=9.  With limit 7 everything is contracted in one step, with limit 16 the second and third operands are contracted first, and
    without limit the first two are, which is cheapest but has an intermediate of size 18. *)
Definition ex67c_in : list (gset N) := [lset "ab"; lset "bc"; lset "cd"].
Definition ex67c_d : sizes := ldict [("a", 2); ("bd", 4); ("c", 9)]%string.
Example C67_hypotheses : (forall k c, k ∈ ex67c_in -> c ∈ k -> is_Some (ex67c_d !! c)) /\ (forall c, c ∈ union_all ex67c_in ∪ lset "ad" -> occurrences (lset "ad") ex67c_in c = 2) /\
  no_tighter (Some 7) (Some 16) /\ no_tighter (Some 16) None /\ ~ no_tighter None (Some 16).
Proof.
  split; [apply sized_check_ok; by vm_compute|]. split; [|repeat split].
  - assert (Hb : forallb (fun c => bool_decide (occurrences (lset "ad") ex67c_in c = 2)) (elements (union_all ex67c_in ∪ lset "ad")) = true) by by vm_compute.
    intros c Hc%elem_of_elements. rewrite forallb_forall in Hb. apply elem_of_list_In, Hb in Hc. by apply bool_decide_eq_true in Hc.
  - intros limit' [= <-]. exists 7. split; [done|lia].
  - by intros limit' [=].
  - intros H. by destruct (H 16 eq_refl) as (l & [=] & _).
Qed.
Example C67_instance : let run mem := optimal ordI0 ex67c_in (lset "ad") ex67c_d mem in let cost p := path_cost (lset "ad") ex67c_d p ex67c_in in
  run (Some 7) = Ok [[0; 1; 2]] /\ run (Some 16) = Ok [[1; 2]; [0; 1]] /\ run None = Ok [[0; 1]; [0; 1]] /\ (cost [[0; 1; 2]], cost [[1; 2]; [0; 1]], cost [[0; 1]; [0; 1]]) = (864, 352, 288).
Proof. by vm_compute. Qed.
Example C67_dp_hypotheses : sized ex67c_d ex67c_in (lset "ad") /\ (forall c, c ∈ union_all ex67c_in -> 1 <= size_of ex67c_d c) /\ joined ex67c_in (lset "ad").
Proof.
  split; [split; [apply sized_check_ok; by vm_compute|]|split].
  - intros c Hc. apply (sized_check_ok ex67c_d [lset "ad"] ltac:(by vm_compute) (lset "ad") c); [left|done].
  - assert (Hb : forallb (fun c => 1 <=? size_of ex67c_d c) (elements (union_all ex67c_in)) = true) by by vm_compute.
    intros c Hc%elem_of_elements. rewrite forallb_forall in Hb. apply elem_of_list_In, Hb in Hc. by apply Nat.leb_le in Hc.
  - assert (Hl : forall i, i < 2 -> DpSpec.linked ex67c_in (lset "ad") i (S i) /\ DpSpec.linked ex67c_in (lset "ad") (S i) i).
    { intros i Hi. assert (Hx : exists c, c ∈ labels_of ex67c_in i /\ c ∈ labels_of ex67c_in (S i) /\ c ∉ (lset "ad" : gset N)) by (destruct i as [|[|i]]; [exists 98%N|exists 99%N|lia]; by apply (bool_decide_unpack _); vm_compute).
      destruct Hx as (c & H1 & H2 & H3). split; by exists c. }
    destruct (Hl 0) as [H01 H10]; [lia|]. destruct (Hl 1) as [H12 H21]; [lia|].
    intros i j Hi Hj. change (i < 3) in Hi. change (j < 3) in Hj. destruct i as [|[|[|i]]]; destruct j as [|[|[|j]]]; try lia; first [apply rtc_refl|by apply rtc_once|by eapply rtc_l; [|by apply rtc_once]].
Qed.
Example C67_dp_instance : let run mem := dp ordI0 pop0 DpFlops CapTrue false 20 ex67c_in (lset "ad") ex67c_d mem in let cost p := path_measure DpFlops (size_of ex67c_d) (lset "ad") p ex67c_in in
  run (Some 7) = Err RuntimeError /\ run (Some 16) = Ok [[1; 2]; [0; 1]] /\ run None = Ok [[0; 1]; [0; 1]] /\ (cost [[1; 2]; [0; 1]], cost [[0; 1]; [0; 1]]) = (176, 144).
Proof. by vm_compute. Qed.

(** In general it is false.  For the greedy and the branching searches it already fails with every label in two places: 'aedb,cb,c,e->ad' with c=4, e=2 and the
    others 3 costs 138 with limit 16, and without limit 186 with 'greedy' and 'branch-1' and 168 with 'branch-2' and 'branch-all'. *)
Definition ex67_in : list (gset N) := [lset "aedb"; lset "cb"; lset "c"; lset "e"].
Definition ex67_d : sizes := ldict [("c", 4); ("e", 2); ("adb", 3)]%string.
Lemma ex67_twice c : c ∈ union_all ex67_in ∪ lset "ad" -> occurrences (lset "ad") ex67_in c = 2.
Proof.
  assert (Hb : forallb (fun c => bool_decide (occurrences (lset "ad") ex67_in c = 2)) (elements (union_all ex67_in ∪ lset "ad")) = true) by by vm_compute.
  intros Hc%elem_of_elements. rewrite forallb_forall in Hb. apply elem_of_list_In, Hb in Hc. by apply bool_decide_eq_true in Hc.
Qed.
Theorem C67_searches_refuted name : name ∈ lit <$> ["greedy"; "branch-1"; "branch-2"; "branch-all"]%string -> exists inputs out (d : sizes) limit p p',
  (forall k c, k ∈ inputs -> c ∈ k -> is_Some (d !! c)) /\ (forall c, c ∈ union_all inputs ∪ out -> occurrences out inputs c = 2) /\ 1 <= limit /\
  (g ← get_path_fn (all_options (env0 20)) name; g inputs out d (Some limit)) = Ok p /\ (g ← get_path_fn (all_options (env0 20)) name; g inputs out d None) = Ok p' /\
  path_cost out d p inputs < path_cost out d p' inputs.
Proof.
  intros Hn. exists ex67_in, (lset "ad"), ex67_d, 16. cbn [fmap list_fmap] in Hn.
  do 4 (apply elem_of_cons in Hn as [->|Hn]; [eexists _, _; split; [apply sized_check_ok; by vm_compute|]; split; [exact ex67_twice|]; split; [lia|]; split; [by vm_compute|]; split; [by vm_compute|]; apply Nat.ltb_lt; by vm_compute|]).
  by apply elem_of_nil in Hn.
Qed.
Print Assumptions C67_searches_refuted.
(** For [optimal] it fails when a label stands in three places: 'ab,a,cad->cdb' costs 100 with limit 16 and 120 without. *)
Theorem C67_optimal_refuted : exists inputs out (d : sizes) limit p p', (forall k c, k ∈ inputs -> c ∈ k -> is_Some (d !! c)) /\ 1 <= limit /\
  optimal ordI0 inputs out d (Some limit) = Ok p /\ optimal ordI0 inputs out d None = Ok p' /\ path_cost out d p inputs < path_cost out d p' inputs.
Proof.
  exists [lset "ab"; lset "a"; lset "cad"], (lset "cdb"), (ldict [("c", 3); ("d", 4); ("ab", 2)]%string), 16. eexists _, _.
  split; [apply sized_check_ok; by vm_compute|]. split; [lia|]. split; [by vm_compute|]. split; [by vm_compute|]. apply Nat.ltb_lt. by vm_compute.
Qed.
Print Assumptions C67_optimal_refuted.
(** With limit zero, which [contract_path] refuses but the search accepts, even the networks of C67_optimal_partial do not have it: with all dimensions 1, 'ab,bc,ca->' is
    contracted in one step of cost 3, and pairwise at cost 4 with limit 1. *)
Theorem C67_zero_refuted : exists inputs out (d : sizes) p p', (forall k c, k ∈ inputs -> c ∈ k -> is_Some (d !! c)) /\ (forall c, c ∈ union_all inputs ∪ out -> occurrences out inputs c = 2) /\
  optimal ordI0 inputs out d (Some 0) = Ok p /\ optimal ordI0 inputs out d (Some 1) = Ok p' /\ path_cost out d p inputs < path_cost out d p' inputs.
Proof.
  set (inputs := [lset "ab"; lset "bc"; lset "ca"]). exists inputs, ∅, (ldict [("abc", 1)]%string). eexists _, _.
  split; [apply sized_check_ok; by vm_compute|]. split; [|split; [by vm_compute|]; split; [by vm_compute|]; apply Nat.ltb_lt; by vm_compute].
  assert (Hb : forallb (fun c => bool_decide (occurrences ∅ inputs c = 2)) (elements (union_all inputs ∪ ∅)) = true) by by vm_compute.
  intros c Hc%elem_of_elements. rewrite forallb_forall in Hb. apply elem_of_list_In, Hb in Hc. by apply bool_decide_eq_true in Hc.
Qed.
Print Assumptions C67_zero_refuted.
