(** Property C82: the named path functions called directly on one operand or on none; statements, each with a concrete instance. *)
From Verif Require Import Prelude Einsum Helpers Contract Spec PathSpec ContractFacts PathFacts RefBackend Ssa SsaSpec SsaFacts SsaMore Optimal OptimalFacts OptimalBest Branch BranchFacts BranchSpec BranchOrder Greedy GreedyFacts GreedySpec Tree Dp DpMain StepFacts Random RandomSpec RandomFacts FinderFacts PropsContract PropsPaths PropsSearch PropsDp PropsRandom PropsBranch PropsChoice.

Definition search_names : list str := [lit "auto"; lit "auto-hq"; lit "optimal"; lit "branch-all"; lit "branch-2"; lit "branch-1"].
Definition greedy_names : list str := [lit "greedy"; lit "eager"; lit "opportunistic"].
Definition dp_names : list str := [lit "dp"; lit "dynamic-programming"].
Definition random_names : list str := [lit "random-greedy"; lit "random-greedy-128"].

Lemma combos2_none (E : env) : env_ok E -> combos2 (en_ord E ∅) = [].
Proof. intros HE. pose proof (eo_ord E HE ∅) as Hp. rewrite elements_empty in Hp. by apply Permutation_nil_r in Hp as ->. Qed.
Lemma branch_one nb cut mini cost E k out d mem : nb <> Some 0 -> labels_in d k -> branch (BBParams nb cut mini cost) (en_ord E) [k] out d mem = Ok [].
Proof.
  intros Hnb Hk. destruct (set_size_ok d k Hk) as [n Hn]. unfold branch. cbn [bb_nbranch]. rewrite decide_False by done.
  unfold bb_call. cbn [mapM_res]. rewrite Hn. reflexivity.
Qed.
Lemma branch_none nb cut mini cost E out d mem : nb <> Some 0 -> env_ok E -> branch (BBParams nb cut mini cost) (en_ord E) [] out d mem = Err KeyError.
Proof.
  intros Hnb HE. unfold branch. cbn [bb_nbranch]. rewrite decide_False by done. unfold bb_call. cbn [mapM_res check_args bb_fresh bi_args mbind res_bind length branch_iterate].
  replace (range_set 0) with (∅ : gset nat) by done. rewrite size_empty. rewrite (decide_False (P := 0 = 1)) by lia. rewrite (combos2_none E HE).
  cbn [foldM_res mbind res_bind bb_nbranch]. replace (heap_order []) with (@nil cand) by done. destruct nb as [[|b]|]; done.
Qed.
Lemma optimal_one E k out d mem : optimal (en_ord E) [k] out d mem = Ok [].
Proof. reflexivity. Qed.
Lemma optimal_none E out d mem : env_ok E -> optimal (en_ord E) [] out d mem = Ok [[]].
Proof.
  intros HE. unfold optimal, optimal_ssa. cbn [length optimal_iterate]. replace (range_set 0) with (∅ : gset nat) by done.
  rewrite size_empty, (decide_False (P := 0 = 1)) by lia. rewrite (combos2_none E HE). reflexivity.
Qed.
Lemma random_one n dr k out d mem : random_greedy (S n) dr [k] out d mem = Err ValueError.
Proof. reflexivity. Qed.
Lemma random_none n dr out d mem : random_greedy (S n) dr [] out d mem = Err TypeError.
Proof. reflexivity. Qed.
Lemma dp_none E out d mem : labels_in d out -> dp_default E [] out d mem = Err TypeError.
Proof.
  intros Ho. unfold dp_default, dp, dp_tree, dp_naive. assert (Ho' : labels_in d (union_sets [] ∪ out)).
  { intros c Hc. apply Ho. unfold union_sets in Hc. set_solver. }
  destruct (set_size_ok d _ Ho') as [n Hn]. rewrite Hn. reflexivity.
Qed.
Lemma ord_one (E : env) : env_ok E -> en_ord E {[0]} = [0].
Proof. intros HE. pose proof (eo_ord E HE {[0]}) as Hp. rewrite elements_singleton in Hp. by apply Permutation_singleton_r in Hp. Qed.
Lemma find_parts_one (E : env) k out : env_ok E -> find_parts (en_ord E) (en_pop E) [k] out = Ok [{[0]}].
Proof.
  intros HE. unfold find_parts. cbn [length parts]. assert (Hs : (set_seq 0 1 : gset nat) = {[0]}) by (apply set_eq; intros x; rewrite elem_of_set_seq; set_solver by lia).
  rewrite Hs. rewrite decide_False by set_solver. assert (Hp : en_pop E {[0]} = 0) by (apply (elem_of_singleton_1 (C := gset nat)), (eo_pop E HE); set_solver).
  rewrite Hp. rewrite size_singleton. replace ({[0]} ∖ {[0]} : gset nat) with (∅ : gset nat) by set_solver. cbn [grow]. change (reverse [0]) with [0]. cbv match zeta.
  replace (filter _ ∅) with (∅ : gset nat) by (symmetry; apply leibniz_equiv, filter_empty).
  pose proof (eo_ord E HE ∅) as He. rewrite elements_empty in He. apply Permutation_nil_r in He. rewrite He. cbn [reverse rev_append app].
  replace (∅ ∖ ∅ : gset nat) with (∅ : gset nat) by set_solver. cbn. rewrite decide_True by done. by rewrite union_empty_l_L.
Qed.
Lemma dp_one (E : env) k out d mem : env_ok E -> labels_in d (k ∪ out) -> dp_default E [k] out d mem = Ok (if decide (k ⊆ out) then [] else [[0]]).
Proof.
  intros HE Hl. unfold dp_default, dp, dp_tree, dp_naive. assert (Hu : union_sets [k] = k) by (unfold union_sets; cbn; set_solver).
  rewrite Hu. destruct (set_size_ok d _ Hl) as [n Hn]. rewrite Hn. cbn [mbind res_bind length].
  unfold parse_single. cbn [length seq zip zip_with foldl app].
  assert (Hr : filter (fun c => ind_count [k] out c <> 1) k = k ∩ out).
  { apply set_eq. intros c. rewrite elem_of_filter, elem_of_intersection. unfold ind_count. split.
    - intros [H1 Hc]. split; [done|]. rewrite filter_cons, decide_True in H1 by done. rewrite filter_nil in H1. destruct (decide (c ∈ out)); [done|]. by cbn in H1.
    - intros [Hc Ho]. split; [|done]. rewrite filter_cons, decide_True by done. rewrite filter_nil. rewrite decide_True by done. done. }
  rewrite Hr. destruct (decide (k ∩ out = ∅ /\ k <> ∅)) as [[H1 H2]|Hne].
  { rewrite decide_False by set_solver. reflexivity. }
  rewrite (find_parts_one E (k ∩ out) out HE). cbn [mbind res_bind mapM_res].
  unfold dp_part. rewrite (ord_one E HE), size_singleton. cbn [length fmap list_fmap replicate Nat.sub foldl].
  assert (Hg : bitmap_select (N.lor 0 (bit 0)) [k ∩ out] = [k ∩ out]) by reflexivity. rewrite Hg.
  assert (Hu2 : union_sets [k ∩ out] = k ∩ out) by (unfold union_sets; cbn; set_solver). rewrite Hu2.
  destruct (set_size_ok d (k ∩ out ∩ out)) as [c Hc]. { intros x Hx. apply Hl. set_solver. } rewrite Hc. cbn [mbind res_bind].
  destruct (mapM_res (fun c0 => of_opt KeyError (d !! c0)) (elements (k ∩ out))) as [dims|ex] eqn:Hd.
  2: { exfalso. destruct (mapM_res_ok (fun c0 => of_opt KeyError (d !! c0)) (elements (k ∩ out))) as [l Hl2]; [|congruence].
       intros x Hx%elem_of_elements. destruct (Hl x) as [v Hv]; [set_solver|]. rewrite Hv. by exists v. }
  cbn [mbind res_bind]. destruct (set_size_ok d (k ∩ out)) as [m Hm]. { intros x Hx. apply Hl. set_solver. }
  assert (Hkk : k ∩ out = k <-> k ⊆ out) by (clear; set_solver).
  set (t := if decide (k ∩ out = k) then Leaf 0 else Node [Leaf 0]).
  assert (Ht : tree_to_sequence t = Ok (if decide (k ⊆ out) then [] else [[0]])).
  { unfold t. destruct (decide (k ∩ out = k)) as [H1|H1]; [rewrite decide_True by tauto|rewrite decide_False by tauto]; reflexivity. }
  clearbody t. destruct (en_rounds E); cbn [dp_while last default]; unfold id; cbn [mbind res_bind last default lookup list_lookup from_option]; unfold id; cbv beta iota; rewrite Hm; cbn [mbind res_bind].
  all: exact Ht.
Qed.

(** ** C82 *)
(** One operand whose labels have sizes.  Expected: every name gives a path that contracts it, with and without a limit.  True for the searches, which have nothing
    to do; for the greedy names, whose path names the operand unless a limit turns them into a search; and for dynamic programming, which names the operand when
    something is summed. *)
Theorem C82_one_partial (E : env) (name : str) (k out : gset N) (d : sizes) (mem : option nat) :
  env_ok E -> labelled d [k] out -> lower name ∈ search_names ++ greedy_names ++ dp_names ->
  by_name E name [k] out d mem =
    Ok (if decide (lower name ∈ search_names) then []
        else if decide (lower name ∈ greedy_names) then match mem with None => [[0]] | Some _ => [] end
        else if decide (k ⊆ out) then [] else [[0]]).
Proof.
  intros HE [Hd Ho] Hn. assert (Hk : labels_in d k) by (intros c Hc; apply (Hd k); [by left|done]).
  assert (Hko : labels_in d (k ∪ out)).
  { intros c [Hc|Hc]%elem_of_union; [by apply Hk|]. apply Hk. apply Ho in Hc. unfold union_all in Hc. cbn in Hc. set_solver. }
  unfold by_name, get_path_fn. set (nm := lower name) in *. clearbody nm. clear name.
  unfold search_names, greedy_names, dp_names in Hn. cbn [app] in Hn.
  apply elem_of_cons in Hn as [->|Hn]; [replace (lookup_fn _ _) with (Some (auto E)) by (symmetry; lookup); reflexivity|].
  apply elem_of_cons in Hn as [->|Hn]; [replace (lookup_fn _ _) with (Some (auto_hq E)) by (symmetry; lookup); reflexivity|].
  apply elem_of_cons in Hn as [->|Hn]; [replace (lookup_fn _ _) with (Some (optimal (en_ord E) : finder)) by (symmetry; lookup); reflexivity|].
  apply elem_of_cons in Hn as [->|Hn]; [replace (lookup_fn _ _) with (Some (branch_n None E)) by (symmetry; lookup); cbn [of_opt mbind res_bind]; unfold branch_n; rewrite branch_one by done; reflexivity|].
  apply elem_of_cons in Hn as [->|Hn]; [replace (lookup_fn _ _) with (Some (branch_n (Some 2) E)) by (symmetry; lookup); cbn [of_opt mbind res_bind]; unfold branch_n; rewrite branch_one by done; reflexivity|].
  apply elem_of_cons in Hn as [->|Hn]; [replace (lookup_fn _ _) with (Some (branch_n (Some 1) E)) by (symmetry; lookup); cbn [of_opt mbind res_bind]; unfold branch_n; rewrite branch_one by done; reflexivity|].
  do 3 (apply elem_of_cons in Hn as [->|Hn]; [replace (lookup_fn _ _) with (Some (greedy_default E)) by (symmetry; lookup); cbn [of_opt mbind res_bind]; unfold greedy_default, greedy;
    destruct mem; [rewrite branch_one by done|]; reflexivity|]).
  do 2 (apply elem_of_cons in Hn as [->|Hn]; [replace (lookup_fn _ _) with (Some (dp_default E)) by (symmetry; lookup); cbn [of_opt mbind res_bind]; rewrite (dp_one E k out d mem HE Hko);
    reflexivity|]).
  by apply elem_of_nil in Hn.
Qed.
Print Assumptions C82_one_partial.
(** All these paths run on one operand. *)
Theorem C82_one_runs_partial (E : env) (name : str) (k out : gset N) (d : sizes) (mem : option nat) :
  env_ok E -> labelled d [k] out -> lower name ∈ search_names ++ greedy_names ++ dp_names ->
  exists p, by_name E name [k] out d mem = Ok p /\ path_runs 1 p.
Proof.
  intros HE Hl Hn. rewrite (C82_one_partial E name k out d mem HE Hl Hn). eexists. split; [done|].
  assert (H0 : path_runs 1 []) by done. assert (H1 : path_runs 1 [[0]]) by (repeat split; try done; repeat constructor; set_solver by lia).
  repeat case_match; done.
Qed.
Print Assumptions C82_one_runs_partial.
(** The random-greedy names fail on every single operand: the cost of a path is computed by unpacking pairs (path_random.py 293-300), and the path is (0,). *)
Theorem C82_random_fails (E : env) (name : str) (k out : gset N) (d : sizes) (mem : option nat) : lower name ∈ random_names -> by_name E name [k] out d mem = Err ValueError.
Proof.
  intros Hn. unfold by_name, get_path_fn. set (nm := lower name) in *. clearbody nm. unfold random_names in Hn.
  apply elem_of_cons in Hn as [->|Hn]; [replace (lookup_fn _ _) with (Some (random_greedy 32 (en_draws E) : finder)) by (symmetry; lookup); cbn [of_opt mbind res_bind]; apply random_one|].
  apply elem_of_cons in Hn as [->|Hn]; [replace (lookup_fn _ _) with (Some (random_greedy 128 (en_draws E) : finder)) by (symmetry; lookup); cbn [of_opt mbind res_bind]; apply random_one|].
  by apply elem_of_nil in Hn.
Qed.
Print Assumptions C82_random_fails.
Theorem C82_random_refuted : exists (k out : gset N) (d : sizes), labelled d [k] out /\
  forall (E : env) (name : str) (mem : option nat), lower name ∈ random_names -> by_name E name [k] out d mem = Err ValueError.
Proof.
  exists (lset "ab"), (lset "a"), (ldict [("a", 2); ("b", 3)])%string. split.
  { split; [|apply (bool_decide_unpack _); by vm_compute]. intros s c ->%elem_of_list_singleton Hc.
    assert (H : forall c, c ∈ lset "ab" -> is_Some (ldict [("a", 2); ("b", 3)]%string !! c)) by (intros x Hx%elem_of_elements; revert x Hx; apply Forall_forall, (bool_decide_unpack _); by vm_compute). by apply H. }
  intros E name mem Hn. by apply C82_random_fails.
Qed.
Print Assumptions C82_random_refuted.
(** No operands at all: only 'optimal' answers, with a single step of nothing.  The others fail with the error of the first operation on an empty list. *)
Theorem C82_none (E : env) (name : str) (out : gset N) (d : sizes) (mem : option nat) :
  env_ok E -> labels_in d out -> lower name ∈ all_names ->
  by_name E name [] out d mem =
    if decide (lower name = lit "optimal") then Ok [[]]
    else if decide (lower name ∈ [lit "branch-all"; lit "branch-2"; lit "branch-1"]) then Err KeyError
    else if decide (lower name ∈ lit "auto" :: greedy_names /\ mem <> None) then Err KeyError
    else Err TypeError.
Proof.
  intros HE Ho Hn. unfold by_name, get_path_fn. set (nm := lower name) in *. clearbody nm. clear name.
  assert (Hg : greedy_default E [] out d mem = if decide (mem <> None) then Err KeyError else Err TypeError).
  { unfold greedy_default, greedy. destruct mem; [by rewrite branch_none by done|done]. }
  unfold all_names, safe_names in Hn.
  apply elem_of_cons in Hn as [->|Hn]; [replace (lookup_fn _ _) with (Some (auto_hq E)) by (symmetry; lookup); reflexivity|].
  do 2 (apply elem_of_cons in Hn as [->|Hn]; [replace (lookup_fn _ _) with (Some (dp_default E)) by (symmetry; lookup); cbn [of_opt mbind res_bind]; rewrite (dp_none E out d mem Ho); reflexivity|]).
  apply elem_of_cons in Hn as [->|Hn].
  { replace (lookup_fn _ _) with (Some (auto E)) by (symmetry; lookup). cbn [of_opt mbind res_bind]. change (auto E [] out d mem) with (greedy_default E [] out d mem).
    rewrite Hg. destruct mem; reflexivity. }
  apply elem_of_cons in Hn as [->|Hn]; [replace (lookup_fn _ _) with (Some (optimal (en_ord E) : finder)) by (symmetry; lookup); cbn [of_opt mbind res_bind]; rewrite optimal_none by done; reflexivity|].
  do 3 (apply elem_of_cons in Hn as [->|Hn]; [
    first [replace (lookup_fn _ _) with (Some (branch_n None E)) by (symmetry; lookup)|replace (lookup_fn _ _) with (Some (branch_n (Some 2) E)) by (symmetry; lookup)|replace (lookup_fn _ _) with (Some (branch_n (Some 1) E)) by (symmetry; lookup)];
    cbn [of_opt mbind res_bind]; unfold branch_n; rewrite branch_none by done; reflexivity|]).
  do 3 (apply elem_of_cons in Hn as [->|Hn]; [replace (lookup_fn _ _) with (Some (greedy_default E)) by (symmetry; lookup); cbn [of_opt mbind res_bind]; rewrite Hg; destruct mem; reflexivity|]).
  apply elem_of_cons in Hn as [->|Hn]; [replace (lookup_fn _ _) with (Some (random_greedy 32 (en_draws E) : finder)) by (symmetry; lookup); reflexivity|].
  apply elem_of_cons in Hn as [->|Hn]; [replace (lookup_fn _ _) with (Some (random_greedy 128 (en_draws E) : finder)) by (symmetry; lookup); reflexivity|].
  by apply elem_of_nil in Hn.
Qed.
Print Assumptions C82_none.
(** The helper that finds the parts of a network: none among no operands. *)
Theorem C82_no_parts (ordI : gset nat -> list nat) (pop : gset nat -> nat) (out : gset N) : find_parts ordI pop [] out = Err TypeError.
Proof. done. Qed.
Print Assumptions C82_no_parts.

Example C82_instance : labelled (ldict [("a", 2); ("b", 3)]%string) [lset "ab"] (lset "a") /\ env_ok (env0 5) /\
  by_name (env0 5) (lit "dp") [lset "ab"] (lset "a") (ldict [("a", 2); ("b", 3)]%string) None = Ok [[0]] /\
  by_name (env0 5) (lit "DP") [lset "ab"] (lset "ab") (ldict [("a", 2); ("b", 3)]%string) None = Ok [] /\
  by_name (env0 5) (lit "greedy") [lset "ab"] (lset "a") (ldict [("a", 2); ("b", 3)]%string) None = Ok [[0]] /\
  by_name (env0 5) (lit "greedy") [lset "ab"] (lset "a") (ldict [("a", 2); ("b", 3)]%string) (Some 1) = Ok [] /\
  by_name (env0 5) (lit "branch-2") [] ∅ ∅ None = Err KeyError /\ by_name (env0 5) (lit "optimal") [] ∅ ∅ None = Ok [[]].
Proof.
  split.
  { split; [|apply (bool_decide_unpack _); by vm_compute]. intros s c ->%elem_of_list_singleton Hc%elem_of_elements. revert c Hc. apply Forall_forall, (bool_decide_unpack _). by vm_compute. }
  split; [apply env0_ok|]. repeat split; by vm_compute.
Qed.
