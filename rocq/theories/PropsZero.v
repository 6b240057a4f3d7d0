(** C63: random-greedy at temperature zero. *)
From Verif Require Import Prelude Helpers Contract Spec PathSpec ContractFacts PathFacts Ssa SsaSpec Optimal OptimalFacts Branch Greedy GreedyFacts GreedySpec GreedyPhases GreedyFirst ZeroSpec GreedyZero PropsContract PropsPaths PropsSearch PropsGreedy.

(** ** The chooser *)
Lemma thermal_take_split b rem q : forall l r, thermal_take b rem q = (l, r) -> exists gone, q ≡ₚ l ++ r ++ gone /\ Forall (fun c => obsolete rem c = true) gone /\ length l <= b.
Proof.
  revert b. induction q as [|c q IH]; intros [|b] l r H; simpl in H.
  - simplify_eq. by exists [].
  - simplify_eq. exists []. split; [done|]. split; [done|]. simpl. lia.
  - simplify_eq. exists []. split; [by rewrite app_nil_r|]. done.
  - destruct (obsolete rem c) eqn:E.
    + destruct (IH (S b) l r H) as (gone & H1 & H2 & H3). exists (c :: gone). split; [rewrite H1, !app_assoc; apply Permutation_middle|]. split; [by constructor|done].
    + destruct (thermal_take b rem q) as [l' r'] eqn:Et. simplify_eq. destruct (IH b l' r Et) as (gone & H1 & H2 & H3). exists gone. split; [simpl; by rewrite H1|]. split; [done|]. simpl. lia.
Qed.
Lemma thermal_take_order b rem q l r : StronglySorted gcand_le q -> thermal_take b rem q = (l, r) -> forall c c', c ∈ l -> c' ∈ r -> (q_cost c <= q_cost c')%Z.
Proof.
  intros Hs. revert b l r. induction Hs as [|c q Hs IH Hf]; intros [|b] l r H c1 c2 H1 H2; simpl in H; [simplify_eq; by apply elem_of_nil in H1..|].
  destruct (obsolete rem c) eqn:E; [by eapply IH|]. destruct (thermal_take b rem q) as [l' r'] eqn:Et. simplify_eq. apply elem_of_cons in H1 as [->|H1]; [|by eapply IH].
  destruct (thermal_take_split _ _ _ _ _ Et) as (gone & Hp & _). rewrite Forall_forall in Hf. assert (Hin : c2 ∈ q) by (rewrite Hp, !elem_of_app; auto). specialize (Hf c2 Hin). apply gcand_le_spec in Hf. lia.
Qed.
#[local] Instance gcand_le_trans'' : Transitive gcand_le.
Proof. intros a b c. rewrite !gcand_le_spec. lia. Qed.
#[local] Instance gcand_le_total'' : Total gcand_le.
Proof. intros a b. rewrite !gcand_le_spec. lia. Qed.
(** Entries of two tensors that are both still there, cheaper than [c] *)
Definition current (rem : gmap (gset N) nat) (c : gcand) : Prop := is_Some (rem !! q_k1 c) /\ is_Some (rem !! q_k2 c).
Definition cheaper (rem : gmap (gset N) nat) (c : gcand) (q : list gcand) : list gcand := filter (fun c' => current rem c' /\ (q_cost c' < q_cost c)%Z) q.
Lemma obsolete_true rem c : obsolete rem c = true -> ~ current rem c.
Proof. unfold obsolete, current. intros [H|H]%orb_true_iff [[? H1] [? H2]]; apply bool_decide_eq_true in H; congruence. Qed.
Lemma filter_length_lt {A} (P : A -> Prop) `{!forall x, Decision (P x)} (l : list A) x : x ∈ l -> ~ P x -> length (filter P l) < length l.
Proof.
  intros [l1 [l2 ->]]%elem_of_list_split Hx. rewrite filter_app, filter_cons_False by done. rewrite !app_length. simpl. pose proof (filter_length P l1). pose proof (filter_length P l2). lia.
Qed.

(** Whatever the weights: the chooser drops entries only if a tensor of theirs is gone, keeps all others in the queue but the one it returns, and fewer than
    [nbranch] of the current entries are cheaper than that one. *)
Theorem C63_chooser (energy : list gcand -> gcand -> nat) (pick : nat -> list gcand -> nat) (nbranch k : nat) (q : list gcand) (rem : gmap (gset N) nat) :
  1 <= nbranch -> draws_weighted energy pick -> exists o q' gone, thermal_chooser nbranch pick k q rem = Ok (o, q') /\ Forall (fun c => ~ current rem c) gone /\
    match o with
    | None => q' = [] /\ q ≡ₚ gone
    | Some c => current rem c /\ q ≡ₚ c :: q' ++ gone /\ length (cheaper rem c q) < nbranch
    end.
Proof.
  intros Hb Hpick. unfold thermal_chooser. destruct (thermal_take nbranch rem (merge_sort gcand_le q)) as [l r] eqn:E.
  destruct (thermal_take_split _ _ _ _ _ E) as (gone & Hp & Hg & Hl). pose proof (thermal_take_ok _ _ _ _ _ E) as (_ & Hcur & Hnil).
  pose proof (thermal_take_order _ _ _ _ _ (StronglySorted_merge_sort gcand_le q) E) as Ho. rewrite (merge_sort_Permutation gcand_le q) in Hp.
  assert (Hg' : Forall (fun c => ~ current rem c) gone) by (eapply Forall_impl; [exact Hg|]; apply obsolete_true).
  assert (Hch : forall c, c ∈ l -> current rem c /\ length (cheaper rem c q) < nbranch).
  { intros c Hc. rewrite Forall_forall in Hcur. split; [by apply obsolete_false, Hcur|]. unfold cheaper. rewrite Hp, !filter_app, !app_length.
    assert (Hr : filter (fun c' => current rem c' /\ (q_cost c' < q_cost c)%Z) r = []).
    { destruct (filter _ r) as [|c1 l1] eqn:Ef; [done|]. assert (H1 : c1 ∈ filter (fun c' => current rem c' /\ (q_cost c' < q_cost c)%Z) r) by (rewrite Ef; left).
      apply elem_of_list_filter in H1 as [[_ H1] H2]. specialize (Ho c c1 Hc H2). lia. }
    assert (Hgn : filter (fun c' => current rem c' /\ (q_cost c' < q_cost c)%Z) gone = []).
    { destruct (filter _ gone) as [|c1 l1] eqn:Ef; [done|]. assert (H1 : c1 ∈ filter (fun c' => current rem c' /\ (q_cost c' < q_cost c)%Z) gone) by (rewrite Ef; left).
      apply elem_of_list_filter in H1 as [[H1 _] H2]. rewrite Forall_forall in Hg'. by apply (Hg' c1) in H2. }
    rewrite Hr, Hgn. simpl. pose proof (filter_length_lt (fun c' => current rem c' /\ (q_cost c' < q_cost c)%Z) l c Hc) as Hlt. specialize (Hlt ltac:(intros [_ ?]; lia)). lia. }
  destruct l as [|c1 [|c2 l]].
  - exists None, r, gone. rewrite (Hnil Hb eq_refl) in *. simpl in Hp. done.
  - exists (Some c1), r, gone. split; [done|]. split; [done|]. destruct (Hch c1); [left|]. done.
  - destruct (Hpick k (c1 :: c2 :: l)) as (c & Hc & _); [done|]. rewrite Hc. exists (Some c), (r ++ delete (pick k (c1 :: c2 :: l)) (c1 :: c2 :: l)), gone. split; [done|]. split; [done|].
    destruct (Hch c); [by eapply elem_of_list_lookup_2|]. split; [done|]. split; [|done]. rewrite Hp at 1. rewrite (delete_Permutation _ _ _ Hc) at 1. simpl. apply perm_skip. rewrite !app_assoc. apply Permutation_app_tail, Permutation_app_comm.
Qed.
Print Assumptions C63_chooser.
(** At temperature zero none of them is cheaper. *)
Theorem C63_chooser_zero (pick : nat -> list gcand -> nat) (nbranch k : nat) (q : list gcand) (rem : gmap (gset N) nat) (c : gcand) (q' : list gcand) :
  1 <= nbranch -> draws_weighted zero_energy pick -> thermal_chooser nbranch pick k q rem = Ok (Some c, q') -> forall c', c' ∈ q -> current rem c' -> (q_cost c <= q_cost c')%Z.
Proof.
  intros Hb Hpick H c' Hc' Hcur. eapply thermal_zero_cheap; [exact Hb|exact Hpick|exact H|exact Hc'|]. destruct (obsolete rem c') eqn:E; [|done]. by apply obsolete_true in E.
Qed.
Print Assumptions C63_chooser_zero.

(** ** The path *)
(** If no label that can be summed is on more than two operands, then every step contracts a cheapest pair; [nbranch] and the draws make no difference. *)
Theorem C63_zero_partial (cost : nat -> nat -> nat -> gset N -> gset N -> gset N -> Z) (pick : nat -> list gcand -> nat) (nbranch : nat) (ordI : gset nat -> list nat)
    (inputs : list (gset N)) (output : gset N) (d : sizes) (p : path) :
  symmetric_cost cost -> 1 <= nbranch -> draws_weighted zero_energy pick -> 2 <= length inputs -> (forall k c, k ∈ inputs -> c ∈ k -> is_Some (d !! c)) -> on_two inputs output ->
  greedy (fun _ => cost) (Some (thermal_chooser nbranch pick)) ordI inputs output d None = Ok p ->
  each_step (cheapest_step (free inputs output) cost (size_of d) output) output p inputs.
Proof.
  intros Hsym Hb Hpick Hl Hd Htwo H. eapply greedy_zero_linear; [exact Hsym| |apply thermal_chooser_fair|by apply thermal_zero_cheap|done| |done|exact H].
  - apply thermal_chooser_ok; [done|]. intros k l Hne. destruct (Hpick k l Hne) as (c & Hc & _). by eapply lookup_lt_Some.
  - apply Forall_forall. intros k Hk c. by apply Hd.
Qed.
Print Assumptions C63_zero_partial.
(** The default cost function. *)
Theorem C63_zero_memory_partial (pick : nat -> list gcand -> nat) (nbranch : nat) (ordI : gset nat -> list nat) (inputs : list (gset N)) (output : gset N) (d : sizes) (p : path) :
  1 <= nbranch -> draws_weighted zero_energy pick -> 2 <= length inputs -> (forall k c, k ∈ inputs -> c ∈ k -> is_Some (d !! c)) -> on_two inputs output ->
  greedy cost_memory_removed (Some (thermal_chooser nbranch pick)) ordI inputs output d None = Ok p ->
  each_step (cheapest_step (free inputs output) memory_added (size_of d) output) output p inputs.
Proof.
  intros Hb Hpick Hl Hd Htwo H. assert (Hs : symmetric_cost (fun s12 s1 s2 _ _ _ => (Z.of_nat s12 - Z.of_nat s1 - Z.of_nat s2)%Z)) by (intros s s1 s2 k k1 k2; lia).
  pose proof (C63_zero_partial _ pick nbranch ordI inputs output d p Hs Hb Hpick Hl Hd Htwo H) as He. eapply (each_step_and (fun _ _ => True)); [|clear; revert inputs; induction p; intros inputs; simpl; auto|exact He].
  intros now rest _ (a & b & Hn & Hc). exists a, b. split; [done|]. destruct Hc as [?|[?|[Hlk Hc]]]; [by left|by right; left|]. right. right. split; [done|].
  intros i j ki kj Hij Hi Hj Hlij. specialize (Hc i j ki kj Hij Hi Hj Hlij). unfold cost_of, memory_added in *. lia.
Qed.
Print Assumptions C63_zero_memory_partial.
(** zuh,hy,zo,yw,wv->uov, sizes z=3 u=2 h=100 y=2 o=42 w=10 v=11: after zuh,hy->zuy and yw,wv->yv the pair zuy,zo adds 30 elements and zuy,yv 32. *)
Definition ex_zero_in : list (gset N) := [lset "zuh"; lset "hy"; lset "zo"; lset "yw"; lset "wv"].
Definition ex_zero_d : sizes := ldict [("z"%string, 3); ("u"%string, 2); ("h"%string, 100); ("y"%string, 2); ("o"%string, 42); ("w"%string, 10); ("v"%string, 11)].
Definition first_drawn : nat -> list gcand -> nat := fun _ _ => 0.
Lemma first_drawn_ok : draws_weighted zero_energy first_drawn.
Proof. intros k [|c l] H; [done|]. exists c. split; [done|]. simpl. rewrite decide_True by done. lia. Qed.
Definition on_two_b (inputs : list (gset N)) (output : gset N) : bool :=
  forallb (fun i => forallb (fun j => forallb (fun l => bool_decide (i = j \/ j = l \/ i = l) || bool_decide ((default ∅ (inputs !! i) ∩ default ∅ (inputs !! j) ∩ default ∅ (inputs !! l)) ∖ output = ∅))
    (seq 0 (length inputs))) (seq 0 (length inputs))) (seq 0 (length inputs)).
Lemma on_two_b_ok inputs output : on_two_b inputs output = true -> on_two inputs output.
Proof.
  intros H x i j l a b c [Ho _] Hi Hj Hl Ha Hb Hc. assert (Hin : forall i k, inputs !! i = Some k -> In i (seq 0 (length inputs))) by (intros i' k' Hk; apply lookup_lt_Some in Hk; apply in_seq; lia).
  unfold on_two_b in H. rewrite forallb_forall in H. specialize (H i (Hin _ _ Hi)). rewrite forallb_forall in H. specialize (H j (Hin _ _ Hj)). rewrite forallb_forall in H. specialize (H l (Hin _ _ Hl)).
  apply orb_true_iff in H as [H|H]; apply bool_decide_eq_true in H; [done|]. rewrite Hi, Hj, Hl in H. simpl in H. set_solver.
Qed.
Definition labels_b (inputs : list (gset N)) (d : sizes) : bool := forallb (fun k => forallb (fun c => bool_decide (is_Some (d !! c))) (elements k)) inputs.
Lemma labels_b_ok inputs d : labels_b inputs d = true -> forall k c, k ∈ inputs -> c ∈ k -> is_Some (d !! c).
Proof. unfold labels_b. intros H k c Hk Hc. rewrite forallb_forall in H. apply elem_of_list_In, H in Hk. rewrite forallb_forall in Hk. apply elem_of_elements, elem_of_list_In, Hk in Hc. by apply bool_decide_eq_true in Hc. Qed.
Example C63_instance :
  greedy cost_memory_removed (Some (thermal_chooser 8 first_drawn)) ordI0 ex_zero_in (lset "uov") ex_zero_d None = Ok [[0; 1]; [1; 2]; [0; 1]; [0; 1]] /\
  on_two ex_zero_in (lset "uov") /\ (forall k c, k ∈ ex_zero_in -> c ∈ k -> is_Some (ex_zero_d !! c)).
Proof. split; [by vm_compute|]. split; [apply on_two_b_ok; by vm_compute|apply labels_b_ok; by vm_compute]. Qed.
Example C63_chooser_instance (e1 := GCand 5 1 0 (lset "a") (lset "b") ∅) (e2 := GCand 3 2 0 (lset "a") (lset "c") ∅) (e3 := GCand 1 3 0 (lset "a") (lset "d") ∅)
    (rem := list_to_map [(lset "a", 0); (lset "b", 1); (lset "c", 2)] : gmap (gset N) nat) :
  thermal_chooser 8 first_drawn 0 [e1; e2; e3] rem = Ok (Some e2, [e1]) /\ thermal_chooser 8 (fun _ l => length l - 1) 0 [e1; e2; e3] rem = Ok (Some e1, [e2]).
Proof. by vm_compute. Qed.

(** Without the chooser that property fails also for these networks: plain greedy contracts zuy,yv on the third step. *)
Theorem C63_plain_greedy_refuted : exists (inputs : list (gset N)) (output : gset N) (d : sizes) (p : path),
  2 <= length inputs /\ (forall k c, k ∈ inputs -> c ∈ k -> is_Some (d !! c)) /\ on_two inputs output /\ greedy cost_memory_removed None ordI0 inputs output d None = Ok p /\
  ~ each_step (cheapest_step (free inputs output) memory_added (size_of d) output) output p inputs.
Proof.
  exists ex_zero_in, (lset "uov"), ex_zero_d, [[0; 1]; [1; 2]; [1; 2]; [0; 1]]. split; [simpl; lia|]. split; [apply labels_b_ok; by vm_compute|]. split; [apply on_two_b_ok; by vm_compute|].
  split; [by vm_compute|]. cbn [each_step]. intros (_ & _ & H & _).
  match type of H with cheapest_step _ _ _ _ ?now ?rest => assert (En : now = [lset "zuy"; lset "yv"]) by (by apply (bool_decide_unpack _); vm_compute); assert (Er : rest = [lset "zo"]) by (by apply (bool_decide_unpack _); vm_compute); rewrite En, Er in H end.
  destruct H as (a & b & [= <- <-] & [H|[H|[_ H]]]).
  - apply (f_equal (fun k => bool_decide (122%N ∈ k))) in H. by vm_compute in H.
  - apply (H 0 1 _ _ ltac:(done) eq_refl eq_refl). exists 121%N. split; [|split; by apply (bool_decide_unpack _); vm_compute]. split; [by apply (bool_decide_unpack (121%N ∉ lset "uov")); vm_compute|]. exists (lset "zuh"). split; [left|]. by apply (bool_decide_unpack (121%N ∉ lset "zuh")); vm_compute.
  - specialize (H 0 2 _ _ ltac:(done) eq_refl eq_refl). assert (Hl : linked (free ex_zero_in (lset "uov")) (lset "zuy") (lset "zo")).
    { exists 122%N. split; [|split; by apply (bool_decide_unpack _); vm_compute]. split; [by apply (bool_decide_unpack (122%N ∉ lset "uov")); vm_compute|]. exists (lset "hy"). split; [right; left|]. by apply (bool_decide_unpack (122%N ∉ lset "hy")); vm_compute. }
    specialize (H Hl). vm_compute in H. by apply H.
Qed.
Print Assumptions C63_plain_greedy_refuted.

(** The full statement, for all networks, fails: xy,xy,xz,pq,pr->zqr, sizes x=2 y=10 z=2 p=4 q=2 r=2.  xy,xy->xy is done first; y is then on no other operand and
    is summed, but the search goes on with the labels xy and values xy,xz at 2-20-4=-22 elements.  It is contracted on the second step, which saves 4 elements;
    pq,pr saves 12. *)
Definition ex_hyper_in : list (gset N) := [lset "xy"; lset "xy"; lset "xz"; lset "pq"; lset "pr"].
Definition ex_hyper_d : sizes := ldict [("x"%string, 2); ("y"%string, 10); ("z"%string, 2); ("p"%string, 4); ("q"%string, 2); ("r"%string, 2)].
Theorem C63_zero_refuted : exists (inputs : list (gset N)) (output : gset N) (d : sizes) (pick : nat -> list gcand -> nat) (p : path),
  2 <= length inputs /\ (forall k c, k ∈ inputs -> c ∈ k -> is_Some (d !! c)) /\ draws_weighted zero_energy pick /\
  greedy cost_memory_removed (Some (thermal_chooser 8 pick)) ordI0 inputs output d None = Ok p /\
  ~ each_step (cheapest_step (free inputs output) memory_added (size_of d) output) output p inputs.
Proof.
  exists ex_hyper_in, (lset "zqr"), ex_hyper_d, first_drawn, [[0; 1]; [0; 3]; [0; 1]; [0; 1]]. split; [simpl; lia|]. split; [apply labels_b_ok; by vm_compute|]. split; [apply first_drawn_ok|].
  split; [by vm_compute|]. cbn [each_step]. intros (_ & H & _).
  match type of H with cheapest_step _ _ _ _ ?now ?rest => assert (En : now = [lset "xz"; lset "x"]) by (by apply (bool_decide_unpack _); vm_compute); assert (Er : rest = [lset "pq"; lset "pr"]) by (by apply (bool_decide_unpack _); vm_compute); rewrite En, Er in H end.
  assert (Hl : linked (free ex_hyper_in (lset "zqr")) (lset "pq") (lset "pr")).
  { exists 112%N. split; [|split; by apply (bool_decide_unpack _); vm_compute]. split; [by apply (bool_decide_unpack (112%N ∉ lset "zqr")); vm_compute|]. exists (lset "xy"). split; [left|]. by apply (bool_decide_unpack (112%N ∉ lset "xy")); vm_compute. }
  destruct H as (a & b & [= <- <-] & [H|[H|[_ H]]]).
  - apply (f_equal (fun k => bool_decide (122%N ∈ k))) in H. by vm_compute in H.
  - by apply (H 2 3 _ _ ltac:(done) eq_refl eq_refl).
  - specialize (H 2 3 _ _ ltac:(done) eq_refl eq_refl Hl). vm_compute in H. by apply H.
Qed.
Print Assumptions C63_zero_refuted.
