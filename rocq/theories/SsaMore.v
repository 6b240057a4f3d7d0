(** More about SSA paths: building them step by step, and replaying them on label sets. *)
From Verif Require Import Prelude Einsum EinsumFacts Helpers Contract Spec PathSpec StringFacts StepFacts ContractFacts PathFacts Ssa SsaSpec SsaFacts.

(** Valid prefixes and the operands available after them. *)
Fixpoint ssa_valid (av : list nat) (next : nat) (p : path) : Prop :=
  match p with
  | [] => True
  | s :: p' => s <> [] /\ NoDup s /\ (forall i, i ∈ s -> i ∈ av) /\ ssa_valid (filter (.∉ s) av ++ [next]) (S next) p'
  end.
Fixpoint ssa_after (av : list nat) (next : nat) (p : path) : list nat :=
  match p with [] => av | s :: p' => ssa_after (filter (.∉ s) av ++ [next]) (S next) p' end.

Lemma ssa_runs_valid av next p : ssa_runs av next p <-> ssa_valid av next p /\ length (ssa_after av next p) = 1.
Proof. revert av next. induction p as [|s p IH]; intros av next; simpl; [tauto|]. rewrite IH. tauto. Qed.
Lemma ssa_valid_snoc av next p s : ssa_valid av next (p ++ [s]) <->
  ssa_valid av next p /\ s <> [] /\ NoDup s /\ forall i, i ∈ s -> i ∈ ssa_after av next p.
Proof. revert av next. induction p as [|t p IH]; intros av next; simpl; [tauto|]. rewrite IH. tauto. Qed.
Lemma ssa_after_snoc av next p (s : list nat) : ssa_after av next (p ++ [s]) = filter (.∉ s) (ssa_after av next p) ++ [next + length p].
Proof.
  revert av next. induction p as [|t p IH]; intros av next; simpl; [by rewrite Nat.add_0_r|]. rewrite IH. by rewrite <-plus_n_Sm.
Qed.
Lemma filter_step_asc (ids s : list nat) next : asc ids -> Forall (fun i => i < next) ids -> asc (filter (.∉ s) ids ++ [next]).
Proof.
  intros Ha Hlt. apply asc_snoc; [by apply asc_filter|]. rewrite Forall_forall in Hlt. apply Forall_forall. intros i Hi%elem_of_list_filter. by apply Hlt, Hi.
Qed.
Lemma filter_step_lt (ids s : list nat) next : Forall (fun i => i < next) ids -> Forall (fun i => i < S next) (filter (.∉ s) ids ++ [next]).
Proof.
  intros Hlt. rewrite Forall_forall in *. intros i [Hi%elem_of_list_filter| ->%elem_of_list_singleton]%elem_of_app; [|lia].
  destruct Hi as [_ Hi]. apply Hlt in Hi. lia.
Qed.
Lemma ssa_after_asc av next p : asc av -> Forall (fun i => i < next) av ->
  asc (ssa_after av next p) /\ Forall (fun i => i < next + length p) (ssa_after av next p).
Proof.
  revert av next. induction p as [|s p IH]; intros av next Ha Hlt; simpl; [by rewrite Nat.add_0_r|].
  destruct (IH (filter (.∉ s) av ++ [next]) (S next)) as [H1 H2]; [by apply filter_step_asc|by apply filter_step_lt|].
  split; [done|]. by rewrite <-plus_n_Sm.
Qed.

(** Replaying on label sets. *)
Definition at_ids (vals : list (gset N)) (l : list nat) : list (gset N) := omap (fun i => vals !! i) l.
Fixpoint ssa_replay (out : gset N) (p : path) (vals : list (gset N)) (av : list nat) : list (list (gset N) * gset N) :=
  match p with
  | [] => []
  | s :: p' =>
    let ch := at_ids vals (sort_nat s) in
    let k := union_all ch ∩ (out ∪ union_all (at_ids vals (filter (.∉ s) av))) in
    (ch, k) :: ssa_replay out p' (vals ++ [k]) (filter (.∉ s) av ++ [length vals])
  end.
Lemma ssa_replay_snoc out p s vals av : length vals + length p = length (vals ++ (ssa_replay out p vals av).*2) ->
  ssa_replay out (p ++ [s]) vals av = ssa_replay out p vals av ++
    ssa_replay out [s] (vals ++ (ssa_replay out p vals av).*2) (ssa_after av (length vals) p).
Proof.
  intros _. revert vals av. induction p as [|t p IH]; intros vals av; [simpl; by rewrite app_nil_r|].
  simpl app. cbn [ssa_replay]. rewrite IH. simpl. rewrite <-app_assoc, app_length. simpl.
  by replace (length vals + 1) with (S (length vals)) by lia.
Qed.
Lemma ssa_replay_length out p vals av : length (ssa_replay out p vals av) = length p.
Proof. revert vals av. induction p as [|s p IH]; intros vals av; simpl; [done|]. by rewrite IH. Qed.

Lemma ssa_replay_linear p ids next lp out (sets vals : list (gset N)) : asc ids -> Forall (fun i => i < next) ids -> ssa_valid ids next p ->
  s2l_loop next ids p = Ok lp -> length vals = next -> Some <$> sets = (fun i => vals !! i) <$> ids ->
  replay out lp sets = ssa_replay out p vals ids.
Proof.
  revert ids next lp sets vals. induction p as [|s p IH]; intros ids next lp sets vals Ha Hlt Hv H Hlen Hsets; simpl in H; [by injection H as <-|].
  destruct Hv as (Hne & Hnd & Hin & Hv). destruct (pops_con ids s Ha Hnd Hin) as (tmp & Hp). rewrite Hp in H. cbn [mbind res_bind] in H.
  apply bind_Ok in H as (rest & Hrest & H). apply Ok_inj in H as <-. set (con := sort_nat (bisect_left ids <$> s)) in *.
  assert (Hch : chosen con sets = at_ids vals (sort_nat s)).
  { symmetry. apply omap_some. rewrite <-chosen_fmap, Hsets, chosen_fmap. f_equal. by apply chosen_con. }
  assert (Hot : Some <$> others con sets = (fun i => vals !! i) <$> filter (.∉ s) ids).
  { rewrite <-others_fmap, Hsets, others_fmap. f_equal. by apply others_con. }
  simpl. unfold kept. rewrite Hch. rewrite <-(omap_some _ _ _ Hot). fold (at_ids vals (filter (.∉ s) ids)). f_equal.
  rewrite Hlen. eapply IH; [by apply filter_step_asc|by apply filter_step_lt|done|exact Hrest| |].
  - rewrite app_length. simpl. lia.
  - rewrite !fmap_app. f_equal.
    + unfold at_ids at 1. rewrite (omap_some _ _ _ Hot), Hot. apply list_fmap_ext'. intros i [_ Hi]%elem_of_list_filter.
      rewrite lookup_app_l; [done|]. rewrite Hlen. rewrite Forall_forall in Hlt. by apply Hlt.
    + simpl. rewrite lookup_app_r by lia. by rewrite Hlen, Nat.sub_diag.
Qed.
Lemma seq_lookup_fmap {A} (l : list A) : Some <$> l = (fun i => l !! i) <$> seq 0 (length l).
Proof.
  apply list_eq. intros i. rewrite !list_lookup_fmap. destruct (decide (i < length l)) as [Hi|Hi].
  - rewrite lookup_seq_lt by done. simpl. by destruct (lookup_lt_is_Some_2 l i) as [x ->].
  - rewrite (lookup_ge_None_2 l), (lookup_ge_None_2 (seq _ _)) by (rewrite ?seq_length; lia). done.
Qed.
Lemma ssa_replay_ok out p lp (sets : list (gset N)) : ssa_complete (length sets) p -> ssa_to_linear p = Ok lp ->
  replay out lp sets = ssa_replay out p sets (seq 0 (length sets)).
Proof.
  unfold ssa_complete. intros H Hlp. unfold ssa_to_linear in Hlp. set (n := length sets) in *.
  rewrite (ssa_arity p (seq 0 n) n H (NoDup_seq 0 n) (seq_lt n)), seq_length in Hlp. apply ssa_runs_valid in H as [Hv _].
  apply (ssa_replay_linear p (seq 0 n) n lp out sets sets (asc_seq 0 n) (seq_lt n) Hv Hlp); [done|apply seq_lookup_fmap].
Qed.

(** ** Loop rules *)
Lemma foldM_total {A S} (f : S -> A -> res S) (I : S -> Prop) (l : list A) s :
  (forall s a, I s -> a ∈ l -> exists s', f s a = Ok s' /\ I s') -> I s -> exists s', foldM_res f s l = Ok s' /\ I s'.
Proof.
  revert s. induction l as [|a l IH]; intros s Hstep Hs; [by exists s|]. simpl. destruct (Hstep s a Hs) as (s' & -> & Hs'); [left|].
  simpl. apply IH; [|done]. intros; apply Hstep; [done|by right].
Qed.
Lemma foldM_inv {A S} (f : S -> A -> res S) (I : list A -> S -> Prop) (l : list A) s s' :
  (forall done a rest s s', l = done ++ a :: rest -> I done s -> f s a = Ok s' -> I (done ++ [a]) s') -> I [] s -> foldM_res f s l = Ok s' -> I l s'.
Proof.
  intros Hstep. assert (Hgen : forall rest done s, l = done ++ rest -> I done s -> foldM_res f s rest = Ok s' -> I l s').
  { induction rest as [|a rest IH]; intros done s0 Hl Hs H; simpl in H.
    - injection H as <-. rewrite app_nil_r in Hl. by subst.
    - apply bind_Ok in H as (s1 & H1 & H). apply (IH (done ++ [a]) s1); [by rewrite <-app_assoc| |done]. by eapply Hstep. }
  intros Hs H. by apply (Hgen l [] s).
Qed.
