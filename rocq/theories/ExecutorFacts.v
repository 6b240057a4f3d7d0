(** Facts about the pools and jobs of random optimizers. *)
From Verif Require Import Prelude Contract Ssa Branch Random Executor ExecutorSpec.

Lemma submitted_app l1 l2 : submitted (l1 ++ l2) = submitted l1 ++ submitted l2.
Proof. by unfold submitted; rewrite bind_app. Qed.
Lemma settled_app l1 l2 : settled (l1 ++ l2) = settled l1 ++ settled l2.
Proof. by unfold settled; rewrite bind_app. Qed.
Lemma times_app a l1 l2 : times a (l1 ++ l2) = times a l1 + times a l2.
Proof. apply count_occ_app. Qed.
Lemma times_0 a l : times a l = 0 <-> a ∉ l.
Proof. unfold times. by rewrite <-count_occ_not_In, elem_of_list_In. Qed.
Lemma times_cons a b l : times a (b :: l) = (if decide (b = a) then 1 else 0) + times a l.
Proof. unfold times. simpl. by case_decide. Qed.
Lemma settled_cancelled js : settled (Cancelled <$> js) = js.
Proof. induction js as [|j js IH]; [done|]. change (j :: settled (Cancelled <$> js) = j :: js). by rewrite IH. Qed.
Lemma submitted_cancelled js : submitted (Cancelled <$> js) = [].
Proof. induction js as [|j js IH]; [done|]. exact IH. Qed.

(** Only jobs, and only jobs of this pool *)
Definition of_pool (p : pool) (a : action) : Prop := match a with Started _ | Shut _ => False | Submitted q _ => q = p | _ => True end.

Section Loop.
  Variable m : minimize.
  Variable c : pool_call.

  Lemma drain_acts p k fs o e o' fs' acts : drain m c k fs o = (e, o', fs', acts) ->
    settled acts ++ fs'.*1 = fs.*1 /\ submitted acts = [] /\ Forall (of_pool p) acts /\
    match e with Some x => exists r, pl_trial c r = Err x | None => True end.
  Proof.
    revert k o e o' fs' acts. induction fs as [|[j r] fs IH]; intros k o e o' fs' acts; simpl.
    - intros [= <- <- <- <-]. done.
    - destruct (pl_trial c r) as [t|x] eqn:Hr.
      + destruct (pl_expired c k).
        * intros [= <- <- <- <-]. split_and!; try done. by repeat constructor.
        * destruct (drain m c (S k) fs _) as [[[e1 o1] fs1] acts1] eqn:H1. intros [= <- <- <- <-].
          destruct (IH _ _ _ _ _ _ H1) as (Ha & Hb & Hc & Hd).
          split_and!; [|done|by constructor|done]. change (j :: settled acts1 ++ fs1.*1 = j :: fs.*1). by rewrite Ha.
      + intros [= <- <- <- <-]. split_and!; try done; [by repeat constructor|eauto].
  Qed.

  Lemma tandem_acts p down k j fs rs o e o' fs' acts j' :
    tandem m c p down k j fs rs o = (e, o', fs', acts, j') -> (down = true -> fs = []) ->
    settled acts ++ fs'.*1 = fs.*1 ++ submitted acts /\ submitted acts = seq j (j' - j) /\ j <= j' /\ Forall (of_pool p) acts /\
    match e with Some x => (exists r, pl_trial c r = Err x) \/ fs' = [] | None => True end.
  Proof.
    revert k j fs o e o' fs' acts j'. induction rs as [|r rs IH]; intros k j fs o e o' fs' acts j'; simpl.
    - destruct (drain m c k fs o) as [[[e1 o1] fs1] acts1] eqn:H1. intros [= <- <- <- <- <-] _.
      destruct (drain_acts p _ _ _ _ _ _ _ H1) as (Ha & Hb & Hc & Hd).
      rewrite Hb, app_nil_r, Nat.sub_diag. split_and!; try done. destruct e1; [by left|done].
    - destruct (length fs <? pl_pre c).
      + destruct down.
        * intros [= <- <- <- <- <-] Hfs. rewrite (Hfs eq_refl), Nat.sub_diag. split_and!; try done; by right.
        * destruct (tandem m c p false k (S j) (fs ++ [(j, r)]) rs o) as [[[[e1 o1] fs1] acts1] j1] eqn:H1.
          intros [= <- <- <- <- <-] _. destruct (IH _ _ _ _ _ _ _ _ _ H1) as (Ha & Hb & Hc & Hd & He); [done|].
          change (settled (Submitted p j :: acts1)) with (settled acts1).
          change (submitted (Submitted p j :: acts1)) with (j :: submitted acts1).
          split_and!; try done; [|rewrite Hb|lia|by constructor].
          -- rewrite Ha, fmap_app, <-app_assoc. done.
          -- by replace (j1 - j) with (S (j1 - S j)) by lia.
      + destruct fs as [|[i r'] fs].
        * intros [= <- <- <- <- <-] _. rewrite Nat.sub_diag. split_and!; try done; by right.
        * destruct down; [intros _ Hfs; by specialize (Hfs eq_refl)|].
          destruct (pl_trial c r') as [t|x] eqn:Hr.
          -- destruct (pl_expired c k).
             ++ intros [= <- <- <- <- <-] _. rewrite Nat.sub_diag. split_and!; try done; [|by repeat constructor].
                simpl. by rewrite app_nil_r.
             ++ destruct (tandem m c p false (S k) j fs rs (assess m t o)) as [[[[e1 o1] fs1] acts1] j1] eqn:H1.
                intros [= <- <- <- <- <-] _. destruct (IH _ _ _ _ _ _ _ _ _ H1) as (Ha & Hb & Hc & Hd & He); [done|].
                split_and!; try done; [|by constructor]. change (i :: settled acts1 ++ fs1.*1 = i :: fs.*1 ++ submitted acts1). by rewrite Ha.
          -- intros [= <- <- <- <- <-] _. rewrite Nat.sub_diag. split_and!; try done; [|by repeat constructor|left; eauto].
             simpl. by rewrite app_nil_r.
  Qed.

  Lemma drain_plain k fs o : ro_loop m (pl_trial c) (pl_expired c) k (Ok <$> fs.*2) o = (drain m c k fs o).1.1.
  Proof.
    revert k o. induction fs as [|[j r] fs IH]; intros k o; [done|]. cbn [drain].
    change (Ok <$> ((j, r) :: fs).*2) with (Ok r :: (Ok <$> fs.*2)). cbn [ro_loop mbind res_bind].
    destruct (pl_trial c r) as [t|x]; [|done]. fold (assess m t o).
    destruct (pl_expired c k); [done|]. rewrite IH. by destruct (drain m c (S k) fs _) as [[[??]?]?].
  Qed.
  Lemma tandem_plain p k j fs rs o :
    ro_loop m (pl_trial c) (pl_expired c) k (gen_parallel (pl_pre c) fs.*2 rs) o = (tandem m c p false k j fs rs o).1.1.1.
  Proof.
    revert k j fs o. induction rs as [|r rs IH]; intros k j fs o; cbn [gen_parallel tandem].
    - rewrite drain_plain. by destruct (drain m c k fs o) as [[[??]?]?].
    - rewrite fmap_length. destruct (length fs <? pl_pre c).
      + specialize (IH k (S j) (fs ++ [(j, r)]) o). rewrite fmap_app in IH. simpl in IH. rewrite IH.
        by destruct (tandem m c p false k (S j) (fs ++ [(j, r)]) rs o) as [[[[??]?]?]?].
      + destruct fs as [|[i r'] fs]; [done|]. change ((i, r') :: fs).*2 with (r' :: fs.*2). cbn [ro_loop mbind res_bind].
        destruct (pl_trial c r') as [t|x]; [|done]. fold (assess m t o).
        destruct (pl_expired c k); [done|]. rewrite (IH (S k) j). by destruct (tandem m c p false (S k) j fs rs _) as [[[[??]?]?]?].
  Qed.
End Loop.

(** Pools are started and shut down in turn: [a] is the pool running, [k] the number started before; in the end none is running. *)
Fixpoint in_turn (a : option nat) (k : nat) (l : list action) : Prop :=
  match l with
  | [] => a = None
  | Started n :: l => a = None /\ n = k /\ in_turn (Some n) (S k) l
  | Shut p :: l => Own <$> a = Some p /\ in_turn None k l
  | _ :: l => in_turn a k l
  end.

Lemma in_turn_ok a k l : in_turn a k l -> (forall n, a = Some n -> n < k) ->
  (forall n, times (Shut (Own n)) l = times (Started n) l + (if decide (a = Some n) then 1 else 0)) /\
  (forall n, times (Started n) l <= 1 /\ (n < k -> times (Started n) l = 0)) /\
  (forall u, Shut (Users u) ∉ l) /\
  (forall l1 n l2, l = l1 ++ Started n :: l2 ->
     k <= n /\ Shut (Own n) ∉ l1 /\ forall i, (Started i ∈ l1 \/ a = Some i) -> Shut (Own i) ∈ l1).
Proof.
  revert a k. induction l as [|x l IH]; intros a k; simpl.
  { intros -> _. split_and!; intros; try done; try lia; [apply not_elem_of_nil|]. by destruct l1. }
  destruct x as [n0|p|p j|j|j]; cbn [in_turn].
  2: { intros [Hp Hl] Ha. destruct a as [n0|]; simplify_eq/=.
       destruct (IH None k Hl) as (H1 & H2 & H3 & H4); [done|].
       split_and!; intros; rewrite ?times_cons.
       - specialize (H1 n). rewrite H1. repeat case_decide; simplify_eq; lia.
       - specialize (H2 n). repeat case_decide; simplify_eq. lia.
       - rewrite elem_of_cons. intros [?|?]; [done|]. by apply (H3 u).
       - destruct l1 as [|y l1]; simplify_eq/=. destruct (H4 l1 n l2 eq_refl) as (Ha1 & Hb & Hc).
         pose proof (Ha n0 eq_refl). split_and!; [done| |].
         + rewrite elem_of_cons. intros [?|?]; [simplify_eq; lia|done].
         + intros i [[?|Hi]%elem_of_cons|[= ->]]; [done| |]; rewrite elem_of_cons; [right; by apply Hc; left|by left]. }
  1: { intros (-> & -> & Hl) _.
       destruct (IH (Some k) (S k) Hl) as (H1 & H2 & H3 & H4); [intros ? [= ->]; lia|].
       split_and!; intros; rewrite ?times_cons.
       - specialize (H1 n). rewrite H1. repeat case_decide; simplify_eq; lia.
       - specialize (H2 n). case_decide; simplify_eq; lia.
       - rewrite elem_of_cons. intros [?|?]; [done|]. by apply (H3 u).
       - destruct l1 as [|y l1]; simplify_eq/=.
         { split_and!; [lia|apply not_elem_of_nil|]. intros i [?%elem_of_nil|?]; done. }
         destruct (H4 l1 n l2 eq_refl) as (Ha1 & Hb & Hc).
         split_and!; [lia| |].
         + rewrite elem_of_cons. intros [?|?]; done.
         + intros i [[?|Hi]%elem_of_cons|?]; simplify_eq; rewrite elem_of_cons; right; apply Hc; [by right|by left]. }
  all: intros Hl Ha; destruct (IH a k Hl Ha) as (H1 & H2 & H3 & H4); split_and!; intros; rewrite ?times_cons.
  all: try (specialize (H1 n); rewrite H1; repeat case_decide; simplify_eq; lia).
  all: try (specialize (H2 n); repeat case_decide; simplify_eq; lia).
  all: try (rewrite elem_of_cons; intros [?|?]; [done|]; by apply (H3 u)).
  all: destruct l1 as [|y l1]; simplify_eq/=; destruct (H4 l1 n l2 eq_refl) as (Ha1 & Hb & Hc);
    split_and!; [done|rewrite elem_of_cons; intros [?|?]; done|].
  all: intros i [[?|Hi]%elem_of_cons|?]; [done| |]; rewrite elem_of_cons; right; apply Hc; auto.
Qed.

Lemma in_turn_jobs a k l1 l2 : (exists p, Forall (of_pool p) l1) -> in_turn a k l2 -> in_turn a k (l1 ++ l2).
Proof. intros [p Hl] H2. induction Hl as [|x l Hx Hl IH]; [done|]. by destruct x. Qed.

Definition running (w : workers) : option nat :=
  if wk_managing w then wk_pool w ≫= fun p => match p with Own n => Some n | Users _ => None end else None.
Definition managed_ok (w : workers) : Prop :=
  (wk_managing w = true -> exists n, wk_pool w = Some (Own n) /\ wk_started w = S n /\ Own n ∉ wk_down w) /\
  (forall n, wk_started w <= n -> Own n ∉ wk_down w).

Lemma shut_managed_ok w : managed_ok w -> exists w' acts, shut_managed w = (None, w', acts) /\
  wk_pool w' = wk_pool w /\ wk_started w' = wk_started w /\ wk_jobs w' = wk_jobs w /\
  (forall n, wk_started w <= n -> Own n ∉ wk_down w') /\
  (forall u, Users u ∈ wk_down w' -> Users u ∈ wk_down w) /\ submitted acts = [] /\
  forall l, in_turn None (wk_started w) l -> in_turn (running w) (wk_started w) (acts ++ l).
Proof.
  intros [Hm Hd]. unfold shut_managed, running. destruct (wk_managing w).
  - destruct (Hm eq_refl) as (n & -> & Hs & Hn). eexists _, _. split; [done|]. simpl. split_and!; try done.
    + intros i Hi. rewrite elem_of_cons. intros [?|?]; [simplify_eq; lia|]. by apply (Hd i).
    + intros u. rewrite elem_of_cons. intros [?|?]; done.
  - eexists _, _. split; [done|]. split_and!; try done. 
Qed.

Lemma set_parallel_ok v w r w' acts : set_parallel v w = (r, w', acts) -> managed_ok w ->
  managed_ok w' /\ wk_jobs w' = wk_jobs w /\ wk_started w <= wk_started w' /\ submitted acts = [] /\
  (forall l, in_turn (running w') (wk_started w') l -> in_turn (running w) (wk_started w) (acts ++ l)) /\
  match r with
  | Ok _ =>
    wk_pool w' = match v with
                 | PFalse | PNone => None
                 | PTrue | PWorkers _ => last acts ≫= fun a => match a with Started n => Some (Own n) | _ => None end
                 | PPool u => Some (Users u)
                 end /\
    (bool_decide (wk_pool w' = None) = negb (pooled v)) /\
    ((forall u, Users u ∉ wk_down w) -> (forall u, Users u ∉ wk_down w') /\ forall p, wk_pool w' = Some p -> p ∉ wk_down w')
  | Err e => wk_pool w' = wk_pool w /\ e = ValueError /\ (exists n, v = PWorkers n /\ (n <= 0)%Z)
  end.
Proof.
  intros H Hw. destruct (shut_managed_ok w Hw) as (w1 & acts1 & Hs & Hp & Hn & Hj & Hd & Hu & Hsub & Ht).
  unfold set_parallel in H. rewrite Hs in H.
  assert (Hin : forall l, in_turn (Some (wk_started w)) (S (wk_started w)) l -> in_turn (running w) (wk_started w) ((acts1 ++ [Started (wk_started w)]) ++ l)).
  { intros l Hl. rewrite <-app_assoc. apply Ht. done. }
  destruct v; try case_decide; simplify_eq; unfold managed_ok; simpl; rewrite ?last_snoc, ?submitted_app, ?Hsub, ?Hn, ?Hj, ?Hp; simpl;
    (split_and!; try done; try lia).
  all: try (intros _; eexists; split_and!; [done|done|apply Hd; lia]).
  all: try (intros n0 Hn0; apply Hd; lia).
  all: try by eexists.
  all: try (intros Hu0; split; [intros u0 Hu1; by apply (Hu0 u0), Hu|intros p0 Hp0; simplify_eq/=]).
  all: try (apply Hd; lia).
  intros Hu1. by apply (Hu0 u), Hu.
Qed.

Lemma pool_run_ok m o w c r o' w' acts : pool_run m o w c = (r, o', w', acts) ->
  wk_pool w' = wk_pool w /\ wk_managing w' = wk_managing w /\ wk_started w' = wk_started w /\ wk_down w' = wk_down w /\
  (exists p, Forall (of_pool p) acts) /\ (forall p, wk_pool w = Some p -> Forall (of_pool p) acts) /\
  (wk_pool w = None -> acts = []) /\
  submitted acts = seq (wk_jobs w) (wk_jobs w' - wk_jobs w) /\ wk_jobs w <= wk_jobs w' /\
  (settled acts = submitted acts \/ exists i e, pl_trial c i = Err e /\ r = Err e) /\
  (exists l, settled acts ++ l = submitted acts).
Proof.
  unfold pool_run. destruct (check_args (ro_first o) (pl_args c)) as [args|e].
  2: { intros [= <- <- <- <-]. rewrite Nat.sub_diag. split_and!; try done; [by exists (Own 0)|by left|by exists []]. }
  destruct (wk_pool w) as [p|] eqn:Hp.
  2: { destruct (ro_loop _ _ _ _ _ _) as [[e|] o1]; intros [= <- <- <- <-]; rewrite Nat.sub_diag;
       (split_and!; try done; [by exists (Own 0)|by left|by exists []]). }
  destruct (tandem _ _ _ _ _ _ _ _ _) as [[[[e o1] fs] acts1] j] eqn:Ht. intros H.
  destruct (tandem_acts _ _ _ _ _ _ _ _ _ _ _ _ _ _ Ht) as (Ha & Hb & Hc & Hd & He); [done|]. simpl in Ha.
  destruct e as [e|]; simplify_eq/=; (split_and!; try done).
  - by exists p.
  - by intros ? [= ->].
  - destruct He as [[r0 Hr0]|Hfs]; [by right; eauto|left]. subst fs. simpl in Ha. by rewrite app_nil_r in Ha.
  - by exists (fs.*1).
  - exists p. rewrite Forall_app. split; [done|]. apply Forall_fmap, Forall_true. done.
  - intros ? [= <-]. rewrite Forall_app. split; [done|]. apply Forall_fmap, Forall_true. done.
  - by rewrite submitted_app, submitted_cancelled, app_nil_r.
  - left. by rewrite submitted_app, submitted_cancelled, app_nil_r, settled_app, settled_cancelled.
  - exists []. by rewrite submitted_app, submitted_cancelled, !app_nil_r, settled_app, settled_cancelled.
Qed.
Lemma managed_ok_same w w' : wk_pool w' = wk_pool w -> wk_managing w' = wk_managing w -> wk_started w' = wk_started w -> wk_down w' = wk_down w ->
  managed_ok w -> managed_ok w' /\ running w' = running w.
Proof. unfold managed_ok, running. by intros -> -> -> ->. Qed.
Lemma managed_ok_user u w : managed_ok w ->
  managed_ok (Workers (wk_pool w) (wk_managing w) (wk_started w) (wk_jobs w) (Users u :: wk_down w)).
Proof.
  intros [H1 H2]. split; simpl.
  - intros Hm. destruct (H1 Hm) as (n & ? & ? & Hn). exists n. split_and!; [done..|]. rewrite elem_of_cons. by intros [?|?].
  - intros n Hn. rewrite elem_of_cons. intros [?|?]; [done|]. by apply (H2 n).
Qed.

Lemma history_in_turn m o w es : managed_ok w -> in_turn (running w) (wk_started w) (log (pool_history m o w es)).
Proof.
  revert o w. induction es as [|[v|c|u] es IH]; intros o w Hw; cbn [pool_history].
  - destruct (shut_managed_ok w Hw) as (w1 & acts1 & Hs & _ & _ & _ & _ & _ & _ & Ht). rewrite Hs. unfold log; simpl. by apply Ht.
  - destruct (set_parallel v w) as [[r w'] acts] eqn:Hs. change (log (ESet v r acts :: ?l)) with (acts ++ log l).
    destruct (set_parallel_ok _ _ _ _ _ Hs Hw) as (Hw' & _ & _ & _ & Ht & _). by apply Ht, IH.
  - destruct (pool_run m o w c) as [[[r o'] w'] acts] eqn:Hc. change (log (ECall c r acts :: ?l)) with (acts ++ log l).
    destruct (pool_run_ok _ _ _ _ _ _ _ _ Hc) as (H1 & H2 & H3 & H4 & H5 & _).
    destruct (managed_ok_same w w' H1 H2 H3 H4 Hw) as [Hw' <-]. apply in_turn_jobs; [done|]. rewrite <-H3. by apply IH.
  - change (log (EUserShut u :: ?l)) with (log l).
    apply (IH o (Workers (wk_pool w) (wk_managing w) (wk_started w) (wk_jobs w) (Users u :: wk_down w))). by apply managed_ok_user.
Qed.

Lemma wk_fresh_ok : managed_ok wk_fresh.
Proof. split; [done|]. intros n _. apply not_elem_of_nil. Qed.

Lemma life_pools_ok m v es : pools_ok (log (pool_life m v es)).
Proof.
  assert (in_turn None 0 (log (pool_life m v es))) as H.
  { unfold pool_life. destruct (set_parallel v wk_fresh) as [[r w'] acts] eqn:Hs. change (log (ESet v r acts :: ?l)) with (acts ++ log l).
    destruct (set_parallel_ok _ _ _ _ _ Hs wk_fresh_ok) as (Hw' & _ & _ & _ & Ht & _). apply Ht.
    destruct r; [by apply history_in_turn|]. by apply (history_in_turn m ro_fresh _ []). }
  destruct (in_turn_ok _ _ _ H) as (H1 & H2 & H3 & H4); [done|]. split_and!.
  - intros n. specialize (H1 n). case_decide; [done|]. rewrite H1. destruct (H2 n). lia.
  - done.
  - intros l1 n l2 Hl. destruct (H4 _ _ _ Hl) as (_ & Ha & Hb). split; [done|]. auto.
Qed.

(** Jobs are numbered in order. *)
Lemma history_jobs m o w es : managed_ok w -> exists n, submitted (log (pool_history m o w es)) = seq (wk_jobs w) n.
Proof.
  revert o w. induction es as [|[v|c|u] es IH]; intros o w Hw; cbn [pool_history].
  - destruct (shut_managed_ok w Hw) as (w1 & acts1 & Hs & _ & _ & _ & _ & _ & Ht & _). rewrite Hs. exists 0.
    unfold log; simpl. by rewrite app_nil_r.
  - destruct (set_parallel v w) as [[r w'] acts] eqn:Hs. change (log (ESet v r acts :: ?l)) with (acts ++ log l).
    destruct (set_parallel_ok _ _ _ _ _ Hs Hw) as (Hw' & Hj & _ & Ht & _ & _). rewrite submitted_app, Ht, <-Hj. by apply IH.
  - destruct (pool_run m o w c) as [[[r o'] w'] acts] eqn:Hc. change (log (ECall c r acts :: ?l)) with (acts ++ log l).
    destruct (pool_run_ok _ _ _ _ _ _ _ _ Hc) as (H1 & H2 & H3 & H4 & _ & _ & _ & H5 & H6 & _).
    destruct (managed_ok_same w w' H1 H2 H3 H4 Hw) as [Hw' _]. destruct (IH o' w' Hw') as [n Hn].
    rewrite submitted_app, H5, Hn. exists (wk_jobs w' - wk_jobs w + n). rewrite seq_app. do 2 f_equal. lia.
  - change (log (EUserShut u :: ?l)) with (log l).
    apply (IH o (Workers (wk_pool w) (wk_managing w) (wk_started w) (wk_jobs w) (Users u :: wk_down w))). by apply managed_ok_user.
Qed.

(** What a call does with its jobs *)
Definition call_jobs_ok (p : option pool) (c : pool_call) (r : res path) (acts : list action) : Prop :=
  (forall q j, Submitted q j ∈ acts -> p = Some q) /\
  (jobs_settled acts \/ exists i e, pl_trial c i = Err e /\ r = Err e) /\
  (exists l, settled acts ++ l = submitted acts).

Lemma history_calls m o w es : managed_ok w ->
  forall l1 c r acts l2, pool_history m o w es = l1 ++ ECall c r acts :: l2 -> call_jobs_ok (pool_in_place (wk_pool w) l1) c r acts.
Proof.
  revert o w. induction es as [|[v|c|u] es IH]; intros o w Hw l1 c0 r0 acts0 l2; cbn [pool_history].
  - destruct l1 as [|? [|]]; done.
  - destruct (set_parallel v w) as [[r w'] acts] eqn:Hs. destruct l1 as [|e l1]; [done|]. intros [= <- H].
    destruct (set_parallel_ok _ _ _ _ _ Hs Hw) as (Hw' & Hj & _ & Ht & _ & Hr). specialize (IH o w' Hw' _ _ _ _ _ H).
    destruct r; cbn [pool_in_place]; destruct Hr as [Hr _]; by rewrite <-Hr.
  - destruct (pool_run m o w c) as [[[r o'] w'] acts] eqn:Hc.
    destruct (pool_run_ok _ _ _ _ _ _ _ _ Hc) as (H1 & H2 & H3 & H4 & _ & H5 & H6 & H7 & H8 & H9 & H10).
    destruct l1 as [|e l1].
    + intros [= <- <- <- _]. cbn [pool_in_place]. split_and!; [|destruct H9 as [H9|?]; [left; split; [by rewrite H9|rewrite H7; apply NoDup_seq]|by right]|done].
      intros q j Hq. destruct (wk_pool w) as [p|]; [|rewrite H6 in Hq by done; by apply elem_of_nil in Hq].
      specialize (H5 p eq_refl). rewrite Forall_forall in H5. by rewrite (H5 _ Hq).
    + intros [= <- H]. destruct (managed_ok_same w w' H1 H2 H3 H4 Hw) as [Hw' _]. cbn [pool_in_place].
      rewrite <-H1. exact (IH o' w' Hw' _ _ _ _ _ H).
  - destruct l1 as [|e l1]; [done|]. intros [= <- H].
    exact (IH o _ (managed_ok_user u w Hw) _ _ _ _ _ H).
Qed.

Lemma life_calls m v es l1 c r acts l2 : pool_life m v es = l1 ++ ECall c r acts :: l2 -> call_jobs_ok (pool_in_place None l1) c r acts.
Proof.
  unfold pool_life. destruct (set_parallel v wk_fresh) as [[r' w'] acts'] eqn:Hs.
  destruct (set_parallel_ok _ _ _ _ _ Hs wk_fresh_ok) as (Hw' & _ & _ & _ & _ & Hr).
  destruct l1 as [|e l1]; [done|]. intros [= <- H]. destruct r'.
  - destruct Hr as [Hr _]. cbn [pool_in_place]. rewrite <-Hr. by eapply history_calls.
  - destruct l1 as [|? [|]]; done.
Qed.
Lemma life_jobs m v es : NoDup (submitted (log (pool_life m v es))).
Proof.
  unfold pool_life. destruct (set_parallel v wk_fresh) as [[r' w'] acts'] eqn:Hs. change (log (ESet v ?r acts' :: ?l)) with (acts' ++ log l).
  destruct (set_parallel_ok _ _ _ _ _ Hs wk_fresh_ok) as (Hw' & _ & _ & Ht & _). rewrite submitted_app, Ht. simpl.
  assert (forall o es, NoDup (submitted (log (pool_history m o w' es)))) as H.
  { intros o es'. destruct (history_jobs m o w' es' Hw') as [n ->]. apply NoDup_seq. }
  destruct r'; [apply H|apply (H ro_fresh [])].
Qed.

(** With a working pool a call is a call of Random.v. *)
Lemma pool_run_plain m o w c b : (forall p, wk_pool w = Some p -> p ∉ wk_down w) -> bool_decide (wk_pool w = None) = negb b ->
  (pool_run m o w c).1.1 = ro_call m o (ROCall (pl_args c) (pl_trial c) (pl_repeats c) (if b then Some (pl_pre c) else None) (pl_expired c)).
Proof.
  intros Hdown Hb. unfold pool_run, ro_call. simpl. destruct (check_args (ro_first o) (pl_args c)) as [args|e]; [|done].
  destruct (wk_pool w) as [p|] eqn:Hp.
  - rewrite bool_decide_eq_false_2 in Hb by done. destruct b; [|done].
    rewrite (bool_decide_eq_false_2 (p ∈ wk_down w)) by auto.
    pose proof (tandem_plain m c p 0 (wk_jobs w) [] (seq (length (ro_costs o)) (pl_repeats c))
      (ROInst (Some args) (ro_costs o) (ro_sizes o) (ro_flops o) (ro_size o) (ro_path o))) as H. simpl in H. rewrite H.
    destruct (tandem _ _ _ _ _ _ _ _ _) as [[[[[e|] o1] fs] acts1] j]; done.
  - rewrite bool_decide_eq_true_2 in Hb by done. destruct b; [done|]. by destruct (ro_loop _ _ _ _ _ _) as [[e|] o1].
Qed.

Lemma history_plain m o w v es : managed_ok w -> (forall u, Users u ∉ wk_down w) -> (forall p, wk_pool w = Some p -> p ∉ wk_down w) ->
  bool_decide (wk_pool w = None) = negb (pooled v) ->
  (forall e, e ∈ pool_history m o w es -> ~ set_failed e /\ ~ user_shut e) ->
  pool_history m o w es ≫= result_of = (ro_history m o (plain_calls v es)).1.
Proof.
  revert o w v. induction es as [|[v'|c|u] es IH]; intros o w v Hw Hu Hd Hv Hok; cbn [pool_history plain_calls ro_history] in *.
  - done.
  - destruct (set_parallel v' w) as [[r w'] acts] eqn:Hs.
    destruct (set_parallel_ok _ _ _ _ _ Hs Hw) as (Hw' & _ & _ & _ & _ & Hr). change (ESet v' r acts :: ?l ≫= result_of) with (l ≫= result_of).
    destruct r; [|by destruct (Hok (ESet v' (Err e) acts) (elem_of_list_here _ _))]. destruct Hr as (_ & Hb & Hr). destruct (Hr Hu).
    apply IH; auto. intros e He. apply Hok. by right.
  - pose proof (pool_run_plain m o w c (pooled v) Hd Hv) as Hc. destruct (pool_run m o w c) as [[[r o'] w'] acts] eqn:Hrun. simpl in Hc. rewrite <-Hc.
    destruct (pool_run_ok _ _ _ _ _ _ _ _ Hrun) as (H1 & H2 & H3 & H4 & _).
    destruct (managed_ok_same w w' H1 H2 H3 H4 Hw) as [Hw' _].
    change ((ECall c r acts :: ?l) ≫= result_of) with (r :: (l ≫= result_of)).
    rewrite (IH o' w' v); [by destruct (ro_history m o' _)|done|by rewrite H4|by rewrite H1, H4|by rewrite H1|].
    intros e He. apply Hok. by right.
  - by destruct (Hok (EUserShut u) (elem_of_list_here _ _)) as [_ []].
Qed.

Lemma life_plain m v es : (forall e, e ∈ pool_life m v es -> ~ set_failed e /\ ~ user_shut e) ->
  pool_life m v es ≫= result_of = (ro_history m ro_fresh (plain_calls v es)).1.
Proof.
  unfold pool_life. destruct (set_parallel v wk_fresh) as [[r' w'] acts'] eqn:Hs. intros Hok.
  destruct (set_parallel_ok _ _ _ _ _ Hs wk_fresh_ok) as (Hw' & _ & _ & _ & _ & Hr).
  destruct r'; [|by destruct (Hok (ESet v (Err e) acts') (elem_of_list_here _ _))]. destruct Hr as (_ & Hb & Hr).
  destruct Hr as [Hu Hp]; [intros u; apply not_elem_of_nil|].
  change ((ESet v ?r acts' :: ?l) ≫= result_of) with (l ≫= result_of).
  apply (history_plain m ro_fresh w' v es); try done. intros e He. apply Hok. by right.
Qed.

Lemma history_sets m o w es v r acts : managed_ok w -> ESet v r acts ∈ pool_history m o w es ->
  match r with Ok _ => True | Err e => e = ValueError /\ exists n, v = PWorkers n /\ (n <= 0)%Z end.
Proof.
  revert o w. induction es as [|[v'|c|u] es IH]; intros o w Hw; cbn [pool_history].
  - intros [?|?%elem_of_nil]%elem_of_cons; done.
  - destruct (set_parallel v' w) as [[r' w'] acts'] eqn:Hs.
    destruct (set_parallel_ok _ _ _ _ _ Hs Hw) as (Hw' & _ & _ & _ & _ & Hr).
    intros [[= -> -> ->]|H]%elem_of_cons; [by destruct r'; [|destruct Hr]|by eapply IH].
  - destruct (pool_run m o w c) as [[[r' o'] w'] acts'] eqn:Hc.
    destruct (pool_run_ok _ _ _ _ _ _ _ _ Hc) as (H1 & H2 & H3 & H4 & _).
    destruct (managed_ok_same w w' H1 H2 H3 H4 Hw) as [Hw' _]. intros [?|H]%elem_of_cons; [done|by eapply IH].
  - intros [?|H]%elem_of_cons; [done|]. eapply IH; [|exact H]. by apply managed_ok_user.
Qed.
Lemma life_sets m v0 es v r acts : ESet v r acts ∈ pool_life m v0 es ->
  match r with Ok _ => True | Err e => e = ValueError /\ exists n, v = PWorkers n /\ (n <= 0)%Z end.
Proof.
  unfold pool_life. destruct (set_parallel v0 wk_fresh) as [[r' w'] acts'] eqn:Hs.
  destruct (set_parallel_ok _ _ _ _ _ Hs wk_fresh_ok) as (Hw' & _ & _ & _ & _ & Hr).
  intros [[= -> -> ->]|H]%elem_of_cons; [by destruct r'; [|destruct Hr]|].
  destruct r'; [by eapply history_sets|]. apply elem_of_cons in H as [?|?%elem_of_nil]; done.
Qed.
