(** Properties C02, C26, C27, C28, C40 and C46: the choice of a path function and the random searches; statements, each with a
    concrete instance. *)
From Verif Require Import Prelude Einsum EinsumFacts EinsumOps Parser Helpers Contract Spec PathSpec StringFacts SymbolFacts StepFacts ContractFacts PathFacts ParserFacts ParseSpec ParseProof ParseSound TopFacts ContractMain RefBackend Ssa SsaSpec SsaFacts SsaMore Optimal OptimalFacts Branch BranchFacts Greedy GreedyFacts DpSpec Dp DpTop Random RandomSpec RandomFacts FinderFacts PropsContract PropsPaths PropsSearch PropsDp.
From Verif Require Import Einsum.

(** ** The registry *)
Section Reg.
  Context {F : Type}.
  Implicit Types reg : list (str * F).
  Lemma lookup_set reg n f m : lookup_fn (set_fn reg n f) m = if decide (n = m) then Some f else lookup_fn reg m.
  Proof.
    induction reg as [|[k g] reg IH]; simpl; [done|]. destruct (decide (k = n)) as [->|Hk]; simpl.
    - by destruct (decide (n = m)).
    - rewrite IH. destruct (decide (k = m)) as [->|]; [|done]. by rewrite decide_False by done.
  Qed.
  Lemma lookup_Forall (P : F -> Prop) reg n f : Forall (fun p => P p.2) reg -> lookup_fn reg n = Some f -> P f.
  Proof.
    induction 1 as [|[k g] reg Hp _ IH]; simpl; [done|]. destruct (decide (k = n)); [|done]. intros [= <-]. done.
  Qed.
  Lemma set_Forall (P : F -> Prop) reg n f : P f -> Forall (fun p => P p.2) reg -> Forall (fun p => P p.2) (set_fn reg n f).
  Proof.
    intros Hf. induction 1 as [|[k g] reg Hp Hr IH]; simpl; [by repeat constructor|]. destruct (decide (k = n)); by constructor.
  Qed.
End Reg.

Lemma random_128_total E : env_ok E -> finder_total (random_greedy 128 (en_draws E)).
Proof. intros HE. apply (random_total 128 E HE). lia. Qed.
Lemma random_32_total E : env_ok E -> finder_total (random_greedy 32 (en_draws E)).
Proof. intros HE. apply (random_total 32 E HE). lia. Qed.
Lemma options_sound E : env_ok E -> Forall (fun p => finder_sound p.2) (all_options E).
Proof.
  intros HE. unfold all_options. apply set_Forall; [apply total_sound; by apply random_128_total|]. apply set_Forall; [apply total_sound; by apply random_32_total|].
  unfold options. repeat (apply Forall_cons; split); cbn [snd]; try apply Forall_nil.
  - by apply total_sound, auto_total.
  - by apply auto_hq_sound.
  - apply total_sound, optimal_total. by apply eo_ord.
  - by apply total_sound, branch_total; [|done].
  - by apply total_sound, branch_total; [|done].
  - by apply total_sound, branch_total; [|done].
  - by apply total_sound, greedy_total.
  - by apply total_sound, greedy_total.
  - by apply total_sound, greedy_total.
  - by apply dp_sound.
  - by apply dp_sound.
  - done.
Qed.
Lemma named_sound E name : env_ok E -> match named (all_options E) name with OFinder f => finder_sound f | _ => False end.
Proof.
  intros HE. simpl. intros sets out d mem p Hn Hl Hp. apply bind_Ok in Hp as (f & Hf & Hp). unfold get_path_fn in Hf.
  destruct (lookup_fn (all_options E) (lower name)) as [f'|] eqn:El; [|done]. apply Ok_inj in Hf as ->.
  apply (lookup_Forall finder_sound _ _ _ (options_sound E HE) El sets out d mem p Hn Hl Hp).
Qed.

(** ** C02 *)
(** Whatever name [optimize] is given (any case), whatever the memory limit, the set orders and the random draws: if contract returns an
    array, it is the Einstein sum. *)
Theorem C02_every_option (K : semiring) (B : backend K) (ord : gset N -> list N) (E : env) (e : eqn) (s : str) (ops : list (tensor K))
    (name : str) (use_blas : bool) (mem : memory_arg) (T : tensor K) :
  backend_ok B -> b_has_einsum B = true -> (forall x, ord x ≡ₚ elements x) -> env_ok E ->
  e_in e <> [] -> plain_eqn e -> filter (.≠ c_space) s = render e -> well_formed e (shape <$> ops) ->
  let tops := zip (in_labels e (shape <$> ops)) ops in
  good tops -> length (remove_dups (labels_of tops)) <= 52 -> mem_valid mem ->
  contract ord B use_blas (named (all_options E) name) mem s ops = Ok T -> T ≡ₜ einsum tops (out_labels e (shape <$> ops)).
Proof.
  intros HB He Ho HE Hne Hpl Hs Hwf tops Hg Hsz Hm HT. pose proof (named_sound E name HE) as Hf.
  exact (contract_sound ord Ho B HB He e s ops Hne Hpl Hs Hwf Hg Hsz use_blas _ mem T Hm Hf HT).
Qed.
Print Assumptions C02_every_option.
(** All options but 'auto-hq' and 'dp' always return it. *)
Definition safe_names : list str := [lit "auto"; lit "optimal"; lit "branch-all"; lit "branch-2"; lit "branch-1"; lit "greedy"; lit "eager";
  lit "opportunistic"; lit "random-greedy"; lit "random-greedy-128"].
Definition all_names : list str := lit "auto-hq" :: lit "dp" :: lit "dynamic-programming" :: safe_names.
Ltac lookup := unfold all_options; rewrite !lookup_set; cbn [lookup_fn options];
  repeat (match goal with |- context [decide (?a = ?b)] => destruct (decide (a = b)) as [Hx|Hx];
    [try (exfalso; vm_compute in Hx; discriminate Hx)|try (exfalso; exact (Hx eq_refl))]; clear Hx end); try reflexivity.
Lemma safe_lookup E n : env_ok E -> n ∈ safe_names -> exists f, lookup_fn (all_options E) n = Some f /\ finder_total f.
Proof.
  intros HE Hn. unfold safe_names in Hn.
  apply elem_of_cons in Hn as [->|Hn]; [exists (auto E); split; [lookup|by apply auto_total]|].
  apply elem_of_cons in Hn as [->|Hn]; [exists (optimal (en_ord E)); split; [lookup|by apply optimal_total, eo_ord]|].
  apply elem_of_cons in Hn as [->|Hn]; [exists (branch_n None E); split; [lookup|by apply branch_total]|].
  apply elem_of_cons in Hn as [->|Hn]; [exists (branch_n (Some 2) E); split; [lookup|by apply branch_total]|].
  apply elem_of_cons in Hn as [->|Hn]; [exists (branch_n (Some 1) E); split; [lookup|by apply branch_total]|].
  do 3 (apply elem_of_cons in Hn as [->|Hn]; [exists (greedy_default E); split; [lookup|by apply greedy_total]|]).
  apply elem_of_cons in Hn as [->|Hn]; [exists (random_greedy 32 (en_draws E)); split; [lookup|by apply random_32_total]|].
  apply elem_of_cons in Hn as [->|Hn]; [exists (random_greedy 128 (en_draws E)); split; [lookup|by apply random_128_total]|].
  by apply elem_of_nil in Hn.
Qed.
Theorem C02_total_options (K : semiring) (B : backend K) (ord : gset N -> list N) (E : env) (e : eqn) (s : str) (ops : list (tensor K))
    (name : str) (use_blas : bool) (mem : memory_arg) :
  backend_ok B -> b_has_einsum B = true -> (forall x, ord x ≡ₚ elements x) -> env_ok E ->
  e_in e <> [] -> plain_eqn e -> filter (.≠ c_space) s = render e -> well_formed e (shape <$> ops) ->
  let tops := zip (in_labels e (shape <$> ops)) ops in
  good tops -> length (remove_dups (labels_of tops)) <= 52 -> mem_valid mem -> lower name ∈ safe_names ->
  exists T, contract ord B use_blas (named (all_options E) name) mem s ops = Ok T /\ T ≡ₜ einsum tops (out_labels e (shape <$> ops)).
Proof.
  intros HB He Ho HE Hne Hpl Hs Hwf tops Hg Hsz Hm Hn. apply contract_ok; try done. apply total_strategy.
  intros sets out d m Hl Hlab. destruct (safe_lookup E _ HE Hn) as (f & Hf & Ht). unfold get_path_fn. rewrite Hf. cbn [of_opt mbind res_bind]. by apply Ht.
Qed.
Print Assumptions C02_total_options.
(** So do 'auto-hq' and 'dp', without memory limit and unless a dimension is 0; [rounds] bounds the loop of dynamic programming. *)
Theorem C02_without_limit_partial (K : semiring) (B : backend K) (ord : gset N -> list N) (E : env) (e : eqn) (s : str) (ops : list (tensor K))
    (name : str) (use_blas : bool) :
  backend_ok B -> b_has_einsum B = true -> (forall x, ord x ≡ₚ elements x) -> env_ok E ->
  e_in e <> [] -> plain_eqn e -> filter (.≠ c_space) s = render e -> well_formed e (shape <$> ops) ->
  let tops := zip (in_labels e (shape <$> ops)) ops in
  good tops -> length (remove_dups (labels_of tops)) <= 52 -> Forall (fun t => Forall (fun x => 1 <= x) (shape t)) ops -> lower name ∈ all_names ->
  exists R, forall rounds, R <= rounds ->
    exists T, contract ord B use_blas (named (all_options (with_rounds E rounds)) name) MNone s ops = Ok T /\ T ≡ₜ einsum tops (out_labels e (shape <$> ops)).
Proof.
  intros HB He Ho HE Hne Hpl Hs Hwf tops Hg Hsz Hpos Hn.
  assert (HE' : forall r, env_ok (with_rounds E r)) by (intros r; destruct HE; by split).
  destruct (decide (lower name ∈ safe_names)) as [Hsafe|Hsafe].
  { exists 0. intros r _. by apply C02_total_options. }
  destruct (decide (length ops <= 2)) as [Hle|Hgt].
  { exists 0. intros r _. apply contract_ok; try done. by left. }
  destruct (finder_args ord Ho B HB He e s ops Hne Hpl Hs Hwf Hg Hsz) as (sets & out & d & Hlen & Hlab & Hdim & Hrun); [lia|]. specialize (Hdim Hpos).
  assert (Hdp : exists R, forall rounds, R <= rounds -> exists p, dp_default (with_rounds E rounds) sets out d None = Ok p /\ path_runs (length sets) p).
  { destruct (labelled_sized _ _ _ Hlab) as [H1 H2]. apply (dp_success (en_ord E) (en_pop E) DpFlops CapTrue false sets out d None (eo_ord _ HE) (eo_pop _ HE) H1 H2); [intros ->; simpl in Hlen; lia| |done|done].
    intros c Hc. apply Hdim. apply elem_of_union in Hc as [Hc|Hc]; [by rewrite union_sets_all in Hc|by apply (proj2 Hlab)]. }
  destruct Hdp as [R HR]. exists R. intros r Hr. destruct (HR r Hr) as (p & Hp & Hruns).
  assert (Hf : exists f p, lookup_fn (all_options (with_rounds E r)) (lower name) = Some f /\ f sets out d None = Ok p /\ path_runs (length sets) p).
  { unfold all_names in Hn. apply elem_of_cons in Hn as [->|Hn].
    - exists (auto_hq (with_rounds E r)). unfold auto_hq. destruct (decide (1 <= length sets < 6)) as [?|?]; [|destruct (decide (6 <= length sets < 17)) as [?|?]].
      + destruct (optimal_total (en_ord (with_rounds E r)) (eo_ord _ (HE' r)) sets out d None) as (p' & Hp' & Hr'); [lia|done|]. exists p'. split; [lookup|done].
      + exists p. split; [lookup|done].
      + destruct (random_128_total _ (HE' r) sets out d None) as (p' & Hp' & Hr'); [lia|done|]. exists p'. split; [lookup|done].
    - do 2 (apply elem_of_cons in Hn as [->|Hn]; [exists (dp_default (with_rounds E r)), p; split; [lookup|done]|]). done. }
  destruct Hf as (f & p' & Hf & Hp' & Hr'). apply (Hrun use_blas _ p'); [|done]. unfold get_path_fn. rewrite Hf. cbn [of_opt mbind res_bind]. done.
Qed.
Print Assumptions C02_without_limit_partial.

Definition env0 (rounds : nat) : env := Env ordI0 pop0 (Draws (fun r _ s12 s1 s2 _ _ _ => (Z.of_nat s12 * Z.of_nat (S r mod 3) - Z.of_nat s1 - Z.of_nat s2)%Z) (fun r k l => (r + k) mod length l)) rounds.
Lemma env0_ok rounds : env_ok (env0 rounds).
Proof.
  split; [apply C22_hypothesis|apply C22_hypothesis|]. intros r k l Hl. simpl. apply Nat.mod_upper_bound. by destruct l.
Qed.
Lemma ex2_wf : well_formed ex2_eqn (shape <$> ex2_ops).
Proof. apply wf_check_ok. by vm_compute. Qed.
Example C02_instance :
  env_ok (env0 20) /\ plain_eqn ex2_eqn /\ filter (.≠ c_space) ex2_str = render ex2_eqn /\ well_formed ex2_eqn (shape <$> ex2_ops) /\
  good (zip (in_labels ex2_eqn (shape <$> ex2_ops)) ex2_ops) /\ forallb (fun t => forallb (fun x => 1 <=? x) (shape t)) ex2_ops = true.
Proof.
  split; [apply env0_ok|]. split; [apply plain_check_ok; by vm_compute|]. split; [by vm_compute|]. split; [apply ex2_wf|]. split; [apply good_check_ok; by vm_compute|by vm_compute].
Qed.
Example C02_instance_values : forallb (fun name =>
  match contract ord0 (ref_backend nat_semiring true) true (named (all_options (env0 20)) name) MNone ex2_str ex2_ops with
  | Ok T => bool_decide ((shape T, entries T) = ([2; 2], [106; 241; 156; 354]))
  | Err _ => false
  end) (lit "GREEDY" :: all_names) = true.
Proof. by vm_compute. Qed.
(** With a dimension 0, 'dp' fails where the other options succeed... *)
Definition ex0_str : str := lit "ab,ba,cd,dc->".
Definition ex0_ops : list (tensor nat_semiring) :=
  [arr [2; 2] (seq 1 4 : list nat_semiring); arr [2; 2] (seq 1 4 : list nat_semiring); arr [0; 2] ([] : list nat_semiring); arr [2; 0] ([] : list nat_semiring)].
Theorem C02_dp_zero_dim_refuted : exists T,
  contract ord0 (ref_backend nat_semiring true) true (named (all_options (env0 20)) (lit "greedy")) MNone ex0_str ex0_ops = Ok T /\ entries T = [0] /\
  forall rounds, contract ord0 (ref_backend nat_semiring true) true (named (all_options (env0 (S rounds))) (lit "dp")) MNone ex0_str ex0_ops = Err RuntimeError.
Proof.
  eexists. split; [vm_compute; reflexivity|]. split; [by vm_compute|]. intros rounds. vm_compute. reflexivity.
Qed.
Print Assumptions C02_dp_zero_dim_refuted.
(** ... and under a memory limit that no pairwise path meets. *)
Theorem C02_dp_memory_refuted : exists T,
  contract ord0 (ref_backend nat_semiring true) true (named (all_options (env0 20)) (lit "greedy")) (MInt 3) ex2_str ex2_ops = Ok T /\ entries T = [106; 241; 156; 354] /\
  contract ord0 (ref_backend nat_semiring true) true (named (all_options (env0 20)) (lit "dp")) (MInt 3) ex2_str ex2_ops = Err RuntimeError.
Proof. eexists. split; [vm_compute; reflexivity|]. split; by vm_compute. Qed.
Print Assumptions C02_dp_memory_refuted.

(** ** C26 *)
Theorem C26_auto_complete (E : env) (inputs : list (gset N)) (output : gset N) (d : sizes) (mem : option nat) :
  env_ok E -> inputs <> [] -> (forall k c, k ∈ inputs -> c ∈ k -> is_Some (d !! c)) ->
  exists p, auto E inputs output d mem = Ok p /\ path_runs (length inputs) p.
Proof.
  intros HE Hne Hd. assert (Hl : Forall (labels_in d) inputs) by (apply Forall_forall; intros k Hk c; by apply Hd).
  unfold auto. repeat case_decide.
  - apply optimal_complete; [by apply eo_ord|done|done].
  - apply branch_complete; [by apply eo_ord|done|done|done].
  - apply branch_complete; [by apply eo_ord|done|done|done].
  - apply branch_complete; [by apply eo_ord|done|done|done].
  - exact (greedy_complete cost_memory_removed None (en_ord E) inputs output d mem I (eo_ord _ HE) Hne Hl).
Qed.
Print Assumptions C26_auto_complete.
(** auto-hq: results are complete; without memory limit and with dimensions above 0 there is one. *)
Theorem C26_auto_hq_sound (E : env) (inputs : list (gset N)) (output : gset N) (d : sizes) (mem : option nat) (p : path) :
  env_ok E -> sized d inputs output -> auto_hq E inputs output d mem = Ok p -> path_runs (length inputs) p.
Proof.
  intros HE Hs Hp. assert (Hl : Forall (labels_in d) inputs) by (apply Forall_forall; intros k Hk c; by apply Hs).
  unfold auto_hq in Hp. repeat case_decide.
  - destruct (optimal_complete (en_ord E) inputs output d mem (eo_ord _ HE)) as (p' & Hp' & Hr); [by intros ->; simpl in *; lia|done|]. rewrite Hp in Hp'. by apply Ok_inj in Hp' as ->.
  - apply (C23_dp_complete (en_ord E) (en_pop E) DpFlops CapTrue false (en_rounds E) inputs output d mem p); [split; [by apply eo_ord|by apply eo_pop]|done|done].
  - destruct (decide (length inputs = 0)) as [E0|E0].
    + exfalso. apply nil_length_inv in E0 as ->. by vm_compute in Hp.
    + destruct (random_greedy_ok 128 (en_draws E) inputs output d mem) as (p' & Hp' & Hr & _); [lia|lia|done|by apply eo_pick|]. rewrite Hp in Hp'. by apply Ok_inj in Hp' as ->.
Qed.
Print Assumptions C26_auto_hq_sound.
Theorem C26_auto_hq_succeeds_partial (E : env) (inputs : list (gset N)) (output : gset N) (d : sizes) :
  env_ok E -> sized d inputs output -> inputs <> [] -> (forall c, (exists k, k ∈ inputs /\ c ∈ k) \/ c ∈ output -> 1 <= size_of d c) ->
  exists R, forall rounds, R <= rounds -> exists p, auto_hq (with_rounds E rounds) inputs output d None = Ok p /\ path_runs (length inputs) p.
Proof.
  intros HE Hs Hne Hdim. assert (Hl : Forall (labels_in d) inputs) by (apply Forall_forall; intros k Hk c; by apply Hs).
  destruct (C24_dp_succeeds_partial (en_ord E) (en_pop E) DpFlops CapTrue false inputs output d) as (R & HR); [split; [by apply eo_ord|by apply eo_pop]|done|done|done|done|].
  exists R. intros r Hr. unfold auto_hq. repeat case_decide.
  - by apply (optimal_complete (en_ord E) inputs output d None (eo_ord _ HE)).
  - by apply HR.
  - destruct (random_greedy_ok 128 (en_draws E) inputs output d None) as (p' & Hp' & Hr' & _); [|lia|done|by apply eo_pick|by eauto].
    destruct inputs as [|k [|k' l]]; simpl in *; [done|lia|lia].
Qed.
Print Assumptions C26_auto_hq_succeeds_partial.
Definition chain (n : nat) : list (gset N) := (fun i => {[N.of_nat i; N.of_nat (S i)]}) <$> seq 0 n.
Definition chain_d (n k : nat) : sizes := list_to_map ((fun i => (N.of_nat i, k)) <$> seq 0 (S n)).
Example C26_instance : (forall n, n ∈ seq 1 18 -> match auto (env0 20) (chain n) ∅ (chain_d n 2) None with Ok p => S (length p) = n | Err _ => False end) /\
  auto_hq (env0 20) (chain 6) ∅ (chain_d 6 2) None = Ok [[0]; [4]; [3; 5]; [2; 4]; [1; 3]; [0; 2]; [0; 1]].
Proof.
  split; [|by vm_compute]. assert (H : forallb (fun n => match auto (env0 20) (chain n) ∅ (chain_d n 2) None with Ok p => S (length p) =? n | Err _ => false end) (seq 1 18) = true) by (by vm_compute).
  intros n Hn. rewrite forallb_forall in H. specialize (H n (proj1 (elem_of_list_In _ _) Hn)). destruct (auto _ _ _ _ _); [by apply Nat.eqb_eq|done].
Qed.
(** With six operands, two connected parts and a dimension 0, auto-hq fails. *)
Theorem C26_auto_hq_refuted : exists inputs output d, length inputs = 6 /\
  forallb (fun k => forallb (fun c => bool_decide (is_Some (d !! c))) (elements k)) (output :: inputs) = true /\
  (exists p, auto (env0 0) inputs output d None = Ok p) /\ forall rounds, auto_hq (env0 (S rounds)) inputs output d None = Err RuntimeError.
Proof.
  exists [lset "ab"; lset "bc"; lset "ca"; lset "de"; lset "ef"; lset "fd"], ∅, (ldict [("abcde"%string, 2); ("f"%string, 0)]).
  split; [done|]. split; [by vm_compute|]. split; [eexists; vm_compute; reflexivity|]. intros rounds. vm_compute. reflexivity.
Qed.
Print Assumptions C26_auto_hq_refuted.

(** ** C27 *)
(** Any sequence of calls on one instance: any trial function (failing or not), number of repeats, executor and time-outs per call. *)
Theorem C27_history (m : minimize) (calls : list ro_call_args) :
  let '(results, o) := ro_history m ro_fresh calls in
  exists final, history_ok m None [] calls results final /\ ro_costs o = t_cost <$> final /\ ro_sizes o = t_size <$> final /\ answer m final (ro_best_path o).
Proof.
  destruct (ro_history m ro_fresh calls) as [rs o] eqn:E. destruct (ro_history_ok m calls ro_fresh [] rs o (ro_ok_fresh m) E) as (final & Hh & Hf).
  exists final. split; [done|]. split; [by apply (rk_costs _ _ _ Hf)|]. split; [by apply (rk_sizes _ _ _ Hf)|]. by apply ro_best.
Qed.
Print Assumptions C27_history.
(** In the words of the property: no trial beats the one whose path is returned. *)
Theorem C27_none_better (m : minimize) (ts : list trial) (t u : trial) : first_best m ts t -> u ∈ ts -> ~ beats m u t.
Proof.
  intros (a & b & -> & Ha & Hb) Hu. apply elem_of_app in Hu as [Hu|[-> |Hu]%elem_of_cons].
  - apply Ha in Hu. destruct m; simpl in *; lia.
  - destruct m; simpl; lia.
  - by apply Hb.
Qed.
Print Assumptions C27_none_better.
Definition ex_trial (r : nat) : res trial :=
  match r with
  | 0 => Ok (Trial [[0; 1]; [2; 3]] 7 5) | 1 => Ok (Trial [[0; 2]; [1; 3]] 6 9) | 2 => Ok (Trial [[1; 2]; [0; 3]] 6 4)
  | 3 => Ok (Trial [[0; 1]; [2; 3]] 6 4) | 4 => Err KeyError | _ => Ok (Trial [[0; 2]; [1; 3]] 1 8)
  end.
Definition ex_args : ro_args := ([lset "ab"; lset "bc"; lset "ca"], ∅, ldict [("abc"%string, 2)]).
Definition ex_call (n : nat) (expired : nat -> bool) : ro_call_args := ROCall ex_args ex_trial n None expired.
Example C27_instance :
  let never := fun _ : nat => false in
  let '(rs, o) := ro_history MinFlops ro_fresh [ex_call 0 never; ex_call 2 never; ROCall ([], ∅, ∅) ex_trial 2 None never; ex_call 5 (fun k => k =? 1); ex_call 5 never; ROCall ex_args (fun _ => ex_trial 5) 1 (Some 4) never] in
  rs = [Err KeyError; Ok [[0; 2]; [0; 1]]; Err ValueError; Ok [[1; 2]; [0; 1]]; Err KeyError; Ok [[0; 2]; [0; 1]]] /\
  ro_costs o = [7; 6; 6; 6; 1] /\ ro_sizes o = [5; 9; 4; 4; 8].
Proof. by vm_compute. Qed.

(** ** C28 *)
(** With an executor and no failing trial or time-out, [parallel_trials] trials are assessed, which is all of them if and only if
    [max_repeats <= pre_dispatch] (or there are none). *)
Theorem C28_parallel_count_partial (m : minimize) (args : ro_args) (run : nat -> res trial) (n pre : nat) :
  1 <= pre -> (forall r, r < n -> exists t, run r = Ok t) ->
  length (ro_costs (ro_call m ro_fresh (ROCall args run n (Some pre) (fun _ => false))).2) = n - (n - pre + 1) / 2.
Proof.
  intros Hpre Hrun. unfold ro_call. cbn [check_args ro_first ro_fresh rc_args ro_costs rc_repeats rc_pre_dispatch length rc_trial rc_expired ro_sizes ro_flops ro_size ro_path].
  destruct (gen_parallel_ok pre [] (seq 0 n)) as (l & Hl & Hsub & Hlen); [lia|simpl; lia|]. rewrite Hl. cbn [length] in Hlen. rewrite seq_length in Hlen. rewrite Nat.add_0_r in Hlen.
  set (o := ROInst _ _ _ _ _ _). destruct (ro_loop m run (fun _ => false) 0 (Ok <$> l) o) as [err o'] eqn:E.
  assert (Ho : ro_ok m [] o) by (destruct (ro_ok_fresh m); by split).
  destruct (ro_loop_ok _ _ _ _ _ _ _ _ _ Ho E) as (ts & l' & G1 & _ & G3 & G4 & _ & G6).
  assert (Hc : length (ro_costs o') = length ts) by (rewrite (rk_costs _ _ _ G1); simpl; by rewrite fmap_length).
  rewrite fmap_length in G6. destruct err as [e|].
  - exfalso. destruct G6 as [Hlt [G6|(r & G6 & Gr)]]; rewrite list_lookup_fmap in G6; destruct (l !! length ts) as [x|] eqn:El; try done. simpl in G6. injection G6 as ->.
    destruct (Hrun r) as [t Ht]; [|congruence]. apply elem_of_list_lookup_2 in El. eapply elem_of_submseteq in El; [|by apply sublist_submseteq]. apply elem_of_seq in El. lia.
  - destruct G6 as [G6|(j & _ & ?)]; [|done]. cbn [snd]. rewrite Hc, G6, Hlen. done.
Qed.
Print Assumptions C28_parallel_count_partial.
Theorem C28_all_iff (n pre : nat) : 1 <= pre -> parallel_trials n pre = n <-> n <= pre.
Proof.
  intros Hpre. unfold parallel_trials. destruct (decide (n <= pre)) as [H|H].
  - replace (n - pre + 1) with 1 by lia. change (1 / 2) with 0. lia.
  - split; [|lia]. assert (Hd : 1 <= (n - pre + 1) / 2); [|lia]. change 1 with (2 / 2) at 1. apply Nat.div_le_mono; lia.
Qed.
Print Assumptions C28_all_iff.
(** The serial loop runs all of them. *)
Theorem C28_serial (m : minimize) (args : ro_args) (run : nat -> res trial) (n : nat) :
  (forall r, r < n -> exists t, run r = Ok t) -> length (ro_costs (ro_call m ro_fresh (ROCall args run n None (fun _ => false))).2) = n.
Proof.
  intros Hrun. destruct (ro_call m ro_fresh _) as [r o'] eqn:E.
  destruct (ro_call_ok _ _ _ _ _ _ (ro_ok_fresh m) E) as [(a & [=] & _)|(_ & ts & err & (rs & _ & _ & _ & Hser) & _ & Ho & _)].
  cbn [snd]. rewrite (rk_costs _ _ _ Ho). simpl. rewrite fmap_length. destruct (Hser eq_refl) as [_ He]. cbn in He. destruct err as [e|].
  - destruct He as [Hlt He]. destruct (Hrun (length ts) Hlt) as [t Ht]. congruence.
  - destruct He as [He|(k & _ & ?)]; done.
Qed.
Print Assumptions C28_serial.
Theorem C28_refuted : exists n pre, n = 256 /\ pre = 128 /\ forall m args,
  length (ro_costs (ro_call m ro_fresh (ROCall args (fun r => Ok (Trial [] r r)) n (Some pre) (fun _ => false))).2) = 192 /\
  length (ro_costs (ro_call m ro_fresh (ROCall args (fun r => Ok (Trial [] r r)) n None (fun _ => false))).2) = 256.
Proof.
  exists 256, 128. split; [done|]. split; [done|]. intros m args. split.
  - rewrite C28_parallel_count_partial; [by vm_compute|lia|eauto].
  - apply C28_serial. eauto.
Qed.
Print Assumptions C28_refuted.
(** [pre_dispatch = 0] is an IndexError. *)
Example C28_pre_dispatch_0 : (ro_call MinFlops ro_fresh (ROCall ex_args ex_trial 4 (Some 0) (fun _ => false))).1 = Err IndexError.
Proof. by vm_compute. Qed.
Example C28_instance : length (ro_costs (ro_call MinFlops ro_fresh (ROCall ex_args ex_trial 4 (Some 1) (fun _ => false))).2) = 2.
Proof. by vm_compute. Qed.

(** ** C40 *)
Lemma lower_lower s : lower (lower s) = lower s.
Proof.
  unfold lower. rewrite <-list_fmap_compose. apply list_fmap_ext'. intros c _. simpl. unfold lower_char. repeat case_decide; lia.
Qed.
Theorem C40_case_insensitive {F} (reg : list (str * F)) (a b : str) : lower a = lower b -> get_path_fn reg a = get_path_fn reg b.
Proof. intros H. unfold get_path_fn. by rewrite H. Qed.
Print Assumptions C40_case_insensitive.
(** Lower-case names are never replaced, over any history of attempts; the function registered is found under any spelling. *)
Fixpoint register_all {F} (reg : list (str * F)) (l : list (str * F)) : list (str * F) :=
  match l with [] => reg | (n, f) :: l => register_all (match register_path_fn reg n f with Ok reg' => reg' | Err _ => reg end) l end.
Theorem C40_kept_partial {F} (reg : list (str * F)) (l : list (str * F)) (n : str) (f : F) :
  Forall (fun p => lower p.1 = p.1) l -> get_path_fn reg n = Ok f -> get_path_fn (register_all reg l) n = Ok f.
Proof.
  revert reg. induction l as [|[k g] l IH]; intros reg Hl Hn; [done|]. apply Forall_cons in Hl as [Hk Hl]. cbn [fst] in Hk. simpl. apply IH; [done|].
  unfold register_path_fn. destruct (lookup_fn reg k) eqn:E; [done|]. unfold get_path_fn in *. rewrite lookup_set, Hk. destruct (decide (k = lower n)) as [->|]; [by rewrite E in Hn|done].
Qed.
Print Assumptions C40_kept_partial.
Theorem C40_duplicate {F} (reg : list (str * F)) (n : str) (f g : F) : lower n = n -> get_path_fn reg n = Ok f -> register_path_fn reg n g = Err KeyError.
Proof. unfold get_path_fn, register_path_fn. intros ->. by destruct (lookup_fn reg n). Qed.
Print Assumptions C40_duplicate.
Theorem C40_registered {F} (reg reg' : list (str * F)) (n m : str) (f : F) : register_path_fn reg n f = Ok reg' -> lower m = lower n -> get_path_fn reg' m = Ok f.
Proof.
  unfold register_path_fn, get_path_fn. destruct (lookup_fn reg n); [done|]. intros H Hm. apply Ok_inj in H as <-. by rewrite lookup_set, Hm, decide_True.
Qed.
Print Assumptions C40_registered.
Example C40_instance : exists reg, register_path_fn [(lit "greedy", 1)] (lit "My-Path") 2 = Ok reg /\ get_path_fn reg (lit "MY-path") = Ok 2 /\ get_path_fn reg (lit "Greedy") = Ok 1 /\
  register_path_fn reg (lit "greedy") 3 = Err KeyError /\ get_path_fn reg (lit "dp") = Err KeyError.
Proof. eexists. split; [reflexivity|]. by vm_compute. Qed.
(** A name with a capital letter replaces the existing option. *)
Theorem C40_refuted : exists (reg reg' : list (str * nat)) (n : str), get_path_fn reg n = Ok 1 /\ register_path_fn reg n 2 = Ok reg' /\ get_path_fn reg' n = Ok 2.
Proof. exists [(lit "greedy", 1)]. eexists. exists (lit "GREEDY"). split; [by vm_compute|]. split; [reflexivity|by vm_compute]. Qed.
Print Assumptions C40_refuted.

(** ** C46 *)
(** What a trial counts is, for every complete pairwise path, the sum over the steps of the operations [calc_k12_flops] counts, and the size of
    the largest intermediate. *)
Theorem C46_trial_cost (d : sizes) (output : gset N) (inputs : list (gset N)) (p lp : path) :
  (forall k c, k ∈ inputs -> c ∈ k -> is_Some (d !! c)) -> ssa_complete (length inputs) p -> pairwise p -> ssa_to_linear p = Ok lp ->
  ssa_path_compute_cost p inputs output d =
    Ok (sum_list (pair_cost (size_of d) <$> replay output lp inputs), max_list' ((fun st => volume (size_of d) st.2) <$> replay output lp inputs)).
Proof. intros Hd. apply compute_cost_ok. apply Forall_forall. intros k Hk c. by apply Hd. Qed.
Print Assumptions C46_trial_cost.
Lemma elem_chosen {A} (s : list nat) (l : list A) x : x ∈ chosen s l -> x ∈ l.
Proof. intros H. rewrite <-(chosen_others_perm s l). apply elem_of_app. by left. Qed.
Lemma elem_others {A} (s : list nat) (l : list A) x : x ∈ others s l -> x ∈ l.
Proof. intros H. rewrite <-(chosen_others_perm s l). apply elem_of_app. by right. Qed.
Lemma replay_labels out p (sets : list (gset N)) st c : st ∈ replay out p sets -> c ∈ union_all st.1 ∪ st.2 -> c ∈ union_all sets.
Proof.
  revert sets. induction p as [|s p IH]; intros sets Hst Hc; [by apply elem_of_nil in Hst|]. cbn [replay] in Hst. apply elem_of_cons in Hst as [-> |Hst].
  - cbn [fst snd] in Hc. assert (Hu : c ∈ union_all (chosen s sets)) by (unfold kept in Hc; set_solver). apply elem_union_all in Hu as (k & Hk & Hu).
    apply elem_union_all. exists k. split; [by eapply elem_chosen|done].
  - apply IH in Hst; [|done]. apply elem_union_all in Hst as (k & Hk & Hkc). apply elem_union_all. apply elem_of_app in Hk as [Hk|Hk%elem_of_list_singleton].
    + exists k. split; [by eapply elem_others|done].
    + subst k. assert (Hu : c ∈ union_all (chosen s sets)) by (unfold kept in Hkc; set_solver). apply elem_union_all in Hu as (k & Hk & Hu). exists k. split; [by eapply elem_chosen|done].
Qed.
Lemma volume_ext (D D' : N -> nat) (k : gset N) : (forall c, c ∈ k -> D c = D' c) -> volume D k = volume D' k.
Proof. intros H. unfold volume. f_equal. apply list_fmap_ext'. intros c Hc%elem_of_elements. by apply H. Qed.
Lemma max_list'_unique l m : (forall x, x ∈ l -> x <= m) -> m ∈ l -> max_list' l = m.
Proof. intros H1 H2. apply Nat.le_antisymm; [by apply max_list'_le|by apply max_list'_ge]. Qed.
(** It is what contract_path reports if no label occurs only once. *)
Theorem C46_reported_partial (K : semiring) (B : backend K) (ord : gset N -> list N) (use_blas : bool) (mem : memory_arg) (s : str) (ops : list (tensor K)) (inp out : str) (p lp : path) :
  backend_ok B -> (forall x, ord x ≡ₚ elements x) ->
  parse_einsum_input s (shape <$> ops) = Ok (inp, out) -> c_comma ∉ out ->
  let sets : list (gset N) := list_to_set <$> split s_comma inp in
  good (zip (split s_comma inp) ops) -> mem_valid mem -> 2 <= length ops ->
  no_lone (list_to_set out) sets -> ssa_complete (length ops) p -> pairwise p -> ssa_to_linear p = Ok lp ->
  exists info, contract_path ord use_blas (OPath lp) mem s (shape <$> ops) = Ok info /\ pi_path info = lp /\
    ssa_path_compute_cost p sets (list_to_set out) (pi_size_dict info) = Ok (pi_opt_cost info, pi_largest info).
Proof.
  intros HB Ho Hp Hc sets Hg Hm Hn2 Hlone Hssa Hpw Hlp. pose proof (parse_guarantees _ _ _ _ Hp) as (Hnd & Hsub & Hlen & Hplain). rewrite fmap_length in Hlen.
  set (ts := split s_comma inp) in *. set (tops := zip ts ops) in *. assert (Hls : length sets = length ops) by (unfold sets; by rewrite fmap_length).
  destruct (ssa_to_linear_ok _ _ Hssa) as (lp' & Hlp' & Hruns & _). rewrite Hlp in Hlp'. apply Ok_inj in Hlp' as <-.
  assert (Hout : forall c, c ∈ out -> c ∈ labels_of tops).
  { intros c Hcc. apply elem_labels_zip; [done|]. apply Hsub in Hcc as Hci. rewrite <-(join_split1 c_comma inp) in Hci.
    apply elem_of_join in Hci as [Hci|?]; [|done]. apply elem_of_list_singleton in Hci. congruence. }
  assert (Hcomp : complete (length ops) lp) by (split; [intros ->; simpl in Hruns; lia|done]).
  unfold contract_path. rewrite Hp. cbn [mbind res_bind].
  destruct (contract_path_parsed_ok ord Ho B HB use_blas (OPath lp) mem inp out ops) as (info & Hinfo & H1 & (mem' & H2) & H3 & H4 & _); try done.
  { intros mem'. exists lp. done. }
  exists info. split; [done|]. cbn [compute_path] in H2. apply Ok_inj in H2. split; [done|]. fold ts in H3, H4. fold tops in H3, H4. fold sets in H3. rewrite H4.
  assert (Hlab : forall k c, k ∈ sets -> c ∈ k -> c ∈ labels_of tops).
  { intros k c (t & -> & Ht)%elem_of_list_fmap Hkc%elem_of_list_to_set. apply elem_labels_zip; eauto. }
  assert (Hd : forall c, c ∈ union_all sets -> size_of (dims_map tops) c = dim tops c).
  { intros c (k & Hk & Hkc)%elem_union_all. unfold size_of. by rewrite dims_map_lookup, decide_True by (by eapply Hlab). }
  rewrite (C46_trial_cost (dims_map tops) (list_to_set out) sets p lp); [|intros k c Hk Hkc; rewrite dims_map_lookup, decide_True; [done|by eapply Hlab]|by rewrite Hls|done|done].
  assert (Hpl : pairwise lp) by (by eapply s2l_pairwise). rewrite lone_costs; [|by rewrite Hls|done|done].
  destruct H3 as [Hcost _ Hsize [Hl1 Hl2] _]. rewrite <-H2 in *.
  assert (Hv : forall st, st ∈ replay (list_to_set out) lp sets -> volume (size_of (dims_map tops)) (union_all st.1) = volume (dim tops) (union_all st.1) /\ volume (size_of (dims_map tops)) st.2 = volume (dim tops) st.2).
  { intros st Hst. split; apply volume_ext; intros c Hcc; apply Hd; eapply replay_labels; try done; set_solver. }
  f_equal. f_equal.
  - rewrite Hcost. f_equal. apply list_fmap_ext'. intros st Hst. unfold step_cost. by rewrite (proj1 (Hv st Hst)).
  - apply max_list'_unique.
    + intros x (st & -> & Hst)%elem_of_list_fmap. rewrite (proj2 (Hv st Hst)). apply Hl1. rewrite Hsize. by apply (elem_of_list_fmap_1 (fun st => volume (dim tops) st.2)).
    + rewrite Hsize in Hl2. apply elem_of_list_fmap in Hl2 as (st & -> & Hst). rewrite <-(proj2 (Hv st Hst)). by apply (elem_of_list_fmap_1 (fun st => volume (size_of (dims_map tops)) st.2)).
Qed.
Print Assumptions C46_reported_partial.
Example C46_instance : exists inp out info,
  parse_einsum_input ex2_str (shape <$> ex2_ops) = Ok (inp, out) /\
  forallb (fun c => 2 <=? occurrences (list_to_set out) (list_to_set <$> split s_comma inp) c) (filter (.≠ c_comma) inp) = true /\
  ssa_to_linear [[0; 2]; [1; 3]] = Ok [[0; 2]; [0; 1]] /\
  contract_path ord0 true (OPath [[0; 2]; [0; 1]]) MNone ex2_str (shape <$> ex2_ops) = Ok info /\
  ssa_path_compute_cost [[0; 2]; [1; 3]] (list_to_set <$> split s_comma inp) (list_to_set out) (pi_size_dict info) = Ok (pi_opt_cost info, pi_largest info).
Proof. eexists _, _, _. split; [vm_compute; reflexivity|]. split; [by vm_compute|]. split; [by vm_compute|]. split; [vm_compute; reflexivity|]. by vm_compute. Qed.
(** With labels that occur once, the two numbers differ: the sum over [a] is not counted when it takes place in a product. *)
Theorem C46_refuted : exists s shapes p lp sets out info cost size,
  parse_einsum_input s shapes = Ok (lit "a,b,b", out) /\ sets = (list_to_set <$> split s_comma (lit "a,b,b") : list (gset N)) /\
  ssa_complete 3 p /\ pairwise p /\ ssa_to_linear p = Ok lp /\ contract_path ord0 true (OPath lp) MNone s shapes = Ok info /\
  ssa_path_compute_cost p sets (list_to_set out) (pi_size_dict info) = Ok (cost, size) /\ cost <> pi_opt_cost info.
Proof.
  exists (lit "a,b,b->"), [[2]; [2]; [2]], [[0; 1]; [2; 3]]. eexists _, _, _, _, _, _. split; [vm_compute; reflexivity|]. split; [reflexivity|].
  split. { unfold ssa_complete. simpl. split; [done|]. split; [repeat constructor; set_solver|]. split; [set_solver|]. split; [done|]. split; [repeat constructor; set_solver|]. split; [set_solver|done]. }
  split; [by repeat constructor|]. split; [vm_compute; reflexivity|]. split; [vm_compute; reflexivity|]. split; [vm_compute; reflexivity|]. by vm_compute.
Qed.
Print Assumptions C46_refuted.
