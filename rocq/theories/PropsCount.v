(** Property C77: what [count_cached_ops] counts; statements, each with a concrete instance. *)
From Verif Require Import Prelude Einsum EinsumFacts EinsumOps Parser Helpers Contract Spec PathSpec StringFacts ParserFacts ParseSpec ParseProof TopFacts ContractMain RefBackend ApiSpec NoOptFacts
  Sharing SharingSpec SharingKey SharingFacts SharingMain SharingValue SharingLoop SharingHist SharingComplete Threads ThreadSpec ThreadFacts SharingHit SharingOut OutFacts ConvertFacts SharingCount PropsSharing.

(** ** C77 *)
(** The counter has the kinds of the keys of the cache, each with the number of its keys; no other names and no zeros. *)
Theorem C77_counter (m : cache) (s : str) (n : nat) : count_cached_ops m !! s = Some n <-> 0 < n /\ exists ks, NoDup ks /\ length ks = n /\ forall k, k ∈ ks <-> kind k = s /\ is_Some (m !! k).
Proof.
  pose proof (count_of_size m s) as Hc. unfold count_of in Hc.
  assert (Hn : count_cached_ops m !! s = match size (filter (fun p : key * nat => kind p.1 = s) m) with 0 => None | S n => Some (S n) end).
  { unfold count_cached_ops in *. rewrite counter_lookup in *. rewrite <-Hc. by destruct (length _). }
  set (f := filter _ m) in *. assert (Hks : NoDup (map_to_list f).*1 /\ length (map_to_list f).*1 = size f /\ forall k, k ∈ (map_to_list f).*1 <-> kind k = s /\ is_Some (m !! k)).
  { split; [apply NoDup_fst_map_to_list|]. split; [by rewrite fmap_length|]. intros k. rewrite elem_of_list_fmap. split.
    - intros ([k' v] & -> & Hk). apply elem_of_map_to_list, map_filter_lookup_Some in Hk as [Hk1 Hk2]. eauto.
    - intros (Hk & v & Hv). exists (k, v). split; [done|]. by apply elem_of_map_to_list, map_filter_lookup_Some. }
  destruct Hks as (Hnd & Hlen & Hin). rewrite Hn. split.
  - intros E. destruct (size f) as [|n'] eqn:Ef; [done|]. injection E as <-. split; [lia|]. by exists (map_to_list f).*1.
  - intros (Hpos & ks & Hnd' & <- & Hin'). assert (Hp : ks ≡ₚ (map_to_list f).*1) by (apply NoDup_Permutation; [done..|]; intros k; by rewrite Hin', Hin).
    apply Permutation_length in Hp. rewrite Hlen in Hp. rewrite <-Hp. destruct (length ks); [lia|done].
Qed.
Print Assumptions C77_counter.
(** One operation in a context adds to the innermost cache alone, and there to its own kind alone: one if the library was called and succeeded, else nothing, and then no
    array was made.  (The operands are saved besides: at most as many as there are; conversions save nothing.) *)
Theorem C77_operation (K : semiring) (ord : gset N -> list N) (lib : str -> backend K) (alloc : nat -> gset nat -> nat) (keep : nat -> nat -> bool) (conv : str -> tensor K -> res (tensor K))
    (w w' : world K) (a : action K) (tid c : nat) (s : str) (o : res nat) :
  op_thread a = Some tid -> op_kind a = Some s -> innermost w tid c -> outcome ord lib alloc keep conv w a = (w', o) ->
  (forall c', c' <> c -> w_caches w' !! c' = w_caches w !! c') /\
  (forall s', s' <> s -> s' <> lit "tensor" -> counts w' c s' = counts w c s') /\
  (s <> lit "tensor" -> counts w c (lit "tensor") <= counts w' c (lit "tensor") <= counts w c (lit "tensor") + length (action_args a)) /\
  (counts w' c s = counts w c s /\ w_heap w' ⊆ w_heap w \/
   counts w' c s = S (counts w c s) /\ exists r T vals, o = Ok r /\ op_call lib conv a vals = Ok T /\ w_heap w' !! r = Some T).
Proof.
  intros Ht Hk Hi H. assert (G : exists t, t <= length (action_args a) /\ one_op w w' c s t (op_call lib conv a) o).
  { destruct a; cbn in Ht, Hk, H; try done; injection Ht as ->; injection Hk as <-.
    - exists 1. split; [done|]. by eapply transpose_one in H.
    - exists 2. split; [done|]. by eapply tensordot_one in H.
    - exists (length ids). split; [done|]. by eapply einsum_one in H.
    - exists 0. split; [cbn; lia|]. by eapply convert_one in H. }
  destruct G as (t & Hle & [H1 H2 H3 H4 H5]). split; [done|]. split; [done|]. split; [|done]. intros Hs. specialize (H4 Hs). unfold s_tensor in H4. lia.
Qed.
Print Assumptions C77_operation.
Lemma cp_loop_length (ord : gset N -> list N) use_blas out d p : forall sets terms shapes steps, cp_loop ord use_blas out d p sets terms shapes = Ok steps -> length steps = length p.
Proof.
  induction p as [|x p IH]; intros sets terms shapes steps Hst; [by apply Ok_inj in Hst as <-|].
  cbn [cp_loop] in Hst. apply bind_Ok in Hst as ([[[oi ss] ir] ic] & _ & Hst). apply bind_Ok in Hst as (cost & _ & Hst). apply bind_Ok in Hst as (sz & _ & Hst). apply bind_Ok in Hst as ([ti tr] & _ & Hst).
  apply bind_Ok in Hst as ([ui ur] & _ & Hst). apply bind_Ok in Hst as (sh & _ & Hst). apply bind_Ok in Hst as (rest & Hrest & Hst). apply Ok_inj in Hst as <-. cbn. f_equal. by eapply IH.
Qed.
(** A contraction of [n] steps adds at most [n] calls of einsum and tensordot, at most [n] transpositions, and nothing else. *)
Theorem C77_contract (K : semiring) (ord : gset N -> list N) (lib : str -> backend K) (alloc : nat -> gset nat -> nat) (keep : nat -> nat -> bool) (conv : str -> tensor K -> res (tensor K))
    (w w' : world K) (tid c : nat) (b : str) (use_blas : bool) (opt : optimize_arg) (mem : memory_arg) (s : str) (ids : list nat) (vals : list (tensor K)) (info : path_info) (o : res nat) :
  opt <> OFalse -> values w ids = Ok vals -> contract_path ord use_blas opt mem s (Einsum.shape <$> vals) = Ok info -> innermost w tid c ->
  outcome ord lib alloc keep conv w (WContract tid b use_blas opt mem s ids) = (w', o) ->
  (forall c', c' <> c -> w_caches w' !! c' = w_caches w !! c') /\
  (forall s', s' ∉ [lit "einsum"; lit "tensordot"; lit "transpose"; lit "tensor"] -> counts w' c s' = counts w c s') /\
  (forall s', counts w c s' <= counts w' c s') /\
  counts w' c (lit "einsum") + counts w' c (lit "tensordot") <= counts w c (lit "einsum") + counts w c (lit "tensordot") + length (pi_path info) /\
  counts w' c (lit "transpose") <= counts w c (lit "transpose") + length (pi_path info).
Proof.
  intros Hopt Hv Hp Hi H. assert (Hlen : length (pi_contractions info) = length (pi_path info)).
  { unfold contract_path in Hp. apply bind_Ok in Hp as ([inp out] & _ & Hp). unfold contract_path_parsed in Hp. apply bind_Ok in Hp as (d & _ & Hp). apply bind_Ok in Hp as (sl & _ & Hp). apply bind_Ok in Hp as (m & _ & Hp).
    apply bind_Ok in Hp as (nv & _ & Hp). apply bind_Ok in Hp as (p & _ & Hp). apply bind_Ok in Hp as (steps & Hst & Hp). apply bind_Ok in Hp as (ps & _ & Hp). apply Ok_inj in Hp as <-. cbn. rewrite fmap_length. by eapply cp_loop_length. }
  cbn in H. unfold sh_contract in H. assert (U : ops_upto w w' c (length (pi_path info))).
  { rewrite <-Hlen. destruct opt as [|p|f]; [done| |]; unfold lift in H at 1; rewrite Hv in H; cbn [mbind res_bind] in H; rewrite Hp in H; unfold sh_core in H;
      destruct (sh_loop ord lib alloc keep w tid b ids (pi_contractions info)) as [w1 o1] eqn:E1; pose proof (loop_upto ord lib alloc keep conv w tid b ids _ c w1 o1 Hi E1) as U; (assert (w' = w1) as ->; [|done]);
      (destruct o1 as [l|x]; cbn [sbind] in H; [unfold lift in H; destruct (of_opt IndexError (l !! 0)); by injection H|by injection H]). }
  destruct U as [H1 H2 H3 H4 H5 H6]. split; [done|]. split; [|done]. intros s' Hs. apply H3. intros Hc. apply Hs. unfold is_call, s_tensor in Hc. rewrite !elem_of_cons. tauto.
Qed.
Print Assumptions C77_contract.
(** Outside a context nothing is counted. *)
Theorem C77_outside (K : semiring) (ord : gset N -> list N) (lib : str -> backend K) (alloc : nat -> gset nat -> nat) (keep : nat -> nat -> bool) (conv : str -> tensor K -> res (tensor K))
    (w w' : world K) (a : action K) (tid : nat) (s : str) (o : res nat) :
  op_thread a = Some tid -> op_kind a = Some s -> w_stacks w !! tid = None -> outcome ord lib alloc keep conv w a = (w', o) -> w_caches w' = w_caches w.
Proof.
  intros Ht Hk Hi H. assert (Hp : forall w0 fn ids w1 o1, plain_call alloc w0 fn ids = (w1, o1) -> w_caches w1 = w_caches (K := K) w0).
  { intros w0 fn ids w1 o1. unfold plain_call, lift. destruct (vals ← values w0 ids; fn vals); cbn; by intros [= <- <-]. }
  destruct a; cbn in Ht, Hk, H; try done; injection Ht as ->; injection Hk as <-; unfold cached_transpose, cached_tensordot, cached_einsum, cached_convert, currently_sharing in H; cbn [collect w_stacks] in H;
    rewrite bool_decide_false in H by (rewrite Hi; by intros [? ?]); cbn [negb] in H; by apply Hp in H.
Qed.
Print Assumptions C77_outside.
(** In a history, the counts of a dictionary never go down until it is forgotten. *)
Theorem C77_never_less (K : semiring) (ord : gset N -> list N) (lib : str -> backend K) (alloc : nat -> gset nat -> nat) (keep : nat -> nat -> bool) (conv : str -> tensor K -> res (tensor K))
    (h h' : list (action K)) (c : nat) (s : str) :
  (forall t X, alloc t X ∉ X) -> let w := run ord lib alloc keep conv h in is_Some (w_caches w !! c) -> WForget c ∉ h' -> counts w c s <= counts (run ord lib alloc keep conv (h ++ h')) c s.
Proof.
  intros Ha w Hc Hf. unfold run at 1. rewrite foldl_app. fold (run ord lib alloc keep conv h). fold w.
  destruct (acts_remember ord lib alloc Ha keep conv c h' w) as (m & m' & E1 & E2 & Hsub & _); [apply acts_winv; [done|apply start_inv]|done|done|].
  unfold counts, get_cache. rewrite E1, E2. cbn. rewrite !count_of_size. apply submseteq_length, map_to_list_submseteq. by apply map_filter_subseteq_mono.
Qed.
Print Assumptions C77_never_less.
(** A chain of three in a context: two products, three arrays saved; one einsum and a conversion on top; all again, in other letters: nothing. *)
Definition sh_chain : action nat_semiring := WContract 0 numpy true (OPath [[0; 1]; [0; 1]]) MNone (lit "ab,bc,cd->ad") [0; 1; 0].
Definition count_list (m : cache) : list (option nat) := (fun s => count_cached_ops m !! lit s) <$> ["einsum"; "tensordot"; "transpose"; "tensor"; "to_torch"; "to_cupy"]%string.
Definition sh_counts (h : list (action nat_semiring)) : list (option nat) := count_list (get_cache (sh_run h) 0).
Example C77_instance :
  sh_counts sh_first = [None; None; None; None; None; None] /\
  sh_counts (sh_first ++ [sh_chain]) = [None; Some 2; None; Some 3; None; None] /\
  sh_counts (sh_first ++ [sh_chain; WEinsum 0 numpy (lit "ab,ab->") [0; 0]; WConvert 0 (lit "to_torch") 0]) = [Some 1; Some 2; None; Some 3; Some 1; None] /\
  sh_counts (sh_first ++ [sh_chain; WEinsum 0 numpy (lit "ab,ab->") [0; 0]; WConvert 0 (lit "to_torch") 0; sh_chain; WEinsum 0 numpy (lit "xy,xy->") [0; 0]; WConvert 0 (lit "to_torch") 0]) = [Some 1; Some 2; None; Some 3; Some 1; None] /\
  innermost (sh_run sh_first) 0 0.
Proof. vm_compute. done. Qed.
