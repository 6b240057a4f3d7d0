(** Properties C32 to C36 and C48: sharing of intermediates, threads, [out], conversions. *)
From Verif Require Import Prelude Einsum EinsumFacts EinsumOps Parser Helpers Contract Spec PathSpec StringFacts ParserFacts ParseSpec ParseProof TopFacts ContractMain RefBackend ApiSpec NoOptFacts
  Sharing SharingSpec SharingKey SharingFacts SharingMain SharingValue SharingLoop SharingHist SharingComplete Threads ThreadSpec ThreadFacts SharingHit SharingOut OutFacts ConvertFacts.

(** ** Setting of the examples: lowest free address first, garbage collected at once, conversions copy. *)
Definition least (t : nat) (X : gset nat) : nat := match filter (fun i => i ∉ X) (seq 0 (S (size X))) with i :: _ => i | [] => base.fresh X end.
Lemma least_ok t X : least t X ∉ X.
Proof.
  unfold least. destruct (filter _ _) as [|i l] eqn:E; [apply is_fresh|]. assert (H : i ∈ filter (fun i => i ∉ X) (seq 0 (S (size X)))) by (rewrite E; by left).
  by apply elem_of_list_filter in H as [? _].
Qed.
Definition sh_lib : str -> backend nat_semiring := fun _ => doc_backend nat_semiring.
Definition no_keep (t i : nat) : bool := false.
Definition copy (n : str) (x : tensor nat_semiring) : res (tensor nat_semiring) := Ok x.
Notation sh_run := (run ord0 sh_lib least no_keep copy).
Definition sh_a : tensor nat_semiring := arr [2; 3] (seq 1 6 : list nat_semiring).
Definition sh_b : tensor nat_semiring := arr [3; 2] (seq 1 6 : list nat_semiring).
Definition numpy : str := lit "numpy".
(** The outcome as data. *)
Definition seen (p : world nat_semiring * res nat) : res (nat * (list nat * list nat)) :=
  match p with (w, Ok r) => match w_heap w !! r with Some T => Ok (r, (shape T, entries T)) | None => Err KeyError end | (_, Err e) => Err e end.

(** ** C32 *)
(** After any history whatever: transpose and tensordot return exactly what they return outside (or the same error), and no action
    changes an array some variable refers to. *)
Theorem C32_exact (K : semiring) (ord : gset N -> list N) (lib : str -> backend K) (alloc : nat -> gset nat -> nat) (keep : nat -> nat -> bool)
    (conv : str -> tensor K -> res (tensor K)) (h : list (action K)) :
  (forall t X, alloc t X ∉ X) ->
  let w := run ord lib alloc keep conv h in
  (forall tid b i axes x, refer w [i] [x] -> same_outcome eq (b_transpose (lib b) x axes) (cached_transpose lib alloc keep w tid [] b i axes)) /\
  (forall tid b i j axl axr x y, refer w [i; j] [x; y] ->
    same_outcome eq (b_tensordot (lib b) x y axl axr) (cached_tensordot lib alloc keep w tid [] b i j axl axr)) /\
  (forall a i, i ∈ w_held w -> w_heap (act ord lib alloc keep conv w a) !! i = w_heap w !! i).
Proof.
  intros Ha w. pose proof (exact_run ord lib alloc Ha keep conv h) as HW. fold w in HW. split; [|split].
  - intros tid b i axes x [_ Hv]. inversion Hv as [|? ? ? ? Hx _]; subst. destruct (tr_outcome lib alloc Ha keep false w tid [] b i axes x HW Hx) as (w' & o & -> & _ & _ & H). done.
  - intros tid b i j axl axr x y [_ Hv]. inversion Hv as [|? ? ? ? Hx Hv2]; subst. inversion Hv2 as [|? ? ? ? Hy _]; subst.
    destruct (td_outcome lib alloc Ha keep false w tid [] b i j axl axr x y HW Hx Hy) as (w' & o & -> & _ & _ & H). done.
  - intros a i Hi. by apply exact_act.
Qed.
Print Assumptions C32_exact.
(** After any history in which the einsum calls and contractions are valid (or einsum fails): valid einsum calls and valid
    contractions return inside what they return outside.
    Full statement: all histories.  Missing: histories with an einsum call the library is given another equation for (false, see below). *)
Theorem C32_transparent_partial (K : semiring) (ord : gset N -> list N) (lib : str -> backend K) (alloc : nat -> gset nat -> nat) (keep : nat -> nat -> bool)
    (conv : str -> tensor K -> res (tensor K)) (h : list (action K)) :
  (forall s, ord s ≡ₚ elements s) -> (forall b, backend_ok (lib b)) -> (forall b, b_has_einsum (lib b) = true -> documented_einsum (lib b)) ->
  (forall t X, alloc t X ∉ X) ->
  accepted_history ord lib alloc keep conv h ->
  let w := run ord lib alloc keep conv h in
  (forall tid b s ids vals, refer w ids vals -> valid_einsum lib b s vals ->
    exists T, run_einsum (lib b) s vals = Ok T /\ same_outcome teq (Ok T) (cached_einsum lib alloc keep w tid [] b s ids)) /\
  (forall tid b use_blas opt mem s ids vals, refer w ids vals -> valid_contract lib b opt mem s vals ->
    exists T, contract ord (lib b) use_blas opt mem s vals = Ok T /\ same_outcome teq (Ok T) (sh_contract ord lib alloc keep w tid b use_blas opt mem s ids)).
Proof.
  intros Ho Hl Hd Ha Hh w. pose proof (accepted_run ord lib alloc Ha keep conv Ho Hl Hd h Hh) as HW. fold w in HW. split.
  - intros tid b s ids vals [_ Hv] Hval. destruct (valid_sound_call lib Hl Hd b s vals Hval) as [T HT]. exists T. split; [by destruct HT as (? & ? & _ & _ & ? & _)|].
    destruct (es_outcome lib alloc Ha keep w tid [] b s ids vals T HW Hv HT) as (w' & r & T' & -> & _ & _ & H1 & H2). by exists T'.
  - intros tid b use_blas opt mem s ids vals [_ Hv] Hval.
    destruct (contract_outcome ord Ho lib Hl alloc Ha keep w tid b use_blas opt mem s ids vals HW Hv Hval) as (w' & r & T & T' & -> & _ & _ & H1 & H2 & H3).
    exists T. split; [done|]. by exists T'.
Qed.
Print Assumptions C32_transparent_partial.

(** Two matrices, a context, a product (BLAS, then transposed): the second time, and with operands and labels changed round, nothing is computed. *)
Definition sh_hist : list (action nat_semiring) :=
  [WNew sh_a; WNew sh_b; WEnter 0 None; WContract 0 numpy true (OPath [[0; 1]]) MNone (lit "ab,bc->ac") [0; 1]; WEinsum 0 numpy (lit "ab,bc->ac") [0; 1]].
Definition sh_eqn : eqn := Eqn [ETerm (lit "ab") None; ETerm (lit "bc") None] (Some (ETerm (lit "ac") None)).
Lemma refer_values {K : semiring} (w : world K) ids vals vals' : values w ids = Ok vals' -> refer w ids vals -> vals = vals'.
Proof. intros H [_ H2]. apply values_spec in H2. rewrite H in H2. by apply Ok_inj in H2. Qed.
Lemma refer_check {K : semiring} (w : world K) ids vals : forallb (fun i => bool_decide (i ∈ w_held w)) ids = true -> values w ids = Ok vals -> refer w ids vals.
Proof.
  intros H1 H2. split; [|by apply values_spec]. rewrite forallb_forall in H1. apply Forall_forall. intros i Hi%elem_of_list_In. by apply H1, bool_decide_eq_true in Hi.
Qed.
Example C32_instance :
  (forall b, backend_ok (sh_lib b)) /\ (forall b, documented_einsum (sh_lib b)) /\ accepted_history ord0 sh_lib least no_keep copy sh_hist /\
  refer (sh_run sh_hist) [0; 1] [sh_a; sh_b] /\ valid_einsum sh_lib numpy (lit "ab,bc->ac") [sh_a; sh_b] /\
  valid_contract sh_lib numpy (OPath [[0; 1]]) MNone (lit "ab,bc->ac") [sh_a; sh_b] /\
  seen (sh_contract ord0 sh_lib least no_keep (sh_run sh_hist) 0 numpy true (OPath [[0; 1]]) MNone (lit "ab,bc->ac") [0; 1]) = Ok (3, ([2; 2], [22; 28; 49; 64])) /\
  seen (cached_einsum sh_lib least no_keep (sh_run sh_hist) 0 [] numpy (lit "jk,ij->ik") [1; 0]) = Ok (4, ([2; 2], [22; 28; 49; 64])) /\
  seen (cached_einsum sh_lib least no_keep (sh_run sh_hist) 1 [] numpy (lit "jk,ij->ik") [1; 0]) = Ok (5, ([2; 2], [22; 28; 49; 64])).
Proof.
  assert (He : valid_einsum sh_lib numpy (lit "ab,bc->ac") [sh_a; sh_b]).
  { exists sh_eqn. split; [by vm_compute|]. split; [done|]. split; [apply plain_check_ok; by vm_compute|]. split; [apply wf_check_ok; by vm_compute|].
    split; [apply good_check_ok; by vm_compute|]. split; [vm_compute; lia|]. split; [|done]. left. split; [by repeat constructor|done]. }
  assert (Hc : valid_contract sh_lib numpy (OPath [[0; 1]]) MNone (lit "ab,bc->ac") [sh_a; sh_b]).
  { exists sh_eqn. split; [by vm_compute|]. split; [done|]. split; [apply plain_check_ok; by vm_compute|]. split; [apply wf_check_ok; by vm_compute|].
    split; [apply good_check_ok; by vm_compute|]. split; [vm_compute; lia|]. split; [done|]. split; [|done]. apply complete_check; by vm_compute. }
  split; [intros b; apply doc_backend_ok|]. split; [intros b; apply doc_backend_doc|]. split.
  { unfold accepted_history, sh_hist. cbn [accepted_from]. do 3 (split; [done|]). split; [|split; [|done]].
    - intros vals Hr. apply (refer_values _ _ _ [sh_a; sh_b]) in Hr as ->; [|by vm_compute]. exact Hc.
    - intros vals Hr. apply (refer_values _ _ _ [sh_a; sh_b]) in Hr as ->; [|by vm_compute]. left. exact He. }
  split; [|split; [done|split; [done|split; [by vm_compute|split; by vm_compute]]]].
  apply refer_check; by vm_compute.
Qed.
(** [contract("...Ĥ", x, optimize=False)] on a rank 4 array is stored under the key of the identity but computes another contraction
    (see [C43_ellipsis_refuted]); afterwards the valid einsum "abcd->abcd" of the same array returns that vector. *)
Definition sh_poison : list (action nat_semiring) :=
  [WNew (arr [2; 2; 2; 2] (seq 1 16 : list nat_semiring)); WEnter 0 None; WContract 0 numpy true OFalse MNone (lit "..." ++ [292%N]) [0]].
Theorem C32_refuted : exists (lib : str -> backend nat_semiring) (alloc : nat -> gset nat -> nat) keep conv (h : list (action nat_semiring)) (s : str) i x T r T',
  (forall b, backend_ok (lib b)) /\ (forall b, documented_einsum (lib b)) /\ (forall t X, alloc t X ∉ X) /\
  refer (run ord0 lib alloc keep conv h) [i] [x] /\ valid_einsum lib numpy s [x] /\ run_einsum (lib numpy) s [x] = Ok T /\
  (cached_einsum lib alloc keep (run ord0 lib alloc keep conv h) 0 [] numpy s [i]).2 = Ok r /\
  w_heap (cached_einsum lib alloc keep (run ord0 lib alloc keep conv h) 0 [] numpy s [i]).1 !! r = Some T' /\ shape T' <> shape T.
Proof.
  exists sh_lib, least, no_keep, copy, sh_poison, (lit "abcd->abcd"), 0, (arr [2; 2; 2; 2] (seq 1 16 : list nat_semiring)). do 3 eexists.
  split; [intros b; apply doc_backend_ok|]. split; [intros b; apply doc_backend_doc|]. split; [apply least_ok|].
  split; [apply refer_check; by vm_compute|]. split.
  { exists (Eqn [ETerm (lit "abcd") None] (Some (ETerm (lit "abcd") None))). split; [by vm_compute|]. split; [done|]. split; [apply plain_check_ok; by vm_compute|].
    split; [apply wf_check_ok; by vm_compute|]. split; [apply good_check_ok; by vm_compute|]. split; [vm_compute; lia|]. split; [|done]. left. split; [by repeat constructor|done]. }
  split; [vm_compute; reflexivity|]. split; [vm_compute; reflexivity|]. split; [vm_compute; reflexivity|]. by vm_compute.
Qed.
Print Assumptions C32_refuted.

(** ** C33 *)
(** Two einsum calls on arrays of the same memory [h] with the same key are calls of the same library with the same value. *)
Theorem C33_key_sound (K : semiring) (h : gmap nat (tensor K)) (b b' : str) (e e' : eqn) (s s' : str) (ids ids' : list nat) (ops ops' : list (tensor K)) (k : key) :
  e_in e <> [] -> plain_eqn e -> filter (.≠ c_space) s = render e -> well_formed e (shape <$> ops) -> good (zip (in_labels e (shape <$> ops)) ops) ->
  e_in e' <> [] -> plain_eqn e' -> filter (.≠ c_space) s' = render e' -> well_formed e' (shape <$> ops') -> good (zip (in_labels e' (shape <$> ops')) ops') ->
  Forall2 (fun i x => h !! i = Some x) ids ops -> Forall2 (fun i x => h !! i = Some x) ids' ops' ->
  call_key b s ids (shape <$> ops) = Ok k -> call_key b' s' ids' (shape <$> ops') = Ok k ->
  b = b' /\ einsum (zip (in_labels e (shape <$> ops)) ops) (out_labels e (shape <$> ops)) ≡ₜ einsum (zip (in_labels e' (shape <$> ops')) ops') (out_labels e' (shape <$> ops')).
Proof. apply calls_sound. Qed.
Print Assumptions C33_key_sound.
(** Calls on distinct arrays that differ by the order of the operands and an injective change of labels have the same key. *)
Theorem C33_key_complete (K : semiring) (b : str) (e e' : eqn) (s s' : str) (ids ids' : list nat) (ops ops' : list (tensor K)) (g : elabel -> elabel) :
  e_in e <> [] -> plain_eqn e -> filter (.≠ c_space) s = render e -> well_formed e (shape <$> ops) ->
  e_in e' <> [] -> plain_eqn e' -> filter (.≠ c_space) s' = render e' -> well_formed e' (shape <$> ops') ->
  length ids = length ops -> length ids' = length ops' -> NoDup ids ->
  zip (in_labels e' (shape <$> ops')) ids' ≡ₚ zip (fmap (M:=list) g <$> in_labels e (shape <$> ops)) ids ->
  out_labels e' (shape <$> ops') = g <$> out_labels e (shape <$> ops) ->
  (forall a c, a ∈ mjoin (in_labels e (shape <$> ops)) -> c ∈ mjoin (in_labels e (shape <$> ops)) -> g a = g c -> a = c) ->
  exists k, call_key b s ids (shape <$> ops) = Ok k /\ call_key b s' ids' (shape <$> ops') = Ok k.
Proof. apply calls_complete. Qed.
Print Assumptions C33_key_complete.
(** "ab,b...->a..." and "i...,ji" are the same call up to order, names and the implicit output. *)
Definition sh_e1 : eqn := Eqn [ETerm (lit "ab") None; ETerm (lit "b") (Some [])] (Some (ETerm (lit "a") (Some []))).
Definition sh_e2 : eqn := Eqn [ETerm (lit "i") (Some []); ETerm (lit "ji") None] (Some (ETerm (lit "j") (Some []))).
Definition sh_g (l : elabel) : elabel :=
  match l with Named c => if decide (c = 97%N) then Named 106%N else if decide (c = 98%N) then Named 105%N else Named c | l => l end.
Example C33_instance :
  plain_eqn sh_e1 /\ plain_eqn sh_e2 /\ well_formed sh_e1 (shape <$> [sh_a; sh_b]) /\ well_formed sh_e2 (shape <$> [sh_b; sh_a]) /\
  good (zip (in_labels sh_e1 (shape <$> [sh_a; sh_b])) [sh_a; sh_b]) /\ good (zip (in_labels sh_e2 (shape <$> [sh_b; sh_a])) [sh_b; sh_a]) /\
  zip (in_labels sh_e2 (shape <$> [sh_b; sh_a])) [4; 7] ≡ₚ zip (fmap (M:=list) sh_g <$> in_labels sh_e1 (shape <$> [sh_a; sh_b])) [7; 4] /\
  out_labels sh_e2 (shape <$> [sh_b; sh_a]) = sh_g <$> out_labels sh_e1 (shape <$> [sh_a; sh_b]) /\
  call_key numpy (render sh_e1) [7; 4] (shape <$> [sh_a; sh_b]) = Ok (KEinsum numpy (lit "ab,ca->cb") [4; 7]) /\
  call_key numpy (render sh_e2) [4; 7] (shape <$> [sh_b; sh_a]) = Ok (KEinsum numpy (lit "ab,ca->cb") [4; 7]).
Proof.
  split; [apply plain_check_ok; by vm_compute|]. split; [apply plain_check_ok; by vm_compute|]. split; [apply wf_check_ok; by vm_compute|]. split; [apply wf_check_ok; by vm_compute|].
  split; [apply good_check_ok; by vm_compute|]. split; [apply good_check_ok; by vm_compute|]. split; [|split; [by vm_compute|split; by vm_compute]].
  vm_compute. apply perm_swap.
Qed.
(** When an array occurs twice the order matters: the key is not complete. *)
Example C33_same_array : call_key numpy (lit "ab,bc->ac") [3; 3] [[2; 2]; [2; 2]] = Ok (KEinsum numpy (lit "ab,bc->ac") [3; 3]) /\
  call_key numpy (lit "bc,ab->ac") [3; 3] [[2; 2]; [2; 2]] = Ok (KEinsum numpy (lit "ab,ca->cb") [3; 3]).
Proof. split; by vm_compute. Qed.

(** ** C34 *)
(** Whatever the other threads do and however their events are interleaved, a thread running a program with [with] blocks, exceptions and
    operations, that asks for the cache inside contexts only, is told what it should be: it is sharing exactly inside a block, and the cache is the innermost block's.
    Full statement: all programs.  Missing: programs asking for the cache outside every context (false, see below). *)
Theorem C34_threads_partial (K : semiring) (ord : gset N -> list N) (lib : str -> backend K) (alloc : nat -> gset nat -> nat) (keep : nat -> nat -> bool)
    (conv : str -> tensor K -> res (tensor K)) (w : world K) (tid : nat) (p : prog K) (sched : list (nat * ev K)) :
  currently_sharing w tid = false -> scoped [] p -> of_thread tid sched `prefix_of` (events [] p).1 ->
  of_thread tid (answers ord lib alloc keep conv w sched) = take (length (of_thread tid sched)) (told [] p).
Proof.
  intros Hw. apply threads_told. unfold currently_sharing in Hw. apply bool_decide_eq_false in Hw. by apply eq_None_not_Some.
Qed.
Print Assumptions C34_threads_partial.
(** Thread 1: two nested contexts, an exception through the inner one; thread 2 enters and leaves in between (once too often). *)
Definition sh_prog : prog nat_semiring := PSeq PAsk (PSeq (PWith 8 (PSeq (PTry (PWith 9 (PSeq PGet PRaise))) (PSeq PGet PAsk))) PAsk).
Definition sh_sched : list (nat * ev nat_semiring) :=
  [(1, EAsk); (2, EEnter 5); (1, EEnter 8); (1, EEnter 9); (2, EExit); (1, EGet); (2, EExit); (1, EExit); (1, EGet); (2, EGet); (1, EAsk); (1, EExit); (1, EAsk)].
Example C34_instance : scoped [] sh_prog /\ of_thread 1 sh_sched `prefix_of` (events [] sh_prog).1 /\
  of_thread 1 (answers ord0 sh_lib least no_keep copy start sh_sched) =
    [ABool false; ADone (Ok tt); ADone (Ok tt); ACache (Ok 9); ADone (Ok tt); ACache (Ok 8); ABool true; ADone (Ok tt); ABool false].
Proof. split; [by repeat split|]. split; [by exists []|]. by vm_compute. Qed.
(** Asking for the cache outside every context raises IndexError and leaves an empty stack: from then on the thread is "sharing". *)
Theorem C34_refuted : exists (p : prog nat_semiring) (sched : list (nat * ev nat_semiring)),
  of_thread 1 sched = (events [] p).1 /\
  told [] p = [ACache (Err IndexError); ABool false] /\
  of_thread 1 (answers ord0 sh_lib least no_keep copy start sched) = [ACache (Err IndexError); ABool true].
Proof. exists (PSeq (PTry PGet) PAsk), [(1, EGet); (1, EAsk)]. split; [done|]. split; [done|]. by vm_compute. Qed.
Print Assumptions C34_refuted.

(** ** C35 *)
(** [contract] into an array [o] of the shape of the result, after any accepted history: the array is filled with the result and
    returned, and no other array changes, if the last step is a tensordot with an output axis, or an einsum outside contexts
    (in particular: any contraction with an output axis outside contexts; einsum without optimization outside contexts).
    Full statement: in and out of contexts, for all last steps.  Missing: einsum inside contexts and tensordot into a 0-d array (false, see below). *)
Theorem C35_out_partial (K : semiring) (ord : gset N -> list N) (lib : str -> backend K) (alloc : nat -> gset nat -> nat) (keep : nat -> nat -> bool)
    (conv : str -> tensor K -> res (tensor K)) (h : list (action K)) (tid : nat) (b : str) (use_blas : bool) (opt : optimize_arg) (mem : memory_arg) (s : str)
    (ids : list nat) (vals : list (tensor K)) (o : nat) (O T : tensor K) :
  (forall s, ord s ≡ₚ elements s) -> (forall b, backend_ok (lib b)) -> (forall b, b_has_einsum (lib b) = true -> documented_einsum (lib b)) ->
  (forall t X, alloc t X ∉ X) ->
  accepted_history ord lib alloc keep conv h ->
  let w := run ord lib alloc keep conv h in
  refer w ids vals -> refer w [o] [O] -> shape O = shape T ->
  match opt with
  | OFalse => run_einsum (lib numpy) s vals = Ok T /\ currently_sharing w tid = false
  | _ => valid_contract lib b opt mem s vals /\ contract ord (lib b) use_blas opt mem s vals = Ok T /\
         forall info c, contract_path ord use_blas opt mem s (shape <$> vals) = Ok info -> last (pi_contractions info) = Some c ->
           if use_tensordot (lib b) (c_blas c) then shape T <> [] else currently_sharing w tid = false
  end ->
  exists w', sh_contract_out ord lib alloc keep w tid b use_blas opt mem s ids o = (w', Ok o) /\
    (exists T', w_heap w' !! o = Some T' /\ T' ≡ₜ T) /\ (forall i, i ∈ w_held w -> i <> o -> w_heap w' !! i = w_heap w !! i).
Proof.
  intros Ho Hl Hd Ha Hh w [_ Hv] [Hoh Hov] Hsh Hc. pose proof (accepted_run ord lib alloc Ha keep conv Ho Hl Hd h Hh) as HW. fold w in HW.
  apply Forall_cons in Hoh as [Hoh _]. inversion Hov as [|? ? ? ? HO _]; subst.
  assert (H : exists w', sh_contract_out ord lib alloc keep w tid b use_blas opt mem s ids o = (w', Ok o) /\ filled w w' o T).
  { assert (opt = OFalse \/ opt <> OFalse) as [->|Hopt] by (destruct opt; by (left + right)).
    - destruct Hc as [H1 H2]. exact (no_opt_filled ord lib alloc keep w tid b use_blas mem s ids vals o O T HW Hv H1 Hoh HO Hsh H2).
    - assert (Hc' : valid_contract lib b opt mem s vals /\ contract ord (lib b) use_blas opt mem s vals = Ok T /\
         forall info c, contract_path ord use_blas opt mem s (shape <$> vals) = Ok info -> last (pi_contractions info) = Some c ->
           if use_tensordot (lib b) (c_blas c) then shape T <> [] else currently_sharing w tid = false) by by destruct opt.
      destruct Hc' as (H1 & H2 & H3). exact (contract_filled ord Ho lib Hl alloc Ha keep w tid b use_blas opt mem s ids vals o O T HW Hv H1 H2 Hoh HO Hsh H3). }
  destruct H as (w' & H1 & H2 & H3 & _). by exists w'.
Qed.
Print Assumptions C35_out_partial.
(** A product written into an array inside a context; the operands stay. *)
Definition sh_o : tensor nat_semiring := arr [2; 2] ([0; 0; 0; 0] : list nat_semiring).
Definition sh_hist_out : list (action nat_semiring) := sh_hist ++ [WNew sh_o].
Definition heap_data (w : world nat_semiring) (i : nat) : option (list nat * list nat) := match w_heap w !! i with Some T => Some (shape T, entries T) | None => None end.
Example C35_instance :
  accepted_history ord0 sh_lib least no_keep copy sh_hist_out /\
  currently_sharing (sh_run sh_hist_out) 0 = true /\
  refer (sh_run sh_hist_out) [0; 1] [sh_a; sh_b] /\ refer (sh_run sh_hist_out) [5] [sh_o] /\
  valid_contract sh_lib numpy (OPath [[0; 1]]) MNone (lit "ab,bc->ac") [sh_a; sh_b] /\
  (forall info c, contract_path ord0 true (OPath [[0; 1]]) MNone (lit "ab,bc->ac") (shape <$> [sh_a; sh_b]) = Ok info -> last (pi_contractions info) = Some c ->
    use_tensordot (sh_lib numpy) (c_blas c) = true) /\
  (let '(w, r) := sh_contract_out ord0 sh_lib least no_keep (sh_run sh_hist_out) 0 numpy true (OPath [[0; 1]]) MNone (lit "ab,bc->ac") [0; 1] 5 in
   (r, heap_data w 5, heap_data w 0)) = (Ok 5, Some ([2; 2], [22; 28; 49; 64]), Some ([2; 3], [1; 2; 3; 4; 5; 6])).
Proof.
  destruct C32_instance as (_ & _ & Hacc & _ & _ & Hc & _). split.
  { unfold sh_hist_out. clear -Hacc. unfold accepted_history in *. revert Hacc. generalize (@start nat_semiring). induction sh_hist as [|a h IH]; intros w; simpl; [done|]. intros [H1 H2]. split; [done|]. by apply IH. }
  split; [by vm_compute|]. split; [apply refer_check; by vm_compute|]. split; [apply refer_check; by vm_compute|]. split; [done|].
  split; [|by vm_compute]. intros info c Hi. vm_compute in Hi. injection Hi as <-. intros Hl. vm_compute in Hl. injection Hl as <-. by vm_compute.
Qed.
(** Inside a context the einsum of an elementwise product does not get [out]: the array returned keeps its zeros. *)
Theorem C35_sharing_refuted : exists (h : list (action nat_semiring)) (s : str) (ids : list nat) (vals : list (tensor nat_semiring)) (o : nat) T,
  refer (sh_run h) ids vals /\ valid_contract sh_lib numpy (OPath [[0; 1]]) MNone s vals /\
  contract ord0 (sh_lib numpy) true (OPath [[0; 1]]) MNone s vals = Ok T /\
  (let '(w', r) := sh_contract_out ord0 sh_lib least no_keep (sh_run h) 0 numpy true (OPath [[0; 1]]) MNone s ids o in (r, heap_data w' o)) =
    (Ok o, Some ([2; 2], [0; 0; 0; 0])) /\ (shape T, entries T) = ([2; 2], [1; 4; 9; 16]).
Proof.
  set (x := arr [2; 2] ([1; 2; 3; 4] : list nat_semiring)).
  exists [WNew x; WNew sh_o; WEnter 0 None], (lit "ab,ab->ab"), [0; 0], [x; x], 1. eexists.
  split; [apply refer_check; by vm_compute|]. split.
  { exists (Eqn [ETerm (lit "ab") None; ETerm (lit "ab") None] (Some (ETerm (lit "ab") None))). split; [by vm_compute|]. split; [done|]. split; [apply plain_check_ok; by vm_compute|].
    split; [apply wf_check_ok; by vm_compute|]. split; [apply good_check_ok; by vm_compute|]. split; [vm_compute; lia|]. split; [done|]. split; [|done]. apply complete_check. by vm_compute. }
  split; [vm_compute; reflexivity|]. split; by vm_compute.
Qed.
Print Assumptions C35_sharing_refuted.
(** A scalar product into a 0-d array fails also outside contexts: [out[:] = …] is not possible. *)
Theorem C35_scalar_refuted : exists (h : list (action nat_semiring)) (s : str) (ids : list nat) (vals : list (tensor nat_semiring)) (o : nat) (O T : tensor nat_semiring),
  currently_sharing (sh_run h) 0 = false /\ refer (sh_run h) ids vals /\ refer (sh_run h) [o] [O] /\ valid_contract sh_lib numpy (OPath [[0; 1]]) MNone s vals /\
  contract ord0 (sh_lib numpy) true (OPath [[0; 1]]) MNone s vals = Ok T /\ shape O = shape T /\
  (sh_contract_out ord0 sh_lib least no_keep (sh_run h) 0 numpy true (OPath [[0; 1]]) MNone s ids o).2 = Err IndexError.
Proof.
  set (x := arr [2] ([1; 2] : list nat_semiring)). set (o := arr [] ([0] : list nat_semiring)).
  exists [WNew x; WNew x; WNew o], (lit "a,a->"), [0; 1], [x; x], 2, o. eexists. split; [by vm_compute|].
  split; [apply refer_check; by vm_compute|]. split; [apply refer_check; by vm_compute|]. split.
  { exists (Eqn [ETerm (lit "a") None; ETerm (lit "a") None] (Some (ETerm [] None))). split; [by vm_compute|]. split; [done|]. split; [apply plain_check_ok; by vm_compute|].
    split; [apply wf_check_ok; by vm_compute|]. split; [apply good_check_ok; by vm_compute|]. split; [vm_compute; lia|]. split; [done|]. split; [|done]. apply complete_check. by vm_compute. }
  split; [vm_compute; reflexivity|]. split; by vm_compute.
Qed.
Print Assumptions C35_scalar_refuted.

(** ** C36 *)
(** If converted arrays are kept alive (dropping a reference to one leaves another), converting an array returns the conversion of that array.
    Full statement: all histories.  Missing: histories dropping a converted array (false, see below). *)
Theorem C36_convert_partial (K : semiring) (ord : gset N -> list N) (lib : str -> backend K) (alloc : nat -> gset nat -> nat) (keep : nat -> nat -> bool)
    (conv : str -> tensor K -> res (tensor K)) (h : list (action K)) (tid : nat) (n : str) (i : nat) (x : tensor K) :
  (forall t X, alloc t X ∉ X) -> kept ord lib alloc keep conv h -> refer (run ord lib alloc keep conv h) [i] [x] ->
  same_outcome eq (conv n x) (cached_convert alloc keep conv (run ord lib alloc keep conv h) tid [] n i).
Proof. intros Ha. by apply convert_outcome. Qed.
Print Assumptions C36_convert_partial.
(** A converted array is dropped, its address is given to another one, whose conversion is then that of the first. *)
Definition sh_conv : list (action nat_semiring) := [WNew sh_a; WEnter 0 None; WConvert 0 (lit "to_torch") 0].
Example C36_instance : kept ord0 sh_lib least no_keep copy (sh_conv ++ [WNew sh_b; WDrop 1]) /\
  refer (sh_run (sh_conv ++ [WNew sh_b; WDrop 1])) [0; 2] [sh_a; sh_b] /\
  seen (cached_convert least no_keep copy (sh_run (sh_conv ++ [WNew sh_b; WDrop 1])) 0 [] (lit "to_torch") 0) = Ok (1, ([2; 3], [1; 2; 3; 4; 5; 6])) /\
  seen (cached_convert least no_keep copy (sh_run (sh_conv ++ [WNew sh_b; WDrop 1])) 0 [] (lit "to_torch") 2) = Ok (3, ([3; 2], [1; 2; 3; 4; 5; 6])).
Proof.
  split; [|split; [apply refer_check; by vm_compute|split; by vm_compute]].
  intros h1 i h2 E Hc. assert (i = 1) as ->.
  { do 4 (destruct h1 as [|? h1]; [by injection E|simpl in E; injection E as <- E]). destruct h1 as [|? h1]; [by injection E as <-|]. injection E as <- E. by destruct h1. }
  destruct Hc as (tid & n & Hin). do 4 (destruct h1 as [|? h1]; [by injection E|simpl in E; injection E as <- E]). destruct h1 as [|? h1].
  - repeat (apply elem_of_cons in Hin as [Hin|Hin]; [by try (injection Hin)|]). by apply elem_of_nil in Hin.
  - injection E as <- E. by destruct h1.
Qed.
Theorem C36_refuted : exists (alloc : nat -> gset nat -> nat) (h : list (action nat_semiring)) (i r : nat) (x T : tensor nat_semiring),
  (forall t X, alloc t X ∉ X) /\ refer (run ord0 sh_lib alloc no_keep copy h) [i] [x] /\
  (cached_convert alloc no_keep copy (run ord0 sh_lib alloc no_keep copy h) 0 [] (lit "to_torch") i).2 = Ok r /\
  w_heap (cached_convert alloc no_keep copy (run ord0 sh_lib alloc no_keep copy h) 0 [] (lit "to_torch") i).1 !! r = Some T /\
  copy (lit "to_torch") x = Ok x /\ shape T <> shape x.
Proof.
  exists least, (sh_conv ++ [WDrop 0; WNew sh_b]), 0. do 3 eexists. split; [apply least_ok|].
  split; [apply refer_check; by vm_compute|]. split; [vm_compute; reflexivity|]. split; [vm_compute; reflexivity|]. split; [done|]. by vm_compute.
Qed.
Print Assumptions C36_refuted.

(** ** C48 *)
(** After any history [h] an operation [a] is done by thread [tid] in a context with cache [c] and returns [r].  After any further
    history that does not forget the dictionary [c] (contexts may be left, all variables dropped, arrays made and collected), any
    thread [tid'] in a context with that cache doing the operation again gets the object [r] with the value it had; no object is made
    and no cache changes.  The operation is a transpose, tensordot, einsum, conversion or a whole [contract]. *)
Theorem C48_repeat (K : semiring) (ord : gset N -> list N) (lib : str -> backend K) (alloc : nat -> gset nat -> nat) (keep : nat -> nat -> bool)
    (conv : str -> tensor K -> res (tensor K)) (h h' : list (action K)) (a : action K) (tid tid' c : nat) (vals : list (tensor K)) w' r :
  (forall t X, alloc t X ∉ X) -> op_thread a = Some tid ->
  let w := run ord lib alloc keep conv h in
  let w2 := run ord lib alloc keep conv (h ++ a :: h') in
  refer w (action_args a) vals -> innermost w tid c -> outcome ord lib alloc keep conv w a = (w', Ok r) ->
  WForget c ∉ h' -> innermost w2 tid' c -> refer w2 (action_args a) vals ->
  exists w3, outcome ord lib alloc keep conv w2 (in_thread tid' a) = (w3, Ok r) /\ w_heap w3 !! r = w_heap w' !! r /\
    w_heap w3 ⊆ w_heap w2 /\ w_caches w3 = w_caches w2.
Proof. intros Ha Hop w w2. by eapply repeated. Qed.
Print Assumptions C48_repeat.
(** The same for an einsum call with operands in another order and other labels. *)
Theorem C48_relabelled (K : semiring) (ord : gset N -> list N) (lib : str -> backend K) (alloc : nat -> gset nat -> nat) (keep : nat -> nat -> bool)
    (conv : str -> tensor K -> res (tensor K)) (h h' : list (action K)) (tid tid' c : nat) (b : str)
    (e e' : eqn) (s s' : str) (ids ids' : list nat) (ops ops' : list (tensor K)) (g : elabel -> elabel) w' r :
  (forall t X, alloc t X ∉ X) ->
  let w := run ord lib alloc keep conv h in
  let w2 := run ord lib alloc keep conv (h ++ WEinsum tid b s ids :: h') in
  e_in e <> [] -> plain_eqn e -> filter (.≠ c_space) s = render e -> well_formed e (shape <$> ops) ->
  e_in e' <> [] -> plain_eqn e' -> filter (.≠ c_space) s' = render e' -> well_formed e' (shape <$> ops') ->
  NoDup ids -> zip (in_labels e' (shape <$> ops')) ids' ≡ₚ zip (fmap (M:=list) g <$> in_labels e (shape <$> ops)) ids ->
  out_labels e' (shape <$> ops') = g <$> out_labels e (shape <$> ops) ->
  (forall a c, a ∈ mjoin (in_labels e (shape <$> ops)) -> c ∈ mjoin (in_labels e (shape <$> ops)) -> g a = g c -> a = c) ->
  refer w ids ops -> refer w ids' ops' -> innermost w tid c -> cached_einsum lib alloc keep w tid [] b s ids = (w', Ok r) ->
  WForget c ∉ h' -> innermost w2 tid' c ->
  exists w3, cached_einsum lib alloc keep w2 tid' [] b s' ids' = (w3, Ok r) /\ w_heap w3 !! r = w_heap w' !! r /\
    w_heap w3 ⊆ w_heap w2 /\ w_caches w3 = w_caches w2.
Proof.
  intros Ha w w2 H1 H2 H3 H4 H5 H6 H7 H8 Hnd Hz Ho Hg Hr1 Hr2 Ht E Hf Ht2.
  pose proof (Forall2_length _ _ _ (proj2 Hr1)) as L1. pose proof (Forall2_length _ _ _ (proj2 Hr2)) as L2.
  destruct (C33_key_complete K b e e' s s' ids ids' ops ops' g H1 H2 H3 H4 H5 H6 H7 H8 L1 L2 Hnd Hz Ho Hg) as (k & K1 & K2).
  refine (repeated_einsum ord lib alloc Ha keep conv h (WEinsum tid b s ids) h' tid tid' c b s ids ops s' ids' ops' w' r eq_refl Hr1 Hr2 _ _ Ht E Hf Ht2); [|congruence].
  assert (Hl' : length (in_labels e' (shape <$> ops')) = length ops') by by apply in_labels_length.
  assert (Hl : length (in_labels e (shape <$> ops)) = length ops) by by apply in_labels_length.
  intros i Hi. assert (E1 : (zip (in_labels e' (shape <$> ops')) ids').*2 = ids') by (apply snd_zip; lia).
  assert (E2 : (zip (fmap (M:=list) g <$> in_labels e (shape <$> ops)) ids).*2 = ids) by (apply snd_zip; rewrite fmap_length; lia).
  rewrite <- E2. rewrite <- E1 in Hi. by rewrite <- Hz.
Qed.
Print Assumptions C48_relabelled.
(** In any schedule of any threads, whatever they do (leaving contexts not entered, asking for a cache outside contexts, failing
    operations): what a dictionary has under a key stays there. *)
Theorem C48_entries_stay (K : semiring) (ord : gset N -> list N) (lib : str -> backend K) (alloc : nat -> gset nat -> nat) (keep : nat -> nat -> bool)
    (conv : str -> tensor K -> res (tensor K)) (sched sched' : list (nat * ev K)) (c : nat) (k : key) (r : nat) :
  let w := after ord lib alloc keep conv start sched in
  entry w c k = Some r -> entry (after ord lib alloc keep conv w sched') c k = Some r.
Proof. apply entries_stay. Qed.
Print Assumptions C48_entries_stay.
(** The product of [sh_hist] again: its context is left, the results are dropped, other arrays come and go, and thread 5 enters the dictionary. *)
Definition sh_call : action nat_semiring := WContract 0 numpy true (OPath [[0; 1]]) MNone (lit "ab,bc->ac") [0; 1].
Definition sh_first : list (action nat_semiring) := [WNew sh_a; WNew sh_b; WEnter 0 None].
Definition sh_then : list (action nat_semiring) :=
  [WExit 0; WDrop 2; WDrop 3; WNew sh_o; WCollect; WDrop 4; WNew sh_a; WEnter 5 None; WEnter 5 (Some 0)].
Definition sh_whole : list (action nat_semiring) := sh_first ++ sh_call :: sh_then.
Example C48_instance :
  op_thread sh_call = Some 0 /\ refer (sh_run sh_first) [0; 1] [sh_a; sh_b] /\ innermost (sh_run sh_first) 0 0 /\
  WForget 0 ∉ sh_then /\ innermost (sh_run sh_whole) 5 0 /\ refer (sh_run sh_whole) [0; 1] [sh_a; sh_b] /\
  seen (outcome ord0 sh_lib least no_keep copy (sh_run sh_first) sh_call) = Ok (3, ([2; 2], [22; 28; 49; 64])) /\
  seen (outcome ord0 sh_lib least no_keep copy (sh_run sh_whole) (in_thread 5 sh_call)) = Ok (3, ([2; 2], [22; 28; 49; 64])) /\
  w_held (sh_run sh_whole) = [4; 1; 0] /\
  entry (sh_run sh_whole) 0 (KTensordot numpy 1 0 [0] [1]) = Some 2.
Proof.
  split; [done|]. split; [apply refer_check; by vm_compute|]. split; [by vm_compute|]. split.
  { unfold sh_then. intros H. repeat (apply elem_of_cons in H as [H|H]; [done|]). by apply elem_of_nil in H. }
  split; [by vm_compute|]. split; [apply refer_check; by vm_compute|]. split; [by vm_compute|]. split; [by vm_compute|]. split; by vm_compute.
Qed.
(** "ab,b...->a..." of a context, asked for again as "i...,ji->j..." with the operands exchanged (labels of [C33_instance]). *)
Definition sh_call2 : action nat_semiring := WEinsum 0 numpy (render sh_e1) [0; 1].
Example C48_relabelled_instance :
  refer (sh_run sh_first) [0; 1] [sh_a; sh_b] /\ refer (sh_run sh_first) [1; 0] [sh_b; sh_a] /\ NoDup [0; 1] /\
  zip (in_labels sh_e2 (shape <$> [sh_b; sh_a])) [1; 0] ≡ₚ zip (fmap (M:=list) sh_g <$> in_labels sh_e1 (shape <$> [sh_a; sh_b])) [0; 1] /\
  seen (cached_einsum sh_lib least no_keep (sh_run sh_first) 0 [] numpy (render sh_e1) [0; 1]) = Ok (2, ([2; 2], [22; 28; 49; 64])) /\
  seen (cached_einsum sh_lib least no_keep (sh_run (sh_first ++ sh_call2 :: [WDrop 2; WCollect])) 0 [] numpy (render sh_e2) [1; 0]) = Ok (2, ([2; 2], [22; 28; 49; 64])).
Proof.
  split; [apply refer_check; by vm_compute|]. split; [apply refer_check; by vm_compute|]. split; [apply NoDup_cons; split; [set_solver|apply NoDup_singleton]|].
  split; [vm_compute; apply perm_swap|]. split; by vm_compute.
Qed.
