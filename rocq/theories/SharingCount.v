(** Model of sharing.py 84-88, [count_cached_ops], and what the operations add to a cache. *)
From Verif Require Import Prelude Einsum Parser Helpers Contract Spec ParseSpec ParseProof PathSpec TopFacts ApiSpec ContractMain Sharing SharingSpec.

(** sharing.py 97, 126, 150, 180, 202, 213: the first component of a key. *)
Definition kind (k : key) : str :=
  match k with
  | KTensor _ => lit "tensor" | KTranspose _ _ _ => lit "transpose" | KTensordot _ _ _ _ _ => lit "tensordot"
  | KEinsum _ _ _ => lit "einsum" | KConvert name _ => name
  end.
(** collections.Counter of a sequence; sharing.py 88. *)
Definition counter (l : list str) : gmap str nat := foldl (fun m s => <[s := S (default 0 (m !! s))]> m) ∅ l.
Definition count_cached_ops (m : cache) : gmap str nat := counter (kind <$> (map_to_list m).*1).

(** The count of a kind; what is missing in a Counter counts as zero. *)
Definition count_of (m : cache) (s : str) : nat := default 0 (count_cached_ops m !! s).

Lemma counter_app l k : counter (l ++ [k]) = <[k := S (default 0 (counter l !! k))]> (counter l).
Proof. unfold counter. by rewrite foldl_app. Qed.
Lemma counter_lookup l s : counter l !! s = match length (filter (.= s) l) with 0 => None | S n => Some (S n) end.
Proof.
  induction l as [|k l IH] using rev_ind; [done|]. rewrite counter_app, filter_app, app_length. destruct (decide (k = s)) as [->|Hne].
  - rewrite lookup_insert, IH, filter_cons_True, filter_nil by done. cbn [length]. rewrite Nat.add_1_r. by destruct (length _).
  - rewrite lookup_insert_ne, IH, filter_cons_False, filter_nil by done. cbn [length]. by rewrite Nat.add_0_r.
Qed.
Lemma count_of_size (m : cache) s : count_of m s = size (filter (fun p : key * nat => kind p.1 = s) m).
Proof.
  unfold count_of, count_cached_ops. rewrite counter_lookup. etrans; [instantiate (1 := length (filter (.= s) (kind <$> (map_to_list m).*1))); by destruct (length _)|].
  induction m as [|k v m Hk IH] using map_ind; [by rewrite map_to_list_empty, map_filter_empty, map_size_empty|].
  rewrite (Permutation_length (l' := filter (.= s) (kind k :: (kind <$> (map_to_list m).*1)))).
  - destruct (decide (kind k = s)) as [E|E].
    + rewrite filter_cons_True by done. rewrite map_filter_insert_True by done. rewrite map_size_insert_None by (apply map_filter_lookup_None; by left). cbn [length]. by rewrite IH.
    + rewrite filter_cons_False by done. rewrite map_filter_insert_False by done. rewrite delete_notin by done. done.
  - by rewrite (map_to_list_insert m k v Hk).
Qed.
Lemma count_insert (m : cache) k v s : count_of (<[k := v]> m) s = count_of m s + (if decide (kind k = s /\ m !! k = None) then 1 else 0).
Proof.
  rewrite !count_of_size. destruct (decide (kind k = s)) as [E|E].
  - rewrite map_filter_insert_True by done. destruct (m !! k) as [v'|] eqn:Ek.
    + rewrite decide_False by naive_solver. rewrite map_size_insert_Some; [lia|]. exists v'. apply map_filter_lookup_Some. done.
    + rewrite decide_True by done. rewrite map_size_insert_None; [lia|]. apply map_filter_lookup_None. by left.
  - rewrite map_filter_insert_False by done. rewrite decide_False by naive_solver. rewrite Nat.add_0_r. f_equal.
    apply map_eq. intros k'. apply option_eq. intros x. rewrite !map_filter_lookup_Some. destruct (decide (k = k')) as [<-|Hk]; [rewrite lookup_delete; naive_solver|by rewrite lookup_delete_ne].
Qed.

Section Count.
  Context {K : semiring}.
  Notation tens := (tensor K).
  Variable ord : gset N -> list N.
  Variable lib : str -> backend K.
  Variable alloc : nat -> gset nat -> nat.
  Variable keep : nat -> nat -> bool.
  Variable conv : str -> tens -> res tens.
  Implicit Types w : world K.

  Definition counts w (c : nat) (s : str) : nat := count_of (get_cache w c) s.
  Definition s_tensor : str := lit "tensor".
  Lemma save_other w c ids c' : c' <> c -> w_caches (save_tensors w c ids) !! c' = w_caches w !! c'.
  Proof. intros H. cbn. by rewrite lookup_insert_ne. Qed.
  Lemma get_save w c ids : get_cache (save_tensors w c ids) c = foldl (fun m i => <[KTensor i := i]> m) (get_cache w c) ids.
  Proof. unfold get_cache at 1. cbn. by rewrite lookup_insert. Qed.
  Lemma save_counts w c ids s : s <> s_tensor -> counts (save_tensors w c ids) c s = counts w c s.
  Proof.
    intros Hs. unfold counts. rewrite get_save. generalize (get_cache w c). induction ids as [|i ids IH]; intros m; [done|]. cbn [foldl]. rewrite IH, count_insert, decide_False; [lia|]. intros [E _]. by apply Hs.
  Qed.
  Lemma save_tensor_counts w c ids : counts w c s_tensor <= counts (save_tensors w c ids) c s_tensor <= counts w c s_tensor + length ids.
  Proof.
    unfold counts. rewrite get_save. generalize (get_cache w c). induction ids as [|i ids IH]; intros m; [cbn; lia|]. cbn [foldl length]. specialize (IH (<[KTensor i := i]> m)). rewrite count_insert in IH. case_decide; lia.
  Qed.
  Lemma save_lookup w c ids k : (forall i, k <> KTensor i) -> get_cache (save_tensors w c ids) c !! k = get_cache w c !! k.
  Proof.
    intros Hk. rewrite get_save. generalize (get_cache w c). induction ids as [|i ids IH]; intros m; [done|]. cbn [foldl]. rewrite IH. apply lookup_insert_ne. intros E. by apply (Hk i).
  Qed.

  (** From [w] to [w'] only cache [c] grew: [t] operands at most were saved, and what was computed, if anything, is an operation of kind [s] with result [o]. *)
  Record one_op w w' (c : nat) (s : str) (t : nat) (fn : list tens -> res tens) (o : res nat) : Prop := OneOp {
    oo_other : forall c', c' <> c -> w_caches w' !! c' = w_caches w !! c';
    oo_stacks : w_stacks w' = w_stacks w;
    oo_kinds : forall s', s' <> s -> s' <> s_tensor -> counts w' c s' = counts w c s';
    oo_tensor : s <> s_tensor -> counts w c s_tensor <= counts w' c s_tensor <= counts w c s_tensor + t;
    oo_calls : counts w' c s = counts w c s /\ w_heap w' ⊆ w_heap w \/
      counts w' c s = S (counts w c s) /\ exists r T vals, o = Ok r /\ fn vals = Ok T /\ w_heap w' !! r = Some T }.

  Lemma collect_sub w roots : w_heap (collect keep w roots) ⊆ w_heap w.
  Proof. apply map_filter_subseteq. Qed.
  Lemma collect_cache w roots c : get_cache (collect keep w roots) c = get_cache w c.
  Proof. done. Qed.
  Lemma memoize_core w c k fn args w' o : memoize alloc w c k fn args = (w', o) -> one_op w w' c (kind k) 0 fn o.
  Proof.
    unfold memoize. destruct (get_cache w c !! k) as [r|] eqn:Er; [intros [= <- <-]; constructor; try done; [lia|by left]|].
    unfold plain_call, lift. destruct (vals ← values _ args; fn vals) as [T|x] eqn:Ef; cbn; [|intros [= <- <-]; constructor; try done; [lia|by left]].
    intros [= <- <-]. set (r := alloc _ _). set (w1 := World _ _ _ _ _). assert (Eg : get_cache w1 c = get_cache w c) by done.
    assert (Ec : forall s, counts (set_cache w1 c (<[k := r]> (get_cache w1 c))) c s = counts w c s + (if decide (kind k = s) then 1 else 0)).
    { intros s. unfold counts. unfold get_cache at 1. cbn [w_caches set_cache]. rewrite lookup_insert. cbn [default from_option]. rewrite Eg. change (id ?x) with x. rewrite count_insert, Er.
      destruct (decide (kind k = s)) as [E|E]; [by rewrite decide_True|by rewrite decide_False by naive_solver]. }
    constructor.
    - intros c' Hc. cbn. by rewrite lookup_insert_ne.
    - done.
    - intros s' H1 H2. rewrite Ec, decide_False by done. lia.
    - intros H1. rewrite Ec, decide_False by done. lia.
    - right. rewrite Ec, decide_True by done. split; [lia|]. apply bind_Ok in Ef as (vals & _ & Ef). exists r, T, vals. split; [done|]. split; [done|]. cbn. by rewrite lookup_insert.
  Qed.
  Lemma one_op_saved w w' c saved s fn o : s <> s_tensor -> one_op (save_tensors w c saved) w' c s 0 fn o -> one_op w w' c s (length saved) fn o.
  Proof.
    intros Hs [H1 H2 H3 H4 H5]. constructor.
    - intros c' Hc. rewrite H1 by done. by apply save_other.
    - done.
    - intros s' Ha Hb. rewrite H3 by done. by apply save_counts.
    - intros _. specialize (H4 Hs). pose proof (save_tensor_counts w c saved). lia.
    - rewrite !save_counts in H5 by done. done.
  Qed.
  Lemma one_op_collect w roots w' c s t fn o : one_op (collect keep w roots) w' c s t fn o -> one_op w w' c s t fn o.
  Proof. intros [H1 H2 H3 H4 H5]. constructor; try done. destruct H5 as [[Ha Hb]|H5]; [left|by right]. split; [done|]. etrans; [exact Hb|]. apply collect_sub. Qed.
  (** Nothing happened. *)
  Lemma one_op_none w w' c s t fn o : w_caches w' = w_caches w -> w_stacks w' = w_stacks w -> w_heap w' ⊆ w_heap w -> one_op w w' c s t fn o.
  Proof. intros H1 H2 H3. assert (E : forall s, counts w' c s = counts w c s) by (intros s'; unfold counts, get_cache; by rewrite H1). constructor; [by rewrite H1|done|done|rewrite E; lia|left; by rewrite E]. Qed.

  (** The library function of an operation on arrays. *)
  Definition op_call (a : action K) : list tens -> res tens :=
    match a with
    | WTranspose _ b _ axes => fun vals => match vals with [x] => b_transpose (lib b) x axes | _ => Err TypeError end
    | WTensordot _ b _ _ axl axr => fun vals => match vals with [x; y] => b_tensordot (lib b) x y axl axr | _ => Err TypeError end
    | WEinsum _ b s _ => run_einsum (lib b) s
    | WConvert _ name _ => fun vals => match vals with [x] => conv name x | _ => Err TypeError end
    | _ => fun _ => Err TypeError
    end.
  (** Its name in a cache. *)
  Definition op_kind (a : action K) : option str :=
    match a with
    | WTranspose _ _ _ _ => Some (lit "transpose") | WTensordot _ _ _ _ _ _ => Some (lit "tensordot") | WEinsum _ _ _ _ => Some (lit "einsum") | WConvert _ name _ => Some name
    | _ => None
    end.
  Lemma sharing_inner w tid c : innermost w tid c -> exists l, w_stacks w !! tid = Some (c :: l).
  Proof. unfold innermost. destruct (w_stacks w !! tid) as [[|c' l]|]; cbn; [done| |done]. intros [= ->]. eauto. Qed.
  Lemma s_neq s : s = lit "transpose" \/ s = lit "tensordot" \/ s = lit "einsum" -> s <> s_tensor.
  Proof. by intros [->|[->| ->]]. Qed.
  Lemma transpose_one w tid roots b i axes c w' o : innermost w tid c -> cached_transpose lib alloc keep w tid roots b i axes = (w', o) ->
    one_op w w' c (lit "transpose") 1 (op_call (WTranspose tid b i axes)) o.
  Proof.
    intros Hi. destruct (sharing_inner w tid c Hi) as [l Hl]. unfold cached_transpose, currently_sharing. cbn [collect w_stacks]. rewrite bool_decide_true by (by rewrite Hl). cbn [negb].
    unfold get_sharing_cache. cbn [collect w_stacks]. rewrite Hl. cbn [sbind]. intros H. apply (one_op_collect w (i :: roots)). apply (one_op_saved _ _ _ [i]); [done|]. by apply memoize_core in H.
  Qed.
  Lemma tensordot_one w tid roots b i j axl axr c w' o : innermost w tid c -> cached_tensordot lib alloc keep w tid roots b i j axl axr = (w', o) ->
    one_op w w' c (lit "tensordot") 2 (op_call (WTensordot tid b i j axl axr)) o.
  Proof.
    intros Hi. destruct (sharing_inner w tid c Hi) as [l Hl]. unfold cached_tensordot, currently_sharing. cbn [collect w_stacks]. rewrite bool_decide_true by (by rewrite Hl). cbn [negb].
    unfold get_sharing_cache. cbn [collect w_stacks]. rewrite Hl. cbn [sbind]. intros H. apply (one_op_collect w (i :: j :: roots)). apply (one_op_saved _ _ _ [i; j]); [done|]. by apply memoize_core in H.
  Qed.
  Lemma einsum_one w tid roots b s ids c w' o : innermost w tid c -> cached_einsum lib alloc keep w tid roots b s ids = (w', o) ->
    one_op w w' c (lit "einsum") (length ids) (op_call (WEinsum tid b s ids)) o.
  Proof.
    intros Hi. destruct (sharing_inner w tid c Hi) as [l Hl]. unfold cached_einsum, currently_sharing. cbn [collect w_stacks]. rewrite bool_decide_true by (by rewrite Hl). cbn [negb]. unfold lift.
    destruct (vals ← values _ ids; call_key b s ids (shape <$> vals)) as [k|x] eqn:Ek.
    - unfold get_sharing_cache. cbn [collect w_stacks]. rewrite Hl. cbn [sbind]. intros H. apply (one_op_collect w (ids ++ roots)). apply (one_op_saved _ _ _ ids); [done|].
      apply bind_Ok in Ek as (vals & _ & Ek). unfold call_key in Ek. apply bind_Ok in Ek as ([inp out] & _ & Ek). apply Ok_inj in Ek as <-. by apply memoize_core in H.
    - intros [= <- <-]. apply one_op_none; [done|done|]. apply collect_sub.
  Qed.
  Lemma convert_one w tid roots name i c w' o : innermost w tid c -> cached_convert alloc keep conv w tid roots name i = (w', o) ->
    one_op w w' c name 0 (op_call (WConvert tid name i)) o.
  Proof.
    intros Hi. destruct (sharing_inner w tid c Hi) as [l Hl]. unfold cached_convert, currently_sharing. cbn [collect w_stacks]. rewrite bool_decide_true by (by rewrite Hl). cbn [negb].
    unfold get_sharing_cache. cbn [collect w_stacks]. rewrite Hl. cbn [sbind]. intros H. apply (one_op_collect w (i :: roots)). by apply memoize_core in H.
  Qed.

  (** ** A whole contraction *)
  Definition calls w c : nat := counts w c (lit "einsum") + counts w c (lit "tensordot").
  Definition is_call (s : str) : Prop := s = lit "einsum" \/ s = lit "tensordot" \/ s = lit "transpose" \/ s = s_tensor.
  Record ops_upto w w' (c n : nat) : Prop := OpsUpto {
    ou_other : forall c', c' <> c -> w_caches w' !! c' = w_caches w !! c';
    ou_stacks : w_stacks w' = w_stacks w;
    ou_kinds : forall s, ~ is_call s -> counts w' c s = counts w c s;
    ou_grow : forall s, counts w c s <= counts w' c s;
    ou_calls : calls w' c <= calls w c + n;
    ou_turns : counts w' c (lit "transpose") <= counts w c (lit "transpose") + n }.
  Lemma upto_refl w c : ops_upto w w c 0.
  Proof. constructor; try done; lia. Qed.
  Lemma upto_trans w1 w2 w3 c n m : ops_upto w1 w2 c n -> ops_upto w2 w3 c m -> ops_upto w1 w3 c (n + m).
  Proof.
    intros [A1 A2 A3 A4 A5 A6] [B1 B2 B3 B4 B5 B6]. constructor; [|congruence| | |lia|lia].
    - intros c' Hc. rewrite B1 by done. by apply A1.
    - intros s Hs. rewrite B3 by done. by apply A3.
    - intros s. specialize (A4 s). specialize (B4 s). lia.
  Qed.
  Lemma one_grow w w' c s t fn o : one_op w w' c s t fn o -> forall s', counts w c s' <= counts w' c s'.
  Proof.
    intros [H1 H2 H3 H4 H5] s'. destruct (decide (s' = s)) as [->|Hne]; [destruct H5 as [[E _]|[E _]]; lia|]. destruct (decide (s' = s_tensor)) as [->|Ht]; [destruct (H4 (not_eq_sym Hne)); lia|]. by rewrite H3.
  Qed.
  Lemma one_le w w' c s t fn o : one_op w w' c s t fn o -> counts w' c s <= S (counts w c s).
  Proof. intros [H1 H2 H3 H4 [[E _]|[E _]]]; lia. Qed.
  Lemma step_upto w tid b ops k c w' o : innermost w tid c -> sh_step ord lib alloc keep w tid b ops k = (w', o) -> ops_upto w w' c 1.
  Proof.
    intros Hi H. unfold sh_step, lift in H. destruct (pops (c_inds k) ops) as [[tmp rest]|x]; [|injection H as <- <-; eapply (upto_trans w w w c 0 1 (upto_refl w c)); constructor; try done; lia].
    assert (H0 : ops_upto w w c 1) by (constructor; try done; lia).
    destruct (use_tensordot (lib b) (c_blas k)).
    - destruct (split_arrow (c_eq k)) as [[is ri]|x]; [|by injection H as <- <-]. destruct (split s_comma is) as [|l [|r [|? ?]]]; try by injection H as <- <-.
      destruct tmp as [|x [|y [|? ?]]]; try by injection H as <- <-. destruct (td_axes ord l r (c_rm k)) as [axes|x']; [|by injection H as <- <-].
      destruct (cached_tensordot lib alloc keep w tid ([x; y] ++ rest) b x y axes.*1 axes.*2) as [w1 [v|x']] eqn:E1; cbn [sbind] in H.
      + pose proof (tensordot_one _ _ _ _ _ _ _ _ _ _ _ Hi E1) as G1.
        assert (Hi1 : innermost w1 tid c) by (unfold innermost; by rewrite (oo_stacks _ _ _ _ _ _ _ G1)).
        pose proof (one_grow _ _ _ _ _ _ _ G1) as Gg. pose proof (one_le _ _ _ _ _ _ _ G1) as Gl. destruct G1 as [A1 A2 A3 A4 A5].
        assert (U1 : ops_upto w w1 c 1).
        { constructor; try done; [|unfold calls; rewrite (A3 (lit "einsum")) by done; lia|rewrite (A3 (lit "transpose")) by done; lia]. intros s Hs. apply A3; intros ->; apply Hs; unfold is_call; tauto. }
        case_decide; [by injection H as <- <-|]. destruct (mapM_res _ ri) as [perm|x']; [|by injection H as <- <-].
        destruct (cached_transpose lib alloc keep w1 tid (v :: [x; y] ++ rest) b v perm) as [w2 o2] eqn:E2.
        pose proof (transpose_one _ _ _ _ _ _ _ _ _ Hi1 E2) as G2. assert (w' = w2) as -> by (destruct o2; by injection H).
        pose proof (one_grow _ _ _ _ _ _ _ G2) as Hg. pose proof (one_le _ _ _ _ _ _ _ G2) as Hl. destruct G2 as [B1 B2 B3 B4 B5]. constructor.
        * intros c' Hc. rewrite B1 by done. by apply A1.
        * congruence.
        * intros s Hs. rewrite B3; [by apply U1| |]; intros ->; apply Hs; unfold is_call; tauto.
        * intros s. specialize (Hg s). specialize (Gg s). lia.
        * unfold calls. rewrite !B3 by done. apply U1.
        * etrans; [exact Hl|]. rewrite (A3 (lit "transpose")) by done. lia.
      + injection H as <- <-. pose proof (tensordot_one _ _ _ _ _ _ _ _ _ _ _ Hi E1) as G1. pose proof (one_grow _ _ _ _ _ _ _ G1) as Gg. pose proof (one_le _ _ _ _ _ _ _ G1) as Gl. destruct G1 as [A1 A2 A3 A4 A5].
        constructor; try done; [|unfold calls; rewrite (A3 (lit "einsum")) by done; lia|rewrite (A3 (lit "transpose")) by done; lia]. intros s Hs. apply A3; intros ->; apply Hs; unfold is_call; tauto.
    - destruct (cached_einsum lib alloc keep w tid (tmp ++ rest) b (c_eq k) tmp) as [w1 o1] eqn:E1. assert (w' = w1) as -> by (destruct o1; by injection H).
      pose proof (einsum_one _ _ _ _ _ _ _ _ _ Hi E1) as G1. pose proof (one_grow _ _ _ _ _ _ _ G1) as Gg. pose proof (one_le _ _ _ _ _ _ _ G1) as Gl. destruct G1 as [A1 A2 A3 A4 A5].
      constructor; try done; [|unfold calls; rewrite (A3 (lit "tensordot")) by done; lia|rewrite (A3 (lit "transpose")) by done; lia]. intros s Hs. apply A3; intros ->; apply Hs; unfold is_call; tauto.
  Qed.
  Lemma loop_upto w tid b ops cl c w' o : innermost w tid c -> sh_loop ord lib alloc keep w tid b ops cl = (w', o) -> ops_upto w w' c (length cl).
  Proof.
    revert w ops. induction cl as [|k cl IH]; intros w ops Hi H; [injection H as <- <-; apply upto_refl|]. cbn [sh_loop] in H.
    destruct (sh_step ord lib alloc keep w tid b ops k) as [w1 o1] eqn:E1. pose proof (step_upto _ _ _ _ _ _ _ _ Hi E1) as U1. destruct o1 as [ops1|x]; cbn [sbind] in H.
    - assert (Hi1 : innermost w1 tid c) by (unfold innermost; by rewrite (ou_stacks _ _ _ _ U1)). exact (upto_trans _ _ _ _ _ _ U1 (IH w1 ops1 Hi1 H)).
    - injection H as <- <-. destruct U1 as [A1 A2 A3 A4 A5 A6]. constructor; try done; cbn [length]; lia.
  Qed.
End Count.
