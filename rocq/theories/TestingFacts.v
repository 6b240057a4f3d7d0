(** Proofs about rand_equation. *)
From Verif Require Import Prelude Einsum EinsumFacts EinsumOps Helpers Parser Contract Spec PathSpec StringFacts SymbolFacts StepFacts ContractFacts PathFacts ParserFacts ParseSpec ParseProof ParseSound TopFacts ContractMain RenameFacts RefBackend Api ApiSpec InterleavedFacts NoOptFacts Testing TestingSpec SsaMore.

Lemma on_count inputs c : Forall NoDup inputs -> on inputs c = count c (List.concat inputs).
Proof.
  induction inputs as [|t inputs IH]; intros H; [done|]. apply Forall_cons in H as [Ht H]. unfold on in *. rewrite filter_cons. simpl. rewrite count_app, <-IH by done.
  assert (Hc : count c t <= 1) by (by apply count_NoDup). destruct (decide (c ∈ t)) as [Hi|Hi]; simpl.
  - apply count_pos in Hi. lia.
  - apply count_zero in Hi. lia.
Qed.
Lemma concat_alter (inputs : list str) w ix t : inputs !! w = Some t -> List.concat (alter (fun t => t ++ [ix]) w inputs) ≡ₚ ix :: List.concat inputs.
Proof.
  revert w. induction inputs as [|u inputs IH]; intros [|w] H; simplify_eq/=; [rewrite <-app_assoc; cbn [app]; by rewrite Permutation_middle|]. rewrite (IH w H). by rewrite Permutation_middle.
Qed.
Lemma elem_concat (inputs : list str) c : c ∈ List.concat inputs <-> exists t, t ∈ inputs /\ c ∈ t.
Proof.
  induction inputs as [|u inputs IH]; simpl; [split; [by intros ?%elem_of_nil|by intros (? & ?%elem_of_nil & _)]|]. rewrite elem_of_app, IH. setoid_rewrite elem_of_cons. naive_solver.
Qed.

Section Rand.
  Variable R : eq_draws.
  Variable n : nat.

  (** After the first [i] labels of [l] are placed. *)
  Definition placed (l : list N) (i : nat) (inputs : list str) : Prop :=
    length inputs = n /\ List.concat inputs ≡ₚ take i l /\ Forall NoDup inputs /\
    (forall j, i <= j < n -> inputs !! j = Some []) /\ (forall j t, j < i -> inputs !! j = Some t -> t <> []).
  Lemma placed_start l : placed l 0 (replicate n []).
  Proof.
    split; [apply replicate_length|]. split; [|split; [|split; [|intros; lia]]].
    - rewrite take_0. assert (H : List.concat (replicate n ([] : str)) = []) by (clear; induction n; [done|]; simpl; done). by rewrite H.
    - apply Forall_replicate. constructor.
    - intros j Hj. apply lookup_replicate. split; [done|lia].
  Qed.
  Lemma draw_where_ok fuel ix inputs k w k' : draw_where R fuel ix inputs k = Ok (w, k') -> exists t, inputs !! w = Some t /\ ix ∉ t.
  Proof.
    revert k. induction fuel as [|fuel IH]; intros k H; [done|]. simpl in H. apply bind_Ok in H as (t & Ht & H). destruct (inb ix t) eqn:E; [by eapply IH|]. apply Ok_inj in H as [= <- <-].
    unfold inb in E. apply bool_decide_eq_false in E. exists t. split; [|done]. by destruct (inputs !! ed_where R k); [apply Ok_inj in Ht as ->|].
  Qed.
  Lemma placed_at l i inputs ix w t : placed l i inputs -> l !! i = Some ix -> inputs !! w = Some t -> ix ∉ t -> (i < n -> w = i) -> placed l (S i) (alter (fun t => t ++ [ix]) w inputs).
  Proof.
    intros (H1 & H2 & H3 & H4 & H5) Hl Ht Hix Hw. split; [by rewrite alter_length|]. split; [|split; [|split]].
    - rewrite concat_alter by done. rewrite (take_S_r _ _ ix) by done. rewrite H2. apply Permutation_cons_append.
    - apply Forall_alter; [done|]. intros t' Ht' Hnd. simplify_eq. apply NoDup_app. split; [done|]. split; [|apply NoDup_singleton]. intros c Hc ->%elem_of_list_singleton. done.
    - intros j Hj. assert (w = i) as -> by (apply Hw; lia). rewrite list_lookup_alter_ne by lia. apply H4. lia.
    - intros j u Hj Hu. destruct (decide (j = w)) as [->|Hn].
      + rewrite list_lookup_alter, Ht in Hu. simpl in Hu. injection Hu as <-. by destruct t.
      + rewrite list_lookup_alter_ne in Hu by done. destruct (decide (j = i)) as [->|]; [|apply (H5 j); [lia|done]].
        destruct (decide (i < n)) as [Hin|Hin]; [by rewrite Hw in Hn|]. apply lookup_lt_Some in Hu. lia.
  Qed.
  Lemma place_ok fuel l i inputs k ix inputs' k' : placed l i inputs -> l !! i = Some ix -> place R fuel n (inputs, k) (i, ix) = Ok (inputs', k') -> placed l (S i) inputs'.
  Proof.
    intros Hp Hl H. unfold place in H. destruct (i <? n) eqn:E.
    - apply Nat.ltb_lt in E. apply Ok_inj in H as [= <- <-]. pose proof Hp as (_ & _ & _ & H4 & _). eapply placed_at; [done|done|apply H4; lia|apply not_elem_of_nil|done].
    - apply Nat.ltb_ge in E. destruct (n =? 0); [done|]. apply bind_Ok in H as ([w k1] & Hw & H). apply Ok_inj in H as [= <- <-]. apply draw_where_ok in Hw as (t & Ht & Hix).
      eapply placed_at; try done. lia.
  Qed.
  Lemma place_all fuel l : forall m i inputs k inputs' k', placed l i inputs -> length l = i + m ->
    foldM_res (place R fuel n) (inputs, k) (zip (seq i m) (drop i l)) = Ok (inputs', k') -> placed l (length l) inputs'.
  Proof.
    induction m as [|m IH]; intros i inputs k inputs' k' Hp Hm H.
    - simpl in H. apply Ok_inj in H as [= <- <-]. by rewrite Hm, Nat.add_0_r.
    - destruct (lookup_lt_is_Some_2 l i) as [ix Hix]; [lia|]. rewrite (drop_S _ ix) in H by done. cbn [seq zip zip_with foldM_res] in H. apply bind_Ok in H as ([in1 k1] & H1 & H).
      eapply (IH (S i)); [by eapply place_ok|lia|exact H].
  Qed.

  (** The loop ends if every position is drawn again and again. *)
  Definition fair : Prop := forall k w, w < n -> exists k', k <= k' /\ ed_where R k' = w.
  Lemma draw_more fuel fuel' ix inputs k r : fuel <= fuel' -> draw_where R fuel ix inputs k = Ok r -> draw_where R fuel' ix inputs k = Ok r.
  Proof.
    revert fuel' k. induction fuel as [|fuel IH]; intros fuel' k Hf H; [done|]. destruct fuel' as [|fuel']; [lia|]. simpl in *. apply bind_Ok in H as (t & -> & H). cbn [mbind res_bind].
    destruct (inb ix t); [|done]. apply IH; [lia|done].
  Qed.
  Lemma place_more fuel fuel' st x r : fuel <= fuel' -> place R fuel n st x = Ok r -> place R fuel' n st x = Ok r.
  Proof.
    intros Hf. unfold place. destruct st as [inputs k], x as [i ix]. destruct (i <? n); [done|]. destruct (n =? 0); [done|]. intros H. apply bind_Ok in H as ([w k1] & Hw & H).
    by rewrite (draw_more _ _ _ _ _ _ Hf Hw).
  Qed.
  Lemma places_more fuel fuel' l : fuel <= fuel' -> forall st r, foldM_res (place R fuel n) st l = Ok r -> foldM_res (place R fuel' n) st l = Ok r.
  Proof.
    intros Hf. induction l as [|x l IH]; intros st r H; [done|]. cbn [foldM_res] in *. apply bind_Ok in H as (st1 & H1 & H). rewrite (place_more _ _ _ _ _ Hf H1). by apply IH.
  Qed.
  Hypothesis where_in : forall k, ed_where R k < n.
  Lemma draw_ends ix inputs k w t : length inputs = n -> fair -> inputs !! w = Some t -> ix ∉ t -> exists fuel r, draw_where R fuel ix inputs k = Ok r.
  Proof.
    intros Hn Hfair Ht Hix. destruct (Hfair k w) as (k' & Hk & Hw); [rewrite <-Hn; by eapply lookup_lt_Some|]. exists (S (k' - k)).
    remember (k' - k) as m eqn:Em. revert k Hk Em. induction m as [|m IH]; intros k Hk Em.
    - assert (k' = k) as -> by lia. simpl. rewrite Hw, Ht. cbn [of_opt mbind res_bind]. unfold inb. rewrite bool_decide_eq_false_2 by done. eauto.
    - destruct (lookup_lt_is_Some_2 inputs (ed_where R k)) as [u Hu]; [rewrite Hn; apply where_in|]. change (exists r, (t ← of_opt IndexError (inputs !! ed_where R k); if inb ix t then draw_where R (S m) ix inputs (S k) else Ok (ed_where R k, S k)) = Ok r).
      rewrite Hu. cbn [of_opt mbind res_bind]. destruct (inb ix u); [|eauto]. apply IH; lia.
  Qed.
  (** At most one operand has a label that still has to be placed. *)
  Lemma room l i inputs ix : 2 <= n -> (forall c, count c l <= 2) -> placed l i inputs -> l !! i = Some ix -> exists w t, inputs !! w = Some t /\ ix ∉ t.
  Proof.
    intros Hn H2 (H1 & Hp & Hnd & _) Hix. specialize (H2 ix). rewrite <-(take_drop_middle l i ix) in H2 by done. rewrite count_app in H2. simpl in H2. rewrite decide_True in H2 by done.
    assert (Hc : count ix (List.concat inputs) <= 1) by (rewrite (count_perm _ _ _ Hp); lia).
    destruct inputs as [|t [|u inputs]]; simpl in H1; [lia|lia|]. simpl in Hc. rewrite !count_app in Hc.
    destruct (decide (ix ∈ t)) as [Ht|Ht]; [|by exists 0, t]. destruct (decide (ix ∈ u)) as [Hu|Hu]; [|by exists 1, u]. apply count_pos in Ht, Hu. lia.
  Qed.
  Lemma place_ends l : 2 <= n -> (forall c, count c l <= 2) -> fair -> forall m i inputs k, placed l i inputs -> length l = i + m ->
    exists fuel r, foldM_res (place R fuel n) (inputs, k) (zip (seq i m) (drop i l)) = Ok r.
  Proof.
    intros Hn H2 Hfair. induction m as [|m IH]; intros i inputs k Hp Hm; [exists 0; simpl; eauto|].
    destruct (lookup_lt_is_Some_2 l i) as [ix Hix]; [lia|]. rewrite (drop_S _ ix) by done. cbn [seq zip zip_with foldM_res].
    assert (Hone : exists fuel r, place R fuel n (inputs, k) (i, ix) = Ok r).
    { unfold place. destruct (i <? n); [exists 0; eauto|]. replace (n =? 0) with false by (symmetry; apply Nat.eqb_neq; lia). destruct (room l i inputs ix) as (w & t & Ht & Hix'); try done.
      destruct (draw_ends ix inputs k w t) as (fuel & [w' k'] & Hr); try done; [apply Hp|]. exists fuel. rewrite Hr. cbn [mbind res_bind]. eauto. }
    destruct Hone as (f1 & [in1 k1] & Hf1). destruct (IH (S i) in1 k1) as (f2 & r & Hf2); [by eapply place_ok|lia|]. exists (f1 `max` f2), r.
    rewrite (place_more f1 (f1 `max` f2) _ _ _ ltac:(lia) Hf1). cbn [mbind res_bind]. apply (places_more f2); [lia|done].
  Qed.
End Rand.

Lemma gen_split n_out (s : list N) : gen n_out s = take n_out s ++ (drop n_out s ≫= fun x => [x; x]).
Proof.
  revert s. assert (H0 : forall s : list N, List.concat (imap (fun i ix => [ix; ix]) s) = s ≫= fun x => [x; x]) by (induction s as [|x s IH]; [done|]; rewrite imap_cons, bind_cons, <-IH; done).
  induction n_out as [|m IH]; intros [|x s]; unfold gen in *.
  - done.
  - rewrite take_0, drop_0. cbn [app]. rewrite <-H0. done.
  - done.
  - rewrite imap_cons. cbn [Nat.ltb Nat.leb List.concat take drop app]. f_equal. rewrite <-IH. done.
Qed.
Lemma count_double (s : list N) c : count c (s ≫= fun x => [x; x]) = 2 * count c s.
Proof. induction s as [|x s IH]; [done|]. cbn [mbind list_bind app count]. rewrite IH. destruct (decide (x = c)); lia. Qed.
Lemma count_in (s : list N) c : NoDup s -> c ∈ s -> count c s = 1.
Proof. intros Hn Hc. assert (count c s <= 1) by (by apply count_NoDup). apply count_pos in Hc. lia. Qed.
Lemma elem_gen n_out (s : list N) c : c ∈ gen n_out s <-> c ∈ s.
Proof.
  rewrite gen_split, elem_of_app, elem_of_list_bind. assert (Hs : c ∈ s <-> c ∈ take n_out s \/ c ∈ drop n_out s) by (by rewrite <-elem_of_app, take_drop).
  assert (Hd : (exists y, c ∈ [y; y] /\ y ∈ drop n_out s) <-> c ∈ drop n_out s); [|tauto].
  split; [intros (y & Hy & ?); apply elem_of_cons in Hy as [->|Hy]; [done|]; apply elem_of_list_singleton in Hy as ->; done|intros Hc; exists c; split; [by left|done]].
Qed.
Lemma lookups_ok (d : sizes) (inputs : list str) (shapes : list (list nat)) :
  mapM_res (fun t => mapM_res (fun ix => of_opt KeyError (d !! ix)) t) inputs = Ok shapes -> shapes = (fun t : str => size_of d <$> t) <$> inputs.
Proof.
  rewrite mapM_res_Forall2. induction 1 as [|t sh inputs shapes Ht _ IH]; [done|]. rewrite fmap_cons. f_equal; [|done]. clear -Ht. rewrite mapM_res_Forall2 in Ht.
  induction Ht as [|c x t sh Hc _ IH]; [done|]. rewrite fmap_cons. f_equal; [|done]. unfold size_of. destruct (d !! c); [by apply Ok_inj in Hc as ->|done].
Qed.
Section Symbols.
  Variable m : nat.
  Definition syms : list N := (fun i => get_symbol (N.of_nat i)) <$> seq 0 m.
  Lemma syms_length : length syms = m.
  Proof. unfold syms. by rewrite fmap_length, seq_length. Qed.
  Lemma syms_NoDup : NoDup syms.
  Proof. unfold syms. apply NoDup_fmap_2_strong; [|apply NoDup_seq]. intros i j _ _ H%get_symbol_inj. lia. Qed.
  Lemma next_fresh : get_symbol (N.of_nat m) ∉ syms.
  Proof. unfold syms. intros (i & Hi & Hs)%elem_of_list_fmap. apply get_symbol_inj in Hi. apply elem_of_seq in Hs. lia. Qed.
  Lemma syms_size (f : nat -> nat) lo hi c : (forall i, lo <= f i <= hi) -> c ∈ syms -> exists x, (list_to_map (zip syms (f <$> seq 0 m)) : sizes) !! c = Some x /\ lo <= x <= hi.
  Proof.
    intros Hf Hc. apply elem_of_list_lookup in Hc as (i & Hi). pose proof Hi as Hi'. unfold syms in Hi'. rewrite list_lookup_fmap in Hi'. destruct (seq 0 m !! i) as [j|] eqn:Ej; [|done]. apply lookup_seq in Ej as [-> Hj].
    exists (f (0 + i)). split; [|done]. apply elem_of_list_to_map_1.
    - rewrite fst_zip; [apply syms_NoDup|]. rewrite fmap_length, seq_length, syms_length. done.
    - apply elem_of_list_lookup. exists i. rewrite lookup_zip_with, Hi. simpl. by rewrite list_lookup_fmap, lookup_seq_lt.
  Qed.
End Symbols.

Section Top.
  Variables (R : eq_draws) (n reg n_out : nat) (global : bool) (lo hi : nat).
  Hypothesis HR : draws_in R n lo hi.
  Let m := n * reg / 2 + n_out.
  Let bonds := n * reg / 2.
  Let gdim := get_symbol (N.of_nat m).
  Let glob := if global then [gdim] else [] : list N.
  Let outer := take n_out (syms m).
  Let inner := drop n_out (syms m).
  Lemma outer_inner : outer ++ inner = syms m.
  Proof. apply take_drop. Qed.
  Lemma placed_on l inputs : l ≡ₚ gen n_out (syms m) -> placed n l (length l) inputs ->
    (forall c, c ∈ outer -> on inputs c = 1) /\ (forall c, c ∈ inner -> on inputs c = 2) /\ (forall t c, t ∈ inputs -> c ∈ t -> c ∈ syms m).
  Proof.
    intros Hl (H1 & H2 & H3 & _). rewrite firstn_all in H2. assert (Hc : forall c, on inputs c = count c outer + 2 * count c inner).
    { intros c. rewrite on_count by done. rewrite (count_perm _ _ _ H2), (count_perm _ _ _ Hl), gen_split, count_app, count_double. done. }
    pose proof (syms_NoDup m) as Hnd. rewrite <-outer_inner in Hnd. apply NoDup_app in Hnd as (Hn1 & Hn2 & Hn3). split; [|split].
    - intros c Ho. rewrite Hc, (count_in outer) by done. assert (count c inner = 0) as -> by (apply count_zero; auto). done.
    - intros c Hi. rewrite Hc, (count_in inner) by done. assert (count c outer = 0) as -> by (apply count_zero; naive_solver). done.
    - intros t c Ht Hct. apply (elem_gen n_out). rewrite <-Hl, <-H2. apply elem_concat. eauto.
  Qed.
  Lemma on_app inputs c : on ((fun t => t ++ [gdim]) <$> inputs) c = if decide (c = gdim) then length inputs else on inputs c.
  Proof.
    unfold on. induction inputs as [|t inputs IH]; [by case_decide|]. rewrite fmap_cons, !filter_cons. destruct (decide (c = gdim)) as [->|Hn].
    - rewrite decide_True by (apply elem_of_app; right; by left). simpl. by rewrite IH.
    - destruct (decide (c ∈ t)) as [Hc|Hc].
      + rewrite decide_True by (apply elem_of_app; by left). simpl. by rewrite IH.
      + rewrite decide_False by (by intros [?|?%elem_of_list_singleton]%elem_of_app). done.
  Qed.
  Lemma rand_ok fuel eq shapes d : rand_equation R fuel n reg n_out global = Ok (eq, shapes, d) ->
    exists inputs out, eq = equation inputs out /\ shapes = (fun t : str => size_of d <$> t) <$> inputs /\ random_network n bonds n_out global lo hi inputs out (size_of d) /\
      out ≡ₚ outer ++ glob /\ (forall t c, t ∈ inputs -> c ∈ t -> c ∈ syms m ++ glob).
  Proof.
    unfold rand_equation. fold m. fold (syms m). intros H. apply bind_Ok in H as ([inputs k] & H1 & H). set (todo := ed_shuffle R (gen n_out (syms m))) in *.
    assert (Htodo : todo ≡ₚ gen n_out (syms m)) by apply HR. 
    assert (Hp : placed n todo (length todo) inputs) by (eapply (place_all R n fuel todo (length todo) 0); [apply placed_start|done|rewrite drop_0; exact H1]).
    destruct (placed_on todo inputs Htodo Hp) as (Ho & Hi & Hs). pose proof Hp as (Hn & Hperm & Hnd & _ & Hne).
    fold gdim outer in H. fold outer in H.
    set (tr := if global then _ else _) in H. assert (Htr : exists ins d', tr = (ins, outer ++ glob, d') /\ length ins = n /\ Forall NoDup ins /\
      (forall c, c ∈ outer -> on ins c = 1) /\ (forall c, c ∈ inner -> on ins c = 2) /\ (forall c, c ∈ glob -> on ins c = n) /\ (forall t c, t ∈ ins -> c ∈ t -> c ∈ syms m ++ glob) /\
      (forall c, c ∈ syms m ++ glob -> lo <= size_of d' c <= hi) /\ (n <= n_out + 2 * bonds -> Forall (fun t => t <> []) ins)).
    { assert (Hall : n <= n_out + 2 * bonds -> Forall (fun t => t <> []) inputs).
      { intros Hle. apply Forall_forall. intros t (j & Hj)%elem_of_list_lookup. apply (Hne j); [|done]. apply lookup_lt_Some in Hj.
        rewrite (Permutation_length Htodo), gen_split, app_length, take_length, syms_length. assert (Hdl : forall s : list N, length (s ≫= fun x => [x; x]) = 2 * length s) by (induction s as [|x s IHs]; [done|]; rewrite bind_cons, app_length, IHs; simpl; lia).
        rewrite Hdl, drop_length, syms_length. unfold m, bonds in *. lia. }
      unfold tr, glob. destruct global.
      - eexists _, _. split; [done|]. split; [by rewrite fmap_length|]. assert (Hg : forall t, t ∈ inputs -> gdim ∉ t) by (intros t Ht Hgt; apply (next_fresh m); by apply (Hs t)).
        split; [|split; [|split; [|split; [|split; [|split]]]]].
        + apply Forall_fmap, Forall_forall. intros t Ht. simpl. apply NoDup_app. rewrite Forall_forall in Hnd. split; [by apply Hnd|]. split; [|apply NoDup_singleton].
          intros c Hc ->%elem_of_list_singleton. by apply (Hg t).
        + intros c Hc. rewrite on_app, decide_False; [by apply Ho|]. intros ->. apply (next_fresh m). rewrite <-outer_inner. apply elem_of_app. by left.
        + intros c Hc. rewrite on_app, decide_False; [by apply Hi|]. intros ->. apply (next_fresh m). rewrite <-outer_inner. apply elem_of_app. by right.
        + intros c ->%elem_of_list_singleton. rewrite on_app, decide_True by done. done.
        + intros t c (u & -> & Hu)%elem_of_list_fmap Hc. apply elem_of_app in Hc as [Hc|Hc]; apply elem_of_app; [left; by apply (Hs u)|by right].
        + intros c Hc. unfold size_of. destruct (decide (c = gdim)) as [->|Hcg]; [rewrite lookup_insert; apply HR|]. rewrite lookup_insert_ne by done. apply elem_of_app in Hc as [Hc|Hc%elem_of_list_singleton]; [|done].
          destruct (syms_size m (ed_size R) lo hi c) as (x & -> & Hx); [apply HR|done|]. done.
        + intros _. apply Forall_fmap, Forall_forall. intros t Ht. simpl. by destruct t.
      - exists inputs. eexists. rewrite app_nil_r. split; [done|]. split; [done|]. split; [done|]. split; [done|]. split; [done|]. split; [by intros c ?%elem_of_nil|]. rewrite app_nil_r. split; [done|]. split; [|done].
        intros c Hc. unfold size_of. destruct (syms_size m (ed_size R) lo hi c) as (x & -> & Hx); [apply HR|done|]. done. }
    destruct Htr as (ins & d' & Etr & T1 & T2 & T3 & T4 & T5 & T6 & T7 & T8). rewrite Etr in H. clear Etr tr. apply bind_Ok in H as (shs & Hsh & H). apply Ok_inj in H as [= <- <- <-].
    exists ins, (ed_shuffle_out R (outer ++ glob)). split; [done|]. split; [by apply lookups_ok|]. split; [|split; [apply HR|done]]. split; try done.
    - exists outer, inner, glob. rewrite app_assoc, outer_inner. split.
      + apply NoDup_app. split; [apply syms_NoDup|]. unfold glob. destruct global; [|split; [by intros ? _ ?%elem_of_nil|constructor]]. split; [|apply NoDup_singleton]. intros c Hc ->%elem_of_list_singleton. by apply (next_fresh m).
      + split; [unfold outer; rewrite take_length, syms_length; unfold m; lia|]. split; [unfold inner; rewrite drop_length, syms_length; unfold m, bonds; lia|]. split; [unfold glob; by destruct global|].
        split; [apply HR|]. split; [done|]. split; [done|]. split; [done|]. intros t c Ht Hc. by apply (T6 t).
    - intros t c Ht Hc. by apply T7, (T6 t).
  Qed.

  Lemma rand_total : 2 <= n -> fair R n -> exists fuel r, rand_equation R fuel n reg n_out global = Ok r.
  Proof.
    intros Hn Hfair. set (todo := ed_shuffle R (gen n_out (syms m))). assert (Htodo : todo ≡ₚ gen n_out (syms m)) by apply HR.
    assert (H2 : forall c, count c todo <= 2).
    { intros c. rewrite (count_perm _ _ _ Htodo), gen_split, count_app, count_double. fold outer inner. pose proof (syms_NoDup m) as Hnd. rewrite <-outer_inner in Hnd.
      apply count_NoDup with (c := c) in Hnd. rewrite count_app in Hnd. lia. }
    destruct (place_ends R n (di_where _ _ _ _ HR) todo Hn H2 Hfair (length todo) 0 (replicate n []) 0) as (fuel & [inputs k] & Hr); [apply placed_start|done|].
    rewrite drop_0 in Hr. exists fuel. unfold rand_equation. fold m. fold (syms m). fold todo. rewrite Hr. cbn [mbind res_bind].
    assert (Hp : placed n todo (length todo) inputs) by (eapply (place_all R n fuel todo (length todo) 0); [apply placed_start|done|rewrite drop_0; exact Hr]).
    destruct (placed_on todo inputs Htodo Hp) as (_ & _ & Hs). fold gdim.
    assert (Hlook : forall (ins : list str) (d : sizes), (forall t c, t ∈ ins -> c ∈ t -> is_Some (d !! c)) -> exists shs, mapM_res (fun t => mapM_res (fun ix => of_opt KeyError (d !! ix)) t) ins = Ok shs).
    { intros ins d Hd. apply mapM_res_ok. intros t Ht. apply mapM_res_ok. intros c Hc. destruct (Hd t c Ht Hc) as [x ->]. by exists x. }
    assert (Hsym : forall c, c ∈ syms m -> is_Some ((list_to_map (zip (syms m) (ed_size R <$> seq 0 m)) : sizes) !! c)).
    { intros c Hc. destruct (syms_size m (ed_size R) lo hi c) as (x & -> & _); [apply HR|done|by eexists]. }
    destruct global.
    - destruct (Hlook ((fun t => t ++ [gdim]) <$> inputs) (<[gdim:=ed_gsize R]> (list_to_map (zip (syms m) (ed_size R <$> seq 0 m))))) as [shs Hshs].
      { intros t c (u & -> & Hu)%elem_of_list_fmap Hc. destruct (decide (c = gdim)) as [->|Hg]; [by rewrite lookup_insert|]. rewrite lookup_insert_ne by done.
        apply elem_of_app in Hc as [Hc|Hc%elem_of_list_singleton]; [|done]. apply Hsym. by apply (Hs u). }
      rewrite Hshs. by eexists.
    - destruct (Hlook inputs (list_to_map (zip (syms m) (ed_size R <$> seq 0 m)))) as [shs Hshs]; [|rewrite Hshs; by eexists].
      intros t c Ht Hc. apply Hsym. by apply (Hs t).
  Qed.
End Top.

(** ** build_shapes *)
Lemma replace_skip sep x new a b : x ∉ a -> replace (x :: sep) new (a ++ b) = a ++ replace (x :: sep) new b.
Proof.
  unfold replace, split. induction a as [|y a IH]; intros Ha; [done|]. apply not_elem_of_cons in Ha as [H1 H2]. simpl app. cbn [split_aux].
  replace (prefixb (x :: sep) (y :: a ++ b)) with false; [|simpl; by rewrite bool_decide_false]. rewrite <-IH by done.
  destruct (split_aux (x :: sep) 0 (a ++ b)) as [|h t] eqn:E; [by apply split_aux_ne in E|]. by destruct t.
Qed.
Lemma replace_here sep x new b : replace (x :: sep) new ((x :: sep) ++ b) = new ++ replace (x :: sep) new b.
Proof.
  unfold replace. change ((x :: sep) ++ b) with ([] ++ (x :: sep) ++ b). rewrite (split_app sep x [] b) by apply not_elem_of_nil. rewrite join_cons by apply split_aux_ne. done.
Qed.
Lemma replace_absent old new s : old <> [] -> sub_in old s = false -> replace old new s = s.
Proof.
  intros Ho H. unfold sub_in, count_sub in H. apply negb_false_iff, bool_decide_eq_true in H. pose proof (join_split old s Ho) as Hj. unfold replace.
  destruct (split old s) as [|y [|z l]] eqn:E; [by apply split_aux_ne in E|done|simpl in H; lia].
Qed.
(** A term with its ellipsis replaced. *)
Definition filled (new : str) (t : eterm) : str := t_pre t ++ match t_post t with None => [] | Some q => new ++ q end.
Lemma replace_term new t b : Forall plain (t_named t) -> replace s_dots new (render_term t ++ b) = filled new t ++ replace s_dots new b.
Proof.
  rewrite plain_named. intros [H1 H2]. unfold render_term, filled. assert (Hd : forall u b, Forall plain u -> replace s_dots new (u ++ b) = u ++ replace s_dots new b).
  { intros u b' Hu. apply replace_skip. eapply plain_not; [exact Hu|unplain]. }
  destruct (t_post t) as [q|]; [|rewrite !app_nil_r; by apply Hd]. rewrite <-!app_assoc, Hd by done. f_equal. unfold s_dots. rewrite replace_here. fold s_dots. f_equal. by apply Hd.
Qed.
Lemma replace_terms new l b : Forall (fun t => Forall plain (t_named t)) l -> replace s_dots new (join s_comma (render_term <$> l) ++ b) = join s_comma (filled new <$> l) ++ replace s_dots new b.
Proof.
  induction 1 as [|t l Ht Hl IH]; [done|]. destruct l as [|u l].
  - change (replace s_dots new (render_term t ++ b) = filled new t ++ replace s_dots new b). by apply replace_term.
  - rewrite !fmap_cons. rewrite (join_cons s_comma (render_term t)), (join_cons s_comma (filled new t)) by done. rewrite <-!app_assoc, replace_term by done. f_equal. etrans; [apply (replace_skip _ _ new s_comma); intros ?%elem_of_list_singleton; done|]. rewrite <-?app_assoc. f_equal. exact IH.
Qed.
Lemma hd_arrow a e_o : c_dash ∉ a -> hd [] (split s_arrow (a ++ match e_o with None => [] | Some o => s_arrow ++ o end)) = a.
Proof. intros Ha. destruct e_o as [o|]; [by rewrite split_arrow_app|by rewrite app_nil_r, split_arrow_no]. Qed.
Section Shapes.
  Variable e : eqn.
  Hypothesis Hpl : plain_eqn e.
  Hypothesis Hne : e_in e <> [].
  Lemma replace_render new : replace s_dots new (render e) = join s_comma (filled new <$> e_in e) ++ match filled new <$> e_out e with None => [] | Some o => s_arrow ++ o end.
  Proof.
    destruct Hpl as [Hi Ho]. unfold render. rewrite replace_terms by done. f_equal. destruct (e_out e) as [o|]; [|done]. change (filled new <$> Some o) with (Some (filled new o)). cbn iota.
    unfold s_dots. rewrite replace_skip by (apply (bool_decide_unpack _); by vm_compute). f_equal. fold s_dots. pose proof (replace_term new o [] Ho) as H. rewrite !app_nil_r in H. exact H.
  Qed.
  Lemma filled_plain new t : Forall plain new -> Forall plain (t_named t) -> Forall plain (filled new t).
  Proof. intros Hn. rewrite plain_named. intros [H1 H2]. unfold filled. apply Forall_app. split; [done|]. destruct (t_post t); [by apply Forall_app|done]. Qed.
  Lemma filled_terms new : Forall plain new -> Forall (Forall plain) (filled new <$> e_in e).
  Proof. intros Hn. destruct Hpl as [Hi _]. apply Forall_fmap. eapply Forall_impl; [exact Hi|]. intros t Ht. by apply filled_plain. Qed.
  Lemma split_filled new : Forall plain new -> split s_comma (hd [] (split s_arrow (replace s_dots new (render e)))) = filled new <$> e_in e.
  Proof.
    intros Hn. pose proof (filled_terms new Hn) as Hf. rewrite replace_render, hd_arrow by (by apply plain_join_dash). unfold s_comma. apply split1_join; [by intros ?%fmap_nil_inv|].
    eapply Forall_impl; [exact Hf|]. intros t Ht. eapply plain_not; [exact Ht|unplain].
  Qed.
  Lemma dots_absent : sub_in s_dots (render e) = false <-> no_ellipsis e.
  Proof.
    split.
    - intros H. pose proof (replace_absent s_dots [] (render e) ltac:(done) H) as Hr.
      assert (Hd : c_dot ∉ render e).
      { rewrite <-Hr, replace_render. intros Hc. apply elem_of_app in Hc as [Hc|Hc].
        - apply elem_of_join in Hc as [Hc%elem_of_list_singleton|(t & Ht & Hc)]; [done|]. pose proof (filled_terms [] ltac:(constructor)) as Hf. rewrite Forall_forall in Hf. specialize (Hf t Ht). by apply (plain_not t c_dot Hf); [unplain|].
        - destruct Hpl as [_ Ho]. destruct (e_out e) as [o|]; [|by apply elem_of_nil in Hc]. apply elem_of_app in Hc as [Hc|Hc]; [by vm_compute in Hc; inversion Hc as [|? ? ? Hc']; inversion Hc' as [|? ? ? Hc'']; inversion Hc''|].
          by apply (plain_not _ c_dot (filled_plain [] o ltac:(constructor) Ho)); [unplain|]. }
      assert (Ht : forall t q, t_post t = Some q -> c_dot ∈ render_term t) by (intros t q Hq; unfold render_term; rewrite Hq; apply elem_of_app; right; by left).
      unfold render in Hd. apply not_elem_of_app in Hd as [Hd1 Hd2]. split.
      + apply Forall_forall. intros t Hi. destruct (t_post t) as [q|] eqn:Eq; [|done]. destruct Hd1. apply (elem_of_join_2 _ _ _ (render_term t)); [by apply elem_of_list_fmap_1|by eapply Ht].
      + destruct (e_out e) as [o|]; [|done]. destruct (t_post o) as [q|] eqn:Eq; [|done]. destruct Hd2. apply elem_of_app. right. by eapply Ht.
    - intros [H1 H2]. unfold sub_in, count_sub. apply negb_false_iff, bool_decide_eq_true. unfold s_dots. rewrite split_none; [done|]. destruct Hpl as [Hi Ho]. unfold render.
      assert (Ht : forall t, t_post t = None -> Forall plain (t_named t) -> c_dot ∉ render_term t).
      { intros t Hq Hp. rewrite plain_render by done. rewrite plain_named in Hp. eapply plain_not; [apply Hp|unplain]. }
      rewrite Forall_forall in H1, Hi. intros [Hc|Hc]%elem_of_app.
      + apply elem_of_join in Hc as [Hc%elem_of_list_singleton|(t & Hti & Hc)]; [done|]. apply elem_of_list_fmap in Hti as (t' & -> & Hti). apply (Ht t'); auto.
      + destruct (e_out e) as [o|]; [|by apply elem_of_nil in Hc]. apply elem_of_app in Hc as [Hc|Hc]; [|by apply (Ht o)]. vm_compute in Hc. inversion Hc as [|? ? ? Hc']; inversion Hc' as [|? ? ? Hc'']; inversion Hc''.
  Qed.
  (** The characters that stand for the axes of an ellipsis. *)
  Definition dots_chars : str := take 3 no_collision_chars.
  Lemma dots_plain : Forall plain dots_chars.
  Proof. repeat constructor; discriminate. Qed.
  Lemma build_shapes_ok dims r : no_ellipsis e \/ r = true -> build_shapes (render e) dims r =
    mapM_res (fun t => mapM_res (fun x => of_opt KeyError (default default_dim_dict dims !! x)) t) (filled dots_chars <$> e_in e).
  Proof.
    intros Hr. unfold build_shapes. fold dots_chars. pose proof dots_absent as Hd. pose proof (split_filled dots_chars dots_plain) as Hs. destruct (sub_in s_dots (render e)) eqn:E.
    - destruct r; cbn [mbind res_bind]; [by rewrite Hs|]. destruct Hr as [H|H]; [|done]. by apply Hd in H.
    - cbn [mbind res_bind]. rewrite (replace_absent s_dots dots_chars (render e)) in Hs by done. by rewrite Hs.
  Qed.
  Lemma build_shapes_dots dims : ~ no_ellipsis e -> build_shapes (render e) dims false = Err ValueError.
  Proof. intros Hr. unfold build_shapes. pose proof dots_absent as Hd. destruct (sub_in s_dots (render e)) eqn:E; [done|]. destruct Hr. by apply Hd. Qed.
End Shapes.
Lemma filled_expand t : filled dots_chars t = name dots_chars <$> expand 3 t.
Proof. rewrite name_expand by (vm_compute; lia). done. Qed.
(** Operands whose axes have the dimension of their label. *)
Section Sized.
  Context {K : semiring} {L : Type} `{EqDecision L}.
  Variable f : L -> nat.
  Lemma sized_axes (ts : list (list L)) (ops : list (tensor K)) l x : shape <$> ops = (fun t : list L => f <$> t) <$> ts -> (l, x) ∈ axes_of (zip ts ops) -> x = f l.
  Proof.
    intros Hs. unfold axes_of. rewrite elem_of_list_bind. intros ([t o] & Hx & Hto). simpl in Hx. apply elem_of_list_lookup in Hto as (i & Hi). apply lookup_zip_with_Some in Hi as (t' & o' & [= <- <-] & Ht & Ho).
    assert (Hsh : shape o = f <$> t) by (pose proof (f_equal (.!! i) Hs) as H; rewrite !list_lookup_fmap, Ht, Ho in H; simpl in H; congruence). rewrite Hsh in Hx. clear -Hx.
    induction t as [|a t IH]; [by apply elem_of_nil in Hx|]. rewrite fmap_cons in Hx. simpl in Hx. apply elem_of_cons in Hx as [[= -> ->]|Hx]; auto.
  Qed.
  Lemma sized_good (ts : list (list L)) (ops : list (tensor K)) : shape <$> ops = (fun t : list L => f <$> t) <$> ts -> good (zip ts ops).
  Proof.
    intros Hs. assert (Hsh : forall t o, (t, o) ∈ zip ts ops -> shape o = f <$> t).
    { intros t o (i & Hi)%elem_of_list_lookup. apply lookup_zip_with_Some in Hi as (t' & o' & [= <- <-] & Ht & Ho). pose proof (f_equal (.!! i) Hs) as H. rewrite !list_lookup_fmap, Ht, Ho in H. simpl in H. congruence. }
    split.
    - apply Forall_forall. intros [t o] Ho. simpl. by rewrite (Hsh t o Ho), fmap_length.
    - intros l d d' H1 H2. left. by rewrite (sized_axes ts ops l d), (sized_axes ts ops l d').
    - intros [t o] i j c d d' Hp Hi Hj Hdi Hdj. simpl in *. rewrite (Hsh t o Hp), list_lookup_fmap in Hdi, Hdj. rewrite Hi in Hdi. rewrite Hj in Hdj. simpl in *. congruence.
    - intros l H1 H2. apply (sized_axes ts ops l _ Hs) in H1, H2. congruence.
  Qed.
End Sized.
