(** The torch tensordot is tensordot. *)
From Verif Require Import Prelude Einsum EinsumFacts EinsumOps Parser Contract Spec StringFacts SymbolFacts StepFacts ContractFacts Torch TorchSpec.

Lemma py_pos_names n i a : names_axis n i a -> py_pos n i = Some a.
Proof.
  intros [Ha [->| ->]]; unfold py_pos.
  - rewrite decide_True by lia. f_equal. lia.
  - rewrite decide_False by lia. rewrite decide_True by lia. f_equal. lia.
Qed.
Lemma torch_axes_meant nx ny axes axl axr : meant_axes nx ny axes axl axr ->
  Forall2 (names_axis nx) (torch_axes nx axes).1 axl /\ Forall2 (names_axis ny) (torch_axes nx axes).2 axr.
Proof.
  destruct axes as [n|a b]; simpl.
  - intros (k & -> & Hx & Hy & -> & ->). unfold py_range. replace (Z.of_nat nx - (Z.of_nat nx - Z.of_nat k))%Z with (Z.of_nat k) by lia.
    rewrite Z.sub_0_r, Nat2Z.id. split.
    + rewrite <- (Nat.add_0_r (nx - k)), <- fmap_add_seq. apply Forall2_fmap. apply Forall_Forall2_diag, Forall_forall. intros j Hj%elem_of_seq. split; [lia|]. left. lia.
    + apply Forall2_fmap_l, Forall_Forall2_diag, Forall_forall. intros j Hj%elem_of_seq. split; [lia|]. left. lia.
  - intros [Ha Hb]. split; [clear Hb; destruct a|clear Ha; destruct b]; simpl in *; try done; destruct Ha || destruct Hb; naive_solver.
Qed.

Lemma omap_insert_none (l : list (option N)) a c : l !! a = Some None -> omap id (<[a := Some c]> l) ≡ₚ c :: omap id l.
Proof.
  revert a. induction l as [|o l IH]; intros [|a] H; try done; simpl in *.
  - injection H as ->. done.
  - destruct o as [c'|]; simpl; rewrite IH by done; [apply Permutation_swap|done].
Qed.
Lemma fill_repeated_ok zl zr axl axr avail (x_ix y_ix : list (option N)) :
  Forall2 (names_axis (length x_ix)) zl axl -> Forall2 (names_axis (length y_ix)) zr axr -> length axl = length axr ->
  NoDup axl -> NoDup axr -> (forall a, a ∈ axl -> x_ix !! a = Some None) -> (forall a, a ∈ axr -> y_ix !! a = Some None) -> length axl <= length avail ->
  exists x' y', fill_repeated (zip zl zr) avail x_ix y_ix = Ok (drop (length axl) avail, x', y') /\
    length x' = length x_ix /\ length y' = length y_ix /\
    Forall2 (fun c a => x' !! a = Some (Some c)) (take (length axl) avail) axl /\
    Forall2 (fun c a => y' !! a = Some (Some c)) (take (length axl) avail) axr /\
    (forall a, a ∉ axl -> x' !! a = x_ix !! a) /\ (forall a, a ∉ axr -> y' !! a = y_ix !! a) /\
    omap id x' ≡ₚ take (length axl) avail ++ omap id x_ix /\ omap id y' ≡ₚ take (length axl) avail ++ omap id y_ix.
Proof.
  revert zr axl axr avail x_ix y_ix. induction zl as [|i zl IH]; intros zr axl axr avail x_ix y_ix Hl Hr Hlen Hndl Hndr Hnx Hny Hav.
  { inversion Hl; subst. destruct axr; [|done]. inversion Hr; subst. exists x_ix, y_ix. simpl. split_and!; try done; constructor. }
  inversion Hl as [|? a ? axl' Ha Hl']; subst. destruct axr as [|b axr']; [done|]. inversion Hr as [|j ? zr' ? Hb Hr']; subst.
  destruct avail as [|c avail]; [simpl in Hav; lia|]. apply NoDup_cons in Hndl as [Hna Hndl]. apply NoDup_cons in Hndr as [Hnb Hndr].
  cbn [zip_with fill_repeated]. unfold set_item. rewrite (py_pos_names _ _ _ Ha), (py_pos_names _ _ _ Hb). cbn [mbind res_bind].
  destruct (IH zr' axl' axr' avail (<[a := Some c]> x_ix) (<[b := Some c]> y_ix)) as (x' & y' & E & Hx & Hy & Fx & Fy & Nx & Ny & Px & Py).
  { by rewrite insert_length. } { by rewrite insert_length. } { simpl in Hlen. lia. } { done. } { done. }
  { intros k Hk. rewrite list_lookup_insert_ne by (intros ->; done). apply Hnx. by right. }
  { intros k Hk. rewrite list_lookup_insert_ne by (intros ->; done). apply Hny. by right. }
  { simpl in Hav. lia. }
  rewrite insert_length in Hx, Hy.
  exists x', y'. cbn [length drop take]. split_and!; [done..| | | | | |].
  - constructor; [|done]. rewrite Nx by done. apply list_lookup_insert. apply Ha.
  - constructor; [|done]. rewrite Ny by done. apply list_lookup_insert. apply Hb.
  - intros k [Hk1 Hk2]%not_elem_of_cons. rewrite Nx by done. by rewrite list_lookup_insert_ne.
  - intros k [Hk1 Hk2]%not_elem_of_cons. rewrite Ny by done. by rewrite list_lookup_insert_ne.
  - rewrite Px, omap_insert_none by (apply Hnx; left). rewrite <- Permutation_middle; done.
  - rewrite Py, omap_insert_none by (apply Hny; left). rewrite <- Permutation_middle; done.
Qed.
Lemma fill_repeated_stop zl zr axl axr avail (x_ix y_ix : list (option N)) :
  Forall2 (names_axis (length x_ix)) zl axl -> Forall2 (names_axis (length y_ix)) zr axr -> length axl = length axr ->
  length avail < length axl -> fill_repeated (zip zl zr) avail x_ix y_ix = Err StopIteration.
Proof.
  revert zr axl axr avail x_ix y_ix. induction zl as [|i zl IH]; intros zr axl axr avail x_ix y_ix Hl Hr Hlen Hav.
  { inversion Hl; subst. by apply Nat.nlt_0_r in Hav. }
  inversion Hl as [|? a ? axl' Ha Hl']; subst. destruct axr as [|b axr']; [done|]. inversion Hr as [|j ? zr' ? Hb Hr']; subst.
  destruct avail as [|c avail]; [done|].
  cbn [zip_with fill_repeated]. unfold set_item. rewrite (py_pos_names _ _ _ Ha), (py_pos_names _ _ _ Hb). cbn [mbind res_bind].
  apply (IH zr' axl' axr'); rewrite ?insert_length; try done; simpl in *; lia.
Qed.
Definition gaps (ix : list (option N)) : nat := length (filter (fun o => o = None) ix).
Lemma fill_rest_ok ix avail : gaps ix <= length avail ->
  exists t, fill_rest ix avail = Ok (drop (gaps ix) avail, t, take (gaps ix) avail) /\ length t = length ix /\
    (forall a c, ix !! a = Some (Some c) -> t !! a = Some c) /\ t ≡ₚ omap id ix ++ take (gaps ix) avail /\
    (forall kl : str, (forall c, c ∈ omap id ix -> c ∈ kl) -> (forall c, c ∈ avail -> c ∉ kl) -> take (gaps ix) avail = filter (fun c => c ∉ kl) t).
Proof.
  revert avail. induction ix as [|[c|] ix IH]; intros avail Hg.
  - exists []. done.
  - destruct (IH avail) as (t & E & Hlen & Hs & Hp & Hf); [exact Hg|]. exists (c :: t). change (gaps (Some c :: ix)) with (gaps ix).
    cbn [fill_rest]. rewrite E. cbn [mbind res_bind]. split_and!; [done|simpl; lia| | |].
    + intros [|a] c' H; [by injection H as ->|by apply Hs].
    + cbn [omap list_omap id]. simpl. by rewrite Hp.
    + intros kl Hk Hd. rewrite filter_cons_False; [|intros Hn; apply Hn, Hk; left]. apply Hf; [|done]. intros d Hd'. apply Hk. by right.
  - change (gaps (None :: ix)) with (S (gaps ix)) in *. destruct avail as [|c avail]; [simpl in Hg; lia|].
    destruct (IH avail) as (t & E & Hlen & Hs & Hp & Hf); [simpl in Hg; lia|]. exists (c :: t).
    cbn [fill_rest]. rewrite E. cbn [mbind res_bind]. split_and!; [done|simpl; lia| | |].
    + intros [|a] c' H; [done|by apply Hs].
    + cbn [take]. simpl. rewrite Hp. apply Permutation_middle.
    + intros kl Hk Hd. cbn [take]. rewrite filter_cons_True by (apply Hd; left). f_equal. apply Hf; [done|]. intros d Hd'. apply Hd. by right.
Qed.
Lemma gaps_omap ix : gaps ix + length (omap id ix) = length ix.
Proof.
  induction ix as [|[c|] ix IH]; [done| |].
  - change (gaps (Some c :: ix)) with (gaps ix). change (omap id (Some c :: ix)) with (c :: omap id ix). cbn [length]. lia.
  - change (gaps (None :: ix)) with (S (gaps ix)). change (omap id (None :: ix)) with (omap id ix). cbn [length]. lia.
Qed.
Lemma omap_none n : omap id (replicate n (None : option N)) = [].
Proof. by induction n. Qed.
Lemma fill_rest_stop ix avail : length avail < gaps ix -> fill_rest ix avail = Err StopIteration.
Proof.
  revert avail. induction ix as [|[c|] ix IH]; intros avail Hg; [by apply Nat.nlt_0_r in Hg| |].
  - change (gaps (Some c :: ix)) with (gaps ix) in Hg. cbn [fill_rest]. by rewrite IH.
  - change (gaps (None :: ix)) with (S (gaps ix)) in Hg. cbn [fill_rest]. destruct avail as [|c avail]; [done|]. rewrite IH; [done|]. simpl in Hg. lia.
Qed.

Section Torch.
  Context {K : semiring}.
  Notation tens := (tensor K).
  Variable B : backend K.
  Hypothesis B_ok : backend_ok B.
  Hypothesis B_einsum : b_has_einsum B = true.

  Lemma torch_tensordot_ok (x y : tens) axes axl axr :
    meant_axes (length (shape x)) (length (shape y)) axes axl axr -> dottable x y axl axr ->
    length (shape x) + length (shape y) - length axl <= 52 ->
    exists T, torch_tensordot (b_einsum B) x y axes = Ok T /\ T ≡ₜ tensordot x y axl axr.
  Proof.
    intros Hm (Hndl & Hndr & Hlen & Hdim) H52. set (nx := length (shape x)) in *. set (ny := length (shape y)) in *. set (m := length axl) in *.
    pose proof (torch_axes_meant _ _ _ _ _ Hm) as [Hzl Hzr]. unfold torch_tensordot. fold nx ny. destruct (torch_axes nx axes) as [zl zr]. cbn [fst snd] in *.
    assert (Hal : Forall (fun a => a < nx) axl). { clear -Hzl. induction Hzl as [|i a zl axl [Ha _] _ IH]; by constructor. }
    assert (Har : Forall (fun a => a < ny) axr). { clear -Hzr. induction Hzr as [|i a zl axl [Ha _] _ IH]; by constructor. }
    assert (Hmx : m <= nx). { unfold m. rewrite <- (seq_length nx 0). apply submseteq_length, NoDup_submseteq; [done|]. intros a Ha. rewrite Forall_forall in Hal. apply elem_of_seq. specialize (Hal a Ha). lia. }
    assert (Hmy : m <= ny). { rewrite Hlen, <- (seq_length ny 0). apply submseteq_length, NoDup_submseteq; [done|]. intros a Ha. rewrite Forall_forall in Har. apply elem_of_seq. specialize (Har a Ha). lia. }
    set (S := torch_symbols_base). assert (HS : length S = 52) by done. assert (HSnd : NoDup S) by apply base_NoDup.
    rewrite Forall_forall in Hal, Har.
    destruct (fill_repeated_ok zl zr axl axr S (replicate nx None) (replicate ny None)) as (x' & y' & E & Hx & Hy & Fx & Fy & Nx & Ny & Px & Py); try done.
    { by rewrite replicate_length. } { by rewrite replicate_length. }
    { intros a Ha. apply lookup_replicate. split; [done|by apply Hal]. } { intros a Ha. apply lookup_replicate. split; [done|by apply Har]. }
    { fold m. lia. }
    fold m in E, Fx, Fy, Px, Py. rewrite E. cbn [mbind res_bind]. rewrite omap_none, app_nil_r in Px, Py. rewrite replicate_length in Hx, Hy.
    set (kl := take m S) in *. assert (Hkl : length kl = m) by (unfold kl; rewrite take_length; lia).
    pose proof (gaps_omap x') as Gx. rewrite Px, Hkl, Hx in Gx. pose proof (gaps_omap y') as Gy. rewrite Py, Hkl, Hy in Gy.
    destruct (fill_rest_ok x' (drop m S)) as (tx & Ex & Htx & Sx & Ptx & Ftx); [rewrite drop_length; lia|]. rewrite Ex. cbn [mbind res_bind].
    destruct (fill_rest_ok y' (drop (gaps x') (drop m S))) as (ty & Ey & Hty & Sy & Pty & Fty); [rewrite !drop_length; lia|]. rewrite Ey. cbn [mbind res_bind].
    rewrite !drop_drop in *. set (gx := take (gaps x') (drop m S)) in *. set (gy := take (gaps y') (drop (m + gaps x') S)) in *.
    assert (HSsplit : kl ++ gx ++ gy ++ drop (m + gaps x' + gaps y') S = S).
    { unfold kl, gx, gy. rewrite <- (drop_drop S (gaps y') (m + gaps x')), take_drop, <- drop_drop, take_drop. apply take_drop. }
    rewrite <- HSsplit in HSnd. apply NoDup_app in HSnd as (Hndk & Hdk & Hnd1). apply NoDup_app in Hnd1 as (Hndx & Hdx & Hnd2). apply NoDup_app in Hnd2 as (Hndy & Hdy & _).
    assert (Hdrop : forall c, c ∈ drop m S -> c ∉ kl).
    { intros c Hc Hk. apply (Hdk c Hk). rewrite <- (take_drop (gaps x') (drop m S)) in Hc. fold gx in Hc. rewrite drop_drop in Hc.
      rewrite <- (take_drop (gaps y') (drop (m + gaps x') S)) in Hc. fold gy in Hc. by rewrite drop_drop in Hc. }
    assert (Hndtx : NoDup tx). { rewrite Ptx, Px. apply NoDup_app. split_and!; [done| |done]. intros c Hk Hg. apply (Hdk c Hk), elem_of_app. by left. }
    assert (Hndty : NoDup ty). { rewrite Pty, Py. apply NoDup_app. split_and!; [done| |done]. intros c Hk Hg. apply (Hdk c Hk). rewrite !elem_of_app. auto. }
    assert (Hshared : forall c, c ∈ tx -> c ∈ ty -> c ∈ kl).
    { intros c. rewrite Ptx, Pty, Px, Py, !elem_of_app. intros [H1|H1] [H2|H2]; try done. exfalso. apply (Hdx c H1), elem_of_app. by left. }
    assert (Ffx : gx = filter (fun c => c ∉ kl) tx) by (apply Ftx; [intros c; by rewrite Px|done]).
    assert (Ffy : gy = filter (fun c => c ∉ kl) ty).
    { apply Fty; [intros c; by rewrite Py|]. intros c Hc. apply Hdrop. rewrite <- drop_drop in Hc. by apply elem_of_list_lookup in Hc as [i Hi]; rewrite lookup_drop in Hi; eapply elem_of_list_lookup_2. }
    assert (Hlab : forall c, c ∈ tx \/ c ∈ ty -> c ∈ S).
    { intros c. rewrite <- HSsplit. rewrite Ptx, Pty, Px, Py, !elem_of_app. tauto. }
    change (tx ++ s_comma ++ ty ++ s_arrow ++ gx ++ gy) with (tx ++ s_comma ++ (ty ++ s_arrow ++ gx ++ gy)).
    assert (Heq : tx ++ s_comma ++ ty ++ s_arrow ++ gx ++ gy = equation [tx; ty] (gx ++ gy)).
    { unfold equation. rewrite join_cons by done. change (join s_comma [ty]) with ty. by rewrite <- !app_assoc. }
    rewrite Heq. unfold torch_einsum.
    pose proof (tensordot_einsum tx ty kl axl axr x y gx gy) as Htd.
    assert (Hteq : tensordot x y axl axr ≡ₜ einsum [(tx, x); (ty, y)] (gx ++ gy)).
    { apply Htd; try done; [by rewrite Htx|by rewrite Hty| |].
      - eapply Forall2_impl; [exact Fx|]. intros c a. apply Sx.
      - eapply Forall2_impl; [exact Fy|]. intros c a. apply Sy. }
    destruct (convert_einsum_ok B B_ok [tx; ty] (gx ++ gy) [x; y]) as (T & HT & HTeq); try done.
    - repeat constructor; apply Forall_forall; intros c Hc; apply letters_plain, Hlab; auto.
    - apply NoDup_app. split_and!; [done| |done]. intros c H1 H2. apply (Hdx c H1), elem_of_app. by left.
    - intros c [H|H]%elem_of_app; apply elem_of_labels; [exists (tx, x)|exists (ty, y)]; (split; [repeat constructor|]); cbn [fst]; [rewrite Ptx|rewrite Pty]; apply elem_of_app; by right.
    - repeat constructor; cbn; [by rewrite Htx|by rewrite Hty].
    - assert (Hcross : forall l i j d d', tx !! i = Some l -> shape x !! i = Some d -> ty !! j = Some l -> shape y !! j = Some d' -> d = d').
      { intros l i j d d' Hi Hd Hj Hd'. assert (Hk : l ∈ kl) by (apply Hshared; by eapply elem_of_list_lookup_2). apply elem_of_list_lookup in Hk as [q Hq].
        destruct (Forall2_lookup_l _ _ _ q l Fx Hq) as (a & Ha & Hxa). destruct (Forall2_lookup_l _ _ _ q l Fy Hq) as (b & Hb & Hyb).
        assert (a = i) as -> by (eapply (NoDup_lookup tx); [done|by apply Sx|done]). assert (b = j) as -> by (eapply (NoDup_lookup ty); [done|by apply Sy|done]).
        apply (f_equal (fun l => l !! q)) in Hdim. rewrite !list_lookup_fmap, Ha, Hb in Hdim. injection Hdim as Hdim. unfold nth0 in Hdim. by rewrite Hd, Hd' in Hdim. }
      intros l d d' (p & i & Hp & Hi & Hd)%elem_of_axes (q & j & Hq & Hj & Hd')%elem_of_axes. left.
      apply elem_of_cons in Hp as [->|Hp%elem_of_list_singleton]; apply elem_of_cons in Hq as [->|Hq%elem_of_list_singleton]; subst; cbn [fst snd] in *.
      + assert (i = j) as -> by (by eapply (NoDup_lookup tx)). congruence.
      + by eapply Hcross.
      + symmetry. by eapply Hcross.
      + assert (i = j) as -> by (by eapply (NoDup_lookup ty)). congruence.
    - intros p i j c d d' Hp Hi Hj Hd Hd'. apply elem_of_cons in Hp as [->|Hp%elem_of_list_singleton]; subst; cbn [fst snd] in *.
      + assert (i = j) as -> by (by eapply (NoDup_lookup tx)). congruence.
      + assert (i = j) as -> by (by eapply (NoDup_lookup ty)). congruence.
    - rewrite <- HS, <- (size_list_to_set (C := gset N) S) by apply base_NoDup. apply subseteq_size. intros c. rewrite !elem_of_list_to_set. intros (p & Hp & Hc)%elem_of_labels. apply Hlab.
      apply elem_of_cons in Hp as [->|Hp%elem_of_list_singleton]; subst; auto.
    - exists T. split; [done|]. rewrite HTeq. by symmetry.
  Qed.
  (** More than 52 axes in all: the symbols run out. *)
  Lemma torch_tensordot_stop (x y : tens) axes axl axr :
    meant_axes (length (shape x)) (length (shape y)) axes axl axr -> dottable x y axl axr ->
    52 < length (shape x) + length (shape y) - length axl -> torch_tensordot (b_einsum B) x y axes = Err StopIteration.
  Proof.
    clear B_ok B_einsum.
    intros Hm (Hndl & Hndr & Hlen & Hdim) H52. set (nx := length (shape x)) in *. set (ny := length (shape y)) in *. set (m := length axl) in *.
    pose proof (torch_axes_meant _ _ _ _ _ Hm) as [Hzl Hzr]. unfold torch_tensordot. fold nx ny. destruct (torch_axes nx axes) as [zl zr]. cbn [fst snd] in *.
    assert (Hal : Forall (fun a => a < nx) axl). { clear -Hzl. induction Hzl as [|i a zl axl [Ha _] _ IH]; by constructor. }
    assert (Har : Forall (fun a => a < ny) axr). { clear -Hzr. induction Hzr as [|i a zl axl [Ha _] _ IH]; by constructor. }
    set (S := torch_symbols_base). assert (HS : length S = 52) by done. rewrite Forall_forall in Hal, Har.
    destruct (decide (m <= 52)) as [Hm52|Hm52].
    - destruct (fill_repeated_ok zl zr axl axr S (replicate nx None) (replicate ny None)) as (x' & y' & E & Hx & Hy & Fx & Fy & Nx & Ny & Px & Py); try done.
      { by rewrite replicate_length. } { by rewrite replicate_length. }
      { intros a Ha. apply lookup_replicate. split; [done|by apply Hal]. } { intros a Ha. apply lookup_replicate. split; [done|by apply Har]. }
      fold m in E, Fx, Fy, Px, Py. rewrite E. cbn [mbind res_bind]. rewrite omap_none, app_nil_r in Px, Py. rewrite replicate_length in Hx, Hy.
      set (kl := take m S) in *. assert (Hkl : length kl = m) by (unfold kl; rewrite take_length; lia).
      pose proof (gaps_omap x') as Gx. rewrite Px, Hkl, Hx in Gx. pose proof (gaps_omap y') as Gy. rewrite Py, Hkl, Hy in Gy.
      destruct (decide (gaps x' <= 52 - m)) as [Hgx|Hgx].
      + destruct (fill_rest_ok x' (drop m S)) as (tx & Ex & _); [rewrite drop_length; lia|]. rewrite Ex. cbn [mbind res_bind].
        rewrite fill_rest_stop; [done|]. rewrite !drop_length. lia.
      + rewrite fill_rest_stop; [done|]. rewrite drop_length. lia.
    - rewrite (fill_repeated_stop zl zr axl axr); [done|..]; try done; [by rewrite replicate_length|by rewrite replicate_length|]. fold m. lia.
  Qed.
End Torch.
