(** The lines and words of the report. *)
From Coq Require Import QArith.
From Verif Require Import Prelude Einsum EinsumFacts EinsumOps Parser Helpers Contract Spec StringFacts SymbolFacts StepFacts ContractFacts TopFacts ReportSpec ResumeFacts Report ReportNumbers.

Lemma split1_cut c : forall n s t, length s <= n -> split [c] (s ++ c :: t) = split [c] s ++ split [c] t.
Proof.
  induction n as [|n IH]; intros s t Hn.
  - destruct s; [|simpl in Hn; lia]. by rewrite (split1_app c [] t (not_elem_of_nil c)).
  - destruct (decide (c ∈ s)) as [Hc|Hc]; [|by rewrite (split1_app c s t Hc), (split1_no c s Hc)].
    assert (Hx : exists s1 s2, s = s1 ++ c :: s2 /\ c ∉ s1).
    { clear -Hc. induction s as [|x s IH]; [by apply elem_of_nil in Hc|]. destruct (decide (x = c)) as [->|Hne]; [exists [], s; split; [done|apply not_elem_of_nil]|].
      apply elem_of_cons in Hc as [?|Hc]; [congruence|]. destruct (IH Hc) as (s1 & s2 & -> & H1). exists (x :: s1), s2. split; [done|]. apply not_elem_of_cons. split; [congruence|done]. }
    destruct Hx as (s1 & s2 & -> & H1). rewrite <-app_assoc. cbn [app]. rewrite (split1_app c s1 (s2 ++ c :: t) H1), (split1_app c s1 s2 H1). cbn [app]. f_equal. apply IH. rewrite app_length in Hn. simpl in Hn. lia.
Qed.
Lemma words_space s t : words (s ++ c_space :: t) = words s ++ words t.
Proof. unfold words. rewrite (split1_cut c_space (length s)) by done. apply filter_app. Qed.
Lemma words_nil : words [] = [].
Proof. done. Qed.
Lemma words_cons t : words (c_space :: t) = words t.
Proof. exact (words_space [] t). Qed.
Lemma words_one w : c_space ∉ w -> w <> [] -> words w = [w].
Proof. intros H1 H2. unfold words. rewrite split1_no by done. rewrite filter_cons_True by done. done. Qed.
Lemma words_spaces n s : words (replicate n c_space ++ s) = words s.
Proof. induction n as [|n IH]; [done|]. cbn [replicate app]. by rewrite words_cons, IH. Qed.
Lemma words_rjust n s : words (rjust n s) = words s.
Proof. apply words_spaces. Qed.

Lemma digits_free (c : N) l : Forall digit l -> ~ digit c -> c ∉ l.
Proof. intros H Hc Hin. rewrite Forall_forall in H. by apply Hc, H. Qed.
Lemma decimal_ne n : decimal n <> [].
Proof. pose proof (ndigits_pos n) as H. unfold ndigits in H. intros E. rewrite E in H. simpl in H. lia. Qed.
Lemma decimal_free (c : N) n : ~ digit c -> c ∉ decimal n.
Proof. intros H. apply (digits_free c); [apply decimal_digits|done]. Qed.

(** A string of labels and separators. *)
Definition free (c : N) (s : str) : Prop := c ∉ s.
Lemma equation_free c ts r : c <> c_comma -> c <> c_dash -> c <> c_gt -> Forall (Forall (.≠ c)) (r :: ts) -> c ∉ equation ts r.
Proof.
  intros H1 H2 H3 [Hr Hts]%Forall_cons. unfold equation. rewrite !elem_of_app. intros [H|[H|H]].
  - apply elem_of_join in H as [H|(t & Ht & H)]; [apply elem_of_list_singleton in H; congruence|]. rewrite Forall_forall in Hts. specialize (Hts t Ht). rewrite Forall_forall in Hts. by apply (Hts c H).
  - unfold s_arrow in H. apply elem_of_cons in H as [H|H]; [done|]. by apply elem_of_list_singleton in H.
  - rewrite Forall_forall in Hr. by apply (Hr c H).
Qed.
Lemma equation_ne ts r : equation ts r <> [].
Proof. unfold equation. destruct (join s_comma ts); done. Qed.

(** What a row needs. *)
Definition row_clean (c : N) (output : str) (x : contraction) : Prop := c ∉ c_eq x /\ c ∉ remaining_show output (c_remaining x).
Lemma row_words output x scale : row_clean c_space output x -> c_eq x <> [] -> words (row output x scale) = [decimal (N.of_nat scale); blas_show (c_blas x); c_eq x; remaining_show output (c_remaining x)].
Proof.
  intros [H1 H2] H3. unfold row. cbv zeta. set (w := 56 - _). clearbody w. cbn [lit]. change (lit " ") with [c_space]. change (lit "    ") with [c_space; c_space; c_space; c_space]. cbn [app].
  rewrite !words_space, !words_rjust. set (rest := rjust w _). rewrite !words_cons. unfold rest. rewrite words_rjust.
  rewrite (words_one (decimal _)); [|apply decimal_free; unfold digit, c_space; lia|apply decimal_ne]. rewrite (words_one (c_eq x)) by done.
  rewrite (words_one (remaining_show _ _)); [|done|destruct (c_remaining x) as [ts|]; [apply (equation_ne ts)|done]].
  destruct (c_blas x); by vm_compute.
Qed.
Lemma join_mjoin (l : list str) : join [] l = mjoin l.
Proof. induction l as [|x [|y l] IH]; [done|by cbn; rewrite app_nil_r|]. change (join [] (x :: y :: l)) with (x ++ join [] (y :: l)). by rewrite IH. Qed.
Lemma kind_shown k : kind_name k (blas_show k).
Proof. unfold kind_name. destruct k; apply (bool_decide_unpack _); by vm_compute. Qed.
Lemma row_length output x scale : length (decimal (N.of_nat scale)) <= 4 -> length (c_eq x) <= 22 -> length (remaining_show output (c_remaining x)) <= 34 -> length (row output x scale) = 80.
Proof.
  intros H1 H2 H3. unfold row, rjust. cbv zeta. rewrite !app_length, !replicate_length. change (length (lit " ")) with 1. change (length (lit "    ")) with 4.
  assert (Hb : length (blas_show (c_blas x)) <= 14) by (destruct (c_blas x); vm_compute; lia). lia.
Qed.
Lemma row_lines output x scale : row_clean 10%N output x -> 10%N ∉ row output x scale.
Proof.
  intros [H1 H2]. assert (Hj : forall n s, 10%N ∉ s -> 10%N ∉ rjust n s) by (intros n s Hs; unfold rjust; rewrite elem_of_app; intros [H|H]; [by apply elem_of_replicate in H as [? _]|done]).
  assert (Hs : forall n, 10%N ∉ replicate n c_space) by (intros n H; by apply elem_of_replicate in H as [? _]).
  unfold row. cbv zeta. set (w := 56 - _). clearbody w. rewrite !elem_of_app. intros [H|[H|[H|[H|[H|[H|H]]]]]].
  - revert H. apply Hj, decimal_free. unfold digit. lia.
  - by apply (Hs 1).
  - revert H. apply Hj. destruct (c_blas x); apply (bool_decide_unpack _); by vm_compute.
  - by apply (Hs 1).
  - revert H. by apply Hj.
  - by apply (Hs 4).
  - revert H. by apply Hj.
Qed.

Lemma reads_free s m x c : reads s m x -> ~ digit c -> c <> c_dot -> c <> 101%N -> c <> 43%N -> c <> 45%N -> c ∉ s.
Proof.
  intros (a & b & c1 & d & sg & ds & -> & Hd & _ & Hds & _ & Hsg) Hc H1 H2 H3 H4. change (lit "e") with [101%N]. cbn [app]. rewrite !elem_of_cons.
  apply Forall_cons in Hd as [Ha Hd]. apply Forall_cons in Hd as [Hb Hd]. apply Forall_cons in Hd as [Hc1 Hd]. apply Forall_cons in Hd as [Hd _].
  intros [H|[H|[H|[H|[H|[H|[H|H]]]]]]]; try (subst; done); [destruct Hsg as [[? _]|[? _]]; congruence|]. revert H. by apply digits_free.
Qed.
Lemma about_lines v r s : about v r s -> 10%N ∉ s.
Proof. intros (m & x & H & _). apply (reads_free s m x); [done|unfold digit, c_dot; lia..]. Qed.

Definition the_rows (output : str) (info : path_info) : list str := zip_with (row output) (pi_contractions info) (pi_scale_list info).
Lemma rows_ok output cl scales : length cl = length scales -> forall i all, all = take i all ++ scales -> i = length (take i all) ->
  mapM_res (fun nc : nat * contraction => scale ← of_opt IndexError (all !! nc.1); Ok (newline ++ row output nc.2 scale)) (zip (seq i (length cl)) cl) = Ok ((newline ++.) <$> zip_with (row output) cl scales).
Proof.
  revert scales. induction cl as [|c cl IH]; intros scales Hl i all Ha Hi; destruct scales as [|n scales]; try discriminate Hl; [done|].
  cbn [length seq zip zip_with mapM_res fst snd]. assert (E : all !! i = Some n) by (rewrite Ha; rewrite lookup_app_r by lia; replace (i - length (take i all)) with 0 by lia; done).
  rewrite E. cbn [of_opt mbind res_bind]. assert (Hi' : i < length all) by (by apply lookup_lt_Some in E).
  rewrite (IH scales ltac:(simpl in Hl; lia) (S i) all).
  - done.
  - rewrite (take_S_r _ _ _ E). rewrite <-app_assoc. exact Ha.
  - rewrite take_length. lia.
Qed.
Lemma repr_lines n output info : length (pi_contractions info) = length (pi_scale_list info) -> path_repr n output info = Ok (join newline (head_lines n info ++ the_rows output info)).
Proof.
  intros Hl. unfold path_repr. rewrite (rows_ok output (pi_contractions info) (pi_scale_list info) Hl 0 (pi_scale_list info)) by done. cbn [mbind res_bind]. f_equal.
  fold (the_rows output info). assert (Hne : head_lines n info <> []) by done. generalize (the_rows output info). generalize dependent (head_lines n info). clear.
  induction l as [|x l IH]; [done|]. intros _ rs. destruct l as [|y l].
  - cbn [app]. change (join newline [x]) with x. revert x. induction rs as [|r rs IHr]; intros x; [cbn; by rewrite app_nil_r|].
    rewrite fmap_cons. cbn [mjoin list_join]. change (join newline (x :: r :: rs)) with (x ++ newline ++ join newline (r :: rs)). rewrite <-(IHr r). by rewrite <-!app_assoc.
  - change (join newline (x :: y :: l)) with (x ++ newline ++ join newline (y :: l)). change (join newline ((x :: y :: l) ++ rs)) with (x ++ newline ++ join newline ((y :: l) ++ rs)).
    rewrite <-(IH ltac:(done) rs). by rewrite <-!app_assoc.
Qed.
