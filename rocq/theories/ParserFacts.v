(** Facts about the parser: string primitives, fresh symbols. *)
From Verif Require Import Prelude Parser Spec StringFacts SymbolFacts StepFacts.

(** Splitting and joining, any separator. *)
Lemma join_split_aux sep k s : sep <> [] -> k <= length s -> join sep (split_aux sep k s) = drop k s.
Proof.
  intros Hsep. revert k. induction s as [|c s IH]; intros k Hk; simpl.
  - simpl in Hk. assert (k = 0) as -> by lia. done.
  - destruct k as [|k]; [|simpl in Hk; rewrite IH by lia; done].
    destruct (prefixb sep (c :: s)) eqn:E.
    + apply prefixb_true in E as [r E]. destruct sep as [|x sep]; [done|]. simpl in E. injection E as -> Er.
      rewrite join_cons by apply split_aux_ne. simpl.
      rewrite IH; [|rewrite Er, app_length; lia]. rewrite Er, Nat.sub_0_r, drop_app. done.
    + specialize (IH 0 ltac:(lia)). destruct (split_aux sep 0 s) as [|h t] eqn:E2; [by apply split_aux_ne in E2|].
      rewrite drop_0 in IH. simpl. rewrite <-IH. destruct t; [done|]. unfold join; done.
Qed.
Lemma join_split sep s : sep <> [] -> join sep (split sep s) = s.
Proof. intros. unfold split. rewrite join_split_aux by (done || lia). by rewrite drop_0. Qed.

(** A separator whose first character does not occur in [a]. *)
Lemma split_app_first x sep a b : x ∉ a -> split (x :: sep) (a ++ (x :: sep) ++ b) = a :: split_aux (x :: sep) (length sep) (sep ++ b).
Proof.
  unfold split. induction a as [|y a IH]; intros Ha.
  - simpl app. cbn [split_aux]. rewrite (prefixb_app (x :: sep) b : prefixb (x :: sep) (x :: sep ++ b) = true).
    by replace (length (x :: sep) - 1) with (length sep) by (simpl; lia).
  - apply not_elem_of_cons in Ha as [H1 H2]. simpl app. cbn [split_aux].
    replace (prefixb (x :: sep) (y :: a ++ x :: sep ++ b)) with false; [|simpl; by rewrite bool_decide_false].
    change (a ++ x :: sep ++ b) with (a ++ (x :: sep) ++ b). by rewrite IH.
Qed.
Lemma split_aux_skip sep k a b : k = length a -> split_aux sep k (a ++ b) = split_aux sep 0 b.
Proof. intros ->. induction a as [|x a IH]; [done|]. simpl. apply IH. Qed.
Lemma split_app sep x a b : x ∉ a -> split (x :: sep) (a ++ (x :: sep) ++ b) = a :: split (x :: sep) b.
Proof. intros. rewrite split_app_first by done. by rewrite split_aux_skip. Qed.
Lemma split_none sep x s : x ∉ s -> split (x :: sep) s = [s].
Proof.
  unfold split. induction s as [|y s IH]; intros Hs; [done|]. apply not_elem_of_cons in Hs as [H1 H2]. cbn [split_aux].
  replace (prefixb (x :: sep) (y :: s)) with false; [|simpl; by rewrite bool_decide_false]. by rewrite IH.
Qed.

Lemma replace1 c s : replace [c] [] s = filter (.≠ c) s.
Proof.
  unfold replace. rewrite join_nil_bind. unfold split. induction s as [|x s IH]; [done|].
  cbn [split_aux prefixb]. case_bool_decide as E; simpl.
  - subst x. rewrite filter_cons_False by naive_solver. by rewrite <-IH.
  - rewrite filter_cons_True by done. destruct (split_aux [c] 0 s) as [|h t] eqn:E2; [by apply split_aux_ne in E2|].
    simpl in *. by rewrite <-IH.
Qed.
Lemma replace_none sep x new s : x ∉ s -> replace (x :: sep) new s = s.
Proof. intros. unfold replace. by rewrite split_none. Qed.
Lemma replace_one sep x new a b : x ∉ a -> x ∉ b -> replace (x :: sep) new (a ++ (x :: sep) ++ b) = a ++ new ++ b.
Proof. intros. unfold replace. rewrite split_app by done. rewrite split_none by done. done. Qed.

(** C07 *)
Lemma gen_unused_loop_ok fuel used i n rem :
  (forall j, (i <= j)%N -> get_symbol j ∈ used -> get_symbol j ∈ rem) -> length rem + n <= fuel ->
  exists l, gen_unused_loop fuel used i n = Some l /\ length l = n /\ NoDup l /\
    (forall c, c ∈ l -> c ∉ used /\ exists j, (i <= j)%N /\ c = get_symbol j).
Proof.
  revert i n rem. induction fuel as [|fuel IH]; intros i n rem Hrem Hf.
  - assert (n = 0) as -> by lia. exists []. repeat split; [constructor|by apply elem_of_nil in H|by apply elem_of_nil in H].
  - destruct n as [|n]; [exists []; repeat split; [constructor|by apply elem_of_nil in H|by apply elem_of_nil in H]|].
    cbn [gen_unused_loop]. destruct (inb (get_symbol i) used) eqn:E.
    + apply inb_true in E. destruct (IH (i + 1)%N (S n) (filter (.≠ get_symbol i) rem)) as (l & H1 & H2 & H3 & H4).
      * intros j Hj Hu. apply elem_of_list_filter. split; [|apply Hrem; [lia|done]]. intros Heq%get_symbol_inj. lia.
      * assert (length (filter (.≠ get_symbol i) rem) < length rem); [|lia].
        apply filter_length_lt with (get_symbol i); [|naive_solver]. apply Hrem; [lia|done].
      * exists l. repeat split; auto; intros; apply H4 in H as [? (j & ? & ?)]; [done|]. exists j. split; [lia|done].
    + apply inb_false in E. destruct (IH (i + 1)%N n rem) as (l & H1 & H2 & H3 & H4).
      * intros j Hj Hu. apply Hrem; [lia|done].
      * lia.
      * rewrite H1. simpl. exists (get_symbol i :: l). split; [done|]. split; [simpl; lia|]. split.
        -- constructor; [|done]. intros Hin. apply H4 in Hin as [_ (j & Hj & Heq)]. apply get_symbol_inj in Heq. lia.
        -- intros c [->|Hc]%elem_of_cons; [split; [done|exists i; split; [lia|done]]|]. apply H4 in Hc as [? (j & ? & ?)].
           split; [done|]. exists j. split; [lia|done].
Qed.
Lemma gen_unused_ok used n :
  length (gen_unused_symbols used n) = n /\ NoDup (gen_unused_symbols used n) /\
  forall c, c ∈ gen_unused_symbols used n -> c ∉ used /\ plain c.
Proof.
  unfold gen_unused_symbols. destruct (gen_unused_loop_ok (length used + n) used 0 n used) as (l & -> & H2 & H3 & H4).
  - done.
  - lia.
  - simpl. repeat split; try done; apply H4 in H as [? (j & _ & ->)]; [done|apply get_symbol_plain..].
Qed.
