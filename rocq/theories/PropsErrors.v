(** Properties C06 and C45, continued: the errors raised; statements, each with a concrete instance. *)
From Verif Require Import Prelude Einsum Parser StringFacts ParserFacts Helpers Contract Spec PropsContract Api.

Lemma split1_count c s : length (split [c] s) = S (count c s).
Proof.
  remember (length s) as n eqn:Hn. revert s Hn. induction n as [n IH] using lt_wf_ind. intros s Hn. destruct (decide (c ∈ s)) as [Hc|Hc].
  - apply elem_of_list_split_l in Hc as (a & b & -> & Ha). rewrite split1_app by done. cbn [length]. rewrite app_length in Hn. cbn in Hn. rewrite (IH (length b)) by (lia || done).
    rewrite count_app, (proj2 (count_zero c a) Ha). cbn. by rewrite decide_True by done.
  - rewrite split1_no by done. by rewrite (proj2 (count_zero c s) Hc).
Qed.
Lemma ellipsis_terms_err inds shapes : forall subs num longest x, ellipsis_terms inds shapes num subs longest = Err x ->
  x = ValueError \/ (x = IndexError /\ length shapes < num + length subs).
Proof.
  induction subs as [|sub subs IH]; [done|]. intros num longest x. cbn [ellipsis_terms length]. unfold ellipsis_term.
  destruct (inb c_dot sub).
  - destruct (_ || _); [cbn; intros [= <-]; by left|]. destruct (shapes !! num) as [sh|] eqn:Hsh.
    2: { cbn. intros [= <-]. right. split; [done|]. apply lookup_ge_None in Hsh. lia. }
    cbn [of_opt mbind res_bind]. match goal with |- context [Z.ltb ?a 0] => destruct (Z.ltb a 0) end; [cbn; intros [= <-]; by left|].
    match goal with |- context [Z.eqb ?a 0] => destruct (Z.eqb a 0) end; cbn [mbind res_bind].
    all: match goal with |- context [ellipsis_terms ?i ?sh ?n ?sb ?l] => destruct (ellipsis_terms i sh n sb l) as [[ss l']|y] eqn:He end; cbn; [done|].
    all: intros [= <-]; destruct (IH _ _ _ He) as [->|[-> ?]]; [by left|right; split; [done|lia]].
  - cbn [mbind res_bind]. destruct (ellipsis_terms inds shapes (S num) subs longest) as [[ss l']|y] eqn:He; cbn; [done|].
    intros [= <-]. destruct (IH _ _ _ He) as [->|[-> ?]]; [by left|right; split; [done|lia]].
Qed.
Lemma split_arrow_err s x : split_arrow s = Err x -> x = ValueError.
Proof. unfold split_arrow. repeat case_match; congruence. Qed.
Lemma split_arrow_commas s a b : split_arrow s = Ok (a, b) -> count c_comma a <= count c_comma s.
Proof.
  unfold split_arrow. intros H. assert (Hs : split s_arrow s = [a; b]) by (repeat case_match; congruence).
  assert (Hj : join s_arrow (split s_arrow s) = s) by (apply join_split; done). rewrite Hs in Hj. assert (Hj2 : a ++ s_arrow ++ b = s) by done. rewrite <- Hj2, count_app. lia.
Qed.

(** ** C06 *)
(** The parser refuses with a ValueError, except that an ellipsis in a term without operand is an IndexError. *)
Theorem C06_error_kinds (s : str) (shapes : list (list nat)) (x : exn) : parse_einsum_input s shapes = Err x ->
  x = ValueError \/ (x = IndexError /\ c_dot ∈ filter (.≠ c_space) s /\ length shapes < S (count c_comma (filter (.≠ c_space) s))).
Proof.
  unfold parse_einsum_input, parse_subscripts. rewrite replace1. set (u := filter (.≠ c_space) s). destruct (bad_arrow u); [intros [= <-]; by left|].
  destruct (inb c_dot u) eqn:Hdot.
  - unfold parse_ellipsis. unfold max_rank. destruct shapes as [|sh shapes]; [cbn; intros [= <-]; by left|].
    cbn [mbind res_bind]. set (inds := gen_unused_symbols _ _). clearbody inds.
    set (pieces := if sub_in s_arrow u then _ else _). assert (Hp : match pieces with Ok (l, _) => length l <= S (count c_comma u) | Err y => y = ValueError end).
    { unfold pieces. destruct (sub_in s_arrow u); [|pose proof (split1_count c_comma u) as Hq; unfold s_comma; rewrite Hq; lia]. destruct (split_arrow u) as [[a b]|y] eqn:Hu; cbn [mbind res_bind].
      - pose proof (split1_count c_comma a) as Hq. unfold s_comma. rewrite Hq. apply split_arrow_commas in Hu. lia.
      - by apply split_arrow_err in Hu. }
    clearbody pieces. destruct pieces as [[l o]|y]; cbn [mbind res_bind]; [|intros [= <-]; by left].
    destruct (ellipsis_terms inds (sh :: shapes) 0 l 0) as [[terms longest]|y] eqn:He; cbn [mbind res_bind].
    2: { intros [= <-]. destruct (ellipsis_terms_err _ _ _ _ _ _ He) as [->|[-> ?]]; [by left|]. right. split; [done|]. split; [|lia].
         by apply inb_true in Hdot. }
    intros H. left. revert H. destruct o; cbn [mbind res_bind].
    all: match goal with |- context [sub_in s_arrow ?u2] => destruct (sub_in s_arrow u2); [destruct (split_arrow u2) as [[i2 o2]|y2] eqn:H2|] end; cbn [mbind res_bind].
    all: try (apply split_arrow_err in H2; congruence).
    all: repeat case_match; congruence.
  - cbn [mbind res_bind]. intros H. left. revert H.
    destruct (sub_in s_arrow u); [destruct (split_arrow u) as [[i2 o2]|y2] eqn:H2|]; cbn [mbind res_bind].
    all: try (apply split_arrow_err in H2; congruence).
    all: repeat case_match; congruence.
Qed.
Print Assumptions C06_error_kinds.
Example C06_errors_instance :
  parse_einsum_input (lit "ab,bc->ad") [[2; 2]; [2; 2]] = Err ValueError /\ parse_einsum_input (lit "a-b") [[2]] = Err ValueError /\
  parse_einsum_input (lit "a...,...") [[2; 2]] = Err IndexError /\ split_arrow (lit "a->b->c") = Err ValueError.
Proof. repeat split; by vm_compute. Qed.

(** ** C45 *)
(** Anything that is neither an array, nor of a base type, nor a sequence is refused; an empty sequence at the start of the nesting is the only other failure. *)
Inductive starts_empty : pyval -> Prop :=
| SE_nil : starts_empty (PSeq [])
| SE_cons x l : starts_empty x -> starts_empty (PSeq (x :: l)).
Theorem C45_errors (v : pyval) (x : exn) : get_shape v = Err x <-> (v = POther /\ x = ValueError) \/ (starts_empty v /\ x = IndexError).
Proof.
  assert (Hl : forall v x, shape_loop v = Err x <-> starts_empty v /\ x = IndexError).
  { clear. fix IH 1. intros [sh| |[|y l]|] x0; cbn [shape_loop].
    - split; [done|]. intros [H _]. inversion H.
    - split; [done|]. intros [H _]. inversion H.
    - split; [intros [= <-]; split; [constructor|done]|]. by intros [_ ->].
    - specialize (IH y). destruct (shape_loop y) as [r|e]; cbn.
      + split; [done|]. intros [H ->]. inversion H as [|? ? H']; subst. exfalso. destruct (IH IndexError) as [_ IH2]. by specialize (IH2 (conj H' eq_refl)).
      + split.
        * intros [= <-]. destruct (IH e) as [IH1 _]. destruct IH1 as [IH1 ->]; [done|]. split; [by constructor|done].
        * intros [H ->]. inversion H as [|? ? H']; subst. destruct (IH IndexError) as [_ IH2]. by rewrite (IH2 (conj H' eq_refl)).
    - split; [done|]. intros [H _]. inversion H. }
  destruct v as [sh| |l|]; cbn [get_shape].
  - split; [done|]. intros [[? _]|[H _]]; [done|inversion H].
  - split; [done|]. intros [[? _]|[H _]]; [done|inversion H].
  - change (get_shape (PSeq l)) with (shape_loop (PSeq l)). rewrite Hl. split; [by right|]. intros [[? _]|?]; done.
  - split; [intros [= <-]; by left|]. intros [[_ ->]|[H _]]; [done|inversion H].
Qed.
Print Assumptions C45_errors.
Example C45_errors_instance : get_shape POther = Err ValueError /\ get_shape (PSeq [PSeq []; PBase]) = Err IndexError /\ starts_empty (PSeq [PSeq []; PBase]) /\ get_shape (PSeq [POther]) = Ok [1].
Proof. repeat split; repeat constructor. Qed.
